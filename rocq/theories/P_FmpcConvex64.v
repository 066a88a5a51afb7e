(** C85: a successful FMPC run in doubles is nearly optimal for the convex problem over the reals that its callbacks approximate. *)
From Coq Require Import Reals Lra Psatz.
From Flocq Require Import Core BinarySingleNaN.
From Verif Require Import Prelude Scalar LinAlg RLin DDP Fmpc FmpcProofs FmpcStep FmpcSpec B64 FmpcF64 FmpcConvex FmpcConvex64 P_FmpcReal P_FmpcConvex P_FmpcF64 ExDDP ExFmpc.
Local Open Scope R_scope.

Section Run.
  Variables (ex lg : b64 -> b64) (sm : list b64 -> b64).
  Local Instance Nr : Num b64 := B64Num ex lg sm.
  (* the run *)
  Variables (LO : linops b64) (pb : fproblem b64) (D : derivs b64) (cf : fconfig b64) (jk : fjunk b64).
  Variables (fuel : nat) (t0 : b64) (x0 : vec b64) (v0 : var b64) (s s' : fsolver b64).
  (* the problem that is meant *)
  Variables (pr : fproblem R) (Dr : derivs R) (tr : R) (xr : vec R).
  Variables (c M m : R) (ng : nat).
  Notation N := (Nf cf).
  Notation dr := (pb_dt (fp_dp pr)).
  Notation v := (rvar (f_var s')).
  Notation E := (real_residual pb pr (val (fc_kkt cf) * (1 + bpow radix2 (-50))) c M ng).
  Hypothesis Hsm : some_order sm.
  Hypothesis CM : computes pb D.
  Hypothesis Hk : fin (fc_kkt cf) /\ bpow radix2 (-500) <= val (fc_kkt cf).
  Hypothesis H : fmpc_solve LO pb cf jk fuel t0 x0 v0 s = Ok Succeeded s'.
  Hypothesis Hdt : 0 <= dr.
  Hypothesis Hc : 0 <= c.
  Hypothesis HM : 0 <= M.
  Hypothesis F : follows ex lg sm pb D t0 x0 pr Dr tr xr (f_var s') N c.
  Hypothesis Z : sized ex lg sm pb D t0 (f_var s') N M ng.
  Hypothesis P : nonneg (f_var s').
  Hypothesis Hx : length xr = pb_nx (fp_dp pr).

  Lemma C85_point : whole pr tr N v /\ approx_kkt pr Dr tr xr v N E.
  Proof.
    destruct (success_sizes ex lg sm LO pb D cf jk fuel t0 x0 v0 s s' CM H) as (W1 & W2 & W3).
    pose proof (C72_success ex lg sm LO pb D cf jk fuel t0 x0 v0 s s' Hsm CM (proj1 Hk) (proj2 Hk) H) as K. split.
    - exact (transfer_whole ex lg sm pb D t0 x0 pr Dr tr xr (f_var s') N c F W1 W2 W3).
    - exact (transfer ex lg sm pb D t0 x0 pr Dr tr xr (f_var s') N _ c M ng Hdt Hc HM F Z P W1 K).
  Qed.
  (** The numbers in the returned doubles satisfy the KKT conditions of the real problem, and its constraints, up to the threshold, the
      errors of the callbacks and the rounding errors. *)
  Theorem C85_kkt : approx_kkt pr Dr tr xr v N E /\ nearly_feasible pr tr xr N E (plan_x v) (plan_u v).
  Proof. destruct C85_point as (W & K). split; [exact K|]. apply (C69_feasible pr Dr); assumption. Qed.
  (** If the real problem is convex, no plan that is feasible up to [d] is cheaper by more than the bound. *)
  Theorem C85_gap d y w : convex_at pr Dr tr N m (plan_x v) (plan_u v) -> plan_dims pr N (plan_u v) y w -> nearly_feasible pr tr xr N d y w ->
    plan_cost pr tr N (plan_x v) (plan_u v) + dr * (m / 2) * input_dist2 N (plan_u v) w <=
      plan_cost pr tr N y w + E * (plan_dist1 pr N (plan_x v) (plan_u v) y w + inequalities N v) + (E + d) * multiplier_size pr N v.
  Proof. intros C PD NF. destruct C85_point as (W & K). apply (gap pr Dr tr xr N v E d m y w); assumption. Qed.
  (** If its cost is strongly convex, the returned inputs are near those of every exact KKT point. *)
  Theorem C85_distance vo : convex_at pr Dr tr N m (plan_x v) (plan_u v) -> whole pr tr N vo -> approx_kkt pr Dr tr xr vo N 0 ->
    convex_at pr Dr tr N m (plan_x vo) (plan_u vo) -> plan_dims pr N (plan_u v) (plan_x vo) (plan_u vo) -> plan_dims pr N (plan_u vo) (plan_x v) (plan_u v) ->
    dr * m * input_dist2 N (plan_u v) (plan_u vo) <=
      E * (plan_dist1 pr N (plan_x v) (plan_u v) (plan_x vo) (plan_u vo) + inequalities N v + multiplier_size pr N v + multiplier_size pr N vo).
  Proof.
    intros C Wo Ko Co P1 P2. pose proof (C69_feasible pr Dr tr xr N vo 0 Hx Wo Ko) as Fo.
    pose proof (C85_gap 0 (plan_x vo) (plan_u vo) C P1 Fo) as G. destruct C85_kkt as (_ & Fv).
    pose proof (gap pr Dr tr xr N vo 0 E m (plan_x v) (plan_u v) Hdt Hx Wo Ko Co P2 Fv) as G2.
    assert (Q : input_dist2 N (plan_u vo) (plan_u v) = input_dist2 N (plan_u v) (plan_u vo)).
    { apply Rsum_ext. intros i Hi. destruct P2 as (_ & P2). rewrite (P2 i Hi). apply Rsum_ext. intros k _. ring. }
    rewrite Q in G2. lra.
  Qed.
End Run.
Print Assumptions C85_kkt.
Print Assumptions C85_gap.
Print Assumptions C85_distance.

(** ** A concrete case
    The run of C72_nonvacuous: x' = x + u, u <= 1, two steps of 0.1 from x = 5. The problem that is meant has the exact step 1/10 and
    exact sums; the callbacks follow it up to 2^-40. *)
Local Existing Instance N0.
Definition small (a : b64) : bool := is_finite a && nltb a (b64_ofZ 8) && nltb (b64_ofZ (-8)) a.
Definition one_small (w : vec b64) : bool := match w with [a] => small a | _ => false end.
Definition one_pos (w : vec b64) : bool := match w with [a] => nltb z0 a && small a | _ => false end.
Definition chk (v : var b64) : bool :=
  forallb one_small (v_x v) && forallb one_small (v_u v) && forallb one_small (v_l v) && forallb one_pos (v_s v) && forallb one_pos (v_n v).
Definition good (o : outcome (fsolver b64) fstatus) : bool := match o with Ok Succeeded s => chk (f_var s) | _ => false end.
Lemma good_inv o : good o = true -> exists s, o = Ok Succeeded s /\ chk (f_var s) = true.
Proof. destruct o as [r s| | |]; try discriminate. destruct r; try discriminate. eauto. Qed.
Lemma val8 : fin (b64_ofZ 8) /\ val (b64_ofZ 8) = 8.
Proof. assert (E : B2SF (b64_ofZ 8) = SpecFloat.S754_finite false 4503599627370496 (-49)) by (vm_compute; reflexivity). split; bval E; [reflexivity|lra]. Qed.
Lemma valm8 : fin (b64_ofZ (-8)) /\ val (b64_ofZ (-8)) = -8.
Proof. assert (E : B2SF (b64_ofZ (-8)) = SpecFloat.S754_finite true 4503599627370496 (-49)) by (vm_compute; reflexivity). split; bval E; [reflexivity|lra]. Qed.
Lemma small_inv a : small a = true -> fin a /\ Rabs (val a) <= 8.
Proof.
  unfold small. rewrite !andb_true_iff. intros ((Fa & A1) & A2). split; [exact Fa|]. destruct val8 as [F8 V8]. destruct valm8 as [G8 W8].
  cbn [nltb N0 B64Num] in A1, A2. rewrite ltb_fin in A1, A2 by assumption. rewrite V8 in A1. rewrite W8 in A2.
  revert A1 A2. case Rlt_bool_spec; [|discriminate]. intros A1 _. case Rlt_bool_spec; [|discriminate]. intros A2 _. apply Rabs_le. lra.
Qed.
Lemma one_small_inv w : one_small w = true -> exists a, w = [a] /\ fin a /\ Rabs (val a) <= 8.
Proof. destruct w as [|a [|? ?]]; try discriminate. intros S. exists a. split; [reflexivity|apply small_inv, S]. Qed.
Lemma one_pos_inv w : one_pos w = true -> exists a, w = [a] /\ fin a /\ 0 <= val a /\ Rabs (val a) <= 8.
Proof.
  destruct w as [|a [|? ?]]; try discriminate. unfold one_pos. rewrite andb_true_iff. intros (A & S). exists a. apply small_inv in S as (Fa & S).
  split; [reflexivity|]. split; [exact Fa|]. split; [|exact S]. cbn [nltb N0 B64Num] in A. rewrite ltb_fin in A by (reflexivity || assumption).
  revert A. case Rlt_bool_spec; [|discriminate]. cbn. lra.
Qed.
Lemma dt_near : Rabs (1 / 10 - val (pb_dt (fp_dp (@ex_fp b64 N0)))) <= bpow radix2 (-40).
Proof.
  assert (E : B2SF (pb_dt (fp_dp (@ex_fp b64 N0))) = SpecFloat.S754_finite false 7205759403792794 (-56)) by (vm_compute; reflexivity).
  bval E. apply Rabs_le. lra.
Qed.
Lemma val_none : val (@none b64 N0) = 1 /\ fin (@none b64 N0).
Proof. assert (E : B2SF (@none b64 N0) = SpecFloat.S754_finite false 4503599627370496 (-52)) by (vm_compute; reflexivity). split; bval E; [lra|reflexivity]. Qed.
Lemma lit1 : fin (@nofZ b64 N0 1) /\ val (@nofZ b64 N0 1) = 1.
Proof. assert (E : B2SF (@nofZ b64 N0 1) = SpecFloat.S754_finite false 4503599627370496 (-52)) by (vm_compute; reflexivity). split; bval E; [reflexivity|lra]. Qed.
Lemma val5 : val (b64_ofZ 5) = 5.
Proof. assert (E : B2SF (b64_ofZ 5) = SpecFloat.S754_finite false 5629499534213120 (-50)) by (vm_compute; reflexivity). bval E. lra. Qed.
Lemma fl16 r : Rabs r <= 16 -> Rabs (r - fl r) <= bpow radix2 (-40).
Proof.
  intros Hr. pose proof (fl_err r) as B. rewrite Rabs_minus_sym. eapply Rle_trans; [exact B|].
  assert (u53 = bpow radix2 (-53)) by reflexivity. assert (bpow radix2 (-1075) <= bpow radix2 (-53)) by (apply bpow_le; lia).
  assert (bpow radix2 (-40) = 8192 * bpow radix2 (-53)) by (change 8192 with (bpow radix2 13); rewrite <- bpow_plus; reflexivity).
  pose proof (bpow_gt_0 radix2 (-53)). nra.
Qed.

Section Case.
  Variable v : var b64.
  Hypothesis Hv : chk v = true.
  Lemma chk_x i x : nth_error (v_x v) i = Some x -> exists a, x = [a] /\ fin a /\ Rabs (val a) <= 8.
  Proof. unfold chk in Hv. rewrite !andb_true_iff, !forallb_forall in Hv. destruct Hv as ((((X & U) & L) & S) & N1). intros E. apply one_small_inv, X, (nth_error_In _ _ E). Qed.
  Lemma chk_u i x : nth_error (v_u v) i = Some x -> exists a, x = [a] /\ fin a /\ Rabs (val a) <= 8.
  Proof. unfold chk in Hv. rewrite !andb_true_iff, !forallb_forall in Hv. destruct Hv as ((((X & U) & L) & S) & N1). intros E. apply one_small_inv, U, (nth_error_In _ _ E). Qed.
  Lemma chk_l i x : nth_error (v_l v) i = Some x -> exists a, x = [a] /\ fin a /\ Rabs (val a) <= 8.
  Proof. unfold chk in Hv. rewrite !andb_true_iff, !forallb_forall in Hv. destruct Hv as ((((X & U) & L) & S) & N1). intros E. apply one_small_inv, L, (nth_error_In _ _ E). Qed.
  Lemma chk_s i x : nth_error (v_s v) i = Some x -> exists a, x = [a] /\ fin a /\ 0 <= val a /\ Rabs (val a) <= 8.
  Proof. unfold chk in Hv. rewrite !andb_true_iff, !forallb_forall in Hv. destruct Hv as ((((X & U) & L) & S) & N1). intros E. apply one_pos_inv, S, (nth_error_In _ _ E). Qed.
  Lemma chk_n i x : nth_error (v_n v) i = Some x -> exists a, x = [a] /\ fin a /\ 0 <= val a /\ Rabs (val a) <= 8.
  Proof. unfold chk in Hv. rewrite !andb_true_iff, !forallb_forall in Hv. destruct Hv as ((((X & U) & L) & S) & N1). intros E. apply one_pos_inv, N1, (nth_error_In _ _ E). Qed.
  Lemma case_nonneg : nonneg v.
  Proof.
    intros w a [Hw|Hw] Ha; apply In_nth_error in Hw as (i & Hw); [apply chk_s in Hw as (b & -> & _ & B & _)|apply chk_n in Hw as (b & -> & _ & B & _)];
      destruct Ha as [<-|[]]; exact B.
  Qed.
  Lemma refl0 a : Rabs (a - a) <= bpow radix2 (-40).
  Proof. rewrite Rminus_diag_eq, Rabs_R0 by reflexivity. apply bpow_ge_0. Qed.
  Lemma case_follows : follows no_fun no_fun seq_sum ex_fp kx_D z0 [b64_ofZ 5] ex_fp exr_D 0 [5] v 2 (bpow radix2 (-40)).
  Proof.
    constructor.
    - reflexivity.
    - exact dt_near.
    - split; [reflexivity|]. intros [|j] Hj; [|cbn in Hj; lia]. change (Rabs (5 - val (b64_ofZ 5)) <= bpow radix2 (-40)). rewrite val5. apply refl0.
    - intros i x u Hi Ex Eu. apply chk_x in Ex as (a & -> & Fa & Ba). apply chk_u in Eu as (b & -> & Fb & Bb). cbn zeta.
      apply FmpcConvex.Rabs_le_inv in Ba, Bb. assert (B16 : 16 <= bpow radix2 1023) by (change 16 with (bpow radix2 4); apply bpow_le; lia).
      destruct val_none as [V1 F1].
      assert (Nm : forall r n p q, val q = p -> mnear no_fun no_fun seq_sum (bpow radix2 (-40)) r n (m11 p) (m11 q)).
      { intros r n p q Q [|[|k]] [|[|j]] _ _; cbn; rewrite ?Q; apply refl0. }
      split; [|split; [|split; [|split; [|split; [|split; [|split; [|split]]]]]]].
      + intros [|j] Hj; [|cbn in Hj; lia]. cbn. destruct (add_ok a b Fa Fb) as (_ & ->); [apply Rabs_le; lra|]. apply fl16, Rabs_le. lra.
      + reflexivity.
      + intros [|j] Hj; [|cbn in Hj; lia]. destruct lit1 as [G1 W1].
        change (Rabs ((val b - @nofZ R RNum 1) - val (Bminus mode_NE b (@nofZ b64 N0 1))) <= bpow radix2 (-40)).
        replace (@nofZ R RNum 1) with 1 by (cbn; lra).
        destruct (sub_ok b (@nofZ b64 N0 1) Fb G1) as (_ & ->); rewrite W1; [apply Rabs_le; lra|]. apply fl16, Rabs_le. lra.
      + intros [|j] Hj; [|cbn in Hj; lia]. cbn. apply refl0.
      + intros [|j] Hj; [|cbn in Hj; lia]. cbn. apply refl0.
      + apply Nm, V1.
      + apply Nm, V1.
      + apply Nm. reflexivity.
      + apply Nm, V1.
    - intros x Ex. apply chk_x in Ex as (a & -> & _). intros [|j] Hj; [|cbn in Hj; lia]. cbn. apply refl0.
  Qed.
  Lemma case_sized : sized no_fun no_fun seq_sum ex_fp kx_D z0 v 2 8 1.
  Proof.
    intros i x u l s n x' l' Hi (S1 & S2 & S3 & S4 & S5 & S6 & S7). cbn zeta.
    apply chk_x in S1 as (a1 & -> & _ & B1). apply chk_u in S2 as (a2 & -> & _ & B2). apply chk_l in S3 as (a3 & -> & _ & B3).
    apply chk_s in S4 as (a4 & -> & _ & _ & B4). apply chk_n in S5 as (a5 & -> & _ & _ & B5). apply chk_l in S7 as (a7 & -> & _ & B7). clear S6.
    destruct val_none as [V1 _].
    assert (Nm : forall r n q, val q = 1 \/ val q = 0 -> mbelow no_fun no_fun seq_sum 8 r n (m11 q)).
    { intros r n0 q Q [|[|k]] [|[|j]] _ _; cbn; rewrite ?Rabs_R0; try lra. destruct Q as [->| ->]; [rewrite Rabs_R1|rewrite Rabs_R0]; lra. }
    assert (Nv : forall k a, Rabs (val a) <= 8 -> below no_fun no_fun seq_sum 8 k [a]).
    { intros k a Ba [|[|j]] _; cbn; rewrite ?Rabs_R0; [exact Ba|lra|lra]. }
    split; [cbn; lia|]. do 5 (split; [apply Nv; assumption|]). split; [apply Nm; auto|]. split; [apply Nm; auto|]. split; apply Nm; auto.
  Qed.
End Case.

Example C85_nonvacuous : let vo := ex_opt 5 in exists s', kx_run = Ok Succeeded s' /\ let v := rvar (f_var s') in
  follows no_fun no_fun seq_sum ex_fp kx_D z0 [b64_ofZ 5] ex_fp exr_D 0 [5] (f_var s') 2 (bpow radix2 (-40)) /\
  sized no_fun no_fun seq_sum ex_fp kx_D z0 (f_var s') 2 8 1 /\ nonneg (f_var s') /\
  convex_at ex_fp exr_D 0 2 1 (plan_x v) (plan_u v) /\
  (* the conclusions: the default threshold is 1e-4 *)
  nearly_feasible ex_fp 0 [5] 2 (100001 / 1000000000) (plan_x v) (plan_u v) /\
  1 / 10 * 1 * input_dist2 2 (plan_u v) (plan_u vo) <= 100001 / 1000000000 *
    (plan_dist1 ex_fp 2 (plan_x v) (plan_u v) (plan_x vo) (plan_u vo) + inequalities 2 v + multiplier_size ex_fp 2 v + multiplier_size ex_fp 2 vo).
Proof.
  intros vo. assert (G : good kx_run = true) by (vm_compute; reflexivity). apply good_inv in G as (s' & H & Hv). exists s'. split; [exact H|]. cbn zeta.
  pose proof (case_follows _ Hv) as F. pose proof (case_sized _ Hv) as Z. pose proof (case_nonneg _ Hv) as P.
  assert (CM : computes ex_fp kx_D) by (constructor; intros; reflexivity).
  destruct (success_sizes no_fun no_fun seq_sum div_lin ex_fp kx_D kx_cf (ex_fjunk z0) 100 z0 [b64_ofZ 5] (ex_fvar 2 z0 z0 z0 none none) ex_fs0 s' CM H) as (W1 & (xN & lN & EN & _) & _).
  change (Nf kx_cf) with 2%nat in W1, EN.
  assert (Lu : forall i, (i < 2)%nat -> length (plan_u (rvar (f_var s')) i) = 1%nat).
  { intros i Hi. destruct (W1 i Hi) as (x & u & l & s1 & n & x' & l' & St & _). destruct (chk_u _ Hv _ _ (proj1 (proj2 St))) as (a & -> & _).
    apply stage_rvar in St. rewrite (pu _ _ _ (proj1 (proj2 St))). reflexivity. }
  assert (Lx : forall i, (i <= 2)%nat -> length (plan_x (rvar (f_var s')) i) = 1%nat).
  { intros i Hi. destruct (Nat.eq_dec i 2) as [->|Hn].
    - destruct (chk_x _ Hv _ _ EN) as (a & -> & _). rewrite (px _ 2 [val a]); [reflexivity|]. cbn [rvar v_x]. apply (rnth_in _ _ _ EN).
    - destruct (W1 i ltac:(lia)) as (x & u & l & s1 & n & x' & l' & St & _). destruct (chk_x _ Hv _ _ (proj1 St)) as (a & -> & _).
      apply stage_rvar in St. rewrite (px _ _ _ (proj1 St)). reflexivity. }
  assert (Lo : forall i, (i < 2)%nat -> length (plan_u vo i) = 1%nat) by (intros [|[|i]] Hi; [reflexivity|reflexivity|lia]).
  assert (Lxo : forall i, (i <= 2)%nat -> length (plan_x vo i) = 1%nat) by (intros [|[|[|i]]] Hi; [reflexivity|reflexivity|reflexivity|lia]).
  pose proof (ex_convex (rvar (f_var s')) 0 Lu) as C1. pose proof (ex_convex vo 0 Lo) as C2.
  assert (P1 : plan_dims ex_fp 2 (plan_u (rvar (f_var s'))) (plan_x vo) (plan_u vo)) by (split; [exact Lxo|intros i Hi; rewrite (Lu i Hi), (Lo i Hi); reflexivity]).
  assert (P2 : plan_dims ex_fp 2 (plan_u vo) (plan_x (rvar (f_var s'))) (plan_u (rvar (f_var s')))) by (split; [exact Lx|intros i Hi; rewrite (Lu i Hi), (Lo i Hi); reflexivity]).
  destruct (ex_opt_kkt 5) as (Wo & Ko); [lra|]. fold vo in Wo, Ko.
  (* the residual *)
  assert (RE : real_residual (@ex_fp b64 N0) ex_fp (val (fc_kkt kx_cf) * (1 + bpow radix2 (-50))) (bpow radix2 (-40)) 8 1 <= 100001 / 1000000000).
  { assert (E : sf (fc_kkt kx_cf) = SpecFloat.S754_finite false 7378697629483821 (-66)) by (vm_compute; reflexivity).
    assert (V : val (fc_kkt kx_cf) <= 1000001 / 10000000000). { unfold sf in E. bval E. lra. }
    assert (V0 : 0 <= val (fc_kkt kx_cf)). { unfold sf in E. bval E. lra. }
    pose proof (C72_factor 6 ltac:(lia)) as (G0 & G1). replace (INR 6) with 6 in G1 by (cbn; lra).
    assert (T1 : tiny <= 1) by (unfold tiny; change 1 with (bpow radix2 0); apply bpow_le; lia). assert (T0 : 0 <= tiny) by apply bpow_ge_0.
    assert (B50 : bpow radix2 (-50) <= / 1000000000) by (cbn; lra). assert (B53 : bpow radix2 (-53) <= / 1000000000000000) by (cbn; lra).
    assert (B40 : bpow radix2 (-40) <= / 1000000000000) by (cbn; lra). pose proof (bpow_ge_0 radix2 (-40)). pose proof (bpow_ge_0 radix2 (-50)).
    unfold real_residual. change (pb_nx (fp_dp (@ex_fp b64 N0)) + 1)%nat with 2%nat. change (2 + 4)%nat with 6%nat. change (pb_dt (fp_dp (@ex_fp R RNum))) with (1 / 10).
    change (2 + 1)%nat with 3%nat. replace (INR 2) with 2 by (cbn; lra). replace (INR 3) with 3 by (cbn; lra).
    set (g := gam 6) in *. set (t := tiny) in *. set (c := bpow radix2 (-40)) in *. set (b := bpow radix2 (-53)) in *.
    assert (g <= / 80000000000000) by lra.
    clear - V V0 G0 T1 T0 B50 B40 H0 H1 H2.
    assert (g * ((1 + 1 / 10 + c) * 8 + 2 * (8 * 8) + 3 * t) <= / 80000000000000 * 150) by (apply Rmult_le_compat; nra).
    assert (val (fc_kkt kx_cf) * (1 + bpow radix2 (-50)) <= 1000001 / 10000000000 * (1 + / 1000000000)) by (apply Rmult_le_compat; lra).
    lra. }
  assert (D0 : 0 <= pb_dt (fp_dp (@ex_fp R RNum))) by (cbn; lra). assert (M0 : 0 <= 8) by lra.
  do 4 (split; [assumption|]). split.
  - destruct (C85_kkt no_fun no_fun seq_sum div_lin ex_fp kx_D kx_cf (ex_fjunk z0) 100 z0 [b64_ofZ 5] (ex_fvar 2 z0 z0 z0 none none) ex_fs0 s'
      ex_fp exr_D 0 [5] (bpow radix2 (-40)) 8 1 seq_sum_order CM thr_val H D0 (bpow_ge_0 _ _) M0 F Z P eq_refl) as (_ & NF).
    destruct NF as [N1 N2 N3]. constructor.
    + intros j Hj. eapply Rle_trans; [apply N1, Hj|exact RE].
    + intros i j Hi Hj. eapply Rle_trans; [apply N2; assumption|exact RE].
    + intros i j Hi Hj. eapply Rle_trans; [apply N3; assumption|exact RE].
  - eapply Rle_trans.
    + exact (C85_distance no_fun no_fun seq_sum div_lin ex_fp kx_D kx_cf (ex_fjunk z0) 100 z0 [b64_ofZ 5] (ex_fvar 2 z0 z0 z0 none none) ex_fs0 s'
        ex_fp exr_D 0 [5] (bpow radix2 (-40)) 8 1 1 seq_sum_order CM thr_val H D0 (bpow_ge_0 _ _) M0 F Z P eq_refl vo C1 Wo Ko C2 P1 P2).
    + apply Rmult_le_compat_r; [|exact RE].
      assert (A : forall n f, (forall k : nat, 0 <= f k) -> 0 <= Rsum n f).
      { intros n f Hf. induction n as [|n IH]; [cbn; lra|]. rewrite Rsum_S. pose proof (Hf n). lra. }
      unfold plan_dist1, inequalities, multiplier_size, dist1, norm1.
      repeat match goal with |- 0 <= _ + _ => apply Rplus_le_le_0_compat end; apply A; intros k; try apply pos_INR; apply A; intros j; apply Rabs_pos.
Qed.
