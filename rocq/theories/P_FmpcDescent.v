(** Property C71: the line search of FMPC (FmpcSolver.hpp:753-793, 836-933) and the Newton step (exact arithmetic). *)
From Coq Require Import Reals Lra Psatz.
From Verif Require Import Prelude Scalar LinAlg RLin DDP Fmpc FmpcProofs FmpcStep FmpcSpec FmpcReal FmpcMerit FmpcNewton FmpcConvex FmpcDescent.
From Verif Require Import P_FmpcRun P_FmpcReal P_FmpcMerit P_FmpcNewton.
Local Open Scope R_scope.

Section Descent.
  Variables (LO : linops R) (pb : fproblem R) (cf : fconfig R) (D : derivs R) (fuel : nat) (it : Z) (s s' : fsolver R).
  Notation N := (Nf cf).
  (** The merit function of this iteration, the 1-norm of the equality residuals, and the second-order terms of the step. *)
  Notation merit := (phi pb (f_t s) (f_x s) (f_eps s') (f_mscale s') N).
  Notation viol := (merit_viol pb (f_t s) (f_x s) N (f_var s)).
  Notation curv := (curvature pb D (f_t s) N (f_var s) (f_delta s')).
  Hypothesis RUN : proc_once LO pb cf fuel it s = Ok IterationContinued s'.
  Hypothesis LS : fc_ls cf = true.
  Hypothesis CM : computes pb D.
  Hypothesis Ps : all_pos (v_s (f_var s)).

  (** C71. Along a step that solves the linearised KKT conditions the merit function has a right derivative. It is at most the
      stored one, and at most (m - scale) * viol - curvature for every bound [m] on the multipliers of the step. With the default scale
      it is at most - scale * viol / 2 when a constraint is violated, and at most - curvature when none is. *)
  Theorem C71_slope (w : R -> var R) : newton_step pb D (f_t s) (f_x s) (f_eps s') N (f_var s) (f_delta s') ->
    smooth_along pb (f_t s) N (f_var s) (f_delta s') (f_coeff s') ->
    (exists h, 0 < h /\ forall a, 0 < a < h -> primal_at N a (f_var s) (f_delta s') (w a)) ->
    exists slope, right_deriv (fun a => merit (w a)) (merit (f_var s)) slope /\
      slope <= f_mderiv s' /\
      (no_zero_residual pb (f_t s) (f_x s) N (f_var s) -> f_mderiv s' = slope) /\
      (forall m, multipliers_below pb N m (f_var s) (f_delta s') -> slope <= (m - f_mscale s') * viol - curv) /\
      (fc_lagr cf = false -> 0 < viol -> slope <= - (1 / 2 * f_mscale s' * viol)) /\
      (viol = 0 -> slope <= - curv).
  Proof.
    intros NW SM Hw. destruct (proc_merit LO pb cf D _ _ _ _ RUN CM LS) as (cN & st & EN & FT & Hm & E1 & E2 & E3 & E4 & E5 & E6 & _ & Q). cbn zeta in Q.
    destruct Q as (Ed & Hsc & Hdef & _).
    pose proof (C36_upper_bound pb cf st _ w Hm) as B. rewrite E1, E2, E3, E4, E5, E6 in B. specialize (B Ps SM Hw). cbn zeta in B.
    cbn [set_fmerit f_mscale f_mderiv f_mfunc] in B. destruct B as (_ & _ & sl & Rd & Le & Eq).
    assert (Es : sl = dobj pb cf (f_eps s') (f_var s) (f_delta s') (f_coeff s') cN - f_mscale s' * viol).
    { unfold setup_merit in Hm. rewrite E1, E2, E3, E4, E5, E6 in Hm.
      destruct (merit_parts _ _ _ _ _ _) as [[o c]|]; [|discriminate].
      destruct (deriv_parts _ _ _ _ _ _ _ _) as [[d1 d2]|] eqn:Edp; [|discriminate]. clear Hm.
      destruct (deriv_parts_R _ _ _ _ _ _ _ _ cN _ _ EN Edp) as (_ & _ & L1 & L2 & Hst).
      apply (rd_unique _ _ _ _ Rd).
      eapply rd_eq; [apply (phi_deriv pb cf _ _ _ _ _ _ cN Hst (conj L1 L2) EN Ps SM w Hw)|reflexivity|].
      rewrite (viol_slope pb cf D (f_t s) (f_eps s') (f_x s) (f_var s) (f_delta s') (f_coeff s') cN NW FT). lra. }
    assert (Hb : forall m, multipliers_below pb N m (f_var s) (f_delta s') -> sl <= (m - f_mscale s') * viol - curv).
    { intros m Hmb. rewrite Es. rewrite (cost_slope pb cf D (f_t s) (f_eps s') (f_x s) (f_var s) (f_delta s') (f_coeff s') cN NW FT Ps).
      pose proof (pull_le pb cf D (f_t s) (f_x s) (f_var s) (f_delta s') (f_coeff s') cN FT m Hmb). lra. }
    exists sl. split; [exact Rd|]. split; [exact Le|]. split; [exact Eq|]. split; [exact Hb|]. split.
    - intros LG VP. specialize (Hdef LG VP). lra.
    - intros V0. destruct (multipliers_bounded pb N (f_var s) (f_delta s')) as (m & Hmb). specialize (Hb m Hmb). rewrite V0 in Hb. lra.
  Qed.

  (** A negative slope makes every short enough step pass the acceptance test. *)
  Theorem C71_accept (w : R -> var R) slope : right_deriv (fun a => merit (w a)) (merit (f_var s)) slope -> slope < 0 -> slope <= f_mderiv s' ->
    exists h, 0 < h /\ forall a, 0 < a < h -> merit (w a) < merit (f_var s) + 1 / 1000 * a * f_mderiv s' /\ merit (w a) < merit (f_var s).
  Proof using.
    intros Rd Neg Le. destruct (Rd (- slope / 2) ltac:(lra)) as (h & Hh & HR). exists h. split; [exact Hh|]. intros a Ha. specialize (HR a Ha).
    unfold Rabs in HR; destruct (Rcase_abs _) in HR; split; nra.
  Qed.

  (** One iteration with the default scale: the step is cut below 1e-10, or the merit function falls by a_s * scale * viol / 2000. *)
  Theorem C71_decrease : newton_step pb D (f_t s) (f_x s) (f_eps s') N (f_var s) (f_delta s') -> all_ge 0 (v_n (f_var s)) ->
    fc_lagr cf = false -> no_zero_residual pb (f_t s) (f_x s) N (f_var s) -> 0 < viol ->
    exists a_s, 0 < a_s <= 1 /\
      moved (N + 1) a_s (v_x (f_var s)) (v_x (f_delta s')) (v_x (f_var s')) /\ moved N a_s (v_u (f_var s)) (v_u (f_delta s')) (v_u (f_var s')) /\
      moved N a_s (v_s (f_var s)) (v_s (f_delta s')) (v_s (f_var s')) /\
      (a_s < / 10000000000 \/ merit (f_var s') < merit (f_var s) - a_s / 2000 * f_mscale s' * viol).
  Proof.
    intros NW Pn LG NZ VP. destruct (proc_merit LO pb cf D _ _ _ _ RUN CM LS) as (cN & st & EN & FT & Hm & E1 & E2 & E3 & E4 & E5 & E6 & Hu & Q). cbn zeta in Q.
    destruct Q as (Ed & Hsc & Hdef & _). specialize (Hdef LG VP).
    rewrite <- (dconst_eq pb cf _ _ _ _ _ _ NZ) in Ed. rewrite (viol_slope pb cf D (f_t s) (f_eps s') (f_x s) (f_var s) (f_delta s') (f_coeff s') cN NW FT) in Ed.
    assert (Pv : nonneg_var (f_var st)) by (rewrite E4; split; [intros x a Hx Ha; left; exact (Ps x a Hx Ha)|exact Pn]).
    destruct (C31_step pb cf fuel st s' Hu Pv) as (a_max & a_s & a_n & A1 & A2 & A3 & _ & _ & _ & _ & _ & M1 & M2 & M3 & _ & _ & _ & L).
    specialize (L LS). cbn zeta in L. destruct L as (k & _ & _ & L). rewrite E1, E2, E3, E4, E5 in L. rewrite E4, E5 in M1, M2, M3.
    exists a_s. split; [lra|]. do 3 (split; [assumption|]). destruct L as [L|(w & (W1 & W2 & W3 & W4 & W5) & L)]; [left; exact L|right].
    assert (Ew : merit w = merit (f_var s')).
    { unfold phi, merit_cost, merit_viol. rewrite (moved_same _ _ _ _ _ _ W1 M1), (moved_same _ _ _ _ _ _ W2 M2), (moved_same _ _ _ _ _ _ W3 M3). reflexivity. }
    rewrite <- Ew. eapply Rlt_le_trans; [exact L|]. nra.
  Qed.

  (** On problems with a convex cost the step exists, the slope is never positive with the default scale, and zero only at a feasible point
      with zero curvature. *)
  Theorem C71_convex (w : R -> var R) : sym_hessians pb D -> convex_cost pb D (f_t s) N (f_var s) -> all_ge 0 (v_n (f_var s)) ->
    (forall i u, nth_error (v_u (f_var s)) i = Some u -> exact_at LO (length u)) ->
    smooth_along pb (f_t s) N (f_var s) (f_delta s') (f_coeff s') ->
    (exists h, 0 < h /\ forall a, 0 < a < h -> primal_at N a (f_var s) (f_delta s') (w a)) ->
    0 <= curv /\
    exists slope, right_deriv (fun a => merit (w a)) (merit (f_var s)) slope /\ slope <= f_mderiv s' /\
      (fc_lagr cf = false -> slope <= 0 /\ (slope = 0 -> viol = 0 /\ curv = 0)) /\
      (forall m, multipliers_below pb N m (f_var s) (f_delta s') -> m <= f_mscale s' -> slope <= - curv).
  Proof.
    intros SY CV Pn HX SM Hw. pose proof (C29_convex LO pb cf D fuel it s s' RUN CM SY CV Ps Pn HX) as NW.
    assert (HC : 0 <= curv).
    { destruct CV as (Hdt & C1 & C2). unfold curvature. apply Rplus_le_le_0_compat.
      - apply Rsum_nonneg. intros i Hi. cbn zeta.
        destruct (nw_stage _ _ _ _ _ _ _ _ NW i Hi) as (x & u & l & sl & n & x' & l' & _ & _ & _ & _ & _ & _ & _ & (S1 & S2 & _) & _).
        apply Rplus_le_le_0_compat.
        + apply Rmult_le_pos; [lra|]. unfold plan_x, plan_u. rewrite (nth_of _ _ _ _ S1), (nth_of _ _ _ _ S2). exact (proj2 (C1 i x u Hi S1 S2) (vget (nth i (v_x (f_delta s')) [])) (vget (nth i (v_u (f_delta s')) []))).
        + apply Rsum_nonneg. intros j Hj. pose proof (slack_pos (f_var s) Ps i j Hj) as Hs.
          apply Rmult_le_pos; [|nra]. apply Rmult_le_pos; [|left; apply Rinv_0_lt_compat; exact Hs].
          unfold plan_n. destruct (nth_in_or_default i (v_n (f_var s)) []) as [Hin|Hin].
          * unfold vget. destruct (nth_in_or_default j (nth i (v_n (f_var s)) []) 0) as [H2|H2]; [exact (Pn _ _ Hin H2)|].
            change (0 <= nth j (nth i (v_n (f_var s)) []) 0). rewrite H2. lra.
          * rewrite Hin. unfold vget. destruct j; cbn; lra.
      - destruct (nw_end _ _ _ _ _ _ _ _ NW) as (x & l & _ & _ & S1 & _). unfold plan_x.
        rewrite (nth_of _ _ _ _ S1). exact (C2 x S1 (vget (nth N (v_x (f_delta s')) []))). }
    split; [exact HC|]. destruct (C71_slope w NW SM Hw) as (sl & Rd & Le & _ & Hb & Hd & H0). exists sl. split; [exact Rd|]. split; [exact Le|].
    assert (VN : 0 <= viol) by apply viol_nonneg.
    destruct (proc_merit LO pb cf D _ _ _ _ RUN CM LS) as (_ & _ & _ & _ & _ & _ & _ & _ & _ & _ & _ & _ & (_ & Hsc & _)). split.
    - intros LG. destruct (Req_dec viol 0) as [V|V].
      + specialize (H0 V). split; [lra|]. intros Z. split; [exact V|lra].
      + specialize (Hd LG ltac:(lra)). assert (0 < f_mscale s' * viol) by (apply Rmult_lt_0_compat; lra). split; [lra|]. intros Z. lra.
    - intros m Hm Hle. specialize (Hb m Hm). nra.
  Qed.
End Descent.
Print Assumptions C71_slope.
Print Assumptions C71_accept.
Print Assumptions C71_decrease.
Print Assumptions C71_convex.

(** ** Examples: one step of x' = x + u with cost (x^2 + u^2)/2 + x_1^2/2 *)
From Verif Require Import FmpcSafe ExDDP ExFmpc P_FmpcAffine.
(** The iteration continues when the initial state is missed by more than the threshold. *)
Lemma dd_continues (pb : fproblem R) (cf : fconfig R) (D : derivs R) s x : well_dimensioned_f pb -> computes pb D -> state_ok pb cf (f_t s) s ->
  (fc_ls cf = true -> fc_lagr cf = true -> (0 < pb_nx (fp_dp pb) /\ forall i, i < Nf cf -> 0 < ng_of pb (ft pb (f_t s) i))%nat) ->
  fc_update_eps cf = false -> fc_break cf = false -> pos_var (f_var s) -> nth_error (v_x (f_var s)) 0 = Some x -> (0 < length (f_x s))%nat ->
  fc_kkt cf < Rabs (vget (f_x s) 0 - vget x 0) ->
  exists s', proc_once normal_lin pb cf 35 1 s = Ok IterationContinued s'.
Proof.
  intros WD CM So LG NE NB Pv E0 L0 Far.
  pose proof (proc_safe normal_lin pb cf (f_t s) WD normal_dims LG) as S.
  specialize (S ltac:(rewrite NE; discriminate) 35%nat 1%Z s So).
  pose proof (proc_fuel normal_lin pb cf 35 1 s (fun st => update_fuel pb cf 35 st ltac:(lia))) as F.
  destruct (proc_once normal_lin pb cf 35 1 s) as [r s'| | |] eqn:E; try contradiction.
  destruct (proc_status normal_lin pb cf 35 1 s r s' ltac:(left; exact NB) Pv E) as [->| ->]; [exfalso|eauto].
  destruct (proc_succ_state _ _ _ _ _ _ _ E) as (Ev & Et & Ex).
  apply proc_once_succ in E as (cl & e & Hc & Hk & He).
  pose proof (kkt_bound pb cf D s' cl e CM) as B. rewrite Ev, Ex in B. rewrite Ev in Hc. destruct B as [B _ _].
  - exact Hc.
  - exact Hk.
  - intros w a Hw Ha. left. apply (proj1 Pv w a Hw Ha).
  - intros w a Hw Ha. left. apply (proj2 Pv w a Hw Ha).
  - destruct (B x E0) as (_ & B0). specialize (B0 0%nat L0). apply Rleb_true in He. lra.
Qed.
Definition dd_cf (lagr : bool) : fconfig R := {|
  fc_print := 1; fc_hor := 1; fc_max_iter := 10; fc_kkt := 1 / 10000; fc_check_nan := true; fc_init := false;
  fc_update_eps := false; fc_break := false; fc_ls := true; fc_lagr := lagr |}.
Definition dd_var (x0 x1 u : R) (s n : vec R) : var R := {| v_hor := 1; v_x := [[x0]; [x1]]; v_u := [[u]]; v_l := [[0]; [0]]; v_s := [s]; v_n := [n] |}.
(** With u <= 1: x = (1, 0), u = 0, s = 2, nu = 1/1000, from x0 = 2. No residual is zero. *)
Definition dd_st : fsolver R := exr_state ex_fp 2 (dd_var 1 0 0 [2] [1 / 1000]) (dd_var 0 0 0 [0] [0]).
Lemma dd_ok lagr : state_ok ex_fp (dd_cf lagr) 0 dd_st.
Proof.
  constructor; try reflexivity.
  - constructor; [repeat split; reflexivity| | | | |]; cbn; intros [|[|[|i]]] w E; try discriminate; injection E as <-; reflexivity.
  - repeat split; reflexivity.
  - split; [reflexivity|]. split.
    + intros [|i] c Hi E; [|cbn in Hi; lia]. injection E as <-. repeat split; reflexivity.
    + intros c E. injection E as <-. split; [reflexivity|]. split; [reflexivity|]. intros nu ng E1 E2. injection E1 as <-. injection E2 as <-. repeat split; reflexivity.
Qed.
Lemma dd_pos : pos_var (f_var dd_st).
Proof. split; intros w a Hw Ha; cbn in Hw; destruct Hw as [<-|[]]; cbn in Ha; destruct Ha as [<-|[]]; lra. Qed.
Lemma dd_run lagr : exists s', proc_once normal_lin ex_fp (dd_cf lagr) 35 1 dd_st = Ok IterationContinued s'.
Proof.
  apply (dd_continues ex_fp (dd_cf lagr) exr_D dd_st [1]).
  - apply ex_well.
  - constructor; intros; reflexivity.
  - apply dd_ok.
  - intros _ _. cbn. split; [lia|intros; lia].
  - reflexivity.
  - reflexivity.
  - apply dd_pos.
  - reflexivity.
  - cbn; lia.
  - cbn. rewrite Rabs_right; lra.
Qed.
Lemma dd_sym : sym_hessians ex_fp exr_D.
Proof. split; [intros t x u; split|intros t x]; intros [|i] [|j] _ _; try reflexivity; cbn; try (destruct i; reflexivity); try (destruct j; reflexivity); destruct i, j; reflexivity. Qed.
Lemma dd_convex : convex_cost ex_fp exr_D 0 1 (f_var dd_st).
Proof.
  split; [cbn; lra|]. split.
  - intros i x u Hi Hx Hu. replace i with 0%nat in * by lia. injection Hx as <-. injection Hu as <-. split.
    + intros y (j & Hj & Hy). cbn in Hj. replace j with 0%nat in * by lia. unfold fdot, fmv. cbn. nra.
    + intros y w. cbn. nra.
  - intros x Hx. injection Hx as <-. intros y. unfold fdot, fmv. cbn. nra.
Qed.
Lemma dd_nonneg : all_ge 0 (v_n (f_var dd_st)).
Proof. intros w a Hw Ha. left. exact (proj2 dd_pos w a Hw Ha). Qed.
Lemma dd_newton lagr s' : proc_once normal_lin ex_fp (dd_cf lagr) 35 1 dd_st = Ok IterationContinued s' ->
  newton_step ex_fp exr_D 0 [2] (f_eps s') 1 (f_var dd_st) (f_delta s').
Proof.
  intros H. apply (C29_convex normal_lin ex_fp (dd_cf lagr) exr_D _ _ _ _ H).
  - constructor; intros; reflexivity.
  - exact dd_sym.
  - exact dd_convex.
  - exact (proj1 dd_pos).
  - exact dd_nonneg.
  - intros i u _. apply normal_exact.
Qed.
Lemma dd_eps lagr s' : proc_once normal_lin ex_fp (dd_cf lagr) 35 1 dd_st = Ok IterationContinued s' -> f_eps s' = 1 / 10000.
Proof.
  intros H. apply proc_cont in H as (eps & cl & e & cl' & d & He & _ & _ & _ & _ & _ & _ & -> & _). unfold new_eps in He. cbn in He. exact He.
Qed.
Lemma len1 (v : vec R) : length v = 1%nat -> v = [vget v 0].
Proof. destruct v as [|a [|]]; try discriminate. reflexivity. Qed.
Definition dd_dx : R := 4009 / 22010.
Definition dd_du : R := - (40011 / 22010).
Definition dd_ds : R := 18001 / 22010.
Lemma dd_delta lagr s' : proc_once normal_lin ex_fp (dd_cf lagr) 35 1 dd_st = Ok IterationContinued s' ->
  nth_error (v_x (f_delta s')) 0 = Some [1] /\ nth_error (v_x (f_delta s')) 1 = Some [dd_dx] /\
  nth_error (v_u (f_delta s')) 0 = Some [dd_du] /\ nth_error (v_s (f_delta s')) 0 = Some [dd_ds].
Proof.
  intros H. pose proof (dd_newton _ _ H) as NW. rewrite (dd_eps _ _ H) in NW.
  destruct (proc_fits _ _ _ exr_D _ _ _ _ H ltac:(constructor; intros; reflexivity)) as (cN & _ & [_ FS FE]).
  specialize (FS 0%nat ltac:(cbn; lia)). cbn zeta in FS. destruct FS as (L1 & L2 & _). destruct FE as (L3 & _).
  destruct (nw_stage _ _ _ _ _ _ _ _ NW 0%nat ltac:(lia)) as (x & u & l & sl & n & x' & l' & dx & du & dl & ds & dn & dx' & dl' & S & Sd & K1 & K2 & K3 & K). cbn zeta in K.
  destruct (nw_end _ _ _ _ _ _ _ _ NW) as (xN & lN & dxN & dlN & N1 & N2 & N3 & N4 & KN). cbn zeta in KN.
  destruct S as (S1 & S2 & S3 & S4 & S5 & S6 & S7). destruct Sd as (T1 & T2 & T3 & T4 & T5 & T6 & T7). cbn [Nat.add] in *.
  injection S1 as <-. injection S2 as <-. injection S3 as <-. injection S4 as <-. injection S5 as <-. injection S6 as <-. injection S7 as <-. injection N1 as <-. injection N2 as <-.
  rewrite T6 in N3. injection N3 as <-. rewrite T7 in N4. injection N4 as <-.
  pose proof (nw_init _ _ _ _ _ _ _ _ NW [1] dx eq_refl T1 0%nat ltac:(cbn; lia)) as I.
  unfold plan_x in L1, L3. unfold plan_u in L2. change (Nf (dd_cf lagr)) with 1%nat in L3.
  rewrite (nth_of _ _ _ _ T1) in L1. rewrite (nth_of _ _ _ _ T6) in L3. rewrite (nth_of _ _ _ _ T2) in L2.
  change (length dx = 1%nat) in L1. change (length dx' = 1%nat) in L3. change (length du = 1%nat) in L2. change (length ds = 1%nat) in K2. change (length dn = 1%nat) in K3.
  destruct K as (Q1 & Q2 & Q3 & Q4 & Q5). specialize (Q1 0%nat ltac:(cbn; lia)). specialize (Q2 0%nat ltac:(cbn; lia)). specialize (Q3 0%nat ltac:(cbn; lia)).
  specialize (Q5 0%nat ltac:(cbn; lia)). specialize (KN 0%nat ltac:(cbn; lia)). cbn in I, Q1, Q2, Q3, Q5, KN.
  rewrite T1, T2, T4, T6, (len1 _ L1), (len1 _ L2), (len1 _ L3), (len1 _ K2).
  unfold vget in *. cbn in *. unfold dd_dx, dd_du, dd_ds.
  assert (E0 : nth 0 dx 0 = 1) by lra. rewrite E0 in *.
  assert (E1 : nth 0 du 0 = - (40011 / 22010)) by lra.
  assert (E2 : nth 0 dx' 0 = 4009 / 22010) by lra. assert (E3 : nth 0 ds 0 = 18001 / 22010) by lra. rewrite E1, E2, E3. auto.
Qed.
(** The path of the line search. *)
Definition dd_path (a : R) : var R := dd_var (1 + a * 1) (0 + a * dd_dx) (0 + a * dd_du) [2 + a * dd_ds] [1 / 1000].
Lemma moved1 a (p dp : R) d : nth_error d 0 = Some [dp] -> moved 1 a [[p]] d [[p + a * dp]].
Proof.
  intros E. split; [reflexivity|]. split.
  - intros i Hi. replace i with 0%nat by lia. exists [p], [dp], [p + a * dp]. repeat (split; [reflexivity || exact E|]).
    intros j Hj. cbn in Hj. replace j with 0%nat by lia. reflexivity.
  - intros [|i] Hi; [lia|]. destruct i; reflexivity.
Qed.
Lemma moved2 a (p q dp dq : R) d : nth_error d 0 = Some [dp] -> nth_error d 1 = Some [dq] -> moved 2 a [[p]; [q]] d [[p + a * dp]; [q + a * dq]].
Proof.
  intros E0 E1. split; [reflexivity|]. split.
  - intros i Hi. destruct i as [|[|i]]; [| |lia]; [exists [p], [dp], [p + a * dp]|exists [q], [dq], [q + a * dq]];
      repeat (split; [reflexivity || assumption|]); intros j Hj; cbn in Hj; replace j with 0%nat by lia; reflexivity.
  - intros [|[|[|i]]] Hi; try lia; reflexivity.
Qed.
Lemma dd_primal lagr s' a : proc_once normal_lin ex_fp (dd_cf lagr) 35 1 dd_st = Ok IterationContinued s' ->
  primal_at 1 a (f_var dd_st) (f_delta s') (dd_path a).
Proof.
  intros H. destruct (dd_delta _ _ H) as (E0 & E1 & E2 & E3).
  split; [apply moved2; assumption|]. split; [apply moved1; assumption|]. split; [apply moved1; assumption|]. split; reflexivity.
Qed.
Lemma dd_smooth lagr s' : proc_once normal_lin ex_fp (dd_cf lagr) 35 1 dd_st = Ok IterationContinued s' ->
  smooth_along ex_fp 0 1 (f_var dd_st) (f_delta s') (f_coeff s').
Proof.
  intros H. destruct (dd_delta _ _ H) as (E0 & E1 & E2 & E3).
  destruct (proc_fits _ _ _ exr_D _ _ _ _ H ltac:(constructor; intros; reflexivity)) as (cN & EN & [_ FS FE]). constructor.
  - intros i c Hi Hc. assert (i = 0)%nat by lia. subst i. specialize (FS 0%nat ltac:(cbn; lia)). cbn zeta in FS.
    rewrite (nth_of _ _ _ _ Hc) in FS. destruct FS as (_ & _ & _ & _ & EA & EB & EC & ED & EX & EU). cbn zeta.
    rewrite (nth_of _ _ _ _ E0), (nth_of _ _ _ _ E2), EA, EB, EC, ED, EX, EU. cbn [plan_x plan_u dd_st exr_state f_var dd_var v_x v_u nth].
    split; [reflexivity|]. split; [reflexivity|]. split; [|split].
    + intros j Hj. cbn in Hj. assert (j = 0)%nat by lia. subst j. apply (rd_ext (fun a => 1 + a * (1 + dd_du) + a * a * 0)).
      * exists 1. split; [lra|]. intros a _. cbn. unfold vget, go; cbn. lra.
      * eapply rd_eq; [apply rd_quad| |]; cbn; unfold vget; cbn; lra.
    + intros j Hj. cbn in Hj. assert (j = 0)%nat by lia. subst j. apply (rd_ext (fun a => - (1) + a * dd_du + a * a * 0)).
      * exists 1. split; [lra|]. intros a _. cbn. unfold vget, go; cbn. lra.
      * eapply rd_eq; [apply rd_quad| |]; cbn; unfold vget; cbn; lra.
    + apply (rd_ext (fun a => 1 / 2 + a * 1 + a * a * (1 / 2 * (1 + dd_du * dd_du)))).
      * exists 1. split; [lra|]. intros a _. cbn. unfold vget, go, nhalf; cbn. lra.
      * eapply rd_eq; [apply rd_quad| |]; cbn; unfold vget, nhalf; cbn; lra.
  - intros c Hc. cbn zeta. change (Nf (dd_cf lagr)) with 1%nat in *. rewrite EN in Hc. injection Hc as <-. destruct FE as (_ & EX).
    rewrite (nth_of _ _ _ _ E1), EX. cbn [plan_x dd_st exr_state f_var dd_var v_x nth].
    apply (rd_ext (fun a => 0 + a * 0 + a * a * (1 / 2 * (dd_dx * dd_dx)))).
    * exists 1. split; [lra|]. intros a _. cbn. unfold vget, go, nhalf; cbn. lra.
    * eapply rd_eq; [apply rd_quad| |]; cbn; unfold vget, nhalf; cbn; lra.
Qed.
Lemma dd_nonzero : no_zero_residual ex_fp 0 [2] 1 (f_var dd_st).
Proof.
  split.
  - intros j Hj. cbn in Hj. replace j with 0%nat by lia. cbn. lra.
  - intros i Hi. replace i with 0%nat by lia. cbn zeta. split; intros j Hj; cbn in Hj; replace j with 0%nat by lia; cbn; unfold vget; cbn; lra.
Qed.
Lemma dd_viol : merit_viol ex_fp 0 [2] 1 (f_var dd_st) = 3.
Proof. unfold merit_viol. cbn. unfold vget; cbn. rewrite !Rabs_right by lra. lra. Qed.
Example C71_nonvacuous : exists s', proc_once normal_lin ex_fp (dd_cf false) 35 1 dd_st = Ok IterationContinued s' /\
  computes ex_fp exr_D /\ all_pos (v_s (f_var dd_st)) /\ all_ge 0 (v_n (f_var dd_st)) /\ sym_hessians ex_fp exr_D /\ convex_cost ex_fp exr_D 0 1 (f_var dd_st) /\
  (forall n, exact_at normal_lin n) /\ newton_step ex_fp exr_D 0 [2] (f_eps s') 1 (f_var dd_st) (f_delta s') /\
  smooth_along ex_fp 0 1 (f_var dd_st) (f_delta s') (f_coeff s') /\ (forall a, primal_at 1 a (f_var dd_st) (f_delta s') (dd_path a)) /\
  no_zero_residual ex_fp 0 [2] 1 (f_var dd_st) /\ merit_viol ex_fp 0 [2] 1 (f_var dd_st) = 3.
Proof.
  destruct (dd_run false) as (s' & H). exists s'. split; [exact H|]. split; [constructor; intros; reflexivity|]. split; [exact (proj1 dd_pos)|].
  split; [exact dd_nonneg|]. split; [exact dd_sym|]. split; [exact dd_convex|]. split; [exact normal_exact|]. split; [exact (dd_newton _ _ H)|].
  split; [exact (dd_smooth _ _ H)|]. split; [intros a; exact (dd_primal _ _ a H)|]. split; [exact dd_nonzero|exact dd_viol].
Qed.

(** ** The scale from the multipliers *)
Lemma dd_phi sc p q c z n : phi ex_fp 0 [2] (1 / 10000) sc 1 (dd_var p q c [z] n)
  = (1 / 2 * (p * p) + 1 / 2 * (c * c)) / 10 - 1 / 10000 * ln z + 1 / 2 * (q * q) + sc * (Rabs (2 - p) + (Rabs (p + c - q) + Rabs (c - 1 + z))).
Proof. unfold phi, merit_cost, merit_viol. cbn. unfold vget, nhalf; cbn. replace (1 / 1) with 1 by lra. lra. Qed.
(** With merit_const_scale_from_lagrange_multipliers the scale is the largest multiplier before the step (FmpcSolver.hpp:904-917), here 1/1000:
    the merit function rises along the step, the search refuses all lengths down to 1e-10, and the plan stays where it is. *)
Theorem C71_lagr_refuted : exists s', proc_once normal_lin ex_fp (dd_cf true) 35 1 dd_st = Ok IterationContinued s' /\
  newton_step ex_fp exr_D 0 [2] (f_eps s') 1 (f_var dd_st) (f_delta s') /\ f_mscale s' = 1 / 1000 /\
  (let merit := phi ex_fp 0 [2] (f_eps s') (f_mscale s') 1 in exists slope, 9 / 100 < slope /\
     right_deriv (fun a => merit (dd_path a)) (merit (f_var dd_st)) slope /\ f_mderiv s' = slope /\
     forall a, 0 < a <= 1 -> merit (f_var dd_st) + 9 / 100 * a < merit (dd_path a)) /\
  exists a_s, 0 < a_s < / 10000000000 /\ v_x (f_var s') = v_x (dd_path a_s) /\ v_u (f_var s') = v_u (dd_path a_s).
Proof.
  destruct (dd_run true) as (s' & H). exists s'. split; [exact H|]. split; [exact (dd_newton _ _ H)|].
  assert (CM : computes ex_fp exr_D) by (constructor; intros; reflexivity).
  destruct (proc_merit _ _ _ exr_D _ _ _ _ H CM eq_refl) as (cN & st & EN & FT & Hm & E1 & E2 & E3 & E4 & E5 & E6 & Hu & Q). cbn zeta in Q.
  destruct Q as (_ & _ & _ & _ & Q). specialize (Q eq_refl).
  assert (Esc : f_mscale s' = 1 / 1000).
  { apply some_inj. rewrite <- Q. change (Nf (dd_cf true)) with 1%nat. cbn. unfold nabs; cbn. rewrite !nmax_R. rewrite Rabs_R0, (Rabs_right (1 / 1000)) by lra.
    unfold Rmax. repeat (destruct (Rle_dec _ _); try lra); reflexivity. }
  split; [exact Esc|]. pose proof (dd_eps _ _ H) as Ee. cbn zeta. rewrite Esc, Ee.
  set (sl := 1 / 10 - 1 / 10000 * (dd_ds / 2) - 3 / 1000).
  assert (P0 : phi ex_fp 0 [2] (1 / 10000) (1 / 1000) 1 (f_var dd_st) = 1 / 20 - 1 / 10000 * ln 2 + 3 / 1000).
  { change (f_var dd_st) with (dd_var 1 0 0 [2] [1 / 1000]). rewrite dd_phi. rewrite !Rabs_right by lra. lra. }
  set (q := 1 / 20 * (1 + dd_du * dd_du) + 1 / 2 * (dd_dx * dd_dx)).
  assert (Pa : forall a, 0 < a <= 1 -> phi ex_fp 0 [2] (1 / 10000) (1 / 1000) 1 (dd_path a)
     = (1 / 20 + 3 / 1000 + a * (1 / 10 - 3 / 1000) + a * a * q) + - (1 / 10000) * ln (2 + a * dd_ds)).
  { intros a Ha. unfold dd_path. rewrite dd_phi. unfold q, dd_dx, dd_du, dd_ds. rewrite !Rabs_right by lra. lra. }
  assert (Rd : right_deriv (fun a => phi ex_fp 0 [2] (1 / 10000) (1 / 1000) 1 (dd_path a)) (phi ex_fp 0 [2] (1 / 10000) (1 / 1000) 1 (f_var dd_st)) sl).
  { apply (rd_ext (fun a => (1 / 20 + 3 / 1000 + a * (1 / 10 - 3 / 1000) + a * a * q) + - (1 / 10000) * ln (2 + a * dd_ds))).
    - exists 1. split; [lra|]. intros a Ha. rewrite Pa by lra. reflexivity.
    - eapply rd_eq; [apply rd_plus; [apply rd_quad|apply rd_scale; apply rd_ln; lra]| |]; [rewrite P0; lra|unfold sl; lra]. }
  assert (Up : forall a, 0 < a <= 1 -> phi ex_fp 0 [2] (1 / 10000) (1 / 1000) 1 (f_var dd_st) + 9 / 100 * a < phi ex_fp 0 [2] (1 / 10000) (1 / 1000) 1 (dd_path a)).
  { intros a Ha. rewrite P0, Pa by exact Ha.
    assert (Ln : ln (2 + a * dd_ds) <= ln 2 + a * dd_ds / 2).
    { replace (2 + a * dd_ds) with (2 * (1 + a * dd_ds / 2)) by lra. assert (0 < a * dd_ds) by (apply Rmult_lt_0_compat; [lra|unfold dd_ds; lra]).
      rewrite ln_mult by lra. apply Rplus_le_compat_l. rewrite <- (ln_exp (a * dd_ds / 2)) at 2. left. apply ln_increasing; [lra|]. apply exp_ineq1; lra. }
    assert (0 <= a * a * q) by (unfold q; apply Rmult_le_pos; nra). unfold dd_ds in *. lra. }
  split.
  - exists sl. split; [unfold sl, dd_ds; lra|]. split; [exact Rd|]. split; [|exact Up].
    destruct (C71_slope normal_lin ex_fp (dd_cf true) exr_D 35 1 dd_st s' H eq_refl CM (proj1 dd_pos) dd_path (dd_newton _ _ H) (dd_smooth _ _ H)) as (sl' & Rd' & _ & Eq & _).
    { exists 1. split; [lra|]. intros a _. exact (dd_primal _ _ a H). }
    rewrite Ee, Esc in Rd'. rewrite (Eq dd_nonzero). exact (rd_unique _ _ _ _ Rd' Rd).
  - assert (Pv : nonneg_var (f_var st)) by (rewrite E4; split; [intros x a Hx Ha; left; exact (proj1 dd_pos x a Hx Ha)|exact dd_nonneg]).
    destruct (C31_step ex_fp (dd_cf true) 35 st s' Hu Pv) as (a_max & a_s & a_n & A1 & A2 & A3 & _ & _ & _ & _ & _ & M1 & M2 & M3 & _ & _ & _ & L).
    specialize (L eq_refl). cbn zeta in L. destruct L as (k & _ & _ & L). rewrite E1, E2, E3, E4, E5 in L. rewrite E4, E5 in M1, M2, M3.
    destruct (dd_primal true s' a_s H) as (D1 & D2 & D3 & _). change (Nf (dd_cf true)) with 1%nat in *.
    exists a_s. split; [|split; [exact (moved_same _ _ _ _ _ _ M1 D1)|exact (moved_same _ _ _ _ _ _ M2 D2)]].
    destruct L as [L|(w & (W1 & W2 & W3 & W4 & W5) & L)]; [lra|exfalso].
    assert (Ew : phi ex_fp 0 [2] (1 / 10000) (1 / 1000) 1 w = phi ex_fp 0 [2] (1 / 10000) (1 / 1000) 1 (dd_path a_s)).
    { unfold phi, merit_cost, merit_viol. rewrite (moved_same _ _ _ _ _ _ W1 D1), (moved_same _ _ _ _ _ _ W2 D2), (moved_same _ _ _ _ _ _ W3 D3). reflexivity. }
    change (f_t dd_st) with 0 in L. change (f_x dd_st) with [2] in L. rewrite Ee, Esc, Ew in L. specialize (Up a_s ltac:(lra)).
    destruct (C71_slope normal_lin ex_fp (dd_cf true) exr_D 35 1 dd_st s' H eq_refl CM (proj1 dd_pos) dd_path (dd_newton _ _ H) (dd_smooth _ _ H)) as (sl' & Rd' & _ & Eq & _).
    { exists 1. split; [lra|]. intros a _. exact (dd_primal _ _ a H). }
    rewrite Ee, Esc in Rd'. rewrite (Eq dd_nonzero), (rd_unique _ _ _ _ Rd' Rd) in L.
    assert (1 / 1000 * a_s * sl <= 9 / 100 * a_s) by (unfold sl, dd_ds; lra). lra.
Qed.
Print Assumptions C71_lagr_refuted.

(** ** A zero residual *)
(** The problem without inequality constraint, from the optimal plan of the state 1: x = (1, 1/11), u = -10/11. The plan obeys the dynamics;
    the measured state is 3.004. *)
Definition zr_coeff : coeff R := {|
  c_A := m11 0; c_B := m11 0; c_C := mzero 0 1; c_D := mzero 0 1; c_Lx := [0]; c_Lu := [0]; c_Lxx := m11 0; c_Luu := m11 0; c_Lxu := m11 0;
  c_xbar := [0]; c_gbar := []; c_Lxbar := [0]; c_Lubar := [0]; c_k := [0]; c_K := m11 0; c_s := [0]; c_P := m11 0 |}.
Definition zr_st : fsolver R := {|
  f_t := 0; f_x := [751 / 250]; f_var := dd_var 1 (1 / 11) (- (10 / 11)) [] []; f_delta := dd_var 0 0 0 [] []; f_coeff := [zr_coeff; zr_coeff];
  f_trace := []; f_eps := 1 / 10000; f_mscale := 0; f_mfunc := 0; f_mderiv := 0 |}.
Lemma zr_run : exists s', proc_once normal_lin ex_fp_free (dd_cf false) 35 1 zr_st = Ok IterationContinued s'.
Proof.
  apply (dd_continues ex_fp_free (dd_cf false) free_D zr_st [1]).
  - apply free_well.
  - apply free_lq.
  - constructor; try reflexivity.
    + constructor; [repeat split; reflexivity| | | | |]; cbn; intros [|[|[|i]]] w E; try discriminate; injection E as <-; reflexivity.
    + repeat split; reflexivity.
    + split; [reflexivity|]. split.
      * intros [|i] c Hi E; [|cbn in Hi; lia]. injection E as <-. repeat split; reflexivity.
      * intros c E. injection E as <-. split; [reflexivity|]. split; [reflexivity|]. intros nu ng E1 E2. injection E1 as <-. injection E2 as <-. repeat split; reflexivity.
  - discriminate.
  - reflexivity.
  - reflexivity.
  - split; intros w a Hw Ha; cbn in Hw; destruct Hw as [<-|[]]; destruct Ha.
  - reflexivity.
  - cbn; lia.
  - cbn. rewrite Rabs_right; lra.
Qed.
Lemma zr_convex : convex_cost ex_fp_free free_D 0 1 (f_var zr_st).
Proof.
  split; [cbn; lra|]. split.
  - intros i x u Hi Hx Hu. replace i with 0%nat in * by lia. injection Hx as <-. injection Hu as <-. split.
    + intros y (j & Hj & Hy). cbn in Hj. replace j with 0%nat in * by lia. unfold fdot, fmv. cbn. nra.
    + intros y w. cbn. nra.
  - intros x Hx. injection Hx as <-. intros y. unfold fdot, fmv. cbn. nra.
Qed.
Lemma zr_newton s' : proc_once normal_lin ex_fp_free (dd_cf false) 35 1 zr_st = Ok IterationContinued s' ->
  newton_step ex_fp_free free_D 0 [751 / 250] (f_eps s') 1 (f_var zr_st) (f_delta s').
Proof.
  intros H. apply (C29_convex normal_lin ex_fp_free (dd_cf false) free_D _ _ _ _ H).
  - apply free_lq.
  - apply free_lq.
  - exact zr_convex.
  - intros w a Hw Ha; cbn in Hw; destruct Hw as [<-|[]]; destruct Ha.
  - intros w a Hw Ha; cbn in Hw; destruct Hw as [<-|[]]; destruct Ha.
  - intros i u _. apply normal_exact.
Qed.
Lemma zr_delta s' : proc_once normal_lin ex_fp_free (dd_cf false) 35 1 zr_st = Ok IterationContinued s' ->
  nth_error (v_x (f_delta s')) 0 = Some [501 / 250] /\ nth_error (v_x (f_delta s')) 1 = Some [501 / 2750] /\
  nth_error (v_u (f_delta s')) 0 = Some [- (501 / 275)] /\ nth_error (v_s (f_delta s')) 0 = Some [].
Proof.
  intros H. pose proof (zr_newton _ H) as NW.
  destruct (proc_fits _ _ _ free_D _ _ _ _ H ltac:(apply free_lq)) as (cN & _ & [_ FS FE]).
  specialize (FS 0%nat ltac:(cbn; lia)). cbn zeta in FS. destruct FS as (L1 & L2 & _). destruct FE as (L3 & _).
  destruct (nw_stage _ _ _ _ _ _ _ _ NW 0%nat ltac:(lia)) as (x & u & l & sl & n & x' & l' & dx & du & dl & ds & dn & dx' & dl' & S & Sd & K1 & K2 & K3 & K). cbn zeta in K.
  destruct (nw_end _ _ _ _ _ _ _ _ NW) as (xN & lN & dxN & dlN & N1 & N2 & N3 & N4 & KN). cbn zeta in KN.
  destruct S as (S1 & S2 & S3 & S4 & S5 & S6 & S7). destruct Sd as (T1 & T2 & T3 & T4 & T5 & T6 & T7). cbn [Nat.add] in *.
  injection S1 as <-. injection S2 as <-. injection S3 as <-. injection S4 as <-. injection S5 as <-. injection S6 as <-. injection S7 as <-. injection N1 as <-. injection N2 as <-.
  rewrite T6 in N3. injection N3 as <-. rewrite T7 in N4. injection N4 as <-.
  pose proof (nw_init _ _ _ _ _ _ _ _ NW [1] dx eq_refl T1 0%nat ltac:(cbn; lia)) as I.
  unfold plan_x in L1, L3. unfold plan_u in L2. change (Nf (dd_cf false)) with 1%nat in L3.
  rewrite (nth_of _ _ _ _ T1) in L1. rewrite (nth_of _ _ _ _ T6) in L3. rewrite (nth_of _ _ _ _ T2) in L2.
  change (length dx = 1%nat) in L1. change (length dx' = 1%nat) in L3. change (length du = 1%nat) in L2. change (length ds = 0%nat) in K2.
  destruct K as (Q1 & _ & _ & Q4 & Q5). specialize (Q1 0%nat ltac:(cbn; lia)).
  specialize (Q5 0%nat ltac:(cbn; lia)). specialize (KN 0%nat ltac:(cbn; lia)). cbn in I, Q1, Q5, KN.
  rewrite T1, T2, T4, T6, (len1 _ L1), (len1 _ L2), (len1 _ L3). destruct ds as [|? ?]; [|discriminate].
  unfold vget in *. cbn in *.
  assert (E0 : nth 0 dx 0 = 501 / 250) by lra. rewrite E0 in *.
  assert (E1 : nth 0 du 0 = - (501 / 275)) by lra.
  assert (E2 : nth 0 dx' 0 = 501 / 2750) by lra. rewrite E1, E2. auto.
Qed.
Lemma zr_phi eps sc p q c : phi ex_fp_free 0 [751 / 250] eps sc 1 (dd_var p q c [] [])
  = (1 / 2 * (p * p) + 1 / 2 * (c * c)) / 10 + 1 / 2 * (q * q) + sc * (Rabs (751 / 250 - p) + Rabs (p + c - q)).
Proof. unfold phi, merit_cost, merit_viol. cbn. unfold vget, nhalf; cbn. lra. Qed.
(** With the default scale and warm-started dynamics the stored derivative is +3 times the derivative of the cost (C36_refuted), so the acceptance test
    allows an increase: here the full step is taken although the merit function rises. *)
Theorem C71_zero_refuted : exists s', proc_once normal_lin ex_fp_free (dd_cf false) 35 1 zr_st = Ok IterationContinued s' /\
  newton_step ex_fp_free free_D 0 [751 / 250] (f_eps s') 1 (f_var zr_st) (f_delta s') /\
  0 < f_mderiv s' /\ v_x (f_var s') = [[751 / 250]; [751 / 2750]] /\ v_u (f_var s') = [[- (751 / 275)]] /\
  let merit := phi ex_fp_free 0 [751 / 250] (f_eps s') (f_mscale s') 1 in merit (f_var zr_st) + 7 / 10000 < merit (f_var s').
Proof.
  destruct zr_run as (s' & H). exists s'. split; [exact H|]. split; [exact (zr_newton _ H)|].
  assert (CM : computes ex_fp_free free_D) by apply free_lq. destruct (zr_delta _ H) as (X0 & X1 & X2 & X3).
  destruct (proc_merit _ _ _ free_D _ _ _ _ H CM eq_refl) as (cN & st & EN & FT & Hm & E1 & E2 & E3 & E4 & E5 & E6 & Hu & Q). cbn zeta in Q.
  destruct Q as (Qd & _ & _ & Q & _). specialize (Q eq_refl).
  pose proof (ft_stage _ _ _ _ _ _ _ _ _ FT 0%nat ltac:(cbn; lia)) as (_ & _ & _ & _ & EA & EB & EC & ED & EX & EU).
  pose proof (ft_end _ _ _ _ _ _ _ _ _ FT) as (_ & EXN).
  assert (Vi : merit_viol ex_fp_free (f_t zr_st) (f_x zr_st) (Nf (dd_cf false)) (f_var zr_st) = 501 / 250).
  { change (Nf (dd_cf false)) with 1%nat. unfold merit_viol. cbn. unfold vget; cbn. replace (1 + - (10 / 11) - 1 / 11) with 0 by lra. rewrite Rabs_R0, Rabs_right by lra. lra. }
  change (Nf (dd_cf false)) with 1%nat in *.
  assert (Dob : dobj ex_fp_free (dd_cf false) (f_eps s') (f_var zr_st) (f_delta s') (f_coeff s') cN = 21 / 110 * (501 / 250)).
  { unfold dobj, vvsum. change (Nf (dd_cf false)) with 1%nat. cbn [Rsum]. cbn zeta. rewrite (nth_of _ _ _ _ X0), (nth_of _ _ _ _ X1), (nth_of _ _ _ _ X2), (nth_of _ _ _ _ X3), EX, EU, EXN.
    cbn. unfold vget; cbn. lra. }
  assert (Dc : dconst ex_fp_free (dd_cf false) (f_t zr_st) (f_x zr_st) (f_var zr_st) (f_delta s') (f_coeff s') cN = 501 / 250).
  { unfold dconst, mvsum. change (Nf (dd_cf false)) with 1%nat. cbn [Rsum]. cbn zeta. rewrite (nth_of _ _ _ _ X0), (nth_of _ _ _ _ X1), (nth_of _ _ _ _ X2), EA, EB.
    cbn. unfold vget, mget; cbn. unfold absd. repeat (destruct (Rlt_dec _ _); try lra). all: unfold Rabs; repeat (destruct (Rcase_abs _); try lra). }
  rewrite Dob, Vi in Q. assert (Esc : f_mscale s' = 21 / 55) by (rewrite Q; rewrite Rmax_left; lra).
  rewrite Dob, Dc, Esc in Qd. assert (Emd : f_mderiv s' = 63 / 110 * (501 / 250)) by lra. split; [lra|].
  assert (Pv : nonneg_var (f_var st)) by (rewrite E4; split; intros w a Hw Ha; cbn in Hw; destruct Hw as [<-|[]]; destruct Ha).
  destruct (C31_step ex_fp_free (dd_cf false) 35 st s' Hu Pv) as (a_max & a_s & a_n & A1 & A2 & A3 & _ & Bd & _ & _ & _ & M1 & M2 & M3 & _ & _ & _ & L).
  specialize (L eq_refl). cbn zeta in L. destruct L as (k & Hk & Hfail & L). rewrite E1, E2, E3, E4, E5 in Hfail. rewrite E4, E5 in M1, M2, M3, Bd.
  assert (Am : a_max = 1).
  { destruct Bd as [Bd|(i & v & dv & j & Hi & E & _ & Hj & _)]; [exact Bd|exfalso]. change (Nf (dd_cf false)) with 1%nat in Hi. assert (i = 0)%nat by lia. subst i.
    injection E as <-. cbn in Hj. lia. }
  subst a_max. change (Nf (dd_cf false)) with 1%nat in *.
  assert (Pr : forall a w, primal_at 1 a (f_var zr_st) (f_delta s') w ->
    v_x w = [[1 + a * (501 / 250)]; [1 / 11 + a * (501 / 2750)]] /\ v_u w = [[- (10 / 11) + a * - (501 / 275)]] /\ v_s w = [[]]).
  { intros a w (W1 & W2 & W3 & _). split; [exact (moved_same _ _ _ _ _ _ W1 (moved2 a _ _ _ _ _ X0 X1))|]. split; [exact (moved_same _ _ _ _ _ _ W2 (moved1 a _ _ _ X2))|].
    apply (moved_same _ _ _ _ _ _ W3). split; [reflexivity|]. split; [|intros [|i] Hi; [lia|destruct i; reflexivity]].
    intros i Hi. replace i with 0%nat by lia. exists [], [], []. repeat (split; [reflexivity || exact X3|]). intros j Hj. cbn in Hj. lia. }
  assert (Ph : forall a w, v_x w = [[1 + a * (501 / 250)]; [1 / 11 + a * (501 / 2750)]] -> v_u w = [[- (10 / 11) + a * - (501 / 275)]] -> v_s w = [[]] ->
    forall eps sc, phi ex_fp_free 0 [751 / 250] eps sc 1 w = phi ex_fp_free 0 [751 / 250] eps sc 1 (dd_var (1 + a * (501 / 250)) (1 / 11 + a * (501 / 2750)) (- (10 / 11) + a * - (501 / 275)) [] [])).
  { intros a w W1 W2 W3 eps sc. unfold phi, merit_cost, merit_viol. rewrite W1, W2, W3. reflexivity. }
  assert (P0 : forall eps, phi ex_fp_free 0 [751 / 250] eps (21 / 55) 1 (f_var zr_st) = 21 / 220 + 21 / 55 * (501 / 250)).
  { intros eps. change (f_var zr_st) with (dd_var 1 (1 / 11) (- (10 / 11)) [] []). rewrite zr_phi.
    replace (1 + - (10 / 11) - 1 / 11) with 0 by lra. rewrite Rabs_R0, Rabs_right by lra. lra. }
  assert (P1 : forall eps, phi ex_fp_free 0 [751 / 250] eps (21 / 55) 1 (dd_var (1 + 1 * (501 / 250)) (1 / 11 + 1 * (501 / 2750)) (- (10 / 11) + 1 * - (501 / 275)) [] []) = 21 / 220 * ((751 / 250) * (751 / 250))).
  { intros eps. rewrite zr_phi. replace (1 + 1 * (501 / 250) + (- (10 / 11) + 1 * - (501 / 275)) - (1 / 11 + 1 * (501 / 2750))) with 0 by lra.
    replace (751 / 250 - (1 + 1 * (501 / 250))) with 0 by lra. rewrite Rabs_R0. lra. }
  assert (K0 : k = 0%nat).
  { destruct k as [|k]; [reflexivity|exfalso]. destruct (Hfail 0%nat ltac:(lia)) as (_ & w & Hw & F). cbn [pow] in *. rewrite Rmult_1_r in *.
    destruct (Pr _ _ Hw) as (W1 & W2 & W3). rewrite Rmult_1_r in F. change (f_t zr_st) with 0 in F. change (f_x zr_st) with [751 / 250] in F.
    rewrite (Ph _ _ W1 W2 W3), Esc, P0, P1, Emd in F. lra. }
  subst k. cbn [pow] in Hk. rewrite Rmult_1_r in Hk. subst a_s.
  assert (W1 : v_x (f_var s') = [[1 + 1 * (501 / 250)]; [1 / 11 + 1 * (501 / 2750)]]) by exact (moved_same _ _ _ _ _ _ M1 (moved2 1 _ _ _ _ _ X0 X1)).
  assert (W2 : v_u (f_var s') = [[- (10 / 11) + 1 * - (501 / 275)]]) by exact (moved_same _ _ _ _ _ _ M2 (moved1 1 _ _ _ X2)).
  assert (W3 : v_s (f_var s') = [[]]).
  { apply (moved_same _ _ _ _ _ _ M3). split; [reflexivity|]. split; [|intros [|i] Hi; [lia|destruct i; reflexivity]].
    intros i Hi. replace i with 0%nat by lia. exists [], [], []. repeat (split; [reflexivity || exact X3|]). intros j Hj. cbn in Hj. lia. }
  cbn zeta. rewrite (Ph _ _ W1 W2 W3), Esc, P0, P1, W1, W2.
  assert (Z1 : 1 + 1 * (501 / 250) = 751 / 250) by lra. assert (Z2 : 1 / 11 + 1 * (501 / 2750) = 751 / 2750) by lra.
  assert (Z3 : - (10 / 11) + 1 * - (501 / 275) = - (751 / 275)) by lra. rewrite Z1, Z2, Z3. split; [reflexivity|]. split; [reflexivity|]. lra.
Qed.
Print Assumptions C71_zero_refuted.
