(** Properties C74 and C75 of DDPSolver in binary64: input limits; termination and range of the regularisation. *)
From Coq Require Import Reals Lra Psatz.
From Flocq Require Import Core BinarySingleNaN.
From Verif Require Import Prelude Scalar LinAlg BoxQP BoxQPProofs BoxQPTerm DDP DDPSpec DDPProofs DDPCor RLin Chol ExDDP DDPReal B64 DDPLimits64 DDPTerm64.
Local Open Scope R_scope.

Section Limits.
  Variables (ex lg : b64 -> b64) (sm : list b64 -> b64).
  Hypothesis Hsm : some_order sm.
  Local Instance Nt : Num b64 := B64Num ex lg sm.
  Variables (LL : lltops b64) (pb : problem b64) (cf : config b64) (f : b64 -> vec b64 * vec b64) (jk : junk b64).
  Variables (fuel qfuel : nat) (t0 : b64) (x0 : vec b64) (us : list (vec b64)) (s : ddp b64) (M : R).
  Notation solve := (ddp_solve LL pb cf (Some f) jk fuel qfuel t0 x0 us s).
  (** The time of the first step, as the code computes it: current_t + 0 * dt. *)
  Notation first_t := (Bplus mode_NE t0 (Bmult mode_NE (b64_ofZ 0) (pb_dt pb))).
  Hypothesis Hcon : cf_constraint cf = true.
  Hypothesis Hbox : box64 M f.
  Hypothesis HM : M <= bpow radix2 1020.
  Hypothesis Halpha : forall a, In a (cf_alpha_list cf) -> fin a /\ 0 <= val a <= 1.

  (** C74: the first input returned exceeds the limits by at most 2^-51 times their size, whatever the number of iterations. *)
  Theorem C74_first_input b s' : solve = Ok b s' ->
    (forall u, nth_error us 0 = Some u -> within64 M (fst (f first_t)) (snd (f first_t)) u) ->
    forall u, nth_error (cd_u (s_cd s')) 0 = Some u -> within64 M (fst (f first_t)) (snd (f first_t)) u.
  Proof.
    intros E Hu u Hu'. destruct (solve_ok _ _ _ _ _ _ _ _ _ _ _ _ _ E) as (_ & Hro & c & r & es & (Hro0 & Hus & g0 & Hits) & Hb & Htr).
    apply iterations_taken in Hits. cbn [mc fst snd] in Hits.
    assert (Hn : (0 < Z.to_nat (cf_horizon cf))%nat).
    { rewrite <- (ro_lu _ _ _ _ _ Hro). apply nth_error_Some. congruence. }
    refine (takens_first ex lg sm Hsm pb cf t0 x0 _ LL f qfuel M Hcon Hbox HM Halpha _ _ Hits Hn Hro0 _ u Hu').
    intros u0 Hu0. apply Hu. rewrite <- Hus. exact Hu0.
  Qed.
End Limits.
Print Assumptions C74_first_input.

(** Limits [-0.00006, 0.00006] on x' = x + u from x = -0.0002, warm start u = -0.00001 in all three steps. The step drives the inputs to
    their upper limit and is small enough to end the run with success. *)
Local Instance Nx : Num b64 := B64Num (fun x => x) (fun x => x) seq_sum.
Notation xhi := (b64_lit 6 100000).
Notation xlo := (b64_lit (-6) 100000).
Notation xus := [[b64_lit (-1) 100000]; [b64_lit (-1) 100000]; [b64_lit (-1) 100000]].
Notation xlim := (fun _ : b64 => ([xlo], [xhi])).
Notation lim_run := (ddp_solve chol_llt (lq_pb (T := b64)) (with_cf false true 500 3) (Some xlim) ex_junk 200 1000
  (B754_zero false) [b64_lit (-1) 5000] xus ex_s0).

Lemma le_val (x y : b64) : Bleb x y = true -> is_finite x = true -> is_finite y = true -> val x <= val y.
Proof. intros H Fx Fy. rewrite leb_fin in H by assumption. destruct (Rle_bool_spec (val x) (val y)); [assumption|discriminate]. Qed.
Lemma lt_val (x y : b64) : Bltb x y = true -> is_finite x = true -> is_finite y = true -> val x < val y.
Proof. intros H Fx Fy. rewrite ltb_fin in H by assumption. destruct (Rlt_bool_spec (val x) (val y)); [assumption|discriminate]. Qed.
Lemma val_one : val (b64_ofZ 1) = 1.
Proof.
  unfold val. rewrite <- SF2R_B2SF. replace (B2SF (b64_ofZ 1)) with (SpecFloat.S754_finite false 4503599627370496 (-52)) by (vm_compute; reflexivity).
  unfold SF2R, F2R. cbn. lra.
Qed.
Lemma abs_val (x : b64) : Bleb x (b64_ofZ 1) = true -> Bleb (Bopp (b64_ofZ 1)) x = true -> is_finite x = true -> Rabs (val x) <= 1.
Proof.
  intros H1 H2 F. apply Rabs_le. apply le_val in H1; [|exact F|reflexivity]. apply le_val in H2; [|reflexivity|exact F].
  unfold val in H2 at 1. rewrite B2R_Bopp in H2. fold (val (b64_ofZ 1)) in H2. rewrite val_one in *. lra.
Qed.

Example C74_nonvacuous : some_order seq_sum /\ cf_constraint (with_cf (T := b64) false true 500 3) = true /\ box64 1 xlim /\ 1 <= bpow radix2 1020 /\
  (forall a, In a (cf_alpha_list (with_cf (T := b64) false true 500 3)) -> fin a /\ 0 <= val a <= 1) /\
  (forall u, nth_error xus 0 = Some u -> within64 1 [xlo] [xhi] u) /\
  exists s' u0, lim_run = Ok true s' /\ nth_error (cd_u (s_cd s')) 0 = Some [u0] /\ fin u0.
Proof.
  split; [exact seq_sum_order|]. split; [reflexivity|]. split.
  { intros t [|j].
    - cbn [fst snd at64 nth]. split; [vm_compute; reflexivity|]. split; [vm_compute; reflexivity|].
      split; [apply le_val; vm_compute; reflexivity|]. split; apply abs_val; vm_compute; reflexivity.
    - assert (Z : forall (l : vec b64), length l = 1%nat -> at64 l (Datatypes.S j) = B754_zero false).
      { intros l Hl. apply nth_overflow. lia. }
      cbn [fst snd]. rewrite !Z by reflexivity. change (val (B754_zero false)) with 0. rewrite Rabs_R0. repeat split; try reflexivity; lra. }
  split; [apply (bpow_le radix2 0); lia|]. split.
  { intros a [<-|[<-|[<-|[]]]]; (split; [vm_compute; reflexivity|]);
      (split; [change 0 with (val (B754_zero false))|rewrite <- val_one]; apply le_val; vm_compute; reflexivity). }
  split.
  { intros u [= <-] [|j] Hj F; [|cbn in Hj; lia]. cbn [at64 nth]. assert (S := slip_u).
    assert (val xlo <= val (b64_lit (-1) 100000)) by (apply le_val; vm_compute; reflexivity).
    assert (val (b64_lit (-1) 100000) <= val xhi) by (apply le_val; vm_compute; reflexivity). lra. }
  destruct (ok_and_true (fun b s => (b && match nth_error (cd_u (s_cd s)) 0 with Some [u] => is_finite u | _ => false end)%bool) lim_run) as (b & s' & E & H).
  { vm_compute. reflexivity. }
  apply andb_true_iff in H as [-> H]. exists s'.
  destruct (nth_error (cd_u (s_cd s')) 0) as [[|u [|]]|]; try discriminate H. exists u. auto.
Qed.

(** C74 refuted without the slack: in the same run, which succeeds, the returned first input is above its limit although every input given
    was strictly inside. *)
Theorem C74_refuted : exists s' u0, lim_run = Ok true s' /\ nth_error (cd_u (s_cd s')) 0 = Some [u0] /\ fin u0 /\
  val xlo < val (b64_lit (-1) 100000) < val xhi /\ val xhi < val u0.
Proof.
  destruct (ok_and_true (fun b s => (b && match nth_error (cd_u (s_cd s)) 0 with Some [u] => is_finite u && Bltb xhi u | _ => false end)%bool) lim_run)
    as (b & s' & E & H).
  { vm_compute. reflexivity. }
  apply andb_true_iff in H as [-> H]. exists s'.
  destruct (nth_error (cd_u (s_cd s')) 0) as [[|u [|]]|]; try discriminate H. apply andb_true_iff in H as [F H]. exists u.
  split; [exact E|]. split; [reflexivity|]. split; [exact F|]. split.
  - split; apply lt_val; vm_compute; reflexivity.
  - apply lt_val; [exact H|vm_compute; reflexivity|exact F].
Qed.
Print Assumptions C74_refuted.

(** ** C75: termination and regularisation *)
Section Regularisation.
  Variables (ex lg : b64 -> b64) (sm : list b64 -> b64).
  Local Instance Nq : Num b64 := B64Num ex lg sm.
  Variables (LL : lltops b64) (pb : problem b64) (cf : config b64) (limits : option (b64 -> vec b64 * vec b64)) (jk : junk b64).
  Variables (t0 : b64) (x0 : vec b64) (us : list (vec b64)) (s : ddp b64).
  Hypothesis C : reg_cfg64 cf.
  Notation lmin := (val (cf_lambda_min cf)).
  Notation lmax := (val (cf_lambda_max cf)).
  (** What each raise of lambda multiplies it by, at least. *)
  Notation rise := (val (cf_lambda_factor cf) * (1 - u53)).

  Lemma qdef_64 : nltb (qp_step (qp_default_config (T := b64)) 100) (qp_min_step qp_default_config) = true.
  Proof. vm_compute. reflexivity. Qed.

  (** The call ends: K + 1 attempts per iteration are enough when lambda_min * rise^K exceeds lambda_max, and such a K exists. *)
  Theorem C75_terminates : (exists K, lmax < lmin * rise ^ K) /\
    forall K, lmax < lmin * rise ^ K -> ddp_solve LL pb cf limits jk (S K) 500 t0 x0 us s <> OutOfFuel.
  Proof.
    split.
    - pose proof (f_gt1 cf C) as Hf. destruct (rc_min _ C) as [_ Hm]. pose proof (bpow_gt_0 radix2 (-1000)).
      destruct (Pow_x_infinity rise) with (b := (Rabs lmax + 1) / lmin) as [K HK]; [rewrite Rabs_pos_eq; lra|].
      exists K. specialize (HK K (le_n K)). rewrite Rabs_pos_eq in HK by (apply pow_le; lra).
      apply Rge_le in HK. apply Rmult_le_compat_l with (r := lmin) in HK; [|lra].
      unfold Rdiv in HK. rewrite <- Rmult_assoc, (Rmult_comm lmin), Rmult_assoc, Rinv_r, Rmult_1_r in HK by lra.
      pose proof (Rle_abs lmax). lra.
    - intros K HK. apply (solve_ends LL pb cf limits jk 500 (le_n 500) qdef_64 (reg_ok cf) (S K)).
      + apply (reg_up_ok ex lg sm cf C).
      + apply (reg_down_ok ex lg sm cf C).
      + intros p Hp. apply (raises_64 ex lg sm cf C); assumption.
      + apply (reg_start cf C).
  Qed.

  (** lambda and dlambda are never NaN. They are finite and not negative, and lambda does not exceed its initial value and lambda_max, except in
      the last state of a run that failed because lambda went beyond lambda_max. *)
  Theorem C75_range fuel qfuel b s' : ddp_solve LL pb cf limits jk fuel qfuel t0 x0 us s = Ok b s' ->
    let good l d := fin l /\ 0 <= val l <= Rmax (val (cf_initial_lambda cf)) lmax /\ fin d /\ 0 <= val d in
    let beyond l d := is_nan l = false /\ is_nan d = false /\ Bltb (cf_lambda_max cf) l = true in
    (good (s_lambda s') (s_dlambda s') \/ b = false /\ beyond (s_lambda s') (s_dlambda s')) /\
    Forall (fun e => good (tr_lambda e) (tr_dlambda e) \/ beyond (tr_lambda e) (tr_dlambda e)) (s_trace s') /\
    Forall (fun e => good (tr_lambda e) (tr_dlambda e)) (removelast (s_trace s')).
  Proof.
    intros E good beyond. destruct (solve_ok _ _ _ _ _ _ _ _ _ _ _ _ _ E) as (_ & _ & c & r & es & (Hro & Hu & g0 & Hits) & Hb & Htr).
    assert (G : forall l d, reg_ok cf (l, d) -> good l d).
    { intros l d (H1 & H2 & H3 & H4 & _). split; [exact H1|]. split; [exact H2|]. split; [exact H3|exact H4]. }
    eapply (iterations_ok64 ex lg sm cf C) in Hits as (H1 & H0 & H2 & H3); [|apply (reg_start cf C)].
    split; [|split].
    - destruct (Z.eq_dec r (-1)) as [->|Hr]; [right; split; [exact Hb|exact (H3 eq_refl)]|left; apply G, (H2 Hr)].
    - rewrite Htr. constructor; [left; apply G, (reg_start cf C)|]. eapply Forall_impl; [|exact H1].
      intros e [He|He]; [left; apply G; exact He|right; exact He].
    - rewrite Htr. cbn [removelast]. destruct es as [|e es]; [constructor|]. constructor; [apply G, (reg_start cf C)|].
      eapply Forall_impl; [|exact H0]. intros e1 He. apply G. exact He.
  Qed.
End Regularisation.
Print Assumptions C75_terminates.
Print Assumptions C75_range.

(** The default settings meet the conditions, and 81 attempts per iteration are enough. *)
Example C75_nonvacuous : let cf := default_config (T := b64) (N := Nx) [] in
  reg_cfg64 cf /\ val (cf_lambda_max cf) < val (cf_lambda_min cf) * (val (cf_lambda_factor cf) * (1 - u53)) ^ 80.
Proof.
  assert (V : forall (x : b64) m e, B2SF x = SpecFloat.S754_finite false m e -> val x = IZR (Zpos m) * bpow radix2 e).
  { intros x m e H. unfold val. rewrite <- SF2R_B2SF, H. reflexivity. }
  assert (P : bpow radix2 500 >= 1000) by (apply Rle_ge, Rle_trans with (bpow radix2 10); [cbn; lra|apply bpow_le; lia]).
  assert (Q : bpow radix2 (-1000) <= / 1000000000) by (apply Rle_trans with (bpow radix2 (-30)); [apply bpow_le; lia|cbn; lra]).
  assert (Vf : 16/10 - / 1000000 <= val (b64_lit 16 10) <= 16/10 + / 1000000).
  { rewrite (V _ 7205759403792794%positive (-52)%Z) by (vm_compute; reflexivity). cbn. lra. }
  assert (Vm : / 1000000 - / 1000000000000 <= val (b64_lit 1 1000000) <= / 1000000).
  { rewrite (V _ 4722366482869645%positive (-72)%Z) by (vm_compute; reflexivity). cbn. lra. }
  assert (VM : val (b64_lit 10000000000 1) = 10000000000).
  { rewrite (V _ 5242880000000000%positive (-19)%Z) by (vm_compute; reflexivity). cbn. lra. }
  assert (V0 : 0 <= val (b64_lit 1 10000) <= 1).
  { rewrite (V _ 7378697629483821%positive (-66)%Z) by (vm_compute; reflexivity). cbn. lra. }
  assert (V1 : val (b64_lit 1 1) = 1).
  { rewrite (V _ 4503599627370496%positive (-52)%Z) by (vm_compute; reflexivity). cbn. lra. }
  intros cf. split.
  - split; cbn [cf cf_lambda_factor cf_lambda_min cf_lambda_max cf_initial_lambda cf_initial_dlambda default_config nlit Nx B64Num];
      try (split; [vm_compute; reflexivity|lra]). vm_compute; reflexivity.
  - cbn [cf cf_lambda_factor cf_lambda_min cf_lambda_max default_config nlit Nx B64Num]. rewrite VM.
    apply Rlt_le_trans with ((/ 1000000 - / 1000000000000) * (1599 / 1000) ^ 80).
    + replace 80%nat with (4 * 20)%nat by reflexivity. rewrite pow_mult. assert (H4 : 65/10 < (1599/1000)^4) by (cbn; lra).
      assert (H5 : (65/10) ^ 20 <= ((1599/1000)^4)^20) by (apply pow_incr; lra).
      assert (H6 : 10001000000000000 < (65/10)^20) by (cbn; lra). lra.
    + assert (u53 <= / 1000000). { unfold u53. apply Rle_trans with (bpow radix2 (-20)); [apply bpow_le; lia|cbn; lra]. }
      pose proof u53_pos. apply Rmult_le_compat; [lra|apply pow_le; lra|lra|]. apply pow_incr. nra.
Qed.
