(** Property C60: the example problems meet the hypotheses of the solver theorems, so the runs of the test programs are covered. *)
From Verif Require Import Prelude Scalar LinAlg BoxQP DDP DDPSpec DDPProofs DDPCor DDPReal DDPSafe DDPLimits DDPHist RLin Chol CholProofs
  LQ LQ2 LQ3 LQ4 LQ5 ExDDP P_DDP_real P_DDP_safe P_DDP_lq P_DDP_reg
  Fmpc FmpcProofs FmpcSpec FmpcHist FmpcStep P_FmpcRun P_FmpcReal P_FmpcNewton P_FmpcHist Problems ProbSolve.
From Verif Require FmpcSafe.
From Coq Require Import Reals Lra.

(** ** Every scalar type: memory safety and independence of earlier calls *)
Section Any.
  Context {T : Type} {N : Num T}.
  (** The problems of nmpc_ddp/tests, with any parameters of the declared sizes. *)
  Inductive ddp_example : problem T -> Prop :=
  | ex_bipedal p : ddp_example (bipedal p)
  | ex_vertical p : length (vp_rx p) = 2%nat -> length (vp_tx p) = 2%nat -> ddp_example (vertical p)
  | ex_centroidal p : length (cn_rx p) = 9%nat -> length (cn_tx p) = 9%nat -> ddp_example (centroidal p)
  | ex_cartpole nsin ncos p : length (cr_rx p) = 4%nat -> length (cr_ru p) = 1%nat -> length (cr_tx p) = 4%nat -> ddp_example (cartpole nsin ncos p).
  (** The problems of nmpc_fmpc/tests. *)
  Inductive fmpc_example : fproblem T -> Prop :=
  | ex_oscillator dt : fmpc_example (oscillator dt)
  | ex_cartpole_f nsin ncos p : length (cr_rx p) = 4%nat -> length (cr_ru p) = 1%nat -> length (cr_tx p) = 4%nat -> fmpc_example (cartpole_f nsin ncos p).

  Lemma ddp_example_ok pb : ddp_example pb -> well_dimensioned pb /\ overwrites pb.
  Proof.
    intros []; split; first [apply bip_wd|apply bip_ow|apply vert_wd|apply vert_ow|apply cent_wd|apply cent_ow|apply cart_wd|apply cart_ow]; assumption.
  Qed.
  Lemma fmpc_example_ok pb : fmpc_example pb -> FmpcSafe.well_dimensioned_f pb /\ overwrites_f pb.
  Proof. intros []; split; first [apply osc_wd|apply osc_ow|apply cart_wd_f|apply cart_ow_f]; assumption. Qed.

  (** C60, DDP: no call on an example problem does anything undefined, whatever the configuration. *)
  Theorem C60_ddp_safe pb LL cf limits jk fuel qfuel t0 x0 us s : ddp_example pb ->
    llt_dims LL -> limits_ok pb cf limits -> junk_ok pb jk -> object_ok pb s -> args_typed pb x0 us ->
    ddp_solve LL pb cf limits jk fuel qfuel t0 x0 us s <> UB.
  Proof.
    intros Hp H1 H2 H3 H4 H5 E. destruct (ddp_example_ok _ Hp) as [WD _].
    pose proof (C15_no_undefined_behaviour LL pb cf limits jk fuel qfuel t0 x0 us s WD H1 H2 H3 H4 H5) as H. rewrite E in H. exact H.
  Qed.
  (** ... and its result does not depend on what the object did before, nor on what new memory contains. *)
  Theorem C60_ddp_history pb LL cf limits jk1 jk2 fuel qfuel t0 x0 us s1 s2 b1 s1' b2 s2' : ddp_example pb ->
    ddp_solve LL pb cf limits jk1 fuel qfuel t0 x0 us s1 = Ok b1 s1' -> ddp_solve LL pb cf limits jk2 fuel qfuel t0 x0 us s2 = Ok b2 s2' ->
    b1 = b2 /\ s_cd s1' = s_cd s2' /\ s_trace s1' = s_trace s2'.
  Proof.
    intros Hp E1 E2. destruct (ddp_example_ok _ Hp) as [_ OW].
    pose proof (C14_history_independent LL pb cf limits jk1 jk2 fuel qfuel t0 x0 us s1 s2 OW) as H. rewrite E1, E2 in H. tauto.
  Qed.
  (** C60, FMPC: no call on an example problem with a configuration as in the tests does anything undefined. *)
  Theorem C60_fmpc_safe pb LO cf jk fuel t0 x0 v0 s : fmpc_example pb ->
    FmpcSafe.lin_dims LO -> FmpcSafe.junk_ok pb jk -> FmpcSafe.object_ok pb s -> length x0 = pb_nx (fp_dp pb) -> FmpcSafe.typed_var pb v0 ->
    right_lengths cf v0 -> (1 <= fc_max_iter cf)%Z ->
    fmpc_solve LO pb cf jk fuel t0 x0 v0 s <> UB.
  Proof.
    intros Hp H1 H2 H3 H4 H5 H6 H7 E. destruct (fmpc_example_ok _ Hp) as [WF _].
    assert (Hng : forall t, (0 < FmpcSafe.ng_of pb t)%nat) by (destruct Hp; intros; cbn; lia).
    pose proof (right_nat _ _ H6) as (L1 & L2 & L3 & L4 & L5 & _).
    pose proof (C55_no_ub LO pb cf jk fuel t0 x0 v0 s WF H1 H2 H3 H4 H5) as H. rewrite E in H. apply H.
    - lia.
    - intros _ i _. apply Hng.
    - intros _ _. split; [destruct Hp; cbn; lia|intros i _; apply Hng].
    - intros _. exact H7.
  Qed.
End Any.
Print Assumptions C60_ddp_safe.
Print Assumptions C60_ddp_history.
Print Assumptions C60_fmpc_safe.

(** ** Exact arithmetic *)
Local Open Scope R_scope.
(** The settings the tests use: DDPSolver.h:52-107 with the given initial_lambda, with_input_constraint, max_iter and horizon_steps. *)
Definition test_cf (lambda0 : R) (constr : bool) (max_iter horizon : Z) (alphas : list R) : config R :=
  let d := default_config alphas in
  {| cf_print_level := cf_print_level d; cf_second := cf_second d; cf_constraint := constr; cf_max_iter := max_iter; cf_horizon := horizon;
     cf_reg_type := cf_reg_type d; cf_initial_lambda := lambda0; cf_initial_dlambda := cf_initial_dlambda d;
     cf_lambda_factor := cf_lambda_factor d; cf_lambda_min := cf_lambda_min d; cf_lambda_max := cf_lambda_max d;
     cf_k_rel_norm_thre := cf_k_rel_norm_thre d; cf_lambda_thre := cf_lambda_thre d; cf_alpha_list := cf_alpha_list d;
     cf_cost_update_ratio_thre := cf_cost_update_ratio_thre d; cf_cost_update_thre := cf_cost_update_thre d |}.

(** Nothing better exists, or one of the two termination tests ended the run before the iteration that would have got there. *)
Definition optimal_or_stopped (pb : problem R) (cf : config R) (J : nat) (t0 : R) (x0 : vec R) (n : nat) (b : bool) (s' : ddp R) : Prop :=
  (forall vs, length vs = n -> inputs_typed pb t0 vs -> total (s_cd s') <= cost_of pb t0 0 x0 vs) \/
  (b = true /\ (length (s_trace s') <= J + 3)%nat /\
   exists es e, s_trace s' = es ++ [e] /\ (1 <= length es)%nat /\
     (0 <= tr_k_rel_norm e < cf_k_rel_norm_thre cf \/
      (0 <= tr_actual e < cf_cost_update_thre cf /\ tr_actual e = tr_expected e /\ tr_alpha e = 1))).

Section Real.
  Variables (LL : lltops R).
  Hypothesis HL : exact_llt LL.
  Hypothesis HD : llt_dims LL.

  (** C60: with the settings of the tests, solve returns on every example problem, whatever the constraints. *)
  Theorem C60_ddp_returns pb lambda0 constr mi h alphas limits jk t0 x0 us s : ddp_example pb ->
    let cf := test_cf lambda0 constr mi h alphas in
    limits_ok pb cf limits -> junk_ok pb jk -> object_ok pb s -> length x0 = pb_nx pb ->
    Z.of_nat (length us) = h -> (forall i u, nth_error us i = Some u -> Z.of_nat (length u) = pb_inputDim pb (t0 + INR i * pb_dt pb)) ->
    exists b s', ddp_solve LL pb cf limits jk 81 500 t0 x0 us s = Ok b s' /\ object_ok pb s'.
  Proof.
    intros Hp cf H1 H2 H3 H4 H5 H6. destruct (ddp_example_ok _ Hp) as [WD _]. apply C15_returns; try assumption; try reflexivity.
    - split; [exact H4|]. intros nu Hnu. apply Forall_forall. intros u Hu. apply In_nth_error in Hu as [i Hi]. specialize (H6 i u Hi).
      destruct Hp; cbn in Hnu, H6; try discriminate; injection Hnu as <-; lia.
    - split; [exact H5|]. intros _ i u Hu. rewrite tm_INR. apply H6. exact Hu.
    - apply (proj2 (C08_terminates_R cf ltac:(cbn; lra) ltac:(cbn; lra)) 80%nat). cbn -[pow]. lra.
  Qed.

  Lemma test_optimal pb J lambda0 mi h rest limits jk fuel qfuel t0 x0 us s b s' : LQ2.lq_problem pb -> lq_convex pb ->
    let cf := test_cf lambda0 false mi h (1 :: rest) in
    length x0 = pb_nx pb -> 0 <= lambda0 < / 1000000 * (16 / 10) ^ P_DDP_reg.triangle J -> (Z.of_nat J + 2 <= mi)%Z -> inputs_typed pb t0 us ->
    ddp_solve LL pb cf limits jk fuel qfuel t0 x0 us s = Ok b s' ->
    optimal_or_stopped pb cf J t0 x0 (length us) b s'.
  Proof.
    intros Hlq Hcv cf Hx Hl Hm Ht E. eapply (C61_solve_optimal LL pb cf limits qfuel t0 x0 HL Hlq Hcv eq_refl Hx J); try exact E; try assumption.
    - exists rest. reflexivity.
    - cbn. lra.
    - cbn. lra.
    - cbn. lra.
    - cbn. lra.
    - unfold cf. cbn -[pow P_DDP_reg.triangle]. split; [lra|]. replace (1 / 1000000) with (/ 1000000) by lra. lra.
  Qed.

  (** C60, TestDDPBipedal.cpp: each of its solve calls returns, and with nothing better to be found, or stopped by a termination
      test within six iterations; for every reference, every height profile, every dt, every horizon. *)
  Theorem C60_bipedal p h rest limits jk t0 x0 us s : 0 <= bp_rvel p -> 0 < bp_rzmp p -> 0 <= bp_tpos p -> 0 <= bp_tvel p ->
    let pb := bipedal p in let cf := test_cf (/ 10000) false 500 h (1 :: rest) in
    junk_ok pb jk -> object_ok pb s -> length x0 = 2%nat -> Z.of_nat (length us) = h -> (forall u, In u us -> length u = 1%nat) ->
    exists b s', ddp_solve LL pb cf limits jk 81 500 t0 x0 us s = Ok b s' /\ object_ok pb s' /\
      optimal_or_stopped pb cf 4 t0 x0 (length us) b s'.
  Proof.
    intros P1 P2 P3 P4 pb cf H2 H3 Hx Hn Hu.
    assert (Hd : forall i u, nth_error us i = Some u -> length u = 1%nat) by (intros i u Hi; apply Hu; eapply nth_error_In; exact Hi).
    destruct (C60_ddp_returns pb (/ 10000) false 500 h (1 :: rest) limits jk t0 x0 us s) as (b & s' & E & Ho); try assumption.
    - apply ex_bipedal.
    - discriminate.
    - intros i u Hi. rewrite (Hd i u Hi). reflexivity.
    - exists b, s'. split; [exact E|]. split; [exact Ho|]. refine (test_optimal pb 4 _ _ _ _ _ _ _ _ _ _ _ _ _ _ _ _ _ _ _ _ E).
      + apply bip_lq.
      + apply bip_convex; assumption.
      + exact Hx.
      + change (P_DDP_reg.triangle 4) with 10%nat. cbn [pow]. lra.
      + lia.
      + intros i u Hi. rewrite (Hd i u Hi). reflexivity.
  Qed.

  (** C60, TestDDPVerticalMotion.cpp without input limits: initial_lambda = 1e-6 makes max_iter = 3 exactly enough. *)
  Theorem C60_vertical p mi h rest limits jk t0 x0 us s : length (vp_rx p) = 2%nat -> length (vp_tx p) = 2%nat -> vp_smooth p = false ->
    (forall i, 0 <= vget (vp_rx p) i) -> 0 < vp_ru p -> (forall i, 0 <= vget (vp_tx p) i) -> (3 <= mi)%Z ->
    let pb := vertical p in let cf := test_cf (/ 1000000) false mi h (1 :: rest) in
    junk_ok pb jk -> object_ok pb s -> length x0 = 2%nat -> Z.of_nat (length us) = h ->
    (forall i u, nth_error us i = Some u -> Z.of_nat (length u) = vert_dim (t0 + INR i * vp_dt p)) ->
    exists b s', ddp_solve LL pb cf limits jk 81 500 t0 x0 us s = Ok b s' /\ object_ok pb s' /\
      optimal_or_stopped pb cf 1 t0 x0 (length us) b s'.
  Proof.
    intros L1 L2 Hs P1 P2 P3 Hm pb cf H2 H3 Hx Hn Hu.
    destruct (C60_ddp_returns pb (/ 1000000) false mi h (1 :: rest) limits jk t0 x0 us s) as (b & s' & E & Ho); try assumption.
    - apply ex_vertical; assumption.
    - discriminate.
    - exists b, s'. split; [exact E|]. split; [exact Ho|]. refine (test_optimal pb 1 _ _ _ _ _ _ _ _ _ _ _ _ _ _ _ _ _ _ _ _ E).
      + apply vert_lq; assumption.
      + apply vert_convex; assumption.
      + exact Hx.
      + change (P_DDP_reg.triangle 1) with 1%nat. cbn [pow]. lra.
      + exact Hm.
      + intros i u Hi. specialize (Hu i u Hi). unfold nu_of. cbn [pb vertical pb_fixed_nu pb_inputDim pb_dt]. rewrite (tm_INR pb).
        cbn [pb vertical pb_dt]. rewrite <- Hu. lia.
  Qed.
End Real.
Print Assumptions C60_ddp_returns.
Print Assumptions C60_bipedal.
Print Assumptions C60_vertical.

(** C60, TestFmpcOscillator.cpp:167-168: a call with the settings of the test returns Succeeded or MaxIterationReached, from every state
    and for every variable whose slacks and inequality multipliers are positive. *)
Theorem C60_oscillator LO dt cf jk fuel t0 x0 v0 s : FmpcSafe.lin_dims LO ->
  let pb := oscillator dt in
  fc_break cf = false -> (1 <= fc_max_iter cf)%Z -> (35 <= fuel)%nat ->
  FmpcSafe.junk_ok pb jk -> FmpcSafe.object_ok pb s -> length x0 = 2%nat -> FmpcSafe.typed_var pb v0 -> right_lengths cf v0 ->
  fc_init cf = true \/ pos_var v0 ->
  exists r s', fmpc_solve LO pb cf jk fuel t0 x0 v0 s = Ok r s' /\ (r = Succeeded \/ r = MaxIterationReached) /\ FmpcSafe.object_ok pb s'.
Proof.
  intros HLO pb Hb Hm Hf H2 H3 Hx Ht Hr Hp. apply C56_total; try assumption.
  - apply osc_wd.
  - split; discriminate.
  - left. exact Hb.
  - intros _ i _. cbn. lia.
  - intros _ _. split; [cbn; lia|intros i _; cbn; lia].
Qed.
Print Assumptions C60_oscillator.

(** ** The hypotheses hold together *)
Definition bip_test (zmp omega2 : R -> R) : bip_par R :=
  {| bp_dt := 1 / 100; bp_zmp := zmp; bp_omega2 := omega2; bp_rvel := (1 / 10) ^ 14; bp_rzmp := 1 / 10; bp_tpos := 100; bp_tvel := 1 |}.
Definition vert_test (ref : R -> R) : vert_par R :=
  {| vp_dt := 1 / 100; vp_ref := ref; vp_rx := [1; 1 / 1000]; vp_ru := 1 / 10000; vp_tx := [1; 1 / 1000]; vp_mass := 1; vp_smooth := false |}.
(** A solver object with the given last V_x and V_xx, nothing else yet. *)
Definition fresh_obj : ddp R := set_lastV (vzero 2) (mzero 2 2) ex_s0.
Lemma fresh_ok pb : pb_nx pb = 2%nat -> object_ok pb fresh_obj.
Proof. intros E. unfold object_ok. rewrite E. split; [reflexivity|]. split; [reflexivity|]. intros nu _. constructor. Qed.
Lemma junk_any pb : junk_ok pb (vary_junk (T := R)).
Proof. intros nu. unfold deriv_ok. cbn -[mdimb mbuild mzero vzero]. unfold mzero. rewrite !mbuild_dim. unfold vzero. rewrite !vbuild_length. auto 8. Qed.
(** The first call of TestDDPBipedal.cpp, with any reference, height profile and horizon. *)
Example C60_bipedal_nonvacuous zmp omega2 (h : nat) : exists b s',
  let pb := bipedal (bip_test zmp omega2) in let cf := test_cf (/ 10000) false 500 (Z.of_nat h) [1; / 2] in
  ddp_solve chol_llt pb cf None vary_junk 81 500 0 [0; 0] (repeat [0] h) fresh_obj = Ok b s' /\ object_ok pb s' /\
  optimal_or_stopped pb cf 4 0 [0; 0] (length (repeat [0] h)) b s'.
Proof.
  apply (C60_bipedal chol_llt chol_exact chol_dims (bip_test zmp omega2) (Z.of_nat h) [/ 2] None vary_junk 0 [0; 0] (repeat [0] h) fresh_obj);
    cbn [bip_test bp_rvel bp_rzmp bp_tpos bp_tvel]; try lra.
  - apply junk_any.
  - apply fresh_ok. reflexivity.
  - reflexivity.
  - rewrite repeat_length. reflexivity.
  - intros u Hu. apply repeat_spec in Hu as ->. reflexivity.
Qed.
(** The calls of TestDDPVerticalMotion.cpp without input limits, with the inputs of its lines 277-281, from any time: the input dimension varies. *)
Definition vert_us (p : vert_par R) (t0 : R) (h : nat) : list (vec R) := map (fun i => vzero (Z.to_nat (vert_dim (t0 + INR i * vp_dt p)))) (seq 0 h).
Lemma vert_us_dims p t0 h i u : nth_error (vert_us p t0 h) i = Some u -> Z.of_nat (length u) = vert_dim (t0 + INR i * vp_dt p).
Proof.
  unfold vert_us. rewrite nth_error_map. destruct (nth_error (seq 0 h) i) as [j|] eqn:E; [|discriminate]. cbn [option_map]. intros H.
  apply f_equal with (f := fun o => match o with Some w => length w | None => 0%nat end) in H. cbn beta iota in H. rewrite <- H. unfold vzero. rewrite vbuild_length.
  assert (Hi : (i < h)%nat) by (rewrite <- (seq_length h 0); apply nth_error_Some; congruence).
  rewrite (nth_error_nth' (seq 0 h) 0%nat) in E by (rewrite seq_length; exact Hi). rewrite seq_nth in E by exact Hi. injection E as <-. cbn [Nat.add].
  unfold vert_dim. destruct (_ && _)%bool; [reflexivity|]. destruct (_ && _)%bool; reflexivity.
Qed.
Example C60_vertical_nonvacuous ref (t0 : R) (h : nat) : exists b s',
  let p := vert_test ref in let pb := vertical p in let cf := test_cf (/ 1000000) false 3 (Z.of_nat h) [1; / 2] in
  ddp_solve chol_llt pb cf None vary_junk 81 500 t0 [6 / 5; 0] (vert_us p t0 h) fresh_obj = Ok b s' /\ object_ok pb s' /\
  optimal_or_stopped pb cf 1 t0 [6 / 5; 0] (length (vert_us p t0 h)) b s'.
Proof.
  apply (C60_vertical chol_llt chol_exact chol_dims (vert_test ref) 3 (Z.of_nat h) [/ 2] None vary_junk t0 [6 / 5; 0] (vert_us (vert_test ref) t0 h) fresh_obj);
    cbn [vert_test vp_rx vp_ru vp_tx vp_smooth]; try lra; try lia; try reflexivity.
  - intros [|[|[|i]]]; cbn; lra.
  - intros [|[|[|i]]]; cbn; lra.
  - apply junk_any.
  - apply fresh_ok. reflexivity.
  - unfold vert_us. rewrite map_length, seq_length. reflexivity.
  - intros i u Hu. apply (vert_us_dims _ _ _ _ _ Hu).
Qed.
(** The first call of TestFmpcOscillator.cpp with any horizon >= 0. *)
Definition osc_cf (h : nat) : fconfig R := let d := fmpc_default_config in {|
  fc_print := fc_print d; fc_hor := Z.of_nat h; fc_max_iter := 3; fc_kkt := fc_kkt d; fc_check_nan := fc_check_nan d; fc_init := fc_init d;
  fc_update_eps := fc_update_eps d; fc_break := fc_break d; fc_ls := fc_ls d; fc_lagr := fc_lagr d |}.
Definition osc_var (h : nat) : var R := var_reset 0 0 0 1 1 (var_ctor (vzero 2) (vzero 1) (vzero 3) h).
Lemma osc_var_typed dt h : FmpcSafe.typed_var (oscillator dt) (osc_var h) /\ right_lengths (osc_cf h) (osc_var h) /\ pos_var (osc_var h).
Proof.
  assert (Q : forall (a : R) n m (y : vec R), In y (map (fun r : vec R => vconst (length r) a) (repeat (vzero n) m)) -> y = vconst n a).
  { intros a n m y H. apply in_map_iff in H as (z & <- & Hz). apply repeat_spec in Hz as ->. unfold vzero. rewrite vbuild_length. reflexivity. }
  assert (L : forall (a : R) n m (y : vec R), In y (map (fun r : vec R => vconst (length r) a) (repeat (vzero n) m)) -> length y = n).
  { intros a n m y H. rewrite (Q a n m y H). unfold vconst. first [apply vbuild_length|apply repeat_length]. }
  split; [constructor|split]; cbn [osc_var var_reset var_ctor v_x v_u v_l v_s v_n].
  - intros w. apply L.
  - intros w. apply L.
  - intros n w E. injection E as <-. apply L.
  - intros n w E [H|H]; injection E as <-; revert H; apply L.
  - unfold right_lengths. cbn [osc_var var_reset var_ctor v_x v_u v_l v_s v_n osc_cf fc_hor]. rewrite !map_length, !repeat_length. lia.
  - assert (P : all_pos (map (fun r : vec R => vconst (length r) 1) (repeat (vzero 3) h))).
    { intros w a Hw Ha. rewrite (Q _ _ _ _ Hw) in Ha. cbn in Ha. destruct Ha as [<-|[<-|[<-|[]]]]; lra. }
    split; exact P.
Qed.
Example C60_oscillator_nonvacuous dt (h : nat) (t0 a b : R) : exists r s',
  fmpc_solve normal_lin (oscillator dt) (osc_cf h) (sized_junk 7 2 1 3) 35 t0 [a; b] (osc_var h) (new_object (sized_junk 7 2 1 3) [0; 0]) = Ok r s' /\
  (r = Succeeded \/ r = MaxIterationReached).
Proof.
  destruct (osc_var_typed dt h) as (T1 & T2 & T3).
  destruct (C60_oscillator normal_lin dt (osc_cf h) (sized_junk 7 2 1 3) 35 t0 [a; b] (osc_var h) (new_object (sized_junk 7 2 1 3) [0; 0])) as (r & s' & E & Hr & _);
    try assumption; try reflexivity; try (cbn; lia).
  - apply normal_dims.
  - split; [intros nu ng; apply sized_ok|]. split; [reflexivity|]. split; [reflexivity|]. intros nu ng E1 E2. injection E1 as <-. injection E2 as <-. apply sized_ok.
  - split; [cbn; repeat split; lia|intros nu ng _ _ c []].
  - right. exact T3.
  - exists r, s'. split; [exact E|exact Hr].
Qed.
