(** Property C61 of DDPSolver: regularised runs on convex linear-quadratic problems, in exact arithmetic. *)
From Verif Require Import Prelude Scalar LinAlg BoxQP DDP DDPSpec DDPProofs DDPCor DDPReal DDPSafe DDPLimits RLin Chol CholProofs
  LQ LQ2 LQ3 LQ4 LQ5 ExDDP P_DDP_real P_DDP_safe P_DDP_lq.
From Coq Require Import Reals Lra.
Local Open Scope R_scope.

(** 1 + 2 + ... + J *)
Definition triangle (J : nat) : nat := Nat.div (J * (J + 1)) 2.
Lemma tri_triangle J : tri J = triangle J.
Proof.
  unfold triangle. assert (E : (J * (J + 1) = tri J * 2)%nat) by (induction J as [|J IH]; [reflexivity|cbn [tri]; nia]).
  rewrite E, Nat.div_mul by lia. reflexivity.
Qed.

Section Reg.
  Variables (LL : lltops R) (pb : problem R) (cf : config R) (limits : option (R -> vec R * vec R)) (qfuel : nat).
  Variables (t0 : R) (x0 : vec R).
  Hypothesis HL : exact_llt LL.
  Hypothesis Hlq : lq_problem pb.
  Hypothesis Hcv : lq_convex pb.
  Hypothesis Hcon : cf_constraint cf = false.
  Hypothesis Hx0 : length x0 = pb_nx pb.

  (** C61, one backward pass with any regularisation: it succeeds, it never predicts an increase, the full step changes the
      cost by exactly the prediction, and a prediction of zero means that the current inputs are optimal. *)
  Theorem C61_pass N c l o : is_rollout pb t0 x0 N c -> inputs_typed pb t0 (cd_u c) -> 0 <= l ->
    backward pb cf t0 N LL limits qfuel c l o ->
    exists g, o = Some g /\
      forall c', is_candidate pb t0 x0 N c g 1 c' ->
        0 <= expected_of g 1 /\ total c - total c' = expected_of g 1 /\
        (expected_of g 1 = 0 -> forall us, length us = N -> inputs_typed pb t0 us -> total c <= cost_of pb t0 0 x0 us).
  Proof.
    intros Hro Ht Hl Hb. assert (Hc : traj pb t0 x0 N c) by (split; assumption).
    destruct (reg_pass pb cf t0 x0 N LL limits qfuel HL Hlq Hcv Hcon Hx0 c l o Hc Hl Hb) as (g & E & Hg). exists g. split; [exact E|].
    intros c' Hcand. destruct (Hg (cand_fit pb t0 x0 N _ _ _ _ Hcand)) as (E0 & E1 & E2).
    assert (Ex : expected_of g 1 = - (p_d0 g + p_d1 g)) by (unfold expected_of; numR; ring).
    rewrite Ex, (E1 c' (cand_traj pb t0 x0 N _ _ _ _ Hc Hcand) Hcand). split; [lra|]. split; [ring|].
    intros Ez us Hus Htu. subst N. pose proof (E2 ltac:(lra) _ (rollout_traj pb t0 x0 us Htu)) as Ho.
    unfold total at 2 in Ho. cbn [rollout_of cd_cost] in Ho. rewrite rollout_cost in Ho. exact Ho.
  Qed.

  (** C61, whole runs: lambda is lowered by every accepted step and reaches zero after J + 1 of them if
      initial_lambda < lambda_min * lambda_factor^(1 + ... + J); the iteration after that lands on the optimum. The run can
      only end without an optimum if one of the two termination tests fired on the way. *)
  Theorem C61_solve_optimal J jk fuel us s b s' :
    (exists rest, cf_alpha_list cf = 1 :: rest) -> 0 <= cf_cost_update_ratio_thre cf < 1 ->
    1 < cf_lambda_factor cf -> 0 < cf_lambda_min cf -> 0 < cf_initial_dlambda cf <= 1 ->
    0 <= cf_initial_lambda cf < cf_lambda_min cf * cf_lambda_factor cf ^ triangle J ->
    (Z.of_nat J + 2 <= cf_max_iter cf)%Z -> inputs_typed pb t0 us ->
    ddp_solve LL pb cf limits jk fuel qfuel t0 x0 us s = Ok b s' ->
    (forall vs, length vs = length us -> inputs_typed pb t0 vs -> total (s_cd s') <= cost_of pb t0 0 x0 vs) \/
    (b = true /\ (length (s_trace s') <= J + 3)%nat /\
     exists es e, s_trace s' = es ++ [e] /\ (1 <= length es)%nat /\
       (0 <= tr_k_rel_norm e < cf_k_rel_norm_thre cf \/
        (0 <= tr_actual e < cf_cost_update_thre cf /\ tr_actual e = tr_expected e /\ tr_alpha e = 1))).
  Proof.
    intros Ha Hth Hf Hm Hd0 Hl0 Hmi Htu E.
    destruct (solve_ok _ _ _ _ _ _ _ _ _ _ _ _ _ E) as ([Hlen _] & Hro & c & r & es & (Hro0 & Hus & g0 & Hits) & Hb & Htr).
    assert (En : Z.to_nat (cf_horizon cf) = length us) by lia. rewrite En in *.
    assert (Em : exists m, Z.to_nat (cf_max_iter cf) = (S J + S m)%nat) by (exists (Z.to_nat (cf_max_iter cf) - J - 2)%nat; lia).
    destruct Em as [m Em]. rewrite Em in Hits.
    assert (Hc : traj pb t0 x0 (length us) c) by (split; [exact Hro0|intros i u Hu; apply Htu; rewrite <- Hus; exact Hu]).
    rewrite <- tri_triangle in Hl0.
    destruct (reg_run pb cf t0 x0 _ LL limits qfuel HL Hlq Hcv Hcon Hx0 Ha Hth Hf (S J) m 1 _ _ _ _ Hits Hc)
      as [Ho|(Hr & Hle & es1 & e & Ees & Hcase)].
    - split; cbn; lra.
    - apply downs_zero; try assumption; [split; cbn [mreg fst snd]; lra|cbn [mreg fst snd]; lra|cbn [mreg fst snd]; lra].
    - left. intros vs Hvs Htv. rewrite <- Hvs in *. specialize (Ho _ (rollout_traj pb t0 x0 vs Htv)).
      unfold total at 2 in Ho. cbn [rollout_of cd_cost] in Ho. rewrite rollout_cost in Ho. exact Ho.
    - right. split; [rewrite Hb, Hr; reflexivity|]. rewrite Htr. cbn [length]. split; [lia|].
      exists (trace_start cf c :: es1), e. rewrite Ees. split; [reflexivity|]. split; [cbn; lia|]. exact Hcase.
  Qed.

  (** With both termination tests switched off the run always ends on an optimum. *)
  Theorem C61_solve_optimal_always J jk fuel us s b s' :
    (exists rest, cf_alpha_list cf = 1 :: rest) -> 0 <= cf_cost_update_ratio_thre cf < 1 ->
    1 < cf_lambda_factor cf -> 0 < cf_lambda_min cf -> 0 < cf_initial_dlambda cf <= 1 ->
    0 <= cf_initial_lambda cf < cf_lambda_min cf * cf_lambda_factor cf ^ triangle J ->
    (Z.of_nat J + 2 <= cf_max_iter cf)%Z -> cf_k_rel_norm_thre cf <= 0 -> cf_cost_update_thre cf <= 0 -> inputs_typed pb t0 us ->
    ddp_solve LL pb cf limits jk fuel qfuel t0 x0 us s = Ok b s' ->
    forall vs, length vs = length us -> inputs_typed pb t0 vs -> total (s_cd s') <= cost_of pb t0 0 x0 vs.
  Proof.
    intros Ha Hth Hf Hm Hd0 Hl0 Hmi Hk Hcu Htu E.
    destruct (C61_solve_optimal J jk fuel us s b s' Ha Hth Hf Hm Hd0 Hl0 Hmi Htu E) as [H|(_ & _ & es & e & _ & _ & [Hr|Hr])]; [exact H| |]; exfalso; lra.
  Qed.

  (** The default regularisation settings: six iterations are enough. *)
  Theorem C61_defaults jk fuel us s b s' :
    (exists rest, cf_alpha_list cf = 1 :: rest) -> cf_cost_update_ratio_thre cf = 0 ->
    cf_lambda_factor cf = 16 / 10 -> cf_lambda_min cf = 1 / 1000000 -> cf_initial_dlambda cf = 1 -> cf_initial_lambda cf = 1 / 10000 ->
    (6 <= cf_max_iter cf)%Z -> inputs_typed pb t0 us ->
    ddp_solve LL pb cf limits jk fuel qfuel t0 x0 us s = Ok b s' ->
    (forall vs, length vs = length us -> inputs_typed pb t0 vs -> total (s_cd s') <= cost_of pb t0 0 x0 vs) \/
    (b = true /\ (length (s_trace s') <= 7)%nat /\
     exists es e, s_trace s' = es ++ [e] /\ (1 <= length es)%nat /\
       (0 <= tr_k_rel_norm e < cf_k_rel_norm_thre cf \/
        (0 <= tr_actual e < cf_cost_update_thre cf /\ tr_actual e = tr_expected e /\ tr_alpha e = 1))).
  Proof.
    intros Ha Hth Hf Hm Hd0 Hl0 Hmi Htu E. apply (C61_solve_optimal 4 jk fuel us s b s' Ha); try assumption; rewrite ?Hth, ?Hf, ?Hm, ?Hd0, ?Hl0; try lra; try lia.
    change (triangle 4) with 10%nat. cbn [pow]. lra.
  Qed.
End Reg.
Print Assumptions C61_pass.
Print Assumptions C61_solve_optimal.
Print Assumptions C61_solve_optimal_always.
Print Assumptions C61_defaults.

(** The problem of C13 with the default regularisation, six iterations and no termination tests. *)
Definition reg_cf : config R :=
  let d := with_cf false false 6 3 in
  {| cf_print_level := cf_print_level d; cf_second := cf_second d; cf_constraint := cf_constraint d;
     cf_max_iter := cf_max_iter d; cf_horizon := cf_horizon d; cf_reg_type := cf_reg_type d;
     cf_initial_lambda := cf_initial_lambda d; cf_initial_dlambda := cf_initial_dlambda d;
     cf_lambda_factor := cf_lambda_factor d; cf_lambda_min := cf_lambda_min d; cf_lambda_max := cf_lambda_max d;
     cf_k_rel_norm_thre := 0; cf_lambda_thre := cf_lambda_thre d;
     cf_alpha_list := cf_alpha_list d; cf_cost_update_ratio_thre := cf_cost_update_ratio_thre d;
     cf_cost_update_thre := 0 |}.
Lemma reg_example_run : exists (b : bool) (s' : ddp R), ddp_solve chol_llt vary_pb reg_cf vary_lim vary_junk 81 500 0 [5] lq_us vary_s0 = Ok b s'.
Proof.
  assert (Hnf : ddp_solve chol_llt vary_pb reg_cf vary_lim vary_junk 81 500 0 [5] lq_us vary_s0 <> OutOfFuel).
  { apply (proj2 (C08_terminates_R reg_cf ltac:(cbn; lra) ltac:(cbn; lra)) 80%nat). cbn -[pow]. lra. }
  destruct (C15_returns chol_llt vary_pb reg_cf vary_lim vary_junk 81 500 0 [5] lq_us vary_s0) as (b & s' & E & _).
  - apply vary_wd.
  - apply chol_dims.
  - apply vary_limits.
  - apply vary_junk_ok.
  - apply vary_obj.
  - split; [reflexivity|discriminate].
  - split; [reflexivity|]. intros _ i u Hu. rewrite (lq_us_typed i u Hu), vary_nu_of. reflexivity.
  - reflexivity.
  - exact Hnf.
  - eauto.
Qed.
(** The hypotheses hold together: this run starts with lambda = 1e-4 and returns an optimum after six iterations. *)
Example C61_nonvacuous : cf_initial_lambda reg_cf > 0 /\ exists (b : bool) (s' : ddp R),
  ddp_solve chol_llt vary_pb reg_cf vary_lim vary_junk 81 500 0 [5] lq_us vary_s0 = Ok b s' /\
  forall vs, length vs = 3%nat -> inputs_typed vary_pb 0 vs -> total (s_cd s') <= cost_of vary_pb 0 0 [5] vs.
Proof.
  split; [cbn; lra|].
  destruct reg_example_run as (b & s' & E). exists b, s'. split; [exact E|].
  apply (C61_solve_optimal_always chol_llt vary_pb reg_cf vary_lim 500 0 [5] chol_exact vary_lq vary_convex eq_refl eq_refl
           4 vary_junk 81 lq_us vary_s0 b s'); try exact E.
  - exists [/ 2; / 10]. unfold reg_cf, with_cf, default_config. cbn [cf_alpha_list]. numR. f_equal; [field|]. f_equal; [field|]. f_equal. field.
  - cbn. lra.
  - cbn. lra.
  - cbn. lra.
  - cbn. lra.
  - cbn -[pow triangle]. change (triangle 4) with 10%nat. split; [lra|]. cbn [pow]. lra.
  - cbn. lia.
  - cbn. lra.
  - cbn. lra.
  - apply lq_us_typed.
Qed.
