(** Properties C10, C11 of DDPSolver: input limits, in exact arithmetic. *)
From Verif Require Import Prelude Scalar LinAlg BoxQP BoxQPProofs DDP DDPSpec DDPProofs DDPCor DDPReal DDPSafe DDPLimits RLin Chol
  ExDDP P_DDP_real P_DDP_safe.
From Coq Require Import Reals Lra.
Open Scope R_scope.

Section Limits.
  Variables (LL : lltops R) (pb : problem R) (cf : config R) (f : R -> vec R * vec R) (jk : junk R).
  Variables (fuel qfuel : nat) (t0 : R) (x0 : vec R) (us : list (vec R)) (s : ddp R).
  Notation horizon := (Z.to_nat (cf_horizon cf)).
  Notation solve := (ddp_solve LL pb cf (Some f) jk fuel qfuel t0 x0 us s).
  Hypothesis Hcon : cf_constraint cf = true.
  Hypothesis Hlh : forall t j, vget (fst (f t)) j <= vget (snd (f t)) j.
  Hypothesis Halpha : forall a, In a (cf_alpha_list cf) -> 0 <= a <= 1.

  (** C10: the first input stays within the limits. *)
  Theorem C10_first_input_within_limits b s' : solve = Ok b s' ->
    (forall u, nth_error us 0 = Some u -> within (fst (f t0)) (snd (f t0)) u) ->
    forall u, nth_error (cd_u (s_cd s')) 0 = Some u -> within (fst (f t0)) (snd (f t0)) u.
  Proof.
    intros E Hu u Hu'. destruct (solve_ok _ _ _ _ _ _ _ _ _ _ _ _ _ E) as (_ & Hro & c & r & es & (Hro0 & Hus & g0 & Hits) & Hb & Htr).
    assert (E0 : t0 + INR 0 * pb_dt pb = t0) by (cbn; ring).
    apply iterations_accepts in Hits. cbn [mc fst snd] in Hits.
    assert (Hn : (0 < horizon)%nat).
    { rewrite <- (ro_lu _ _ _ _ _ Hro). apply nth_error_Some. congruence. }
    assert (Hf0 : first_ok pb t0 f c).
    { intros u0 Hu0. rewrite E0. apply Hu. rewrite <- Hus. exact Hu0. }
    pose proof (accepts_first _ _ _ _ _ _ _ _ Hcon Hlh Halpha _ _ Hits Hn Hro0 Hf0) as Hfin.
    specialize (Hfin u Hu'). rewrite E0 in Hfin. exact Hfin.
  Qed.

  (** C11: the result is reached from the initial rollout by accepted steps; in each, the excess of every input
      component over its limits shrinks by the factor 1 - alpha up to the feedback term K (x' - x). *)
  Theorem C11_excess_only_from_feedback b s' : solve = Ok b s' ->
    exists c, is_rollout pb t0 x0 horizon c /\ cd_u c = us /\
      excess_steps pb cf t0 horizon LL f qfuel c (s_cd s').
  Proof.
    intros E. destruct (solve_ok _ _ _ _ _ _ _ _ _ _ _ _ _ E) as (_ & _ & c & r & es & (Hro0 & Hus & g0 & Hits) & Hb & Htr).
    exists c. split; [exact Hro0|]. split; [exact Hus|].
    apply iterations_accepts in Hits. eapply accepts_excess; eauto.
  Qed.
End Limits.
Print Assumptions C10_first_input_within_limits.
Print Assumptions C11_excess_only_from_feedback.

(** The hypotheses are met by the problem of C15 with limits [-1, 1], horizon 3 (input dimensions 2, 2, 0), started at
    x = 5 with zero inputs; the call returns. *)
Definition lim_cf : config R := with_cf false true 3 3.
Definition lim_us : list (vec R) := [[0; 0]; [0; 0]; []].
Example C10_C11_nonvacuous : exists f b s', vary_lim (T := R) = Some f /\
  cf_constraint lim_cf = true /\ (forall t j, vget (fst (f t)) j <= vget (snd (f t)) j) /\
  (forall a, In a (cf_alpha_list lim_cf) -> 0 <= a <= 1) /\
  (forall u, nth_error lim_us 0 = Some u -> within (fst (f 0)) (snd (f 0)) u) /\
  ddp_solve chol_llt vary_pb lim_cf (Some f) vary_junk 81 500 0 [5] lim_us vary_s0 = Ok b s'.
Proof.
  assert (Hnf : ddp_solve chol_llt vary_pb lim_cf vary_lim vary_junk 81 500 0 [5] lim_us vary_s0 <> OutOfFuel).
  { apply (proj2 (C08_terminates_R lim_cf ltac:(cbn; lra) ltac:(cbn; lra)) 80%nat). cbn -[pow]. lra. }
  destruct (C15_returns chol_llt vary_pb lim_cf vary_lim vary_junk 81 500 0 [5] lim_us vary_s0) as (b & s' & E & _).
  - apply vary_wd.
  - apply chol_dims.
  - apply vary_limits.
  - apply vary_junk_ok.
  - apply vary_obj.
  - split; [reflexivity|discriminate].
  - split; [reflexivity|]. intros _ i u. cbn [vary_pb pb_inputDim pb_dt].
    assert (V : forall t, t < / 2 -> vary_nu t = 2%nat).
    { intros t Ht. unfold vary_nu. destruct (t <? nhalf)%num eqn:En; [reflexivity|]. exfalso. unfold nhalf in En. numR.
      apply Rltb_false in En. lra. }
    assert (W : forall t, / 2 <= t -> vary_nu t = 0%nat).
    { intros t Ht. unfold vary_nu. destruct (t <? nhalf)%num eqn:En; [|reflexivity]. exfalso. unfold nhalf in En. numR.
      apply Rltb_true in En. lra. }
    destruct i as [|[|[|i]]]; cbn [nth_error lim_us]; intros Hu; [| | |destruct i; discriminate]; injection Hu as <-; cbn [length].
    + rewrite V; [reflexivity|]. unfold nofnat, nofZ; numR. cbn. lra.
    + rewrite V; [reflexivity|]. unfold nofnat, nofZ; numR. cbn. lra.
    + rewrite W; [reflexivity|]. unfold nofnat, nofZ; numR. cbn. lra.
  - reflexivity.
  - exact Hnf.
  - eexists _, b, s'. split; [reflexivity|]. split; [reflexivity|]. split.
    { intros t j. cbn [fst snd]. destruct (Nat.lt_ge_cases j (vary_nu t)).
      - rewrite !vbuild_get by assumption. numR. lra.
      - rewrite !vget_out by (rewrite vbuild_length; assumption). lra. }
    split; [cbn; intros a [<-|[<-|[<-|[]]]]; lra|]. split; [|exact E].
    intros u Hu j Hj. cbn in Hu. injection Hu as <-. cbn [length] in Hj.
    assert (V : vary_nu 0 = 2%nat).
    { unfold vary_nu. destruct (0 <? nhalf)%num eqn:En; [reflexivity|]. exfalso. unfold nhalf in En. numR.
      apply Rltb_false in En. lra. }
    cbn [fst snd]. rewrite V, !vbuild_get by assumption. numR.
    destruct j as [|[|j]]; [| |lia]; cbn; lra.
Qed.
