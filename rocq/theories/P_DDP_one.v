(** C78 for DDP: with one input per step the descent properties of C70 hold under input limits without any condition on how the Box
    QPs ended. *)
From Verif Require Import Prelude Scalar LinAlg BoxQP DDP DDPSpec DDPProofs DDPCor DDPReal DDPSafe RLin Chol CholProofs LQ LQ2 LQ3 LQ4
  GmresSpec P_Ode CgmresGrad Problems ProbSpec ProbProofs ProbProofs2 ProbProofs3 ProbSolve DDPDescent DDPBoxDescent.
From Verif Require Import DDPLimits P_DDP_lq ExDDP ExQPR RQ P_DDP_descent P_DDP_box.
From Coq Require Import QArith Qreals Reals Lra Psatz.
Local Open Scope R_scope.

Section Limits.
  Variables (LL : lltops R) (pb : problem R) (cf : config R) (limits : option (R -> vec R * vec R)) (qfuel : nat).
  Variables (t0 : R) (x0 : vec R) (N : nat) (c : cdata R) (l mu : R) (g : pass R).
  Hypothesis Hsp : smooth_problem pb.
  Hypothesis Hpc : psd_costs pb.
  Hypothesis Hmu : input_modulus pb mu.
  Hypothesis Hpos : 0 < mu.
  Hypothesis Hone : forall t, (nu_of pb t <= 1)%nat.
  Hypothesis HLL : exact_llt LL.
  Hypothesis Hx0 : length x0 = pb_nx pb.
  Hypothesis Hro : is_rollout pb t0 x0 N c.
  Hypothesis Ht : inputs_typed pb t0 (cd_u c).
  Hypothesis Hlim : within_limits pb t0 limits (cd_u c).
  Hypothesis Hl : 0 <= l.
  Hypothesis Hcon : cf_constraint cf = true.
  Hypothesis Hb : backward pb cf t0 N LL limits qfuel c l (Some g).
  Notation candidate := (is_candidate pb t0 x0 N c).
  Notation thre := (/ 100000000).
  Let Hset outs : Forall settled outs \/ one_input pb LL mu := or_intror (conj HLL (conj Hpos Hone)).

  (** The true cost changes along the step factor at a rate of at most the gradient threshold of BoxQP times the length of the gains,
      less the curvature. *)
  Theorem C78_ddp_slope F : (forall a, candidate g a (F a)) ->
    exists s, derivable_pt_lim (fun a => total (F a)) 0 s /\ s <= thre * gain_size g - mu / 2 * gain_square g.
  Proof.
    intros HF. apply (C70_boxes LL pb cf limits qfuel t0 N c l g Hcon) in Hb as (outs & B).
    destruct (C70_slope LL pb cf limits qfuel t0 x0 N Hsp Hpc Hx0 c l Hro Ht Hl g outs mu B Hlim (Hset outs) Hmu F HF) as (s & D & S1 & _). eauto.
  Qed.
  (** Gains that are not tiny cannot be rejected by a line search that contains a short enough factor. *)
  Theorem C78_ddp_search : cf_cost_update_ratio_thre cf < / 4 -> 0 < gain_size g -> 3 * thre * gain_size g <= mu * gain_square g ->
    exists abar, 0 < abar /\ (forall a c', 0 < a < abar -> candidate g a c' -> total c' < total c) /\
      forall alphas o al ac ex ra, search pb cf t0 x0 N c g alphas o al ac ex ra ->
        (exists a, In a alphas /\ 0 < a < abar) -> exists c', o = Some c'.
  Proof.
    intros H1 H2 H3. apply (C70_boxes LL pb cf limits qfuel t0 N c l g Hcon) in Hb as (outs & B).
    destruct (C70_accept LL pb cf limits qfuel t0 x0 N Hsp Hpc Hx0 c l Hro Ht Hl g outs mu B Hlim (Hset outs) Hmu H1 H2 H3) as (a1 & P1 & A1).
    destruct (C70_search LL pb cf limits qfuel t0 x0 N Hsp Hpc Hx0 c l Hro Ht Hl g outs mu B Hlim (Hset outs) Hmu H1 H2 H3) as (a2 & P2 & A2).
    exists (Rmin a1 a2). split; [apply Rmin_pos; assumption|]. pose proof (Rmin_l a1 a2). pose proof (Rmin_r a1 a2). split.
    - intros a c' Ha Hc'. apply (A1 a c'); [lra|exact Hc'].
    - intros alphas o al ac ex ra Hs (a & Hin & Ha). apply (A2 _ _ _ _ _ _ Hs). exists a. split; [exact Hin|lra].
  Qed.
End Limits.
Print Assumptions C78_ddp_slope.
Print Assumptions C78_ddp_search.

(** The cart-pole of the tests has one input; its weight is the modulus. *)
Theorem C78_cartpole p : cart_ok p -> (forall i, 0 <= vget (cr_rx p) i) -> 0 < vget (cr_ru p) 0 -> (forall i, 0 <= vget (cr_tx p) i) ->
  let pb := cartpole sin cos p in
  smooth_problem pb /\ psd_costs pb /\ input_modulus pb (vget (cr_ru p) 0) /\ forall t, (nu_of pb t <= 1)%nat.
Proof.
  intros OK P1 P2 P3 pb. split; [apply cart_smooth; exact OK|]. split; [|split].
  - apply cart_psd; auto. intros i. pose proof (co_ru p OK) as L. destruct (cr_ru p) as [|w [|]]; try discriminate L. destruct i as [|i]; [exact (Rlt_le _ _ P2)|]. unfold vget. cbn. destruct i; apply Rle_refl.
  - intros t x u old Lx Lu Lxx Luu Lxu _ _ E y. unfold pb in E |- *. cbn [cartpole pb_runningCostDeriv] in E. unfold cart_Ld in E. injection E as _ _ _ <- _.
    cbn [cartpole nu_of pb_fixed_nu]. cbn [Rsum]. rewrite mget_mdiag by (rewrite (co_ru p OK); lia). cbn [Nat.eqb]. right. change (nth 0 (cr_ru p) 0) with (vget (cr_ru p) 0). ring.
  - intros t. cbn. lia.
Qed.
Print Assumptions C78_cartpole.

(** ** Concrete cases *)
(** f(x) = 2 x^2 + x over [-1/8, 1/8] from 0: one step to the limit -1/8. *)
Example C78_nonvacuous : exists out, let H := m11 4 in
  qp_solve chol_llt qp_default_config 1 H [1] [- / 8] [/ 8] 2 2 None [0] tt = Ok out tt /\
  exact_llt chol_llt /\ 0 < mget H 0 0 /\ qp_grad_thre (qp_default_config (T := R)) <> 0 /\ 0 < qp_step_factor (qp_default_config (T := R)) <= 1 /\
  0 <= qp_armijo_param (qp_default_config (T := R)) <= qp_step_factor (qp_default_config (T := R)) / 2 /\ qo_x out = [- / 8].
Proof.
  assert (E : exists out, qp_solve chol_llt qp_default_config 1 (m11 4) [1] [- / 8] [/ 8] 2 2 None [0] tt = Ok out tt /\ qo_retval out = 6%Z /\ qo_x out = [Q2R (-1 # 8)] /\ qo_free out = idx_of false [true]).
  { apply (run_step_exit6 chol_llt qp_default_config 1 (m11 4) [1] [- / 8] [/ 8] 0 2 None [0] tt [Q2R 0] [Q2R 1] [Q2R (-1 # 4)] [Q2R (-1 # 8)] [Q2R (1 # 2)]
      [false] [true] (Q2R 0) (Q2R (-3 # 32))); try reflexivity.
    all: rcbv; rq; reflexivity. }
  destruct E as (out & Eo & Er & Ex & _).
  exists out. cbv zeta. split; [exact Eo|]. split; [exact chol_exact|]. split; [cbn; unfold mget; cbn; lra|].
  split; [cbn; numR; lra|]. split; [cbn; numR; lra|]. split; [cbn; numR; lra|]. rewrite Ex. apply f_equal2; [unfold Q2R; cbn; lra|reflexivity].
Qed.
(** The same property of the one-input example of C70. *)
Example C78_lq : one_input (lq_pb (T := R)) chol_llt 1 /\ input_modulus (lq_pb (T := R)) 1.
Proof. split; [split; [exact chol_exact|split; [lra|intros t; cbn; lia]]|exact lq_modulus]. Qed.
(** On doubles: x^2/2 + x over [-1/1024, 1] from 0 needs ten shortened steps and then arrives on the limit. *)
Example C78_backtracks : match qp_solve (T := f64) chol_llt qp_default_config 1 (m11 (nofZ 1)) [nofZ 1] [nlit (-1) 1024] [nofZ 1] 5 200 None [nzero] tt with
  | Ok out _ => qo_x out = [nlit (-1) 1024 : f64] /\ map qt_snum (qo_trace out) = [0; 10; 0]%Z /\ qo_retval out = 6%Z
  | _ => False end.
Proof. vm_compute. repeat split. Qed.
