(** Properties C01, C02, C03, C05, C06 (and the IEEE counterexamples for C04, C06, C11, C16).
    Everything here holds for every scalar type, every LLT and every prior state of the solver object. *)
From Verif Require Import Prelude Scalar LinAlg BoxQP BoxQPProofs DDP DDPSpec DDPProofs DDPCor Chol ExDDP.

Section C01.
  Context {T : Type} {N : Num T} (LL : lltops T).
  Variables (pb : problem T) (cf : config T) (limits : option (T -> vec T * vec T)) (jk : junk T).
  Variables (fuel qfuel : nat) (t0 : T) (x0 : vec T) (us : list (vec T)) (s : ddp T).
  Notation solve := (ddp_solve LL pb cf limits jk fuel qfuel t0 x0 us s).

  (** C01: after solve returns, controlData() is a rollout of the user's problem from current_x at current_t. *)
  Theorem C01_rollout b s' : solve = Ok b s' -> is_rollout pb t0 x0 (Z.to_nat (cf_horizon cf)) (s_cd s').
  Proof. exact (C01_ok LL pb cf limits jk fuel qfuel t0 x0 us s b s'). Qed.

  (** It is also one when an exception leaves solve after validation. *)
  Theorem C01_rollout_on_exception e s' : solve = Throw e s' -> valid_args pb cf t0 us ->
    is_rollout pb t0 x0 (Z.to_nat (cf_horizon cf)) (s_cd s').
  Proof. exact (C01_throw LL pb cf limits jk fuel qfuel t0 x0 us s e s'). Qed.

  (** C02: validation. *)
  Theorem C02_wrong_length : Z.of_nat (length us) <> cf_horizon cf ->
    exists s', solve = Throw InvalidArgument s' /\ s_cd s' = s_cd s /\ s_trace s' = s_trace s.
  Proof. exact (C02_length LL pb cf limits jk fuel qfuel t0 x0 us s). Qed.
  Theorem C02_wrong_dims : Z.of_nat (length us) = cf_horizon cf -> ~ valid_args pb cf t0 us ->
    exists s', solve = Throw RuntimeError s' /\ s_cd s' = s_cd s /\ s_trace s' = s_trace s.
  Proof. exact (C02_dims LL pb cf limits jk fuel qfuel t0 x0 us s). Qed.
  Theorem C02_invalid_argument_only s' : solve = Throw InvalidArgument s' ->
    Z.of_nat (length us) <> cf_horizon cf.
  Proof. exact (C02_only LL pb cf limits jk fuel qfuel t0 x0 us s s'). Qed.
  Theorem C02_accepts_only_valid b s' : solve = Ok b s' -> valid_args pb cf t0 us.
  Proof. exact (C02_ok LL pb cf limits jk fuel qfuel t0 x0 us s b s'). Qed.

  (** C03 and C05: shape of a run.  [es] are the trace entries after the initial one.
      true:  the last iteration ended by a termination test.
      false: max_iter iterations all asked to continue, or lambda exceeds lambda_max. *)
  Theorem C03_C05_run_shape b s' : solve = Ok b s' ->
    exists c es, is_rollout pb t0 x0 (Z.to_nat (cf_horizon cf)) c /\ cd_u c = us /\
      s_trace s' = trace_start cf c :: es /\
      length es <= Z.to_nat (cf_max_iter cf) /\
      (forall i e, nth_error (s_trace s') i = Some e -> tr_iter e = Z.of_nat i) /\
      exists g0, let st0 := (c, (cf_initial_lambda cf, cf_initial_dlambda cf), g0) in
      (b = true -> exists es0 e s1, es = es0 ++ [e] /\ chain pb cf t0 x0 (Z.to_nat (cf_horizon cf)) LL limits qfuel st0 es0 s1 /\
           (small_gradient pb cf t0 (Z.to_nat (cf_horizon cf)) LL limits qfuel s1 e (mst_of s') \/
            small_update pb cf t0 x0 (Z.to_nat (cf_horizon cf)) LL limits qfuel s1 e (mst_of s'))) /\
      (b = false ->
         (length es = Z.to_nat (cf_max_iter cf) /\
          chain pb cf t0 x0 (Z.to_nat (cf_horizon cf)) LL limits qfuel st0 es (mst_of s')) \/
         (exists es0 e s1, es = es0 ++ [e] /\ chain pb cf t0 x0 (Z.to_nat (cf_horizon cf)) LL limits qfuel st0 es0 s1 /\
             nltb (cf_lambda_max cf) (s_lambda s') = true /\ s_cd s' = mc s1)).
  Proof. exact (run_shape LL pb cf limits jk fuel qfuel t0 x0 us s b s'). Qed.

  (** C06, the part that holds: the last trace entry reports the final cost and regularisation, unless the run
      ended on one of the two early-return paths, where cost, lambda and dlambda keep their initial 0. *)
  Theorem C06_last_entry b s' : solve = Ok b s' ->
    forall e, last (s_trace s') (trace0 0) = e ->
      (tr_cost e = total (s_cd s') /\ tr_lambda e = s_lambda s' /\ tr_dlambda e = s_dlambda s') \/
      (e = tr_set_krel (tr_k_rel_norm e) (trace0 (tr_iter e)) /\
       (b = true \/ nltb (cf_lambda_max cf) (s_lambda s') = true)).
  Proof. exact (C06_cases LL pb cf limits jk fuel qfuel t0 x0 us s b s'). Qed.
End C01.
Print Assumptions C01_rollout.
Print Assumptions C01_rollout_on_exception.
Print Assumptions C02_wrong_length.
Print Assumptions C02_wrong_dims.
Print Assumptions C02_invalid_argument_only.
Print Assumptions C02_accepts_only_valid.
Print Assumptions C03_C05_run_shape.
Print Assumptions C06_last_entry.

(** Non-vacuity: a run on IEEE doubles that returns true after two iterations with a changed trajectory. *)
Example C01_C03_C05_nonvacuous : exists b s', lq_run none nzero = Ok b s' /\
  (b && Nat.eqb (length (s_trace s')) 3 && negb (neqb (nsum (cd_cost (s_cd s'))) (nofZ 2)))%bool = true.
Proof. apply (ok_and_true (fun b s => b && Nat.eqb (length (s_trace s)) 3 && negb (neqb (nsum (cd_cost (s_cd s))) (nofZ 2)))%bool). vm_compute. reflexivity. Qed.
(** One that returns false. *)
Example C03_false_nonvacuous : exists b s', lq_run nzero nzero = Ok b s' /\ negb b = true.
Proof. apply (ok_and_true (fun b s => negb b)). vm_compute. reflexivity. Qed.
(** One that throws after validation. *)
Example C01_exception_nonvacuous : exists s', 
  ddp_solve chol_llt lq_pb (with_cf true false 50 1) None ex_junk 200 200 nzero [none] [[nzero : f64]] ex_s0
    = Throw RuntimeError s' /\ valid_args lq_pb (with_cf true false 50 1) nzero [[nzero : f64]].
Proof.
  eexists. split; [vm_compute; reflexivity|]. split; [reflexivity|discriminate].
Qed.
(** Wrong dimension with run-time input dimension. *)
Example C02_dims_nonvacuous : Z.of_nat (length [[nzero : f64; nzero]]) = cf_horizon (T := f64) (with_cf false false 5 1) /\
  ~ valid_args lq_pb_dyn (with_cf false false 5 1) nzero [[nzero : f64; nzero]].
Proof.
  split; [reflexivity|]. intros [_ H]. specialize (H eq_refl 0 _ eq_refl). discriminate.
Qed.

(** C06 refuted: a successful run whose last trace entry does not report the cost of controlData(). *)
Theorem C06_refuted : exists s', small_run = Ok true s' /\ last_cost_reported s' = false /\
  nltb nzero (nsum (cd_cost (s_cd s'))) = true /\ neqb (tr_cost (last (s_trace s') (trace0 0))) nzero = true.
Proof.
  destruct (ok_and_true (fun b s => b && (negb (last_cost_reported s) && (nltb nzero (nsum (cd_cost (s_cd s)))
              && neqb (tr_cost (last (s_trace s) (trace0 0))) nzero)))%bool small_run) as (b & s' & E & H).
  { vm_compute. reflexivity. }
  apply andb_true_iff in H as [-> H]. apply andb_true_iff in H as [H1 H]. apply andb_true_iff in H as [H2 H3].
  exists s'. split; [exact E|]. split; [apply negb_true_iff; exact H1|]. split; [exact H2|exact H3].
Qed.
Print Assumptions C06_refuted.

(** C04 refuted on IEEE doubles: default ratio threshold 0, input limits [1,2], warm start u = 0 outside them.
    The expected decrease is exactly -0.0, the cost rises from 0 to 1, the ratio -1/-0.0 = +inf passes the test,
    the worse trajectory is stored and solve returns true. *)
Theorem C04_refuted : exists s', cubic_run = Ok true s' /\
  neqb (tr_cost (hd (trace0 0) (s_trace s'))) nzero = true /\ neqb (nsum (cd_cost (s_cd s'))) (nofZ 1) = true /\
  nleb nzero (cf_cost_update_ratio_thre (T := f64) (with_cf false true 1 1)) = true.
Proof.
  destruct (ok_and_true (fun b s => b && (neqb (tr_cost (hd (trace0 0) (s_trace s))) nzero
              && neqb (nsum (cd_cost (s_cd s))) (nofZ 1)))%bool cubic_run) as (b & s' & E & H).
  { vm_compute. reflexivity. }
  apply andb_true_iff in H as [-> H]. apply andb_true_iff in H as [H1 H2]. exists s'.
  split; [exact E|]. split; [exact H1|]. split; [exact H2|vm_compute; reflexivity].
Qed.
Print Assumptions C04_refuted.

(** C11 refuted: limits [-1,1], all initial inputs within them, the returned second input is below -1.4. *)
Theorem C11_refuted : exists b s' u0 u1, pull_run = Ok b s' /\ cd_u (s_cd s') = [[u0]; [u1]] /\
  nltb u1 (nlit (-14) 10) = true.
Proof.
  destruct (ok_and_true (fun b s => match cd_u (s_cd s) with [[_]; [u1]] => nltb u1 (nlit (-14) 10) | _ => false end)
              pull_run) as (b & s' & E & H).
  { vm_compute. reflexivity. }
  exists b, s'. destruct (cd_u (s_cd s')) as [|[|u0 [|]] [|[|u1 [|]] [|]]]; try discriminate H.
  exists u0, u1. split; [exact E|]. split; [reflexivity|exact H].
Qed.
Print Assumptions C11_refuted.

(** C16 refuted: default thresholds, warm start at the optimum of a strictly convex LQ problem (x = 0, u = 0).
    All feed-forward gains are zero, yet solve returns false, with lambda driven beyond lambda_max. *)
Theorem C16_refuted : exists s', lq_run_opt = Ok false s' /\
  forallb (fun k => neqb (vnorm k) nzero) (s_k s') = true /\
  nltb (cf_lambda_max (with_cf false false 50 3)) (s_lambda s') = true.
Proof.
  destruct (ok_and_true (fun b s => negb b && (forallb (fun k => neqb (vnorm k) nzero) (s_k s)
              && nltb (cf_lambda_max (with_cf false false 50 3)) (s_lambda s)))%bool lq_run_opt) as (b & s' & E & H).
  { vm_compute. reflexivity. }
  apply andb_true_iff in H as [Hb H]. apply andb_true_iff in H as [H1 H2].
  exists s'. destruct b; [discriminate Hb|]. split; [exact E|]. split; [exact H1|exact H2].
Qed.
Print Assumptions C16_refuted.
