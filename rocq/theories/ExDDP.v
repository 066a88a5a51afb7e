(** Concrete DDP problems on IEEE doubles, used as non-vacuity examples and as counterexamples. *)
From Verif Require Import Prelude Scalar LinAlg BoxQP DDP DDPSpec Chol.
Local Open Scope num_scope.

Section Ex.
  Context {T : Type} {N : Num T}.
  Definition m11 (a : T) : mat T := mkmat 1 1 [[a]].

  Definition ex_deriv : deriv T :=
    {| dFx := m11 nzero; dFu := m11 nzero; dLx := [nzero]; dLu := [nzero]; dLxx := m11 nzero;
       dLuu := m11 nzero; dLxu := m11 nzero |}.
  Definition ex_junk : junk T :=
    {| jk_x := []; jk_u := []; jk_cost := fun _ => nzero; jk_k := []; jk_K := m11 nzero;
       jk_deriv := fun _ _ => ex_deriv |}.
  (** A freshly constructed solver. *)
  Definition ex_s0 : ddp T :=
    {| s_t := nzero; s_lambda := nzero; s_dlambda := nzero;
       s_cd := {| cd_x := []; cd_u := []; cd_cost := [] |};
       s_cand := {| cd_x := []; cd_u := []; cd_cost := [] |};
       s_k := []; s_K := []; s_deriv := []; s_Vx := []; s_Vxx := m11 nzero;
       s_dV0 := nzero; s_dV1 := nzero; s_trace := [] |}.

  Definition with_cf (second constraint : bool) (max_iter horizon : Z) : config T :=
    let d := default_config [nlit 1 1; nlit 1 2; nlit 1 10] in
    {| cf_print_level := cf_print_level d; cf_second := second; cf_constraint := constraint;
       cf_max_iter := max_iter; cf_horizon := horizon; cf_reg_type := cf_reg_type d;
       cf_initial_lambda := cf_initial_lambda d; cf_initial_dlambda := cf_initial_dlambda d;
       cf_lambda_factor := cf_lambda_factor d; cf_lambda_min := cf_lambda_min d; cf_lambda_max := cf_lambda_max d;
       cf_k_rel_norm_thre := cf_k_rel_norm_thre d; cf_lambda_thre := cf_lambda_thre d;
       cf_alpha_list := cf_alpha_list d; cf_cost_update_ratio_thre := cf_cost_update_ratio_thre d;
       cf_cost_update_thre := cf_cost_update_thre d |}.

  (** x' = x + u, running cost (x^2 + u^2)/2, terminal cost x^2/2. *)
  Definition lq_pb : problem T := {|
    pb_dt := nlit 1 10; pb_nx := 1; pb_fixed_nu := Some 1%nat; pb_inputDim := fun _ => 1%Z;
    pb_stateEq := fun t x u => [vget x 0 + vget u 0];
    pb_runningCost := fun t x u => nhalf * (vget x 0 * vget x 0) + nhalf * (vget u 0 * vget u 0);
    pb_terminalCost := fun t x => nhalf * (vget x 0 * vget x 0);
    pb_stateEqDeriv := fun t x u _ => (m11 none, m11 none);
    pb_stateEqDeriv2 := fun t x u _ => (m11 none, m11 none);
    pb_runningCostDeriv := fun t x u _ => ([vget x 0], [vget u 0], m11 none, m11 none, m11 nzero);
    pb_terminalCostDeriv := fun t x _ => ([vget x 0], m11 none) |}.

  (** The same with run-time input dimension. *)
  Definition lq_pb_dyn : problem T := {|
    pb_dt := pb_dt lq_pb; pb_nx := 1; pb_fixed_nu := None; pb_inputDim := fun _ => 1%Z;
    pb_stateEq := pb_stateEq lq_pb; pb_runningCost := pb_runningCost lq_pb;
    pb_terminalCost := pb_terminalCost lq_pb;
    pb_stateEqDeriv := pb_stateEqDeriv lq_pb; pb_stateEqDeriv2 := pb_stateEqDeriv2 lq_pb;
    pb_runningCostDeriv := pb_runningCostDeriv lq_pb; pb_terminalCostDeriv := pb_terminalCostDeriv lq_pb |}.

  (** x' = x, running cost u^3 + u^2/2 - u/2, no terminal cost. *)
  Definition cubic_pb : problem T := {|
    pb_dt := nlit 1 10; pb_nx := 1; pb_fixed_nu := Some 1%nat; pb_inputDim := fun _ => 1%Z;
    pb_stateEq := fun t x u => [vget x 0];
    pb_runningCost := fun t x u => let v := vget u 0 in v * v * v + nhalf * (v * v) - nhalf * v;
    pb_terminalCost := fun t x => nzero;
    pb_stateEqDeriv := fun t x u _ => (m11 none, m11 nzero);
    pb_stateEqDeriv2 := fun t x u _ => (m11 none, m11 nzero);
    pb_runningCostDeriv := fun t x u _ =>
      let v := vget u 0 in
      ([nzero], [nofZ 3 * (v * v) + v - nhalf], m11 nzero, m11 (nofZ 6 * v + nofZ 1), m11 nzero);
    pb_terminalCostDeriv := fun t x _ => ([nzero], m11 nzero) |}.

  (** dt = 1, x' = x + u; running cost 50 (u-1)^2 at t < 1/2 and (x^2+u^2)/2 later, terminal cost x^2/2. *)
  Definition pull_pb : problem T := {|
    pb_dt := nlit 1 1; pb_nx := 1; pb_fixed_nu := Some 1%nat; pb_inputDim := fun _ => 1%Z;
    pb_stateEq := fun t x u => [vget x 0 + vget u 0];
    pb_runningCost := fun t x u =>
      if t <? nhalf then nofZ 50 * ((vget u 0 - nofZ 1) * (vget u 0 - nofZ 1))
      else nhalf * (vget x 0 * vget x 0) + nhalf * (vget u 0 * vget u 0);
    pb_terminalCost := fun t x => nhalf * (vget x 0 * vget x 0);
    pb_stateEqDeriv := fun t x u _ => (m11 none, m11 none);
    pb_stateEqDeriv2 := fun t x u _ => (m11 none, m11 none);
    pb_runningCostDeriv := fun t x u _ =>
      if t <? nhalf then ([nzero], [nofZ 100 * (vget u 0 - nofZ 1)], m11 nzero, m11 (nofZ 100), m11 nzero)
      else ([vget x 0], [vget u 0], m11 none, m11 none, m11 nzero);
    pb_terminalCostDeriv := fun t x _ => ([vget x 0], m11 none) |}.

  Definition box (a b : T) : option (T -> vec T * vec T) := Some (fun _ => ([a], [b])).
End Ex.

(** Readable view of a binary64 value: integer mantissa and exponent. *)
Definition f2 (x : f64) : Z * Z :=
  match x with
  | SpecFloat.S754_finite s m e => ((if s then Z.neg m else Z.pos m), e)
  | SpecFloat.S754_zero _ => (0, 0)%Z
  | SpecFloat.S754_infinity _ => (1, 9999)%Z
  | SpecFloat.S754_nan => (0, 9999)%Z
  end.

(** Boolean observations about the outcome of a call. *)
Definition ok_and {T} (p : bool -> ddp T -> bool) (o : outcome (ddp T) bool) : bool :=
  match o with Ok b s => p b s | _ => false end.
Lemma ok_and_true {T} p (o : outcome (ddp T) bool) : ok_and p o = true -> exists b s, o = Ok b s /\ p b s = true.
Proof. destruct o; cbn; try discriminate; eauto. Qed.

(** A normal run: starts at x = 1 with zero inputs, horizon 3. *)
Definition lq_run (x0 : f64) (u : f64) : outcome (ddp f64) bool :=
  ddp_solve chol_llt lq_pb (with_cf false false 50 3) None ex_junk 200 200 nzero [x0] [[u]; [u]; [u]] ex_s0.

(** The default configuration at horizon 3, warm-started at the optimum x = 0, u = 0. *)
Definition lq_run_opt := lq_run nzero nzero.

(** Input limits [1, 2], warm start u = 0. *)
Definition cubic_run : outcome (ddp f64) bool :=
  ddp_solve chol_llt cubic_pb (with_cf false true 1 1) (box (nofZ 1) (nofZ 2)) ex_junk 200 1000
    nzero [nzero] [[nzero]] ex_s0.

(** Input limits [-1, 1], warm start u = (0, 0) from x = 1.9. *)
Definition pull_run : outcome (ddp f64) bool :=
  ddp_solve chol_llt pull_pb (with_cf false true 1 2) (box (nofZ (-1)) (nofZ 1)) ex_junk 200 1000
    nzero [nlit 19 10] [[nzero]; [nzero]] ex_s0.

(** No initial regularisation, warm start x = 1/100000, u = 0: ends by the small-gradient test. *)
Definition small_cf : config f64 :=
  let d := with_cf false false 50 3 in
  {| cf_print_level := cf_print_level d; cf_second := cf_second d; cf_constraint := cf_constraint d;
     cf_max_iter := cf_max_iter d; cf_horizon := cf_horizon d; cf_reg_type := cf_reg_type d;
     cf_initial_lambda := nzero; cf_initial_dlambda := cf_initial_dlambda d;
     cf_lambda_factor := cf_lambda_factor d; cf_lambda_min := cf_lambda_min d; cf_lambda_max := cf_lambda_max d;
     cf_k_rel_norm_thre := cf_k_rel_norm_thre d; cf_lambda_thre := cf_lambda_thre d;
     cf_alpha_list := cf_alpha_list d; cf_cost_update_ratio_thre := cf_cost_update_ratio_thre d;
     cf_cost_update_thre := cf_cost_update_thre d |}.
Definition small_run : outcome (ddp f64) bool :=
  ddp_solve chol_llt lq_pb small_cf None ex_junk 200 200 nzero [nlit 1 100000] [[nzero]; [nzero]; [nzero]] ex_s0.

(** Boolean test that the last trace entry reports the cost of controlData(). *)
Definition last_cost_reported (s : ddp f64) : bool :=
  neqb (tr_cost (last (s_trace s) (trace0 0))) (nsum (cd_cost (s_cd s))).
