(** Properties C09, C14, C15: absence of undefined behaviour, rejection of the second-derivative option, independence of
    the history of the solver object.  Everything holds for every scalar type. *)
From Verif Require Import Prelude Scalar LinAlg BoxQP BoxQPProofs DDP DDPSpec DDPProofs DDPReal DDPSafe DDPHist Chol ExDDP.

Section Props.
  Context {T : Type} {N : Num T} (LL : lltops T).
  Variables (pb : problem T) (cf : config T) (limits : option (T -> vec T * vec T)).

  (** C15.  [well_dimensioned]: callbacks return values of the documented size; [limits_ok]: with constraints on, a
      limits function is set and returns vectors of the input's size; [object_ok], [junk_ok], [args_typed]: what the
      C++ types say about members, fresh storage and arguments; [llt_dims]: a factorisation returns a result of the
      size of its right-hand side.
      Then no call reaches undefined behaviour, and an exception is invalid_argument for a wrong list length,
      runtime_error for a wrong input dimension, or runtime_error for the second-derivative option: never
      bad_function_call or out_of_range.  The object remains usable. *)
  Theorem C15_no_undefined_behaviour jk fuel qfuel t0 x0 us s :
    well_dimensioned pb -> llt_dims LL -> limits_ok pb cf limits -> junk_ok pb jk -> object_ok pb s -> args_typed pb x0 us ->
    match ddp_solve LL pb cf limits jk fuel qfuel t0 x0 us s with
    | UB => False
    | OutOfFuel => True
    | Ok _ s' => object_ok pb s'
    | Throw e s' => object_ok pb s' /\
        (e = InvalidArgument /\ Z.of_nat (length us) <> cf_horizon cf \/
         e = RuntimeError /\ Z.of_nat (length us) = cf_horizon cf /\ ~ valid_args pb cf t0 us \/
         e = RuntimeError /\ cf_second cf = true)
    end.
  Proof. intros. apply (ddp_solve_safe LL pb cf limits jk fuel qfuel t0 x0 us s); assumption. Qed.

  (** Hence, with enough fuel (see C08), solve returns whenever its arguments are valid. *)
  Theorem C15_returns jk fuel qfuel t0 x0 us s :
    well_dimensioned pb -> llt_dims LL -> limits_ok pb cf limits -> junk_ok pb jk -> object_ok pb s -> args_typed pb x0 us ->
    valid_args pb cf t0 us -> cf_second cf = false ->
    ddp_solve LL pb cf limits jk fuel qfuel t0 x0 us s <> OutOfFuel ->
    exists b s', ddp_solve LL pb cf limits jk fuel qfuel t0 x0 us s = Ok b s' /\ object_ok pb s'.
  Proof.
    intros H1 H2 H3 H4 H5 H6 Hv Hc Hf.
    pose proof (C15_no_undefined_behaviour jk fuel qfuel t0 x0 us s H1 H2 H3 H4 H5 H6) as H.
    destruct (ddp_solve LL pb cf limits jk fuel qfuel t0 x0 us s); eauto; try contradiction.
    exfalso. destruct H as [_ [[_ H]|[[_ [_ H]]|[_ H]]]]; [apply H; apply Hv|contradiction|congruence].
  Qed.

  (** C09: with use_state_eq_second_derivative every call that passes validation ends in runtime_error. *)
  Theorem C09_second_derivative_rejected jk fuel qfuel t0 x0 us s :
    well_dimensioned pb -> llt_dims LL -> limits_ok pb cf limits -> junk_ok pb jk -> object_ok pb s -> args_typed pb x0 us ->
    cf_second cf = true -> (1 <= cf_horizon cf)%Z -> (1 <= cf_max_iter cf)%Z -> valid_args pb cf t0 us ->
    exists s', ddp_solve LL pb cf limits jk (S fuel) qfuel t0 x0 us s = Throw RuntimeError s'.
  Proof.
    intros H1 H2 H3 H4 H5 H6 Hc HN Hm Hv.
    pose proof (C15_no_undefined_behaviour jk (S fuel) qfuel t0 x0 us s H1 H2 H3 H4 H5 H6) as H.
    pose proof (ddp_solve_stuck LL pb cf limits jk Hc ltac:(unfold N_; lia) fuel qfuel t0 x0 us s Hm) as Hs. unfold stuck in Hs.
    destruct (ddp_solve LL pb cf limits jk (S fuel) qfuel t0 x0 us s) as [a s'|e s'| |]; try contradiction.
    exists s'. destruct H as [_ [[_ H]|[[-> _]|[-> _]]]]; auto. exfalso; apply H; apply Hv.
  Qed.
  (** Even for callbacks of any size it never returns. *)
  Theorem C09_never_returns jk fuel qfuel t0 x0 us s b s' :
    cf_second cf = true -> (1 <= cf_horizon cf)%Z -> (1 <= cf_max_iter cf)%Z ->
    ddp_solve LL pb cf limits jk (S fuel) qfuel t0 x0 us s <> Ok b s'.
  Proof.
    intros Hc HN Hm E.
    pose proof (ddp_solve_stuck LL pb cf limits jk Hc ltac:(unfold N_; lia) fuel qfuel t0 x0 us s Hm) as Hs.
    unfold stuck in Hs. rewrite E in Hs. exact Hs.
  Qed.

  (** C14.  Two calls with the same arguments, configuration and problem, on objects with arbitrary different
      histories and with different contents of uninitialised memory, end the same way: same return value or
      exception; after a return (or an exception past validation) the same control data, trace and regularisation. *)
  Theorem C14_history_independent jk1 jk2 fuel qfuel t0 x0 us s1 s2 :
    overwrites pb ->
    match ddp_solve LL pb cf limits jk1 fuel qfuel t0 x0 us s1, ddp_solve LL pb cf limits jk2 fuel qfuel t0 x0 us s2 with
    | Ok b1 s1', Ok b2 s2' => b1 = b2 /\ s_cd s1' = s_cd s2' /\ s_trace s1' = s_trace s2' /\
                              s_lambda s1' = s_lambda s2' /\ s_dlambda s1' = s_dlambda s2' /\ s_t s1' = s_t s2'
    | Throw e1 s1', Throw e2 s2' => e1 = e2 /\
        (valid_args pb cf t0 us -> s_cd s1' = s_cd s2' /\ s_trace s1' = s_trace s2')
    | UB, UB => True
    | OutOfFuel, OutOfFuel => True
    | _, _ => False
    end.
  Proof.
    intros OW. pose proof (ddp_solve_rel LL pb cf limits OW jk1 jk2 fuel qfuel t0 x0 us s1 s2) as H. unfold rel in H.
    destruct (ddp_solve LL pb cf limits jk1 fuel qfuel t0 x0 us s1), (ddp_solve LL pb cf limits jk2 fuel qfuel t0 x0 us s2); auto.
    - destruct H as [-> H]. destruct H; auto 8.
    - destruct H as [-> H]. split; [reflexivity|]. intros Hv. destruct (H Hv); auto.
  Qed.
End Props.
Print Assumptions C15_no_undefined_behaviour.
Print Assumptions C15_returns.
Print Assumptions C09_second_derivative_rejected.
Print Assumptions C09_never_returns.
Print Assumptions C14_history_independent.

(** *** A problem that meets the hypotheses: one state, two inputs before t = 1/2 and none afterwards. *)
Section Vary.
  Context {T : Type} {N : Num T}.
  Local Open Scope num_scope.
  Definition vary_nu (t : T) : nat := if t <? nhalf then 2%nat else 0%nat.
  Definition vary_pb : problem T := {|
    pb_dt := nlit 1 4; pb_nx := 1; pb_fixed_nu := None; pb_inputDim := fun t => Z.of_nat (vary_nu t);
    pb_stateEq := fun t x u => [vget x 0 + nsum u];
    pb_runningCost := fun t x u => nhalf * (vget x 0 * vget x 0) + nhalf * dot u u;
    pb_terminalCost := fun t x => nhalf * (vget x 0 * vget x 0);
    pb_stateEqDeriv := fun t x u _ => (m11 none, mbuild 1 (vary_nu t) (fun _ _ => none));
    pb_stateEqDeriv2 := fun t x u _ => (m11 none, mbuild 1 (vary_nu t) (fun _ _ => none));
    pb_runningCostDeriv := fun t x u _ =>
      ([vget x 0], u, m11 none, mbuild (vary_nu t) (vary_nu t) (fun i j => if Nat.eqb i j then none else nzero), mzero 1 (vary_nu t));
    pb_terminalCostDeriv := fun t x _ => ([vget x 0], m11 none) |}.
  Definition vary_junk : junk T :=
    {| jk_x := []; jk_u := []; jk_cost := fun _ => nzero; jk_k := []; jk_K := m11 nzero;
       jk_deriv := fun nx nu => {| dFx := mzero nx nx; dFu := mzero nx nu; dLx := vzero nx; dLu := vzero nu; dLxx := mzero nx nx;
                                   dLuu := mzero nu nu; dLxu := mzero nx nu |} |}.
  Definition vary_s0 : ddp T := set_lastV [nzero] (m11 nzero) ex_s0.
  Definition vary_lim : option (T -> vec T * vec T) :=
    Some (fun t => (vbuild (vary_nu t) (fun _ => nopp none), vbuild (vary_nu t) (fun _ => none))).

  Lemma vary_nu_of t : nu_of vary_pb t = vary_nu t.
  Proof. unfold nu_of; cbn. apply Nat2Z.id. Qed.
  Lemma vary_wd : well_dimensioned vary_pb.
  Proof.
    split; intros; cbn -[mdimb mbuild mzero nu_of] in *; rewrite ?vary_nu_of in *; auto.
    - split; [reflexivity|apply mbuild_dim].
    - split; [reflexivity|apply mbuild_dim].
    - destruct H1 as (_ & _ & _ & _ & _ & _ & _). unfold deriv_ok; cbn -[mdimb mbuild mzero].
      repeat split; auto; try reflexivity; apply mbuild_dim.
  Qed.
  Lemma vary_ow : overwrites vary_pb.
  Proof. split; reflexivity. Qed.
  Lemma vary_junk_ok : junk_ok vary_pb vary_junk.
  Proof. intros nu. unfold deriv_ok. cbn -[mdimb mbuild mzero]. unfold mzero. rewrite !mbuild_dim. unfold vzero. rewrite vbuild_length. auto 8. Qed.
  Lemma vary_obj : object_ok vary_pb vary_s0.
  Proof. split; [reflexivity|]. split; [reflexivity|]. cbn. discriminate. Qed.
  Lemma vary_limits cf : limits_ok vary_pb cf vary_lim.
  Proof.
    intros _. eexists; split; [reflexivity|]. intros t. rewrite vary_nu_of. cbn [fst snd]. rewrite !vbuild_length. auto.
  Qed.
  (** C15 applies to it with and without constraints, for every configuration, time, argument and fuel. *)
  Example C15_nonvacuous cf fuel qfuel t0 x us :
    ddp_solve chol_llt vary_pb cf vary_lim vary_junk fuel qfuel t0 [x] us vary_s0 <> UB.
  Proof.
    intros E.
    pose proof (C15_no_undefined_behaviour chol_llt vary_pb cf vary_lim vary_junk fuel qfuel t0 [x] us vary_s0
      vary_wd chol_dims (vary_limits cf) vary_junk_ok vary_obj ltac:(split; [reflexivity|discriminate])) as H.
    rewrite E in H. exact H.
  Qed.
End Vary.

(** On doubles the run with four steps (dimensions 2, 2, 0, 0) is accepted and returns true. *)
Definition vary_cf (second : bool) : config f64 := with_cf second true 20 4.
Definition vary_us : list (vec f64) := [[nzero; nzero]; [nzero; nzero]; []; []].
Example C15_run_nonvacuous :
  ok_and (fun b s => b && (length (s_trace s) =? 3)%nat)
    (ddp_solve chol_llt vary_pb (vary_cf false) vary_lim vary_junk 200 1000 nzero [nlit 1 1] vary_us vary_s0) = true.
Proof. vm_compute. reflexivity. Qed.
Example C15_valid_nonvacuous : valid_args vary_pb (vary_cf false) nzero vary_us.
Proof.
  split; [reflexivity|]. intros _ i u. do 4 (destruct i as [|i]; [cbn [nth_error vary_us]; intros E; injection E as <-; vm_compute; reflexivity|]).
  cbn. destruct i; discriminate.
Qed.
Example C09_nonvacuous : exists s',
  ddp_solve chol_llt vary_pb (vary_cf true) vary_lim vary_junk 200 1000 nzero [nlit 1 1] vary_us vary_s0 = Throw RuntimeError s'.
Proof.
  apply (C09_second_derivative_rejected chol_llt vary_pb (vary_cf true) vary_lim vary_junk 199 1000).
  - apply vary_wd.
  - apply chol_dims.
  - apply vary_limits.
  - apply vary_junk_ok.
  - apply vary_obj.
  - split; [reflexivity|discriminate].
  - reflexivity.
  - cbn. lia.
  - cbn. lia.
  - apply C15_valid_nonvacuous.
Qed.
(** C14: a solver left over from another run gives the same answer as a fresh one. *)
Definition vary_used : ddp f64 :=
  match ddp_solve chol_llt vary_pb (with_cf false true 2 1) vary_lim vary_junk 200 1000 nzero [nlit 7 1] [[nzero; nzero]] vary_s0 with
  | Ok _ s => s | _ => vary_s0 end.
Definition used_differs : bool := negb (length (s_k vary_used) =? length (s_k (vary_s0 (T := f64))))%nat.
Example C14_nonvacuous : used_differs = true /\ overwrites (vary_pb (T := f64)) /\
  ok_and (fun b s => b && (length (s_trace s) =? 3)%nat)
    (ddp_solve chol_llt vary_pb (vary_cf false) vary_lim vary_junk 200 1000 nzero [nlit 1 1] vary_us vary_used) = true.
Proof. split; [vm_compute; reflexivity|]. split; [apply vary_ow|]. vm_compute. reflexivity. Qed.
