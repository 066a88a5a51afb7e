(** C34: the result of FmpcSolver::solve does not depend on earlier calls, and when it does. *)
From Verif Require Import Prelude Scalar LinAlg DDP Fmpc FmpcProofs FmpcStep DDPHist FmpcHist ExDDP ExFmpc.

(** ** Objects *)
Section Reach.
  Context {T : Type} {N : Num T}.
  Variables (LO : linops T) (pb : fproblem T).
  (** FmpcSolver.h:299, 390-423: a new object; [jk] is what its memory contains, [z] is StateDimVector::Zero(). *)
  Definition new_object (jk : fjunk T) (z : vec T) : fsolver T := {|
    f_t := nzero; f_x := z; f_var := var_ctor (fj_x jk) (fj_u jk) (fj_g jk) 0; f_delta := var_ctor (fj_x jk) (fj_u jk) (fj_g jk) 0; f_coeff := [];
    f_trace := []; f_eps := nlit 1 10000; f_mscale := nzero; f_mfunc := nzero; f_mderiv := nzero |}.
  (** Objects after any sequence of calls, each with its own configuration, returning or throwing. *)
  Inductive reachable : fsolver T -> Prop :=
  | re_new jk z : reachable (new_object jk z)
  | re_ok cf jk fuel t0 x0 v0 s r s' : reachable s -> fmpc_solve LO pb cf jk fuel t0 x0 v0 s = Ok r s' -> reachable s'
  | re_throw cf jk fuel t0 x0 v0 s e s' : reachable s -> fmpc_solve LO pb cf jk fuel t0 x0 v0 s = Throw e s' -> reachable s'.
  Lemma reachable_sized s : reachable s -> var_sized (f_delta s).
  Proof.
    induction 1.
    - apply ctor_sized.
    - apply (solve_sized _ _ _ _ _ _ _ _ _ _ _ H0). assumption.
    - apply throw_sized in H0. rewrite H0. assumption.
  Qed.
End Reach.

Section C34.
  Context {T : Type} {N : Num T}.
  Variables (LO : linops T) (pb : fproblem T) (cf : fconfig T).

  Lemma setup_raw jk1 jk2 t0 l1 l2 : idle_ok cf (fj_term jk1) -> idle_ok cf (fj_term jk2) ->
    both (fun a b => raw_list cf a /\ raw_list cf b) (setup_coeff pb cf jk1 t0 l1) (setup_coeff pb cf jk2 t0 l2).
  Proof.
    intros I1 I2. unfold setup_coeff.
    assert (Q : both (fun a b : list (coeff T) => length a = Nf cf /\ length b = Nf cf)
      (match pb_fixed_nu (dp pb) with
       | Some nu => match fp_fixed_ng pb with Some ng => Some (resize (Nf cf) (fj_coeff jk1 (pb_nx (dp pb)) nu ng) l1)
         | None => tabo (Nf cf) (fun i => if Z.leb 0 (pb_inputDim (dp pb) (ft pb t0 i)) && Z.leb 0 (fp_ineqDim pb (ft pb t0 i)) then
             Some (fj_coeff jk1 (pb_nx (dp pb)) (Z.to_nat (pb_inputDim (dp pb) (ft pb t0 i))) (Z.to_nat (fp_ineqDim pb (ft pb t0 i)))) else None) end
       | None => tabo (Nf cf) (fun i => if Z.leb 0 (pb_inputDim (dp pb) (ft pb t0 i)) && Z.leb 0 (fp_ineqDim pb (ft pb t0 i)) then
             Some (fj_coeff jk1 (pb_nx (dp pb)) (Z.to_nat (pb_inputDim (dp pb) (ft pb t0 i))) (Z.to_nat (fp_ineqDim pb (ft pb t0 i)))) else None) end)
      (match pb_fixed_nu (dp pb) with
       | Some nu => match fp_fixed_ng pb with Some ng => Some (resize (Nf cf) (fj_coeff jk2 (pb_nx (dp pb)) nu ng) l2)
         | None => tabo (Nf cf) (fun i => if Z.leb 0 (pb_inputDim (dp pb) (ft pb t0 i)) && Z.leb 0 (fp_ineqDim pb (ft pb t0 i)) then
             Some (fj_coeff jk2 (pb_nx (dp pb)) (Z.to_nat (pb_inputDim (dp pb) (ft pb t0 i))) (Z.to_nat (fp_ineqDim pb (ft pb t0 i)))) else None) end
       | None => tabo (Nf cf) (fun i => if Z.leb 0 (pb_inputDim (dp pb) (ft pb t0 i)) && Z.leb 0 (fp_ineqDim pb (ft pb t0 i)) then
             Some (fj_coeff jk2 (pb_nx (dp pb)) (Z.to_nat (pb_inputDim (dp pb) (ft pb t0 i))) (Z.to_nat (fp_ineqDim pb (ft pb t0 i)))) else None) end)).
    { assert (W : both (fun a b : list (coeff T) => length a = Nf cf /\ length b = Nf cf)
        (tabo (Nf cf) (fun i => if Z.leb 0 (pb_inputDim (dp pb) (ft pb t0 i)) && Z.leb 0 (fp_ineqDim pb (ft pb t0 i)) then
             Some (fj_coeff jk1 (pb_nx (dp pb)) (Z.to_nat (pb_inputDim (dp pb) (ft pb t0 i))) (Z.to_nat (fp_ineqDim pb (ft pb t0 i)))) else None))
        (tabo (Nf cf) (fun i => if Z.leb 0 (pb_inputDim (dp pb) (ft pb t0 i)) && Z.leb 0 (fp_ineqDim pb (ft pb t0 i)) then
             Some (fj_coeff jk2 (pb_nx (dp pb)) (Z.to_nat (pb_inputDim (dp pb) (ft pb t0 i))) (Z.to_nat (fp_ineqDim pb (ft pb t0 i)))) else None))).
      { match goal with |- both _ (tabo ?n ?f) (tabo ?m ?g) => pose proof (tabo_both (fun _ _ => True) n f g) as B;
          destruct (tabo n f) as [a|] eqn:E1; destruct (tabo m g) as [b|] eqn:E2 end; cbn in B.
        - cbn. split; [apply (tabo_length _ _ _ E1)|apply (tabo_length _ _ _ E2)].
        - apply B. intros i Hi. destruct (_ && _); exact I.
        - apply B. intros i Hi. destruct (_ && _); exact I.
        - exact I. }
      destruct (pb_fixed_nu (dp pb)); [|exact W]. destruct (fp_fixed_ng pb); [|exact W]. cbn. split; apply resize_length. }
    match type of Q with both _ ?a ?b => destruct a as [c1|], b as [c2|] end; cbn in Q |- *; try contradiction; [|exact I].
    destruct Q as [Q1 Q2]. split; eexists _, _; split; try reflexivity; auto.
  Qed.

  (** Two objects with any histories; two contents of fresh memory. *)
  Theorem C34_history_independent jk1 jk2 fuel t0 x0 v0 s1 s2 : overwrites_f pb -> reachable LO pb s1 -> reachable LO pb s2 ->
    fc_init cf = true \/ fc_update_eps cf = true \/ f_eps s1 = f_eps s2 ->
    fc_check_nan cf = false \/ idle_fin (fj_term jk1) /\ idle_fin (fj_term jk2) ->
    rel (fun a b => f_var a = f_var b) (fun _ a b => f_var a = f_var b /\ f_trace a = f_trace b)
      (fmpc_solve LO pb cf jk1 fuel t0 x0 v0 s1) (fmpc_solve LO pb cf jk2 fuel t0 x0 v0 s2).
  Proof.
    intros OW R1 R2 He Hn. rewrite !solve_form_eq. unfold solve_form.
    assert (Q : both (fun p q => fst p = fst q /\ (fc_update_eps cf = true \/ snd p = snd q)) (inited pb cf t0 v0 (f_eps s1)) (inited pb cf t0 v0 (f_eps s2))).
    { unfold inited. destruct (fc_init cf).
      - destruct (init_var pb cf t0 (nlit 1 10000) v0); cbn; auto.
      - cbn. split; [reflexivity|]. destruct He as [He|He]; [discriminate|exact He]. }
    destruct (inited pb cf t0 v0 (f_eps s1)) as [[v eps1]|], (inited pb cf t0 v0 (f_eps s2)) as [[v' eps2]|]; cbn in Q; try contradiction; [|exact I].
    destruct Q as (<- & Qe). destruct (bad_length cf v) eqn:Hb; [cbn; auto|]. destruct (existsb _ _); [cbn; auto|]. destruct (existsb _ _); [cbn; auto|].
    assert (I1 : idle_ok cf (fj_term jk1) /\ idle_ok cf (fj_term jk2)) by (unfold idle_ok; destruct Hn as [Hn|[? ?]]; auto).
    destruct I1 as [I1 I2]. assert (B := setup_raw jk1 jk2 t0 (f_coeff s1) (f_coeff s2) I1 I2).
    destruct (setup_coeff pb cf jk1 t0 (f_coeff s1)) as [l1|], (setup_coeff pb cf jk2 t0 (f_coeff s2)) as [l2|]; cbn in B; try contradiction; [|exact I].
    assert (D : forall jk s, reachable LO pb s -> dlen cf (setup_delta cf jk (f_delta s))).
    { intros jk s Rs. apply reachable_sized in Rs. unfold setup_delta.
      assert (H0 : (0 <= fc_hor cf)%Z).
      { unfold bad_length in Hb. apply Bool.negb_false_iff in Hb. repeat rewrite Bool.andb_true_iff in Hb. rewrite !Z.eqb_eq in Hb. lia. }
      destruct (Z.eqb (v_hor (f_delta s)) (fc_hor cf)) eqn:Ez.
      - apply Z.eqb_eq in Ez. destruct Rs as (_ & Rs). rewrite Ez in Rs. split; [exact Ez|exact Rs].
      - unfold dlen, Nf. cbn. rewrite !repeat_length, Z2Nat.id by exact H0. repeat split. }
    assert (A : alike cf (ready cf jk1 t0 x0 v eps1 l1 s1) (ready cf jk2 t0 x0 v eps2 l2 s2)).
    { constructor; cbn; auto; apply B. }
    pose proof (loop_both LO pb cf OW fuel (Z.to_nat (fc_max_iter cf)) 1 Uninitialized _ _ A) as L.
    destruct (fopt_loop LO pb cf fuel _ _ _ (ready cf jk1 t0 x0 v eps1 l1 s1)) as [r1 y1| | |] eqn:E1,
      (fopt_loop LO pb cf fuel _ _ _ (ready cf jk2 t0 x0 v eps2 l2 s2)) as [r2 y2| | |] eqn:E2; cbn in L; try contradiction; try exact I.
    all: try (apply loop_nothrow in E1; contradiction).
    destruct L as (<- & [L1 L2 L3 L4 _ _ _ _ _]). rewrite L4. destruct (_ || _); [|exact I]. cbn. auto.
  Qed.
End C34.
Print Assumptions C34_history_independent.

(** ** Concrete cases, on doubles: one step, x0 = 5, x = u = lambda = 0, s = nu = 1. *)
Definition hz : f64 := SpecFloat.S754_zero false.
Definition h_new : fsolver f64 := new_object (ex_fjunk hz) [hz].
Definition h_run cf jk s : outcome (fsolver f64) fstatus := fmpc_solve div_lin ex_fp cf jk 35 hz [f64_ofZ 5] (ex_fvar 1 hz hz hz none none) s.
(** The object after a call with the default update_barrier_eps. *)
Definition h_used : fsolver f64 := match h_run (ex_fcf 1 1 false true false) (ex_fjunk hz) h_new with Ok _ s => s | _ => h_new end.
Lemma h_reach : reachable div_lin ex_fp h_new /\ reachable div_lin ex_fp h_used.
Proof.
  split; [apply re_new|]. apply (re_ok div_lin ex_fp (ex_fcf 1 1 false true false) (ex_fjunk hz) 35 hz [f64_ofZ 5] (ex_fvar 1 hz hz hz none none) h_new MaxIterationReached).
  - apply re_new.
  - vm_compute. reflexivity.
Qed.
(** The hypotheses of C34 hold for the two objects, which differ, and the common result is a success after several iterations. *)
Example C34_nonvacuous : overwrites_f (T := f64) ex_fp /\ idle_fin (T := f64) (ex_fcoeff none) /\ idle_fin (T := f64) (ex_fcoeff hz) /\
  f_eps h_new <> f_eps h_used /\ length (f_coeff h_new) <> length (f_coeff h_used) /\
  exists s, h_run (ex_fcf 1 10 false true false) (ex_fjunk none) h_used = Ok Succeeded s /\ 3 < length (f_trace s).
Proof.
  split; [constructor; reflexivity|]. split; [reflexivity|]. split; [reflexivity|]. split; [vm_compute; discriminate|]. split; [vm_compute; discriminate|].
  eexists. split; [vm_compute; reflexivity|]. cbn. lia.
Qed.
(** The barrier parameter survives from call to call when it is neither initialised nor updated: the returned variables differ. *)
Theorem C34_eps_refuted : exists cf jk s1 s2 r1 r2 y1 y2, 
  overwrites_f (T := f64) ex_fp /\ reachable div_lin ex_fp s1 /\ reachable div_lin ex_fp s2 /\ idle_fin (fj_term jk) /\
  h_run cf jk s1 = Ok r1 y1 /\ h_run cf jk s2 = Ok r2 y2 /\ v_x (f_var y1) <> v_x (f_var y2).
Proof.
  exists (ex_fcf 1 1 false false false), (ex_fjunk hz), h_new, h_used. do 4 eexists.
  split; [constructor; reflexivity|]. split; [apply h_reach|]. split; [apply h_reach|]. split; [reflexivity|].
  split; [vm_compute; reflexivity|]. split; [vm_compute; reflexivity|]. vm_compute. discriminate.
Qed.
Print Assumptions C34_eps_refuted.
(** With the default check_nan the content of memory that nothing writes (the terminal coefficient has the fields of all others) decides
    the status: the same call of the same object succeeds or fails. *)
Definition h_junk (term : coeff f64) : fjunk f64 :=
  {| fj_x := [hz]; fj_u := [hz]; fj_g := [hz]; fj_coeff := fun _ _ _ => ex_fcoeff hz; fj_term := term |}.
Definition nan_A : coeff f64 := {|
  c_A := m11 f64_nan; c_B := m11 hz; c_C := m11 hz; c_D := m11 hz; c_Lx := [hz]; c_Lu := [hz]; c_Lxx := m11 hz; c_Luu := m11 hz; c_Lxu := m11 hz;
  c_xbar := [hz]; c_gbar := [hz]; c_Lxbar := [hz]; c_Lubar := [hz]; c_k := [hz]; c_K := m11 hz; c_s := [hz]; c_P := m11 hz |}.
Theorem C34_nan_refuted : exists c1 c2 y1 y2,
  h_run (ex_fcf 1 10 false true false) (h_junk c1) h_new = Ok Succeeded y1 /\
  h_run (ex_fcf 1 10 false true false) (h_junk c2) h_new = Ok ErrorInBackward y2.
Proof. exists (ex_fcoeff hz), nan_A. do 2 eexists. split; vm_compute; reflexivity. Qed.
Print Assumptions C34_nan_refuted.
