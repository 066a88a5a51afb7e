(** Property C62: the receding-horizon loops of the DDP test programs, in exact arithmetic. *)
From Verif Require Import Prelude Scalar LinAlg BoxQP DDP DDPSpec DDPProofs DDPCor DDPReal DDPSafe DDPLimits RLin Chol CholProofs
  LQ LQ2 LQ3 LQ4 LQ5 ExDDP P_DDP_real P_DDP_safe P_DDP_lq P_DDP_reg Problems ProbSolve P_ProblemsRun MpcLoops MpcProofs.
From Coq Require Import Reals Lra.
Local Open Scope R_scope.

(** What a pass leaves in the log: its time, the planned trajectory, the trace of the solver. *)
Definition entry : Type := R * cdata R * list (trace R).
Definition e_t (e : entry) : R := fst (fst e).
Definition e_cd (e : entry) : cdata R := snd (fst e).
Definition e_tr (e : entry) : list (trace R) := snd e.

(** Closed loop of [pb] from ([t0], [x0]) with horizon [h]: pass i plans from the state reached at time t0 + i * dt, and the first
    planned input moves that state to the one the next pass plans from. *)
Record closed_loop (pb : problem R) (h : nat) (t0 : R) (x0 : vec R) (log : list entry) : Prop := {
  cl_plan : forall i e, nth_error log i = Some e -> e_t e = t0 + INR i * pb_dt pb /\
    exists x, is_rollout pb (e_t e) x h (e_cd e) /\ length x = pb_nx pb /\
      (forall j u, nth_error (cd_u (e_cd e)) j = Some u -> length u = nu_of pb (e_t e + INR j * pb_dt pb)) /\ e_tr e <> [];
  cl_first : forall e, nth_error log 0 = Some e -> nth_error (cd_x (e_cd e)) 0 = Some x0;
  cl_next : forall i e e', nth_error log i = Some e -> nth_error log (i + 1) = Some e' -> exists x u,
    nth_error (cd_x (e_cd e)) 0 = Some x /\ nth_error (cd_u (e_cd e)) 0 = Some u /\
    nth_error (cd_x (e_cd e')) 0 = Some (pb_stateEq pb (e_t e) x u) }.

(** Two rollouts of the same inputs cost the same. *)
Lemma rollout_eq pb t0 x0 us c : is_rollout pb t0 x0 (length us) c -> cd_u c = us -> total c = cost_of pb t0 0 x0 us.
Proof.
  intros Hro Hu. rewrite <- rollout_cost. unfold total. f_equal. pose proof (rollout_of_ok pb t0 x0 us) as Hr.
  set (c0 := rollout_of pb t0 x0 us) in *. change (costs_of pb t0 0 x0 us) with (cd_cost c0).
  assert (X : forall i, (i <= length us)%nat -> nth_error (cd_x c) i = nth_error (cd_x c0) i).
  { induction i as [|i IH]; intros Hi; [rewrite (ro_x0 _ _ _ _ _ Hro), (ro_x0 _ _ _ _ _ Hr); reflexivity|].
    destruct (ro_step _ _ _ _ _ Hro i ltac:(lia)) as (x & u & A1 & A2 & A3 & _). destruct (ro_step _ _ _ _ _ Hr i ltac:(lia)) as (y & w & B1 & B2 & B3 & _).
    rewrite Nat.add_1_r in A3, B3. rewrite A3, B3. rewrite IH, B1 in A1 by lia. injection A1 as <-. rewrite Hu in A2. change (cd_u c0) with us in B2. rewrite A2 in B2. injection B2 as <-. reflexivity. }
  apply nth_error_same. intros i. destruct (Nat.lt_total i (length us)) as [Hi|[->|Hi]].
  - destruct (ro_step _ _ _ _ _ Hro i Hi) as (x & u & A1 & A2 & _ & A4). destruct (ro_step _ _ _ _ _ Hr i Hi) as (y & w & B1 & B2 & _ & B4).
    rewrite A4, B4. rewrite X, B1 in A1 by lia. injection A1 as <-. rewrite Hu in A2. change (cd_u c0) with us in B2. rewrite A2 in B2. injection B2 as <-. reflexivity.
  - destruct (ro_end _ _ _ _ _ Hro) as (x & A1 & A2). destruct (ro_end _ _ _ _ _ Hr) as (y & B1 & B2). rewrite A2, B2. rewrite X, B1 in A1 by lia. injection A1 as <-. reflexivity.
  - rewrite !(proj2 (nth_error_None _ i)); [reflexivity| |]; rewrite ?(ro_lc _ _ _ _ _ Hro), ?(ro_lc _ _ _ _ _ Hr); lia.
Qed.

Section Loop.
  Variables (LL : lltops R) (pb : problem R) (limits : option (R -> vec R * vec R)) (k : refill).
  Variables (cfs : nat -> config R) (jks : nat -> junk R) (K h : nat).
  Hypothesis WD : well_dimensioned pb.
  Hypothesis HD : llt_dims LL.
  (** The refill rule fits the problem: repeat the last input of a fixed-size problem, look at inputDim otherwise. *)
  Hypothesis Hk : match pb_fixed_nu pb with Some _ => k = Repeat | None => k = Fit /\ forall t, (0 <= pb_inputDim pb t)%Z end.
  Hypothesis Hh : (2 <= h)%nat.
  Hypothesis Hcf : forall i, cf_horizon (cfs i) = Z.of_nat h /\ cf_second (cfs i) = false /\ limits_ok pb (cfs i) limits.
  Hypothesis Hlam : forall i, 1 < cf_lambda_factor (cfs i) /\ 0 < cf_lambda_min (cfs i) /\
    cf_lambda_max (cfs i) < cf_lambda_min (cfs i) * cf_lambda_factor (cfs i) ^ K.
  Hypothesis Hjk : forall i, junk_ok pb (jks i).

  Variables (t0 : R) (x0 : vec R) (us : list (vec R)) (s0 : ddp R) (end_t : R).
  Hypothesis Hx0 : length x0 = pb_nx pb.
  Hypothesis Hus : length us = h.
  Hypothesis Hsz : forall i u, nth_error us i = Some u -> match pb_fixed_nu pb with Some nu => length u = nu
                                | None => Z.of_nat (length u) = pb_inputDim pb (t0 + INR i * pb_dt pb) end.
  Hypothesis Hs0 : object_ok pb s0.
  Definition begin_at : mpc R := {| m_t := t0; m_x := x0; m_us := us; m_sol := s0; m_log := [] |}.
  Notation loop n := (mpc_loop LL pb limits k cfs jks (Datatypes.S K) 500 end_t n 0 begin_at).
  Notation passes := (passes LL pb limits cfs jks (Datatypes.S K) 500 h).
  Notation solve_at i st := (ddp_solve LL pb (cfs i) limits (jks i) (Datatypes.S K) 500 (m_t st) (m_x st) (m_us st) (m_sol st)).

  Lemma begin_ready : ready pb h begin_at.
  Proof.
    split; [exact Hx0|]. split; [exact Hus|]. split; [|exact Hs0]. intros i u Hu. specialize (Hsz i u Hu). cbn [begin_at m_t].
    destruct (pb_fixed_nu pb); [exact Hsz|]. rewrite tm_INR. exact Hsz.
  Qed.
  Lemma refill_R : refill_ok pb k h.
  Proof.
    unfold refill_ok. destruct (pb_fixed_nu pb); [exact Hk|]. destruct Hk as [-> Hp]. split; [reflexivity|]. split; [exact Hp|]. split.
    - intros t i. rewrite !tm_INR. f_equal. numR. rewrite plus_INR. cbn [INR]. ring.
    - intros t. rewrite tm_INR. f_equal. numR. rewrite INR_IZR_INZ. field.
  Qed.
  Lemma fuel_R i t x ws s : ddp_solve LL pb (cfs i) limits (jks i) (Datatypes.S K) 500 t x ws s <> OutOfFuel.
  Proof. destruct (Hlam i) as (A & B & C). apply (proj2 (C08_terminates_R (cfs i) A B) K C). Qed.

  (** Each entry of the log comes from a call on a well-formed state at the right time, and hands over to the next one. *)
  Lemma passes_at i st log st' : passes i st log st' -> forall j e, nth_error log j = Some e -> exists sj b s sj',
    m_t sj = m_t st + INR j * pb_dt pb /\ (j = 0%nat -> sj = st) /\ ready pb h sj /\ solve_at (i + j)%nat sj = Ok b s /\
    e = (m_t sj, s_cd s, s_trace s) /\ is_rollout pb (m_t sj) (m_x sj) h (s_cd s) /\ s_trace s <> [] /\
    m_t sj' = m_t sj + pb_dt pb /\ nth_error (cd_x (s_cd s)) 1 = Some (m_x sj') /\
    ((forall l, (l + 1 < h)%nat -> nth_error (m_us sj') l = nth_error (cd_u (s_cd s)) (l + 1)) /\ refilled pb h (cd_u (s_cd s)) (m_us sj')) /\
    ((j + 1 = length log)%nat -> sj' = st') /\
    (forall e', nth_error log (j + 1) = Some e' -> exists b' s', ready pb h sj' /\ solve_at (i + j + 1)%nat sj' = Ok b' s' /\ e' = (m_t sj', s_cd s', s_trace s')).
  Proof.
    induction 1 as [i st|i st b s st1 log st' E Hro Htr Hr Et Hx Hu Hrf Hp IH]; intros j e He; [destruct j; discriminate|].
    destruct j as [|j]; cbn [nth_error] in He.
    - injection He as <-. exists st, b, s, st1. rewrite !Nat.add_0_r. cbn [INR]. split; [lra|]. split; [auto|]. do 6 (split; [assumption || reflexivity|]).
      split; [exact Hx|]. split; [split; [exact Hu|exact Hrf]|]. split.
      + cbn [length Nat.add]. intros El. destruct log; [|discriminate]. inversion Hp. reflexivity.
      + intros e' He'. cbn [Nat.add nth_error] in He'. inversion Hp as [|? ? b' s' st2 log' ? E' Hro' Htr' Hr' Et' Hx' Hu' Hrf' Hp']; subst; [discriminate|].
        cbn [nth_error] in He'. injection He' as <-. exists b', s'. rewrite Nat.add_1_r. auto.
    - destruct (IH j e He) as (sj & b' & s' & sj' & A1 & _ & A2 & A3 & A4 & A5 & A6 & A7 & A8 & A9 & A10 & A11). exists sj, b', s', sj'.
      split; [rewrite A1, Et, S_INR; numR; ring|]. split; [discriminate|]. split; [exact A2|]. replace (i + Datatypes.S j)%nat with (Datatypes.S i + j)%nat by lia. split; [exact A3|].
      do 6 (split; [assumption|]). split; [intros El; apply A10; cbn [length] in El; lia|]. intros e' He'. apply A11. exact He'.
  Qed.

  (** From a call's result to a property of every entry. *)
  Lemma log_calls n : t0 + INR n * pb_dt pb >= end_t ->
    exists st log, loop n = Ok tt st /\ m_log st = log /\ passes 0 begin_at log st /\ (length log <= n)%nat /\
      end_t <= m_t st /\ (forall e, In e log -> e_t e < end_t).
  Proof using WD HD Hk Hh Hcf Hlam Hjk Hx0 Hus Hsz Hs0.
    intros Hn. destruct (loop_ok LL pb limits k cfs jks (Datatypes.S K) 500 h WD HD Hcf Hjk fuel_R refill_R end_t n Hh 0 begin_at begin_ready)
      as [(st & log & E & _ & El & Hp & Hl & He & Ha)|(E & st & log & Hp & Hl & He)].
    - exists st, log. split; [exact E|]. split; [exact El|]. split; [exact Hp|]. split; [exact Hl|]. split.
      + apply Rltb_false in He. exact He.
      + intros e Hin. apply Rltb_true. exact (Ha e Hin).
    - exfalso. apply Rltb_true in He. destruct log as [|e0 log0] eqn:El.
      + cbn in Hl. subst n. inversion Hp; subst. cbn [begin_at m_t INR] in *. lra.
      + destruct (nth_error log (length log - 1)) as [e|] eqn:Ee; [|subst log; apply nth_error_None in Ee; cbn in Ee; lia]. rewrite <- El in Hp.
        destruct (passes_at _ _ _ _ Hp _ _ Ee) as (sj & b & s & sj' & A1 & _ & _ & _ & _ & _ & _ & A7 & _ & _ & A10 & _).
        rewrite A10 in A7 by (subst log; cbn; lia). rewrite A7, A1 in He. cbn [begin_at m_t] in He. unfold nadd in He; cbn [RNum] in He.
        assert (En : INR n = INR (length log - 1) + 1) by (rewrite <- S_INR; f_equal; subst log; cbn in *; lia). rewrite En in Hn. lra.
  Qed.

  (** C62: the loop never does anything undefined, never throws, and ends: for every initial state and typed input sequence the log is
      a closed loop of the user's problem, with one entry per time t0 + i * dt before end_t. *)
  Theorem C62_loop n : t0 + INR n * pb_dt pb >= end_t ->
    exists st, loop n = Ok tt st /\ closed_loop pb h t0 x0 (m_log st) /\ (length (m_log st) <= n)%nat /\
      m_t st = t0 + INR (length (m_log st)) * pb_dt pb /\ end_t <= m_t st /\ (forall e, In e (m_log st) -> e_t e < end_t) /\
      (forall e, nth_error (m_log st) (length (m_log st) - 1) = Some e -> nth_error (cd_x (e_cd e)) 1 = Some (m_x st)).
  Proof using WD HD Hk Hh Hcf Hlam Hjk Hx0 Hus Hsz Hs0.
    intros Hn. destruct (log_calls n Hn) as (st & log & E & El & Hp & Hl & He & Ha). exists st. rewrite El. split; [exact E|].
    assert (Hlast : forall e, nth_error log (length log - 1) = Some e ->
              m_t st = t0 + INR (length log) * pb_dt pb /\ nth_error (cd_x (e_cd e)) 1 = Some (m_x st)).
    { intros e Hnth. destruct (passes_at _ _ _ _ Hp _ _ Hnth) as (sj & b & s & sj' & A1 & _ & _ & _ & A4 & _ & _ & A7 & A8 & _ & A10 & _).
      assert (Hlen : (0 < length log)%nat) by (destruct log; [discriminate|cbn; lia]).
      rewrite A10 in A7, A8 by lia. split; [|subst e; exact A8]. rewrite A7, A1. cbn [begin_at m_t]. numR.
      replace (INR (length log)) with (INR (length log - 1) + 1) by (rewrite <- S_INR; f_equal; lia). ring. }
    split; [|split; [exact Hl|split; [|split; [exact He|split; [exact Ha|intros e Hnth; apply Hlast; exact Hnth]]]]].
    - split.
      + intros i e Hnth. destruct (passes_at _ _ _ _ Hp _ _ Hnth) as (sj & b & s & sj' & A1 & _ & (R1 & R2 & R3 & R4) & A3 & -> & A5 & A6 & _).
        cbn [e_t fst]. split; [exact A1|]. exists (m_x sj). split; [exact A5|]. split; [exact R1|]. split; [|exact A6].
        intros j u Hu. cbn [e_cd fst snd] in Hu. pose proof (sized_same pb _ _ _ (solve_sizes _ _ _ _ _ _ _ _ _ _ _ _ _ A3) R3 j u Hu) as Hz.
        unfold nu_of. destruct (pb_fixed_nu pb); [exact Hz|]. rewrite tm_INR in Hz. rewrite <- Hz. lia.
      + intros e Hnth. destruct (passes_at _ _ _ _ Hp _ _ Hnth) as (sj & b & s & sj' & _ & A2 & _ & _ & -> & A5 & _). rewrite (A2 eq_refl) in A5.
        apply (ro_x0 _ _ _ _ _ A5).
      + intros i e e' Hnth Hnth'. destruct (passes_at _ _ _ _ Hp _ _ Hnth) as (sj & b & s & sj' & _ & _ & _ & _ & -> & A5 & _ & _ & A8 & _ & _ & A11).
        destruct (A11 e' Hnth') as (b' & s' & _ & E' & ->). cbn [e_t e_cd fst snd].
        destruct (ro_step _ _ _ _ _ A5 0%nat ltac:(lia)) as (x & u & X0 & U0 & X1 & _). cbn [Nat.add] in X1. exists x, u. split; [exact X0|]. split; [exact U0|].
        rewrite A8 in X1. destruct (solve_ok _ _ _ _ _ _ _ _ _ _ _ _ _ E') as (_ & Hro' & _). rewrite (ro_x0 _ _ _ _ _ Hro'), X1. rewrite tm_INR. cbn [INR].
        rewrite Rmult_0_l, Rplus_0_r. reflexivity.
    - destruct (nth_error log (length log - 1)) as [e|] eqn:Ee; [apply (Hlast e eq_refl)|]. apply nth_error_None in Ee.
      assert (E0 : log = []) by (destruct log; [reflexivity|cbn in Ee; lia]). rewrite E0 in *. inversion Hp; subst. cbn [begin_at m_t length INR]. ring.
  Qed.

  (** C62: the plan of a pass never costs more than the plan of the previous pass moved by one step and completed with its last input, or with
      zeros when that no longer fits. *)
  Theorem C62_warm_start n st i e e' : t0 + INR n * pb_dt pb >= end_t -> (forall i, 0 <= cf_cost_update_ratio_thre (cfs i)) ->
    loop n = Ok tt st -> nth_error (m_log st) i = Some e -> nth_error (m_log st) (i + 1) = Some e' ->
    exists x ws, nth_error (cd_x (e_cd e)) 1 = Some x /\ length ws = h /\ (forall j, (j + 1 < h)%nat -> nth_error ws j = nth_error (cd_u (e_cd e)) (j + 1)) /\
      (exists w, nth_error ws (h - 1) = Some w /\ (nth_error (cd_u (e_cd e)) (h - 1) = Some w \/
         w = vzero (length w) /\ pb_fixed_nu pb = None /\ forall u, nth_error (cd_u (e_cd e)) (h - 1) = Some u -> length u <> length w)) /\
      nth_error (cd_x (e_cd e')) 0 = Some x /\ total (e_cd e') <= cost_of pb (e_t e') 0 x ws.
  Proof using WD HD Hk Hh Hcf Hlam Hjk Hx0 Hus Hsz Hs0.
    intros Hn Hra E Hi Hi'. destruct (log_calls n Hn) as (st1 & log & E1 & El & Hp & _). rewrite E in E1. injection E1 as <-. rewrite El in Hi, Hi'.
    destruct (passes_at _ _ _ _ Hp _ _ Hi) as (sj & b & s & sj' & _ & _ & _ & _ & -> & A5 & _ & _ & A8 & A9 & _ & A11).
    destruct (A11 e' Hi') as (b' & s' & (R1 & R2 & _) & E' & ->). cbn [e_t e_cd fst snd] in *.
    exists (m_x sj'), (m_us sj'). split; [exact A8|]. split; [exact R2|]. split; [exact (proj1 A9)|]. split; [exact (proj2 A9)|].
    destruct (C04_cost_R _ _ _ _ _ _ _ _ _ _ _ _ _ E' (Hra _)) as (c & e0 & es & Hro & Hcu & _ & Hc0 & Hle & _).
    destruct (solve_ok _ _ _ _ _ _ _ _ _ _ _ _ _ E') as ([Hlen _] & Hro' & _). rewrite <- Hlen, Nat2Z.id in Hro, Hro'. split; [apply (ro_x0 _ _ _ _ _ Hro')|].
    rewrite Hc0 in Hle. fold (total c) in Hle. rewrite (rollout_eq _ _ _ _ _ Hro Hcu) in Hle. exact Hle.
  Qed.

  (** Any property of the result of single calls holds of every pass. *)
  Lemma log_property (Q : nat -> R -> vec R -> cdata R -> list (trace R) -> Prop) n st : t0 + INR n * pb_dt pb >= end_t ->
    (forall i t x ws s b s', object_ok pb s -> length x = pb_nx pb -> length ws = h -> inputs_typed pb t ws ->
       ddp_solve LL pb (cfs i) limits (jks i) (Datatypes.S K) 500 t x ws s = Ok b s' -> Q i t x (s_cd s') (s_trace s')) ->
    loop n = Ok tt st -> forall i e, nth_error (m_log st) i = Some e -> exists x, nth_error (cd_x (e_cd e)) 0 = Some x /\ Q i (e_t e) x (e_cd e) (e_tr e).
  Proof using WD HD Hk Hh Hcf Hlam Hjk Hx0 Hus Hsz Hs0.
    intros Hn HQ E i e Hi. destruct (log_calls n Hn) as (st1 & log & E1 & El & Hp & _). rewrite E in E1. injection E1 as <-. rewrite El in Hi.
    destruct (passes_at _ _ _ _ Hp _ _ Hi) as (sj & b & s & sj' & _ & _ & (R1 & R2 & R3 & R4) & A3 & -> & A5 & _). cbn [e_t e_cd e_tr fst snd Nat.add] in *.
    exists (m_x sj). split; [apply (ro_x0 _ _ _ _ _ A5)|]. apply (HQ _ _ _ (m_us sj) (m_sol sj) b s R4 R1 R2); [|exact A3].
    intros j u Hu. specialize (R3 j u Hu). unfold nu_of. destruct (pb_fixed_nu pb); [exact R3|]. rewrite <- R3. lia.
  Qed.
End Loop.
Print Assumptions C62_loop.
Print Assumptions C62_warm_start.

(** ** The loops of the test programs *)
(** Nothing better exists, or a termination test ended the call before the iteration that would have got there. *)
Definition plan_optimal (pb : problem R) (cf : config R) (J h : nat) (t : R) (x : vec R) (c : cdata R) (tr : list (trace R)) : Prop :=
  (forall vs, length vs = h -> inputs_typed pb t vs -> total c <= cost_of pb t 0 x vs) \/
  ((length tr <= J + 3)%nat /\ exists es e, tr = es ++ [e] /\ (1 <= length es)%nat /\
     (0 <= tr_k_rel_norm e < cf_k_rel_norm_thre cf \/ (0 <= tr_actual e < cf_cost_update_thre cf /\ tr_actual e = tr_expected e /\ tr_alpha e = 1))).

Section Tests.
  Variables (LL : lltops R).
  Hypothesis HL : exact_llt LL.
  Hypothesis HD : llt_dims LL.

  Lemma test_lam lambda0 constr mi h alphas : let cf := test_cf lambda0 constr mi h alphas in
    1 < cf_lambda_factor cf /\ 0 < cf_lambda_min cf /\ cf_lambda_max cf < cf_lambda_min cf * cf_lambda_factor cf ^ 80.
  Proof. cbn -[pow]. lra. Qed.

  (** C62 for the problems and settings of the tests, with or without input limits; [mis]: max_iter of each pass. *)
  Theorem C62_tests pb k lambda0 constr mis (h : nat) alphas limits jks n t0 x0 us s end_t : ddp_example pb ->
    match pb_fixed_nu pb with Some _ => k = Repeat | None => k = Fit /\ forall t, (0 <= pb_inputDim pb t)%Z end -> (2 <= h)%nat ->
    (constr = true -> exists f, limits = Some f /\ forall t, length (fst (f t)) = nu_of pb t /\ length (snd (f t)) = nu_of pb t) ->
    (forall i, junk_ok pb (jks i)) -> object_ok pb s -> length x0 = pb_nx pb ->
    length us = h -> (forall i u, nth_error us i = Some u -> Z.of_nat (length u) = pb_inputDim pb (t0 + INR i * pb_dt pb)) ->
    t0 + INR n * pb_dt pb >= end_t ->
    exists st, mpc_loop LL pb limits k (fun i => test_cf lambda0 constr (mis i) (Z.of_nat h) alphas) jks 81 500 end_t n 0 (begin_at t0 x0 us s) = Ok tt st /\
      closed_loop pb h t0 x0 (m_log st) /\ (length (m_log st) <= n)%nat /\
      m_t st = t0 + INR (length (m_log st)) * pb_dt pb /\ end_t <= m_t st /\ (forall e, In e (m_log st) -> e_t e < end_t) /\
      (forall e, nth_error (m_log st) (length (m_log st) - 1) = Some e -> nth_error (cd_x (e_cd e)) 1 = Some (m_x st)).
  Proof using HD.
    intros Hp Hk Hh Hlim Hjk Hs Hx Hl Hu Hn. destruct (ddp_example_ok _ Hp) as [WD _].
    apply (C62_loop LL pb limits k (fun i => test_cf lambda0 constr (mis i) (Z.of_nat h) alphas) jks 80 h); try assumption.
    - intros i. split; [reflexivity|]. split; [reflexivity|]. exact Hlim.
    - intros i. apply test_lam.
    - intros i u Hi. specialize (Hu i u Hi). destruct Hp; cbn in *; try exact Hu; lia.
  Qed.

  (** C62, TestDDPBipedal.cpp: every plan of the loop is optimal from the state of its pass, or cut short by a termination test. *)
  Theorem C62_bipedal p (h : nat) rest limits jks n t0 x0 us s end_t : 0 <= bp_rvel p -> 0 < bp_rzmp p -> 0 <= bp_tpos p -> 0 <= bp_tvel p ->
    let pb := bipedal p in let cf := test_cf (/ 10000) false 500 (Z.of_nat h) (1 :: rest) in
    (2 <= h)%nat -> (forall i, junk_ok pb (jks i)) -> object_ok pb s -> length x0 = 2%nat -> length us = h -> (forall u, In u us -> length u = 1%nat) ->
    t0 + INR n * bp_dt p >= end_t ->
    exists st, mpc_loop LL pb limits Repeat (fun _ => cf) jks 81 500 end_t n 0 (begin_at t0 x0 us s) = Ok tt st /\
      closed_loop pb h t0 x0 (m_log st) /\ end_t <= m_t st /\
      forall i e, nth_error (m_log st) i = Some e -> exists x, nth_error (cd_x (e_cd e)) 0 = Some x /\ plan_optimal pb cf 4 h (e_t e) x (e_cd e) (e_tr e).
  Proof.
    intros P1 P2 P3 P4 pb cf Hh Hjk Hs Hx Hl Hu Hn.
    assert (Hu1 : forall i u, nth_error us i = Some u -> length u = 1%nat) by (intros i u Hi; apply Hu; eapply nth_error_In; exact Hi).
    destruct (C62_tests pb Repeat (/ 10000) false (fun _ => 500%Z) h (1 :: rest) limits jks n t0 x0 us s end_t) as (st & E & Hcl & _ & _ & He & _); try assumption.
    - apply ex_bipedal.
    - reflexivity.
    - discriminate.
    - intros i u Hi. rewrite (Hu1 i u Hi). reflexivity.
    - exists st. split; [exact E|]. split; [exact Hcl|]. split; [exact He|].
      refine (log_property LL pb limits Repeat (fun _ => cf) jks 80 h _ HD _ Hh _ _ Hjk t0 x0 us s end_t Hx Hl _ Hs
                (fun _ t x c tr => plan_optimal pb cf 4 h t x c tr) n st Hn _ E).
      + apply (ddp_example_ok pb (ex_bipedal p)).
      + reflexivity.
      + intros i. split; [reflexivity|]. split; [reflexivity|]. discriminate.
      + intros i. apply test_lam.
      + exact Hu1.
      + intros i t x ws s1 b s' _ Lx Lw Tw E1.
        destruct (test_optimal LL HL pb 4 (/ 10000) 500 (Z.of_nat h) rest limits (jks i) 81 500 t x ws s1 b s') as [Q|(_ & Q)].
        * apply bip_lq.
        * apply bip_convex; assumption.
        * exact Lx.
        * change (P_DDP_reg.triangle 4) with 10%nat. cbn [pow]. lra.
        * lia.
        * exact Tw.
        * exact E1.
        * left. rewrite <- Lw. exact Q.
        * right. exact Q.
  Qed.

  (** C62, TestDDPVerticalMotion.cpp without input limits: the same although max_iter is 3 from the second pass on, and although the
      number of inputs changes within the horizon. *)
  Theorem C62_vertical p (h : nat) mis rest limits jks n t0 x0 us s end_t : length (vp_rx p) = 2%nat -> length (vp_tx p) = 2%nat -> vp_smooth p = false ->
    (forall i, 0 <= vget (vp_rx p) i) -> 0 < vp_ru p -> (forall i, 0 <= vget (vp_tx p) i) -> (forall i, (3 <= mis i)%Z) ->
    let pb := vertical p in let cf i := test_cf (/ 1000000) false (mis i) (Z.of_nat h) (1 :: rest) in
    (2 <= h)%nat -> (forall i, junk_ok pb (jks i)) -> object_ok pb s -> length x0 = 2%nat -> length us = h ->
    (forall i u, nth_error us i = Some u -> Z.of_nat (length u) = vert_dim (t0 + INR i * vp_dt p)) ->
    t0 + INR n * vp_dt p >= end_t ->
    exists st, mpc_loop LL pb limits Fit cf jks 81 500 end_t n 0 (begin_at t0 x0 us s) = Ok tt st /\
      closed_loop pb h t0 x0 (m_log st) /\ end_t <= m_t st /\
      forall i e, nth_error (m_log st) i = Some e -> exists x, nth_error (cd_x (e_cd e)) 0 = Some x /\ plan_optimal pb (cf i) 1 h (e_t e) x (e_cd e) (e_tr e).
  Proof.
    intros L1 L2 Hsm P1 P2 P3 Hmi pb cf Hh Hjk Hs Hx Hl Hu Hn.
    assert (Hdim : forall t, (0 <= vert_dim (T := R) t)%Z) by (intros t; unfold vert_dim; destruct (_ && _)%bool; [lia|]; destruct (_ && _)%bool; lia).
    destruct (C62_tests pb Fit (/ 1000000) false mis h (1 :: rest) limits jks n t0 x0 us s end_t) as (st & E & Hcl & _ & _ & He & _); try assumption.
    - apply ex_vertical; assumption.
    - split; [reflexivity|exact Hdim].
    - discriminate.
    - exists st. split; [exact E|]. split; [exact Hcl|]. split; [exact He|].
      refine (log_property LL pb limits Fit cf jks 80 h _ HD _ Hh _ _ Hjk t0 x0 us s end_t Hx Hl _ Hs
                (fun i t x c tr => plan_optimal pb (cf i) 1 h t x c tr) n st Hn _ E).
      + apply (ddp_example_ok pb (ex_vertical p L1 L2)).
      + split; [reflexivity|exact Hdim].
      + intros i. split; [reflexivity|]. split; [reflexivity|]. discriminate.
      + intros i. apply test_lam.
      + exact Hu.
      + intros i t x ws s1 b s' _ Lx Lw Tw E1.
        destruct (test_optimal LL HL pb 1 (/ 1000000) (mis i) (Z.of_nat h) rest limits (jks i) 81 500 t x ws s1 b s') as [Q|(_ & Q)].
        * apply vert_lq; assumption.
        * apply vert_convex; assumption.
        * exact Lx.
        * change (P_DDP_reg.triangle 1) with 1%nat. cbn [pow]. lra.
        * specialize (Hmi i). lia.
        * exact Tw.
        * exact E1.
        * left. rewrite <- Lw. exact Q.
        * right. exact Q.
  Qed.
End Tests.
Print Assumptions C62_tests.
Print Assumptions C62_bipedal.
Print Assumptions C62_vertical.

(** ** The hypotheses hold together *)
(** The whole loop of TestDDPBipedal.cpp (dt = 0.01, 2 s horizon, 20 s), with any reference and height profile. *)
Example C62_bipedal_nonvacuous zmp omega2 : exists st,
  let pb := bipedal (bip_test zmp omega2) in let cf := test_cf (/ 10000) false 500 200 [1; / 2] in
  mpc_loop chol_llt pb None Repeat (fun _ => cf) (fun _ => vary_junk) 81 500 20 2000 0 (begin_at 0 [0; 0] (repeat [0] 200) fresh_obj) = Ok tt st /\
  closed_loop pb 200 0 [0; 0] (m_log st) /\ 20 <= m_t st /\
  forall i e, nth_error (m_log st) i = Some e -> exists x, nth_error (cd_x (e_cd e)) 0 = Some x /\ plan_optimal pb cf 4 200 (e_t e) x (e_cd e) (e_tr e).
Proof.
  apply (C62_bipedal chol_llt chol_exact chol_dims (bip_test zmp omega2) 200 [/ 2] None (fun _ => vary_junk) 2000 0 [0; 0] (repeat [0] 200) fresh_obj 20);
    cbn [bip_test bp_rvel bp_rzmp bp_tpos bp_tvel bp_dt]; try lra.
  - lia.
  - intros _. apply junk_any.
  - apply fresh_ok. reflexivity.
  - reflexivity.
  - apply repeat_length.
  - intros u Hu. apply repeat_spec in Hu as ->. reflexivity.
  - rewrite INR_IZR_INZ. replace (IZR (Z.of_nat 2000)) with 2000 by (apply f_equal; vm_compute; reflexivity). lra.
Qed.
(** The loop of TestDDPVerticalMotion.cpp with its input limits. *)
Definition vert_limits (t : R) : vec R * vec R := (vconst (Z.to_nat (vert_dim t)) 0, vconst (Z.to_nat (vert_dim t)) 30).
Example C62_tests_nonvacuous ref (h : nat) (end_t : R) n : (2 <= h)%nat -> INR n * (1 / 100) >= end_t -> exists st,
  let p := vert_test ref in let pb := vertical p in
  mpc_loop chol_llt pb (Some vert_limits) Fit (fun i => test_cf (/ 1000000) true (if Nat.eqb i 0 then 500 else 3) (Z.of_nat h) [1; / 2]) (fun _ => vary_junk) 81 500 end_t n 0
    (begin_at 0 [6 / 5; 0] (vert_us p 0 h) fresh_obj) = Ok tt st /\ closed_loop pb h 0 [6 / 5; 0] (m_log st).
Proof.
  intros Hh Hn.
  destruct (C62_tests chol_llt chol_dims (vertical (vert_test ref)) Fit (/ 1000000) true (fun i => if Nat.eqb i 0 then 500%Z else 3%Z) h [1; / 2] (Some vert_limits)
              (fun _ => vary_junk) n 0 [6 / 5; 0] (vert_us (vert_test ref) 0 h) fresh_obj end_t) as (st & E & Hcl & _).
  - apply ex_vertical; reflexivity.
  - split; [reflexivity|]. intros t. cbn [vertical pb_inputDim]. unfold vert_dim. destruct (_ && _)%bool; [lia|]. destruct (_ && _)%bool; lia.
  - exact Hh.
  - intros _. exists vert_limits. split; [reflexivity|]. intros t. unfold vert_limits, nu_of. cbn [fst snd vertical pb_fixed_nu pb_inputDim]. unfold vconst. rewrite !repeat_length || rewrite !vbuild_length. auto.
  - intros _. apply junk_any.
  - apply fresh_ok. reflexivity.
  - reflexivity.
  - unfold vert_us. rewrite map_length, seq_length. reflexivity.
  - intros i u Hu. apply (vert_us_dims _ _ _ _ _ Hu).
  - cbn [vertical vert_test vp_dt pb_dt]. lra.
  - exists st. split; [exact E|exact Hcl].
Qed.

(** ** Where the loop breaks *)
(** A horizon of one step leaves nothing to repeat: back() of an empty vector. *)
Theorem C62_horizon1_refuted {T} {N : Num T} LL pb limits k cfs jks fuel qfuel end_t n (st : mpc T) : (m_t st <? end_t)%num = true -> cf_horizon (cfs 0%nat) = 1%Z ->
  forall b s, ddp_solve LL pb (cfs 0%nat) limits (jks 0%nat) fuel qfuel (m_t st) (m_x st) (m_us st) (m_sol st) = Ok b s ->
  mpc_loop LL pb limits k cfs jks fuel qfuel end_t (Datatypes.S n) 0 st = UB.
Proof.
  intros Ht Hh b s E. cbn [mpc_loop]. rewrite Ht. unfold mpc_pass. rewrite E.
  destruct (solve_ok _ _ _ _ _ _ _ _ _ _ _ _ _ E) as (_ & Hro & _). rewrite Hh in Hro. pose proof (ro_lu _ _ _ _ _ Hro) as Lu.
  destruct (cd_u (s_cd s)) as [|u [|u' l]]; cbn in Lu; try lia. change (shift pb k (cf_horizon (cfs 0%nat)) (m_t st) [u]) with (@None (list (vec T))).
  destruct (nth_error [u] 0); [|reflexivity]. destruct (nth_error (cd_x (s_cd s)) 1); [|reflexivity]. destruct (back (s_trace s)); reflexivity.
Qed.
Print Assumptions C62_horizon1_refuted.

(** One state, one input up to t = 0.6 and two afterwards, dt = 0.1. *)
Section Grid.
  Context {T : Type} {N : Num T}.
  Local Open Scope num_scope.
  Definition grid_nu (t : T) : nat := if t <=? nlit 6 10 then 1%nat else 2%nat.
  Definition grid_pb : problem T := {|
    pb_dt := nlit 1 10; pb_nx := 1; pb_fixed_nu := None; pb_inputDim := fun t => Z.of_nat (grid_nu t);
    pb_stateEq := fun t x u => [vget x 0 + nsum u];
    pb_runningCost := fun t x u => nhalf * (vget x 0 * vget x 0) + nhalf * dot u u;
    pb_terminalCost := fun t x => nhalf * (vget x 0 * vget x 0);
    pb_stateEqDeriv := fun t x u _ => (m11 none, mbuild 1 (grid_nu t) (fun _ _ => none));
    pb_stateEqDeriv2 := fun t x u _ => (m11 none, mbuild 1 (grid_nu t) (fun _ _ => none));
    pb_runningCostDeriv := fun t x u _ =>
      ([vget x 0], u, m11 none, mbuild (grid_nu t) (grid_nu t) (fun i j => if Nat.eqb i j then none else nzero), mzero 1 (grid_nu t));
    pb_terminalCostDeriv := fun t x _ => ([vget x 0], m11 none) |}.
  Lemma grid_nu_of t : nu_of grid_pb t = grid_nu t.
  Proof. unfold nu_of; cbn. apply Nat2Z.id. Qed.
  Lemma grid_wd : well_dimensioned grid_pb.
  Proof.
    split; intros; cbn -[mdimb mbuild mzero nu_of] in *; rewrite ?grid_nu_of in *; auto.
    - split; [reflexivity|apply mbuild_dim].
    - split; [reflexivity|apply mbuild_dim].
    - destruct H1 as (_ & _ & _ & _ & _ & _ & _). unfold deriv_ok; cbn -[mdimb mbuild mzero].
      repeat split; auto; try reflexivity; apply mbuild_dim.
  Qed.
  Definition grid_cf : config T := with_cf false false 20 6.
  Definition grid_start : mpc T := {| m_t := nzero; m_x := [none]; m_us := repeat [nzero] 6; m_sol := vary_s0; m_log := [] |}.
  Definition grid_loop : outcome (mpc T) unit :=
    mpc_loop chol_llt grid_pb None Fit (fun _ => grid_cf) (fun _ => vary_junk) 81 500 none 10 0 grid_start.
End Grid.
Lemma grid_hyps :
  (Fit = Fit /\ forall t : R, (0 <= pb_inputDim grid_pb t)%Z) /\ (2 <= 6)%nat /\
  (nat -> cf_horizon (grid_cf (T := R)) = Z.of_nat 6 /\ cf_second (grid_cf (T := R)) = false /\ limits_ok grid_pb (grid_cf (T := R)) None) /\
  (nat -> 1 < cf_lambda_factor grid_cf /\ 0 < cf_lambda_min grid_cf /\ cf_lambda_max grid_cf < cf_lambda_min grid_cf * cf_lambda_factor grid_cf ^ 80) /\
  (nat -> junk_ok (grid_pb (T := R)) vary_junk) /\ length [1] = pb_nx (grid_pb (T := R)) /\
  (forall i u, nth_error (repeat [0] 6) i = Some u -> Z.of_nat (length u) = pb_inputDim grid_pb (0 + INR i * pb_dt grid_pb)) /\
  object_ok (grid_pb (T := R)) vary_s0.
Proof.
  split; [split; [reflexivity|intros t; cbn; lia]|]. split; [lia|]. split; [intros _; split; [reflexivity|]; split; [reflexivity|discriminate]|].
  split; [intros _; cbn -[pow]; lra|]. split; [intros _; apply (junk_any grid_pb)|]. split; [reflexivity|]. split.
  - cbn [grid_pb pb_fixed_nu pb_inputDim pb_dt]. intros i u Hu. assert (Hi : (i < 6)%nat) by (apply (nth_error_Some (repeat [0] 6)); intros Hc; unfold vec in *; rewrite Hc in Hu; discriminate).
    assert (Hr : INR i <= 5) by (replace 5 with (INR 5) by (cbn; lra); apply le_INR; lia).
    apply nth_error_In, repeat_spec in Hu as ->. assert (X : grid_nu (0 + INR i * nlit 1 10) = 1%nat).
    { unfold grid_nu. assert (Y : nleb (0 + INR i * nlit 1 10) (nlit 6 10) = true) by (apply Rleb_true; cbn; lra). rewrite Y. reflexivity. }
    rewrite X. reflexivity.
  - split; [reflexivity|]. split; [reflexivity|]. cbn. discriminate.
Qed.
(** In exact arithmetic its loop runs to the end ... *)
Example C62_loop_nonvacuous : exists st, grid_loop (T := R) = Ok tt st /\ closed_loop grid_pb 6 0 [1] (m_log st) /\ 1 <= m_t st.
Proof.
  destruct grid_hyps as (A1 & A2 & A3 & A4 & A5 & A6 & A7 & A8).
  destruct (C62_loop chol_llt grid_pb None Fit (fun _ => grid_cf) (fun _ => vary_junk) 80 6 grid_wd chol_dims A1 A2 A3 A4 A5 0 [1] (repeat [0] 6) (vary_s0 (T := R)) 1 A6 eq_refl A7 A8 10%nat)
    as (st & E & Hcl & _ & _ & He & _).
  - cbn. lra.
  - exists st. split; [exact E|]. split; [exact Hcl|exact He].
Qed.
(** ... in binary64 the second call throws: 0 + 6 * 0.1 is above 0.6, so a second input is appended; 0.1 + 5 * 0.1 is not, so one is expected. *)
Definition throws_runtime {S A} (o : outcome S A) : bool := match o with Throw RuntimeError _ => true | _ => false end.
Theorem C62_rounding_refuted : throws_runtime (grid_loop (T := f64)) = true.
Proof. vm_compute. reflexivity. Qed.
Print Assumptions C62_rounding_refuted.
(** One step is a valid horizon of the solver. *)
Example C62_horizon1_nonvacuous : ok_and (fun b s => b)
  (ddp_solve chol_llt (grid_pb (T := f64)) (with_cf false false 20 1) None vary_junk 81 500 nzero [none] [[nzero]] vary_s0) = true.
Proof. vm_compute. reflexivity. Qed.
Example C62_warm_start_nonvacuous : exists st e e', grid_loop (T := R) = Ok tt st /\ nth_error (m_log st) 0 = Some e /\ nth_error (m_log st) 1 = Some e' /\
  exists x ws, nth_error (cd_x (e_cd e)) 1 = Some x /\ length ws = 6%nat /\ total (e_cd e') <= cost_of grid_pb (e_t e') 0 x ws.
Proof.
  destruct grid_hyps as (A1 & A2 & A3 & A4 & A5 & A6 & A7 & A8).
  destruct (C62_loop chol_llt grid_pb None Fit (fun _ => grid_cf) (fun _ => vary_junk) 80 6 grid_wd chol_dims A1 A2 A3 A4 A5 0 [1] (repeat [0] 6) (vary_s0 (T := R)) 1 A6 eq_refl A7 A8 10%nat)
    as (st & E & Hcl & _ & Ht & He & _).
  - cbn. lra.
  - assert (Hlen : (2 <= length (m_log st))%nat).
    { apply INR_le. rewrite Ht in He. cbn in He. cbn [INR]. lra. }
    destruct (m_log st) as [|e [|e' l]] eqn:El; cbn in Hlen; try lia. exists st, e, e'. split; [exact E|]. rewrite El. split; [reflexivity|]. split; [reflexivity|].
    destruct (C62_warm_start chol_llt grid_pb None Fit (fun _ => grid_cf) (fun _ => vary_junk) 80 6 grid_wd chol_dims A1 A2 A3 A4 A5 0 [1] (repeat [0] 6) (vary_s0 (T := R)) 1 A6 eq_refl A7 A8
                10%nat st 0%nat e e') as (x & ws & B1 & B2 & _ & _ & _ & B3).
    + cbn. lra.
    + intros _. cbn. lra.
    + exact E.
    + rewrite El. reflexivity.
    + rewrite El. reflexivity.
    + exists x, ws. auto.
Qed.
