(** The receding-horizon loops around DDPSolver::solve (MpcLoops.v). *)
From Verif Require Import Prelude Scalar LinAlg BoxQP DDP DDPSpec DDPProofs DDPCor DDPSafe Fmpc Problems MpcLoops P_DDP_safe.

Lemma nth_error_same {A} : forall l l' : list A, (forall i, nth_error l i = nth_error l' i) -> l = l'.
Proof.
  induction l as [|a l IH]; intros [|b l'] H; [reflexivity|specialize (H O); discriminate|specialize (H O); discriminate|].
  f_equal; [specialize (H O); injection H as ->; reflexivity|]. apply IH. intros i. exact (H (S i)).
Qed.

(** ** The inputs of the result have the sizes of the inputs given *)
Section Sizes.
  Context {T : Type} {N : Num T}.
  Variables (LL : lltops T) (pb : problem T) (cf : config T) (limits : option (T -> vec T * vec T)) (qfuel : nat).
  Variables (t0 : T) (x0 : vec T) (n : nat).
  Definition same_sizes (us us' : list (vec T)) : Prop := map (fun u : vec T => length u) us' = map (fun u : vec T => length u) us.

  Lemma candidate_sizes c g a c' : is_rollout pb t0 x0 n c -> is_candidate pb t0 x0 n c g a c' -> same_sizes (cd_u c) (cd_u c').
  Proof.
    intros Hro (Hro' & Hc). apply nth_error_same. intros i. rewrite !nth_error_map.
    destruct (Nat.lt_ge_cases i n) as [Hi|Hi].
    - destruct (Hc i Hi) as (x & u & x' & k & K & _ & Hu & _ & _ & _ & Lk & _ & _ & Hu'). rewrite Hu, Hu'. cbn [option_map].
      unfold vadd at 1. rewrite vbuild_length. unfold vadd. rewrite vbuild_length. reflexivity.
    - rewrite !(proj2 (nth_error_None _ i)); [reflexivity| |]; rewrite (ro_lu _ _ _ _ _ Hro) || rewrite (ro_lu _ _ _ _ _ Hro'); exact Hi.
  Qed.
  Lemma search_sizes c g l o al ac ex ra : is_rollout pb t0 x0 n c -> search pb cf t0 x0 n c g l o al ac ex ra ->
    forall c', o = Some c' -> is_rollout pb t0 x0 n c' /\ same_sizes (cd_u c) (cd_u c').
  Proof.
    intros Hro. induction 1 as [|a rest c1 [H _]|a c1 H|a b rest c1 o al ac ex ra Ht Hs IH]; intros c' E; try discriminate; auto.
    injection E as <-. split; [apply H|eapply candidate_sizes; eauto].
  Qed.
  Lemma iteration_sizes it s r e s' : iteration pb cf t0 x0 n LL limits qfuel it s r e s' -> is_rollout pb t0 x0 n (mc s) ->
    is_rollout pb t0 x0 n (mc s') /\ same_sizes (cd_u (mc s)) (cd_u (mc s')).
  Proof.
    destruct 1; cbn [mc fst snd]; intros Hro; try (split; [assumption|reflexivity]).
    eapply search_sizes; eauto.
  Qed.
  Lemma iterations_sizes m it s r es s' : iterations pb cf t0 x0 n LL limits qfuel m it s r es s' -> is_rollout pb t0 x0 n (mc s) ->
    is_rollout pb t0 x0 n (mc s') /\ same_sizes (cd_u (mc s)) (cd_u (mc s')).
  Proof.
    induction 1 as [it s|m it s r e s' Hi Hr|m it s e s1 r es s' Hi Hits IH]; intros Hro.
    - split; [assumption|reflexivity].
    - eapply iteration_sizes; eauto.
    - destruct (iteration_sizes _ _ _ _ _ Hi Hro) as (Hro1 & S1). destruct (IH Hro1) as (Hro2 & S2). split; [exact Hro2|]. unfold same_sizes in *. congruence.
  Qed.
End Sizes.

Lemma solve_sizes {T} {N : Num T} (LL : lltops T) pb cf limits jk fuel qfuel t0 x0 us s b s' :
  ddp_solve LL pb cf limits jk fuel qfuel t0 x0 us s = Ok b s' -> same_sizes us (cd_u (s_cd s')).
Proof.
  intros E. destruct (solve_ok _ _ _ _ _ _ _ _ _ _ _ _ _ E) as (_ & _ & c & r & es & (Hro0 & <- & g0 & Hits) & _).
  apply iterations_sizes in Hits; [|exact Hro0]. apply Hits.
Qed.

(** ** One pass, and the whole loop *)
Section Loop.
  Context {T : Type} {N : Num T}.
  Local Open Scope num_scope.
  Variables (LL : lltops T) (pb : problem T) (limits : option (T -> vec T * vec T)) (k : refill).
  Variables (cfs : nat -> config T) (jks : nat -> junk T) (fuel qfuel : nat) (h : nat).
  Hypothesis WD : well_dimensioned pb.
  Hypothesis HD : llt_dims LL.
  Hypothesis Hcf : forall i, cf_horizon (cfs i) = Z.of_nat h /\ cf_second (cfs i) = false /\ limits_ok pb (cfs i) limits.
  Hypothesis Hjk : forall i, junk_ok pb (jks i).
  Hypothesis Hfuel : forall i t x us s, ddp_solve LL pb (cfs i) limits (jks i) fuel qfuel t x us s <> OutOfFuel.

  (** The inputs have the sizes documented for the times t + i * dt. *)
  Definition sized (t : T) (us : list (vec T)) : Prop :=
    forall i u, nth_error us i = Some u ->
      match pb_fixed_nu pb with Some nu => length u = nu | None => Z.of_nat (length u) = pb_inputDim pb (t + nofnat i * pb_dt pb) end.
  (** With run-time dimensions the refill must look at them, they must not be negative, and moving the start of the grid by dt must
      not change the dimension of a step (true of exact arithmetic; rounding can break it). *)
  Definition refill_ok : Prop :=
    match pb_fixed_nu pb with
    | Some _ => k = Repeat
    | None => k = Fit /\ (forall t, (0 <= pb_inputDim pb t)%Z) /\
        (forall t i, pb_inputDim pb (t + pb_dt pb + nofnat i * pb_dt pb) = pb_inputDim pb (t + nofnat (i + 1) * pb_dt pb)) /\
        (forall t, pb_inputDim pb (t + nofZ (Z.of_nat h) * pb_dt pb) = pb_inputDim pb (t + nofnat h * pb_dt pb))
    end.
  Hypothesis Hk : refill_ok.

  Definition ready (st : mpc T) : Prop :=
    length (m_x st) = pb_nx pb /\ length (m_us st) = h /\ sized (m_t st) (m_us st) /\ object_ok pb (m_sol st).

  Lemma sized_same t us us' : same_sizes us us' -> sized t us -> sized t us'.
  Proof.
    intros S H i u Hu. assert (E : nth_error (map (fun u : vec T => length u) us') i = Some (length u)) by (rewrite nth_error_map, Hu; reflexivity).
    rewrite S, nth_error_map in E. destruct (nth_error us i) as [u0|] eqn:E0; [|discriminate]. injection E as E. specialize (H i u0 E0). rewrite <- E. exact H.
  Qed.

  (** The appended input: the last one again, or zeros when that one no longer has the right size. *)
  Definition refilled (us us' : list (vec T)) : Prop :=
    exists w, nth_error us' (h - 1) = Some w /\
      (nth_error us (h - 1) = Some w \/ w = vzero (length w) /\ pb_fixed_nu pb = None /\ forall u, nth_error us (h - 1) = Some u -> length u <> length w).
  (** Sending a typed sequence through the shift. *)
  Lemma shift_sized t us : (2 <= h)%nat -> length us = h -> sized t us ->
    exists us', shift pb k (Z.of_nat h) t us = Some us' /\ length us' = h /\ sized (t + pb_dt pb) us' /\
      (forall i, (i + 1 < h)%nat -> nth_error us' i = nth_error us (i + 1)) /\ refilled us us'.
  Proof using Hk.
    intros Hh Hl Hs. destruct us as [|u0 us1]; [cbn in Hl; lia|]. cbn [length] in Hl. cbn [shift].
    unfold back. destruct (nth_error us1 (length us1 - 1)) as [u|] eqn:Eb; [|apply nth_error_None in Eb; lia].
    assert (Hu : nth_error (u0 :: us1) (h - 1) = Some u) by (replace (h - 1)%nat with (Datatypes.S (length us1 - 1)) by lia; exact Eb).
    assert (App : forall w : vec T, length (us1 ++ [w]) = h /\ (forall i, (i + 1 < h)%nat -> nth_error (us1 ++ [w]) i = nth_error (u0 :: us1) (i + 1)) /\
              nth_error (us1 ++ [w]) (h - 1) = Some w).
    { intros w. split; [rewrite app_length; cbn [length]; lia|]. split.
      - intros i Hi. rewrite nth_error_app1 by lia. rewrite Nat.add_1_r. reflexivity.
      - rewrite nth_error_app2 by lia. replace (h - 1 - length us1)%nat with 0%nat by lia. reflexivity. }
    unfold refilled. rewrite Hu. unfold refill_ok in Hk. unfold sized in *. destruct (pb_fixed_nu pb) as [nu|].
    - subst k. exists (us1 ++ [u]). destruct (App u) as (A1 & A2 & A3). split; [reflexivity|]. split; [exact A1|]. split; [|split; [exact A2|exists u; auto]].
      intros i w Hw. destruct (Nat.eq_dec i (h - 1)) as [->|Hi].
      + rewrite A3 in Hw. injection Hw as <-. apply (Hs _ _ Hu).
      + assert (i < length (us1 ++ [u]))%nat by (apply nth_error_Some; congruence). rewrite A2 in Hw by lia. apply (Hs _ _ Hw).
    - destruct Hk as (-> & Pos & Grid & End).
      assert (Q : forall w : vec T, Z.of_nat (length w) = pb_inputDim pb (t + nofZ (Z.of_nat h) * pb_dt pb) ->
                  forall i v, nth_error (us1 ++ [w]) i = Some v -> Z.of_nat (length v) = pb_inputDim pb (t + pb_dt pb + nofnat i * pb_dt pb)).
      { intros w Hw i v Hv. destruct (App w) as (A1 & A2 & A3). rewrite Grid. destruct (Nat.eq_dec i (h - 1)) as [->|Hi].
        - rewrite A3 in Hv. injection Hv as <-. rewrite Hw, End. replace (h - 1 + 1)%nat with h by lia. reflexivity.
        - assert (i < length (us1 ++ [w]))%nat by (apply nth_error_Some; congruence). rewrite A2 in Hv by lia. apply (Hs _ _ Hv). }
      destruct (Z.eqb_spec (Z.of_nat (length u)) (pb_inputDim pb (t + nofZ (Z.of_nat h) * pb_dt pb))) as [E|E].
      + exists (us1 ++ [u]). destruct (App u) as (A1 & A2 & A3). split; [reflexivity|]. split; [exact A1|]. split; [|split; [exact A2|exists u; auto]]. apply Q. exact E.
      + destruct (Z.ltb_spec (pb_inputDim pb (t + nofZ (Z.of_nat h) * pb_dt pb)) 0) as [Hn|Hn].
        { exfalso. specialize (Pos (t + nofZ (Z.of_nat h) * pb_dt pb)). lia. }
        exists (us1 ++ [vzero (Z.to_nat (pb_inputDim pb (t + nofZ (Z.of_nat h) * pb_dt pb)))]).
        destruct (App (vzero (Z.to_nat (pb_inputDim pb (t + nofZ (Z.of_nat h) * pb_dt pb))))) as (A1 & A2 & A3). split; [reflexivity|]. split; [exact A1|].
        split; [|split; [exact A2|eexists; split; [exact A3|right]]].
        * apply Q. unfold vzero. rewrite vbuild_length. lia.
        * assert (Lz : forall n, length (vzero n : vec T) = n) by (intros n; unfold vzero; apply vbuild_length). rewrite Lz. split; [reflexivity|]. split; [reflexivity|]. intros u' Eu. injection Eu as <-. lia.
  Qed.

  (** One pass from a ready state. *)
  Lemma pass_ok i st : (2 <= h)%nat -> ready st -> exists b s st',
    ddp_solve LL pb (cfs i) limits (jks i) fuel qfuel (m_t st) (m_x st) (m_us st) (m_sol st) = Ok b s /\
    mpc_pass LL pb limits k (cfs i) (jks i) fuel qfuel st = Ok tt st' /\ ready st' /\
    m_t st' = m_t st + pb_dt pb /\ m_sol st' = s /\ m_log st' = m_log st ++ [(m_t st, s_cd s, s_trace s)] /\
    is_rollout pb (m_t st) (m_x st) h (s_cd s) /\ s_trace s <> [] /\
    nth_error (cd_x (s_cd s)) 1 = Some (m_x st') /\
    (forall j, (j + 1 < h)%nat -> nth_error (m_us st') j = nth_error (cd_u (s_cd s)) (j + 1)) /\ refilled (cd_u (s_cd s)) (m_us st').
  Proof using WD HD Hcf Hjk Hfuel Hk.
    intros Hh (Lx & Lu & Sz & Ho). destruct (Hcf i) as (Hz & Hsec & Hlim).
    destruct (C15_returns LL pb (cfs i) limits (jks i) fuel qfuel (m_t st) (m_x st) (m_us st) (m_sol st)) as (b & s & E & Ho'); try assumption; auto.
    { split; [exact Lx|]. intros nu Hnu. apply Forall_forall. intros u Hu. apply In_nth_error in Hu as [j Hj]. specialize (Sz j u Hj). rewrite Hnu in Sz. exact Sz. }
    { split; [lia|]. intros Hn j u Hu. specialize (Sz j u Hu). rewrite Hn in Sz. exact Sz. }
    destruct (solve_ok _ _ _ _ _ _ _ _ _ _ _ _ _ E) as (_ & Hro & c & r & es & _ & _ & Etr). rewrite Hz, Nat2Z.id in Hro.
    pose proof (sized_same _ _ _ (solve_sizes _ _ _ _ _ _ _ _ _ _ _ _ _ E) Sz) as Sz'.
    destruct (shift_sized (m_t st) (cd_u (s_cd s)) Hh (ro_lu _ _ _ _ _ Hro) Sz') as (us' & Es & Lus & Sus & Hus & Hrf).
    destruct (ro_step _ _ _ _ _ Hro 0%nat ltac:(lia)) as (x & u & X0 & U0 & X1 & _). cbn [Nat.add] in X1.
    rewrite (ro_x0 _ _ _ _ _ Hro) in X0. injection X0 as <-.
    assert (Ebk : back (s_trace s) = Some (nth (length (s_trace s) - 1) (s_trace s) (trace_start (cfs i) c))).
    { unfold back. rewrite <- (nth_error_nth' (s_trace s) (trace_start (cfs i) c)); [reflexivity|]. rewrite Etr. cbn [length]. lia. }
    eexists b, s, _. split; [exact E|]. split; [unfold mpc_pass; rewrite E, U0, X1, Ebk, Hz, Es; reflexivity|]. cbn [m_t m_x m_us m_sol m_log].
    split.
    { split; [cbn [m_x]|split; [exact Lus|split; [exact Sus|exact Ho']]].
      apply (wd_state _ WD); [exact Lx|]. specialize (Sz' 0%nat u U0). unfold nu_of. destruct (pb_fixed_nu pb); [exact Sz'|]. apply (f_equal Z.to_nat) in Sz'. rewrite Nat2Z.id in Sz'. exact Sz'. }
    split; [reflexivity|]. split; [reflexivity|]. split; [reflexivity|]. split; [exact Hro|]. split; [rewrite Etr; discriminate|]. split; [exact X1|]. split; [exact Hus|exact Hrf].
  Qed.

  (** What a sequence of passes [i], [i+1], ... looks like from outside: each pass is a solve call at the current time and state that
      returned; its first input moves the state; its inputs, moved by one, start the next pass. *)
  Inductive passes : nat -> mpc T -> list (T * cdata T * list (trace T)) -> mpc T -> Prop :=
  | ps_end i st : passes i st [] st
  | ps_next i st b s st' log st'' :
      ddp_solve LL pb (cfs i) limits (jks i) fuel qfuel (m_t st) (m_x st) (m_us st) (m_sol st) = Ok b s ->
      is_rollout pb (m_t st) (m_x st) h (s_cd s) -> s_trace s <> [] -> ready st ->
      m_t st' = m_t st + pb_dt pb -> nth_error (cd_x (s_cd s)) 1 = Some (m_x st') ->
      (forall j, (j + 1 < h)%nat -> nth_error (m_us st') j = nth_error (cd_u (s_cd s)) (j + 1)) -> refilled (cd_u (s_cd s)) (m_us st') ->
      passes (Datatypes.S i) st' log st'' -> passes i st ((m_t st, s_cd s, s_trace s) :: log) st''.

  Lemma loop_ok end_t n : (2 <= h)%nat -> forall i st, ready st ->
    (exists st' log, mpc_loop LL pb limits k cfs jks fuel qfuel end_t n i st = Ok tt st' /\ ready st' /\
       m_log st' = m_log st ++ log /\ passes i st log st' /\ (length log <= n)%nat /\ (m_t st' <? end_t) = false /\
       (forall e, In e log -> (fst (fst e) <? end_t) = true)) \/
    (mpc_loop LL pb limits k cfs jks fuel qfuel end_t n i st = OutOfFuel /\
       exists st' log, passes i st log st' /\ length log = n /\ (m_t st' <? end_t) = true).
  Proof using WD HD Hcf Hjk Hfuel Hk.
    intros Hh. induction n as [|n IH]; intros i st Hr; cbn [mpc_loop]; destruct (m_t st <? end_t) eqn:Et.
    - right. split; [reflexivity|]. exists st, []. split; [constructor|]. auto.
    - left. exists st, []. rewrite app_nil_r. split; [reflexivity|]. split; [exact Hr|]. split; [reflexivity|]. split; [constructor|]. split; [cbn; lia|]. split; [exact Et|]. intros e [].
    - destruct (pass_ok i st Hh Hr) as (b & s & st1 & E & Ep & Hr1 & Et1 & Es1 & El1 & Hro & Htr & Hx1 & Hus & Hrf). rewrite Ep.
      destruct (IH (Datatypes.S i) st1 Hr1) as [(st' & log & E' & Hr' & El' & Hp & Hl & He & Ha)|(E' & st' & log & Hp & Hl & He)].
      + left. exists st', ((m_t st, s_cd s, s_trace s) :: log). split; [exact E'|]. split; [exact Hr'|]. split; [rewrite El', El1, <- app_assoc; reflexivity|].
        split; [econstructor; eauto|]. split; [cbn; lia|]. split; [exact He|]. intros e [<-|He']; [exact Et|apply Ha; exact He'].
      + right. split; [exact E'|]. exists st', ((m_t st, s_cd s, s_trace s) :: log). split; [econstructor; eauto|]. split; [cbn; lia|exact He].
    - left. exists st, []. rewrite app_nil_r. split; [reflexivity|]. split; [exact Hr|]. split; [reflexivity|]. split; [constructor|]. split; [cbn; lia|]. split; [exact Et|]. intros e [].
  Qed.
End Loop.
