(** C64: the receding-horizon loop of TestFmpcOscillator.cpp, in exact arithmetic. *)
From Coq Require Import Reals Lra Psatz.
From Verif Require Import Prelude Scalar LinAlg RLin DDP DDPSafe ExDDP Fmpc FmpcProofs FmpcStep FmpcSpec FmpcReal FmpcNewton FmpcSafe FmpcAffine FmpcRows ExFmpc P_FmpcRun P_FmpcReal P_FmpcNewton.
From Verif Require Import P_FmpcHist Problems ProbSolve P_ProblemsRun P_FmpcRows FmpcLoop MpcLoops.
Local Open Scope R_scope.

(** What a pass leaves in the log: time, state, input, status, value of the inequality function. *)
Definition oentry : Type := R * vec R * vec R * fstatus * vec R.
Definition oe_t (e : oentry) : R := fst (fst (fst (fst e))).
Definition oe_x (e : oentry) : vec R := snd (fst (fst (fst e))).
Definition oe_u (e : oentry) : vec R := snd (fst (fst e)).
Definition oe_r (e : oentry) : fstatus := snd (fst e).
Definition oe_g (e : oentry) : vec R := snd e.
(** The simulated oscillator, written out. *)
Definition osc_moves (h : R) (x u x' : vec R) : Prop :=
  exists a b f, x = [a; b] /\ u = [f] /\ x' = [a + h * ((1 - b * b) * a - b + f); b + h * a].
(** Closed loop from ([t0], [x0]): entry i is at t0 + i * sim_dt, its status is one of the two the test accepts, its constraint values are those of its
    own state and input, and its input moves the state to that of the next entry, the last one to [x1]. *)
Record osc_closed (sim_dt t0 : R) (x0 : vec R) (log : list oentry) (x1 : vec R) : Prop := {
  oc_at : forall i e, nth_error log i = Some e -> oe_t e = t0 + INR i * sim_dt /\ (oe_r e = Succeeded \/ oe_r e = MaxIterationReached) /\
    exists a b f, oe_x e = [a; b] /\ oe_u e = [f] /\ oe_g e = [- b - 1 / 20; - f - 1; f - 9 / 10];
  oc_first : nth 0 (map oe_x log ++ [x1]) [] = x0;
  oc_next : forall i e, nth_error log i = Some e -> osc_moves sim_dt (oe_x e) (oe_u e) (nth (i + 1) (map oe_x log ++ [x1]) [])
}.

Section Oscillator.
  Variables (LO : linops R) (hdt sim_dt : R) (cf : fconfig R) (jks : nat -> fjunk R) (fuel : nat).
  Notation pb := (oscillator hdt).
  Hypothesis HLO : FmpcSafe.lin_dims LO.
  Hypothesis Hb : fc_break cf = false.
  Hypothesis Hm : (1 <= fc_max_iter cf)%Z.
  Hypothesis Hf : (35 <= fuel)%nat.
  Hypothesis Hh : (1 <= fc_hor cf)%Z.
  Hypothesis Hj : forall i, FmpcSafe.junk_ok pb (jks i).

  Definition oready (st : osc_mpc R) : Prop := length (o_x st) = 2%nat /\ FmpcSafe.typed_var pb (o_var st) /\ right_lengths cf (o_var st) /\
    (fc_init cf = true \/ pos_var (o_var st)) /\ FmpcSafe.object_ok pb (o_sol st).
  (** residual of row j at stage i *)
  Definition ores (v : var R) (i j : nat) : R := ineq_res pb 0 v i j.
  Lemma ores_any t v i j : ineq_res pb t v i j = ores v i j.
  Proof. reflexivity. Qed.

  Definition oentry_of (st : osc_mpc R) (u : vec R) (r : fstatus) : oentry := (o_t st, o_x st, u, r, fp_g pb (o_t st) (o_x st) u).
  Definition onext (st : osc_mpc R) (s : fsolver R) (u : vec R) (r : fstatus) : osc_mpc R :=
    {| o_t := o_t st + sim_dt; o_x := osc_f_dt (o_t st) (o_x st) u sim_dt; o_var := f_var s; o_sol := s; o_log := o_log st ++ [oentry_of st u r] |}.
  Notation call i st := (fmpc_solve LO pb cf (jks i) fuel (o_t st) (o_x st) (o_var st) (o_sol st)).
  Lemma opass i st : oready st -> exists r s u, call i st = Ok r s /\ (r = Succeeded \/ r = MaxIterationReached) /\
    nth_error (v_u (f_var s)) 0 = Some u /\ length u = 1%nat /\ osc_pass LO hdt sim_dt cf (jks i) fuel st = Ok tt (onext st s u r) /\ oready (onext st s u r).
  Proof using HLO Hb Hm Hf Hh Hj.
    intros (Lx & Tv & RL & Pv & Ob).
    destruct (C60_oscillator LO hdt cf (jks i) fuel (o_t st) (o_x st) (o_var st) (o_sol st) HLO Hb Hm Hf (Hj i) Ob Lx Tv RL Pv) as (r & s & E & Hr & Ob').
    assert (SS : FmpcSafe.state_ok pb cf (o_t st) s /\ right_lengths cf (f_var s)).
    { refine (solve_state LO pb cf (jks i) (o_t st) (osc_wd hdt) HLO _ _ _ _ _ _ _ _ Lx Tv (Hj i) Ob E).
      - intros _ _. split; [cbn; lia|intros k _; cbn; lia].
      - intros _ k _. cbn. lia. }
    destruct SS as (So & RL'). pose proof (state_typed _ _ _ _ So) as Tv'. pose proof (right_nat _ _ RL') as (_ & L2 & _).
    assert (exists u, nth_error (v_u (f_var s)) 0 = Some u) as (u & Eu) by (apply FmpcSafe.get_some; unfold Nf in *; lia).
    assert (Lu : length u = 1%nat) by (apply (FmpcSafe.ty_u _ _ Tv' 1%nat); [reflexivity|apply nth_error_In in Eu; exact Eu]).
    assert (exists e, back (f_trace s) = Some e) as (e & Ee).
    { apply FmpcSafe.get_some. destruct (C27_status LO pb cf (jks i) fuel _ _ _ _ _ _ E) as (_ & _ & _ & A4 & A5 & _).
      assert (0 < length (f_trace s))%nat; [|lia]. destruct Hr as [->| ->].
      - destruct (proj1 A5 eq_refl) as (e & He & _). assert (X : nth_error (f_trace s) (length (f_trace s) - 1) <> None) by congruence. apply nth_error_Some in X. lia.
      - destruct (A4 eq_refl) as (_ & A6 & _). lia. }
    exists r, s, u. do 4 (split; [assumption|]). split.
    - unfold osc_pass. cbn zeta. rewrite E, Eu, Ee. reflexivity.
    - split; [cbn [onext o_x]; unfold osc_f_dt; unfold vadd; rewrite vbuild_length; exact Lx|]. split; [exact Tv'|]. split; [exact RL'|]. split; [|exact Ob'].
      destruct (C30_run _ _ _ _ _ _ _ _ _ _ _ E) as (_ & P2). right. apply P2. exact Pv.
  Qed.
  (** Without init_complementary_variable a call multiplies all residuals by one factor. *)
  Lemma ocall i st r s : oready st -> fc_init cf = false -> call i st = Ok r s ->
    exists c, 0 <= c <= 1 /\ (r = MaxIterationReached -> c < 1) /\ forall k j, (k < Nf cf)%nat -> (j < 3)%nat -> ores (f_var s) k j = c * ores (o_var st) k j.
  Proof using Hf Hh.
    intros (Lx & Tv & RL & Pv & Ob) Hi E. destruct (C63_run LO pb cf (jks i) (osc_D hdt) (osc_computes hdt) _ _ _ _ _ _ _ E) as (v & c & Ev & _ & _ & _ & Hc & [_ _ S3] & Hr).
    rewrite (Ev Hi) in S3. exists c. split; [exact Hc|]. split; [exact Hr|]. intros k j Hk Hj3. rewrite <- (ores_any (o_t st)), <- (ores_any (o_t st) (o_var st)).
    apply S3; [exact Hk|apply osc_rows|]. pose proof (right_nat _ _ RL) as (_ & _ & _ & L4 & _).
    rewrite (FmpcSafe.ty_s _ _ Tv 3%nat); [exact Hj3|reflexivity|left; apply nth_In; unfold Nf in *; lia].
  Qed.

  Inductive opasses : nat -> osc_mpc R -> list oentry -> osc_mpc R -> Prop :=
  | op_end i st : opasses i st [] st
  | op_next i st r s u log st' : oready st -> call i st = Ok r s -> r = Succeeded \/ r = MaxIterationReached -> nth_error (v_u (f_var s)) 0 = Some u -> length u = 1%nat ->
      oready (onext st s u r) -> opasses (Datatypes.S i) (onext st s u r) log st' -> opasses i st (oentry_of st u r :: log) st'.
  Lemma oloop end_t n : forall i st, oready st ->
    (exists st' log, osc_loop LO hdt sim_dt cf jks fuel end_t n i st = Ok tt st' /\ o_log st' = o_log st ++ log /\ opasses i st log st' /\ (length log <= n)%nat /\ end_t <= o_t st' /\ (forall e, In e log -> oe_t e < end_t)) \/
    (osc_loop LO hdt sim_dt cf jks fuel end_t n i st = OutOfFuel /\ o_t st + INR n * sim_dt < end_t).
  Proof using HLO Hb Hm Hf Hh Hj.
    induction n as [|n IH]; intros i st Hr; cbn [osc_loop]; destruct (nltb (o_t st) end_t) eqn:Et.
    1: right; split; [reflexivity|]; apply Rltb_true in Et; cbn [INR]; lra.
    1, 3: left; exists st, []; rewrite app_nil_r; apply Rltb_false in Et; do 2 (split; [reflexivity|]); split; [constructor|]; split; [cbn; lia|]; split; [exact Et|]; intros e [].
    apply Rltb_true in Et. destruct (opass i st Hr) as (r & s & u & E & Hs & Eu & Lu & Ep & Hr1). rewrite Ep.
    destruct (IH (Datatypes.S i) _ Hr1) as [(st' & log & E' & El & Hp & Hl & He & Ha)|(E' & He)].
    - left. exists st', (oentry_of st u r :: log). split; [exact E'|]. split; [rewrite El; cbn [onext o_log]; rewrite <- app_assoc; reflexivity|].
      split; [econstructor; eassumption|]. split; [cbn; lia|]. split; [exact He|]. intros e [<-|He']; [exact Et|apply Ha; exact He'].
    - right. split; [exact E'|]. cbn [onext o_t] in He. rewrite S_INR. unfold nadd in He; cbn [RNum] in He. lra.
  Qed.
  Lemma opasses_closed i st log st' : oready st -> opasses i st log st' -> osc_closed sim_dt (o_t st) (o_x st) log (o_x st') /\ o_t st' = o_t st + INR (length log) * sim_dt.
  Proof.
    intros Hr. induction 1 as [i st|i st r s u log st' Hr0 E Hs Eu Lu Hr1 Hp IH].
    - split; [|cbn; ring]. constructor; [intros [|k] e H; discriminate|reflexivity|intros [|k] e H; discriminate].
    - destruct (IH Hr1) as ([A F B] & Et). destruct Hr0 as (Lx & _).
      assert (X : exists a b, o_x st = [a; b]) by (destruct (o_x st) as [|a [|b [|]]]; try discriminate; eauto). destruct X as (a & b & X).
      assert (U : exists f, u = [f]) by (destruct u as [|f [|]]; try discriminate; eauto). destruct U as (f & U).
      assert (M : osc_moves sim_dt (o_x st) u (o_x (onext st s u r))).
      { exists a, b, f. split; [exact X|]. split; [exact U|]. cbn [onext o_x]. rewrite X, U. unfold osc_f_dt, vadd, vscale, vbuild, sqr. cbn. reflexivity || (f_equal; [ring|f_equal; ring]). }
      split.
      + constructor.
        * intros [|k] e H; cbn [nth_error] in H.
          { injection H as <-. cbn [oentry_of oe_t oe_r oe_x oe_u oe_g fst snd INR]. split; [ring|]. split; [exact Hs|]. exists a, b, f. split; [exact X|]. split; [exact U|].
            rewrite X, U. assert (L3 : forall a1 a2 b1 b2 c1 c2 : R, a1 = a2 -> b1 = b2 -> c1 = c2 -> [a1; b1; c1] = [a2; b2; c2]) by congruence. apply L3; cbn; lra. }
          { destruct (A k e H) as (A1 & A2). split; [|exact A2]. rewrite A1. cbn [onext o_t]. rewrite S_INR. numR. ring. }
        * reflexivity.
        * intros [|k] e H; cbn [nth_error] in H; cbn [map app Nat.add].
          { injection H as <-. cbn [nth Nat.add]. rewrite F. exact M. }
          { cbn [nth]. apply B. exact H. }
      + rewrite Et. cbn [onext o_t length]. rewrite S_INR. numR. ring.
  Qed.
  Lemma opasses_res i st log st' : fc_init cf = false -> opasses i st log st' ->
    exists c : nat -> R, c 0%nat = 1 /\ (forall k, 0 <= c k) /\ forall k e, nth_error log k = Some e ->
      c (Datatypes.S k) <= c k /\ (oe_r e = MaxIterationReached -> 0 < c k -> c (Datatypes.S k) < c k) /\
      exists s1 s2, 0 < s1 /\ 0 < s2 /\ - vget (oe_u e) 0 - 1 + s1 = c (Datatypes.S k) * ores (o_var st) 0 1 /\
        vget (oe_u e) 0 - 9 / 10 + s2 = c (Datatypes.S k) * ores (o_var st) 0 2.
  Proof using Hf Hh.
    intros Hi. induction 1 as [i st|i st r s u log st' Hr0 E Hs Eu Lu Hr1 Hp IH].
    - exists (fun _ => 1). split; [reflexivity|]. split; [intros; lra|]. intros [|k] e H; discriminate.
    - destruct IH as (c & C0 & Cp & Hc). destruct (ocall _ _ _ _ Hr0 Hi E) as (a & Ha & Hlt & Hres). cbn [onext o_var] in Hc.
      exists (fun k => match k with O => 1 | Datatypes.S k' => a * c k' end). split; [reflexivity|].
      split; [intros [|k]; [lra|apply Rmult_le_pos; [lra|apply Cp]]|].
      assert (HN : (0 < Nf cf)%nat) by (unfold Nf; lia).
      intros [|k] e H; cbn [nth_error] in H.
      + injection H as <-. cbn [oentry_of oe_r oe_u fst snd]. rewrite C0. split; [lra|]. split; [intros X _; specialize (Hlt X); lra|].
        destruct Hr1 as (_ & Tv & RL & Pv & _). cbn [onext o_var] in Tv, RL, Pv. destruct Pv as [X|Pv]; [congruence|].
        pose proof (right_nat _ _ RL) as (_ & _ & _ & L4 & _).
        assert (L3 : length (nth 0 (v_s (f_var s)) []) = 3%nat) by (apply (FmpcSafe.ty_s _ _ Tv 3%nat); [reflexivity|left; apply nth_In; unfold Nf in *; lia]).
        exists (vget (nth 0 (v_s (f_var s)) []) 1), (vget (nth 0 (v_s (f_var s)) []) 2).
        split; [apply slack_pos; [exact Pv|rewrite L3; lia]|]. split; [apply slack_pos; [exact Pv|rewrite L3; lia]|].
        rewrite Rmult_1_r, <- !Hres by lia. unfold ores, ineq_res. rewrite (nth_some _ _ _ _ Eu).
        destruct (osc_g hdt (0 + INR 0 * pb_dt (fp_dp pb)) (nth 0 (v_x (f_var s)) []) u) as (_ & G1 & G2). rewrite G1, G2. split; reflexivity.
      + destruct (Hc k e H) as (A1 & A2 & s1 & s2 & S1 & S2 & A3 & A4). split; [nra|]. split.
        * intros X Y. specialize (A2 X). specialize (Cp k). assert (0 < a) by nra. assert (0 < c k) by nra. specialize (A2 H1). nra.
        * exists s1, s2. do 2 (split; [assumption|]). rewrite A3, A4, !Hres by lia. split; ring.
  Qed.

  Variables (t0 : R) (x0 : vec R) (v0 : var R) (s0 : fsolver R) (end_t : R).
  Definition obegin : osc_mpc R := {| o_t := t0; o_x := x0; o_var := v0; o_sol := s0; o_log := [] |}.
  Hypothesis Hx0 : length x0 = 2%nat.
  Hypothesis Hv0 : FmpcSafe.typed_var pb v0.
  Hypothesis Hl0 : right_lengths cf v0.
  Hypothesis Hp0 : fc_init cf = true \/ pos_var v0.
  Hypothesis Hs0 : FmpcSafe.object_ok pb s0.
  Notation loop n := (osc_loop LO hdt sim_dt cf jks fuel end_t n 0 obegin).
  Lemma obegin_ready : oready obegin.
  Proof. exact (conj Hx0 (conj Hv0 (conj Hl0 (conj Hp0 Hs0)))). Qed.
  (** C64: the loop of TestFmpcOscillator.cpp never does anything undefined, never throws, and ends; every status is one the test accepts (line 170);
      the log is a closed loop of the oscillator, one entry per time t0 + i * sim_dt before end_t. *)
  Theorem C64_loop n : t0 + INR n * sim_dt >= end_t ->
    exists st, loop n = Ok tt st /\ osc_closed sim_dt t0 x0 (o_log st) (o_x st) /\ (length (o_log st) <= n)%nat /\
      o_t st = t0 + INR (length (o_log st)) * sim_dt /\ end_t <= o_t st /\ (forall e, In e (o_log st) -> oe_t e < end_t).
  Proof using HLO Hb Hm Hf Hh Hj Hx0 Hv0 Hl0 Hp0 Hs0.
    intros Hn. destruct (oloop end_t n 0 obegin obegin_ready) as [(st & log & E & El & Hp & Hl & He & Ha)|(_ & He)]; [|cbn [obegin o_t] in He; lra].
    cbn [obegin o_log app] in El. exists st. rewrite El. split; [exact E|]. destruct (opasses_closed _ _ _ _ obegin_ready Hp) as (Hc & Ht). auto.
  Qed.
  (** C64: the inputs applied by the loop. [v0]'s first input and slacks decide: a bound that the slack starts below is never violated, whatever the linear
      solver returns and however far the state is from the plan; otherwise the excess is at most the initial residual times a factor that never grows
      and shrinks with every call that reaches the iteration limit. *)
  Theorem C64_inputs n st : t0 + INR n * sim_dt >= end_t -> fc_init cf = false -> loop n = Ok tt st ->
    let u0 := vget (nth 0 (v_u v0) []) 0 in let sl j := vget (nth 0 (v_s v0) []) j in
    (forall e, In e (o_log st) -> (sl 1%nat <= u0 + 1 -> -1 < vget (oe_u e) 0) /\ (sl 2%nat <= 9 / 10 - u0 -> vget (oe_u e) 0 < 9 / 10)) /\
    exists c : nat -> R, c 0%nat = 1 /\ (forall k, 0 <= c k) /\ forall k e, nth_error (o_log st) k = Some e ->
      c (Datatypes.S k) <= c k /\ (oe_r e = MaxIterationReached -> 0 < c k -> c (Datatypes.S k) < c k) /\
      -1 - c (Datatypes.S k) * (sl 1%nat - u0 - 1) < vget (oe_u e) 0 < 9 / 10 + c (Datatypes.S k) * (u0 + sl 2%nat - 9 / 10).
  Proof using HLO Hb Hm Hf Hh Hj Hx0 Hv0 Hl0 Hp0 Hs0.
    intros Hn Hi E u0 sl. destruct (oloop end_t n 0 obegin obegin_ready) as [(st1 & log & E1 & El & Hp & _)|(E1 & _)]; rewrite E in E1; [|discriminate].
    injection E1 as <-. cbn [obegin o_log app] in El. rewrite El. destruct (opasses_res _ _ _ _ Hi Hp) as (c & C0 & Cp & Hc).
    assert (R1 : ores (o_var obegin) 0 1 = sl 1%nat - u0 - 1).
    { unfold ores, ineq_res. cbn [obegin o_var]. destruct (osc_g hdt (0 + INR 0 * pb_dt (fp_dp pb)) (nth 0 (v_x v0) []) (nth 0 (v_u v0) [])) as (_ & G1 & _).
      rewrite G1. unfold sl, u0. ring. }
    assert (R2 : ores (o_var obegin) 0 2 = u0 + sl 2%nat - 9 / 10).
    { unfold ores, ineq_res. cbn [obegin o_var]. destruct (osc_g hdt (0 + INR 0 * pb_dt (fp_dp pb)) (nth 0 (v_x v0) []) (nth 0 (v_u v0) [])) as (_ & _ & G2).
      rewrite G2. unfold sl, u0. ring. }
    rewrite R1, R2 in Hc. split.
    - intros e He. apply In_nth_error in He as (k & Hk). destruct (Hc k e Hk) as (_ & _ & s1 & s2 & S1 & S2 & A1 & A2). specialize (Cp (Datatypes.S k)). split; intros; nra.
    - exists c. split; [exact C0|]. split; [exact Cp|]. intros k e Hk. destruct (Hc k e Hk) as (B1 & B2 & s1 & s2 & S1 & S2 & A1 & A2).
      split; [exact B1|]. split; [exact B2|]. split; lra.
  Qed.
End Oscillator.
Print Assumptions C64_loop.
Print Assumptions C64_inputs.

(** ** The hypotheses hold together: the loop of the test, with any horizon >= 1, any state, step and duration *)
Theorem C64_test (h n : nat) (hdt sim_dt end_t : R) (x0 : vec R) LO jks s0 : (1 <= h)%nat -> FmpcSafe.lin_dims LO -> (forall i, FmpcSafe.junk_ok (oscillator hdt) (jks i)) ->
  length x0 = 2%nat -> FmpcSafe.object_ok (oscillator hdt) s0 -> INR n * sim_dt >= end_t ->
  exists st, osc_loop LO hdt sim_dt (osc_cf h) jks 35 end_t n 0 (obegin 0 x0 (start_var 2 1 3 h) s0) = Ok tt st /\
    osc_closed sim_dt 0 x0 (o_log st) (o_x st) /\ end_t <= o_t st /\ forall e, In e (o_log st) -> -1 < vget (oe_u e) 0 < 1.
Proof.
  intros Hh HLO Hj Hx Hs Hn. destruct (start_ok (oscillator hdt) (osc_cf h) 2 1 3 h) as (T1 & T2 & T3); try reflexivity.
  assert (H1 : (1 <= fc_hor (osc_cf h))%Z) by (cbn; lia). assert (H2 : (1 <= fc_max_iter (osc_cf h))%Z) by (cbn; lia).
  destruct (C64_loop LO hdt sim_dt (osc_cf h) jks 35 HLO eq_refl H2 (le_n _) H1 Hj 0 x0 (start_var 2 1 3 h) s0 end_t Hx T1 T2 (or_intror T3) Hs n ltac:(lra)) as (st & E & Hc & _ & _ & He & _).
  exists st. split; [exact E|]. split; [exact Hc|]. split; [exact He|]. intros e Hin.
  destruct (C64_inputs LO hdt sim_dt (osc_cf h) jks 35 HLO eq_refl H2 (le_n _) H1 Hj 0 x0 (start_var 2 1 3 h) s0 end_t Hx T1 T2 (or_intror T3) Hs n st ltac:(lra) eq_refl E) as (A & c & C0 & Cp & B).
  destruct (start_nth 2 1 3 h 0 ltac:(lia)) as (X & U & S). rewrite U, S in A, B. cbn in A, B. split; [apply A; [exact Hin|lra]|].
  apply In_nth_error in Hin as (k & Hk). destruct (B k e Hk) as (B1 & _ & _ & B2).
  assert (M : forall j e', nth_error (o_log st) j = Some e' -> c (Datatypes.S j) <= 1).
  { induction j as [|j IH]; intros e' He'; [destruct (B _ _ He'); lra|]. destruct (B _ _ He') as (B3 & _).
    destruct (nth_error (o_log st) j) as [e2|] eqn:E2; [specialize (IH e2 eq_refl); lra|]. apply nth_error_None in E2.
    assert (X1 : nth_error (o_log st) (Datatypes.S j) <> None) by congruence. apply nth_error_Some in X1. lia. }
  specialize (M k e Hk). nra.
Qed.
Print Assumptions C64_test.
(** With a concrete linear solver and the object as constructed: 10 s at steps of 0.005 s. *)
Example C64_test_nonvacuous (h : nat) : (1 <= h)%nat -> exists st,
  osc_loop normal_lin (1 / 100) (1 / 200) (osc_cf h) (fun _ => sized_junk 7 2 1 3) 35 10 2000 0
    (obegin 0 [0; 1] (start_var 2 1 3 h) (new_object (sized_junk 7 2 1 3) (vzero 2))) = Ok tt st /\
  osc_closed (1 / 200) 0 [0; 1] (o_log st) (o_x st) /\ 10 <= o_t st /\ forall e, In e (o_log st) -> -1 < vget (oe_u e) 0 < 1.
Proof.
  intros Hh. destruct (start_object (oscillator (1 / 100)) 2 1 3) as (J1 & J2); try reflexivity.
  apply C64_test; try assumption; [apply normal_dims|intros _; exact J1|reflexivity|]. rewrite INR_IZR_INZ. change (Z.of_nat 2000) with 2000%Z. lra.
Qed.
