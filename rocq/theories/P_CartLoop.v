(** C65: the cart-pole programs TestFmpcCartPole.cpp and TestDDPCartPole.cpp under every order of their events, in exact arithmetic. *)
From Coq Require Import Reals Lra Psatz.
From Verif Require Import Prelude Scalar LinAlg RLin BoxQP DDP DDPSpec DDPProofs DDPCor DDPReal DDPSafe DDPLimits LQ LQ2 Chol CholProofs ExDDP P_DDP_real P_DDP_safe P_DDP_lq.
From Verif Require Import Fmpc FmpcProofs FmpcStep FmpcSpec FmpcReal FmpcNewton FmpcSafe FmpcAffine FmpcRows ExFmpc P_FmpcRun P_FmpcReal P_FmpcNewton P_FmpcHist.
From Verif Require Import Problems ProbSolve P_ProblemsRun P_FmpcRows FmpcLoop MpcLoops MpcProofs P_Mpc.
Local Open Scope R_scope.

(** number of simulation steps *)
Fixpoint sims {J} (es : list (cart_event R J)) : nat :=
  match es with [] => 0 | Sim :: es' => Datatypes.S (sims es') | _ :: es' => sims es' end.
(** the solver is called at least once *)
Fixpoint solves {J} (es : list (cart_event R J)) : bool :=
  match es with [] => false | Mpc _ :: es' => true | _ :: es' => solves es' end.
(** What new memory contains has the right sizes. *)
Definition memory_ok {J} (ok : J -> Prop) (es : list (cart_event R J)) : Prop := forall jk, In (Mpc jk) es -> ok jk.
Lemma memory_cons {J} (ok : J -> Prop) e es : memory_ok ok (e :: es) -> memory_ok ok es /\ forall jk, e = Mpc jk -> ok jk.
Proof. intros H. split; [intros jk Hj; apply H; right; exact Hj|]. intros jk ->. apply H. left. reflexivity. Qed.

(** ** The simulation, common to both programs *)
(** One explicit Euler step of length [h] of the cart-pole with total force [f], written out. *)
Definition cart_moves (nsin ncos : R -> R) (par : cart_par R) (h : R) (x : vec R) (f : R) (x' : vec R) : Prop :=
  exists p th v w, x = [p; th; v; w] /\
    let m1 := cr_m1 par in let m2 := cr_m2 par in let l := cr_l par in let g := 980665 / 100000 in
    let D := m1 + m2 * (nsin th * nsin th) in
    x' = [p + h * v; th + h * w;
          v + h * ((f - m2 * l * (w * w) * nsin th + m2 * g * nsin th * ncos th) / D);
          w + h * ((f * ncos th - m2 * l * (w * w) * nsin th * ncos th + g * (m1 + m2) * nsin th) / (l * D))].
Section Sim.
  Variables (nsin ncos : R -> R) (par : cart_par R) (sim_dt : R).
  Notation move := (cart_move nsin ncos par sim_dt).
  Lemma move_moves u sm : length (k_x sm) = 4%nat -> (0 < length u)%nat ->
    cart_moves nsin ncos par sim_dt (k_x sm) (vget u 0 + vget (k_dist (move u sm)) 0) (k_x (move u sm)).
  Proof.
    intros Lx Lu. destruct sm as [t x u0 dt d tg]. cbn [k_x] in Lx. destruct x as [|p [|th [|v [|w [|]]]]]; try discriminate. destruct u as [|f us]; [cbn in Lu; lia|].
    exists p, th, v, w. split; [reflexivity|]. cbn [cart_move k_x k_dist k_t k_dist_t]. set (dd := if nltb dt t then vconst 1 nzero else d). clearbody dd.
    unfold cart_f_dt. cbn zeta. cbn [cart_now cr_m1 cr_m2 cr_l].
    replace (vget (vadd (f :: us) dd) 0) with (vget (f :: us) 0 + vget dd 0) by (unfold vadd; cbn [length]; rewrite vbuild_get by lia; reflexivity).
    unfold vadd at 1, vscale, vbuild. cbn [length seq map]. cbn [vget nth]. unfold sqr, grav. numR. cbn [nth]. reflexivity.
  Qed.
  (** [u] is the input of the simulation steps, one per step. *)
  Inductive simulates {J} : list (cart_event R J) -> cart_sim R -> cart_sim R -> Prop :=
  | sm_end sm : simulates [] sm sm
  | sm_sim u es sm sm' : simulates es (move u sm) sm' -> simulates (Sim :: es) sm sm'
  | sm_mpc jk u es sm sm' : simulates es (cart_set_u u sm) sm' -> simulates (Mpc jk :: es) sm sm'
  | sm_push f es sm sm' : simulates es (cart_push f sm) sm' -> simulates (Push f :: es) sm sm'
  | sm_aim q es sm sm' : simulates es (cart_aim q sm) sm' -> simulates (Aim q :: es) sm sm'.
  Definition calm {J} (es : list (cart_event R J)) : Prop := forall f, ~ In (Push f) es.
  Lemma calm_cons {J} (e : cart_event R J) es : calm (e :: es) -> calm es.
  Proof. intros H f Hf. apply (H f). right. exact Hf. Qed.
  Lemma simulates_dist {J} (es : list (cart_event R J)) sm sm' : 0 <= sim_dt -> simulates es sm sm' -> calm es ->
    k_dist_t sm' = k_dist_t sm /\ k_t sm' = k_t sm + INR (sims es) * sim_dt /\
    k_dist sm' = (if Nat.eqb (sims es) 0 then k_dist sm else if Rlt_dec (k_dist_t sm) (k_t sm + INR (sims es - 1) * sim_dt) then [0] else k_dist sm).
  Proof.
    intros Hd. induction 1 as [sm|u es sm sm' H IH|jk u es sm sm' H IH|f es sm sm' H IH|q es sm sm' H IH]; intros Hc.
    - cbn. split; [reflexivity|]. split; [ring|reflexivity].
    - destruct (IH (calm_cons _ _ Hc)) as (A & B & C). cbn [cart_move k_dist_t k_t k_dist] in A, B, C. cbn [sims]. split; [exact A|]. unfold nadd in B, C; cbn [RNum] in B, C.
      split; [rewrite B, S_INR; ring|]. rewrite C. cbn [Nat.eqb]. replace (Datatypes.S (sims es) - 1)%nat with (sims es) by lia.
      pose proof (pos_INR (sims es)) as Hn. destruct (nltb (k_dist_t sm) (k_t sm)) eqn:El; [apply Rltb_true in El|apply Rltb_false in El].
      + assert (X : vconst 1 (nzero : R) = [0]) by reflexivity. rewrite X. destruct (Rlt_dec (k_dist_t sm) (k_t sm + INR (sims es) * sim_dt)) as [G|G]; [|exfalso; apply G; nra].
        destruct (Nat.eqb _ _); [reflexivity|]. destruct (Rlt_dec _ _); reflexivity.
      + destruct (Nat.eqb_spec (sims es) 0) as [E0|E0].
        * rewrite E0. cbn [INR]. destruct (Rlt_dec _ _); [lra|reflexivity].
        * replace (k_t sm + sim_dt + INR (sims es - 1) * sim_dt) with (k_t sm + INR (sims es) * sim_dt); [reflexivity|].
          rewrite minus_INR by lia. cbn [INR]. ring.
    - exact (IH (calm_cons _ _ Hc)).
    - exfalso. apply (Hc f). left. reflexivity.
    - exact (IH (calm_cons _ _ Hc)).
  Qed.
  (** A push acts for half a second: on the n-th step after it if (n - 1) * sim_dt <= 0.5, not on later ones. *)
  Lemma push_lasts {J} f (es : list (cart_event R J)) sm sm' : 0 <= sim_dt -> simulates (Push f :: es) sm sm' -> calm es ->
    k_dist sm' = (if Rle_dec (INR (sims es - 1) * sim_dt) (1 / 2) then [f] else [0]).
  Proof.
    intros Hd H Hc. inversion H; subst. destruct (simulates_dist _ _ _ Hd H4 Hc) as (_ & _ & ->). cbn [cart_push k_dist k_dist_t k_t].
    assert (E : nadd (k_t sm) (nlit 1 2) = k_t sm + 1 / 2) by (numR; reflexivity). rewrite E.
    destruct (Nat.eqb_spec (sims es) 0) as [->|E0]; [cbn [Nat.sub INR]; destruct (Rle_dec _ _); [reflexivity|lra]|].
    destruct (Rlt_dec _ _), (Rle_dec _ _); try reflexivity; exfalso; lra.
  Qed.
  Lemma simulates_app {J} (es1 es2 : list (cart_event R J)) : forall sm sm', simulates (es1 ++ es2) sm sm' -> exists sm1, simulates es1 sm sm1 /\ simulates es2 sm1 sm'.
  Proof.
    induction es1 as [|e es1 IH]; intros sm sm' H; [exists sm; split; [constructor|exact H]|].
    cbn [app] in H. inversion H; subst; match goal with H' : simulates (es1 ++ es2) _ _ |- _ => destruct (IH _ _ H') as (sm1 & A & B) end; exists sm1; (split; [econstructor; exact A|exact B]).
  Qed.
  (** The last target given by the service, 0 before the first one. *)
  Fixpoint last_aim {J} (q : R) (es : list (cart_event R J)) : R :=
    match es with [] => q | Aim q' :: es' => last_aim q' es' | _ :: es' => last_aim q es' end.
  Lemma simulates_target {J} (es : list (cart_event R J)) sm sm' : simulates es sm sm' -> forall t, cr_ref (cart_now par sm') t = last_aim (cr_ref (cart_now par sm) t) es.
  Proof.
    induction 1 as [sm|u es sm sm' H IH|jk u es sm sm' H IH|f es sm sm' H IH|q es sm sm' H IH]; intros t; [reflexivity|..]; rewrite (IH t); reflexivity.
  Qed.
End Sim.

Section Fmpc.
  Variables (LO : linops R) (nsin ncos : R -> R) (par : cart_par R) (sim_dt : R) (cf : fconfig R) (fuel : nat).
  Notation pb sm := (cartpole_f nsin ncos (cart_now par sm)).
  Notation pb0 := (cartpole_f nsin ncos par).
  Hypothesis HLO : FmpcSafe.lin_dims LO.
  Hypothesis Hrx : length (cr_rx par) = 4%nat.
  Hypothesis Hru : length (cr_ru par) = 1%nat.
  Hypothesis Htx : length (cr_tx par) = 4%nat.
  Hypothesis Hb : fc_break cf = false.
  Hypothesis Hm : (1 <= fc_max_iter cf)%Z.
  Hypothesis Hf : (35 <= fuel)%nat.
  Hypothesis Hh : (1 <= fc_hor cf)%Z.

  Lemma typed_now sm v : FmpcSafe.typed_var pb0 v -> FmpcSafe.typed_var (pb sm) v.
  Proof. intros [A B C D]. constructor; assumption. Qed.
  Lemma typed_then sm v : FmpcSafe.typed_var (pb sm) v -> FmpcSafe.typed_var pb0 v.
  Proof. intros [A B C D]. constructor; assumption. Qed.
  (** The program's state is well-formed. *)
  Definition fready (st : fcart R) : Prop := length (k_x (fk_sim st)) = 4%nat /\ length (k_u (fk_sim st)) = 1%nat /\ FmpcSafe.typed_var pb0 (fk_var st) /\ right_lengths cf (fk_var st) /\
    (fc_init cf = true \/ pos_var (fk_var st)) /\ FmpcSafe.object_ok pb0 (fk_sol st) /\
    (fk_first st = false -> (0 < length (f_coeff (fk_sol st)))%nat /\ f_var (fk_sol st) = fk_var st /\ nth_error (v_u (fk_var st)) 0 = Some (k_u (fk_sim st))).
  Definition cres (v : var R) (i j : nat) : R := ineq_res pb0 0 v i j.
  Lemma cres_any sm t v i j : ineq_res (pb sm) t v i j = cres v i j.
  Proof. reflexivity. Qed.
  Notation call jk st := (fmpc_solve LO (pb (fk_sim st)) cf jk fuel (k_t (fk_sim st)) (k_x (fk_sim st)) (fk_var st) (fk_sol st)).

  Lemma fcall jk st : fready st -> FmpcSafe.junk_ok pb0 jk -> exists r s u, call jk st = Ok r s /\ (r = Succeeded \/ r = MaxIterationReached) /\
    fcart_step nsin ncos par sim_dt LO cf fuel (Mpc jk) st = Ok tt {| fk_sim := cart_set_u u (fk_sim st); fk_var := f_var s; fk_first := false; fk_sol := s |} /\
    fready {| fk_sim := cart_set_u u (fk_sim st); fk_var := f_var s; fk_first := false; fk_sol := s |} /\
    (fc_init cf = false -> exists c, 0 <= c <= 1 /\ forall i j, (i < Nf cf)%nat -> (j < 4)%nat -> cres (f_var s) i j = c * cres (fk_var st) i j).
  Proof using HLO Hrx Hru Htx Hb Hm Hf Hh.
    intros (Lx & Lu & Tv & RL & Pv & Ob & _) Jk. set (sm := fk_sim st) in *.
    assert (WF : FmpcSafe.well_dimensioned_f (pb sm)) by (apply cart_wd_f; assumption).
    destruct (C56_total LO (pb sm) cf jk fuel (k_t sm) (k_x sm) (fk_var st) (fk_sol st)) as (r & s & E & Hr & Ob'); try assumption.
    { apply typed_now. exact Tv. }
    { split; discriminate. }
    { left. exact Hb. }
    { intros _ i _. cbn. lia. }
    { intros _ _. split; [cbn; lia|intros i _; cbn; lia]. }
    assert (SS : FmpcSafe.state_ok (pb sm) cf (k_t sm) s /\ right_lengths cf (f_var s)).
    { refine (solve_state LO (pb sm) cf jk (k_t sm) WF HLO _ _ _ _ _ _ _ _ Lx (typed_now _ _ Tv) Jk Ob E).
      - intros _ _. split; [cbn; lia|intros i _; cbn; lia].
      - intros _ i _. cbn. lia. }
    destruct SS as (So & RL'). pose proof (typed_then _ _ (state_typed _ _ _ _ So)) as Tv'. pose proof (right_nat _ _ RL') as (_ & L2 & _).
    assert (exists u, nth_error (v_u (f_var s)) 0 = Some u) as (u & Eu) by (apply FmpcSafe.get_some; unfold Nf in *; lia).
    exists r, s, u. split; [exact E|]. split; [exact Hr|]. split; [cbn [fcart_step]; unfold fcart_mpc; cbn zeta; fold sm; rewrite E, Eu; reflexivity|]. split.
    - split; [exact Lx|]. split; [cbn; apply (FmpcSafe.ty_u _ _ Tv' 1%nat); [reflexivity|apply nth_error_In in Eu; exact Eu]|]. split; [exact Tv'|]. split; [exact RL'|].
      split; [right; destruct (C30_run _ _ _ _ _ _ _ _ _ _ _ E) as (_ & P2); apply P2; exact Pv|]. split; [exact Ob'|]. intros _. cbn [fk_sol fk_var fk_sim cart_set_u k_u].
      split; [destruct So as [_ _ _ _ (Lc & _)]; lia|]. split; [reflexivity|exact Eu].
    - intros Hi. destruct (C63_run LO (pb sm) cf jk (cart_D nsin ncos (cart_now par sm)) (cart_computes _ _ _) _ _ _ _ _ _ _ E) as (v & c & Ev & _ & _ & _ & Hc & [_ _ S3] & _).
      rewrite (Ev Hi) in S3. exists c. split; [exact Hc|]. intros i j Hk Hj4. rewrite <- (cres_any sm (k_t sm)), <- (cres_any sm (k_t sm) (fk_var st)).
      apply S3; [exact Hk|apply cart_rows|]. pose proof (right_nat _ _ RL) as (_ & _ & _ & L4 & _).
      rewrite (FmpcSafe.ty_s _ _ Tv 4%nat); [exact Hj4|reflexivity|left; apply nth_In; unfold Nf in *; lia].
  Qed.
  Lemma fstep e st : fready st -> (forall jk, e = Mpc jk -> FmpcSafe.junk_ok pb0 jk) -> exists st', fcart_step nsin ncos par sim_dt LO cf fuel e st = Ok tt st' /\ fready st' /\
    k_t (fk_sim st') = k_t (fk_sim st) + INR (sims [e]) * sim_dt /\ (fk_first st' = false <-> fk_first st = false \/ solves [e] = true) /\
    (solves [e] = false -> k_u (fk_sim st') = k_u (fk_sim st) /\ fk_var st' = fk_var st) /\
    (fc_init cf = false -> exists c, 0 <= c <= 1 /\ forall i j, (i < Nf cf)%nat -> (j < 4)%nat -> cres (fk_var st') i j = c * cres (fk_var st) i j).
  Proof using HLO Hrx Hru Htx Hb Hm Hf Hh.
    intros Hr He. destruct e as [|jk|force|q].
    - destruct Hr as (Lx & Lu & Tv & RL & Pv & Ob & Hl). cbn [fcart_step].
      assert (exists u, fcart_u st = Some u) as (u & Eu).
      { unfold fcart_u, feedback. destruct (fk_first st) eqn:Ef; [eauto|]. destruct (Hl eq_refl) as (Lc & Ev & _). rewrite Ev. pose proof (right_nat _ _ RL) as (L1 & _).
        destruct (FmpcSafe.get_some (f_coeff (fk_sol st)) 0 Lc) as (c & ->). destruct (FmpcSafe.get_some (v_x (fk_var st)) 0 ltac:(lia)) as (x & ->). eauto. }
      rewrite Eu. eexists. split; [reflexivity|]. split.
      { split; [cbn; unfold cart_f_dt; rewrite vadd_len; exact Lx|]. exact (conj Lu (conj Tv (conj RL (conj Pv (conj Ob Hl))))). }
      cbn. split; [ring|]. split; [intuition discriminate|]. split; [auto|]. intros _. exists 1. split; [lra|]. intros; ring.
    - destruct (fcall jk st Hr (He jk eq_refl)) as (r & s & u & _ & _ & E & Hr' & Hc). eexists. split; [exact E|]. split; [exact Hr'|]. cbn [fk_sim cart_set_u k_t sims INR solves fk_first fk_var].
      split; [ring|]. split; [intuition auto|]. split; [discriminate|exact Hc].
    - eexists. split; [reflexivity|]. split; [exact Hr|]. cbn. split; [ring|]. split; [intuition discriminate|]. split; [auto|]. intros _. exists 1. split; [lra|]. intros; ring.
    - eexists. split; [reflexivity|]. split; [exact Hr|]. cbn. split; [ring|]. split; [intuition discriminate|]. split; [auto|]. intros _. exists 1. split; [lra|]. intros; ring.
  Qed.
  Lemma frun es : forall st, fready st -> memory_ok (FmpcSafe.junk_ok pb0) es -> exists st', fcart_run nsin ncos par sim_dt LO cf fuel es st = Ok tt st' /\ fready st' /\
    k_t (fk_sim st') = k_t (fk_sim st) + INR (sims es) * sim_dt /\ (fk_first st' = false <-> fk_first st = false \/ solves es = true) /\
    (solves es = false -> k_u (fk_sim st') = k_u (fk_sim st) /\ fk_var st' = fk_var st) /\
    (fc_init cf = false -> exists c, 0 <= c <= 1 /\ forall i j, (i < Nf cf)%nat -> (j < 4)%nat -> cres (fk_var st') i j = c * cres (fk_var st) i j).
  Proof using HLO Hrx Hru Htx Hb Hm Hf Hh.
    induction es as [|e es IH]; intros st Hr Hj.
    - exists st. split; [reflexivity|]. split; [exact Hr|]. cbn. split; [ring|]. split; [intuition discriminate|]. split; [auto|]. intros _. exists 1. split; [lra|]. intros; ring.
    - apply memory_cons in Hj as (Hj & He). destruct (fstep e st Hr He) as (st1 & E1 & Hr1 & T1 & F1 & U1 & C1). destruct (IH st1 Hr1 Hj) as (st2 & E2 & Hr2 & T2 & F2 & U2 & C2).
      exists st2. cbn [fcart_run]. rewrite E1. split; [exact E2|]. split; [exact Hr2|].
      assert (Es : (sims (e :: es) = sims [e] + sims es)%nat) by (destruct e; reflexivity).
      assert (Eo : solves (e :: es) = (solves [e] || solves es)%bool) by (destruct e; reflexivity).
      split; [rewrite T2, T1, Es, plus_INR; ring|]. rewrite Eo.
      split; [rewrite F2, F1, orb_true_iff; tauto|]. split.
      + intros X. apply orb_false_iff in X as [X1 X2]. destruct (U1 X1) as (-> & ->) || (destruct (U1 X1) as (A & B); destruct (U2 X2) as (A' & B'); split; congruence).
      + intros Hi. destruct (C1 Hi) as (c1 & B1 & A1). destruct (C2 Hi) as (c2 & B2 & A2). exists (c1 * c2). split; [nra|]. intros i j H1 H2. rewrite A2, A1 by assumption. ring.
  Qed.

  Variables (t0 : R) (x0 : vec R) (v0 : var R) (s0 : fsolver R).
  (** TestFmpcCartPole.cpp:325-331: the state at the start of run() *)
  Definition fbegin : fcart R := {| fk_sim := {| k_t := t0; k_x := x0; k_u := [0]; k_dist_t := 0; k_dist := [0]; k_target := None |}; fk_var := v0; fk_first := true; fk_sol := s0 |}.
  Hypothesis Hx0 : length x0 = 4%nat.
  Hypothesis Hv0 : FmpcSafe.typed_var pb0 v0.
  Hypothesis Hl0 : right_lengths cf v0.
  Hypothesis Hp0 : fc_init cf = true \/ pos_var v0.
  Hypothesis Hs0 : FmpcSafe.object_ok pb0 s0.
  Notation run es := (fcart_run nsin ncos par sim_dt LO cf fuel es fbegin).
  Lemma fbegin_ready : fready fbegin.
  Proof.
    refine (conj Hx0 (conj _ (conj Hv0 (conj Hl0 (conj Hp0 (conj Hs0 _)))))); [reflexivity|discriminate].
  Qed.
  (** C65: under every order of simulation steps, timer calls and services the program never does anything undefined and never throws; every call of the
      solver returns Succeeded or MaxIterationReached, starts from the previous result, and its first input is the one that is applied. *)
  Theorem C65_fmpc_run es : memory_ok (FmpcSafe.junk_ok pb0) es ->
    exists st, run es = Ok tt st /\ k_t (fk_sim st) = t0 + INR (sims es) * sim_dt /\
      (solves es = true -> f_var (fk_sol st) = fk_var st /\ nth_error (v_u (fk_var st)) 0 = Some (k_u (fk_sim st))) /\
      (solves es = false -> k_u (fk_sim st) = [0] /\ fk_var st = v0) /\
      forall jk, FmpcSafe.junk_ok pb0 jk -> exists r s, call jk st = Ok r s /\ (r = Succeeded \/ r = MaxIterationReached) /\
        exists st', run (es ++ [Mpc jk]) = Ok tt st' /\ fk_sol st' = s /\ k_x (fk_sim st') = k_x (fk_sim st) /\ k_t (fk_sim st') = k_t (fk_sim st).
  Proof using HLO Hrx Hru Htx Hb Hm Hf Hh Hx0 Hv0 Hl0 Hp0 Hs0.
    intros Hj. destruct (frun es fbegin fbegin_ready Hj) as (st & E & Hr & Ht & F & U & _). exists st. split; [exact E|]. split; [exact Ht|].
    split; [intros X; destruct Hr as (_ & _ & _ & _ & _ & _ & Hl); apply Hl; apply F; right; exact X|]. split; [exact U|].
    intros jk Hk. destruct (fcall jk st Hr Hk) as (r & s & u & E1 & H1 & E2 & _). exists r, s. split; [exact E1|]. split; [exact H1|].
    assert (App : forall es1 es2 st1, fcart_run nsin ncos par sim_dt LO cf fuel es1 st1 = Ok tt st ->
      fcart_run nsin ncos par sim_dt LO cf fuel (es1 ++ es2) st1 = fcart_run nsin ncos par sim_dt LO cf fuel es2 st).
    { induction es1 as [|e es1 IH]; intros es2 st1 X; cbn [fcart_run app] in *; [injection X as ->; reflexivity|].
      destruct (fcart_step nsin ncos par sim_dt LO cf fuel e st1) as [[] st2| | |]; try discriminate. apply IH. exact X. }
    rewrite (App es [Mpc jk] fbegin E). cbn [fcart_run]. rewrite E2. eexists. split; [reflexivity|]. repeat split.
  Qed.
  (** C65: the input that the program applies before feedback and disturbance stays strictly inside +-15, and every planned input and position strictly inside
      the bounds of the problem, at all times: for every state, target, disturbance, dynamics and linear solver. *)
  Theorem C65_fmpc_bounds es st : memory_ok (FmpcSafe.junk_ok pb0) es -> fc_init cf = false -> run es = Ok tt st ->
    (forall i j, (i < Nf cf)%nat -> (j < 4)%nat -> vget (fp_g pb0 t0 (nth i (v_x v0) []) (nth i (v_u v0) [])) j + vget (nth i (v_s v0) []) j <= 0) ->
    -15 < vget (k_u (fk_sim st)) 0 < 15 /\
    forall i, (i < Nf cf)%nat -> -15 < vget (nth i (v_u (fk_var st)) []) 0 < 15 /\ -20 < vget (nth i (v_x (fk_var st)) []) 0 < 20.
  Proof using HLO Hrx Hru Htx Hb Hm Hf Hh Hx0 Hv0 Hl0 Hp0 Hs0.
    intros Hj Hi E Hres. destruct (frun es fbegin fbegin_ready Hj) as (st1 & E1 & Hr & _ & F & U & C). rewrite E in E1. injection E1 as <-.
    destruct (C Hi) as (c & Hc & HC). destruct Hr as (_ & _ & Tv & RL & [X|Pv] & _ & Hl); [congruence|].
    assert (P : forall i, (i < Nf cf)%nat -> -15 < vget (nth i (v_u (fk_var st)) []) 0 < 15 /\ -20 < vget (nth i (v_x (fk_var st)) []) 0 < 20).
    { intros i HN. pose proof (right_nat _ _ RL) as (_ & _ & _ & L4 & _).
      assert (L : length (nth i (v_s (fk_var st)) []) = 4%nat) by (apply (FmpcSafe.ty_s _ _ Tv 4%nat); [reflexivity|left; apply nth_In; unfold Nf in *; lia]).
      assert (G : forall j, (j < 4)%nat -> vget (fp_g pb0 (0 + INR i * pb_dt (fp_dp pb0)) (nth i (v_x (fk_var st)) []) (nth i (v_u (fk_var st)) [])) j < 0).
      { intros j Hj4. pose proof (slack_pos (fk_var st) i j Pv ltac:(rewrite L; exact Hj4)) as Sp. pose proof (HC i j HN Hj4) as Q. pose proof (Hres i j HN Hj4) as R0.
        change (vget (fp_g pb0 t0 (nth i (v_x v0) []) (nth i (v_u v0) [])) j + vget (nth i (v_s v0) []) j) with (cres v0 i j) in R0. cbn [fbegin fk_var] in Q.
        assert (cres (fk_var st) i j <= 0) by (rewrite Q; nra). unfold cres, ineq_res in H. lra. }
      destruct (cart_g nsin ncos par (0 + INR i * pb_dt (fp_dp pb0)) (nth i (v_x (fk_var st)) []) (nth i (v_u (fk_var st)) [])) as (A0 & A1 & A2 & A3).
      pose proof (G 0%nat ltac:(lia)) as G0. pose proof (G 1%nat ltac:(lia)) as G1. pose proof (G 2%nat ltac:(lia)) as G2. pose proof (G 3%nat ltac:(lia)) as G3.
      rewrite A0 in G0. rewrite A1 in G1. rewrite A2 in G2. rewrite A3 in G3. lra. }
    split; [|exact P]. destruct (solves es) eqn:Es.
    - destruct (Hl (proj2 F (or_intror eq_refl))) as (_ & _ & Eu). destruct (P 0%nat ltac:(unfold Nf; lia)) as (P1 & _). rewrite (nth_some _ _ _ _ Eu) in P1. exact P1.
    - destruct (U eq_refl) as (-> & _). cbn. lra.
  Qed.
  Lemma fsimulates es : forall st st', fcart_run nsin ncos par sim_dt LO cf fuel es st = Ok tt st' -> simulates nsin ncos par sim_dt es (fk_sim st) (fk_sim st').
  Proof.
    induction es as [|e es IH]; intros st st' E; cbn [fcart_run] in E; [injection E as ->; constructor|].
    destruct (fcart_step nsin ncos par sim_dt LO cf fuel e st) as [[] st1| | |] eqn:E1; try discriminate. specialize (IH _ _ E). destruct e as [|jk|force|q]; cbn [fcart_step] in E1.
    - destruct (fcart_u st) as [u|]; [injection E1 as <-|discriminate]. apply (sm_sim _ _ _ _ u). exact IH.
    - unfold fcart_mpc in E1. cbn zeta in E1. destruct (fmpc_solve _ _ _ _ _ _ _ _ _) as [r s| | |]; try discriminate. destruct (nth_error _ _) as [u|]; [injection E1 as <-|discriminate].
      apply (sm_mpc _ _ _ _ jk u). exact IH.
    - injection E1 as <-. constructor. exact IH.
    - injection E1 as <-. constructor. exact IH.
  Qed.
  (** C65: a push acts for half a second and no longer. *)
  Theorem C65_fmpc_push es1 f es2 st : 0 <= sim_dt -> calm es2 -> run (es1 ++ Push f :: es2) = Ok tt st ->
    k_dist (fk_sim st) = (if Rle_dec (INR (sims es2 - 1) * sim_dt) (1 / 2) then [f] else [0]).
  Proof.
    intros Hd Hc E. apply fsimulates in E. apply simulates_app in E as (sm & _ & E). exact (push_lasts _ _ _ _ _ _ _ _ Hd E Hc).
  Qed.
  (** C65: a simulation step moves the cart-pole by one Euler step under the planned input, the disturbance and, once a plan exists, the feedback. *)
  Theorem C65_fmpc_step es st : memory_ok (FmpcSafe.junk_ok pb0) es -> run es = Ok tt st ->
    exists st', run (es ++ [Sim]) = Ok tt st' /\
      exists fb, cart_moves nsin ncos par sim_dt (k_x (fk_sim st)) (vget (k_u (fk_sim st)) 0 + fb + vget (k_dist (fk_sim st')) 0) (k_x (fk_sim st')) /\
        (solves es = false -> fb = 0) /\
        (solves es = true -> exists c xp, nth_error (f_coeff (fk_sol st)) 0 = Some c /\ nth_error (v_x (fk_var st)) 0 = Some xp /\
           fb = vget (mvmul (c_K c) (vsub xp (k_x (fk_sim st)))) 0).
  Proof using HLO Hrx Hru Htx Hb Hm Hf Hh Hx0 Hv0 Hl0 Hp0 Hs0.
    intros Hj E. destruct (frun es fbegin fbegin_ready Hj) as (st1 & E1 & Hr & _ & F & _). rewrite E in E1. injection E1 as <-.
    assert (Ea : forall st', fcart_step nsin ncos par sim_dt LO cf fuel Sim st = Ok tt st' -> run (es ++ [Sim]) = Ok tt st').
    { intros st' Es. revert E. generalize fbegin. clear - Es. induction es as [|e es IH]; intros st0 E; cbn [fcart_run app] in *; [injection E as ->; rewrite Es; reflexivity|].
      destruct (fcart_step nsin ncos par sim_dt LO cf fuel e st0) as [[] st2| | |]; try discriminate. apply IH. exact E. }
    destruct Hr as (Lx & Lu & Tv & RL & _ & _ & Hl). cbn [fcart_step] in Ea. unfold fcart_u, feedback in Ea.
    destruct (fk_first st) eqn:Ef.
    - eexists. split; [apply Ea; reflexivity|]. exists 0. split.
      + cbn [fcart_with fk_sim]. rewrite Rplus_0_r. apply move_moves; [exact Lx|lia].
      + split; [auto|]. intros X. destruct F as [_ F]. specialize (F (or_intror X)). congruence.
    - destruct (Hl eq_refl) as (Lc & Ev & _). rewrite Ev in Ea. pose proof (right_nat _ _ RL) as (L1 & _).
      destruct (FmpcSafe.get_some (f_coeff (fk_sol st)) 0 Lc) as (c & Ec). destruct (FmpcSafe.get_some (v_x (fk_var st)) 0 ltac:(lia)) as (xp & Ex). rewrite Ec, Ex in Ea.
      eexists. split; [apply Ea; reflexivity|]. exists (vget (mvmul (c_K c) (vsub xp (k_x (fk_sim st)))) 0). split.
      + cbn [fcart_with fk_sim]. set (w := mvmul _ _). replace (vget (k_u (fk_sim st)) 0 + vget w 0) with (vget (vadd (k_u (fk_sim st)) w) 0) by (unfold vadd; rewrite vbuild_get by lia; reflexivity).
        apply move_moves; [exact Lx|rewrite vadd_len; lia].
      + split; [|intros _; exists c, xp; auto]. intros X. destruct F as [F _]. destruct (F eq_refl) as [Y|Y]; [discriminate|congruence].
  Qed.
  (** C65: the problem that the solver and the simulation see has the last target of the service as reference position, 0 before the first one, and the
      parameters and weights of the program. *)
  Theorem C65_fmpc_target es st t : run es = Ok tt st -> let p := cart_now par (fk_sim st) in
    cr_ref p t = last_aim 0 es /\ cr_dt p = cr_dt par /\ cr_m1 p = cr_m1 par /\ cr_m2 p = cr_m2 par /\ cr_l p = cr_l par /\
    cr_rx p = cr_rx par /\ cr_ru p = cr_ru par /\ cr_tx p = cr_tx par.
  Proof.
    intros E p. apply fsimulates in E. split; [exact (simulates_target _ _ _ _ _ _ _ E t)|]. repeat split.
  Qed.
End Fmpc.
Print Assumptions C65_fmpc_run.
Print Assumptions C65_fmpc_bounds.
Print Assumptions C65_fmpc_push.
Print Assumptions C65_fmpc_step.
Print Assumptions C65_fmpc_target.
(** The program of the repository: any horizon, initial state and order of events. *)
Example C65_fmpc_nonvacuous nsin ncos ref (h : nat) (a b c d : R) : (1 <= h)%nat -> let jk := sized_junk 7 4 1 4 in
  let v0 := start_var 4 1 4 h in let s0 := new_object jk (vzero 4) in
  exists st, fcart_run nsin ncos (cart_test ref) (2 / 1000) normal_lin (osc_cf h) 35 [Sim; Mpc jk; Sim; Push 30; Sim; Aim 5; Mpc jk; Sim]
    (fbegin 0 [a; b; c; d] v0 s0) = Ok tt st /\
    k_t (fk_sim st) = 8 / 1000 /\ -15 < vget (k_u (fk_sim st)) 0 < 15 /\ k_dist (fk_sim st) = [30] /\ cr_ref (cart_now (cart_test ref) (fk_sim st)) 0 = 5.
Proof.
  intros Hh jk v0 s0. pose (pb := cartpole_f nsin ncos (cart_test ref)). destruct (start_ok pb (osc_cf h) 4 1 4 h) as (T1 & T2 & T3); try reflexivity. destruct (start_object pb 4 1 4) as (J1 & J2); try reflexivity.
  set (es := [Sim; Mpc jk; Sim; Push 30; Sim; Aim 5; Mpc jk; Sim]).
  assert (Hj : memory_ok (FmpcSafe.junk_ok pb) es) by (intros k Hk; cbn in Hk; repeat (destruct Hk as [Hk|Hk]; [try discriminate; injection Hk as <-; exact J1|]); destruct Hk).
  destruct (C65_fmpc_run normal_lin nsin ncos (cart_test ref) (2 / 1000) (osc_cf h) 35 normal_dims eq_refl eq_refl eq_refl eq_refl ltac:(cbn; lia) ltac:(lia) ltac:(cbn; lia)
    0 [a; b; c; d] v0 s0 eq_refl T1 T2 (or_intror T3) J2 es Hj) as (st & E & Ht & _).
  exists st. split; [exact E|]. split; [rewrite Ht; cbn; lra|]. split.
  - refine (proj1 (C65_fmpc_bounds normal_lin nsin ncos (cart_test ref) (2 / 1000) (osc_cf h) 35 normal_dims eq_refl eq_refl eq_refl eq_refl _ _ _
      0 [a; b; c; d] v0 s0 eq_refl T1 T2 (or_intror T3) J2 es st Hj eq_refl E _)); [cbn; lia|lia|cbn; lia|].
    intros i j Hi Hj4. assert (Hi' : (i < h)%nat) by (unfold Nf in Hi; cbn in Hi; lia). destruct (start_nth 4 1 4 h i Hi') as (X & U & S). unfold v0. rewrite X, U, S.
    destruct j as [|[|[|[|]]]]; cbn; lra || lia.
  - split; [|rewrite (proj1 (C65_fmpc_target normal_lin nsin ncos (cart_test ref) (2 / 1000) (osc_cf h) 35 0 [a; b; c; d] v0 s0 es st 0 E)); reflexivity].
    rewrite (C65_fmpc_push normal_lin nsin ncos (cart_test ref) (2 / 1000) (osc_cf h) 35 0 [a; b; c; d] v0 s0 [Sim; Mpc jk; Sim] 30 [Sim; Aim 5; Mpc jk; Sim] st).
    + cbn. destruct (Rle_dec _ _); [reflexivity|lra].
    + lra.
    + intros f Hf. cbn in Hf. intuition discriminate.
    + exact E.
Qed.

(** ** DDP *)
Section Ddp.
  Variables (LL : lltops R) (nsin ncos : R -> R) (par : cart_par R) (sim_dt : R) (cf : config R) (K h : nat).
  Notation pb sm := (cartpole nsin ncos (cart_now par sm)).
  Notation pb0 := (cartpole nsin ncos par).
  Hypothesis HD : llt_dims LL.
  Hypothesis Hrx : length (cr_rx par) = 4%nat.
  Hypothesis Hru : length (cr_ru par) = 1%nat.
  Hypothesis Htx : length (cr_tx par) = 4%nat.
  Hypothesis Hh : (1 <= h)%nat.
  Hypothesis Hcf : cf_horizon cf = Z.of_nat h.
  Hypothesis H2 : cf_second cf = false.
  Hypothesis Hl1 : 1 < cf_lambda_factor cf.
  Hypothesis Hl2 : 0 < cf_lambda_min cf.
  Hypothesis Hl3 : cf_lambda_max cf < cf_lambda_min cf * cf_lambda_factor cf ^ K.

  Definition dready (st : dcart R) : Prop := length (k_x (dk_sim st)) = 4%nat /\ length (k_u (dk_sim st)) = 1%nat /\ -15 <= vget (k_u (dk_sim st)) 0 <= 15 /\
    length (dk_us st) = h /\ Forall (fun u => length u = 1%nat) (dk_us st) /\ DDPSafe.object_ok pb0 (dk_sol st).
  Notation call jk st := (ddp_solve LL (pb (dk_sim st)) cf (Some cart_limits) jk (Datatypes.S K) 500 (k_t (dk_sim st)) (k_x (dk_sim st)) (dk_us st) (dk_sol st)).
  (** the planned input, or the nearest bound if it is outside *)
  Definition within (lo hi u v : R) : Prop := lo <= v <= hi /\ (lo <= u <= hi -> v = u) /\ (u < lo -> v = lo) /\ (hi < u -> v = hi).
  Lemma clamp_within u : length u = 1%nat -> exists v, vmin (vmax u (fst (cart_limits 0))) (snd (cart_limits 0)) = [v] /\ within (-15) 15 (vget u 0) v.
  Proof.
    destruct u as [|a [|]]; try discriminate. intros _. exists (nmin (nmax a (-15)) 15). split.
    - unfold vmin, vmax, vbuild, cart_limits, vconst. cbn [length seq map fst snd vget nth vbuild]. unfold nofZ, nlit. cbn [RNum]. do 3 f_equal; [f_equal|]; lra.
    - unfold within, nmin, nmax. cbn [vget nth]. destruct (nltb a (-15)) eqn:E1; [apply Rltb_true in E1|apply Rltb_false in E1];
        match goal with |- context [if nltb 15 ?b then _ else _] => destruct (nltb 15 b) eqn:E2; [apply Rltb_true in E2|apply Rltb_false in E2] end; repeat split; intros; lra.
  Qed.

  Lemma dcall jk st : dready st -> DDPSafe.junk_ok pb0 jk -> exists b s u v, call jk st = Ok b s /\ nth_error (cd_u (s_cd s)) 0 = Some u /\ within (-15) 15 (vget u 0) v /\
    let st' := {| dk_sim := cart_set_u [v] (dk_sim st); dk_us := cd_u (s_cd s); dk_sol := s |} in
    dcart_step nsin ncos par sim_dt LL cf (Datatypes.S K) 500 (Mpc jk) st = Ok tt st' /\ dready st' /\
    is_rollout (pb (dk_sim st)) (k_t (dk_sim st)) (k_x (dk_sim st)) h (s_cd s) /\
    (0 <= cf_cost_update_ratio_thre cf -> total (s_cd s) <= cost_of (pb (dk_sim st)) (k_t (dk_sim st)) 0 (k_x (dk_sim st)) (dk_us st)).
  Proof using HD Hrx Hru Htx Hh Hcf H2 Hl1 Hl2 Hl3.
    intros (Lx & Lu & _ & Ln & Lus & Ob) Jk. set (sm := dk_sim st) in *.
    assert (WD : well_dimensioned (pb sm)) by (apply cart_wd; assumption).
    destruct (C15_returns LL (pb sm) cf (Some cart_limits) jk (Datatypes.S K) 500 (k_t sm) (k_x sm) (dk_us st) (dk_sol st)) as (b & s & E & Ob'); try assumption.
    { intros _. exists cart_limits. split; [reflexivity|]. intros t. split; reflexivity. }
    { split; [exact Lx|]. intros nu Hnu. cbn in Hnu. injection Hnu as <-. exact Lus. }
    { split; [rewrite Ln; symmetry; exact Hcf|]. cbn. discriminate. }
    { apply (proj2 (C08_terminates_R cf Hl1 Hl2) K Hl3). }
    pose proof (solve_sizes _ _ _ _ _ _ _ _ _ _ _ _ _ E) as Sz.
    assert (Lus' : length (cd_u (s_cd s)) = h /\ Forall (fun u => length u = 1%nat) (cd_u (s_cd s))).
    { clear - Sz Ln Lus. unfold same_sizes in Sz. split.
      - apply (f_equal (@length nat)) in Sz. rewrite !map_length in Sz. congruence.
      - apply Forall_forall. intros w Hw. assert (Hm : In (length w) (map (fun u : vec R => length u) (dk_us st))) by (rewrite <- Sz; exact (in_map (fun u : vec R => length u) _ _ Hw)).
        apply in_map_iff in Hm as (w' & <- & Hw'). rewrite Forall_forall in Lus. apply Lus. exact Hw'. }
    destruct Lus' as (Ln' & Lus'). destruct (nth_error (cd_u (s_cd s)) 0) as [u|] eqn:Eu; [|apply nth_error_None in Eu; lia].
    assert (Lu1 : length u = 1%nat) by (apply nth_error_In in Eu; rewrite Forall_forall in Lus'; apply Lus'; exact Eu).
    destruct (clamp_within u Lu1) as (v & Ev & Wv). exists b, s, u, v. split; [exact E|]. split; [exact Eu|]. split; [exact Wv|]. cbn zeta. split.
    - cbn [dcart_step]. unfold dcart_mpc. cbn zeta. fold sm. rewrite E, Eu. change (cart_limits (k_t sm)) with (cart_limits (0 : R)). rewrite Ev. reflexivity.
    - destruct (solve_ok _ _ _ _ _ _ _ _ _ _ _ _ _ E) as ([Hlen _] & Hro' & _). rewrite <- Hlen, Nat2Z.id, Ln in Hro'. split; [|split; [exact Hro'|]].
      + split; [exact Lx|]. split; [reflexivity|]. split; [exact (proj1 Wv)|]. split; [exact Ln'|]. split; [exact Lus'|exact Ob'].
      + intros Hra. destruct (C04_cost_R _ _ _ _ _ _ _ _ _ _ _ _ _ E Hra) as (c & e0 & es & Hro & Hcu & _ & Hc0 & Hle & _). rewrite <- Hlen, Nat2Z.id in Hro.
        rewrite Hc0 in Hle. fold (total c) in Hle. rewrite (rollout_eq _ _ _ _ _ Hro Hcu) in Hle. exact Hle.
  Qed.
  Lemma dstep e st : dready st -> (forall jk, e = Mpc jk -> DDPSafe.junk_ok pb0 jk) -> exists st', dcart_step nsin ncos par sim_dt LL cf (Datatypes.S K) 500 e st = Ok tt st' /\ dready st' /\
    k_t (dk_sim st') = k_t (dk_sim st) + INR (sims [e]) * sim_dt.
  Proof using HD Hrx Hru Htx Hh Hcf H2 Hl1 Hl2 Hl3.
    intros Hr He. destruct e as [|jk|force|q].
    - eexists. split; [reflexivity|]. split; [|cbn; ring]. destruct Hr as (Lx & R). split; [cbn; unfold cart_f_dt; rewrite vadd_len; exact Lx|exact R].
    - destruct (dcall jk st Hr (He jk eq_refl)) as (b & s & u & v & _ & _ & _ & E & Hr' & _). eexists. split; [exact E|]. split; [exact Hr'|]. cbn [dk_sim cart_set_u k_t sims INR]. ring.
    - eexists. split; [reflexivity|]. split; [exact Hr|]. cbn. ring.
    - eexists. split; [reflexivity|]. split; [exact Hr|]. cbn. ring.
  Qed.
  Lemma drun es : forall st, dready st -> memory_ok (DDPSafe.junk_ok pb0) es -> exists st', dcart_run nsin ncos par sim_dt LL cf (Datatypes.S K) 500 es st = Ok tt st' /\ dready st' /\
    k_t (dk_sim st') = k_t (dk_sim st) + INR (sims es) * sim_dt.
  Proof using HD Hrx Hru Htx Hh Hcf H2 Hl1 Hl2 Hl3.
    induction es as [|e es IH]; intros st Hr Hj.
    - exists st. split; [reflexivity|]. split; [exact Hr|]. cbn. ring.
    - apply memory_cons in Hj as (Hj & He). destruct (dstep e st Hr He) as (st1 & E1 & Hr1 & T1). destruct (IH st1 Hr1 Hj) as (st2 & E2 & Hr2 & T2).
      exists st2. cbn [dcart_run]. rewrite E1. split; [exact E2|]. split; [exact Hr2|].
      assert (Es : (sims (e :: es) = sims [e] + sims es)%nat) by (destruct e; reflexivity). rewrite T2, T1, Es, plus_INR. ring.
  Qed.
  Lemma drun_app es1 es2 : forall st1 st, dcart_run nsin ncos par sim_dt LL cf (Datatypes.S K) 500 es1 st1 = Ok tt st ->
    dcart_run nsin ncos par sim_dt LL cf (Datatypes.S K) 500 (es1 ++ es2) st1 = dcart_run nsin ncos par sim_dt LL cf (Datatypes.S K) 500 es2 st.
  Proof.
    induction es1 as [|e es1 IH]; intros st1 st X; cbn [dcart_run app] in *; [injection X as ->; reflexivity|].
    destruct (dcart_step nsin ncos par sim_dt LL cf (Datatypes.S K) 500 e st1) as [[] st2| | |]; try discriminate. apply IH. exact X.
  Qed.
  Lemma dsimulates es : forall st st', dcart_run nsin ncos par sim_dt LL cf (Datatypes.S K) 500 es st = Ok tt st' -> simulates nsin ncos par sim_dt es (dk_sim st) (dk_sim st').
  Proof.
    induction es as [|e es IH]; intros st st' E; cbn [dcart_run] in E; [injection E as ->; constructor|].
    destruct (dcart_step nsin ncos par sim_dt LL cf (Datatypes.S K) 500 e st) as [[] st1| | |] eqn:E1; try discriminate. specialize (IH _ _ E). destruct e as [|jk|force|q]; cbn [dcart_step] in E1.
    - injection E1 as <-. apply (sm_sim _ _ _ _ (k_u (dk_sim st))). exact IH.
    - unfold dcart_mpc in E1. cbn zeta in E1. destruct (ddp_solve _ _ _ _ _ _ _ _ _ _ _) as [r s| | |]; try discriminate. destruct (nth_error _ _) as [u|]; [injection E1 as <-|discriminate].
      eapply (sm_mpc _ _ _ _ jk). exact IH.
    - injection E1 as <-. constructor. exact IH.
    - injection E1 as <-. constructor. exact IH.
  Qed.

  Variables (t0 : R) (x0 : vec R) (s0 : ddp R).
  (** TestDDPCartPole.cpp:307-312: the state at the start of run() *)
  Definition dbegin : dcart R := {| dk_sim := {| k_t := t0; k_x := x0; k_u := [0]; k_dist_t := 0; k_dist := [0]; k_target := None |}; dk_us := repeat [0] h; dk_sol := s0 |}.
  Hypothesis Hx0 : length x0 = 4%nat.
  Hypothesis Hs0 : DDPSafe.object_ok pb0 s0.
  Notation run es := (dcart_run nsin ncos par sim_dt LL cf (Datatypes.S K) 500 es dbegin).
  Lemma dbegin_ready : dready dbegin.
  Proof.
    split; [exact Hx0|]. split; [reflexivity|]. split; [cbn; lra|]. split; [cbn; apply repeat_length|]. split; [|exact Hs0].
    cbn. apply Forall_forall. intros u Hu. apply repeat_spec in Hu as ->. reflexivity.
  Qed.
  (** C65: under every order of events the program never does anything undefined and never throws; the input it applies stays within +-15; every call of the
      solver returns, its plan is a trajectory of the problem from the current state that costs no more than the previous inputs applied again from there, and the
      first planned input, moved to the nearest bound if it is outside, is the one that is applied. *)
  Theorem C65_ddp_run es : memory_ok (DDPSafe.junk_ok pb0) es ->
    exists st, run es = Ok tt st /\ k_t (dk_sim st) = t0 + INR (sims es) * sim_dt /\ -15 <= vget (k_u (dk_sim st)) 0 <= 15 /\
      forall jk, DDPSafe.junk_ok pb0 jk -> exists b s u v, call jk st = Ok b s /\
        is_rollout (pb (dk_sim st)) (k_t (dk_sim st)) (k_x (dk_sim st)) h (s_cd s) /\
        (0 <= cf_cost_update_ratio_thre cf -> total (s_cd s) <= cost_of (pb (dk_sim st)) (k_t (dk_sim st)) 0 (k_x (dk_sim st)) (dk_us st)) /\
        nth_error (cd_u (s_cd s)) 0 = Some u /\ within (-15) 15 (vget u 0) v /\
        exists st', run (es ++ [Mpc jk]) = Ok tt st' /\ dk_sol st' = s /\ dk_us st' = cd_u (s_cd s) /\ k_u (dk_sim st') = [v] /\
          k_x (dk_sim st') = k_x (dk_sim st) /\ k_t (dk_sim st') = k_t (dk_sim st).
  Proof using HD Hrx Hru Htx Hh Hcf H2 Hl1 Hl2 Hl3 Hx0 Hs0.
    intros Hj. destruct (drun es dbegin dbegin_ready Hj) as (st & E & Hr & Ht). exists st. split; [exact E|]. split; [exact Ht|].
    split; [exact (proj1 (proj2 (proj2 Hr)))|]. intros jk Jk. destruct (dcall jk st Hr Jk) as (b & s & u & v & E1 & Eu & Wv & E2 & _ & Hro & Hc).
    exists b, s, u, v. split; [exact E1|]. split; [exact Hro|]. split; [exact Hc|]. split; [exact Eu|]. split; [exact Wv|].
    eexists. split; [rewrite (drun_app es [Mpc jk] dbegin st E); cbn [dcart_run]; rewrite E2; reflexivity|]. repeat split.
  Qed.
  Theorem C65_ddp_push es1 f es2 st : 0 <= sim_dt -> calm es2 -> run (es1 ++ Push f :: es2) = Ok tt st ->
    k_dist (dk_sim st) = (if Rle_dec (INR (sims es2 - 1) * sim_dt) (1 / 2) then [f] else [0]).
  Proof.
    intros Hd Hc E. apply dsimulates in E. apply simulates_app in E as (sm & _ & E). exact (push_lasts _ _ _ _ _ _ _ _ Hd E Hc).
  Qed.
  (** C65: a simulation step moves the cart-pole by one Euler step under the current input and the disturbance. *)
  Theorem C65_ddp_step es st : memory_ok (DDPSafe.junk_ok pb0) es -> run es = Ok tt st ->
    exists st', run (es ++ [Sim]) = Ok tt st' /\ k_u (dk_sim st') = k_u (dk_sim st) /\
      cart_moves nsin ncos par sim_dt (k_x (dk_sim st)) (vget (k_u (dk_sim st)) 0 + vget (k_dist (dk_sim st')) 0) (k_x (dk_sim st')).
  Proof using HD Hrx Hru Htx Hh Hcf H2 Hl1 Hl2 Hl3 Hx0 Hs0.
    intros Hj E. destruct (drun es dbegin dbegin_ready Hj) as (st1 & E1 & Hr & _). rewrite E in E1. injection E1 as <-. destruct Hr as (Lx & Lu & _).
    eexists. split; [rewrite (drun_app es [Sim] dbegin st E); reflexivity|]. split; [reflexivity|]. cbn [dcart_with dk_sim]. apply move_moves; [exact Lx|lia].
  Qed.
  (** C65: the problem that the solver and the simulation see has the last target of the service as reference position, 0 before the first one, and the
      parameters and weights of the program. *)
  Theorem C65_ddp_target es st t : run es = Ok tt st -> let p := cart_now par (dk_sim st) in
    cr_ref p t = last_aim 0 es /\ cr_dt p = cr_dt par /\ cr_m1 p = cr_m1 par /\ cr_m2 p = cr_m2 par /\ cr_l p = cr_l par /\
    cr_rx p = cr_rx par /\ cr_ru p = cr_ru par /\ cr_tx p = cr_tx par.
  Proof.
    intros E p. apply dsimulates in E. split; [exact (simulates_target _ _ _ _ _ _ _ E t)|]. repeat split.
  Qed.
End Ddp.
Print Assumptions C65_ddp_run.
Print Assumptions C65_ddp_push.
Print Assumptions C65_ddp_step.
Print Assumptions C65_ddp_target.
(** TestDDPCartPole.cpp with its settings (max_iter = 3, input limits), any horizon, initial state and order of events. *)
Example C65_ddp_nonvacuous nsin ncos ref (h : nat) alphas (a b c d : R) : (1 <= h)%nat -> exists st,
  dcart_run nsin ncos (cart_test ref) (2 / 1000) chol_llt (test_cf (/ 10000) true 3 (Z.of_nat h) alphas) 81 500
    [Sim; Mpc vary_junk; Sim; Push 30; Sim; Aim 5; Mpc vary_junk; Sim] (dbegin h 0 [a; b; c; d] (set_lastV (vzero 4) (mzero 4 4) ex_s0)) = Ok tt st /\
  k_t (dk_sim st) = 8 / 1000 /\ -15 <= vget (k_u (dk_sim st)) 0 <= 15 /\ k_dist (dk_sim st) = [30] /\ cr_ref (cart_now (cart_test ref) (dk_sim st)) 0 = 5.
Proof.
  intros Hh. set (es := [Sim; Mpc vary_junk; Sim; Push 30; Sim; Aim 5; Mpc vary_junk; Sim]). set (cf := test_cf (/ 10000) true 3 (Z.of_nat h) alphas). set (s0 := set_lastV _ _ _).
  set (pb := cartpole nsin ncos (cart_test ref)).
  assert (Hj : memory_ok (DDPSafe.junk_ok pb) es) by (intros k Hk; cbn in Hk; repeat (destruct Hk as [Hk|Hk]; [try discriminate; injection Hk as <-; apply junk_any|]); destruct Hk).
  destruct (test_lam (/ 10000) true 3 (Z.of_nat h) alphas) as (L1 & L2 & L3). fold cf in L1, L2, L3.
  assert (Ob : DDPSafe.object_ok pb s0) by (split; [reflexivity|]; split; [reflexivity|]; intros nu _; constructor).
  destruct (C65_ddp_run chol_llt nsin ncos (cart_test ref) (2 / 1000) cf 80 h chol_dims eq_refl eq_refl eq_refl Hh eq_refl eq_refl L1 L2 L3 0 [a; b; c; d] s0 eq_refl Ob es Hj)
    as (st & E & Ht & Hu & _).
  exists st. split; [exact E|]. split; [rewrite Ht; cbn; lra|]. split; [exact Hu|].
  split; [|rewrite (proj1 (C65_ddp_target chol_llt nsin ncos (cart_test ref) (2 / 1000) cf 80 h 0 [a; b; c; d] s0 es st 0 E)); reflexivity].
  rewrite (C65_ddp_push chol_llt nsin ncos (cart_test ref) (2 / 1000) cf 80 h 0 [a; b; c; d] s0 [Sim; Mpc vary_junk; Sim] 30 [Sim; Aim 5; Mpc vary_junk; Sim] st).
  - cbn. destruct (Rle_dec _ _); [reflexivity|lra].
  - lra.
  - intros f Hf. cbn in Hf. intuition discriminate.
  - exact E.
Qed.

(** ** The feedback of TestFmpcCartPole.cpp:354 has the wrong sign *)
(** FmpcSolver.hpp:600 and 676-677 plan u + K (x - x_plan) around the plan.  The linear-quadratic problem of the examples, on doubles: planned from x = 11 and then found
    at x = 0, the solver's own law gives the input 0 that it plans when called at x = 0; the formula of the test gives less than -19. *)
Definition fb_run (x0 : f64) : outcome (fsolver f64) fstatus :=
  fmpc_solve div_lin ex_fp_free (ex_fcf 1 10 false false false) (sized_junk hz 1 1 0) 35 hz [x0]
    (var_ctor [hz] [hz] [] 1) (new_object (sized_junk hz 1 1 0) [hz]).
Definition fb_near (a b : f64) : Prop := nltb (nabs (nsub a b)) (nlit 1 1000000000) = true.
Theorem C65_feedback_refuted : exists s s' c xp u u' w,
  fb_run (f64_ofZ 11) = Ok Succeeded s /\ fb_run hz = Ok Succeeded s' /\
  nth_error (f_coeff s) 0 = Some c /\ nth_error (v_x (f_var s)) 0 = Some xp /\ nth_error (v_u (f_var s)) 0 = Some u /\
  nth_error (v_u (f_var s')) 0 = Some u' /\ feedback s u [hz] = Some w /\
  fb_near (vget u' 0) hz /\ fb_near (vget (vadd u (mvmul (c_K c) (vsub [hz] xp))) 0) hz /\ nltb (vget w 0) (f64_ofZ (-19)) = true.
Proof.
  do 7 eexists. split; [vm_compute; reflexivity|]. split; [vm_compute; reflexivity|]. do 5 (split; [vm_compute; reflexivity|]). split; [vm_compute; reflexivity|]. split; vm_compute; reflexivity.
Qed.
Print Assumptions C65_feedback_refuted.
