(** Properties C27, C28, C37 and the generic part of C32, for every scalar type, problem, linear solver, content of fresh
    memory and prior state of the solver object. *)
From Verif Require Import Prelude Scalar LinAlg DDP Fmpc FmpcProofs FmpcSpec ExDDP ExFmpc.

Section Check.
  Context {T : Type} {N : Num T}.
  Variables (pb : fproblem T) (cf : fconfig T).

  Lemma bad_length_spec v : bad_length cf v = false <-> right_lengths cf v.
  Proof.
    unfold bad_length, right_lengths. rewrite negb_false_iff, !andb_true_iff, !Z.eqb_eq. tauto.
  Qed.
  Lemma right_nat v : right_lengths cf v -> length (v_x v) = Nf cf + 1 /\ length (v_u v) = Nf cf /\ length (v_l v) = Nf cf + 1 /\
    length (v_s v) = Nf cf /\ length (v_n v) = Nf cf /\ (0 <= fc_hor cf)%Z.
  Proof. unfold right_lengths, Nf. lia. Qed.

  Lemma bad_dim_spec t0 v : right_lengths cf v ->
    existsb (bad_dim pb t0 v) (seq 0 (Nf cf)) = false <-> right_dims pb t0 v.
  Proof.
    intros (_ & Hu & _ & Hs & Hn & _)%right_nat. unfold right_dims.
    assert (E : existsb (bad_dim pb t0 v) (seq 0 (Nf cf)) = false <-> forall i, i < Nf cf -> bad_dim pb t0 v i = false).
    { rewrite <- not_true_iff_false, existsb_exists. split.
      - intros H i Hi. destruct (bad_dim pb t0 v i) eqn:B; auto. exfalso; apply H. exists i; split; [apply in_seq; lia|exact B].
      - intros H (i & Hi & B). apply in_seq in Hi. rewrite H in B by lia. discriminate. }
    rewrite E. clear E. unfold bad_dim, stage_time. unfold dp, ft.
    assert (NE : forall (l : list (vec T)) i w, length l = Nf cf -> nth_error l i = Some w -> i < Nf cf /\ nth i l [] = w).
    { intros l i w Hl H. split; [rewrite <- Hl; apply nth_error_Some; congruence|]. apply nth_error_nth; exact H. }
    assert (NE' : forall (l : list (vec T)) i, length l = Nf cf -> i < Nf cf -> nth_error l i = Some (nth i l [])).
    { intros l i Hl Hi. apply nth_error_nth'. lia. }
    split.
    - intros H; split; intros Hd i w Hw.
      + destruct (NE _ _ _ Hu Hw) as [Hi E]. specialize (H i Hi). rewrite Hd in H. apply orb_false_iff in H as [H _].
        apply negb_false_iff, Z.eqb_eq in H. rewrite E in H. exact H.
      + destruct Hw as [Hw|Hw].
        * destruct (NE _ _ _ Hs Hw) as [Hi E]. specialize (H i Hi). rewrite Hd in H. apply orb_false_iff in H as [_ H].
          apply orb_false_iff in H as [H _]. apply negb_false_iff, Z.eqb_eq in H. rewrite E in H. exact H.
        * destruct (NE _ _ _ Hn Hw) as [Hi E]. specialize (H i Hi). rewrite Hd in H. apply orb_false_iff in H as [_ H].
          apply orb_false_iff in H as [_ H]. apply negb_false_iff, Z.eqb_eq in H. rewrite E in H. exact H.
    - intros [H1 H2] i Hi. apply orb_false_iff; split.
      + destruct (pb_fixed_nu (fp_dp pb)); [reflexivity|]. rewrite negb_false_iff, Z.eqb_eq. apply H1; auto.
      + destruct (fp_fixed_ng pb); [reflexivity|]. rewrite orb_false_iff, !negb_false_iff, !Z.eqb_eq. split; apply H2; auto.
  Qed.
  Lemma bad_sign_spec v : right_lengths cf v -> existsb (bad_sign v) (seq 0 (Nf cf)) = false <-> no_negative v.
  Proof.
    intros (_ & Hu & _ & Hs & Hn & _)%right_nat. unfold no_negative.
    assert (VN : forall w : vec T, vnegb w = false <-> forall a, In a w -> nltb a nzero = false).
    { intros w. unfold vnegb. rewrite <- not_true_iff_false, existsb_exists. split.
      - intros H a Ha. destruct (nltb a nzero) eqn:B; auto. exfalso; eauto.
      - intros H (a & Ha & B). rewrite H in B by auto. discriminate. }
    assert (E : existsb (bad_sign v) (seq 0 (Nf cf)) = false <-> forall i, i < Nf cf -> bad_sign v i = false).
    { rewrite <- not_true_iff_false, existsb_exists. split.
      - intros H i Hi. destruct (bad_sign v i) eqn:B; auto. exfalso; apply H. exists i; split; [apply in_seq; lia|exact B].
      - intros H (i & Hi & B). apply in_seq in Hi. rewrite H in B by lia. discriminate. }
    rewrite E. clear E. unfold bad_sign. split.
    - intros H w a [Hw|Hw] Ha; apply (In_nth _ _ []) in Hw as (i & Hi & <-).
      + assert (Hi' : i < Nf cf) by (rewrite <- Hs; exact Hi). specialize (H i Hi'). apply orb_false_iff in H as [H _]. apply (proj1 (VN _) H a Ha).
      + assert (Hi' : i < Nf cf) by (rewrite <- Hn; exact Hi). specialize (H i Hi'). apply orb_false_iff in H as [_ H]. apply (proj1 (VN _) H a Ha).
    - intros H i Hi. apply orb_false_iff; split; apply VN; intros a Ha; eapply H; eauto; [left; apply nth_In; rewrite Hs; exact Hi|right; apply nth_In; rewrite Hn; exact Hi].
  Qed.
End Check.

Section Run.
  Context {T : Type} {N : Num T}.
  Variables (LO : linops T) (pb : fproblem T) (cf : fconfig T) (jk : fjunk T) (fuel : nat).
  Variables (t0 : T) (x0 : vec T) (v0 : var T) (s : fsolver T).
  Notation solve := (fmpc_solve LO pb cf jk fuel t0 x0 v0 s).

  (** C27. The trace holds the KKT error of every iteration that was started. *)
  Theorem C27_status r s' : solve = Ok r s' ->
    r <> IterationContinued /\
    (Z.of_nat (length (f_trace s')) <= Z.max 0 (fc_max_iter cf))%Z /\
    (forall i e, nth_error (f_trace s') i = Some e -> fst e = (Z.of_nat i + 1)%Z) /\
    (* MaxIterationReached: exactly max_iter iterations, none of which passed the KKT test *)
    (r = MaxIterationReached -> (1 <= fc_max_iter cf)%Z /\ Z.of_nat (length (f_trace s')) = fc_max_iter cf /\
       forall e, In e (f_trace s') -> nleb (snd e) (fc_kkt cf) = false) /\
    (* Succeeded: exactly when the last iteration passed it *)
    (r = Succeeded <-> exists e, nth_error (f_trace s') (length (f_trace s') - 1) = Some e /\ nleb (snd e) (fc_kkt cf) = true) /\
    (* Uninitialized: exactly when max_iter <= 0 *)
    (r = Uninitialized <-> (fc_max_iter cf <= 0)%Z) /\
    ((fc_max_iter cf <= 0)%Z -> f_trace s' = [] /\ v_x (f_var s') = v_x v0 /\ v_u (f_var s') = v_u v0 /\ v_l (f_var s') = v_l v0 /\
       (fc_init cf = false -> f_var s' = v0)).
  Proof.
    rewrite solve_form_eq. unfold solve_form. intros H.
    destruct (inited pb cf t0 v0 (f_eps s)) as [[v eps]|] eqn:Ei; [|discriminate].
    destruct (bad_length cf v); [discriminate|]. destruct (existsb _ _); [discriminate|]. destruct (existsb _ _); [discriminate|].
    destruct (setup_coeff pb cf jk t0 (f_coeff s)) as [cl|]; [|discriminate].
    destruct (fopt_loop _ _ _ _ _ _ _ _) as [r1 s1| | |] eqn:E; try discriminate.
    destruct (_ || _); [|discriminate]. injection H as <- <-.
    apply fopt_loop_post in E. destruct E as (es & Ht & Htt & Hx & Hl & Hit & Hlen & Hne & Hk & Hz & H0).
    cbn [ready f_trace app] in Ht. rewrite Ht.
    assert (Hf : finish r1 = Succeeded <-> r1 = Succeeded) by (destruct r1; split; discriminate || reflexivity).
    assert (Hu : finish r1 = Uninitialized <-> r1 = Uninitialized) by (destruct r1; split; discriminate || reflexivity).
    split; [destruct r1; discriminate|]. split; [lia|]. split.
    { intros i e He. rewrite (Hit _ _ He). lia. }
    split.
    { intros Hm. assert (Hn : Z.to_nat (fc_max_iter cf) <> 0).
      { intros Hn. destruct (H0 Hn) as [-> _]. discriminate. }
      assert (r1 = IterationContinued).
      { destruct (Hz Hn). destruct r1; cbn in Hm; congruence. }
      subst r1. specialize (Hlen (or_introl eq_refl)). split; [lia|]. split; [lia|].
      intros e He. apply In_nth_error in He as [i He]. destruct (nleb (snd e) (fc_kkt cf)) eqn:B; auto.
      apply (Hk _ _ He) in B as [B _]. discriminate. }
    split.
    { rewrite Hf. split.
      - intros Hs. assert (Hn : Z.to_nat (fc_max_iter cf) <> 0).
        { intros Hn. destruct (H0 Hn) as [-> _]. discriminate. }
        assert (es <> []) by (apply Hne; [rewrite Hs; discriminate|exact Hn]).
        destruct (nth_error es (length es - 1)) as [e|] eqn:Ee.
        + exists e. split; [reflexivity|]. apply (Hk _ _ Ee). split; [exact Hs|]. destruct es; [contradiction|cbn; lia].
        + apply nth_error_None in Ee. destruct es; [contradiction|cbn in Ee; lia].
      - intros (e & Ee & B). apply (Hk _ _ Ee) in B as [B _]. exact B. }
    split.
    { rewrite Hu. split.
      - intros ->. destruct (Z.to_nat (fc_max_iter cf)) eqn:En; [lia|]. destruct (Hz ltac:(discriminate)) as [X _]. contradiction.
      - intros Hm. apply H0. lia. }
    intros Hm. destruct (H0 ltac:(lia)) as [_ ->]. cbn [ready f_trace f_var] in Ht |- *. split; [auto|].
    unfold inited in Ei. destruct (fc_init cf) eqn:Ef.
    - destruct (init_var pb cf t0 (nlit 1 10000) v0) as [v1|] eqn:Ev; [|discriminate]. injection Ei as <- <-.
      apply init_var_some in Ev. destruct Ev as (_ & _ & _ & _ & _ & -> & -> & -> & _). repeat split. discriminate.
    - injection Ei as <- <-. repeat split.
  Qed.

  (** C27, negative part: with max_iter <= 0 and print_level >= 3 the final message reads trace_data_list_.back() of an
      empty vector. *)
  Theorem C27_empty_trace_refuted : (fc_max_iter cf <= 0)%Z -> (3 <= fc_print cf)%Z ->
    forall r s', solve <> Ok r s'.
  Proof.
    intros Hm Hp r s'. rewrite solve_form_eq. unfold solve_form. intros H.
    destruct (inited pb cf t0 v0 (f_eps s)) as [[v eps]|] eqn:Ei; [|discriminate].
    destruct (bad_length cf v); [discriminate|]. destruct (existsb _ _); [discriminate|]. destruct (existsb _ _); [discriminate|].
    destruct (setup_coeff pb cf jk t0 (f_coeff s)) as [cl|]; [|discriminate].
    replace (Z.to_nat (fc_max_iter cf)) with 0 in H by lia. cbn [fopt_loop ret ready f_trace length Nat.eqb negb] in H.
    replace (3 <=? fc_print cf)%Z with true in H by (symmetry; apply Z.leb_le; exact Hp). discriminate.
  Qed.

  (** C28: what solve does with a wrong initial variable. The coefficients, the step and the trace stay as they were. *)
  Definition rejected (e : exn) : Prop :=
    exists s', solve = Throw e s' /\ f_coeff s' = f_coeff s /\ f_delta s' = f_delta s /\ f_trace s' = f_trace s.
  Definition long_enough (v : var T) : Prop :=
    (fc_hor cf <= Z.of_nat (length (v_x v)) /\ fc_hor cf <= Z.of_nat (length (v_u v)) /\
     fc_hor cf <= Z.of_nat (length (v_s v)) /\ fc_hor cf <= Z.of_nat (length (v_n v)))%Z.

  Lemma inited_long : fc_init cf = false \/ long_enough v0 ->
    exists v eps, inited pb cf t0 v0 (f_eps s) = Some (v, eps) /\ v_x v = v_x v0 /\ v_u v = v_u v0 /\ v_l v = v_l v0 /\
      length (v_s v) = length (v_s v0) /\ length (v_n v) = length (v_n v0) /\ (fc_init cf = false -> v = v0).
  Proof.
    unfold inited. intros H. destruct (fc_init cf).
    - destruct H as [H|(H1 & H2 & H3 & H4)]; [discriminate|].
      destruct (init_var_def pb cf t0 (nlit 1 10000) v0) as [v Ev]; try (unfold Nf; lia).
      rewrite Ev. apply init_var_some in Ev as (_ & _ & _ & _ & _ & A & B & C & D & E & _).
      exists v, (nlit 1 10000). split; [reflexivity|]. repeat (split; [assumption|]). discriminate.
    - exists v0, (f_eps s). repeat split.
  Qed.

  Theorem C28_wrong_lengths : fc_init cf = false \/ long_enough v0 -> ~ right_lengths cf v0 -> rejected InvalidArgument.
  Proof.
    intros H Hr. destruct (inited_long H) as (v & eps & Ei & A & B & C & D & E & _).
    unfold rejected. rewrite solve_form_eq. unfold solve_form. rewrite Ei.
    destruct (bad_length cf v) eqn:Eb.
    - eexists. split; [reflexivity|]. repeat split.
    - exfalso. apply bad_length_spec in Eb. apply Hr. unfold right_lengths in *. rewrite A, B, C, D, E in Eb. exact Eb.
  Qed.
  Theorem C28_wrong_dims : fc_init cf = false -> right_lengths cf v0 -> ~ (right_dims pb t0 v0 /\ no_negative v0) ->
    rejected RuntimeError.
  Proof.
    intros Hi Hr Hd. unfold rejected. rewrite solve_form_eq. unfold solve_form, inited. rewrite Hi.
    rewrite (proj2 (bad_length_spec cf v0) Hr).
    destruct (existsb (bad_dim pb t0 v0) _) eqn:E1; [eexists; split; [reflexivity|]; repeat split|].
    destruct (existsb (bad_sign v0) _) eqn:E2; [eexists; split; [reflexivity|]; repeat split|].
    exfalso. apply Hd. split; [apply (bad_dim_spec pb cf); auto|apply (bad_sign_spec cf); auto].
  Qed.
  (** With the initialisation of s and nu the remaining run-time size, that of u, is checked all the same. *)
  Theorem C28_wrong_dims_init : fc_init cf = true -> right_lengths cf v0 -> pb_fixed_nu (fp_dp pb) = None ->
    ~ (forall i u, nth_error (v_u v0) i = Some u -> Z.of_nat (length u) = pb_inputDim (fp_dp pb) (stage_time pb t0 i)) ->
    rejected RuntimeError.
  Proof.
    intros Hi Hr Hnu Hd. destruct inited_long as (v & eps & Ei & A & B & C & D & E & _).
    { right. unfold right_lengths in Hr. unfold long_enough. lia. }
    unfold rejected. rewrite solve_form_eq. unfold solve_form. rewrite Ei.
    assert (Hr' : right_lengths cf v). { unfold right_lengths in *. rewrite A, B, C, D, E. exact Hr. }
    rewrite (proj2 (bad_length_spec cf v) Hr').
    destruct (existsb (bad_dim pb t0 v) _) eqn:E1; [eexists; split; [reflexivity|]; repeat split|].
    exfalso. apply Hd. apply (bad_dim_spec pb cf) in E1; auto. destruct E1 as [E1 _]. rewrite B in E1. auto.
  Qed.
  (** Only such variables are refused: solve throws for no other reason. *)
  Theorem C28_throws_only e s' : solve = Throw e s' ->
    (e = InvalidArgument /\ ~ right_lengths cf v0) \/
    (e = RuntimeError /\ right_lengths cf v0 /\ (fc_init cf = false -> ~ (right_dims pb t0 v0 /\ no_negative v0))).
  Proof.
    rewrite solve_form_eq. unfold solve_form.
    destruct (inited pb cf t0 v0 (f_eps s)) as [[v eps]|] eqn:Ei; [|discriminate].
    assert (HL : right_lengths cf v <-> right_lengths cf v0).
    { unfold inited in Ei. destruct (fc_init cf).
      - destruct (init_var pb cf t0 (nlit 1 10000) v0) as [v1|] eqn:Ev; [|discriminate]. injection Ei as <- <-.
        apply init_var_some in Ev as (_ & _ & _ & _ & _ & A & B & C & D & E & _). unfold right_lengths. rewrite A, B, C, D, E. tauto.
      - injection Ei as <- <-. tauto. }
    destruct (bad_length cf v) eqn:E0.
    { intros H; injection H as <- _. left. split; [reflexivity|]. intros Hr. apply HL, bad_length_spec in Hr. congruence. }
    apply bad_length_spec in E0.
    destruct (existsb (bad_dim pb t0 v) _) eqn:E1.
    { intros H; injection H as <- _. right. split; [reflexivity|]. split; [tauto|].
      intros Hf [Hd _]. unfold inited in Ei. rewrite Hf in Ei. injection Ei as <- <-. apply (bad_dim_spec pb cf) in Hd; auto. congruence. }
    destruct (existsb (bad_sign v) _) eqn:E2.
    { intros H; injection H as <- _. right. split; [reflexivity|]. split; [tauto|].
      intros Hf [_ Hd]. unfold inited in Ei. rewrite Hf in Ei. injection Ei as <- <-. apply (bad_sign_spec cf) in Hd; auto. congruence. }
    destruct (setup_coeff pb cf jk t0 (f_coeff s)) as [cl|]; [|discriminate].
    destruct (fopt_loop _ _ _ _ _ _ _ _) as [r1 s1|e1 s1| |] eqn:E; try discriminate.
    - destruct (_ || _); discriminate.
    - exfalso. exact (fopt_loop_nothrow _ _ _ _ _ _ _ _ _ _ E).
  Qed.
  (** C28, refuted part: with init_complementary_variable every initial variable with a list that is too short (one of
      x, u, s, nu) makes solve read or write out of range instead of throwing. *)
  Theorem C28_init_refuted : fc_init cf = true -> ~ long_enough v0 -> solve = UB.
  Proof.
    intros Hi Hl. rewrite solve_form_eq. unfold solve_form, inited. rewrite Hi.
    destruct (init_var pb cf t0 (nlit 1 10000) v0) as [v|] eqn:E; [|reflexivity].
    exfalso. apply Hl. apply init_var_some in E as (A & B & C & D & _). unfold long_enough, Nf in *. lia.
  Qed.
End Run.
Print Assumptions C27_status.
Print Assumptions C27_empty_trace_refuted.
Print Assumptions C28_wrong_lengths.
Print Assumptions C28_wrong_dims.
Print Assumptions C28_wrong_dims_init.
Print Assumptions C28_throws_only.
Print Assumptions C28_init_refuted.

(** C37 *)
Section Var.
  Context {T : Type} {N : Num T}.
  (** [l'] has the shape of [l] and every entry equal to [a]. *)
  Definition filled (a : T) (l l' : list (vec T)) : Prop :=
    length l' = length l /\
    forall i w w', nth_error l i = Some w -> nth_error l' i = Some w' -> length w' = length w /\ forall b, In b w' -> b = a.
  Theorem C37_reset (x u l w n : T) (v : var T) : let v' := var_reset x u l w n v in
    v_hor v' = v_hor v /\ filled x (v_x v) (v_x v') /\ filled u (v_u v) (v_u v') /\ filled l (v_l v) (v_l v') /\
    filled w (v_s v) (v_s v') /\ filled n (v_n v) (v_n v').
  Proof.
    assert (H : forall a (L : list (vec T)), filled a L (map (fun q : vec T => vconst (length q) a) L)).
    { intros a L. split; [apply map_length|]. intros i q q' Hq Hq'. rewrite nth_error_map, Hq in Hq'. injection Hq' as <-.
      unfold vconst. split; [apply vbuild_length|]. unfold vbuild. intros b Hb. apply in_map_iff in Hb as (j & <- & _). reflexivity. }
    cbn. split; [reflexivity|]. do 4 (split; [apply H|]). apply H.
  Qed.
  Theorem C37_containsNaN (v : var T) :
    var_nan v = true <->
    exists w a, (In w (v_x v) \/ In w (v_u v) \/ In w (v_l v) \/ In w (v_s v) \/ In w (v_n v)) /\ In a w /\ nfin a = false.
  Proof.
    assert (H : forall L : list (vec T), existsb (fun w => negb (vfinb w)) L = true <-> exists w a, In w L /\ In a w /\ nfin a = false).
    { intros L. rewrite existsb_exists. split.
      - intros (w & Hw & B). apply negb_true_iff in B. unfold vfinb in B.
        assert (X : exists a, In a w /\ nfin a = false).
        { clear Hw. induction w as [|a w IH]; [discriminate|]. cbn in B. destruct (nfin a) eqn:F.
          - destruct (IH B) as (b & Hb & Fb). exists b; split; [right|]; auto.
          - exists a; split; [left|]; auto. }
        destruct X as (a & Ha & F). eauto.
      - intros (w & a & Hw & Ha & F). exists w. split; [exact Hw|]. apply negb_true_iff. unfold vfinb.
        destruct (forallb nfin w) eqn:B; auto. rewrite forallb_forall in B. rewrite B in F by auto. discriminate. }
    unfold var_nan. rewrite !orb_true_iff, !H. split.
    - intros [[[[(w & a & A & B & C)|(w & a & A & B & C)]|(w & a & A & B & C)]|(w & a & A & B & C)]|(w & a & A & B & C)];
        exists w, a; tauto.
    - intros (w & a & [A|[A|[A|[A|A]]]] & B & C); [do 4 left|do 3 left; right|do 2 left; right|left; right|right]; eauto.
  Qed.
  (** The vectors and matrices of a Coefficient. *)
  Definition coeff_vecs (c : coeff T) : list (vec T) := [c_Lx c; c_Lu c; c_xbar c; c_gbar c; c_Lxbar c; c_Lubar c; c_k c; c_s c].
  Definition coeff_mats (c : coeff T) : list (mat T) := [c_A c; c_B c; c_C c; c_D c; c_Lxx c; c_Luu c; c_Lxu c; c_K c; c_P c].
  Definition in_coeff (a : T) (c : coeff T) : Prop :=
    (exists w, In w (coeff_vecs c) /\ In a w) \/ (exists A row, In A (coeff_mats c) /\ In row (mdat A) /\ In a row).
  Definition in_var (a : T) (v : var T) : Prop :=
    exists w, (In w (v_x v) \/ In w (v_u v) \/ In w (v_l v) \/ In w (v_s v) \/ In w (v_n v)) /\ In a w.
  Lemma forallb_fin (w : list T) : forallb nfin w = true <-> forall a, In a w -> nfin a = true.
  Proof. rewrite forallb_forall. reflexivity. Qed.
  Lemma coeff_fin (c : coeff T) : coeff_nan c = false <-> forall a, in_coeff a c -> nfin a = true.
  Proof.
    unfold coeff_nan. rewrite negb_false_iff, !andb_true_iff. unfold mfinb, vfinb.
    assert (M : forall A : mat T, forallb (forallb nfin) (mdat A) = true <-> forall row a, In row (mdat A) -> In a row -> nfin a = true).
    { intros A. rewrite forallb_forall. split; [intros H row a Hr; apply forallb_fin; auto|intros H row Hr; apply forallb_fin; intros a; apply H; exact Hr]. }
    rewrite !M, !forallb_fin. unfold in_coeff, coeff_vecs, coeff_mats. split.
    - intros H a [(w & Hw & Ha)|(A & row & HA & Hr & Ha)].
      + cbn in Hw. repeat (destruct Hw as [<-|Hw]; [decompose [and] H; auto|]). destruct Hw.
      + cbn in HA. repeat (destruct HA as [<-|HA]; [decompose [and] H; eauto|]). destruct HA.
    - intros H. repeat split; intros; apply H; first [left; eexists; split; [|eassumption]; cbn; tauto|right; do 2 eexists; split; [|split; eassumption]; cbn; tauto].
  Qed.
  Theorem C37_coeff_containsNaN (c : coeff T) : coeff_nan c = true <-> exists a, in_coeff a c /\ nfin a = false.
  Proof.
    split.
    - intros H. destruct (existsb (fun a => negb (nfin a)) (concat (coeff_vecs c) ++ concat (map (fun A => concat (mdat A)) (coeff_mats c)))) eqn:E.
      + apply existsb_exists in E as (a & Ha & Hf). apply negb_true_iff in Hf. exists a. split; [|exact Hf]. apply in_app_or in Ha as [Ha|Ha].
        * left. apply in_concat in Ha as (w & Hw & Ha). eauto.
        * right. apply in_concat in Ha as (w & Hw & Ha). apply in_map_iff in Hw as (A & <- & HA). apply in_concat in Ha as (row & Hr & Ha). eauto.
      + exfalso. assert (F : coeff_nan c = false); [|congruence]. apply coeff_fin. intros a Ha. destruct (nfin a) eqn:Hf; [reflexivity|exfalso].
        assert (X : existsb (fun a => negb (nfin a)) (concat (coeff_vecs c) ++ concat (map (fun A => concat (mdat A)) (coeff_mats c))) = true); [|congruence].
        apply existsb_exists. exists a. split; [|rewrite Hf; reflexivity]. apply in_or_app. destruct Ha as [(w & Hw & Ha)|(A & row & HA & Hr & Ha)].
        * left. apply in_concat. eauto.
        * right. apply in_concat. exists (concat (mdat A)). split; [apply in_map_iff; eauto|apply in_concat; eauto].
    - intros (a & Ha & Hf). destruct (coeff_nan c) eqn:E; [reflexivity|]. pose proof (proj1 (coeff_fin c) E a Ha). congruence.
  Qed.

  (** With check_nan an iteration that goes on used finite numbers only: no NaN or infinity in any coefficient or in the step. *)
  Theorem C37_checked (LO : linops T) pb cf fuel it s s' : fc_check_nan cf = true -> proc_once LO pb cf fuel it s = Ok IterationContinued s' ->
    (forall c a, In c (f_coeff s') -> in_coeff a c -> nfin a = true) /\ (forall a, in_var a (f_delta s') -> nfin a = true).
  Proof.
    intros Hn H. pose proof (proc_once_case LO pb cf fuel it s) as P. rewrite H in P.
    destruct P as [P|(eps & cl & e & He & Hc & _ & P)]; [discriminate|]. destruct (nleb e (fc_kkt cf)); [discriminate|].
    pose proof (rest_cases LO pb cf fuel (checked s it eps cl e)) as Q. rewrite <- P in Q.
    destruct Q as [Q|[Q|(b & cl' & Hb & [[_ Q]|(-> & d & Hd & [[_ Q]|(Hv & b2 & s2 & Hu & Q)])])]]; try discriminate.
    destruct b2; [|discriminate]. injection Q as <-.
    pose proof (update_variables_case pb cf fuel (set_fdelta d (set_fcoeff cl' (checked s it eps cl e)))) as U. rewrite Hu in U.
    destruct U as [U|[U|(a_s & a_n & _ & _ & [[_ U]|(_ & s3 & a & v & Ha & _ & U)])]]; try discriminate. injection U as ->.
    apply alpha_used_state in Ha as (_ & _ & A5 & A6). cbn [set_fvar f_coeff f_delta]. rewrite A5, A6. cbn [set_fdelta set_fcoeff f_coeff f_delta]. split.
    - destruct (backward_case LO pb cf (checked s it eps cl e)) as [E|(c0 & b & cl1 & _ & _ & E)]; rewrite Hb in E; [discriminate|].
      assert (E1 : cl1 = cl') by (apply (f_equal (fun o => match o with Ok _ s => f_coeff s | _ => [] end)) in E; cbn in E; congruence). subst cl1.
      injection E as E. symmetry in E. apply andb_true_iff in E as [_ E]. rewrite Hn in E. apply negb_true_iff in E. cbn [andb] in E.
      intros c x Hin. apply coeff_fin. destruct (coeff_nan c) eqn:Ec; [|reflexivity]. rewrite <- E. symmetry. apply existsb_exists. eauto.
    - intros x Hx. rewrite Hn in Hv. cbn [andb] in Hv. destruct (nfin x) eqn:Hf; [reflexivity|]. exfalso.
      assert (X : var_nan d = true) by (apply C37_containsNaN; destruct Hx as (w & Hw & Hx); exists w, x; auto). congruence.
  Qed.
End Var.
Print Assumptions C37_reset.
Print Assumptions C37_containsNaN.
Print Assumptions C37_coeff_containsNaN.
Print Assumptions C37_checked.

(** On binary64 the entries that count are exactly the NaNs and the infinities. *)
Lemma f64_nfin (a : f64) : nfin a = false <-> a = f64_nan \/ a = SpecFloat.S754_infinity true \/ a = f64_inf.
Proof. destruct a as [[]|[]| |b m e]; cbn; unfold f64_nan, f64_inf; split; intros H; try discriminate; auto; destruct H as [H|[H|H]]; discriminate. Qed.

(** ** Concrete cases (IEEE binary64) *)
Definition fz : f64 := SpecFloat.S754_zero false.
Definition f1 : f64 := f64_ofZ 1.
Definition ex_run (cf : fconfig f64) (v : var f64) := fmpc_solve div_lin ex_fp cf (ex_fjunk fz) 100 fz [f64_ofZ 5] v ex_fs0.
Definition summary (o : outcome (fsolver f64) fstatus) : option (fstatus * nat) :=
  match o with Ok r s => Some (r, length (f_trace s)) | _ => None end.
(** Runs that succeed, that reach the iteration limit, and one without iterations. *)
Example C27_nonvacuous :
  summary (ex_run (ex_fcf 2 20 false true false) (ex_fvar 2 fz fz fz f1 f1)) = Some (Succeeded, 14) /\
  summary (ex_run (ex_fcf 2 20 true true false) (ex_fvar 2 fz fz fz f1 f1)) = Some (Succeeded, 9) /\
  summary (ex_run (ex_fcf 2 3 false true false) (ex_fvar 2 fz fz fz f1 f1)) = Some (MaxIterationReached, 3) /\
  summary (ex_run (ex_fcf 2 0 false true false) (ex_fvar 2 fz fz fz f1 f1)) = Some (Uninitialized, 0).
Proof. vm_compute. repeat split. Qed.
(** An iteration that goes on, with check_nan. *)
Example C37_checked_nonvacuous : fc_check_nan (ex_fcf (T := f64) 2 20 false true false) = true /\
  match ex_run (ex_fcf 2 1 false true false) (ex_fvar 2 fz fz fz f1 f1) with
  | Ok _ s => match proc_once div_lin ex_fp (ex_fcf 2 20 false true false) 100 2 s with Ok IterationContinued _ => true | _ => false end
  | _ => false end = true.
Proof. vm_compute. auto. Qed.
(** A list that is one element short: refused without initialisation, out of range with it. *)
Definition short_var : var f64 :=
  {| v_hor := 2; v_x := [[fz]; [fz]; [fz]]; v_u := [[fz]; [fz]]; v_l := [[fz]; [fz]; [fz]]; v_s := [[f1]]; v_n := [[f1]; [f1]] |}.
Example C28_nonvacuous :
  (exists s', ex_run (ex_fcf 2 3 false true false) short_var = Throw InvalidArgument s') /\
  ex_run (ex_fcf 2 3 true true false) short_var = UB /\
  ~ long_enough (ex_fcf 2 3 true true false) short_var /\
  (exists s', ex_run (ex_fcf 2 3 false true false) (ex_fvar 2 fz fz fz (f64_ofZ (-1)) f1) = Throw RuntimeError s') /\
  (exists s', fmpc_solve div_lin ex_fp_dyn (ex_fcf 1 3 false true false) (ex_fjunk fz) 100 fz [f64_ofZ 5]
     {| v_hor := 1; v_x := [[fz]; [fz]]; v_u := [[fz; fz]]; v_l := [[fz]; [fz]]; v_s := [[f1]]; v_n := [[f1]] |} ex_fs0 = Throw RuntimeError s').
Proof.
  split; [eexists; vm_compute; reflexivity|]. split; [vm_compute; reflexivity|]. split.
  - unfold long_enough. cbn. lia.
  - split; eexists; vm_compute; reflexivity.
Qed.
Example C37_nonvacuous :
  var_nan (ex_fvar 2 fz f1 fz f1 f1) = false /\ var_nan (ex_fvar 2 fz f1 fz f64_nan f1) = true /\
  var_nan (ex_fvar 2 fz f1 fz f1 f64_inf) = true /\ v_s (ex_fvar 2 fz f1 fz f64_nan f1) = [[f64_nan]; [f64_nan]].
Proof. vm_compute. repeat split. Qed.
