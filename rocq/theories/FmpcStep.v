(** updateVariables of the FMPC model: step lengths, line search and the new variable, for every scalar type. *)
From Verif Require Import Prelude Scalar LinAlg DDP Fmpc FmpcProofs.

Section Step.
  Context {T : Type} {N : Num T}.
  Variables (pb : fproblem T) (cf : fconfig T).
  Notation Nf := (Nf cf).

  Lemma nth_le {A} (l : list A) n : (forall i, i < n -> nth_error l i <> None) -> n <= length l.
  Proof. intros H. destruct n as [|n]; [lia|]. specialize (H n ltac:(lia)). apply nth_error_Some in H. lia. Qed.

  Lemma step_list_spec n a (vs ds l : list (vec T)) : step_list n a vs ds = Some l ->
    n <= length vs /\ length l = length vs /\
    (forall i, i < n -> exists v d, nth_error vs i = Some v /\ nth_error ds i = Some d /\ length d = length v /\
       nth_error l i = Some (vadd v (vscale a d))) /\
    (forall i, n <= i -> nth_error l i = nth_error vs i).
  Proof.
    unfold step_list. intros H. opt1 H. injection H as <-.
    pose proof (tabo_length _ _ _ E) as L.
    assert (Hi : forall i, i < n -> exists v d, nth_error vs i = Some v /\ nth_error ds i = Some d /\ length d = length v /\
       nth_error l0 i = Some (vadd v (vscale a d))).
    { intros i Hi. destruct (tabo_nth _ _ _ _ E Hi) as [E1 E2].
      destruct (nth_error vs i) as [v|]; [|contradiction]. destruct (nth_error ds i) as [d|]; [|contradiction].
      unfold vdimb in *. destruct (Nat.eqb (length d) (length v)) eqn:B; [|contradiction]. apply Nat.eqb_eq in B. exists v, d. auto. }
    assert (HL : n <= length vs).
    { apply nth_le. intros i H. destruct (Hi i H) as (v & d & A & _). congruence. }
    split; [exact HL|]. split; [apply overwrite_length; lia|]. split.
    - intros i H. destruct (Hi i H) as (v & d & A & B & C & D). exists v, d. repeat (split; [assumption|]).
      rewrite overwrite_nth by lia. exact D.
    - intros i H. unfold overwrite. rewrite nth_error_app2 by lia. rewrite L.
      transitivity (nth_error (firstn n vs ++ skipn n vs) i); [|rewrite firstn_skipn; reflexivity].
      rewrite nth_error_app2; rewrite firstn_length_le by exact HL; [reflexivity|exact H].
  Qed.

  Lemma frac_spec (ss ds : list (vec T)) a : frac cf ss ds = Some a ->
    (forall i, i < Nf -> exists s d, nth_error ss i = Some s /\ nth_error ds i = Some d /\ length d = length s) /\
    exists ps, a = fold_left frac1 ps (nofZ 1) /\
      forall p, In p ps <-> exists i s d j, i < Nf /\ nth_error ss i = Some s /\ nth_error ds i = Some d /\ j < length s /\ p = (vget s j, vget d j).
  Proof.
    unfold frac. intros H. opt1 H. injection H as <-.
    assert (Hi : forall i, i < Nf -> exists s d, nth_error ss i = Some s /\ nth_error ds i = Some d /\ length d = length s /\
       nth_error l i = Some (combine s d)).
    { intros i Hi. destruct (tabo_nth _ _ _ _ E Hi) as [E1 E2].
      destruct (nth_error ss i) as [v|]; [|contradiction]. destruct (nth_error ds i) as [d|]; [|contradiction].
      unfold vdimb in *. destruct (Nat.eqb (length d) (length v)) eqn:B; [|contradiction]. apply Nat.eqb_eq in B. exists v, d. auto. }
    split. { intros i H. destruct (Hi i H) as (s & d & A & B & C & _). exists s, d. auto. }
    exists (concat l). split; [reflexivity|]. intros p. rewrite in_concat. split.
    - intros (q & Hq & Hp). apply In_nth_error in Hq as [i Hq].
      assert (HiN : i < Nf). { rewrite <- (tabo_length _ _ _ E). apply nth_error_Some. congruence. }
      destruct (Hi i HiN) as (s & d & A & B & C & D). rewrite D in Hq. injection Hq as <-.
      apply (In_nth _ _ (nzero, nzero)) in Hp as (j & Hj & <-). rewrite combine_length in Hj.
      exists i, s, d, j. repeat split; auto; [lia|]. rewrite combine_nth by congruence. reflexivity.
    - intros (i & s & d & j & HiN & A & B & Hj & ->). destruct (Hi i HiN) as (s' & d' & A' & B' & C & D).
      rewrite A in A'; injection A' as <-. rewrite B in B'; injection B' as <-.
      exists (combine s d). split; [eapply nth_error_In; eauto|].
      unfold vget. rewrite <- combine_nth by congruence. apply nth_In. rewrite combine_length. lia.
  Qed.

  (** ** Line search *)
  Fixpoint halved (a : T) (k : nat) : T := match k with O => a | Datatypes.S k' => halved (nmul a nhalf) k' end.
  Definition too_short (a : T) : bool := nltb a (nlit 1 10000000000).
  (** The merit value of the candidate and the Armijo test. *)
  Definition armijo (st : fsolver T) (a m : T) : bool := nltb m (nadd (f_mfunc st) (nmul (nmul (nlit 1 1000) a) (f_mderiv st))).
  Definition candidate_merit (st : fsolver T) (a : T) : option T :=
    match ls_var cf a (f_var st) (f_delta st) with
    | Some v => merit pb cf (f_t st) (f_x st) (f_eps st) (f_mscale st) v | None => None end.

  Lemma ls_loop_spec fuel : forall a st a' st', ls_loop pb cf fuel a st = Ok a' st' ->
    st' = st /\ exists k, a' = halved a k /\
      (forall j, j < k -> too_short (halved a j) = false /\ exists m, candidate_merit st (halved a j) = Some m /\ armijo st (halved a j) m = false) /\
      (too_short a' = true \/ exists m, candidate_merit st a' = Some m /\ armijo st a' m = true).
  Proof.
    induction fuel as [|fuel IH]; intros a st a' st' H; [discriminate|]. cbn [ls_loop] in H.
    fold (too_short a) in H. destruct (too_short a) eqn:Es.
    { injection H as <- <-. split; [reflexivity|]. exists 0. split; [reflexivity|]. split; [intros; lia|left; exact Es]. }
    fold (candidate_merit st a) in H. destruct (candidate_merit st a) as [m|] eqn:Em; [|discriminate].
    fold (armijo st a m) in H. destruct (armijo st a m) eqn:Ea.
    { injection H as <- <-. split; [reflexivity|]. exists 0. split; [reflexivity|]. split; [intros; lia|right; eauto]. }
    apply IH in H as (-> & k & -> & Hk & He). split; [reflexivity|]. exists (Datatypes.S k). split; [reflexivity|]. split; [|exact He].
    intros [|j] Hj; [cbn [halved]; split; eauto|]. apply Hk. lia.
  Qed.
  Lemma ls_loop_fuel K : forall fuel a st, K < fuel -> too_short (halved a K) = true -> ls_loop pb cf fuel a st <> OutOfFuel.
  Proof.
    induction K as [|K IH]; intros [|fuel] a st Hf Hs; try lia; cbn [ls_loop]; fold (too_short a).
    - cbn [halved] in Hs. rewrite Hs. discriminate.
    - destruct (too_short a); [discriminate|]. fold (candidate_merit st a).
      destruct (candidate_merit st a) as [m|]; [|discriminate]. destruct (nltb m _); [discriminate|].
      apply IH; [lia|exact Hs].
  Qed.

  (** The new variable. *)
  Lemma firstn_full {A} n (l : list A) : length l = n -> firstn n l = l.
  Proof. intros <-. apply firstn_all. Qed.
  Lemma step_var_spec a_s a_n (v d v' : var T) : step_var cf a_s a_n v d = Some v' ->
    v_hor v' = v_hor v /\
    step_list (Nf + 1) a_s (v_x v) (v_x d) = Some (v_x v') /\ step_list (Nf + 1) a_n (v_l v) (v_l d) = Some (v_l v') /\
    step_list Nf a_s (v_u v) (v_u d) = Some (v_u v') /\
    exists ss ns, step_list Nf a_s (v_s v) (v_s d) = Some ss /\ step_list Nf a_n (v_n v) (v_n d) = Some ns /\
      v_s v' = overwrite (map clip_low (firstn Nf ss)) ss /\ v_n v' = overwrite (map clip_low (firstn Nf ns)) ns.
  Proof.
    unfold step_var. intros H. do 5 opt1 H. injection H as <-. cbn [v_hor v_x v_u v_l v_s v_n].
    repeat (split; [assumption || reflexivity|]). exists l2, l3. auto.
  Qed.
End Step.

(** ** Invariants of a run *)
Section Inv.
  Context {T : Type} {N : Num T}.
  Variables (LO : linops T) (pb : fproblem T) (cf : fconfig T) (jk : fjunk T).
  Variable I : var T -> Prop.
  Hypothesis Hup : forall fuel st st', update_variables pb cf fuel st = Ok true st' -> I (f_var st) -> I (f_var st').

  Lemma rest_var fuel s r s' : rest LO pb cf fuel s = Ok r s' -> I (f_var s) -> I (f_var s').
  Proof using Hup.
    intros E HI. pose proof (rest_cases LO pb cf fuel s) as Hr. rewrite E in Hr.
    destruct Hr as [Hr|[Hr|(b & cl & Hb & [[_ Hr]|(_ & d & Hd & [[_ Hr]|(_ & b2 & s2 & Hu & Hr)])])]]; try discriminate;
      injection Hr as -> ->; try exact HI.
    destruct b2; [apply (Hup _ _ _ Hu); exact HI|].
    pose proof (update_variables_case pb cf fuel (set_fdelta d (set_fcoeff cl s))) as Hc. rewrite Hu in Hc.
    destruct Hc as [Hc|[Hc|(a_s & a_n & _ & _ & [[_ Hc]|(_ & s3 & a & v & Ha & _ & Hc)])]]; try discriminate.
    injection Hc as ->. exact HI.
  Qed.
  Lemma proc_once_var fuel it s r s' : proc_once LO pb cf fuel it s = Ok r s' -> I (f_var s) -> I (f_var s').
  Proof using Hup.
    intros E HI. destruct (proc_once_case LO pb cf fuel it s) as [H|(eps & cl & e & He & Hc & Hk & H)]; rewrite E in H; [discriminate|].
    destruct (nleb e (fc_kkt cf)); [injection H as -> ->; exact HI|]. symmetry in H. apply rest_var in H; auto.
  Qed.
  Lemma fopt_loop_var fuel n : forall it st s r s', fopt_loop LO pb cf fuel n it st s = Ok r s' -> I (f_var s) -> I (f_var s').
  Proof using Hup.
    induction n as [|n IH]; intros it st s r s' E HI; cbn [fopt_loop] in E; [injection E as -> ->; exact HI|].
    unfold bind in E. destruct (proc_once LO pb cf fuel it s) as [r1 s1|e1 s1| |] eqn:E1; try discriminate.
    apply proc_once_var in E1; [|exact HI].
    destruct r1; try (unfold ret in E; injection E as E E'; subst; exact E1). apply IH in E; auto.
  Qed.
  Lemma solve_var fuel t0 x0 v0 s r s' v eps : fmpc_solve LO pb cf jk fuel t0 x0 v0 s = Ok r s' ->
    inited pb cf t0 v0 (f_eps s) = Some (v, eps) -> I v -> I (f_var s').
  Proof using Hup.
    rewrite solve_form_eq. unfold solve_form. intros H Ei HI. rewrite Ei in H.
    destruct (bad_length cf v); [discriminate|]. destruct (existsb _ _); [discriminate|]. destruct (existsb _ _); [discriminate|].
    destruct (setup_coeff pb cf jk t0 (f_coeff s)) as [cl|]; [|discriminate].
    destruct (fopt_loop _ _ _ _ _ _ _ _) as [r1 s1| | |] eqn:E; try discriminate.
    destruct (_ || _); [|discriminate]. injection H as <- <-. apply fopt_loop_var in E; auto.
  Qed.
End Inv.

Section Succ.
  Context {T : Type} {N : Num T}.
  Variables (LO : linops T) (pb : fproblem T) (cf : fconfig T) (jk : fjunk T).
  (** A run that succeeded ended in an iteration whose KKT error passed the test. *)
  Lemma proc_succ_state fuel it s s' : proc_once LO pb cf fuel it s = Ok Succeeded s' -> f_var s' = f_var s /\ f_t s' = f_t s /\ f_x s' = f_x s.
  Proof.
    intros E. destruct (proc_once_case LO pb cf fuel it s) as [H|(eps & cl & e & He & Hc & Hk & H)]; rewrite E in H; [discriminate|].
    destruct (nleb e (fc_kkt cf)) eqn:Ek.
    - injection H as ->. repeat split.
    - symmetry in H. pose proof (rest_cases LO pb cf fuel (checked s it eps cl e)) as Hr. rewrite H in Hr.
      destruct Hr as [Hr|[Hr|(b & cl' & Hb & [[_ Hr]|(_ & d & Hd & [[_ Hr]|(_ & b2 & s2 & Hu & Hr)])])]]; try discriminate.
      destruct b2; discriminate.
  Qed.
  Lemma proc_once_succ fuel it s s' : proc_once LO pb cf fuel it s = Ok Succeeded s' ->
    exists cl e, coeffs pb cf (f_t s') (f_var s') cl = Some (f_coeff s') /\ kkt_error cf nzero s' = Some e /\ nleb e (fc_kkt cf) = true.
  Proof.
    intros E. destruct (proc_once_case LO pb cf fuel it s) as [H|(eps & cl & e & He & Hc & Hk & H)]; rewrite E in H; [discriminate|].
    destruct (nleb e (fc_kkt cf)) eqn:Ek.
    - injection H as ->. exists (f_coeff s), e. auto.
    - symmetry in H. pose proof (rest_cases LO pb cf fuel (checked s it eps cl e)) as Hr. rewrite H in Hr.
      destruct Hr as [Hr|[Hr|(b & cl' & Hb & [[_ Hr]|(_ & d & Hd & [[_ Hr]|(_ & b2 & s2 & Hu & Hr)])])]]; try discriminate.
      destruct b2; discriminate.
  Qed.
  Lemma fopt_loop_succ fuel n : forall it st s s', st <> Succeeded -> fopt_loop LO pb cf fuel n it st s = Ok Succeeded s' ->
    exists cl e, coeffs pb cf (f_t s') (f_var s') cl = Some (f_coeff s') /\ kkt_error cf nzero s' = Some e /\ nleb e (fc_kkt cf) = true.
  Proof.
    induction n as [|n IH]; intros it st s s' Hst E; cbn [fopt_loop] in E; [injection E as -> ->; contradiction|].
    unfold bind in E. destruct (proc_once LO pb cf fuel it s) as [r1 s1|e1 s1| |] eqn:E1; try discriminate.
    destruct r1; try discriminate.
    - unfold ret in E. injection E as ->. apply proc_once_succ in E1. exact E1.
    - apply IH in E; [exact E|discriminate].
  Qed.
  Lemma solve_succ fuel t0 x0 v0 s s' : fmpc_solve LO pb cf jk fuel t0 x0 v0 s = Ok Succeeded s' ->
    f_t s' = t0 /\ f_x s' = x0 /\
    exists cl e, coeffs pb cf t0 (f_var s') cl = Some (f_coeff s') /\ kkt_error cf nzero s' = Some e /\ nleb e (fc_kkt cf) = true.
  Proof.
    rewrite solve_form_eq. unfold solve_form. intros H.
    destruct (inited pb cf t0 v0 (f_eps s)) as [[v eps]|]; [|discriminate].
    destruct (bad_length cf v); [discriminate|]. destruct (existsb _ _); [discriminate|]. destruct (existsb _ _); [discriminate|].
    destruct (setup_coeff pb cf jk t0 (f_coeff s)) as [cl|]; [|discriminate].
    destruct (fopt_loop _ _ _ _ _ _ _ _) as [r1 s1| | |] eqn:E; try discriminate.
    destruct (_ || _); [|discriminate]. injection H as Hr <-.
    assert (r1 = Succeeded) by (destruct r1; cbn in Hr; congruence). subst r1.
    pose proof (fopt_loop_post _ _ _ _ _ _ _ _ _ _ E) as (es & _ & Ht & Hx & _). cbn in Ht, Hx.
    split; [exact Ht|]. split; [exact Hx|]. apply fopt_loop_succ in E; [|discriminate]. rewrite Ht in E. exact E.
  Qed.
  Lemma inited_lengths t0 v0 eps0 v eps : inited pb cf t0 v0 eps0 = Some (v, eps) ->
    length (v_x v) = length (v_x v0) /\ length (v_u v) = length (v_u v0) /\ length (v_l v) = length (v_l v0) /\
    length (v_s v) = length (v_s v0) /\ length (v_n v) = length (v_n v0).
  Proof.
    unfold inited. destruct (fc_init cf).
    - destruct (init_var pb cf t0 (nlit 1 10000) v0) as [v1|] eqn:Ev; [|discriminate]. intros H; injection H as <- <-.
      apply init_var_some in Ev as (_ & _ & _ & _ & _ & -> & -> & -> & ? & ? & _). auto.
    - intros H; injection H as <- <-. auto.
  Qed.
  (** The solver only starts on checked variables. *)
  Lemma solve_checked fuel t0 x0 v0 s r s' : fmpc_solve LO pb cf jk fuel t0 x0 v0 s = Ok r s' ->
    exists v eps, inited pb cf t0 v0 (f_eps s) = Some (v, eps) /\ bad_length cf v = false /\
      existsb (bad_dim pb t0 v) (seq 0 (Nf cf)) = false /\ existsb (bad_sign v) (seq 0 (Nf cf)) = false.
  Proof.
    rewrite solve_form_eq. unfold solve_form. intros H.
    destruct (inited pb cf t0 v0 (f_eps s)) as [[v eps]|]; [|discriminate]. exists v, eps. split; [reflexivity|].
    destruct (bad_length cf v); [discriminate|]. destruct (existsb _ _); [discriminate|]. destruct (existsb _ _); [discriminate|]. auto.
  Qed.
  (** Lengths of the lists never change. *)
  Definition lens (v : var T) : nat * nat * nat * nat * nat := (length (v_x v), length (v_u v), length (v_l v), length (v_s v), length (v_n v)).
  Lemma update_lens fuel st st' : update_variables pb cf fuel st = Ok true st' -> lens (f_var st') = lens (f_var st).
  Proof.
    intros E. pose proof (update_variables_case pb cf fuel st) as H. rewrite E in H.
    destruct H as [H|[H|(a_max & a_n & Fs & Fn & [[_ H]|(Ha & s2 & a & v & Hu & Hv & H)])]]; try discriminate.
    injection H as ->. cbn [set_fvar f_var].
    apply step_var_spec in Hv as (V0 & V1 & V2 & V3 & ss & ns & V4 & V5 & V6 & V7). unfold lens.
    apply step_list_spec in V1 as (_ & V1 & _), V2 as (_ & V2 & _), V3 as (_ & V3 & _), V4 as (L4 & V4 & _), V5 as (L5 & V5 & _).
    rewrite V1, V2, V3, V6, V7, !overwrite_length by (rewrite map_length, firstn_length; lia). rewrite V4, V5. reflexivity.
  Qed.
  Lemma solve_lens fuel t0 x0 v0 s r s' : fmpc_solve LO pb cf jk fuel t0 x0 v0 s = Ok r s' ->
    lens (f_var s') = (Nf cf + 1, Nf cf, Nf cf + 1, Nf cf, Nf cf).
  Proof.
    intros H. destruct (solve_checked _ _ _ _ _ _ _ H) as (v & eps & Hi & Hb & _).
    apply (solve_var LO pb cf jk (fun v => lens v = (Nf cf + 1, Nf cf, Nf cf + 1, Nf cf, Nf cf))) with (2 := H) (3 := Hi).
    - intros fuel' st st' E <-. apply (update_lens _ _ _ E).
    - unfold bad_length in Hb. apply negb_false_iff in Hb. rewrite !andb_true_iff, !Z.eqb_eq in Hb. unfold lens, Nf.
      repeat f_equal; lia.
  Qed.
End Succ.
