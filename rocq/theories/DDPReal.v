(** DDPSolver over the reals: cost monotonicity, range of the regularisation, termination. *)
From Verif Require Import Prelude Scalar LinAlg BoxQP BoxQPProofs BoxQPTerm DDP DDPSpec DDPProofs DDPCor.
From Coq Require Import Reals Lra.
Open Scope R_scope.

(** ** Termination, any scalar *)
Section AnyScalar.
  Context {T : Type} {N : Num T} (LL : lltops T).
  Variables (pb : problem T) (cf : config T) (limits : option (T -> vec T * vec T)) (jk : junk T).

  (** [j] raises of the regularisation. *)
  Fixpoint ups (j : nat) (p : T * T) : T * T := match j with O => p | S j' => ups j' (reg_up cf p) end.
  (** At most [K] raises exceed lambda_max, from every start. *)
  Definition raises (K : nat) (p : T * T) : Prop := exists j, (0 < j <= K)%nat /\ too_large cf (ups j p) = true.

  Variables (qfuel : nat).
  Hypothesis Hq : (500 <= qfuel)%nat.
  Hypothesis Hq2 : nltb (qp_step (qp_default_config (T := T)) 100) (qp_min_step qp_default_config) = true.

  Lemma gains_nofuel i t d q s : nofuel (gains LL pb cf limits qfuel i t d q) s.
  Proof.
    unfold gains. repeat nf1.
    - unfold qp_ctor; repeat nf1.
    - destruct limits; discriminate.
    - unfold nofuel. apply (qp_solve_terminates_any LL _ _ _ _ _ _ 100); auto; try lia.
      cbn [qp_max_iter qp_default_config]. lia.
  Qed.
  Lemma bw_step_nofuel i Vx Vxx s : nofuel (bw_step LL pb cf limits qfuel i Vx Vxx) s.
  Proof.
    unfold bw_step. repeat nf1. apply gains_nofuel.
    match goal with |- nofuel (match ?r with Some _ => _ | None => _ end) _ => destruct r as [[k K]|] end; repeat nf1.
  Qed.
  Lemma bw_loop_nofuel n : forall Vx Vxx s, nofuel (bw_loop LL pb cf limits qfuel n Vx Vxx) s.
  Proof.
    induction n as [|n IH]; intros; cbn [bw_loop]; [discriminate|].
    nf1; [apply bw_step_nofuel|]. destruct a as [[? ?]|]; [apply IH|discriminate].
  Qed.
  Lemma backwardPass_nofuel s : nofuel (backwardPass LL pb cf limits qfuel) s.
  Proof. unfold backwardPass. repeat nf1. apply bw_loop_nofuel. Qed.

  Lemma bw_retry_nofuel fuel : forall s, raises fuel (regs s) -> nofuel (bw_retry LL pb cf limits fuel qfuel) s.
  Proof.
    induction fuel as [|f IH]; intros s (j & Hj & Ht); [lia|]. cbn [bw_retry].
    apply nofuel_bind; [apply backwardPass_nofuel|].
    intros b s' E. destruct b; [discriminate|].
    pose proof (backwardPass_frame LL pb cf limits qfuel s) as Hf. unfold wp in Hf. rewrite E in Hf.
    apply bw_regs in Hf.
    assert (Hi : regs (inc_lambda cf s') = reg_up cf (regs s)) by (rewrite <- Hf; reflexivity).
    unfold nofuel, bind, modify, get.
    destruct (s_lambda (inc_lambda cf s') >? cf_lambda_max cf)%num eqn:El; [discriminate|].
    apply IH. rewrite Hi. destruct j as [|[|j]]; [lia| |].
    - cbn in Ht. rewrite <- Hi in Ht. unfold too_large in Ht. cbn in Ht. cbn in El. congruence.
    - exists (S j). split; [lia|exact Ht].
  Qed.

  Lemma line_search_nofuel l : forall a b c d s, nofuel (line_search pb cf l a b c d) s.
  Proof.
    induction l as [|x l IH]; intros; cbn [line_search]; [discriminate|].
    nf1. { unfold forwardPass. repeat nf1. unfold fw_body. repeat nf1. }
    nf1. discriminate. cbv zeta. nf1. discriminate. apply IH.
  Qed.

  Variable K : nat.
  Hypothesis HK : forall p, raises K p.
  Lemma procOnce_nofuel it s : nofuel (procOnce LL pb cf limits K qfuel it) s.
  Proof.
    unfold procOnce. repeat nf1; try apply bw_retry_nofuel; try apply HK; try apply line_search_nofuel.
    all: unfold deriv_body, accept; repeat nf1.
  Qed.
  Lemma opt_loop_nofuel n : forall it s, nofuel (opt_loop LL pb cf limits K qfuel n it) s.
  Proof.
    induction n as [|n IH]; intros; cbn [opt_loop]; [discriminate|].
    nf1; [apply procOnce_nofuel|]. nf1; [apply IH|discriminate].
  Qed.
  Lemma ddp_solve_nofuel t0 x0 us s : nofuel (ddp_solve LL pb cf limits jk K qfuel t0 x0 us) s.
  Proof.
    unfold ddp_solve. repeat nf1; try apply opt_loop_nofuel.
    unfold rollout_body; repeat nf1.
  Qed.
End AnyScalar.

(** ** Reals *)
Section Reals.
  Variables (cf : config R).
  Hypothesis Hf : 1 < cf_lambda_factor cf.
  Hypothesis Hm : 0 < cf_lambda_min cf.
  Notation f := (cf_lambda_factor cf).

  Lemma up_R p : reg_up cf p = (Rmax (fst p * Rmax (snd p * f) f) (cf_lambda_min cf), Rmax (snd p * f) f).
  Proof. unfold reg_up. rewrite !nmax_R. reflexivity. Qed.

  Lemma ups_grow j : forall p, 0 < fst p -> cf_lambda_min cf <= fst p -> cf_lambda_min cf * f ^ j <= fst (ups cf j p).
  Proof.
    induction j as [|j IH]; intros p H0 H1; cbn [ups pow]; [lra|].
    set (c := fst p) in *.
    assert (E : f * fst p <= fst (reg_up cf p)).
    { rewrite up_R; cbn [fst]. eapply Rle_trans; [|apply Rmax_l]. rewrite Rmult_comm.
      apply Rmult_le_compat_l; [fold c; lra|apply Rmax_r]. }
    assert (E2 : cf_lambda_min cf <= fst (reg_up cf p)) by (rewrite up_R; apply Rmax_r).
    (* generalise: scale lambda_min by the value reached *)
    assert (G : forall k q m, 0 < m -> m <= fst q -> m * f ^ k <= fst (ups cf k q)).
    { clear -Hf. induction k as [|k IHk]; intros q m Hm0 Hq; cbn [ups pow]; [lra|].
      assert (E : f * fst q <= fst (reg_up cf q)).
      { rewrite up_R; cbn [fst]. eapply Rle_trans; [|apply Rmax_l]. rewrite Rmult_comm.
        apply Rmult_le_compat_l; [lra|apply Rmax_r]. }
      replace (m * (f * f ^ k)) with ((m * f) * f ^ k) by lra. apply IHk; nra. }
    replace (cf_lambda_min cf * (f * f ^ j)) with ((cf_lambda_min cf * f) * f ^ j) by lra.
    apply G; [nra|]. fold c in E. nra.
  Qed.

  (** The bound on the number of attempts: any [K] with lambda_min * factor^(K-1) > lambda_max. *)
  Lemma raises_R K p : cf_lambda_max cf < cf_lambda_min cf * f ^ K -> raises cf (S K) p.
  Proof.
    intros HK. exists (S K). split; [lia|]. unfold too_large. cbn [ups]. numR. apply Rltb_true.
    eapply Rlt_le_trans; [exact HK|]. apply ups_grow; [|rewrite up_R; apply Rmax_r].
    rewrite up_R. cbn. eapply Rlt_le_trans; [exact Hm|apply Rmax_r].
  Qed.
  Lemma raises_exists : exists K, cf_lambda_max cf < cf_lambda_min cf * f ^ K.
  Proof.
    destruct (Pow_x_infinity f) with (b := (Rabs (cf_lambda_max cf) + 1) / cf_lambda_min cf) as [K HK].
    - rewrite Rabs_pos_eq; lra.
    - exists K. specialize (HK K (le_n K)). rewrite Rabs_pos_eq in HK by (apply pow_le; lra).
      apply Rge_le in HK. apply Rmult_le_compat_l with (r := cf_lambda_min cf) in HK; [|lra].
      unfold Rdiv in HK. rewrite <- Rmult_assoc, (Rmult_comm (cf_lambda_min cf)), Rmult_assoc, Rinv_r, Rmult_1_r in HK by lra.
      pose proof (Rle_abs (cf_lambda_max cf)). lra.
  Qed.
  Lemma qdef_R : nltb (qp_step (qp_default_config (T := R)) 100) (qp_min_step qp_default_config) = true.
  Proof.
    numR. apply Rltb_true. rewrite qp_step_R. cbn [qp_step_factor qp_min_step qp_default_config]. numR.
    replace 100%nat with (2 * 50)%nat by reflexivity. rewrite pow_mult.
    assert (H0 : 0 < (6/10)^2 <= 36/100) by (cbn; lra).
    assert (H1 : ((6/10)^2) ^ 50 <= (36/100)^50) by (apply pow_incr; lra).
    eapply Rle_lt_trans; [exact H1|].
    replace 50%nat with (5 * 10)%nat by reflexivity. rewrite pow_mult.
    assert (H2 : 0 < (36/100)^5 <= 61/10000) by (cbn; lra).
    eapply Rle_lt_trans; [apply pow_incr; split; [lra|apply H2]|].
    cbn. lra.
  Qed.

  (** *** Range of the regularisation *)
  Hypothesis Hl0 : 0 <= cf_initial_lambda cf.
  Hypothesis Hd0 : 0 < cf_initial_dlambda cf.
  Notation lmax := (Rmax (cf_initial_lambda cf) (cf_lambda_max cf)).
  Definition good_reg (p : R * R) : Prop := 0 <= fst p /\ 0 < snd p.

  Lemma good_up p : good_reg p -> good_reg (reg_up cf p).
  Proof.
    intros [H1 H2]. rewrite up_R. split; cbn.
    - eapply Rle_trans; [|apply Rmax_r]. lra.
    - eapply Rlt_le_trans; [|apply Rmax_r]. lra.
  Qed.
  Lemma down_R p : reg_down cf p = ((if Rleb (cf_lambda_min cf) (fst p) then fst p * Rmin (snd p / f) (1 / 1 / f) else 0),
                                    Rmin (snd p / f) (1 / 1 / f)).
  Proof. unfold reg_down. rewrite !nmin_R. reflexivity. Qed.
  Lemma good_down p : good_reg p -> good_reg (reg_down cf p) /\ fst (reg_down cf p) <= fst p.
  Proof.
    intros [H1 H2]. rewrite down_R.
    assert (Hd : 0 < Rmin (snd p / f) (1 / 1 / f) <= 1).
    { split.
      - apply Rmin_glb_lt; apply Rdiv_lt_0_compat; lra.
      - eapply Rle_trans; [apply Rmin_r|]. apply Rmult_le_reg_r with f; [lra|]. unfold Rdiv.
        rewrite Rmult_assoc, Rinv_l by lra. lra. }
    destruct (Rleb _ _); cbn; unfold good_reg; cbn; repeat split; try lra; nra.
  Qed.
  Variables (pb : problem R) (t0 : R) (x0 : vec R) (n : nat).
  Variables (LL : lltops R) (limits : option (R -> vec R * vec R)) (qfuel : nat).
  Lemma retry_good c b p q : retry pb cf t0 n LL limits qfuel c b p q -> good_reg p -> good_reg q /\ (b <> None -> fst q <= Rmax (fst p) (cf_lambda_max cf)) /\ (b = None -> cf_lambda_max cf < fst q).
  Proof.
    induction 1 as [p g Hb0|p Hb0 H|b p q Hb0 H Hr IH]; intros Hp.
    - split; auto. split; [intros _; apply Rmax_l|discriminate].
    - split; [apply good_up; auto|]. split; [congruence|]. intros _. unfold too_large in H. numR. apply Rltb_true in H. exact H.
    - destruct IH as (G & H1 & H2); [apply good_up; auto|]. split; auto. split; auto.
      intros Hb. eapply Rle_trans; [apply H1; exact Hb|]. unfold too_large in H. numR. apply Rltb_false in H.
      apply Rmax_lub; [|apply Rmax_r]. eapply Rle_trans; [exact H|apply Rmax_r].
  Qed.

  Definition entry_ok (e : trace R) : Prop := 0 <= tr_lambda e /\ 0 <= tr_dlambda e.
  Lemma iteration_good it s r e s' : iteration pb cf t0 x0 n LL limits qfuel it s r e s' ->
    good_reg (mreg s) -> fst (mreg s) <= lmax ->
    good_reg (mreg s') /\ entry_ok e /\ (r <> (-1)%Z -> fst (mreg s') <= lmax) /\ (r = (-1)%Z -> cf_lambda_max cf < fst (mreg s')).
  Proof.
    assert (HL : cf_lambda_max cf <= lmax) by apply Rmax_r.
    assert (E0 : forall z, entry_ok (trace0 z)) by (intros z; unfold entry_ok; cbn; lra).
    destruct 1 as [c p q g0 g H|c p q g0 g krn H Hk Hkr H1 H2|c p q g0 g krn c' al ac ex ra H Hk Hkr H1 H2|c p q g0 g krn al ac ex ra H Hk Hkr H1 H2];
      cbn [mreg fst snd]; intros Hp Hpl; destruct (retry_good _ _ _ _ H Hp) as (Gq & HT & HF).
    - split; auto. split; [apply E0|]. split; [congruence|]. intros _; apply HF; reflexivity.
    - specialize (HT ltac:(discriminate)). split; auto. split; [unfold entry_ok; cbn; lra|]. split; [|discriminate]. intros _.
      eapply Rle_trans; [exact HT|]. apply Rmax_lub; auto.
    - specialize (HT ltac:(discriminate)). destruct (good_down _ Gq) as [Gd Ld]. split; auto.
      split; [destruct Gd; unfold entry_ok; cbn [tr_lambda tr_dlambda]; lra|].
      split; [|match goal with |- (if ?c then _ else _) = _ -> _ => destruct c end; discriminate]. intros _.
      eapply Rle_trans; [exact Ld|]. eapply Rle_trans; [exact HT|]. apply Rmax_lub; auto.
    - specialize (HT ltac:(discriminate)). pose proof (good_up _ Gq) as Gu. split; auto.
      split; [destruct Gu; unfold entry_ok; cbn [tr_lambda tr_dlambda]; lra|].
      destruct (too_large cf (reg_up cf q)) eqn:Et; unfold too_large in Et; numR.
      + split; [congruence|]. intros _. apply Rltb_true in Et; exact Et.
      + split; [|discriminate]. intros _. apply Rltb_false in Et. lra.
  Qed.
  Lemma iterations_good m it s r es s' : iterations pb cf t0 x0 n LL limits qfuel m it s r es s' ->
    good_reg (mreg s) -> fst (mreg s) <= lmax ->
    good_reg (mreg s') /\ Forall entry_ok es /\ (r <> (-1)%Z -> fst (mreg s') <= lmax) /\ (r = (-1)%Z -> cf_lambda_max cf < fst (mreg s')).
  Proof.
    induction 1 as [it s|m it s r e s' Hi Hr|m it s e s1 r es s' Hi Hits IH]; intros Hg Hl.
    - repeat split; auto; try apply Hg. discriminate.
    - destruct (iteration_good _ _ _ _ _ Hi Hg Hl) as (G & E & H1 & H2). auto.
    - destruct (iteration_good _ _ _ _ _ Hi Hg Hl) as (G & E & H1 & H2).
      destruct IH as (G' & E' & H1' & H2'); auto. apply H1; discriminate.
  Qed.
End Reals.

(** ** Cost *)
Section Cost.
  Variables (cf : config R) (pb : problem R) (t0 : R) (x0 : vec R) (n : nat).
  Variables (LL : lltops R) (limits : option (R -> vec R * vec R)) (qfuel : nat).
  Hypothesis Hthre : 0 <= cf_cost_update_ratio_thre cf.

  Lemma ratio_pos a e : cf_cost_update_ratio_thre cf < ratio_of a e -> 0 <= a.
  Proof.
    unfold ratio_of; numR. destruct (Rltb e 0) eqn:E.
    - destruct (Rleb 0 a) eqn:E1; [apply Rleb_true in E1; auto|]. lra.
    - apply Rltb_false in E. intros H. destruct (Rle_dec 0 a) as [|Ha]; [assumption|exfalso].
      assert (Hi : 0 <= / e).
      { destruct E as [E| <-]; [left; apply Rinv_0_lt_compat; auto|rewrite Rinv_0; lra]. }
      unfold Rdiv in H. nra.
  Qed.
  Lemma search_cost c g l o al ac ex ra : search pb cf t0 x0 n c g l o al ac ex ra ->
    forall c', o = Some c' -> total c - total c' = ac /\ 0 <= ac.
  Proof.
    induction 1 as [|a rest c1 [_ H]|a c1 H|a b rest c1 o al ac ex ra Ht Hs IH]; intros c' E; try discriminate.
    - injection E as <-. split; [reflexivity|]. numR. apply Rltb_true in H. apply (ratio_pos _ _ H).
    - apply IH; exact E.
  Qed.
  (** Costs reported by consecutive completed iterations. *)
  Lemma iteration_cost it s r e s' : iteration pb cf t0 x0 n LL limits qfuel it s r e s' ->
    total (mc s') <= total (mc s) /\ (r = 0%Z -> tr_cost e = total (mc s')) /\
    (tr_cost e = 0 \/ tr_cost e = total (mc s')).
  Proof.
    destruct 1 as [c p q g0 g H|c p q g0 g krn H Hk Hkr H1 H2|c p q g0 g krn c' al ac ex ra H Hk Hkr H1 H2|c p q g0 g krn al ac ex ra H Hk Hkr H1 H2];
      cbn [mc fst snd].
    - split; [lra|]. split; [discriminate|left; reflexivity].
    - split; [lra|]. split; [discriminate|left; reflexivity].
    - destruct (search_cost _ _ _ _ _ _ _ _ H2 c' eq_refl) as [E1 E2]. split; [lra|]. split; auto.
    - split; [lra|]. split; auto.
  Qed.
  (** non-increasing list of costs, all at most [a] *)
  Fixpoint descending (a : R) (l : list R) : Prop :=
    match l with [] => True | b :: r => b <= a /\ descending b r end.
  Lemma iterations_cost m it s r es s' : iterations pb cf t0 x0 n LL limits qfuel m it s r es s' ->
    total (mc s') <= total (mc s) /\
    (r = 0%Z -> descending (total (mc s)) (map tr_cost es)) /\
    descending (total (mc s)) (map tr_cost (removelast es)).
  Proof.
    induction 1 as [it s|m it s r e s' Hi Hr|m it s e s1 r es s' Hi Hits IH].
    - split; [lra|]. split; [intros _; exact I|exact I].
    - destruct (iteration_cost _ _ _ _ _ Hi) as (H1 & H2 & H3). split; auto. split; [intros; contradiction|exact I].
    - destruct (iteration_cost _ _ _ _ _ Hi) as (H1 & H2 & H3). specialize (H2 eq_refl).
      destruct IH as (I1 & I2 & I3). split; [lra|]. split.
      + intros Hr. cbn [map descending]. split; [rewrite H2; exact H1|]. rewrite H2. apply I2; exact Hr.
      + cbn [removelast]. destruct es; [exact I|]. cbn [map descending]. split; [rewrite H2; exact H1|]. rewrite H2. exact I3.
  Qed.
  Lemma iteration_accept_actual it s r e s' : iteration pb cf t0 x0 n LL limits qfuel it s r e s' ->
    mc s' <> mc s -> 0 <= tr_actual e.
  Proof.
    destruct 1; cbn [mc fst snd]; intros Hne; try congruence. cbn.
    destruct (search_cost _ _ _ _ _ _ _ _ H3 c' eq_refl); auto.
  Qed.
End Cost.
