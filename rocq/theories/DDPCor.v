(** Consequences of [ddp_solve_spec] for every scalar type: rollout, validation, success flag, trace. *)
From Verif Require Import Prelude Scalar LinAlg BoxQP BoxQPProofs DDP DDPSpec DDPProofs.

Section Machine.
  Context {T : Type} {N : Num T}.
  Variables (pb : problem T) (cf : config T) (t0 : T) (x0 : vec T) (n : nat).
  Variables (LL : lltops T) (limits : option (T -> vec T * vec T)) (qfuel : nat).
  Notation iteration := (iteration pb cf t0 x0 n LL limits qfuel).
  Notation iterations := (iterations pb cf t0 x0 n LL limits qfuel).
  Notation retry := (retry pb cf t0 n LL limits qfuel).
  Notation search := (search pb cf t0 x0 n).

  Definition mc (s : mst (T := T)) : cdata T := fst (fst s).
  Definition mreg (s : mst (T := T)) : T * T := snd (fst s).
  Definition mpass (s : mst (T := T)) : pass T := snd s.

  (** A termination test fired in the iteration from [s1] to [s'] with trace entry [e]. *)
  Definition small_gradient (s1 : mst (T := T)) (e : trace T) (s' : mst (T := T)) : Prop :=
    retry (mc s1) (Some (mpass s')) (mreg s1) (mreg s') /\
    mc s' = mc s1 /\ tr_k_rel_norm e = rel_norm (p_k (mpass s')) (cd_u (mc s')) nzero /\
    nltb (tr_k_rel_norm e) (cf_k_rel_norm_thre cf) = true /\ nltb (fst (mreg s')) (cf_lambda_thre cf) = true.
  Definition small_update (s1 : mst (T := T)) (e : trace T) (s' : mst (T := T)) : Prop :=
    (exists q, retry (mc s1) (Some (mpass s')) (mreg s1) q /\ mreg s' = reg_down cf q) /\
    search (mc s1) (mpass s') (cf_alpha_list cf) (Some (mc s')) (tr_alpha e) (tr_actual e) (tr_expected e) (tr_ratio e) /\
    nltb (tr_actual e) (cf_cost_update_thre cf) = true.

  (** The iteration asked to continue: accepted with a large enough decrease, or rejected with
      regularisation not beyond its limit. *)
  Definition goes_on (s1 : mst (T := T)) (e : trace T) (s' : mst (T := T)) : Prop :=
    tr_cost e = total (mc s') /\ (tr_lambda e, tr_dlambda e) = mreg s' /\
    exists q, retry (mc s1) (Some (mpass s')) (mreg s1) q /\
    tr_k_rel_norm e = rel_norm (p_k (mpass s')) (cd_u (mc s1)) nzero /\
    ((search (mc s1) (mpass s') (cf_alpha_list cf) (Some (mc s')) (tr_alpha e) (tr_actual e) (tr_expected e) (tr_ratio e) /\
      mreg s' = reg_down cf q /\ nltb (tr_actual e) (cf_cost_update_thre cf) = false) \/
     (search (mc s1) (mpass s') (cf_alpha_list cf) None (tr_alpha e) (tr_actual e) (tr_expected e) (tr_ratio e) /\
      mreg s' = reg_up cf q /\ mc s' = mc s1 /\ nltb (cf_lambda_max cf) (tr_lambda e) = false)).

  Lemma iteration_cases it s1 r e s' : iteration it s1 r e s' ->
    tr_iter e = it /\
    ((r = 1%Z /\ (small_gradient s1 e s' \/ small_update s1 e s')) \/
     (r = 0%Z /\ goes_on s1 e s') \/
     (r = (-1)%Z /\ too_large cf (mreg s') = true /\ mc s' = mc s1)).
  Proof.
    unfold small_gradient, small_update, goes_on.
    destruct 1; cbn [mc mreg mpass fst snd].
    - split; [reflexivity|]. right; right. split; [reflexivity|]. split; [|reflexivity].
      remember None as b eqn:Eb.
      induction H; auto; discriminate.
    - split; [reflexivity|]. left. split; [reflexivity|]. left. cbn. subst krn. auto.
    - split; [reflexivity|]. destruct (nltb actual (cf_cost_update_thre cf)) eqn:E.
      + left. split; [reflexivity|]. right. cbn. eauto.
      + right; left. split; [reflexivity|]. cbn. subst krn. split; [reflexivity|]. split; [reflexivity|].
        exists q. auto 8.
    - split; [reflexivity|]. destruct (too_large cf (reg_up cf q)) eqn:E.
      + right; right; auto.
      + right; left. split; [reflexivity|]. cbn. subst krn. split; [reflexivity|]. split; [reflexivity|].
        exists q. auto 10.
  Qed.

  (** All iterations of a run but possibly the last went on. *)
  Inductive chain : mst (T := T) -> list (trace T) -> mst (T := T) -> Prop :=
  | chain_nil s : chain s [] s
  | chain_cons s e s1 es s' : goes_on s e s1 -> chain s1 es s' -> chain s (e :: es) s'.

  Lemma iterations_cases m it s r es s' : iterations m it s r es s' ->
    length es <= m /\ (forall i e, nth_error es i = Some e -> tr_iter e = (it + Z.of_nat i)%Z) /\
    ((r = 0%Z /\ length es = m /\ chain s es s') \/
     (exists es0 e s1, es = es0 ++ [e] /\ chain s es0 s1 /\
       ((r = 1%Z /\ (small_gradient s1 e s' \/ small_update s1 e s')) \/
        (r = (-1)%Z /\ too_large cf (mreg s') = true /\ mc s' = mc s1)))).
  Proof.
    induction 1 as [it s|m it s r e s' Hi Hr|m it s e s1 r es s' Hi Hits IH].
    - split; [cbn; lia|]. split; [intros [|i] e He; discriminate|]. left; repeat split; constructor.
    - apply iteration_cases in Hi as [Hit Hc].
      split; [cbn; lia|]. split.
      { intros [|i] e' He; cbn in He; [injection He as <-; rewrite Hit; lia|destruct i; discriminate]. }
      right. exists [], e, s. split; [reflexivity|]. split; [constructor|].
      destruct Hc as [Hc|[[Hc _]|Hc]]; [left; auto|contradiction|right; auto].
    - apply iteration_cases in Hi as [Hit Hc].
      destruct Hc as [[Hc _]|[[_ Hc]|[Hc _]]]; try discriminate.
      destruct IH as (Hl & Hn & Hcase).
      split; [cbn; lia|]. split.
      { intros [|i] e' He; cbn in He; [injection He as <-; rewrite Hit; lia|].
        rewrite (Hn _ _ He). lia. }
      destruct Hcase as [(Hr & Hlen & Hch)|(es0 & e1 & s2 & -> & Hch & Hc')].
      + left. split; auto. split; [cbn; lia|]. econstructor; eauto.
      + right. exists (e :: es0), e1, s2. split; [reflexivity|]. split; [econstructor; eauto|exact Hc'].
  Qed.

  Lemma chain_last s es s' : chain s es s' ->
    forall d, es <> [] -> tr_cost (last es d) = total (mc s') /\
                          (tr_lambda (last es d), tr_dlambda (last es d)) = mreg s'.
  Proof.
    induction 1 as [s|s e s1 es s' Hg Hc IH]; intros d Hne; [contradiction|].
    destruct es as [|e1 es].
    - inversion Hc; subst. destruct Hg as (H1 & H2 & _). auto.
    - change (last (e :: e1 :: es) d) with (last (e1 :: es) d). apply IH. discriminate.
  Qed.
End Machine.

Section Cor.
  Context {T : Type} {N : Num T} (LL : lltops T).
  Variables (pb : problem T) (cf : config T) (limits : option (T -> vec T * vec T)) (jk : junk T).
  Variables (fuel qfuel : nat) (t0 : T) (x0 : vec T) (us : list (vec T)) (s : ddp T).
  Notation horizon := (Z.to_nat (cf_horizon cf)).
  Notation solve := (ddp_solve LL pb cf limits jk fuel qfuel t0 x0 us s).

  Lemma solve_ok b s' : solve = Ok b s' ->
    valid_args pb cf t0 us /\ is_rollout pb t0 x0 horizon (s_cd s') /\
    exists c r es, run pb cf t0 x0 horizon LL limits qfuel us c r es (mst_of s') /\ b = (r =? 1)%Z /\
                   s_trace s' = trace_start cf c :: es.
  Proof.
    intros E. pose proof (ddp_solve_spec LL pb cf limits jk t0 qfuel fuel x0 us s) as Hs.
    unfold wp in Hs. rewrite E in Hs. exact Hs.
  Qed.
  Lemma solve_throw e s' : solve = Throw e s' ->
    (e = InvalidArgument /\ Z.of_nat (length us) <> cf_horizon cf /\ s_cd s' = s_cd s /\ s_trace s' = s_trace s) \/
    (e = RuntimeError /\ Z.of_nat (length us) = cf_horizon cf /\ ~ valid_args pb cf t0 us /\
       s_cd s' = s_cd s /\ s_trace s' = s_trace s) \/
    (valid_args pb cf t0 us /\ is_rollout pb t0 x0 horizon (s_cd s') /\ e <> InvalidArgument).
  Proof.
    intros E. pose proof (ddp_solve_spec LL pb cf limits jk t0 qfuel fuel x0 us s) as Hs.
    unfold wp in Hs. rewrite E in Hs. exact Hs.
  Qed.

  (** C01 *)
  Lemma C01_ok b s' : solve = Ok b s' -> is_rollout pb t0 x0 horizon (s_cd s').
  Proof. intros E; apply (solve_ok _ _ E). Qed.
  Lemma C01_throw e s' : solve = Throw e s' -> valid_args pb cf t0 us -> is_rollout pb t0 x0 horizon (s_cd s').
  Proof.
    intros E Hv. destruct (solve_throw _ _ E) as [(_ & H & _)|[(_ & _ & H & _)|(_ & H & _)]]; auto.
    - destruct Hv; contradiction.
    - contradiction.
  Qed.

  (** C02 *)
  Lemma C02_length : Z.of_nat (length us) <> cf_horizon cf ->
    exists s', solve = Throw InvalidArgument s' /\ s_cd s' = s_cd s /\ s_trace s' = s_trace s.
  Proof.
    intros H. unfold ddp_solve, bind, modify. apply Z.eqb_neq in H. rewrite H. cbn. eauto.
  Qed.
  Lemma C02_dims : Z.of_nat (length us) = cf_horizon cf -> ~ valid_args pb cf t0 us ->
    exists s', solve = Throw RuntimeError s' /\ s_cd s' = s_cd s /\ s_trace s' = s_trace s.
  Proof.
    intros H Hn. unfold ddp_solve, bind, modify. apply Z.eqb_eq in H as H'. rewrite H'. cbn [negb].
    destruct (pb_fixed_nu pb) eqn:Ef.
    { exfalso. apply Hn. split; auto. rewrite Ef. discriminate. }
    destruct (check_u_from pb 0 t0 us) eqn:Ec; cbn [negb]; [|cbn; eauto].
    exfalso. apply Hn. split; auto. intros _ i u Hi.
    pose proof (proj1 (check_u_spec pb t0 us 0) Ec) as Hc. apply Hc. exact Hi.
  Qed.
  Lemma C02_only s' : solve = Throw InvalidArgument s' -> Z.of_nat (length us) <> cf_horizon cf.
  Proof.
    intros E. destruct (solve_throw _ _ E) as [(_ & H & _)|[(H & _)|(_ & _ & H)]]; auto; try discriminate.
  Qed.
  Lemma C02_ok b s' : solve = Ok b s' -> valid_args pb cf t0 us.
  Proof. intros E; apply (solve_ok _ _ E). Qed.

  (** C03, C05, C06: the run as seen through the accessors. *)
  Lemma run_shape b s' : solve = Ok b s' ->
    exists c es, is_rollout pb t0 x0 horizon c /\ cd_u c = us /\ s_trace s' = trace_start cf c :: es /\
      length es <= Z.to_nat (cf_max_iter cf) /\
      (forall i e, nth_error (s_trace s') i = Some e -> tr_iter e = Z.of_nat i) /\
      exists g0, let st0 := (c, (cf_initial_lambda cf, cf_initial_dlambda cf), g0) in
      (b = true -> exists es0 e s1, es = es0 ++ [e] /\ chain pb cf t0 x0 horizon LL limits qfuel st0 es0 s1 /\
           (small_gradient pb cf t0 horizon LL limits qfuel s1 e (mst_of s') \/ small_update pb cf t0 x0 horizon LL limits qfuel s1 e (mst_of s'))) /\
      (b = false ->
         (length es = Z.to_nat (cf_max_iter cf) /\ chain pb cf t0 x0 horizon LL limits qfuel st0 es (mst_of s')) \/
         (exists es0 e s1, es = es0 ++ [e] /\ chain pb cf t0 x0 horizon LL limits qfuel st0 es0 s1 /\
             nltb (cf_lambda_max cf) (s_lambda s') = true /\ s_cd s' = mc s1)).
  Proof.
    intros E. destruct (solve_ok _ _ E) as (_ & _ & c & r & es & (Hro & Hu & g0 & Hits) & Hb & Htr).
    exists c, es. apply iterations_cases in Hits as (Hl & Hn & Hcase).
    split; [exact Hro|]. split; [exact Hu|]. split; [exact Htr|]. split; [exact Hl|]. split.
    { rewrite Htr. intros [|i] e He; cbn in He; [injection He as <-; reflexivity|].
      rewrite (Hn _ _ He). lia. }
    exists g0. cbn zeta. split.
    - intros ->. destruct Hcase as [(-> & _)|(es0 & e & s1 & H1 & H2 & [[_ H3]|[-> _]])]; try discriminate.
      exists es0, e, s1; auto.
    - intros ->. destruct Hcase as [(-> & H1 & H2)|(es0 & e & s1 & H1 & H2 & [[-> H3]|(-> & H3 & H4)])];
        try discriminate.
      + left; auto.
      + right; exists es0, e, s1; auto.
  Qed.

  Lemma C06_cases b s' : solve = Ok b s' ->
    forall e, last (s_trace s') (trace0 0) = e ->
      (tr_cost e = total (s_cd s') /\ tr_lambda e = s_lambda s' /\ tr_dlambda e = s_dlambda s') \/
      (e = tr_set_krel (tr_k_rel_norm e) (trace0 (tr_iter e)) /\
       (b = true \/ nltb (cf_lambda_max cf) (s_lambda s') = true)).
  Proof.
    intros E e He. destruct (solve_ok _ _ E) as (_ & _ & c & r & es & (Hro & Hu & g0 & Hits) & Hb & Htr).
    rewrite Htr in He. clear Htr E.
    assert (G : forall m it s1 s2, iterations pb cf t0 x0 horizon LL limits qfuel m it s1 r es s2 ->
      (es = [] /\ s1 = s2) \/
      (es <> [] /\ forall d, let e := last es d in
        (tr_cost e = total (mc s2) /\ (tr_lambda e, tr_dlambda e) = mreg s2) \/
        (e = tr_set_krel (tr_k_rel_norm e) (trace0 (tr_iter e)) /\
          (r = 1%Z \/ too_large cf (mreg s2) = true)))).
    { clear. induction 1 as [it s|m it s r e s' Hi Hr|m it s e s1 r es s' Hi Hits IH].
      - left; auto.
      - right. split; [discriminate|]. intros d. cbn. inversion Hi; subst; cbn.
        + right. split; [reflexivity|]. right. pose proof (iteration_cases _ _ _ _ _ _ _ _ _ _ _ _ _ Hi) as [_ Hc].
          destruct Hc as [[Hc _]|[[Hc _]|(_ & Hc & _)]]; try discriminate. exact Hc.
        + right. split; [reflexivity|auto].
        + left. split; reflexivity.
        + left. split; reflexivity.
      - right. split; [discriminate|]. intros d.
        destruct IH as [[-> ->]|[Hne IH]].
        + cbn. apply iteration_cases in Hi as [_ [[Hc _]|[[_ Hc]|[Hc _]]]]; try discriminate.
          left. destruct Hc as (H1 & H2 & _); auto.
        + destruct es as [|e1 es]; [contradiction|]. apply (IH d). }
    destruct (G _ _ _ _ Hits) as [[-> Heq]|[Hne G']].
    - cbn in He. subst e. cbn. unfold mst_of, regs in Heq. inversion Heq; subst. left; auto.
    - destruct es as [|e1 es]; [contradiction|].
      change (last (trace_start cf c :: e1 :: es) (trace0 0)) with (last (e1 :: es) (trace0 0)) in He.
      specialize (G' (trace0 0)). cbn zeta in G'. rewrite He in G'.
      destruct G' as [[H1 H2]|[H1 H2]].
      + left. cbn in H1, H2. injection H2 as -> ->. auto.
      + right. split; auto. destruct H2 as [->|H2]; [left; auto|right; exact H2].
  Qed.
End Cor.

(** Every trace entry reports the ratio of its own actual and expected decrease, or was left blank. *)
Section Ratio.
  Context {T : Type} {N : Num T}.
  Variables (pb : problem T) (cf : config T) (t0 : T) (x0 : vec T) (n : nat).
  Variables (LL : lltops T) (limits : option (T -> vec T * vec T)) (qfuel : nat).
  Definition ratio_entry (e : trace T) : Prop :=
    (tr_actual e = nzero /\ tr_expected e = nzero /\ tr_ratio e = nzero) \/
    tr_ratio e = ratio_of (tr_actual e) (tr_expected e).
  Lemma search_ratio c g l o al ac ex ra : search pb cf t0 x0 n c g l o al ac ex ra ->
    (ac = nzero /\ ex = nzero /\ ra = nzero) \/ ra = ratio_of ac ex.
  Proof. induction 1; auto. Qed.
  Lemma iteration_ratio it s r e s' : iteration pb cf t0 x0 n LL limits qfuel it s r e s' -> ratio_entry e.
  Proof.
    unfold ratio_entry. destruct 1; cbn; auto; eapply search_ratio; eassumption.
  Qed.
  Lemma iterations_ratio m it s r es s' : iterations pb cf t0 x0 n LL limits qfuel m it s r es s' -> Forall ratio_entry es.
  Proof.
    induction 1; [constructor|..]; (constructor; [eapply iteration_ratio; eassumption|]); auto.
  Qed.
End Ratio.
