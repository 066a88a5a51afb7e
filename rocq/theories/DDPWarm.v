(** Runs in which no trial is ever accepted. *)
From Verif Require Import Prelude Scalar LinAlg BoxQP DDP DDPSpec DDPProofs DDPCor DDPReal.

Section Warm.
  Context {T : Type} {N : Num T}.
  Variables (pb : problem T) (cf : config T) (t0 : T) (x0 : vec T) (n : nat).
  Variables (LL : lltops T) (limits : option (T -> vec T * vec T)) (qfuel : nat).
  Variables (c0 : cdata T) (p0 : T * T).

  (** The regularisation after [j] raises is used by the solver if no earlier raise exceeded the limit. *)
  Definition tried (j : nat) : Prop := forall i, 0 < i <= j -> too_large cf (ups cf i p0) = false.

  Hypothesis Hthre : forall j, tried j -> nltb (fst (ups cf j p0)) (cf_lambda_thre cf) = false.
  Hypothesis Hrej : forall j g a c', tried j -> backward pb cf t0 n LL limits qfuel c0 (fst (ups cf j p0)) (Some g) ->
    In a (cf_alpha_list cf) -> is_candidate pb t0 x0 n c0 g a c' ->
    nltb (cf_cost_update_ratio_thre cf) (ratio_of (nsub (total c0) (total c')) (expected_of g a)) = false.

  Lemma ups_S j : forall p, ups cf (S j) p = reg_up cf (ups cf j p).
  Proof. induction j as [|j IH]; intros p; [reflexivity|]. cbn [ups] in *. apply IH. Qed.

  Lemma retry_tried o p q : retry pb cf t0 n LL limits qfuel c0 o p q -> forall j, p = ups cf j p0 -> tried j ->
    o <> None -> exists j', q = ups cf j' p0 /\ tried j' /\
      forall g, o = Some g -> backward pb cf t0 n LL limits qfuel c0 (fst q) (Some g).
  Proof.
    induction 1 as [p g Hb|p Hb Hl|o p q Hb Hl Hr IH]; intros j Ej Hj Ho.
    - exists j. split; [exact Ej|]. split; [exact Hj|]. intros g' E. injection E as <-. exact Hb.
    - contradiction.
    - destruct (IH (S j)) as (j' & H1 & H2 & H3); [rewrite ups_S, <- Ej; reflexivity| |exact Ho|exists j'; auto].
      intros i Hi. destruct (Nat.eq_dec i (S j)) as [->|]; [rewrite ups_S, <- Ej; exact Hl|apply Hj; lia].
  Qed.

  Lemma search_none g l o al ac ex ra : search pb cf t0 x0 n c0 g l o al ac ex ra ->
    (forall a c', In a l -> is_candidate pb t0 x0 n c0 g a c' ->
       nltb (cf_cost_update_ratio_thre cf) (ratio_of (nsub (total c0) (total c')) (expected_of g a)) = false) -> o = None.
  Proof.
    induction 1 as [|a rest c1 [Hc H]|a c1 H|a b rest c1 o al ac ex ra Ht Hs IH]; intros Hall; try reflexivity.
    - rewrite Hall in H; [discriminate|left; reflexivity|exact Hc].
    - apply IH. intros; apply Hall; [right; assumption|assumption].
  Qed.

  Lemma iteration_stays it s r e s' : iteration pb cf t0 x0 n LL limits qfuel it s r e s' ->
    mc s = c0 -> (exists j, mreg s = ups cf j p0 /\ tried j) ->
    mc s' = c0 /\ r <> 1%Z /\ (r = 0%Z -> exists j, mreg s' = ups cf j p0 /\ tried j).
  Proof.
    destruct 1 as [c p q g0 g H|c p q g0 g krn H Hk Hkr H1 H2|c p q g0 g krn c' al ac ex ra H Hk Hkr H1 H2|c p q g0 g krn al ac ex ra H Hk Hkr H1 H2];
      cbn [mc mreg fst snd]; intros -> (j & Ej & Hj).
    - split; [reflexivity|]. split; discriminate.
    - exfalso. destruct (retry_tried _ _ _ H j Ej Hj) as (j' & E' & Hj' & _); [discriminate|].
      rewrite E', (Hthre _ Hj') in H2. discriminate.
    - exfalso. destruct (retry_tried _ _ _ H j Ej Hj) as (j' & E' & Hj' & Hb); [discriminate|].
      specialize (Hb g eq_refl). rewrite E' in Hb.
      apply search_none in H2; [discriminate|]. intros a c1 Ha Hc. eapply Hrej; eauto.
    - destruct (retry_tried _ _ _ H j Ej Hj) as (j' & E' & Hj' & Hb); [discriminate|].
      split; [reflexivity|]. destruct (too_large cf (reg_up cf q)) eqn:El; [split; discriminate|].
      split; [discriminate|]. intros _. exists (S j'). split; [rewrite ups_S, <- E'; reflexivity|].
      intros i Hi. destruct (Nat.eq_dec i (S j')) as [->|]; [rewrite ups_S, <- E'; exact El|apply Hj'; lia].
  Qed.

  Lemma iterations_stay m it s r es s' : iterations pb cf t0 x0 n LL limits qfuel m it s r es s' ->
    mc s = c0 -> (exists j, mreg s = ups cf j p0 /\ tried j) -> mc s' = c0 /\ r <> 1%Z.
  Proof.
    induction 1 as [it s|m it s r e s' Hi Hr|m it s e s1 r es s' Hi Hits IH]; intros Hc Hreg.
    - split; [exact Hc|discriminate].
    - destruct (iteration_stays _ _ _ _ _ Hi Hc Hreg) as (H1 & H2 & _). auto.
    - destruct (iteration_stays _ _ _ _ _ Hi Hc Hreg) as (H1 & H2 & H3). auto.
  Qed.
End Warm.
