(** Over the reals, the components of a box QP result outside the free set sit exactly on a limit. *)
From Verif Require Import Prelude Scalar LinAlg BoxQP BoxQPProofs QPCor RLin QPReal.
From Coq Require Import Reals Lra.
Local Open Scope R_scope.

Section Clamp.
  Variables (LL : lltops R) (cfg : qp_config R) (n : nat) (H : mat R) (g lower upper : vec R).
  Hypothesis Hb : forall i, (i < n)%nat -> vget lower i <= vget upper i.

  Definition on_limit (x : vec R) (i : nat) : Prop := vget x i = vget lower i \/ vget x i = vget upper i.
  Definition held (st : qp_st R) : Prop :=
    length (qs_x st) = n /\ length (qs_clamped st) = n /\
    forall i, (i < n)%nat -> nth i (qs_clamped st) false = true -> on_limit (qs_x st) i.

  Lemma clip_limit x dir a i : length x = n -> (i < n)%nat -> on_limit x i -> vget dir i = 0 ->
    length dir = n -> on_limit (qp_clip lower upper (vadd x (vscale a dir))) i.
  Proof.
    intros Lx Hi Ho Hd Ld. unfold on_limit. rewrite qp_clip_get by (unfold vadd; rewrite vbuild_length; lia).
    rewrite vadd_f by (unfold vscale; rewrite vbuild_length; lia). rewrite vscale_f. unfold fadd, fscal. rewrite Hd, nmax_R, nmin_R.
    specialize (Hb i Hi). rewrite Rmult_0_r, Rplus_0_r. destruct Ho as [->| ->].
    - left. rewrite Rmin_left by lra. apply Rmax_left; lra.
    - right. rewrite Rmin_left by lra. apply Rmax_left; lra.
  Qed.

  Lemma armijo_form {S} fuel x dir oo sdg : forall step snum xc oc rv (s : S) E,
    (exists a, xc = qp_clip lower upper (vadd x (vscale a dir))) ->
    wp True (qp_armijo cfg H g lower upper fuel x dir oo sdg step snum xc oc rv)
       (fun r s' => s' = s /\ exists a, snd (fst (fst r)) = qp_clip lower upper (vadd x (vscale a dir))) E s.
  Proof.
    induction fuel as [|f IH]; intros step snum xc oc rv s E Hx; cbn [qp_armijo].
    - destruct (nltb _ _); [exact I|]. apply wp_ret. auto.
    - destruct (nltb _ _); [|apply wp_ret; auto]. destruct (nltb _ _).
      + apply wp_ret. split; [reflexivity|]. cbn. eexists; reflexivity.
      + apply IH. eexists; reflexivity.
  Qed.

  Lemma clamped_limit x grad i : (i < n)%nat -> nth i (qp_clamped n lower upper x grad) false = true -> on_limit x i.
  Proof.
    intros Hi. unfold qp_clamped. rewrite nth_indep with (d' := qp_clamped_at lower upper x grad 0) by (rewrite map_length, seq_length; exact Hi).
    rewrite (map_nth (qp_clamped_at lower upper x grad)), seq_nth by exact Hi. cbn [Nat.add].
    unfold qp_clamped_at. rewrite orb_true_iff, !andb_true_iff. numR. intros [[E _]|[E _]]; apply Reqb_true in E; [left|right]; exact E.
  Qed.

  Definition split_ok (st : qp_st R) : Prop := qs_free st = idx_of false (qs_clamped st).
  Lemma iter_held {S} fuel it st (s : S) E : held st -> ((1 < it)%Z -> split_ok st) ->
    wp True (qp_iter LL cfg n H g lower upper fuel it st) (fun r s' => s' = s /\ held (fst r) /\ split_ok (fst r)) E s.
  Proof.
    intros (Lx & Lc & Hh) Hsp. unfold qp_iter. destruct ((1 <? it)%Z && _) eqn:E4.
    { apply andb_true_iff in E4 as [E4 _]. apply Z.ltb_lt in E4. apply wp_ret. split; [reflexivity|]. split; [|apply Hsp; exact E4].
      split; [exact Lx|]. split; [exact Lc|exact Hh]. }
    set (grad := qp_grad H g (qs_x st)). set (cl := qp_clamped n lower upper (qs_x st) grad).
    assert (Hcl : length cl = n) by (unfold cl, qp_clamped; rewrite map_length, seq_length; reflexivity).
    assert (Hl : forall i, (i < n)%nat -> nth i cl false = true -> on_limit (qs_x st) i) by (intros i; apply clamped_limit).
    destruct (forallb _ cl); [apply wp_ret; split; [reflexivity|]; split; [split; [exact Lx|]; split; [exact Hcl|exact Hl]|reflexivity]|].
    match goal with |- wp _ (if ?c then _ else _) _ _ _ => destruct c end; [apply wp_ret; split; [reflexivity|]; split; [split; [exact Lx|]; split; [exact Hcl|exact Hl]|reflexivity]|].
    match goal with |- wp _ (if ?c then _ else _) _ _ _ => destruct c end; [apply wp_ret; split; [reflexivity|]; split; [split; [exact Lx|]; split; [exact Hcl|exact Hl]|reflexivity]|].
    apply wp_bind. apply wp_must; [intros Hf _|exact (fun _ => I)]. apply wp_bind. apply wp_guard; [intros _|exact (fun _ => I)].
    match goal with |- context [qp_search_dir LL n H g Hf (qs_x st) ?f ?c] => set (dir := qp_search_dir LL n H g Hf (qs_x st) f c) end.
    match goal with |- wp _ (if ?c then _ else _) _ _ _ => destruct c end; [apply wp_ret; split; [reflexivity|]; split; [split; [exact Lx|]; split; [exact Hcl|exact Hl]|reflexivity]|].
    apply wp_bind. eapply wp_conseq; [apply (armijo_form fuel (qs_x st) dir); eexists; reflexivity| |intros e s' He; exact He].
    intros [[[[step' snum'] xc'] oc'] rv'] s' (-> & a & Ex). cbn [fst snd] in Ex. apply wp_ret. cbn [fst]. split; [reflexivity|].
    assert (Ld : length dir = n) by (unfold dir, qp_search_dir; apply vbuild_length).
    split; [|reflexivity]. split; cbn [qs_x qs_clamped]; [rewrite Ex, qp_clip_length; unfold vadd; rewrite vbuild_length; exact Lx|]. split; [exact Hcl|].
    intros i Hi Hc. rewrite Ex. apply clip_limit; auto. unfold dir, qp_search_dir. rewrite vbuild_get by exact Hi.
    destruct (find_idx i (idx_of false cl)) as [p|] eqn:Ef; [|reflexivity]. exfalso.
    assert (Hin : In i (idx_of false cl)) by (apply find_idx_some in Ef as [Hp Ep]; rewrite <- Ep; apply nth_In; exact Hp).
    apply idx_of_in in Hin as [_ Hin]. cbn [negb] in Hin. rewrite (nth_indep cl true false) in Hin by lia. congruence.
  Qed.

  Lemma loop_held {S} fuel afuel : forall it st (s : S) E, (1 <= it)%Z -> held st -> ((1 < it)%Z -> split_ok st) ->
    wp True (qp_loop LL cfg n H g lower upper fuel afuel it st) (fun st' s' => s' = s /\ held st' /\ split_ok st') E s.
  Proof.
    induction fuel as [|f IH]; intros it st s E Hit Hh Hsp; cbn [qp_loop]; [exact I|]. apply wp_bind.
    eapply wp_conseq; [apply (iter_held afuel it st s E Hh Hsp)| |auto]. intros [st' b] s' [-> [Hs Hs']]. cbn [fst] in Hs, Hs'.
    destruct b; [apply wp_ret; auto|apply IH; auto; lia].
  Qed.

  Lemma qp_on_limit {S} fuel afuel ol ix (s s' : S) out : qp_solve LL cfg n H g lower upper fuel afuel ol ix s = Ok out s' ->
    forall i, (i < n)%nat -> ~ In i (qo_free out) -> on_limit (qo_x out) i.
  Proof.
    intros E.
    assert (G : wp True (qp_solve LL cfg n H g lower upper fuel afuel ol ix)
      (fun out' _ => forall i, (i < n)%nat -> ~ In i (qo_free out') -> on_limit (qo_x out') i) (fun _ _ => True) s).
    { unfold qp_solve. apply wp_bind. apply wp_guard; [intros Hg|exact (fun _ => I)].
      rewrite !andb_true_iff in Hg. destruct Hg as (_ & Hix). apply Nat.eqb_eq in Hix.
      apply wp_bind. eapply wp_conseq; [apply (loop_held fuel afuel 1 _ s (fun _ _ => True)); [lia| |lia]| |auto].
      - split; cbn [qs_x qs_clamped]; [rewrite qp_clip_length; exact Hix|]. split; [apply repeat_length|].
        intros i Hi Hc. rewrite nth_repeat in Hc. discriminate.
      - intros st s1 (-> & (Lx & Lc & Hh) & Hsp). apply wp_bind. destruct (_ && _); [exact I|]. apply wp_ret. apply wp_ret. cbn [qo_x qo_free].
        intros i Hi Hn. apply Hh; [exact Hi|]. destruct (nth i (qs_clamped st) false) eqn:Ec; [reflexivity|]. destruct Hn. rewrite Hsp. apply idx_of_in.
        split; [lia|]. cbn [negb]. rewrite (nth_indep _ true false) by lia. exact Ec. }
    unfold wp in G. rewrite E in G. exact G.
  Qed.
End Clamp.
