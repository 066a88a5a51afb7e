(** Proofs about the BoxQP model that hold for every scalar type (no algebraic law, any LLT). *)
From Verif Require Import Prelude Scalar LinAlg BoxQP.
From Coq Require Import Sorted.

Section AnyScalar.
  Context {T : Type} {N : Num T} (LL : lltops T).
  Local Open Scope num_scope.

  Lemma qp_clip_length lower upper (v : vec T) : length (qp_clip lower upper v) = length v.
  Proof. unfold qp_clip, vmax, vmin; rewrite !vbuild_length; reflexivity. Qed.

  Lemma qp_clip_get lower upper (v : vec T) i : i < length v ->
    vget (qp_clip lower upper v) i = nmax (nmin (vget v i) (vget upper i)) (vget lower i).
  Proof.
    intros H; unfold qp_clip, vmax, vmin.
    rewrite vbuild_get by (rewrite vbuild_length; exact H).
    rewrite vbuild_get by exact H; reflexivity.
  Qed.

  Lemma idx_of_in b fl i : In i (idx_of b fl) <-> i < length fl /\ nth i fl (negb b) = b.
  Proof.
    unfold idx_of; rewrite filter_In, in_seq, eqb_true_iff; split; intros; lia || intuition lia.
  Qed.

  Lemma idx_of_sorted b fl : StronglySorted lt (idx_of b fl).
  Proof.
    unfold idx_of.
    assert (H : forall s n, StronglySorted lt (seq s n)).
    { intros s n; revert s; induction n as [|n IH]; intros s; cbn; constructor; auto.
      apply Forall_forall; intros j Hj; apply in_seq in Hj; lia. }
    generalize (H 0 (length fl)); generalize (seq 0 (length fl)) as l.
    intros l Hl; induction Hl as [|a l Hl IH Ha]; cbn; [constructor|].
    destruct (Bool.eqb _ _); [|exact IH].
    constructor; [exact IH|]. rewrite Forall_forall in *.
    intros j Hj; apply filter_In in Hj as [Hj _]; auto.
  Qed.

  Lemma idx_of_false_nil fl : forallb (fun b => b) fl = true -> idx_of false fl = [].
  Proof.
    intros H. destruct (idx_of false fl) as [|i r] eqn:E; [reflexivity|].
    assert (Hi : In i (idx_of false fl)) by (rewrite E; left; reflexivity).
    apply idx_of_in in Hi as [Hi Hn]. cbn in Hn.
    rewrite forallb_forall in H. specialize (H (nth i fl true) (nth_In _ _ Hi)). congruence.
  Qed.

  Lemma idx_of_false_nonnil fl : forallb (fun b => b) fl = false -> idx_of false fl <> [].
  Proof.
    intros H E.
    assert (forallb (fun b => b) fl = true); [|congruence].
    apply forallb_forall; intros b Hb. apply In_nth with (d := true) in Hb as (i & Hi & Hn).
    destruct b; [reflexivity|]. exfalso.
    assert (Hin : In i (idx_of false fl)) by (apply idx_of_in; split; auto).
    rewrite E in Hin; exact Hin.
  Qed.

  Variables (cfg : qp_config T) (n : nat) (H : mat T) (g lower upper : vec T).

  (** The state of the caller's object is irrelevant to the QP. *)
  Lemma qp_armijo_state {S} fuel x dir oo sdg step snum xc oc rv :
    st_nat (@qp_armijo _ _ cfg H g lower upper S fuel x dir oo sdg step snum xc oc rv)
           (qp_armijo cfg H g lower upper fuel x dir oo sdg step snum xc oc rv).
  Proof.
    revert step snum xc oc rv; induction fuel as [|f IH]; intros; cbn [qp_armijo].
    - destruct (_ <? _); intros s; reflexivity.
    - destruct (_ <? _); [|intros s; reflexivity].
      destruct (_ <? _); [intros s; reflexivity|]. apply IH.
  Qed.

  Lemma qp_iter_state {S} fuel iter st :
    st_nat (@qp_iter _ _ LL cfg n H g lower upper S fuel iter st)
           (qp_iter LL cfg n H g lower upper fuel iter st).
  Proof.
    unfold qp_iter.
    destruct (_ && _); [apply st_nat_ret|].
    destruct (forallb _ _); [apply st_nat_ret|].
    match goal with |- context [(?a && ?b)%bool] => destruct (a && b) end; [apply st_nat_ret|].
    destruct (_ <? _); [apply st_nat_ret|].
    apply st_nat_bind; [apply st_nat_must|intros Hf].
    apply st_nat_bind; [apply st_nat_guard|intros _].
    destruct (_ >? _); [apply st_nat_ret|].
    apply st_nat_bind; [apply qp_armijo_state|intros [[[[? ?] ?] ?] ?]].
    apply st_nat_ret.
  Qed.

  Lemma qp_loop_state {S} fuel afuel iter st :
    st_nat (@qp_loop _ _ LL cfg n H g lower upper S fuel afuel iter st)
           (qp_loop LL cfg n H g lower upper fuel afuel iter st).
  Proof.
    revert iter st; induction fuel as [|f IH]; intros; cbn [qp_loop]; [intros s; reflexivity|].
    apply st_nat_bind; [apply qp_iter_state|intros [st' []]]; [apply st_nat_ret|apply IH].
  Qed.

  Lemma qp_solve_state {S} fuel afuel ol ix :
    st_nat (@qp_solve _ _ LL cfg n H g lower upper S fuel afuel ol ix)
           (qp_solve LL cfg n H g lower upper fuel afuel ol ix).
  Proof.
    unfold qp_solve.
    apply st_nat_bind; [apply st_nat_guard|intros _].
    apply st_nat_bind; [apply qp_loop_state|intros st].
    apply st_nat_bind; [|intros _; apply st_nat_ret].
    destruct (_ && _); [apply st_nat_throw|apply st_nat_ret].
  Qed.

  (** Facts that hold at the end of every completed pass of the main loop. *)
  Record qp_cont (st : qp_st T) : Prop := {
    qc_x : exists v, length v = n /\ qs_x st = qp_clip lower upper v;
    qc_obj : qs_obj st = qp_obj H g (qs_x st);
    qc_cl : length (qs_clamped st) = n;
    qc_free : qs_free st = idx_of false (qs_clamped st);
    qc_llt : qs_llt st = Some (mgather H (qs_free st) (qs_free st));
    qc_ok : llt_issue LL (mgather H (qs_free st) (qs_free st)) = false;
    qc_ne : qs_free st <> []
  }.

  (** Before the first pass. *)
  Record qp_start (st : qp_st T) : Prop := {
    qi_x : exists v, length v = n /\ qs_x st = qp_clip lower upper v;
    qi_obj : qs_obj st = qp_obj H g (qs_x st)
  }.

  (** The trace has entries 0 .. m-1, the first being [e0]. *)
  Definition tr_iters (e0 : qp_trace T) (m : nat) (tr : list (qp_trace T)) : Prop :=
    map qt_iter tr = map Z.of_nat (seq 0 m) /\ nth_error tr 0 = Some e0.

  (** Facts that hold when the loop is left in pass [it]. *)
  Record qp_done (it : Z) (st : qp_st T) : Prop := {
    qd_x : exists v, length v = n /\ qs_x st = qp_clip lower upper v;
    qd_obj : qs_obj st = qp_obj H g (qs_x st);
    qd_rv : In (qs_retval st) [-2; -1; 1; 4; 5; 6]%Z;
    qd_cl : length (qs_clamped st) = n;
    qd_free : qs_free st = idx_of false (qs_clamped st);
    qd_llt : qs_free st = [] \/ qs_llt st = Some (mgather H (qs_free st) (qs_free st));
    qd_ok : (0 <= qs_retval st)%Z -> qs_free st <> [] ->
            llt_issue LL (mgather H (qs_free st) (qs_free st)) = false;
    qd_6 : qs_retval st = 6%Z ->
            qs_clamped st = qp_clamped n lower upper (qs_x st) (qp_grad H g (qs_x st)) /\
            forallb (fun b => b) (qs_clamped st) = true;
    qd_5 : qs_retval st = 5%Z ->
            qs_clamped st = qp_clamped n lower upper (qs_x st) (qp_grad H g (qs_x st)) /\
            qp_grad_norm (qp_grad H g (qs_x st)) (qs_free st) <? qp_grad_thre cfg * qp_grad_thre cfg = true;
    qd_1 : qs_retval st = 1%Z -> it = qp_max_iter cfg
  }.

  Lemma qp_armijo_spec {S} fuel x dir oo sdg step snum xc oc rv (s : S) U E :
    length x = n ->
    (exists v, length v = n /\ xc = qp_clip lower upper v) -> oc = qp_obj H g xc ->
    wp U (qp_armijo cfg H g lower upper fuel x dir oo sdg step snum xc oc rv)
       (fun r s' => s' = s /\ let '(step', snum', xc', oc', rv') := r in
          (exists v, length v = n /\ xc' = qp_clip lower upper v) /\ oc' = qp_obj H g xc') E s.
  Proof.
    intros Lx; revert step snum xc oc rv; induction fuel as [|f IH]; intros step snum xc oc rv Hx Ho;
      cbn [qp_armijo].
    - destruct (_ <? _); [exact I|]. apply wp_ret; auto.
    - destruct (_ <? _); [|apply wp_ret; auto].
      assert (Hx' : exists v, length v = n /\
        qp_clip lower upper (vadd x (vscale (step * qp_step_factor cfg) dir)) = qp_clip lower upper v).
      { eexists; split; [|reflexivity]. unfold vadd; rewrite vbuild_length; exact Lx. }
      destruct (_ <? _).
      + apply wp_ret; auto.
      + apply IH; auto.
  Qed.

  Lemma tr_iters_snoc e0 m tr e :
    tr_iters e0 m tr -> qt_iter e = Z.of_nat m -> tr_iters e0 (Datatypes.S m) (tr ++ [e]).
  Proof.
    unfold tr_iters; intros [H1 H1'] H2. rewrite seq_S, !map_app, H1; cbn [map]. rewrite H2; split; [reflexivity|].
    destruct tr; [discriminate|exact H1'].
  Qed.

  Lemma qp_iter_spec {S} U E e0 fuel it st (s : S) :
    (1 <= it)%Z ->
    (if (it =? 1)%Z then qp_start st else qp_cont st) ->
    tr_iters e0 (Z.to_nat it) (qs_trace st) ->
    wp U (qp_iter LL cfg n H g lower upper fuel it st)
       (fun r s' => s' = s /\ tr_iters e0 (Datatypes.S (Z.to_nat it)) (qs_trace (fst r)) /\
          if snd r then qp_done it (fst r) else qp_cont (fst r) /\ it <> qp_max_iter cfg) E s.
  Proof.
    intros Hit Hinv Htr.
    assert (Hxs : exists v, length v = n /\ qs_x st = qp_clip lower upper v)
      by (destruct (it =? 1)%Z; apply Hinv).
    assert (Hos : qs_obj st = qp_obj H g (qs_x st)) by (destruct (it =? 1)%Z; apply Hinv).
    assert (Hlx : length (qs_x st) = n) by (destruct Hxs as (v & Hv & ->); rewrite qp_clip_length; exact Hv).
    assert (Htr0 : tr_iters e0 (Datatypes.S (Z.to_nat it)) (qs_trace st ++ [qp_trace0 n it])).
    { apply tr_iters_snoc; auto. cbn; lia. }
    unfold qp_iter.
    destruct ((1 <? it)%Z && _) eqn:E4.
    { apply andb_true_iff in E4 as [E4 _]. apply Z.ltb_lt in E4.
      replace (it =? 1)%Z with false in Hinv by (symmetry; apply Z.eqb_neq; lia).
      destruct Hinv. apply wp_ret; cbn [fst snd qp_st_exit qs_trace]. split; [reflexivity|split; [exact Htr0|]].
      split; cbn; auto; try lia; try discriminate; try tauto. }
    set (grad := qp_grad H g (qs_x st)).
    set (clamped := qp_clamped n lower upper (qs_x st) grad).
    assert (Hcl : length clamped = n) by (unfold clamped, qp_clamped; rewrite map_length, seq_length; reflexivity).
    destruct (forallb (fun b => b) clamped) eqn:Eall.
    { apply wp_ret; cbn [fst snd qp_st_exit qs_trace]. split; [reflexivity|split; [exact Htr0|]].
      pose proof (idx_of_false_nil _ Eall) as Hnil.
      split; cbn [qp_st_exit qs_x qs_obj qs_retval qs_clamped qs_free qs_llt]; auto; try discriminate.
      - cbn; tauto.
      - intros _ Hne; contradiction. }
    pose proof (idx_of_false_nonnil _ Eall) as Hne.
    set (free := idx_of false clamped) in *.
    set (changed := (it =? 1)%Z || _).
    set (llt' := if changed then _ else _).
    (* if the flags did not change, the stored factorisation is the one of the current free set *)
    assert (Hllt : llt' = Some (mgather H free free) /\
                   (changed = false -> llt_issue LL (mgather H free free) = false)).
    { unfold llt'. destruct changed eqn:Ec; [split; [reflexivity|discriminate]|].
      unfold changed in Ec. apply orb_false_iff in Ec as [Ei Eq].
      rewrite Ei in Hinv. apply negb_false_iff in Eq.
      assert (Hsame : clamped = qs_clamped st).
      { apply (nth_ext _ _ false false); [rewrite Hcl; symmetry; apply Hinv|].
        intros i Hi. rewrite forallb_forall in Eq. apply eqb_prop, Eq. apply in_seq; lia. }
      assert (Hf : free = qs_free st) by (unfold free; rewrite Hsame; symmetry; apply Hinv).
      rewrite Hf. split; [apply Hinv|intros _; apply Hinv]. }
    destruct Hllt as [Hllt Hissue].
    destruct (changed && llt_issue LL (mgather H free free)) eqn:Ei.
    { apply wp_ret; cbn [fst snd qs_trace]. split; [reflexivity|split; [exact Htr0|]].
      split; cbn [qs_x qs_obj qs_retval qs_clamped qs_free qs_llt]; auto; try discriminate; try lia.
      cbn; tauto. }
    assert (Hok : llt_issue LL (mgather H free free) = false).
    { apply andb_false_iff in Ei as [Ei|Ei]; auto. }
    clear Ei Hissue.
    match goal with |- wp _ (if ?c then _ else _) _ _ _ => destruct c eqn:E5 end.
    { apply wp_ret; cbn [fst snd qp_st_exit qs_trace]. split; [reflexivity|split; [exact Htr0|]].
      split; cbn [qp_st_exit qs_x qs_obj qs_retval qs_clamped qs_free qs_llt]; auto; try discriminate.
      cbn; tauto. }
    rewrite Hllt.
    apply wp_bind. unfold must. apply wp_ret.
    apply wp_bind. apply wp_guard; [intros _|].
    2:{ cbn [mgather mrows]. rewrite Nat.eqb_refl. discriminate. }
    set (dir := qp_search_dir _ _ _ _ _ _ _ _).
    match goal with |- wp _ (if ?c then _ else _) _ _ _ => destruct c eqn:E2 end.
    { apply wp_ret; cbn [fst snd qp_st_exit qs_trace]. split; [reflexivity|split; [exact Htr0|]].
      split; cbn [qp_st_exit qs_x qs_obj qs_retval qs_clamped qs_free qs_llt]; auto; try discriminate.
      cbn; tauto. }
    apply wp_bind.
    eapply wp_conseq; [apply qp_armijo_spec; [exact Hlx| |reflexivity]| |intros e s' He; exact He].
    { eexists; split; [|reflexivity]. unfold vadd; rewrite vbuild_length; exact Hlx. }
    intros [[[[step' snum'] xc'] oc'] rv'] s' (-> & Hxc & Hoc).
    apply wp_ret; cbn [fst snd qs_trace]. split; [reflexivity|]. split.
    { rewrite upd_last_app. apply tr_iters_snoc; auto. cbn; lia. }
    destruct (it =? qp_max_iter cfg)%Z eqn:Em.
    - split; cbn [qs_x qs_obj qs_retval qs_clamped qs_free qs_llt]; auto; try discriminate.
      + cbn; tauto.
      + intros _; apply Z.eqb_eq; exact Em.
    - split; [|apply Z.eqb_neq; exact Em].
      split; cbn [qs_x qs_obj qs_clamped qs_free qs_llt]; auto.
  Qed.

  Lemma qp_loop_spec {S} U E e0 fuel afuel : forall it st (s : S),
    (1 <= it)%Z ->
    (if (it =? 1)%Z then qp_start st else qp_cont st) ->
    ((1 <= qp_max_iter cfg)%Z -> (it <= qp_max_iter cfg)%Z) ->
    tr_iters e0 (Z.to_nat it) (qs_trace st) ->
    wp U (qp_loop LL cfg n H g lower upper fuel afuel it st)
       (fun st' s' => s' = s /\ exists it', (it <= it')%Z /\ tr_iters e0 (Datatypes.S (Z.to_nat it')) (qs_trace st') /\
          ((1 <= qp_max_iter cfg)%Z -> (it' <= qp_max_iter cfg)%Z) /\ qp_done it' st') E s.
  Proof.
    induction fuel as [|f IH]; intros it st s Hit Hinv Hmax Htr; cbn [qp_loop]; [exact I|].
    apply wp_bind.
    eapply wp_conseq; [apply (qp_iter_spec U E e0 afuel it st s Hit Hinv Htr)| |auto].
    intros [st' []] s' (-> & Htr' & Hr); cbn [fst snd] in *.
    - apply wp_ret; split; [reflexivity|]. exists it. split; [lia|]. split; [exact Htr'|]. split; [exact Hmax|exact Hr].
    - destruct Hr as [Hc Hm].
      eapply wp_conseq; [apply (IH (it + 1)%Z st' s); auto; try lia| |auto].
      + replace (it + 1 =? 1)%Z with false by (symmetry; apply Z.eqb_neq; lia). exact Hc.
      + replace (Z.to_nat (it + 1)) with (Datatypes.S (Z.to_nat it)) by lia; exact Htr'.
      + intros st'' s' (-> & it' & H1 & H2 & H3 & H4); split; [reflexivity|].
        exists it'. split; [lia|]. auto.
  Qed.

  (** What is known about the public results of a returning call. *)
  Record qp_result (ix : vec T) (out : qp_out T) : Prop := {
    qr_x : exists v, length v = n /\ qo_x out = qp_clip lower upper v;
    qr_rv : In (qo_retval out) [-2; -1; 1; 4; 5; 6]%Z;
    qr_sorted : StronglySorted lt (qo_free out);
    qr_range : Forall (fun i => i < n) (qo_free out);
    qr_llt : qo_free out = [] \/ qo_llt out = Some (mgather H (qo_free out) (qo_free out));
    qr_ok : (0 <= qo_retval out)%Z -> qo_free out <> [] ->
            llt_issue LL (mgather H (qo_free out) (qo_free out)) = false;
    qr_6 : qo_retval out = 6%Z -> qo_free out = [] /\ forall i, i < n ->
            qp_clamped_at lower upper (qo_x out) (qp_grad H g (qo_x out)) i = true;
    qr_5 : qo_retval out = 5%Z ->
            qo_free out = idx_of false (qp_clamped n lower upper (qo_x out) (qp_grad H g (qo_x out))) /\
            qp_grad_norm (qp_grad H g (qo_x out)) (qo_free out) <? qp_grad_thre cfg * qp_grad_thre cfg = true;
    qr_tr : exists m, 2 <= m /\
            tr_iters {| qt_iter := 0; qt_x := qp_clip lower upper ix;
                        qt_obj := qp_obj H g (qp_clip lower upper ix); qt_dir := vzero n;
                        qt_clamped := repeat false n; qt_fnum := 0; qt_snum := 0 |} m (qo_trace out) /\
            ((1 <= qp_max_iter cfg)%Z -> (Z.of_nat m <= qp_max_iter cfg + 1)%Z) /\
            (qo_retval out = 1%Z -> Z.of_nat m = (qp_max_iter cfg + 1)%Z)
  }.

  Lemma qp_solve_spec {S} (U : Prop) (E : exn -> S -> Prop) fuel afuel ol ix (s : S) :
    ((mdimb n n H && vdimb n g && vdimb n lower && vdimb n upper && vdimb n ix) = false -> U) ->
    wp U (qp_solve LL cfg n H g lower upper fuel afuel ol ix)
       (fun out s' => s' = s /\ qp_result ix out /\
          mdimb n n H = true /\ length g = n /\ length lower = n /\ length upper = n /\ length ix = n) E s.
  Proof.
    intros HU; unfold qp_solve.
    apply wp_bind. apply wp_guard; [intros Hg|exact HU].
    rewrite !andb_true_iff in Hg. destruct Hg as ((((HH & Hgd) & Hl) & Hu) & Hix).
    apply Nat.eqb_eq in Hix, Hl, Hu, Hgd.
    apply wp_bind.
    eapply wp_conseq; [eapply (qp_loop_spec U E); auto; try lia| |auto].
    - cbn. split; cbn; auto. eexists; split; [|reflexivity]. exact Hix.
    - cbn; split; reflexivity.
    - intros st s' (-> & it' & Hit & Htr & Hm & Hd).
      apply wp_bind.
      replace (existsb (Z.eqb (qs_retval st)) qp_retstr_keys) with true.
      2:{ symmetry. apply existsb_exists. exists (qs_retval st). split; [|apply Z.eqb_refl].
          pose proof (qd_rv _ _ Hd) as Hr. cbn in *; intuition. }
      rewrite andb_false_r. apply wp_ret. apply wp_ret. split; [reflexivity|]. split; [|repeat split; auto].
      destruct Hd as [Dx Dobj Drv Dcl Dfree Dllt Dok D6 D5 D1]. split; cbn; auto.
      + rewrite Dfree; apply idx_of_sorted.
      + rewrite Dfree; apply Forall_forall; intros i Hi; apply idx_of_in in Hi; lia.
      + intros H6; destruct (D6 H6) as [D6a D6b]; split; [rewrite Dfree; apply idx_of_false_nil; exact D6b|].
        intros i Hi. rewrite forallb_forall in D6b. apply D6b. rewrite D6a.
        unfold qp_clamped. apply in_map_iff; exists i; split; auto. apply in_seq; lia.
      + intros H5. destruct (D5 H5) as [H6 H7]. split; auto. rewrite Dfree, H6; reflexivity.
      + exists (Datatypes.S (Z.to_nat it')). split; [lia|]. split; [exact Htr|]. split.
        * intros H1; specialize (Hm H1); lia.
        * intros H1. specialize (D1 H1). lia.
  Qed.

End AnyScalar.
