(** The passes of BoxQP as a chain of steps, for every scalar type. *)
From Verif Require Import Prelude Scalar LinAlg BoxQP BoxQPProofs BoxQPTerm.

Section Path.
  Context {T : Type} {N : Num T} (LL : lltops T) (cfg : qp_config T) (n : nat) (H : mat T) (g lower upper : vec T).
  Local Open Scope num_scope.
  Notation step := (qp_step cfg).
  Notation trial x d k := (qp_clip lower upper (vadd x (vscale (step k) d))).
  Notation test x d k := ((qp_obj H g (trial x d k) - qp_obj H g x) / (step k * dot d (qp_grad H g x)) <? qp_armijo_param cfg).
  (** One pass from [x] to [x'], reported by the trace entry [e]. *)
  Record move (x : vec T) (e : qp_trace T) (x' : vec T) : Prop := {
    mv_x : qt_x e = x;
    mv_obj : qt_obj e = qp_obj H g x;
    mv_cl : qt_clamped e = qp_clamped n lower upper x (qp_grad H g x);
    mv_free : idx_of false (qt_clamped e) <> [];
    mv_ok : llt_issue LL (mgather H (idx_of false (qt_clamped e)) (idx_of false (qt_clamped e))) = false;
    mv_grad : qp_grad_norm (qp_grad H g x) (idx_of false (qt_clamped e)) <? qp_grad_thre cfg * qp_grad_thre cfg = false;
    mv_dir : qt_dir e = qp_search_dir LL n H g (mgather H (idx_of false (qt_clamped e)) (idx_of false (qt_clamped e))) x
                          (idx_of false (qt_clamped e)) (idx_of true (qt_clamped e));
    mv_step : exists k, qt_snum e = Z.of_nat k /\ x' = trial x (qt_dir e) k /\ (forall j, j < k -> test x (qt_dir e) j = true) /\
                (forall j, 0 < j < k -> step j <? qp_min_step cfg = false) /\
                (test x (qt_dir e) k = false \/ (0 < k /\ step k <? qp_min_step cfg = true))
  }.
  (** [es] are the entries of consecutive passes from [x] to [x']. *)
  Inductive chain : vec T -> list (qp_trace T) -> vec T -> Prop :=
  | chain_nil x : chain x [] x
  | chain_snoc x es y e z : chain x es y -> move y e z -> chain x (es ++ [e]) z.

  Lemma armijo_path {S} fuel x dir : length x = n -> forall j rv (s : S) U E,
    (forall i, i < j -> test x dir i = true) -> (forall i, 0 < i -> i <= j -> step i <? qp_min_step cfg = false) ->
    wp U (qp_armijo cfg H g lower upper fuel x dir (qp_obj H g x) (dot dir (qp_grad H g x)) (step j) (Z.of_nat j) (trial x dir j) (qp_obj H g (trial x dir j)) rv)
       (fun r s' => s' = s /\ let '(step', snum', xc', oc', rv') := r in
          exists k, snum' = Z.of_nat k /\ xc' = trial x dir k /\ oc' = qp_obj H g (trial x dir k) /\ (forall j, j < k -> test x dir j = true) /\
            (forall j, 0 < j < k -> step j <? qp_min_step cfg = false) /\
            (test x dir k = false \/ (0 < k /\ step k <? qp_min_step cfg = true))) E s.
  Proof.
    intros Lx. induction fuel as [|fu IH]; intros j rv s U E Hj Hm; cbn [qp_armijo].
    - destruct (test x dir j) eqn:Et; [exact I|]. apply wp_ret. split; [reflexivity|]. exists j.
      split; [reflexivity|]. split; [reflexivity|]. split; [reflexivity|]. split; [exact Hj|]. split; [intros i Hi; apply Hm; lia|left; exact Et].
    - destruct (test x dir j) eqn:Et.
      2:{ apply wp_ret. split; [reflexivity|]. exists j.
          split; [reflexivity|]. split; [reflexivity|]. split; [reflexivity|]. split; [exact Hj|]. split; [intros i Hi; apply Hm; lia|left; exact Et]. }
      change (step j * qp_step_factor cfg) with (step (Datatypes.S j)).
      assert (Hj' : forall i, i < Datatypes.S j -> test x dir i = true).
      { intros i Hi. destruct (Nat.eq_dec i j) as [->|Hne]; [exact Et|apply Hj; lia]. }
      replace (Z.of_nat j + 1)%Z with (Z.of_nat (Datatypes.S j)) by lia.
      destruct (step (Datatypes.S j) <? qp_min_step cfg) eqn:Em.
      + apply wp_ret. split; [reflexivity|]. exists (Datatypes.S j).
        split; [reflexivity|]. split; [reflexivity|]. split; [reflexivity|]. split; [exact Hj'|]. split; [intros i Hi; apply Hm; lia|]. right. split; [lia|exact Em].
      + apply IH; [exact Hj'|]. intros i H1 H2. destruct (Nat.eq_dec i (Datatypes.S j)) as [->|Hne]; [exact Em|apply Hm; lia].
  Qed.

  (** What the exit code says about the last point. *)
  Definition exit_reason (es : list (qp_trace T)) (x : vec T) (rv : Z) : Prop :=
    (rv = 4%Z -> exists es' e, es = es' ++ [e] /\ qt_obj e - qp_obj H g x <? qp_rel_improve_thre cfg * nabs (qt_obj e) = true).
  Definition path (it : Z) (x0 : vec T) (st : qp_st T) : Prop :=
    exists e0 es, qs_trace st = e0 :: es /\ chain x0 es (qs_x st) /\ Z.of_nat (length es) = (it - 1)%Z /\
      (es <> [] -> exists es' e, es = es' ++ [e] /\ qs_old_obj st = qt_obj e).
  Definition path_end (it : Z) (x0 : vec T) (st : qp_st T) : Prop :=
    exists e0 es tl, qs_trace st = e0 :: es ++ tl /\ chain x0 es (qs_x st) /\ exit_reason es (qs_x st) (qs_retval st) /\
      ((qs_retval st = 1%Z /\ tl = [] /\ Z.of_nat (length es) = it) \/ (qs_retval st <> 1%Z /\ tl = [qp_trace0 n it] /\ Z.of_nat (length es) = (it - 1)%Z)).

  Lemma iter_path {S} U E fuel it st x0 (s : S) :
    (1 <= it)%Z -> (if (it =? 1)%Z then qp_start n H g lower upper st else qp_cont LL n H g lower upper st) -> path it x0 st ->
    wp U (qp_iter LL cfg n H g lower upper fuel it st)
       (fun r s' => if snd r then path_end it x0 (fst r) else path (it + 1) x0 (fst r)) E s.
  Proof.
    intros Hit Hinv (e0 & es & Htr & Hch & Hlen & Hold).
    assert (Hxs : exists v, length v = n /\ qs_x st = qp_clip lower upper v) by (destruct (it =? 1)%Z; apply Hinv).
    assert (Hos : qs_obj st = qp_obj H g (qs_x st)) by (destruct (it =? 1)%Z; apply Hinv).
    assert (Hlx : length (qs_x st) = n) by (destruct Hxs as (v & Hv & ->); rewrite qp_clip_length; exact Hv).
    assert (Hexit : forall st' rv, qs_x st' = qs_x st -> qs_trace st' = qs_trace st ++ [qp_trace0 n it] -> qs_retval st' = rv -> rv <> 1%Z -> rv <> 4%Z -> path_end it x0 st').
    { intros st' rv E1 E2 E3 N1 N4. exists e0, es, [qp_trace0 n it]. rewrite E1, E2, E3, Htr. split; [reflexivity|]. split; [exact Hch|]. split; [intros X; contradiction|].
      right. split; [exact N1|]. split; [reflexivity|exact Hlen]. }
    unfold qp_iter.
    destruct ((1 <? it)%Z && _) eqn:E4.
    { apply andb_true_iff in E4 as [E4 E5]. apply Z.ltb_lt in E4. apply wp_ret; cbn [fst snd].
      exists e0, es, [qp_trace0 n it]. cbn [qp_st_exit qs_x qs_trace qs_retval]. rewrite Htr. split; [reflexivity|]. split; [exact Hch|]. split.
      - intros _. destruct Hold as (es' & e & Ee & Eo); [destruct es; [cbn in Hlen; lia|discriminate]|]. exists es', e. split; [exact Ee|]. rewrite <- Eo, <- Hos. exact E5.
      - right. split; [discriminate|]. split; [reflexivity|exact Hlen]. }
    set (grad := qp_grad H g (qs_x st)).
    set (clamped := qp_clamped n lower upper (qs_x st) grad).
    assert (Hcl : length clamped = n) by (unfold clamped, qp_clamped; rewrite map_length, seq_length; reflexivity).
    destruct (forallb (fun b => b) clamped) eqn:Eall.
    { apply wp_ret; cbn [fst snd]. apply (Hexit _ 6%Z); try reflexivity; discriminate. }
    pose proof (idx_of_false_nonnil _ Eall) as Hne.
    set (free := idx_of false clamped) in *.
    set (changed := (it =? 1)%Z || _).
    set (llt' := if changed then _ else _).
    assert (Hllt : llt' = Some (mgather H free free) /\ (changed = false -> llt_issue LL (mgather H free free) = false)).
    { unfold llt'. destruct changed eqn:Ec; [split; [reflexivity|discriminate]|].
      unfold changed in Ec. apply orb_false_iff in Ec as [Ei Eq].
      rewrite Ei in Hinv. apply negb_false_iff in Eq.
      assert (Hsame : clamped = qs_clamped st).
      { apply (nth_ext _ _ false false); [rewrite Hcl; symmetry; apply Hinv|].
        intros i Hi. rewrite forallb_forall in Eq. apply eqb_prop, Eq. apply in_seq; lia. }
      assert (Hf : free = qs_free st) by (unfold free; rewrite Hsame; symmetry; apply Hinv).
      rewrite Hf. split; [apply Hinv|intros _; apply Hinv]. }
    destruct Hllt as [Hllt Hissue].
    destruct (changed && llt_issue LL (mgather H free free)) eqn:Ei.
    { apply wp_ret; cbn [fst snd]. apply (Hexit _ (-1)%Z); try reflexivity; discriminate. }
    assert (Hok : llt_issue LL (mgather H free free) = false).
    { apply andb_false_iff in Ei as [Ei|Ei]; auto. }
    match goal with |- wp _ (if ?c then _ else _) _ _ _ => destruct c eqn:E5 end.
    { apply wp_ret; cbn [fst snd]. apply (Hexit _ 5%Z); try reflexivity; discriminate. }
    rewrite Hllt.
    apply wp_bind. unfold must. apply wp_ret.
    apply wp_bind. apply wp_guard; [intros _|].
    2:{ cbn [mgather mrows]. rewrite Nat.eqb_refl. discriminate. }
    set (dir := qp_search_dir _ _ _ _ _ _ _ _).
    match goal with |- wp _ (if ?c then _ else _) _ _ _ => destruct c eqn:E2 end.
    { apply wp_ret; cbn [fst snd]. apply (Hexit _ (-2)%Z); try reflexivity; discriminate. }
    apply wp_bind. rewrite Hos.
    eapply wp_conseq; [apply (armijo_path fuel (qs_x st) dir Hlx 0); [intros i Hi; lia|intros i H1 H2; lia]| |intros e s' He; exact He].
    intros [[[[step' snum'] xc'] oc'] rv'] s' (-> & k & Hk & Hxc & Hoc & K1 & K2 & K3).
    apply wp_ret; cbn [fst snd].
    rewrite Htr. rewrite upd_last_app.
    match goal with |- context [(e0 :: es) ++ [?e]] => set (ne := e) end.
    assert (Mv : move (qs_x st) ne xc').
    { split; cbn [ne qt_x qt_obj qt_clamped qt_dir qt_snum]; try reflexivity; try assumption. exists k. split; [exact Hk|]. split; [exact Hxc|]. split; [exact K1|]. split; [exact K2|exact K3]. }
    assert (Ch : chain x0 (es ++ [ne]) xc') by (econstructor; [exact Hch|exact Mv]).
    assert (Ln : Z.of_nat (length (es ++ [ne])) = it) by (rewrite app_length; cbn; lia).
    destruct (it =? qp_max_iter cfg)%Z eqn:Em.
    - exists e0, (es ++ [ne]), []. cbn [qs_x qs_trace qs_retval]. rewrite app_nil_r. split; [reflexivity|]. split; [exact Ch|]. split; [intros X; discriminate|]. left. split; [reflexivity|]. split; [reflexivity|exact Ln].
    - exists e0, (es ++ [ne]). cbn [qs_x qs_trace qs_old_obj]. split; [reflexivity|]. split; [exact Ch|]. split; [lia|].
      intros _. exists es, ne. split; [reflexivity|]. reflexivity.
  Qed.

  Lemma loop_path {S} U E e0 x0 fuel afuel : forall it st (s : S),
    (1 <= it)%Z -> (if (it =? 1)%Z then qp_start n H g lower upper st else qp_cont LL n H g lower upper st) ->
    tr_iters e0 (Z.to_nat it) (qs_trace st) -> path it x0 st ->
    wp U (qp_loop LL cfg n H g lower upper fuel afuel it st) (fun st' s' => exists it', (1 <= it')%Z /\ path_end it' x0 st') E s.
  Proof.
    induction fuel as [|fu IH]; intros it st s Hit Hinv Htr Hp; cbn [qp_loop]; [exact I|].
    apply wp_bind.
    eapply wp_conseq; [apply (wp_conj U _ _ _ _ _ s (qp_iter_spec LL cfg n H g lower upper U E e0 afuel it st s Hit Hinv Htr)
                          (iter_path U E afuel it st x0 s Hit Hinv Hp))| |intros e s' [He _]; exact He].
    intros [st' brk] s' ((-> & Htr' & Hr) & Hq); cbn [fst snd] in *.
    destruct brk.
    - apply wp_ret. exists it. split; assumption.
    - destruct Hr as [Hc Hm]. apply IH; auto; try lia.
      + replace (it + 1 =? 1)%Z with false by (symmetry; apply Z.eqb_neq; lia). exact Hc.
      + replace (Z.to_nat (it + 1)) with (Datatypes.S (Z.to_nat it)) by lia; exact Htr'.
  Qed.

  Lemma solve_path {S} fuel afuel ol ix (s s' : S) out :
    qp_solve LL cfg n H g lower upper fuel afuel ol ix s = Ok out s' -> length ix = n ->
    exists e0 es tl, qo_trace out = e0 :: es ++ tl /\ chain (qp_clip lower upper ix) es (qo_x out) /\ exit_reason es (qo_x out) (qo_retval out) /\
      ((qo_retval out = 1%Z /\ tl = [] /\ (1 <= length es)) \/ (qo_retval out <> 1%Z /\ exists it, tl = [qp_trace0 n it] /\ it = Z.of_nat (Datatypes.S (length es)))).
  Proof.
    intros Ez Hix.
    assert (W : wp True (qp_solve LL cfg n H g lower upper fuel afuel ol ix)
      (fun out s' => exists e0 es tl, qo_trace out = e0 :: es ++ tl /\ chain (qp_clip lower upper ix) es (qo_x out) /\ exit_reason es (qo_x out) (qo_retval out) /\
        ((qo_retval out = 1%Z /\ tl = [] /\ (1 <= length es)) \/ (qo_retval out <> 1%Z /\ exists it, tl = [qp_trace0 n it] /\ it = Z.of_nat (Datatypes.S (length es))))) (fun _ _ => True) s).
    { unfold qp_solve. apply wp_bind. apply wp_guard; [intros Hg|auto]. apply wp_bind.
      eapply wp_conseq; [eapply (loop_path True (fun _ _ => True) _ (qp_clip lower upper ix))| |auto].
      - lia.
      - cbn. split; cbn; auto. exists ix; split; auto.
      - cbn; split; reflexivity.
      - eexists _, []. cbn [qs_trace qs_x]. split; [reflexivity|]. split; [constructor|]. split; [reflexivity|]. intros X; contradiction.
      - intros st s1 (it' & Hi & e0 & es & tl & H1 & H2 & H3 & H4).
        apply wp_bind. match goal with |- wp _ (if ?c then _ else _) _ _ _ => destruct c end; [exact I|]. apply wp_ret. apply wp_ret. cbn [qo_x qo_trace qo_retval].
        exists e0, es, tl. split; [exact H1|]. split; [exact H2|]. split; [exact H3|].
        destruct H4 as [(R1 & R2 & R3)|(R1 & R2 & R3)]; [left|right]; split; auto; [split; [exact R2|lia]|]. exists it'. split; [exact R2|lia]. }
    unfold wp in W. rewrite Ez in W. exact W.
  Qed.
End Path.
