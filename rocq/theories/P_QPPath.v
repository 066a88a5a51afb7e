(** C67: Box QP is the projected Newton method with Armijo back-tracking; what its exit "relative improvement too small" (retval 4) does and does not say. *)
From Verif Require Import Prelude Scalar LinAlg BoxQP BoxQPProofs BoxQPTerm QPCor Chol RLin CholProofs QPReal QPReal2 P_QPReal QPPath.
From Coq Require Import Reals Lra Psatz.
Local Open Scope R_scope.

(** A component at a limit whose gradient pushes it outwards. *)
Definition pinned (n : nat) (H : nat -> nat -> R) (g lower upper x : nat -> R) (i : nat) : Prop :=
  (x i = lower i /\ 0 < quad_grad n H g x i) \/ (x i = upper i /\ quad_grad n H g x i < 0).
Definition slope (n : nat) (H : nat -> nat -> R) (g x d : nat -> R) : R := Rsum n (fun i => d i * quad_grad n H g x i).
(** One step from [x] along [d] to [x'] after [k] refused trials. *)
Record newton_move (cfg : qp_config R) (n : nat) (H : mat R) (g lower upper : vec R) (x d : nat -> R) (k : nat) (x' : nat -> R) : Prop := {
  nm_box : in_box n lower upper x;
  nm_pinned : forall i, (i < n)%nat -> pinned n (mget H) (vget g) (vget lower) (vget upper) x i -> d i = 0;
  nm_free : forall i, (i < n)%nat -> ~ pinned n (mget H) (vget g) (vget lower) (vget upper) x i -> quad_grad n (mget H) (vget g) (fun j => x j + d j) i = 0;
  nm_descent : slope n (mget H) (vget g) x d < 0;
  nm_step : forall i, (i < n)%nat -> x' i = proj lower upper (fun j => x j + qp_step_factor cfg ^ k * d j) i;
  nm_refused : forall j, (j < k)%nat -> qp_armijo_param cfg * (qp_step_factor cfg ^ j * slope n (mget H) (vget g) x d)
    < quad n (mget H) (vget g) (proj lower upper (fun i => x i + qp_step_factor cfg ^ j * d i)) - quad n (mget H) (vget g) x;
  nm_accepted : quad n (mget H) (vget g) x' - quad n (mget H) (vget g) x <= qp_armijo_param cfg * (qp_step_factor cfg ^ k * slope n (mget H) (vget g) x d)
    \/ (0 < k)%nat /\ qp_step_factor cfg ^ k < qp_min_step cfg
}.

Lemma quad_ext n H g x y : (forall i, (i < n)%nat -> x i = y i) -> quad n H g x = quad n H g y.
Proof.
  intros E. unfold quad. f_equal; [apply Rsum_ext; intros i Hi; rewrite E by exact Hi; reflexivity|]. f_equal. apply Rsum_ext. intros i Hi. rewrite E by exact Hi. f_equal.
  apply Rsum_ext. intros j Hj. rewrite E by exact Hj. reflexivity.
Qed.

Section Path.
  Context {S : Type} (LL : lltops R) (cfg : qp_config R) (n : nat) (H : mat R) (g lower upper : vec R)
          (fuel afuel : nat) (ol : option (mat R)) (ix : vec R) (s s' : S) (out : qp_out R).
  Hypothesis Hsym : fsym n (mget H).
  Hypothesis Hrun : qp_solve LL cfg n H g lower upper fuel afuel ol ix s = Ok out s'.
  Hypothesis HLL : exact_llt LL.
  Hypothesis Hpd : posdef n (mget H).
  Hypothesis Hbox : forall i, (i < n)%nat -> vget lower i <= vget upper i.
  Hypothesis Hthre : qp_grad_thre cfg <> 0.
  Hypothesis Hfac : 0 < qp_step_factor cfg.

  Lemma dims : mdimb n n H = true /\ length g = n /\ length lower = n /\ length upper = n /\ length ix = n.
  Proof. destruct (qp_ok LL cfg n H g lower upper fuel afuel ol ix s s' out Hrun) as (_ & _ & A). exact A. Qed.

  Lemma move_R x e x' : (exists v, length v = n /\ x = qp_clip lower upper v) -> move LL cfg n H g lower upper x e x' ->
    qt_x e = x /\ qt_obj e = quad n (mget H) (vget g) (vget x) /\ (exists v, length v = n /\ x' = qp_clip lower upper v) /\
    exists k, qt_snum e = Z.of_nat k /\ newton_move cfg n H g lower upper (vget x) (vget (qt_dir e)) k (vget x').
  Proof.
    destruct dims as (HH & Hg & Hl & Hu & _).
    intros (v & Hv & Hx) M.
    assert (Lx : length x = n) by (rewrite Hx, qp_clip_length; exact Hv).
    pose proof (feas_of n g lower upper Hg Hl Hu Hbox v x Hv Hx) as Fx.
    split; [exact (mv_x _ _ _ _ _ _ _ _ _ _ M)|]. split; [rewrite (mv_obj _ _ _ _ _ _ _ _ _ _ M); apply qp_obj_R; auto|].
    destruct (mv_step _ _ _ _ _ _ _ _ _ _ M) as (k & Hk & Hx' & T1 & T2 & T3).
    split; [eexists; split; [|exact Hx']; unfold vadd; rewrite vbuild_length; exact Lx|].
    exists k. split; [exact Hk|].
    pose proof (mv_cl _ _ _ _ _ _ _ _ _ _ M) as Ecl. pose proof (mv_dir _ _ _ _ _ _ _ _ _ _ M) as Ed. pose proof (mv_ok _ _ _ _ _ _ _ _ _ _ M) as Eok. pose proof (mv_grad _ _ _ _ _ _ _ _ _ _ M) as Eg.
    set (cl := qt_clamped e) in *. set (d := qt_dir e) in *.
    assert (Ld : length d = n) by (rewrite Ed; apply vbuild_length).
    assert (Pin : forall i, (i < n)%nat -> (phi cl i = false <-> pinned n (mget H) (vget g) (vget lower) (vget upper) (vget x) i)).
    { intros i Hi. rewrite (phi_spec n H g lower upper x cl Ecl i Hi). unfold qp_clamped_at. rewrite negb_false_iff, orb_true_iff, !andb_true_iff.
      rewrite (qp_grad_R n H g x HH Hg). unfold pinned. unfold neqb, nltb. cbn [RNum nzero]. rewrite !Reqb_true, !Rltb_true. reflexivity. }
    assert (Dn : fdot n (vget d) (fgrad n (mget H) (vget g) (vget x)) < 0).
    { rewrite Ed. eapply (dir_nonzero LL cfg n H g lower upper); eauto. }
    assert (Esl : slope n (mget H) (vget g) (vget x) (vget d) = fdot n (vget d) (fgrad n (mget H) (vget g) (vget x))) by reflexivity.
    assert (Sdg : dot d (qp_grad H g x) = slope n (mget H) (vget g) (vget x) (vget d)).
    { rewrite dot_R, Ld. rewrite (qp_grad_R n) by auto. reflexivity. }
    assert (Tr : forall a i, (i < n)%nat -> vget (qp_clip lower upper (vadd x (vscale a d))) i = proj lower upper (fun j => vget x j + a * vget d j) i).
    { intros a i Hi. rewrite qp_clip_R by (unfold vadd; rewrite vbuild_length, Lx; exact Hi). unfold clampf, proj.
      rewrite vadd_f, vscale_f by (unfold vscale; rewrite vbuild_length; congruence). reflexivity. }
    assert (Ob : forall a, qp_obj H g (qp_clip lower upper (vadd x (vscale a d))) = quad n (mget H) (vget g) (proj lower upper (fun j => vget x j + a * vget d j))).
    { intros a. rewrite (qp_obj_R n) by (auto; rewrite qp_clip_length; unfold vadd; rewrite vbuild_length; exact Lx). apply quad_ext. intros i Hi. apply Tr. exact Hi. }
    assert (Ox : qp_obj H g x = quad n (mget H) (vget g) (vget x)) by (apply qp_obj_R; auto).
    assert (Ps : forall j, 0 < qp_step_factor cfg ^ j) by (intros j; apply pow_lt; exact Hfac).
    split.
    - exact Fx.
    - intros i Hi Hp. apply Pin in Hp; [|exact Hi]. rewrite Ed. apply (dir_clamped LL n H g lower upper Hg Hl Hu x cl Lx Ecl i Hi Hp).
    - intros i Hi Hp. assert (Hf : phi cl i = true) by (destruct (phi cl i) eqn:E; [reflexivity|]; exfalso; apply Hp, Pin; [exact Hi|exact E]).
      pose proof (dir_newton LL n H g lower upper HLL Hg Hl Hu Hsym x cl Lx Ecl Eok i Hi Hf) as E. rewrite <- Ed in E. unfold fgrad, fadd, fmv in E. unfold quad_grad.
      assert (Q : Rsum n (fun j => mget H i j * (vget x j + vget d j)) = Rsum n (fun j => mget H i j * vget x j) + Rsum n (fun j => mget H i j * vget d j))
        by (rewrite <- Rsum_plus; apply Rsum_ext; intros j _; ring). lra.
    - rewrite Esl. exact Dn.
    - intros i Hi. rewrite Hx', Tr, qp_step_R by exact Hi. reflexivity.
    - intros j Hj. specialize (T1 j Hj). rewrite Ob, Ox, Sdg, qp_step_R in T1. apply Rltb_true in T1. rewrite <- Esl in Dn.
      set (sl := slope _ _ _ _ _) in *. set (a := qp_step_factor cfg ^ j) in *. specialize (Ps j). fold a in Ps.
      match goal with |- _ < ?z => set (df := z) in * end. assert (Neg : a * sl < 0) by nra.
      replace df with (df / (a * sl) * (a * sl)) by (field; split; lra). change (df / (a * sl) < qp_armijo_param cfg) in T1. nra.
    - destruct T3 as [T3|[T3 T4]].
      + left. rewrite Hx'. rewrite Ob, Ox, Sdg, qp_step_R in T3. apply Rltb_false in T3. rewrite <- Esl in Dn.
        rewrite (quad_ext n (mget H) (vget g) _ (proj lower upper (fun j => vget x j + qp_step_factor cfg ^ k * vget d j))) by (intros i Hi; rewrite Tr, qp_step_R by exact Hi; reflexivity).
        set (sl := slope _ _ _ _ _) in *. set (a := qp_step_factor cfg ^ k) in *. specialize (Ps k). fold a in Ps.
        match goal with |- ?z <= _ => set (df := z) in * end. assert (Neg : a * sl < 0) by nra.
        replace df with (df / (a * sl) * (a * sl)) by (field; split; lra). change (qp_armijo_param cfg <= df / (a * sl)) in T3. nra.
      + right. split; [exact T3|]. rewrite qp_step_R in T4. apply Rltb_true in T4. exact T4.
  Qed.

  Lemma chain_R x0 es x : (exists v, length v = n /\ x0 = qp_clip lower upper v) -> chain LL cfg n H g lower upper x0 es x ->
    let pts := map qt_x es ++ [x] in
    (exists v, length v = n /\ x = qp_clip lower upper v) /\ nth 0 pts [] = x0 /\
    forall i e, nth_error es i = Some e -> qt_obj e = quad n (mget H) (vget g) (vget (nth i pts [])) /\
      exists k, qt_snum e = Z.of_nat k /\ newton_move cfg n H g lower upper (vget (nth i pts [])) (vget (qt_dir e)) k (vget (nth (i + 1) pts [])).
  Proof.
    intros Hx0 C. induction C as [x|x es y e z C IH M].
    - cbn. split; [exact Hx0|]. split; [reflexivity|]. intros [|i] e E; discriminate.
    - destruct (IH Hx0) as (Hy & H0 & Hs). destruct (move_R y e z Hy M) as (Ex & Eo & Hz & k & Ek & Hm).
      intros pts. split; [exact Hz|].
      assert (Ep : pts = (map qt_x es ++ [y]) ++ [z]) by (unfold pts; rewrite map_app, <- app_assoc; cbn [map app]; rewrite Ex, <- app_assoc; reflexivity).
      assert (Ll : length (map qt_x es ++ [y]) = Datatypes.S (length es)) by (rewrite app_length, map_length; cbn; lia).
      split; [rewrite Ep, (app_nth1 (map qt_x es ++ [y])) by lia; exact H0|].
      intros i e' He. destruct (Nat.lt_ge_cases i (length es)) as [Hi|Hi].
      + rewrite nth_error_app1 in He by exact Hi. rewrite Ep, !(app_nth1 (map qt_x es ++ [y])) by lia. apply Hs; exact He.
      + rewrite nth_error_app2 in He by exact Hi. destruct (i - length es)%nat as [|q] eqn:Ei; [|destruct q; discriminate He]. injection He as <-.
        assert (i = length es) as -> by lia. rewrite Ep.
        rewrite (app_nth1 (map qt_x es ++ [y])) by lia. rewrite (app_nth2 (map qt_x es ++ [y])) by lia.
        rewrite app_nth2 by (rewrite map_length; lia). rewrite map_length, Nat.sub_diag, Ll. replace (length es + 1 - Datatypes.S (length es))%nat with 0%nat by lia. cbn [nth].
        split; [exact Eo|]. exists k. split; [exact Ek|exact Hm].
  Qed.

  (** C67: the points reported by the trace, followed by the result, are a run of the projected Newton method from the clamped initial guess. *)
  Theorem C67_path : exists first steps last, qo_trace out = first :: steps ++ last /\
    let pts := map qt_x steps ++ [qo_x out] in
    (forall i, (i < n)%nat -> vget (nth 0 pts []) i = proj lower upper (vget ix) i) /\
    (forall i e, nth_error steps i = Some e -> qt_obj e = quad n (mget H) (vget g) (vget (qt_x e)) /\
      exists k, qt_snum e = Z.of_nat k /\ newton_move cfg n H g lower upper (vget (qt_x e)) (vget (qt_dir e)) k (vget (nth (i + 1) pts []))) /\
    (qo_retval out = 1%Z -> last = [] /\ (1 <= length steps)%nat) /\ (qo_retval out <> 1%Z -> length last = 1%nat) /\
    (qo_retval out = 4%Z -> exists e, nth_error steps (length steps - 1) = Some e /\
       quad n (mget H) (vget g) (vget (qt_x e)) - quad n (mget H) (vget g) (vget (qo_x out)) < qp_rel_improve_thre cfg * Rabs (quad n (mget H) (vget g) (vget (qt_x e)))).
  Proof.
    destruct dims as (HH & Hg & Hl & Hu & Hix).
    destruct (solve_path LL cfg n H g lower upper fuel afuel ol ix s s' out Hrun Hix) as (e0 & es & tl & Ht & Hc & He & Htl).
    destruct (chain_R _ _ _ ltac:(exists ix; split; [exact Hix|reflexivity]) Hc) as ((v & Hv & Hx) & H0 & Hs).
    exists e0, es, tl. split; [exact Ht|]. intros pts.
    assert (Ep : forall i e, nth_error es i = Some e -> nth i pts [] = qt_x e).
    { intros i e E. assert (Hi : (i < length es)%nat) by (apply nth_error_Some; congruence). unfold pts. rewrite app_nth1 by (rewrite map_length; exact Hi).
      apply nth_error_nth. rewrite nth_error_map, E. reflexivity. }
    split; [intros i Hi; unfold pts; rewrite H0; rewrite qp_clip_R by lia; reflexivity|].
    split; [intros i e E; pose proof (Hs i e E) as A; rewrite <- (Ep i e E); exact A|].
    split; [intros R; destruct Htl as [(_ & A & B)|(A & _)]; [split; assumption|contradiction]|].
    split; [intros R; destruct Htl as [(A & _)|(_ & it & A & _)]; [contradiction|rewrite A; reflexivity]|].
    intros R. destruct (He R) as (es' & e & Ee & Ei). exists e.
    assert (En : nth_error es (length es - 1) = Some e).
    { rewrite Ee, app_length. cbn [length]. replace (length es' + 1 - 1)%nat with (length es') by lia. rewrite nth_error_app2 by lia. rewrite Nat.sub_diag. reflexivity. }
    split; [exact En|]. apply Rltb_true in Ei. pose proof (proj1 (Hs _ _ En)) as Eo. fold pts in Eo. rewrite (Ep _ _ En) in Eo. rewrite Eo in Ei. rewrite (qp_obj_R n) in Ei by (auto; rewrite Hx, qp_clip_length; exact Hv). exact Ei.
  Qed.

  (** |(H d)_i|^2 <= H_ii d'Hd. *)
  Lemma energy_cs d i : (i < n)%nat -> 0 < mget H i i /\ fmv n (mget H) d i * fmv n (mget H) d i <= mget H i i * fdot n d (fmv n (mget H) d).
  Proof.
    intros Hi. set (w := fmv n (mget H) d i). set (u := fun j => if Nat.eqb j i then 1 else 0).
    assert (Su : forall F, fdot n u F = F i).
    { intros F. unfold fdot. rewrite (Rsum_single n _ i Hi) by (intros j Hj Hne; unfold u; destruct (Nat.eqb_spec j i); [contradiction|ring]). unfold u. rewrite Nat.eqb_refl. ring. }
    assert (Euu : fdot n u (fmv n (mget H) u) = mget H i i).
    { rewrite Su. unfold fmv. rewrite (Rsum_single n _ i Hi) by (intros j Hj Hne; unfold u; destruct (Nat.eqb_spec j i); [contradiction|ring]). unfold u. rewrite Nat.eqb_refl. ring. }
    assert (Hii : 0 < mget H i i).
    { rewrite <- Euu. apply Hpd. exists i. split; [exact Hi|]. unfold u. rewrite Nat.eqb_refl. lra. }
    split; [exact Hii|].
    pose proof (posdef_psd n (mget H) Hpd (fadd d (fscal (- w / mget H i i) u))) as Q.
    rewrite fmv_add, fmv_scal, !fdot_add_l, !fdot_add_r, !fdot_scal_l, !fdot_scal_r, Euu in Q. rewrite (fsym_swap n (mget H) d u Hsym), Su in Q. fold w in Q.
    assert (E : mget H i i * (fdot n d (fmv n (mget H) d) + - w / mget H i i * w + (- w / mget H i i * w + - w / mget H i i * (- w / mget H i i * mget H i i))) = mget H i i * fdot n d (fmv n (mget H) d) - w * w) by (field; lra).
    enough (0 <= mget H i i * (fdot n d (fmv n (mget H) d) + - w / mget H i i * w + (- w / mget H i i * w + - w / mget H i i * (- w / mget H i i * mget H i i)))) by lra.
    apply Rmult_le_pos; lra.
  Qed.

  (** C67: when the improvement is too small after a full Newton step that the box did not cut, the result is nearly optimal over the whole box. *)
  Theorem C67_full_step e : qo_retval out = 4%Z -> nth_error (qo_trace out) (length (qo_trace out) - 2) = Some e ->
    qt_snum e = 0%Z -> in_box n lower upper (fun i => vget (qt_x e) i + vget (qt_dir e) i) ->
    forall y, in_box n lower upper y ->
      quad n (mget H) (vget g) (vget (qo_x out))
        - Rsum n (fun i => sqrt (2 * mget H i i * (qp_rel_improve_thre cfg * Rabs (quad n (mget H) (vget g) (vget (qt_x e))))) * Rabs (y i - vget (qo_x out) i))
      <= quad n (mget H) (vget g) y.
  Proof.
    intros R4 He Hk Hin y Hy. destruct C67_path as (e0 & es & tl & Ht & _ & Hs & _ & Hl & H4). cbn zeta in Hs.
    assert (N1 : qo_retval out <> 1%Z) by (rewrite R4; discriminate). specialize (Hl N1). destruct (H4 R4) as (e' & He' & Himp).
    assert (Le : (1 <= length es)%nat) by (destruct es; [discriminate He'|cbn; lia]).
    assert (e' = e) as ->.
    { rewrite Ht in He. cbn [length] in He. rewrite app_length, Hl in He. replace (Datatypes.S (length es + 1) - 2)%nat with (Datatypes.S (length es - 1)) in He by lia.
      cbn [nth_error] in He. rewrite nth_error_app1 in He by lia. congruence. }
    destruct (Hs _ _ He') as (_ & k & Ek & M). assert (k = 0%nat) as -> by lia.
    replace (length es - 1 + 1)%nat with (length (map (@qt_x R) es)) in M by (rewrite map_length; lia).
    rewrite app_nth2, Nat.sub_diag in M by lia. cbn [nth] in M.
    destruct M as [Mb Mp Mf _ Mst _ _]. cbn [pow] in Mst.
    set (xe := vget (qt_x e)) in *. set (d := vget (qt_dir e)) in *. set (x := vget (qo_x out)) in *. set (Hm := mget H) in *. set (gm := vget g) in *.
    assert (Ex : forall i, (i < n)%nat -> x i = fadd xe d i).
    { intros i Hi. rewrite (Mst i Hi). unfold proj, fadd. specialize (Hin i Hi). cbn beta in Hin. rewrite Rmult_1_l, Rmin_left, Rmax_left by lra. reflexivity. }
    rewrite (quad_ext n Hm gm x _ Ex) in Himp |- *.
    assert (Dec : forall i, {pinned n Hm gm (vget lower) (vget upper) xe i} + {~ pinned n Hm gm (vget lower) (vget upper) xe i}).
    { intros i. unfold pinned. destruct (Req_EM_T (xe i) (vget lower i)); destruct (Req_EM_T (xe i) (vget upper i)); destruct (Rlt_dec 0 (quad_grad n Hm gm xe i)); destruct (Rlt_dec (quad_grad n Hm gm xe i) 0); try (left; tauto); right; tauto. }
    assert (Eg : forall i, fgrad n Hm gm (fadd xe d) i = quad_grad n Hm gm xe i + fmv n Hm d i).
    { intros i. unfold fgrad. rewrite fmv_add. unfold fadd, quad_grad, fmv. lra. }
    assert (Esl : fdot n (fgrad n Hm gm xe) d = - fdot n d (fmv n Hm d)).
    { rewrite fdot_comm, <- fdot_opp_r. apply Rsum_ext. intros i Hi. destruct (Dec i) as [Hp|Hp]; [rewrite (Mp i Hi Hp); unfold fopp; lra|].
      pose proof (Mf i Hi Hp) as Z. change (fgrad n Hm gm (fadd xe d) i = 0) in Z. rewrite Eg in Z. unfold fopp. change (fgrad n Hm gm xe i) with (quad_grad n Hm gm xe i). f_equal. lra. }
    pose proof (fobj_expand n Hm gm xe d Hsym) as Ef. rewrite Esl in Ef.
    change (quad n Hm gm) with (fobj n Hm gm) in *.
    set (E := fdot n d (fmv n Hm d)) in *. set (t := qp_rel_improve_thre cfg * Rabs (fobj n Hm gm xe)) in *.
    assert (HE : E < 2 * t) by lra.
    eapply Rle_trans; [|apply (fobj_convex n Hm gm (fadd xe d) y Hsym (posdef_psd n Hm Hpd))].
    match goal with |- ?A - ?B <= ?A + ?C => enough (- B <= C) by lra end.
    rewrite <- Rsum_opp. apply Rsum_le. intros i Hi. rewrite (Ex i Hi). unfold fsubv.
    destruct (energy_cs d i Hi) as (Hii & Hcs). fold Hm in Hii, Hcs. fold E in Hcs.
    assert (Ab : Rabs (fmv n Hm d i) <= sqrt (2 * Hm i i * t)).
    { rewrite <- sqrt_Rsqr_abs. apply sqrt_le_1_alt. unfold Rsqr. eapply Rle_trans; [exact Hcs|]. nra. }
    assert (Bd : - (sqrt (2 * Hm i i * t) * Rabs (y i - fadd xe d i)) <= fmv n Hm d i * (y i - fadd xe d i)).
    { apply Ropp_le_cancel. rewrite Ropp_involutive. eapply Rle_trans; [apply Rle_abs|]. rewrite Rabs_Ropp, Rabs_mult. apply Rmult_le_compat_r; [apply Rabs_pos|exact Ab]. }
    destruct (Dec i) as [Hp|Hp].
    - rewrite Eg. pose proof (Mp i Hi Hp) as Z. specialize (Hy i Hi). unfold fadd in *. rewrite Z in *. rewrite Rplus_0_r in *. destruct Hp as [(A & B)|(A & B)].
      + assert (0 <= quad_grad n Hm gm xe i * (y i - xe i)) by (apply Rmult_le_pos; lra). lra.
      + assert (0 <= - quad_grad n Hm gm xe i * (xe i - y i)) by (apply Rmult_le_pos; lra). lra.
    - pose proof (Mf i Hi Hp) as Z. change (fgrad n Hm gm (fadd xe d) i = 0) in Z. rewrite Z, Rmult_0_l. assert (0 <= sqrt (2 * Hm i i * t) * Rabs (y i - fadd xe d i)) by (apply Rmult_le_pos; [apply sqrt_pos|apply Rabs_pos]). lra.
  Qed.
End Path.
Print Assumptions C67_path.
Print Assumptions C67_full_step.

(** Non-vacuity: min x^2/2 - x over [-10, 10] from 1 - 1e-5 with the default settings: one full Newton step to 1, then retval 4. *)
Section Example.
  Context (LL : lltops R) (HLL : exact_llt LL).
  Let H1 : mat R := mkmat 1 1 [[1]].
  Let x0 : R := 1 - / 100000.
  Lemma ex_pd : posdef 1 (mget H1).
  Proof.
    intros y (i & Hi & Hy). assert (i = 0%nat) as -> by lia. unfold fdot, fmv, H1. cbn. unfold mget; cbn. pose proof (Rsqr_pos_lt _ Hy) as Q. unfold Rsqr in Q. lra.
  Qed.
  Lemma ex_sym : fsym 1 (mget H1).
  Proof. intros i j Hi Hj. assert (i = j) as -> by lia. reflexivity. Qed.
  Lemma ex_dir : qp_search_dir LL 1 H1 [-1] (mgather H1 [0%nat] [0%nat]) [x0] [0%nat] [] = [/ 100000].
  Proof.
    assert (Eg : mgather H1 [0%nat] [0%nat] = H1) by reflexivity. rewrite Eg. unfold qp_search_dir.
    assert (Eb : vadd (vgather [-1] [0%nat]) (mvmul (mgather H1 [0%nat] []) (vgather [x0] [])) = [-1]).
    { unfold vadd, vgather, mvmul, mgather, vbuild. cbn. numR. f_equal. lra. }
    rewrite Eb.
    assert (Li : llt_issue LL H1 = false) by (apply (el_issue LL HLL H1 1); [reflexivity|apply ex_sym|apply ex_pd]).
    pose proof (el_len LL HLL H1 1 [-1] eq_refl eq_refl) as Ll. pose proof (el_solve LL HLL H1 1 [-1] eq_refl ex_sym Li eq_refl) as Es.
    destruct (llt_solve LL H1 [-1]) as [|y0 [|]]; try discriminate Ll.
    pose proof (Es 0%nat ltac:(lia)) as E0. unfold fmv in E0. cbn in E0. unfold mget, vget in E0. cbn in E0.
    unfold vsub, vscale, vgather, vbuild. cbn. numR. f_equal. unfold x0. lra.
  Qed.
  Example C67_nonvacuous : fsym 1 (mget H1) /\ posdef 1 (mget H1) /\ qp_grad_thre (qp_default_config (T := R)) <> 0 /\ 0 < qp_step_factor (qp_default_config (T := R)) /\
    exists out e0 e, qp_solve LL qp_default_config 1 H1 [-1] [-10] [10] 2 200 None [x0] tt = Ok out tt /\ qo_retval out = 4%Z /\ qo_x out = [1] /\
      qo_trace out = [e0; e; qp_trace0 1 2] /\ qt_snum e = 0%Z /\ qt_x e = [x0] /\ in_box 1 [-10] [10] (fun i => vget (qt_x e) i + vget (qt_dir e) i).
  Proof.
    split; [exact ex_sym|]. split; [exact ex_pd|]. split; [cbn; lra|]. split; [cbn; lra|].
    unfold qp_solve, bind. cbn [guard mdimb vdimb]. unfold qp_loop, qp_iter, bind.
    cbn -[qp_clip qp_obj qp_grad qp_clamped qp_grad_norm idx_of mgather qp_search_dir dot vadd vscale qp_armijo nofZ qp_default_config].
    assert (Ec : qp_clip [-10] [10] [x0] = [x0]).
    { unfold qp_clip, vmax, vmin, vbuild, x0. cbn. numR. unfold nmax, nmin. numR.
      assert (E1 : Rltb 10 (1 - / 100000) = false) by (apply Rltb_false; lra). assert (E2 : Rltb (1 - / 100000) (-10) = false) by (apply Rltb_false; lra). rewrite E1, E2. reflexivity. }
    assert (Eg : qp_grad H1 [-1] [x0] = [- / 100000]) by (unfold qp_grad, vadd, mvmul, dot, H1, x0, vbuild; cbn; unfold mget; cbn; numR; f_equal; lra).
    assert (Ek : qp_clamped 1 [-10] [10] [x0] [- / 100000] = [false]).
    { unfold qp_clamped, qp_clamped_at, x0. cbn. numR. assert (F1 : Reqb (1 - / 100000) (-10) = false) by (apply Reqb_false; lra). assert (F2 : Reqb (1 - / 100000) 10 = false) by (apply Reqb_false; lra). rewrite F1, F2. reflexivity. }
    rewrite Ec, Eg, Ek.
    cbn -[qp_clip qp_obj qp_grad qp_clamped qp_grad_norm mgather qp_search_dir dot vadd vscale qp_armijo nofZ qp_default_config].
    assert (Li : llt_issue LL (mgather H1 [0%nat] [0%nat]) = false) by (apply (el_issue LL HLL H1 1); [reflexivity|apply ex_sym|apply ex_pd]).
    rewrite Li.
    assert (Gn : Rltb (qp_grad_norm [- / 100000] [0%nat]) (qp_grad_thre qp_default_config * qp_grad_thre qp_default_config) = false).
    { apply Rltb_false. unfold qp_grad_norm. cbn. numR. lra. }
    rewrite Gn. change (guard (mrows (mgather H1 [0%nat] [0%nat]) =? 1)%nat) with (@ret unit unit tt). cbn -[qp_clip qp_obj qp_grad qp_clamped qp_grad_norm mgather qp_search_dir dot vadd vscale qp_armijo nofZ qp_default_config].
    rewrite ex_dir.
    assert (Sg : dot [/ 100000] [- / 100000] = - / 10000000000) by (unfold dot, vbuild; cbn; numR; field). rewrite Sg.
    assert (Sn : Rltb (1 / 10000000000) (- / 10000000000) = false) by (apply Rltb_false; lra). rewrite Sn.
    assert (C0 : qp_clip [-10] [10] (vadd [x0] (vscale (nofZ 1) [/ 100000])) = [1]).
    { replace (vadd [x0] (vscale (nofZ 1) [/ 100000])) with [1] by (unfold vadd, vscale, vbuild, nofZ, x0; cbn; numR; f_equal; lra).
      unfold qp_clip, vmax, vmin, vbuild. cbn. numR. unfold nmax, nmin. numR.
      assert (E1 : Rltb 10 1 = false) by (apply Rltb_false; lra). assert (E2 : Rltb 1 (-10) = false) by (apply Rltb_false; lra). rewrite E1, E2. reflexivity. }
    rewrite C0.
    assert (O0 : qp_obj H1 [-1] [x0] = - / 2 + / 20000000000) by (unfold qp_obj, dot, mvmul, H1, vbuild, nhalf, x0; cbn; unfold mget; cbn; numR; field).
    assert (O1 : qp_obj H1 [-1] [1] = - / 2) by (unfold qp_obj, dot, mvmul, H1, vbuild, nhalf, x0; cbn; unfold mget; cbn; numR; field).
    rewrite O0, O1.
    match goal with |- context [qp_armijo ?c ?h ?g ?l ?u 200 ?x ?d ?o ?sd ?a ?k ?xc ?oc ?r ?st] =>
      assert (Ha : qp_armijo c h g l u 200 x d o sd a k xc oc r st = Ok (a, k, xc, oc, r) st) end.
    { cbn [qp_armijo].
      match goal with |- context [if ?c then _ else _] => assert (Et : c = false) end.
      { apply Rltb_false. unfold nofZ. cbn. numR. match goal with |- _ <= ?q => replace q with (/ 2) by field end. lra. }
      rewrite Et. reflexivity. }
    rewrite Ha.
    cbn -[qp_clip qp_obj qp_grad qp_clamped qp_grad_norm mgather qp_search_dir dot vadd vscale qp_armijo nofZ qp_rel_improve_thre].
    match goal with |- context [if ?c then _ else _] => assert (Er : c = true) end.
    { apply Rltb_true. cbn [qp_rel_improve_thre qp_default_config nlit RNum]. rewrite Rabs_left by lra. lra. }
    rewrite Er. cbn -[qp_clip qp_obj qp_grad qp_clamped qp_grad_norm mgather qp_search_dir dot vadd vscale qp_armijo nofZ].
    eexists _, _, _. split; [reflexivity|]. split; [reflexivity|]. split; [reflexivity|]. split; [reflexivity|]. split; [reflexivity|]. split; [reflexivity|].
    intros i Hi. assert (i = 0%nat) as -> by lia. cbn. unfold x0. lra.
  Qed.
End Example.
