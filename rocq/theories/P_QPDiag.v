(** C82: with a diagonal matrix Box QP settles at least one more variable in every pass, so n passes are enough. *)
From Verif Require Import Prelude Scalar LinAlg BoxQP BoxQPProofs BoxQPTerm QPCor Chol RLin CholProofs QPReal QPReal2 P_QP P_QPReal QPPath P_QPPath P_QPOne.
From Coq Require Import Reals Lra Psatz.
Local Open Scope R_scope.

Definition diagonal (n : nat) (H : nat -> nat -> R) : Prop := forall i j, (i < n)%nat -> (j < n)%nat -> i <> j -> H i j = 0.
(** A variable whose refusal made the whole trial fail is at its optimum at the next trial. *)
Lemma reach1 h g l u x be ar s : 0 < h -> l <= u -> l <= x <= u -> 0 < be <= 1 -> ar <= be / 2 -> 0 < s <= 1 ->
  let m := - g / h in let d := m - x in
  ar * (s * (d * (g + h * x))) < par h g (clamp l u (x + s * d)) - par h g x -> d <> 0 /\ clamp l u (x + be * s * d) = clamp l u m.
Proof.
  intros Hh Hlu Hx Hbe Har Hs m d Href. assert (Hh' : h <> 0) by lra.
  assert (Eg : d * (g + h * x) = - h * (d * d)) by (unfold d, m; field; exact Hh'). rewrite Eg in Href. clear Eg.
  assert (Hm : m = x + d) by (unfold d; ring).
  assert (Hd : d <> 0).
  { intros E. rewrite E in Href. replace (x + s * 0) with x in Href by ring.
    destruct (clamp_cases l u x Hlu) as [[A B]|[[A B]|[A B]]]; [rewrite B in Href; lra|lra|lra]. }
  split; [exact Hd|]. assert (Hdd : 0 < d * d) by nra. set (y := x + s * d) in *.
  assert (Py : forall z, par h g z - par h g x = h / 2 * ((z - m) * (z - m) - d * d)).
  { intros z. rewrite (par_m h g z Hh'), (par_m h g x Hh'). fold m. unfold d. field. }
  rewrite Py in Href.
  assert (R1 : d * d - (clamp l u y - m) * (clamp l u y - m) < be * s * (d * d)).
  { assert (h * (d * d - (clamp l u y - m) * (clamp l u y - m)) < h * (2 * ar * s * (d * d))) by nra.
    assert (d * d - (clamp l u y - m) * (clamp l u y - m) < 2 * ar * s * (d * d)) by (apply Rmult_lt_reg_l with h; assumption).
    assert (2 * ar * s * (d * d) <= be * s * (d * d)); [|lra]. assert (0 < s * (d * d)) by (apply Rmult_lt_0_compat; lra). nra. }
  assert (Bs : 0 < be * s) by nra.
  destruct (clamp_cases l u y Hlu) as [[A E]|[[A E]|[A E]]]; rewrite E in R1.
  - exfalso. replace ((y - m) * (y - m)) with ((1 - s) * (1 - s) * (d * d)) in R1 by (unfold y, d; ring).
    assert (d * d * (be * s) <= d * d * s) by (apply Rmult_le_compat_l; nra).
    assert (d * d * (s * s) <= d * d * s) by (apply Rmult_le_compat_l; nra). nra.
  - assert (dn : d < 0) by (unfold y in A; nra). assert (Hml : m < l) by (unfold y in A; nra).
    assert (E1 : x + be * s * d <= l).
    { assert (T : (x - l) * - d <= d * d - (l - m) * (l - m)) by (unfold d in *; nra).
      assert ((x - l) * - d < be * s * - d * - d) by nra. assert (x - l < be * s * - d); [|lra]. apply Rmult_lt_reg_r with (- d); [lra|assumption]. }
    destruct (clamp_cases l u m Hlu) as [[H2 E2]|[[H2 E2]|[H2 E2]]]; try lra. rewrite E2.
    destruct (clamp_cases l u (x + be * s * d) Hlu) as [[H3 E3]|[[H3 E3]|[H3 E3]]]; rewrite E3; lra.
  - assert (dp : 0 < d) by (unfold y in A; nra). assert (Hmu : u < m) by (unfold y in A; nra).
    assert (E1 : u <= x + be * s * d).
    { assert (T : (u - x) * d <= d * d - (u - m) * (u - m)) by (unfold d in *; nra).
      assert ((u - x) * d < be * s * d * d) by nra. assert (u - x < be * s * d); [|lra]. apply Rmult_lt_reg_r with d; [lra|assumption]. }
    destruct (clamp_cases l u m Hlu) as [[H2 E2]|[[H2 E2]|[H2 E2]]]; try lra. rewrite E2.
    destruct (clamp_cases l u (x + be * s * d) Hlu) as [[H3 E3]|[[H3 E3]|[H3 E3]]]; rewrite E3; lra.
Qed.
Lemma Rsum_lt_ex n f g : Rsum n f < Rsum n g -> exists i, (i < n)%nat /\ f i < g i.
Proof.
  induction n as [|n IH]; cbn [Rsum]; intros H; [lra|]. destruct (Rlt_le_dec (f n) (g n)) as [L|L]; [exists n; split; [lia|exact L]|].
  destruct IH as (i & Hi & Hlt); [lra|]. exists i. split; [lia|exact Hlt].
Qed.
(** How many of the first n variables differ from c. *)
Fixpoint unsettled (n : nat) (c x : nat -> R) : nat := match n with O => O | S n => (unsettled n c x + if Req_EM_T (x n) (c n) then 0 else 1)%nat end.
Lemma unsettled_le n c x : (unsettled n c x <= n)%nat.
Proof. induction n as [|n IH]; cbn [unsettled]; [lia|]. destruct (Req_EM_T _ _); lia. Qed.
Lemma unsettled_mono n c x x' : (forall i, (i < n)%nat -> x i = c i -> x' i = c i) -> (unsettled n c x' <= unsettled n c x)%nat.
Proof.
  induction n as [|n IH]; intros H; cbn [unsettled]; [lia|]. specialize (IH (fun i Hi => H i ltac:(lia))).
  destruct (Req_EM_T (x n) (c n)) as [E|E]; [rewrite (H n ltac:(lia) E)|]; destruct (Req_EM_T _ (c n)); try lia; congruence.
Qed.
Lemma unsettled_lt n c x x' : (forall i, (i < n)%nat -> x i = c i -> x' i = c i) -> (exists i, (i < n)%nat /\ x i <> c i /\ x' i = c i) -> (unsettled n c x' < unsettled n c x)%nat.
Proof.
  induction n as [|n IH]; intros H (i & Hi & Hx & Hx'); [lia|]. cbn [unsettled]. destruct (Nat.eq_dec i n) as [->|Hne].
  - pose proof (unsettled_mono n c x x' (fun i Hi => H i ltac:(lia))). destruct (Req_EM_T (x n) (c n)); [contradiction|]. destruct (Req_EM_T (x' n) (c n)); [lia|contradiction].
  - assert (Hi' : (i < n)%nat) by lia. specialize (IH (fun i Hi => H i ltac:(lia)) (ex_intro _ i (conj Hi' (conj Hx Hx')))).
    destruct (Req_EM_T (x n) (c n)) as [E|E]; [rewrite (H n ltac:(lia) E)|]; destruct (Req_EM_T _ (c n)); try lia; congruence.
Qed.

Section Diag.
  Context {S : Type} (LL : lltops R) (cfg : qp_config R) (n : nat) (H : mat R) (g lower upper : vec R)
          (fuel afuel : nat) (ol : option (mat R)) (ix : vec R) (s s' : S) (out : qp_out R).
  Hypothesis Hrun : qp_solve LL cfg n H g lower upper fuel afuel ol ix s = Ok out s'.
  Hypothesis HLL : exact_llt LL.
  Hypothesis Hdiag : diagonal n (mget H).
  Hypothesis Hh : forall i, (i < n)%nat -> 0 < mget H i i.
  Hypothesis Hbox : forall i, (i < n)%nat -> vget lower i <= vget upper i.
  Hypothesis Hthre : qp_grad_thre cfg <> 0.
  Hypothesis Hfac : 0 < qp_step_factor cfg <= 1.
  Hypothesis Harm : 0 <= qp_armijo_param cfg <= qp_step_factor cfg / 2.
  Notation h i := (mget H i i).
  Notation q := (quad n (mget H) (vget g)).
  Notation gr := (quad_grad n (mget H) (vget g)).
  (** The minimiser over the box. *)
  Definition best (i : nat) : R := clamp (vget lower i) (vget upper i) (- vget g i / h i).

  Lemma diag_row x i : (i < n)%nat -> Rsum n (fun j => mget H i j * x j) = h i * x i.
  Proof using Hdiag. intros Hi. apply Rsum_single with (i := i) (f := fun j => mget H i j * x j); [exact Hi|]. intros j Hj Hne. rewrite Hdiag by auto. ring. Qed.
  Lemma diag_sym : fsym n (mget H).
  Proof using Hdiag. intros i j Hi Hj. destruct (Nat.eq_dec i j) as [->|Hne]; [reflexivity|]. rewrite !Hdiag by auto. reflexivity. Qed.
  Lemma diag_pd : posdef n (mget H).
  Proof using Hdiag Hh.
    intros y (i & Hi & Hy). unfold fdot, fmv. apply Rlt_le_trans with (y i * (h i * y i)).
    - specialize (Hh i Hi). assert (0 < y i * y i) by nra. nra.
    - rewrite <- (diag_row y i Hi). apply (Rsum_term_le n (fun i => y i * Rsum n (fun j => mget H i j * y j))); [|exact Hi].
      intros j Hj. rewrite diag_row by exact Hj. specialize (Hh j Hj). pose proof (Rle_0_sqr (y j)) as Q. unfold Rsqr in Q. nra.
  Qed.
  Lemma diag_quad x : q x = Rsum n (fun i => par (h i) (vget g i) (x i)).
  Proof using Hdiag.
    unfold quad. rewrite <- Rsum_scal, <- Rsum_plus. apply Rsum_ext. intros i Hi. rewrite diag_row by exact Hi. unfold par. ring.
  Qed.
  Lemma diag_grad x i : (i < n)%nat -> gr x i = vget g i + h i * x i.
  Proof using Hdiag. intros Hi. unfold quad_grad. rewrite diag_row by exact Hi. reflexivity. Qed.
  Lemma best_box i : (i < n)%nat -> vget lower i <= best i <= vget upper i.
  Proof using Hbox. intros Hi. unfold best. destruct (clamp_cases (vget lower i) (vget upper i) (- vget g i / h i) (Hbox i Hi)) as [[A ->]|[[A ->]|[A ->]]]; specialize (Hbox i Hi); lra. Qed.
  (** [best] is the minimiser, with a quadratic margin. *)
  Lemma best_min y : in_box n lower upper y -> q best + Rsum n (fun i => h i / 2 * ((y i - best i) * (y i - best i))) <= q y.
  Proof using Hdiag Hh Hbox.
    intros Hy. rewrite !diag_quad, <- Rsum_plus. apply Rsum_le. intros i Hi. apply clamp_min; [apply Hh|apply Hbox|apply Hy]; exact Hi.
  Qed.
  Lemma pinned_best x i : (i < n)%nat -> pinned n (mget H) (vget g) (vget lower) (vget upper) x i -> x i = best i.
  Proof using Hdiag Hh Hbox.
    intros Hi. unfold pinned, best. rewrite diag_grad by exact Hi. specialize (Hh i Hi). specialize (Hbox i Hi).
    assert (E : vget g i + h i * x i = h i * (x i - - vget g i / h i)) by (field; lra). rewrite E. set (m := - vget g i / h i).
    intros [[A B]|[A B]].
    - assert (m < x i) by (assert (0 < x i - m); [apply Rmult_lt_reg_l with (h i); [exact Hh|lra]|lra]).
      destruct (clamp_cases (vget lower i) (vget upper i) m Hbox) as [[H1 ->]|[[H1 ->]|[H1 ->]]]; lra.
    - assert (x i < m) by (assert (x i - m < 0); [apply Rmult_lt_reg_l with (h i); [exact Hh|lra]|lra]).
      destruct (clamp_cases (vget lower i) (vget upper i) m Hbox) as [[H1 ->]|[[H1 ->]|[H1 ->]]]; lra.
  Qed.
  Lemma free_best x i : (i < n)%nat -> vget lower i <= x i <= vget upper i -> ~ pinned n (mget H) (vget g) (vget lower) (vget upper) x i -> x i = best i -> x i = - vget g i / h i.
  Proof using Hdiag Hh Hbox.
    intros Hi Hx Hp E. unfold best in E. specialize (Hh i Hi). specialize (Hbox i Hi). unfold pinned in Hp. rewrite diag_grad in Hp by exact Hi.
    assert (Eg : vget g i + h i * x i = h i * (x i - - vget g i / h i)) by (field; lra). rewrite Eg in Hp. set (m := - vget g i / h i) in *.
    destruct (clamp_cases (vget lower i) (vget upper i) m Hbox) as [[H1 E1]|[[H1 E1]|[H1 E1]]]; rewrite E1 in E; [exact E| |].
    - exfalso. apply Hp. left. split; [exact E|]. apply Rmult_lt_0_compat; lra.
    - exfalso. apply Hp. right. split; [exact E|]. assert (0 < h i * (m - x i)) by (apply Rmult_lt_0_compat; lra). lra.
  Qed.

  Lemma move_diag x d k x' : newton_move cfg n H g lower upper x d k x' ->
    (forall i, (i < n)%nat -> x i = best i -> x' i = best i) /\ (exists i, (i < n)%nat /\ x i <> best i /\ x' i = best i) /\
    (k = 0%nat -> forall i, (i < n)%nat -> x' i = best i).
  Proof using Hdiag Hh Hbox Hfac Harm.
    intros [Nb Np Nf Nd Ns Nr _].
    assert (Pin : forall i, (i < n)%nat -> {pinned n (mget H) (vget g) (vget lower) (vget upper) x i} + {~ pinned n (mget H) (vget g) (vget lower) (vget upper) x i}).
    { intros i _. unfold pinned. set (a := quad_grad n (mget H) (vget g) x i). destruct (Req_EM_T (x i) (vget lower i)), (Req_EM_T (x i) (vget upper i)), (Rlt_dec 0 a), (Rlt_dec a 0);
      try (left; tauto); right; tauto. }
    assert (Ed : forall i, (i < n)%nat -> ~ pinned n (mget H) (vget g) (vget lower) (vget upper) x i -> d i = - vget g i / h i - x i).
    { intros i Hi Hp. specialize (Nf i Hi Hp). rewrite diag_grad in Nf by exact Hi. specialize (Hh i Hi). apply Rmult_eq_reg_l with (h i); [field_simplify; lra|lra]. }
    assert (Keep : forall i, (i < n)%nat -> x i = best i -> d i = 0).
    { intros i Hi E. destruct (Pin i Hi) as [P|P]; [apply Np; assumption|]. rewrite (Ed i Hi P), (free_best x i Hi (Nb i Hi) P E) at 1. ring. }
    assert (Unp : forall i, (i < n)%nat -> x i <> best i -> d i = - vget g i / h i - x i).
    { intros i Hi E. apply Ed; [exact Hi|]. intros P. apply E. apply pinned_best; assumption. }
    assert (St : forall i, (i < n)%nat -> x' i = clamp (vget lower i) (vget upper i) (x i + qp_step_factor cfg ^ k * d i)) by (intros i Hi; rewrite Ns by exact Hi; reflexivity).
    assert (K1 : forall i, (i < n)%nat -> x i = best i -> x' i = best i).
    { intros i Hi E. rewrite St, (Keep i Hi E) by exact Hi. replace (x i + qp_step_factor cfg ^ k * 0) with (x i) by ring. specialize (Nb i Hi). specialize (Hbox i Hi). rewrite <- E.
      destruct (clamp_cases (vget lower i) (vget upper i) (x i) Hbox) as [[A B]|[[A B]|[A B]]]; rewrite B; lra. }
    assert (K0 : k = 0%nat -> forall i, (i < n)%nat -> x' i = best i).
    { intros -> i Hi. destruct (Req_EM_T (x i) (best i)) as [E|E]; [apply K1; assumption|]. rewrite St, (Unp i Hi E) by exact Hi. cbn [pow]. unfold best. f_equal. ring. }
    split; [exact K1|]. split; [|exact K0].
    assert (Ex : exists i, (i < n)%nat /\ x i <> best i).
    { unfold slope in Nd. rewrite <- (Rsum_0 n) in Nd. destruct (Rsum_lt_ex _ _ _ Nd) as (i & Hi & L). exists i. split; [exact Hi|]. intros E. rewrite (Keep i Hi E) in L. lra. }
    destruct k as [|k].
    - destruct Ex as (i & Hi & E). exists i. split; [exact Hi|]. split; [exact E|]. apply K0; auto.
    - specialize (Nr k ltac:(lia)). set (t := qp_step_factor cfg ^ k) in *.
      assert (Ht : 0 < t <= 1) by (split; [apply pow_lt; lra|unfold t; rewrite <- (pow1 k); apply pow_incr; lra]).
      rewrite !diag_quad in Nr. unfold slope in Nr. rewrite <- Rsum_minus in Nr. rewrite <- !Rsum_scal in Nr. destruct (Rsum_lt_ex _ _ _ Nr) as (i & Hi & L). cbv beta in L.
      rewrite diag_grad in L by exact Hi.
      assert (E : x i <> best i).
      { intros E. rewrite (Keep i Hi E) in L. unfold proj in L. rewrite (Keep i Hi E) in L. replace (x i + t * 0) with (x i) in L by ring.
        change (Rmax (Rmin (x i) (vget upper i)) (vget lower i)) with (clamp (vget lower i) (vget upper i) (x i)) in L. specialize (Nb i Hi). specialize (Hbox i Hi).
        destruct (clamp_cases (vget lower i) (vget upper i) (x i) Hbox) as [[A B]|[[A B]|[A B]]]; rewrite B in L; lra. }
      exists i. split; [exact Hi|]. split; [exact E|]. rewrite St by exact Hi. cbn [pow]. fold t. unfold proj in L. rewrite (Unp i Hi E) in L |- *.
      apply (reach1 (h i) (vget g i) (vget lower i) (vget upper i) (x i) (qp_step_factor cfg) (qp_armijo_param cfg) t); auto. apply Harm.
  Qed.

  (** A step never raises the objective, whichever way it was accepted. *)
  Lemma move_descent x d k x' : newton_move cfg n H g lower upper x d k x' -> q x' <= q x.
  Proof using Hdiag Hh Hbox Hfac Harm.
    intros M. pose proof (move_diag x d k x' M) as (K1 & _ & _). destruct M as [Nb Np Nf Nd Ns Nr _]. rewrite !diag_quad. apply Rsum_le. intros i Hi.
    destruct (Req_EM_T (x i) (best i)) as [E|E]; [rewrite (K1 i Hi E), E; lra|].
    assert (Hp : ~ pinned n (mget H) (vget g) (vget lower) (vget upper) x i) by (intros P; apply E, pinned_best; assumption).
    specialize (Nf i Hi Hp). rewrite diag_grad in Nf by exact Hi. specialize (Hh i Hi). assert (Hh' : h i <> 0) by lra.
    assert (Ed : d i = - vget g i / h i - x i) by (apply Rmult_eq_reg_l with (h i); [field_simplify; lra|lra]).
    rewrite (par_m (h i) (vget g i) (x' i) Hh'), (par_m (h i) (vget g i) (x i) Hh'). rewrite (Ns i Hi). unfold proj.
    set (t := qp_step_factor cfg ^ k). assert (Ht : 0 < t <= 1) by (split; [apply pow_lt; lra|unfold t; rewrite <- (pow1 k); apply pow_incr; lra]).
    change (Rmax (Rmin (x i + t * d i) (vget upper i)) (vget lower i)) with (clamp (vget lower i) (vget upper i) (x i + t * d i)). rewrite Ed.
    set (m := - vget g i / h i) in *. specialize (Nb i Hi). specialize (Hbox i Hi).
    assert (G : forall z, Rabs (z - m) <= Rabs (x i - m) -> par (h i) (vget g i) m + h i / 2 * ((z - m) * (z - m)) <= par (h i) (vget g i) m + h i / 2 * ((x i - m) * (x i - m))).
    { intros z Hz. apply Rplus_le_compat_l, Rmult_le_compat_l; [lra|]. apply (Rsqr_le_abs_1 _ _ Hz). }
    apply G. destruct (clamp_cases (vget lower i) (vget upper i) (x i + t * (m - x i)) Hbox) as [[A ->]|[[A ->]|[A ->]]].
    - replace (x i + t * (m - x i) - m) with ((1 - t) * (x i - m)) by ring. rewrite Rabs_mult, (Rabs_pos_eq (1 - t)) by lra. pose proof (Rabs_pos (x i - m)). nra.
    - assert (m < x i) by nra. assert (m <= vget lower i) by nra. rewrite !Rabs_pos_eq by lra. lra.
    - assert (x i < m) by nra. assert (vget upper i <= m) by nra. rewrite !Rabs_left1 by lra. lra.
  Qed.
  (** The state at exits 5 and 6, variable by variable. *)
  Lemma exit_each : qo_retval out = 5%Z \/ qo_retval out = 6%Z -> forall i, (i < n)%nat ->
    pinned n (mget H) (vget g) (vget lower) (vget upper) (vget (qo_x out)) i \/ qo_retval out = 5%Z /\ Rabs (gr (vget (qo_x out)) i) < Rabs (qp_grad_thre cfg).
  Proof using Hrun.
    clear Hdiag Hh Hbox Hthre Hfac Harm HLL.
    intros Hr i Hi. destruct (qp_ok LL cfg n H g lower upper fuel afuel ol ix s s' out Hrun) as (_ & Rz & HH & Hg & Hl & Hu & Hix).
    set (x := qo_x out) in *.
    assert (Eg : vget (qp_grad H g x) i = gr (vget x) i) by (rewrite (qp_grad_R n H g x HH Hg); reflexivity).
    assert (Cl : qp_clamped_at lower upper x (qp_grad H g x) i = true -> pinned n (mget H) (vget g) (vget lower) (vget upper) (vget x) i).
    { unfold qp_clamped_at, pinned. rewrite orb_true_iff, !andb_true_iff. numR. rewrite !Reqb_true, !Rltb_true, Eg. tauto. }
    destruct Hr as [E|E].
    - destruct (qr_5 _ _ _ _ _ _ _ _ _ Rz E) as [Hfree Hn]. fold x in Hfree, Hn. set (gv := qp_grad H g x) in *.
      set (phi := fun i => Bool.eqb (nth i (qp_clamped n lower upper x gv) true) false).
      assert (Hfs : qo_free out = sel phi n).
      { rewrite Hfree. apply idx_of_sel. unfold qp_clamped; rewrite map_length, seq_length; reflexivity. }
      assert (Hphi : phi i = negb (qp_clamped_at lower upper x gv i)).
      { unfold phi, qp_clamped. rewrite nth_indep with (d' := qp_clamped_at lower upper x gv 0) by (rewrite map_length, seq_length; exact Hi).
        rewrite (map_nth (qp_clamped_at lower upper x gv)), seq_nth by exact Hi. cbn. destruct (qp_clamped_at lower upper x gv i); reflexivity. }
      destruct (qp_clamped_at lower upper x gv i) eqn:Ec; [left; apply Cl; reflexivity|]. right. split; [exact E|].
      rewrite grad_norm_R, Hfs in Hn. rewrite (Rsum_sel phi n (fun i => vget gv i * vget gv i)) in Hn. numR. apply Rltb_true in Hn.
      rewrite <- Eg. apply Rsqr_lt_abs_0. unfold Rsqr. eapply Rle_lt_trans; [|exact Hn].
      pose proof (Rsum_term_le n (fun i => if phi i then vget gv i * vget gv i else 0) i) as T. cbv beta in T. rewrite Hphi in T. cbn [negb] in T. apply T; [|exact Hi].
      intros j _. destruct (phi j); [apply Rle_0_sqr|lra].
    - left. apply Cl. apply (qr_6 _ _ _ _ _ _ _ _ _ Rz E). exact Hi.
  Qed.

  (** C82: at most one pass per variable that does not start at its optimum. After a full step, after as many passes, and at exit 6 the result
      is the minimiser over the box exactly; at exit 5 every variable is within grad_thre / h_ii of it. The iteration limit is met only if
      it is at most n, and the exit for lack of improvement only with a positive rel_improve_thre. *)
  Theorem C82_diagonal : exists first steps last, qo_trace out = first :: steps ++ last /\ (length last <= 1)%nat /\
    let start := unsettled n best (proj lower upper (vget ix)) in (start <= n)%nat /\
    length (qo_x out) = n /\ In (qo_retval out) [1; 4; 5; 6]%Z /\ (length steps <= start)%nat /\
    (forall y, in_box n lower upper y -> q best + Rsum n (fun i => h i / 2 * ((y i - best i) * (y i - best i))) <= q y) /\
    (length steps = start \/ (exists e, In e steps /\ qt_snum e = 0%Z) \/ qo_retval out = 6%Z -> forall i, (i < n)%nat -> vget (qo_x out) i = best i) /\
    (qo_retval out = 5%Z -> forall i, (i < n)%nat -> Rabs (vget (qo_x out) i - best i) <= Rabs (qp_grad_thre cfg) / h i) /\
    (qo_retval out = 1%Z -> (qp_max_iter cfg <= Z.of_nat n)%Z) /\ (qo_retval out = 4%Z -> 0 < qp_rel_improve_thre cfg).
  Proof using Hrun HLL Hdiag Hh Hbox Hthre Hfac Harm.
    pose proof (C67_path LL cfg n H g lower upper fuel afuel ol ix s s' out diag_sym Hrun HLL diag_pd Hbox Hthre (proj1 Hfac)) as (e0 & es & tl & Ht & P0 & Hs & H1 & H2 & H4).
    pose proof (C22_no_failure LL cfg n H g lower upper fuel afuel ol ix s s' out diag_sym Hrun HLL diag_pd Hbox Hthre (proj1 Hfac) (proj1 Harm)) as (F1 & F2).
    pose proof (C18_retval LL cfg n H g lower upper fuel afuel ol ix s s' out Hrun) as Rv.
    pose proof (C17_length LL cfg n H g lower upper fuel afuel ol ix s s' out Hrun) as Lx.
    destruct (C25_trace LL cfg n H g lower upper fuel afuel ol ix s s' out Hrun) as (rest & Hrest & _ & _ & _ & Hmax).
    cbv zeta in P0, Hs. set (pts := map qt_x es ++ [qo_x out]) in *. set (st := unsettled n best (proj lower upper (vget ix))).
    exists e0, es, tl. split; [exact Ht|].
    assert (Ltl : (length tl <= 1)%nat) by (destruct (Z.eq_dec (qo_retval out) 1) as [E|E]; [rewrite (proj1 (H1 E)); cbn; lia|rewrite (H2 E); lia]).
    split; [exact Ltl|]. intros start. split; [apply unsettled_le|]. split; [exact Lx|].
    assert (Rv' : In (qo_retval out) [1; 4; 5; 6]%Z) by (cbn in Rv |- *; intuition congruence). split; [exact Rv'|].
    assert (Ep : forall i e, nth_error es i = Some e -> nth i pts [] = qt_x e).
    { intros i e E. assert (Hi : (i < length es)%nat) by (apply nth_error_Some; congruence). unfold pts. rewrite app_nth1 by (rewrite map_length; exact Hi).
      apply nth_error_nth. rewrite nth_error_map, E. reflexivity. }
    assert (Elast : nth (length es) pts [] = qo_x out) by (unfold pts; rewrite app_nth2 by (rewrite map_length; lia); rewrite map_length, Nat.sub_diag; reflexivity).
    assert (Cnt : forall i, (i <= length es)%nat -> (unsettled n best (vget (nth i pts [])) + i <= st)%nat).
    { induction i as [|i IH]; intros Hi.
      - unfold st. rewrite Nat.add_0_r. apply unsettled_mono. intros j Hj E. rewrite P0 by exact Hj. exact E.
      - specialize (IH ltac:(lia)). destruct (nth_error es i) as [e|] eqn:Ee; [|apply nth_error_None in Ee; lia].
        destruct (Hs i e Ee) as (_ & k & _ & M). apply move_diag in M as (M1 & M2 & _). rewrite (Ep i e Ee) in IH. rewrite Nat.add_1_r in M1, M2.
        pose proof (unsettled_lt n best _ _ M1 M2). lia. }
    assert (Zero : forall x, unsettled n best x = 0%nat -> forall i, (i < n)%nat -> x i = best i).
    { clear. intros x. induction n as [|m IH]; intros E i Hi; [lia|]. cbn [unsettled] in E. destruct (Req_EM_T (x m) (best m)) as [Em|Em]; [|lia].
      destruct (Nat.eq_dec i m) as [->|Hne]; [exact Em|]. apply IH; lia. }
    assert (Len : (length es <= start)%nat) by (specialize (Cnt (length es) ltac:(lia)); fold st in start; unfold start; lia).
    split; [exact Len|]. split; [exact best_min|].
    assert (Pin : forall i, (i < n)%nat -> pinned n (mget H) (vget g) (vget lower) (vget upper) (vget (qo_x out)) i -> vget (qo_x out) i = best i) by (intros; apply pinned_best; assumption).
    split; [|split; [|split]].
    - intros [E|[(e & He & E)|E]].
      + apply Zero. specialize (Cnt (length es) ltac:(lia)). rewrite Elast in Cnt. fold st in start. unfold start in E. lia.
      + apply In_nth_error in He as [i Ei]. destruct (Hs i e Ei) as (_ & k & Ek & M). assert (k = 0%nat) as -> by lia. apply move_diag in M as (_ & _ & M). specialize (M eq_refl).
        assert (All : forall j, (i < j)%nat -> (j <= length es)%nat -> forall l, (l < n)%nat -> vget (nth j pts []) l = best l).
        { induction j as [|j IH]; intros Hij Hj l Hl; [lia|]. destruct (Nat.eq_dec i j) as [->|Hne]; [rewrite <- Nat.add_1_r; apply M, Hl|].
          destruct (nth_error es j) as [e'|] eqn:Ee; [|apply nth_error_None in Ee; lia]. destruct (Hs j e' Ee) as (_ & k' & _ & M'). apply move_diag in M' as (M' & _).
          rewrite <- Nat.add_1_r. apply M'; [exact Hl|]. rewrite <- (Ep j e' Ee). apply IH; lia. }
        assert (i < length es)%nat by (apply nth_error_Some; congruence). specialize (All (length es) ltac:(lia) ltac:(lia)). rewrite Elast in All. exact All.
      + intros i Hi. destruct (exit_each (or_intror E) i Hi) as [P|[P _]]; [apply Pin; assumption|congruence].
    - intros E i Hi. pose proof (Hh i Hi) as Hhi. destruct (exit_each (or_introl E) i Hi) as [P|[_ P]].
      + rewrite (Pin i Hi P), Rminus_diag_eq, Rabs_R0 by reflexivity. apply Rmult_le_pos; [apply Rabs_pos|left; apply Rinv_0_lt_compat, Hhi].
      + rewrite diag_grad in P by exact Hi. set (x := vget (qo_x out) i) in *. set (m := - vget g i / h i).
        assert (Bx : vget lower i <= x <= vget upper i) by (apply (C17_feasible_R LL cfg n H g lower upper fuel afuel ol ix s s' out i Hrun Hi (Hbox i Hi))).
        assert (A : Rabs (x - m) <= Rabs (qp_grad_thre cfg) / h i).
        { replace (vget g i + h i * x) with (h i * (x - m)) in P by (unfold m; field; lra). rewrite Rabs_mult, (Rabs_pos_eq (h i)) in P by lra.
          apply Rmult_le_reg_l with (h i); [exact Hhi|]. replace (h i * (Rabs (qp_grad_thre cfg) / h i)) with (Rabs (qp_grad_thre cfg)) by (field; lra). lra. }
        eapply Rle_trans; [|exact A]. unfold best. fold m. destruct (clamp_cases (vget lower i) (vget upper i) m (Hbox i Hi)) as [[B ->]|[[B ->]|[B ->]]]; [lra| |].
        * rewrite !Rabs_pos_eq by lra. lra.
        * rewrite !Rabs_left1 by lra. lra.
    - intros E. specialize (Hmax E). rewrite Ht in Hrest. injection Hrest as _ <-. rewrite (proj1 (H1 E)), app_nil_r in Hmax. pose proof (unsettled_le n best (proj lower upper (vget ix))). unfold start in Len. lia.
    - intros E. destruct (H4 E) as (e & En & L). assert (Hi : (length es - 1 < length es)%nat) by (apply nth_error_Some; congruence).
      destruct (Hs _ e En) as (_ & k & _ & M). apply move_descent in M. replace (length es - 1 + 1)%nat with (length es) in M by lia. rewrite Elast in M.
      destruct (Rlt_le_dec 0 (qp_rel_improve_thre cfg)) as [A|A]; [exact A|]. pose proof (Rabs_pos (q (vget (qt_x e)))). nra.
  Qed.

  (** A start from which no variable has to be cut back much: one pass is enough. *)
  Lemma move_full x d k x' : newton_move cfg n H g lower upper x d k x' ->
    (forall i, (i < n)%nat -> let m := - vget g i / h i in x i = best i \/ (best i - m) * (best i - m) <= (1 - 2 * qp_armijo_param cfg) * ((x i - m) * (x i - m))) -> k = 0%nat.
  Proof using Hdiag Hh Hbox.
    intros [Nb Np Nf Nd Ns Nr _] Hc. destruct k as [|k]; [reflexivity|exfalso]. specialize (Nr 0%nat ltac:(lia)). cbn [pow] in Nr. rewrite !diag_quad in Nr. unfold slope in Nr.
    rewrite <- Rsum_minus, <- !Rsum_scal in Nr. destruct (Rsum_lt_ex _ _ _ Nr) as (i & Hi & L). cbv beta in L. rewrite diag_grad in L by exact Hi. clear Nr.
    unfold proj in L. rewrite Rmult_1_l in L. change (Rmax (Rmin ?y (vget upper i)) (vget lower i)) with (clamp (vget lower i) (vget upper i) y) in L.
    specialize (Hc i Hi). cbv zeta in Hc. pose proof (Hh i Hi) as Hhi. assert (Hh' : h i <> 0) by lra.
    destruct (Req_EM_T (d i) 0) as [Z|Z].
    { rewrite Z in L. replace (x i + 1 * 0) with (x i) in L by ring. specialize (Nb i Hi). destruct (clamp_cases (vget lower i) (vget upper i) (x i) (Hbox i Hi)) as [[A B]|[[A B]|[A B]]]; rewrite B in L; lra. }
    assert (Hp : ~ pinned n (mget H) (vget g) (vget lower) (vget upper) x i) by (intros P; apply Z, Np; assumption).
    specialize (Nf i Hi Hp). rewrite diag_grad in Nf by exact Hi. 
    assert (Ed : d i = - vget g i / h i - x i) by (apply Rmult_eq_reg_l with (h i); [field_simplify; lra|lra]). rewrite Ed in L.
    replace (x i + 1 * (- vget g i / h i - x i)) with (- vget g i / h i) in L by ring. fold (best i) in L.
    destruct Hc as [Hc|Hc]; [apply Z; rewrite Ed, (free_best x i Hi (Nb i Hi) Hp Hc); ring|].
    rewrite (par_m (h i) (vget g i) (best i) Hh'), (par_m (h i) (vget g i) (x i) Hh') in L.
    replace (vget g i + h i * x i) with (h i * (x i - - vget g i / h i)) in L by (field; exact Hh'). set (m := - vget g i / h i) in *.
    assert (h i * ((best i - m) * (best i - m)) <= h i * ((1 - 2 * qp_armijo_param cfg) * ((x i - m) * (x i - m)))) by (apply Rmult_le_compat_l; lra). nra.
  Qed.
  Theorem C82_one_pass :
    (forall i, (i < n)%nat -> let m := - vget g i / h i in let x := proj lower upper (vget ix) i in
       x = best i \/ (best i - m) * (best i - m) <= (1 - 2 * qp_armijo_param cfg) * ((x - m) * (x - m))) ->
    (length (qo_trace out) <= 3)%nat /\ forall i, (i < n)%nat -> Rabs (vget (qo_x out) i - best i) <= Rabs (qp_grad_thre cfg) / h i.
  Proof using Hrun HLL Hdiag Hh Hbox Hthre Hfac Harm.
    intros Hc. destruct C82_diagonal as (e1 & es1 & tl1 & Ht1 & L1 & _ & _ & Rv & _ & _ & Full & E5 & _).
    pose proof (C67_path LL cfg n H g lower upper fuel afuel ol ix s s' out diag_sym Hrun HLL diag_pd Hbox Hthre (proj1 Hfac)) as (e0 & es & tl & Ht & P0 & Hs & H1 & H2 & H4).
    cbv zeta in P0, Hs. set (pts := map qt_x es ++ [qo_x out]) in *.
    assert (Ltl : (length tl <= 1)%nat) by (destruct (Z.eq_dec (qo_retval out) 1) as [E|E]; [rewrite (proj1 (H1 E)); cbn; lia|rewrite (H2 E); lia]).
    assert (Pos : forall i, (i < n)%nat -> vget (qo_x out) i = best i -> Rabs (vget (qo_x out) i - best i) <= Rabs (qp_grad_thre cfg) / h i).
    { intros i Hi ->. rewrite Rminus_diag_eq, Rabs_R0 by reflexivity. apply Rmult_le_pos; [apply Rabs_pos|left; apply Rinv_0_lt_compat, Hh, Hi]. }
    destruct es as [|e es].
    - rewrite Ht. cbn [length List.app]. split; [lia|]. destruct Rv as [E|[E|[E|[E|[]]]]]; symmetry in E.
      + exfalso. destruct (H1 E) as [_ A]. cbn in A. lia.
      + exfalso. destruct (H4 E) as (e & A & _). discriminate A.
      + apply E5, E.
      + intros i Hi. apply Pos; [exact Hi|]. apply Full; auto.
    - destruct (Hs 0%nat e eq_refl) as (_ & k & Ek & M). assert (k = 0%nat) as ->.
      { apply (move_full _ _ _ _ M). intros i Hi. specialize (Hc i Hi). cbv zeta in Hc |- *. rewrite <- P0 in Hc by exact Hi. exact Hc. }
      apply move_diag in M as (_ & _ & M). specialize (M eq_refl).
      destruct es as [|e' es].
      + rewrite Ht. cbn [length List.app]. split; [lia|]. intros i Hi. apply Pos; [exact Hi|]. apply (M i Hi).
      + exfalso. destruct (Hs 1%nat e' eq_refl) as (_ & k' & _ & M'). apply move_diag in M' as (_ & (i & Hi & Hne & _) & _). apply Hne. apply (M i Hi).
  Qed.
End Diag.
Print Assumptions C82_diagonal.
Print Assumptions C82_one_pass.

(** ** TestBoxQP.cpp: the five problems *)
Record qp_case := { qc_g : list R; qc_l : list R; qc_u : list R; qc_gt : list R }.
(** TestBoxQP.cpp:42-62 and 65-99: gradient, lower and upper limits, expected result; H = diag(1, 0.5). *)
Definition test_H : mat R := mkmat 2 2 [[1; 0]; [0; / 2]].
Definition test_cases : list qp_case := [
  {| qc_g := [3 / 2; 1]; qc_l := [-10; -10]; qc_u := [10; 10]; qc_gt := [- (3 / 2); -2] |};
  {| qc_g := [3 / 2; 1]; qc_l := [/ 2; -2]; qc_u := [5; 2]; qc_gt := [/ 2; -2] |};
  {| qc_g := [1; 3 / 2]; qc_l := [0; -1]; qc_u := [5; - / 2]; qc_gt := [0; -1] |};
  {| qc_g := [3 / 2; 1]; qc_l := [-5; -1]; qc_u := [-2; 2]; qc_gt := [-2; -1] |};
  {| qc_g := [1; 3 / 2]; qc_l := [-5; -10]; qc_u := [-2; 10]; qc_gt := [-2; -3] |} ].
(** Every case returns, in at most two passes, within the tolerance of the test; print_level 3 as in the test. *)
Definition test_cfg : qp_config R := let d := qp_default_config in
  {| qp_print_level := 3; qp_max_iter := qp_max_iter d; qp_grad_thre := qp_grad_thre d; qp_rel_improve_thre := qp_rel_improve_thre d;
     qp_step_factor := qp_step_factor d; qp_min_step := qp_min_step d; qp_armijo_param := qp_armijo_param d |}.
Theorem C82_test c : In c test_cases -> exists K, forall fuel afuel, (500 <= fuel)%nat -> (K <= afuel)%nat ->
  exists out, qp_solve chol_llt test_cfg 2 test_H (qc_g c) (qc_l c) (qc_u c) fuel afuel None [0; 0] tt = Ok out tt /\ (length (qo_trace out) <= 3)%nat /\
    sqrt ((vget (qo_x out) 0 - vget (qc_gt c) 0) ^ 2 + (vget (qo_x out) 1 - vget (qc_gt c) 1) ^ 2) < / 10 ^ 6.
Proof.
  intros Hc. destruct (C23_bound_R test_cfg) as (K & K0 & HK); [cbn; numR; lra|cbn; numR; lra|]. exists K. intros fuel afuel Hf Ha.
  assert (Dm : length (qc_g c) = 2%nat /\ length (qc_l c) = 2%nat /\ length (qc_u c) = 2%nat) by (cbn in Hc; intuition (subst c; reflexivity)).
  destruct Dm as (D1 & D2 & D3).
  pose proof (C23_terminates chol_llt test_cfg 2 test_H (qc_g c) (qc_l c) (qc_u c) fuel afuel None [0; 0] tt K HK ltac:(lia) ltac:(cbn; lia)) as T.
  assert (W : exists out, qp_solve chol_llt test_cfg 2 test_H (qc_g c) (qc_l c) (qc_u c) fuel afuel None [0; 0] tt = Ok out tt).
  { pose proof (qp_solve_spec chol_llt test_cfg 2 test_H (qc_g c) (qc_l c) (qc_u c) False (fun _ _ => False) fuel afuel None [0; 0] tt) as W.
    unfold wp in W. destruct (qp_solve _ _ _ _ _ _ _ _ _ _ _ tt) as [out []|e []| |]; [exists out; reflexivity|exfalso; apply W|exfalso; apply W|congruence].
    all: unfold vdimb; rewrite D1, D2, D3; discriminate. }
  destruct W as [out E]. exists out. split; [exact E|].
  assert (Dg : diagonal 2 (mget test_H)) by (intros i j Hi Hj Hne; destruct i as [|[|]], j as [|[|]]; try lia; reflexivity).
  assert (Hp : forall i, (i < 2)%nat -> 0 < mget test_H i i) by (intros i Hi; destruct i as [|[|]]; try lia; unfold mget, test_H; cbn; lra).
  assert (Hb : forall i, (i < 2)%nat -> vget (qc_l c) i <= vget (qc_u c) i) by (intros i Hi; cbn in Hc; intuition (subst c; destruct i as [|[|]]; try lia; unfold vget; cbn; lra)).
  assert (Gt : forall i, (i < 2)%nat -> best test_H (qc_g c) (qc_l c) (qc_u c) i = vget (qc_gt c) i).
  { intros i Hi. unfold best. specialize (Hb i Hi).
    assert (Em : - vget (qc_g c) i / mget test_H i i = match i with O => - vget (qc_g c) 0 | _ => -2 * vget (qc_g c) 1 end) by (destruct i as [|[|]]; try lia; unfold mget, test_H; cbn; field).
    rewrite Em. destruct (clamp_cases (vget (qc_l c) i) (vget (qc_u c) i) (match i with O => - vget (qc_g c) 0 | _ => -2 * vget (qc_g c) 1 end) Hb) as [[A B]|[[A B]|[A B]]]; rewrite B; clear B Em;
    cbn in Hc; intuition (subst c; destruct i as [|[|]]; try lia; unfold vget in *; cbn in *; lra). }
  destruct (C82_one_pass chol_llt test_cfg 2 test_H (qc_g c) (qc_l c) (qc_u c) fuel afuel None [0; 0] tt tt out E chol_exact Dg Hp Hb) as [L B].
  - cbn. numR. lra.
  - cbn. numR. lra.
  - cbn. numR. lra.
  - intros i Hi. cbv zeta. rewrite Gt by exact Hi. unfold proj. change (Rmax (Rmin ?y (vget (qc_u c) i)) (vget (qc_l c) i)) with (clamp (vget (qc_l c) i) (vget (qc_u c) i) y).
    assert (Z : vget [0; 0] i = 0) by (destruct i as [|[|]]; try lia; reflexivity). rewrite Z.
    assert (Em : - vget (qc_g c) i / mget test_H i i = match i with O => - vget (qc_g c) 0 | _ => -2 * vget (qc_g c) 1 end) by (destruct i as [|[|]]; try lia; unfold mget, test_H; cbn; field).
    rewrite Em. specialize (Hb i Hi). destruct (clamp_cases (vget (qc_l c) i) (vget (qc_u c) i) 0 Hb) as [[A B]|[[A B]|[A B]]]; rewrite B; clear B Em;
    cbn in Hc; intuition (subst c; destruct i as [|[|]]; try lia; unfold vget in *; cbn in *; numR; first [lra | left; lra | right; lra]).
  - split; [exact L|]. pose proof (B 0%nat ltac:(lia)) as B0. pose proof (B 1%nat ltac:(lia)) as B1. rewrite Gt in B0, B1 by lia.
    assert (T0 : Rabs (qp_grad_thre test_cfg) / mget test_H 0 0 = / 10 ^ 8) by (unfold mget, test_H; cbn; numR; rewrite Rabs_pos_eq by lra; lra).
    assert (T1 : Rabs (qp_grad_thre test_cfg) / mget test_H 1 1 = 2 / 10 ^ 8) by (unfold mget, test_H; cbn; numR; rewrite Rabs_pos_eq by lra; lra).
    rewrite T0 in B0. rewrite T1 in B1. set (a := vget (qo_x out) 0 - vget (qc_gt c) 0) in *. set (b := vget (qo_x out) 1 - vget (qc_gt c) 1) in *.
    assert (A2 : a ^ 2 <= (/ 10 ^ 8) ^ 2) by (rewrite <- (pow2_abs a); apply pow_incr; split; [apply Rabs_pos|exact B0]).
    assert (B2 : b ^ 2 <= (2 / 10 ^ 8) ^ 2) by (rewrite <- (pow2_abs b); apply pow_incr; split; [apply Rabs_pos|exact B1]).
    rewrite <- (sqrt_pow2 (/ 10 ^ 6)) by lra. apply sqrt_lt_1_alt. split; [pose proof (pow2_ge_0 a); pose proof (pow2_ge_0 b); lra|]. lra.
Qed.
Print Assumptions C82_test.

(** On doubles: (x^2 + y^2)/2 + 10 x + y/8 over [-1/1024, 1] x [-10, 10] from 0: the first pass is cut back and settles x, the second is full. *)
Definition two_H : mat f64 := mkmat 2 2 [[nofZ 1; nzero]; [nzero; nofZ 1]].
Example C82_two_passes : match qp_solve (T := f64) chol_llt qp_default_config 2 two_H [nofZ 10; nlit 1 8] [nlit (-1) 1024; nofZ (-10)] [nofZ 1; nofZ 10] 5 200 None [nzero; nzero] tt with
  | Ok out _ => qo_x out = [nlit (-1) 1024; nlit (-1) 8] /\ map qt_snum (qo_trace out) = [0; 14; 0; 0]%Z /\ qo_retval out = 5%Z
  | _ => False end.
Proof. vm_compute. repeat split. Qed.
