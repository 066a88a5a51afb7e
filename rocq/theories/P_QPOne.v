(** C78: with one variable Box QP reaches the minimiser in one step. *)
From Verif Require Import Prelude Scalar LinAlg BoxQP BoxQPProofs BoxQPTerm QPCor Chol RLin CholProofs QPReal QPReal2 P_QP P_QPReal QPPath P_QPPath.
From Coq Require Import Reals Lra Psatz.
Local Open Scope R_scope.

(** Scalar facts: a parabola with slope g + h x, its minimiser m, the box [l, u]. *)
Definition clamp (l u y : R) : R := Rmax (Rmin y u) l.
Definition par (h g x : R) : R := x * g + / 2 * (x * (h * x)).
Lemma clamp_cases l u y : l <= u -> (l <= y <= u /\ clamp l u y = y) \/ (y < l /\ clamp l u y = l) \/ (u < y /\ clamp l u y = u).
Proof. intros H. unfold clamp, Rmax, Rmin. destruct (Rle_dec y u); destruct (Rle_dec _ l); lra. Qed.
Lemma par_m h g x : h <> 0 -> par h g x = par h g (- g / h) + h / 2 * ((x - - g / h) * (x - - g / h)).
Proof. intros Hh. unfold par. field. exact Hh. Qed.
Lemma clamp_min h g l u y : 0 < h -> l <= u -> l <= y <= u ->
  par h g (clamp l u (- g / h)) + h / 2 * ((y - clamp l u (- g / h)) * (y - clamp l u (- g / h))) <= par h g y.
Proof.
  intros Hh Hlu Hy. assert (Hh' : h <> 0) by lra. rewrite (par_m h g y Hh'), (par_m h g (clamp l u (- g / h)) Hh'). set (m := - g / h) in *.
  assert (G : 0 <= (y - clamp l u m) * (clamp l u m - m)).
  { destruct (clamp_cases l u m Hlu) as [[H ->]|[[H ->]|[H ->]]]; [|apply Rmult_le_pos; lra|]. { replace (m - m) with 0 by ring. lra. }
    replace ((y - u) * (u - m)) with ((u - y) * (m - u)) by ring. apply Rmult_le_pos; lra. }
  set (c := clamp l u m) in *. enough (0 <= h * ((y - c) * (c - m))) by nra. apply Rmult_le_pos; lra.
Qed.

(** The trial point at step s from x towards m. *)
Lemma reach h g l u x be ar k : 0 < h -> l <= u -> l <= x <= u -> 0 < be <= 1 -> ar <= be / 2 ->
  let m := - g / h in let d := m - x in
  (forall j, (j < k)%nat -> ar * (be ^ j * (d * (g + h * x))) < par h g (clamp l u (x + be ^ j * d)) - par h g x) ->
  d <> 0 -> clamp l u (x + be ^ k * d) = clamp l u m.
Proof.
  intros Hh Hlu Hx Hbe Har m d Href Hd. assert (Hh' : h <> 0) by lra.
  assert (Eg : d * (g + h * x) = - h * (d * d)) by (unfold d, m; field; exact Hh'). rewrite Eg in Href. clear Eg.
  assert (Hm : m = x + d) by (unfold d; ring).
  (* the property "the trial point is the clamped minimiser" holds at 0 and is inherited *)
  assert (G : forall j, (j <= k)%nat -> clamp l u (x + be ^ j * d) = clamp l u m).
  { induction j as [|j IH]; intros Hj; [cbn [pow]; f_equal; lra|].
    assert (Hjk : (j <= k)%nat) by lia. specialize (IH Hjk). specialize (Href j ltac:(lia)). rewrite IH in Href. cbn [pow].
    set (s := be ^ j) in *. assert (Hs : 0 < s) by (apply pow_lt; lra). set (c := clamp l u m) in *.
    assert (Hdd : 0 < d * d) by nra.
    assert (Pc : par h g c - par h g x = h / 2 * ((c - m) * (c - m) - d * d)).
    { rewrite (par_m h g c Hh'), (par_m h g x Hh'). fold m. unfold d. field. }
    rewrite Pc in Href.
    assert (R1 : d * d - (c - m) * (c - m) < be * s * (d * d)).
    { assert (h * (d * d - (c - m) * (c - m)) < h * (2 * ar * s * (d * d))) by nra.
      assert (d * d - (c - m) * (c - m) < 2 * ar * s * (d * d)) by (apply Rmult_lt_reg_l with h; assumption).
      assert (2 * ar * s * (d * d) <= be * s * (d * d)); [|lra]. assert (0 < s * (d * d)) by (apply Rmult_lt_0_compat; assumption). nra. }
    assert (Bs : 0 < be * s) by nra.
    destruct (clamp_cases l u m Hlu) as [[H E]|[[H E]|[H E]]]; fold c in E; rewrite E in *.
    - (* interior: the first trial is never refused *)
      exfalso. assert (s <= 1) by (unfold s; rewrite <- (pow1 j); apply pow_incr; lra). replace (m - m) with 0 in R1 by ring.
      assert (be * s <= 1) by nra. nra.
    - (* beyond the lower limit *)
      assert (dn : d < 0) by (unfold d in *; destruct (Req_dec x l); lra).
      assert (E1 : x + be * s * d <= l).
      { assert (T : (x - l) * - d <= d * d - (l - m) * (l - m)) by (unfold d in *; nra).
        assert ((x - l) * - d < be * s * - d * - d) by nra. assert (x - l < be * s * - d); [|lra]. apply Rmult_lt_reg_r with (- d); [lra|assumption]. }
      destruct (clamp_cases l u (x + be * s * d) Hlu) as [[H2 E2]|[[H2 E2]|[H2 E2]]]; rewrite E2; lra.
    - assert (dp : 0 < d) by (unfold d in *; destruct (Req_dec x u); lra).
      assert (E1 : u <= x + be * s * d).
      { assert (T : (u - x) * d <= d * d - (u - m) * (u - m)) by (unfold d in *; nra).
        assert ((u - x) * d < be * s * d * d) by nra. assert (u - x < be * s * d); [|lra]. apply Rmult_lt_reg_r with d; [lra|assumption]. }
      destruct (clamp_cases l u (x + be * s * d) Hlu) as [[H2 E2]|[[H2 E2]|[H2 E2]]]; rewrite E2; lra. }
  apply G. lia.
Qed.

Section One.
  Context {S : Type} (LL : lltops R) (cfg : qp_config R) (H : mat R) (g lower upper : vec R)
          (fuel afuel : nat) (ol : option (mat R)) (ix : vec R) (s s' : S) (out : qp_out R).
  Hypothesis Hrun : qp_solve LL cfg 1 H g lower upper fuel afuel ol ix s = Ok out s'.
  Hypothesis HLL : exact_llt LL.
  Hypothesis Hh : 0 < mget H 0 0.
  Hypothesis Hbox : vget lower 0 <= vget upper 0.
  Hypothesis Hthre : qp_grad_thre cfg <> 0.
  Hypothesis Hfac : 0 < qp_step_factor cfg <= 1.
  Hypothesis Harm : 0 <= qp_armijo_param cfg <= qp_step_factor cfg / 2.
  Notation h := (mget H 0 0).
  Notation g0 := (vget g 0).
  Notation l := (vget lower 0).
  Notation u := (vget upper 0).

  Lemma sym1 : fsym 1 (mget H).
  Proof. intros i j Hi Hj. destruct i, j; try lia. reflexivity. Qed.
  Lemma pd1 : posdef 1 (mget H).
  Proof. intros y (i & Hi & Hy). destruct i; [|lia]. unfold fdot, fmv. cbn. assert (0 < y 0%nat * y 0%nat) by nra. nra. Qed.
  Lemma quad1 x : quad 1 (mget H) (vget g) x = par h g0 (x 0%nat).
  Proof. unfold quad, par. cbn. ring. Qed.
  Lemma grad1 x : quad_grad 1 (mget H) (vget g) x 0 = g0 + h * x 0%nat.
  Proof. unfold quad_grad. cbn. ring. Qed.

  Lemma move1 x d k x' : newton_move cfg 1 H g lower upper x d k x' -> x 0%nat <> clamp l u (- g0 / h) /\ x' 0%nat = clamp l u (- g0 / h).
  Proof.
    intros [Nb Np Nf Nd Ns Nr _]. specialize (Nb 0%nat ltac:(lia)). specialize (Np 0%nat ltac:(lia)). specialize (Nf 0%nat ltac:(lia)). specialize (Ns 0%nat ltac:(lia)).
    assert (Esl : slope 1 (mget H) (vget g) x d = d 0%nat * (g0 + h * x 0%nat)) by (unfold slope; cbn [Rsum]; rewrite grad1; cbn; ring).
    rewrite Esl in *. assert (Hd0 : d 0%nat <> 0) by (intros E; rewrite E in Nd; lra).
    assert (Hp : ~ pinned 1 (mget H) (vget g) (vget lower) (vget upper) x 0) by (intros Hp; apply Hd0, Np, Hp).
    specialize (Nf Hp). rewrite grad1 in Nf. assert (Ed : d 0%nat = - g0 / h - x 0%nat) by (apply Rmult_eq_reg_l with h; [field_simplify; lra|lra]).
    split.
    - intros E. apply Hp. unfold pinned. rewrite grad1.
      assert (Sg : g0 + h * x 0%nat = - h * d 0%nat) by lra. rewrite Sg.
      destruct (clamp_cases l u (- g0 / h) Hbox) as [[H1 E1]|[[H1 E1]|[H1 E1]]]; rewrite E1 in E.
      + exfalso. apply Hd0. lra.
      + left. split; [exact E|]. assert (d 0%nat < 0) by lra. nra.
      + right. split; [exact E|]. assert (0 < d 0%nat) by lra. nra.
    - rewrite Ns. unfold proj. change (Rmax (Rmin ?y u) l) with (clamp l u y). rewrite Ed. apply (reach h g0 l u (x 0%nat) (qp_step_factor cfg) (qp_armijo_param cfg) k); auto; [apply Harm| |rewrite <- Ed; exact Hd0].
      intros j Hj. specialize (Nr j Hj). rewrite !quad1 in Nr. rewrite <- Ed. exact Nr.
  Qed.

  (** At most one step is made. After a step the result is the minimiser over the interval exactly; without one the run ended on a small
      gradient or on a limit, and in the second case the result is the minimiser as well. *)
  Theorem C78_one_variable : let c := clamp l u (- g0 / h) in
    length (qo_x out) = 1%nat /\ (length (qo_trace out) <= 3)%nat /\ In (qo_retval out) [1; 4; 5; 6]%Z /\
    (forall y, l <= y <= u -> par h g0 c <= par h g0 y) /\
    (vget (qo_x out) 0 = c \/
     qo_retval out = 5%Z /\ length (qo_trace out) = 2%nat /\ vget (qo_x out) 0 = clamp l u (vget ix 0) /\ Rabs (vget (qo_x out) 0 - c) <= 2 * Rabs (qp_grad_thre cfg) / h).
  Proof.
    intros c. assert (Hb1 : forall i, (i < 1)%nat -> vget lower i <= vget upper i) by (intros i Hi; assert (i = 0%nat) as -> by lia; exact Hbox).
    pose proof (C67_path LL cfg 1 H g lower upper fuel afuel ol ix s s' out sym1 Hrun HLL pd1 Hb1 Hthre (proj1 Hfac)) as (e0 & es & tl & Ht & P0 & Hs & H1 & H2 & H4).
    pose proof (C22_no_failure LL cfg 1 H g lower upper fuel afuel ol ix s s' out sym1 Hrun HLL pd1 Hb1 Hthre (proj1 Hfac) (proj1 Harm)) as (F1 & F2).
    pose proof (C18_retval LL cfg 1 H g lower upper fuel afuel ol ix s s' out Hrun) as Rv.
    pose proof (C17_length LL cfg 1 H g lower upper fuel afuel ol ix s s' out Hrun) as Lx.
    cbv zeta in P0, Hs. set (pts := map qt_x es ++ [qo_x out]) in *.
    assert (Min : forall y, l <= y <= u -> par h g0 c + h / 2 * ((y - c) * (y - c)) <= par h g0 y) by (intros y Hy; apply clamp_min; assumption).
    assert (Hc : l <= c <= u) by (unfold c; destruct (clamp_cases l u (- g0 / h) Hbox) as [[A ->]|[[A ->]|[A ->]]]; lra).
    split; [exact Lx|].
    assert (Rv' : In (qo_retval out) [1; 4; 5; 6]%Z) by (cbn in Rv |- *; intuition congruence).
    assert (Ltl : (length tl <= 1)%nat).
    { destruct (Z.eq_dec (qo_retval out) 1) as [E|E]; [rewrite (proj1 (H1 E)); cbn; lia|rewrite (H2 E); lia]. }
    assert (Mn : forall y, l <= y <= u -> par h g0 c <= par h g0 y).
    { intros y Hy. specialize (Min y Hy). pose proof (Rle_0_sqr (y - c)) as Q. unfold Rsqr in Q. assert (0 <= h / 2 * ((y - c) * (y - c))) by (apply Rmult_le_pos; lra). lra. }
    destruct es as [|e es].
    - assert (Lt : (length (qo_trace out) = 1 + length tl)%nat) by (rewrite Ht; reflexivity). split; [lia|]. split; [exact Rv'|]. split; [exact Mn|].
      specialize (P0 0%nat ltac:(lia)). cbn in P0. change (vget (qo_x out) 0 = clamp l u (vget ix 0)) in P0.
      assert (Bx : l <= vget (qo_x out) 0 <= u) by (rewrite P0; destruct (clamp_cases l u (vget ix 0) Hbox) as [[A ->]|[[A ->]|[A ->]]]; lra).
      assert (Bc : in_box 1 lower upper (fun _ => c)) by (intros i Hi; assert (i = 0%nat) as -> by lia; exact Hc).
      cbn in Rv'. destruct Rv' as [E|[E|[E|[E|[]]]]].
      + exfalso. symmetry in E. destruct (H1 E) as [_ A]. cbn in A. lia.
      + exfalso. symmetry in E. destruct (H4 E) as (e & A & _). discriminate A.
      + symmetry in E. right. split; [exact E|]. split; [rewrite Lt, (H2 ltac:(rewrite E; discriminate)); reflexivity|]. split; [exact P0|].
        pose proof (C20_small_gradient_near_optimal LL cfg 1 H g lower upper fuel afuel ol ix s s' out sym1 Hrun (fun _ => c) (posdef_psd _ _ pd1) E Bc) as O.
        rewrite !quad1 in O. cbn [Rsum] in O. rewrite Rplus_0_l in O.
        replace ((c - vget (qo_x out) 0) * (c - vget (qo_x out) 0)) with (Rsqr (vget (qo_x out) 0 - c)) in O by (unfold Rsqr; ring).
        rewrite sqrt_Rsqr_abs in O. specialize (Min _ Bx). set (D := vget (qo_x out) 0 - c) in *. set (a := Rabs (qp_grad_thre cfg)) in *.
        assert (K : h / 2 * (Rabs D * Rabs D) <= a * Rabs D) by (rewrite <- Rabs_mult, (Rabs_pos_eq (D * D)) by (pose proof (Rle_0_sqr D) as Q; exact Q); lra).
        assert (0 <= a) by apply Rabs_pos. pose proof (Rabs_pos D) as PD. destruct (Req_dec (Rabs D) 0) as [Z|Z]; [rewrite Z; apply Rmult_le_pos; [lra|left; apply Rinv_0_lt_compat; exact Hh]|].
        apply Rmult_le_reg_l with (h / 2 * Rabs D); [apply Rmult_lt_0_compat; lra|]. replace (h / 2 * Rabs D * (2 * a / h)) with (a * Rabs D) by (field; lra). lra.
      + symmetry in E. left.
        pose proof (C19_all_clamped_optimal LL cfg 1 H g lower upper fuel afuel ol ix s s' out sym1 Hrun (fun _ => c) (posdef_psd _ _ pd1) E Bc) as O.
        rewrite !quad1 in O. specialize (Min _ Bx). set (D := vget (qo_x out) 0 - c) in *.
        assert (D * D <= 0) by (apply Rmult_le_reg_l with (h / 2); lra). assert (D = 0) by nra. unfold D in *. lra.
    - destruct (Hs 0%nat e eq_refl) as (_ & k & _ & M). apply move1 in M as [M0 M1]. cbn [Nat.add] in M1.
      destruct es as [|e' es].
      + unfold pts in M1. cbn [map List.app nth] in M1. split; [rewrite Ht; cbn [length List.app]; lia|]. split; [exact Rv'|]. split; [exact Mn|]. left. exact M1.
      + exfalso. destruct (Hs 1%nat e' eq_refl) as (_ & k' & _ & M'). apply move1 in M' as [M' _]. unfold pts in M1. cbn [map List.app nth] in M1. apply M'. exact M1.
  Qed.
End One.
Print Assumptions C78_one_variable.
