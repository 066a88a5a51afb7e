(** C80: Box QP in binary64 arithmetic: what exits 5 and 6 guarantee about the exact problem, when the computed objective does not rise, and when it does. *)
From Coq Require Import Reals Lra Psatz QArith.
From Flocq Require Import Core BinarySingleNaN Plus_error.
From Verif Require Import Prelude Scalar LinAlg RLin BoxQP BoxQPProofs BoxQPTerm QPCor Chol QPReal P_QPReal QPPath B64 FmpcF64 FmpcStep64 DDPTerm64 QPF64.
Local Open Scope R_scope.

(** ** The exact problem behind doubles *)
Definition exact_m {N : Num b64} (A : mat b64) (i j : nat) : R := val (mget A i j).
Definition exact_v {N : Num b64} (v : vec b64) (i : nat) : R := val (vget v i).
(** Rounding allowance of one gradient entry: n + 2 roundings relative to the magnitudes of its terms, and the underflow threshold of each product. *)
Definition allowance {N : Num b64} (n : nat) (H : mat b64) (g x : vec b64) (i : nat) : R :=
  ((1 + bpow radix2 (-53)) ^ (n + 2) - 1) * (Rabs (exact_v g i) + Rsum n (fun j => Rabs (exact_m H i j * exact_v x j) + bpow radix2 (-1000))).
(** Step length after [k] refusals; [b64_lit 1 1] is the double 1. *)
Fixpoint length_after (factor : b64) (k : nat) : b64 := match k with O => b64_lit 1 1 | S k => Bmult mode_NE (length_after factor k) factor end.

(** ** Signs of differences and quotients *)
Lemma diff_pos (a b : b64) : Bltb a b = true -> Bminus mode_NE b a = inf64 false \/ fin (Bminus mode_NE b a) /\ 0 < val (Bminus mode_NE b a).
Proof.
  intros E. destruct (is_finite a) eqn:Fa; [destruct (is_finite b) eqn:Fb|].
  - pose proof (lt_true a b Fa Fb E) as Lt. pose proof (Bminus_correct 53 1024 _ _ mode_NE b a Fb Fa) as C.
    destruct (Rlt_bool _ _).
    + destruct C as (C1 & C2 & _). right. split; [exact C2|]. unfold val. rewrite C1. change (0 < fl (val b - val a)).
      assert (Hn : fl (val b - val a) <> 0).
      { unfold fl, Rminus. apply round_plus_neq_0; try typeclasses eauto; [apply generic_format_B2R|apply generic_format_opp, generic_format_B2R|unfold val in *; lra]. }
      assert (0 <= fl (val b - val a)) by (rewrite <- fl_0; apply fl_le; lra). lra.
    + destruct C as (C1 & C2). left.
      assert (S : Bsign b = false).
      { destruct (Rle_lt_dec (val b) 0) as [Hb|Hb]; [|apply pos_sign, Hb]. rewrite C2. apply negb_false_iff.
        assert (Ha : val a < 0) by lra. clear -Ha Fa. unfold val in Ha. destruct a as [s|s| |s m e B]; cbn in *; try lra; try discriminate. destruct s; [reflexivity|].
        exfalso. revert Ha. apply Rle_not_lt, F2R_ge_0. cbn. lia. }
      rewrite S in C1. destruct (Bminus mode_NE b a) as [s|s| |s m e B]; cbn in C1; try discriminate. injection C1 as ->. reflexivity.
  - left. destruct a as [sa|sa| |sa ma ea Ba], b as [sb|[]| |sb mb eb Bb]; try discriminate; try reflexivity; try (destruct sa; discriminate).
  - left. destruct a as [sa|[]| |sa ma ea Ba], b as [sb|[]| |sb mb eb Bb]; try discriminate; try reflexivity; destruct sb; discriminate.
Qed.
Lemma quot_neg (d e : b64) : d = inf64 false \/ fin d /\ 0 < val d -> fin e -> Bsign e = true -> forall c, fin c -> 0 < val c -> Bltb (Bdiv mode_NE d e) c = true.
Proof.
  intros Hd Fe Se c Fc Pc.
  assert (Inf : Bltb (inf64 true) c = true) by (destruct c as [[]|[]| |[]]; try discriminate; reflexivity).
  destruct Hd as [->|[Fd Pd]].
  - replace (Bdiv mode_NE (inf64 false) e) with (inf64 true); [exact Inf|]. destruct e as [s|s| |s m x B]; cbn in Se; try discriminate; subst s; reflexivity.
  - pose proof (pos_sign d Pd) as Sd.
    destruct (Req_dec (val e) 0) as [Z|Z].
    + replace (Bdiv mode_NE d e) with (inf64 true); [exact Inf|].
      assert (E : exists s, e = B754_zero s).
      { destruct e as [s|s| |s m x B]; try discriminate; [eauto|]. exfalso. unfold val in Z. cbn in Z. apply eq_0_F2R in Z. destruct s; discriminate. }
      destruct E as [s ->]. cbn in Se. subst s. destruct d as [s|s| |s m x B]; try discriminate; [unfold val in Pd; cbn in Pd; lra|]. cbn in Sd. subst s. reflexivity.
    + assert (Ne : val e < 0).
      { destruct (Rtotal_order (val e) 0) as [A|[A|A]]; [exact A|contradiction|]. pose proof (pos_sign e A). congruence. }
      pose proof (Bdiv_correct 53 1024 _ _ mode_NE d e Z) as C. destruct (Rlt_bool _ _).
      * destruct C as (C1 & C2 & _). rewrite Fd in C2. rewrite ltb_fin by assumption. apply Rlt_bool_true.
        assert (val (Bdiv mode_NE d e) <= 0); [|lra]. unfold val at 1. rewrite C1. change (fl (val d / val e) <= 0). rewrite <- fl_0. apply fl_le.
        apply Rmult_le_reg_r with (- val e); [lra|]. unfold Rdiv. replace (val d * / val e * - val e) with (- val d) by (field; lra). lra.
      * replace (Bdiv mode_NE d e) with (inf64 true); [exact Inf|]. rewrite Sd, Se in C. cbn in C.
        destruct (Bdiv mode_NE d e) as [s|s| |s m x B]; cbn in C; try discriminate. injection C as ->. reflexivity.
Qed.
Lemma step_ok (factor : b64) k : fin factor -> 0 < val factor <= 1 -> fin (length_after factor k) /\ 0 <= val (length_after factor k) <= 1 /\ Bsign (length_after factor k) = false.
Proof.
  intros Ff Hf. induction k as [|k (F & V & S)]; cbn [length_after].
  - assert (E : sf (b64_lit 1 1) = SpecFloat.S754_finite false 4503599627370496 (-52)) by (unfold b64_lit; rewrite sf_div, sf_ofZ; vm_compute; reflexivity).
    destruct (b64_lit 1 1) as [s|s| |s m e B]; try discriminate. injection E as -> -> ->. split; [reflexivity|]. split; [unfold val; cbn; unfold F2R; cbn; lra|reflexivity].
  - destruct (mul_ok _ _ F Ff) as [F2 V2].
    { rewrite Rabs_pos_eq by nra. apply Rle_trans with 1; [nra|]. change 1 with (bpow radix2 0). apply bpow_le. lia. }
    split; [exact F2|]. rewrite V2. split.
    + split; [rewrite <- fl_0; apply fl_le; nra|]. apply Rle_trans with (fl (bpow radix2 0)); [apply fl_le; cbn; nra|rewrite fl_pow by lia; cbn; lra].
    + pose proof (Bmult_correct 53 1024 _ _ mode_NE (length_after factor k) factor) as C. destruct (Rlt_bool _ _).
      * destruct C as (_ & _ & C). rewrite C, S, (pos_sign factor) by (destruct (Bmult _ _ _); [reflexivity|reflexivity|discriminate|reflexivity] || lra). reflexivity.
      * exfalso. destruct (Bmult mode_NE (length_after factor k) factor) as [s|s| |s m e B]; try discriminate.
Qed.

Section QP.
  Context {S : Type} (ex lg : b64 -> b64) (sm : list b64 -> b64).
  Hypothesis Hsm : some_order sm.
  Local Instance Np : Num b64 := B64Num ex lg sm.
  Variables (LL : lltops b64) (cfg : qp_config b64) (n : nat) (H : mat b64) (g lower upper : vec b64) (fuel afuel : nat) (ol : option (mat b64)) (ix : vec b64) (s s' : S) (out : qp_out b64).
  Hypothesis Hrun : qp_solve LL cfg n H g lower upper fuel afuel ol ix s = Ok out s'.

  (** C80: when the solver reports a small gradient (5) or all variables clamped (6), the returned point is in the box and satisfies the optimality conditions
      of the exact problem up to the threshold and the rounding of one gradient. *)
  Theorem C80_kkt : qp_data64 ex lg sm cfg n H g lower upper -> qo_retval out = 5%Z \/ qo_retval out = 6%Z -> forall i, (i < n)%nat ->
    let x := qo_x out in let G := quad_grad n (exact_m H) (exact_v g) (exact_v x) i in let E := allowance n H g x i in
    fin (vget x i) /\ exact_v lower i <= exact_v x i <= exact_v upper i /\
    (exact_v x i = exact_v lower i /\ - E <= G \/ exact_v x i = exact_v upper i /\ G <= E \/ qo_retval out = 5%Z /\ Rabs G <= val (qp_grad_thre cfg) + E).
  Proof.
    intros D Hr i Hi. destruct (qp_ok LL cfg n H g lower upper fuel afuel ol ix s s' out Hrun) as (_ & _ & HH & Hg & _).
    exact (exit64 ex lg sm Hsm LL cfg n H g lower upper HH Hg D fuel afuel ol ix s s' out Hrun Hr i Hi).
  Qed.

  (** C80: hence for a symmetric positive semidefinite matrix no point of the box is better by more than this. *)
  Theorem C80_suboptimal : qp_data64 ex lg sm cfg n H g lower upper -> fsym n (exact_m H) -> psd n (exact_m H) -> qo_retval out = 5%Z \/ qo_retval out = 6%Z ->
    forall y, (forall i, (i < n)%nat -> exact_v lower i <= y i <= exact_v upper i) ->
    quad n (exact_m H) (exact_v g) (exact_v (qo_x out)) <= quad n (exact_m H) (exact_v g) y +
      Rsum n (fun i => ((if (qo_retval out =? 5)%Z then val (qp_grad_thre cfg) else 0) + allowance n H g (qo_x out) i) * (exact_v upper i - exact_v lower i)).
  Proof.
    intros D Hs Hp Hr y Hy. set (x := exact_v (qo_x out)). pose proof (fobj_convex n (exact_m H) (exact_v g) x y Hs Hp) as C.
    change (fobj n (exact_m H) (exact_v g)) with (quad n (exact_m H) (exact_v g)) in C.
    set (W := Rsum n _). assert (L : - W <= fdot n (fgrad n (exact_m H) (exact_v g) x) (fsubv y x)); [|lra].
    unfold W, fdot. rewrite <- Rsum_opp. apply Rsum_le. intros i Hi. destruct (C80_kkt D Hr i Hi) as (_ & Bx & K). cbn zeta in K. fold x in K, Bx. specialize (Hy i Hi).
    change (fgrad n (exact_m H) (exact_v g) x i) with (quad_grad n (exact_m H) (exact_v g) x i). unfold fsubv.
    set (G := quad_grad _ _ _ _ _) in *. set (E := allowance _ _ _ _ _) in *. destruct (qd_thr _ _ _ _ _ _ _ _ _ D) as (_ & T0 & _).
    assert (E0 : 0 <= E).
    { unfold E, allowance. apply Rmult_le_pos; [apply (gam_pos (n + 2))|]. apply Rplus_le_le_0_compat; [apply Rabs_pos|]. apply Rsum_nonneg. intros j _.
      apply Rplus_le_le_0_compat; [apply Rabs_pos|apply bpow_ge_0]. }
    set (t := if (qo_retval out =? 5)%Z then _ else _). assert (Ht : 0 <= t) by (unfold t; destruct (_ =? _)%Z; lra).
    destruct K as [[K1 K2]|[[K1 K2]|[K1 K2]]].
    - assert (0 <= y i - x i <= exact_v upper i - exact_v lower i) by lra. nra.
    - assert (0 <= x i - y i <= exact_v upper i - exact_v lower i) by lra. nra.
    - assert (Et : t = val (qp_grad_thre cfg)) by (unfold t; rewrite K1; reflexivity). rewrite <- Et in K2. apply Rabs_le_inv in K2.
      assert (- (exact_v upper i - exact_v lower i) <= y i - x i <= exact_v upper i - exact_v lower i) by lra.
      destruct (Rle_lt_dec 0 (y i - x i)); nra.
  Qed.

  Lemma step_same k : qp_step cfg k = length_after (qp_step_factor cfg) k.
  Proof.
    induction k as [|k IH]; cbn [qp_step length_after]; [|rewrite IH; reflexivity]. reflexivity.
  Qed.
  (** C80: a step along a direction whose computed slope is negative does not raise the computed objective, unless the line search gave up at the minimum step length. *)
  Theorem C80_monotone : fin (qp_step_factor cfg) -> 0 < val (qp_step_factor cfg) <= 1 -> fin (qp_armijo_param cfg) -> 0 < val (qp_armijo_param cfg) ->
    exists first steps last, qo_trace out = first :: steps ++ last /\ (length last <= 1)%nat /\
    let objs := map qt_obj steps ++ [qp_obj H g (qo_x out)] in
    forall i e, nth_error steps i = Some e ->
      let slope := dot (qt_dir e) (qp_grad H g (qt_x e)) in
      fin slope -> val slope < 0 -> Bltb (length_after (qp_step_factor cfg) (Z.to_nat (qt_snum e))) (qp_min_step cfg) = false ->
      Bltb (nth i objs nzero) (nth (i + 1) objs nzero) = false.
  Proof.
    intros Ff Hf Fa Ha. destruct (qp_ok LL cfg n H g lower upper fuel afuel ol ix s s' out Hrun) as (_ & _ & _ & _ & _ & _ & Hix).
    destruct (solve_path LL cfg n H g lower upper fuel afuel ol ix s s' out Hrun Hix) as (e0 & es & tl & Ht & Hc & _ & Htl).
    exists e0, es, tl. split; [exact Ht|]. split; [destruct Htl as [(_ & -> & _)|(_ & it & -> & _)]; cbn; lia|]. cbn zeta.
    clear Ht Htl. induction Hc as [x|x es y e z C IH M].
    - intros [|i] e E; discriminate.
    - intros i e' He Fs Ns Hm. rewrite map_app, <- app_assoc. cbn [map app].
      assert (Ey : qt_obj e = qp_obj H g y) by (apply (mv_obj _ _ _ _ _ _ _ _ _ _ M)).
      assert (Ll : length (map qt_obj es) = length es) by apply map_length.
      destruct (Nat.lt_ge_cases i (length es)) as [Hi|Hi].
      + rewrite nth_error_app1 in He by exact Hi. specialize (IH i e' He Fs Ns Hm). rewrite <- Ey in IH.
        change (map qt_obj es ++ [qt_obj e; qp_obj H g z]) with (map qt_obj es ++ [qt_obj e] ++ [qp_obj H g z]). rewrite app_assoc.
        rewrite !(app_nth1 (map qt_obj es ++ [qt_obj e])) by (rewrite app_length; cbn; lia). exact IH.
      + rewrite nth_error_app2 in He by exact Hi. destruct (i - length es)%nat as [|q] eqn:Ei; [|destruct q; discriminate He]. injection He as <-.
        assert (i = length es) as -> by lia. rewrite !app_nth2 by lia. rewrite Ll, Nat.sub_diag. replace (length es + 1 - length es)%nat with 1%nat by lia. cbn [nth].
        destruct (mv_step _ _ _ _ _ _ _ _ _ _ M) as (k & Hk & Hz & _ & _ & T3). rewrite Hk, Nat2Z.id, <- step_same in Hm.
        pose proof (mv_x _ _ _ _ _ _ _ _ _ _ M) as Ex. rewrite Ex in Fs, Ns. rewrite Ey, Hz. destruct T3 as [T3|[_ T3]]; [|cbn [nltb Np B64Num] in T3; congruence].
        cbn [nltb ndiv nsub nmul Np B64Num] in T3. set (z' := qp_clip _ _ _) in *. set (sl := dot _ _) in *.
        destruct (Bltb (qp_obj H g y) (qp_obj H g z')) eqn:Lt; [|reflexivity]. exfalso. apply diff_pos in Lt.
        destruct (step_ok (qp_step_factor cfg) k Ff Hf) as (F1 & V1 & S1). rewrite <- step_same in F1, V1, S1.
        assert (Sl : Bsign sl = true).
        { clearbody sl. clear -Ns. unfold val in Ns. destruct sl as [q|q| |q m e' B]; cbn in *; try lra. destruct q; [reflexivity|].
          exfalso. revert Ns. apply Rle_not_lt, F2R_ge_0. cbn. lia. }
        assert (Pf : fin (Bmult mode_NE (qp_step cfg k) sl) /\ Bsign (Bmult mode_NE (qp_step cfg k) sl) = true).
        { pose proof (Bmult_correct 53 1024 _ _ mode_NE (qp_step cfg k) sl) as Q. rewrite Rlt_bool_true in Q.
          - destruct Q as (_ & Q2 & Q3). rewrite F1, Fs in Q2. split; [exact Q2|]. rewrite Q3, S1, Sl; [reflexivity|].
            destruct (Bmult mode_NE (qp_step cfg k) sl); try reflexivity. discriminate Q2.
          - change (Rabs (fl (val (qp_step cfg k) * val sl)) < bpow radix2 1024).
            apply Rle_lt_trans with (Rabs (val sl)); [|apply abs_B2R_lt_emax].
            apply abs_round_le_generic; try typeclasses eauto; [apply generic_format_abs, generic_format_B2R|].
            rewrite Rabs_mult, (Rabs_pos_eq (val (qp_step cfg k))) by lra. pose proof (Rabs_pos (val sl)). nra. }
        rewrite (quot_neg _ _ Lt (proj1 Pf) (proj2 Pf) _ Fa Ha) in T3. discriminate.
  Qed.
End QP.
Print Assumptions C80_kkt.
Print Assumptions C80_suboptimal.
Print Assumptions C80_monotone.

(** ** Concrete cases *)
Definition zero_fun (x : b64) : b64 := B754_zero false.
Local Instance N1 : Num b64 := B64Num zero_fun zero_fun seq_sum.
Definition ex_H : mat b64 := mkmat 2 2 [[b64_ofZ 2; b64_ofZ 1]; [b64_ofZ 1; b64_ofZ 2]].
Notation ex_run g0 g1 := (qp_solve (S := unit) chol_llt qp_default_config 2 ex_H [b64_ofZ g0; b64_ofZ g1] [b64_ofZ (-1); b64_ofZ (-1)] [b64_ofZ 1; b64_ofZ 1] 501 200 None [b64_ofZ 0; b64_ofZ 0] tt).
Definition ends_with (rv : Z) (k : nat) (o : outcome unit (qp_out b64)) : bool :=
  match o with Ok out _ => (qo_retval out =? rv)%Z && (length (qo_trace out) =? k)%nat | _ => false end.
Lemma ends_inv rv k o : ends_with rv k o = true -> exists out, o = Ok out tt /\ qo_retval out = rv /\ length (qo_trace out) = k.
Proof. destruct o as [a []| | |]; try discriminate. intros E. apply andb_true_iff in E as [E1 E2]. apply Z.eqb_eq in E1. apply Nat.eqb_eq in E2. eauto. Qed.

Definition sized (x : f64) : bool := match x with SpecFloat.S754_zero _ => true | SpecFloat.S754_finite _ m e => (e <=? 0)%Z && (Z.pos m <=? 2 ^ 53)%Z | _ => false end.
Lemma sized_ok (x : b64) : sized (sf x) = true -> fin x /\ Rabs (val x) <= bpow radix2 53.
Proof.
  pose proof (bpow_ge_0 radix2 53) as B0. destruct x as [q|q| |q m e B]; try discriminate; intros E.
  - split; [reflexivity|]. unfold val. cbn [B2R]. rewrite Rabs_R0. exact B0.
  - split; [reflexivity|]. cbn in E. apply andb_true_iff in E as [E1 E2]. apply Z.leb_le in E1, E2. unfold val. cbn [B2R]. rewrite <- F2R_Zabs, abs_cond_Zopp. cbn [Z.abs].
    apply Rle_trans with (F2R (Float radix2 (2 ^ 53) 0)); [|unfold F2R; cbn [Fnum Fexp]; change (bpow radix2 0) with 1; rewrite Rmult_1_r; change (IZR (2 ^ 53)) with (IZR (Zpower radix2 53)); rewrite IZR_Zpower by lia; lra].
    unfold F2R. cbn [Fnum Fexp]. apply Rmult_le_compat; [apply IZR_le; lia|apply bpow_ge_0|apply IZR_le; exact E2|apply bpow_le; lia].
Qed.
Lemma ex_data g0 g1 : sized (sf (b64_ofZ g0)) = true -> sized (sf (b64_ofZ g1)) = true ->
  qp_data64 zero_fun zero_fun seq_sum qp_default_config 2 ex_H [b64_ofZ g0; b64_ofZ g1] [b64_ofZ (-1); b64_ofZ (-1)] [b64_ofZ 1; b64_ofZ 1].
Proof.
  intros G0 G1.
  assert (B4 : bpow radix2 53 <= bpow radix2 400) by (apply bpow_le; lia). assert (B9 : bpow radix2 53 <= bpow radix2 900) by (apply bpow_le; lia).
  assert (Q : forall x, sized (sf x) = true -> fin x /\ Rabs (val x) <= bpow radix2 400) by (intros x E; apply sized_ok in E as [F V]; split; [exact F|lra]).
  assert (S1 : sized (sf (b64_ofZ 1)) = true) by (vm_compute; reflexivity). assert (S2 : sized (sf (b64_ofZ 2)) = true) by (vm_compute; reflexivity).
  assert (Sm : sized (sf (b64_ofZ (-1))) = true) by (vm_compute; reflexivity).
  assert (L : val (b64_ofZ (-1)) <= val (b64_ofZ 1)).
  { left. apply lt_true; [apply (Q _ Sm)|apply (Q _ S1)|vm_compute; reflexivity]. }
  split.
  - lia.
  - intros i j Hi Hj. destruct i as [|[|i]]; try lia; destruct j as [|[|j]]; try lia; [exact (Q _ S2)|exact (Q _ S1)|exact (Q _ S1)|exact (Q _ S2)].
  - intros i Hi. destruct i as [|[|i]]; try lia; cbn [vget nth]; [apply sized_ok in G0 as [F V]|apply sized_ok in G1 as [F V]]; (split; [exact F|lra]).
  - intros i Hi. destruct (Q _ Sm) as [F1 V1]. destruct (Q _ S1) as [F2 V2]. apply Rabs_le_inv in V1, V2.
    destruct i as [|[|i]]; try lia; cbn [vget nth]; (split; [exact F1|]); (split; [exact F2|]); lra.
  - assert (E : sf (nlit (Num := N1) 1 100000000) = SpecFloat.S754_finite false 6044629098073146 (-79)).
    { cbn [nlit N1 B64Num]. unfold b64_lit. rewrite !sf_div, !sf_ofZ. vm_compute. reflexivity. }
    change (qp_grad_thre qp_default_config) with (nlit (Num := N1) 1 100000000).
    assert (Sd : sized (sf (nlit (Num := N1) 1 100000000)) = true) by (rewrite E; reflexivity).
    apply sized_ok in Sd as [F V]. split; [exact F|]. apply Rabs_le_inv in V. split.
    + unfold sf in E. destruct (nlit _ _) as [q|q| |q m e B]; try discriminate. injection E as -> -> ->. unfold val. cbn [B2R cond_Zopp]. apply F2R_ge_0. cbn. lia.
    + apply Rle_trans with (bpow radix2 53); [lra|apply bpow_le; lia].
Qed.
(** One clamped and one free variable (exit 5) and two clamped ones (exit 6). *)
Example C80_kkt_nonvacuous :
  (exists out, ex_run (-20) 0 = Ok out tt /\ qo_retval out = 5%Z) /\ (exists out, ex_run (-20) 20 = Ok out tt /\ qo_retval out = 6%Z) /\
  qp_data64 zero_fun zero_fun seq_sum qp_default_config 2 ex_H [b64_ofZ (-20); b64_ofZ 0] [b64_ofZ (-1); b64_ofZ (-1)] [b64_ofZ 1; b64_ofZ 1] /\
  qp_data64 zero_fun zero_fun seq_sum qp_default_config 2 ex_H [b64_ofZ (-20); b64_ofZ 20] [b64_ofZ (-1); b64_ofZ (-1)] [b64_ofZ 1; b64_ofZ 1].
Proof.
  split; [|split; [|split; apply ex_data; vm_compute; reflexivity]].
  - assert (E : ends_with 5 4 (ex_run (-20) 0) = true) by (vm_compute; reflexivity). apply ends_inv in E as (out & E1 & E2 & _). eauto.
  - assert (E : ends_with 6 3 (ex_run (-20) 20) = true) by (vm_compute; reflexivity). apply ends_inv in E as (out & E1 & E2 & _). eauto.
Qed.
Lemma ofZ_val z (b : b64) s m e : sf b = SpecFloat.S754_finite s m e -> F2R (Float radix2 (cond_Zopp s (Zpos m)) e) = z -> val b = z.
Proof. intros E <-. unfold sf in E. destruct b as [q|q| |q m' e' B]; try discriminate. injection E as -> -> ->. reflexivity. Qed.
(** The matrix [[2, 1], [1, 2]] of the two runs is symmetric positive semidefinite. *)
Example C80_suboptimal_nonvacuous : fsym 2 (exact_m ex_H) /\ psd 2 (exact_m ex_H).
Proof.
  assert (V1 : val (b64_ofZ 1) = 1) by (eapply ofZ_val; [vm_compute; reflexivity|unfold F2R; cbn; lra]).
  assert (V2 : val (b64_ofZ 2) = 2) by (eapply ofZ_val; [vm_compute; reflexivity|unfold F2R; cbn; lra]).
  assert (M : exact_m ex_H 0 0 = 2 /\ exact_m ex_H 0 1 = 1 /\ exact_m ex_H 1 0 = 1 /\ exact_m ex_H 1 1 = 2) by (split; [exact V2|split; [exact V1|split; [exact V1|exact V2]]]).
  destruct M as (M1 & M2 & M3 & M4). split.
  - intros i j Hi Hj. destruct i as [|[|i]]; try lia; destruct j as [|[|j]]; try lia; congruence.
  - intros x. unfold fdot, fmv. cbn [Rsum]. rewrite M1, M2, M3, M4. nra.
Qed.
(** The first pass of the first run: negative slope, the first candidate is taken. *)
Definition first_pass (o : outcome unit (qp_out b64)) : bool :=
  match o with
  | Ok out _ => match qo_trace out with
                | _ :: e :: _ => let sl := dot (qt_dir e) (qp_grad ex_H [b64_ofZ (-20); b64_ofZ 0] (qt_x e)) in
                    is_finite sl && Bltb sl nzero && negb (Bltb (length_after (qp_step_factor qp_default_config) (Z.to_nat (qt_snum e))) (qp_min_step qp_default_config))
                | _ => false end
  | _ => false end.
Example C80_monotone_nonvacuous : first_pass (ex_run (-20) 0) = true /\
  is_finite (qp_step_factor (T := b64) qp_default_config) && Bltb nzero (qp_step_factor (T := b64) qp_default_config) && Bleb (qp_step_factor (T := b64) qp_default_config) (b64_ofZ 1) = true /\
  is_finite (qp_armijo_param (T := b64) qp_default_config) && Bltb nzero (qp_armijo_param (T := b64) qp_default_config) = true.
Proof. split; [|split]; vm_compute; reflexivity. Qed.

(** ** The objective can rise *)
(** Exact values of doubles as rationals, and the exact objective. *)
Definition toQ (x : f64) : Q :=
  match x with
  | SpecFloat.S754_finite s m e => if (0 <=? e)%Z then inject_Z (cond_Zopp s (Zpos m) * 2 ^ e) else Qmake (cond_Zopp s (Zpos m)) (2 ^ Z.to_pos (- e))
  | _ => 0%Q end.
Definition objQ (H : mat f64) (g x : vec f64) : Q :=
  let h i j := toQ (mget H i j) in let c i := toQ (vget g i) in let p i := toQ (vget x i) in
  (p 0%nat * c 0%nat + p 1%nat * c 1%nat +
   (1 # 2) * (p 0%nat * (h 0%nat 0%nat * p 0%nat + h 0%nat 1%nat * p 1%nat) + p 1%nat * (h 1%nat 0%nat * p 0%nat + h 1%nat 1%nat * p 1%nat)))%Q.
Definition dbl (s : bool) (m : positive) (e : Z) : f64 := SpecFloat.S754_finite s m e.
Definition rise_H : mat f64 := mkmat 2 2 [[nofZ 29768; nofZ 20496]; [nofZ 20496; dbl false 7758154045587484 (-39)]].
Definition rise_g : vec f64 := [dbl true 7185427379557431 (-36); dbl true 4947343441662493 (-36)].
Definition rise_x : vec f64 := [dbl false 7909781879355318 (-51); dbl true 5038153022284578 (-65)].
Notation rise_run := (qp_solve (T := f64) (S := unit) chol_llt qp_default_config 2 rise_H rise_g [nofZ (-1000); nofZ (-1000)] [nofZ 1000; nofZ 1000] 501 200 None rise_x tt).
Definition risen (o : outcome unit (qp_out f64)) : bool :=
  match o with
  | Ok out _ => (qo_retval out =? 4)%Z && nltb (qp_obj rise_H rise_g rise_x) (qp_obj rise_H rise_g (qo_x out)) &&
      match Qcompare (objQ rise_H rise_g rise_x) (objQ rise_H rise_g (qo_x out)) with Lt => true | _ => false end
  | _ => false end.
(** C80: with the default settings, a positive definite matrix and a start inside the limits the solver can end with "improvement smaller than tolerance" at a point
    where both the computed and the exact objective are higher than at the start: the direction may point uphill by up to 1e-10. *)
Theorem C80_rise_refuted :
  let h i j := toQ (mget rise_H i j) in
  (h 0%nat 1%nat == h 1%nat 0%nat /\ 0 < h 0%nat 0%nat /\ 0 < h 0%nat 0%nat * h 1%nat 1%nat - h 0%nat 1%nat * h 1%nat 0%nat)%Q /\
  (forall i, (i < 2)%nat -> -1000 <= toQ (vget rise_x i) <= 1000)%Q /\
  exists out, rise_run = Ok out tt /\ qo_retval out = 4%Z /\
    nltb (qp_obj rise_H rise_g rise_x) (qp_obj rise_H rise_g (qo_x out)) = true /\ (objQ rise_H rise_g rise_x < objQ rise_H rise_g (qo_x out))%Q.
Proof.
  cbn zeta. split; [repeat split; vm_compute; reflexivity|]. split.
  - intros i Hi. destruct i as [|[|i]]; try lia; split; vm_compute; discriminate.
  - assert (E : risen rise_run = true) by (vm_compute; reflexivity). destruct rise_run as [out []| | |]; try discriminate. exists out. split; [reflexivity|].
    unfold risen in E. apply andb_true_iff in E as [E E3]. apply andb_true_iff in E as [E1 E2]. apply Z.eqb_eq in E1. split; [exact E1|]. split; [exact E2|].
    apply Qlt_alt. destruct (Qcompare _ _); [discriminate|reflexivity|discriminate].
Qed.
Print Assumptions C80_rise_refuted.
