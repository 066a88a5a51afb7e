(** IEEE binary64 numbers as values: Flocq's type of floats that are in range by construction. The scalar record over this type has
    the same operations as [F64Num], rounding to nearest even, and leaves open what a computed run does not fix: the library
    functions exp and log, and the order in which Eigen adds up a reduction. Each operation is related to exact reals. *)
From Coq Require Import Reals Lra Psatz Permutation.
From Coq Require Import Floats.SpecFloat.
From Flocq Require Import Core BinarySingleNaN Relative Plus_error.
From Verif Require Import Prelude Scalar LinAlg.
Local Open Scope R_scope.

Global Instance Hprec64 : Prec_gt_0 53 := eq_refl _.
Global Instance Hmax64 : Prec_lt_emax 53 1024 := eq_refl _.
Notation b64 := (binary_float 53 1024).

Definition b64_ofZ (z : Z) : b64 := BinarySingleNaN.binary_normalize 53 1024 _ _ mode_NE z 0 false.
Definition b64_lit (p : Z) (q : positive) : b64 := Bdiv mode_NE (b64_ofZ p) (b64_ofZ (Zpos q)).

(** A sum in some order and grouping: the value of some tree of additions over the elements. *)
Inductive tree_sum : list b64 -> b64 -> Prop :=
| ts_nil : tree_sum [] (B754_zero false)
| ts_one a : tree_sum [a] a
| ts_add l1 l2 l a b : tree_sum l1 a -> tree_sum l2 b -> Permutation (l1 ++ l2) l -> tree_sum l (Bplus mode_NE a b).
Definition some_order (sm : list b64 -> b64) : Prop := forall l, tree_sum l (sm l).

Definition B64Num (ex lg : b64 -> b64) (sm : list b64 -> b64) : Num b64 := {|
  nzero := B754_zero false; none := b64_ofZ 1;
  nadd := Bplus mode_NE; nsub := Bminus mode_NE; nmul := Bmult mode_NE; ndiv := Bdiv mode_NE;
  nopp := @Bopp 53 1024; nabs := @Babs 53 1024; nsqrt := Bsqrt mode_NE; nexp := ex; nlog := lg;
  nltb := @Bltb 53 1024; nleb := @Bleb 53 1024; neqb := @Beqb 53 1024;
  nfin := @is_finite 53 1024; nlit := b64_lit; nsum := sm |}.

(** ** The operations are those of [F64Num] *)
Definition sf (x : b64) : f64 := B2SF x.

Lemma ne_choice s m l : round_nearest_even m l = choice_mode mode_NE s m l.
Proof. destruct l as [|c]; [reflexivity|]. destruct c; try reflexivity. cbn. unfold Round.cond_incr. destruct (Z.even m); reflexivity. Qed.
Lemma round_aux_eq sx mx ex lx : SpecFloat.binary_round_aux 53 1024 sx mx ex lx = BinarySingleNaN.binary_round_aux 53 1024 mode_NE sx mx ex lx.
Proof.
  unfold SpecFloat.binary_round_aux, BinarySingleNaN.binary_round_aux. set (mrse' := shr_fexp _ _ _ _ _). destruct mrse' as [mrs' e'].
  cbn. rewrite (ne_choice sx). reflexivity.
Qed.
Lemma round_eq s m e : SpecFloat.binary_round 53 1024 s m e = BinarySingleNaN.binary_round 53 1024 mode_NE s m e.
Proof.
  unfold SpecFloat.binary_round, BinarySingleNaN.binary_round, shl_align_fexp. set (mez := shl_align _ _ _). destruct mez as [mz ez].
  apply round_aux_eq.
Qed.
Lemma normalize_eq m e z : SpecFloat.binary_normalize 53 1024 m e z = B2SF (BinarySingleNaN.binary_normalize 53 1024 _ _ mode_NE m e z).
Proof.
  destruct m; [reflexivity| |]; unfold SpecFloat.binary_normalize, BinarySingleNaN.binary_normalize; rewrite B2SF_SF2B; apply round_eq.
Qed.

Lemma sf_ofZ z : sf (b64_ofZ z) = f64_ofZ z.
Proof. symmetry. apply normalize_eq. Qed.
Lemma sf_add x y : sf (Bplus mode_NE x y) = SFadd 53 1024 (sf x) (sf y).
Proof.
  symmetry. destruct x as [sx|sx| |sx mx ex Bx], y as [sy|sy| |sy my ey By]; try reflexivity; try (cbn; destruct Bool.eqb; reflexivity).
  apply normalize_eq.
Qed.
Lemma sf_sub x y : sf (Bminus mode_NE x y) = SFsub 53 1024 (sf x) (sf y).
Proof.
  symmetry. destruct x as [sx|sx| |sx mx ex Bx], y as [sy|sy| |sy my ey By]; try reflexivity; try (cbn; destruct Bool.eqb; reflexivity).
  cbn. unfold Zminus. rewrite <- cond_Zopp_negb. apply normalize_eq.
Qed.
Lemma sf_mul x y : sf (Bmult mode_NE x y) = SFmul 53 1024 (sf x) (sf y).
Proof.
  symmetry. destruct x as [sx|sx| |sx mx ex Bx], y as [sy|sy| |sy my ey By]; try reflexivity.
  unfold sf. cbn [B2SF Bmult SFmul]. rewrite B2SF_SF2B. apply round_aux_eq.
Qed.
Lemma sf_div x y : sf (Bdiv mode_NE x y) = SFdiv 53 1024 (sf x) (sf y).
Proof.
  symmetry. destruct x as [sx|sx| |sx mx ex Bx], y as [sy|sy| |sy my ey By]; try reflexivity.
  unfold sf. cbn [B2SF Bdiv SFdiv]. rewrite B2SF_SF2B. set (melz := SFdiv_core_binary _ _ _ _ _ _). destruct melz as [[mz ez] lz].
  apply round_aux_eq.
Qed.
Lemma sf_sqrt x : sf (Bsqrt mode_NE x) = SFsqrt 53 1024 (sf x).
Proof.
  symmetry. destruct x as [sx|sx| |sx mx ex Bx]; try reflexivity; try (destruct sx; reflexivity). destruct sx; [reflexivity|].
  unfold sf. cbn [B2SF Bsqrt SFsqrt]. rewrite B2SF_SF2B. set (melz := SFsqrt_core_binary _ _ _ _). destruct melz as [[mz ez] lz].
  apply round_aux_eq.
Qed.
(** Every operation of the two instances except exp, log and the reduction, and the reduction of [F64Num] as one of the orders. *)
Definition seq_sum (l : list b64) : b64 :=
  match l with [] => B754_zero false | a :: r => fold_left (Bplus mode_NE) r a end.
Lemma fold_order r : forall l a, tree_sum l a -> tree_sum (l ++ r) (fold_left (Bplus mode_NE) r a).
Proof.
  induction r as [|b r IH]; intros l a H; cbn; [rewrite app_nil_r; exact H|].
  replace (l ++ b :: r)%list with ((l ++ [b]) ++ r)%list by (rewrite <- app_assoc; reflexivity).
  apply IH. apply (ts_add l [b]); [exact H|constructor|reflexivity].
Qed.
Lemma seq_sum_order : some_order seq_sum.
Proof. intros [|a r]; [constructor|]. apply (fold_order r [a] a). constructor. Qed.

Section Agree.
  Variables (ex lg : b64 -> b64).
  Existing Instance F64Num.
  Let Nb := B64Num ex lg seq_sum.
  Lemma b64_f64 :
    sf (@nzero _ Nb) = nzero /\ sf (@none _ Nb) = none /\
    (forall x y, sf (@nadd _ Nb x y) = nadd (sf x) (sf y)) /\ (forall x y, sf (@nsub _ Nb x y) = nsub (sf x) (sf y)) /\
    (forall x y, sf (@nmul _ Nb x y) = nmul (sf x) (sf y)) /\ (forall x y, sf (@ndiv _ Nb x y) = ndiv (sf x) (sf y)) /\
    (forall x, sf (@nopp _ Nb x) = nopp (sf x)) /\ (forall x, sf (@nabs _ Nb x) = nabs (sf x)) /\
    (forall x, sf (@nsqrt _ Nb x) = nsqrt (sf x)) /\
    (forall x y, @nltb _ Nb x y = nltb (sf x) (sf y)) /\ (forall x y, @nleb _ Nb x y = nleb (sf x) (sf y)) /\
    (forall x y, @neqb _ Nb x y = neqb (sf x) (sf y)) /\ (forall x, @nfin _ Nb x = nfin (sf x)) /\
    (forall p q, sf (@nlit _ Nb p q) = nlit p q) /\ (forall l, sf (@nsum _ Nb l) = nsum (map sf l)).
  Proof.
    repeat split; intros; try first [apply sf_ofZ | apply sf_add | apply sf_sub | apply sf_mul | apply sf_div | apply sf_sqrt];
      try (destruct x; reflexivity); try reflexivity.
    - cbn [nlit Nb B64Num F64Num]. unfold b64_lit. rewrite sf_div, !sf_ofZ. reflexivity.
    - cbn [nsum Nb B64Num F64Num]. destruct l as [|a r]; [reflexivity|]. cbn [seq_sum map]. revert a.
      induction r as [|b r IH]; intros a; cbn [fold_left map]; [reflexivity|]. rewrite IH, sf_add. reflexivity.
  Qed.
End Agree.

(** ** Real values *)
Definition val (x : b64) : R := B2R x.
Definition fin (x : b64) : Prop := is_finite x = true.
Definition fl (r : R) : R := round radix2 (SpecFloat.fexp 53 1024) ZnearestE r.
Definition inf64 (s : bool) : b64 := B754_infinity s.

Global Instance fexp64_valid : Valid_exp (SpecFloat.fexp 53 1024) := fexp_correct 53 1024 _.
Lemma fexp64_eq : SpecFloat.fexp 53 1024 = FLT_exp (-1074) 53.
Proof. reflexivity. Qed.

Lemma fl_le x y : x <= y -> fl x <= fl y.
Proof. apply round_le; typeclasses eauto. Qed.
Lemma fl_0 : fl 0 = 0.
Proof. apply round_0; typeclasses eauto. Qed.
Lemma fl_val x : fl (val x) = val x.
Proof. apply round_generic; [typeclasses eauto|]. apply generic_format_B2R. Qed.
Lemma fl_ge a x : val a <= x -> val a <= fl x.
Proof. intros H. rewrite <- (fl_val a). apply fl_le, H. Qed.
Lemma fl_le_val a x : x <= val a -> fl x <= val a.
Proof. intros H. rewrite <- (fl_val a). apply fl_le, H. Qed.
Lemma fl_opp x : fl (- x) = - fl x.
Proof. apply round_NE_opp. Qed.
Lemma fl_pow e : (-1074 <= e)%Z -> fl (bpow radix2 e) = bpow radix2 e.
Proof.
  intros He. apply round_generic; [typeclasses eauto|]. rewrite fexp64_eq. apply generic_format_FLT_bpow; [exact Hprec64|exact He].
Qed.
(** Relative error of one rounding of a number that is not subnormal, and the absolute error below that. *)
Definition u53 : R := bpow radix2 (-53).
Lemma fl_rel x : bpow radix2 (-1022) <= Rabs x -> Rabs (fl x - x) <= u53 * Rabs x.
Proof.
  intros H. unfold fl. rewrite fexp64_eq.
  pose proof (relative_error_N_FLT radix2 (-1074) 53 eq_refl (fun n => negb (Z.even n)) x) as E.
  specialize (E H). replace (/ 2 * bpow radix2 (- (53) + 1)) with u53 in E; [exact E|].
  unfold u53. change (- (53) + 1)%Z with (-53 + 1)%Z. rewrite bpow_plus. change (bpow radix2 1) with 2. field.
Qed.
Lemma fl_abs x : Rabs x <= bpow radix2 (-1022) -> Rabs (fl x - x) <= bpow radix2 (-1075).
Proof.
  intros H. unfold fl.
  eapply Rle_trans; [apply error_le_half_ulp; typeclasses eauto|].
  assert (U : ulp radix2 (SpecFloat.fexp 53 1024) x <= bpow radix2 (-1074)).
  { eapply Rle_trans. apply (ulp_le radix2 (SpecFloat.fexp 53 1024) x (bpow radix2 (-1022))).
    - rewrite (Rabs_pos_eq (bpow radix2 (-1022))) by apply bpow_ge_0. exact H.
    - rewrite ulp_bpow. apply bpow_le. cbv. discriminate. }
  change (-1074)%Z with (-1075 + 1)%Z in U. rewrite bpow_plus in U. change (bpow radix2 1) with 2 in U. lra.
Qed.
Lemma fl_err x : Rabs (fl x - x) <= u53 * Rabs x + bpow radix2 (-1075).
Proof.
  pose proof (bpow_ge_0 radix2 (-1075)). pose proof (bpow_ge_0 radix2 (-53)). fold u53 in *. pose proof (Rabs_pos x).
  destruct (Rle_lt_dec (bpow radix2 (-1022)) (Rabs x)) as [H'|H'].
  - pose proof (fl_rel x H'). lra.
  - pose proof (fl_abs x (Rlt_le _ _ H')). pose proof (Rmult_le_pos _ _ H0 H1). lra.
Qed.

(** A finite result has finite operands, and is the rounded exact result. *)
Lemma overflow_not_fin (z : b64) s : B2SF z = binary_overflow 53 1024 mode_NE s -> fin z -> False.
Proof. intros E F. destruct z; cbn in E; discriminate. Qed.
Lemma add_fin x y : fin (Bplus mode_NE x y) -> fin x /\ fin y /\ val (Bplus mode_NE x y) = fl (val x + val y).
Proof.
  intros F.
  assert (Fx : fin x) by (destruct x as [sx|sx| |sx mx ex Bx], y as [sy|sy| |sy my ey By]; try reflexivity; cbn in F;
    try discriminate; destruct Bool.eqb; discriminate).
  assert (Fy : fin y) by (destruct x as [sx|sx| |sx mx ex Bx], y as [sy|sy| |sy my ey By]; try reflexivity; cbn in F;
    try discriminate; destruct Bool.eqb; discriminate).
  split; [exact Fx|]. split; [exact Fy|]. pose proof (Bplus_correct 53 1024 _ _ mode_NE x y Fx Fy) as C.
  destruct (Rlt_bool _ _); [apply C|]. destruct C as [C _]. destruct (overflow_not_fin _ _ C F).
Qed.
Lemma sub_fin x y : fin (Bminus mode_NE x y) -> fin x /\ fin y /\ val (Bminus mode_NE x y) = fl (val x - val y).
Proof.
  intros F.
  assert (Fx : fin x) by (destruct x as [sx|sx| |sx mx ex Bx], y as [sy|sy| |sy my ey By]; try reflexivity; cbn in F;
    try discriminate; destruct Bool.eqb; discriminate).
  assert (Fy : fin y) by (destruct x as [sx|sx| |sx mx ex Bx], y as [sy|sy| |sy my ey By]; try reflexivity; cbn in F;
    try discriminate; destruct Bool.eqb; discriminate).
  split; [exact Fx|]. split; [exact Fy|]. pose proof (Bminus_correct 53 1024 _ _ mode_NE x y Fx Fy) as C.
  destruct (Rlt_bool _ _); [apply C|]. destruct C as [C _]. destruct (overflow_not_fin _ _ C F).
Qed.
Lemma mul_fin x y : fin (Bmult mode_NE x y) -> fin x /\ fin y /\ val (Bmult mode_NE x y) = fl (val x * val y).
Proof.
  intros F. pose proof (Bmult_correct 53 1024 _ _ mode_NE x y) as C.
  destruct (Rlt_bool _ _); [|destruct (overflow_not_fin _ _ C F)].
  destruct C as (C1 & C2 & _). unfold fin in *. rewrite F in C2. symmetry in C2. apply andb_prop in C2 as [Fx Fy]. tauto.
Qed.
Lemma sqrt_fin x : fin (Bsqrt mode_NE x) -> fin x /\ 0 <= val x /\ val (Bsqrt mode_NE x) = fl (sqrt (val x)).
Proof.
  intros F. pose proof (Bsqrt_correct 53 1024 _ _ mode_NE x) as (C1 & C2 & _). unfold fin in *. rewrite F in C2.
  destruct x as [s|s| |[] m e B]; try discriminate; (split; [reflexivity|]); split; try exact C1.
  - apply Rle_refl.
  - unfold val. cbn. apply F2R_ge_0. cbn. lia.
Qed.
(** The other way: operands finite and the exact result in range. *)
Lemma in_range r : Rabs r <= bpow radix2 1023 -> Rabs (fl r) < bpow radix2 1024.
Proof.
  intros H. apply Rle_lt_trans with (bpow radix2 1023); [|apply bpow_lt; lia]. apply abs_round_le_generic; try typeclasses eauto; [|exact H].
  rewrite fexp64_eq. apply generic_format_FLT_bpow; [exact Hprec64|lia].
Qed.
Lemma add_ok x y : fin x -> fin y -> Rabs (val x + val y) <= bpow radix2 1023 -> fin (Bplus mode_NE x y) /\ val (Bplus mode_NE x y) = fl (val x + val y).
Proof.
  intros Fx Fy H. pose proof (Bplus_correct 53 1024 _ _ mode_NE x y Fx Fy) as C.
  rewrite Rlt_bool_true in C by (apply in_range, H). split; apply C.
Qed.
Lemma sub_ok x y : fin x -> fin y -> Rabs (val x - val y) <= bpow radix2 1023 -> fin (Bminus mode_NE x y) /\ val (Bminus mode_NE x y) = fl (val x - val y).
Proof.
  intros Fx Fy H. pose proof (Bminus_correct 53 1024 _ _ mode_NE x y Fx Fy) as C.
  rewrite Rlt_bool_true in C by (apply in_range, H). split; apply C.
Qed.
Lemma mul_ok x y : fin x -> fin y -> Rabs (val x * val y) <= bpow radix2 1023 -> fin (Bmult mode_NE x y) /\ val (Bmult mode_NE x y) = fl (val x * val y).
Proof.
  intros Fx Fy H. pose proof (Bmult_correct 53 1024 _ _ mode_NE x y) as C.
  rewrite Rlt_bool_true in C by (apply in_range, H). destruct C as (C1 & C2 & _). split; [|exact C1].
  unfold fin in *. rewrite C2, Fx, Fy. reflexivity.
Qed.
Lemma div_ok x y : fin x -> val y <> 0 -> Rabs (val x / val y) <= bpow radix2 1023 -> fin (Bdiv mode_NE x y) /\ val (Bdiv mode_NE x y) = fl (val x / val y).
Proof.
  intros Fx Fy H. pose proof (Bdiv_correct 53 1024 _ _ mode_NE x y Fy) as C.
  rewrite Rlt_bool_true in C by (apply in_range, H). destruct C as (C1 & C2 & _). split; [|exact C1].
  unfold fin in *. rewrite C2. exact Fx.
Qed.
Lemma ltb_fin x y : fin x -> fin y -> Bltb x y = Rlt_bool (val x) (val y).
Proof. intros Fx Fy. apply Bltb_correct; assumption. Qed.
Lemma leb_fin x y : fin x -> fin y -> Bleb x y = Rle_bool (val x) (val y).
Proof. intros Fx Fy. apply Bleb_correct; assumption. Qed.

(** Sums of nonnegative numbers in any order: a finite sum has finite terms, each at most the sum. *)
Definition nn (x : b64) : Prop := fin x -> 0 <= val x.
Lemma tree_sum_nn l z : tree_sum l z -> (forall x, In x l -> nn x) -> nn z.
Proof.
  induction 1 as [|a|l1 l2 l a b H1 IH1 H2 IH2 Hp]; intros Hn.
  - intros _. apply Rle_refl.
  - apply Hn. left. reflexivity.
  - intros F. apply add_fin in F as (Fa & Fb & ->). rewrite <- fl_0. apply fl_le.
    assert (Ha : nn a) by (apply IH1; intros x Hx; apply Hn, (Permutation_in _ Hp), in_or_app; left; exact Hx).
    assert (Hb : nn b) by (apply IH2; intros x Hx; apply Hn, (Permutation_in _ Hp), in_or_app; right; exact Hx).
    specialize (Ha Fa). specialize (Hb Fb). lra.
Qed.
Lemma tree_sum_bound l z : tree_sum l z -> (forall x, In x l -> nn x) -> fin z -> forall x, In x l -> fin x /\ 0 <= val x <= val z.
Proof.
  induction 1 as [|a|l1 l2 l a b H1 IH1 H2 IH2 Hp]; intros Hn F x Hx.
  - destruct Hx.
  - destruct Hx as [<-|[]]. split; [exact F|]. specialize (Hn a (or_introl eq_refl) F). lra.
  - assert (Hn1 : forall x, In x l1 -> nn x) by (intros y Hy; apply Hn, (Permutation_in _ Hp), in_or_app; left; exact Hy).
    assert (Hn2 : forall x, In x l2 -> nn x) by (intros y Hy; apply Hn, (Permutation_in _ Hp), in_or_app; right; exact Hy).
    apply add_fin in F as (Fa & Fb & E). rewrite E.
    pose proof (tree_sum_nn _ _ H1 Hn1 Fa) as Pa. pose proof (tree_sum_nn _ _ H2 Hn2 Fb) as Pb.
    apply (Permutation_in _ (Permutation_sym Hp)), in_app_or in Hx as [Hx|Hx].
    + destruct (IH1 Hn1 Fa x Hx) as (Fx & Px & Bx). split; [exact Fx|]. split; [exact Px|].
      apply Rle_trans with (val a); [exact Bx|]. apply fl_ge. lra.
    + destruct (IH2 Hn2 Fb x Hx) as (Fx & Px & Bx). split; [exact Fx|]. split; [exact Px|].
      apply Rle_trans with (val b); [exact Bx|]. apply fl_ge. lra.
Qed.
Lemma square_nn x : nn (Bmult mode_NE x x).
Proof. intros F. apply mul_fin in F as (_ & _ & ->). rewrite <- fl_0. apply fl_le. nra. Qed.

(** ** Accuracy of sums of products *)
Lemma u53_pos : 0 < u53.
Proof. apply bpow_gt_0. Qed.
Lemma u53_small : u53 <= / 1024.
Proof. unfold u53. replace (/ 1024) with (bpow radix2 (-10)) by (cbn; lra). apply bpow_le. lia. Qed.
Lemma add_rel x y : exists d, Rabs d <= u53 /\ fl (val x + val y) = (val x + val y) * (1 + d).
Proof.
  destruct (FLT_plus_error_N_ex radix2 (-1074) 53 (fun n => negb (Z.even n)) (val x) (val y)) as (d & Hd & E);
    try (rewrite <- fexp64_eq; apply generic_format_B2R).
  exists d. split; [|exact E]. eapply Rle_trans; [exact Hd|].
  replace (u_ro radix2 53) with u53
    by (unfold u_ro, u53; change (- (53) + 1)%Z with (-53 + 1)%Z; rewrite bpow_plus; change (bpow radix2 1) with 2; field).
  pose proof u53_pos. apply Rmult_le_reg_r with (1 + u53); [lra|]. unfold Rdiv. rewrite Rmult_assoc, Rinv_l by lra. nra.
Qed.
Lemma sub_rel x y : exists d, Rabs d <= u53 /\ fl (val x - val y) = (val x - val y) * (1 + d).
Proof.
  destruct (add_rel x (Bopp y)) as (d & Hd & E). exists d. split; [exact Hd|]. unfold val in *. rewrite B2R_Bopp in E. exact E.
Qed.
(** The exact sum or difference behind a bounded rounded one. *)
Lemma rel_back a r d B : Rabs d <= u53 -> r = a * (1 + d) -> Rabs r <= B -> Rabs a <= B * (1 + 2 * u53).
Proof.
  intros Hd E Hr. pose proof u53_pos. pose proof u53_small. subst r. rewrite Rabs_mult in Hr. apply Rabs_le_inv in Hd.
  rewrite (Rabs_pos_eq (1 + d)) in Hr by lra. pose proof (Rabs_pos a).
  assert (Rabs a * (1 - u53) <= B) by nra.
  assert (1 <= (1 - u53) * (1 + 2 * u53)) by nra. nra.
Qed.

Definition tiny : R := bpow radix2 (-1000).
Definition gam (k : nat) : R := (1 + u53) ^ k - 1.
Lemma gam_S k : gam (S k) = gam k * (1 + u53) + u53.
Proof. unfold gam. cbn [pow]. ring. Qed.
Lemma gam_pos k : 0 <= gam k.
Proof. induction k as [|k IH]; [unfold gam; cbn; lra|]. rewrite gam_S. pose proof u53_pos. nra. Qed.
Lemma gam_mono k l : (k <= l)%nat -> gam k <= gam l.
Proof. induction 1 as [|l _ IH]; [lra|]. rewrite gam_S. pose proof (gam_pos l). pose proof u53_pos. nra. Qed.
(** For as many operations as can occur the factor is about k units of rounding. *)
Lemma gam_le k : (Z.of_nat k <= 1000000)%Z -> gam k <= 2 * INR k * u53.
Proof.
  assert (P : bpow radix2 (-30) * bpow radix2 (-23) = u53) by (rewrite <- bpow_plus; reflexivity).
  assert (Q : forall j : nat, INR j <= 1000000 -> gam j <= 2 * INR j * u53).
  { induction j as [|j IH]; intros Hj.
    - unfold gam. cbn. lra.
    - rewrite gam_S. rewrite S_INR in *. specialize (IH ltac:(lra)). pose proof (pos_INR j). pose proof u53_pos.
      assert (2 * 1000000 * u53 <= 1).
      { assert (bpow radix2 (-30) <= / 1000000000) by (cbn; lra). assert (bpow radix2 (-23) <= 1) by (cbn; lra).
        pose proof (bpow_gt_0 radix2 (-30)). pose proof (bpow_gt_0 radix2 (-23)). nra. }
      pose proof (gam_pos j). assert (gam j <= 1) by nra. nra. }
  intros Hk. apply Q. rewrite INR_IZR_INZ. apply IZR_le, Hk.
Qed.

(** [x] computes [r] with relative error [gam k] against the magnitude [m]. *)
Definition acc (k : nat) (x : b64) (r m : R) : Prop := Rabs r <= m /\ (fin x -> Rabs (val x - r) <= gam k * m).
Lemma acc_mono k l x r m : (k <= l)%nat -> acc k x r m -> acc l x r m.
Proof.
  intros H [A1 A2]. split; [exact A1|]. intros F. specialize (A2 F). pose proof (gam_mono k l H). pose proof (Rabs_pos r). nra.
Qed.
Lemma acc_leaf x : acc 0 x (val x) (Rabs (val x)).
Proof. split; [lra|]. intros _. unfold gam. cbn. rewrite Rminus_diag_eq, Rabs_R0 by reflexivity. lra. Qed.
Lemma acc_mul x y : acc 1 (Bmult mode_NE x y) (val x * val y) (Rabs (val x * val y) + tiny).
Proof.
  assert (0 < tiny) by apply bpow_gt_0. split; [lra|]. intros F. apply mul_fin in F as (_ & _ & ->).
  pose proof (fl_err (val x * val y)) as E. unfold gam. cbn [pow]. rewrite Rmult_1_r.
  replace (1 + u53 - 1) with u53 by ring.
  assert (bpow radix2 (-1075) <= u53 * tiny) by (unfold u53, tiny; rewrite <- bpow_plus; apply bpow_le; lia). lra.
Qed.
Lemma acc_add k x y r q m p : acc k x r m -> acc k y q p -> acc (S k) (Bplus mode_NE x y) (r + q) (m + p).
Proof.
  intros [A1 A2] [B1 B2]. split; [eapply Rle_trans; [apply Rabs_triang|lra]|]. intros F. apply add_fin in F as (Fx & Fy & ->).
  specialize (A2 Fx). specialize (B2 Fy). destruct (add_rel x y) as (d & Hd & ->). rewrite gam_S.
  set (X := val x) in *. set (Y := val y) in *.
  assert (S1 : Rabs ((X + Y) - (r + q)) <= gam k * (m + p)).
  { replace (X + Y - (r + q)) with ((X - r) + (Y - q)) by ring. eapply Rle_trans; [apply Rabs_triang|lra]. }
  assert (S2 : Rabs (X + Y) <= (1 + gam k) * (m + p)).
  { replace (X + Y) with ((X + Y - (r + q)) + (r + q)) by ring. eapply Rle_trans; [apply Rabs_triang|].
    pose proof (Rabs_triang r q). lra. }
  replace ((X + Y) * (1 + d) - (r + q)) with ((X + Y - (r + q)) + (X + Y) * d) by ring.
  eapply Rle_trans; [apply Rabs_triang|]. rewrite Rabs_mult. pose proof (Rabs_pos (X + Y)). pose proof (Rabs_pos d). pose proof u53_pos.
  assert (Rabs (X + Y) * Rabs d <= (1 + gam k) * (m + p) * u53) by (apply Rmult_le_compat; assumption). lra.
Qed.

Definition rsum {A} (f : A -> R) (l : list A) : R := fold_right (fun a s => f a + s) 0 l.
Lemma rsum_app {A} (f : A -> R) l1 l2 : rsum f (l1 ++ l2) = rsum f l1 + rsum f l2.
Proof. unfold rsum. induction l1 as [|a l1 IH]; cbn; [ring|]. rewrite IH. ring. Qed.
Lemma rsum_perm {A} (f : A -> R) l1 l2 : Permutation l1 l2 -> rsum f l1 = rsum f l2.
Proof. unfold rsum. induction 1; cbn in *; lra. Qed.
Lemma tree_empty z : tree_sum [] z -> val z = 0.
Proof.
  intros H. remember [] as l eqn:El. revert El. induction H as [|a|l1 l2 l a b H1 IH1 H2 IH2 Hp]; intros E; subst; try reflexivity; try discriminate.
  apply Permutation_sym, Permutation_nil, app_eq_nil in Hp as [-> ->]. specialize (IH1 eq_refl). specialize (IH2 eq_refl).
  destruct (is_finite (Bplus mode_NE a b)) eqn:F.
  - apply add_fin in F as (_ & _ & ->). rewrite IH1, IH2, Rplus_0_r. apply fl_0.
  - destruct (Bplus mode_NE a b); try discriminate; reflexivity.
Qed.
Lemma acc_tree {A} (x : A -> b64) (r m : A -> R) k l z : tree_sum l z -> forall L, l = map x L -> (forall a, In a L -> acc k (x a) (r a) (m a)) ->
  acc (k + length L) z (rsum r L) (rsum m L).
Proof.
  induction 1 as [|a|l1 l2 l a b H1 IH1 H2 IH2 Hp]; intros L E HL.
  - destruct L; [|discriminate]. cbn. split; [rewrite Rabs_R0; lra|]. intros _. unfold val. cbn. rewrite Rminus_0_r, Rabs_R0. lra.
  - destruct L as [|c [|]]; try discriminate. injection E as ->. apply acc_mono with k; [lia|].
    cbn. rewrite !Rplus_0_r. apply HL. left. reflexivity.
  - subst l. apply Permutation_map_inv in Hp as (L3 & E & Hp). symmetry in E. apply map_eq_app in E as (L1 & L2 & -> & E1 & E2).
    rewrite (rsum_perm r _ _ Hp), (rsum_perm m _ _ Hp), !rsum_app, (Permutation_length Hp), app_length.
    assert (I1 : acc (k + length L1) a (rsum r L1) (rsum m L1)).
    { apply IH1; [symmetry; exact E1|]. intros c Hc. apply HL, (Permutation_in _ (Permutation_sym Hp)), in_or_app. left; exact Hc. }
    assert (I2 : acc (k + length L2) b (rsum r L2) (rsum m L2)).
    { apply IH2; [symmetry; exact E2|]. intros c Hc. apply HL, (Permutation_in _ (Permutation_sym Hp)), in_or_app. right; exact Hc. }
    destruct L1 as [|c1 L1]; [|destruct L2 as [|c2 L2]].
    + cbn in E1. subst l1. apply tree_empty in H1. destruct I2 as [I2 I3]. cbn. rewrite !Rplus_0_l. split; [exact I2|].
      intros F. apply add_fin in F as (_ & Fb & ->). rewrite H1, Rplus_0_l, fl_val. apply I3, Fb.
    + cbn in E2. subst l2. apply tree_empty in H2. destruct I1 as [I1 I3]. cbn. rewrite !Rplus_0_r, Nat.add_0_r.
      change (acc (k + length (c1 :: L1)) (Bplus mode_NE a b) (rsum r (c1 :: L1)) (rsum m (c1 :: L1))). split; [exact I1|].
      intros F. apply add_fin in F as (Fa & _ & ->). rewrite H2, Rplus_0_r, fl_val. apply I3, Fa.
    + apply acc_mono with (S (k + (length L1 + length L2) + 1))%nat; [cbn; lia|].
      apply acc_add; [eapply acc_mono; [|exact I1]|eapply acc_mono; [|exact I2]]; cbn; lia.
Qed.
