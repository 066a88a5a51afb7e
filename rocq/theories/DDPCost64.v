(** Costs of the DDP solver in binary64: what an accepted step says about them, NaN and infinities included. *)
From Coq Require Import Reals Lra Psatz Permutation.
From Flocq Require Import Core BinarySingleNaN Plus_error.
From Verif Require Import Prelude Scalar LinAlg DDP DDPSpec DDPProofs DDPCor DDPReal DDPF64 B64.
Local Open Scope R_scope.

Definition not_nan (x : b64) : Prop := is_nan x = false.
Definition le64 (x y : b64) : Prop := Bleb x y = true.
Definition pos_inf : b64 := B754_infinity false.

Lemma le64_trans x y z : le64 x y -> le64 y z -> le64 x z.
Proof.
  unfold le64. intros H1 H2.
  destruct (is_finite x) eqn:Fx, (is_finite y) eqn:Fy, (is_finite z) eqn:Fz.
  { rewrite leb_fin in * by assumption. revert H1 H2. case Rle_bool_spec; [|discriminate]. intros A _. case Rle_bool_spec; [|discriminate]. intros B _.
    apply Rle_bool_true. lra. }
  all: destruct x as [[]|[]| |[]], y as [[]|[]| |[]], z as [[]|[]| |[]]; try discriminate; try reflexivity.
Qed.
Lemma le64_not_nan x y : le64 x y -> not_nan x /\ not_nan y.
Proof. unfold le64, not_nan. destruct x as [[]|[]| |[]], y as [[]|[]| |[]]; try discriminate; split; reflexivity. Qed.
Lemma le64_refl x : not_nan x -> le64 x x.
Proof.
  unfold not_nan, le64. intros H. destruct (is_finite x) eqn:F; [rewrite leb_fin by assumption; apply Rle_bool_true; lra|].
  destruct x as [[]|[]| |[]]; try discriminate; reflexivity.
Qed.
(** A difference that is not NaN has terms that are not; one that is not negative has its terms in order, the second not +inf. *)
Lemma sub_not_nan x y : not_nan (Bminus mode_NE x y) -> not_nan x /\ not_nan y.
Proof. unfold not_nan. destruct x as [[]|[]| |[]], y as [[]|[]| |[]]; try discriminate; split; reflexivity. Qed.
Lemma sub_nonneg x y : le64 (B754_zero false) (Bminus mode_NE x y) -> le64 y x /\ y <> pos_inf.
Proof.
  intros H. destruct (is_finite x) eqn:Fx, (is_finite y) eqn:Fy.
  { split; [|destruct y; discriminate]. unfold le64 in *. rewrite leb_fin by assumption. apply Rle_bool_true.
    destruct (Rle_or_lt (val y) (val x)) as [A|A]; [exact A|exfalso].
    pose proof (Bminus_correct 53 1024 _ _ mode_NE x y Fx Fy) as C. revert C. case Rlt_bool_spec; intros Hov C.
    - destruct C as (C1 & C2 & _). rewrite leb_fin in H by (reflexivity || exact C2). revert H. case Rle_bool_spec; [|discriminate].
      intros B _. unfold val in B at 2. rewrite C1 in B. change (val (B754_zero false)) with 0 in B.
      fold (val x) (val y) in B.
      assert (L : round radix2 (SpecFloat.fexp 53 1024) (round_mode mode_NE) (val x - val y) <= 0).
      { rewrite <- (round_0 radix2 (SpecFloat.fexp 53 1024) (round_mode mode_NE)). apply round_le; [typeclasses eauto|typeclasses eauto|lra]. }
      assert (Z : round radix2 (SpecFloat.fexp 53 1024) (round_mode mode_NE) (val x - val y) = 0) by (apply Rle_antisym; assumption).
      revert Z. unfold Rminus. change (SpecFloat.fexp 53 1024) with (FLT_exp (-1074) 53). apply round_plus_neq_0; try typeclasses eauto.
      + apply generic_format_B2R.
      + apply generic_format_opp, generic_format_B2R.
      + lra.
    - destruct C as (C1 & C2). destruct (Bsign x) eqn:Sx.
      + change (binary_overflow 53 1024 mode_NE true) with (SpecFloat.S754_infinity true) in C1.
        destruct (Bminus mode_NE x y) as [[]|[]| |[]]; try discriminate.
      + destruct (Bsign y) eqn:Sy; try discriminate.
        assert (0 <= val x). { destruct x as [[]|[]| |[] m e b]; try discriminate; cbn; try lra. apply F2R_ge_0. cbn. lia. }
        assert (val y <= 0). { destruct y as [[]|[]| |[] m e b]; try discriminate; cbn; try lra. apply F2R_le_0. cbn. lia. }
        lra. }
  all: unfold le64 in *; destruct x as [[]|[]| |[]], y as [[]|[]| |[]]; try discriminate; split; try reflexivity; discriminate.
Qed.
(** A sum of doubles in any order that is not NaN has no NaN term; if moreover it is not +inf, none is +inf. *)
Lemma tree_not_nan l z : tree_sum l z -> not_nan z -> forall x, In x l -> not_nan x.
Proof.
  induction 1 as [|a|l1 l2 l a b H1 IH1 H2 IH2 Hp]; intros F x Hx; [destruct Hx|destruct Hx as [<-|[]]; exact F|].
  assert (Q : not_nan a /\ not_nan b). { revert F. unfold not_nan. destruct a as [[]|[]| |[]], b as [[]|[]| |[]]; try discriminate; split; reflexivity. }
  apply (Permutation_in _ (Permutation_sym Hp)), in_app_or in Hx as [Hx|Hx]; [apply IH1|apply IH2]; tauto.
Qed.
Lemma tree_not_inf l z : tree_sum l z -> not_nan z -> z <> pos_inf -> ~ In pos_inf l.
Proof.
  induction 1 as [|a|l1 l2 l a b H1 IH1 H2 IH2 Hp]; intros F G Hx; [destruct Hx|destruct Hx as [->|[]]; apply G; reflexivity|].
  assert (Q : not_nan a /\ not_nan b /\ a <> pos_inf /\ b <> pos_inf).
  { revert F G. unfold not_nan, pos_inf. destruct a as [[]|[]| |[]], b as [[]|[]| |[]]; try discriminate; cbn; intros; try (exfalso; congruence); repeat split; discriminate. }
  apply (Permutation_in _ (Permutation_sym Hp)), in_app_or in Hx as [Hx|Hx]; [apply IH1 in Hx|apply IH2 in Hx]; tauto.
Qed.

Section Run.
  Variables (ex lg : b64 -> b64) (sm : list b64 -> b64).
  Local Instance Nc : Num b64 := B64Num ex lg sm.
  Hypothesis Hsm : some_order sm.
  (** The ratio test in doubles. *)
  Lemma sf_inj_zero (e : b64) : sf e = SpecFloat.S754_zero true -> e = B754_zero true.
  Proof. unfold sf. destruct e as [[]|[]| |[]]; cbn; try discriminate. reflexivity. Qed.
  Lemma sf_ratio (a e : b64) : sf (ratio_of a e) = ratio_of (sf a) (sf e).
  Proof.
    pose proof (b64_f64 ex lg) as (Z0 & _ & _ & _ & _ & Dv & _ & _ & _ & Lt & Le & _ & _ & Li & _).
    unfold ratio_of. change (@nltb b64 Nc) with (@nltb b64 (B64Num ex lg seq_sum)). change (@nleb b64 Nc) with (@nleb b64 (B64Num ex lg seq_sum)).
    change (@nzero b64 Nc) with (@nzero b64 (B64Num ex lg seq_sum)). change (@ndiv b64 Nc) with (@ndiv b64 (B64Num ex lg seq_sum)).
    unfold nofZ. change (@nlit b64 Nc) with (@nlit b64 (B64Num ex lg seq_sum)).
    rewrite !Lt, !Le, !Z0. destruct (nltb (sf e) nzero); [destruct (nleb nzero (sf a)); apply Li|apply Dv].
  Qed.
  Lemma accept_nonneg (thre a e : b64) : le64 (B754_zero false) thre -> Bltb thre (ratio_of a e) = true -> e <> B754_zero true -> le64 (B754_zero false) a.
  Proof.
    pose proof (b64_f64 ex lg) as (Z0 & _ & _ & _ & _ & _ & _ & _ & _ & Lt & Le & _).
    intros H1 H2 H3. unfold le64 in *. pose proof (Le (B754_zero false) a) as E. change (@nleb b64 (B64Num ex lg seq_sum)) with (@Bleb 53 1024) in *. rewrite E.
    pose proof (Le (B754_zero false) thre) as E1. rewrite H1 in E1. pose proof (Lt thre (ratio_of a e)) as E2.
    change (@nltb b64 (B64Num ex lg seq_sum)) with (@Bltb 53 1024) in *. rewrite H2, sf_ratio in E2.
    apply (f64_accept (sf thre) (sf a) (sf e)); [symmetry; exact E1|symmetry; exact E2|]. intros H. apply H3, sf_inj_zero, H.
  Qed.
  Lemma accept_not_nan (thre a e : b64) : le64 (B754_zero false) thre -> Bltb thre (ratio_of a e) = true -> not_nan a.
  Proof.
    intros H1 H2. unfold not_nan. destruct a as [| | |]; try reflexivity. exfalso. revert H2. unfold ratio_of.
    cbn [nltb nleb ndiv Nc B64Num]. change (Bleb (@nzero b64 Nc) B754_nan) with false. 
    destruct (Bltb e nzero); [|destruct e as [[]|[]| |[]]; cbn; destruct thre as [[]|[]| |[]]; discriminate].
    pose proof (b64_f64 ex lg) as (Z0 & _ & _ & _ & _ & _ & _ & _ & _ & Lt & Le & _ & _ & Li & _).
    intros H2. assert (E : nltb (sf thre) (sf (@nlit b64 (B64Num ex lg seq_sum) (-1) 1)) = true) by (rewrite <- Lt; exact H2). rewrite Li in E.
    pose proof (Le (B754_zero false) thre) as E1. change (@nleb b64 (B64Num ex lg seq_sum)) with (@Bleb 53 1024) in E1. unfold le64 in H1. rewrite H1 in E1.
    exact (f64_pos_lt _ _ (eq_sym E1) E).
  Qed.

  Variables (pb : problem b64) (cf : config b64) (t0 : b64) (x0 : vec b64) (n : nat).
  Variables (LL : lltops b64) (limits : option (b64 -> vec b64 * vec b64)) (qfuel : nat).
  Notation thre := (cf_cost_update_ratio_thre cf).
  Hypothesis Ht : le64 (B754_zero false) thre.

  Definition costs_numbers (c : cdata b64) : Prop := forall a, In a (cd_cost c) -> not_nan a.
  (** An entry whose ratio was accepted with an expected change of -0.0. *)
  Definition zero_entry (e : trace b64) : Prop := nltb thre (tr_ratio e) = true /\ tr_expected e = B754_zero true.

  Lemma search64 c g l o al ac ex' ra : search pb cf t0 x0 n c g l o al ac ex' ra -> forall c', o = Some c' ->
    nltb thre ra = true /\ costs_numbers c /\ costs_numbers c' /\
    (ex' <> B754_zero true -> le64 (total c') (total c) /\ ~ In pos_inf (cd_cost c')).
  Proof.
    induction 1 as [|a rest c1 [_ H]|a c1 H|a b rest c1 o al ac ex' ra Ht1 Hs IH]; intros c' E; try discriminate.
    - injection E as <-. split; [exact H|].
      pose proof (accept_not_nan thre _ _ Ht H) as Na. apply sub_not_nan in Na as (N1 & N2).
      split; [exact (tree_not_nan _ _ (Hsm _) N1)|]. split; [exact (tree_not_nan _ _ (Hsm _) N2)|].
      intros He. pose proof (accept_nonneg thre _ _ Ht H He) as A. apply sub_nonneg in A as (A1 & A2). split; [exact A1|].
      exact (tree_not_inf _ _ (Hsm _) N2 A2).
    - apply IH; exact E.
  Qed.
  Lemma iteration64 it s r e s' : iteration pb cf t0 x0 n LL limits qfuel it s r e s' ->
    mc s' = mc s \/ (costs_numbers (mc s) /\ costs_numbers (mc s') /\
      (~ zero_entry e -> le64 (total (mc s')) (total (mc s)) /\ ~ In pos_inf (cd_cost (mc s')))).
  Proof.
    destruct 1 as [c p q g0 g H|c p q g0 g krn H Hk Hkr H1 H2|c p q g0 g krn c' al ac ex' ra H Hk Hkr H1 H2|c p q g0 g krn al ac ex' ra H Hk Hkr H1 H2];
      cbn [mc fst snd]; [left; reflexivity|left; reflexivity| |left; reflexivity].
    right. destruct (search64 _ _ _ _ _ _ _ _ H2 c' eq_refl) as (A & B & C & D). split; [exact B|]. split; [exact C|].
    intros Z. apply D. intros E. apply Z. split; cbn; assumption.
  Qed.
  Lemma iterations64 m it s r es s' : iterations pb cf t0 x0 n LL limits qfuel m it s r es s' ->
    mc s' = mc s \/ (costs_numbers (mc s) /\ costs_numbers (mc s') /\
      ((forall e, In e es -> ~ zero_entry e) -> le64 (total (mc s')) (total (mc s)) /\ ~ In pos_inf (cd_cost (mc s')))).
  Proof.
    induction 1 as [it s|m it s r e s' Hi Hr|m it s e s1 r es s' Hi Hits IH]; [left; reflexivity| |].
    - destruct (iteration64 _ _ _ _ _ Hi) as [E|(A & B & C)]; [left; exact E|right]. split; [exact A|]. split; [exact B|].
      intros Z. apply C, Z. left; reflexivity.
    - destruct (iteration64 _ _ _ _ _ Hi) as [E|(A & B & C)].
      + rewrite E in IH. destruct IH as [I|(I1 & I2 & I3)]; [left; exact I|right]. split; [exact I1|]. split; [exact I2|].
        intros Z. apply I3. intros e' He. apply Z. right; exact He.
      + right. split; [exact A|]. destruct IH as [I|(I1 & I2 & I3)].
        * rewrite I. split; [exact B|]. intros Z. apply C, Z. left; reflexivity.
        * split; [exact I2|]. intros Z. destruct (C (Z e (or_introl eq_refl))) as (C1 & C2).
          destruct I3 as (J1 & J2); [intros e' He; apply Z; right; exact He|]. split; [exact (le64_trans _ _ _ J1 C1)|exact J2].
  Qed.
End Run.
