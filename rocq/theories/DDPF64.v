(** The acceptance test of the line search on IEEE doubles. *)
From Verif Require Import Prelude Scalar LinAlg BoxQP DDP DDPSpec.
From Coq Require Import SpecFloat.

(** sign bit and NaN-ness decide comparisons with zero *)
Lemma f64_pos_lt (thre r : f64) : nleb nzero thre = true -> nltb thre r = true ->
  match r with S754_finite false _ _ | S754_infinity false => True | _ => False end.
Proof.
  destruct thre as [[]|[]| |[] m e], r as [[]|[]| |[] m' e']; cbn; intros H1 H2; try discriminate; auto.
Qed.

Definition sign_is (s : bool) (x : f64) : Prop :=
  match x with S754_zero s' | S754_infinity s' | S754_finite s' _ _ => s' = s | S754_nan => True end.
Lemma binary_round_aux_sign prec emax s m e l : sign_is s (binary_round_aux prec emax s m e l).
Proof.
  unfold binary_round_aux. destruct (shr_fexp _ _ _ _ _) as [mrs e'].
  destruct (shr_fexp _ _ _ _ _) as [mrs2 e2].
  destruct (shr_m mrs2); [reflexivity| |reflexivity].
  destruct (Zle_bool _ _); [reflexivity|]. reflexivity.
Qed.
Lemma f64_div_sign (a e : f64) :
  match a, e with
  | S754_finite sa _ _, S754_finite se _ _ => sign_is (xorb sa se) (ndiv a e)
  | _, _ => True
  end.
Proof.
  destruct a, e; auto. cbn [ndiv F64Num SFdiv].
  destruct (SFdiv_core_binary _ _ _ _ _ _) as [[mz ez] lz]. apply binary_round_aux_sign.
Qed.

(** With a non-negative threshold, a step passes only if its actual decrease is not negative,
    unless the expected decrease is exactly -0.0. *)
Lemma f64_accept (thre a e : f64) :
  nleb nzero thre = true -> nltb thre (ratio_of a e) = true -> e <> S754_zero true -> nleb nzero a = true.
Proof.
  intros Ht Hr He. pose proof (f64_pos_lt _ _ Ht Hr) as Hp. unfold ratio_of in Hp.
  destruct (nltb e nzero) eqn:Ee.
  - destruct (nleb nzero a) eqn:Ea; [reflexivity|]. vm_compute in Hp. contradiction.
  - pose proof (f64_div_sign a e) as Hs.
    destruct a as [[]|[]| |[] ma ea], e as [[]|[]| |[] me ee]; cbn in Ee, Hp; try discriminate; try contradiction; try reflexivity; try (exfalso; apply He; reflexivity); cbn in Hs.
    revert Hs Hp. cbn [ndiv F64Num SFdiv]. generalize (SFdiv_core_binary f64_prec f64_emax (Z.pos ma) ea (Z.pos me) ee).
    intros [[mz ez] lz]. generalize (binary_round_aux f64_prec f64_emax true mz ez lz).
    intros [[]|[]| |[] ? ?]; cbn; intros; try contradiction; try discriminate.
Qed.

Lemma f64_search_accept (pb : problem f64) cf t0 x0 n c g l o al ac ex ra :
  nleb nzero (cf_cost_update_ratio_thre cf) = true ->
  search pb cf t0 x0 n c g l o al ac ex ra -> forall c', o = Some c' -> ex <> S754_zero true ->
  ac = nsub (total c) (total c') /\ nleb nzero ac = true.
Proof.
  intros Ht. induction 1 as [|a rest c1 [_ H]|a c1 H|a b rest c1 o al ac ex ra Htr Hs IH]; intros c' E He; try discriminate.
  - injection E as <-. split; [reflexivity|]. apply (f64_accept _ _ _ Ht H He).
  - apply IH; auto.
Qed.
