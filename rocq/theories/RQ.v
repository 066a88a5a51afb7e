(** Evaluation of closed rational expressions in R, used only to run small examples of the exact model. *)
From Verif Require Import Prelude Scalar.
From Coq Require Import QArith Qreals Reals Lra.
Open Scope R_scope.

Lemma rq_Z z : IZR z = Q2R (z # 1).
Proof. unfold Q2R; cbn. lra. Qed.
Lemma rq_red a : Q2R (Qred a) = Q2R a.
Proof. apply Qeq_eqR, Qred_correct. Qed.
Lemma rq_add a b c : Qred (a + b)%Q = c -> Q2R a + Q2R b = Q2R c.
Proof. intros <-. rewrite rq_red. symmetry. apply Q2R_plus. Qed.
Lemma rq_sub a b c : Qred (a - b)%Q = c -> Q2R a - Q2R b = Q2R c.
Proof. intros <-. rewrite rq_red. symmetry. apply Q2R_minus. Qed.
Lemma rq_mul a b c : Qred (a * b)%Q = c -> Q2R a * Q2R b = Q2R c.
Proof. intros <-. rewrite rq_red. symmetry. apply Q2R_mult. Qed.
Lemma rq_div a b c : Qeq_bool b 0 = false -> Qred (a / b)%Q = c -> Q2R a / Q2R b = Q2R c.
Proof. intros Hb <-. rewrite rq_red. symmetry. apply Q2R_div. apply Qeq_bool_neq; exact Hb. Qed.
Lemma rq_inv b c : Qeq_bool b 0 = false -> Qred (/ b)%Q = c -> / Q2R b = Q2R c.
Proof. intros Hb <-. rewrite rq_red. symmetry. apply Q2R_inv. apply Qeq_bool_neq; exact Hb. Qed.
Lemma rq_opp a c : Qred (- a)%Q = c -> - Q2R a = Q2R c.
Proof. intros <-. rewrite rq_red. symmetry. apply Q2R_opp. Qed.
Definition Qltb (a b : Q) : bool := negb (Qle_bool b a).
Lemma rq_ltb a b c : Qltb a b = c -> Rltb (Q2R a) (Q2R b) = c.
Proof.
  intros <-. unfold Qltb. destruct (Qle_bool b a) eqn:E; cbn.
  - apply Rltb_false. apply Qle_Rle. apply Qle_bool_iff; exact E.
  - apply Rltb_true. apply Qlt_Rlt. apply Qnot_le_lt. intros H. apply Qle_bool_iff in H. congruence.
Qed.
Lemma rq_leb a b c : Qle_bool a b = c -> Rleb (Q2R a) (Q2R b) = c.
Proof.
  intros <-. destruct (Qle_bool a b) eqn:E.
  - apply Rleb_true. apply Qle_Rle. apply Qle_bool_iff; exact E.
  - apply Rleb_false. apply Qlt_Rlt. apply Qnot_le_lt. intros H. apply Qle_bool_iff in H. congruence.
Qed.
Lemma rq_eqb a b c : Qeq_bool a b = c -> Reqb (Q2R a) (Q2R b) = c.
Proof.
  intros <-. destruct (Qeq_bool a b) eqn:E.
  - apply Reqb_true. apply Qeq_eqR. apply Qeq_bool_eq; exact E.
  - apply Reqb_false. intros H. apply eqR_Qeq in H. apply Qeq_bool_neq in E. contradiction.
Qed.
Lemma rq_abs a c : Qred (Qabs.Qabs a) = c -> Rabs (Q2R a) = Q2R c.
Proof.
  intros <-. rewrite rq_red. destruct (Qlt_le_dec a 0) as [H|H].
  - rewrite (Qeq_eqR _ _ (Qabs.Qabs_neg _ (Qlt_le_weak _ _ H))), Q2R_opp.
    apply Rabs_left. apply Qlt_Rlt in H. rewrite RMicromega.Q2R_0 in H. exact H.
  - rewrite (Qeq_eqR _ _ (Qabs.Qabs_pos _ H)). apply Rabs_right.
    apply Qle_Rle in H. rewrite RMicromega.Q2R_0 in H. lra.
Qed.
Definition qsqrt (a : Q) : Q := Z.sqrt (Qnum a) # Z.to_pos (Z.sqrt (Zpos (Qden a))).
Lemma rq_sqrt a c : Qle_bool 0 c = true -> Qeq_bool (c * c) a = true -> R_sqrt.sqrt (Q2R a) = Q2R c.
Proof.
  intros H0 H. apply Qeq_bool_eq in H. rewrite <- (Qeq_eqR _ _ H), Q2R_mult. apply sqrt_square.
  apply Qle_bool_iff in H0. apply Qle_Rle in H0. rewrite RMicromega.Q2R_0 in H0. exact H0.
Qed.

Ltac rq1 :=
  match goal with
  | |- context [IZR ?z] => rewrite (rq_Z z)
  | |- context [Q2R ?a + Q2R ?b] => let c := eval vm_compute in (Qred (a + b)%Q) in rewrite (rq_add a b c eq_refl)
  | |- context [Q2R ?a - Q2R ?b] => let c := eval vm_compute in (Qred (a - b)%Q) in rewrite (rq_sub a b c eq_refl)
  | |- context [Q2R ?a * Q2R ?b] => let c := eval vm_compute in (Qred (a * b)%Q) in rewrite (rq_mul a b c eq_refl)
  | |- context [Q2R ?a / Q2R ?b] => let c := eval vm_compute in (Qred (a / b)%Q) in rewrite (rq_div a b c eq_refl eq_refl)
  | |- context [/ Q2R ?b] => let c := eval vm_compute in (Qred (/ b)%Q) in rewrite (rq_inv b c eq_refl eq_refl)
  | |- context [- Q2R ?a] => let c := eval vm_compute in (Qred (- a)%Q) in rewrite (rq_opp a c eq_refl)
  | |- context [Rabs (Q2R ?a)] => let c := eval vm_compute in (Qred (Qabs.Qabs a)%Q) in rewrite (rq_abs a c eq_refl)
  | |- context [R_sqrt.sqrt (Q2R ?a)] => let c := eval vm_compute in (qsqrt a) in rewrite (rq_sqrt a c eq_refl eq_refl)
  | |- context [Rltb (Q2R ?a) (Q2R ?b)] => let c := eval vm_compute in (Qltb a b) in rewrite (rq_ltb a b c eq_refl)
  | |- context [Rleb (Q2R ?a) (Q2R ?b)] => let c := eval vm_compute in (Qle_bool a b) in rewrite (rq_leb a b c eq_refl)
  | |- context [Reqb (Q2R ?a) (Q2R ?b)] => let c := eval vm_compute in (Qeq_bool a b) in rewrite (rq_eqb a b c eq_refl)
  end.
Ltac rq := repeat (repeat rq1; cbv beta iota).
