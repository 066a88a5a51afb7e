(** Linear algebra for the GMRES proofs: rotations, combinations of orthonormal vectors, triangular systems. *)
From Verif Require Import Prelude Scalar LinAlg RLin.
From Coq Require Import FunctionalExtensionality.
Open Scope R_scope.

(** ** Plane rotations *)
Definition rot (c s : R) (i : nat) (f : fvec) : fvec :=
  fun l => if Nat.eqb l i then c * f i - s * f (i + 1)%nat else if Nat.eqb l (i + 1) then s * f i + c * f (i + 1)%nat else f l.
Fixpoint rots (c s : nat -> R) (m : nat) (f : fvec) : fvec :=
  match m with O => f | S m' => rot (c m') (s m') m' (rots c s m' f) end.

Lemma rot_norm c s i q f : c * c + s * s = 1 -> (i + 1 < q)%nat -> Rsum q (fun l => rot c s i f l * rot c s i f l) = Rsum q (fun l => f l * f l).
Proof.
  intros Hc Hq. replace q with (i + (2 + (q - i - 2)))%nat by lia. rewrite !Rsum_app. f_equal.
  { apply Rsum_ext. intros l Hl. unfold rot. destruct (Nat.eqb_spec l i); [lia|]. destruct (Nat.eqb_spec l (i + 1)); [lia|]. reflexivity. }
  f_equal.
  - cbn [Rsum]. unfold rot. rewrite Nat.add_0_r, Nat.eqb_refl. destruct (Nat.eqb_spec (i + 1) i); [lia|]. rewrite Nat.eqb_refl.
    set (a := f i). set (b := f (i + 1)%nat).
    replace (0 + (c * a - s * b) * (c * a - s * b) + (s * a + c * b) * (s * a + c * b)) with ((c * c + s * s) * (a * a + b * b)) by ring.
    rewrite Hc. ring.
  - apply Rsum_ext. intros l Hl. unfold rot. destruct (Nat.eqb_spec (i + (2 + l)) i); [lia|]. destruct (Nat.eqb_spec (i + (2 + l)) (i + 1)); [lia|]. reflexivity.
Qed.
Lemma rots_norm c s m q f : (forall i, (i < m)%nat -> c i * c i + s i * s i = 1) -> (m < q)%nat ->
  Rsum q (fun l => rots c s m f l * rots c s m f l) = Rsum q (fun l => f l * f l).
Proof.
  induction m as [|m IH]; intros Hc Hq; [reflexivity|]. cbn [rots]. rewrite rot_norm; [apply IH; auto; lia|apply Hc; lia|lia].
Qed.
Lemma rots_above c s m f l : (m < l)%nat -> rots c s m f l = f l.
Proof.
  induction m as [|m IH]; intros Hl; [reflexivity|]. cbn [rots]. unfold rot.
  destruct (Nat.eqb_spec l m); [lia|]. destruct (Nat.eqb_spec l (m + 1)); [lia|]. apply IH; lia.
Qed.
Lemma rot_zero c s i f : f i = 0 -> f (i + 1)%nat = 0 -> rot c s i f = f.
Proof.
  intros H1 H2. apply functional_extensionality. intros l. unfold rot. rewrite H1, H2.
  destruct (Nat.eqb_spec l i) as [->|]; [rewrite H1; ring|]. destruct (Nat.eqb_spec l (i + 1)) as [->|]; [rewrite H2; ring|reflexivity].
Qed.
Lemma rots_stable c s m f : (forall l, (m <= l)%nat -> rots c s m f l = 0) -> forall p, (m <= p)%nat -> rots c s p f = rots c s m f.
Proof.
  intros H p Hp. induction Hp as [|p Hp IH]; [reflexivity|]. cbn [rots]. rewrite IH. apply rot_zero; apply H; lia.
Qed.
Lemma rot_sum c s i k y (f : nat -> fvec) l :
  rot c s i (fun l => Rsum k (fun j => y j * f j l)) l = Rsum k (fun j => y j * rot c s i (f j) l).
Proof.
  unfold rot. destruct (Nat.eqb l i); [|destruct (Nat.eqb l (i + 1)); [|reflexivity]].
  - rewrite <- !Rsum_scal, <- Rsum_minus. apply Rsum_ext. intros; ring.
  - rewrite <- !Rsum_scal, <- Rsum_plus. apply Rsum_ext. intros; ring.
Qed.
Lemma rots_sum c s m k y (f : nat -> fvec) :
  rots c s m (fun l => Rsum k (fun j => y j * f j l)) = fun l => Rsum k (fun j => y j * rots c s m (f j) l).
Proof.
  induction m as [|m IH]; [reflexivity|]. cbn [rots]. rewrite IH. apply functional_extensionality. intros l. apply rot_sum.
Qed.
Lemma rots_sub c s m (f h : fvec) : rots c s m (fsubv f h) = fsubv (rots c s m f) (rots c s m h).
Proof.
  induction m as [|m IH]; [reflexivity|]. cbn [rots]. rewrite IH. apply functional_extensionality. intros l. unfold rot, fsubv.
  destruct (Nat.eqb l m); [ring|]. destruct (Nat.eqb l (m + 1)); ring.
Qed.
Lemma rots_ext c s c' s' m f : (forall i, (i < m)%nat -> c i = c' i /\ s i = s' i) -> rots c s m f = rots c' s' m f.
Proof.
  induction m as [|m IH]; intros H; [reflexivity|]. cbn [rots]. rewrite IH by (intros; apply H; lia).
  destruct (H m ltac:(lia)) as [-> ->]. reflexivity.
Qed.
Lemma rots_extf c s m f h p : (m < p)%nat -> (forall l, (l < p)%nat -> f l = h l) -> forall l, (l < p)%nat -> rots c s m f l = rots c s m h l.
Proof.
  induction m as [|m IH]; intros Hp H l Hl; [apply H; exact Hl|]. cbn [rots]. unfold rot.
  rewrite !(IH ltac:(lia) H) by lia. reflexivity.
Qed.

(** ** Combinations *)
Definition comb (m : nat) (y : fvec) (V : nat -> fvec) : fvec := fun i => Rsum m (fun j => y j * V j i).
Lemma comb_S m y V : comb (S m) y V = fadd (comb m y V) (fscal (y m) (V m)).
Proof. reflexivity. Qed.
Lemma fdot_comb_l n m y V w : fdot n (comb m y V) w = Rsum m (fun j => y j * fdot n (V j) w).
Proof.
  induction m as [|m IH]; [apply fdot_0_l|]. rewrite comb_S, fdot_add_l, fdot_scal_l, IH. reflexivity.
Qed.
Lemma fdot_comb_r n m y V w : fdot n w (comb m y V) = Rsum m (fun j => y j * fdot n (V j) w).
Proof. rewrite fdot_comm. apply fdot_comb_l. Qed.
Lemma fmv_comb n A m y V : fmv n A (comb m y V) = comb m y (fun j => fmv n A (V j)).
Proof.
  induction m as [|m IH]; [apply fmv_0|]. rewrite !comb_S, fmv_add, fmv_scal, IH. reflexivity.
Qed.
Lemma comb_ext m y y' V V' : (forall j, (j < m)%nat -> y j = y' j) -> (forall j, (j < m)%nat -> V j = V' j) -> comb m y V = comb m y' V'.
Proof.
  intros H1 H2. apply functional_extensionality. intros i. apply Rsum_ext. intros j Hj. rewrite H1, H2 by exact Hj. reflexivity.
Qed.
Lemma comb_comb m p y (h : nat -> nat -> R) V : comb m y (fun j => comb p (fun i => h i j) V) = comb p (fun i => Rsum m (fun j => y j * h i j)) V.
Proof.
  apply functional_extensionality. intros l. unfold comb.
  transitivity (Rsum m (fun j => Rsum p (fun i => y j * (h i j * V i l)))).
  { apply Rsum_ext. intros. rewrite Rsum_scal. reflexivity. }
  rewrite Rsum_swap. apply Rsum_ext. intros i Hi. rewrite <- Rsum_scal_r. apply Rsum_ext. intros; ring.
Qed.
Lemma comb_trunc m p y V : (m <= p)%nat -> (forall j, (m <= j < p)%nat -> y j = 0) -> comb p y V = comb m y V.
Proof.
  intros Hp H. apply functional_extensionality. intros i. apply Rsum_trunc; [exact Hp|]. intros j Hj. rewrite H by exact Hj. ring.
Qed.
Lemma comb_zero m y V : (forall j, (j < m)%nat -> y j = 0) -> comb m y V = fzero.
Proof. intros H. apply functional_extensionality. intros i. apply Rsum_zero. intros j Hj. rewrite H by exact Hj. ring. Qed.

(** ** Orthonormal families *)
Definition ortho (n k : nat) (V : nat -> fvec) : Prop :=
  forall i j, (i < k)%nat -> (j < k)%nat -> fdot n (V i) (V j) = if Nat.eqb i j then 1 else 0.
Lemma ortho_coef n k V y l : ortho n k V -> (l < k)%nat -> fdot n (comb k y V) (V l) = y l.
Proof.
  intros Ho Hl. rewrite fdot_comb_l, (Rsum_single k _ l Hl).
  - rewrite Ho by assumption. rewrite Nat.eqb_refl. ring.
  - intros j Hj Hne. rewrite Ho by assumption. destruct (Nat.eqb_spec j l); [contradiction|ring].
Qed.
Lemma ortho_norm n k V y : ortho n k V -> fdot n (comb k y V) (comb k y V) = Rsum k (fun l => y l * y l).
Proof.
  intros Ho. rewrite fdot_comb_r. apply Rsum_ext. intros j Hj. rewrite fdot_comm, (ortho_coef n k V y j Ho Hj). reflexivity.
Qed.
(** Bessel. *)
Lemma bessel n k V w : ortho n k V ->
  fdot n (fsubv w (comb k (fun l => fdot n w (V l)) V)) (fsubv w (comb k (fun l => fdot n w (V l)) V)) =
  fdot n w w - Rsum k (fun l => fdot n w (V l) * fdot n w (V l)).
Proof.
  intros Ho. rewrite fdot_sub_l, !fdot_sub_r, (ortho_norm n k V _ Ho), fdot_comb_l, fdot_comb_r.
  replace (Rsum k (fun j => fdot n w (V j) * fdot n (V j) w)) with (Rsum k (fun l => fdot n w (V l) * fdot n w (V l))); [ring|].
  apply Rsum_ext. intros j Hj. rewrite (fdot_comm n (V j) w). reflexivity.
Qed.
Lemma Rsum_const n c : Rsum n (fun _ => c) = INR n * c.
Proof. induction n as [|n IH]; [cbn; ring|]. rewrite Rsum_S, IH, S_INR. ring. Qed.
(** A vector orthogonal to [n] orthonormal vectors of dimension [n] vanishes. *)
Lemma ortho_full n V w : ortho n n V -> (forall l, (l < n)%nat -> fdot n w (V l) = 0) -> forall i, (i < n)%nat -> w i = 0.
Proof.
  intros Ho Hw.
  set (e := fun a : nat => fun i : nat => if Nat.eqb i a then 1 else 0).
  assert (Ee : forall a f, (a < n)%nat -> fdot n (e a) f = f a).
  { intros a f Ha. unfold fdot. rewrite (Rsum_single n _ a Ha).
    - unfold e. rewrite Nat.eqb_refl. ring.
    - intros j Hj Hne. unfold e. destruct (Nat.eqb_spec j a); [contradiction|ring]. }
  set (D := fun a => fdot n (fsubv (e a) (comb n (fun l => fdot n (e a) (V l)) V)) (fsubv (e a) (comb n (fun l => fdot n (e a) (V l)) V))).
  assert (ED : forall a, (a < n)%nat -> D a = 1 - Rsum n (fun l => V l a * V l a)).
  { intros a Ha. unfold D. rewrite (bessel n n V (e a) Ho), (Ee a (e a) Ha). unfold e at 1. rewrite Nat.eqb_refl. f_equal.
    apply Rsum_ext. intros l Hl. rewrite (Ee a (V l) Ha). reflexivity. }
  assert (S0 : Rsum n D = 0).
  { rewrite (Rsum_ext n D (fun a => 1 - Rsum n (fun l => V l a * V l a)) ED), Rsum_minus, Rsum_const, Rsum_swap.
    rewrite (Rsum_ext n (fun j => Rsum n (fun i => V j i * V j i)) (fun _ => 1)).
    - rewrite Rsum_const. ring.
    - intros l Hl. change (fdot n (V l) (V l) = 1). rewrite Ho by assumption. rewrite Nat.eqb_refl. reflexivity. }
  assert (D0 : forall a, (a < n)%nat -> D a = 0).
  { intros a Ha. apply (Rsum_nonneg_0 n D); [intros; apply fdot_self_nonneg|exact S0|exact Ha]. }
  intros i Hi.
  assert (Ew : fdot n w (fsubv (e i) (comb n (fun l => fdot n (e i) (V l)) V)) = w i).
  { rewrite fdot_sub_r, fdot_comb_r, fdot_comm, (Ee i w Hi). rewrite Rsum_zero; [ring|].
    intros l Hl. rewrite (fdot_comm n (V l) w), (Hw l Hl). ring. }
  rewrite <- Ew. rewrite fdot_comm.
  rewrite (fdot_ext n _ w fzero w (fdot_self_0 n _ (D0 i Hi)) (fun _ _ => eq_refl)). apply fdot_0_l.
Qed.

(** ** Upper triangular systems *)
Definition upper (k : nat) (A : fmat) : Prop :=
  (forall i j, (j < i)%nat -> (i < k)%nat -> A i j = 0) /\ (forall i, (i < k)%nat -> A i i <> 0).
Lemma upper_inj k A y : upper k A -> (forall i, (i < k)%nat -> fmv k A y i = 0) -> forall i, (i < k)%nat -> y i = 0.
Proof.
  intros [Hu Hd] H.
  assert (G : forall d i, (k - i <= d)%nat -> (i < k)%nat -> y i = 0).
  { induction d as [|d IH]; intros i Hi Hk; [lia|].
    specialize (H i Hk). unfold fmv in H. rewrite (Rsum_single k _ i Hk) in H.
    - apply Rmult_integral in H. destruct H as [H|H]; [exfalso; apply (Hd i Hk H)|exact H].
    - intros j Hj Hne. destruct (Nat.lt_ge_cases j i) as [Hlt|Hge].
      + rewrite Hu by assumption. ring.
      + rewrite (IH j) by lia. ring. }
  intros i Hi. apply (G (k - i)%nat i); lia.
Qed.
