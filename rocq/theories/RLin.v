(** Linear algebra over the stdlib reals, used by the proofs (not a model of code of /repo).
    Vectors are functions [nat -> R], matrices functions [nat -> nat -> R]; the dimension is an argument of the
    sums. The last part links this to the lists of LinAlg.v. *)
From Verif Require Import Prelude Scalar LinAlg.
From Coq Require Export Reals Lra.
From Coq Require Import FunctionalExtensionality.
Open Scope R_scope.

Fixpoint Rsum (n : nat) (f : nat -> R) : R :=
  match n with O => 0 | S n' => Rsum n' f + f n' end.

Lemma Rsum_S n f : Rsum (S n) f = Rsum n f + f n. Proof. reflexivity. Qed.
Lemma Rsum_ext n f g : (forall i, (i < n)%nat -> f i = g i) -> Rsum n f = Rsum n g.
Proof. induction n as [|n IH]; intros H; cbn; [reflexivity|]. rewrite IH, H; auto. Qed.
Lemma Rsum_0 n : Rsum n (fun _ => 0) = 0.
Proof. induction n as [|n IH]; cbn; [|rewrite IH]; lra. Qed.
Lemma Rsum_zero n f : (forall i, (i < n)%nat -> f i = 0) -> Rsum n f = 0.
Proof. intros H. rewrite (Rsum_ext n f (fun _ => 0)) by exact H. apply Rsum_0. Qed.
Lemma Rsum_plus n f g : Rsum n (fun i => f i + g i) = Rsum n f + Rsum n g.
Proof. induction n as [|n IH]; cbn; [|rewrite IH]; lra. Qed.
Lemma Rsum_minus n f g : Rsum n (fun i => f i - g i) = Rsum n f - Rsum n g.
Proof. induction n as [|n IH]; cbn; [|rewrite IH]; lra. Qed.
Lemma Rsum_opp n f : Rsum n (fun i => - f i) = - Rsum n f.
Proof. induction n as [|n IH]; cbn; [|rewrite IH]; lra. Qed.
Lemma Rsum_scal n c f : Rsum n (fun i => c * f i) = c * Rsum n f.
Proof. induction n as [|n IH]; cbn; [|rewrite IH]; lra. Qed.
Lemma Rsum_scal_r n c f : Rsum n (fun i => f i * c) = Rsum n f * c.
Proof. induction n as [|n IH]; cbn; [|rewrite IH]; lra. Qed.
Lemma Rsum_swap n m f : Rsum n (fun i => Rsum m (fun j => f i j)) = Rsum m (fun j => Rsum n (fun i => f i j)).
Proof.
  induction n as [|n IH]; cbn; [symmetry; apply Rsum_0|].
  rewrite IH, <- Rsum_plus. reflexivity.
Qed.
Lemma Rsum_le n f g : (forall i, (i < n)%nat -> f i <= g i) -> Rsum n f <= Rsum n g.
Proof.
  induction n as [|n IH]; intros H; cbn; [lra|].
  assert (Rsum n f <= Rsum n g) by auto. assert (f n <= g n) by auto. lra.
Qed.
Lemma Rsum_nonneg n f : (forall i, (i < n)%nat -> 0 <= f i) -> 0 <= Rsum n f.
Proof. intros H. rewrite <- (Rsum_0 n). apply Rsum_le; exact H. Qed.
Lemma Rsum_nonneg_0 n f : (forall i, (i < n)%nat -> 0 <= f i) -> Rsum n f = 0 ->
  forall i, (i < n)%nat -> f i = 0.
Proof.
  induction n as [|n IH]; intros H E i Hi; [lia|]. cbn in E.
  assert (0 <= Rsum n f) by (apply Rsum_nonneg; auto). assert (0 <= f n) by auto.
  destruct (Nat.eq_dec i n) as [->|]; [lra|]. apply IH; auto; [lra|lia].
Qed.
Lemma Rsum_term_le n f i : (forall j, (j < n)%nat -> 0 <= f j) -> (i < n)%nat -> f i <= Rsum n f.
Proof.
  induction n as [|n IH]; intros H Hi; [lia|]. cbn.
  assert (0 <= f n) by auto. destruct (Nat.eq_dec i n) as [->|].
  - assert (0 <= Rsum n f) by (apply Rsum_nonneg; auto). lra.
  - assert (f i <= Rsum n f) by (apply IH; auto; lia). lra.
Qed.
Lemma Rsum_single n f i : (i < n)%nat -> (forall j, (j < n)%nat -> j <> i -> f j = 0) -> Rsum n f = f i.
Proof.
  induction n as [|n IH]; intros Hi H; [lia|]. cbn.
  destruct (Nat.eq_dec i n) as [->|].
  - rewrite Rsum_zero; [lra|]. intros j Hj; apply H; lia.
  - rewrite IH; [|lia|intros j Hj; apply H; lia]. rewrite (H n); [lra|lia|lia].
Qed.
Lemma Rsum_app n m f : Rsum (n + m) f = Rsum n f + Rsum m (fun i => f (n + i)%nat).
Proof.
  induction m as [|m IH]; cbn; [rewrite Nat.add_0_r; lra|].
  rewrite Nat.add_succ_r; cbn. rewrite IH; lra.
Qed.
Lemma Rsum_S_l n f : Rsum (S n) f = f 0%nat + Rsum n (fun i => f (S i)).
Proof.
  change (S n) with (1 + n)%nat. rewrite Rsum_app. cbn. lra.
Qed.
Lemma Rsum_trunc n m f : (n <= m)%nat -> (forall i, (n <= i < m)%nat -> f i = 0) -> Rsum m f = Rsum n f.
Proof.
  intros Hn H. replace m with (n + (m - n))%nat by lia. rewrite Rsum_app.
  rewrite (Rsum_zero (m - n)); [lra|]. intros i Hi; apply H; lia.
Qed.
Lemma Rsum_abs n f : Rabs (Rsum n f) <= Rsum n (fun i => Rabs (f i)).
Proof.
  induction n as [|n IH]; cbn; [rewrite Rabs_R0; lra|].
  eapply Rle_trans; [apply Rabs_triang|]. lra.
Qed.
(** Triangular double sum: exchange of the order. *)
Lemma Rsum_tri n f : Rsum n (fun i => Rsum (S i) (fun j => f i j)) =
  Rsum n (fun j => Rsum n (fun i => if (j <=? i)%nat then f i j else 0)).
Proof.
  rewrite Rsum_swap. apply Rsum_ext; intros i Hi.
  rewrite (Rsum_trunc (S i) n); [|lia|].
  - apply Rsum_ext; intros j Hj. replace (j <=? i)%nat with true; [reflexivity|].
    symmetry; apply Nat.leb_le; lia.
  - intros j Hj. replace (j <=? i)%nat with false; [reflexivity|].
    symmetry; apply Nat.leb_gt; lia.
Qed.

(** ** Vectors and matrices as functions *)
Definition fvec := nat -> R.
Definition fmat := nat -> nat -> R.
Definition fadd (x y : fvec) : fvec := fun i => x i + y i.
Definition fsubv (x y : fvec) : fvec := fun i => x i - y i.
Definition fopp (x : fvec) : fvec := fun i => - x i.
Definition fscal (c : R) (x : fvec) : fvec := fun i => c * x i.
Definition fzero : fvec := fun _ => 0.
Definition fdot (n : nat) (x y : fvec) : R := Rsum n (fun i => x i * y i).
Definition fmv (n : nat) (A : fmat) (x : fvec) : fvec := fun i => Rsum n (fun j => A i j * x j).
Definition fmm (n : nat) (A B : fmat) : fmat := fun i j => Rsum n (fun k => A i k * B k j).
Definition ftr (A : fmat) : fmat := fun i j => A j i.
Definition fmadd (A B : fmat) : fmat := fun i j => A i j + B i j.
Definition fmscal (c : R) (A : fmat) : fmat := fun i j => c * A i j.
Definition fid : fmat := fun i j => if Nat.eqb i j then 1 else 0.

Lemma fdot_ext n x y x' y' : (forall i, (i < n)%nat -> x i = x' i) -> (forall i, (i < n)%nat -> y i = y' i) ->
  fdot n x y = fdot n x' y'.
Proof. intros H1 H2; apply Rsum_ext; intros i Hi; rewrite H1, H2; auto. Qed.
Lemma fdot_comm n x y : fdot n x y = fdot n y x.
Proof. apply Rsum_ext; intros; lra. Qed.
Lemma fdot_add_l n x y z : fdot n (fadd x y) z = fdot n x z + fdot n y z.
Proof. unfold fdot, fadd. rewrite <- Rsum_plus. apply Rsum_ext; intros; lra. Qed.
Lemma fdot_add_r n x y z : fdot n x (fadd y z) = fdot n x y + fdot n x z.
Proof. rewrite !(fdot_comm n x). apply fdot_add_l. Qed.
Lemma fdot_sub_l n x y z : fdot n (fsubv x y) z = fdot n x z - fdot n y z.
Proof. unfold fdot, fsubv. rewrite <- Rsum_minus. apply Rsum_ext; intros; lra. Qed.
Lemma fdot_sub_r n x y z : fdot n x (fsubv y z) = fdot n x y - fdot n x z.
Proof. rewrite !(fdot_comm n x). apply fdot_sub_l. Qed.
Lemma fdot_opp_l n x z : fdot n (fopp x) z = - fdot n x z.
Proof. unfold fdot, fopp. rewrite <- Rsum_opp. apply Rsum_ext; intros; lra. Qed.
Lemma fdot_opp_r n x z : fdot n x (fopp z) = - fdot n x z.
Proof. rewrite !(fdot_comm n x). apply fdot_opp_l. Qed.
Lemma fdot_scal_l n c x z : fdot n (fscal c x) z = c * fdot n x z.
Proof. unfold fdot, fscal. rewrite <- Rsum_scal. apply Rsum_ext; intros; lra. Qed.
Lemma fdot_scal_r n c x z : fdot n x (fscal c z) = c * fdot n x z.
Proof. rewrite !(fdot_comm n x). apply fdot_scal_l. Qed.
Lemma fdot_0_l n x : fdot n fzero x = 0.
Proof. apply Rsum_zero; intros; unfold fzero; lra. Qed.
Lemma fdot_0_r n x : fdot n x fzero = 0.
Proof. apply Rsum_zero; intros; unfold fzero; lra. Qed.
Lemma fdot_self_nonneg n x : 0 <= fdot n x x.
Proof. apply Rsum_nonneg; intros; nra. Qed.
Lemma fdot_self_0 n x : fdot n x x = 0 -> forall i, (i < n)%nat -> x i = 0.
Proof.
  intros H i Hi. assert (x i * x i = 0).
  { apply (Rsum_nonneg_0 n (fun i => x i * x i)); auto. intros; nra. }
  nra.
Qed.
Lemma fdot_self_pos n x : (exists i, (i < n)%nat /\ x i <> 0) -> 0 < fdot n x x.
Proof.
  intros (i & Hi & Hx). destruct (fdot_self_nonneg n x) as [H|H]; [exact H|].
  exfalso; apply Hx. apply (fdot_self_0 n x); auto.
Qed.

(** Cauchy-Schwarz. *)
Lemma cauchy_schwarz n x y : fdot n x y * fdot n x y <= fdot n x x * fdot n y y.
Proof.
  set (a := fdot n x x). set (b := fdot n x y). set (c := fdot n y y).
  assert (H : forall t, 0 <= a + 2 * t * b + t * t * c).
  { intros t. pose proof (fdot_self_nonneg n (fadd x (fscal t y))) as P.
    rewrite !fdot_add_l, !fdot_add_r, !fdot_scal_l, !fdot_scal_r in P.
    rewrite (fdot_comm n y x) in P. fold a b c in P. lra. }
  assert (Ha : 0 <= a) by apply fdot_self_nonneg. assert (Hc : 0 <= c) by apply fdot_self_nonneg.
  destruct Hc as [Hc|Hc].
  - specialize (H (- b / c)). 
    assert (E : a + 2 * (- b / c) * b + - b / c * (- b / c) * c = (a * c - b * b) / c) by (field; lra).
    rewrite E in H. assert (0 <= (a * c - b * b)).
    { apply Rmult_le_reg_r with (/ c); [apply Rinv_0_lt_compat; lra|]. unfold Rdiv in H. lra. }
    lra.
  - rewrite <- Hc in *. destruct (Req_dec b 0) as [->|Hb]; [lra|].
    specialize (H (- (a + 1) / (2 * b))).
    assert (E : a + 2 * (- (a + 1) / (2 * b)) * b + - (a + 1) / (2 * b) * (- (a + 1) / (2 * b)) * 0 = -1)
      by (field; lra).
    lra.
Qed.

Lemma fmv_ext n A A' x x' i : (forall j, (j < n)%nat -> A i j = A' i j) -> (forall j, (j < n)%nat -> x j = x' j) ->
  fmv n A x i = fmv n A' x' i.
Proof. intros H1 H2; apply Rsum_ext; intros j Hj; rewrite H1, H2; auto. Qed.
Lemma fmv_extv n A x x' : (forall j, (j < n)%nat -> x j = x' j) -> fmv n A x = fmv n A x'.
Proof. intros H; extensionality i; apply fmv_ext; auto. Qed.
Lemma fmv_add n A x y : fmv n A (fadd x y) = fadd (fmv n A x) (fmv n A y).
Proof. extensionality i. unfold fmv, fadd. rewrite <- Rsum_plus. apply Rsum_ext; intros; lra. Qed.
Lemma fmv_sub n A x y : fmv n A (fsubv x y) = fsubv (fmv n A x) (fmv n A y).
Proof. extensionality i. unfold fmv, fsubv. rewrite <- Rsum_minus. apply Rsum_ext; intros; lra. Qed.
Lemma fmv_opp n A x : fmv n A (fopp x) = fopp (fmv n A x).
Proof. extensionality i. unfold fmv, fopp. rewrite <- Rsum_opp. apply Rsum_ext; intros; lra. Qed.
Lemma fmv_scal n A c x : fmv n A (fscal c x) = fscal c (fmv n A x).
Proof. extensionality i. unfold fmv, fscal. rewrite <- Rsum_scal. apply Rsum_ext; intros; lra. Qed.
Lemma fmv_0 n A : fmv n A fzero = fzero.
Proof. extensionality i. apply Rsum_zero; intros; unfold fzero; lra. Qed.
Lemma fmv_madd n A B x : fmv n (fmadd A B) x = fadd (fmv n A x) (fmv n B x).
Proof. extensionality i. unfold fmv, fadd, fmadd. rewrite <- Rsum_plus. apply Rsum_ext; intros; lra. Qed.
Lemma fmv_mscal n c A x : fmv n (fmscal c A) x = fscal c (fmv n A x).
Proof. extensionality i. unfold fmv, fscal, fmscal. rewrite <- Rsum_scal. apply Rsum_ext; intros; lra. Qed.
Lemma fmv_mm m n A B x : fmv m (fmm n A B) x = fmv n A (fmv m B x).
Proof.
  extensionality i. unfold fmv, fmm.
  transitivity (Rsum m (fun j => Rsum n (fun k => A i k * B k j * x j))).
  { apply Rsum_ext; intros j Hj. rewrite <- Rsum_scal_r. reflexivity. }
  rewrite Rsum_swap. apply Rsum_ext; intros k Hk. rewrite <- Rsum_scal. apply Rsum_ext; intros; lra.
Qed.
Lemma fmv_id n x i : (i < n)%nat -> fmv n fid x i = x i.
Proof.
  intros Hi. unfold fmv, fid. rewrite (Rsum_single n _ i Hi).
  - rewrite Nat.eqb_refl; lra.
  - intros j Hj Hne. replace (i =? j)%nat with false by (symmetry; apply Nat.eqb_neq; lia). lra.
Qed.
(** x . (A y) = (A' x) . y *)
Lemma fdot_mv n m A x y : fdot n x (fmv m A y) = fdot m (fmv n (ftr A) x) y.
Proof.
  unfold fdot, fmv, ftr.
  transitivity (Rsum n (fun i => Rsum m (fun j => x i * A i j * y j))).
  { apply Rsum_ext; intros i Hi. rewrite <- Rsum_scal. apply Rsum_ext; intros; lra. }
  rewrite Rsum_swap. apply Rsum_ext; intros j Hj. rewrite <- Rsum_scal_r. apply Rsum_ext; intros; lra.
Qed.
Lemma ftr_tr A : ftr (ftr A) = A. Proof. reflexivity. Qed.
Lemma ftr_mm n A B : ftr (fmm n A B) = fmm n (ftr B) (ftr A).
Proof. extensionality i; extensionality j. unfold ftr, fmm. apply Rsum_ext; intros; lra. Qed.
Lemma ftr_madd A B : ftr (fmadd A B) = fmadd (ftr A) (ftr B). Proof. reflexivity. Qed.
Lemma ftr_mscal c A : ftr (fmscal c A) = fmscal c (ftr A). Proof. reflexivity. Qed.

Definition fsym (n : nat) (A : fmat) : Prop := forall i j, (i < n)%nat -> (j < n)%nat -> A i j = A j i.
Definition psd (n : nat) (A : fmat) : Prop := forall x, 0 <= fdot n x (fmv n A x).
Definition posdef (n : nat) (A : fmat) : Prop :=
  forall x, (exists i, (i < n)%nat /\ x i <> 0) -> 0 < fdot n x (fmv n A x).

Lemma posdef_psd n A : posdef n A -> psd n A.
Proof.
  intros H x. destruct (Req_dec (fdot n x x) 0) as [E|E].
  - rewrite (fdot_ext n x (fmv n A x) fzero (fmv n A x)); [rewrite fdot_0_l; lra| |auto].
    intros i Hi. apply (fdot_self_0 n x E i Hi).
  - destruct (Rlt_le_dec 0 (fdot n x (fmv n A x))) as [|Hle]; [lra|].
    exfalso. apply E. apply Rsum_zero. intros i Hi.
    destruct (Req_dec (x i) 0) as [->|Hx]; [lra|].
    specialize (H x (ex_intro _ i (conj Hi Hx))). lra.
Qed.
Lemma fsym_swap n A x y : fsym n A -> fdot n x (fmv n A y) = fdot n y (fmv n A x).
Proof.
  intros H. rewrite fdot_mv, fdot_comm. apply fdot_ext; auto. intros i Hi.
  apply fmv_ext; auto. intros j Hj; unfold ftr; apply H; auto.
Qed.

(** ** Link to the lists of LinAlg.v *)
Lemma fold_right_Rplus_app l a : fold_right Rplus 0 (l ++ [a]) = fold_right Rplus 0 l + a.
Proof. induction l as [|b l IH]; cbn; [lra|]. rewrite IH; lra. Qed.
Lemma nsum_vbuild n f : @nsum R RNum (vbuild n f) = Rsum n f.
Proof.
  cbn [nsum RNum]. unfold vbuild. induction n as [|n IH]; [reflexivity|].
  rewrite seq_S, map_app; cbn [map]. rewrite fold_right_Rplus_app, IH. reflexivity.
Qed.
Lemma nsum_list (l : list R) : @nsum R RNum l = Rsum (length l) (vget l).
Proof. rewrite <- nsum_vbuild, vbuild_vget. reflexivity. Qed.

Lemma dot_R (x y : vec R) : dot x y = fdot (length x) (vget x) (vget y).
Proof. unfold dot; rewrite nsum_vbuild; reflexivity. Qed.
Lemma sqnorm_R (x : vec R) : sqnorm x = fdot (length x) (vget x) (vget x).
Proof. apply dot_R. Qed.

Lemma vbuild_fun n (f : nat -> R) : (forall i, (n <= i)%nat -> f i = 0) -> vget (vbuild n f) = f.
Proof.
  intros H; extensionality i. destruct (Nat.lt_ge_cases i n) as [Hi|Hi].
  - apply vbuild_get; exact Hi.
  - rewrite vget_ge by (rewrite vbuild_length; exact Hi). symmetry; apply H; exact Hi.
Qed.
Lemma vget_out (x : vec R) i : (length x <= i)%nat -> vget x i = 0.
Proof. intros H; rewrite vget_ge by exact H; reflexivity. Qed.

Lemma vadd_f (x y : vec R) : length x = length y -> vget (vadd x y) = fadd (vget x) (vget y).
Proof.
  intros H. unfold vadd. apply (vbuild_fun (length x) (fadd (vget x) (vget y))).
  intros i Hi; unfold fadd. rewrite !vget_out by lia. lra.
Qed.
Lemma vsub_f (x y : vec R) : length x = length y -> vget (vsub x y) = fsubv (vget x) (vget y).
Proof.
  intros H. unfold vsub. apply (vbuild_fun (length x) (fsubv (vget x) (vget y))).
  intros i Hi; unfold fsubv. rewrite !vget_out by lia. lra.
Qed.
Lemma vscale_f c (x : vec R) : vget (vscale c x) = fscal c (vget x).
Proof.
  unfold vscale. apply (vbuild_fun (length x) (fscal c (vget x))).
  intros i Hi; unfold fscal. rewrite !vget_out by lia. lra.
Qed.
Lemma vopp_f (x : vec R) : vget (vopp x) = fopp (vget x).
Proof.
  unfold vopp. apply (vbuild_fun (length x) (fopp (vget x))).
  intros i Hi; unfold fopp. rewrite !vget_out by lia. lra.
Qed.
Lemma vzero_f n : vget (@vzero R RNum n) = fzero.
Proof. apply (vbuild_fun n fzero); reflexivity. Qed.

Lemma mget_outR r c (A : mat R) i j : mdimb r c A = true -> (r <= i)%nat \/ (c <= j)%nat -> mget A i j = 0.
Proof. intros H1 H2; rewrite (mget_out r c) by auto; reflexivity. Qed.
Lemma mdimb_rows {T} r c (A : mat T) : mdimb r c A = true -> mrows A = r.
Proof. intros H; apply mdimb_spec in H; tauto. Qed.
Lemma mdimb_cols {T} r c (A : mat T) : mdimb r c A = true -> mcols A = c.
Proof. intros H; apply mdimb_spec in H; tauto. Qed.

Lemma mbuild_fun r c (f : nat -> nat -> R) : (forall i j, (r <= i)%nat \/ (c <= j)%nat -> f i j = 0) ->
  mget (mbuild r c f) = f.
Proof.
  intros H; extensionality i; extensionality j.
  destruct (Nat.lt_ge_cases i r) as [Hi|Hi]; [destruct (Nat.lt_ge_cases j c) as [Hj|Hj]|].
  - apply mbuild_get; auto.
  - rewrite H by auto. apply (mget_outR r c); auto. apply mbuild_dim.
  - rewrite H by auto. apply (mget_outR r c); auto. apply mbuild_dim.
Qed.

Lemma mvmul_length {T} {N : Num T} (A : mat T) x : length (mvmul A x) = mrows A.
Proof. apply vbuild_length. Qed.
Lemma mvmul_f r c (A : mat R) x : mdimb r c A = true -> vget (mvmul A x) = fmv c (mget A) (vget x).
Proof.
  intros H. unfold mvmul. rewrite (mdimb_rows _ _ _ H), (mdimb_cols _ _ _ H).
  rewrite <- (vbuild_fun r (fmv c (mget A) (vget x))).
  - f_equal. apply vbuild_ext; intros i Hi. rewrite nsum_vbuild. reflexivity.
  - intros i Hi. apply Rsum_zero; intros j Hj. rewrite (mget_outR r c) by auto. lra.
Qed.
Lemma mmul_dim {T} {N : Num T} r c m (A B : mat T) : mdimb r m A = true -> mdimb m c B = true ->
  mdimb r c (mmul A B) = true.
Proof.
  intros H1 H2. unfold mmul. rewrite (mdimb_rows _ _ _ H1), (mdimb_cols _ _ _ H2). apply mbuild_dim.
Qed.
Lemma mmul_f r c m (A B : mat R) : mdimb r m A = true -> mdimb m c B = true ->
  mget (mmul A B) = fmm m (mget A) (mget B).
Proof.
  intros H1 H2. unfold mmul. rewrite (mdimb_rows _ _ _ H1), (mdimb_cols _ _ _ H1), (mdimb_cols _ _ _ H2).
  rewrite <- (mbuild_fun r c (fmm m (mget A) (mget B))).
  - f_equal. unfold mbuild; f_equal. apply map_ext; intros i. apply vbuild_ext; intros j Hj.
    rewrite nsum_vbuild; reflexivity.
  - intros i j Hij. apply Rsum_zero; intros k Hk. destruct Hij.
    + rewrite (mget_outR r m A) by auto. lra.
    + rewrite (mget_outR m c B) by auto. lra.
Qed.
Lemma mtr_dim {T} {N : Num T} r c (A : mat T) : mdimb r c A = true -> mdimb c r (mtr A) = true.
Proof. intros H. unfold mtr. rewrite (mdimb_rows _ _ _ H), (mdimb_cols _ _ _ H). apply mbuild_dim. Qed.
Lemma mtr_f r c (A : mat R) : mdimb r c A = true -> mget (mtr A) = ftr (mget A).
Proof.
  intros H. unfold mtr. rewrite (mdimb_rows _ _ _ H), (mdimb_cols _ _ _ H).
  apply (mbuild_fun c r (ftr (mget A))). intros i j Hij. unfold ftr. apply (mget_outR r c); tauto.
Qed.
Lemma madd_dim {T} {N : Num T} r c (A B : mat T) : mdimb r c A = true -> mdimb r c (madd A B) = true.
Proof. intros H. unfold madd. rewrite (mdimb_rows _ _ _ H), (mdimb_cols _ _ _ H). apply mbuild_dim. Qed.
Lemma madd_f r c (A B : mat R) : mdimb r c A = true -> mdimb r c B = true ->
  mget (madd A B) = fmadd (mget A) (mget B).
Proof.
  intros H H'. unfold madd. rewrite (mdimb_rows _ _ _ H), (mdimb_cols _ _ _ H).
  apply (mbuild_fun r c (fmadd (mget A) (mget B))). intros i j Hij. unfold fmadd.
  rewrite (mget_outR r c A), (mget_outR r c B) by auto. lra.
Qed.
Lemma mscale_dim {T} {N : Num T} r c a (A : mat T) : mdimb r c A = true -> mdimb r c (mscale a A) = true.
Proof. intros H. unfold mscale. rewrite (mdimb_rows _ _ _ H), (mdimb_cols _ _ _ H). apply mbuild_dim. Qed.
Lemma mscale_f r c a (A : mat R) : mdimb r c A = true -> mget (mscale a A) = fmscal a (mget A).
Proof.
  intros H. unfold mscale. rewrite (mdimb_rows _ _ _ H), (mdimb_cols _ _ _ H).
  apply (mbuild_fun r c (fmscal a (mget A))). intros i j Hij. unfold fmscal.
  rewrite (mget_outR r c A) by auto. lra.
Qed.
Lemma mzero_dim {T} {N : Num T} r c : mdimb r c (@mzero T N r c) = true.
Proof. apply mbuild_dim. Qed.
Lemma mzero_f r c i j : mget (@mzero R RNum r c) i j = 0.
Proof. unfold mzero. rewrite (mbuild_fun r c (fun _ _ => nzero)); reflexivity. Qed.
Lemma mdiagadd_dim {T} {N : Num T} r c (A : mat T) l : mdimb r c A = true -> mdimb r c (mdiagadd A l) = true.
Proof. intros H. unfold mdiagadd. rewrite (mdimb_rows _ _ _ H), (mdimb_cols _ _ _ H). apply mbuild_dim. Qed.
