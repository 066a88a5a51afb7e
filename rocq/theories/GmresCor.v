(** Bridge between the list specification and the function view; consequences for gm_solve. *)
From Verif Require Import Prelude Scalar LinAlg RLin CholProofs Chol GmresLin Gmres GmresReal GmresReal2 GmresReal3 GmresSpec.
From Coq Require Import FunctionalExtensionality.
Open Scope R_scope.

Lemma ladd_len u v n : length u = n -> length v = n -> length (ladd u v) = n.
Proof. intros. unfold ladd. rewrite map_length, combine_length. lia. Qed.
Lemma lsub_len u v n : length u = n -> length v = n -> length (lsub u v) = n.
Proof. intros. unfold lsub. rewrite map_length, combine_length. lia. Qed.
Lemma lscal_len a v : length (lscal a v) = length v.
Proof. apply map_length. Qed.
Lemma vget_ladd u v : length u = length v -> vget (ladd u v) = fadd (vget u) (vget v).
Proof.
  intros H. apply functional_extensionality. intros i. unfold fadd. revert v H i. induction u as [|a u IH]; intros [|b v] H i; try discriminate.
  - destruct i; cbn; ring.
  - destruct i; [reflexivity|]. injection H as H. exact (IH v H i).
Qed.
Lemma vget_lsub u v : length u = length v -> vget (lsub u v) = fsubv (vget u) (vget v).
Proof.
  intros H. apply functional_extensionality. intros i. unfold fsubv. revert v H i. induction u as [|a u IH]; intros [|b v] H i; try discriminate.
  - destruct i; cbn; ring.
  - destruct i; [reflexivity|]. injection H as H. exact (IH v H i).
Qed.
Lemma vget_lscal a v : vget (lscal a v) = fscal a (vget v).
Proof.
  apply functional_extensionality. intros i. unfold fscal. revert i. induction v as [|b v IH]; intros [|i]; [cbn; ring|cbn; ring|reflexivity|].
  exact (IH i).
Qed.
Lemma vget_repeat n : vget (repeat 0 n) = fzero.
Proof. apply functional_extensionality. intros i. unfold vget, fzero. apply nth_repeat. Qed.
Lemma zero_iff n v : length v = n -> (v = repeat 0 n <-> forall i, (i < n)%nat -> vget v i = 0).
Proof.
  intros Hn. split; [intros -> i _; rewrite vget_repeat; reflexivity|]. intros H. apply vec_ext; [rewrite repeat_length; exact Hn|].
  intros i Hi. rewrite H by lia. rewrite vget_repeat. reflexivity.
Qed.
Lemma sumsq v : fold_right (fun a s => a * a + s) 0 v = fdot (length v) (vget v) (vget v).
Proof.
  induction v as [|a v IH]; [reflexivity|]. cbn [fold_right length]. unfold fdot in *. rewrite Rsum_S_l, IH. reflexivity.
Qed.
Lemma nrm_R v : nrm v = R_sqrt.sqrt (fdot (length v) (vget v) (vget v)).
Proof. unfold nrm. rewrite sumsq. reflexivity. Qed.
Lemma nrm_vnorm v : nrm v = vnorm v.
Proof. rewrite nrm_R, vnorm_R. reflexivity. Qed.
Lemma ldot_R u v : length u = length v -> ldot u v = fdot (length u) (vget u) (vget v).
Proof.
  revert v. induction u as [|a u IH]; intros [|b v] H; try discriminate; [reflexivity|]. injection H as H.
  change (ldot (a :: u) (b :: v)) with (a * b + ldot u v). rewrite IH by exact H. unfold fdot. cbn [length]. rewrite Rsum_S_l. reflexivity.
Qed.
Lemma lsub_vsub u v : length u = length v -> lsub u v = vsub u v.
Proof.
  intros H. apply vec_eq; [unfold vsub; rewrite vbuild_length; apply lsub_len; auto|]. rewrite vget_lsub, vsub_f by (auto; lia). reflexivity.
Qed.

Lemma lincomb_len n cs vs : (forall v, In v vs -> length v = n) -> length (lincomb n cs vs) = n.
Proof.
  revert vs. induction cs as [|c cs IH]; intros [|v vs] H; cbn [lincomb]; try apply repeat_length.
  apply ladd_len; [rewrite lscal_len; apply H; left; reflexivity|]. apply IH. intros w Hw. apply H. right. exact Hw.
Qed.
Lemma vget_lincomb n cs vs : (forall v, In v vs -> length v = n) -> length cs = length vs ->
  vget (lincomb n cs vs) = comb (length vs) (vget cs) (fun j => vget (nth j vs [])).
Proof.
  revert vs. induction cs as [|c cs IH]; intros [|v vs] H HL; try discriminate.
  - apply vget_repeat.
  - cbn [lincomb length]. assert (Hvs : forall w, In w vs -> length w = n) by (intros w Hw; apply H; right; exact Hw).
    rewrite vget_ladd by (rewrite lscal_len, (H v (or_introl eq_refl)), lincomb_len; auto).
    rewrite vget_lscal, IH by (auto; injection HL; auto). apply functional_extensionality. intros i. unfold fadd, fscal, comb.
    rewrite Rsum_S_l. reflexivity.
Qed.

Section Lin.
  Variables (n : nat) (f : list R -> list R).
  Hypothesis Hf : linear n f.
  Definition unitv (j : nat) : list R := vbuild n (fun i => if Nat.eqb i j then 1 else 0).
  Definition Amat : fmat := fun i j => vget (f (unitv j)) i.

  Lemma lin_zero : f (repeat 0 n) = repeat 0 n.
  Proof.
    destruct Hf as (H1 & _ & H3). pose proof (H3 0 (repeat 0 n) (repeat_length _ _)) as E.
    assert (E0 : forall v, length v = n -> lscal 0 v = repeat 0 n).
    { intros v Hv. apply zero_iff; [rewrite lscal_len; exact Hv|]. intros i _. rewrite vget_lscal. unfold fscal. ring. }
    rewrite !E0 in E by (try apply H1; apply repeat_length). exact E.
  Qed.
  (** The prefix of v of length m, padded with zeros. *)
  Definition pre (v : list R) (m : nat) : list R := vbuild n (fun i => if Nat.ltb i m then vget v i else 0).
  Lemma pre_S v m : length v = n -> pre v (S m) = ladd (pre v m) (lscal (vget v m) (unitv m)).
  Proof.
    intros Hv. apply vec_ext.
    - rewrite (ladd_len _ _ n); [apply vbuild_length|apply vbuild_length|rewrite lscal_len; apply vbuild_length].
    - intros i Hi. unfold pre at 1 in Hi. rewrite vbuild_length in Hi. rewrite vget_ladd by (rewrite lscal_len; unfold pre, unitv; rewrite !vbuild_length; reflexivity).
      rewrite vget_lscal. unfold fadd, fscal, pre, unitv. rewrite !vbuild_get by exact Hi.
      destruct (Nat.ltb_spec i (S m)), (Nat.ltb_spec i m), (Nat.eqb_spec i m); subst; try lia; ring.
  Qed.
  Lemma f_pre v m : length v = n -> length (f (pre v m)) = n /\ vget (f (pre v m)) = comb m (vget v) (fun j => vget (f (unitv j))).
  Proof.
    intros Hv. assert (Lp : forall k, length (pre v k) = n) by (intros; apply vbuild_length).
    assert (Lu : forall k, length (unitv k) = n) by (intros; apply vbuild_length).
    destruct Hf as (H1 & H2 & H3). split; [apply H1, Lp|]. induction m as [|m IH].
    - replace (pre v 0) with (repeat 0 n). { rewrite lin_zero. apply vget_repeat. }
      symmetry. apply zero_iff; [apply Lp|]. intros i Hi. unfold pre. rewrite vbuild_get by exact Hi. reflexivity.
    - rewrite pre_S by exact Hv. rewrite H2, H3 by (rewrite ?lscal_len; auto). rewrite vget_ladd by (rewrite lscal_len, !H1; auto).
      rewrite vget_lscal, IH, comb_S. reflexivity.
  Qed.
  Lemma lin_mat v : length v = n -> length (f v) = n /\ vget (f v) = fmv n Amat (vget v).
  Proof.
    intros Hv. destruct (f_pre v n Hv) as [E1 E2]. assert (E : pre v n = v).
    { apply vec_ext; [unfold pre; rewrite vbuild_length; lia|]. intros i Hi. unfold pre in *. rewrite vbuild_length in Hi.
      rewrite vbuild_get by exact Hi. rewrite (proj2 (Nat.ltb_lt i n) Hi). reflexivity. }
    rewrite E in *. split; [exact E1|]. rewrite E2. apply functional_extensionality. intros i. unfold comb, fmv, Amat.
    apply Rsum_ext. intros; ring.
  Qed.
  Lemma iter_len r j : length r = n -> length (Nat.iter j f r) = n.
  Proof. intros Hr. induction j; [exact Hr|]. cbn. apply Hf. assumption. Qed.
  Lemma iter_kpow r j : length r = n -> vget (Nat.iter j f r) = kpow n Amat (vget r) j.
  Proof.
    intros Hr. induction j; [reflexivity|]. cbn [Nat.iter nat_rect kpow]. change (nat_rect _ r _ j) with (Nat.iter j f r).
    rewrite (proj2 (lin_mat (Nat.iter j f r) (iter_len r j Hr))), IHj. reflexivity.
  Qed.
  Lemma krylov_len r k : length (krylov f r k) = k.
  Proof. unfold krylov. rewrite map_length, seq_length. reflexivity. Qed.
  Lemma krylov_in r k v : length r = n -> In v (krylov f r k) -> length v = n.
  Proof. intros Hr Hv. apply in_map_iff in Hv as (j & <- & _). apply iter_len. exact Hr. Qed.
  Lemma krylov_nth r k j : (j < k)%nat -> nth j (krylov f r k) [] = Nat.iter j f r.
  Proof.
    intros Hj. unfold krylov. rewrite nth_indep with (d' := Nat.iter 0 f r) by (rewrite map_length, seq_length; exact Hj).
    rewrite (map_nth (fun j => Nat.iter j f r) (seq 0 k) 0%nat), seq_nth by exact Hj. reflexivity.
  Qed.
  Lemma vget_krylov_comb r k cs : length r = n -> length cs = k ->
    vget (lincomb n cs (krylov f r k)) = comb k (vget cs) (kpow n Amat (vget r)).
  Proof.
    intros Hr Hc. rewrite vget_lincomb by (first [rewrite krylov_len; exact Hc | intros v Hv; apply (krylov_in r k v Hr Hv)]).
    rewrite krylov_len. apply comb_ext; [reflexivity|]. intros j Hj. rewrite krylov_nth by exact Hj. apply iter_kpow. exact Hr.
  Qed.
  Lemma in_span_comb r k v : length r = n -> length v = n ->
    (in_span n (krylov f r k) v <-> span k (kpow n Amat (vget r)) (vget v)).
  Proof.
    intros Hr Hv. split.
    - intros (cs & Hc & ->). rewrite krylov_len in Hc. exists (vget cs). apply vget_krylov_comb; assumption.
    - intros [y Ey]. exists (vbuild k y). split; [rewrite krylov_len; apply vbuild_length|]. apply vec_eq.
      + rewrite lincomb_len; [exact Hv|]. intros w Hw. apply (krylov_in r k w Hr Hw).
      + rewrite (vget_krylov_comb r k) by (auto; apply vbuild_length). rewrite Ey. apply comb_ext; [|reflexivity].
        intros j Hj. rewrite vbuild_get by exact Hj. reflexivity.
  Qed.
  Lemma inj_fun r : length r = n -> injective_on_krylov n f r ->
    forall m y, (forall i, (i < n)%nat -> fmv n Amat (comb m y (kpow n Amat (vget r))) i = 0) ->
    forall i, (i < n)%nat -> comb m y (kpow n Amat (vget r)) i = 0.
  Proof.
    intros Hr Hi m y Hy.
    assert (Lw : length (lincomb n (vbuild m y) (krylov f r m)) = n) by (apply lincomb_len; intros w Hw; apply (krylov_in r m w Hr Hw)).
    assert (Ev : vget (lincomb n (vbuild m y) (krylov f r m)) = comb m y (kpow n Amat (vget r))).
    { rewrite (vget_krylov_comb r m) by (auto; apply vbuild_length). apply comb_ext; [|reflexivity]. intros j Hj. rewrite vbuild_get by exact Hj. reflexivity. }
    rewrite <- Ev in Hy |- *. apply zero_iff; [exact Lw|]. apply (Hi m).
    - exists (vbuild m y). split; [rewrite krylov_len; apply vbuild_length|reflexivity].
    - apply zero_iff; [apply Hf; exact Lw|]. rewrite (proj2 (lin_mat _ Lw)). exact Hy.
  Qed.
  Lemma nonsing_krylov r : length r = n -> nonsingular n f -> injective_on_krylov n f r.
  Proof.
    intros Hr Hn k v (cs & Hc & ->) E. apply Hn; [|exact E]. apply lincomb_len. intros w Hw. apply (krylov_in r k w Hr Hw).
  Qed.
End Lin.

(** ** The least-squares contract for matrices *)
Definition lsq_rows (lsq : list (list R) -> list R -> list R) : mat R -> vec R -> vec R := fun A b => lsq (mdat A) b.

Lemma rows_mul_f r c (A : mat R) y : mdimb r c A = true -> length y = c ->
  length (rows_mul (mdat A) y) = r /\ vget (rows_mul (mdat A) y) = fmv c (mget A) (vget y).
Proof.
  intros HA Hy. unfold mdimb in HA. apply andb_true_iff in HA as [HA Hrow]. apply andb_true_iff in HA as [HA HL].
  apply Nat.eqb_eq in HL. rewrite forallb_forall in Hrow. unfold rows_mul. split; [rewrite map_length; exact HL|].
  apply functional_extensionality. intros i. unfold fmv, mget. unfold vget at 1. destruct (Nat.lt_ge_cases i (length (mdat A))) as [Hi|Hi].
  - rewrite nth_indep with (d' := ldot [] y) by (rewrite map_length; exact Hi). rewrite (map_nth (fun row => ldot row y)).
    pose proof (Hrow _ (nth_In (mdat A) [] Hi)) as Hc. apply Nat.eqb_eq in Hc. rewrite ldot_R by lia. rewrite Hc. reflexivity.
  - rewrite nth_overflow by (rewrite map_length; exact Hi). rewrite Rsum_zero; [reflexivity|]. intros j _.
    rewrite (nth_overflow (mdat A)) by exact Hi. rewrite nth_overflow by (cbn; lia). numR. ring.
Qed.
Lemma least_squares_exact lsq : least_squares lsq -> exact_lsq (lsq_rows lsq).
Proof.
  intros H r c A b HA Hb Hi. unfold lsq_rows. pose proof HA as HA'. unfold mdimb in HA'. apply andb_true_iff in HA' as [HA' Hrow].
  apply andb_true_iff in HA' as [_ HL]. apply Nat.eqb_eq in HL. rewrite forallb_forall in Hrow.
  destruct (H r c (mdat A) b HL) as [L M]; auto.
  - intros row Hr. apply Nat.eqb_eq. apply Hrow. exact Hr.
  - intros y Hy E. apply zero_iff; [exact Hy|]. apply Hi. intros i Hir. destruct (rows_mul_f r c A y HA Hy) as [_ E2]. rewrite <- E2, E.
    rewrite vget_repeat. reflexivity.
  - split; [exact L|]. intros z. cbv zeta beta.
    assert (Sq : forall y, length y = c -> fdot r (fsubv (vget b) (fmv c (mget A) (vget y))) (fsubv (vget b) (fmv c (mget A) (vget y))) =
               nrm (lsub b (rows_mul (mdat A) y)) * nrm (lsub b (rows_mul (mdat A) y))).
    { intros y Hy. destruct (rows_mul_f r c A y HA Hy) as [E1 E2]. rewrite nrm_vnorm, vnorm_sq, (lsub_len _ _ r) by auto.
      rewrite vget_lsub by lia. rewrite E2. reflexivity. }
    rewrite Sq by exact L. set (z' := vbuild c z).
    assert (Ez : fmv c (mget A) z = fmv c (mget A) (vget z')).
    { apply functional_extensionality. intros i. unfold fmv. apply Rsum_ext. intros j Hj. unfold z'. rewrite vbuild_get by exact Hj. reflexivity. }
    rewrite Ez, Sq by apply vbuild_length. specialize (M z' (vbuild_length _ _)). apply Rmult_le_compat; auto; rewrite nrm_vnorm; apply vnorm_nonneg.
Qed.
(** Normal equations solved by Cholesky meet the contract. *)
Definition normal_lsq (A : list (list R)) (b : list R) : list R :=
  let c := length (hd [] A) in
  let M := {| mrows := length A; mcols := c; mdat := A |} in
  llt_solve chol_llt (mmul (mtr M) M) (mvmul (mtr M) b).

Lemma normal_least_squares : least_squares normal_lsq.
Proof.
  intros r c A b HL Hrow Hb Hi.
  assert (Hc : length (hd [] A) = c).
  { destruct A as [|row A]; [|apply Hrow; left; reflexivity]. cbn in *. subst r.
    pose proof (Hi (repeat 1 c) (repeat_length _ _) eq_refl) as E. destruct c; [reflexivity|]. cbn in E. injection E. intros _ F. lra. }
  unfold normal_lsq. rewrite Hc, HL. set (M := {| mrows := r; mcols := c; mdat := A |}).
  assert (HM : mdimb r c M = true).
  { unfold mdimb. cbn [mrows mcols mdat M]. rewrite HL, !Nat.eqb_refl. apply forallb_forall. intros row Hr. apply Nat.eqb_eq, Hrow, Hr. }
  assert (HT : mdimb c r (mtr M) = true) by apply mbuild_dim.
  set (N := mmul (mtr M) M).
  assert (HN : mdimb c c N = true) by apply mbuild_dim.
  assert (EN : mget N = fmm r (ftr (mget M)) (mget M)).
  { unfold N. rewrite (mmul_f c c r) by assumption. rewrite (mtr_f r c) by exact HM. reflexivity. }
  assert (Q : forall y z, fdot c y (fmv c (mget N) z) = fdot r (fmv c (mget M) y) (fmv c (mget M) z)).
  { intros y z. rewrite EN, fmv_mm. rewrite (fdot_mv c r (ftr (mget M))). reflexivity. }
  assert (Sym : fsym c (mget N)).
  { intros i j _ _. rewrite EN. unfold fmm, ftr. apply Rsum_ext. intros; ring. }
  assert (Inj : forall y, (forall i, (i < r)%nat -> fmv c (mget M) y i = 0) -> forall j, (j < c)%nat -> y j = 0).
  { intros y Hy j Hj. set (y' := vbuild c y). assert (Ly : length y' = c) by apply vbuild_length.
    assert (Ey : fmv c (mget M) (vget y') = fmv c (mget M) y).
    { apply functional_extensionality. intros i. unfold fmv. apply Rsum_ext. intros l Hl. unfold y'. rewrite vbuild_get by exact Hl. reflexivity. }
    destruct (rows_mul_f r c M y' HM Ly) as [E1 E2]. cbn [mdat M] in E1, E2.
    assert (Z : y' = repeat 0 c).
    { apply Hi; [exact Ly|]. apply zero_iff; [exact E1|]. rewrite E2, Ey. exact Hy. }
    transitivity (vget y' j); [unfold y'; rewrite vbuild_get by exact Hj; reflexivity|]. rewrite Z, vget_repeat. reflexivity. }
  assert (Pos : posdef c (mget N)).
  { intros y (j & Hj & Hy). rewrite Q. destruct (fdot_self_nonneg r (fmv c (mget M) y)) as [G|G]; [exact G|exfalso]. apply Hy.
    apply (Inj y); [|exact Hj]. intros i Hir. apply (fdot_self_0 r (fmv c (mget M) y)); [symmetry; exact G|exact Hir]. }
  pose proof (proj2 (el_issue _ chol_exact N c HN Sym) Pos) as NI.
  set (w := mvmul (mtr M) b). assert (Lw : length w = c) by (unfold w, mvmul; rewrite vbuild_length; reflexivity).
  pose proof (el_len _ chol_exact N c w HN Lw) as Ly. pose proof (el_solve _ chol_exact N c w HN Sym NI Lw) as Sy.
  set (y := llt_solve chol_llt N w) in *. clearbody y. split; [exact Ly|].
  assert (Ew : vget w = fmv r (ftr (mget M)) (vget b)).
  { unfold w. rewrite (mvmul_f c r) by exact HT. rewrite (mtr_f r c) by exact HM. reflexivity. }
  intros z Lz.
  assert (Sq : forall y, length y = c -> fdot r (fsubv (vget b) (fmv c (mget M) (vget y))) (fsubv (vget b) (fmv c (mget M) (vget y))) =
               fdot (length (lsub b (rows_mul A y))) (vget (lsub b (rows_mul A y))) (vget (lsub b (rows_mul A y)))).
  { intros u Hu. destruct (rows_mul_f r c M u HM Hu) as [E1 E2]. cbn [mdat M] in E1, E2. rewrite (lsub_len _ _ r) by auto.
    rewrite vget_lsub by lia. rewrite E2. reflexivity. }
  rewrite !nrm_R, <- !Sq by assumption. apply R_sqrt.sqrt_le_1; try apply fdot_self_nonneg.
  set (e := fsubv (vget b) (fmv c (mget M) (vget y))). set (d := fsubv (vget z) (vget y)).
  assert (Ez : fsubv (vget b) (fmv c (mget M) (vget z)) = fsubv e (fmv c (mget M) d)).
  { unfold e, d. rewrite fmv_sub. apply functional_extensionality. intros i. unfold fsubv. ring. }
  assert (O : fdot r e (fmv c (mget M) d) = 0).
  { rewrite fdot_mv. unfold e. rewrite fmv_sub, <- Ew. rewrite <- fmv_mm, <- EN.
    rewrite (fdot_ext c _ d fzero d); [apply fdot_0_l| |reflexivity]. intros i Hic. unfold fsubv. rewrite Sy by exact Hic. unfold fzero. ring. }
  rewrite Ez. rewrite fdot_sub_l, !fdot_sub_r. rewrite (fdot_comm r (fmv c (mget M) d) e), O.
  pose proof (fdot_self_nonneg r (fmv c (mget M) d)). lra.
Qed.
