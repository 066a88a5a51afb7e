(** One-sided derivatives of the 1-norm and of the merit function of the FMPC solver (exact arithmetic). *)
From Coq Require Import Reals Lra Psatz.
From Verif Require Import Prelude Scalar LinAlg RLin DDP Fmpc FmpcProofs FmpcStep FmpcSpec FmpcReal.
Local Open Scope R_scope.

(** ** Rules for right derivatives *)
Lemma rd_ext f g y l : (exists h, 0 < h /\ forall t, 0 < t < h -> f t = g t) -> right_deriv f y l -> right_deriv g y l.
Proof.
  intros (h0 & P0 & E) H e He. destruct (H e He) as (h & Ph & Hh). exists (Rmin h0 h).
  split; [apply Rmin_pos; assumption|]. intros t Ht. pose proof (Rmin_l h0 h). pose proof (Rmin_r h0 h).
  rewrite <- E by lra. apply Hh. lra.
Qed.
Lemma rd_eq f y l y' l' : right_deriv f y l -> y = y' -> l = l' -> right_deriv f y' l'.
Proof. intros H -> ->; exact H. Qed.
Lemma rd_const c : right_deriv (fun _ => c) c 0.
Proof. intros e He. exists 1. split; [lra|]. intros t Ht. replace (c - c - 0 * t) with 0 by lra. rewrite Rabs_R0. nra. Qed.
Lemma rd_lin c d : right_deriv (fun a => c + a * d) c d.
Proof. intros e He. exists 1. split; [lra|]. intros t Ht. replace (c + t * d - c - d * t) with 0 by lra. rewrite Rabs_R0. nra. Qed.
Lemma rd_plus f g y z l m : right_deriv f y l -> right_deriv g z m -> right_deriv (fun a => f a + g a) (y + z) (l + m).
Proof.
  intros H1 H2 e He. destruct (H1 (e / 2)) as (h1 & P1 & E1); [lra|]. destruct (H2 (e / 2)) as (h2 & P2 & E2); [lra|].
  exists (Rmin h1 h2). split; [apply Rmin_pos; assumption|]. intros t Ht. pose proof (Rmin_l h1 h2). pose proof (Rmin_r h1 h2).
  specialize (E1 t ltac:(lra)). specialize (E2 t ltac:(lra)).
  replace (f t + g t - (y + z) - (l + m) * t) with ((f t - y - l * t) + (g t - z - m * t)) by lra.
  eapply Rle_trans; [apply Rabs_triang|]. lra.
Qed.
Lemma rd_scale c f y l : right_deriv f y l -> right_deriv (fun a => c * f a) (c * y) (c * l).
Proof.
  intros H e He. assert (Hc : 0 < Rabs c + 1) by (pose proof (Rabs_pos c); lra).
  destruct (H (e / (Rabs c + 1))) as (h & P & E); [apply Rdiv_lt_0_compat; lra|]. exists h. split; [exact P|]. intros t Ht.
  specialize (E t Ht). replace (c * f t - c * y - c * l * t) with (c * (f t - y - l * t)) by lra. rewrite Rabs_mult.
  apply Rle_trans with (Rabs c * (e / (Rabs c + 1) * t)); [apply Rmult_le_compat_l; [apply Rabs_pos|exact E]|].
  replace (Rabs c * (e / (Rabs c + 1) * t)) with (Rabs c / (Rabs c + 1) * (e * t)) by (field; lra).
  rewrite <- (Rmult_1_l (e * t)) at 2. apply Rmult_le_compat_r; [nra|].
  apply Rmult_le_reg_r with (Rabs c + 1); [exact Hc|]. unfold Rdiv. rewrite Rmult_assoc, Rinv_l by lra. lra.
Qed.
Lemma rd_sum n (f : nat -> R -> R) y l : (forall i, (i < n)%nat -> right_deriv (f i) (y i) (l i)) ->
  right_deriv (fun a => Rsum n (fun i => f i a)) (Rsum n y) (Rsum n l).
Proof.
  induction n as [|n IH]; intros H; cbn [Rsum]; [apply rd_const|]. apply (rd_plus (fun a => Rsum n (fun i => f i a)) (f n)); [apply IH; auto|apply H; lia].
Qed.
(** Values near 0 are near the value at 0. *)
Lemma rd_near f y l e : right_deriv f y l -> 0 < e -> exists h, 0 < h /\ forall t, 0 < t < h -> Rabs (f t - y) < e.
Proof.
  intros H He. destruct (H 1) as (h & P & E); [lra|]. assert (Hl : 0 < Rabs l + 1) by (pose proof (Rabs_pos l); lra).
  exists (Rmin h (e / (Rabs l + 1))). split; [apply Rmin_pos; [exact P|apply Rdiv_lt_0_compat; assumption]|].
  intros t Ht. pose proof (Rmin_l h (e / (Rabs l + 1))). pose proof (Rmin_r h (e / (Rabs l + 1))). specialize (E t ltac:(lra)).
  replace (f t - y) with ((f t - y - l * t) + l * t) by lra. eapply Rle_lt_trans; [apply Rabs_triang|].
  rewrite Rabs_mult, (Rabs_right t) by lra.
  apply Rle_lt_trans with ((Rabs l + 1) * t); [lra|]. apply Rlt_le_trans with ((Rabs l + 1) * (e / (Rabs l + 1))); [apply Rmult_lt_compat_l; lra|].
  right. field. lra.
Qed.
(** The right derivative of |y + l t| at 0. *)
Definition absd (y l : R) : R := if Rlt_dec 0 y then l else if Rlt_dec y 0 then - l else Rabs l.
Lemma rd_abs f y l : right_deriv f y l -> right_deriv (fun a => Rabs (f a)) (Rabs y) (absd y l).
Proof.
  intros H. unfold absd. destruct (Rlt_dec 0 y) as [P|P]; [|destruct (Rlt_dec y 0) as [Q|Q]].
  - destruct (rd_near f y l y H P) as (h & Ph & Eh). apply (rd_ext f).
    + exists h. split; [exact Ph|]. intros t Ht. specialize (Eh t Ht). apply Rabs_def2 in Eh. rewrite Rabs_right; lra.
    + apply (rd_eq f y l); [exact H|rewrite Rabs_right; lra|reflexivity].
  - destruct (rd_near f y l (- y) H ltac:(lra)) as (h & Ph & Eh). apply (rd_ext (fun a => -1 * f a)).
    + exists h. split; [exact Ph|]. intros t Ht. specialize (Eh t Ht). apply Rabs_def2 in Eh. rewrite Rabs_left; lra.
    + apply (rd_eq _ (-1 * y) (-1 * l)); [apply rd_scale; exact H|rewrite Rabs_left; lra|lra].
  - assert (y = 0) by lra. subst y. rewrite Rabs_R0. intros e He. destruct (H e He) as (h & Ph & Eh). exists h. split; [exact Ph|].
    intros t Ht. specialize (Eh t Ht). rewrite Rminus_0_r in *. replace (Rabs l * t) with (Rabs (l * t)) by (rewrite Rabs_mult, (Rabs_right t); lra).
    eapply Rle_trans; [apply Rabs_triang_inv2|exact Eh].
Qed.
Lemma rd_ln s d : 0 < s -> right_deriv (fun a => ln (s + a * d)) (ln s) (d / s).
Proof.
  intros Hs. assert (H : derivable_pt_lim (fun a => ln (s + a * d)) 0 (/ s * d)).
  { apply (derivable_pt_lim_comp (fun a => s + a * d) ln).
    - intros e He. exists (mkposreal 1 Rlt_0_1). intros h Hh _.
      replace ((s + (0 + h) * d - (s + 0 * d)) / h - d) with 0 by (field; exact Hh). rewrite Rabs_R0. exact He.
    - replace (s + 0 * d) with s by lra. apply derivable_pt_lim_ln. exact Hs. }
  intros e He. destruct (H e He) as [h Eh]. exists h. split; [apply cond_pos|]. intros t Ht.
  specialize (Eh t ltac:(lra)). rewrite (Rabs_right t) in Eh by lra. specialize (Eh ltac:(lra)).
  rewrite Rplus_0_l, Rmult_0_l, Rplus_0_r in Eh.
  replace (ln (s + t * d) - ln s - d / s * t) with (((ln (s + t * d) - ln s) / t - / s * d) * t) by (field; lra).
  rewrite Rabs_mult, (Rabs_right t) by lra. apply Rmult_le_compat_r; lra.
Qed.

Lemma absd_plus y p q : absd y (p + q) <= absd y p + absd y q.
Proof. unfold absd. destruct (Rlt_dec 0 y); [lra|]. destruct (Rlt_dec y 0); [lra|]. apply Rabs_triang. Qed.
Lemma absd_plus_eq y p q : y <> 0 -> absd y (p + q) = absd y p + absd y q.
Proof. intros H. unfold absd. destruct (Rlt_dec 0 y); [lra|]. destruct (Rlt_dec y 0); lra. Qed.

(** ** C35 *)
Lemma l1_deriv_R (f : vec R) (J : mat R) (d : vec R) : mdimb (length f) (length d) J = true ->
  l1_deriv f J d = Rsum (length f) (fun i => absd (vget f i) (Rsum (length d) (fun k => mget J i k * vget d k))).
Proof.
  intros HJ. unfold l1_deriv.
  assert (HD : forall i, dot (mrow J i) d = Rsum (length d) (fun k => mget J i k * vget d k)).
  { intros i. rewrite dot_R. unfold mrow. rewrite vbuild_length, (mdimb_cols _ _ _ HJ). unfold fdot. apply Rsum_ext. intros k Hk.
    rewrite vbuild_get by exact Hk. reflexivity. }
  rewrite (fold_sum _ (fun i => absd (vget f i) (Rsum (length d) (fun k => mget J i k * vget d k))) 0%nat).
  - rewrite seq_length. replace (@nzero R RNum) with 0 by reflexivity. rewrite Rplus_0_l. apply Rsum_ext. intros i Hi. rewrite seq_nth by exact Hi. reflexivity.
  - intros a i. rewrite HD. unfold absd. numR. destruct (Rltb 0 (vget f i)) eqn:E1.
    + apply Rltb_true in E1. destruct (Rlt_dec 0 (vget f i)); [reflexivity|lra].
    + apply Rltb_false in E1. destruct (Rlt_dec 0 (vget f i)); [lra|]. destruct (Rltb (vget f i) 0) eqn:E2.
      * apply Rltb_true in E2. destruct (Rlt_dec (vget f i) 0); lra.
      * apply Rltb_false in E2. destruct (Rlt_dec (vget f i) 0); lra.
Qed.
Lemma abs_line y p : exists h, 0 < h /\ forall t, 0 <= t <= h -> Rabs (y + t * p) = Rabs y + t * absd y p.
Proof.
  assert (Hp : 0 < Rabs p + 1) by (pose proof (Rabs_pos p); lra).
  assert (K : y <> 0 -> forall t, 0 <= t <= Rabs y / (Rabs p + 1) -> Rabs (t * p) <= Rabs y).
  { intros Hy t Ht. rewrite Rabs_mult, (Rabs_right t) by lra.
    apply Rle_trans with (Rabs y / (Rabs p + 1) * Rabs p); [apply Rmult_le_compat_r; [apply Rabs_pos|lra]|].
    apply Rle_trans with (Rabs y / (Rabs p + 1) * (Rabs p + 1)); [|right; field; lra].
    apply Rmult_le_compat_l; [|lra]. apply Rmult_le_pos; [apply Rabs_pos|]. left; apply Rinv_0_lt_compat; exact Hp. }
  unfold absd. destruct (Rlt_dec 0 y) as [P|P]; [|destruct (Rlt_dec y 0) as [Q|Q]].
  - exists (Rabs y / (Rabs p + 1)). split; [apply Rdiv_lt_0_compat; [apply Rabs_pos_lt; lra|exact Hp]|].
    intros t Ht. specialize (K ltac:(lra) t Ht). rewrite (Rabs_right y) in * by lra. pose proof (Rle_abs (- (t * p))). rewrite Rabs_Ropp in H.
    rewrite Rabs_right; lra.
  - exists (Rabs y / (Rabs p + 1)). split; [apply Rdiv_lt_0_compat; [apply Rabs_pos_lt; lra|exact Hp]|].
    intros t Ht. specialize (K ltac:(lra) t Ht). rewrite (Rabs_left y) in * by lra. pose proof (Rle_abs (t * p)).
    rewrite Rabs_left1; lra.
  - exists 1. split; [lra|]. intros t Ht. assert (y = 0) by lra. subst y. rewrite Rplus_0_l, Rabs_R0, Rabs_mult, (Rabs_right t) by lra. lra.
Qed.
Lemma sum_line n (y p : nat -> R) : exists h, 0 < h /\ forall t, 0 <= t <= h ->
  Rsum n (fun i => Rabs (y i + t * p i)) = Rsum n (fun i => Rabs (y i)) + t * Rsum n (fun i => absd (y i) (p i)).
Proof.
  induction n as [|n (h & P & IH)]; [exists 1; split; [lra|]; intros; cbn; lra|].
  destruct (abs_line (y n) (p n)) as (h' & P' & E). exists (Rmin h h'). split; [apply Rmin_pos; assumption|].
  intros t Ht. pose proof (Rmin_l h h'). pose proof (Rmin_r h h'). cbn [Rsum]. rewrite IH, E by lra. lra.
Qed.

(** ** The derivative computed by setupMeritFunc *)
Section Deriv.
  Variables (pb : fproblem R) (cf : fconfig R).
  Notation Nf := (Nf cf).
  Definition mvsum (J : mat R) (d : vec R) (j : nat) : R := Rsum (length d) (fun k => mget J j k * vget d k).
  Definition vvsum (a d : vec R) : R := Rsum (length d) (fun k => vget a k * vget d k).

  Lemma mid_sum n (d : vec R) c j : length d = n -> (j < n)%nat -> mvsum (mscale c (mid n)) d j = c * vget d j.
  Proof.
    intros Hd Hj. unfold mvsum. rewrite Hd. rewrite (Rsum_single _ _ j Hj).
    - unfold mscale, mid. cbn [mrows mcols mbuild]. rewrite mbuild_get by exact Hj || (split; exact Hj).
      rewrite mbuild_get by exact Hj || (split; exact Hj). rewrite Nat.eqb_refl. numR. lra.
    - intros k Hk Hne. unfold mscale, mid. cbn [mrows mcols mbuild]. rewrite mbuild_get by assumption || (split; assumption).
      rewrite mbuild_get by assumption || (split; assumption). replace (Nat.eqb j k) with false by (symmetry; apply Nat.eqb_neq; lia). numR. lra.
  Qed.
  Lemma mid_sum1 n (d : vec R) j : length d = n -> (j < n)%nat -> mvsum (mid n) d j = vget d j.
  Proof.
    intros Hd Hj. unfold mvsum. rewrite Hd. rewrite (Rsum_single _ _ j Hj).
    - unfold mid. rewrite mbuild_get by exact Hj || (split; exact Hj). rewrite Nat.eqb_refl. numR. lra.
    - intros k Hk Hne. unfold mid. rewrite mbuild_get by assumption || (split; assumption).
      replace (Nat.eqb j k) with false by (symmetry; apply Nat.eqb_neq; lia). numR. lra.
  Qed.
  Lemma l1_chk (f : vec R) J d q : l1_deriv_chk f J d = Some q ->
    mdimb (length f) (length d) J = true /\ q = Rsum (length f) (fun i => absd (vget f i) (mvsum J d i)).
  Proof.
    unfold l1_deriv_chk. destruct (mdimb (length f) (length d) J) eqn:E; [|discriminate]. intros H. apply some_inj in H.
    split; [reflexivity|]. rewrite <- H. apply l1_deriv_R. exact E.
  Qed.
  Lemma dim_mid (n m : nat) : mdimb n m (@mid R RNum n) = true -> m = n.
  Proof. intros H. apply mdimb_cols in H. cbn in H. auto. Qed.
  Lemma dim_mmid (n m : nat) c : mdimb n m (mscale c (@mid R RNum n)) = true -> m = n.
  Proof. intros H. apply mdimb_cols in H. cbn in H. auto. Qed.

  Definition step_terms (t0 eps : R) (v d : var R) (c : coeff R) (i : nat) : Prop :=
    let x := nth i (v_x v) [] in let u := nth i (v_u v) [] in let s := nth i (v_s v) [] in let x' := nth (i + 1) (v_x v) [] in
    let dx := nth i (v_x d) [] in let du := nth i (v_u d) [] in let ds := nth i (v_s d) [] in let dx' := nth (i + 1) (v_x d) [] in
    let t := t0 + INR i * pb_dt (fp_dp pb) in
    let xn := pb_stateEq (fp_dp pb) t x u in let g := fp_g pb t x u in
    length x' = length xn /\ length s = length g /\ length ds = length s /\ length dx' = length xn.
  Lemma deriv_terms_R t0 eps v d cl i q : deriv_terms pb t0 eps v d cl i = Some q ->
    exists c, nth_error cl i = Some c /\ step_terms t0 eps v d c i /\
    let x := nth i (v_x v) [] in let u := nth i (v_u v) [] in let s := nth i (v_s v) [] in let x' := nth (i + 1) (v_x v) [] in
    let dx := nth i (v_x d) [] in let du := nth i (v_u d) [] in let ds := nth i (v_s d) [] in let dx' := nth (i + 1) (v_x d) [] in
    let t := t0 + INR i * pb_dt (fp_dp pb) in
    let xn := pb_stateEq (fp_dp pb) t x u in let g := fp_g pb t x u in
    let '(rc, ba, (a1, a2, a3), (b1, b2, b3)) := q in
    rc = (vvsum (c_Lx c) dx + vvsum (c_Lu c) du) * pb_dt (fp_dp pb) /\
    ba = - (eps * Rsum (length s) (fun j => vget ds j / vget s j)) /\
    a1 + a2 + a3 = Rsum (length xn) (fun j => let r := vget xn j - vget x' j in absd r (mvsum (c_A c) dx j) + absd r (mvsum (c_B c) du j) + absd r (- vget dx' j)) /\
    b1 + b2 + b3 = Rsum (length g) (fun j => let r := vget g j + vget s j in absd r (mvsum (c_C c) dx j) + absd r (mvsum (c_D c) du j) + absd r (vget ds j)).
  Proof.
    intros H. unfold deriv_terms in H. do 9 opt1 H. rewrite ft_R in H. unfold dp in H. opt1 H. do 6 opt1 H. apply some_inj in H; subst q.
    exists c. split; [reflexivity|]. unfold step_terms. cbn zeta.
    rewrite (nth_of _ _ _ _ E), (nth_of _ _ _ _ E0), (nth_of _ _ _ _ E1), (nth_of _ _ _ _ E2), (nth_of _ _ _ _ E3), (nth_of _ _ _ _ E4), (nth_of _ _ _ _ E5), (nth_of _ _ _ _ E6).
    unfold vdimb in B. rewrite !andb_true_iff, !Nat.eqb_eq in B. destruct B as [[[[B1 B2] B3] B4] B5].
    apply l1_chk in E8 as [D1 ->]. apply l1_chk in E9 as [D2 ->]. apply l1_chk in E10 as [D3 ->].
    apply l1_chk in E11 as [D4 ->]. apply l1_chk in E12 as [D5 ->]. apply l1_chk in E13 as [D6 ->].
    unfold vsub at 1 in D3. unfold vadd at 1 in D6. rewrite vbuild_length in D3, D6. apply dim_mmid in D3. apply dim_mid in D6.
    split; [auto|]. split.
    { rewrite !dot_R, <- B3, <- B4. reflexivity. }
    split.
    { rewrite dot_R. unfold vinv at 1. rewrite vbuild_length. unfold fdot, mone. opsR. numR.
      rewrite (Rsum_ext _ _ (fun j => vget v6 j / vget v2 j)); [lra|]. intros j Hj. unfold vinv. rewrite vbuild_get by exact Hj. numR. lra. }
    split.
    - unfold vsub at 1 3 5. rewrite !vbuild_length. rewrite <- !Rsum_plus. apply Rsum_ext. intros j Hj.
      rewrite !(vsub_get _ _ _ Hj). rewrite (mid_sum _ _ _ _ D3 Hj). cbn zeta. do 2 f_equal. unfold mone. numR. lra.
    - unfold vadd at 1 3 5. rewrite !vbuild_length. rewrite <- !Rsum_plus. apply Rsum_ext. intros j Hj.
      rewrite !(vadd_get _ _ _ Hj). rewrite (mid_sum1 _ _ _ D6 Hj). reflexivity.
  Qed.

  Section Parts.
  Variables (t0 eps : R) (x0 : vec R) (v d : var R) (cl : list (coeff R)) (cN : coeff R).
  Notation X i := (nth i (v_x v) []). Notation U i := (nth i (v_u v) []). Notation S i := (nth i (v_s v) []).
  Notation DX i := (nth i (v_x d) []). Notation DU i := (nth i (v_u d) []). Notation DS i := (nth i (v_s d) []).
  Notation C i := (nth i cl cN).
  Notation tt_ i := (t0 + INR i * pb_dt (fp_dp pb)).
  Notation XN i := (pb_stateEq (fp_dp pb) (tt_ i) (X i) (U i)).
  Notation G i := (fp_g pb (tt_ i) (X i) (U i)).
  Definition dobj : R := Rsum Nf (fun i => (vvsum (c_Lx (C i)) (DX i) + vvsum (c_Lu (C i)) (DU i)) * pb_dt (fp_dp pb) - eps * Rsum (length (S i)) (fun j => vget (DS i) j / vget (S i) j))
    + vvsum (c_Lx cN) (DX Nf).
  Definition dconst : R :=
    Rsum (length x0) (fun j => absd (vget x0 j - vget (X 0) j) (- vget (DX 0) j)) +
    Rsum Nf (fun i =>
      Rsum (length (XN i)) (fun j => let r := vget (XN i) j - vget (X (i + 1)) j in absd r (mvsum (c_A (C i)) (DX i) j) + absd r (mvsum (c_B (C i)) (DU i) j) + absd r (- vget (DX (i + 1)) j)) +
      Rsum (length (G i)) (fun j => let r := vget (G i) j + vget (S i) j in absd r (mvsum (c_C (C i)) (DX i) j) + absd r (mvsum (c_D (C i)) (DU i) j) + absd r (vget (DS i) j))).
  (** The true one-sided derivative of the constraint term. *)
  Definition dconst_true : R :=
    Rsum (length x0) (fun j => absd (vget x0 j - vget (X 0) j) (- vget (DX 0) j)) +
    Rsum Nf (fun i =>
      Rsum (length (XN i)) (fun j => absd (vget (XN i) j - vget (X (i + 1)) j) (mvsum (c_A (C i)) (DX i) j + mvsum (c_B (C i)) (DU i) j + - vget (DX (i + 1)) j)) +
      Rsum (length (G i)) (fun j => absd (vget (G i) j + vget (S i) j) (mvsum (c_C (C i)) (DX i) j + mvsum (c_D (C i)) (DU i) j + vget (DS i) j))).
  Lemma dconst_le : dconst_true <= dconst.
  Proof.
    unfold dconst, dconst_true. apply Rplus_le_compat_l. apply Rsum_le. intros i Hi. apply Rplus_le_compat; apply Rsum_le; intros j Hj; cbn zeta;
      (eapply Rle_trans; [apply absd_plus|]; apply Rplus_le_compat_r; apply absd_plus).
  Qed.
  Lemma dconst_eq : no_zero_residual pb t0 x0 Nf v -> dconst_true = dconst.
  Proof.
    intros [_ Hz]. unfold dconst, dconst_true. f_equal. apply Rsum_ext. intros i Hi. destruct (Hz i Hi) as [H1 H2]. cbn zeta in H1, H2.
    f_equal; apply Rsum_ext; intros j Hj; cbn zeta.
    - specialize (H1 j Hj). rewrite !absd_plus_eq by lra. reflexivity.
    - specialize (H2 j Hj). rewrite !absd_plus_eq by lra. reflexivity.
  Qed.

  Lemma deriv_parts_R o c : nth_error cl Nf = Some cN -> deriv_parts pb cf t0 x0 eps v d cl = Some (o, c) ->
    o = dobj /\ c = dconst /\ length (X 0) = length x0 /\ length (DX 0) = length x0 /\
    (forall i, (i < Nf)%nat -> nth_error cl i = Some (C i) /\ step_terms t0 eps v d (C i) i).
  Proof.
    intros HcN H. unfold deriv_parts in H. do 4 opt1 H. opt1 H. opt1 H. opt1 H. apply some_inj in H.
    apply some_inj in HcN. match type of HcN with ?a = _ => subst a end.
    unfold vdimb in B. rewrite andb_true_iff, !Nat.eqb_eq in B. destruct B as [B1 B2].
    apply l1_chk in E3 as [D0 Q0].
    unfold vsub in D0. rewrite vbuild_length in D0. apply dim_mmid in D0.
    set (dq := (0, 0, (0, 0, 0), (0, 0, 0)) : R * R * (R * R * R) * (R * R * R)).
    rewrite (fold_sum _ (fun p => let '(rc, ba, _, _) := p in rc + ba) dq) in H
      by (intros a [[[p1 p2] [[p3 p4] p5]] [[p6 p7] p8]]; opsR; lra).
    rewrite (fold_sum _ (fun p => let '(_, _, (a1, a2, a3), (b1, b2, b3)) := p in (a1 + a2 + a3) + (b1 + b2 + b3)) dq) in H
      by (intros a [[[p1 p2] [[p3 p4] p5]] [[p6 p7] p8]]; opsR; lra).
    rewrite (tabo_length _ _ _ E4) in H.
    assert (HT : forall i, (i < Nf)%nat -> deriv_terms pb t0 eps v d cl i = Some (nth i l dq)).
    { intros i Hi. destruct (tabo_nth _ _ _ _ E4 Hi) as [E5 E6]. destruct (deriv_terms pb t0 eps v d cl i) as [q|]; [|contradiction].
      rewrite (nth_of _ _ _ _ E5). reflexivity. }
    pose proof (f_equal fst H) as Ho. pose proof (f_equal snd H) as Hc. cbn [fst snd] in Ho, Hc. clear H.
    rewrite (nth_of _ _ _ _ E), (nth_of _ _ _ _ E0).
    split; [|split; [|split; [auto|split; [auto|]]]].
    - rewrite <- Ho. unfold dobj. opsR. rewrite Rplus_0_l. f_equal.
      + apply Rsum_ext. intros i Hi. destruct (deriv_terms_R _ _ _ _ _ _ _ (HT i Hi)) as (c1 & Hc1 & _ & Hq). cbn zeta in Hq.
        destruct (nth i l dq) as [[[p1 p2] [[p3 p4] p5]] [[p6 p7] p8]]. destruct Hq as (-> & -> & _). rewrite (nth_of _ _ _ _ Hc1). lra.
      + rewrite dot_R. unfold fdot, vvsum. rewrite (nth_of _ _ _ _ E1), B2. reflexivity.
    - rewrite <- Hc. unfold dconst. opsR. rewrite Rplus_0_l. rewrite (nth_of _ _ _ _ E), (nth_of _ _ _ _ E0). f_equal.
      + rewrite Q0. unfold vsub at 1. rewrite vbuild_length. apply Rsum_ext. intros j Hj. rewrite (vsub_get _ _ _ Hj), (mid_sum _ _ _ _ D0 Hj).
        f_equal. unfold mone. numR. lra.
      + apply Rsum_ext. intros i Hi. destruct (deriv_terms_R _ _ _ _ _ _ _ (HT i Hi)) as (c1 & Hc1 & _ & Hq). cbn zeta in Hq.
        destruct (nth i l dq) as [[[p1 p2] [[p3 p4] p5]] [[p6 p7] p8]]. destruct Hq as (_ & _ & -> & ->). rewrite (nth_of _ _ _ _ Hc1). reflexivity.
    - intros i Hi. destruct (deriv_terms_R _ _ _ _ _ _ _ (HT i Hi)) as (c1 & Hc1 & Hst & _). rewrite (nth_of _ _ _ _ Hc1). auto.
  Qed.

  (** The merit function along the direction. *)
  Hypothesis Hstep : forall i, (i < Nf)%nat -> nth_error cl i = Some (C i) /\ step_terms t0 eps v d (C i) i.
  Hypothesis Hx0 : length (X 0) = length x0 /\ length (DX 0) = length x0.
  Hypothesis HcN : nth_error cl Nf = Some cN.
  Hypothesis Hs : all_pos (v_s v).
  Hypothesis Hsm : smooth_along pb t0 Nf v d cl.
  Variable w : R -> var R.
  Hypothesis Hw : exists h, 0 < h /\ forall a, 0 < a < h -> primal_at Nf a v d (w a).

  Lemma moved_go n a old dd new i : moved n a old dd new -> (i < n)%nat -> nth i new [] = go a (nth i old []) (nth i dd []).
  Proof using.
    intros (_ & H & _) Hi. destruct (H i Hi) as (x & dx & y & E1 & E2 & E3 & L1 & L2 & E).
    rewrite (nth_of _ _ _ _ E1), (nth_of _ _ _ _ E2), (nth_of _ _ _ _ E3). unfold go. apply (nth_ext _ _ 0 0).
    - rewrite vbuild_length. exact L2.
    - intros j Hj. rewrite L2 in Hj. change (vget y j = vget (vbuild (length x) (fun j => vget x j + a * vget dx j)) j). rewrite vbuild_get by exact Hj. apply E; exact Hj.
  Qed.
  Lemma go_get a (x dx : vec R) j : (j < length x)%nat -> vget (go a x dx) j = vget x j + a * vget dx j.
  Proof using. intros Hj. unfold go. rewrite vbuild_get by exact Hj. reflexivity. Qed.
  Lemma go_length a (x dx : vec R) : length (go a x dx) = length x.
  Proof using. apply vbuild_length. Qed.

  Definition cost_path (a : R) : R :=
    Rsum Nf (fun i => pb_runningCost (fp_dp pb) (tt_ i) (go a (X i) (DX i)) (go a (U i) (DU i)) * pb_dt (fp_dp pb) +
      - eps * Rsum (length (S i)) (fun j => ln (vget (S i) j + a * vget (DS i) j)))
    + pb_terminalCost (fp_dp pb) (tt_ Nf) (go a (X Nf) (DX Nf)).
  Definition viol_path (a : R) : R :=
    Rsum (length x0) (fun j => Rabs ((vget x0 j - vget (X 0) j) + a * (- vget (DX 0) j))) +
    Rsum Nf (fun i =>
      Rsum (length (XN i)) (fun j => Rabs ((vget (pb_stateEq (fp_dp pb) (tt_ i) (go a (X i) (DX i)) (go a (U i) (DU i))) j) + (- vget (X (i + 1)) j + a * (- vget (DX (i + 1)) j)))) +
      Rsum (length (G i)) (fun j => Rabs (vget (fp_g pb (tt_ i) (go a (X i) (DX i)) (go a (U i) (DU i))) j + (vget (S i) j + a * vget (DS i) j)))).
  Lemma phi_path sc : exists h, 0 < h /\ forall a, 0 < a < h -> cost_path a + sc * viol_path a = phi pb t0 x0 eps sc Nf (w a).
  Proof using Hstep Hx0 Hsm Hw.
    destruct Hw as (h & Ph & HW). exists h. split; [exact Ph|]. intros a Ha. destruct (HW a Ha) as (M1 & M2 & M3 & _).
    unfold phi, merit_cost, merit_viol, cost_path, viol_path. cbn zeta.
    assert (NX : forall i, (i <= Nf)%nat -> nth i (v_x (w a)) [] = go a (X i) (DX i)) by (intros i Hi; apply (moved_go _ _ _ _ _ _ M1); lia).
    assert (NU : forall i, (i < Nf)%nat -> nth i (v_u (w a)) [] = go a (U i) (DU i)) by (intros i Hi; apply (moved_go _ _ _ _ _ _ M2); lia).
    assert (NS : forall i, (i < Nf)%nat -> nth i (v_s (w a)) [] = go a (S i) (DS i)) by (intros i Hi; apply (moved_go _ _ _ _ _ _ M3); lia).
    destruct Hx0 as [L0 L1]. f_equal; [|f_equal]; f_equal.
    - apply Rsum_ext. intros i Hi. rewrite NX, NU, NS by lia. rewrite go_length.
      rewrite (Rsum_ext _ (fun j => ln (vget (go a (S i) (DS i)) j)) (fun j => ln (vget (S i) j + a * vget (DS i) j))); [lra|].
      intros j Hj. rewrite go_get by exact Hj. reflexivity.
    - rewrite NX by lia. reflexivity.
    - apply Rsum_ext. intros j Hj. rewrite NX by lia. rewrite go_get by lia. f_equal. lra.
    - apply Rsum_ext. intros i Hi. rewrite !NX, NU, NS by lia.
      destruct (Hstep i Hi) as [Hc (K1 & K2 & K3 & K4)]. destruct (sa_step _ _ _ _ _ _ Hsm i _ Hi Hc) as (Q1 & Q2 & _).
      rewrite Q1, Q2. f_equal; apply Rsum_ext; intros j Hj; f_equal.
      + rewrite go_get by lia. lra.
      + rewrite go_get by lia. lra.
  Qed.
  Lemma phi_deriv sc : right_deriv (fun a => phi pb t0 x0 eps sc Nf (w a)) (phi pb t0 x0 eps sc Nf v) (dobj + sc * dconst_true).
  Proof using Hstep Hx0 Hsm Hw Hs HcN.
    apply (rd_ext (fun a => cost_path a + sc * viol_path a)); [apply phi_path|].
    unfold phi. apply rd_plus; [|apply rd_scale].
    - unfold merit_cost, cost_path, dobj. cbn zeta.
      apply (rd_plus (fun a => Rsum Nf (fun i => pb_runningCost (fp_dp pb) (tt_ i) (go a (X i) (DX i)) (go a (U i) (DU i)) * pb_dt (fp_dp pb) +
        - eps * Rsum (length (S i)) (fun j => ln (vget (S i) j + a * vget (DS i) j))))).
      + apply rd_sum. intros i Hi. destruct (Hstep i Hi) as [Hc (K1 & K2 & K3 & K4)].
        destruct (sa_step _ _ _ _ _ _ Hsm i _ Hi Hc) as (_ & _ & _ & _ & Q). cbn zeta in Q.
        apply rd_eq with (y := pb_runningCost (fp_dp pb) (tt_ i) (X i) (U i) * pb_dt (fp_dp pb) + - eps * Rsum (length (S i)) (fun j => ln (vget (S i) j)))
          (l := (vvsum (c_Lx (C i)) (DX i) + vvsum (c_Lu (C i)) (DU i)) * pb_dt (fp_dp pb) + - eps * Rsum (length (S i)) (fun j => vget (DS i) j / vget (S i) j)); [|lra|lra].
        apply rd_plus.
        * apply (rd_ext (fun a => pb_dt (fp_dp pb) * pb_runningCost (fp_dp pb) (tt_ i) (go a (X i) (DX i)) (go a (U i) (DU i)))); [exists 1; split; [lra|]; intros; lra|].
          eapply rd_eq; [apply rd_scale; exact Q|lra|]. unfold vvsum. lra.
        * apply rd_scale. apply rd_sum. intros j Hj. apply rd_ln. destruct (nth_in_or_default i (v_s v) []) as [Hin|Hin].
          { apply (Hs _ _ Hin). apply nth_In. exact Hj. }
          { rewrite Hin in Hj. cbn in Hj. lia. }
      + pose proof (sa_end _ _ _ _ _ _ Hsm _ HcN) as Q. exact Q.
    - unfold merit_viol, viol_path, dconst_true. cbn zeta.
      apply (rd_plus (fun a => Rsum (length x0) (fun j => Rabs ((vget x0 j - vget (X 0) j) + a * (- vget (DX 0) j))))).
      + apply rd_sum. intros j Hj. apply rd_abs. apply rd_lin.
      + apply rd_sum. intros i Hi. destruct (Hstep i Hi) as [Hc (K1 & K2 & K3 & K4)].
        destruct (sa_step _ _ _ _ _ _ Hsm i _ Hi Hc) as (_ & _ & QF & QG & _). cbn zeta in QF, QG.
        apply (rd_plus (fun a => Rsum (length (XN i)) (fun j => Rabs ((vget (pb_stateEq (fp_dp pb) (tt_ i) (go a (X i) (DX i)) (go a (U i) (DU i))) j) + (- vget (X (i + 1)) j + a * (- vget (DX (i + 1)) j)))))).
        * apply rd_sum. intros j Hj. specialize (QF j Hj).
          refine (rd_abs (fun a => vget (pb_stateEq (fp_dp pb) (tt_ i) (go a (X i) (DX i)) (go a (U i) (DU i))) j + (- vget (X (i + 1)) j + a * (- vget (DX (i + 1)) j))) _ _ _).
          refine (rd_plus _ (fun a => - vget (X (i + 1)) j + a * (- vget (DX (i + 1)) j)) _ _ _ _ QF (rd_lin _ _)).
        * apply rd_sum. intros j Hj. specialize (QG j Hj).
          refine (rd_abs (fun a => vget (fp_g pb (tt_ i) (go a (X i) (DX i)) (go a (U i) (DU i))) j + (vget (S i) j + a * vget (DS i) j)) _ _ _).
          refine (rd_plus _ (fun a => vget (S i) j + a * vget (DS i) j) _ _ _ _ QG (rd_lin _ _)).
  Qed.
  End Parts.

  Lemma nmax_ge (a b : R) : b <= nmax a b.
  Proof. rewrite nmax_R. apply Rmax_r. Qed.
  Lemma lagr_ge n : forall (ls ns : list (vec R)) acc q, lagr_scale ls ns n acc = Some q -> acc <= q.
  Proof.
    induction n as [|n IH]; intros [|l ls] ns acc q H; cbn [lagr_scale] in H; try discriminate; opt1 H.
    - apply some_inj in H; subst q. rewrite nmax_R. apply Rmax_l.
    - destruct ns as [|w1 ns]; [discriminate|]. opt1 H. apply IH in H. rewrite !nmax_R in H.
      eapply Rle_trans; [|exact H]. eapply Rle_trans; [apply Rmax_l|apply Rmax_l].
  Qed.
  Lemma merit_scale_pos v o c q : merit_scale cf v o c = Some q -> 1 / 1000 <= q.
  Proof.
    unfold merit_scale. destruct (fc_lagr cf); intros H.
    - apply lagr_ge in H. exact H.
    - apply some_inj in H; subst q. apply nmax_ge.
  Qed.
End Deriv.
