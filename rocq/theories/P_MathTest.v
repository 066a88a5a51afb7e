(** Property C83: what the checks of TestMathUtils.cpp establish (exact arithmetic). *)
From Coq Require Import Reals Lra Lia Psatz List.
From Verif Require Import Prelude Scalar LinAlg RLin Fmpc FmpcReal FmpcMerit MathTest.
Import ListNotations.
Local Open Scope R_scope.

(** ** Specification *)
(** How far a component that changes its sign between the two points has gone beyond zero. *)
Definition overshoot (y y' : R) : R := if Rlt_dec (y * y') 0 then Rabs y' else 0.
(** Rows of J d. *)
Definition Jd (J : mat R) (d : vec R) (i : nat) : R := Rsum (length d) (fun k => mget J i k * vget d k).

(** ** One component *)
Lemma comp_exact y p e : 0 < e -> Rabs (y + e * p) - Rabs y = e * absd y p + 2 * overshoot y (y + e * p).
Proof.
  intros He. unfold overshoot, absd. set (y' := y + e * p). assert (E : e * p = y' - y) by (unfold y'; lra). clearbody y'.
  assert (Ea : e * Rabs p = Rabs (y' - y)) by (rewrite <- E, Rabs_mult, (Rabs_right e); lra).
  destruct (Rlt_dec 0 y) as [P|P]; [|destruct (Rlt_dec y 0) as [Q|Q]]; destruct (Rlt_dec (y * y') 0) as [D|D].
  - assert (y' < 0) by nra. rewrite (Rabs_left y'), (Rabs_right y); lra.
  - assert (0 <= y') by nra. rewrite !Rabs_right; lra.
  - assert (0 < y') by nra. rewrite (Rabs_right y'), (Rabs_left y); lra.
  - assert (y' <= 0) by nra. rewrite (Rabs_left1 y'), (Rabs_left y); lra.
  - assert (y = 0) by lra. subst y. lra.
  - assert (y = 0) by lra. subst y. rewrite Rminus_0_r in Ea. rewrite Rabs_R0. lra.
Qed.
Lemma comp_near y y' p e K : 0 < e -> 0 <= y * y' -> Rabs (y' - y - e * p) <= K ->
  Rabs (Rabs y' - Rabs y - e * absd y p) <= K.
Proof.
  intros He S HK. unfold absd. destruct (Rlt_dec 0 y) as [P|P]; [|destruct (Rlt_dec y 0) as [Q|Q]].
  - assert (0 <= y') by nra. rewrite (Rabs_right y'), (Rabs_right y) by lra. exact HK.
  - assert (y' <= 0) by nra. rewrite (Rabs_left1 y'), (Rabs_left y) by lra. rewrite <- Rabs_Ropp.
    replace (- (- y' - - y - e * - p)) with (y' - y - e * p) by lra. exact HK.
  - assert (y = 0) by lra. subst y. rewrite Rabs_R0. rewrite !Rminus_0_r in *.
    replace (e * Rabs p) with (Rabs (e * p)) by (rewrite Rabs_mult, (Rabs_right e); lra).
    eapply Rle_trans; [apply Rabs_triang_inv2|exact HK].
Qed.
(** In general a component is off by no more than twice its change. *)
Lemma comp_any y y' p e : 0 < e -> Rabs (Rabs y' - Rabs y - e * absd y p) <= Rabs (y' - y) + e * Rabs p.
Proof.
  intros He. assert (A : Rabs (absd y p) <= Rabs p).
  { unfold absd. destruct (Rlt_dec 0 y); [lra|]. destruct (Rlt_dec y 0); [rewrite Rabs_Ropp; lra|rewrite Rabs_Rabsolu; lra]. }
  pose proof (Rabs_triang_inv2 y' y) as B.
  replace (Rabs y' - Rabs y - e * absd y p) with ((Rabs y' - Rabs y) + - (e * absd y p)) by lra.
  eapply Rle_trans; [apply Rabs_triang|]. rewrite Rabs_Ropp, Rabs_mult, (Rabs_right e) by lra. nra.
Qed.

(** ** The quotient *)
Lemma quotient_R e (f f' : vec R) : length f' = length f ->
  l1_quotient e f f' = Rsum (length f) (fun i => Rabs (vget f' i) - Rabs (vget f i)) / e.
Proof.
  intros L. unfold l1_quotient. change (nsum (map nabs f')) with (vl1 f'). change (nsum (map nabs f)) with (vl1 f).
  rewrite !vl1_R, L, Rsum_minus. reflexivity.
Qed.

Lemma l1_Jd (f : vec R) (J : mat R) (d : vec R) : mdimb (length f) (length d) J = true ->
  l1_deriv f J d = Rsum (length f) (fun i => absd (vget f i) (Jd J d i)).
Proof. exact (l1_deriv_R f J d). Qed.

(** C83. Along a line the difference quotient exceeds l1NormDirectionalDeriv by exactly 2 / eps times the sum of the
    overshoots, for every function value, Jacobian, direction and step of every dimension. *)
Theorem C83_linear (e : R) (f : vec R) (J : mat R) (d f' : vec R) :
  0 < e -> mdimb (length f) (length d) J = true -> length f' = length f ->
  (forall i, (i < length f)%nat -> vget f' i = vget f i + e * Jd J d i) ->
  l1_quotient e f f' = l1_deriv f J d + 2 / e * Rsum (length f) (fun i => overshoot (vget f i) (vget f' i)).
Proof.
  intros He HJ L HF. rewrite (quotient_R _ _ _ L), (l1_deriv_R _ _ _ HJ).
  rewrite (Rsum_ext _ _ (fun i => e * absd (vget f i) (Jd J d i) + 2 * overshoot (vget f i) (vget f' i))).
  - rewrite Rsum_plus, !Rsum_scal. unfold Jd. field. lra.
  - intros i Hi. rewrite (HF i Hi). apply comp_exact. exact He.
Qed.
(** C83. For a function that differs from its linearisation by at most K_i eps^2, and whose components do not change sign
    between the two points, quotient and function agree up to eps times the sum of the K_i. *)
Theorem C83_smooth (e : R) (f : vec R) (J : mat R) (d f' : vec R) (K : nat -> R) :
  0 < e -> mdimb (length f) (length d) J = true -> length f' = length f ->
  (forall i, (i < length f)%nat -> Rabs (vget f' i - vget f i - e * Jd J d i) <= K i * (e * e)) ->
  (forall i, (i < length f)%nat -> 0 <= vget f i * vget f' i) ->
  Rabs (l1_deriv f J d - l1_quotient e f f') <= e * Rsum (length f) K.
Proof.
  intros He HJ L HF HS. rewrite (quotient_R _ _ _ L), (l1_deriv_R _ _ _ HJ).
  replace (_ - _) with (- (Rsum (length f) (fun i => Rabs (vget f' i) - Rabs (vget f i) - e * absd (vget f i) (Jd J d i)) / e)).
  2: { rewrite (Rsum_minus _ (fun i => Rabs (vget f' i) - Rabs (vget f i))), Rsum_scal. unfold Jd. field. lra. }
  rewrite Rabs_Ropp. unfold Rdiv. rewrite Rabs_mult, (Rabs_right (/ e)) by (left; apply Rinv_0_lt_compat; exact He).
  assert (B : Rabs (Rsum (length f) (fun i => Rabs (vget f' i) - Rabs (vget f i) - e * absd (vget f i) (Jd J d i))) <= Rsum (length f) K * (e * e)).
  { eapply Rle_trans; [apply Rsum_abs|]. rewrite <- Rsum_scal_r. apply Rsum_le. intros i Hi. apply comp_near; auto. }
  apply Rmult_le_reg_r with e; [exact He|]. rewrite Rmult_assoc, Rinv_l by lra. nra.
Qed.

(** ** The first loop *)
Lemma over_nonneg y y' : 0 <= overshoot y y'.
Proof. unfold overshoot. destruct (Rlt_dec _ 0); [apply Rabs_pos|lra]. Qed.
Lemma eps_R : (deriv_eps : R) = / 1000000. Proof. unfold deriv_eps. numR. lra. Qed.
Lemma mid_mdimb n : mdimb n n (mid (T := R) n) = true.
Proof. apply mbuild_dim. Qed.
Lemma mid_Jd n (d : vec R) i : length d = n -> (i < n)%nat -> Jd (mid n) d i = vget d i.
Proof.
  intros Ld Hi. unfold Jd. rewrite Ld, (Rsum_single _ _ i Hi).
  - unfold mid. rewrite mbuild_get by (assumption || (split; assumption)). rewrite Nat.eqb_refl. numR. lra.
  - intros k Hk Hne. unfold mid. rewrite mbuild_get by (assumption || (split; assumption)).
    destruct (Nat.eqb_spec i k); [congruence|]. numR. lra.
Qed.
Lemma line_get (x d : vec R) c i : length d = length x -> (i < length x)%nat -> vget (vadd x (vscale c d)) i = vget x i + c * vget d i.
Proof.
  intros L Hi. unfold vadd, vscale. rewrite vbuild_get by exact Hi. rewrite vbuild_get by lia. numR. reflexivity.
Qed.
(** C83. The check of the first loop holds exactly if the components that change sign pass zero by less than 5e-12 in all:
    it is not a matter of the function tested, and a sample may fail it. *)
Theorem C83_identity (func dir : vec R) : length dir = length func ->
  identity_check func dir = true <->
  Rsum (length func) (fun i => overshoot (vget func i) (vget func i + / 1000000 * vget dir i)) < 5 / 1000000000000.
Proof.
  intros L. unfold identity_check, l1_expect.
  set (f' := vadd func (vscale deriv_eps dir)).
  assert (L' : length f' = length func) by (unfold f', vadd; apply vbuild_length).
  assert (G : forall i, (i < length func)%nat -> vget f' i = vget func i + / 1000000 * vget dir i).
  { intros i Hi. unfold f'. rewrite line_get, eps_R by assumption. reflexivity. }
  assert (Q : l1_quotient deriv_eps func f' = l1_deriv func (mid (length func)) dir
    + 2 / (/ 1000000) * Rsum (length func) (fun i => overshoot (vget func i) (vget f' i))).
  { rewrite eps_R. apply C83_linear; [lra|rewrite L; apply mid_mdimb|exact L'|].
    intros i Hi. rewrite mid_Jd by (exact L || exact Hi). apply G. exact Hi. }
  rewrite Q. rewrite (Rsum_ext _ (fun i => overshoot (vget func i) (vget f' i)) (fun i => overshoot (vget func i) (vget func i + / 1000000 * vget dir i))).
  2: { intros i Hi. rewrite (G i Hi). reflexivity. }
  set (s := Rsum _ _). assert (P : 0 <= s) by (apply Rsum_nonneg; intros; apply over_nonneg).
  numR. rewrite Rltb_true. rewrite Rabs_left1 by (unfold Rdiv; rewrite Rinv_inv; lra). unfold Rdiv at 1. rewrite Rinv_inv. lra.
Qed.
(** The first pass of the loop, with func = 0, always succeeds. *)
Theorem C83_identity_first (n : nat) (dir : vec R) : length dir = n -> identity_check (vbuild n (fun _ => 0)) dir = true.
Proof.
  intros L. apply C83_identity; [rewrite vbuild_length; exact L|]. rewrite Rsum_zero; [lra|]. intros i Hi. rewrite vbuild_length in Hi.
  rewrite vbuild_get by exact Hi. unfold overshoot. destruct (Rlt_dec _ 0); lra.
Qed.
(** C83, refuted part: "every sample that the first loop may draw passes its check" is false. *)
Theorem C83_identity_refuted :
  exists func dir : vec R, length func = 4%nat /\ length dir = 4%nat /\
    (forall i, (i < 4)%nat -> Rabs (vget func i) <= 100 /\ Rabs (vget dir i) <= 1) /\ identity_check func dir = false.
Proof.
  exists [/ 10000000; 1; 1; 1], [-1; 0; 0; 0]. split; [reflexivity|]. split; [reflexivity|]. split.
  - intros i Hi. destruct i as [|[|[|[|i]]]]; [| | | |lia]; cbn; split; apply Rabs_le; lra.
  - destruct (identity_check _ _) eqn:E; [|reflexivity]. exfalso. apply C83_identity in E; [|reflexivity].
    cbn [length] in E. rewrite !Rsum_S in E. cbn [Rsum] in E. unfold vget in E. cbn [nth] in E. numR.
    unfold overshoot in E. repeat (destruct (Rlt_dec _ 0) in E; [|try lra]); try lra.
    rewrite Rabs_left in E; lra.
Qed.

(** ** The second loop *)
Lemma mvt_bound (F F' : R -> R) (a h M : R) :
  (forall z, derivable_pt_lim F z (F' z)) -> (forall z, Rabs (z - a) <= Rabs h -> Rabs (F' z) <= M) -> Rabs (F (a + h) - F a) <= M * Rabs h.
Proof.
  intros D B. destruct (Rtotal_order h 0) as [P|[P|P]].
  - destruct (MVT_cor2 F F' (a + h) a ltac:(lra) (fun z _ => D z)) as (z & E & Hz).
    rewrite Rabs_minus_sym, E, Rabs_mult. replace (a - (a + h)) with (- h) by lra. rewrite Rabs_Ropp.
    apply Rmult_le_compat_r; [apply Rabs_pos|]. apply B. rewrite (Rabs_left1 h), Rabs_left1 by lra. lra.
  - subst h. rewrite Rplus_0_r, Rabs_R0. replace (F a - F a) with 0 by lra. rewrite Rabs_R0. lra.
  - destruct (MVT_cor2 F F' a (a + h) ltac:(lra) (fun z _ => D z)) as (z & E & Hz).
    rewrite E, Rabs_mult. replace (a + h - a) with h by lra.
    apply Rmult_le_compat_r; [apply Rabs_pos|]. apply B. rewrite !Rabs_right by lra. lra.
Qed.
Lemma sin_le a : Rabs (sin a) <= 1. Proof. apply Rabs_le. apply SIN_bound. Qed.
Lemma cos_le a : Rabs (cos a) <= 1. Proof. apply Rabs_le. apply COS_bound. Qed.
Lemma sin_lip a h : Rabs (sin (a + h) - sin a) <= Rabs h.
Proof. rewrite <- (Rmult_1_l (Rabs h)). apply (mvt_bound sin cos); [intros; apply derivable_pt_lim_sin|intros; apply cos_le]. Qed.
Lemma cos_lip a h : Rabs (cos (a + h) - cos a) <= Rabs h.
Proof.
  rewrite <- (Rmult_1_l (Rabs h)). apply (mvt_bound cos (fun z => - sin z)); [intros; apply derivable_pt_lim_cos|].
  intros. rewrite Rabs_Ropp. apply sin_le.
Qed.
Lemma lin_deriv c z : derivable_pt_lim (fun t => t * c) z c.
Proof.
  intros e He. exists (mkposreal 1 Rlt_0_1). intros h Hh _. replace (((z + h) * c - z * c) / h - c) with 0 by (field; exact Hh).
  rewrite Rabs_R0. exact He.
Qed.
Lemma sin_lin a h : Rabs (sin (a + h) - sin a - h * cos a) <= h * h.
Proof.
  replace (h * h) with (Rabs h * Rabs h) by (rewrite <- Rabs_mult, Rabs_right; nra).
  replace (sin (a + h) - sin a - h * cos a) with ((sin (a + h) - (a + h) * cos a) - (sin a - a * cos a)) by lra.
  apply (mvt_bound (fun z => sin z - z * cos a) (fun z => cos z - cos a)).
  - intros z. apply derivable_pt_lim_minus; [apply derivable_pt_lim_sin|apply lin_deriv].
  - intros z Hz. replace z with (a + (z - a)) at 1 by lra. eapply Rle_trans; [apply cos_lip|exact Hz].
Qed.
Lemma cos_lin a h : Rabs (cos (a + h) - cos a - h * (- sin a)) <= h * h.
Proof.
  replace (h * h) with (Rabs h * Rabs h) by (rewrite <- Rabs_mult, Rabs_right; nra).
  replace (cos (a + h) - cos a - h * - sin a) with ((cos (a + h) - (a + h) * (- sin a)) - (cos a - a * (- sin a))) by lra.
  apply (mvt_bound (fun z => cos z - z * (- sin a)) (fun z => - sin z - - sin a)).
  - intros z. apply derivable_pt_lim_minus; [apply derivable_pt_lim_cos|apply lin_deriv].
  - intros z Hz. replace (- sin z - - sin a) with (- (sin z - sin a)) by lra. rewrite Rabs_Ropp.
    replace z with (a + (z - a)) at 1 by lra. eapply Rle_trans; [apply sin_lip|exact Hz].
Qed.

Notation fR := (sample_func (T := R) sin cos).
Notation jR := (sample_jac (T := R) sin cos).
(** Specification of the sample: its three components, and that sample_jac holds their partial derivatives. *)
Definition s0 (a b c d : R) := a * a + b * b + c * c + d * d - 10.
Definition s1 (a b c d : R) := b * b * b - 5 * (c * c) + 10 * d - 20.
Definition s2 (a b c d : R) := sin a + cos b.
Lemma fR_eq a b c d : fR [a; b; c; d] = [s0 a b c d; s1 a b c d; s2 a b c d].
Proof.
  unfold sample_func, s0, s1, s2, sqnorm. rewrite dot_R. cbn [length]. unfold fdot. rewrite !Rsum_S. cbn [Rsum]. unfold vget. cbn [nth]. numR.
  f_equal; [lra|]. f_equal; lra.
Qed.
Lemma jR_eq a b c d p q r s : forall i, (i < 3)%nat -> Jd (jR [a; b; c; d]) [p; q; r; s] i =
  nth i [2 * a * p + 2 * b * q + 2 * c * r + 2 * d * s; 3 * (b * b) * q - 10 * c * r + 10 * s; cos a * p - sin b * q] 0.
Proof.
  intros i Hi. destruct i as [|[|[|i]]]; [| | |lia]; unfold Jd; cbn [length]; rewrite !Rsum_S; cbn [Rsum]; unfold mget, sample_jac, vget;
    cbn [mdat nth]; numR; lra.
Qed.
Lemma sq_le M t : Rabs t <= M -> 0 <= t * t <= M * M.
Proof. intros H. pose proof (Rabs_pos t). rewrite <- (Rabs_right (t * t)) by nra. rewrite Rabs_mult. nra. Qed.
(** The linearisation error of the sample on the samples that may be drawn, for every step up to 1. *)
Lemma sample_lin e a b c d p q r s : 0 < e <= 1 ->
  Rabs a <= 100 -> Rabs b <= 100 -> Rabs c <= 100 -> Rabs d <= 100 -> Rabs p <= 1 -> Rabs q <= 1 -> Rabs r <= 1 -> Rabs s <= 1 ->
  forall i, (i < 3)%nat ->
  Rabs (vget (fR [a + e * p; b + e * q; c + e * r; d + e * s]) i - vget (fR [a; b; c; d]) i - e * Jd (jR [a; b; c; d]) [p; q; r; s] i)
  <= nth i [4; 306; 2] 0 * (e * e).
Proof.
  intros He Ha Hb Hc Hd Hp Hq Hr Hs i Hi. rewrite (jR_eq _ _ _ _ _ _ _ _ i Hi), !fR_eq. unfold vget.
  pose proof (sq_le _ _ Hp). pose proof (sq_le _ _ Hq). pose proof (sq_le _ _ Hr). pose proof (sq_le _ _ Hs).
  destruct i as [|[|[|i]]]; [| | |lia]; cbn [nth].
  - unfold s0. match goal with |- Rabs ?X <= _ => replace X with ((p * p + q * q + r * r + s * s) * (e * e)) by ring end.
    rewrite Rabs_right by nra. apply Rmult_le_compat_r; nra.
  - unfold s1. match goal with |- Rabs ?X <= _ => replace X with ((3 * b * (q * q) + e * q * (q * q) - 5 * (r * r)) * (e * e)) by ring end.
    rewrite Rabs_mult, (Rabs_right (e * e)) by nra. apply Rmult_le_compat_r; [nra|].
    apply Rabs_le.
    assert (B1 : Rabs (b * (q * q)) <= 100).
    { rewrite Rabs_mult, (Rabs_right (q * q)) by lra. pose proof (Rabs_pos b). nra. }
    assert (B2 : Rabs (e * q * (q * q)) <= 1).
    { rewrite !Rabs_mult, (Rabs_right e), <- Rabs_mult, (Rabs_right (q * q)) by lra. pose proof (Rabs_pos q).
      assert (e * Rabs q <= 1) by nra. assert (0 <= e * Rabs q) by nra. nra. }
    pose proof (Rle_abs (b * (q * q))). pose proof (Rle_abs (- (b * (q * q)))). rewrite Rabs_Ropp in *.
    pose proof (Rle_abs (e * q * (q * q))). pose proof (Rle_abs (- (e * q * (q * q)))). rewrite Rabs_Ropp in *. lra.
  - unfold s2. match goal with |- Rabs ?X <= _ => replace X with ((sin (a + e * p) - sin a - (e * p) * cos a) + (cos (b + e * q) - cos b - (e * q) * - sin b)) by ring end.
    eapply Rle_trans; [apply Rabs_triang|]. pose proof (sin_lin a (e * p)). pose proof (cos_lin b (e * q)). nra.
Qed.

Lemma point_eq e a b c d p q r s : vadd [a; b; c; d] (vscale e [p; q; r; s]) = [a + e * p; b + e * q; c + e * r; d + e * s].
Proof. reflexivity. Qed.
(** The samples that both loops may draw: components within [-100, 100] and [-1, 1]. *)
Definition drawn (x dir : vec R) : Prop :=
  length x = 4%nat /\ length dir = 4%nat /\ forall i, (i < 4)%nat -> Rabs (vget x i) <= 100 /\ Rabs (vget dir i) <= 1.
(** C83. Every sample of the second loop for which no component of sample_func changes its sign between the two points passes
    the check, with a third of the tolerance. *)
Theorem C83_nonlinear (x dir : vec R) : drawn x dir ->
  (forall i, (i < 3)%nat -> 0 <= vget (fR x) i * vget (fR (vadd x (vscale deriv_eps dir))) i) ->
  nonlinear_check sin cos x dir = true /\
  Rabs (l1_deriv (fR x) (jR x) dir - l1_quotient deriv_eps (fR x) (fR (vadd x (vscale deriv_eps dir)))) <= 312 / 1000000.
Proof.
  intros (Lx & Ld & B) S. destruct x as [|a [|b [|c [|d [|]]]]]; try discriminate Lx. destruct dir as [|p [|q [|r [|s [|]]]]]; try discriminate Ld.
  pose proof (B 0%nat ltac:(lia)) as B0. pose proof (B 1%nat ltac:(lia)) as B1. pose proof (B 2%nat ltac:(lia)) as B2. pose proof (B 3%nat ltac:(lia)) as B3.
  clear B. unfold vget in B0, B1, B2, B3. cbn [nth] in *. rewrite point_eq in *.
  assert (E : Rabs (l1_deriv (fR [a; b; c; d]) (jR [a; b; c; d]) [p; q; r; s]
    - l1_quotient deriv_eps (fR [a; b; c; d]) (fR [a + deriv_eps * p; b + deriv_eps * q; c + deriv_eps * r; d + deriv_eps * s])) <= 312 / 1000000).
  { eapply Rle_trans; [apply (C83_smooth deriv_eps _ _ _ _ (fun i => nth i [4; 306; 2] 0))|].
    - rewrite eps_R. lra.
    - reflexivity.
    - reflexivity.
    - intros i Hi. apply sample_lin; try tauto. rewrite eps_R. lra.
    - exact S.
    - rewrite eps_R. change (length (fR [a; b; c; d])) with 3%nat. rewrite !Rsum_S. cbn [Rsum nth]. lra. }
  split; [|exact E]. unfold nonlinear_check, l1_expect. rewrite point_eq. numR. apply Rltb_true. lra.
Qed.
(** The first pass of the second loop, with x = 0, always succeeds. *)
Theorem C83_nonlinear_first (dir : vec R) : length dir = 4%nat -> (forall i, (i < 4)%nat -> Rabs (vget dir i) <= 1) ->
  nonlinear_check sin cos [0; 0; 0; 0] dir = true.
Proof.
  intros Ld B. apply C83_nonlinear.
  - split; [reflexivity|]. split; [exact Ld|]. intros i Hi. split; [|apply B; exact Hi].
    destruct i as [|[|[|[|i]]]]; [| | | |lia]; unfold vget; cbn [nth]; rewrite Rabs_R0; lra.
  - destruct dir as [|p [|q [|r [|s [|]]]]]; try discriminate Ld. intros i Hi.
    pose proof (B 0%nat ltac:(lia)) as B0. pose proof (B 1%nat ltac:(lia)) as B1. pose proof (B 2%nat ltac:(lia)) as B2. pose proof (B 3%nat ltac:(lia)) as B3.
    unfold vget in B0, B1, B2, B3. cbn [nth] in *.
    pose proof (sq_le _ _ B0). pose proof (sq_le _ _ B1). pose proof (sq_le _ _ B2). pose proof (sq_le _ _ B3).
    rewrite point_eq, !fR_eq, eps_R. unfold vget. destruct i as [|[|[|i]]]; [| | |lia]; cbn [nth].
    + unfold s0. nra.
    + unfold s1. assert (Hs : s <= 1) by (eapply Rle_trans; [apply Rle_abs|exact B3]).
      assert (Hq : q * (q * q) <= 1).
      { eapply Rle_trans; [apply Rle_abs|]. rewrite Rabs_mult, (Rabs_right (q * q)) by lra. pose proof (Rabs_pos q). nra. }
      set (e := / 1000000). assert (He : 0 < e * e * e <= 1) by (unfold e; lra).
      replace (0 * 0 * 0 - 5 * (0 * 0) + 10 * 0 - 20) with (-20) by lra.
      match goal with |- 0 <= _ * ?X => assert (Z : X <= 0) end; [|lra].
      replace ((0 + e * q) * (0 + e * q) * (0 + e * q)) with (e * e * e * (q * (q * q))) by ring.
      assert (0 <= (0 + e * r) * (0 + e * r)) by nra. assert (e * e * e * (q * (q * q)) <= 1) by nra. unfold e at 2. unfold e in *. lra.
    + unfold s2. rewrite sin_0, cos_0.
      pose proof (sin_lip 0 (/ 1000000 * p)) as S1. pose proof (cos_lip 0 (/ 1000000 * q)) as S2. rewrite sin_0 in S1. rewrite cos_0 in S2.
      rewrite Rabs_mult, (Rabs_right (/ 1000000)) in S1, S2 by lra.
      pose proof (Rle_abs (- (sin (0 + / 1000000 * p) - 0))) as T1. rewrite Rabs_Ropp in T1.
      pose proof (Rle_abs (- (cos (0 + / 1000000 * q) - 1))) as T2. rewrite Rabs_Ropp in T2. nra.
Qed.
(** C83, refuted part: a sample that the second loop may draw and that fails its check. *)
Theorem C83_nonlinear_refuted : exists x dir : vec R, drawn x dir /\ nonlinear_check sin cos x dir = false.
Proof.
  exists [3 + / 10000000; 1; 0; 0], [-1; 0; 0; 0]. split.
  - split; [reflexivity|]. split; [reflexivity|]. intros i Hi.
    destruct i as [|[|[|[|i]]]]; [| | | |lia]; unfold vget; cbn [nth]; split; apply Rabs_le; lra.
  - unfold nonlinear_check, l1_expect. rewrite point_eq. numR. apply Rltb_false.
    rewrite l1_Jd by reflexivity. rewrite quotient_R by reflexivity. rewrite eps_R, !fR_eq. cbn [length]. rewrite !Rsum_S. cbn [Rsum].
    rewrite !jR_eq by lia. unfold vget. cbn [nth]. set (a := 3 + / 10000000).
    replace (a + / 1000000 * -1) with (3 - 9 / 10000000) by (unfold a; lra). set (a' := 3 - 9 / 10000000).
    replace (1 + / 1000000 * 0) with 1 by lra. replace (0 + / 1000000 * 0) with 0 by lra.
    assert (C0 : Rabs (s0 a' 1 0 0) - Rabs (s0 a 1 0 0) >= 4 / 1000000).
    { unfold s0. rewrite Rabs_left by (unfold a'; lra). rewrite Rabs_right by (unfold a; lra). unfold a, a'. lra. }
    assert (D0 : absd (s0 a 1 0 0) (2 * a * -1 + 2 * 1 * 0 + 2 * 0 * 0 + 2 * 0 * 0) <= -6).
    { unfold absd. destruct (Rlt_dec 0 (s0 a 1 0 0)) as [P|P]; [unfold a; lra|]. exfalso. apply P. unfold s0, a. lra. }
    assert (D1 : absd (s1 a 1 0 0) (3 * (1 * 1) * 0 - 10 * 0 * 0 + 10 * 0) = 0).
    { replace (_ - _ + _) with 0 by lra. unfold absd. rewrite Rabs_R0. destruct (Rlt_dec _ _); [lra|]. destruct (Rlt_dec _ _); lra. }
    assert (E1 : s1 a' 1 0 0 = s1 a 1 0 0) by reflexivity.
    assert (C2 : Rabs (Rabs (s2 a' 1 0 0) - Rabs (s2 a 1 0 0) - / 1000000 * absd (s2 a 1 0 0) (cos a * -1 - sin 1 * 0)) <= / 500000).
    { eapply Rle_trans; [apply comp_any; lra|]. unfold s2. replace (sin a' + cos 1 - (sin a + cos 1)) with (sin a' - sin a) by lra.
      replace a' with (a + (- (1 / 1000000))) by (unfold a, a'; lra). pose proof (sin_lip a (- (1 / 1000000))) as L1. rewrite Rabs_Ropp, (Rabs_right (1 / _)) in L1 by lra.
      pose proof (cos_le a) as L2. replace (cos a * -1 - sin 1 * 0) with (- cos a) by lra. rewrite Rabs_Ropp. lra. }
    rewrite D1, E1. set (A2 := absd (s2 a 1 0 0) _) in *. set (A0 := absd (s0 a 1 0 0) _) in *.
    set (Q2 := Rabs (s2 a' 1 0 0) - Rabs (s2 a 1 0 0)) in *. set (Q0 := Rabs (s0 a' 1 0 0) - Rabs (s0 a 1 0 0)) in *. clearbody A2 A0 Q2 Q0.
    rewrite Rabs_left1; [|]; unfold Rdiv in *; rewrite ?Rinv_inv;
      (pose proof (Rle_abs (Q2 - / 1000000 * A2)); pose proof (Rle_abs (- (Q2 - / 1000000 * A2))); rewrite Rabs_Ropp in *; lra).
Qed.

(** The hypotheses of C83_nonlinear are met by, for instance, x = (1, 1, 3, 4) and a direction with no zero component. *)
Example C83_nonlinear_nonvacuous : drawn [1; 1; 3; 4] [1; -1; / 2; / 4] /\
  forall i, (i < 3)%nat -> 0 <= vget (fR [1; 1; 3; 4]) i * vget (fR (vadd [1; 1; 3; 4] (vscale deriv_eps [1; -1; / 2; / 4]))) i.
Proof.
  split.
  - split; [reflexivity|]. split; [reflexivity|]. intros i Hi.
    destruct i as [|[|[|[|i]]]]; [| | | |lia]; unfold vget; cbn [nth]; split; apply Rabs_le; lra.
  - intros i Hi. rewrite point_eq, !fR_eq, eps_R. unfold vget. destruct i as [|[|[|i]]]; [| | |lia]; cbn [nth].
    + unfold s0. lra.
    + unfold s1. lra.
    + unfold s2. pose proof PI2_3_2. apply Rmult_le_pos; apply Rplus_le_le_0_compat; ((apply sin_ge_0; lra) || (apply cos_ge_0; lra)).
Qed.
(** A direction along which two of three components change their sign: the quotient is 2, the function returns -6. *)
Example C83_linear_nonvacuous : let J := mkmat 3 1 [[-4]; [4]; [2]] in
  mdimb 3 1 J = true /\ (forall i, (i < 3)%nat -> vget [-1; 1; 2] i = vget [1; -1; 1] i + / 2 * Jd J [1] i) /\
  l1_quotient (/ 2) [1; -1; 1] [-1; 1; 2] = 2 /\ l1_deriv [1; -1; 1] J [1] = -6.
Proof.
  intros J. assert (H : forall i, (i < 3)%nat -> vget [-1; 1; 2] i = vget [1; -1; 1] i + / 2 * Jd J [1] i).
  { intros i Hi. destruct i as [|[|[|i]]]; [| | |lia]; unfold Jd; cbn [length]; rewrite !Rsum_S; cbn [Rsum]; unfold vget, mget, J; cbn [mdat nth]; numR; lra. }
  assert (Q : l1_quotient (/ 2) [1; -1; 1] [-1; 1; 2] = 2).
  { unfold l1_quotient. cbn [map]. numR. cbn [fold_right]. rewrite ?Rabs_R1, (Rabs_left (-1)), (Rabs_right 2) by lra. unfold Rdiv. rewrite Rinv_inv. lra. }
  split; [reflexivity|]. split; [exact H|]. split; [exact Q|].
  pose proof (C83_linear (/ 2) [1; -1; 1] J [1] [-1; 1; 2] ltac:(lra) eq_refl eq_refl H) as L. rewrite Q in L.
  cbn [length] in L. rewrite !Rsum_S in L. cbn [Rsum] in L. unfold overshoot, vget in L. cbn [nth] in L.
  repeat (destruct (Rlt_dec _ 0) in L; [|try lra]); try lra. unfold Rdiv in L. rewrite Rinv_inv in L.
  rewrite ?Rabs_R1, (Rabs_left (-1)) in L by lra. lra.
Qed.

Print Assumptions C83_linear.
Print Assumptions C83_smooth.
Print Assumptions C83_identity.
Print Assumptions C83_identity_first.
Print Assumptions C83_identity_refuted.
Print Assumptions C83_nonlinear.
Print Assumptions C83_nonlinear_first.
Print Assumptions C83_nonlinear_refuted.

