(** From the KKT residuals of a variable of doubles to the KKT residuals of the real problem that the callbacks approximate. *)
From Coq Require Import Reals Lra Psatz.
From Flocq Require Import Core BinarySingleNaN.
From Verif Require Import Prelude Scalar LinAlg RLin DDP Fmpc FmpcProofs FmpcStep FmpcSpec B64 FmpcF64 FmpcConvex.
Local Open Scope R_scope.

(** The real numbers that the doubles of a vector and of a variable stand for. *)
Definition rvec (x : vec b64) : vec R := map val x.
Definition rvar (v : var b64) : var R := {| v_hor := v_hor v; v_x := map rvec (v_x v); v_u := map rvec (v_u v); v_l := map rvec (v_l v);
  v_s := map rvec (v_s v); v_n := map rvec (v_n v) |}.

Section Spec.
  Variables (ex lg : b64 -> b64) (sm : list b64 -> b64).
  Local Instance Ns : Num b64 := B64Num ex lg sm.
  Variables (pb : fproblem b64) (D : derivs b64) (t0 : b64) (x0 : vec b64).
  Variables (pr : fproblem R) (Dr : derivs R) (tr : R) (xr : vec R).
  Variables (v : var b64) (N : nat).
  Notation nx := (pb_nx (fp_dp pb)).
  Notation time i := (tr + INR i * pb_dt (fp_dp pr)).
  Definition near (c : R) (n : nat) (a : vec R) (b : vec b64) : Prop := forall j, (j < n)%nat -> Rabs (vget a j - val (vget b j)) <= c.
  Definition mnear (c : R) (r n : nat) (a : mat R) (b : mat b64) : Prop :=
    forall k j, (k < r)%nat -> (j < n)%nat -> Rabs (mget a k j - val (mget b k j)) <= c.
  (** At the states and inputs of the variable [v] the callbacks in doubles return the values and first derivatives of the real problem
      up to [c]; the step and the measured state are given up to [c]. *)
  Record follows (c : R) : Prop := {
    fw_nx : pb_nx (fp_dp pr) = nx;
    fw_dt : Rabs (pb_dt (fp_dp pr) - val (pb_dt (fp_dp pb))) <= c;
    fw_x0 : length xr = length x0 /\ near c (length x0) xr x0;
    fw_stage : forall i x u, (i < N)%nat -> nth_error (v_x v) i = Some x -> nth_error (v_u v) i = Some u ->
      let t := stage_time pb t0 i in let T := time i in let X := rvec x in let U := rvec u in
      let g := length (fp_g pb t x u) in let nu := length u in
      near c nx (pb_stateEq (fp_dp pr) T X U) (pb_stateEq (fp_dp pb) t x u) /\
      length (fp_g pr T X U) = g /\ near c g (fp_g pr T X U) (fp_g pb t x u) /\
      near c nx (d_Lx Dr T X U) (d_Lx D t x u) /\ near c nu (d_Lu Dr T X U) (d_Lu D t x u) /\
      mnear c nx nx (d_A Dr T X U) (d_A D t x u) /\ mnear c nx nu (d_B Dr T X U) (d_B D t x u) /\
      mnear c g nx (d_C Dr T X U) (d_C D t x u) /\ mnear c g nu (d_D Dr T X U) (d_D D t x u);
    fw_end : forall x, nth_error (v_x v) N = Some x -> near c nx (d_Tx Dr (time N) (rvec x)) (d_Tx D (stage_time pb t0 N) x)
  }.
  (** The multipliers and the derivatives are at most [M] in magnitude, the number of inequalities of a step is at most [ng]. *)
  Definition below (M : R) (n : nat) (b : vec b64) : Prop := forall j, (j < n)%nat -> Rabs (val (vget b j)) <= M.
  Definition mbelow (M : R) (r n : nat) (b : mat b64) : Prop := forall k j, (k < r)%nat -> (j < n)%nat -> Rabs (val (mget b k j)) <= M.
  Definition sized (M : R) (ng : nat) : Prop := forall i x u l s n x' l', (i < N)%nat -> stage v i x u l s n x' l' ->
    let t := stage_time pb t0 i in let nu := length u in let g := length s in
    (g <= ng)%nat /\ below M nx l /\ below M nx l' /\ below M g n /\ below M nx (d_Lx D t x u) /\ below M nu (d_Lu D t x u) /\
    mbelow M nx nx (d_A D t x u) /\ mbelow M nx nu (d_B D t x u) /\ mbelow M g nx (d_C D t x u) /\ mbelow M g nu (d_D D t x u).
  (** No slack and no multiplier of an inequality is negative. *)
  Definition nonneg : Prop := forall w a, In w (v_s v) \/ In w (v_n v) -> In a w -> 0 <= val a.
  (** The residual of the real problem: that of the doubles, the errors of the callbacks and the rounding errors of the sums. *)
  Definition real_residual (e c M : R) (ng : nat) : R :=
    e + c * (1 + M + pb_dt (fp_dp pr) + INR (nx + ng) * M)
    + gam (nx + ng + 4) * ((1 + pb_dt (fp_dp pr) + c) * M + INR (nx + ng) * (M * M) + INR (nx + ng + 1) * tiny).
End Spec.

Section Lemmas.
  Variables (ex lg : b64 -> b64) (sm : list b64 -> b64).
  Local Instance Nl : Num b64 := B64Num ex lg sm.
  Lemma rvec_len x : length (rvec x) = length x.
  Proof. apply map_length. Qed.
  Lemma rvec_get x j : vget (rvec x) j = val (vget x j).
  Proof.
    unfold vget, rvec. change (@nzero R RNum) with 0. change (@nzero b64 Nl) with (B754_zero false : b64).
    change 0 with (val (B754_zero false)) at 1. apply map_nth.
  Qed.
  Lemma rnth l i y : nth_error (map rvec l) i = Some y -> exists x, nth_error l i = Some x /\ y = rvec x.
  Proof. rewrite nth_error_map. destruct (nth_error l i) as [x|]; [|discriminate]. intros [= <-]. eauto. Qed.
  Lemma rnth_in l i x : nth_error l i = Some x -> nth_error (map rvec l) i = Some (rvec x).
  Proof. intros H. rewrite nth_error_map, H. reflexivity. Qed.
  Lemma rstage v i x u l s n x' l' : stage (rvar v) i x u l s n x' l' -> exists y w m r k y' m', stage v i y w m r k y' m' /\
    x = rvec y /\ u = rvec w /\ l = rvec m /\ s = rvec r /\ n = rvec k /\ x' = rvec y' /\ l' = rvec m'.
  Proof.
    intros (S1 & S2 & S3 & S4 & S5 & S6 & S7). cbn [rvar v_x v_u v_l v_s v_n] in *.
    apply rnth in S1 as (? & ? & ->), S2 as (? & ? & ->), S3 as (? & ? & ->), S4 as (? & ? & ->), S5 as (? & ? & ->), S6 as (? & ? & ->), S7 as (? & ? & ->).
    do 7 eexists. split; [unfold stage; repeat split; eassumption|]. repeat split; reflexivity.
  Qed.
  Lemma stage_rvar v i x u l s n x' l' : stage v i x u l s n x' l' ->
    stage (rvar v) i (rvec x) (rvec u) (rvec l) (rvec s) (rvec n) (rvec x') (rvec l').
  Proof.
    intros (S1 & S2 & S3 & S4 & S5 & S6 & S7). unfold stage. cbn [rvar v_x v_u v_l v_s v_n].
    repeat split; apply rnth_in; assumption.
  Qed.
  (** A sum of products of factors known up to [c]. *)
  Lemma sum_near r c M (a : nat -> R) (b y : nat -> R) : 0 <= c -> (forall k, (k < r)%nat -> Rabs (a k - b k) <= c) ->
    (forall k, (k < r)%nat -> Rabs (y k) <= M) -> Rabs (Rsum r (fun k => a k * y k) - Rsum r (fun k => b k * y k)) <= INR r * (c * M).
  Proof.
    intros Hc Ha Hy. induction r as [|r IH]; [cbn; rewrite Rminus_diag_eq, Rabs_R0 by reflexivity; lra|].
    rewrite !Rsum_S, S_INR. specialize (IH ltac:(intros; apply Ha; lia) ltac:(intros; apply Hy; lia)).
    pose proof (Ha r ltac:(lia)) as A. pose proof (Hy r ltac:(lia)) as Y.
    assert (B : Rabs ((a r - b r) * y r) <= c * M) by (rewrite Rabs_mult; apply Rmult_le_compat; auto using Rabs_pos).
    apply FmpcConvex.Rabs_le_inv in IH, B. apply Rabs_le. lra.
  Qed.
  Lemma sum_abs_le r M (A : mat b64) (y : vec b64) j : (forall k, (k < r)%nat -> Rabs (val (mget A k j)) <= M) -> below ex lg sm M r y ->
    sum_abs ex lg sm r A y j <= INR r * (M * M).
  Proof.
    unfold sum_abs. intros HA Hy. induction r as [|r IH]; [cbn; lra|]. rewrite Rsum_S, S_INR.
    specialize (IH ltac:(intros; apply HA; lia) ltac:(intros ? ?; apply Hy; lia)).
    assert (B : Rabs (val (mget A r j) * val (vget y r)) <= M * M).
    { rewrite Rabs_mult. apply Rmult_le_compat; auto using Rabs_pos; apply Hy; lia. }
    rewrite Rmult_plus_distr_r, Rmult_1_l. apply Rplus_le_compat; [exact IH|exact B].
  Qed.
  Lemma prod_near d dd a b c M : 0 <= d -> 0 <= c -> Rabs (d - dd) <= c -> Rabs (a - b) <= c -> Rabs b <= M ->
    Rabs (d * a - dd * b) <= c * (d + M) /\ Rabs (dd * b) <= (d + c) * M.
  Proof.
    intros Hd Hc H1 H2 H3. pose proof (Rabs_pos b). split.
    - replace (d * a - dd * b) with (d * (a - b) + (d - dd) * b) by ring. eapply Rle_trans; [apply Rabs_triang|]. rewrite !Rabs_mult, (Rabs_pos_eq d Hd).
      pose proof (Rabs_pos (a - b)). pose proof (Rabs_pos (d - dd)). nra.
    - rewrite Rabs_mult. apply Rmult_le_compat; auto using Rabs_pos. apply FmpcConvex.Rabs_le_inv in H1. apply Rabs_le. lra.
  Qed.
End Lemmas.

Section Transfer.
  Variables (ex lg : b64 -> b64) (sm : list b64 -> b64).
  Local Instance Nt : Num b64 := B64Num ex lg sm.
  Variables (pb : fproblem b64) (D : derivs b64) (t0 : b64) (x0 : vec b64).
  Variables (pr : fproblem R) (Dr : derivs R) (tr : R) (xr : vec R).
  Variables (v : var b64) (N : nat) (e c M : R) (ng : nat).
  Notation nx := (pb_nx (fp_dp pb)).
  Notation dr := (pb_dt (fp_dp pr)).
  Notation E := (real_residual pb pr e c M ng).
  Hypothesis Hdt : 0 <= dr.
  Hypothesis Hc : 0 <= c.
  Hypothesis HM : 0 <= M.
  Hypothesis F : follows ex lg sm pb D t0 x0 pr Dr tr xr v N c.
  Hypothesis Z : sized ex lg sm pb D t0 v N M ng.
  Hypothesis P : nonneg v.
  Hypothesis W : forall i, (i < N)%nat -> exists x u l s n x' l', stage v i x u l s n x' l' /\
    length (fp_g pb (stage_time pb t0 i) x u) = length s /\ length n = length s.
  Hypothesis K : approx_kkt64 ex lg sm pb D t0 x0 v N e.

  Lemma resid_parts : e + c <= E /\ e <= E.
  Proof.
    unfold real_residual. pose proof (gam_pos (nx + ng + 4)). pose proof (pos_INR (nx + ng)). pose proof (pos_INR (nx + ng + 1)).
    assert (0 < tiny) by apply bpow_gt_0.
    assert (0 <= INR (nx + ng) * M) by (apply Rmult_le_pos; assumption).
    assert (0 <= gam (nx + ng + 4) * ((1 + dr + c) * M + INR (nx + ng) * (M * M) + INR (nx + ng + 1) * tiny)).
    { apply Rmult_le_pos; [assumption|]. assert (0 <= (1 + dr + c) * M) by (apply Rmult_le_pos; lra).
      assert (0 <= INR (nx + ng) * (M * M)) by (apply Rmult_le_pos; [assumption|nra]). assert (0 <= INR (nx + ng + 1) * tiny) by (apply Rmult_le_pos; lra). lra. }
    assert (0 <= c * (M + dr + INR (nx + ng) * M)) by (apply Rmult_le_pos; lra). lra.
  Qed.
  (** A stationarity residual. *)
  Lemma stat_bound (g : nat) lj a b A C y n q : (g <= ng)%nat -> Rabs lj <= M ->
    (* the exact terms of the doubles and their magnitudes *)
    Rabs (a + A + C - lj) <= e + gam (nx + g + 4) * (Rabs lj + Rabs a + y + n + INR (nx + g + 1) * tiny) ->
    y <= INR nx * (M * M) -> n <= INR g * (M * M) -> Rabs a <= (dr + c) * M ->
    (* the terms of the real problem *)
    Rabs (b - a) <= c * (dr + M) -> forall Ar Cr, Rabs (Ar - A) <= INR nx * (c * M) -> Rabs (Cr - C) <= INR g * (c * M) -> q = b + Ar + Cr - lj ->
    Rabs q <= E.
  Proof.
    intros Hg Hl H Hy Hn Ha Hb Ar Cr HA HC ->.
    assert (G : INR g <= INR ng) by (apply le_INR, Hg).
    assert (0 <= c * M) by nra. assert (0 <= M * M) by nra. assert (0 < tiny) by apply bpow_gt_0.
    assert (Q1 : INR g * (c * M) <= INR ng * (c * M)) by (apply Rmult_le_compat_r; lra).
    assert (Q2 : INR g * (M * M) <= INR ng * (M * M)) by (apply Rmult_le_compat_r; lra).
    assert (Q3 : INR (nx + g + 1) * tiny <= INR (nx + ng + 1) * tiny) by (apply Rmult_le_compat_r; [lra|]; apply le_INR; lia).
    set (S := (1 + dr + c) * M + INR (nx + ng) * (M * M) + INR (nx + ng + 1) * tiny).
    set (s := Rabs lj + Rabs a + y + n + INR (nx + g + 1) * tiny) in *.
    assert (Ss : s <= S) by (unfold S, s; rewrite (plus_INR nx ng); lra).
    assert (S0 : 0 <= S). { unfold S. pose proof (pos_INR (nx + ng)). pose proof (pos_INR (nx + ng + 1)). assert (0 <= (1 + dr + c) * M) by (apply Rmult_le_pos; lra).
      assert (0 <= INR (nx + ng) * (M * M)) by (apply Rmult_le_pos; assumption). assert (0 <= INR (nx + ng + 1) * tiny) by (apply Rmult_le_pos; lra). lra. }
    pose proof (gam_mono (nx + g + 4) (nx + ng + 4) ltac:(lia)) as G1. pose proof (gam_pos (nx + g + 4)) as G0.
    assert (Q4 : gam (nx + g + 4) * s <= gam (nx + ng + 4) * S).
    { apply Rle_trans with (gam (nx + g + 4) * S); [apply Rmult_le_compat_l; assumption|apply Rmult_le_compat_r; assumption]. }
    unfold real_residual. fold S. rewrite plus_INR.
    apply FmpcConvex.Rabs_le_inv in H, Hb, HA, HC. apply Rabs_le.
    assert (c * (1 + M + dr + (INR nx + INR ng) * M) = c + c * (dr + M) + INR nx * (c * M) + INR ng * (c * M)) by ring. lra.
  Qed.

  Lemma transfer_whole : (exists x l, nth_error (v_x v) N = Some x /\ nth_error (v_l v) N = Some l) -> (exists x, nth_error (v_x v) 0 = Some x) ->
    whole pr tr N (rvar v).
  Proof.
    intros (x & l & E1 & E2) (x1 & E3). split; [|split].
    - intros i Hi. destruct (W i Hi) as (y & u & m & s & n & y' & m' & St & Lg & _).
      exists (rvec y), (rvec u), (rvec m), (rvec s), (rvec n), (rvec y'), (rvec m'). split; [apply stage_rvar, St|].
      rewrite rvec_len, <- Lg. destruct (fw_stage _ _ _ _ _ _ _ _ _ _ _ _ _ _ F i y u Hi (proj1 St) (proj1 (proj2 St))) as (_ & Q & _). exact Q.
    - exists (rvec x), (rvec l). cbn [rvar v_x v_l]. split; apply rnth_in; assumption.
    - exists (rvec x1). cbn [rvar v_x]. apply rnth_in, E3.
  Qed.
  Lemma transfer : approx_kkt pr Dr tr xr (rvar v) N E.
  Proof.
    destruct resid_parts as (R1 & R2). pose proof (fw_nx _ _ _ _ _ _ _ _ _ _ _ _ _ _ F) as Enx.
    assert (tri : forall a b q d, Rabs (a - b) <= c -> Rabs (b - d) <= e -> q = a - d -> Rabs q <= E).
    { intros a b q d Q1 Q2 ->. apply FmpcConvex.Rabs_le_inv in Q1, Q2. apply Rabs_le. lra. }
    constructor.
    - intros y Hy. cbn [rvar v_x] in Hy. apply rnth in Hy as (x & Hx & ->).
      destruct (k64_init _ _ _ _ _ _ _ _ _ _ K x Hx) as (L & B). destruct (fw_x0 _ _ _ _ _ _ _ _ _ _ _ _ _ _ F) as (Lr & Br).
      rewrite rvec_len. split; [congruence|]. intros j Hj. rewrite Lr in Hj. destruct (B j Hj) as (_ & _ & Bj).
      rewrite (rvec_get ex lg sm). eapply tri; [apply (Br j Hj)|exact Bj|reflexivity].
    - intros i x u l s n x' l' Hi St. apply rstage in St as (y & w & m & r & k & y' & m' & St & -> & -> & -> & -> & -> & -> & ->).
      destruct (k64_stage _ _ _ _ _ _ _ _ _ _ K i y w m r k y' m' Hi St) as (K1 & K2 & K3 & K4 & K5).
      destruct (fw_stage _ _ _ _ _ _ _ _ _ _ _ _ _ _ F i y w Hi (proj1 St) (proj1 (proj2 St))) as (F1 & F2 & F3 & F4 & F5 & F6 & F7 & F8 & F9).
      destruct (Z i y w m r k y' m' Hi St) as (Z0 & Z1 & Z2 & Z3 & Z4 & Z5 & Z6 & Z7 & Z8 & Z9).
      destruct (W i Hi) as (y0 & w0 & m0 & r0 & k0 & y0' & m0' & St0 & Lg & Ln).
      destruct (stage_fun64 v i _ _ _ _ _ _ _ _ _ _ _ _ _ _ St St0) as (-> & -> & -> & -> & -> & -> & ->). clear St0.
      pose proof (fw_dt _ _ _ _ _ _ _ _ _ _ _ _ _ _ F) as Fd.
      cbn zeta in *. change (Ns ex lg sm) with Nt in *. rewrite Lg in F2, F3, F8, F9. rewrite !rvec_len, Enx.
      split; [|split; [|split; [|split]]]; intros j Hj; rewrite ?(rvec_get ex lg sm).
      + destruct (K1 j Hj) as (_ & _ & B). eapply tri; [apply (F1 j Hj)|exact B|reflexivity].
      + destruct (K2 j Hj) as (_ & _ & B). apply (tri (vget (fp_g pr (tr + INR i * dr) (rvec y) (rvec w)) j) (val (vget (fp_g pb (stage_time pb t0 i) y w) j)) _ (- val (vget r j))).
        * apply (F3 j Hj).
        * unfold Rminus. rewrite Ropp_involutive. exact B.
        * unfold Rminus. rewrite Ropp_involutive. reflexivity.
      + destruct (K3 j Hj) as (_ & B). destruct (prod_near _ _ _ _ _ _ Hdt Hc Fd (F4 j Hj) (Z4 j Hj)) as (B1 & B2).
        eapply (stat_bound (length r) (val (vget m j)) _ _ _ _ _ _ _ Z0 (Z1 j Hj) B).
        * apply sum_abs_le; [intros k1 Hk1; apply (Z6 k1 j Hk1 Hj)|exact Z2].
        * apply sum_abs_le; [intros k1 Hk1; apply (Z8 k1 j Hk1 Hj)|exact Z3].
        * exact B2.
        * exact B1.
        * apply (sum_near nx c M (fun k1 => mget (d_A Dr (tr + INR i * dr) (rvec y) (rvec w)) k1 j) (fun k1 => val (mget (d_A D (stage_time pb t0 i) y w) k1 j))
            (fun k1 => val (vget m' k1)) Hc); [intros k1 Hk1; apply (F6 k1 j Hk1 Hj)|exact Z2].
        * apply (sum_near (length r) c M (fun k1 => mget (d_C Dr (tr + INR i * dr) (rvec y) (rvec w)) k1 j) (fun k1 => val (mget (d_C D (stage_time pb t0 i) y w) k1 j))
            (fun k1 => val (vget k k1)) Hc); [intros k1 Hk1; apply (F8 k1 j Hk1 Hj)|exact Z3].
        * f_equal. f_equal; [f_equal|]; apply Rsum_ext; intros k1 _; rewrite (rvec_get ex lg sm); reflexivity.
      + pose proof (K4 j Hj) as B. destruct (prod_near _ _ _ _ _ _ Hdt Hc Fd (F5 j Hj) (Z5 j Hj)) as (B1 & B2).
        eapply (stat_bound (length r) 0 (val (pb_dt (fp_dp pb)) * val (vget (d_Lu D (stage_time pb t0 i) y w) j)) _ _ _ _ _ _ Z0).
        * rewrite Rabs_R0. exact HM.
        * rewrite Rabs_R0, Rminus_0_r, Rplus_0_l. exact B.
        * apply sum_abs_le; [intros k1 Hk1; apply (Z7 k1 j Hk1 Hj)|exact Z2].
        * apply sum_abs_le; [intros k1 Hk1; apply (Z9 k1 j Hk1 Hj)|exact Z3].
        * exact B2.
        * exact B1.
        * apply (sum_near nx c M (fun k1 => mget (d_B Dr (tr + INR i * dr) (rvec y) (rvec w)) k1 j) (fun k1 => val (mget (d_B D (stage_time pb t0 i) y w) k1 j))
            (fun k1 => val (vget m' k1)) Hc); [intros k1 Hk1; apply (F7 k1 j Hk1 Hj)|exact Z2].
        * apply (sum_near (length r) c M (fun k1 => mget (d_D Dr (tr + INR i * dr) (rvec y) (rvec w)) k1 j) (fun k1 => val (mget (d_D D (stage_time pb t0 i) y w) k1 j))
            (fun k1 => val (vget k k1)) Hc); [intros k1 Hk1; apply (F9 k1 j Hk1 Hj)|exact Z3].
        * rewrite Rminus_0_r. f_equal; [f_equal|]; apply Rsum_ext; intros k1 _; rewrite (rvec_get ex lg sm); reflexivity.
      + destruct (K5 j Hj) as (_ & B). destruct St as (S1 & S2 & S3 & S4 & S5 & S6 & S7). split; [|split].
        * apply (P r); [left; apply (nth_error_In _ _ S4)|apply nth_In, Hj].
        * apply (P k); [right; apply (nth_error_In _ _ S5)|apply nth_In; lia].
        * exact (Rle_trans _ _ _ B R2).
    - intros x l Hx Hl. cbn [rvar v_x v_l] in Hx, Hl. apply rnth in Hx as (y & Hy & ->). apply rnth in Hl as (m & Hm & ->).
      intros j Hj. rewrite Enx in Hj. destruct (k64_end _ _ _ _ _ _ _ _ _ _ K y m Hy Hm j Hj) as (_ & _ & B). rewrite (rvec_get ex lg sm).
      eapply tri; [apply (fw_end _ _ _ _ _ _ _ _ _ _ _ _ _ _ F y Hy j Hj)|exact B|reflexivity].
  Qed.
End Transfer.

(** The variable that a successful run returns has the sizes of the horizon. *)
Section Sizes.
  Variables (ex lg : b64 -> b64) (sm : list b64 -> b64).
  Local Instance Nz : Num b64 := B64Num ex lg sm.
  Lemma success_sizes LO (pb : fproblem b64) (D : derivs b64) cf jk fuel t0 x0 v0 s s' : computes pb D ->
    fmpc_solve LO pb cf jk fuel t0 x0 v0 s = Ok Succeeded s' ->
    (forall i, (i < Nf cf)%nat -> exists x u l s1 n x' l', stage (f_var s') i x u l s1 n x' l' /\
       length (fp_g pb (stage_time pb t0 i) x u) = length s1 /\ length n = length s1) /\
    (exists x l, nth_error (v_x (f_var s')) (Nf cf) = Some x /\ nth_error (v_l (f_var s')) (Nf cf) = Some l) /\
    (exists x, nth_error (v_x (f_var s')) 0 = Some x).
  Proof.
    intros CM H. pose proof (solve_lens _ _ _ _ _ _ _ _ _ _ _ H) as HL. unfold lens in HL. injection HL as L1 L2 L3 L4 L5.
    apply solve_succ in H as (_ & _ & cl & e & Hc & _). apply coeffs_spec64 in Hc as (_ & Hc & (ce & _ & Hce)). split; [|split].
    - intros i Hi. destruct (Hc i Hi) as (c & _ & Hat). destruct (coeff_at_spec64 ex lg sm pb D _ _ _ _ _ CM Hat) as (x & u & l & s1 & n & x' & l' & St & S).
      exists x, u, l, s1, n, x', l'. split; [exact St|]. cbn zeta in S. split; apply S.
    - destruct (coeff_end_spec64 ex lg sm pb D cf _ _ _ _ CM Hce) as (xN & lN & E1 & E2 & _). eauto.
    - destruct (v_x (f_var s')) as [|x ?] eqn:E; [cbn in L1; lia|]. exists x. reflexivity.
  Qed.
End Sizes.
