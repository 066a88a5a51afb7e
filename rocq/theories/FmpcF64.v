(** The KKT test and the step-length rule of the FMPC solver in binary64 arithmetic. *)
From Coq Require Import Reals Lra Psatz Permutation.
From Flocq Require Import Core BinarySingleNaN.
From Verif Require Import Prelude Scalar LinAlg RLin DDP Fmpc FmpcProofs FmpcStep FmpcSpec B64.
Local Open Scope R_scope.

Section F64.
  Variables (ex lg : b64 -> b64) (sm : list b64 -> b64).
  Hypothesis Hsm : some_order sm.
  Local Instance Nb : Num b64 := B64Num ex lg sm.

  Lemma sqnorm_nn (v : vec b64) : nn (sqnorm v).
  Proof.
    unfold sqnorm, dot. cbn [nsum Nb B64Num]. apply (tree_sum_nn _ _ (Hsm _)). intros x Hx. apply in_map_iff in Hx as (i & <- & _).
    apply square_nn.
  Qed.
  Lemma sqnorm_entry64 (v : vec b64) a : fin (sqnorm v) -> In a v -> fin a /\ fl (val a * val a) <= val (sqnorm v).
  Proof.
    intros F Ha. apply (In_nth _ _ nzero) in Ha as (i & Hi & <-).
    unfold sqnorm, dot in *. cbn [nsum Nb B64Num] in *. set (l := vbuild _ _) in *.
    assert (Hin : In (Bmult mode_NE (vget v i) (vget v i)) l).
    { apply in_map_iff. exists i. split; [reflexivity|]. apply in_seq. lia. }
    destruct (tree_sum_bound l _ (Hsm l)) with (x := Bmult mode_NE (vget v i) (vget v i)) as (Fx & _ & B); [|exact F|exact Hin|].
    - intros x Hx. apply in_map_iff in Hx as (k & <- & _). apply square_nn.
    - apply mul_fin in Fx as (Fx & _ & E). rewrite E in B. split; [exact Fx|exact B].
  Qed.
  Lemma add_nn x y : nn x -> nn y -> nn (nadd x y) /\ (fin (nadd x y) -> fin x /\ fin y /\ val x <= val (nadd x y) /\ val y <= val (nadd x y)).
  Proof.
    intros Hx Hy. cbn [nadd Nb B64Num]. split.
    - intros F. apply add_fin in F as (Fx & Fy & ->). specialize (Hx Fx). specialize (Hy Fy). rewrite <- fl_0. apply fl_le. lra.
    - intros F. apply add_fin in F as (Fx & Fy & ->). specialize (Hx Fx). specialize (Hy Fy).
      split; [exact Fx|]. split; [exact Fy|]. split; apply fl_ge; lra.
  Qed.

  (** What a finite sum [e] says about a vector whose squared norm is one of its terms. *)
  Definition under (e : b64) (v : vec b64) : Prop := forall a, In a v -> fin a /\ fl (val a * val a) <= val e.
  Lemma under_of e v : fin (sqnorm v) -> val (sqnorm v) <= val e -> under e v.
  Proof. intros F L a Ha. destruct (sqnorm_entry64 v a F Ha) as [Fa B]. split; [exact Fa|lra]. Qed.

  Lemma kkt_sum_64 eps n : forall cl ss ns ac e, kkt_sum eps cl ss ns n ac = Some e -> nn ac -> fin e ->
    fin ac /\ val ac <= val e /\ 0 <= val e /\ (exists c, nth_error cl n = Some c /\ under e (c_Lxbar c)) /\
    forall i, (i < n)%nat -> exists c s w, nth_error cl i = Some c /\ nth_error ss i = Some s /\ nth_error ns i = Some w /\
      length w = length s /\ under e (c_xbar c) /\ under e (c_gbar c) /\ under e (c_Lxbar c) /\ under e (c_Lubar c) /\
      under e (kkt_comp eps s w).
  Proof.
    induction n as [|n IH]; intros cl ss ns ac e H Ha Fe; cbn [kkt_sum] in H.
    - destruct cl as [|c cl]; [discriminate|]. injection H as <-.
      destruct (add_nn ac (sqnorm (c_Lxbar c)) Ha (sqnorm_nn _)) as [Hn Hb]. specialize (Hb Fe) as (B1 & B2 & B3 & B4).
      split; [exact B1|]. split; [exact B3|]. split; [apply Hn, Fe|]. split; [|intros; lia].
      exists c. split; [reflexivity|]. apply under_of; assumption.
    - destruct cl as [|c cl]; [discriminate|]. destruct ss as [|s ss]; [discriminate|]. destruct ns as [|w ns]; [discriminate|].
      cbn [kkt_sum] in H. opt1 H. unfold vdimb in B. apply Nat.eqb_eq in B.
      destruct (add_nn ac (sqnorm (c_xbar c)) Ha (sqnorm_nn _)) as [N1 H1].
      destruct (add_nn _ (sqnorm (c_gbar c)) N1 (sqnorm_nn _)) as [N2 H2].
      destruct (add_nn _ (sqnorm (c_Lxbar c)) N2 (sqnorm_nn _)) as [N3 H3].
      destruct (add_nn _ (sqnorm (c_Lubar c)) N3 (sqnorm_nn _)) as [N4 H4].
      destruct (add_nn _ (sqnorm (kkt_comp eps s w)) N4 (sqnorm_nn _)) as [N5 H5].
      apply IH in H; [|exact N5|exact Fe]. destruct H as (F5 & L5 & P & J2 & J3).
      apply H5 in F5 as (F4 & G5 & A5 & B5). apply H4 in F4 as (F3 & G4 & A4 & B4). apply H3 in F3 as (F2 & G3 & A3 & B3).
      apply H2 in F2 as (F1 & G2 & A2 & B2). apply H1 in F1 as (F0 & G1 & A1 & B1).
      split; [exact F0|]. split; [lra|]. split; [exact P|]. split; [exact J2|].
      intros [|i] Hi; [|apply J3; lia]. exists c, s, w. do 3 (split; [reflexivity|]). split; [exact B|].
      do 4 (split; [apply under_of; [assumption|lra]|]). apply under_of; [assumption|lra].
  Qed.

  (** The square root and the comparison with the threshold. *)
  Lemma sqrt_le_fin e th : nleb (nsqrt e) th = true -> fin th -> fin e /\ 0 <= val e /\ fl (sqrt (val e)) <= val th.
  Proof.
    cbn [nleb nsqrt Nb B64Num]. intros H Ft.
    assert (F : fin (Bsqrt mode_NE e)).
    { pose proof (Bsqrt_correct 53 1024 _ _ mode_NE e) as (_ & C & _). unfold fin. rewrite C.
      destruct e as [|[]| |[]]; try reflexivity; exfalso;
        destruct th as [t|t| |t]; try discriminate Ft; try discriminate H; destruct t; discriminate H. }
    destruct (sqrt_fin e F) as (Fe & Pe & E). split; [exact Fe|]. split; [exact Pe|].
    rewrite leb_fin in H by assumption. destruct (Rle_bool_spec (val (Bsqrt mode_NE e)) (val th)) as [L|L]; [|discriminate]. rewrite <- E. exact L.
  Qed.
  Lemma sqrt_bound a e th : fl (a * a) <= e -> 0 <= e -> fl (sqrt e) <= th -> bpow radix2 (-500) <= th -> Rabs a <= th * (1 + 3 * u53).
  Proof.
    intros H1 He H2 Ht. pose proof u53_pos as U. pose proof u53_small as U'. pose proof (Rabs_pos a) as Pa.
    assert (Pt : 0 < th) by (eapply Rlt_le_trans; [apply (bpow_gt_0 radix2 (-500))|exact Ht]).
    assert (Aa : a * a = Rabs a * Rabs a) by (rewrite <- Rabs_mult; symmetry; apply Rabs_pos_eq; nra).
    destruct (Rle_lt_dec (bpow radix2 (-500)) (Rabs a)) as [La|La]; [|nra].
    set (q := bpow radix2 (-500)) in *. assert (Q : 0 < q) by apply bpow_gt_0.
    assert (Q2 : bpow radix2 (-1000) = q * q) by (unfold q; rewrite <- bpow_plus; reflexivity).
    assert (N1 : bpow radix2 (-1022) <= Rabs (a * a)).
    { rewrite Rabs_pos_eq by nra. apply Rle_trans with (bpow radix2 (-1000)); [apply bpow_le; lia|]. nra. }
    pose proof (fl_rel _ N1) as E1. rewrite (Rabs_pos_eq (a * a)) in E1 by nra. apply Rabs_le_inv in E1.
    assert (L1 : a * a * (1 - u53) <= e) by lra.
    assert (S1 : Rabs a * (1 - u53) <= sqrt e).
    { rewrite <- (sqrt_Rsqr (Rabs a * (1 - u53))) by nra. apply sqrt_le_1_alt. unfold Rsqr.
      apply Rle_trans with (a * a * (1 - u53)); [|exact L1]. rewrite Aa. assert (0 <= Rabs a * Rabs a) by nra. nra. }
    assert (N2 : bpow radix2 (-1022) <= Rabs (sqrt e)).
    { rewrite Rabs_pos_eq by apply sqrt_pos. apply Rle_trans with (q * (1 - u53)); [|nra].
      apply Rle_trans with (bpow radix2 (-501)); [apply bpow_le; lia|].
      replace q with (bpow radix2 (-501) * 2) by (unfold q; change (-500)%Z with (-501 + 1)%Z; rewrite bpow_plus; reflexivity).
      pose proof (bpow_gt_0 radix2 (-501)). nra. }
    pose proof (fl_rel _ N2) as E2. rewrite (Rabs_pos_eq (sqrt e)) in E2 by apply sqrt_pos. apply Rabs_le_inv in E2.
    assert (L2 : Rabs a * ((1 - u53) * (1 - u53)) <= th) by nra.
    assert (1 <= (1 - u53) * (1 - u53) * (1 + 3 * u53)) by nra. nra.
  Qed.

  (** ** Residuals as computed and as real numbers *)
  Lemma tree_fin l z : tree_sum l z -> fin z -> forall x, In x l -> fin x.
  Proof.
    induction 1 as [|a|l1 l2 l a b H1 IH1 H2 IH2 Hp]; intros F x Hx; [destruct Hx|destruct Hx as [<-|[]]; exact F|].
    apply add_fin in F as (Fa & Fb & _). apply (Permutation_in _ (Permutation_sym Hp)), in_app_or in Hx as [Hx|Hx]; auto.
  Qed.
  Lemma rsum_seq (f : nat -> R) n : rsum f (seq 0 n) = Rsum n f.
  Proof.
    induction n as [|n IH]; [reflexivity|]. rewrite seq_S, rsum_app, IH. cbn. ring.
  Qed.
  Lemma acc_mv r c (A : mat b64) (x : vec b64) j : mdimb r c A = true -> (j < c)%nat ->
    acc (1 + r) (vget (mvmul (mtr A) x) j) (Rsum r (fun k => val (mget A k j) * val (vget x k)))
      (Rsum r (fun k => Rabs (val (mget A k j) * val (vget x k)) + tiny)) /\
    (fin (vget (mvmul (mtr A) x) j) -> forall k, (k < r)%nat -> fin (mget A k j) /\ fin (vget x k)).
  Proof.
    intros HA Hj. unfold mdimb in HA. rewrite !andb_true_iff, !Nat.eqb_eq in HA. destruct HA as (((E1 & E2) & _) & _).
    assert (E : vget (mvmul (mtr A) x) j = sm (map (fun k => Bmult mode_NE (mget A k j) (vget x k)) (seq 0 r))).
    { unfold mvmul, mtr. cbn [mrows mcols mbuild]. rewrite vbuild_get by lia. cbn [nsum Nb B64Num]. f_equal. rewrite E1.
      apply vbuild_ext. intros k Hk. rewrite E2. fold (mbuild c r (fun i j => mget A j i)). rewrite mbuild_get by assumption. reflexivity. }
    rewrite E. split.
    - rewrite <- !rsum_seq. pose proof (acc_tree (fun k => Bmult mode_NE (mget A k j) (vget x k)) (fun k => val (mget A k j) * val (vget x k))
        (fun k => Rabs (val (mget A k j) * val (vget x k)) + tiny) 1 _ _ (Hsm _) (seq 0 r) eq_refl) as H.
      rewrite seq_length in H. apply H. intros a _. apply acc_mul.
    - intros F k Hk. pose proof (tree_fin _ _ (Hsm _) F (Bmult mode_NE (mget A k j) (vget x k))) as H.
      destruct (mul_fin (mget A k j) (vget x k)) as (F1 & F2 & _); [|split; assumption].
      apply H. apply in_map_iff. exists k. split; [reflexivity|apply in_seq; lia].
  Qed.
  Lemma Rsum_tiny n f : Rsum n (fun k => f k + tiny) = Rsum n f + INR n * tiny.
  Proof. induction n as [|n IH]; [cbn; ring|]. rewrite !Rsum_S, IH, S_INR. ring. Qed.

  Lemma mone_val : val (mone (T := b64)) = -1 /\ fin (mone (T := b64)).
  Proof.
    assert (E : sf (mone (T := b64)) = SpecFloat.S754_finite true 4503599627370496 (-52)).
    { unfold mone, nofZ. pose proof (b64_f64 ex lg) as (_ & _ & _ & _ & _ & _ & _ & _ & _ & _ & _ & _ & _ & H & _).
      cbn [nlit Nb B64Num] in *. rewrite H. vm_compute. reflexivity. }
    unfold sf in E. split.
    - unfold val. rewrite <- SF2R_B2SF, E. cbn. unfold F2R. cbn. lra.
    - unfold fin. rewrite <- is_finite_SF_B2SF, E. reflexivity.
  Qed.
  Lemma mul_mone x : fin (nmul (mone (T := b64)) x) -> fin x /\ val (nmul (mone (T := b64)) x) = - val x.
  Proof.
    cbn [nmul Nb B64Num]. intros F. apply mul_fin in F as (_ & Fx & ->). split; [exact Fx|].
    destruct mone_val as [-> _]. replace (-1 * val x) with (- val x) by ring. rewrite fl_opp, fl_val. reflexivity.
  Qed.

  Variables (pb : fproblem b64) (D : derivs b64).
  Notation nx := (pb_nx (fp_dp pb)).
  Notation dt := (pb_dt (fp_dp pb)).

  (** The KKT conditions of [approx_kkt] for numbers of type double, the residuals taken in exact arithmetic between the numbers that
      the variable holds and the numbers that the callbacks return. The two stationarity residuals are sums of products; their
      rounding errors are relative to the sum of the absolute values. *)
  Definition sum_abs r (A : mat b64) (x : vec b64) (j : nat) : R := Rsum r (fun k => Rabs (val (mget A k j) * val (vget x k))).
  Record approx_kkt64 (t0 : b64) (x0 : vec b64) (v : var b64) (N : nat) (e : R) : Prop := {
    k64_init : forall x, nth_error (v_x v) 0 = Some x -> length x = length x0 /\
      forall j, (j < length x0)%nat -> fin (vget x0 j) /\ fin (vget x j) /\ Rabs (val (vget x0 j) - val (vget x j)) <= e;
    k64_stage : forall i x u l s n x' l', (i < N)%nat -> stage v i x u l s n x' l' ->
      let t := stage_time pb t0 i in
      let A := d_A D t x u in let B := d_B D t x u in let C := d_C D t x u in let DD := d_D D t x u in
      let nu := length u in let ng := length s in
      (* dynamics *)
      (forall j, (j < nx)%nat -> fin (vget (pb_stateEq (fp_dp pb) t x u) j) /\ fin (vget x' j) /\
         Rabs (val (vget (pb_stateEq (fp_dp pb) t x u) j) - val (vget x' j)) <= e) /\
      (* constraint *)
      (forall j, (j < ng)%nat -> fin (vget (fp_g pb t x u) j) /\ fin (vget s j) /\
         Rabs (val (vget (fp_g pb t x u) j) + val (vget s j)) <= e) /\
      (* stationarity *)
      (forall j, (j < nx)%nat -> fin (vget l j) /\
         Rabs (val dt * val (vget (d_Lx D t x u) j) + Rsum nx (fun k => val (mget A k j) * val (vget l' k))
               + Rsum ng (fun k => val (mget C k j) * val (vget n k)) - val (vget l j))
         <= e + gam (nx + ng + 4) * (Rabs (val (vget l j)) + Rabs (val dt * val (vget (d_Lx D t x u) j)) + sum_abs nx A l' j
                                     + sum_abs ng C n j + INR (nx + ng + 1) * tiny)) /\
      (forall j, (j < nu)%nat ->
         Rabs (val dt * val (vget (d_Lu D t x u) j) + Rsum nx (fun k => val (mget B k j) * val (vget l' k))
               + Rsum ng (fun k => val (mget DD k j) * val (vget n k)))
         <= e + gam (nx + ng + 4) * (Rabs (val dt * val (vget (d_Lu D t x u) j)) + sum_abs nx B l' j + sum_abs ng DD n j
                                     + INR (nx + ng + 1) * tiny)) /\
      (* complementarity *)
      (forall j, (j < ng)%nat -> (0 < nx + nu -> fin (vget n j))%nat /\ val (vget s j) * val (vget n j) <= e);
    k64_end : forall x l, nth_error (v_x v) N = Some x -> nth_error (v_l v) N = Some l ->
      forall j, (j < nx)%nat -> fin (vget (d_Tx D (stage_time pb t0 N) x) j) /\ fin (vget l j) /\
        Rabs (val (vget (d_Tx D (stage_time pb t0 N) x) j) - val (vget l j)) <= e
  }.

  Variable (cf : fconfig b64).
  Notation Nf := (Nf cf).

  Lemma coeff_at_spec64 t0 v cl i c : computes pb D -> coeff_at pb t0 v cl i = Some c ->
    exists x u l s n x' l', stage v i x u l s n x' l' /\
      let t := stage_time pb t0 i in
      length x' = nx /\ length (pb_stateEq (fp_dp pb) t x u) = nx /\
      length l = nx /\ length l' = nx /\ length n = length s /\ length (fp_g pb t x u) = length s /\
      mdimb nx nx (d_A D t x u) = true /\ mdimb nx (length u) (d_B D t x u) = true /\
      mdimb (length s) nx (d_C D t x u) = true /\ mdimb (length s) (length u) (d_D D t x u) = true /\
      length (d_Lx D t x u) = nx /\ length (d_Lu D t x u) = length u /\
      c_xbar c = vsub (pb_stateEq (fp_dp pb) t x u) x' /\ c_gbar c = vadd (fp_g pb t x u) s /\
      c_Lxbar c = vadd (vadd (vadd (vscale mone l) (vscale dt (d_Lx D t x u))) (mvmul (mtr (d_A D t x u)) l')) (mvmul (mtr (d_C D t x u)) n) /\
      c_Lubar c = vadd (vadd (vscale dt (d_Lu D t x u)) (mvmul (mtr (d_B D t x u)) l')) (mvmul (mtr (d_D D t x u)) n).
  Proof.
    intros CM H. unfold coeff_at in H. opt1 H. do 7 opt1 H.
    rewrite (cm_f _ _ CM), (cm_g _ _ CM), (cm_L _ _ CM) in H. unfold dp in H. opt1 H. injection H as <-.
    unfold vdimb in B. rewrite !andb_true_iff, !Nat.eqb_eq in B.
    destruct B as (((((((((((B1 & B2) & B3) & B4) & B5) & B6) & B7) & B8) & B9) & B10) & B11) & B12).
    do 7 eexists. split; [unfold stage; repeat split; eassumption|]. cbn zeta. change (stage_time pb t0 i) with (ft pb t0 i).
    cbn [c_xbar c_gbar c_Lxbar c_Lubar]. repeat (split; [assumption || reflexivity|]). reflexivity.
  Qed.
  Lemma coeff_end_spec64 t0 v cl c : computes pb D -> coeff_end pb cf t0 v cl = Some c ->
    exists x l, nth_error (v_x v) Nf = Some x /\ nth_error (v_l v) Nf = Some l /\
      length (d_Tx D (stage_time pb t0 Nf) x) = nx /\ length l = nx /\ c_Lxbar c = vsub (d_Tx D (stage_time pb t0 Nf) x) l.
  Proof.
    intros CM H. unfold coeff_end in H. do 3 opt1 H. unfold dp in H. rewrite (cm_T _ _ CM) in H. opt1 H. injection H as <-.
    unfold vdimb in B. rewrite !andb_true_iff, !Nat.eqb_eq in B. destruct B as (B1 & B2).
    do 2 eexists. repeat (split; [eassumption || reflexivity|]). reflexivity.
  Qed.
  Lemma coeffs_spec64 t0 v cl cs : coeffs pb cf t0 v cl = Some cs ->
    length cs = (Nf + 1)%nat /\ (forall i, (i < Nf)%nat -> exists c, nth_error cs i = Some c /\ coeff_at pb t0 v cl i = Some c) /\
    exists c, nth_error cs Nf = Some c /\ coeff_end pb cf t0 v cl = Some c.
  Proof.
    unfold coeffs. intros H. do 2 opt1 H. injection H as <-. pose proof (tabo_length _ _ _ E) as L.
    split; [rewrite app_length, L; reflexivity|]. split.
    - intros i Hi. rewrite nth_error_app1 by lia. destruct (tabo_nth _ _ _ _ E Hi) as [E1 E2]. rewrite E1.
      destruct (coeff_at pb t0 v cl i); [eauto|contradiction].
    - exists c. rewrite nth_error_app2 by lia. rewrite L, Nat.sub_diag. auto.
  Qed.

  Lemma stage_fun64 (v : var b64) i x u l s n x' l' y w m r k y' m' :
    stage v i x u l s n x' l' -> stage v i y w m r k y' m' -> y = x /\ w = u /\ m = l /\ r = s /\ k = n /\ y' = x' /\ m' = l'.
  Proof. unfold stage. intros (A1 & A2 & A3 & A4 & A5 & A6 & A7) (B1 & B2 & B3 & B4 & B5 & B6 & B7). repeat split; congruence. Qed.

  (** [max(s nu - 0, 0)] bounded: the product is bounded. *)
  Lemma sub_zero (p : b64) : is_finite (Bminus mode_NE p (B754_zero false)) = is_finite p /\ val (Bminus mode_NE p (B754_zero false)) = val p.
  Proof. destruct p as [[]|[]| |]; split; reflexivity. Qed.
  Lemma product_sign (s n : b64) : 0 < val s * val n -> xorb (Bsign s) (Bsign n) = false.
  Proof.
    intros H. unfold val in H. destruct s as [ss|ss| |ss ms es Hs]; cbn in H; try lra.
    destruct n as [sn|sn| |sn mn en Hn]; cbn in H; try lra.
    assert (P1 : 0 < F2R (Float radix2 (Zpos ms) es)) by (apply F2R_gt_0; reflexivity).
    assert (P2 : 0 < F2R (Float radix2 (Zpos mn) en)) by (apply F2R_gt_0; reflexivity).
    assert (M1 : F2R (Float radix2 (Zneg ms) es) < 0) by (apply F2R_lt_0; reflexivity).
    assert (M2 : F2R (Float radix2 (Zneg mn) en) < 0) by (apply F2R_lt_0; reflexivity).
    destruct ss, sn; try reflexivity; cbn in H; exfalso; nra.
  Qed.
  Lemma comp_bound (s n : b64) E : fin (nmax (nsub (nmul s n) nzero) nzero) -> Rabs (val (nmax (nsub (nmul s n) nzero) nzero)) <= E ->
    bpow radix2 (-500) <= E -> val s * val n <= E * (1 + 2 * u53).
  Proof.
    intros F B HE. pose proof u53_pos as U. pose proof u53_small as U'.
    assert (PE : 0 < E) by (eapply Rlt_le_trans; [apply (bpow_gt_0 radix2 (-500))|exact HE]).
    destruct (Rle_lt_dec (val s * val n) 0) as [Hn|Hp]; [nra|].
    pose proof (Bmult_correct 53 1024 _ _ mode_NE s n) as C. unfold nmax in *. cbn [nltb nsub nmul nzero Nb B64Num] in *.
    assert (Fs : fin s) by (unfold fin; destruct s; try reflexivity; unfold val in Hp; cbn in Hp; lra).
    assert (Fn : fin n) by (unfold fin; destruct n; try reflexivity; unfold val in Hp; cbn in Hp; lra).
    destruct (sub_zero (Bmult mode_NE s n)) as [Z1 Z2]. destruct (Rlt_bool _ _) eqn:R.
    - destruct C as (C1 & C2 & _). unfold fin in Fs, Fn. rewrite Fs, Fn in C2. cbn in C2. rewrite C2 in Z1.
      fold (val s) in C1. fold (val n) in C1.
      change (val (Bmult mode_NE s n) = fl (val s * val n)) in C1. rewrite C1 in Z2.
      set (q := Bminus mode_NE (Bmult mode_NE s n) (B754_zero false)) in *.
      assert (Pq : 0 <= val q) by (rewrite Z2, <- fl_0; apply fl_le; lra).
      rewrite (ltb_fin q (B754_zero false) Z1 eq_refl) in B. rewrite Rlt_bool_false in B by exact Pq.
      rewrite Rabs_pos_eq, Z2 in B by exact Pq.
      pose proof (fl_err (val s * val n)) as Er. rewrite (Rabs_pos_eq (val s * val n)) in Er by lra. apply Rabs_le_inv in Er.
      assert (T : bpow radix2 (-1075) <= u53 * u53 * E).
      { apply Rle_trans with (u53 * u53 * bpow radix2 (-500)); [|apply Rmult_le_compat_l; [nra|exact HE]].
        unfold u53. rewrite <- !bpow_plus. apply bpow_le. lia. }
      assert (T2 : val s * val n * (1 - u53) <= E * (1 + u53 * u53)) by lra.
      assert (T3 : 1 + u53 * u53 <= (1 - u53) * (1 + 2 * u53)) by nra.
      apply Rmult_le_reg_r with (1 - u53); [lra|]. eapply Rle_trans; [exact T2|]. nra.
    - exfalso. rewrite (product_sign s n Hp) in C. cbn in C. destruct (Bmult mode_NE s n) as [| [] | |]; try discriminate C. discriminate F.
  Qed.

  Lemma vadd_get64 (x y : vec b64) j : (j < length x)%nat -> vget (vadd x y) j = nadd (vget x j) (vget y j).
  Proof. intros H. unfold vadd. rewrite vbuild_get by exact H. reflexivity. Qed.
  Lemma vscale_get64 c (x : vec b64) j : (j < length x)%nat -> vget (vscale c x) j = nmul c (vget x j).
  Proof. intros H. unfold vscale. rewrite vbuild_get by exact H. reflexivity. Qed.
  Lemma kkt_bound64 st cl e : computes pb D -> coeffs pb cf (f_t st) (f_var st) cl = Some (f_coeff st) ->
    kkt_error cf nzero st = Some e -> nleb e (fc_kkt cf) = true -> fin (fc_kkt cf) -> bpow radix2 (-500) <= val (fc_kkt cf) ->
    approx_kkt64 (f_t st) (f_x st) (f_var st) Nf (val (fc_kkt cf) * (1 + bpow radix2 (-50))).
  Proof.
    intros CM Hc Hk He Ft Ht. apply coeffs_spec64 in Hc as (Lc & Hc & (ce & Ece & Hce)).
    unfold kkt_error in Hk. do 3 opt1 Hk. injection Hk as <-. rename b into ee. unfold vdimb in B. apply Nat.eqb_eq in B.
    destruct (sqrt_le_fin ee (fc_kkt cf) He Ft) as (Fe & Pe & Le).
    assert (Z0 : nn (nzero (T := b64))) by (intros _; apply Rle_refl).
    destruct (add_nn nzero (sqnorm (vsub (f_x st) v)) Z0 (sqnorm_nn _)) as [Hn Hb].
    apply kkt_sum_64 in E0; [|exact Hn|exact Fe]. destruct E0 as (K0 & K1 & _ & (c1 & E1 & K2) & K3).
    rewrite Ece in E1. injection E1 as <-. apply Hb in K0 as (_ & G0 & _ & L0).
    set (th := val (fc_kkt cf)) in *. pose proof u53_pos as U. pose proof u53_small as U'.
    assert (Pt : 0 < th) by (eapply Rlt_le_trans; [apply (bpow_gt_0 radix2 (-500))|exact Ht]).
    set (E3 := th * (1 + 3 * u53)).
    assert (Comp : forall (w : vec b64) j, under ee w -> (j < length w)%nat -> fin (vget w j) /\ Rabs (val (vget w j)) <= E3).
    { intros w j Hw Hj. destruct (Hw (vget w j) (nth_In _ _ Hj)) as [F1 F2]. split; [exact F1|]. apply (sqrt_bound _ (val ee)); assumption. }
    assert (E50 : bpow radix2 (-50) = 8 * u53).
    { unfold u53. change (-50)%Z with (3 + -53)%Z. rewrite bpow_plus. reflexivity. }
    assert (Up : E3 * (1 + 2 * u53) <= th * (1 + bpow radix2 (-50))) by (assert (X : (1 + 3 * u53) * (1 + 2 * u53) <= 1 + 8 * u53) by nra; rewrite E50; unfold E3; rewrite Rmult_assoc; apply Rmult_le_compat_l; [lra|exact X]).
    assert (Up0 : E3 <= th * (1 + bpow radix2 (-50))) by (rewrite E50; unfold E3; nra).
    set (E8 := th * (1 + bpow radix2 (-50))) in *.
    assert (Sub : forall x y, fin (nsub x y) /\ Rabs (val (nsub x y)) <= E3 -> fin x /\ fin y /\ Rabs (val x - val y) <= E8).
    { intros x y [F1 F2]. cbn [nsub Nb B64Num] in *. apply sub_fin in F1 as (Fx & Fy & Ev). rewrite Ev in F2.
      destruct (sub_rel x y) as (d & Hd & Er). split; [exact Fx|]. split; [exact Fy|].
      eapply Rle_trans; [apply (rel_back _ _ _ _ Hd Er F2)|exact Up]. }
    assert (Add : forall x y, fin (nadd x y) /\ Rabs (val (nadd x y)) <= E3 -> fin x /\ fin y /\ Rabs (val x + val y) <= E8).
    { intros x y [F1 F2]. cbn [nadd Nb B64Num] in *. apply add_fin in F1 as (Fx & Fy & Ev). rewrite Ev in F2.
      destruct (add_rel x y) as (d & Hd & Er). split; [exact Fx|]. split; [exact Fy|].
      eapply Rle_trans; [apply (rel_back _ _ _ _ Hd Er F2)|exact Up]. }
    constructor.
    - intros x Hx. rewrite E in Hx. injection Hx as <-. split; [exact B|]. intros j Hj.
      assert (Uv : under ee (vsub (f_x st) v)) by (apply under_of; [exact G0|lra]).
      specialize (Comp _ j Uv ltac:(unfold vsub; rewrite vbuild_length; exact Hj)). unfold vsub in Comp. rewrite vbuild_get in Comp by exact Hj.
      apply Sub, Comp.
    - intros i x u l s n x' l' Hi Hst. cbn zeta.
      destruct (Hc i Hi) as (c & Ec & Hci). destruct (K3 i Hi) as (c' & s' & w' & F1 & F2 & F3 & F4 & G1 & G2 & G3 & G4 & G5).
      rewrite Ec in F1. injection F1 as <-.
      destruct (coeff_at_spec64 _ _ _ _ _ CM Hci) as (y & q & m & r & k & y' & m' & Hst' & S). cbn zeta in S.
      destruct (stage_fun64 _ _ _ _ _ _ _ _ _ _ _ _ _ _ _ _ Hst Hst') as (-> & -> & -> & -> & -> & -> & ->).
      destruct S as (D1 & D2 & D3 & D4 & D5 & D6 & MA & MB & MC & MD & D7 & D8 & Xb & Gb & Lxb & Lub).
      unfold stage in Hst. destruct Hst as (_ & _ & _ & Hs & Hn' & _). rewrite Hs in F2. injection F2 as <-. rewrite Hn' in F3. injection F3 as <-.
      set (t := stage_time pb (f_t st) i) in *.
      set (A := d_A D t x u) in *. set (BB := d_B D t x u) in *. set (C := d_C D t x u) in *. set (DD := d_D D t x u) in *.
      rewrite Xb in G1. rewrite Gb in G2. rewrite Lxb in G3. rewrite Lub in G4.
      assert (Cx : forall j, (j < nx)%nat -> fin (vget (mvmul (mtr C) n) j) /\ fin (vget l j) /\
         Rabs (val dt * val (vget (d_Lx D t x u) j) + Rsum nx (fun k => val (mget A k j) * val (vget l' k))
               + Rsum (length s) (fun k => val (mget C k j) * val (vget n k)) - val (vget l j))
         <= E8 + gam (nx + length s + 4) * (Rabs (val (vget l j)) + Rabs (val dt * val (vget (d_Lx D t x u) j)) + sum_abs nx A l' j
                                     + sum_abs (length s) C n j + INR (nx + length s + 1) * tiny)).
      { intros j Hj. specialize (Comp _ j G3 ltac:(unfold vadd, vscale; rewrite !vbuild_length; lia)).
        rewrite !vadd_get64 in Comp by (unfold vadd, vscale; rewrite ?vbuild_length; lia). rewrite !vscale_get64 in Comp by lia.
        cbn [nadd Nb B64Num] in Comp.
        destruct (acc_mv _ _ A l' j MA Hj) as [A1 _]. destruct (acc_mv _ _ C n j MC Hj) as [A2 _].
        set (p1 := vget (mvmul (mtr A) l') j) in *. set (p2 := vget (mvmul (mtr C) n) j) in *.
        destruct Comp as [CF CB].
        destruct (add_fin _ _ CF) as (CF1 & Fp2 & _). destruct (add_fin _ _ CF1) as (CF2 & Fp1 & _).
        destruct (add_fin _ _ CF2) as (CF3 & Fdl & _). destruct (mul_mone _ CF3) as [Fl Vl].
        split; [exact Fp2|]. split; [exact Fl|].
        set (K := (nx + length s + 1)%nat).
        assert (B0 : acc K (nmul mone (vget l j)) (- val (vget l j)) (Rabs (val (vget l j)))).
        { apply acc_mono with 0%nat; [lia|]. rewrite <- Vl. rewrite <- (Rabs_Ropp (val (vget l j))), <- Vl. apply acc_leaf. }
        assert (B1 : acc K (nmul dt (vget (d_Lx D t x u) j)) (val dt * val (vget (d_Lx D t x u) j)) (Rabs (val dt * val (vget (d_Lx D t x u) j)) + tiny)).
        { apply acc_mono with 1%nat; [unfold K; lia|]. apply acc_mul. }
        assert (B2 : acc (S K) p1 (Rsum nx (fun k => val (mget A k j) * val (vget l' k))) (Rsum nx (fun k => Rabs (val (mget A k j) * val (vget l' k)) + tiny)))
          by (eapply acc_mono; [|exact A1]; unfold K; lia).
        assert (B3 : acc (S (S K)) p2 (Rsum (length s) (fun k => val (mget C k j) * val (vget n k))) (Rsum (length s) (fun k => Rabs (val (mget C k j) * val (vget n k)) + tiny)))
          by (eapply acc_mono; [|exact A2]; unfold K; lia).
        pose proof (acc_add _ _ _ _ _ _ _ (acc_add _ _ _ _ _ _ _ (acc_add _ _ _ _ _ _ _ B0 B1) B2) B3) as [_ AC].
        specialize (AC CF). rewrite !Rsum_tiny in AC. replace (S (S (S K))) with (nx + length s + 4)%nat in AC by (unfold K; lia).
        replace (INR K) with (INR nx + INR (length s) + 1) by (unfold K; rewrite !plus_INR; cbn; ring).
        unfold sum_abs. set (g := gam _) in *.
        match type of AC with Rabs (?v - ?r) <= g * ?m => set (vv := v) in *; set (rr := r) in *; set (mm := m) in * end.
        match goal with |- Rabs ?a <= _ + g * ?b => replace a with (vv - (vv - rr)) by (unfold rr; ring); replace b with mm by (unfold mm; ring) end.
        eapply Rle_trans; [apply Rabs_triang|]. rewrite Rabs_Ropp. change (Rabs vv <= E3) in CB. lra. }
      assert (Cu : forall j, (j < length u)%nat -> fin (vget (mvmul (mtr DD) n) j) /\
         Rabs (val dt * val (vget (d_Lu D t x u) j) + Rsum nx (fun k => val (mget BB k j) * val (vget l' k))
               + Rsum (length s) (fun k => val (mget DD k j) * val (vget n k)))
         <= E8 + gam (nx + length s + 4) * (Rabs (val dt * val (vget (d_Lu D t x u) j)) + sum_abs nx BB l' j
                                     + sum_abs (length s) DD n j + INR (nx + length s + 1) * tiny)).
      { intros j Hj. specialize (Comp _ j G4 ltac:(unfold vadd, vscale; rewrite !vbuild_length; lia)).
        rewrite !vadd_get64 in Comp by (unfold vadd, vscale; rewrite ?vbuild_length; lia). rewrite !vscale_get64 in Comp by lia.
        cbn [nadd Nb B64Num] in Comp.
        destruct (acc_mv _ _ BB l' j MB Hj) as [A1 _]. destruct (acc_mv _ _ DD n j MD Hj) as [A2 _].
        set (p1 := vget (mvmul (mtr BB) l') j) in *. set (p2 := vget (mvmul (mtr DD) n) j) in *.
        destruct Comp as [CF CB]. destruct (add_fin _ _ CF) as (CF1 & Fp2 & _). split; [exact Fp2|].
        set (K := (nx + length s + 2)%nat).
        assert (B1 : acc K (nmul dt (vget (d_Lu D t x u) j)) (val dt * val (vget (d_Lu D t x u) j)) (Rabs (val dt * val (vget (d_Lu D t x u) j)) + tiny)).
        { apply acc_mono with 1%nat; [unfold K; lia|]. apply acc_mul. }
        assert (B2 : acc K p1 (Rsum nx (fun k => val (mget BB k j) * val (vget l' k))) (Rsum nx (fun k => Rabs (val (mget BB k j) * val (vget l' k)) + tiny)))
          by (eapply acc_mono; [|exact A1]; unfold K; lia).
        assert (B3 : acc (S K) p2 (Rsum (length s) (fun k => val (mget DD k j) * val (vget n k))) (Rsum (length s) (fun k => Rabs (val (mget DD k j) * val (vget n k)) + tiny)))
          by (eapply acc_mono; [|exact A2]; unfold K; lia).
        pose proof (acc_add _ _ _ _ _ _ _ (acc_add _ _ _ _ _ _ _ B1 B2) B3) as [_ AC].
        specialize (AC CF). rewrite !Rsum_tiny in AC. replace (S (S K)) with (nx + length s + 4)%nat in AC by (unfold K; lia).
        replace (INR (nx + length s + 1)) with (INR nx + INR (length s) + 1) by (rewrite !plus_INR; cbn; ring).
        unfold sum_abs. set (g := gam _) in *.
        match type of AC with Rabs (?v - ?r) <= g * ?m => set (vv := v) in *; set (rr := r) in *; set (mm := m) in * end.
        match goal with |- Rabs ?a <= _ + g * ?b => replace a with (vv - (vv - rr)) by (unfold rr; ring); replace b with mm by (unfold mm; ring) end.
        eapply Rle_trans; [apply Rabs_triang|]. rewrite Rabs_Ropp. change (Rabs vv <= E3) in CB. lra. }
      split; [|split; [|split; [|split]]].
      + intros j Hj. specialize (Comp _ j G1 ltac:(unfold vsub; rewrite vbuild_length; lia)). unfold vsub in Comp. rewrite vbuild_get in Comp by lia.
        apply Sub, Comp.
      + intros j Hj. specialize (Comp _ j G2 ltac:(unfold vadd; rewrite vbuild_length; lia)). unfold vadd in Comp. rewrite vbuild_get in Comp by lia.
        apply Add, Comp.
      + intros j Hj. apply Cx, Hj.
      + intros j Hj. apply Cu, Hj.
      + intros j Hj. split.
        * intros Hd. destruct (Nat.lt_ge_cases 0 nx) as [Hx|Hx].
          -- destruct (Cx 0%nat Hx) as [Fp _]. destruct (acc_mv _ _ C n 0 MC Hx) as [_ A2]. apply (A2 Fp j Hj).
          -- destruct (Cu 0%nat ltac:(lia)) as [Fp _]. destruct (acc_mv _ _ DD n 0 MD ltac:(lia)) as [_ A2]. apply (A2 Fp j Hj).
        * specialize (Comp _ j G5 ltac:(unfold kkt_comp; rewrite vbuild_length; exact Hj)). unfold kkt_comp in Comp.
          rewrite vbuild_get in Comp by exact Hj. destruct Comp as [F1 F2].
          eapply Rle_trans; [apply (comp_bound _ _ E3 F1 F2)|exact Up]. unfold E3. nra.
    - intros x l Hx Hl j Hj.
      destruct (coeff_end_spec64 _ _ _ _ CM Hce) as (x1 & l1 & F1 & F2 & L1 & L2 & F4).
      rewrite Hx in F1. injection F1 as <-. rewrite Hl in F2. injection F2 as <-. rewrite F4 in K2.
      specialize (Comp _ j K2 ltac:(unfold vsub; rewrite vbuild_length; lia)). unfold vsub in Comp. rewrite vbuild_get in Comp by lia.
      apply Sub, Comp.
  Qed.
End F64.
