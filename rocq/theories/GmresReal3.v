(** GMRES in exact arithmetic: gm_solve follows the reference recursion, whatever the options. *)
From Verif Require Import Prelude Scalar LinAlg RLin GmresLin Gmres GmresReal GmresReal2.
From Coq Require Import FunctionalExtensionality.
Open Scope R_scope.

Lemma mbuild_ext {T} r c (f g : nat -> nat -> T) : (forall i j, (i < r)%nat -> (j < c)%nat -> f i j = g i j) -> mbuild r c f = mbuild r c g.
Proof. intros H. unfold mbuild. f_equal. apply vbuild_ext. intros i Hi. apply vbuild_ext. intros j Hj. apply H; assumption. Qed.

Lemma bind_guard {S A} (c : bool) (m : M S A) (s : S) : c = true -> bind (guard c) (fun _ => m) s = m s.
Proof. intros ->. reflexivity. Qed.
Lemma bind_ok {S A B} (m : M S A) (f : A -> M S B) (s s' : S) a : m s = Ok a s' -> bind m f s = f a s'.
Proof. intros E. unfold bind. rewrite E. reflexivity. Qed.

Section Run.
  Variables (n : nat) (Am : fmat) (Amul : vec R -> vec R).
  Hypothesis HA : forall v, length v = n -> length (Amul v) = n /\ vget (Amul v) = fmv n Am (vget v).
  Variable r0 : vec R.
  Notation pw := (kpow n Am (vget r0)).
  Hypothesis Hinj : forall m y, (forall i, (i < n)%nat -> fmv n Am (comb m y pw) i = 0) ->
    forall i, (i < n)%nat -> comb m y pw i = 0.
  Hypothesis Hr0 : length r0 = n.
  Variables (cfg : gm_config) (lsq : mat R -> vec R -> vec R).
  Hypothesis Hlsq : gm_tri cfg = false -> exact_lsq lsq.
  Variable km : nat.

  Notation refs := (refs n Amul r0).
  Notation rG := (rG n Amul r0).
  Notation rR := (rR n Amul r0).
  Notation rrho := (rrho n Amul r0).
  Notation okk := (okk n Am Amul r0).

  Definition tri_ok (k : nat) (st : gm_st R) : Prop :=
    length (gs_c st) = k /\ length (gs_s st) = k /\
    (forall i, (i < k)%nat -> vget (gs_c st) i = rf_c (refs k) i /\ vget (gs_s st) i = rf_s (refs k) i) /\
    (forall i j, (j < k)%nat -> (i <= km)%nat -> mget (gs_H st) i j = rR k i j) /\
    (forall i, (i <= km)%nat -> vget (gs_g st) i = rG k i).
  Definition full_ok (k : nat) (st : gm_st R) : Prop :=
    (forall i j, (j < k)%nat -> (i <= km)%nat -> mget (gs_H st) i j = rf_h (refs k) i j) /\
    (forall i, (i <= km)%nat -> vget (gs_g st) i = e0 (beta r0) i) /\
    length (gs_y st) = k /\ (forall i, (i < k)%nat -> fmv k (rR k) (vget (gs_y st)) i = rG k i).
  Definition matches (k : nat) (st : gm_st R) : Prop :=
    gs_k st = k /\ gs_basis st = rf_bs (refs k) /\ mdimb (km + 1) km (gs_H st) = true /\ length (gs_g st) = (km + 1)%nat /\
    (forall i j, (k <= j)%nat -> mget (gs_H st) i j = 0) /\
    gs_rho st = rrho k /\ gs_err st = map rrho (seq 0 (S k)) /\
    (if gm_tri cfg then tri_ok k st else full_ok k st).

  Lemma gm_iter_eq {S} st : gm_iter (S := S) cfg lsq Amul n st =
    let k := Nat.add (gs_k st) 1 in
    let bs := gs_basis st in
    bind (guard (Nat.eqb (length bs) k && Nat.ltb k (mrows (gs_H st)) && Nat.leb k (mcols (gs_H st)) && Nat.ltb k (length (gs_g st))
           && (negb (gm_tri cfg) || (Nat.eqb (length (gs_c st)) (k - 1) && Nat.eqb (length (gs_s st)) (k - 1))))) (fun _ =>
    bind (guard (vdimb n (Amul (bget bs (k - 1))))) (fun _ =>
    let p := orthogonalise Amul (gm_reorth cfg) k bs (gs_H st) in
    let bs' := bs ++ [normalized (snd p)] in
    if gm_tri cfg then
      let H4 := fold_left (rot_step k (gs_c st) (gs_s st)) (seq 0 (k - 1)) (fst p) in
      let a := mget H4 (k - 1) (k - 1) in
      let b := mget H4 k (k - 1) in
      let nu := R_sqrt.sqrt (a * a + b * b) in
      let ck := a / nu in
      let sk := (- b) / nu in
      let H5 := mset (mset H4 (k - 1) (k - 1) (ck * a - sk * b)) k (k - 1) 0 in
      let g0 := vget (gs_g st) (k - 1) in
      let g1 := vget (gs_g st) k in
      let g' := vset (vset (gs_g st) (k - 1) (ck * g0 - sk * g1)) k (sk * g0 + ck * g1) in
      let rho := Rabs (vget g' k) in
      ret {| gs_k := k; gs_H := H5; gs_g := g'; gs_basis := bs'; gs_c := gs_c st ++ [ck]; gs_s := gs_s st ++ [sk];
             gs_rho := rho; gs_y := gs_y st; gs_err := gs_err st ++ [rho] |}
    else
      let Hk := corner (k + 1) k (fst p) in
      let gk := head (k + 1) (gs_g st) in
      let y := lsq Hk gk in
      bind (guard (vdimb k y)) (fun _ =>
      let rho := vnorm (vsub gk (mvmul Hk y)) in
      ret {| gs_k := k; gs_H := fst p; gs_g := gs_g st; gs_basis := bs'; gs_c := gs_c st; gs_s := gs_s st;
             gs_rho := rho; gs_y := y; gs_err := gs_err st ++ [rho] |}))).
  Proof.
    unfold gm_iter, orthogonalise. cbv zeta. destruct (fold_left (gs_step _ _) _ _) as [H1 nb1].
    destruct (gm_reorth cfg && _); [destruct (fold_left (re_step _ _) _ _) as [H3 nb3]|]; reflexivity.
  Qed.

  Lemma vget_snoc (v : vec R) a i : vget (v ++ [a]) i = if Nat.eqb i (length v) then a else vget v i.
  Proof.
    unfold vget. destruct (Nat.eqb_spec i (length v)) as [->|Hne].
    - rewrite app_nth2, Nat.sub_diag by lia. reflexivity.
    - destruct (Nat.lt_ge_cases i (length v)); [apply app_nth1; assumption|].
      rewrite app_nth2 by lia. rewrite (nth_overflow v) by lia. apply nth_overflow. cbn. lia.
  Qed.

  Lemma iter_matches {S} k st (s0 : S) : matches k st -> okk k -> 0 < rrho k -> (k < km)%nat ->
    exists st', gm_iter cfg lsq Amul n st s0 = Ok st' s0 /\ matches (Datatypes.S k) st'.
  Proof.
    intros (M1 & M2 & M3 & M4 & M0 & M5 & M6 & M7) Ho Hr Hkm.
    pose proof (okk_next n Am Amul HA r0 Hinj Hr0 k Ho Hr) as Ho'.
    destruct Ho as [[Hg Hkr]|[-> Hb]]; [|rewrite rrho_0 in Hr; lra].
    pose proof (rho_unit n Am Amul r0 Hr0 k Hg Hr) as Hu.
    pose proof (ar_len _ _ _ _ _ (proj1 Hg)) as Lb.
    destruct (HA (bget (rf_bs (refs k)) k) (ar_dim _ _ _ _ _ (proj1 Hg) k (Nat.le_refl _))) as [LA EA].
    destruct (orth_ref n Am Amul HA r0 Hr0 (gm_reorth cfg) k (gs_H st) (km + 1) km Hg Hu M3 ltac:(lia) ltac:(lia)) as (P1 & P2 & P3 & P4 & P5 & P6).
    rewrite gm_iter_eq. rewrite M1, M2. cbv zeta. replace (k + 1)%nat with (Datatypes.S k) by lia.
    replace (Datatypes.S k - 1)%nat with k by lia.
    set (p := orthogonalise _ _ _ _ _) in *. clearbody p.
    assert (G1 : (length (rf_bs (refs k)) =? Datatypes.S k)%nat && (Datatypes.S k <? mrows (gs_H st))%nat && (Datatypes.S k <=? mcols (gs_H st))%nat
       && (Datatypes.S k <? length (gs_g st))%nat && (negb (gm_tri cfg) || (length (gs_c st) =? k)%nat && (length (gs_s st) =? k)%nat) = true).
    { rewrite Lb, (mdimb_rows _ _ _ M3), (mdimb_cols _ _ _ M3), M4, Nat.eqb_refl.
      rewrite (proj2 (Nat.ltb_lt (Datatypes.S k) (km + 1))) by lia. rewrite (proj2 (Nat.leb_le (Datatypes.S k) km)) by lia. cbn [andb].
      destruct (gm_tri cfg); [|reflexivity]. destruct M7 as (T1 & T2 & _). rewrite T1, T2, Nat.eqb_refl. reflexivity. }
    rewrite G1. unfold bind at 1, guard at 1. unfold bind at 1, guard at 1, vdimb. rewrite LA, Nat.eqb_refl. rewrite P2.
    assert (Err : forall rho, rho = rrho (Datatypes.S k) -> gs_err st ++ [rho] = map rrho (seq 0 (Datatypes.S (Datatypes.S k)))).
    { intros rho ->. rewrite M6. rewrite (seq_S (Datatypes.S k)), map_app. reflexivity. }
    destruct (gm_tri cfg) eqn:Et.
    - destruct M7 as (T1 & T2 & T3 & T4 & T5).
      destruct (rot_fold (Datatypes.S k) (gs_c st) (gs_s st) (fst p) (km + 1) km k P1 ltac:(lia) ltac:(lia) ltac:(lia) ltac:(lia)) as [R1 R2].
      set (H4 := fold_left _ _ (fst p)) in *. clearbody H4. replace (Datatypes.S k - 1)%nat with k in R2 by lia.
      assert (Fst : forall i, mget (fst p) i k = rf_h (refs (Datatypes.S k)) i k).
      { intros i. destruct (Nat.le_gt_cases i (Datatypes.S k)); [apply P4; assumption|].
        rewrite P6 by assumption. rewrite M0 by lia. symmetry. apply (ar_hess _ _ _ _ _ P3); lia. }
      assert (Col : forall i, mget H4 i k = rots (rf_c (refs k)) (rf_s (refs k)) k (fun l => ref_h n Amul (refs k) k l k) i).
      { intros i. rewrite R2, Nat.eqb_refl. rewrite (rots_ext _ _ (rf_c (refs k)) (rf_s (refs k)) k) by exact T3.
        f_equal. apply functional_extensionality. exact Fst. }
      assert (Ea : mget H4 k k = ref_a n Amul (refs k) k) by apply Col.
      assert (Eb : mget H4 (Datatypes.S k) k = ref_b n Amul (refs k) k) by (rewrite Col; unfold ref_b; replace (k + 1)%nat with (Datatypes.S k) by lia; reflexivity).
      rewrite Ea, Eb. set (a := ref_a n Amul (refs k) k). set (b := ref_b n Amul (refs k) k).
      change (R_sqrt.sqrt (a * a + b * b)) with (ref_nu n Amul (refs k) k).
      unfold a, b. rewrite <- rf_c_new, <- rf_s_new. fold a b.
      set (ck := rf_c (refs (Datatypes.S k)) k). set (sk := rf_s (refs (Datatypes.S k)) k).
      rewrite (T5 k ltac:(lia)), (T5 (Datatypes.S k) ltac:(lia)).
      set (g' := vset _ _ _).
      assert (Eg : forall i, (i <= km)%nat -> vget g' i = rG (Datatypes.S k) i).
      { intros i Hi. unfold g'. rewrite vset_get by (rewrite vset_len, M4; lia). rewrite vset_get by (rewrite M4; lia).
        rewrite (rG_next n Amul r0 Hr0). replace (k + 1)%nat with (Datatypes.S k) by lia. fold ck sk.
        destruct (Nat.eqb_spec i (Datatypes.S k)), (Nat.eqb_spec i k); try lia; try reflexivity. apply T5. exact Hi. }
      eexists. split; [reflexivity|]. unfold matches. rewrite Et. cbn [gs_k gs_H gs_g gs_basis gs_c gs_s gs_rho gs_y gs_err].
      split; [reflexivity|]. split; [reflexivity|]. split; [apply mset_dim, mset_dim; exact R1|].
      split; [unfold g'; rewrite !vset_len; exact M4|]. split; [|split; [rewrite Eg by lia; reflexivity|split; [apply Err; rewrite Eg by lia; reflexivity|]]].
      + intros i j Hj. rewrite (mset_get (km + 1) km) by (try apply mset_dim; auto; lia). rewrite (mset_get (km + 1) km) by (auto; lia).
        destruct (Nat.eqb_spec j k); [lia|]. rewrite !andb_false_r, R2. destruct (Nat.eqb_spec j k); [lia|]. rewrite P5 by lia. apply M0. lia.
      + unfold tri_ok. cbn [gs_k gs_H gs_g gs_basis gs_c gs_s gs_rho gs_y gs_err].
        split; [rewrite app_length, T1; cbn; lia|]. split; [rewrite app_length, T2; cbn; lia|]. split; [|split].
        * intros i Hi. rewrite !vget_snoc, T1, T2. destruct (Nat.eqb_spec i k) as [->|Hne]; [split; reflexivity|].
          rewrite (proj1 (T3 i ltac:(lia))), (proj2 (T3 i ltac:(lia))). cbn [GmresReal2.refs ref_next rf_c rf_s].
          destruct (Nat.eqb_spec i k); [contradiction|split; reflexivity].
        * intros i j Hj Hi. rewrite (mset_get (km + 1) km) by (try apply mset_dim; auto; lia). rewrite (mset_get (km + 1) km) by (auto; lia).
          destruct (Nat.eq_dec j k) as [->|Hne].
          { rewrite Nat.eqb_refl, !andb_true_r. destruct (Nat.eqb_spec i (Datatypes.S k)) as [->|Hi'].
            - symmetry. apply (okk_fac n Am Amul r0 Hr0 _ Ho'); lia.
            - rewrite (rR_new n Amul r0 Hr0). destruct (Nat.eqb_spec i k) as [->|]; [reflexivity|]. destruct (Nat.eqb_spec i (k + 1)); [lia|]. apply Col. }
          { destruct (Nat.eqb_spec j k); [contradiction|]. rewrite !andb_false_r, R2. destruct (Nat.eqb_spec j k); [contradiction|].
            rewrite P5 by exact Hne. rewrite (rR_next n Am Amul r0 Hr0 k i j Hg) by lia. apply T4; lia. }
        * exact Eg.
    - destruct M7 as (T1 & T2 & T3 & T4).
      assert (Fst : forall i j, (j <= k)%nat -> (i <= km)%nat -> mget (fst p) i j = rf_h (refs (Datatypes.S k)) i j).
      { intros i j Hj Hi. destruct (Nat.eq_dec j k) as [->|].
        - destruct (Nat.le_gt_cases i (Datatypes.S k)); [apply P4; assumption|].
          rewrite P6 by assumption. rewrite M0 by lia. symmetry. apply (ar_hess _ _ _ _ _ P3); lia.
        - rewrite P5 by assumption. rewrite T1 by lia. symmetry. apply (ref_h_old n Am Amul r0 Hr0); [apply Hg|lia]. }
      set (Hk := corner _ _ (fst p)). set (gk := head _ (gs_g st)). set (K := Datatypes.S k) in *.
      assert (DH : mdimb (K + 1) K Hk = true) by apply mbuild_dim.
      assert (Lg : length gk = (K + 1)%nat) by apply vbuild_length.
      assert (EH : forall i j, (i < K + 1)%nat -> (j < K)%nat -> mget Hk i j = rf_h (refs K) i j).
      { intros i j Hi Hj. unfold Hk, corner. rewrite mbuild_get by assumption. apply Fst; unfold K in *; lia. }
      assert (Eg : forall i, (i < K + 1)%nat -> vget gk i = e0 (beta r0) i).
      { intros i Hi. unfold gk, head. rewrite vbuild_get by assumption. apply T2. unfold K in *. lia. }
      (* squared error of any coordinates *)
      assert (Sq : forall y, fdot (K + 1) (fsubv (vget gk) (fmv K (mget Hk) y)) (fsubv (vget gk) (fmv K (mget Hk) y)) =
                 Rsum K (fun i => (rG K i - fmv K (rR K) y i) * (rG K i - fmv K (rR K) y i)) + rrho K * rrho K).
      { intros y. rewrite <- (rotated n Am Amul r0 Hr0 K y Ho'). replace (K + 1)%nat with (Datatypes.S K) by lia.
        unfold fdot. apply Rsum_ext. intros i Hi. unfold fsubv. rewrite Eg by lia.
        replace (fmv K (mget Hk) y i) with (Rsum K (fun j => y j * rf_h (refs K) i j)); [reflexivity|].
        unfold fmv. apply Rsum_ext. intros j Hj. rewrite EH by lia. ring. }
      pose proof (okk_upper n Am Amul r0 Hr0 K Ho') as Up.
      destruct (Hlsq eq_refl (K + 1)%nat K Hk gk DH Lg) as [LL LM].
      { intros y Hy. apply (upper_inj K (rR K) y Up). intros i Hi.
        pose proof (rots_norm (rf_c (refs K)) (rf_s (refs K)) K (Datatypes.S K) (fun l => Rsum K (fun j => y j * rf_h (refs K) l j))
                     (proj1 (okk_fac n Am Amul r0 Hr0 K Ho')) ltac:(lia)) as E. cbv beta in E.
        rewrite (Rsum_zero (Datatypes.S K) (fun l => Rsum K (fun j => y j * rf_h (refs K) l j) * _)) in E.
        2:{ intros l Hl. specialize (Hy l ltac:(lia)). unfold fmv in Hy.
            rewrite (Rsum_ext K _ (fun j => mget Hk l j * y j)); [rewrite Hy; ring|]. intros j Hj. rewrite EH by lia. ring. }
        pose proof (Rsum_nonneg_0 _ _ (fun j _ => Rle_0_sqr _) E i ltac:(lia)) as Q. apply Rsqr_0_uniq in Q.
        rewrite (rots_sum _ _ K K y (fun j l => rf_h (refs K) l j)) in Q. rewrite <- Q. unfold fmv. apply Rsum_ext. intros j Hj. unfold rR. ring. }
      set (y := lsq Hk gk) in *.
      assert (RY : forall i, (i < K)%nat -> fmv K (rR K) (vget y) i = rG K i).
      { destruct (usolve_exact (mbuild K K (rR K)) (vbuild K (rG K)) K) as [_ US].
        { split; [intros i j Hji Hi|intros i Hi]; rewrite mbuild_get by lia; apply Up; assumption. }
        set (u := usolve _ _ K K) in US. specialize (LM (vget u)). cbv zeta beta in LM. rewrite !Sq in LM.
        rewrite (Rsum_zero K (fun i => (rG K i - fmv K (rR K) (vget u) i) * _)) in LM.
        2:{ intros i Hi. specialize (US i Hi). rewrite vbuild_get in US by exact Hi.
            replace (fmv K (rR K) (vget u) i) with (rG K i); [ring|]. rewrite <- US. unfold fmv. apply Rsum_ext. intros j Hj.
            rewrite mbuild_get by lia. reflexivity. }
        intros i Hi.
        assert (Z : Rsum K (fun i => (rG K i - fmv K (rR K) (vget y) i) * (rG K i - fmv K (rR K) (vget y) i)) = 0).
        { apply Rle_antisym; [lra|]. apply Rsum_nonneg. intros. apply Rle_0_sqr. }
        pose proof (Rsum_nonneg_0 _ _ (fun j _ => Rle_0_sqr _) Z i Hi) as Q. apply Rsqr_0_uniq in Q. lra. }
      assert (Erho : vnorm (vsub gk (mvmul Hk y)) = rrho K).
      { assert (S0 : vnorm (vsub gk (mvmul Hk y)) * vnorm (vsub gk (mvmul Hk y)) = rrho K * rrho K).
        { rewrite vnorm_sq. unfold vsub at 1. rewrite vbuild_length, Lg.
          assert (Lmv : length (mvmul Hk y) = (K + 1)%nat) by (unfold mvmul; rewrite vbuild_length; apply (mdimb_rows _ _ _ DH)).
          rewrite vsub_f by (rewrite Lg, Lmv; reflexivity). rewrite (mvmul_f (K + 1) K) by (auto; exact DH).
          rewrite Sq. rewrite Rsum_zero; [ring|]. intros i Hi. rewrite RY by exact Hi. ring. }
        apply Rsqr_inj; [apply vnorm_nonneg|apply Rabs_pos|exact S0]. }
      unfold bind, guard, vdimb. rewrite LL, Nat.eqb_refl.
      eexists. split; [reflexivity|]. unfold matches. rewrite Et. cbn [gs_k gs_H gs_g gs_basis gs_c gs_s gs_rho gs_y gs_err].
      split; [reflexivity|]. split; [reflexivity|]. split; [exact P1|]. split; [exact M4|].
      split; [intros i j Hj; rewrite P5 by (unfold K in *; lia); apply M0; unfold K in *; lia|].
      split; [exact Erho|]. split; [apply Err; exact Erho|].
      split; [|split; [|split]]; cbn [gs_k gs_H gs_g gs_basis gs_c gs_s gs_rho gs_y gs_err].
      + intros i j Hj Hi. apply Fst; [unfold K in *; lia|exact Hi].
      + exact T2.
      + exact LL.
      + exact RY.
  Qed.

  (** The iteration at which the loop stops depends on the reference recursion alone. *)
  Fixpoint stop (tol : R) (m k : nat) : nat :=
    match m with O => k | Datatypes.S m' => if Rltb tol (rrho k) then stop tol m' (Datatypes.S k) else k end.

  Lemma loop_matches {S} tol (s0 : S) : 0 <= tol -> forall m k st, matches k st -> okk k -> (k + m <= km)%nat ->
    exists st', gm_loop cfg lsq Amul n tol m st s0 = Ok st' s0 /\ matches (stop tol m k) st' /\ okk (stop tol m k).
  Proof.
    intros Ht. induction m as [|m IH]; intros k st Hm Ho Hkm; [exists st; cbn; auto|].
    cbn [gm_loop stop]. replace (gs_rho st) with (rrho k) by (symmetry; apply Hm).
    change (nltb tol (rrho k)) with (Rltb tol (rrho k)).
    destruct (Rltb tol (rrho k)) eqn:E; [|exists st; auto].
    apply Rltb_true in E. destruct (iter_matches k st s0 Hm Ho ltac:(lra) ltac:(lia)) as (st1 & E1 & Hm1).
    unfold bind. rewrite E1. apply IH; [exact Hm1| |lia]. apply (okk_next n Am Amul HA r0 Hinj Hr0 k Ho). lra.
  Qed.

  Lemma stop_spec tol m k : (k <= stop tol m k <= k + m)%nat /\ (rrho (stop tol m k) <= tol \/ stop tol m k = (k + m)%nat).
  Proof using Type.
    clear -k. revert k. induction m as [|m IH]; intros k; cbn [stop]; [split; [lia|right; lia]|].
    destruct (Rltb tol (rrho k)) eqn:E; [|apply Rltb_false in E; split; [lia|left; lra]].
    destruct (IH (Datatypes.S k)) as [I1 I2]. split; [lia|]. destruct I2 as [I2|I2]; [left; exact I2|right; lia].
  Qed.
  Lemma stop_before tol m k j : (k <= j < stop tol m k)%nat -> tol < rrho j.
  Proof using Type.
    clear -k. revert k. induction m as [|m IH]; intros k; cbn [stop]; [lia|].
    destruct (Rltb tol (rrho k)) eqn:E; [|lia]. apply Rltb_true in E. intros Hj.
    destruct (Nat.eq_dec j k) as [->|]; [exact E|]. apply (IH (Datatypes.S k)). lia.
  Qed.
  Lemma stop_okk tol m k j : 0 <= tol -> okk k -> (k <= j <= stop tol m k)%nat -> okk j.
  Proof.
    intros Ht. revert k. induction m as [|m IH]; intros k Ho; cbn [stop]; [intros; replace j with k by lia; exact Ho|].
    destruct (Rltb tol (rrho k)) eqn:E; [|intros; replace j with k by lia; exact Ho]. apply Rltb_true in E. intros Hj.
    destruct (Nat.eq_dec j k) as [->|]; [exact Ho|]. apply (IH (Datatypes.S k)); [|lia].
    apply (okk_next n Am Amul HA r0 Hinj Hr0 k Ho). lra.
  Qed.

  (** y solving R y = g. *)
  Lemma y_unique k y z : okk k -> (forall i, (i < k)%nat -> fmv k (rR k) y i = rG k i) ->
    (forall i, (i < k)%nat -> fmv k (rR k) z i = rG k i) -> forall i, (i < k)%nat -> y i = z i.
  Proof.
    intros Ho Hy Hz i Hi. enough (fsubv y z i = 0) by (unfold fsubv in *; lra).
    apply (upper_inj k (rR k) (fsubv y z) (okk_upper n Am Amul r0 Hr0 k Ho)); [|exact Hi].
    intros l Hl. rewrite fmv_sub. unfold fsubv. rewrite Hy, Hz by exact Hl. ring.
  Qed.
  Definition refy (k : nat) : vec R := usolve (mbuild k k (rR k)) (vbuild k (rG k)) k k.
  Lemma refy_ok k : okk k -> length (refy k) = k /\ forall i, (i < k)%nat -> fmv k (rR k) (vget (refy k)) i = rG k i.
  Proof.
    intros Ho. destruct (usolve_exact (mbuild k k (rR k)) (vbuild k (rG k)) k) as [UL US].
    { pose proof (okk_upper n Am Amul r0 Hr0 k Ho) as Up. split; [intros i j Hji Hi|intros i Hi]; rewrite mbuild_get by lia; apply Up; assumption. }
    split; [exact UL|]. intros i Hi. specialize (US i Hi). rewrite vbuild_get in US by exact Hi. rewrite <- US.
    unfold fmv. apply Rsum_ext. intros j Hj. rewrite mbuild_get by lia. reflexivity.
  Qed.
  Definition final_y (st : gm_st R) : vec R :=
    if gm_tri cfg then usolve (corner (gs_k st) (gs_k st) (gs_H st)) (head (gs_k st) (gs_g st)) (gs_k st) (gs_k st) else gs_y st.
  Lemma final_y_eq k st : (k <= km)%nat -> matches k st -> okk k -> final_y st = refy k.
  Proof.
    intros Hk (M1 & M2 & M3 & M4 & M0 & M5 & M6 & M7) Ho. unfold final_y. rewrite M1. destruct (refy_ok k Ho) as [L1 L2].
    destruct (gm_tri cfg).
    - destruct M7 as (_ & _ & _ & T4 & T5). unfold refy, corner, head. f_equal.
      + apply mbuild_ext. intros i j Hi Hj. apply T4; lia.
      + apply vbuild_ext. intros i Hi. apply T5. lia.
    - destruct M7 as (_ & _ & T3 & T4). apply vec_eq; [lia|]. apply functional_extensionality. intros i.
      destruct (Nat.lt_ge_cases i k); [apply (y_unique k); auto|]. rewrite !vget_out by lia. reflexivity.
  Qed.

  Lemma x_fold (y : vec R) bs x m : (forall j, (j < m)%nat -> length (bget bs j) = length x) ->
    length (fold_left (x_step y bs) (seq 0 m) x) = length x /\
    vget (fold_left (x_step y bs) (seq 0 m) x) = fadd (vget x) (comb m (vget y) (fun j => vget (bget bs j))).
  Proof.
    intros H. induction m as [|m IH].
    - split; [reflexivity|]. apply functional_extensionality. intros i. unfold fadd, comb. cbn [Rsum seq fold_left]. ring.
    - rewrite seq_S, fold_left_app. cbn [fold_left Nat.add]. destruct IH as [I1 I2]; [intros; apply H; lia|].
      set (x' := fold_left (x_step y bs) (seq 0 m) x) in *. clearbody x'. unfold x_step. split; [unfold vadd; rewrite vbuild_length; exact I1|].
      rewrite vadd_f by (unfold vscale; rewrite vbuild_length, I1, H; [reflexivity|lia]). rewrite vscale_f, I2, comb_S.
      apply functional_extensionality. intros i. unfold fadd, fscal. ring.
  Qed.
  (** The whole call, in terms of the reference recursion only. *)
  Lemma solve_ref {S} (b x : vec R) (k_max : Z) eps (s0 : S) : length b = n -> length x = n -> r0 = vsub b (Amul x) ->
    (0 <= k_max)%Z -> 0 <= eps -> km = Z.to_nat (Z.min k_max (Z.of_nat n)) ->
    let k := stop (eps * vnorm b) km 0 in
    okk k /\ (k <= km)%nat /\
    exists out, gm_solve cfg lsq Amul b x k_max eps s0 = Ok out s0 /\
      length (go_x out) = n /\
      vget (go_x out) = fadd (vget x) (comb k (vget (refy k)) (fun j => vget (bget (rf_bs (refs k)) j))) /\
      go_err out = map rrho (seq 0 (Datatypes.S k)) /\ go_basis out = rf_bs (refs k).
  Proof.
    intros Hb Hx Er Hkm He Ek k.
    assert (Ht : 0 <= eps * vnorm b) by (pose proof (vnorm_nonneg b); nra).
    assert (Lk : (k <= km)%nat) by (pose proof (stop_spec (eps * vnorm b) km 0); unfold k; lia).
    set (st0 := {| gs_k := 0; gs_H := mzero (km + 1) km; gs_g := vset (vzero (km + 1)) 0 (vnorm r0); gs_basis := [normalized r0];
                   gs_c := []; gs_s := []; gs_rho := vnorm r0; gs_y := []; gs_err := [vnorm r0] |}).
    assert (Hm0 : matches 0 st0).
    { unfold matches. cbn [gs_k gs_H gs_g gs_basis gs_c gs_s gs_rho gs_y gs_err st0].
      assert (Z0 : forall i, vget (vset (vzero (km + 1)) 0 (vnorm r0)) i = e0 (beta r0) i).
      { intros i. rewrite vset_get by (unfold vzero; rewrite vbuild_length; lia). unfold e0, beta.
        destruct (Nat.eqb i 0); [reflexivity|]. rewrite vzero_f. reflexivity. }
      split; [reflexivity|]. split; [reflexivity|]. split; [apply mbuild_dim|]. split; [rewrite vset_len; apply vbuild_length|].
      split; [|split; [|split]].
      - intros i j _. unfold mzero. rewrite mbuild_fun by reflexivity. reflexivity.
      - rewrite rrho_0. reflexivity.
      - cbn [seq map]. rewrite rrho_0. reflexivity.
      - destruct (gm_tri cfg).
        + unfold tri_ok. cbn [gs_k gs_H gs_g gs_basis gs_c gs_s gs_rho gs_y gs_err st0].
          split; [reflexivity|]. split; [reflexivity|]. split; [intros; lia|]. split; [intros; lia|]. intros i _. apply Z0.
        + unfold full_ok. cbn [gs_k gs_H gs_g gs_basis gs_c gs_s gs_rho gs_y gs_err st0].
          split; [intros; lia|]. split; [intros i _; apply Z0|]. split; [reflexivity|intros; lia]. }
    destruct (loop_matches (eps * vnorm b) s0 Ht km 0 st0 Hm0 (okk_0 n Am Amul r0 Hr0) ltac:(lia)) as (st & E & Hm & Ho).
    fold k in Hm, Ho. split; [exact Ho|]. split; [exact Lk|].
    destruct (HA x Hx) as [LA _].
    assert (Dx : forall j, (j < k)%nat -> length (bget (rf_bs (refs k)) j) = length x).
    { intros j Hj. rewrite Hx. destruct Ho as [[(Ha & _) _]|[E0 _]]; [apply (ar_dim _ _ _ _ _ Ha); lia|lia]. }
    pose proof (final_y_eq k st Lk Hm Ho) as Ey. unfold final_y in Ey. destruct Hm as (M1 & M2 & M3 & M4 & M0 & M5 & M6 & M7).
    destruct (x_fold (refy k) (rf_bs (refs k)) x k Dx) as [X1 X2].
    unfold gm_solve. rewrite Hx, Hb.
    rewrite bind_guard by (apply Z.leb_le; lia). rewrite bind_guard by (unfold vdimb; rewrite LA; apply Nat.eqb_refl).
    cbv zeta. rewrite <- Er, <- Ek. rewrite (bind_ok _ _ s0 s0 st E).
    rewrite bind_guard by (unfold vdimb; rewrite Hx, Nat.eqb_refl; apply orb_true_r).
    eexists. split; [reflexivity|]. cbn [go_x go_err go_basis]. rewrite M1 in Ey |- *. rewrite Ey, M2.
    split; [rewrite X1; exact Hx|]. split; [exact X2|]. split; [exact M6|reflexivity].
  Qed.
End Run.
