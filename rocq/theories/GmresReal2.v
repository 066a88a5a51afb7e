(** GMRES in exact arithmetic: every run follows one reference recursion. *)
From Verif Require Import Prelude Scalar LinAlg RLin GmresLin Gmres GmresReal.
From Coq Require Import FunctionalExtensionality.
Open Scope R_scope.

Lemma vec_eq (u v : vec R) : length u = length v -> vget u = vget v -> u = v.
Proof.
  intros HL HE. apply (nth_ext u v nzero nzero HL). intros i _. exact (f_equal (fun f => f i) HE).
Qed.

(** The rotations of lines 139-147 act on column [q] only. *)
Lemma rot_fold k cl sl H r c m : mdimb r c H = true -> (0 < k)%nat -> (k <= c)%nat -> (m < k)%nat -> (k < r)%nat ->
  let H' := fold_left (rot_step k cl sl) (seq 0 m) H in
  mdimb r c H' = true /\
  forall i j, mget H' i j = if Nat.eqb j (k - 1) then rots (vget cl) (vget sl) m (fun l => mget H l (k - 1)) i else mget H i j.
Proof.
  intros HH Hk Hc Hm Hr. induction m as [|m IH]; cbn zeta.
  - cbn [seq fold_left rots]. split; [exact HH|]. intros i j. destruct (Nat.eqb_spec j (k - 1)) as [->|]; reflexivity.
  - rewrite seq_S, fold_left_app. cbn [fold_left Nat.add]. destruct (IH ltac:(lia)) as [I1 I2]. clear IH.
    set (H' := fold_left _ _ _) in *. clearbody H'. unfold rot_step. split; [apply mset_dim, mset_dim; exact I1|].
    intros i j. rewrite (mset_get r c) by (try apply mset_dim; auto; lia). rewrite (mset_get r c) by (auto; lia).
    rewrite !I2, !Nat.eqb_refl. cbn [rots]. unfold rot. numR.
    destruct (Nat.eqb_spec j (k - 1)) as [->|]; cbn [andb]; rewrite ?andb_true_r, ?andb_false_r; [|reflexivity].
    destruct (Nat.eqb_spec i (m + 1)), (Nat.eqb_spec i m); try lia; reflexivity.
Qed.

Definition e0 (beta : R) : fvec := fun i => if Nat.eqb i 0 then beta else 0.
Definition exact_lsq (lsq : mat R -> vec R -> vec R) : Prop :=
  forall r c A b, mdimb r c A = true -> length b = r ->
    (forall y, (forall i, (i < r)%nat -> fmv c (mget A) y i = 0) -> forall j, (j < c)%nat -> y j = 0) ->
    length (lsq A b) = c /\
    forall z, let e y := fsubv (vget b) (fmv c (mget A) y) in
      fdot r (e (vget (lsq A b))) (e (vget (lsq A b))) <= fdot r (e z) (e z).

(** ** Krylov spaces *)
Fixpoint kpow (n : nat) (A : fmat) (v : fvec) (j : nat) : fvec :=
  match j with O => v | S j' => fmv n A (kpow n A v j') end.
Definition span (m : nat) (U : nat -> fvec) (f : fvec) : Prop := exists y, f = comb m y U.

Lemma span_mono m p U f : (m <= p)%nat -> span m U f -> span p U f.
Proof.
  intros Hp [y ->]. exists (fun j => if Nat.ltb j m then y j else 0). symmetry. rewrite (comb_trunc m p) by
    (first [exact Hp | intros j Hj; destruct (Nat.ltb_spec j m); [lia|reflexivity]]).
  apply comb_ext; [|reflexivity]. intros j Hj. rewrite (proj2 (Nat.ltb_lt j m) Hj). reflexivity.
Qed.
Lemma span_add m U f g : span m U f -> span m U g -> span m U (fadd f g).
Proof.
  intros [y ->] [z ->]. exists (fun j => y j + z j). apply functional_extensionality. intros i. unfold fadd, comb.
  rewrite <- Rsum_plus. apply Rsum_ext. intros j _. ring.
Qed.
Lemma span_scal m U a f : span m U f -> span m U (fscal a f).
Proof.
  intros [y ->]. exists (fun j => a * y j). apply functional_extensionality. intros i. unfold fscal, comb.
  rewrite <- Rsum_scal. apply Rsum_ext. intros j _. ring.
Qed.
Lemma span_comb m p U y F : (forall j, (j < m)%nat -> span p U (F j)) -> span p U (comb m y F).
Proof.
  induction m as [|m IH]; intros H.
  - exists fzero. symmetry. apply comb_zero. reflexivity.
  - rewrite comb_S. apply span_add; [apply IH; intros; apply H; lia|]. apply span_scal, H. lia.
Qed.
Lemma span_in m U j : (j < m)%nat -> span m U (U j).
Proof.
  intros Hj. exists (fun l => if Nat.eqb l j then 1 else 0). apply functional_extensionality. intros i. unfold comb.
  rewrite (Rsum_single m _ j Hj); [rewrite Nat.eqb_refl; ring|]. intros l _ Hne. destruct (Nat.eqb_spec l j); [contradiction|ring].
Qed.
Lemma span_sub m U f g : span m U f -> span m U g -> span m U (fsubv f g).
Proof.
  intros Hf Hg. replace (fsubv f g) with (fadd f (fscal (-1) g)); [apply span_add; [exact Hf|apply span_scal; exact Hg]|].
  apply functional_extensionality. intros i. unfold fadd, fsubv, fscal. ring.
Qed.
Lemma span_trans m p U W f : span m U f -> (forall j, (j < m)%nat -> span p W (U j)) -> span p W f.
Proof. intros [y ->]. apply span_comb. Qed.
Lemma span_kpow n A v m f : span m (kpow n A v) f -> span (S m) (kpow n A v) (fmv n A f).
Proof.
  intros [y ->]. rewrite fmv_comb. apply span_comb. intros j Hj. change (fmv n A (kpow n A v j)) with (kpow n A v (S j)).
  apply span_in. lia.
Qed.

Section Ref.
  Variables (n : nat) (Am : fmat) (Amul : vec R -> vec R).
  Hypothesis HA : forall v, length v = n -> length (Amul v) = n /\ vget (Amul v) = fmv n Am (vget v).
  Variable r0 : vec R.
  Notation pw := (kpow n Am (vget r0)).
  (** A is injective on the Krylov space; implied by A nonsingular. *)
  Hypothesis Hinj : forall m y, (forall i, (i < n)%nat -> fmv n Am (comb m y pw) i = 0) ->
    forall i, (i < n)%nat -> comb m y pw i = 0.
  Hypothesis Hr0 : length r0 = n.

  Notation V bs := (fun j => vget (bget bs j)).

  Record ref := { rf_bs : list (vec R); rf_h : nat -> nat -> R; rf_c : fvec; rf_s : fvec }.
  Definition ref_nb (bs : list (vec R)) (k : nat) : vec R :=
    vbuild n (fsubv (vget (Amul (bget bs k)))
                (comb (S k) (fun l => fdot n (vget (Amul (bget bs k))) (vget (bget bs l))) (V bs))).
  Definition ref_h (r : ref) (k : nat) : nat -> nat -> R :=
    hext (rf_h r) k (hcol n (rf_bs r) k (Amul (bget (rf_bs r) k)) (vnorm (ref_nb (rf_bs r) k))).
  Definition ref_a (r : ref) (k : nat) : R := rots (rf_c r) (rf_s r) k (fun i => ref_h r k i k) k.
  Definition ref_b (r : ref) (k : nat) : R := rots (rf_c r) (rf_s r) k (fun i => ref_h r k i k) (k + 1)%nat.
  Definition ref_nu (r : ref) (k : nat) : R := R_sqrt.sqrt (ref_a r k * ref_a r k + ref_b r k * ref_b r k).
  Definition ref_next (r : ref) (k : nat) : ref :=
    {| rf_bs := rf_bs r ++ [normalized (ref_nb (rf_bs r) k)];
       rf_h := ref_h r k;
       rf_c := fun i => if Nat.eqb i k then ref_a r k / ref_nu r k else rf_c r i;
       rf_s := fun i => if Nat.eqb i k then - ref_b r k / ref_nu r k else rf_s r i |}.
  Fixpoint refs (k : nat) : ref :=
    match k with
    | O => {| rf_bs := [normalized r0]; rf_h := fun _ _ => 0; rf_c := fun _ => 0; rf_s := fun _ => 0 |}
    | S k' => ref_next (refs k') k'
    end.
  Definition beta : R := vnorm r0.
  Definition rG (k : nat) : fvec := rots (rf_c (refs k)) (rf_s (refs k)) k (e0 beta).
  Definition rR (k : nat) : fmat := fun i j => rots (rf_c (refs k)) (rf_s (refs k)) k (fun l => rf_h (refs k) l j) i.
  Definition rrho (k : nat) : R := Rabs (rG k k).

  Definition fac (k : nat) (h : nat -> nat -> R) (c s : fvec) : Prop :=
    (forall i, (i < k)%nat -> c i * c i + s i * s i = 1) /\
    (forall i j, (j < k)%nat -> (j < i)%nat -> rots c s k (fun l => h l j) i = 0) /\
    (forall i, (i < k)%nat -> rots c s k (fun l => h l i) i <> 0).
  Definition good (k : nat) : Prop :=
    arn n Am k (rf_bs (refs k)) (rf_h (refs k)) /\ fac k (rf_h (refs k)) (rf_c (refs k)) (rf_s (refs k)).
  Definition inkry (k : nat) : Prop := forall j, (j <= k)%nat -> span (S j) pw (vget (bget (rf_bs (refs k)) j)).
  Definition unit (k : nat) : Prop := fdot n (vget (bget (rf_bs (refs k)) k)) (vget (bget (rf_bs (refs k)) k)) = 1.

  Lemma rots_next k m f : (m <= k)%nat -> rots (rf_c (refs (S k))) (rf_s (refs (S k))) m f = rots (rf_c (refs k)) (rf_s (refs k)) m f.
  Proof.
    intros Hm. apply rots_ext. intros i Hi. cbn [refs ref_next rf_c rf_s]. destruct (Nat.eqb_spec i k); [lia|]. split; reflexivity.
  Qed.

  Lemma ref_h_old k i j : arn n Am k (rf_bs (refs k)) (rf_h (refs k)) -> (j < k)%nat -> ref_h (refs k) k i j = rf_h (refs k) i j.
  Proof.
    intros Ha Hj. unfold ref_h, hext. destruct (Nat.eqb_spec j k); [lia|]. destruct (Nat.eqb_spec i (k + 1)); [|reflexivity].
    symmetry. apply (ar_hess _ _ _ _ _ Ha); lia.
  Qed.

  (** What one orthogonalisation produces is the reference step. *)
  Lemma orth_ref reorth k H r c : good k -> unit k -> mdimb r c H = true -> (S k <= c)%nat -> (S k < r)%nat ->
    let p := orthogonalise Amul reorth (S k) (rf_bs (refs k)) H in
    mdimb r c (fst p) = true /\ snd p = ref_nb (rf_bs (refs k)) k /\
    arn n Am (S k) (rf_bs (refs (S k))) (rf_h (refs (S k))) /\
    (forall i, (i <= S k)%nat -> mget (fst p) i k = rf_h (refs (S k)) i k) /\
    (forall i j, j <> k -> mget (fst p) i j = mget H i j) /\
    (forall i, (S k < i)%nat -> mget (fst p) i k = mget H i k).
  Proof.
    intros (Ha & _) Hu HH Hc Hr p.
    destruct (orthogonalise_ok n Am Amul HA reorth k _ H _ r c Ha Hu HH Hc Hr) as (h' & A1 & A2 & A3 & A4 & _ & _ & _ & A8 & A9 & A10 & A11).
    fold p in A1, A2, A3, A4, A8, A9, A10, A11.
    assert (E : snd p = ref_nb (rf_bs (refs k)) k).
    { apply vec_eq; [unfold ref_nb; rewrite vbuild_length; exact A9|]. unfold ref_nb. rewrite A10. symmetry. apply vbuild_fun.
      intros i Hi. rewrite <- A10. apply vget_out. lia. }
    rewrite E in A2, A8. subst h'. split; [exact A1|]. split; [exact E|]. split; [exact A2|]. split; [exact A3|]. split; [exact A4|exact A11].
  Qed.

  Lemma kry_next k : arn n Am k (rf_bs (refs k)) (rf_h (refs k)) -> inkry k -> inkry (S k).
  Proof.
    intros Ha Hk j Hj. cbn [refs ref_next rf_bs]. pose proof (ar_len _ _ _ _ _ Ha) as Lb.
    destruct (Nat.eq_dec j (S k)) as [->|Hne]; [|rewrite bget_app by lia; apply Hk; lia].
    rewrite <- Lb, bget_last. destruct (normalized_scal (ref_nb (rf_bs (refs k)) k)) as [a ->]. apply span_scal.
    destruct (HA (bget (rf_bs (refs k)) k) (ar_dim _ _ _ _ _ Ha k (Nat.le_refl _))) as [LA EA].
    unfold ref_nb. rewrite vbuild_fun.
    - apply span_sub; [rewrite EA, Lb; apply span_kpow, Hk; lia|]. apply span_comb. intros l Hl. apply (span_mono (S l)); [lia|]. apply Hk. lia.
    - intros i Hi. unfold fsubv, comb. rewrite vget_out by lia. rewrite Rsum_zero; [ring|]. intros l Hl. rewrite vget_out; [ring|].
      rewrite (ar_dim _ _ _ _ _ Ha) by lia. exact Hi.
  Qed.

  (** The pivot of the new rotation never vanishes. *)
  Lemma ref_nu_pos k : good k -> unit k -> inkry k -> 0 < ref_nu (refs k) k.
  Proof.
    intros Hg Hu Hk. destruct Hg as (Ha & Hf).
    destruct (orth_ref true k (mzero (S (S k)) (S k)) (S (S k)) (S k) (conj Ha Hf) Hu) as (_ & _ & Ha' & _); [apply mzero_dim|lia|lia|].
    destruct Hf as (F1 & F2 & F3).
    set (c := rf_c (refs k)) in *. set (s := rf_s (refs k)) in *.
    destruct (Rle_or_lt (ref_nu (refs k) k) 0) as [Hn|Hn]; [exfalso|exact Hn].
    set (a := ref_a (refs k) k) in *. set (b := ref_b (refs k) k) in *.
    assert (Hab : a = 0 /\ b = 0).
    { assert (a * a + b * b <= 0). { destruct (Rle_or_lt (a * a + b * b) 0); [assumption|].
        assert (0 < ref_nu (refs k) k) by (apply R_sqrt.sqrt_lt_R0; assumption). lra. } split; nra. }
    destruct Hab as [Ea Eb].
    assert (Up : upper k (mget (mbuild k k (rR k)))).
    { split.
      - intros i j Hji Hi. rewrite mbuild_get by lia. apply F2; lia.
      - intros i Hi. rewrite mbuild_get by lia. apply F3. exact Hi. }
    set (col := rots c s k (fun i => ref_h (refs k) k i k)).
    destruct (usolve_exact (mbuild k k (rR k)) (vbuild k (fun i => - col i)) k Up) as [_ US].
    set (u := usolve _ _ k k) in *. set (y := fun j => if Nat.eqb j k then 1 else vget u j).
    set (h' := ref_h (refs k) k) in *.
    assert (Rz : forall i, (i < S (S k))%nat -> rots c s k (fun l => Rsum (S k) (fun j => y j * h' l j)) i = 0).
    { intros i Hi. rewrite (rots_sum c s k (S k) y (fun j l => h' l j)). rewrite Rsum_S.
      assert (Ek : y k = 1) by (unfold y; rewrite Nat.eqb_refl; reflexivity). rewrite Ek, Rmult_1_l.
      change (rots c s k (fun l => h' l k) i) with (col i).
      assert (Es : Rsum k (fun j => y j * rots c s k (fun l => h' l j) i) = Rsum k (fun j => rR k i j * vget u j)).
      { apply Rsum_ext. intros j Hj. unfold y. destruct (Nat.eqb_spec j k); [lia|].
        replace (fun l => h' l j) with (fun l => rf_h (refs k) l j); [unfold rR; fold c s; ring|].
        apply functional_extensionality. intros l. symmetry. apply ref_h_old; assumption. }
      rewrite Es. destruct (Nat.lt_ge_cases i k) as [Hik|Hik].
      - specialize (US i Hik). rewrite vbuild_get in US by exact Hik. unfold fmv in US.
        rewrite (Rsum_ext k _ (fun j => mget (mbuild k k (rR k)) i j * vget u j)); [lra|].
        intros j Hj. rewrite mbuild_get by lia. reflexivity.
      - rewrite Rsum_zero by (intros j Hj; unfold rR; fold c s; rewrite F2 by lia; ring).
        destruct (Nat.eq_dec i k) as [->|]; [change (col k) with a; lra|]. replace i with (k + 1)%nat by lia. change (col (k + 1)%nat) with b. lra. }
    assert (Rz' : forall i, (i < S (S k))%nat -> Rsum (S k) (fun j => y j * h' i j) = 0).
    { pose proof (rots_norm c s k (S (S k)) (fun l => Rsum (S k) (fun j => y j * h' l j)) F1 ltac:(lia)) as E. cbv beta in E.
      rewrite (Rsum_zero (S (S k))) in E by (intros i Hi; rewrite (Rz i Hi); ring).
      intros i Hi. symmetry in E. pose proof (Rsum_nonneg_0 _ _ (fun j _ => Rle_0_sqr _) E i Hi) as Q.
      apply Rsqr_0_uniq in Q. exact Q. }
    set (W := fun j => vget (bget (rf_bs (refs (S k))) j)).
    assert (AV : fmv n Am (comb (S k) y W) = fzero).
    { rewrite fmv_comb.
      rewrite (comb_ext (S k) y y (fun j => fmv n Am (W j)) (fun j => comb (S (S k)) (fun i => h' i j) W))
        by (first [reflexivity | intros j Hj; apply (ar_arn _ _ _ _ _ Ha' j Hj)]).
      rewrite comb_comb. apply comb_zero. exact Rz'. }
    pose proof (kry_next k Ha Hk) as Hk'.
    assert (Sp : span (S (S k)) pw (comb (S k) y W)).
    { apply span_comb. intros j Hj. apply (span_mono (S j)); [lia|]. apply Hk'. lia. }
    destruct Sp as [z Ez]. rewrite Ez in AV.
    assert (Z : forall i, (i < n)%nat -> comb (S k) y W i = 0) by (rewrite Ez; apply Hinj; intros i _; rewrite AV; reflexivity).
    assert (Y : y k = 0).
    { rewrite <- (ortho_coef n (S k) W y k (ar_orth _ _ _ _ _ Ha') ltac:(lia)).
      rewrite (fdot_ext n _ (W k) fzero (W k)) by (first [reflexivity | intros i Hi; apply Z; exact Hi]). apply fdot_0_l. }
    unfold y in Y. rewrite Nat.eqb_refl in Y. lra.
  Qed.

  Lemma rR_next k i j : good k -> (j < k)%nat -> rR (S k) i j = rR k i j.
  Proof.
    intros (Ha & F1 & F2 & F3) Hj. unfold rR. cbn [rots]. rewrite rots_next by lia.
    change (rf_h (refs (S k))) with (ref_h (refs k) k).
    replace (fun l => ref_h (refs k) k l j) with (fun l => rf_h (refs k) l j)
      by (apply functional_extensionality; intros l; symmetry; apply ref_h_old; assumption).
    rewrite rot_zero; [reflexivity| |]; apply F2; lia.
  Qed.
  Lemma rR_new k i : rR (S k) i k =
    if Nat.eqb i k then rf_c (refs (S k)) k * ref_a (refs k) k - rf_s (refs (S k)) k * ref_b (refs k) k
    else if Nat.eqb i (k + 1) then rf_s (refs (S k)) k * ref_a (refs k) k + rf_c (refs (S k)) k * ref_b (refs k) k
    else rots (rf_c (refs k)) (rf_s (refs k)) k (fun l => ref_h (refs k) k l k) i.
  Proof. unfold rR. cbn [rots]. rewrite rots_next by lia. reflexivity. Qed.
  Lemma rG_next k i : rG (S k) i =
    if Nat.eqb i k then rf_c (refs (S k)) k * rG k k - rf_s (refs (S k)) k * rG k (k + 1)%nat
    else if Nat.eqb i (k + 1) then rf_s (refs (S k)) k * rG k k + rf_c (refs (S k)) k * rG k (k + 1)%nat
    else rG k i.
  Proof. unfold rG. cbn [rots]. rewrite rots_next by lia. reflexivity. Qed.
  Lemma rG_above k i : (k < i)%nat -> rG k i = 0.
  Proof. intros H. unfold rG. rewrite rots_above by exact H. unfold e0. destruct (Nat.eqb_spec i 0); [lia|reflexivity]. Qed.
  Lemma rf_c_new k : rf_c (refs (S k)) k = ref_a (refs k) k / ref_nu (refs k) k.
  Proof. cbn [refs ref_next rf_c]. rewrite Nat.eqb_refl. reflexivity. Qed.
  Lemma rf_s_new k : rf_s (refs (S k)) k = - ref_b (refs k) k / ref_nu (refs k) k.
  Proof. cbn [refs ref_next rf_s]. rewrite Nat.eqb_refl. reflexivity. Qed.
  Lemma ref_nu_sq k : ref_nu (refs k) k * ref_nu (refs k) k = ref_a (refs k) k * ref_a (refs k) k + ref_b (refs k) k * ref_b (refs k) k.
  Proof. unfold ref_nu. apply R_sqrt.sqrt_sqrt. nra. Qed.

  Lemma good_next k : good k -> unit k -> inkry k -> good (S k) /\ inkry (S k).
  Proof.
    intros Hg Hu Hk. pose proof (ref_nu_pos k Hg Hu Hk) as Hn. pose proof (ref_nu_sq k) as Hsq.
    assert (Ha' : arn n Am (S k) (rf_bs (refs (S k))) (rf_h (refs (S k)))).
    { eapply (orth_ref true k (mzero (S (S k)) (S k)) (S (S k)) (S k) Hg Hu); [apply mzero_dim|lia|lia]. }
    split; [|apply kry_next; [apply Hg|exact Hk]]. split; [exact Ha'|].
    destruct Hg as (Ha & F1 & F2 & F3).
    set (a := ref_a (refs k) k) in *. set (b := ref_b (refs k) k) in *. set (nu := ref_nu (refs k) k) in *.
    split; [|split].
    - intros i Hi. destruct (Nat.eq_dec i k) as [->|Hne].
      + rewrite rf_c_new, rf_s_new. fold a b nu. replace (a / nu * (a / nu) + - b / nu * (- b / nu)) with ((a * a + b * b) / (nu * nu)) by (field; lra).
        rewrite <- Hsq. field. lra.
      + cbn [refs ref_next rf_c rf_s]. destruct (Nat.eqb_spec i k); [contradiction|]. apply F1. lia.
    - intros i j Hj Hji. change (rR (S k) i j = 0). destruct (Nat.eq_dec j k) as [->|Hne].
      + rewrite rR_new. destruct (Nat.eqb_spec i k); [lia|]. destruct (Nat.eqb_spec i (k + 1)).
        * rewrite rf_c_new, rf_s_new. fold a b nu. field. lra.
        * rewrite rots_above by lia. apply (ar_hess _ _ _ _ _ Ha'); lia.
      + rewrite rR_next by (first [lia | exact (conj Ha (conj F1 (conj F2 F3)))]). apply F2; lia.
    - intros i Hi. change (rR (S k) i i <> 0). destruct (Nat.eq_dec i k) as [->|Hne].
      + rewrite rR_new, Nat.eqb_refl, rf_c_new, rf_s_new. fold a b nu.
        replace (a / nu * a - - b / nu * b) with ((a * a + b * b) / nu) by (field; lra). rewrite <- Hsq.
        replace (nu * nu / nu) with nu by (field; lra). lra.
      + rewrite rR_next by (first [lia | exact (conj Ha (conj F1 (conj F2 F3)))]). apply F3. lia.
  Qed.

  Lemma rrho_next k : rrho (S k) = Rabs (rf_s (refs (S k)) k) * rrho k.
  Proof.
    unfold rrho. rewrite rG_next. destruct (Nat.eqb_spec (S k) k); [lia|]. replace (k + 1)%nat with (S k) by lia. rewrite Nat.eqb_refl.
    rewrite (rG_above k (S k)) by lia. rewrite <- Rabs_mult. f_equal. ring.
  Qed.
  Lemma rrho_mono k : good (S k) -> rrho (S k) <= rrho k.
  Proof.
    intros (_ & F1 & _). specialize (F1 k ltac:(lia)). rewrite rrho_next.
    assert (Rabs (rf_s (refs (S k)) k) <= 1) by (apply Rabs_le; nra).
    assert (0 <= rrho k) by apply Rabs_pos. nra.
  Qed.
  Lemma rrho_0 : rrho 0 = beta.
  Proof. unfold rrho, rG, e0. cbn. apply Rabs_right, Rle_ge, vnorm_nonneg. Qed.

  (** As long as the residual is positive the last basis vector is a unit vector. *)
  Lemma rho_unit k : good k -> 0 < rrho k -> unit k.
  Proof.
    intros (Ha & Hf) Hr. destruct (ar_unit _ _ _ _ _ Ha) as [Hu|(Hk & Hh & _)]; [exact Hu|exfalso].
    destruct k as [|k]; [lia|]. replace (S k - 1)%nat with k in Hh by lia.
    rewrite rrho_next, rf_s_new in Hr.
    assert (Eb : ref_b (refs k) k = 0) by (unfold ref_b; rewrite rots_above by lia; replace (k + 1)%nat with (S k) by lia; exact Hh).
    rewrite Eb in Hr. replace (- 0 / ref_nu (refs k) k) with 0 in Hr by (unfold Rdiv; ring). rewrite Rabs_R0 in Hr. lra.
  Qed.
  Lemma rho_full : good n -> rrho n = 0.
  Proof.
    intros Hg. destruct (Rle_or_lt (rrho n) 0) as [H|H]; [pose proof (Rabs_pos (rG n n)); unfold rrho in *; lra|exfalso].
    pose proof (rho_unit n Hg H) as Hu. destruct Hg as (Ha & _). unfold unit in Hu.
    rewrite (fdot_ext n _ (vget (bget (rf_bs (refs n)) n)) fzero (vget (bget (rf_bs (refs n)) n))) in Hu.
    - rewrite fdot_0_l in Hu. lra.
    - apply (ortho_full n _ _ (ar_orth _ _ _ _ _ Ha)). intros l Hl. apply (ar_last _ _ _ _ _ Ha). exact Hl.
    - reflexivity.
  Qed.

  Lemma good_0 : 0 < beta -> good 0 /\ inkry 0.
  Proof.
    intros Hb. split; [split|].
    - split; cbn [refs rf_bs rf_h].
      + reflexivity.
      + intros j Hj. replace j with 0%nat by lia. cbn. rewrite normalized_len. exact Hr0.
      + intros i j Hi; lia.
      + intros j Hj; lia.
      + left. cbn [bget nth]. destruct (normalized_unit r0 n Hr0) as [[_ H]|[H _]]; [exact H|]. unfold beta in Hb. lra.
      + intros j Hj; lia.
      + intros i j Hj; lia.
    - split; [|split]; intros; lia.
    - intros j Hj. replace j with 0%nat by lia. cbn [refs rf_bs bget nth]. destruct (normalized_scal r0) as [a ->].
      apply span_scal. apply (span_in 1 pw 0). lia.
  Qed.

  (** The state of knowledge that every prefix of a run establishes. *)
  Definition okk (k : nat) : Prop := (good k /\ inkry k) \/ (k = 0%nat /\ beta = 0).
  Lemma okk_0 : okk 0.
  Proof.
    destruct (Req_dec beta 0) as [H|H]; [right; split; [reflexivity|exact H]|left]. apply good_0.
    pose proof (vnorm_nonneg r0). unfold beta in *. lra.
  Qed.
  Lemma okk_next k : okk k -> 0 < rrho k -> okk (S k).
  Proof.
    intros [[Hg Hk]|[-> Hb]] Hr; [left; apply good_next; auto; apply rho_unit; auto|]. rewrite rrho_0, Hb in Hr. lra.
  Qed.
  Lemma okk_fac k : okk k -> fac k (rf_h (refs k)) (rf_c (refs k)) (rf_s (refs k)).
  Proof. intros [[Hg _]|[-> _]]; [apply Hg|]. split; [|split]; intros; lia. Qed.
  Lemma okk_upper k : okk k -> upper k (rR k).
  Proof. intros H. destruct (okk_fac k H) as (F1 & F2 & F3). split; [intros i j Hji Hi; apply F2; lia|exact F3]. Qed.

  (** Squared residual of x0 + V y, for any coordinates y. *)
  Lemma rotated k y : okk k -> let z := fun i => e0 beta i - Rsum k (fun j => y j * rf_h (refs k) i j) in
    Rsum (S k) (fun i => z i * z i) = Rsum k (fun i => (rG k i - fmv k (rR k) y i) * (rG k i - fmv k (rR k) y i)) + rrho k * rrho k.
  Proof.
    intros Ho z. destruct (okk_fac k Ho) as (F1 & F2 & F3).
    rewrite <- (rots_norm (rf_c (refs k)) (rf_s (refs k)) k (S k) z F1 ltac:(lia)).
    assert (E : forall i, rots (rf_c (refs k)) (rf_s (refs k)) k z i = rG k i - fmv k (rR k) y i).
    { intros i. change z with (fsubv (e0 beta) (fun l => Rsum k (fun j => y j * rf_h (refs k) l j))). rewrite rots_sub.
      rewrite (rots_sum _ _ k k y (fun j l => rf_h (refs k) l j)). unfold fsubv, rG. f_equal. unfold fmv. apply Rsum_ext. intros j Hj. unfold rR. ring. }
    rewrite Rsum_S, !E. f_equal.
    - apply Rsum_ext. intros i Hi. rewrite E. reflexivity.
    - unfold fmv. rewrite (Rsum_zero k) by (intros j Hj; unfold rR; rewrite F2 by lia; ring). unfold rrho.
      rewrite Rminus_0_r. rewrite <- Rabs_mult. rewrite Rabs_right by nra. reflexivity.
  Qed.
  Lemma res_id k y : okk k -> let res := fsubv (vget r0) (fmv n Am (comb k y (V (rf_bs (refs k))))) in
    fdot n res res = Rsum k (fun i => (rG k i - fmv k (rR k) y i) * (rG k i - fmv k (rR k) y i)) + rrho k * rrho k.
  Proof.
    intros Ho res. rewrite <- (rotated k y Ho). destruct Ho as [[(Ha & _) _]|[-> Hb]].
    - apply (residual n Am k _ _ (vget r0) beta y Ha).
      assert (E : bget (rf_bs (refs k)) 0 = normalized r0).
      { clear. induction k as [|k IH]; [reflexivity|]. cbn [refs ref_next rf_bs].
        destruct (rf_bs (refs k)) as [|v l] eqn:E; [|cbn in *; exact IH].
        exfalso. destruct k; cbn in E; [discriminate|]. destruct (rf_bs (refs k)); discriminate. }
      rewrite E. apply normalized_f.
    - unfold res. cbn [comb]. replace (comb 0 y _) with fzero by reflexivity. rewrite fmv_0, (vnorm_0 r0 Hb).
      rewrite (fdot_ext n _ _ fzero fzero) by (intros; unfold fsubv, fzero; ring). rewrite fdot_0_l. unfold e0. rewrite Hb. cbn. ring.
  Qed.
End Ref.
