(** GMRES in exact arithmetic: Arnoldi process, rotations, residuals. *)
From Verif Require Import Prelude Scalar LinAlg RLin GmresLin Gmres.
From Coq Require Import FunctionalExtensionality.
Open Scope R_scope.

(** ** Element updates *)
Lemma mset_dim {T} {N : Num T} r c (A : mat T) i j a : mdimb r c A = true -> mdimb r c (mset A i j a) = true.
Proof. intros H. unfold mset. rewrite (mdimb_rows _ _ _ H), (mdimb_cols _ _ _ H). apply mbuild_dim. Qed.
Lemma mset_get r c (A : mat R) i j a k l : mdimb r c A = true -> (i < r)%nat -> (j < c)%nat ->
  mget (mset A i j a) k l = if Nat.eqb k i && Nat.eqb l j then a else mget A k l.
Proof.
  intros H Hi Hj. unfold mset. rewrite (mdimb_rows _ _ _ H), (mdimb_cols _ _ _ H).
  destruct (Nat.lt_ge_cases k r) as [Hk|Hk]; [destruct (Nat.lt_ge_cases l c) as [Hl|Hl]|].
  - apply mbuild_get; assumption.
  - rewrite (mget_outR r c) by (auto using mbuild_dim). rewrite (mget_outR r c A) by auto.
    destruct (Nat.eqb_spec l j); [lia|]. rewrite andb_false_r. reflexivity.
  - rewrite (mget_outR r c) by (auto using mbuild_dim). rewrite (mget_outR r c A) by auto.
    destruct (Nat.eqb_spec k i); [lia|]. reflexivity.
Qed.
Lemma vset_len {T} {N : Num T} (v : vec T) i a : length (vset v i a) = length v.
Proof. apply vbuild_length. Qed.
Lemma vset_get (v : vec R) i a l : (i < length v)%nat -> vget (vset v i a) l = if Nat.eqb l i then a else vget v l.
Proof.
  intros Hi. unfold vset. destruct (Nat.lt_ge_cases l (length v)).
  - apply vbuild_get; assumption.
  - rewrite !vget_out by (rewrite ?vbuild_length; assumption). destruct (Nat.eqb_spec l i); [lia|reflexivity].
Qed.

Lemma bget_app {T} (bs : list (vec T)) v j : (j < length bs)%nat -> bget (bs ++ [v]) j = bget bs j.
Proof. intros H. unfold bget. apply app_nth1. exact H. Qed.
Lemma bget_last {T} (bs : list (vec T)) v : bget (bs ++ [v]) (length bs) = v.
Proof. unfold bget. rewrite app_nth2, Nat.sub_diag by lia. reflexivity. Qed.

Lemma vnorm_R (v : vec R) : vnorm v = R_sqrt.sqrt (fdot (length v) (vget v) (vget v)).
Proof. unfold vnorm. rewrite sqnorm_R. reflexivity. Qed.
Lemma vnorm_sq (v : vec R) : vnorm v * vnorm v = fdot (length v) (vget v) (vget v).
Proof. rewrite vnorm_R. apply R_sqrt.sqrt_sqrt, fdot_self_nonneg. Qed.
Lemma vnorm_nonneg (v : vec R) : 0 <= vnorm v.
Proof. rewrite vnorm_R. apply R_sqrt.sqrt_pos. Qed.
Lemma vnorm_0 (v : vec R) : vnorm v = 0 -> vget v = fzero.
Proof.
  intros H. apply functional_extensionality. intros i. destruct (Nat.lt_ge_cases i (length v)) as [Hi|Hi]; [|apply vget_out; exact Hi].
  apply (fdot_self_0 (length v) (vget v)); [|exact Hi]. rewrite <- vnorm_sq, H. ring.
Qed.
Lemma normalized_len {T} {N : Num T} (v : vec T) : length (normalized v) = length v.
Proof. unfold normalized. destruct (_ <? _)%num; [apply vbuild_length|reflexivity]. Qed.
(** v = |v| * normalized v. *)
Lemma normalized_f (v : vec R) : vget v = fscal (vnorm v) (vget (normalized v)).
Proof.
  unfold normalized. destruct (nltb nzero (sqnorm v)) eqn:E.
  - numR. apply Rltb_true in E. rewrite sqnorm_R in E. apply functional_extensionality. intros i. unfold fscal.
    assert (0 < vnorm v) by (rewrite vnorm_R; apply R_sqrt.sqrt_lt_R0; exact E).
    destruct (Nat.lt_ge_cases i (length v)) as [Hi|Hi].
    + rewrite vbuild_get by exact Hi. change (R_sqrt.sqrt (sqnorm v)) with (vnorm v). field. lra.
    + rewrite !vget_out by (rewrite ?vbuild_length; exact Hi). ring.
  - numR. apply Rltb_false in E. rewrite sqnorm_R in E. pose proof (fdot_self_nonneg (length v) (vget v)).
    assert (E0 : vnorm v = 0). { rewrite vnorm_R. replace (fdot _ _ _) with 0 by lra. apply R_sqrt.sqrt_0. }
    rewrite E0, (vnorm_0 v E0). apply functional_extensionality. intros i. unfold fscal, fzero. ring.
Qed.
Lemma normalized_unit (v : vec R) n : length v = n -> (vnorm v <> 0 /\ fdot n (vget (normalized v)) (vget (normalized v)) = 1) \/
  (vnorm v = 0 /\ vget (normalized v) = fzero).
Proof.
  intros Hn. destruct (Req_dec (vnorm v) 0) as [H|H].
  - right. split; [exact H|]. unfold normalized. destruct (nltb nzero (sqnorm v)) eqn:E; [|apply vnorm_0; exact H].
    numR. apply Rltb_true in E. rewrite sqnorm_R, <- vnorm_sq, H in E. lra.
  - left. split; [exact H|]. pose proof (vnorm_sq v) as E. rewrite Hn in E. rewrite (normalized_f v) in E.
    rewrite fdot_scal_l, fdot_scal_r in E. set (d := fdot n _ _) in *. fold d.
    assert (E' : (vnorm v * vnorm v) * d = (vnorm v * vnorm v) * 1) by lra.
    apply Rmult_eq_reg_l in E'; [exact E'|]. apply Rmult_integral_contrapositive; auto.
Qed.

Lemma normalized_scal (v : vec R) : exists a, vget (normalized v) = fscal a (vget v).
Proof.
  destruct (normalized_unit v (length v) eq_refl) as [[H _]|[H E]].
  - exists (/ vnorm v). pose proof (normalized_f v) as F. apply functional_extensionality. intros i.
    apply (f_equal (fun f => f i)) in F. unfold fscal in *. rewrite F. field. exact H.
  - exists 0. rewrite E. apply functional_extensionality. intros i. unfold fscal, fzero. ring.
Qed.

(** ** Back substitution *)
Lemma usolve_rows (A : mat R) b n : forall m, (m <= n)%nat -> (forall i, (i < n)%nat -> mget A i i <> 0) ->
  length (usolve A b n m) = m /\
  forall p, (p < m)%nat -> mget A (n - m + p) (n - m + p) * vget (usolve A b n m) p +
    Rsum (m - 1 - p) (fun l => mget A (n - m + p) (n - m + p + 1 + l) * vget (usolve A b n m) (p + 1 + l)) = vget b (n - m + p).
Proof.
  induction m as [|m IH]; intros Hm Hd; [split; [reflexivity|intros; lia]|].
  destruct (IH ltac:(lia) Hd) as [IL IE]. split; [cbn [usolve length]; rewrite IL; reflexivity|].
  intros p Hp. cbn [usolve]. set (x := usolve A b n m) in *. destruct p as [|p].
  - rewrite Nat.add_0_r. change (vget (?a :: x) 0) with a. rewrite nsum_vbuild. numR.
    replace (S m - 1 - 0)%nat with m by lia. set (i := (n - S m)%nat).
    assert (Hi : mget A i i <> 0) by (apply Hd; unfold i; lia).
    rewrite (Rsum_ext m (fun l => mget A i (i + 1 + l) * vget (_ :: x) (0 + 1 + l)) (fun l => mget A i (i + 1 + l) * vget x l)) by reflexivity.
    field. exact Hi.
  - specialize (IE p ltac:(lia)). replace (n - S m + S p)%nat with (n - m + p)%nat by lia.
    replace (S m - 1 - S p)%nat with (m - 1 - p)%nat by lia. exact IE.
Qed.
Lemma usolve_exact (A : mat R) b n : upper n (mget A) -> length (usolve A b n n) = n /\
  forall i, (i < n)%nat -> fmv n (mget A) (vget (usolve A b n n)) i = vget b i.
Proof.
  intros [Hu Hd]. destruct (usolve_rows A b n n (Nat.le_refl _) Hd) as [HL HE]. split; [exact HL|].
  intros i Hi. specialize (HE i Hi). rewrite Nat.sub_diag in HE. cbn [Nat.add] in HE. rewrite <- HE.
  unfold fmv. set (x := usolve A b n n). replace n with (i + (1 + (n - 1 - i)))%nat at 1 by lia. rewrite !Rsum_app.
  rewrite Rsum_zero; [|intros j Hj; rewrite Hu by lia; ring]. cbn [Rsum]. rewrite Nat.add_0_r, !Rplus_0_l. f_equal.
  apply Rsum_ext. intros l Hl. replace (i + (1 + l))%nat with (i + 1 + l)%nat by lia. reflexivity.
Qed.

Section Arnoldi.
  Variables (n : nat) (Am : fmat) (Amul : vec R -> vec R).
  Hypothesis HA : forall v, length v = n -> length (Amul v) = n /\ vget (Amul v) = fmv n Am (vget v).

  Notation V bs := (fun j => vget (bget bs j)).

  (** What the Arnoldi process has established after [k] iterations; [h] is the Hessenberg matrix before rotations. *)
  Record arn (k : nat) (bs : list (vec R)) (h : nat -> nat -> R) : Prop := {
    ar_len : length bs = S k;
    ar_dim : forall j, (j <= k)%nat -> length (bget bs j) = n;
    ar_orth : ortho n k (V bs);
    ar_last : forall j, (j < k)%nat -> fdot n (vget (bget bs k)) (vget (bget bs j)) = 0;
    ar_unit : fdot n (vget (bget bs k)) (vget (bget bs k)) = 1 \/
              (0 < k)%nat /\ h k (k - 1)%nat = 0 /\ vget (bget bs k) = fzero;
    ar_arn : forall j, (j < k)%nat -> fmv n Am (vget (bget bs j)) = comb (S k) (fun i => h i j) (V bs);
    ar_hess : forall i j, (j < k)%nat -> (j + 1 < i)%nat -> h i j = 0
  }.

  Lemma arn_ortho k bs h : arn k bs h -> fdot n (vget (bget bs k)) (vget (bget bs k)) = 1 -> ortho n (S k) (V bs).
  Proof.
    intros H Hu i j Hi Hj. destruct (Nat.eq_dec i k) as [->|]; destruct (Nat.eq_dec j k) as [->|].
    - rewrite Nat.eqb_refl. exact Hu.
    - destruct (Nat.eqb_spec k j); [lia|]. apply (ar_last _ _ _ H). lia.
    - destruct (Nat.eqb_spec i k); [lia|]. rewrite fdot_comm. apply (ar_last _ _ _ H). lia.
    - apply (ar_orth _ _ _ H); lia.
  Qed.

  (** Gram-Schmidt: with an orthonormal basis the coefficients are the plain inner products. *)
  Lemma gs_fold k bs H w r c m : mdimb r c H = true -> (k <= c)%nat -> (0 < k)%nat -> (m <= k)%nat -> (k < r)%nat ->
    length w = n -> (forall j, (j < k)%nat -> length (bget bs j) = n) -> ortho n k (V bs) ->
    let p := fold_left (gs_step k bs) (seq 0 m) (H, w) in
    mdimb r c (fst p) = true /\ length (snd p) = n /\
    vget (snd p) = fsubv (vget w) (comb m (fun l => fdot n (vget w) (vget (bget bs l))) (V bs)) /\
    (forall i j, mget (fst p) i j = if Nat.eqb j (k - 1) && Nat.ltb i m then fdot n (vget w) (vget (bget bs i)) else mget H i j).
  Proof.
    intros HH Hkc Hk Hm Hkr Hw Hb Ho. induction m as [|m IH]; cbn zeta.
    - cbn [seq fold_left fst snd]. split; [exact HH|]. split; [exact Hw|]. split.
      + apply functional_extensionality. intros i. unfold fsubv, comb. cbn. ring.
      + intros i j. rewrite andb_false_r. reflexivity.
    - rewrite seq_S, fold_left_app. cbn [fold_left Nat.add].
      destruct (IH ltac:(lia)) as (I1 & I2 & I3 & I4). clear IH. destruct (fold_left _ _ _) as [H' nb]. cbn [fst snd] in *.
      assert (Eh : dot nb (bget bs m) = fdot n (vget w) (vget (bget bs m))).
      { rewrite dot_R, I2, I3, fdot_sub_l, fdot_comb_l. rewrite Rsum_zero; [ring|].
        intros j Hj. rewrite (Ho j m) by lia. destruct (Nat.eqb_spec j m); [lia|ring]. }
      cbn [gs_step]. rewrite Eh. cbn [fst snd]. split; [apply mset_dim; exact I1|].
      split; [unfold vsub; rewrite vbuild_length; exact I2|]. split.
      + rewrite vsub_f by (unfold vscale; rewrite vbuild_length, I2, Hb; [reflexivity|lia]). rewrite vscale_f, I3, comb_S.
        apply functional_extensionality. intros i. unfold fsubv, fadd, fscal. ring.
      + intros i j. rewrite (mset_get r c) by (auto; lia). rewrite I4.
        destruct (Nat.eqb_spec i m) as [->|Hne]; cbn [andb].
        * destruct (Nat.eqb j (k - 1)) eqn:Ej; cbn [andb]; [rewrite (proj2 (Nat.ltb_lt m (S m))) by lia; reflexivity|reflexivity].
        * replace (i <? S m)%nat with (i <? m)%nat; [reflexivity|].
          destruct (Nat.ltb_spec i m), (Nat.ltb_spec i (S m)); auto; lia.
  Qed.

  (** In exact arithmetic reorthogonalisation finds nothing to do. *)
  Lemma re_fold k bs H nb r c m : mdimb r c H = true -> (k <= c)%nat -> (0 < k)%nat -> (m <= k)%nat -> (k < r)%nat ->
    length nb = n -> vget nb = fzero -> (forall j, (j < k)%nat -> length (bget bs j) = n) ->
    let p := fold_left (re_step k bs) (seq 0 m) (H, nb) in
    mdimb r c (fst p) = true /\ length (snd p) = n /\ vget (snd p) = fzero /\ (forall i j, mget (fst p) i j = mget H i j).
  Proof.
    intros HH Hkc Hk Hm Hkr Hl Hz Hb. induction m as [|m IH]; cbn zeta; [cbn; auto|].
    rewrite seq_S, fold_left_app. cbn [fold_left Nat.add].
    destruct (IH ltac:(lia)) as (I1 & I2 & I3 & I4). clear IH. destruct (fold_left _ _ _) as [H' nb']. cbn [fst snd] in *.
    assert (Eh : dot nb' (bget bs m) = 0) by (rewrite dot_R, I3; apply fdot_0_l).
    cbn [re_step]. rewrite Eh. cbn [fst snd]. split; [apply mset_dim; exact I1|].
    split; [unfold vsub; rewrite vbuild_length; exact I2|]. split.
    - rewrite vsub_f by (unfold vscale; rewrite vbuild_length, I2, Hb; [reflexivity|lia]). rewrite vscale_f, I3.
      apply functional_extensionality. intros i. unfold fsubv, fscal, fzero. ring.
    - intros i j. rewrite (mset_get r c) by (auto; lia). rewrite <- I4. numR.
      destruct (Nat.eqb_spec i m) as [->|]; cbn [andb]; [|reflexivity]. destruct (Nat.eqb_spec j (k - 1)) as [->|]; [ring|reflexivity].
  Qed.

  Definition hcol (bs : list (vec R)) (k : nat) (w : vec R) (nbn : R) : nat -> R :=
    fun i => if Nat.leb i k then fdot n (vget w) (vget (bget bs i)) else if Nat.eqb i (k + 1) then nbn else 0.
  Definition hext (h : nat -> nat -> R) (k : nat) (col : nat -> R) : nat -> nat -> R :=
    fun i j => if Nat.eqb j k then col i else if Nat.eqb i (k + 1) then 0 else h i j.

  (** The part of an iteration shared by both variants: lines 98-133. *)
  Definition orthogonalise (reorth : bool) (k : nat) (bs : list (vec R)) (H : mat R) : mat R * vec R :=
    let Avk := Amul (bget bs (k - 1)) in
    let '(H1, nb1) := fold_left (gs_step k bs) (seq 0 k) (H, Avk) in
    let nbn := vnorm nb1 in
    let H2 := mset H1 k (k - 1) nbn in
    if reorth && ((vnorm Avk + nlit 1 1000 * nbn) =? vnorm Avk)%num
    then fold_left (re_step k bs) (seq 0 k) (H2, nb1) else (H2, nb1).

  Lemma orthogonalise_ok reorth k bs H h r c : arn k bs h -> fdot n (vget (bget bs k)) (vget (bget bs k)) = 1 ->
    mdimb r c H = true -> (S k <= c)%nat -> (S k < r)%nat ->
    let p := orthogonalise reorth (S k) bs H in
    exists h', mdimb r c (fst p) = true /\ arn (S k) (bs ++ [normalized (snd p)]) h' /\
      (forall i, (i <= S k)%nat -> mget (fst p) i k = h' i k) /\
      (forall i j, j <> k -> mget (fst p) i j = mget H i j) /\
      (forall i j, (j < k)%nat -> h' i j = if Nat.eqb i (k + 1) then 0 else h i j) /\
      0 <= h' (S k) k /\
      (h' (S k) k <> 0 -> fdot n (vget (normalized (snd p))) (vget (normalized (snd p))) = 1) /\
      h' = hext h k (hcol bs k (Amul (bget bs k)) (vnorm (snd p))) /\
      length (snd p) = n /\
      vget (snd p) = fsubv (vget (Amul (bget bs k))) (comb (S k) (fun l => fdot n (vget (Amul (bget bs k))) (vget (bget bs l))) (V bs)) /\
      (forall i, (S k < i)%nat -> mget (fst p) i k = mget H i k).
  Proof.
    intros Ha Hu HH Hc Hr. unfold orthogonalise. replace (S k - 1)%nat with k by lia.
    destruct (HA (bget bs k) (ar_dim _ _ _ Ha k (Nat.le_refl _))) as [LA EA].
    assert (Hb : forall j, (j < S k)%nat -> length (bget bs j) = n) by (intros j Hj; apply (ar_dim _ _ _ Ha); lia).
    pose proof (arn_ortho k bs h Ha Hu) as Ho.
    pose proof (gs_fold (S k) bs H (Amul (bget bs k)) r c (S k) HH Hc ltac:(lia) ltac:(lia) Hr LA Hb Ho) as G. cbn zeta in G.
    destruct (fold_left (gs_step (S k) bs) _ _) as [H1 nb1]. cbn [fst snd] in G. destruct G as (G1 & G2 & G3 & G4).
    set (nbn := vnorm nb1) in *. replace (S k - 1)%nat with k in * by lia.
    set (H2 := mset H1 (S k) k nbn).
    assert (D2 : mdimb r c H2 = true) by (apply mset_dim; exact G1).
    assert (E2 : forall i j, mget H2 i j = if Nat.eqb i (S k) && Nat.eqb j k then nbn
                   else if Nat.eqb j k && Nat.ltb i (S k) then fdot n (vget (Amul (bget bs k))) (vget (bget bs i)) else mget H i j).
    { intros i j. unfold H2. rewrite (mset_get r c) by (auto; lia). rewrite G4. reflexivity. }
    set (p := if reorth && _ then _ else _).
    assert (P : mdimb r c (fst p) = true /\ length (snd p) = n /\ vget (snd p) = vget nb1 /\ (forall i j, mget (fst p) i j = mget H2 i j)).
    { unfold p. destruct (reorth && _) eqn:E; [|cbn; auto]. apply andb_true_iff in E as [_ E]. numR. apply Reqb_true in E.
      assert (E0 : nbn = 0) by (unfold nbn in *; lra). assert (Z : vget nb1 = fzero) by (apply vnorm_0; exact E0).
      rewrite Z. apply (re_fold (S k) bs H2 nb1 r c (S k)); auto; lia. }
    clearbody p. destruct P as (P1 & P2 & P3 & P4).
    assert (En : vnorm (snd p) = nbn) by (unfold nbn; rewrite !vnorm_R, P2, P3, G2; reflexivity).
    set (h' := hext h k (hcol bs k (Amul (bget bs k)) (vnorm (snd p)))).
    assert (Hk' : forall i, h' i k = hcol bs k (Amul (bget bs k)) nbn i) by (intros i; unfold h', hext; rewrite Nat.eqb_refl, En; reflexivity).
    assert (Hj' : forall i j, j <> k -> h' i j = if Nat.eqb i (k + 1) then 0 else h i j).
    { intros i j Hj. unfold h', hext. destruct (Nat.eqb_spec j k); [contradiction|reflexivity]. }
    assert (Htop : h' (S k) k = nbn).
    { rewrite Hk'. unfold hcol. rewrite (proj2 (Nat.leb_gt (S k) k)) by lia. replace (k + 1)%nat with (S k) by lia. rewrite Nat.eqb_refl. reflexivity. }
    assert (Lb : length bs = S k) by apply (ar_len _ _ _ Ha).
    assert (B1 : forall j, (j <= k)%nat -> bget (bs ++ [normalized (snd p)]) j = bget bs j) by (intros; apply bget_app; lia).
    assert (B2 : bget (bs ++ [normalized (snd p)]) (S k) = normalized (snd p)) by (rewrite <- Lb; apply bget_last).
    assert (Unit : (nbn <> 0 /\ fdot n (vget (normalized (snd p))) (vget (normalized (snd p))) = 1) \/
                   (nbn = 0 /\ vget (normalized (snd p)) = fzero)).
    { rewrite <- En. apply normalized_unit. exact P2. }
    assert (Dec : vget nb1 = fscal nbn (vget (normalized (snd p)))) by (rewrite <- En, <- normalized_f, P3; reflexivity).
    assert (Orth : forall j, (j <= k)%nat -> fdot n (vget nb1) (vget (bget bs j)) = 0).
    { intros j Hj. rewrite G3, fdot_sub_l. rewrite (ortho_coef n (S k) (V bs) (fun l => fdot n (vget (Amul (bget bs k))) (vget (bget bs l))) j Ho) by lia. ring. }
    exists h'. split; [exact P1|]. split; [|split; [|split; [|split; [|split; [|split; [|split; [|split; [|split]]]]]]]].
    - split.
      + rewrite app_length, Lb. cbn. lia.
      + intros j Hj. destruct (Nat.eq_dec j (S k)) as [->|]; [rewrite B2, normalized_len; exact P2|rewrite B1 by lia; apply (ar_dim _ _ _ Ha); lia].
      + intros i j Hi Hj. rewrite !B1 by lia. apply Ho; assumption.
      + intros j Hj. rewrite B2, B1 by lia. destruct Unit as [[U1 U2]|[U1 U2]]; [|rewrite U2; apply fdot_0_l].
        specialize (Orth j ltac:(lia)). rewrite Dec, fdot_scal_l in Orth. apply Rmult_integral in Orth. destruct Orth as [E|E]; [contradiction|exact E].
      + rewrite B2. destruct Unit as [[U1 U2]|[U1 U2]]; [left; exact U2|right]. replace (S k - 1)%nat with k by lia.
        split; [lia|]. split; [rewrite Htop; exact U1|exact U2].
      + intros j Hj. destruct (Nat.eq_dec j k) as [->|Hne].
        * rewrite B1 by lia. rewrite <- EA. rewrite comb_S. rewrite B2, Htop, <- Dec, G3.
          rewrite (comb_ext (S k) (fun i => h' i k) (fun l => fdot n (vget (Amul (bget bs k))) (vget (bget bs l)))
                    (V (bs ++ [normalized (snd p)])) (V bs)).
          { apply functional_extensionality. intros i. unfold fadd, fsubv. ring. }
          { intros i Hi. rewrite Hk'. unfold hcol. rewrite (proj2 (Nat.leb_le i k)) by lia. reflexivity. }
          { intros i Hi. rewrite B1 by lia. reflexivity. }
        * rewrite B1 by lia. rewrite (ar_arn _ _ _ Ha j ltac:(lia)). rewrite (comb_S (S k)). cbv beta.
          rewrite Hj' by exact Hne. replace (k + 1)%nat with (S k) by lia. rewrite Nat.eqb_refl.
          rewrite (comb_ext (S k) (fun i => h i j) (fun i => h' i j) (V bs) (V (bs ++ [normalized (snd p)]))).
          { apply functional_extensionality. intros i. unfold fadd, fscal. ring. }
          { intros i Hi. rewrite Hj' by exact Hne. destruct (Nat.eqb_spec i (k + 1)); [lia|reflexivity]. }
          { intros i Hi. rewrite B1 by lia. reflexivity. }
      + intros i j Hj Hij. destruct (Nat.eq_dec j k) as [->|Hne].
        * rewrite Hk'. unfold hcol. rewrite (proj2 (Nat.leb_gt i k)) by lia. destruct (Nat.eqb_spec i (k + 1)); [lia|reflexivity].
        * rewrite Hj' by exact Hne. destruct (Nat.eqb_spec i (k + 1)); [reflexivity|]. apply (ar_hess _ _ _ Ha); lia.
    - intros i Hi. rewrite P4, E2, Nat.eqb_refl. destruct (Nat.eqb_spec i (S k)) as [->|]; cbn [andb].
      + symmetry. exact Htop.
      + rewrite (proj2 (Nat.ltb_lt i (S k))) by lia. rewrite Hk'. unfold hcol. rewrite (proj2 (Nat.leb_le i k)) by lia. reflexivity.
    - intros i j Hj. rewrite P4, E2. destruct (Nat.eqb_spec j k); [contradiction|]. rewrite andb_false_r. reflexivity.
    - intros i j Hj. apply Hj'. lia.
    - rewrite Htop. apply vnorm_nonneg.
    - rewrite Htop. intros Hn. destruct Unit as [[U1 U2]|[U1 U2]]; [exact U2|contradiction].
    - reflexivity.
    - exact P2.
    - rewrite P3. exact G3.
    - intros i Hi. rewrite P4, E2. destruct (Nat.eqb_spec i (S k)); [lia|]. cbn [andb].
      rewrite (proj2 (Nat.ltb_ge i (S k))) by lia. rewrite andb_false_r. reflexivity.
  Qed.

  (** Residual of a point of the affine Krylov space in the coordinates of the basis. *)
  Lemma residual k bs h r0 beta y : arn k bs h -> r0 = fscal beta (vget (bget bs 0)) ->
    let res := fsubv r0 (fmv n Am (comb k y (V bs))) in
    let z := fun i => (if Nat.eqb i 0 then beta else 0) - Rsum k (fun j => y j * h i j) in
    fdot n res res = Rsum (S k) (fun i => z i * z i).
  Proof.
    intros Ha Hr res z.
    assert (Er : res = comb (S k) z (V bs)).
    { unfold res. rewrite fmv_comb.
      rewrite (comb_ext k y y (fun j => fmv n Am (vget (bget bs j))) (fun j => comb (S k) (fun i => h i j) (V bs)))
        by (first [reflexivity | intros j Hj; apply (ar_arn _ _ _ Ha j Hj)]).
      rewrite comb_comb. apply functional_extensionality. intros l. unfold fsubv, comb.
      assert (Eb : fscal beta (vget (bget bs 0)) l = Rsum (S k) (fun i => (if Nat.eqb i 0 then beta else 0) * vget (bget bs i) l)).
      { rewrite (Rsum_single (S k) _ 0%nat) by (first [lia | intros j Hj Hne; destruct (Nat.eqb_spec j 0); [contradiction|ring]]). reflexivity. }
      rewrite Hr, Eb, <- Rsum_minus. apply Rsum_ext. intros i Hi. unfold z. ring. }
    rewrite Er. destruct (ar_unit _ _ _ Ha) as [Hu|(Hk & Hh & Hz)].
    - apply ortho_norm. apply (arn_ortho k bs h Ha Hu).
    - assert (Zk : z k = 0).
      { unfold z. destruct (Nat.eqb_spec k 0); [lia|]. rewrite Rsum_zero; [ring|]. intros j Hj.
        destruct (Nat.eq_dec j (k - 1)) as [->|]; [rewrite Hh; ring|rewrite (ar_hess _ _ _ Ha) by lia; ring]. }
      rewrite comb_S, Rsum_S, Zk. rewrite <- (ortho_norm n k (V bs) z (ar_orth _ _ _ Ha)).
      replace (fadd (comb k z (V bs)) (fscal 0 (vget (bget bs k)))) with (comb k z (V bs)); [ring|].
      apply functional_extensionality. intros i. unfold fadd, fscal. ring.
  Qed.
End Arnoldi.
