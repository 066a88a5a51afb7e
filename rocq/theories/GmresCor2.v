(** Consequences for gm_solve in the vocabulary of GmresSpec. *)
From Verif Require Import Prelude Scalar LinAlg RLin GmresLin Gmres GmresReal GmresReal2 GmresReal3 GmresSpec GmresCor.
From Coq Require Import FunctionalExtensionality.
Open Scope R_scope.

Lemma pow_in n Am Amul r0 k : length r0 = n -> good n Am Amul r0 k -> forall j, (j < k)%nat ->
  span (S j) (fun i => vget (bget (rf_bs (refs n Amul r0 k)) i)) (kpow n Am (vget r0) j).
Proof.
  intros Hr (Ha & _). induction j as [|j IH]; intros Hj.
  - cbn [kpow]. rewrite (normalized_f r0).
    assert (E : bget (rf_bs (refs n Amul r0 k)) 0 = normalized r0).
    { clear. induction k as [|k IH]; [reflexivity|]. cbn [refs ref_next rf_bs].
      destruct (rf_bs (refs n Amul r0 k)) as [|v l] eqn:E; [|cbn in *; exact IH].
      exfalso. destruct k; cbn in E; [discriminate|]. destruct (rf_bs (refs n Amul r0 k)); discriminate. }
    rewrite <- E. apply span_scal. apply (span_in 1 (fun i => vget (bget (rf_bs (refs n Amul r0 k)) i)) 0). lia.
  - cbn [kpow]. destruct (IH ltac:(lia)) as [y Ey]. rewrite Ey, fmv_comb. apply span_comb. intros i Hi.
    rewrite (ar_arn _ _ _ _ _ Ha i ltac:(lia)). apply (span_mono (i + 2)); [lia|].
    exists (fun l => rf_h (refs n Amul r0 k) l i). apply comb_trunc; [lia|]. intros l Hl. apply (ar_hess _ _ _ _ _ Ha); lia.
Qed.

Section S.
  Variables (n : nat) (f : list R -> list R) (b x : list R) (k_max : Z) (eps : R).
  Hypothesis Hf : linear n f.
  Hypothesis Hb : length b = n.
  Hypothesis Hx : length x = n.
  Hypothesis Hk : (0 <= k_max)%Z.
  Hypothesis He : 0 <= eps.
  Let r := lsub b (f x).
  Hypothesis Hi : injective_on_krylov n f r.

  Notation Am := (Amat n f).
  Let km := Z.to_nat (Z.min k_max (Z.of_nat n)).
  Let tol := eps * nrm b.
  (** Number of iterations, residual norms, basis and solution of the run. *)
  Definition ksol : nat := stop n f r tol km 0.
  Definition rhos : nat -> R := rrho n f r.
  Definition bass : list (list R) := rf_bs (refs n f r ksol).
  Definition ysol : list R := refy n f r ksol.

  Lemma Lr : length r = n.
  Proof. apply lsub_len; [exact Hb|apply Hf; exact Hx]. Qed.
  Definition HAl := lin_mat n f Hf.
  Definition Hinjl := inj_fun n f Hf r Lr Hi.

  Lemma run cfg lsq {S} (s0 : S) : (gm_tri cfg = false -> exact_lsq lsq) ->
    exists out, gm_solve cfg lsq f b x k_max eps s0 = Ok out s0 /\
      length (go_x out) = n /\
      vget (go_x out) = fadd (vget x) (comb ksol (vget ysol) (fun j => vget (bget bass j))) /\
      go_err out = map rhos (seq 0 (Datatypes.S ksol)) /\ go_basis out = bass.
  Proof.
    intros Hl. destruct (solve_ref n Am f HAl r Hinjl Lr cfg lsq Hl km b x k_max eps s0 Hb Hx) as (_ & _ & out & E); auto.
    - apply lsub_vsub. rewrite Hb. symmetry. apply Hf. exact Hx.
    - exists out. unfold ysol, bass, ksol, tol. rewrite nrm_vnorm. exact E.
  Qed.
  Lemma ksol_okk : okk n Am f r ksol.
  Proof.
    assert (Ht : 0 <= tol) by (unfold tol; rewrite nrm_vnorm; pose proof (vnorm_nonneg b); nra).
    pose proof (stop_spec n f r tol km 0) as [[A B] _].
    apply (stop_okk n Am f HAl r Hinjl Lr tol km 0 ksol Ht (okk_0 n Am f r Lr)). unfold ksol. lia.
  Qed.
  Lemma ksol_le : (ksol <= km)%nat.
  Proof. pose proof (stop_spec n f r tol km 0). unfold ksol. lia. Qed.
  Lemma ksol_stop : rhos ksol <= tol \/ ksol = km.
  Proof. pose proof (stop_spec n f r tol km 0) as [_ H]. unfold ksol, rhos. exact H. Qed.
  Lemma ksol_before j : (j < ksol)%nat -> tol < rhos j.
  Proof. intros Hj. apply (stop_before n f r tol km 0 j). unfold ksol in Hj. lia. Qed.
  Lemma okk_le j : (j <= ksol)%nat -> okk n Am f r j.
  Proof.
    intros Hj. assert (Ht : 0 <= tol) by (unfold tol; rewrite nrm_vnorm; pose proof (vnorm_nonneg b); nra).
    apply (stop_okk n Am f HAl r Hinjl Lr tol km 0 j Ht (okk_0 n Am f r Lr)). unfold ksol in Hj. lia.
  Qed.
  Lemma bas_len j : (j < ksol)%nat -> length (bget bass j) = n.
  Proof. intros Hj. destruct ksol_okk as [[(Ha & _) _]|[E _]]; [apply (ar_dim _ _ _ _ _ Ha); lia|lia]. Qed.

  (** Squared residual of x + V y. *)
  Lemma res_sq (z : list R) (y : fvec) : length z = n -> vget z = comb ksol y (fun j => vget (bget bass j)) ->
    nrm (lsub b (f (ladd x z))) * nrm (lsub b (f (ladd x z))) =
    Rsum ksol (fun i => (rG n f r ksol i - fmv ksol (rR n f r ksol) y i) * (rG n f r ksol i - fmv ksol (rR n f r ksol) y i)) + rhos ksol * rhos ksol.
  Proof.
    intros Lz Ez. assert (Lxz : length (ladd x z) = n) by (apply ladd_len; assumption). destruct (HAl _ Lxz) as [L1 E1]. destruct (HAl x Hx) as [L2 E2].
    rewrite nrm_vnorm, vnorm_sq, (lsub_len _ _ n) by auto. rewrite vget_lsub by lia. rewrite E1, vget_ladd by lia. rewrite fmv_add.
    assert (Er : fsubv (vget b) (fadd (fmv n Am (vget x)) (fmv n Am (vget z))) = fsubv (vget r) (fmv n Am (vget z))).
    { unfold r. rewrite vget_lsub by lia. rewrite E2. apply functional_extensionality. intros i. unfold fsubv, fadd. ring. }
    rewrite Er, Ez. apply (res_id n Am f r Lr ksol y ksol_okk).
  Qed.
  Lemma x_form out : length (go_x out) = n ->
    vget (go_x out) = fadd (vget x) (comb ksol (vget ysol) (fun j => vget (bget bass j))) ->
    let z := vbuild n (comb ksol (vget ysol) (fun j => vget (bget bass j))) in
    length z = n /\ vget z = comb ksol (vget ysol) (fun j => vget (bget bass j)) /\ go_x out = ladd x z.
  Proof.
    intros L E z. assert (Lz : length z = n) by apply vbuild_length.
    assert (Ez : vget z = comb ksol (vget ysol) (fun j => vget (bget bass j))).
    { unfold z. apply vbuild_fun. intros i Hin. apply Rsum_zero. intros j Hj. rewrite (vget_out (bget bass j)); [ring|]. rewrite bas_len by exact Hj. exact Hin. }
    split; [exact Lz|]. split; [exact Ez|]. apply vec_eq; [rewrite L, (ladd_len _ _ n); auto|]. rewrite vget_ladd by lia. rewrite E, Ez. reflexivity.
  Qed.
  Lemma rhos_nonneg k : 0 <= rhos k.
  Proof. apply Rabs_pos. Qed.
  Lemma x_residual out : length (go_x out) = n ->
    vget (go_x out) = fadd (vget x) (comb ksol (vget ysol) (fun j => vget (bget bass j))) ->
    nrm (lsub b (f (go_x out))) = rhos ksol.
  Proof.
    intros L E. destruct (x_form out L E) as (Lz & Ez & Ex). pose proof (res_sq _ _ Lz Ez) as Q. rewrite <- Ex in Q.
    destruct (refy_ok n Am f r Lr ksol ksol_okk) as [_ RY].
    rewrite Rsum_zero in Q by (intros i Hil; change (vget ysol) with (vget (refy n f r ksol)); rewrite RY by exact Hil; ring). rewrite Rplus_0_l in Q.
    apply Rsqr_inj; [rewrite nrm_vnorm; apply vnorm_nonneg|apply rhos_nonneg|exact Q].
  Qed.
  Lemma bas_kry j : (j < ksol)%nat -> span (S j) (kpow n Am (vget r)) (vget (bget bass j)).
  Proof. intros Hj. destruct ksol_okk as [[_ H]|[E _]]; [apply H; lia|lia]. Qed.
  Lemma minimal z : in_span n (krylov f r ksol) z -> rhos ksol <= nrm (lsub b (f (ladd x z))).
  Proof.
    intros Hz. assert (Lz : length z = n).
    { destruct Hz as (cs & _ & ->). apply lincomb_len. intros w Hw. apply (krylov_in n f Hf r ksol w Lr Hw). }
    apply (in_span_comb n f Hf r ksol z Lr Lz) in Hz.
    assert (Sp : span ksol (fun j => vget (bget bass j)) (vget z)).
    { destruct ksol_okk as [[Hg _]|[E _]].
      - apply (span_trans _ _ _ _ _ Hz). intros j Hj. apply (span_mono (S j)); [lia|]. apply (pow_in n Am f r ksol Lr Hg j Hj).
      - rewrite E in Hz |- *. destruct Hz as [y Ey]. exists y. rewrite Ey. reflexivity. }
    destruct Sp as [y Ey]. pose proof (res_sq z y Lz Ey) as Q.
    assert (0 <= Rsum ksol (fun i => (rG n f r ksol i - fmv ksol (rR n f r ksol) y i) * (rG n f r ksol i - fmv ksol (rR n f r ksol) y i))).
    { apply Rsum_nonneg. intros. apply Rle_0_sqr. }
    apply Rsqr_incr_0_var; [|rewrite nrm_vnorm; apply vnorm_nonneg]. unfold Rsqr. lra.
  Qed.
  Lemma bas_orth i j : (i < ksol)%nat -> (j < ksol)%nat -> ldot (bget bass i) (bget bass j) = if Nat.eqb i j then 1 else 0.
  Proof.
    intros Hil Hj. rewrite ldot_R by (rewrite !bas_len by assumption; reflexivity). rewrite bas_len by exact Hil.
    destruct ksol_okk as [[(Ha & _) _]|[E _]]; [apply (ar_orth _ _ _ _ _ Ha); assumption|lia].
  Qed.
  Lemma bas_count : length bass = S ksol.
  Proof. destruct ksol_okk as [[(Ha & _) _]|[E _]]; [apply (ar_len _ _ _ _ _ Ha)|]. unfold bass. rewrite E. reflexivity. Qed.
  Lemma bas_last : length (bget bass ksol) = n /\ (rhos ksol <> 0 -> ldot (bget bass ksol) (bget bass ksol) = 1) /\
    forall j, (j < ksol)%nat -> ldot (bget bass ksol) (bget bass j) = 0.
  Proof.
    assert (L : length (bget bass ksol) = n).
    { destruct ksol_okk as [[(Ha & _) _]|[E _]]; [apply (ar_dim _ _ _ _ _ Ha); lia|]. unfold bass. rewrite E. cbn. rewrite normalized_len. exact Lr. }
    split; [exact L|]. split.
    - intros Hn. rewrite ldot_R, L by reflexivity. pose proof (rhos_nonneg ksol). destruct ksol_okk as [[Hg _]|[E Hb0]].
      + apply (rho_unit n Am f r Lr ksol Hg). unfold rhos in *. lra.
      + exfalso. apply Hn. unfold rhos. rewrite E, rrho_0. exact Hb0.
    - intros j Hj. rewrite ldot_R by (rewrite L, bas_len by exact Hj; reflexivity). rewrite L.
      destruct ksol_okk as [[(Ha & _) _]|[E _]]; [apply (ar_last _ _ _ _ _ Ha); exact Hj|lia].
  Qed.
  Lemma rhos_0 : rhos 0 = nrm r.
  Proof. unfold rhos. rewrite rrho_0, nrm_vnorm. reflexivity. Qed.
  Lemma rhos_mono j : (j < ksol)%nat -> rhos (S j) <= rhos j.
  Proof. intros Hj. destruct (okk_le (S j) ltac:(lia)) as [[Hg _]|[E _]]; [apply (rrho_mono n Am f r Lr j Hg)|lia]. Qed.
  Lemma rhos_small : (Z.of_nat n <= k_max)%Z -> rhos ksol <= eps * nrm b.
  Proof.
    intros Hn. destruct ksol_stop as [H|H]; [exact H|].
    assert (E0 : 0 <= eps * nrm b) by (rewrite nrm_vnorm; pose proof (vnorm_nonneg b); nra).
    assert (Ek : ksol = n) by (rewrite H; unfold km; lia).
    destruct ksol_okk as [[Hg _]|[E Hb0]].
    - unfold rhos. rewrite Ek in *. rewrite (rho_full n Am f r Lr Hg). exact E0.
    - unfold rhos. rewrite E, rrho_0. rewrite Hb0. exact E0.
  Qed.
  Lemma rhos_full : (Z.of_nat n <= k_max)%Z -> eps = 0 -> rhos ksol = 0.
  Proof.
    intros Hn E0. destruct ksol_stop as [H|H].
    - unfold tol in H. rewrite E0, Rmult_0_l in H. pose proof (rhos_nonneg ksol). lra.
    - assert (Ek : ksol = n) by (rewrite H; unfold km; lia).
      destruct ksol_okk as [[Hg _]|[E Hb0]].
      + unfold rhos. rewrite Ek in *. apply (rho_full n Am f r Lr Hg).
      + unfold rhos. rewrite E, rrho_0. exact Hb0.
  Qed.
End S.
