(** The example problems meet the hypotheses of the theorems about the solvers. *)
From Verif Require Import Prelude Scalar LinAlg DDP DDPSpec DDPSafe DDPHist DDPLimits Fmpc FmpcSafe FmpcHist Problems RLin LQ LQ2 LQ3 ProbSpec.
From Coq Require Import Reals Lra.

(** ** Sizes, for every scalar type *)
Section Sizes.
  Context {T : Type} {N : Num T}.
  Lemma vsub_len (x y : vec T) : length (vsub x y) = length x.
  Proof. apply vbuild_length. Qed.
  Lemma vcwise_len (x y : vec T) : length (vcwise x y) = length x.
  Proof. apply vbuild_length. Qed.
  Lemma mdiag_dim (v : vec T) n : length v = n -> mdimb n n (mdiag v) = true.
  Proof. intros <-. apply mbuild_dim. Qed.
  Lemma mid_dim n : mdimb n n (@mid T N n) = true.
  Proof. apply mbuild_dim. Qed.
  Lemma smooth_abs_len (v : vec T) : length (smooth_abs v) = length v.
  Proof. apply vbuild_length. Qed.
  Lemma smooth_abs_d_len (v : vec T) : length (smooth_abs_d v) = length v.
  Proof. apply vbuild_length. Qed.

  Lemma bip_wd (p : bip_par T) : well_dimensioned (bipedal p).
  Proof.
    split.
    - intros t x u Hx Hu. reflexivity.
    - intros t x u A B Hx Hu _ _. cbn. auto.
    - intros t x u A B Hx Hu _ _. cbn. auto.
    - intros t x u d A B Hx Hu (_ & _ & _) HA HB. cbn in *. repeat split; auto.
    - intros t x v A Hx Hv HA. cbn. auto.
  Qed.
  Lemma bip_ow (p : bip_par T) : overwrites (bipedal p).
  Proof. split; reflexivity. Qed.

  Lemma vert_wd (p : vert_par T) : length (vp_rx p) = 2%nat -> length (vp_tx p) = 2%nat -> well_dimensioned (vertical p).
  Proof.
    intros H1 H2. split.
    - intros t x u Hx Hu. cbn [vertical pb_stateEq pb_nx]. unfold vert_f. rewrite vadd_len. exact Hx.
    - intros t x u A B Hx Hu _ _. cbn [vertical pb_stateEqDeriv pb_nx vert_fd fst snd]. rewrite <- Hu. split.
      + apply mdiagadd_dim, mscale_dim. reflexivity.
      + apply mscale_dim, mbuild_dim.
    - intros t x u A B Hx Hu _ _. cbn [vertical pb_stateEqDeriv2 pb_nx vert_fd fst snd]. rewrite <- Hu. split.
      + apply mdiagadd_dim, mscale_dim. reflexivity.
      + apply mscale_dim, mbuild_dim.
    - intros t x u d A B Hx Hu Hd HA HB. cbn [vertical pb_runningCostDeriv pb_nx]. unfold vert_Ld. rewrite <- Hu in *.
      destruct (vp_smooth p); repeat split; cbn [dFx dFu dLx dLu dLxx dLuu dLxu]; try assumption; rewrite ?vcwise_len, ?vscale_len, ?vcwise_len, ?smooth_abs_d_len; try assumption; try reflexivity;
        try (apply mdiag_dim; assumption); try apply mzero_dim; apply mscale_dim.
      + apply mdiag_dim. unfold vabs2. rewrite vcwise_len, smooth_abs_d_len. reflexivity.
      + apply mid_dim.
    - intros t x v A Hx Hv HA. cbn [vertical pb_terminalCostDeriv pb_nx vert_phid fst snd]. rewrite vcwise_len. split; [exact H2|apply mdiag_dim, H2].
  Qed.
  Lemma vert_ow (p : vert_par T) : overwrites (vertical p).
  Proof. split; reflexivity. Qed.

  Lemma cent_diff_len (p : cent_par T) t x : length (cent_diff p t x) = 9%nat.
  Proof. unfold cent_diff. rewrite app_length, vsub_len. reflexivity. Qed.
  Lemma cent_wd (p : cent_par T) : length (cn_rx p) = 9%nat -> length (cn_tx p) = 9%nat -> well_dimensioned (centroidal p).
  Proof.
    intros H1 H2.
    assert (Hd : forall t (x u : vec T), mdimb 9 9 (fst (cent_fd p t x u)) = true /\ mdimb 9 (length u) (snd (cent_fd p t x u)) = true).
    { intros t x u. unfold cent_fd. destruct (cn_stance p t) as [V R0]. cbn [fst snd]. split.
      - apply mdiagadd_dim, mscale_dim, mbuild_dim.
      - apply mscale_dim, mbuild_dim. }
    split.
    - intros t x u Hx Hu. cbn [centroidal pb_stateEq pb_nx]. unfold cent_f. destruct (cn_stance p t). rewrite vadd_len. exact Hx.
    - intros t x u A B Hx Hu _ _. cbn [centroidal pb_stateEqDeriv pb_nx]. rewrite <- Hu. apply Hd.
    - intros t x u A B Hx Hu _ _. cbn [centroidal pb_stateEqDeriv2 pb_nx]. rewrite <- Hu. apply Hd.
    - intros t x u d A B Hx Hu _ HA HB. cbn [centroidal pb_runningCostDeriv pb_nx]. unfold cent_Ld, cent_Ld1. rewrite <- Hu in *.
      repeat split; cbn [dFx dFu dLx dLu dLxx dLuu dLxu]; try assumption; rewrite ?vcwise_len, ?vscale_len; try assumption; try reflexivity.
      + apply mdiag_dim, H1.
      + apply mscale_dim, mid_dim.
      + apply mzero_dim.
    - intros t x v A Hx Hv HA. cbn [centroidal pb_terminalCostDeriv pb_nx cent_phid fst snd]. unfold cent_phid1. rewrite vcwise_len.
      split; [exact H2|apply mdiag_dim, H2].
  Qed.
  Lemma cent_ow (p : cent_par T) : overwrites (centroidal p).
  Proof. split; reflexivity. Qed.

  Lemma cart_wd nsin ncos (p : cart_par T) : length (cr_rx p) = 4%nat -> length (cr_ru p) = 1%nat -> length (cr_tx p) = 4%nat ->
    well_dimensioned (cartpole nsin ncos p).
  Proof.
    intros H1 H2 H3. split.
    - intros t x u Hx Hu. cbn [cartpole pb_stateEq pb_nx]. unfold cart_f, cart_f_dt. rewrite vadd_len. exact Hx.
    - intros t x u A B Hx Hu _ _. cbn [cartpole pb_stateEqDeriv pb_nx]. unfold cart_fd. cbn [fst snd].
      split; [apply mdiagadd_dim|]; apply mscale_dim; reflexivity.
    - intros t x u A B Hx Hu _ _. cbn [cartpole pb_stateEqDeriv2 pb_nx]. unfold cart_fd. cbn [fst snd].
      split; [apply mdiagadd_dim|]; apply mscale_dim; reflexivity.
    - intros t x u d A B Hx Hu _ HA HB. cbn [cartpole pb_runningCostDeriv pb_nx cart_Ld nu_of pb_fixed_nu] in *.
      repeat split; cbn [dFx dFu dLx dLu dLxx dLuu dLxu]; try assumption; rewrite ?vcwise_len; try assumption.
      + apply mdiag_dim, H1.
      + apply mdiag_dim, H2.
    - intros t x v A Hx Hv HA. cbn [cartpole pb_terminalCostDeriv pb_nx cart_phid fst snd]. rewrite vcwise_len.
      split; [exact H3|apply mdiag_dim, H3].
  Qed.
  Lemma cart_ow nsin ncos (p : cart_par T) : overwrites (cartpole nsin ncos p).
  Proof. split; reflexivity. Qed.
  Lemma cart_wd_f nsin ncos (p : cart_par T) : length (cr_rx p) = 4%nat -> length (cr_ru p) = 1%nat -> length (cr_tx p) = 4%nat ->
    well_dimensioned_f (cartpole_f nsin ncos p).
  Proof.
    intros H1 H2 H3. split; [apply cart_wd; assumption|reflexivity| |reflexivity|reflexivity].
    intros t x u C D Hx Hu HC HD. split; reflexivity.
  Qed.
  Lemma cart_ow_f nsin ncos (p : cart_par T) : overwrites_f (cartpole_f nsin ncos p).
  Proof. split; reflexivity. Qed.

  Lemma osc_wd (dt : T) : well_dimensioned_f (oscillator dt).
  Proof.
    split; [|reflexivity| |reflexivity|reflexivity].
    - split.
      + intros t x u Hx Hu. cbn [oscillator fp_dp pb_stateEq pb_nx]. unfold osc_f_dt. rewrite vadd_len. exact Hx.
      + intros t x u A B Hx Hu _ _. split; reflexivity.
      + intros t x u A B Hx Hu _ _. split; reflexivity.
      + intros t x u d A B Hx Hu _ HA HB. cbn [oscillator fp_dp pb_runningCostDeriv pb_nx nu_of pb_fixed_nu] in *.
        repeat split; cbn [dFx dFu dLx dLu dLxx dLuu dLxu]; assumption.
      + intros t x v A Hx Hv HA. split; reflexivity.
    - intros t x u C D Hx Hu HC HD. split; reflexivity.
  Qed.
  Lemma osc_ow (dt : T) : overwrites_f (oscillator dt).
  Proof. split; reflexivity. Qed.
End Sizes.

(** ** The linear-quadratic ones, over the reals *)
Local Open Scope R_scope.
Lemma bip_lq (p : bip_par R) : lq_problem (bipedal p).
Proof.
  split.
  - reflexivity.
  - intros t x u x' u' old Fx Fu Lx Lu Lx' Lu' E _ _ i Hi. cbn [bipedal pb_nx nu_of pb_fixed_nu] in *.
    destruct x as [|a [|b [|]]]; try discriminate Lx. destruct u as [|v [|]]; try discriminate Lu.
    destruct x' as [|a' [|b' [|]]]; try discriminate Lx'. destruct u' as [|v' [|]]; try discriminate Lu'.
    cbn [bipedal pb_stateEqDeriv bip_fd] in E. injection E as <- <-.
    destruct i as [|[|]]; [| |lia]; cbn; unfold fsubv, vget, nhalf; cbn; ring.
  - intros t x u x' u' old Lx Lu Lxx Luu Lxu HLx HLu HLx' HLu' E _ _ _ _ _. cbn [bipedal pb_nx nu_of pb_fixed_nu] in *.
    destruct x as [|a [|b [|]]]; try discriminate HLx. destruct u as [|v [|]]; try discriminate HLu.
    destruct x' as [|a' [|b' [|]]]; try discriminate HLx'. destruct u' as [|v' [|]]; try discriminate HLu'.
    cbn [bipedal pb_runningCostDeriv bip_Ld bip_Ld1] in E. injection E as <- <- <- <- <-. cbv zeta. split.
    + intros i j Hi Hj. assert (i = 0%nat) as -> by lia. assert (j = 0%nat) as -> by lia. reflexivity.
    + cbn. unfold bip_L, sqr, fdot, fmv, fsubv, vget, nhalf. cbn. field.
  - intros t x x' old Vx Vxx HLx HLx' E _ _. cbn [bipedal pb_nx] in *.
    destruct x as [|a [|b [|]]]; try discriminate HLx. destruct x' as [|a' [|b' [|]]]; try discriminate HLx'.
    cbn [bipedal pb_terminalCostDeriv bip_phid bip_phid1] in E. injection E as <- <-. cbv zeta. split.
    + intros i j Hi Hj. destruct i as [|[|]]; [| |lia]; (destruct j as [|[|]]; [| |lia]); reflexivity.
    + cbn. unfold bip_phi, sqr, fdot, fmv, fsubv, vget, nhalf. cbn. field.
Qed.
Lemma bip_convex (p : bip_par R) : 0 <= bp_rvel p -> 0 < bp_rzmp p -> 0 <= bp_tpos p -> 0 <= bp_tvel p -> lq_convex (bipedal p).
Proof.
  intros H1 H2 H3 H4. split.
  - reflexivity.
  - intros t x u old Lx Lu Lxx Luu Lxu HLx HLu E. cbn [bipedal pb_nx nu_of pb_fixed_nu pb_runningCostDeriv bip_Ld bip_Ld1] in *.
    injection E as <- <- <- <- <-. cbv zeta. split.
    + intros y (i & Hi & Hy). assert (i = 0%nat) as -> by lia. pose proof (Rsqr_pos_lt _ Hy) as Hp. unfold Rsqr in Hp. unfold fdot, fmv. cbn. nra.
    + intros dx du. unfold fdot, fmv. cbn. pose proof (Rle_0_sqr (dx 1%nat)) as P1. pose proof (Rle_0_sqr (du 0%nat)) as P2. unfold Rsqr in *. nra.
  - intros t x old Lx y. cbn [bipedal pb_nx pb_terminalCostDeriv bip_phid snd]. unfold fdot, fmv. cbn.
    pose proof (Rle_0_sqr (y 0%nat)) as P1. pose proof (Rle_0_sqr (y 1%nat)) as P2. unfold Rsqr in *. nra.
Qed.

(** A diagonal quadratic form. *)
Lemma mv_diag (w : vec R) n (z : fvec) i : length w = n -> (i < n)%nat -> fmv n (mget (mdiag w)) z i = vget w i * z i.
Proof.
  intros Hw Hi. unfold fmv. rewrite (Rsum_single n _ i Hi).
  - rewrite mget_mdiag, Nat.eqb_refl by lia. reflexivity.
  - intros j Hj Hne. rewrite mget_mdiag by lia. destruct (Nat.eqb_spec i j); [congruence|ring].
Qed.
Lemma mv_sid c m (z : fvec) i : (i < m)%nat -> fmv m (mget (mscale c (@mid R RNum m))) z i = c * z i.
Proof.
  intros Hi. unfold fmv. rewrite (Rsum_single m _ i Hi).
  - unfold mscale. cbn [mid mbuild mrows mcols]. rewrite mbuild_get, mget_mid, Nat.eqb_refl by lia. numR. ring.
  - intros j Hj Hne. unfold mscale. cbn [mid mbuild mrows mcols]. rewrite mbuild_get, mget_mid by lia.
    destruct (Nat.eqb_spec i j); [congruence|]. numR. ring.
Qed.
Lemma mv_zero r c (z : fvec) i : fmv c (mget (@mzero R RNum r c)) z i = 0.
Proof. apply Rsum_zero. intros j Hj. unfold mzero. rewrite mbuild_fun by (intros; reflexivity). numR. ring. Qed.
Lemma diag_fsym (w : vec R) n : length w = n -> fsym n (mget (mdiag w)).
Proof.
  intros Hw i j Hi Hj. rewrite !mget_mdiag by lia. rewrite (Nat.eqb_sym j i). destruct (Nat.eqb_spec i j) as [->|]; reflexivity.
Qed.
Lemma sid_fsym c m : fsym m (mget (mscale c (@mid R RNum m))).
Proof.
  intros i j Hi Hj. unfold mscale. cbn [mid mbuild mrows mcols]. rewrite !mbuild_get, !mget_mid by lia. rewrite (Nat.eqb_sym j i). reflexivity.
Qed.
(** Weighted squared distance to a reference: expansion around [x]. *)
Lemma wquad (w r x x' : vec R) n : length w = n -> length x = n -> length x' = n ->
  (nhalf * dot w (vabs2 (vsub x' r)))%num = (nhalf * dot w (vabs2 (vsub x r)))%num
    + (fdot n (vget (vcwise w (vsub x r))) (fsubv (vget x') (vget x))
       + / 2 * fdot n (fsubv (vget x') (vget x)) (fmv n (mget (mdiag w)) (fsubv (vget x') (vget x)))).
Proof.
  intros Hw Hx Hx'.
  assert (L : forall y : vec R, length y = n -> length (vabs2 (vsub y r)) = n) by (intros y Hy; unfold vabs2; rewrite vcwise_len, vsub_len; exact Hy).
  rewrite !dot_R by (rewrite L; congruence). rewrite Hw.
  assert (E : fdot n (fsubv (vget x') (vget x)) (fmv n (mget (mdiag w)) (fsubv (vget x') (vget x)))
            = Rsum n (fun i => (fsubv (vget x') (vget x)) i * (vget w i * (fsubv (vget x') (vget x)) i))).
  { unfold fdot. apply Rsum_ext. intros i Hi. rewrite (mv_diag w n _ i Hw Hi). reflexivity. }
  rewrite E. unfold fdot, nhalf, nlit. numR. rewrite <- !Rsum_scal, <- !Rsum_plus. apply Rsum_ext. intros i Hi.
  unfold vabs2, vcwise, vsub. rewrite !vbuild_get by (rewrite ?vbuild_length; lia). unfold fsubv. numR. field.
Qed.
(** The same for a multiple of the squared norm. *)
Lemma squad c (u u' : vec R) m : length u = m -> length u' = m ->
  (nhalf * c * sqnorm u')%num = (nhalf * c * sqnorm u)%num
    + (fdot m (vget (vscale c u)) (fsubv (vget u') (vget u))
       + / 2 * fdot m (fsubv (vget u') (vget u)) (fmv m (mget (mscale c (@mid R RNum m))) (fsubv (vget u') (vget u)))).
Proof.
  intros H H'. unfold sqnorm. rewrite !dot_R by congruence. rewrite H, H'.
  assert (E : fdot m (fsubv (vget u') (vget u)) (fmv m (mget (mscale c (@mid R RNum m))) (fsubv (vget u') (vget u)))
            = Rsum m (fun i => (fsubv (vget u') (vget u)) i * (c * (fsubv (vget u') (vget u)) i))).
  { unfold fdot. apply Rsum_ext. intros i Hi. rewrite (mv_sid c m _ i Hi). reflexivity. }
  rewrite E. unfold fdot, nhalf, nlit. numR. rewrite <- !Rsum_scal, <- !Rsum_plus. apply Rsum_ext. intros i Hi.
  unfold vscale. rewrite !vbuild_get by (rewrite ?vbuild_length; lia). unfold fsubv. numR. field.
Qed.
Lemma fdot_mzero r c n m (y z : fvec) : fdot n y (fmv m (mget (@mzero R RNum r c)) z) = 0.
Proof.
  apply Rsum_zero. intros i Hi. unfold fmv. rewrite Rsum_zero; [ring|]. intros j Hj. unfold mzero. rewrite mbuild_fun by (intros; reflexivity). numR. ring.
Qed.

Lemma vert_lq (p : vert_par R) : length (vp_rx p) = 2%nat -> length (vp_tx p) = 2%nat -> vp_smooth p = false -> lq_problem (vertical p).
Proof.
  intros H1 H2 H3. split.
  - intros t x u Hx Hu. cbn [vertical pb_stateEq pb_nx]. unfold vert_f. rewrite vadd_len. exact Hx.
  - intros t x u x' u' old Fx Fu Lx Lu Lx' Lu' E _ _ i Hi. set (m := nu_of (vertical p) t) in *. cbn [vertical pb_nx] in *.
    destruct x as [|a [|b [|]]]; try discriminate Lx. destruct x' as [|a' [|b' [|]]]; try discriminate Lx'.
    cbn [vertical pb_stateEqDeriv] in E. unfold vert_fd in E. apply pair_equal_spec in E. destruct E as [<- <-]. rewrite Lu. cbn [vertical pb_stateEq].
    assert (Ef : forall i x u, (i < 2)%nat -> length x = 2%nat -> vget (vert_f p t x u) i = vget x i + vp_dt p * vget [vget x 1; nsum u / vp_mass p - grav] i).
    { intros k y w Hk Hy. unfold vert_f, vadd, vscale. rewrite vbuild_get by lia. rewrite vbuild_get by (cbn; lia). numR. reflexivity. }
    rewrite !Ef by (cbn; lia). rewrite !nsum_list, Lu, Lu'.
    assert (Es : fmv m (mget (mscale (vp_dt p) (mbuild 2 m (fun i j => if Nat.eqb i 0 then nzero else ndiv none (vp_mass p))))) (fsubv (vget u') (vget u)) i
               = (if Nat.eqb i 0 then 0 else vp_dt p * / vp_mass p) * (Rsum m (vget u') - Rsum m (vget u))).
    { rewrite <- Rsum_minus, <- Rsum_scal. unfold fmv. apply Rsum_ext. intros j Hj. unfold mscale. cbn [mbuild mrows mcols].
      rewrite !mbuild_get by lia. unfold fsubv. destruct (Nat.eqb i 0); numR; unfold Rdiv; ring. }
    rewrite Es. destruct i as [|[|]]; [| |lia]; cbn; unfold fsubv, vget; cbn; unfold Rdiv; ring.
  - intros t x u x' u' old Lx Lu Lxx Luu Lxu HLx HLu HLx' HLu' E _ _ _ _ _. set (m := nu_of (vertical p) t) in *.
    cbn [vertical pb_nx pb_runningCostDeriv pb_runningCost] in *. unfold vert_Ld in E. unfold vert_L. rewrite H3 in *.
    injection E as <- <- <- <- <-. rewrite HLu. cbv zeta. split; [apply sid_fsym|].
    rewrite (wquad (vp_rx p) (vert_rx p t) x x' 2 H1 HLx HLx'), (squad (vp_ru p) u u' m HLu HLu'), fdot_mzero. numR. ring.
  - intros t x x' old Vx Vxx HLx HLx' E _ _. cbn [vertical pb_nx pb_terminalCostDeriv pb_terminalCost] in *. unfold vert_phid in E. unfold vert_phi.
    injection E as <- <-. cbv zeta. split; [apply diag_fsym, H2|]. apply (wquad (vp_tx p) (vert_rx p t) x x' 2 H2 HLx HLx').
Qed.
Lemma diag_psd (w : vec R) n : length w = n -> (forall i, 0 <= vget w i) -> psd n (mget (mdiag w)).
Proof.
  intros Hw Hp y. unfold fdot. apply Rsum_nonneg. intros i Hi. rewrite (mv_diag w n y i Hw Hi).
  pose proof (Rle_0_sqr (y i)). unfold Rsqr in *. pose proof (Rmult_le_pos _ _ (Hp i) H). lra.
Qed.
Lemma vert_convex (p : vert_par R) : length (vp_rx p) = 2%nat -> length (vp_tx p) = 2%nat -> vp_smooth p = false ->
  (forall i, 0 <= vget (vp_rx p) i) -> 0 < vp_ru p -> (forall i, 0 <= vget (vp_tx p) i) -> lq_convex (vertical p).
Proof.
  intros H1 H2 H3 P1 P2 P3. split.
  - intros t x u old Hx Hu. exact Hu.
  - intros t x u old Lx Lu Lxx Luu Lxu HLx HLu E. set (m := nu_of (vertical p) t) in *. cbn [vertical pb_nx pb_runningCostDeriv] in *.
    unfold vert_Ld in E. rewrite H3 in *. injection E as <- <- <- <- <-. rewrite HLu. cbv zeta.
    assert (Eu : forall y, fdot m y (fmv m (mget (mscale (vp_ru p) (@mid R RNum m))) y) = Rsum m (fun i => vp_ru p * (y i * y i))).
    { intros y. unfold fdot. apply Rsum_ext. intros i Hi. rewrite (mv_sid _ m _ i Hi). ring. }
    assert (Hn : forall (y : fvec) i, 0 <= vp_ru p * (y i * y i)) by (intros y i; pose proof (Rle_0_sqr (y i)); unfold Rsqr in *; nra).
    split.
    + intros y (i & Hi & Hy). rewrite Eu. pose proof (Rsum_term_le m (fun i => vp_ru p * (y i * y i)) i (fun j _ => Hn y j) Hi) as Ht. cbv beta in Ht.
      pose proof (Rsqr_pos_lt _ Hy) as Hq. unfold Rsqr in Hq. pose proof (Rmult_lt_0_compat _ _ P2 Hq). eapply Rlt_le_trans; [exact H|exact Ht].
    + intros dx du. rewrite Eu, fdot_mzero. pose proof (diag_psd (vp_rx p) 2 H1 P1 dx) as Hd.
      assert (0 <= Rsum m (fun i => vp_ru p * (du i * du i))) by (apply Rsum_nonneg; intros; apply Hn). lra.
  - intros t x old Hx. apply (diag_psd (vp_tx p) 2 H2 P3).
Qed.
