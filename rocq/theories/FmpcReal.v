(** The FMPC model on exact reals: step lengths, positivity, barrier parameter, KKT error. *)
From Coq Require Import Reals Lra Psatz.
From Verif Require Import Prelude Scalar LinAlg RLin DDP Fmpc FmpcProofs FmpcStep FmpcSpec.
Local Open Scope R_scope.

(** Rewrites the scalar operations without unfolding the vector ones. *)
Ltac opsR := change (@nadd R RNum) with Rplus in *; change (@nsub R RNum) with Rminus in *; change (@nmul R RNum) with Rmult in *;
  change (@ndiv R RNum) with Rdiv in *; change (@nzero R RNum) with 0 in *; change (@nsqrt R RNum) with sqrt in *.
Lemma some_inj {A} (a b : A) : Some a = Some b -> a = b. Proof. congruence. Qed.
Lemma frac1_fold (ps : list (R * R)) : forall a0, let a := fold_left frac1 ps a0 in
  a <= a0 /\ (forall p, In p ps -> snd p < 0 -> - (a * snd p) <= 995 / 1000 * fst p) /\
  (a = a0 \/ exists p, In p ps /\ snd p < 0 /\ - (a * snd p) = 995 / 1000 * fst p) /\
  (0 < a0 -> (forall p, In p ps -> 0 < fst p) -> 0 < a).
Proof.
  induction ps as [|p ps IH]; intros a0; cbn -[frac1].
  - split; [lra|]. split; [intros p []|]. split; [auto|]. auto.
  - specialize (IH (frac1 a0 p)). cbn zeta in IH. destruct IH as (H1 & H2 & H3 & H4).
    set (a := fold_left frac1 ps (frac1 a0 p)) in *.
    assert (Hq : snd p < 0 -> (mone * nlit 995 1000 * fst p / snd p)%num = - (995 / 1000 * fst p) / snd p).
    { intros Hp. unfold mone; numR. field. lra. }
    assert (F : frac1 a0 p <= a0 /\ (snd p < 0 -> - (frac1 a0 p * snd p) <= 995 / 1000 * fst p) /\
      (frac1 a0 p = a0 \/ snd p < 0 /\ - (frac1 a0 p * snd p) = 995 / 1000 * fst p) /\ (0 < a0 -> 0 < fst p -> 0 < frac1 a0 p)).
    { unfold frac1. change (nltb (snd p) nzero) with (Rltb (snd p) 0). destruct (Rltb (snd p) 0) eqn:E.
      - apply Rltb_true in E. rewrite Hq by exact E. rewrite nmin_R. set (q := - (995 / 1000 * fst p) / snd p).
        assert (Eq : - (q * snd p) = 995 / 1000 * fst p) by (unfold q; field; lra).
        unfold Rmin. destruct (Rle_dec a0 q).
        + split; [lra|]. split; [intros _; rewrite <- Eq; nra|]. split; [auto|]. auto.
        + split; [lra|]. split; [lra|]. split; [right; split; lra|]. intros _ Hf. nra.
      - apply Rltb_false in E. split; [lra|]. split; [lra|]. split; [auto|]. auto. }
    destruct F as (F1 & F2 & F3 & F4).
    split; [lra|]. split.
    { intros r [<-|Hr] Hs; [|apply H2; assumption]. specialize (F2 Hs). nra. }
    split.
    { destruct H3 as [->|(r & Hr & H3)]; [|right; exists r; auto].
      destruct F3 as [->|F3]; [auto|]. right; exists p; auto. }
    intros H0 Hp. apply H4; [apply F4; auto|auto].
Qed.

Section Step.
  Variables (pb : fproblem R) (cf : fconfig R).
  Notation Nf := (Nf cf).

  Lemma frac_R (ss ds : list (vec R)) a : frac cf ss ds = Some a ->
    a <= 1 /\ (0 <= a -> all_ge 0 ss -> within_boundary Nf a ss ds) /\ (a = 1 \/ at_boundary Nf a ss ds) /\
    (all_pos ss -> 0 < a).
  Proof.
    intros H. apply frac_spec in H as (_ & ps & -> & Hps).
    destruct (frac1_fold ps (nofZ 1)) as (F1 & F2 & F3 & F4). set (a := fold_left frac1 ps (nofZ 1)) in *.
    replace (nofZ 1) with 1 in * by (numR; field).
    split; [exact F1|]. split; [|split].
    - intros Ha Hs i v dv j Hi Hv Hd Hj.
      assert (0 <= vget v j) by (apply (Hs v); [eapply nth_error_In; eauto|apply nth_In; exact Hj]).
      destruct (Rlt_dec (vget dv j) 0); [|nra].
      apply (F2 (vget v j, vget dv j)); [|assumption]. apply Hps. exists i, v, dv, j. auto.
    - destruct F3 as [F3|(p & Hp & Hn & He)]; [auto|]. right.
      apply Hps in Hp as (i & v & dv & j & Hi & Hv & Hd & Hj & ->). exists i, v, dv, j. cbn in *. auto 10.
    - intros Hs. apply F4; [lra|]. intros p Hp. apply Hps in Hp as (i & v & dv & j & Hi & Hv & Hd & Hj & ->). cbn.
      apply (Hs v); [eapply nth_error_In; eauto|apply nth_In; exact Hj].
  Qed.

  Lemma step_list_R n a (vs ds l : list (vec R)) : step_list n a vs ds = Some l -> moved n a vs ds l.
  Proof.
    intros H. apply step_list_spec in H as (H1 & H2 & H3 & H4). split; [exact H2|]. split; [|exact H4].
    intros i Hi. destruct (H3 i Hi) as (v & d & A & B & C & D). exists v, d, (vadd v (vscale a d)).
    repeat (split; [assumption|]). split; [unfold vadd; apply vbuild_length|].
    intros j Hj. unfold vadd, vscale. rewrite !vbuild_get by (rewrite ?C; exact Hj). reflexivity.
  Qed.
  Lemma moved_in n a (vs ds l : list (vec R)) w : moved n a vs ds l -> In w l ->
    (exists i v dv, (i < n)%nat /\ nth_error vs i = Some v /\ nth_error ds i = Some dv /\ length w = length v /\
       forall j, (j < length v)%nat -> vget w j = vget v j + a * vget dv j) \/ In w vs.
  Proof.
    intros (_ & H1 & H2) Hw. apply In_nth_error in Hw as [i Hw]. destruct (Nat.lt_ge_cases i n) as [Hi|Hi].
    - destruct (H1 i Hi) as (v & dv & w' & A & B & C & D & E & F). rewrite Hw in C. injection C as <-. left. exists i, v, dv. auto.
    - right. rewrite H2 in Hw by exact Hi. eapply nth_error_In; eauto.
  Qed.
  (** No component of a moved list falls below 0.5 % of its value. *)
  Definition keeps (c : R) (old new : list (vec R)) : Prop :=
    length new = length old /\ forall i v w, nth_error old i = Some v -> nth_error new i = Some w ->
      length w = length v /\ forall j, (j < length v)%nat -> c * vget v j <= vget w j.
  Lemma moved_keeps n a vs ds l : moved n a vs ds l -> within_boundary n a vs ds -> all_ge 0 vs -> keeps (5 / 1000) vs l.
  Proof.
    intros (H0 & H1 & H2) Hw Hp. split; [exact H0|]. intros i v w Hv Hl.
    assert (Hv0 : forall j, (j < length v)%nat -> 0 <= vget v j).
    { intros j Hj. apply (Hp v); [eapply nth_error_In; eauto|apply nth_In; exact Hj]. }
    destruct (Nat.lt_ge_cases i n) as [Hi|Hi].
    - destruct (H1 i Hi) as (v' & dv & w' & A & B & C & D & E & F). rewrite Hv in A; injection A as <-. rewrite Hl in C; injection C as <-.
      split; [exact E|]. intros j Hj. rewrite F by exact Hj. specialize (Hw i v dv j Hi Hv B Hj). lra.
    - rewrite H2 in Hl by exact Hi. rewrite Hl in Hv. injection Hv as <-. split; [reflexivity|].
      intros j Hj. specialize (Hv0 j Hj). lra.
  Qed.
  Lemma keeps_entry c old new w b : keeps c old new -> In w new -> In b w ->
    exists v a, In v old /\ In a v /\ c * a <= b.
  Proof.
    intros (H0 & H1) Hw Hb. apply In_nth_error in Hw as [i Hw].
    assert (Hi : (i < length old)%nat) by (rewrite <- H0; apply nth_error_Some; congruence).
    destruct (nth_error old i) as [v|] eqn:Hv; [|apply nth_error_None in Hv; lia].
    destruct (H1 i v w Hv Hw) as [L K]. apply (In_nth _ _ 0) in Hb as (j & Hj & <-). rewrite L in Hj.
    exists v, (vget v j). split; [eapply nth_error_In; eauto|]. split; [apply nth_In; exact Hj|]. apply (K j Hj).
  Qed.
  Lemma keeps_nonneg old new : keeps (5 / 1000) old new -> all_ge 0 old -> all_ge 0 new.
  Proof. intros K H w b Hw Hb. destruct (keeps_entry _ _ _ _ _ K Hw Hb) as (v & a & A & B & C). specialize (H v a A B). lra. Qed.
  Lemma keeps_pos old new : keeps (5 / 1000) old new -> all_pos old -> all_pos new.
  Proof. intros K H w b Hw Hb. destruct (keeps_entry _ _ _ _ _ K Hw Hb) as (v & a & A & B & C). specialize (H v a A B). lra. Qed.

  Lemma vnegb_R (w : vec R) : vnegb w = false <-> forall a, In a w -> 0 <= a.
  Proof.
    unfold vnegb. rewrite <- not_true_iff_false, existsb_exists. split.
    - intros H a Ha. apply Rnot_lt_le. intros L. apply H. exists a. split; [exact Ha|]. numR. apply Rltb_true; exact L.
    - intros H (a & Ha & B). numR. apply Rltb_true in B. specialize (H a Ha). lra.
  Qed.
  Lemma clip_nonneg (l : list (vec R)) n : all_ge 0 l -> (n <= length l)%nat -> overwrite (map clip_low (firstn n l)) l = l.
  Proof.
    intros H Hn. assert (E : map clip_low (firstn n l) = firstn n l).
    { rewrite <- (map_id (firstn n l)) at 2. apply map_ext_in. intros w Hw. unfold clip_low.
      rewrite (proj2 (vnegb_R w)); [reflexivity|]. intros a Ha. apply (H w); [|exact Ha].
      rewrite <- (firstn_skipn n l). apply in_or_app; left; exact Hw. }
    rewrite E. unfold overwrite. rewrite firstn_length_le by exact Hn. apply firstn_skipn.
  Qed.

  (** updateVariables on nonnegative slacks and multipliers. *)
  Lemma update_R fuel st st' : update_variables pb cf fuel st = Ok true st' ->
    all_ge 0 (v_s (f_var st)) -> all_ge 0 (v_n (f_var st)) ->
    exists a_max a_n a_s s2, alpha_used pb cf fuel st s2 a_max a_s /\ st' = set_fvar (f_var st') s2 /\
      frac cf (v_s (f_var st)) (v_s (f_delta st)) = Some a_max /\
      0 < a_max <= 1 /\ 0 < a_n <= 1 /\ 0 < a_s <= a_max /\
      within_boundary Nf a_max (v_s (f_var st)) (v_s (f_delta st)) /\ within_boundary Nf a_s (v_s (f_var st)) (v_s (f_delta st)) /\
      within_boundary Nf a_n (v_n (f_var st)) (v_n (f_delta st)) /\
      (a_max = 1 \/ at_boundary Nf a_max (v_s (f_var st)) (v_s (f_delta st))) /\
      (a_n = 1 \/ at_boundary Nf a_n (v_n (f_var st)) (v_n (f_delta st))) /\
      v_hor (f_var st') = v_hor (f_var st) /\
      moved (Nf + 1) a_s (v_x (f_var st)) (v_x (f_delta st)) (v_x (f_var st')) /\
      moved Nf a_s (v_u (f_var st)) (v_u (f_delta st)) (v_u (f_var st')) /\
      moved (Nf + 1) a_n (v_l (f_var st)) (v_l (f_delta st)) (v_l (f_var st')) /\
      moved Nf a_s (v_s (f_var st)) (v_s (f_delta st)) (v_s (f_var st')) /\
      moved Nf a_n (v_n (f_var st)) (v_n (f_delta st)) (v_n (f_var st')) /\
      keeps (5 / 1000) (v_s (f_var st)) (v_s (f_var st')) /\ keeps (5 / 1000) (v_n (f_var st)) (v_n (f_var st')).
  Proof.
    intros E Ps Pn. pose proof (update_variables_case pb cf fuel st) as H. rewrite E in H.
    destruct H as [H|[H|(a_max & a_n & Fs & Fn & [[_ H]|(Ha & s2 & a & v & Hu & Hv & H)])]]; try discriminate.
    injection H as ->. cbn [set_fvar f_var].
    unfold alpha_ok in Ha. numR. rewrite !andb_true_iff in Ha. destruct Ha as (((A1 & A2) & A3) & A4).
    apply Rltb_true in A1, A3. apply Rleb_true in A2, A4. unfold Rdiv in A2, A4; rewrite Rinv_1, Rmult_1_r in A2, A4.
    destruct (frac_R _ _ _ Fs) as (_ & Bs & Cs & _). destruct (frac_R _ _ _ Fn) as (_ & Bn & Cn & _).
    specialize (Bs ltac:(lra) Ps). specialize (Bn ltac:(lra) Pn).
    assert (Has : 0 < a <= a_max).
    { unfold alpha_used in Hu. destruct (fc_ls cf).
      - destruct Hu as [_ Hl]. apply ls_loop_spec in Hl as (_ & k & -> & _). clear -A1. revert a_max A1.
        induction k as [|k IH]; intros a_max A1; cbn [halved]; [lra|]. numR. specialize (IH (a_max * (1 / 2)) ltac:(lra)). lra.
      - destruct Hu as [_ ->]. lra. }
    assert (Bs' : within_boundary Nf a (v_s (f_var st)) (v_s (f_delta st))).
    { intros i w dw j Hi Hw Hd Hj. specialize (Bs i w dw j Hi Hw Hd Hj).
      assert (0 <= vget w j) by (apply (Ps w); [eapply nth_error_In; eauto|apply nth_In; exact Hj]).
      destruct (Rlt_dec (vget dw j) 0); nra. }
    apply step_var_spec in Hv as (V0 & V1 & V2 & V3 & ss & ns & V4 & V5 & V6 & V7).
    pose proof (step_list_R _ _ _ _ _ V4) as M4. pose proof (step_list_R _ _ _ _ _ V5) as M5.
    pose proof (moved_keeps _ _ _ _ _ M4 Bs' Ps) as K4. pose proof (moved_keeps _ _ _ _ _ M5 Bn Pn) as K5.
    rewrite clip_nonneg in V6; [|eapply keeps_nonneg; eauto|apply step_list_spec in V4; lia].
    rewrite clip_nonneg in V7; [|eapply keeps_nonneg; eauto|apply step_list_spec in V5; lia].
    rewrite V6, V7.
    exists a_max, a_n, a, s2. split; [exact Hu|]. split; [reflexivity|]. split; [exact Fs|].
    split; [lra|]. split; [lra|]. split; [lra|]. do 3 (split; [assumption|]).
    split; [exact Cs|]. split; [exact Cn|]. split; [exact V0|].
    split; [apply step_list_R; exact V1|]. split; [apply step_list_R; exact V3|]. split; [apply step_list_R; exact V2|].
    auto.
  Qed.
End Step.

(** ** KKT error *)
Section Kkt.
  Variables (pb : fproblem R) (cf : fconfig R).
  Notation Nf := (Nf cf).

  Lemma sqnorm_nonneg (v : vec R) : 0 <= sqnorm v.
  Proof. rewrite sqnorm_R. apply fdot_self_nonneg. Qed.
  Lemma sqnorm_entry (v : vec R) j : vget v j * vget v j <= sqnorm v.
  Proof.
    rewrite sqnorm_R. unfold fdot. destruct (Nat.lt_ge_cases j (length v)) as [Hj|Hj].
    - apply (Rsum_term_le (length v) (fun i => vget v i * vget v i) j); [|exact Hj]. intros; nra.
    - rewrite vget_out by exact Hj. rewrite Rmult_0_l. apply Rsum_nonneg. intros; nra.
  Qed.
  Lemma kkt_sum_R eps n : forall cl ss ns acc e, kkt_sum eps cl ss ns n acc = Some e -> 0 <= acc ->
    acc <= e /\ (exists c, nth_error cl n = Some c /\ sqnorm (c_Lxbar c) <= e) /\
    forall i, (i < n)%nat -> exists c s w, nth_error cl i = Some c /\ nth_error ss i = Some s /\ nth_error ns i = Some w /\
      length w = length s /\ sqnorm (c_xbar c) <= e /\ sqnorm (c_gbar c) <= e /\ sqnorm (c_Lxbar c) <= e /\ sqnorm (c_Lubar c) <= e /\
      sqnorm (kkt_comp eps s w) <= e.
  Proof.
    induction n as [|n IH]; intros cl ss ns acc e H Ha; cbn [kkt_sum] in H.
    - destruct cl as [|c cl]; [discriminate|]. apply some_inj in H; subst e. pose proof (sqnorm_nonneg (c_Lxbar c)). opsR.
      split; [lra|]. split; [exists c; split; [reflexivity|lra]|]. intros; lia.
    - destruct cl as [|c cl]; [discriminate|]. destruct ss as [|s ss]; [discriminate|]. destruct ns as [|w ns]; [discriminate|].
      cbn [kkt_sum] in H. opt1 H. unfold vdimb in B. apply Nat.eqb_eq in B.
      pose proof (sqnorm_nonneg (c_Lxbar c)). pose proof (sqnorm_nonneg (c_xbar c)). pose proof (sqnorm_nonneg (c_gbar c)).
      pose proof (sqnorm_nonneg (c_Lubar c)). pose proof (sqnorm_nonneg (kkt_comp eps s w)).
      apply IH in H; [|opsR; lra]. opsR. destruct H as (J1 & J2 & J3). split; [lra|]. split; [exact J2|].
      intros [|i] Hi; [|apply J3; lia]. exists c, s, w. do 3 (split; [reflexivity|]). split; [exact B|]. repeat split; lra.
  Qed.

  Lemma sq_le_abs a e th : a * a <= e -> sqrt e <= th -> Rabs a <= th.
  Proof.
    intros H1 H2. assert (0 <= e) by nra. apply Rle_trans with (sqrt e); [|exact H2].
    rewrite <- (sqrt_Rsqr_abs a). apply sqrt_le_1_alt. unfold Rsqr. exact H1.
  Qed.

  Lemma coeff_at_spec D t0 v cl i c : computes pb D -> coeff_at pb t0 v cl i = Some c ->
    exists x u l s n x' l' c0, stage v i x u l s n x' l' /\ nth_error cl i = Some c0 /\
      let t := ft pb t0 i in
      length x' = pb_nx (fp_dp pb) /\ length (pb_stateEq (fp_dp pb) t x u) = pb_nx (fp_dp pb) /\
      length l = pb_nx (fp_dp pb) /\ length l' = pb_nx (fp_dp pb) /\ length n = length s /\ length (fp_g pb t x u) = length s /\
      mdimb (pb_nx (fp_dp pb)) (pb_nx (fp_dp pb)) (d_A D t x u) = true /\ mdimb (pb_nx (fp_dp pb)) (length u) (d_B D t x u) = true /\
      mdimb (length s) (pb_nx (fp_dp pb)) (d_C D t x u) = true /\ mdimb (length s) (length u) (d_D D t x u) = true /\
      length (d_Lx D t x u) = pb_nx (fp_dp pb) /\ length (d_Lu D t x u) = length u /\
      c_A c = d_A D t x u /\ c_B c = d_B D t x u /\ c_C c = d_C D t x u /\ c_D c = d_D D t x u /\
      c_Lx c = d_Lx D t x u /\ c_Lu c = d_Lu D t x u /\ c_Lxx c = d_Lxx D t x u /\ c_Luu c = d_Luu D t x u /\ c_Lxu c = d_Lxu D t x u /\
      c_xbar c = vsub (pb_stateEq (fp_dp pb) t x u) x' /\ c_gbar c = vadd (fp_g pb t x u) s /\
      c_Lxbar c = vadd (vadd (vadd (vscale mone l) (vscale (pb_dt (fp_dp pb)) (c_Lx c))) (mvmul (mtr (c_A c)) l')) (mvmul (mtr (c_C c)) n) /\
      c_Lubar c = vadd (vadd (vscale (pb_dt (fp_dp pb)) (c_Lu c)) (mvmul (mtr (c_B c)) l')) (mvmul (mtr (c_D c)) n) /\
      c_k c = c_k c0 /\ c_K c = c_K c0 /\ c_s c = c_s c0 /\ c_P c = c_P c0.
  Proof.
    intros CM H. unfold coeff_at in H. opt1 H. do 7 opt1 H.
    rewrite (cm_f _ _ CM), (cm_g _ _ CM), (cm_L _ _ CM) in H. unfold dp in H. opt1 H. apply some_inj in H; subst c.
    unfold vdimb in B. rewrite !andb_true_iff, !Nat.eqb_eq in B.
    destruct B as (((((((((((B1 & B2) & B3) & B4) & B5) & B6) & B7) & B8) & B9) & B10) & B11) & B12).
    do 8 eexists. split; [unfold stage; repeat split; eassumption|]. split; [reflexivity|]. cbn zeta.
    cbn [c_A c_B c_C c_D c_Lx c_Lu c_Lxx c_Luu c_Lxu c_xbar c_gbar c_Lxbar c_Lubar c_k c_K c_s c_P]. repeat (split; [assumption || reflexivity|]). reflexivity.
  Qed.
  Lemma coeff_end_spec D t0 v cl c : computes pb D -> coeff_end pb cf t0 v cl = Some c ->
    exists x l c0, nth_error (v_x v) Nf = Some x /\ nth_error (v_l v) Nf = Some l /\ nth_error cl Nf = Some c0 /\
      length (d_Tx D (ft pb t0 Nf) x) = pb_nx (fp_dp pb) /\ length l = pb_nx (fp_dp pb) /\
      c_Lx c = d_Tx D (ft pb t0 Nf) x /\ c_Lxx c = d_Txx D (ft pb t0 Nf) x /\ c_Lxbar c = vsub (c_Lx c) l.
  Proof.
    intros CM H. unfold coeff_end in H. do 3 opt1 H. unfold dp in H. rewrite (cm_T _ _ CM) in H. opt1 H. apply some_inj in H; subst c.
    unfold vdimb in B. rewrite !andb_true_iff, !Nat.eqb_eq in B. destruct B as (B1 & B2).
    do 3 eexists. repeat (split; [eassumption || reflexivity|]). reflexivity.
  Qed.
  Lemma coeffs_spec t0 v cl cs : coeffs pb cf t0 v cl = Some cs ->
    length cs = (Nf + 1)%nat /\ (forall i, (i < Nf)%nat -> exists c, nth_error cs i = Some c /\ coeff_at pb t0 v cl i = Some c) /\
    exists c, nth_error cs Nf = Some c /\ coeff_end pb cf t0 v cl = Some c.
  Proof.
    unfold coeffs. intros H. do 2 opt1 H. injection H as <-. pose proof (tabo_length _ _ _ E) as L.
    split; [rewrite app_length, L; reflexivity|]. split.
    - intros i Hi. rewrite nth_error_app1 by lia. destruct (tabo_nth _ _ _ _ E Hi) as [E1 E2]. rewrite E1.
      destruct (coeff_at pb t0 v cl i); [eauto|contradiction].
    - exists c. rewrite nth_error_app2 by lia. rewrite L, Nat.sub_diag. auto.
  Qed.
  Lemma ft_R t0 i : ft pb t0 i = t0 + INR i * pb_dt (fp_dp pb).
  Proof. unfold ft, dp. numR. rewrite <- INR_IZR_INZ. lra. Qed.

  Lemma stage_fun (v : var R) i x u l s n x' l' y w m r k y' m' :
    stage v i x u l s n x' l' -> stage v i y w m r k y' m' -> y = x /\ w = u /\ m = l /\ r = s /\ k = n /\ y' = x' /\ m' = l'.
  Proof. unfold stage. intros (A1 & A2 & A3 & A4 & A5 & A6 & A7) (B1 & B2 & B3 & B4 & B5 & B6 & B7). repeat split; congruence. Qed.

  Lemma vadd_get (x y : vec R) j : (j < length x)%nat -> vget (vadd x y) j = vget x j + vget y j.
  Proof. intros H. unfold vadd. rewrite vbuild_get by exact H. reflexivity. Qed.
  Lemma vsub_get (x y : vec R) j : (j < length x)%nat -> vget (vsub x y) j = vget x j - vget y j.
  Proof. intros H. unfold vsub. rewrite vbuild_get by exact H. reflexivity. Qed.
  Lemma vscale_get c (x : vec R) j : (j < length x)%nat -> vget (vscale c x) j = c * vget x j.
  Proof. intros H. unfold vscale. rewrite vbuild_get by exact H. reflexivity. Qed.
  Lemma mtr_mv_get r c (A : mat R) (x : vec R) j : mdimb r c A = true -> vget (mvmul (mtr A) x) j = Rsum r (fun k => mget A k j * vget x k).
  Proof. intros H. rewrite (mvmul_f c r) by (apply mtr_dim; exact H). rewrite (mtr_f r c) by exact H. reflexivity. Qed.

  (** calcKktError bounds every residual. *)
  Lemma kkt_bound D st cl e : computes pb D -> coeffs pb cf (f_t st) (f_var st) cl = Some (f_coeff st) ->
    kkt_error cf nzero st = Some e -> all_ge 0 (v_s (f_var st)) -> all_ge 0 (v_n (f_var st)) ->
    approx_kkt pb D (f_t st) (f_x st) (f_var st) Nf e.
  Proof.
    intros CM Hc Hk Ps Pn. apply coeffs_spec in Hc as (Lc & Hc & (ce & Ece & Hce)).
    unfold kkt_error in Hk. do 3 opt1 Hk. apply some_inj in Hk; subst e. rename r into ee. unfold vdimb in B. apply Nat.eqb_eq in B.
    pose proof (sqnorm_nonneg (vsub (f_x st) v)) as Q0.
    apply kkt_sum_R in E0; [|opsR; lra]. destruct E0 as (K0 & (c1 & E1 & K1) & K2). opsR.
    rewrite Ece in E1. injection E1 as <-.
    assert (Comp : forall (w : vec R) j, sqnorm w <= ee -> Rabs (vget w j) <= sqrt ee).
    { intros w j Hw. apply sq_le_abs with ee; [|lra]. pose proof (sqnorm_entry w j). lra. }
    constructor.
    - intros x Hx. rewrite E in Hx. injection Hx as <-. split; [exact B|]. intros j Hj.
      rewrite <- vsub_get by exact Hj. apply Comp. lra.
    - intros i x u l s n x' l' Hi Hst. cbn zeta. rewrite <- ft_R.
      destruct (Hc i Hi) as (c & Ec & Hci). destruct (K2 i Hi) as (c' & s' & w' & F1 & F2 & F3 & F4 & G1 & G2 & G3 & G4 & G5).
      rewrite Ec in F1. injection F1 as <-.
      destruct (coeff_at_spec D _ _ _ _ _ CM Hci) as (y & q & m & r & k & y' & m' & c0 & Hst' & _ & S). cbn zeta in S.
      destruct (stage_fun _ _ _ _ _ _ _ _ _ _ _ _ _ _ _ _ Hst Hst') as (-> & -> & -> & -> & -> & -> & ->).
      destruct S as (D1 & D2 & D3 & D4 & D5 & D6 & MA & MB & MC & MD & D7 & D8 & EA & EB & EC & ED & ELx & ELu & _ & _ & _ & Xb & Gb & Lxb & Lub & _).
      unfold stage in Hst. destruct Hst as (_ & _ & _ & Hs & Hn & _). rewrite Hs in F2. injection F2 as <-. rewrite Hn in F3. injection F3 as <-.
      split; [|split; [|split; [|split]]].
      + intros j Hj. rewrite <- vsub_get by lia. rewrite <- Xb. apply Comp; exact G1.
      + intros j Hj. rewrite <- vadd_get by lia. rewrite <- Gb. apply Comp; exact G2.
      + intros j Hj. specialize (Comp (c_Lxbar c) j G3). rewrite Lxb, EA, EC, ELx in Comp.
        rewrite !vadd_get in Comp by (unfold vadd, vscale; rewrite ?vbuild_length; lia).
        rewrite (mtr_mv_get _ _ _ _ _ MA), (mtr_mv_get _ _ _ _ _ MC), !vscale_get in Comp by lia.
        unfold mone in Comp. numR. match goal with |- Rabs ?a <= _ => match type of Comp with Rabs ?b <= _ => replace a with b by (field_simplify; ring) end end.
        exact Comp.
      + intros j Hj. specialize (Comp (c_Lubar c) j G4). rewrite Lub, EB, ED, ELu in Comp.
        rewrite !vadd_get in Comp by (unfold vadd, vscale; rewrite ?vbuild_length; lia).
        rewrite (mtr_mv_get _ _ _ _ _ MB), (mtr_mv_get _ _ _ _ _ MD), !vscale_get in Comp by lia. exact Comp.
      + intros j Hj.
        assert (0 <= vget s j) by (apply (Ps s); [eapply nth_error_In; eauto|apply nth_In; exact Hj]).
        assert (0 <= vget n j) by (apply (Pn n); [eapply nth_error_In; eauto|apply nth_In; rewrite D5; exact Hj]).
        split; [assumption|]. split; [assumption|]. specialize (Comp (kkt_comp 0 s n) j G5).
        unfold kkt_comp in Comp. rewrite vbuild_get in Comp by exact Hj. rewrite nmax_R in Comp. numR.
        pose proof (Rmax_l (vget s j * vget n j - 0) 0). pose proof (Rle_abs (Rmax (vget s j * vget n j - 0) 0)). lra.
    - intros x l Hx Hl j Hj. rewrite <- ft_R.
      destruct (coeff_end_spec D _ _ _ _ CM Hce) as (x1 & l1 & c0 & F1 & F2 & _ & L1 & L2 & F3 & _ & F4).
      rewrite Hx in F1. injection F1 as <-. rewrite Hl in F2. injection F2 as <-.
      rewrite <- vsub_get by lia. rewrite <- F3, <- F4. apply Comp; exact K1.
  Qed.
End Kkt.

(** ** Merit function *)
Section Merit.
  Variables (pb : fproblem R) (cf : fconfig R).
  Notation Nf := (Nf cf).

  Lemma fold_sum {A} (F : R -> A -> R) (f : A -> R) (d : A) l : (forall a p, F a p = a + f p) ->
    forall a0, fold_left F l a0 = a0 + Rsum (length l) (fun i => f (nth i l d)).
  Proof.
    intros H. induction l as [|p l IH]; intros a0; cbn [fold_left length]; [cbn; lra|].
    rewrite IH, H, Rsum_S_l. cbn [nth]. lra.
  Qed.
  Lemma vl1_R (x : vec R) : vl1 x = Rsum (length x) (fun j => Rabs (vget x j)).
  Proof.
    unfold vl1. rewrite nsum_list, map_length. apply Rsum_ext. intros i Hi. unfold vget.
    rewrite (nth_indep _ _ (@nabs R RNum nzero)) by (rewrite map_length; exact Hi). rewrite map_nth. reflexivity.
  Qed.
  Lemma nsum_log (x : vec R) : nsum (map nlog x) = Rsum (length x) (fun j => ln (vget x j)).
  Proof.
    rewrite nsum_list, map_length. apply Rsum_ext. intros i Hi. unfold vget.
    rewrite (nth_indep _ _ (@nlog R RNum nzero)) by (rewrite map_length; exact Hi). rewrite map_nth. reflexivity.
  Qed.
  Lemma nth_of {A} (l : list A) i a d : nth_error l i = Some a -> nth i l d = a.
  Proof. apply nth_error_nth. Qed.

  Lemma merit_terms_R t0 eps v i q : merit_terms pb t0 eps v i = Some q ->
    let t := t0 + INR i * pb_dt (fp_dp pb) in let x := nth i (v_x v) [] in let u := nth i (v_u v) [] in let s := nth i (v_s v) [] in
    let xn := pb_stateEq (fp_dp pb) t x u in let g := fp_g pb t x u in
    fst (fst (fst q)) = pb_runningCost (fp_dp pb) t x u * pb_dt (fp_dp pb) /\
    snd (fst (fst q)) = - (eps * Rsum (length s) (fun j => ln (vget s j))) /\
    snd (fst q) = Rsum (length xn) (fun j => Rabs (vget xn j - vget (nth (i + 1) (v_x v) []) j)) /\
    snd q = Rsum (length g) (fun j => Rabs (vget g j + vget s j)).
  Proof.
    intros H. unfold merit_terms in H. do 4 opt1 H. rewrite ft_R in H. unfold dp in H. opt1 H. apply some_inj in H; subst q. cbn zeta.
    rewrite (nth_of _ _ _ _ E), (nth_of _ _ _ _ E0), (nth_of _ _ _ _ E1), (nth_of _ _ _ _ E2).
    unfold vdimb in B. rewrite andb_true_iff, !Nat.eqb_eq in B. destruct B as [B1 B2]. cbn [fst snd].
    split; [reflexivity|]. split.
    - rewrite nsum_log. unfold mone. opsR. numR. lra.
    - rewrite !vl1_R. unfold vsub at 1, vadd at 1. split; (rewrite vbuild_length; apply Rsum_ext; intros j Hj; f_equal).
      + apply vsub_get; exact Hj. + apply vadd_get; exact Hj.
  Qed.
  Lemma merit_parts_R t0 x0 eps v o c : merit_parts pb cf t0 x0 eps v = Some (o, c) ->
    o = merit_cost pb t0 eps Nf v /\ c = merit_viol pb t0 x0 Nf v.
  Proof.
    intros H. unfold merit_parts in H. do 2 opt1 H. opt1 H. opt1 H. rewrite ft_R in H. apply some_inj in H.
    assert (Hd : exists d : R * R * R * R, True) by (exists (0, 0, 0, 0); auto). destruct Hd as [d _].
    rewrite (fold_sum _ (fun p => fst (fst (fst p)) + snd (fst (fst p))) d) in H
      by (intros a [[[p1 p2] p3] p4]; cbn [fst snd]; opsR; lra).
    rewrite (fold_sum _ (fun p => snd (fst p) + snd p) d) in H by (intros a [[[p1 p2] p3] p4]; cbn [fst snd]; opsR; lra).
    rewrite (tabo_length _ _ _ E1) in H.
    assert (HT : forall i, (i < Nf)%nat -> merit_terms pb t0 eps v i = Some (nth i l d)).
    { intros i Hi. destruct (tabo_nth _ _ _ _ E1 Hi) as [E2 E3]. destruct (merit_terms pb t0 eps v i) as [q|]; [|contradiction].
      rewrite (nth_of _ _ _ _ E2). reflexivity. }
    unfold dp in H. pose proof (f_equal fst H) as Ho. pose proof (f_equal snd H) as Hc. cbn [fst snd] in Ho, Hc. subst o c. clear H. unfold merit_cost, merit_viol. cbn zeta.
    unfold vdimb in B. apply Nat.eqb_eq in B. rewrite (nth_of _ _ _ _ E0), (nth_of _ _ _ _ E). split.
    - opsR. rewrite Rplus_0_l. f_equal. apply Rsum_ext. intros i Hi. destruct (merit_terms_R _ _ _ _ _ (HT i Hi)) as (-> & -> & _). lra.
    - opsR. rewrite vl1_R. unfold vsub at 1. rewrite vbuild_length, Rplus_0_l. f_equal.
      + apply Rsum_ext. intros j Hj. f_equal. apply vsub_get; exact Hj.
      + apply Rsum_ext. intros i Hi. destruct (merit_terms_R _ _ _ _ _ (HT i Hi)) as (_ & _ & -> & ->). reflexivity.
  Qed.
  Lemma merit_R t0 x0 eps scale v m : merit pb cf t0 x0 eps scale v = Some m -> m = phi pb t0 x0 eps scale Nf v.
  Proof.
    unfold merit, phi. intros H. destruct (merit_parts pb cf t0 x0 eps v) as [[o c]|] eqn:E; [|discriminate].
    apply some_inj in H. apply merit_parts_R in E as [-> ->]. rewrite <- H. reflexivity.
  Qed.
  Lemma ls_var_R a v d w : ls_var cf a v d = Some w -> primal_at Nf a v d w.
  Proof.
    unfold ls_var. intros H. do 3 opt1 H. apply some_inj in H; subst w. unfold primal_at. cbn [v_x v_u v_s v_l v_n].
    split; [apply step_list_R; exact E|]. split; [apply step_list_R; exact E0|]. split; [apply step_list_R; exact E1|]. auto.
  Qed.
  Lemma halved_R a k : halved a k = a * (1 / 2) ^ k.
  Proof. revert a; induction k as [|k IH]; intros a; cbn [halved pow]; [lra|]. rewrite IH. numR. lra. Qed.
  Lemma setup_merit_R st st' : setup_merit pb cf st = Ok tt st' ->
    exists sc d, st' = set_fmerit sc (phi pb (f_t st) (f_x st) (f_eps st) sc Nf (f_var st)) d st.
  Proof.
    unfold setup_merit. intros H.
    destruct (merit_parts pb cf (f_t st) (f_x st) (f_eps st) (f_var st)) as [[o c]|] eqn:E; [|discriminate].
    destruct (deriv_parts _ _ _ _ _ _ _ _) as [[d1 d2]|]; [|discriminate]. destruct (merit_scale _ _ _ _) as [sc|]; [|discriminate].
    cbn [fst snd] in H. apply merit_parts_R in E as [-> ->]. injection H as <-. unfold phi. eauto.
  Qed.
End Merit.
