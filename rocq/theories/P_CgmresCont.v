(** C53, C54: what one control update and the set-up achieve, in exact arithmetic, when the optimality condition is affine in the inputs. *)
From Coq Require Import Reals Lra.
From Verif Require Import Prelude Scalar LinAlg RLin Gmres GmresSpec GmresReal3 GmresCor P_Gmres Cgmres CgmresGrad CgmresRun P_Cgmres.
Local Open Scope R_scope.

(** A map of R^n with a constant invertible slope. *)
Definition affine_invertible (n : nat) (G : list R -> list R) : Prop :=
  exists A, linear n A /\ nonsingular n A /\ forall U V, length U = n -> length V = n -> G (ladd U V) = ladd (G U) (A V).

(** The stacked optimality condition at time t and state x, as a function of the stacked inputs. *)
Definition opt_cond (pb : cg_problem R) cf od (N : nat) (t : R) (x U : list R) : list R :=
  concat (calc_dhdu pb cf od t x (columns (cp_dim_uc pb) N U)).

Lemma lscal_as_vscale a (v : list R) : lscal a v = vscale a v.
Proof. apply vec_ext; [rewrite lscal_len; symmetry; apply vbuild_length|]. intros i Hi. rewrite lscal_len in Hi. rewrite vget_lscal, vscale_f. reflexivity. Qed.
Lemma ladd_as_vadd (u v : list R) : length u = length v -> ladd u v = vadd u v.
Proof.
  intros H. apply vec_ext; [rewrite (ladd_len u v (length u)) by auto; symmetry; apply vbuild_length|].
  intros i Hi. rewrite vget_ladd, vadd_f by exact H. reflexivity.
Qed.
Lemma seg_firstn pb (v : list R) a : (a * cp_dim_uc pb + cp_dim_uc pb <= length v)%nat ->
  seg pb v a = firstn (cp_dim_uc pb) (skipn (a * cp_dim_uc pb) v).
Proof.
  intros H. apply vec_ext; [unfold seg; rewrite vbuild_length, firstn_length, skipn_length; lia|].
  intros i Hi. unfold seg in *. rewrite vbuild_length in Hi. rewrite vbuild_get by exact Hi. unfold vget.
  rewrite <- (firstn_skipn (a * cp_dim_uc pb) v) at 1. rewrite app_nth2; rewrite firstn_length_le by lia; [|lia].
  replace (a * cp_dim_uc pb + i - a * cp_dim_uc pb)%nat with i by lia.
  rewrite <- (firstn_skipn (cp_dim_uc pb) (skipn (a * cp_dim_uc pb) v)) at 1. rewrite app_nth1; [reflexivity|].
  rewrite firstn_length, skipn_length. lia.
Qed.
Lemma ladd_app a b c d : length a = length b -> ladd (a ++ c) (b ++ d) = ladd a b ++ ladd c d.
Proof.
  revert b. induction a as [|x a IH]; intros [|y b] H; try discriminate; [reflexivity|]. unfold ladd in *. cbn. f_equal. apply IH. injection H as H. exact H.
Qed.
Lemma lscal_app a u v : lscal a (u ++ v) = lscal a u ++ lscal a v.
Proof. apply map_app. Qed.
Lemma add_cols_concat pb c v us : cols_ok (cp_dim_uc pb) us -> length v = (length us * cp_dim_uc pb)%nat ->
  concat (add_cols pb c v us) = ladd (concat us) (lscal c v).
Proof.
  intros Hu Hv. set (m := cp_dim_uc pb) in *. unfold add_cols.
  assert (G : forall us a, cols_ok m us -> length v = ((a + length us) * m)%nat ->
    concat (map (fun iu => vadd (snd iu) (vscale c (seg pb v (fst iu)))) (combine (seq a (length us)) us)) = ladd (concat us) (lscal c (skipn (a * m) v))).
  { clear us Hu Hv. induction us as [|u us IH]; intros a Hu Hv; [cbn [length seq combine map concat]; reflexivity|].
    cbn [length] in *. cbn [seq combine map concat fst snd].
    rewrite IH; [|intros w Hw; apply Hu; right; exact Hw|rewrite Hv; nia].
    assert (Lu : length u = m) by (apply Hu; left; reflexivity).
    assert (Hs : (a * m + m <= length v)%nat) by (rewrite Hv; nia).
    rewrite (seg_firstn pb v a Hs). fold m.
    replace (skipn (a * m) v) with (firstn m (skipn (a * m) v) ++ skipn (S a * m) v).
    2:{ replace (S a * m)%nat with (m + a * m)%nat by lia. rewrite <- (CgmresProofs.skipn_skipn). apply firstn_skipn. }
    assert (Lf : length (firstn m (skipn (a * m) v)) = m) by (rewrite firstn_length, skipn_length; lia).
    rewrite lscal_app, ladd_app by (rewrite lscal_len; lia). f_equal.
    rewrite lscal_as_vscale, ladd_as_vadd by (unfold vscale; rewrite vbuild_length; lia).
    f_equal. f_equal. rewrite firstn_app, Lf, Nat.sub_diag, firstn_O, app_nil_r. apply firstn_all2. lia. }
  rewrite (G us 0%nat Hu Hv). reflexivity.
Qed.
Lemma add_cols_columns pb c v us N : length us = N -> cols_ok (cp_dim_uc pb) us -> length v = (N * cp_dim_uc pb)%nat ->
  add_cols pb c v us = columns (cp_dim_uc pb) N (ladd (concat us) (lscal c v)).
Proof.
  intros HN Hu Hv. rewrite <- (add_cols_concat pb) by (auto; rewrite HN; exact Hv). symmetry. apply columns_concat; [rewrite add_cols_len; exact HN|].
  apply add_cols_ok. exact Hu.
Qed.

Lemma affine_quotient n (G : list R -> list R) U d (f : list R -> list R) : affine_invertible n G -> length U = n -> d <> 0 ->
  (forall v, length v = n -> f v = lscal (/ d) (lsub (G (ladd U (lscal d v))) (G U))) -> (forall V, length V = n -> length (G V) = n) ->
  linear n f /\ nonsingular n f.
Proof.
  intros (A & (L1 & L2 & L3) & HN & HA) HU Hd Hf HG.
  assert (E : forall v, length v = n -> f v = A v).
  { intros v Hv. rewrite (Hf v Hv). rewrite HA by (auto; rewrite lscal_len; exact Hv). rewrite L3 by exact Hv.
    assert (LA : length (A v) = n) by (apply L1; exact Hv). assert (LG : length (G U) = n) by (apply HG; exact HU).
    apply vec_ext.
    - rewrite lscal_len, (lsub_len _ _ n), LA; auto. apply ladd_len; [exact LG|rewrite lscal_len; exact LA].
    - intros i _. rewrite vget_lscal. unfold fscal. rewrite vget_lsub by (rewrite (ladd_len _ _ n); auto; rewrite lscal_len; exact LA).
      unfold fsubv. rewrite vget_ladd by (rewrite lscal_len, LA; exact LG). unfold fadd. rewrite vget_lscal. unfold fscal. field. exact Hd. }
  split; [split; [|split]|].
  - intros v Hv. rewrite E by exact Hv. apply L1. exact Hv.
  - intros u v Hu Hv. rewrite !E; auto. apply ladd_len; assumption.
  - intros a v Hv. rewrite !E; auto. rewrite lscal_len. exact Hv.
  - intros v Hv. rewrite E by exact Hv. apply HN. exact Hv.
Qed.

Lemma nrm_lscal a v : nrm (lscal a v) = Rabs a * nrm v.
Proof.
  rewrite !nrm_R, lscal_len, vget_lscal. rewrite fdot_scal_l, fdot_scal_r. rewrite <- Rmult_assoc, sqrt_mult_alt by nra.
  rewrite <- sqrt_Rsqr_abs. reflexivity.
Qed.

(** C53: the stored solution v drives the condition at t + delta to (1 - zeta delta) times the present one, up to 1e-10 of the
    distance the unchanged inputs would leave. With delta = dt the updated inputs are U + delta v. *)
Theorem C53_continuation pb cf od N t x next_x st : cp_wf pb -> ode_wf od ->
  cc_num cf = Z.of_nat N -> (1 <= N)%nat -> sized pb N st -> length x = cp_dim_x pb -> length next_x = cp_dim_x pb ->
  (Z.of_nat (N * cp_dim_uc pb) <= cc_kmax cf)%Z -> cc_delta cf <> 0 ->
  let d := cc_delta cf in let dt := cc_dt cf in
  let xd := ladd (lscal (1 - d / dt) x) (lscal (d / dt) next_x) in
  let G := opt_cond pb cf od N (t + d) xd in
  affine_invertible (N * cp_dim_uc pb) G ->
  let U := concat (cs_u_list st) in
  let target := lscal (1 - cc_zeta cf * d) (opt_cond pb cf od N t x U) in
  exists u st', calc_control pb cf od t x next_x st = Ok u st' /\
    concat (cs_u_list st') = ladd U (lscal dt (cs_delta_u st')) /\
    nrm (lsub (G (ladd U (lscal d (cs_delta_u st')))) target) <= / 10000000000 * nrm (lsub (G U) target).
Proof.
  intros HW HO HN HN1 Hs Hx Hnx Hk Hd d dt xd G HA U target.
  pose proof Hs as (S1 & S2 & S3 & S4 & S5).
  destruct (calc_control_ok pb cf od HW HO N t x next_x st Hs Hx Hnx HN HN1 ltac:(lia)) as (out & us & st' & Eg & Eus & E & Lo & Est).
  exists (nth 0 us []), st'. split; [exact E|]. subst st'. cbn [cs_u_list cs_delta_u].
  split; [subst us; apply add_cols_concat; [exact S4|rewrite S3; exact Lo]|].
  assert (Exd : xdelta cf x next_x = xd).
  { unfold xdelta, xd. numR. rewrite ladd_as_vadd, !lscal_as_vscale; [reflexivity|]. rewrite !lscal_len. congruence. }
  assert (LU : length U = (N * cp_dim_uc pb)%nat) by (unfold U; rewrite (concat_len pb), S3 by exact S4; reflexivity).
  assert (EU : columns (cp_dim_uc pb) N U = cs_u_list st) by (apply columns_concat; [exact S3|exact S4]).
  assert (LX : length xd = cp_dim_x pb) by (rewrite <- Exd; apply xdelta_len; exact Hx).
  assert (LG : forall V, length V = (N * cp_dim_uc pb)%nat -> length (G V) = (N * cp_dim_uc pb)%nat).
  { intros V HV. unfold G, opt_cond. change (concat (calc_dhdu pb cf od (t + d) xd ?a)) with (F pb cf od (t + d) xd a). rewrite (F_len pb cf od HW HO).
    - unfold columns. rewrite map_length, seq_length. reflexivity.
    - exact LX.
    - intros w Hw. unfold columns in Hw. apply in_map_iff in Hw as (i & <- & Hi). apply in_seq in Hi. rewrite firstn_length, skipn_length. nia. }
  assert (LT : length target = (N * cp_dim_uc pb)%nat).
  { unfold target. rewrite lscal_len. unfold opt_cond. rewrite EU. change (concat (calc_dhdu pb cf od t x ?a)) with (F pb cf od t x a).
    rewrite (F_len pb cf od HW HO) by auto. rewrite S3. reflexivity. }
  set (am := eq_amul pb cf od (nadd t (cc_delta cf)) (xdelta cf x next_x) (cs_u_list st) (F pb cf od (nadd t (cc_delta cf)) (xdelta cf x next_x) (cs_u_list st))) in Eg.
  assert (Eam : forall v, length v = (N * cp_dim_uc pb)%nat -> am v = lscal (/ d) (lsub (G (ladd U (lscal d v))) (G U))).
  { intros v Hv. unfold am, eq_amul. cbv zeta. rewrite Exd. rewrite (add_cols_columns pb (cc_delta cf) v (cs_u_list st) N S3 S4 Hv). fold U d.
    change (concat (calc_dhdu pb cf od (nadd t d) xd (columns (cp_dim_uc pb) N (ladd U (lscal d v))))) with (G (ladd U (lscal d v))).
    replace (F pb cf od (nadd t d) xd (cs_u_list st)) with (G U) by (unfold G, opt_cond; rewrite EU; reflexivity).
    assert (LV : length (ladd U (lscal d v)) = (N * cp_dim_uc pb)%nat) by (apply ladd_len; [exact LU|rewrite lscal_len; exact Hv]).
    apply vec_ext; [rewrite vbuild_length, lscal_len, (lsub_len _ _ (N * cp_dim_uc pb)) by auto; auto|].
    intros i Hi. rewrite vbuild_length in Hi. rewrite vbuild_get by exact Hi. rewrite vget_lscal. unfold fscal.
    rewrite vget_lsub by (rewrite !LG by auto; reflexivity). unfold fsubv. numR. field. exact Hd. }
  destruct (affine_quotient (N * cp_dim_uc pb) G U d am HA LU Hd Eam LG) as [Hlin Hns].
  set (b := rhs pb cf od t x next_x (cs_u_list st)) in Eg.
  assert (Eb : b = lscal (/ d) (lsub target (G U))).
  { unfold b, rhs. rewrite Exd. fold d.
    replace (F pb cf od (nadd t d) xd (cs_u_list st)) with (G U) by (unfold G, opt_cond; rewrite EU; reflexivity).
    assert (ET : target = lscal (1 - cc_zeta cf * d) (F pb cf od t x (cs_u_list st))) by (unfold target, opt_cond; rewrite EU; reflexivity).
    pose proof LT as LT'. rewrite ET in LT'. rewrite lscal_len in LT'.
    apply vec_ext; [rewrite vbuild_length, lscal_len, (lsub_len _ _ (N * cp_dim_uc pb)) by auto; exact LT'|].
    intros i Hi. rewrite vbuild_length in Hi. rewrite vbuild_get by exact Hi. rewrite vget_lscal. unfold fscal.
    rewrite vget_lsub by (rewrite LG by auto; exact LT). unfold fsubv. rewrite ET, vget_lscal. unfold fscal. numR. field. exact Hd. }
  assert (Lb : length b = (N * cp_dim_uc pb)%nat) by (rewrite Eb, lscal_len; apply lsub_len; auto).
  destruct (C41_tolerance_met (N * cp_dim_uc pb) am b (cs_delta_u st) (cc_kmax cf) (nlit 1 10000000000) gm_default (fun _ _ => []) st Hlin Hns Lb S5 Hk)
    as (out' & E' & L' & Ht).
  - numR. lra.
  - left. reflexivity.
  - assert (out' = out).
    { assert (Q : Ok (S := cg_st R) out' st = Ok out st) by (etransitivity; [symmetry; exact E'|exact Eg]). injection Q as Q. exact Q. }
    subst out'. rewrite Eam in Ht by exact Lo. rewrite Eb in Ht.
    set (V := G (ladd U (lscal d (go_x out)))) in *.
    assert (LV : length V = (N * cp_dim_uc pb)%nat) by (apply LG, ladd_len; [exact LU|rewrite lscal_len; exact Lo]).
    assert (E1 : lsub (lscal (/ d) (lsub target (G U))) (lscal (/ d) (lsub V (G U))) = lscal (- / d) (lsub V target)).
    { apply vec_ext.
      - rewrite lscal_len, !(lsub_len _ _ (N * cp_dim_uc pb)); auto; rewrite lscal_len; apply lsub_len; auto.
      - intros i _. rewrite vget_lsub by (rewrite !lscal_len, !(lsub_len _ _ (N * cp_dim_uc pb)); auto). unfold fsubv. rewrite !vget_lscal. unfold fscal.
        rewrite !vget_lsub by (rewrite ?LG by auto; congruence). unfold fsubv. ring. }
    assert (E2 : lscal (/ d) (lsub target (G U)) = lscal (- / d) (lsub (G U) target)).
    { apply vec_ext.
      - rewrite !lscal_len, !(lsub_len _ _ (N * cp_dim_uc pb)); auto.
      - intros i _. rewrite !vget_lscal. unfold fscal. rewrite !vget_lsub by (rewrite ?LG by auto; congruence). unfold fsubv. ring. }
    rewrite E1, E2, !nrm_lscal in Ht. numR.
    assert (Hp : 0 < Rabs (- / d)) by (apply Rabs_pos_lt, Ropp_neq_0_compat, Rinv_neq_0_compat; exact Hd).
    apply (Rmult_le_reg_l (Rabs (- / d))); [exact Hp|]. lra.
Qed.
Print Assumptions C53_continuation.

(** If the condition does not change over delta, the inputs actually stored, U + dt v, have (1 - zeta dt) times the old condition,
    up to 1e-10 |zeta dt|. The default parameters (zeta 1000, dt 0.001) give the factor 0. *)
Theorem C53_stationary pb cf od N t x next_x st : cp_wf pb -> ode_wf od ->
  cc_num cf = Z.of_nat N -> (1 <= N)%nat -> sized pb N st -> length x = cp_dim_x pb -> length next_x = cp_dim_x pb ->
  (Z.of_nat (N * cp_dim_uc pb) <= cc_kmax cf)%Z -> cc_delta cf <> 0 ->
  let d := cc_delta cf in let dt := cc_dt cf in
  let xd := ladd (lscal (1 - d / dt) x) (lscal (d / dt) next_x) in
  let G := opt_cond pb cf od N (t + d) xd in
  affine_invertible (N * cp_dim_uc pb) G ->
  let U := concat (cs_u_list st) in
  opt_cond pb cf od N t x U = G U ->
  exists u st', calc_control pb cf od t x next_x st = Ok u st' /\
    nrm (lsub (G (concat (cs_u_list st'))) (lscal (1 - cc_zeta cf * dt) (G U))) <= / 10000000000 * (Rabs (cc_zeta cf * dt) * nrm (G U)).
Proof.
  intros HW HO HN HN1 Hs Hx Hnx Hk Hd d dt xd G HA U HS.
  assert (LU : length U = (N * cp_dim_uc pb)%nat) by (destruct Hs as (S1 & S2 & S3 & S4 & S5); unfold U; rewrite (concat_len pb), S3 by exact S4; reflexivity).
  destruct (C53_continuation pb cf od N t x next_x st HW HO HN HN1 Hs Hx Hnx Hk Hd HA) as (u & st' & E & EU & B).
  assert (HV : length (cs_delta_u st') = (N * cp_dim_uc pb)%nat).
  { destruct (calc_control_ok pb cf od HW HO N t x next_x st Hs Hx Hnx HN HN1 ltac:(lia)) as (out & us & st2 & Eg & Eus & E2 & Lo & Est).
    rewrite E in E2. injection E2 as _ <-. rewrite Est. exact Lo. }
  exists u, st'. split; [exact E|]. rewrite EU. fold d dt xd G U in B |- *. rewrite HS in B. fold U G.
  destruct HA as (A & (L1 & L2 & L3) & HNs & HA).
  rewrite HA in B |- * by (auto; rewrite lscal_len; exact HV). rewrite L3 in B |- * by exact HV.
  set (v := cs_delta_u st') in *. assert (LA : length (A v) = (N * cp_dim_uc pb)%nat) by (apply L1; exact HV).
  set (g := G U) in *. set (a := A v) in *. set (z := cc_zeta cf) in *.
  assert (Lg : length g = (N * cp_dim_uc pb)%nat).
  { destruct Hs as (S1 & S2 & S3 & S4 & S5). rewrite <- HS. unfold opt_cond, U. rewrite columns_concat by auto.
    change (concat (calc_dhdu pb cf od t x ?w)) with (F pb cf od t x w). rewrite (F_len pb cf od HW HO) by auto. rewrite S3. reflexivity. }
  clearbody v g a z. clear - B Lg LA Hd. fold d in Hd. clearbody d dt.
  replace (lsub (ladd g (lscal dt a)) (lscal (1 - z * dt) g)) with (lscal (dt / d) (lsub (ladd g (lscal d a)) (lscal (1 - z * d) g))).
  2:{ apply vec_ext; [rewrite lscal_len, !(lsub_len _ _ (N * cp_dim_uc pb)); auto; try (apply ladd_len; [exact Lg|]); rewrite lscal_len; auto|].
      intros i _. rewrite vget_lscal. unfold fscal.
      rewrite !vget_lsub by (rewrite (ladd_len _ _ (N * cp_dim_uc pb)); rewrite ?lscal_len; auto). unfold fsubv.
      rewrite !vget_ladd by (rewrite lscal_len, LA; exact Lg). unfold fadd. rewrite !vget_lscal. unfold fscal. field. exact Hd. }
  replace (lsub g (lscal (1 - z * d) g)) with (lscal (z * d) g) in B.
  2:{ apply vec_ext; [rewrite lscal_len, (lsub_len _ _ (N * cp_dim_uc pb)); auto; rewrite lscal_len; auto|].
      intros i _. rewrite vget_lsub by (rewrite lscal_len; reflexivity). unfold fsubv. rewrite !vget_lscal. unfold fscal. ring. }
  rewrite nrm_lscal in B |- *.
  apply Rle_trans with (Rabs (dt / d) * (/ 10000000000 * (Rabs (z * d) * nrm g))); [apply Rmult_le_compat_l; [apply Rabs_pos|exact B]|].
  right. replace (z * dt) with ((dt / d) * (z * d)) by (field; exact Hd). rewrite (Rabs_mult (dt / d)). ring.
Qed.
Print Assumptions C53_stationary.

(** x' = u with running cost u^2 / 2 and terminal cost x^2 / 2, two horizon steps. *)
Definition integ : cg_problem R := {| cp_dim_x := 1; cp_dim_uc := 1; cp_f := fun _ _ u => [nth 0 u 0]; cp_costate := fun _ _ _ => [0];
  cp_dphi := fun _ x => [nth 0 x 0]; cp_dhdu := fun _ _ u l => [nth 0 u 0 + nth 0 l 0]; cp_x0 := [1]; cp_u0 := [0] |}.
Definition integ_conf : cg_conf R := {| cc_sim := 1; cc_horizon := 1; cc_num := 2; cc_ratio := 1; cc_dt := 1; cc_zeta := 1 / 2; cc_kmax := 2; cc_delta := 1; cc_dump := 1 |}.
Definition integ_st : cg_st R := {| cs_x := [1]; cs_u := [0]; cs_t_delta := 0; cs_x_delta := [0]; cs_u_list := [[0]; [1]]; cs_dhdu := []; cs_dhdu_delta := [];
  cs_delta_u := [0; 0]; cs_log := [] |}.
Lemma integ_step_nonneg t : 0 <= t -> 0 <= horizon_step integ_conf t.
Proof.
  intros Ht. unfold horizon_step, nofZ. numR. cbn [integ_conf cc_horizon cc_ratio cc_num].
  assert (exp (- (1) * t) <= 1). { destruct (Rle_lt_or_eq_dec 0 t Ht) as [H|<-]; [pose proof (exp_increasing (- (1) * t) 0 ltac:(lra)) as HE; rewrite exp_0 in HE; lra|rewrite Rmult_0_r, exp_0; lra]. }
  lra.
Qed.
Lemma integ_opt t x a b : let h := horizon_step integ_conf t in
  opt_cond integ integ_conf euler 2 t [x] [a; b] = [a + (x + h * (a + b)); b + (x + h * (a + b))].
Proof.
  cbv zeta. unfold opt_cond, calc_dhdu, calc_all, columns. set (h := horizon_step integ_conf t).
  cbn -[h horizon_step]. unfold euler, vadd, vscale, vbuild, vget. cbn -[h horizon_step]. f_equal; [|f_equal]; ring.
Qed.
Lemma integ_affine t x : 0 <= t -> affine_invertible 2 (opt_cond integ integ_conf euler 2 t [x]).
Proof.
  intros Ht. pose proof (integ_step_nonneg t Ht) as Hh. set (h := horizon_step integ_conf t) in *.
  exists (fun v => [nth 0 v 0 + h * (nth 0 v 0 + nth 1 v 0); nth 1 v 0 + h * (nth 0 v 0 + nth 1 v 0)]). split; [split; [|split]|split].
  - reflexivity.
  - intros [|a [|b [|]]] [|c [|e [|]]] H1 H2; try discriminate. unfold ladd. cbn. f_equal; [ring|f_equal; ring].
  - intros a [|b [|c [|]]] H1; try discriminate. unfold lscal. cbn. f_equal; [ring|f_equal; ring].
  - intros [|a [|b [|]]] H1 H2; try discriminate. cbn [nth repeat] in H2. injection H2 as E1 E2.
    assert (Hs : (1 + 2 * h) * (a + b) = 0) by lra. apply Rmult_integral in Hs as [Hs|Hs]; [exfalso; lra|]. rewrite Hs in E1, E2. cbn [repeat]. f_equal; [lra|f_equal; lra].
  - intros [|a [|b [|]]] [|c [|e [|]]] H1 H2; try discriminate. unfold ladd. cbn [combine map fst snd nth]. rewrite !integ_opt. fold h. cbn [combine map fst snd]. f_equal; [ring|f_equal; ring].
Qed.
Example C53_nonvacuous : cp_wf integ /\ sized integ 2 integ_st /\ (Z.of_nat (2 * cp_dim_uc integ) <= cc_kmax integ_conf)%Z /\ cc_delta integ_conf <> 0 /\
  affine_invertible (2 * cp_dim_uc integ) (opt_cond integ integ_conf euler 2 (0 + cc_delta integ_conf)
     (ladd (lscal (1 - cc_delta integ_conf / cc_dt integ_conf) [1]) (lscal (cc_delta integ_conf / cc_dt integ_conf) [1]))) /\
  opt_cond integ integ_conf euler 2 0 [1] (concat (cs_u_list integ_st)) <> [0; 0].
Proof.
  split; [repeat split; auto|]. split; [repeat split; try reflexivity; intros u [<-|[<-|[]]]; reflexivity|]. split; [cbn; lia|]. split; [cbn; lra|]. split.
  - apply (integ_affine (0 + 1)). lra.
  - cbn [concat cs_u_list integ_st app]. rewrite integ_opt. pose proof (integ_step_nonneg 0 ltac:(lra)). intros E. injection E as E1 E2. lra.
Qed.
(** The further hypothesis of C53_stationary: inputs 1 and -1 and an unchanged state. *)
Example C53_stationary_nonvacuous : let xd := ladd (lscal (1 - cc_delta integ_conf / cc_dt integ_conf) [2]) (lscal (cc_delta integ_conf / cc_dt integ_conf) [2]) in
  opt_cond integ integ_conf euler 2 0 [2] [1; -1] = opt_cond integ integ_conf euler 2 (0 + cc_delta integ_conf) xd [1; -1] /\
  opt_cond integ integ_conf euler 2 0 [2] [1; -1] = [3; 1].
Proof.
  cbv zeta. replace (ladd (lscal (1 - cc_delta integ_conf / cc_dt integ_conf) [2]) (lscal (cc_delta integ_conf / cc_dt integ_conf) [2])) with [2].
  2:{ unfold ladd, lscal. cbn. f_equal. field. }
  rewrite !integ_opt. split; f_equal; try ring; f_equal; ring.
Qed.

(** ** Set-up *)
(** The Newton loop, for an affine DhDu: every pass that does not end the loop reduces |DhDu| by 1e-10. *)
Lemma newton_step {S} pb (cf : cg_conf R) x lmd u du (s : S) : cp_wf pb -> length x = cp_dim_x pb -> length lmd = cp_dim_x pb ->
  length u = cp_dim_uc pb -> length du = cp_dim_uc pb -> cc_delta cf <> 0 ->
  let G := fun u => cp_dhdu pb 0 x u lmd in affine_invertible (cp_dim_uc pb) G ->
  exists out, gm_solve gm_default no_lsq (su_amul pb cf x lmd u (G u)) (vopp (G u)) du (Z.of_nat (cp_dim_uc pb)) (nlit 1 10000000000) s = Ok out s /\
    length (go_x out) = cp_dim_uc pb /\ nrm (G (vadd u (go_x out))) <= / 10000000000 * nrm (G u).
Proof.
  intros HW Hx Hl Hu Hdu Hd G HA. set (m := cp_dim_uc pb) in *.
  assert (LG : forall v, length v = m -> length (G v) = m) by (intros v Hv; apply HW; assumption).
  assert (Eam : forall v, length v = m -> su_amul pb cf x lmd u (G u) v = lscal (/ cc_delta cf) (lsub (G (ladd u (lscal (cc_delta cf) v))) (G u))).
  { intros v Hv. unfold su_amul. cbv zeta. change (cp_dhdu pb nzero x (vadd u (vscale (cc_delta cf) v)) lmd) with (G (vadd u (vscale (cc_delta cf) v))).
    rewrite <- ladd_as_vadd, <- lscal_as_vscale by (unfold vscale; rewrite vbuild_length; congruence).
    assert (LV : length (ladd u (lscal (cc_delta cf) v)) = m) by (apply ladd_len; [exact Hu|rewrite lscal_len; exact Hv]).
    apply vec_ext; [rewrite vbuild_length, lscal_len, (lsub_len _ _ m) by auto; auto|].
    intros i Hi. rewrite vbuild_length in Hi. rewrite vbuild_get by exact Hi. rewrite vget_lscal. unfold fscal.
    rewrite vget_lsub by (rewrite !LG by auto; reflexivity). unfold fsubv. numR. field. exact Hd. }
  destruct (affine_quotient m G u (cc_delta cf) _ HA Hu Hd Eam LG) as [Hlin Hns].
  assert (Lo : length (vopp (G u)) = m) by (unfold vopp; rewrite vbuild_length; auto).
  destruct (C41_tolerance_met m _ (vopp (G u)) du (Z.of_nat m) (nlit 1 10000000000) gm_default (fun _ _ => []) s Hlin Hns Lo Hdu ltac:(lia))
    as (out & E & L & Ht); [numR; lra|left; reflexivity|].
  exists out. split; [exact E|]. split; [exact L|].
  destruct HA as (A & HAl & HAn & HA). 
  assert (Eo : vopp (G u) = lscal (-1) (G u)).
  { apply vec_ext; [unfold vopp; rewrite vbuild_length, lscal_len; reflexivity|]. intros i Hi. unfold vopp in Hi. rewrite vbuild_length in Hi.
    unfold vopp. rewrite vbuild_get by exact Hi. rewrite vget_lscal. unfold fscal. numR. ring. }
  assert (LA : length (A (go_x out)) = m) by (apply HAl; exact L).
  assert (Er : lsub (vopp (G u)) (su_amul pb cf x lmd u (G u) (go_x out)) = lscal (-1) (G (vadd u (go_x out)))).
  { rewrite Eam by exact L. rewrite <- ladd_as_vadd by congruence. rewrite !HA by (auto; rewrite lscal_len; exact L).
    destruct HAl as (_ & _ & H3). rewrite H3 by exact L. rewrite Eo.
    assert (L1 : length (G u) = m) by auto.
    assert (L2 : length (ladd (G u) (lscal (cc_delta cf) (A (go_x out)))) = m) by (apply ladd_len; [exact L1|rewrite lscal_len; exact LA]).
    apply vec_ext.
    - rewrite lscal_len, (ladd_len _ _ m) by auto. apply lsub_len; rewrite lscal_len; [exact L1|apply lsub_len; auto].
    - intros i _. rewrite vget_lsub by (rewrite !lscal_len, (lsub_len _ _ m); auto). unfold fsubv. rewrite !vget_lscal. unfold fscal.
      rewrite vget_lsub by congruence. rewrite !vget_ladd by (rewrite ?lscal_len; congruence). unfold fsubv, fadd. rewrite vget_lscal. unfold fscal. field. exact Hd. }
  rewrite Er, Eo, !nrm_lscal in Ht. rewrite Rabs_left in Ht by lra. numR. lra.
Qed.

Lemma newton_converges {S} pb (cf : cg_conf R) x lmd (s : S) : cp_wf pb -> length x = cp_dim_x pb -> length lmd = cp_dim_x pb -> cc_delta cf <> 0 ->
  let G := fun u => cp_dhdu pb 0 x u lmd in affine_invertible (cp_dim_uc pb) G ->
  forall k u du dh, length u = cp_dim_uc pb -> length du = cp_dim_uc pb -> nrm (G u) <= / 1000000 * 10000000000 ^ k ->
  exists u', newton pb cf (k + 1) x lmd u du dh s = Ok (u', G u') s /\ length u' = cp_dim_uc pb /\ nrm (G u') <= / 1000000.
Proof.
  intros HW Hx Hl Hd G HA. induction k as [|k IH]; intros u du dh Hu Hdu Hn; cbn [Nat.add newton]; cbv zeta; change (cp_dhdu pb nzero x u lmd) with (G u).
  - replace (nleb (vnorm (G u)) (nlit 1 1000000)) with true by (symmetry; apply Rleb_true; rewrite <- nrm_vnorm; numR; cbn [pow] in Hn; lra).
    exists u. split; [reflexivity|]. split; [exact Hu|]. cbn [pow] in Hn. lra.
  - destruct (nleb (vnorm (G u)) (nlit 1 1000000)) eqn:E.
    + apply Rleb_true in E. exists u. split; [reflexivity|]. split; [exact Hu|]. rewrite nrm_vnorm. numR. lra.
    + rewrite bind_guard by (unfold vdimb; rewrite Hu; apply Nat.eqb_refl).
      destruct (newton_step pb cf x lmd u du s HW Hx Hl Hu Hdu Hd HA) as (out & Eo & Lo & Hr). fold G in Eo, Hr.
      rewrite (bind_ok _ _ s s out Eo). apply IH; [unfold vadd; rewrite vbuild_length; exact Hu|exact Lo|].
      change (nrm (G (vadd u (go_x out))) <= / 10000000000 * nrm (G u)) in Hr. cbn [pow] in Hn. lra.
Qed.

(** C54: setup hands over an input with |DhDu| <= 1e-6 at the initial state and the terminal costate, when DhDu is affine in the input
    with an invertible slope and the initial |DhDu| is at most 10^984; all inputs of the list equal it. *)
Theorem C54_setup_converges pb cf N st : cp_wf pb -> cc_num cf = Z.of_nat N -> cc_delta cf <> 0 ->
  let G := fun u => cp_dhdu pb 0 (cp_x0 pb) u (cp_dphi pb 0 (cp_x0 pb)) in
  affine_invertible (cp_dim_uc pb) G -> nrm (G (cp_u0 pb)) <= / 1000000 * 10000000000 ^ 99 ->
  exists st', setup pb cf st = Ok tt st' /\ nrm (G (cs_u st')) <= / 1000000 /\
    cs_x st' = cp_x0 pb /\ cs_u_list st' = repeat (cs_u st') N /\ cs_dhdu st' = repeat (G (cs_u st')) N.
Proof.
  intros HW HN Hd G HA Hn. destruct (setup_ok pb cf HW N st HN) as (u & dh & st' & E1 & E2 & _ & Es).
  pose proof HW as (_ & W2 & _ & _ & W5 & W6).
  assert (Lz : length (vzero (T := R) (cp_dim_uc pb)) = cp_dim_uc pb) by apply vbuild_length.
  destruct (newton_converges pb cf (cp_x0 pb) (cp_dphi pb 0 (cp_x0 pb)) st HW W5 (W2 _ _ W5) Hd HA 99 (cp_u0 pb) (vzero (cp_dim_uc pb)) (vzero (cp_dim_uc pb)) W6 Lz Hn)
    as (u' & E3 & L3 & H3).
  assert (Q : Ok (S := cg_st R) (u, dh) st = Ok (u', cp_dhdu pb 0 (cp_x0 pb) u' (cp_dphi pb 0 (cp_x0 pb))) st) by (etransitivity; [symmetry; exact E1|exact E3]).
  injection Q as Qu Qd. exists st'. split; [exact E2|]. rewrite Es. cbn [cs_u cs_x cs_u_list cs_dhdu]. rewrite Qu, Qd. split; [exact H3|]. repeat split.
Qed.
Print Assumptions C54_setup_converges.
Example C54_nonvacuous : cp_wf integ /\ affine_invertible 1 (fun u => cp_dhdu integ 0 (cp_x0 integ) u (cp_dphi integ 0 (cp_x0 integ))) /\
  / 1000000 < nrm (cp_dhdu integ 0 (cp_x0 integ) (cp_u0 integ) (cp_dphi integ 0 (cp_x0 integ))) <= / 1000000 * 10000000000 ^ 99.
Proof.
  split; [repeat split; auto|]. split.
  - exists (fun v => [nth 0 v 0]). split; [split; [|split]|split].
    + reflexivity.
    + intros [|a [|]] [|c [|]] H1 H2; try discriminate. reflexivity.
    + intros a [|b [|]] H1; try discriminate. reflexivity.
    + intros [|a [|]] H1 H2; try discriminate. exact H2.
    + intros [|a [|]] [|c [|]] H1 H2; try discriminate. unfold ladd. cbn. f_equal. ring.
  - unfold nrm. cbn [integ cp_dhdu cp_x0 cp_u0 cp_dphi nth fold_right]. replace ((0 + 1) * (0 + 1) + 0) with 1 by ring. rewrite sqrt_1. split; [lra|].
    assert (1 <= 10000000000 ^ 98) by (apply pow_R1_Rle; lra). change (10000000000 ^ 99) with (10000000000 * 10000000000 ^ 98). lra.
Qed.
