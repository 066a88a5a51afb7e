(** Property C84: the error history of GMRES step by step, and what the checks of TestGmres.cpp follow from (exact arithmetic). *)
From Coq Require Import Reals Lra Lia List.
From Verif Require Import Prelude Scalar LinAlg RLin Gmres GmresReal3 GmresSpec GmresCor GmresCor2 P_Gmres GmresTest.
Import ListNotations.
Local Open Scope R_scope.

(** ** The history *)
Lemma ksol_prefix n f b x k_max eps i : linear n f -> length b = n -> length x = n -> 0 <= eps ->
  injective_on_krylov n f (lsub b (f x)) -> (i <= ksol n f b x k_max eps)%nat ->
  ksol n f b x (Z.of_nat i) eps = i.
Proof.
  intros Hf Hb Hx He Hi Hk.
  assert (L1 : (i <= n)%nat) by (pose proof (ksol_le n f b x k_max eps Hb Hx); lia).
  pose proof (ksol_le n f b x (Z.of_nat i) eps Hb Hx) as L2.
  destruct (ksol_stop n f b x (Z.of_nat i) eps) as [S|S].
  - destruct (Nat.eq_dec (ksol n f b x (Z.of_nat i) eps) i) as [E|E]; [exact E|].
    pose proof (ksol_before n f b x k_max eps Hb Hx (ksol n f b x (Z.of_nat i) eps) ltac:(lia)). lra.
  - rewrite S. rewrite Z.min_l by lia. apply Nat2Z.id.
Qed.
(** C84. Every entry of the error history, not only the last one, is the smallest residual over the corresponding Krylov
    space, and it is the residual of the vector that a call with that many iterations returns: a smaller k_max gives the
    same run cut short. *)
Theorem C84_history n f b x k_max eps cfg lsq {S} (s : S) : call_ok n f b x k_max eps cfg lsq ->
  exists out, gmres cfg lsq f b x k_max eps s = Ok out s /\
  forall i, (i <= iterations out)%nat ->
    exists outi, gmres cfg lsq f b x (Z.of_nat i) eps s = Ok outi s /\
      go_err outi = firstn (Datatypes.S i) (go_err out) /\ nth i (go_err out) 0 = nrm (lsub b (f (go_x outi))) /\
      forall z, in_span n (krylov f (lsub b (f x)) i) z -> nth i (go_err out) 0 <= nrm (lsub b (f (ladd x z))).
Proof.
  intros H. destruct (run_ok n f b x k_max eps cfg lsq s H) as (out & E & L & X & Er & _).
  exists out. split; [exact E|]. intros i Hit. rewrite (iterations_eq _ _ _ _ _ _ out Er) in Hit.
  pose proof H as (Hf & Hb & Hx & Hk & He & Hi & Hl).
  pose proof (ksol_prefix n f b x k_max eps i Hf Hb Hx He Hi Hit) as K.
  assert (H' : call_ok n f b x (Z.of_nat i) eps cfg lsq) by (repeat split; auto; try apply Hf; lia).
  destruct (run_ok n f b x (Z.of_nat i) eps cfg lsq s H') as (oi & Ei & Li & Xi & Eri & _).
  assert (N : nth i (go_err out) 0 = rhos n f b x i) by (rewrite Er; apply nth_rhos; exact Hit).
  exists oi. split; [exact Ei|]. split; [|split].
  - rewrite Eri, Er, K. rewrite firstn_map. f_equal.
    replace (Datatypes.S (ksol n f b x k_max eps)) with (Datatypes.S i + (ksol n f b x k_max eps - i))%nat by lia.
    rewrite seq_app, firstn_app, seq_length, Nat.sub_diag. rewrite firstn_O, app_nil_r, firstn_all2 by (rewrite seq_length; lia). reflexivity.
  - rewrite N. pose proof (x_residual n f b x (Z.of_nat i) eps Hf Hb Hx He Hi oi Li Xi) as R. rewrite K in R. symmetry. exact R.
  - intros z Hz. rewrite N. pose proof (minimal n f b x (Z.of_nat i) eps Hf Hb Hx He Hi z) as R. rewrite K in R. apply R. exact Hz.
Qed.

Lemma Rdiv_1 a : a / 1 = a. Proof. lra. Qed.

(** ** Specification of the test *)
Definition mean (l : list R) : R := fold_right Rplus 0 l / INR (length l).
(** A problem that the test may draw: square regular matrix, right-hand side of the same size, entries within [-1, 1]. *)
Definition system (n : nat) (p : mat R * vec R) : Prop :=
  mdimb n n (fst p) = true /\ nonsingular n (rows_mul (mdat (fst p))) /\ length (snd p) = n.
(** Norm of the right-hand side. *)
Definition bnorm (p : mat R * vec R) : R := nrm (snd p).
Definition unit_box (v : list R) : Prop := forall a, In a v -> -1 <= a <= 1.

Lemma mv_rows n (A : mat R) v : mdimb n n A = true -> length v = n -> mvmul A v = rows_mul (mdat A) v.
Proof.
  intros HA Hv. destruct (rows_mul_f n n A v HA Hv) as [L G]. apply vec_ext.
  - rewrite mvmul_length, L. apply (mdimb_rows _ _ _ HA).
  - intros i Hi. rewrite G. rewrite (mvmul_f n n A v HA). reflexivity.
Qed.
Lemma mv_linear n (A : mat R) : mdimb n n A = true -> linear n (mvmul A).
Proof.
  intros HA. assert (Hl : forall v, length (mvmul A v) = n) by (intros v; rewrite mvmul_length; apply (mdimb_rows _ _ _ HA)).
  split; [intros v _; apply Hl|]. split.
  - intros u v Hu Hv. apply vec_ext; [rewrite Hl; symmetry; apply ladd_len; apply Hl|]. intros i _.
    rewrite vget_ladd by (rewrite !Hl; reflexivity). rewrite !(mvmul_f n n A _ HA). rewrite vget_ladd by congruence. unfold fadd, fmv.
    rewrite <- Rsum_plus. apply Rsum_ext. intros; ring.
  - intros a v Hv. apply vec_ext; [rewrite Hl, lscal_len; symmetry; apply Hl|]. intros i _.
    rewrite vget_lscal. rewrite !(mvmul_f n n A _ HA), vget_lscal. unfold fscal, fmv. rewrite <- Rsum_scal. apply Rsum_ext. intros; ring.
Qed.
Lemma mv_nonsing n (A : mat R) : mdimb n n A = true -> nonsingular n (rows_mul (mdat A)) -> nonsingular n (mvmul A).
Proof. intros HA Hn v Hv E. apply (Hn v Hv). rewrite <- (mv_rows n A v HA Hv). exact E. Qed.
Lemma nrm_sym u v : length u = length v -> nrm (lsub u v) = nrm (lsub v u).
Proof.
  intros H. rewrite !nrm_R. rewrite (lsub_len u v (length u)), (lsub_len v u (length u)) by congruence. f_equal.
  rewrite !vget_lsub by congruence. unfold fdot, fsubv. apply Rsum_ext. intros; ring.
Qed.
Lemma eps_val : default_eps (T := R) = / 10000000000. Proof. unfold default_eps. numR. lra. Qed.
Lemma lsub_zero b (z : list R) n : length b = n -> z = repeat 0 n -> lsub b z = b.
Proof.
  intros L ->. apply vec_ext; [apply lsub_len; [reflexivity|rewrite repeat_length; congruence]|]. intros i _.
  rewrite vget_lsub by (rewrite repeat_length; congruence). rewrite vget_repeat. unfold fsubv, fzero. lra.
Qed.

Lemma fold_cons a l : fold_right Rplus 0 (a :: l) = a + fold_right Rplus 0 l. Proof. reflexivity. Qed.
Lemma last_nth (l : list R) : last l 0 = nth (length l - 1) l 0.
Proof.
  induction l as [|a l IH]; [reflexivity|]. destruct l as [|c l]; [reflexivity|]. change (last (a :: c :: l) 0) with (last (c :: l) 0). rewrite IH. cbn [length].
  replace (Datatypes.S (Datatypes.S (length l)) - 1)%nat with (Datatypes.S (Datatypes.S (length l) - 1)) by lia. reflexivity.
Qed.
Section Eval.
  Variables (lsq : list (list R) -> list R -> list R) (n : nat) (sv : gm_solver).
  Hypothesis (Hls : gm_tri (gv_cfg sv) = true \/ least_squares lsq) (Hkm : (0 <= gv_kmax sv)%Z).
  Lemma trial_spec {S} (s : S) (p : mat R * vec R) : system n p ->
    exists e, trial_err (fun A c => lsq (mdat A) c) sv p s = Ok e s /\ 0 <= e <= bnorm p /\
      ((Z.of_nat n <= gv_kmax sv)%Z -> e <= / 10000000000 * bnorm p).
  Proof.
    destruct p as [A b]. unfold system, bnorm. cbn [fst snd]. intros (HA & Hn & Hb).
    pose proof (mv_linear n A HA) as Hf. pose proof (mv_nonsing n A HA Hn) as Hns.
    assert (Hx : length (vzero (T := R) (length b)) = n) by (unfold vzero; rewrite vbuild_length; exact Hb).
    assert (He : 0 <= default_eps (T := R)) by (rewrite eps_val; lra).
    assert (H : call_ok n (mvmul A) b (vzero (length b)) (gv_kmax sv) default_eps (gv_cfg sv) lsq) by (apply nonsingular_ok; auto).
    destruct (C38_true_residual n _ b _ (gv_kmax sv) default_eps (gv_cfg sv) lsq s H) as (out & E & L & R1).
    destruct (C40_error_history n _ b _ (gv_kmax sv) default_eps (gv_cfg sv) lsq s H) as (out' & E' & Lh & _ & R0 & Mono & _).
    rewrite E in E'. injection E' as <-. unfold gmres in E.
    assert (Ev : nrm (lsub b (mvmul A (go_x out))) = vnorm (vsub (mvmul A (go_x out)) b)).
    { assert (Lm : length (mvmul A (go_x out)) = length b) by (rewrite (proj1 Hf _ L); congruence).
      rewrite nrm_sym by congruence. rewrite nrm_vnorm, lsub_vsub by exact Lm. reflexivity. }
    exists (vnorm (vsub (mvmul A (go_x out)) b)). split; [|split].
    - unfold trial_err, gm_solve_mat. unfold bind at 1. rewrite bind_guard.
      + rewrite E. reflexivity.
      + rewrite (mdimb_rows _ _ _ HA), (mdimb_cols _ _ _ HA), Hx, Hb. rewrite !Nat.eqb_refl. reflexivity.
    - rewrite <- Ev. split; [rewrite nrm_vnorm; apply GmresReal.vnorm_nonneg|]. rewrite <- R1.
      assert (D : forall i, (i <= iterations out)%nat -> nth i (go_err out) 0 <= nth 0 (go_err out) 0).
      { induction i; intros Hi; [lra|]. specialize (Mono i ltac:(lia)). replace (i + 1)%nat with (Datatypes.S i) in Mono by lia. specialize (IHi ltac:(lia)). lra. }
      assert (Lst : last (go_err out) 0 = nth (iterations out) (go_err out) 0).
      { apply last_nth. }
      rewrite Lst. eapply Rle_trans; [apply D; lia|]. rewrite R0. right. f_equal. apply (lsub_zero _ _ n Hb).
      assert (Z : vzero (T := R) (length b) = repeat 0 n).
      { apply vec_ext; [rewrite repeat_length; exact Hx|]. intros i Hi. rewrite vget_repeat. unfold vzero. rewrite vbuild_get by (rewrite Hx in Hi; congruence). reflexivity. }
      rewrite Z. apply (lin_zero n _ Hf).
    - intros Hk. rewrite <- Ev.
      destruct (C41_tolerance_met n (mvmul A) b (vzero (length b)) (gv_kmax sv) default_eps (gv_cfg sv) lsq s Hf Hns Hb Hx Hk He Hls) as (out' & E' & _ & B).
      unfold gmres in E'. rewrite E in E'. injection E' as <-. rewrite eps_val in B. exact B.
  Qed.
  Lemma loop_spec {S} (s : S) ps : (forall p, In p ps -> system n p) -> forall acc,
    exists e, eval_loop (fun A c => lsq (mdat A) c) sv ps acc s = Ok (acc + e) s /\
      0 <= e <= fold_right Rplus 0 (map bnorm ps) /\
      ((Z.of_nat n <= gv_kmax sv)%Z -> e <= / 10000000000 * fold_right Rplus 0 (map bnorm ps)).
  Proof.
    induction ps as [|p ps IH]; intros HP acc.
    - exists 0. cbn [map fold_right eval_loop]. unfold ret. rewrite Rplus_0_r. split; [reflexivity|]. split; [lra|intros _; lra].
    - destruct (trial_spec s p (HP p (or_introl eq_refl))) as (e & E & B & C).
      destruct (IH (fun q Hq => HP q (or_intror Hq)) (acc + e)) as (e' & E' & B' & C').
      exists (e + e'). cbn [eval_loop]. rewrite map_cons. rewrite fold_cons.
      set (t := fold_right _ _ _) in *. clearbody t.
      split; [|split; [lra|intros Hk; specialize (C Hk); specialize (C' Hk); lra]].
      unfold bind at 1. rewrite E. numR. rewrite E'. f_equal. ring.
  Qed.
  (** C84. eval never exceeds the mean norm of the right-hand sides, for any number of iterations and both options; with
      k_max >= n it is at most 1e-10 times that mean. *)
  Theorem C84_eval {S} (s : S) ps : ps <> [] -> (forall p, In p ps -> system n p) ->
    exists e, eval (fun A c => lsq (mdat A) c) sv ps s = Ok e s /\ 0 <= e <= mean (map bnorm ps) /\
      ((Z.of_nat n <= gv_kmax sv)%Z -> e <= / 10000000000 * mean (map bnorm ps)).
  Proof.
    intros Hne HP. destruct (loop_spec s ps HP 0) as (e & E & B & C). unfold eval, bind at 1. change (@nzero R RNum) with 0. rewrite E.
    exists ((0 + e) / nofnat (length ps)). split; [reflexivity|]. rewrite Rplus_0_l.
    assert (P : 0 < INR (length ps)) by (apply lt_0_INR; destruct ps; [congruence|cbn; lia]).
    unfold mean. rewrite map_length. change (nofnat (length ps)) with (IZR (Z.of_nat (length ps)) / 1). rewrite <- INR_IZR_INZ, Rdiv_1.
    assert (Pi : 0 < / INR (length ps)) by (apply Rinv_0_lt_compat; exact P). unfold Rdiv. split.
    - split; [apply Rmult_le_pos; lra|]. apply Rmult_le_compat_r; lra.
    - intros Hk. specialize (C Hk). rewrite <- Rmult_assoc. apply Rmult_le_compat_r; lra.
  Qed.
End Eval.

(** ** The checks *)
Lemma box_norm v : unit_box v -> nrm v <= sqrt (INR (length v)).
Proof.
  intros H. unfold nrm. apply sqrt_le_1_alt. induction v as [|a v IH]; [cbn; lra|].
  assert (Ha := H a (or_introl eq_refl)). specialize (IH (fun c Hc => H c (or_intror Hc))). cbn [fold_right length]. rewrite S_INR. nra.
Qed.
Lemma mean_le l c : l <> [] -> (forall a, In a l -> a <= c) -> mean l <= c.
Proof.
  intros Hne H. assert (P : 0 < INR (length l)) by (apply lt_0_INR; destruct l; [congruence|cbn; lia]). unfold mean.
  assert (B : fold_right Rplus 0 l <= INR (length l) * c).
  { clear Hne P. induction l as [|a l IH]; [cbn; lra|]. cbn [fold_right length]. rewrite S_INR. specialize (IH (fun x Hx => H x (or_intror Hx))).
    pose proof (H a (or_introl eq_refl)). lra. }
  apply Rmult_le_reg_r with (INR (length l)); [exact P|]. unfold Rdiv. rewrite Rmult_assoc, Rinv_l by lra. lra.
Qed.
(** C84. One equation size of the test, n <= 1000, on any regular systems with right-hand sides in [-1, 1]: the program
    runs to its end, the check with 20 iterations (last one) succeeds, and the others succeed if the right-hand sides have
    mean norm below 1. *)
Theorem C84_checks (lsq : list (list R) -> list R -> list R) (n : nat) {S} (s : S) ps :
  least_squares lsq -> ps <> [] -> (n <= 1000)%nat -> (forall p, In p ps -> system n p /\ unit_box (snd p)) ->
  exists cs, gm_checks (fun A c => lsq (mdat A) c) n ps s = Ok cs s /\
    length cs = (if Nat.leb n 100 then 4 else 3)%nat /\ last cs false = true /\
    (mean (map bnorm ps) < 1 -> forall c, In c cs -> c = true).
Proof.
  intros Hl Hne Hn HP. set (m := mean (map bnorm ps)).
  assert (HP' : forall p, In p ps -> system n p) by (intros p Hp; apply (HP p Hp)).
  assert (Hm : m < 100).
  { apply Rle_lt_trans with (sqrt (INR n)).
    - apply mean_le; [destruct ps; [congruence|discriminate]|]. intros a Ha. apply in_map_iff in Ha as (p & <- & Hp).
      destruct (HP p Hp) as [(_ & _ & L) B]. rewrite <- L. apply box_norm. exact B.
    - rewrite <- (sqrt_Rsqr 100) by lra. apply sqrt_lt_1_alt. unfold Rsqr. split; [apply pos_INR|].
      apply Rle_lt_trans with (INR 1000); [apply le_INR; exact Hn|]. rewrite INR_IZR_INZ. cbn. lra. }
  assert (EV : forall k t r, (0 <= k)%Z -> exists e, eval (fun A c => lsq (mdat A) c) {| gv_kmax := k; gv_cfg := {| gm_tri := t; gm_reorth := r |} |} ps s = Ok e s /\
    e <= m /\ ((Z.of_nat n <= k)%Z -> e <= / 10000000000 * m)).
  { intros k t r Hk. destruct (C84_eval lsq n {| gv_kmax := k; gv_cfg := {| gm_tri := t; gm_reorth := r |} |} (or_intror Hl) Hk s ps Hne HP') as (e & E & B & C).
    exists e. split; [exact E|]. split; [apply B|exact C]. }
  destruct (EV 1000%Z true true ltac:(lia)) as (e1 & E1 & _ & B1). specialize (B1 ltac:(lia)).
  destruct (EV 1000%Z false true ltac:(lia)) as (e2 & E2 & _ & B2). specialize (B2 ltac:(lia)).
  destruct (EV 1000%Z true false ltac:(lia)) as (e3 & E3 & _ & B3). specialize (B3 ltac:(lia)).
  destruct (EV 20%Z true true ltac:(lia)) as (e4 & E4 & B4 & _).
  set (tol := @nlit R RNum 1 10000000000). assert (Et : tol = / 10000000000) by (unfold tol; numR; lra).
  assert (C4 : nltb e4 (nofZ 100) = true) by (numR; apply Rltb_true; lra).
  assert (CC : m < 1 -> forall e, e <= / 10000000000 * m -> nltb e tol = true) by (intros H1 e He; apply Rltb_true; rewrite Et; lra).
  exists ([nltb e1 tol] ++ (if Nat.leb n 100 then [nltb e2 tol] else []) ++ [nltb e3 tol] ++ [nltb e4 (nofZ 100)]).
  unfold gm_checks. unfold bind at 1. rewrite E1. unfold bind at 1.
  destruct (Nat.leb n 100); unfold bind at 1; [rewrite E2; cbn [ret]; unfold bind at 1; rewrite E3|cbn [ret]; rewrite E3].
  all: unfold bind at 1; rewrite E4; unfold ret; split; [reflexivity|]; split; [reflexivity|]; split; [exact C4|].
  all: intros H1 c Hc; cbn [app In] in Hc.
  - destruct Hc as [<-|[<-|[<-|[<-|[]]]]]; auto.
  - destruct Hc as [<-|[<-|[<-|[]]]]; auto.
Qed.

(** ** A drawable system on which the checks fail *)
Definition bad_d (i : nat) : R := if Nat.eqb i 9 then 1 - 3 / 10000000000 else 1.
Definition bad_A : mat R := mbuild 10 10 (fun i j => if Nat.eqb i j then bad_d i else 0).
Definition bad_b : vec R := repeat 1 10.
Lemma bad_mv v : length v = 10%nat -> length (mvmul bad_A v) = 10%nat /\ forall i, (i < 10)%nat -> vget (mvmul bad_A v) i = bad_d i * vget v i.
Proof.
  intros Hv. assert (HA : mdimb 10 10 bad_A = true) by (apply mbuild_dim). split; [rewrite mvmul_length; reflexivity|].
  intros i Hi. rewrite (mvmul_f 10 10 bad_A v HA). unfold fmv. rewrite (Rsum_single _ _ i Hi).
  - unfold bad_A. rewrite mbuild_get by (assumption || (split; assumption)). rewrite Nat.eqb_refl. reflexivity.
  - intros j Hj Hne. unfold bad_A. rewrite mbuild_get by (assumption || (split; assumption)).
    destruct (Nat.eqb_spec i j); [congruence|]. ring.
Qed.
Lemma bad_d_pos i : 0 < bad_d i. Proof. unfold bad_d. destruct (Nat.eqb i 9); lra. Qed.
Lemma bad_system : system 10 (bad_A, bad_b).
Proof.
  assert (HA : mdimb 10 10 bad_A = true) by (apply mbuild_dim). split; [exact HA|]. split; [|reflexivity].
  intros v Hv E. cbn [fst] in E. rewrite <- (mv_rows 10 bad_A v HA Hv) in E. apply zero_iff; [exact Hv|]. intros i Hi.
  apply (zero_iff 10 _ (proj1 (bad_mv v Hv))) with (i := i) in E; [|exact Hi]. rewrite (proj2 (bad_mv v Hv) i Hi) in E.
  pose proof (bad_d_pos i). apply Rmult_integral in E as [E|E]; [lra|exact E].
Qed.
Lemma bget_b i : (i < 10)%nat -> vget bad_b i = 1.
Proof. intros Hi. unfold bad_b, vget. do 10 (destruct i as [|i]; [reflexivity|]). lia. Qed.
(** The residual of c b. *)
Lemma bad_res c (x : list R) : length x = 10%nat -> (forall i, (i < 10)%nat -> vget x i = c) ->
  nrm (lsub bad_b (mvmul bad_A x)) = sqrt (9 * ((1 - c) * (1 - c)) + (1 - (1 - 3 / 10000000000) * c) * (1 - (1 - 3 / 10000000000) * c)).
Proof.
  intros L G. destruct (bad_mv x L) as [Lm Gm]. rewrite nrm_R. rewrite (lsub_len _ _ 10%nat) by (reflexivity || exact Lm). f_equal.
  rewrite vget_lsub by (rewrite Lm; reflexivity). unfold fdot, fsubv.
  rewrite (Rsum_ext _ _ (fun i => (1 - bad_d i * c) * (1 - bad_d i * c))).
  - rewrite !Rsum_S. cbn [Rsum]. unfold bad_d. cbn [Nat.eqb]. ring.
  - intros i Hi. rewrite (Gm i Hi), (G i Hi), (bget_b i Hi). reflexivity.
Qed.
Lemma bad_low c : / 10000000000 < sqrt (9 * ((1 - c) * (1 - c)) + (1 - (1 - 3 / 10000000000) * c) * (1 - (1 - 3 / 10000000000) * c)).
Proof.
  set (d := / 10000000000). assert (D : 3 / 10000000000 = 3 * d) by (unfold d; lra). assert (Pd : 0 < d < / 1000) by (unfold d; lra). rewrite D. clearbody d.
  rewrite <- (sqrt_Rsqr d) at 1 by lra. apply sqrt_lt_1_alt. split; [apply Rle_0_sqr|]. unfold Rsqr.
  replace (1 - (1 - 3 * d) * c) with ((1 - c) + 3 * d - 3 * d * (1 - c)) by ring. set (u := 1 - c). clearbody u.
  destruct (Rlt_le_dec (d / 2) (Rabs u)) as [H|H].
  - assert (d * d < 9 * (u * u)). { replace (u * u) with (Rabs u * Rabs u) by (rewrite <- Rabs_mult; apply Rabs_right; nra). nra. }
    pose proof (Rle_0_sqr (u + 3 * d - 3 * d * u)). unfold Rsqr in *. lra.
  - assert (- (d / 2) <= u <= d / 2) by (pose proof (Rle_abs u); pose proof (Rle_abs (- u)); rewrite Rabs_Ropp in *; lra).
    assert (2 * d <= u + 3 * d - 3 * d * u) by nra. assert (0 <= u * u) by nra. nra.
Qed.
Lemma bad_b_nrm : nrm bad_b = sqrt 10.
Proof. unfold nrm, bad_b. f_equal. cbn. lra. Qed.
Lemma sqrt10 : 3 <= sqrt 10.
Proof. rewrite <- (sqrt_Rsqr 3) by lra. apply sqrt_le_1_alt. unfold Rsqr. lra. Qed.
Lemma bad_trial lsq sv {S} (s : S) : gm_tri (gv_cfg sv) = true \/ least_squares lsq -> gv_kmax sv = 1000%Z ->
  exists e, trial_err (fun A c => lsq (mdat A) c) sv (bad_A, bad_b) s = Ok e s /\ / 10000000000 < e.
Proof.
  intros Hls Hk. destruct bad_system as (HA & Hn & Hb). cbn [fst snd] in *.
  pose proof (mv_linear 10 bad_A HA) as Hf. pose proof (mv_nonsing 10 bad_A HA Hn) as Hns.
  assert (Z0 : vzero (T := R) (length bad_b) = repeat 0 10) by reflexivity.
  assert (H : call_ok 10 (mvmul bad_A) bad_b (repeat 0 10) 1000 default_eps (gv_cfg sv) lsq).
  { apply nonsingular_ok; auto; [lia|rewrite eps_val; lra]. }
  assert (Rz : lsub bad_b (mvmul bad_A (repeat 0 10)) = bad_b) by (apply (lsub_zero _ _ 10 Hb); apply (lin_zero 10 _ Hf)).
  destruct (C38_true_residual _ _ _ _ _ _ _ _ s H) as (out & E & L & _).
  destruct (C40_error_history _ _ _ _ _ _ _ _ s H) as (o2 & E2 & _ & _ & _ & _ & Big & _). rewrite E in E2. injection E2 as <-.
  destruct (C39_minimal_residual _ _ _ _ _ _ _ _ s H) as (o3 & E3 & (z & Hz & Ez) & _). rewrite E in E3. injection E3 as <-.
  destruct (C84_history _ _ _ _ _ _ _ _ s H) as (o4 & E4 & Hist). rewrite E in E4. injection E4 as <-.
  rewrite Rz in *.
  (* at most one iteration *)
  assert (K : (iterations out <= 1)%nat).
  { destruct (Nat.le_gt_cases (iterations out) 1) as [K|K]; [exact K|exfalso]. specialize (Big 1%nat K).
    destruct (Hist 1%nat ltac:(lia)) as (_ & _ & _ & _ & Min). specialize (Min bad_b).
    assert (Sp : in_span 10 (krylov (mvmul bad_A) bad_b 1) bad_b).
    { exists [1]. split; [reflexivity|]. unfold krylov. cbn [seq map Nat.iter nat_rect lincomb]. unfold ladd, lscal, bad_b. cbn. replace (1 * 1 + 0) with 1 by lra. reflexivity. }
    specialize (Min Sp).
    rewrite (bad_res 1) in Min.
    - rewrite bad_b_nrm, eps_val in Big. pose proof sqrt10.
      replace (9 * _ + _) with (Rsqr (3 / 10000000000)) in Min by (unfold Rsqr; lra). rewrite sqrt_Rsqr in Min by lra. lra.
    - apply ladd_len; reflexivity.
    - intros i Hi. rewrite vget_ladd by reflexivity. rewrite vget_repeat. unfold fadd. rewrite (bget_b i Hi). unfold fzero. lra. }
  (* so x is a multiple of b *)
  assert (X : exists c, forall i, (i < 10)%nat -> vget (go_x out) i = c).
  { destruct Hz as (cs & Lc & ->). rewrite (krylov_len) in Lc.
    destruct cs as [|c [|]]; cbn [length] in Lc; [| |lia].
    - exists 0. intros i Hi. rewrite Ez. cbn [lincomb]. rewrite vget_ladd by reflexivity. rewrite !vget_repeat. unfold fadd, fzero. lra.
    - exists c. intros i Hi. rewrite Ez. rewrite <- Lc. unfold krylov. cbn [seq map Nat.iter nat_rect lincomb length].
      rewrite vget_ladd by reflexivity. rewrite vget_ladd by reflexivity. rewrite vget_lscal, !vget_repeat. unfold fadd, fscal, fzero. rewrite (bget_b i Hi). lra. }
  destruct X as (c & X). exists (vnorm (vsub (mvmul bad_A (go_x out)) bad_b)). split.
  - unfold trial_err, gm_solve_mat. unfold bind at 1. rewrite bind_guard by reflexivity. rewrite Hk, Z0. unfold gmres in E. rewrite E. reflexivity.
  - assert (Lm : length (mvmul bad_A (go_x out)) = length bad_b) by (rewrite (proj1 Hf _ L); reflexivity).
    rewrite <- lsub_vsub by exact Lm. rewrite <- nrm_vnorm, nrm_sym by exact Lm. rewrite (bad_res c _ L X). apply bad_low.
Qed.
Lemma eval_repeat (lsq : list (list R) -> list R -> list R) sv (p : mat R * vec R) (e : R) {S} (s : S) m : trial_err (fun A c => lsq (mdat A) c) sv p s = Ok e s ->
  eval (fun A c => lsq (mdat A) c) sv (repeat p (Datatypes.S m)) s = Ok e s.
Proof.
  intros E. assert (LP : forall k acc, eval_loop (fun A c => lsq (mdat A) c) sv (repeat p k) acc s = Ok (acc + INR k * e) s).
  { induction k; intros acc; [cbn; unfold ret; f_equal; ring|]. cbn [repeat eval_loop]. unfold bind at 1. rewrite E. numR. rewrite IHk, S_INR. f_equal. ring. }
  unfold eval. unfold bind at 1. rewrite LP. unfold ret. rewrite repeat_length. f_equal. change (@nzero R RNum) with 0.
  change (nofnat (Datatypes.S m)) with (IZR (Z.of_nat (Datatypes.S m)) / 1). rewrite <- INR_IZR_INZ. numR. field. apply not_0_INR. discriminate.
Qed.
(** C84, refuted part: ten systems that the test may draw (size 10, regular, entries within [-1, 1]) for which GMRES meets
    its tolerance and every check against 1e-10 fails: eps is relative to the norm of b, the check is not. *)
Theorem C84_checks_refuted : exists ps : list (mat R * vec R), length ps = 10%nat /\
  (forall p, In p ps -> system 10 p /\ unit_box (snd p) /\ forall row, In row (mdat (fst p)) -> unit_box row) /\
  forall (lsq : list (list R) -> list R -> list R) (S : Type) (s : S), least_squares lsq ->
    gm_checks (fun A c => lsq (mdat A) c) 10 ps s = Ok [false; false; false; true] s.
Proof.
  exists (repeat (bad_A, bad_b) 10). split; [reflexivity|].
  assert (HP : forall p, In p (repeat (bad_A, bad_b) 10) -> system 10 p /\ unit_box (snd p) /\ forall row, In row (mdat (fst p)) -> unit_box row).
  { intros p Hp. apply repeat_spec in Hp. subst p. split; [exact bad_system|]. cbn [fst snd]. split.
    - intros a Ha. apply repeat_spec in Ha. subst a. lra.
    - intros row Hr a Ha. unfold bad_A, mbuild in Hr. cbn [mdat] in Hr. apply in_map_iff in Hr as (i & <- & _). apply in_map_iff in Ha as (j & <- & _).
      destruct (Nat.eqb i j); [|lra]. unfold bad_d. destruct (Nat.eqb i 9); lra. }
  split; [exact HP|]. intros lsq S s Hl.
  assert (EV : forall t r, exists e, eval (fun A c => lsq (mdat A) c) {| gv_kmax := 1000; gv_cfg := {| gm_tri := t; gm_reorth := r |} |} (repeat (bad_A, bad_b) 10) s = Ok e s
    /\ nltb e (nlit 1 10000000000) = false).
  { intros t r. destruct (bad_trial lsq {| gv_kmax := 1000; gv_cfg := {| gm_tri := t; gm_reorth := r |} |} s (or_intror Hl) eq_refl) as (e & E & B).
    exists e. split; [apply eval_repeat; exact E|]. numR. apply Rltb_false. lra. }
  destruct (C84_eval lsq 10 {| gv_kmax := 20; gv_cfg := {| gm_tri := true; gm_reorth := true |} |} (or_introl eq_refl) ltac:(cbn; lia) s
    (repeat (bad_A, bad_b) 10) ltac:(discriminate) (fun p Hp => proj1 (HP p Hp))) as (e4 & E4 & B4 & _).
  assert (F4 : nltb e4 (nofZ 100) = true).
  { numR. apply Rltb_true. eapply Rle_lt_trans; [apply B4|]. apply Rle_lt_trans with 4; [|lra]. apply mean_le; [discriminate|].
    intros a Ha. apply in_map_iff in Ha as (p & <- & Hp). apply repeat_spec in Hp. subst p. unfold bnorm. cbn [snd]. rewrite bad_b_nrm.
    rewrite <- (sqrt_Rsqr 4) by lra. apply sqrt_le_1_alt. unfold Rsqr. lra. }
  destruct (EV true true) as (e1 & E1 & F1). destruct (EV false true) as (e2 & E2 & F2). destruct (EV true false) as (e3 & E3 & F3).
  clear EV HP B4. set (ps := repeat (bad_A, bad_b) 10) in *. clearbody ps.
  unfold gm_checks. unfold bind at 1. rewrite E1. change (Nat.leb 10 100) with true. cbv iota.
  unfold bind at 1. unfold bind at 1. rewrite E2. unfold ret at 1. unfold bind at 1. rewrite E3. unfold bind at 1. rewrite E4.
  rewrite F1, F2, F3, F4. reflexivity.
Qed.

(** C84_checks is met by two systems in R^2 with right-hand sides of norm 1/2: all four checks hold. *)
Example C84_checks_nonvacuous : let ps := [(mkmat 2 2 [[0; 1]; [1; 0]], [/ 2; 0]); (mkmat 2 2 [[1; 1]; [0; -1]], [0; / 2])] in
  (forall p, In p ps -> system 2 p /\ unit_box (snd p)) /\ mean (map bnorm ps) < 1.
Proof.
  intros ps. split.
  - intros p [<-|[<-|[]]]; (split; [split; [reflexivity|split; [|reflexivity]]|]).
    + intros [|a [|b [|]]]; try discriminate. intros _ E. unfold rows_mul, ldot in E. cbn in E. injection E as E1 E2. cbn. f_equal; [lra|f_equal; lra].
    + intros c [<-|[<-|[]]]; lra.
    + intros [|a [|b [|]]]; try discriminate. intros _ E. unfold rows_mul, ldot in E. cbn in E. injection E as E1 E2. cbn. f_equal; [lra|f_equal; lra].
    + intros c [<-|[<-|[]]]; lra.
  - assert (Q : sqrt (/ 2 * / 2) = / 2) by (apply sqrt_square; lra).
    unfold mean, ps, bnorm, nrm. cbn [map length fold_right snd fst INR].
    replace (/ 2 * / 2 + (0 * 0 + 0)) with (/ 2 * / 2) by lra. replace (0 * 0 + (/ 2 * / 2 + 0)) with (/ 2 * / 2) by lra. rewrite Q. lra.
Qed.

Print Assumptions C84_history.
Print Assumptions C84_eval.
Print Assumptions C84_checks.
Print Assumptions C84_checks_refuted.
