(** Properties C35 and C36: the derivative of the 1-norm and of the merit function (exact arithmetic). *)
From Coq Require Import Reals Lra Psatz.
From Verif Require Import Prelude Scalar LinAlg RLin DDP Fmpc FmpcProofs FmpcStep FmpcSpec FmpcReal FmpcMerit P_FmpcRun P_FmpcReal ExDDP ExFmpc RQ ExQPR.
Local Open Scope R_scope.

(** C35. For small t >= 0 the 1-norm of f + t J d is exactly ||f||_1 + t l1NormDirectionalDeriv(f, J, d). *)
Theorem C35_one_norm (f : vec R) (J : mat R) (d : vec R) : mdimb (length f) (length d) J = true ->
  exists h, 0 < h /\ forall t, 0 <= t <= h ->
    Rsum (length f) (fun i => Rabs (vget f i + t * Rsum (length d) (fun k => mget J i k * vget d k)))
    = Rsum (length f) (fun i => Rabs (vget f i)) + t * l1_deriv f J d.
Proof. intros H. rewrite (l1_deriv_R _ _ _ H). apply sum_line. Qed.
(** The same for a curve with tangent J d, as a right derivative. *)
Theorem C35_curve (F : R -> vec R) (f : vec R) (J : mat R) (d : vec R) : mdimb (length f) (length d) J = true ->
  (forall i, (i < length f)%nat -> right_deriv (fun a => vget (F a) i) (vget f i) (Rsum (length d) (fun k => mget J i k * vget d k))) ->
  right_deriv (fun a => Rsum (length f) (fun i => Rabs (vget (F a) i))) (Rsum (length f) (fun i => Rabs (vget f i))) (l1_deriv f J d).
Proof.
  intros H HF. rewrite (l1_deriv_R _ _ _ H). apply rd_sum. intros i Hi. apply rd_abs. apply HF. exact Hi.
Qed.
Example C35_nonvacuous : mdimb 3 2 (mkmat 3 2 [[1; 0]; [0; 1]; [1; -2]]) = true /\ l1_deriv [2; -1; 0] (mkmat 3 2 [[1; 0]; [0; 1]; [1; -2]]) [1; 1] = 1.
Proof.
  split; [reflexivity|]. rcbv. rq. unfold Q2R; cbn; lra.
Qed.

(** A right derivative is unique. *)
Lemma rd_unique f y l m : right_deriv f y l -> right_deriv f y m -> l = m.
Proof.
  intros H1 H2. destruct (Req_dec l m) as [E|E]; [exact E|exfalso].
  assert (P : 0 < Rabs (l - m) / 3) by (apply Rdiv_lt_0_compat; [apply Rabs_pos_lt; lra|lra]).
  destruct (H1 _ P) as (h1 & P1 & E1). destruct (H2 _ P) as (h2 & P2 & E2).
  set (t := Rmin h1 h2 / 2). pose proof (Rmin_l h1 h2). pose proof (Rmin_r h1 h2). pose proof (Rmin_pos _ _ P1 P2).
  assert (Ht : 0 < t) by (unfold t; lra). specialize (E1 t ltac:(unfold t in *; lra)). specialize (E2 t ltac:(unfold t in *; lra)).
  assert (K : Rabs ((l - m) * t) <= 2 * (Rabs (l - m) / 3 * t)).
  { replace ((l - m) * t) with ((f t - y - m * t) - (f t - y - l * t)) by lra. unfold Rminus at 1. eapply Rle_trans; [apply Rabs_triang|]. rewrite Rabs_Ropp. lra. }
  rewrite Rabs_mult, (Rabs_right t) in K by lra. nra.
Qed.

Section Merit.
  Variables (pb : fproblem R) (cf : fconfig R).
  (** C36. Along the step, the merit function has a right derivative [D], and the derivative stored by setupMeritFunc is at
      least [D]; it is equal to [D] if no component of the initial-state, dynamics and inequality residuals is zero. *)
  Theorem C36_upper_bound st st' (w : R -> var R) : setup_merit pb cf st = Ok tt st' -> all_pos (v_s (f_var st)) ->
    smooth_along pb (f_t st) (Nf cf) (f_var st) (f_delta st) (f_coeff st) ->
    (exists h, 0 < h /\ forall a, 0 < a < h -> primal_at (Nf cf) a (f_var st) (f_delta st) (w a)) ->
    let merit := phi pb (f_t st) (f_x st) (f_eps st) (f_mscale st') (Nf cf) in
    f_mfunc st' = merit (f_var st) /\ 1 / 1000 <= f_mscale st' /\
    exists D, right_deriv (fun a => merit (w a)) (merit (f_var st)) D /\ D <= f_mderiv st' /\
      (no_zero_residual pb (f_t st) (f_x st) (Nf cf) (f_var st) -> f_mderiv st' = D).
  Proof.
    intros H Hs Hsm Hw. cbn zeta. pose proof H as H'. apply setup_merit_R in H' as (sc & dd & E). unfold setup_merit in H.
    destruct (merit_parts pb cf (f_t st) (f_x st) (f_eps st) (f_var st)) as [[o c]|] eqn:Em; [|discriminate].
    destruct (deriv_parts _ _ _ _ _ _ _ _) as [[d1 d2]|] eqn:Ed; [|discriminate].
    destruct (merit_scale _ _ _ _) as [sc'|] eqn:Es; [|discriminate]. cbn [fst snd] in H. injection H as <-.
    cbn [set_fmerit f_mscale f_mfunc f_mderiv] in *. apply merit_parts_R in Em as [-> ->]. apply merit_scale_pos in Es.
    split; [reflexivity|]. split; [exact Es|].
    assert (HN : exists cN, nth_error (f_coeff st) (Nf cf) = Some cN).
    { unfold deriv_parts in Ed. do 3 opt1 Ed. destruct (nth_error (f_coeff st) (Nf cf)) as [cN|] eqn:EN; [eauto|discriminate]. }
    destruct HN as [cN HN].
    apply (deriv_parts_R pb cf _ _ _ _ _ _ cN) in Ed as (-> & -> & L1 & L2 & Hst); [|exact HN].
    exists (dobj pb cf (f_eps st) (f_var st) (f_delta st) (f_coeff st) cN + sc' * dconst_true pb cf (f_t st) (f_x st) (f_var st) (f_delta st) (f_coeff st) cN).
    split; [apply phi_deriv; auto|]. opsR. split.
    - apply Rplus_le_compat_l. apply Rmult_le_compat_l; [lra|]. apply dconst_le.
    - intros Hz. f_equal. f_equal. symmetry. apply dconst_eq. exact Hz.
  Qed.
End Merit.

(** ** The equality fails when a residual component is zero *)
Lemma rd_quad c l q : right_deriv (fun a => c + a * l + a * a * q) c l.
Proof.
  intros e He. assert (Hq : 0 < Rabs q + 1) by (pose proof (Rabs_pos q); lra). exists (e / (Rabs q + 1)). split; [apply Rdiv_lt_0_compat; assumption|].
  intros t Ht. replace (c + t * l + t * t * q - c - l * t) with (t * t * q) by lra. rewrite !Rabs_mult, !(Rabs_right t) by lra.
  replace (t * t * Rabs q) with ((t * Rabs q) * t) by lra. apply Rmult_le_compat_r; [lra|].
  apply Rle_trans with (e / (Rabs q + 1) * (Rabs q + 1)); [|right; field; lra]. apply Rmult_le_compat; try lra. apply Rabs_pos.
Qed.
Definition exr_path (a : R) : var R := match ls_var exr_cf2 a (f_var exr_st2) (f_delta exr_st2) with Some w => w | None => f_var exr_st2 end.
Lemma exr_primal a : primal_at 1 a (f_var exr_st2) (f_delta exr_st2) (exr_path a).
Proof. apply (ls_var_R exr_cf2). reflexivity. Qed.
Lemma exr_smooth : smooth_along ex_fp_free 0 1 (f_var exr_st2) (f_delta exr_st2) (f_coeff exr_st2).
Proof.
  constructor.
  - intros i c Hi Hc. assert (i = 0)%nat by lia. subst i. injection Hc as <-. cbn zeta. split; [reflexivity|]. split; [reflexivity|].
    split; [|split].
    + intros j Hj. cbn in Hj. assert (j = 0)%nat by lia. subst j.
      apply (rd_ext (fun a => 1 + a * 2 + a * a * 0)).
      * exists 1. split; [lra|]. intros a _. cbn. unfold vget, go; cbn. lra.
      * eapply rd_eq; [apply rd_quad| |]; cbn; unfold vget; cbn; lra.
    + intros j Hj. cbn in Hj. lia.
    + apply (rd_ext (fun a => 1 / 2 + a * 2 + a * a * 2)).
      * exists 1. split; [lra|]. intros a _. cbn. unfold vget, go; cbn. lra.
      * eapply rd_eq; [apply rd_quad| |]; cbn; unfold vget; cbn; lra.
  - intros c Hc. injection Hc as <-. cbn zeta.
    apply (rd_ext (fun a => 1 / 2 + a * 2 + a * a * 2)).
    * exists 1. split; [lra|]. intros a _. cbn. unfold vget, go; cbn. lra.
    * eapply rd_eq; [apply rd_quad| |]; cbn; unfold vget; cbn; lra.
Qed.
Lemma exr_setup2 : setup_merit ex_fp_free exr_cf2 exr_st2 = Ok tt (set_fmerit (Q2R (QArith_base.Qmake 22 5)) (Q2R (QArith_base.Qmake 99 20)) (Q2R (QArith_base.Qmake 11 1)) exr_st2).
Proof. rcbv. rq. reflexivity. Qed.
(** Here the dynamics residual is zero and the step keeps it zero. setupMeritFunc adds |A dx|, |B du| and |dx'| instead of taking
    |A dx + B du - dx'|, and so stores +11 for a direction in which the merit function falls with slope -33/5. *)
Theorem C36_refuted : exists pb cf st st' (w : R -> var R),
  setup_merit pb cf st = Ok tt st' /\ all_pos (v_s (f_var st)) /\
  smooth_along pb (f_t st) (Nf cf) (f_var st) (f_delta st) (f_coeff st) /\
  (forall a, primal_at (Nf cf) a (f_var st) (f_delta st) (w a)) /\
  f_mderiv st' = 11 /\
  let merit := phi pb (f_t st) (f_x st) (f_eps st) (f_mscale st') (Nf cf) in
  right_deriv (fun a => merit (w a)) (merit (f_var st)) (- (33 / 5)).
Proof.
  exists ex_fp_free, exr_cf2, exr_st2. eexists. exists exr_path. split; [exact exr_setup2|].
  assert (Hp : all_pos (v_s (f_var exr_st2))) by (intros x a [<-|[]] []).
  split; [exact Hp|]. split; [exact exr_smooth|]. split; [exact exr_primal|]. split; [unfold Q2R; cbn; lra|].
  cbn zeta. pose proof exr_setup2 as H. unfold setup_merit in H.
  destruct (merit_parts _ _ _ _ _ _) as [[o c]|] eqn:Em; [|discriminate].
  destruct (deriv_parts _ _ _ _ _ _ _ _) as [[d1 d2]|] eqn:Ed; [|discriminate]. clear H Em.
  destruct (deriv_parts_R _ _ _ _ _ _ _ _ exr_coeff _ _ (eq_refl : nth_error (f_coeff exr_st2) (Nf exr_cf2) = Some exr_coeff) Ed) as (_ & _ & L1 & L2 & Hst).
  eapply rd_eq; [apply (phi_deriv ex_fp_free exr_cf2 _ _ _ _ _ _ exr_coeff Hst (conj L1 L2) eq_refl Hp exr_smooth exr_path)|reflexivity|].
  - exists 1. split; [lra|]. intros a _. apply exr_primal.
  - cbn [set_fmerit f_mscale exr_st2 f_eps f_x f_t f_var f_delta f_coeff]. unfold dobj, dconst_true, mvsum, vvsum. change (Nf exr_cf2) with 1%nat. cbn. unfold vget, mget. cbn.
    unfold absd. unfold Q2R; cbn. repeat (destruct (Rlt_dec _ _); try lra).
    all: unfold Rabs; repeat (destruct (Rcase_abs _); try lra).
Qed.
(** A step without zero residual: x = (1, 0) with the same direction. *)
Definition exr_st4 : fsolver R := {|
  f_t := 0; f_x := [2]; f_var := {| v_hor := 1; v_x := [[1]; [0]]; v_u := [[0]]; v_l := [[0]; [0]]; v_s := [[]]; v_n := [[]] |};
  f_delta := exr_free 2 0 0;
  f_coeff := [exr_coeff; {|
    c_A := m11 1; c_B := m11 1; c_C := mzero 0 1; c_D := mzero 0 1; c_Lx := [0]; c_Lu := [0]; c_Lxx := m11 1; c_Luu := m11 1; c_Lxu := m11 0;
    c_xbar := [0]; c_gbar := []; c_Lxbar := [0]; c_Lubar := [0]; c_k := [0]; c_K := m11 0; c_s := [0]; c_P := m11 0 |}]; f_trace := [];
  f_eps := 1 / 10000; f_mscale := 0; f_mfunc := 0; f_mderiv := 0 |}.
Example C36_nonvacuous : (exists st', setup_merit ex_fp_free exr_cf2 exr_st4 = Ok tt st') /\ all_pos (v_s (f_var exr_st4)) /\
  smooth_along ex_fp_free 0 1 (f_var exr_st4) (f_delta exr_st4) (f_coeff exr_st4) /\
  (exists w, forall a, primal_at 1 a (f_var exr_st4) (f_delta exr_st4) (w a)) /\ no_zero_residual ex_fp_free 0 [2] 1 (f_var exr_st4).
Proof.
  split; [eexists; rcbv; rq; reflexivity|]. split; [intros x a [<-|[]] []|]. split; [|split].
  - constructor.
    + intros i c Hi Hc. assert (i = 0)%nat by lia. subst i. exact (sa_step _ _ _ _ _ _ exr_smooth 0%nat c Hi Hc).
    + intros c Hc. injection Hc as <-. cbn zeta. apply (rd_ext (fun a => 0 + a * 0 + a * a * 2)).
      * exists 1. split; [lra|]. intros a _. cbn. unfold vget, go; cbn. lra.
      * eapply rd_eq; [apply rd_quad| |]; cbn; unfold vget; cbn; lra.
  - exists (fun a => match ls_var exr_cf2 a (f_var exr_st4) (f_delta exr_st4) with Some w => w | None => f_var exr_st4 end).
    intros a. apply (ls_var_R exr_cf2). reflexivity.
  - split.
    + intros j Hj. cbn in Hj. assert (j = 0)%nat by lia. subst j. cbn. lra.
    + intros i Hi. assert (i = 0)%nat by lia. subst i. cbn zeta. split.
      * intros j Hj. cbn in Hj. assert (j = 0)%nat by lia. subst j. cbn. unfold vget; cbn. lra.
      * intros j Hj. cbn in Hj. lia.
Qed.
Print Assumptions C35_one_norm.
Print Assumptions C35_curve.
Print Assumptions C36_upper_bound.
Print Assumptions C36_refuted.
