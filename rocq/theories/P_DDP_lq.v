(** Properties C12, C13 of DDPSolver: linear-quadratic problems, in exact arithmetic. *)
From Verif Require Import Prelude Scalar LinAlg BoxQP DDP DDPSpec DDPProofs DDPCor DDPReal DDPSafe DDPLimits RLin Chol CholProofs
  LQ LQ2 LQ3 ExDDP P_DDP_real P_DDP_safe.
From Coq Require Import Reals Lra.
Open Scope R_scope.

(** A sequence of inputs, each with the dimension documented for its time. *)
Definition inputs_typed (pb : problem R) (t0 : R) (us : list (vec R)) : Prop :=
  forall i u, nth_error us i = Some u -> length u = nu_of pb (t0 + nofnat i * pb_dt pb)%num.

(** Cost of the trajectory of [us] from [x0] ([i]: index of the first input). *)
Fixpoint cost_of (pb : problem R) (t0 : R) (i : nat) (x : vec R) (us : list (vec R)) : R :=
  let t := t0 + INR i * pb_dt pb in
  match us with
  | [] => pb_terminalCost pb t x
  | u :: us' => pb_runningCost pb t x u + cost_of pb t0 (S i) (pb_stateEq pb t x u) us'
  end.

(** The rollout of an input sequence. *)
Fixpoint states_of (pb : problem R) (t0 : R) (i : nat) (x : vec R) (us : list (vec R)) : list (vec R) :=
  x :: match us with [] => [] | u :: us' => states_of pb t0 (S i) (pb_stateEq pb (t0 + INR i * pb_dt pb) x u) us' end.
Fixpoint costs_of (pb : problem R) (t0 : R) (i : nat) (x : vec R) (us : list (vec R)) : list R :=
  let t := t0 + INR i * pb_dt pb in
  match us with
  | [] => [pb_terminalCost pb t x]
  | u :: us' => pb_runningCost pb t x u :: costs_of pb t0 (S i) (pb_stateEq pb t x u) us'
  end.
Definition rollout_of pb t0 x us : cdata R :=
  {| cd_x := states_of pb t0 0 x us; cd_u := us; cd_cost := costs_of pb t0 0 x us |}.

Lemma tm_INR (pb : problem R) t0 i : (t0 + nofnat i * pb_dt pb)%num = t0 + INR i * pb_dt pb.
Proof. apply tm_nofnat. Qed.

Lemma rollout_steps pb t0 us : forall i x,
  length (states_of pb t0 i x us) = S (length us) /\ length (costs_of pb t0 i x us) = S (length us) /\
  nth_error (states_of pb t0 i x us) 0 = Some x /\
  (forall j, (j < length us)%nat -> exists y u, nth_error (states_of pb t0 i x us) j = Some y /\ nth_error us j = Some u /\
     nth_error (states_of pb t0 i x us) (S j) = Some (pb_stateEq pb (t0 + INR (i + j) * pb_dt pb) y u) /\
     nth_error (costs_of pb t0 i x us) j = Some (pb_runningCost pb (t0 + INR (i + j) * pb_dt pb) y u)) /\
  (exists y, nth_error (states_of pb t0 i x us) (length us) = Some y /\
     nth_error (costs_of pb t0 i x us) (length us) = Some (pb_terminalCost pb (t0 + INR (i + length us) * pb_dt pb) y)).
Proof.
  induction us as [|u us IH]; intros i x.
  - cbn [states_of costs_of length]. split; [reflexivity|]. split; [reflexivity|]. split; [reflexivity|]. split; [intros; lia|].
    exists x. rewrite Nat.add_0_r. auto.
  - destruct (IH (S i) (pb_stateEq pb (t0 + INR i * pb_dt pb) x u)) as (A1 & A2 & A3 & A4 & y & A5 & A6).
    cbn [states_of costs_of length]. split; [congruence|]. split; [congruence|]. split; [reflexivity|]. split.
    + intros [|j] Hj.
      * exists x, u. rewrite Nat.add_0_r. cbn [nth_error]. auto.
      * destruct (A4 j ltac:(lia)) as (y' & u' & B1 & B2 & B3 & B4). exists y', u'. cbn [nth_error].
        replace (i + S j)%nat with (S i + j)%nat by lia. auto.
    + exists y. cbn [nth_error]. replace (i + S (length us))%nat with (S i + length us)%nat by lia. auto.
Qed.
Lemma rollout_of_ok pb t0 x us : is_rollout pb t0 x (length us) (rollout_of pb t0 x us).
Proof.
  destruct (rollout_steps pb t0 us 0 x) as (A1 & A2 & A3 & A4 & y & A5 & A6).
  split; cbn [rollout_of cd_x cd_u cd_cost]; rewrite ?Nat.add_1_r; auto.
  - intros j Hj. destruct (A4 j Hj) as (y' & u' & B). exists y', u'. rewrite tm_INR, Nat.add_1_r. exact B.
  - exists y. rewrite tm_INR. auto.
Qed.
Lemma rollout_cost pb t0 us : forall i x, nsum (costs_of pb t0 i x us) = cost_of pb t0 i x us.
Proof.
  induction us as [|u us IH]; intros i x; rewrite nsum_list; cbn [costs_of cost_of length].
  - cbn. ring.
  - rewrite Rsum_S_l, <- IH, nsum_list. reflexivity.
Qed.

Section LQ.
  Variables (LL : lltops R) (pb : problem R) (cf : config R) (limits : option (R -> vec R * vec R)) (qfuel : nat).
  Variables (t0 : R) (x0 : vec R).
  Hypothesis HL : exact_llt LL.
  Hypothesis Hlq : lq_problem pb.
  Hypothesis Hcon : cf_constraint cf = false.
  Hypothesis Hx0 : length x0 = pb_nx pb.

  Lemma rollout_traj us : inputs_typed pb t0 us -> traj pb t0 x0 (length us) (rollout_of pb t0 x0 us).
  Proof. intros H. split; [apply rollout_of_ok|exact H]. Qed.

  (** C12: whatever the factor, the candidate costs what the backward pass predicted; the expected change recorded by
      the solver is the actual one. *)
  Theorem C12_expected_change_exact N c g a c' :
    is_rollout pb t0 x0 N c -> inputs_typed pb t0 (cd_u c) ->
    backward pb cf t0 N LL limits qfuel c 0 (Some g) -> is_candidate pb t0 x0 N c g a c' ->
    total c' = total c + a * p_d0 g + a * a * p_d1 g /\ total c - total c' = expected_of g a.
  Proof.
    intros Hro Ht Hb Hc. assert (Hc0 : traj pb t0 x0 N c) by (split; assumption).
    destruct (lq_pass pb cf t0 x0 N LL limits qfuel HL Hlq Hcon Hx0 c g Hc0 (cand_fit pb t0 x0 N _ _ _ _ Hc) Hb) as (_ & _ & _ & E).
    specialize (E a c' (cand_traj pb t0 x0 N _ _ _ _ Hc0 Hc) Hc). split; [exact E|].
    rewrite E. unfold expected_of. numR. ring.
  Qed.

  (** C13: the full step beats every input sequence. *)
  Theorem C13_full_step_optimal N c g c' :
    is_rollout pb t0 x0 N c -> inputs_typed pb t0 (cd_u c) ->
    backward pb cf t0 N LL limits qfuel c 0 (Some g) -> is_candidate pb t0 x0 N c g 1 c' ->
    forall us, length us = N -> inputs_typed pb t0 us -> total c' <= cost_of pb t0 0 x0 us.
  Proof.
    intros Hro Ht Hb Hc us Hus Htu. assert (Hc0 : traj pb t0 x0 N c) by (split; assumption).
    destruct (lq_pass pb cf t0 x0 N LL limits qfuel HL Hlq Hcon Hx0 c g Hc0 (cand_fit pb t0 x0 N _ _ _ _ Hc) Hb) as (_ & _ & Ho & E).
    specialize (E 1 c' (cand_traj pb t0 x0 N _ _ _ _ Hc0 Hc) Hc).
    subst N. specialize (Ho _ (rollout_traj us Htu)). unfold total at 1 in Ho. cbn [rollout_of cd_cost] in Ho.
    rewrite rollout_cost in Ho. lra.
  Qed.

  (** C13 for a whole run on a convex problem that starts without regularisation and tries the full step first: the
      returned trajectory is optimal, unless the first iteration stopped on small gains. *)
  Theorem C13_solve_optimal jk fuel us s b s' :
    lq_convex pb -> cf_initial_lambda cf = 0 -> (exists rest, cf_alpha_list cf = 1 :: rest) ->
    0 <= cf_cost_update_ratio_thre cf < 1 -> (1 <= cf_max_iter cf)%Z -> inputs_typed pb t0 us ->
    ddp_solve LL pb cf limits jk fuel qfuel t0 x0 us s = Ok b s' ->
    (forall vs, length vs = length us -> inputs_typed pb t0 vs -> total (s_cd s') <= cost_of pb t0 0 x0 vs) \/
    (b = true /\ cd_u (s_cd s') = us /\ length (s_trace s') = 2%nat /\
     rel_norm (s_k s') us 0 < cf_k_rel_norm_thre cf).
  Proof.
    intros Hcv Hl Ha Hth Hmi Htu E.
    destruct (solve_ok _ _ _ _ _ _ _ _ _ _ _ _ _ E) as ([Hlen _] & Hro & c & r & es & (Hro0 & Hus & g0 & Hits) & Hb & Htr).
    assert (En : Z.to_nat (cf_horizon cf) = length us) by lia. rewrite En in *.
    destruct (Z.to_nat (cf_max_iter cf)) as [|m] eqn:Em; [lia|].
    assert (Hc : traj pb t0 x0 (length us) c) by (split; [exact Hro0|intros i u Hu; apply Htu; rewrite <- Hus; exact Hu]).
    destruct (run_optimal pb cf t0 x0 _ LL limits qfuel HL Hlq Hcv Hcon Hx0 Ha Hth m 1 _ _ _ _ Hits Hc Hl) as [Ho|(Hr & e & -> & Hg)].
    - left. intros vs Hvs Htv. rewrite <- Hvs in *. specialize (Ho _ (rollout_traj vs Htv)).
      unfold total at 2 in Ho. cbn [rollout_of cd_cost] in Ho. rewrite rollout_cost in Ho. exact Ho.
    - right. destruct Hg as (_ & G1 & G2 & G3 & G4). cbn [mc fst snd mst_of mpass p_k] in *. split; [rewrite Hb, Hr; reflexivity|].
      rewrite G1. split; [exact Hus|]. split; [rewrite Htr; reflexivity|].
      rewrite G2, G1, Hus in G3. apply Rltb_true in G3. exact G3.
  Qed.

  Lemma rel_norm_ge (ks us : list (vec R)) : forall acc, acc <= rel_norm ks us acc.
  Proof.
    revert us. induction ks as [|k ks IH]; intros us acc; [apply Rle_refl|]. destruct us as [|u us]; [apply Rle_refl|].
    cbn [rel_norm]. eapply Rle_trans; [|apply IH]. rewrite nmax_R. apply Rmax_l.
  Qed.
  (** With the small-gain test switched off the returned trajectory is optimal in any case. *)
  Theorem C13_solve_optimal_always jk fuel us s b s' :
    lq_convex pb -> cf_initial_lambda cf = 0 -> (exists rest, cf_alpha_list cf = 1 :: rest) ->
    0 <= cf_cost_update_ratio_thre cf < 1 -> (1 <= cf_max_iter cf)%Z -> cf_k_rel_norm_thre cf <= 0 -> inputs_typed pb t0 us ->
    ddp_solve LL pb cf limits jk fuel qfuel t0 x0 us s = Ok b s' ->
    forall vs, length vs = length us -> inputs_typed pb t0 vs -> total (s_cd s') <= cost_of pb t0 0 x0 vs.
  Proof.
    intros Hcv Hl Ha Hth Hmi Hk Htu E.
    destruct (C13_solve_optimal jk fuel us s b s' Hcv Hl Ha Hth Hmi Htu E) as [H|(_ & _ & _ & H)]; [exact H|].
    pose proof (rel_norm_ge (s_k s') us 0). lra.
  Qed.
End LQ.
Print Assumptions C12_expected_change_exact.
Print Assumptions C13_full_step_optimal.
Print Assumptions C13_solve_optimal.
Print Assumptions C13_solve_optimal_always.

(** The problem of C15 (x' = x + sum u, two inputs early, none later) is linear-quadratic and convex. *)
Lemma vary_Luu m (z : fvec) i : (i < m)%nat -> fmv m (mget (mbuild m m (fun i j => if Nat.eqb i j then 1 else 0))) z i = z i.
Proof.
  intros Hi. unfold fmv. rewrite (Rsum_single m _ i Hi).
  - rewrite mbuild_get by assumption. rewrite Nat.eqb_refl. numR. ring.
  - intros j Hj Hne. rewrite mbuild_get by assumption. destruct (Nat.eqb_spec i j) as [->|]; [contradiction|]. numR. ring.
Qed.
Lemma dot1 (y z : fvec) : fdot 1 y z = y 0%nat * z 0%nat.
Proof. unfold fdot. cbn. ring. Qed.
Lemma vget1 (a : R) : vget [a] 0 = a.
Proof. reflexivity. Qed.
Lemma fmv1 a (z : fvec) : fmv 1 (mget (m11 a)) z 0%nat = a * z 0%nat.
Proof. cbn. ring. Qed.
Lemma zero_mv r c (z : fvec) i : fmv c (mget (mzero r c)) z i = 0.
Proof.
  apply Rsum_zero. intros j Hj. unfold mzero. rewrite mbuild_fun by (intros; reflexivity). numR. ring.
Qed.
Lemma vary_quad m (u u' : vec R) : length u = m -> length u' = m ->
  nhalf * dot u' u' = nhalf * dot u u + (fdot m (vget u) (fsubv (vget u') (vget u)) +
    / 2 * fdot m (fsubv (vget u') (vget u)) (fmv m (mget (mbuild m m (fun i j => if Nat.eqb i j then 1 else 0))) (fsubv (vget u') (vget u)))).
Proof.
  intros H H'. rewrite !dot_R by congruence. rewrite H, H'.
  assert (E : fdot m (fsubv (vget u') (vget u)) (fmv m (mget (mbuild m m (fun i j => if Nat.eqb i j then 1 else 0))) (fsubv (vget u') (vget u)))
            = fdot m (fsubv (vget u') (vget u)) (fsubv (vget u') (vget u))).
  { unfold fdot. apply Rsum_ext. intros i Hi. rewrite (vary_Luu m _ i Hi). reflexivity. }
  rewrite E. unfold nhalf, nlit, fdot, fsubv. numR. rewrite <- !Rsum_scal, <- !Rsum_plus. apply Rsum_ext. intros i Hi. field.
Qed.

Lemma vary_lq : lq_problem (vary_pb (T := R)).
Proof.
  split.
  - reflexivity.
  - intros t x u x' u' old Fx Fu Lx Lu Lx' Lu' E DFx DFu i Hi. rewrite vary_nu_of in *. cbn [vary_pb pb_stateEqDeriv pb_stateEq pb_nx] in *.
    injection E as <- <-. assert (i = 0%nat) as -> by lia. rewrite fmv1. rewrite !nsum_list, Lu, Lu'.
    rewrite !vget1.
    assert (E : fmv (vary_nu t) (mget (mbuild 1 (vary_nu t) (fun _ _ : nat => 1))) (fsubv (vget u') (vget u)) 0%nat
              = Rsum (vary_nu t) (vget u') - Rsum (vary_nu t) (vget u)).
    { unfold fmv. rewrite <- Rsum_minus. apply Rsum_ext. intros j Hj. rewrite mbuild_get by lia. unfold fsubv. numR. ring. }
    rewrite E. unfold fsubv. numR. ring.
  - intros t x u x' u' old Lx Lu Lxx Luu Lxu HLx HLu HLx' HLu' E D1 D2 D3 D4 D5. rewrite vary_nu_of in *.
    cbn [vary_pb pb_runningCostDeriv pb_runningCost pb_nx] in *.
    injection E as <- <- <- <- <-. cbv zeta. split.
    { intros a b Ha Hb. rewrite !mbuild_get by assumption. rewrite Nat.eqb_sym. reflexivity. }
    pose proof (vary_quad (vary_nu t) u u' HLu HLu') as Q.
    set (A := fdot (vary_nu t) (vget u) _) in *. set (B := / 2 * fdot (vary_nu t) _ _) in *.
    revert Q. generalize (dot u u) (dot u' u'). clearbody A B. intros d d' Q.
    rewrite !dot1, fmv1, zero_mv, vget1. unfold fsubv, nhalf in *. numR. lra.
  - intros t x x' old Vx Vxx HLx HLx' E D1 D2. cbn [vary_pb pb_terminalCostDeriv pb_terminalCost pb_nx] in *.
    injection E as <- <-. cbv zeta. split.
    { intros a b Ha Hb. assert (a = 0%nat) as -> by lia. assert (b = 0%nat) as -> by lia. reflexivity. }
    rewrite !dot1, fmv1, vget1. unfold fsubv. numR. field.
Qed.

Lemma vary_convex : lq_convex (vary_pb (T := R)).
Proof.
  split.
  - intros t x u old Lx Lu. rewrite vary_nu_of. reflexivity.
  - intros t x u old Lx Lu Lxx Luu Lxu HLx HLu E. rewrite vary_nu_of in *. cbn [vary_pb pb_runningCostDeriv pb_nx] in *.
    injection E as <- <- <- <- <-. cbv zeta.
    assert (E : forall y, fdot (vary_nu t) y (fmv (vary_nu t) (mget (mbuild (vary_nu t) (vary_nu t) (fun i j => if Nat.eqb i j then 1 else 0))) y)
            = fdot (vary_nu t) y y).
    { intros y. unfold fdot. apply Rsum_ext. intros i Hi. rewrite (vary_Luu _ _ i Hi). reflexivity. }
    split.
    + intros y (i & Hi & Hy). rewrite E. unfold fdot.
      assert (Hn : forall j, (j < vary_nu t)%nat -> 0 <= y j * y j) by (intros; nra).
      pose proof (Rsum_term_le _ (fun j => y j * y j) i Hn Hi). cbn in H. nra.
    + intros dx du. rewrite E, !dot1, fmv1, zero_mv.
      assert (0 <= fdot (vary_nu t) du du) by (apply Rsum_nonneg; intros; nra). numR. nra.
  - intros t x old Lx y. cbn [vary_pb pb_terminalCostDeriv pb_nx snd]. rewrite dot1, fmv1. numR. nra.
Qed.

(** Default settings except: no initial regularisation, no small-gain test. *)
Definition lq_cf : config R :=
  let d := with_cf false false 3 3 in
  {| cf_print_level := cf_print_level d; cf_second := cf_second d; cf_constraint := cf_constraint d;
     cf_max_iter := cf_max_iter d; cf_horizon := cf_horizon d; cf_reg_type := cf_reg_type d;
     cf_initial_lambda := 0; cf_initial_dlambda := cf_initial_dlambda d;
     cf_lambda_factor := cf_lambda_factor d; cf_lambda_min := cf_lambda_min d; cf_lambda_max := cf_lambda_max d;
     cf_k_rel_norm_thre := 0; cf_lambda_thre := cf_lambda_thre d;
     cf_alpha_list := cf_alpha_list d; cf_cost_update_ratio_thre := cf_cost_update_ratio_thre d;
     cf_cost_update_thre := cf_cost_update_thre d |}.
Definition lq_us : list (vec R) := [[0; 0]; [0; 0]; []].
Lemma lq_us_typed : inputs_typed vary_pb 0 lq_us.
Proof.
  assert (V : forall t, t < / 2 -> vary_nu t = 2%nat).
  { intros t Ht. unfold vary_nu. destruct (t <? nhalf)%num eqn:En; [reflexivity|]. exfalso. unfold nhalf in En. numR.
    apply Rltb_false in En. lra. }
  assert (W : forall t, / 2 <= t -> vary_nu t = 0%nat).
  { intros t Ht. unfold vary_nu. destruct (t <? nhalf)%num eqn:En; [|reflexivity]. exfalso. unfold nhalf in En. numR.
    apply Rltb_true in En. lra. }
  intros i u Hu. rewrite vary_nu_of. revert Hu. cbn [vary_pb pb_dt].
  destruct i as [|[|[|i]]]; cbn [nth_error lq_us]; intros Hu; [| | |destruct i; discriminate]; injection Hu as <-; cbn [length].
  - rewrite V; [reflexivity|]. unfold nofnat, nofZ; numR. cbn. lra.
  - rewrite V; [reflexivity|]. unfold nofnat, nofZ; numR. cbn. lra.
  - rewrite W; [reflexivity|]. unfold nofnat, nofZ; numR. cbn. lra.
Qed.
Lemma lq_run : exists (b : bool) (s' : ddp R), ddp_solve chol_llt vary_pb lq_cf vary_lim vary_junk 81 500 0 [5] lq_us vary_s0 = Ok b s'.
Proof.
  assert (Hnf : ddp_solve chol_llt vary_pb lq_cf vary_lim vary_junk 81 500 0 [5] lq_us vary_s0 <> OutOfFuel).
  { apply (proj2 (C08_terminates_R lq_cf ltac:(cbn; lra) ltac:(cbn; lra)) 80%nat). cbn -[pow]. lra. }
  destruct (C15_returns chol_llt vary_pb lq_cf vary_lim vary_junk 81 500 0 [5] lq_us vary_s0) as (b & s' & E & _).
  - apply vary_wd.
  - apply chol_dims.
  - apply vary_limits.
  - apply vary_junk_ok.
  - apply vary_obj.
  - split; [reflexivity|discriminate].
  - split; [reflexivity|]. intros _ i u Hu. rewrite (lq_us_typed i u Hu), vary_nu_of. reflexivity.
  - reflexivity.
  - exact Hnf.
  - eauto.
Qed.
(** The hypotheses of the C13 theorems on runs hold together, and the run returns an optimum. *)
Example C13_nonvacuous : exists (b : bool) (s' : ddp R),
  ddp_solve chol_llt vary_pb lq_cf vary_lim vary_junk 81 500 0 [5] lq_us vary_s0 = Ok b s' /\
  forall vs, length vs = 3%nat -> inputs_typed vary_pb 0 vs -> total (s_cd s') <= cost_of vary_pb 0 0 [5] vs.
Proof.
  destruct lq_run as (b & s' & E). exists b, s'. split; [exact E|].
  apply (C13_solve_optimal_always chol_llt vary_pb lq_cf vary_lim 500 0 [5] chol_exact vary_lq eq_refl eq_refl
           vary_junk 81 lq_us vary_s0 b s' vary_convex eq_refl); try exact E.
  - exists [/ 2; / 10]. unfold lq_cf, with_cf, default_config. cbn [cf_alpha_list]. numR. f_equal; [field|]. f_equal; [field|]. f_equal. field.
  - cbn. lra.
  - cbn. lia.
  - cbn. lra.
  - apply lq_us_typed.
Qed.
(** So do those of C12 and of C13 for one step: that run contains an unregularised pass with a candidate. *)
Example C12_nonvacuous : exists c g c',
  is_rollout vary_pb 0 [5] 3 c /\ inputs_typed vary_pb 0 (cd_u c) /\
  backward vary_pb lq_cf 0 3 chol_llt vary_lim 500 c 0 (Some g) /\ is_candidate vary_pb 0 [5] 3 c g 1 c'.
Proof.
  destruct lq_run as (b & s' & E).
  destruct (solve_ok _ _ _ _ _ _ _ _ _ _ _ _ _ E) as ([Hlen _] & Hro & c & r & es & (Hro0 & Hus & g0 & Hits) & Hb & Htr).
  change (Z.to_nat (cf_horizon lq_cf)) with 3%nat in *. change (Z.to_nat (cf_max_iter lq_cf)) with 3%nat in Hits.
  assert (Ht : inputs_typed vary_pb 0 (cd_u c)) by (rewrite Hus; exact lq_us_typed).
  assert (Hc : traj vary_pb 0 [5] 3 c) by (split; assumption).
  assert (Hi : exists r1 e1 s1, iteration vary_pb lq_cf 0 [5] 3 chol_llt vary_lim 500 1 (c, (0, cf_initial_dlambda lq_cf), g0) r1 e1 s1)
    by (inversion Hits; subst; eauto).
  destruct Hi as (r1 & e1 & s1 & Hi).
  assert (H : exists g q o al ac ex ra, retry vary_pb lq_cf 0 3 chol_llt vary_lim 500 c (Some g) (0, cf_initial_dlambda lq_cf) q /\
              search vary_pb lq_cf 0 [5] 3 c g (cf_alpha_list lq_cf) o al ac ex ra).
  { inversion Hi as [c1 p q g1 g H|c1 p q g1 g krn H Hk Hkr H1 H2|c1 p q g1 g krn c' al ac ex ra H Hk Hkr H1 H2|c1 p q g1 g krn al ac ex ra H Hk Hkr H1 H2]; subst.
    - destruct (retry_first vary_pb lq_cf 0 [5] 3 chol_llt vary_lim 500 chol_exact vary_lq vary_convex eq_refl eq_refl c _ (0, _) _ Hc eq_refl H)
        as (_ & g' & Eg & _). discriminate.
    - exfalso. apply Rltb_true in H1. pose proof (rel_norm_ge (p_k g) (cd_u c) 0) as H3. cbn [lq_cf cf_k_rel_norm_thre] in H1.
      change (@nzero R RNum) with 0 in H1. lra.
    - exists g, q. eauto 8.
    - exists g, q. eauto 8. }
  destruct H as (g & q & o & al & ac & ex & ra & H1 & H2).
  destruct (retry_first vary_pb lq_cf 0 [5] 3 chol_llt vary_lim 500 chol_exact vary_lq vary_convex eq_refl eq_refl c _ (0, _) _ Hc eq_refl H1)
    as (_ & g' & Eg & Hbk). injection Eg as <-.
  assert (El : cf_alpha_list lq_cf = [1; / 2; / 10]).
  { unfold lq_cf, with_cf, default_config. cbn [cf_alpha_list]. numR. f_equal; [field|]. f_equal; [field|]. f_equal. field. }
  rewrite El in H2.
  assert (Hcand : exists c', is_candidate vary_pb 0 [5] 3 c g 1 c').
  { inversion H2 as [|a rest' c1 Ht1 E1 E2|a c1 Ht1|a b' rest' c1 o' al' ac' ex' ra' Ht1 Hs]; subst; destruct Ht1 as [Hcd _]; eauto. }
  destruct Hcand as (c' & Hcd). exists c, g, c'. auto.
Qed.
