(** Property C16 of DDPSolver on IEEE doubles: a warm start at which every trial has zero actual and zero expected change
    is never recognised as a solution. *)
From Verif Require Import Prelude Scalar LinAlg BoxQP DDP DDPSpec DDPProofs DDPCor DDPReal DDPWarm Chol ExDDP.
From Coq Require Import SpecFloat.

Definition is_zero (a : f64) : Prop := exists s, a = S754_zero s.

(** 0/0 is NaN and NaN passes no threshold. *)
Theorem C16_zero_trial_rejected (thre actual expected : f64) : is_zero actual -> is_zero expected ->
  ratio_of actual expected = S754_nan /\ nltb thre (ratio_of actual expected) = false.
Proof.
  intros [sa ->] [se ->]. assert (E : @ratio_of f64 F64Num (S754_zero sa) (S754_zero se) = S754_nan) by (destruct sa, se; reflexivity).
  rewrite E. split; [reflexivity|]. destruct thre as [[]|[]| |[]]; reflexivity.
Qed.

(** The run: [c] is the rollout of the given inputs; whenever a backward pass around it succeeds with a regularisation
    the solver tries, each trial changes the cost by exactly zero and is expected to; that regularisation never goes
    below lambda_thre.  Then solve returns false and leaves the trajectory as it was. *)
Theorem C16_optimal_warm_start_not_recognised (LL : lltops f64) pb cf limits jk fuel qfuel t0 x0 us s b s' :
  ddp_solve LL pb cf limits jk fuel qfuel t0 x0 us s = Ok b s' ->
  let n := Z.to_nat (cf_horizon cf) in
  let p0 := (cf_initial_lambda cf, cf_initial_dlambda cf) in
  (forall j, tried cf p0 j -> nltb (fst (ups cf j p0)) (cf_lambda_thre cf) = false) ->
  (forall c j g a c', is_rollout pb t0 x0 n c -> cd_u c = us -> tried cf p0 j ->
     backward pb cf t0 n LL limits qfuel c (fst (ups cf j p0)) (Some g) ->
     In a (cf_alpha_list cf) -> is_candidate pb t0 x0 n c g a c' ->
     is_zero (nsub (total c) (total c')) /\ is_zero (expected_of g a)) ->
  b = false /\ cd_u (s_cd s') = us.
Proof.
  intros E n p0 H1 H2.
  destruct (solve_ok _ _ _ _ _ _ _ _ _ _ _ _ _ E) as (_ & Hro & c & r & es & (Hro0 & Hus & g0 & Hits) & Hb & Htr).
  destruct (iterations_stay pb cf t0 x0 n LL limits qfuel c p0 H1) with (2 := Hits) as [E1 E2].
  - intros j g a c' Hj Hbk Ha Hc. destruct (H2 c j g a c' Hro0 Hus Hj Hbk Ha Hc) as [Z1 Z2].
    apply (C16_zero_trial_rejected _ _ _ Z1 Z2).
  - reflexivity.
  - exists 0%nat. split; [reflexivity|]. intros i Hi; lia.
  - cbn in E1. split; [rewrite Hb; apply Z.eqb_neq; exact E2|rewrite E1; exact Hus].
Qed.
Print Assumptions C16_zero_trial_rejected.
Print Assumptions C16_optimal_warm_start_not_recognised.

(** Default settings and a strictly convex linear-quadratic problem with one step, started at its optimum. *)
Definition wcf : config f64 := with_cf false false 50 1.
Notation wp0 := (cf_initial_lambda wcf, cf_initial_dlambda wcf).
Lemma default_tried j : tried wcf wp0 j -> j < 12.
Proof.
  intros H. destruct (Nat.lt_ge_cases j 12) as [|Hj]; [assumption|].
  assert (E : too_large wcf (ups wcf 12 wp0) = true) by (vm_compute; reflexivity). rewrite H in E; [discriminate|lia].
Qed.
Lemma upto (P : nat -> Prop) m (f : nat -> bool) : (forall j, f j = true -> P j) -> forallb f (seq 0 m) = true -> forall j, j < m -> P j.
Proof. intros Hf H j Hj. rewrite forallb_forall in H. apply Hf, H, in_seq. lia. Qed.
Lemma default_above_thre : forall j, tried wcf wp0 j -> nltb (fst (ups wcf j wp0)) (cf_lambda_thre wcf) = false.
Proof.
  intros j Hj. apply default_tried in Hj. revert j Hj.
  apply (upto _ _ (fun j => negb (nltb (fst (ups wcf j wp0)) (cf_lambda_thre wcf)))).
  - intros j Hj. apply negb_true_iff in Hj. exact Hj.
  - vm_compute. reflexivity.
Qed.

(** The trial around the optimum computed for regularisation [lambda] and factor [a]. *)
Definition zerob (a : f64) : bool := match a with S754_zero _ => true | _ => false end.
Lemma zerob_zero a : zerob a = true -> is_zero a.
Proof. destruct a; try discriminate. intros _. eexists; reflexivity. Qed.
Definition wx : vec f64 := [nzero].
Definition wq (lambda : f64) :=
  expansion wcf {| dFx := m11 none; dFu := m11 none; dLx := wx; dLu := wx; dLxx := m11 none; dLuu := m11 none; dLxu := m11 nzero |}
    (fst (pb_terminalCostDeriv lq_pb nzero (pb_stateEq lq_pb nzero wx wx) ([], m11 nzero)))
    (snd (pb_terminalCostDeriv lq_pb nzero (pb_stateEq lq_pb nzero wx wx) ([], m11 nzero))) lambda.
Definition wk lambda := vscale (nopp none) (llt_solve chol_llt (qQuu_F (wq lambda)) (qQu (wq lambda))).
Definition wK lambda := mscale (nopp none) (llt_solve_mat chol_llt (qQuu_F (wq lambda)) (qQux_reg (wq lambda))).
Definition wu' lambda a := vadd (vadd wx (vscale a (wk lambda))) (mvmul (wK lambda) (vsub wx wx)).
Definition wtotal (u : vec f64) : f64 :=
  nsum [pb_runningCost lq_pb nzero wx u; pb_terminalCost lq_pb nzero (pb_stateEq lq_pb nzero wx u)].
Definition wg lambda : pass f64 :=
  {| p_k := [wk lambda]; p_K := [wK lambda]; p_d0 := nadd nzero (dot (wk lambda) (qQu (wq lambda)));
     p_d1 := nadd nzero (nmul nhalf (dot (wk lambda) (mvmul (qQuu (wq lambda)) (wk lambda)))) |}.

Lemma one_step c : is_rollout (lq_pb (T := f64)) nzero wx 1 c -> exists u, cd_u c = [u] /\ total c = wtotal u /\
  cd_x c = [wx; pb_stateEq lq_pb nzero wx u].
Proof.
  intros [L1 L2 L3 H0 Hs He]. destruct c as [xs us cs]. cbn [cd_x cd_u cd_cost] in *.
  destruct xs as [|xa [|xb [|]]]; try discriminate L1. destruct us as [|u [|]]; try discriminate L2.
  destruct cs as [|ca [|cb [|]]]; try discriminate L3.
  destruct (Hs 0 ltac:(lia)) as (x & u1 & A1 & A2 & A3 & A4). destruct He as (x2 & B1 & B2).
  cbn [nth_error Nat.add] in *. injection H0 as ->. injection A1 as <-. injection A2 as <-. injection A3 as ->.
  injection A4 as ->. injection B1 as <-. injection B2 as ->. exists u. split; [reflexivity|]. split; reflexivity.
Qed.

(** The hypotheses of C16_optimal_warm_start_not_recognised hold there, and the call returns. *)
Example C16_nonvacuous :
  (forall j, tried wcf wp0 j -> nltb (fst (ups wcf j wp0)) (cf_lambda_thre wcf) = false) /\
  (forall c j g a c', is_rollout lq_pb nzero wx 1 c -> cd_u c = [wx] -> tried wcf wp0 j ->
     backward lq_pb wcf nzero 1 chol_llt None 200 c (fst (ups wcf j wp0)) (Some g) ->
     In a (cf_alpha_list wcf) -> is_candidate lq_pb nzero wx 1 c g a c' ->
     is_zero (nsub (total c) (total c')) /\ is_zero (expected_of g a)) /\
  exists s', ddp_solve chol_llt lq_pb wcf None ex_junk 200 200 nzero wx [wx] ex_s0 = Ok false s'.
Proof.
  split; [exact default_above_thre|]. split.
  - intros c j g a c' Hro Hu Hj Hb Ha [Hro' Hc].
    destruct (one_step _ Hro) as (u & Eu & Et & Ex). rewrite Hu in Eu. injection Eu as <-.
    destruct (one_step _ Hro') as (u' & Eu' & Et' & Ex').
    assert (Eg : g = wg (fst (ups wcf j wp0))).
    { destruct Hb as (ds & xN & old & Lds & Hds & HxN & Hb).
      destruct (Hds 0 ltac:(lia)) as (x & u1 & old' & d & A1 & A2 & A3 & A4 & A5).
      rewrite Ex in A1, HxN. rewrite Hu in A2. cbn in A1, A2, HxN. injection A1 as <-. injection A2 as <-. injection HxN as <-.
      assert (Ed : d = {| dFx := m11 none; dFu := m11 none; dLx := wx; dLu := wx; dLxx := m11 none; dLuu := m11 none; dLxu := m11 nzero |}).
      { destruct d. cbn in A4, A5. injection A4 as -> ->. injection A5 as -> -> -> -> ->. reflexivity. }
      destruct ds as [|d0 [|]]; try discriminate Lds. cbn in A3. injection A3 as ->.
      inversion Hb as [| |i u2 d2 Vx Vxx g1 k K Vx' Vxx' o Hc2 Hu2 Hd2 Hdim q Hst Hk HK Hv Hrest E1 E2 E3 E4 E5]. subst.
      rewrite Hu in Hu2. cbn in Hu2, Hd2. injection Hu2 as <-. injection Hd2 as <-.
      inversion Hrest; subst. 
      remember (Some (k, K)) as o eqn:Eo. destruct Hst as [H0| |Hpos Hcc Hi| |f' ik out K' Hpos Hcc]; try discriminate.
      injection Eo as <- <-. reflexivity. }
    destruct (Hc 0 ltac:(lia)) as (x & u1 & x' & k & K & B1 & B2 & B3 & B4 & B5 & _ & _ & _ & B6).
    rewrite Ex in B1. rewrite Hu in B2. rewrite Ex' in B3. rewrite Eg in B4, B5. rewrite Eu' in B6. cbn [nth_error wg p_k p_K] in B1, B2, B3, B4, B5, B6.
    injection B1 as <-. injection B2 as <-. injection B3 as <-. injection B4 as <-. injection B5 as <-. injection B6 as ->.
    rewrite Et, Et', Eg.
    assert (G : forall j, j < 12 -> forall a, In a (cf_alpha_list wcf) ->
      is_zero (nsub (wtotal wx) (wtotal (wu' (fst (ups wcf j wp0)) a))) /\ is_zero (expected_of (wg (fst (ups wcf j wp0))) a)).
    { apply (upto (fun j => forall a, In a (cf_alpha_list wcf) ->
      is_zero (nsub (wtotal wx) (wtotal (wu' (fst (ups wcf j wp0)) a))) /\ is_zero (expected_of (wg (fst (ups wcf j wp0))) a)) _
        (fun j => forallb (fun a => andb (zerob (nsub (wtotal wx) (wtotal (wu' (fst (ups wcf j wp0)) a))))
                                     (zerob (expected_of (wg (fst (ups wcf j wp0))) a))) (cf_alpha_list wcf))).
      - intros i Hi b Hin. rewrite forallb_forall in Hi. specialize (Hi b Hin). apply andb_true_iff in Hi as [H1 H2].
        split; apply zerob_zero; assumption.
      - vm_compute. reflexivity. }
    apply (G j (default_tried j Hj) a Ha).
  - destruct (ok_and_true (fun b _ => negb b) (ddp_solve chol_llt lq_pb wcf None ex_junk 200 200 nzero wx [wx] ex_s0)) as (b & s' & E & H).
    { vm_compute. reflexivity. }
    exists s'. destruct b; [discriminate|exact E].
Qed.
