(** Properties C04, C07, C08 of DDPSolver: cost, regularisation range, termination. *)
From Verif Require Import Prelude Scalar LinAlg BoxQP BoxQPProofs BoxQPTerm DDP DDPSpec DDPProofs DDPCor DDPReal DDPF64 Chol ExDDP ExDiv.
From Coq Require Import Reals Lra.
Open Scope R_scope.

Section OnReals.
  Variables (LL : lltops R) (pb : problem R) (cf : config R) (limits : option (R -> vec R * vec R)) (jk : junk R).
  Variables (fuel qfuel : nat) (t0 : R) (x0 : vec R) (us : list (vec R)) (s : ddp R).
  Notation horizon := (Z.to_nat (cf_horizon cf)).
  Notation solve := (ddp_solve LL pb cf limits jk fuel qfuel t0 x0 us s).

  (** C04 on the reals: the first trace entry holds the cost of the initial rollout; no step raises the cost. *)
  Theorem C04_cost_R b s' : solve = Ok b s' -> 0 <= cf_cost_update_ratio_thre cf ->
    exists c e0 es, is_rollout pb t0 x0 horizon c /\ cd_u c = us /\
      s_trace s' = e0 :: es /\ tr_cost e0 = nsum (cd_cost c) /\
      nsum (cd_cost (s_cd s')) <= tr_cost e0 /\
      (forall e, In e es -> cf_cost_update_ratio_thre cf < tr_ratio e -> 0 <= tr_actual e) /\
      descending (tr_cost e0) (map tr_cost (removelast es)) /\
      (length es = Z.to_nat (cf_max_iter cf) -> b = false -> s_lambda s' <= cf_lambda_max cf ->
         descending (tr_cost e0) (map tr_cost es)).
  Proof.
    intros E Ht. destruct (solve_ok _ _ _ _ _ _ _ _ _ _ _ _ _ E) as (_ & _ & c & r & es & (Hro & Hu & g0 & Hits) & Hb & Htr).
    exists c, (trace_start cf c), es.
    destruct (iterations_cost cf pb t0 x0 _ _ _ _ Ht _ _ _ _ _ _ Hits) as (H1 & H2 & H3).
    split; [exact Hro|]. split; [exact Hu|]. split; [exact Htr|]. split; [reflexivity|].
    split; [exact H1|]. split.
    { intros e Hin Hr. pose proof (iterations_ratio _ _ _ _ _ _ _ _ _ _ _ _ _ _ Hits) as HF.
      rewrite Forall_forall in HF. destruct (HF e Hin) as [(_ & _ & Hz)|Hz]; rewrite Hz in Hr.
      - numR. lra.
      - apply (ratio_pos cf Ht _ _ Hr). }
    split; [exact H3|]. intros Hlen -> Hl. apply H2.
    destruct (iterations_cases _ _ _ _ _ _ _ _ _ _ _ _ _ _ Hits) as (_ & _ & [(Hr & _)|(es0 & e & s1 & _ & _ & [[-> _]|(_ & Hc & _)])]); auto.
    - discriminate Hb.
    - unfold too_large in Hc. cbn in Hc. apply Rltb_true in Hc. lra.
  Qed.

  (** C07: range of the regularisation during and after the run. *)
  Theorem C07_regularisation b s' : solve = Ok b s' ->
    1 < cf_lambda_factor cf -> 0 < cf_lambda_min cf -> 0 <= cf_initial_lambda cf -> 0 < cf_initial_dlambda cf ->
    0 <= s_lambda s' /\ 0 < s_dlambda s' /\
    Forall (fun e => 0 <= tr_lambda e /\ 0 <= tr_dlambda e) (s_trace s') /\
    (s_lambda s' <= Rmax (cf_initial_lambda cf) (cf_lambda_max cf) \/
     (b = false /\ cf_lambda_max cf < s_lambda s')).
  Proof.
    intros E H1 H2 H3 H4.
    destruct (solve_ok _ _ _ _ _ _ _ _ _ _ _ _ _ E) as (_ & _ & c & r & es & (Hro & Hu & g0 & Hits) & Hb & Htr).
    eapply iterations_good in Hits as ([G1 G2] & G3 & G4 & G5); try assumption; try (split; cbn; assumption); try apply Rmax_l.
    - split; [exact G1|]. split; [exact G2|]. split.
      + rewrite Htr. constructor; [cbn; lra|exact G3].
      + destruct (Z.eq_dec r (-1)) as [->|Hr]; [right; split; [exact Hb|apply G5; reflexivity]|left; apply G4; exact Hr].
  Qed.
End OnReals.

(** C08, any scalar type: if every chain of [K] raises of the regularisation exceeds lambda_max, solve ends
    within [K] attempts per iteration ([K] is the bound given to the retry loop).
    The last premise is about the fixed default settings of the inner box QP. *)
Theorem C08_terminates_any {T} {N : Num T} (LL : lltops T) pb cf limits jk t0 x0 us s K qfuel :
  (forall p, exists j, (0 < j <= K)%nat /\ too_large cf (ups cf j p) = true) ->
  (500 <= qfuel)%nat -> nltb (qp_step (qp_default_config (T := T)) 100) (qp_min_step qp_default_config) = true ->
  ddp_solve LL pb cf limits jk K qfuel t0 x0 us s <> OutOfFuel.
Proof. intros HK H1 H2. apply ddp_solve_nofuel; auto. Qed.

(** C08 on the reals: the number of attempts is bounded by any K with lambda_min * factor^K > lambda_max, plus one,
    and such a K exists; nothing is assumed about the problem, the initial regularisation or the object. *)
Theorem C08_terminates_R (cf : config R) : 1 < cf_lambda_factor cf -> 0 < cf_lambda_min cf ->
  (exists K, cf_lambda_max cf < cf_lambda_min cf * cf_lambda_factor cf ^ K) /\
  forall K, cf_lambda_max cf < cf_lambda_min cf * cf_lambda_factor cf ^ K ->
  forall (LL : lltops R) pb limits jk t0 x0 us s,
  ddp_solve LL pb cf limits jk (S K) 500 t0 x0 us s <> OutOfFuel.
Proof.
  intros Hf Hm. split; [apply raises_exists; auto|].
  intros K HK LL pb limits jk t0 x0 us s. apply ddp_solve_nofuel; [lia|apply qdef_R|].
  intros p. apply raises_R; auto.
Qed.

(** C08, negative side, on IEEE doubles: with lambda_factor = 1 (all else default) the scalar problem with
    running cost -u^2/2 makes the retry loop go on for ever: no bound is enough. *)
Theorem C08_diverges : forall f,
  ddp_solve chol_llt neg_pb factor1_cf None ex_junk f 500 nzero [none] [[none]] ex_s0 = OutOfFuel.
Proof. exact div_factor1. Qed.

(** C04 on IEEE doubles: every accepted step has a non-negative (not NaN) actual decrease unless the expected
    decrease is exactly -0.0. [C04_refuted] shows that the exception does happen. *)
Theorem C04_cost_double (LL : lltops f64) pb cf limits jk fuel qfuel t0 x0 us s b s' :
  ddp_solve LL pb cf limits jk fuel qfuel t0 x0 us s = Ok b s' -> nleb nzero (cf_cost_update_ratio_thre cf) = true ->
  forall e, In e (tl (s_trace s')) -> nltb (cf_cost_update_ratio_thre cf) (tr_ratio e) = true ->
  tr_expected e = SpecFloat.S754_zero true \/ nleb nzero (tr_actual e) = true.
Proof.
  intros E Ht e Hin Hr.
  destruct (solve_ok _ _ _ _ _ _ _ _ _ _ _ _ _ E) as (_ & _ & c & r & es & (Hro & Hu & g0 & Hits) & Hb & Htr).
  rewrite Htr in Hin. cbn in Hin.
  pose proof (iterations_ratio _ _ _ _ _ _ _ _ _ _ _ _ _ _ Hits) as HF.
  rewrite Forall_forall in HF. destruct (HF e Hin) as [(_ & _ & Hz)|Hz]; rewrite Hz in Hr.
  - exfalso. pose proof (f64_pos_lt _ _ Ht Hr) as Hp. exact Hp.
  - destruct (tr_expected e) as [[]| | |] eqn:Ee; auto; right; rewrite <- Ee in Hr;
      (eapply f64_accept; [exact Ht|exact Hr|rewrite Ee; discriminate]).
Qed.

Print Assumptions C04_cost_R.
Print Assumptions C04_cost_double.
Print Assumptions C07_regularisation.
Print Assumptions C08_terminates_any.
Print Assumptions C08_terminates_R.
Print Assumptions C08_diverges.

(** The default configuration meets the hypotheses of C04, C07 and C08, with 80 attempts enough. *)
Example C07_C08_default : let cf := default_config (T := R) [] in
  1 < cf_lambda_factor cf /\ 0 < cf_lambda_min cf /\ 0 <= cf_initial_lambda cf /\ 0 < cf_initial_dlambda cf /\
  0 <= cf_cost_update_ratio_thre cf /\
  cf_lambda_max cf < cf_lambda_min cf * cf_lambda_factor cf ^ 80.
Proof.
  cbn -[pow]. repeat split; try lra.
Qed.
(** On doubles, default settings: an accepted step with ratio above the threshold exists. *)
Example C04_double_nonvacuous : exists b s', lq_run none nzero = Ok b s' /\
  existsb (fun e => nltb (cf_cost_update_ratio_thre (T := f64) (with_cf false false 50 3)) (tr_ratio e)) (tl (s_trace s')) = true.
Proof. apply (ok_and_true (fun b s => existsb (fun e => nltb (cf_cost_update_ratio_thre (T := f64) (with_cf false false 50 3)) (tr_ratio e)) (tl (s_trace s)))). vm_compute. reflexivity. Qed.
