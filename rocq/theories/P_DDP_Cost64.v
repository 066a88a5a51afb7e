(** C86: costs of the DDP solver in doubles. *)
From Coq Require Import Reals Lra Psatz.
From Flocq Require Import Core BinarySingleNaN.
From Verif Require Import Prelude Scalar LinAlg BoxQP DDP DDPSpec DDPProofs DDPCor Chol ExDDP DDPReal B64 DDPCost64.
Local Open Scope R_scope.

Section Run.
  Variables (ex lg : b64 -> b64) (sm : list b64 -> b64).
  Local Instance Nd : Num b64 := B64Num ex lg sm.
  Variables (LL : lltops b64) (pb : problem b64) (cf : config b64) (limits : option (b64 -> vec b64 * vec b64)) (jk : junk b64).
  Variables (fuel qfuel : nat) (t0 : b64) (x0 : vec b64) (us : list (vec b64)) (s s' : ddp b64) (b : bool).
  Hypothesis Hsm : some_order sm.
  Hypothesis Ht : nleb nzero (cf_cost_update_ratio_thre cf) = true.
  Hypothesis H : ddp_solve LL pb cf limits jk fuel qfuel t0 x0 us s = Ok b s'.
  (** The start of a run: the rollout of the given inputs. *)
  Definition start (c : cdata b64) : Prop := is_rollout pb t0 x0 (Z.to_nat (cf_horizon cf)) c /\ cd_u c = us.

  (** solve leaves the rollout of the given inputs as it is, or returns a trajectory in which no cost is NaN. In the second case no cost
      of the first rollout is NaN either. *)
  Theorem C86_nan : exists c, start c /\
    (s_cd s' = c \/ (forall a, In a (cd_cost c) \/ In a (cd_cost (s_cd s')) -> is_nan a = false)).
  Proof.
    destruct (solve_ok _ _ _ _ _ _ _ _ _ _ _ _ _ H) as (_ & _ & c & r & es & (Hro & Hu & g0 & Hits) & _).
    exists c. split; [split; assumption|]. destruct (iterations64 ex lg sm Hsm pb cf t0 x0 _ LL limits qfuel Ht _ _ _ _ _ _ Hits) as [E|(A & B & _)].
    - left. exact E.
    - right. intros a [Ha|Ha]; [apply (A a Ha)|apply (B a Ha)].
  Qed.
  (** So one NaN among the costs of the first rollout stops every improvement: the inputs come back as they were. *)
  Theorem C86_stuck : exists c, start c /\ ((exists a, In a (cd_cost c) /\ is_nan a = true) -> s_cd s' = c /\ cd_u (s_cd s') = us).
  Proof.
    destruct C86_nan as (c & S & [E|E]); exists c; (split; [exact S|]); intros (a & Ha & Na).
    - split; [exact E|]. rewrite E. apply S.
    - rewrite (E a (or_introl Ha)) in Na. discriminate.
  Qed.
  (** If no step was accepted with an expected change of -0.0, the total cost in doubles never rises, infinities included, and after an
      accepted step no cost is +inf. *)
  Theorem C86_monotone : (forall e, In e (tl (s_trace s')) -> nltb (cf_cost_update_ratio_thre cf) (tr_ratio e) = true -> tr_expected e <> B754_zero true) ->
    exists c, start c /\ (s_cd s' = c \/ (nleb (nsum (cd_cost (s_cd s'))) (nsum (cd_cost c)) = true /\ ~ In (B754_infinity false) (cd_cost (s_cd s')))).
  Proof.
    intros Z. destruct (solve_ok _ _ _ _ _ _ _ _ _ _ _ _ _ H) as (_ & _ & c & r & es & (Hro & Hu & g0 & Hits) & _ & Tr).
    exists c. split; [split; assumption|]. destruct (iterations64 ex lg sm Hsm pb cf t0 x0 _ LL limits qfuel Ht _ _ _ _ _ _ Hits) as [E|(_ & _ & C)].
    - left. exact E.
    - right. apply C. intros e He (Z1 & Z2). apply (Z e); [rewrite Tr; exact He|exact Z1|exact Z2].
  Qed.
End Run.
Print Assumptions C86_nan.
Print Assumptions C86_stuck.
Print Assumptions C86_monotone.

(** ** Concrete cases *)
Local Instance Ny : Num b64 := B64Num (fun x => x) (fun x => x) seq_sum.
Definition ok_with (p : bool -> ddp b64 -> bool) (o : outcome (ddp b64) bool) : bool := match o with Ok b s => p b s | _ => false end.
Lemma ok_with_inv p o : ok_with p o = true -> exists b s, o = Ok b s /\ p b s = true.
Proof. destruct o as [b s| | |]; try discriminate. eauto. Qed.
Notation z0 := (B754_zero false : b64).
(** x' = x + u from x = 5, two inputs 0. *)
Notation lq_run := (ddp_solve chol_llt (lq_pb (T := b64)) (with_cf false false 500 2) None ex_junk 200 1000 z0 [b64_ofZ 5] [[z0]; [z0]] ex_s0).
(** The same with a terminal cost that is NaN for x >= 4, as a logarithm outside its domain would be. *)
Definition nan_pb : problem b64 := let p := lq_pb in {|
  pb_dt := pb_dt p; pb_nx := pb_nx p; pb_fixed_nu := pb_fixed_nu p; pb_inputDim := pb_inputDim p; pb_stateEq := pb_stateEq p;
  pb_runningCost := pb_runningCost p;
  pb_terminalCost := fun t x => if nltb (vget x 0) (b64_ofZ 4) then pb_terminalCost p t x else B754_nan;
  pb_stateEqDeriv := pb_stateEqDeriv p; pb_stateEqDeriv2 := pb_stateEqDeriv2 p; pb_runningCostDeriv := pb_runningCostDeriv p;
  pb_terminalCostDeriv := pb_terminalCostDeriv p |}.
Notation nan_run u := (ddp_solve chol_llt nan_pb (with_cf false false 500 2) None ex_junk 200 1000 z0 [b64_ofZ 5] [[u]; [u]] ex_s0).
Definition neg_zero (e : b64) : bool := match e with B754_zero true => true | _ => false end.
Definition changed (s : ddp b64) : bool := match cd_u (s_cd s) with [[a]; [b]] => nltb a z0 && nltb b z0 | _ => false end.
(** An ordinary run moves both inputs below zero and has no entry with an expected change of -0.0. *)
Example C86_nonvacuous : some_order seq_sum /\ nleb nzero (cf_cost_update_ratio_thre (with_cf (T := b64) false false 500 2)) = true /\
  exists b s', lq_run = Ok b s' /\ changed s' = true /\
  (forall e, In e (tl (s_trace s')) -> nltb (cf_cost_update_ratio_thre (with_cf (T := b64) false false 500 2)) (tr_ratio e) = true -> tr_expected e <> B754_zero true).
Proof.
  split; [exact seq_sum_order|]. split; [vm_compute; reflexivity|].
  assert (E : ok_with (fun b s => changed s && forallb (fun e => negb (neg_zero (tr_expected e))) (tl (s_trace s)))%bool lq_run = true) by (vm_compute; reflexivity).
  apply ok_with_inv in E as (b & s' & E & P). apply andb_true_iff in P as (P1 & P2). exists b, s'. split; [exact E|]. split; [exact P1|].
  intros e He _ Z. rewrite forallb_forall in P2. specialize (P2 e He). rewrite Z in P2. discriminate.
Qed.
(** The run from inputs 0, whose first cost is NaN, ends with them unchanged; from inputs -1, whose rollout has no NaN
    and costs 26, it reaches less than 21. *)
Example C86_stuck_nonvacuous :
  (exists s', nan_run z0 = Ok false s' /\ cd_u (s_cd s') = [[z0]; [z0]] /\ exists a, In a (cd_cost (s_cd s')) /\ is_nan a = true) /\
  (exists b s', nan_run (b64_ofZ (-1)) = Ok b s' /\ (forall a, In a (cd_cost (s_cd s')) -> is_finite a = true) /\
     nltb (nsum (cd_cost (s_cd s'))) (b64_ofZ 21) = true).
Proof.
  split.
  - assert (E : ok_with (fun b s => negb b && existsb (@is_nan 53 1024) (cd_cost (s_cd s)))%bool (nan_run z0) = true) by (vm_compute; reflexivity).
    apply ok_with_inv in E as (b & s' & E & P). apply andb_true_iff in P as (P1 & P2). apply existsb_exists in P2.
    destruct b; [discriminate|]. exists s'. split; [exact E|]. split; [|exact P2].
    assert (T : nleb nzero (cf_cost_update_ratio_thre (with_cf (T := b64) false false 500 2)) = true) by (vm_compute; reflexivity).
    destruct (C86_nan _ _ _ chol_llt nan_pb (with_cf false false 500 2) None ex_junk 200 1000 z0 [b64_ofZ 5] [[z0]; [z0]] ex_s0 s' false seq_sum_order T E) as (c & S & [Q|Q]).
    + rewrite Q. apply S.
    + destruct P2 as (a & Ha & Na). rewrite (Q a (or_intror Ha)) in Na. discriminate.
  - assert (E : ok_with (fun b s => forallb (@is_finite 53 1024) (cd_cost (s_cd s)) && nltb (nsum (cd_cost (s_cd s))) (b64_ofZ 21))%bool (nan_run (b64_ofZ (-1))) = true) by (vm_compute; reflexivity).
    apply ok_with_inv in E as (b & s' & E & P). apply andb_true_iff in P as (P1 & P2). exists b, s'. split; [exact E|]. split; [|exact P2].
    intros a Ha. rewrite forallb_forall in P1. apply P1, Ha.
Qed.
