(** Properties C17, C18, C23, C24, C25 of BoxQP::solve.
    The section holds for every scalar type (IEEE doubles with NaN included), every LLT routine and every
    previous content [ol] of the factorisation member. *)
From Verif Require Import Prelude Scalar LinAlg BoxQP BoxQPProofs BoxQPTerm Chol QPCor QPClamp.
From Coq Require Import Sorted Reals Lra.

Section QP.
  Context {T : Type} {N : Num T} (LL : lltops T).
  Variables (cfg : qp_config T) (n : nat) (H : mat T) (g lower upper : vec T).
  Context {S : Type}.
  Variables (fuel afuel : nat) (ol : option (mat T)) (ix : vec T) (s s' : S) (out : qp_out T).
  Notation solve := (qp_solve LL cfg n H g lower upper fuel afuel ol ix s).

  (** C17: the result has the right size and no component compares outside its bounds. The three hypotheses say
      that the bounds compare like numbers ([x < x] is false, which excludes nothing in IEEE arithmetic) and
      that they are not crossed. *)
  Theorem C17_length : solve = Ok out s' -> length (qo_x out) = n.
  Proof. exact (qp_length LL cfg n H g lower upper fuel afuel ol ix s s' out). Qed.
  Theorem C17_feasible i : solve = Ok out s' -> i < n ->
    nltb (vget lower i) (vget lower i) = false -> nltb (vget upper i) (vget upper i) = false ->
    nltb (vget upper i) (vget lower i) = false ->
    nltb (vget (qo_x out) i) (vget lower i) = false /\ nltb (vget upper i) (vget (qo_x out) i) = false.
  Proof. exact (qp_feasible LL cfg n H g lower upper fuel afuel ol ix s s' out i). Qed.

  (** C18: return codes; the string lookup never throws. *)
  Theorem C18_retval : solve = Ok out s' -> In (qo_retval out) [-2; -1; 1; 4; 5; 6]%Z.
  Proof. exact (qp_retval LL cfg n H g lower upper fuel afuel ol ix s s' out). Qed.
  Theorem C18_no_exception e : solve <> Throw e s'.
  Proof. exact (qp_no_throw LL cfg n H g lower upper fuel afuel ol ix s s' e). Qed.

  (** C24: free_idxs_ is strictly increasing and in range; with retval >= 0 and a non-empty free set llt_free_ is
      the factorisation, without numerical issue, of H restricted to exactly those rows and columns. *)
  Theorem C24_factorisation : solve = Ok out s' ->
    StronglySorted lt (qo_free out) /\ Forall (fun i => i < n) (qo_free out) /\
    ((0 <= qo_retval out)%Z -> qo_free out <> [] ->
       qo_llt out = Some (mgather H (qo_free out) (qo_free out)) /\
       llt_issue LL (mgather H (qo_free out) (qo_free out)) = false).
  Proof. exact (qp_factor LL cfg n H g lower upper fuel afuel ol ix s s' out). Qed.

  (** C25: trace. *)
  Theorem C25_trace : solve = Ok out s' ->
    exists rest, qo_trace out = {| qt_iter := 0; qt_x := qp_clip lower upper ix;
                        qt_obj := qp_obj H g (qp_clip lower upper ix); qt_dir := vzero n;
                        qt_clamped := repeat false n; qt_fnum := 0; qt_snum := 0 |} :: rest /\
      rest <> [] /\
      (forall i e, nth_error (qo_trace out) i = Some e -> qt_iter e = Z.of_nat i) /\
      ((1 <= qp_max_iter cfg)%Z -> (Z.of_nat (length rest) <= qp_max_iter cfg)%Z) /\
      (qo_retval out = 1%Z -> Z.of_nat (length rest) = qp_max_iter cfg).
  Proof. exact (qp_traces LL cfg n H g lower upper fuel afuel ol ix s s' out). Qed.

  (** C23 for every scalar type: max_iter passes and [K] trials per line search suffice as soon as the step
      length after [K] reductions (a number that depends on the configuration only) is below min_step. *)
  Theorem C23_terminates K :
    nltb (qp_step cfg K) (qp_min_step cfg) = true -> 0 < K <= afuel ->
    (1 <= qp_max_iter cfg <= Z.of_nat fuel)%Z -> solve <> OutOfFuel.
  Proof. exact (qp_solve_terminates_any LL cfg n H g lower upper K fuel afuel ol ix s). Qed.
End QP.
Print Assumptions C17_length.
Print Assumptions C17_feasible.
Print Assumptions C18_retval.
Print Assumptions C18_no_exception.
Print Assumptions C24_factorisation.
Print Assumptions C25_trace.
Print Assumptions C23_terminates.

(** C17 on exact reals. *)
Theorem C17_feasible_R {S} LL cfg n H g lower upper fuel afuel ol ix (s s' : S) out i :
  qp_solve (T := R) LL cfg n H g lower upper fuel afuel ol ix s = Ok out s' -> i < n ->
  (vget lower i <= vget upper i)%R ->
  (vget lower i <= vget (qo_x out) i <= vget upper i)%R.
Proof. exact (qp_feasible_R LL cfg n H g lower upper fuel afuel ol ix s s' out i). Qed.
Print Assumptions C17_feasible_R.

(** C17: over the reals, a component outside the returned free set is exactly at one of its limits. *)
Theorem C17_clamped_on_limit {S} LL cfg n H g lower upper fuel afuel ol ix (s s' : S) out :
  (forall i, i < n -> (vget lower i <= vget upper i)%R) ->
  qp_solve (T := R) LL cfg n H g lower upper fuel afuel ol ix s = Ok out s' ->
  forall i, i < n -> ~ In i (qo_free out) -> vget (qo_x out) i = vget lower i \/ vget (qo_x out) i = vget upper i.
Proof. intros Hb E. exact (qp_on_limit LL cfg n H g lower upper Hb fuel afuel ol ix s s' out E). Qed.
Print Assumptions C17_clamped_on_limit.

(** C23: the [K] of [C23_terminates] exists for every admissible configuration of exact reals. *)
Theorem C23_bound_R (cfg : qp_config R) :
  (0 < qp_step_factor cfg < 1)%R -> (0 < qp_min_step cfg)%R ->
  exists K, 0 < K /\ nltb (qp_step cfg K) (qp_min_step cfg) = true.
Proof. exact (qp_step_exists cfg). Qed.
Print Assumptions C23_bound_R.
(** and on IEEE doubles with the default configuration it is at most 100. *)
Theorem C23_bound_double_default :
  nltb (qp_step (qp_default_config (T := f64)) 100) (qp_min_step qp_default_config) = true.
Proof. exact qp_step_f64_default. Qed.
Print Assumptions C23_bound_double_default.
(** C23: with max_iter = 0 and a NaN in g solve runs forever: no bound on the number of passes suffices. *)
Theorem C23_unbounded_without_max_iter afuel fuel :
  qp_solve chol_llt nan_cfg 1 nan_H [f64_nan] [nofZ (-1)] [nofZ 1] fuel afuel None [nzero] tt = OutOfFuel.
Proof. exact (nan_solve_diverges afuel fuel). Qed.
Print Assumptions C23_unbounded_without_max_iter.

(** Non-vacuity: H = [[2,1],[1,2]], g = (-3,-3), box [0, 1/2] x [0, 2], start (0,0): returns with code 5,
    x0 at its upper bound, free set {1}, after three entries. *)
Definition ex_H : mat f64 := mkmat 2 2 [[nofZ 2; none]; [none; nofZ 2]].
Definition ex_qp : outcome unit (qp_out f64) :=
  qp_solve chol_llt qp_default_config 2 ex_H [nofZ (-3); nofZ (-3)] [nzero; nzero] [nhalf; nofZ 2] 10 100 None
    [nzero; nzero] tt.
Example QP_nonvacuous : exists out, ex_qp = Ok out tt /\ qo_retval out = 5%Z /\ qo_free out = [1] /\
  length (qo_trace out) = 4 /\ neqb (vget (qo_x out) 0) nhalf = true /\
  nltb (vget (qo_x out) 1) (nlit 1251 1000) = true /\ nltb (nlit 1249 1000) (vget (qo_x out) 1) = true.
Proof.
  eexists. split; [vm_compute; reflexivity|]. vm_compute. auto 10.
Qed.
Example C23_nonvacuous : (0 < qp_step_factor (qp_default_config (T := R)) < 1)%R /\ (0 < qp_min_step (qp_default_config (T := R)))%R.
Proof. unfold qp_default_config; cbn [qp_step_factor qp_min_step]; numR. lra. Qed.
