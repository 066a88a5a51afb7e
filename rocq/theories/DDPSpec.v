(** Specification of DDPSolver::solve, written without the solver's internals:
    what a rollout is, and the abstract machine (regularisation, acceptance, termination) that a run follows. *)
From Verif Require Import Prelude Scalar LinAlg BoxQP DDP.

Section Spec.
  Context {T : Type} {N : Num T}.
  Local Open Scope num_scope.

  (** A trajectory with [n] steps of the user's problem from [x0] at time [t0]:
      states, inputs and costs agree with the callbacks, at times t0 + i * dt. *)
  Record is_rollout (pb : problem T) (t0 : T) (x0 : vec T) (n : nat) (c : cdata T) : Prop := {
    ro_lx : length (cd_x c) = (n + 1)%nat;
    ro_lu : length (cd_u c) = n;
    ro_lc : length (cd_cost c) = (n + 1)%nat;
    ro_x0 : nth_error (cd_x c) 0 = Some x0;
    ro_step : forall i, (i < n)%nat -> exists x u,
      nth_error (cd_x c) i = Some x /\ nth_error (cd_u c) i = Some u /\
      nth_error (cd_x c) (i + 1)%nat = Some (pb_stateEq pb (t0 + nofnat i * pb_dt pb) x u) /\
      nth_error (cd_cost c) i = Some (pb_runningCost pb (t0 + nofnat i * pb_dt pb) x u);
    ro_end : exists x, nth_error (cd_x c) n = Some x /\
      nth_error (cd_cost c) n = Some (pb_terminalCost pb (t0 + nofnat n * pb_dt pb) x)
  }.

  Variables (pb : problem T) (cf : config T) (t0 : T) (x0 : vec T) (n : nat).

  (** What the documentation asks of the arguments of solve. *)
  Definition valid_args (us : list (vec T)) : Prop :=
    Z.of_nat (length us) = cf_horizon cf /\
    (pb_fixed_nu pb = None -> forall i u, nth_error us i = Some u ->
        Z.of_nat (length u) = pb_inputDim pb (t0 + nofnat i * pb_dt pb)%num).

  (** Regularisation coefficient and its scaling factor. *)
  Definition reg : Type := T * T.
  Definition reg_up (p : reg) : reg :=
    let d := nmax (snd p * cf_lambda_factor cf) (cf_lambda_factor cf) in
    (nmax (fst p * d) (cf_lambda_min cf), d).
  Definition reg_down (p : reg) : reg :=
    let d := nmin (snd p / cf_lambda_factor cf) (nofZ 1 / cf_lambda_factor cf) in
    ((if fst p >=? cf_lambda_min cf then fst p * d else nzero), d).
  Definition too_large (p : reg) : bool := fst p >? cf_lambda_max cf.

  (** Largest relative norm of feed-forward gains. *)
  Fixpoint rel_norm (ks us : list (vec T)) (acc : T) : T :=
    match ks, us with
    | k :: ks', u :: us' => rel_norm ks' us' (nmax acc (vnorm k / (vnorm u + nofZ 1)))
    | _, _ => acc
    end.

  Definition total (c : cdata T) : T := nsum (cd_cost c).

  (** Acceptance ratio of a candidate (DDPSolver.hpp:248-259). *)
  Definition ratio_of (actual expected : T) : T :=
    if expected <? nzero then (if actual >=? nzero then nofZ 1 else nofZ (-1)) else actual / expected.

  (** What a backward pass leaves behind: gains and the coefficients of the expected cost change. *)
  Record pass := { p_k : list (vec T); p_K : list (mat T); p_d0 : T; p_d1 : T }.

  (** *** Backward pass around a trajectory *)
  Variables (LL : lltops T) (limits : option (T -> vec T * vec T)) (qfuel : nat).

  (** Second-order expansion of L(x,u) + V(f(x,u)) from the derivatives of L, f (first order) and V, unregularised and with
      the coefficient [lambda] added either to the diagonal of Quu (reg_type 1) or to that of Vxx (reg_type 2). *)
  Definition expansion (d : deriv T) (Vx : vec T) (Vxx : mat T) (lambda : T) : qterms :=
    let W := if (cf_reg_type cf =? 2)%Z then mdiagadd Vxx lambda else Vxx in
    {| qQx := vadd (dLx d) (mvmul (mtr (dFx d)) Vx);
       qQu := vadd (dLu d) (mvmul (mtr (dFu d)) Vx);
       qQxx := madd (dLxx d) (mmul (mmul (mtr (dFx d)) Vxx) (dFx d));
       qQuu := madd (dLuu d) (mmul (mmul (mtr (dFu d)) Vxx) (dFu d));
       qQux := madd (mtr (dLxu d)) (mmul (mmul (mtr (dFu d)) Vxx) (dFx d));
       qQux_reg := madd (mtr (dLxu d)) (mmul (mmul (mtr (dFu d)) W) (dFx d));
       qQuu_F := let Q := madd (dLuu d) (mmul (mmul (mtr (dFu d)) W) (dFu d)) in
                 if (cf_reg_type cf =? 1)%Z then mdiagadd Q lambda else Q |}.

  (** Value of the expansion under du = k + K dx: gradient and symmetrised Hessian. *)
  Definition propagate (q : qterms) (k : vec T) (K : mat T) : vec T * mat T :=
    let H := madd (madd (madd (qQxx q) (mmul (mmul (mtr K) (qQuu q)) K)) (mmul (mtr K) (qQux q))) (mmul (mtr (qQux q)) K) in
    (vadd (vadd (vadd (qQx q) (mvmul (mmul (mtr K) (qQuu q)) k)) (mvmul (mtr K) (qQu q))) (mvmul (mtr (qQux q)) k),
     mscale nhalf (madd H (mtr H))).

  (** Feedback gain of a box QP solution: inputs outside [free] get none, the rows of the others are minus the
      solution of the reduced system [Hf] K = (rows [free] of [Qux]). *)
  Definition free_gain (nu nx : nat) (free : list nat) (Hf Qux K : mat T) : Prop :=
    mdimb nu nx K = true /\
    forall i j, (i < nu)%nat -> (j < nx)%nat ->
      (~ In i free -> mget K i j = nzero) /\
      (In i free -> exists p, nth_error free p = Some i /\
         mget K i j = mget (mscale (nopp none) (llt_solve_mat LL Hf (mkmat (length free) nx (map (fun r => mrow Qux r) free)))) p j).

  (** The derivative callbacks' answer at a point; [old] is what the output arguments held before the call. *)
  Definition derivs_at (t : T) (x u : vec T) (old d : deriv T) : Prop :=
    (dFx d, dFu d) = (if cf_second cf then pb_stateEqDeriv2 pb t x u (dFx old, dFu old)
                      else pb_stateEqDeriv pb t x u (dFx old, dFu old)) /\
    (dLx d, dLu d, dLxx d, dLuu d, dLxu d) = pb_runningCostDeriv pb t x u (dLx old, dLu old, dLxx old, dLuu old, dLxu old).

  (** The box QP of step [i]: limits relative to the current input, warm-started with the next step's gain when it has
      the right size. *)
  Definition box (i : nat) (u : vec T) (d : deriv T) (q : qterms) (ks : list (vec T)) (f : T -> vec T * vec T) (ik : vec T) (out : qp_out T) : Prop :=
    limits = Some f /\
    let t := (t0 + nofnat i * pb_dt pb) in
    length (fst (f t)) = length u /\ length (snd (f t)) = length u /\
    ik = match ks with k1 :: _ => if Nat.eqb (length k1) (mcols (dFu d)) then k1 else vzero (mcols (dFu d))
                     | [] => vzero (mcols (dFu d)) end /\
    qp_solve LL qp_default_config (mcols (qQuu_F q)) (qQuu_F q) (qQu q) (vsub (fst (f t)) u) (vsub (snd (f t)) u)
      qfuel qfuel None ik tt = Ok out tt.

  (** Gains of step [i] with input [u]; [ks] are the feed-forward gains of the later steps.  [None]: no gains. *)
  Inductive step_gains (i : nat) (u : vec T) (d : deriv T) (q : qterms) (ks : list (vec T)) : option (vec T * mat T) -> Prop :=
  | sg_empty : mcols (dFu d) = 0%nat -> step_gains i u d q ks (Some ([], mzero 0 (pb_nx pb)))
  | sg_issue : (0 < mcols (dFu d))%nat -> cf_constraint cf = false -> llt_issue LL (qQuu_F q) = true ->
      step_gains i u d q ks None
  | sg_newton : (0 < mcols (dFu d))%nat -> cf_constraint cf = false -> llt_issue LL (qQuu_F q) = false ->
      step_gains i u d q ks (Some (vscale (nopp none) (llt_solve LL (qQuu_F q) (qQu q)),
                                   mscale (nopp none) (llt_solve_mat LL (qQuu_F q) (qQux_reg q))))
  | sg_box_none f ik out : (0 < mcols (dFu d))%nat -> cf_constraint cf = true -> box i u d q ks f ik out ->
      (qo_retval out < 0)%Z -> step_gains i u d q ks None
  | sg_box f ik out K : (0 < mcols (dFu d))%nat -> cf_constraint cf = true -> box i u d q ks f ik out ->
      (0 <= qo_retval out)%Z ->
      (qo_free out = [] -> K = mzero (mcols (dFu d)) (pb_nx pb)) ->
      (qo_free out <> [] -> exists Hf, qo_llt out = Some Hf /\ free_gain (mcols (dFu d)) (pb_nx pb) (qo_free out) Hf (qQux_reg q) K) ->
      step_gains i u d q ks (Some (qo_x out, K)).

  (** Recursion from step [i] down to step 0, with the results of the later steps. *)
  Inductive backward_from (us : list (vec T)) (ds : list (deriv T)) (lambda : T) :
    nat -> vec T -> mat T -> pass -> option pass -> Prop :=
  | bf_end Vx Vxx g : backward_from us ds lambda 0 Vx Vxx g (Some g)
  | bf_fail i u d Vx Vxx g : cf_second cf = false ->
      nth_error us i = Some u -> nth_error ds i = Some d -> deriv_dims pb d Vx Vxx = true ->
      step_gains i u d (expansion d Vx Vxx lambda) (p_k g) None ->
      backward_from us ds lambda (S i) Vx Vxx g None
  | bf_step i u d Vx Vxx g k K Vx' Vxx' o : cf_second cf = false ->
      nth_error us i = Some u -> nth_error ds i = Some d -> deriv_dims pb d Vx Vxx = true ->
      let q := expansion d Vx Vxx lambda in
      step_gains i u d q (p_k g) (Some (k, K)) ->
      length k = mcols (dFu d) -> mdimb (mcols (dFu d)) (pb_nx pb) K = true ->
      propagate q k K = (Vx', Vxx') ->
      backward_from us ds lambda i Vx' Vxx'
        {| p_k := k :: p_k g; p_K := K :: p_K g; p_d0 := p_d0 g + dot k (qQu q);
           p_d1 := p_d1 g + nhalf * dot k (mvmul (qQuu q) k) |} o ->
      backward_from us ds lambda (S i) Vx Vxx g o.

  (** A backward pass around the trajectory [c] with regularisation [lambda]. *)
  Definition backward (c : cdata T) (lambda : T) (o : option pass) : Prop :=
    exists ds xN old, length ds = n /\
      (forall i, (i < n)%nat -> exists x u old d, nth_error (cd_x c) i = Some x /\ nth_error (cd_u c) i = Some u /\
         nth_error ds i = Some d /\ derivs_at (t0 + nofnat i * pb_dt pb) x u old d) /\
      nth_error (cd_x c) n = Some xN /\
      let V := pb_terminalCostDeriv pb (t0 + nofnat n * pb_dt pb) xN old in
      backward_from (cd_u c) ds lambda n (fst V) (snd V) {| p_k := []; p_K := []; p_d0 := nzero; p_d1 := nzero |} o.

  (** Failed backward passes raise the regularisation until one succeeds or the coefficient
      exceeds lambda_max. *)
  Inductive retry (c : cdata T) : option pass -> reg -> reg -> Prop :=
  | retry_ok p g : backward c (fst p) (Some g) -> retry c (Some g) p p
  | retry_fail p : backward c (fst p) None -> too_large (reg_up p) = true -> retry c None p (reg_up p)
  | retry_again o p q : backward c (fst p) None -> too_large (reg_up p) = false -> retry c o (reg_up p) q -> retry c o p q.

  (** The candidate for step factor [alpha]: the closed-loop rollout around [c] with the gains of [g]. *)
  Definition is_candidate (c : cdata T) (g : pass) (alpha : T) (c' : cdata T) : Prop :=
    is_rollout pb t0 x0 n c' /\
    forall i, (i < n)%nat -> exists x u x' k K,
      nth_error (cd_x c) i = Some x /\ nth_error (cd_u c) i = Some u /\ nth_error (cd_x c') i = Some x' /\
      nth_error (p_k g) i = Some k /\ nth_error (p_K g) i = Some K /\
      length k = length u /\ mdimb (length u) (length x) K = true /\ length x' = length x /\
      nth_error (cd_u c') i = Some (vadd (vadd u (vscale alpha k)) (mvmul K (vsub x' x))).

  (** Expected cost decrease for step factor [alpha]. *)
  Definition expected_of (g : pass) (alpha : T) : T := (nopp none * alpha) * (p_d0 g + alpha * p_d1 g).

  (** The trial of [alpha] is accepted / rejected. *)
  Definition trial (c : cdata T) (g : pass) (alpha : T) (c' : cdata T) (ok : bool) : Prop :=
    is_candidate c g alpha c' /\
    (ratio_of (total c - total c') (expected_of g alpha) >? cf_cost_update_ratio_thre cf) = ok.

  (** Line search over the list: the first accepted factor; if none, the last factor tried. *)
  Inductive search (c : cdata T) (g : pass) : list T -> option (cdata T) -> T -> T -> T -> T -> Prop :=
  | se_nil : search c g [] None nzero nzero nzero nzero
  | se_accept a rest c' : trial c g a c' true ->
      search c g (a :: rest) (Some c') a (total c - total c') (expected_of g a)
             (ratio_of (total c - total c') (expected_of g a))
  | se_last a c' : trial c g a c' false ->
      search c g [a] None a (total c - total c') (expected_of g a)
             (ratio_of (total c - total c') (expected_of g a))
  | se_skip a b rest c' o al ac ex ra : trial c g a c' false ->
      search c g (b :: rest) o al ac ex ra -> search c g (a :: b :: rest) o al ac ex ra.

  (** Solver state seen by the machine: trajectory, regularisation, result of the last backward pass. *)
  Definition mst : Type := cdata T * reg * pass.

  (** One iteration number [it]: state before, return code, trace entry, state after.
      Code 0 = continue, 1 = success, -1 = failure. *)
  Inductive iteration (it : Z) : mst -> Z -> trace T -> mst -> Prop :=
  | it_fail c p q g0 g :
      retry c None p q ->
      iteration it (c, p, g0) (-1) (trace0 it) (c, q, g)
  | it_small_gradient c p q g0 g krn :
      retry c (Some g) p q -> length (p_k g) = n ->
      krn = rel_norm (p_k g) (cd_u c) nzero ->
      krn <? cf_k_rel_norm_thre cf = true -> fst q <? cf_lambda_thre cf = true ->
      iteration it (c, p, g0) 1 (tr_set_krel krn (trace0 it)) (c, q, g)
  | it_accept c p q g0 g krn c' alpha actual expected ratio :
      retry c (Some g) p q -> length (p_k g) = n ->
      krn = rel_norm (p_k g) (cd_u c) nzero ->
      (krn <? cf_k_rel_norm_thre cf) && (fst q <? cf_lambda_thre cf) = false ->
      search c g (cf_alpha_list cf) (Some c') alpha actual expected ratio ->
      iteration it (c, p, g0) (if actual <? cf_cost_update_thre cf then 1 else 0)
        {| tr_iter := it; tr_cost := total c'; tr_lambda := fst (reg_down q); tr_dlambda := snd (reg_down q);
           tr_alpha := alpha; tr_k_rel_norm := krn; tr_actual := actual; tr_expected := expected;
           tr_ratio := ratio |}
        (c', reg_down q, g)
  | it_reject c p q g0 g krn alpha actual expected ratio :
      retry c (Some g) p q -> length (p_k g) = n ->
      krn = rel_norm (p_k g) (cd_u c) nzero ->
      (krn <? cf_k_rel_norm_thre cf) && (fst q <? cf_lambda_thre cf) = false ->
      search c g (cf_alpha_list cf) None alpha actual expected ratio ->
      iteration it (c, p, g0) (if too_large (reg_up q) then -1 else 0)
        {| tr_iter := it; tr_cost := total c; tr_lambda := fst (reg_up q); tr_dlambda := snd (reg_up q);
           tr_alpha := alpha; tr_k_rel_norm := krn; tr_actual := actual; tr_expected := expected;
           tr_ratio := ratio |}
        (c, reg_up q, g).

  (** At most [m] iterations starting with number [it]; stops at the first non-zero code. *)
  Inductive iterations : nat -> Z -> mst -> Z -> list (trace T) -> mst -> Prop :=
  | its_end it s : iterations 0 it s 0 [] s
  | its_stop m it s r e s' : iteration it s r e s' -> r <> 0%Z -> iterations (S m) it s r [e] s'
  | its_next m it s e s1 r es s' :
      iteration it s 0 e s1 -> iterations m (it + 1)%Z s1 r es s' -> iterations (S m) it s r (e :: es) s'.

  Definition trace_start (c : cdata T) : trace T :=
    {| tr_iter := 0; tr_cost := total c; tr_lambda := cf_initial_lambda cf;
       tr_dlambda := cf_initial_dlambda cf; tr_alpha := nzero; tr_k_rel_norm := nzero;
       tr_actual := nzero; tr_expected := nzero; tr_ratio := nzero |}.

  (** The whole run: initial rollout [c] with the given inputs, then iterations [es] ending with code [r]. *)
  Definition run (us : list (vec T)) (c : cdata T) (r : Z) (es : list (trace T)) (s' : mst) : Prop :=
      is_rollout pb t0 x0 n c /\ cd_u c = us /\
      exists g0, iterations (Z.to_nat (cf_max_iter cf)) 1
                   (c, (cf_initial_lambda cf, cf_initial_dlambda cf), g0) r es s'.

End Spec.
Arguments pass T : clear implicits.
