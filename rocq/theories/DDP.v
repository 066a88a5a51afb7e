(** Model of /repo/nmpc_ddp/include/nmpc_ddp/DDPSolver.{h,hpp} and DDPProblem.h. *)
From Verif Require Import Prelude Scalar LinAlg BoxQP.

Section DDP.
  Context {T : Type} {N : Num T} (LL : lltops T).
  Local Open Scope num_scope.
  Local Open Scope monad_scope.

  (** DDPSolver.h:126-176 Derivative (first-order state equation and second-order cost parts; the tensors
      Fxx, Fuu, Fxu are never read by the solver and are left out). *)
  Record deriv := {
    dFx : mat T; dFu : mat T; dLx : vec T; dLu : vec T; dLxx : mat T; dLuu : mat T; dLxu : mat T
  }.

  (** DDPProblem.h. Callbacks are arbitrary functions. The derivative callbacks get the old contents of the
      output arguments (Eigen::Ref parameters) and return the new ones.
      [pb_fixed_nu] is [Some InputDim] for a fixed template dimension, [None] for Eigen::Dynamic.
      [pb_inputDim] is inputDim(t). *)
  Record problem := {
    pb_dt : T;                                   (* DDPProblem.h:88 *)
    pb_nx : nat;                                 (* DDPProblem.h:52 stateDim() *)
    pb_fixed_nu : option nat;                    (* DDPProblem.h:61 inputDim() *)
    pb_inputDim : T -> Z;                        (* DDPProblem.h:74 inputDim(t) *)
    pb_stateEq : T -> vec T -> vec T -> vec T;   (* DDPProblem.h:99 *)
    pb_runningCost : T -> vec T -> vec T -> T;   (* DDPProblem.h:107 *)
    pb_terminalCost : T -> vec T -> T;           (* DDPProblem.h:114 *)
    pb_stateEqDeriv : T -> vec T -> vec T -> mat T * mat T -> mat T * mat T;    (* DDPProblem.h:123 *)
    pb_stateEqDeriv2 : T -> vec T -> vec T -> mat T * mat T -> mat T * mat T;   (* DDPProblem.h:139 *)
    pb_runningCostDeriv : T -> vec T -> vec T ->
        vec T * vec T * mat T * mat T * mat T -> vec T * vec T * mat T * mat T * mat T; (* DDPProblem.h:171 *)
    pb_terminalCostDeriv : T -> vec T -> vec T * mat T -> vec T * mat T         (* DDPProblem.h:195 *)
  }.

  (** DDPSolver.h:47-110 Configuration. *)
  Record config := {
    cf_print_level : Z;
    cf_second : bool;               (* use_state_eq_second_derivative *)
    cf_constraint : bool;           (* with_input_constraint *)
    cf_max_iter : Z;
    cf_horizon : Z;                 (* horizon_steps *)
    cf_reg_type : Z;
    cf_initial_lambda : T;
    cf_initial_dlambda : T;
    cf_lambda_factor : T;
    cf_lambda_min : T;
    cf_lambda_max : T;
    cf_k_rel_norm_thre : T;
    cf_lambda_thre : T;
    cf_alpha_list : list T;
    cf_cost_update_ratio_thre : T;
    cf_cost_update_thre : T
  }.
  (** DDPSolver.h:50-109 defaults; alpha_list (50-60) is passed in because it is computed with std::pow. *)
  Definition default_config (alphas : list T) : config := {|
    cf_print_level := 1; cf_second := false; cf_constraint := false; cf_max_iter := 500;
    cf_horizon := 100; cf_reg_type := 1;
    cf_initial_lambda := nlit 1 10000; cf_initial_dlambda := nlit 1 1;
    cf_lambda_factor := nlit 16 10; cf_lambda_min := nlit 1 1000000; cf_lambda_max := nlit 10000000000 1;
    cf_k_rel_norm_thre := nlit 1 10000; cf_lambda_thre := nlit 1 100000;
    cf_alpha_list := alphas; cf_cost_update_ratio_thre := nlit 0 1;
    cf_cost_update_thre := nlit 1 10000000 |}.

  (** DDPSolver.h:113-123 ControlData. *)
  Record cdata := { cd_x : list (vec T); cd_u : list (vec T); cd_cost : list T }.

  (** DDPSolver.h:179-216 TraceData without the durations. *)
  Record trace := {
    tr_iter : Z; tr_cost : T; tr_lambda : T; tr_dlambda : T; tr_alpha : T; tr_k_rel_norm : T;
    tr_actual : T; tr_expected : T; tr_ratio : T
  }.
  (** DDPSolver.h:181-206 default member initialisers. *)
  Definition trace0 (iter : Z) : trace := {|
    tr_iter := iter; tr_cost := nzero; tr_lambda := nzero; tr_dlambda := nzero; tr_alpha := nzero;
    tr_k_rel_norm := nzero; tr_actual := nzero; tr_expected := nzero; tr_ratio := nzero |}.

  (** DDPSolver.h:327-374 members that change (config, problem and limits function are parameters below). *)
  Record ddp := {
    s_t : T; s_lambda : T; s_dlambda : T;
    s_cd : cdata;             (* control_data_ *)
    s_cand : cdata;           (* candidate_control_data_ *)
    s_k : list (vec T); s_K : list (mat T);
    s_deriv : list deriv;
    s_Vx : vec T; s_Vxx : mat T;      (* last_Vx_, last_Vxx_ *)
    s_dV0 : T; s_dV1 : T;
    s_trace : list trace
  }.

  Definition set_t v s := {| s_t := v; s_lambda := s_lambda s; s_dlambda := s_dlambda s; s_cd := s_cd s;
    s_cand := s_cand s; s_k := s_k s; s_K := s_K s; s_deriv := s_deriv s; s_Vx := s_Vx s; s_Vxx := s_Vxx s;
    s_dV0 := s_dV0 s; s_dV1 := s_dV1 s; s_trace := s_trace s |}.
  Definition set_lambda v w s := {| s_t := s_t s; s_lambda := v; s_dlambda := w; s_cd := s_cd s;
    s_cand := s_cand s; s_k := s_k s; s_K := s_K s; s_deriv := s_deriv s; s_Vx := s_Vx s; s_Vxx := s_Vxx s;
    s_dV0 := s_dV0 s; s_dV1 := s_dV1 s; s_trace := s_trace s |}.
  Definition set_cd v s := {| s_t := s_t s; s_lambda := s_lambda s; s_dlambda := s_dlambda s; s_cd := v;
    s_cand := s_cand s; s_k := s_k s; s_K := s_K s; s_deriv := s_deriv s; s_Vx := s_Vx s; s_Vxx := s_Vxx s;
    s_dV0 := s_dV0 s; s_dV1 := s_dV1 s; s_trace := s_trace s |}.
  Definition set_cand v s := {| s_t := s_t s; s_lambda := s_lambda s; s_dlambda := s_dlambda s; s_cd := s_cd s;
    s_cand := v; s_k := s_k s; s_K := s_K s; s_deriv := s_deriv s; s_Vx := s_Vx s; s_Vxx := s_Vxx s;
    s_dV0 := s_dV0 s; s_dV1 := s_dV1 s; s_trace := s_trace s |}.
  Definition set_gains v w s := {| s_t := s_t s; s_lambda := s_lambda s; s_dlambda := s_dlambda s; s_cd := s_cd s;
    s_cand := s_cand s; s_k := v; s_K := w; s_deriv := s_deriv s; s_Vx := s_Vx s; s_Vxx := s_Vxx s;
    s_dV0 := s_dV0 s; s_dV1 := s_dV1 s; s_trace := s_trace s |}.
  Definition set_deriv v s := {| s_t := s_t s; s_lambda := s_lambda s; s_dlambda := s_dlambda s; s_cd := s_cd s;
    s_cand := s_cand s; s_k := s_k s; s_K := s_K s; s_deriv := v; s_Vx := s_Vx s; s_Vxx := s_Vxx s;
    s_dV0 := s_dV0 s; s_dV1 := s_dV1 s; s_trace := s_trace s |}.
  Definition set_lastV v w s := {| s_t := s_t s; s_lambda := s_lambda s; s_dlambda := s_dlambda s; s_cd := s_cd s;
    s_cand := s_cand s; s_k := s_k s; s_K := s_K s; s_deriv := s_deriv s; s_Vx := v; s_Vxx := w;
    s_dV0 := s_dV0 s; s_dV1 := s_dV1 s; s_trace := s_trace s |}.
  Definition set_dV v w s := {| s_t := s_t s; s_lambda := s_lambda s; s_dlambda := s_dlambda s; s_cd := s_cd s;
    s_cand := s_cand s; s_k := s_k s; s_K := s_K s; s_deriv := s_deriv s; s_Vx := s_Vx s; s_Vxx := s_Vxx s;
    s_dV0 := v; s_dV1 := w; s_trace := s_trace s |}.
  Definition set_trace v s := {| s_t := s_t s; s_lambda := s_lambda s; s_dlambda := s_dlambda s; s_cd := s_cd s;
    s_cand := s_cand s; s_k := s_k s; s_K := s_K s; s_deriv := s_deriv s; s_Vx := s_Vx s; s_Vxx := s_Vxx s;
    s_dV0 := s_dV0 s; s_dV1 := s_dV1 s; s_trace := v |}.

  (** What freshly allocated storage contains (Eigen does not initialise it). *)
  Record junk := { jk_x : vec T; jk_u : vec T; jk_cost : nat -> T; jk_k : vec T; jk_K : mat T;
                   jk_deriv : nat -> nat -> deriv }.

  Variables (pb : problem) (cf : config) (limits : option (T -> vec T * vec T)) (jk : junk).

  Definition N_ : nat := Z.to_nat (cf_horizon cf).

  (** DDPSolver.hpp:50, 70, 89, 164, 370, 551: t = current_t_ + i * dt; and 93, 179, 557 with i = horizon. *)
  Definition tm (t0 : T) (i : nat) : T := t0 + nofnat i * pb_dt pb.

  Definition cd_setx i v (c : cdata) : option cdata :=
    option_map (fun l => {| cd_x := l; cd_u := cd_u c; cd_cost := cd_cost c |}) (upd (cd_x c) i v).
  Definition cd_setu i v (c : cdata) : option cdata :=
    option_map (fun l => {| cd_x := cd_x c; cd_u := l; cd_cost := cd_cost c |}) (upd (cd_u c) i v).
  Definition cd_setc i v (c : cdata) : option cdata :=
    option_map (fun l => {| cd_x := cd_x c; cd_u := cd_u c; cd_cost := l |}) (upd (cd_cost c) i v).

  (** Eigen::VectorXd::resize: contents are lost when the size changes. *)
  Definition cost_resize (n : nat) (l : list T) : list T :=
    if Nat.eqb (length l) n then l else map (jk_cost jk) (seq 0 n).

  (** DDPSolver.hpp:87-92 body of the initial rollout. *)
  Definition rollout_body (i : nat) : M ddp unit :=
    s <- get ;;
    let t := tm (s_t s) i in
    x <- must (nth_error (cd_x (s_cd s)) i) ;;
    u <- must (nth_error (cd_u (s_cd s)) i) ;;
    c1 <- must (cd_setx (i + 1) (pb_stateEq pb t x u) (s_cd s)) ;;
    c2 <- must (cd_setc i (pb_runningCost pb t x u) c1) ;;
    put (set_cd c2 s).

  (** DDPSolver.hpp:160-178 body of Step 1. *)
  Definition deriv_body (i : nat) : M ddp unit :=
    s <- get ;;
    d <- must (nth_error (s_deriv s) i) ;;
    let t := tm (s_t s) i in
    x <- must (nth_error (cd_x (s_cd s)) i) ;;
    u <- must (nth_error (cd_u (s_cd s)) i) ;;
    let '(Fx, Fu) := if cf_second cf then pb_stateEqDeriv2 pb t x u (dFx d, dFu d)
                     else pb_stateEqDeriv pb t x u (dFx d, dFu d) in
    let '(Lx, Lu, Lxx, Luu, Lxu) :=
      pb_runningCostDeriv pb t x u (dLx d, dLu d, dLxx d, dLuu d, dLxu d) in
    ds <- must (upd (s_deriv s) i {| dFx := Fx; dFu := Fu; dLx := Lx; dLu := Lu; dLxx := Lxx;
                                    dLuu := Luu; dLxu := Lxu |}) ;;
    put (set_deriv ds s).

  (** The local quantities of one backward step (DDPSolver.hpp:386-441). *)
  Record qterms := { qQu : vec T; qQx : vec T; qQux : mat T; qQuu : mat T; qQxx : mat T;
                     qQux_reg : mat T; qQuu_F : mat T }.
  Definition q_of (d : deriv) (Vx : vec T) (Vxx : mat T) (lambda : T) : qterms :=
    let FuT := mtr (dFu d) in
    let FxT := mtr (dFx d) in
    let Vxx_reg := if (cf_reg_type cf =? 2)%Z then mdiagadd Vxx lambda else Vxx in
    let Quu_F0 := madd (dLuu d) (mmul (mmul FuT Vxx_reg) (dFu d)) in
    {| qQu := vadd (dLu d) (mvmul FuT Vx);
       qQx := vadd (dLx d) (mvmul FxT Vx);
       qQux := madd (mtr (dLxu d)) (mmul (mmul FuT Vxx) (dFx d));
       qQuu := madd (dLuu d) (mmul (mmul FuT Vxx) (dFu d));
       qQxx := madd (dLxx d) (mmul (mmul FxT Vxx) (dFx d));
       qQux_reg := madd (mtr (dLxu d)) (mmul (mmul FuT Vxx_reg) (dFx d));
       qQuu_F := if (cf_reg_type cf =? 1)%Z then mdiagadd Quu_F0 lambda else Quu_F0 |}.

  (** The Eigen size assertions behind lines 386-441 and 522-526. *)
  Definition deriv_dims (d : deriv) (Vx : vec T) (Vxx : mat T) : bool :=
    let nx := pb_nx pb in
    let nu := mcols (dFu d) in
    vdimb nx Vx && mdimb nx nx Vxx && mdimb nx nx (dFx d) && mdimb nx nu (dFu d)
    && vdimb nx (dLx d) && vdimb nu (dLu d) && mdimb nx nx (dLxx d) && mdimb nu nu (dLuu d)
    && mdimb nx nu (dLxu d).

  (** DDPSolver.hpp:482-496: K from the free rows. *)
  Definition constrained_K (nu nx : nat) (free : list nat) (Hf : mat T) (Qux_reg : mat T) : mat T :=
    let rhs := mkmat (length free) nx (map (fun i => mrow Qux_reg i) free) in
    let K_free := mscale (nopp none) (llt_solve_mat LL Hf rhs) in
    mbuild nu nx (fun i j => match find_idx i free with
                             | Some p => mget K_free p j
                             | None => nzero end).

  (** DDPSolver.hpp:448-517: gains; [None] means the backward pass returns false. *)
  Definition gains (fuel : nat) (i : nat) (t : T) (d : deriv) (q : qterms) : M ddp (option (vec T * mat T)) :=
    let nx := pb_nx pb in
    let nu := mcols (dFu d) in
    if Nat.ltb 0 nu then
      if cf_constraint cf then
        s <- get ;;
        (* 452-467 *)
        initial_k <- (if Nat.eqb (i + 1) N_ then ret (vzero nu)
                      else k1 <- must (nth_error (s_k s) (i + 1)) ;;
                           ret (if Nat.eqb (length k1) nu then k1 else vzero nu)) ;;
        (* 469-472: BoxQP constructed with the default configuration *)
        n <- qp_ctor None (Z.of_nat (mcols (qQuu_F q))) ;;
        lim <- match limits with Some f => ret (f t) | None => throw BadFunctionCall end ;;
        u <- must (nth_error (cd_u (s_cd s)) i) ;;
        guard (vdimb (length u) (fst lim) && vdimb (length u) (snd lim)) ;;;
        out <- qp_solve LL qp_default_config n (qQuu_F q) (qQu q)
                 (vsub (fst lim) u) (vsub (snd lim) u) fuel fuel None initial_k ;;
        (* 473-480 *)
        if (qo_retval out <? 0)%Z then
          (* print_level >= 1 evaluates retstr_.at(retval_) *)
          (if (1 <=? cf_print_level cf)%Z && negb (existsb (Z.eqb (qo_retval out)) qp_retstr_keys)
           then throw OutOfRange else ret None)
        else
        (* 482-496 *)
        if Nat.ltb 0 (length (qo_free out)) then
          Hf <- must (qo_llt out) ;;
          guard (Nat.eqb (mrows Hf) (length (qo_free out)) && forallb (fun j => Nat.ltb j nu) (qo_free out)) ;;;
          ret (Some (qo_x out, constrained_K nu nx (qo_free out) Hf (qQux_reg q)))
        else ret (Some (qo_x out, mzero nu nx))
      else
        (* 500-510 *)
        if llt_issue LL (qQuu_F q) then ret None
        else ret (Some (vscale (nopp none) (llt_solve LL (qQuu_F q) (qQu q)),
                        mscale (nopp none) (llt_solve_mat LL (qQuu_F q) (qQux_reg q))))
    else ret (Some ([], mzero 0 nx)).    (* 515-516 *)

  (** DDPSolver.hpp:522-526: cost-to-go update. *)
  Definition v_update (q : qterms) (k : vec T) (K : mat T) : vec T * mat T :=
    let KT := mtr K in
    let Vx := vadd (vadd (vadd (qQx q) (mvmul (mmul KT (qQuu q)) k)) (mvmul KT (qQu q)))
                   (mvmul (mtr (qQux q)) k) in
    let Vxx := madd (madd (madd (qQxx q) (mmul (mmul KT (qQuu q)) K)) (mmul KT (qQux q)))
                    (mmul (mtr (qQux q)) K) in
    (Vx, mscale nhalf (madd Vxx (mtr Vxx))).

  (** DDPSolver.hpp:367-531: one step of the loop; [None] means return false. *)
  Definition bw_step (fuel : nat) (i : nat) (Vx : vec T) (Vxx : mat T) : M ddp (option (vec T * mat T)) :=
    s <- get ;;
    d <- must (nth_error (s_deriv s) i) ;;
    let t := tm (s_t s) i in
    guard (deriv_dims d Vx Vxx) ;;;
    (* 391-395 *)
    if cf_second cf then throw RuntimeError
    else
    let q := q_of d Vx Vxx (s_lambda s) in
    r <- gains fuel i t d q ;;
    match r with
    | None => ret None
    | Some (k, K) =>
      guard (vdimb (mcols (dFu d)) k && mdimb (mcols (dFu d)) (pb_nx pb) K) ;;;
      s <- get ;;
      (* 522-526 *)
      let '(Vx', Vxx') := v_update q k K in
      (* 529-530 *)
      ks <- must (upd (s_k s) i k) ;;
      Ks <- must (upd (s_K s) i K) ;;
      put (set_gains ks Ks (set_dV (s_dV0 s + dot k (qQu q))
                                   (s_dV1 s + nhalf * dot k (mvmul (qQuu q) k)) s)) ;;;
      ret (Some (Vx', Vxx'))
    end.

  Fixpoint bw_loop (fuel : nat) (n : nat) (Vx : vec T) (Vxx : mat T) : M ddp bool :=
    match n with
    | O => ret true
    | Datatypes.S i =>
      r <- bw_step fuel i Vx Vxx ;;
      match r with
      | None => ret false
      | Some (Vx', Vxx') => bw_loop fuel i Vx' Vxx'
      end
    end.

  (** DDPSolver.hpp:342-534 backwardPass. *)
  Definition backwardPass (fuel : nat) : M ddp bool :=
    s <- get ;;
    put (set_dV nzero nzero s) ;;;
    bw_loop fuel N_ (s_Vx s) (s_Vxx s).

  (** DDPSolver.hpp:542-556 body. *)
  Definition fw_body (alpha : T) (i : nat) : M ddp unit :=
    s <- get ;;
    u <- must (nth_error (cd_u (s_cd s)) i) ;;
    k <- must (nth_error (s_k s) i) ;;
    K <- must (nth_error (s_K s) i) ;;
    xc <- must (nth_error (cd_x (s_cand s)) i) ;;
    x <- must (nth_error (cd_x (s_cd s)) i) ;;
    guard (vdimb (length u) k && mdimb (length u) (length x) K && vdimb (length x) xc) ;;;
    let uc := vadd (vadd u (vscale alpha k)) (mvmul K (vsub xc x)) in
    c1 <- must (cd_setu i uc (s_cand s)) ;;
    let t := tm (s_t s) i in
    c2 <- must (cd_setx (i + 1) (pb_stateEq pb t xc uc) c1) ;;
    c3 <- must (cd_setc i (pb_runningCost pb t xc uc) c2) ;;
    put (set_cand c3 s).

  (** DDPSolver.hpp:536-560 forwardPass. *)
  Definition forwardPass (alpha : T) : M ddp unit :=
    s <- get ;;
    x0 <- must (nth_error (cd_x (s_cd s)) 0) ;;
    c <- must (cd_setx 0 x0 (s_cand s)) ;;
    put (set_cand c s) ;;;
    for_up N_ (fw_body alpha) ;;;
    s <- get ;;
    xN <- must (nth_error (cd_x (s_cand s)) N_) ;;
    c <- must (cd_setc N_ (pb_terminalCost pb (tm (s_t s) N_) xN) (s_cand s)) ;;
    put (set_cand c s).

  (** DDPSolver.hpp:193-195 and 317-319. *)
  Definition inc_lambda (s : ddp) : ddp :=
    let dl := nmax (s_dlambda s * cf_lambda_factor cf) (cf_lambda_factor cf) in
    set_lambda (nmax (s_lambda s * dl) (cf_lambda_min cf)) dl s.
  (** DDPSolver.hpp:300-309. *)
  Definition dec_lambda (s : ddp) : ddp :=
    let dl := nmin (s_dlambda s / cf_lambda_factor cf) (nofZ 1 / cf_lambda_factor cf) in
    set_lambda (if s_lambda s >=? cf_lambda_min cf then s_lambda s * dl else nzero) dl s.

  (** DDPSolver.hpp:191-209: while(!backwardPass()). Returns false for "return -1". *)
  Fixpoint bw_retry (fuel qfuel : nat) : M ddp bool :=
    match fuel with
    | O => fun _ => OutOfFuel
    | Datatypes.S fuel' =>
      b <- backwardPass qfuel ;;
      if (b : bool) then ret true
      else modify inc_lambda ;;;
           s <- get ;;
           if s_lambda s >? cf_lambda_max cf then ret false
           else bw_retry fuel' qfuel
    end.

  (** DDPSolver.hpp:217-221. *)
  Fixpoint k_rel_norm_from (i n : nat) (acc : T) (s : ddp) : option T :=
    match n with
    | O => Some acc
    | Datatypes.S n' =>
      match nth_error (s_k s) i, nth_error (cd_u (s_cd s)) i with
      | Some k, Some u => k_rel_norm_from (i + 1) n' (nmax acc (vnorm k / (vnorm u + nofZ 1))) s
      | _, _ => None
      end
    end.

  (** Result of the line search: (success, alpha, actual, expected, ratio). *)
  Definition lsres : Type := bool * T * T * T * T.

  (** DDPSolver.hpp:242-265. *)
  Fixpoint line_search (alphas : list T) (alpha actual expected ratio : T) : M ddp lsres :=
    match alphas with
    | [] => ret (false, alpha, actual, expected, ratio)
    | a :: rest =>
      forwardPass a ;;;
      s <- get ;;
      let actual := nsum (cd_cost (s_cd s)) - nsum (cd_cost (s_cand s)) in
      let expected := (nopp none * a) * (s_dV0 s + a * s_dV1 s) in
      let ratio := if expected <? nzero then (if actual >=? nzero then nofZ 1 else nofZ (-1))
                   else actual / expected in
      if ratio >? cf_cost_update_ratio_thre cf then ret (true, a, actual, expected, ratio)
      else line_search rest a actual expected ratio
    end.

  Definition tr_set_krel v (x : trace) := {| tr_iter := tr_iter x; tr_cost := tr_cost x;
    tr_lambda := tr_lambda x; tr_dlambda := tr_dlambda x; tr_alpha := tr_alpha x; tr_k_rel_norm := v;
    tr_actual := tr_actual x; tr_expected := tr_expected x; tr_ratio := tr_ratio x |}.
  Definition tr_set_ls a b c d (x : trace) := {| tr_iter := tr_iter x; tr_cost := tr_cost x;
    tr_lambda := tr_lambda x; tr_dlambda := tr_dlambda x; tr_alpha := a; tr_k_rel_norm := tr_k_rel_norm x;
    tr_actual := b; tr_expected := c; tr_ratio := d |}.
  Definition tr_set_end a b c (x : trace) := {| tr_iter := tr_iter x; tr_cost := a;
    tr_lambda := b; tr_dlambda := c; tr_alpha := tr_alpha x; tr_k_rel_norm := tr_k_rel_norm x;
    tr_actual := tr_actual x; tr_expected := tr_expected x; tr_ratio := tr_ratio x |}.

  (** DDPSolver.hpp:282-333 Step 4: accept the candidate or not; returns retval. *)
  Definition accept (success : bool) (actual : T) : M ddp Z :=
    if success then
      s <- get ;;
      put (set_cd (s_cand s) s) ;;;
      let retval := if actual <? cf_cost_update_thre cf then 1%Z else 0%Z in
      modify dec_lambda ;;;
      ret retval
    else
      modify inc_lambda ;;;
      s <- get ;;
      ret (if s_lambda s >? cf_lambda_max cf then (-1)%Z else 0%Z).

  (** DDPSolver.hpp:143-340 procOnce. *)
  Definition procOnce (fuel qfuel : nat) (iter : Z) : M ddp Z :=
    (* 151-154 *)
    modify (fun s => set_trace (s_trace s ++ [trace0 iter]) s) ;;;
    (* 156-180 *)
    for_up N_ deriv_body ;;;
    s <- get ;;
    xN <- must (nth_error (cd_x (s_cd s)) N_) ;;
    let '(Vx, Vxx) := pb_terminalCostDeriv pb (tm (s_t s) N_) xN (s_Vx s, s_Vxx s) in
    put (set_lastV Vx Vxx s) ;;;
    (* 187-214 *)
    b <- bw_retry fuel qfuel ;;
    if negb b then ret (-1)%Z else
    (* 216-231 *)
    s <- get ;;
    krn <- must (k_rel_norm_from 0 N_ nzero s) ;;
    put (set_trace (upd_last (tr_set_krel krn) (s_trace s)) s) ;;;
    if (krn <? cf_k_rel_norm_thre cf) && (s_lambda s <? cf_lambda_thre cf) then ret 1%Z else
    (* 233-274 *)
    '(success, alpha, actual, expected, ratio) <- line_search (cf_alpha_list cf) nzero nzero nzero nzero ;;
    modify (fun s => set_trace (upd_last (tr_set_ls alpha actual expected ratio) (s_trace s)) s) ;;;
    (* 280-333 *)
    retval <- accept success actual ;;
    (* 335-339 *)
    modify (fun s => set_trace (upd_last (tr_set_end (nsum (cd_cost (s_cd s))) (s_lambda s) (s_dlambda s))
                                         (s_trace s)) s) ;;;
    ret retval.

  (** DDPSolver.hpp:116-123: for(iter = 1; iter <= max_iter; iter++). [n] is the number of iterations left. *)
  Fixpoint opt_loop (fuel qfuel : nat) (n : nat) (iter : Z) : M ddp Z :=
    match n with
    | O => ret 0%Z
    | Datatypes.S n' =>
      r <- procOnce fuel qfuel iter ;;
      if (r =? 0)%Z then opt_loop fuel qfuel n' (iter + 1) else ret r
    end.

  (** DDPSolver.hpp:46-58: dynamic input dimensions. *)
  Fixpoint check_u_from (i : nat) (t0 : T) (us : list (vec T)) : bool :=
    match us with
    | [] => true
    | u :: r => (Z.of_nat (length u) =? pb_inputDim pb (tm t0 i))%Z && check_u_from (i + 1) t0 r
    end.

  (** DDPSolver.hpp:60-80: resize the work lists. *)
  Definition resize_lists (s : ddp) : ddp :=
    let n := N_ in
    let cand := {| cd_x := resize (n + 1) (jk_x jk) (cd_x (s_cand s));
                   cd_u := resize n (jk_u jk) (cd_u (s_cand s));
                   cd_cost := cost_resize (n + 1) (cd_cost (s_cand s)) |} in
    let ds := match pb_fixed_nu pb with
              | None => map (fun i => jk_deriv jk (pb_nx pb) (Z.to_nat (pb_inputDim pb (tm (s_t s) i)))) (seq 0 n)
              | Some nu => resize n (jk_deriv jk (pb_nx pb) nu) (s_deriv s)
              end in
    set_gains (resize n (jk_k jk) (s_k s)) (resize n (jk_K jk) (s_K s))
      (set_deriv ds (set_cand cand s)).

  (** DDPSolver.hpp:26-141 solve. *)
  Definition ddp_solve (fuel qfuel : nat) (current_t : T) (current_x : vec T) (initial_u : list (vec T)) : M ddp bool :=
    (* 36-38 *)
    modify (fun s => set_lambda (cf_initial_lambda cf) (cf_initial_dlambda cf) (set_t current_t s)) ;;;
    (* 41-45: static_cast<int>(size()) is exact for lists shorter than 2^31 *)
    if negb (Z.of_nat (length initial_u) =? cf_horizon cf)%Z then throw InvalidArgument else
    (* 46-58 *)
    if match pb_fixed_nu pb with None => negb (check_u_from 0 current_t initial_u) | Some _ => false end
    then throw RuntimeError else
    (* 60-80 *)
    modify resize_lists ;;;
    (* 83-92 *)
    s <- get ;;
    c <- must (cd_setx 0 current_x
                 {| cd_x := resize (N_ + 1) (jk_x jk) (cd_x (s_cd s)); cd_u := initial_u;
                    cd_cost := cost_resize (N_ + 1) (cd_cost (s_cd s)) |}) ;;
    put (set_cd c s) ;;;
    for_up N_ rollout_body ;;;
    (* 93-95 *)
    s <- get ;;
    xN <- must (nth_error (cd_x (s_cd s)) N_) ;;
    c <- must (cd_setc N_ (pb_terminalCost pb (tm (s_t s) N_) xN) (s_cd s)) ;;
    put (set_cd c s) ;;;
    (* 97-104 *)
    modify (fun s => set_trace [ {| tr_iter := 0; tr_cost := nsum (cd_cost (s_cd s));
                                    tr_lambda := s_lambda s; tr_dlambda := s_dlambda s; tr_alpha := nzero;
                                    tr_k_rel_norm := nzero; tr_actual := nzero; tr_expected := nzero;
                                    tr_ratio := nzero |} ] s) ;;;
    (* 114-140 *)
    retval <- opt_loop fuel qfuel (Z.to_nat (cf_max_iter cf)) 1 ;;
    ret (retval =? 1)%Z.

End DDP.

Arguments deriv T : clear implicits.
Arguments problem T : clear implicits.
Arguments config T : clear implicits.
Arguments cdata T : clear implicits.
Arguments trace T : clear implicits.
Arguments ddp T : clear implicits.
Arguments junk T : clear implicits.
