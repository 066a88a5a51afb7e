(** The program nmpc_cgmres/tests/src/TestGmres.cpp. *)
From Verif Require Import Prelude Scalar LinAlg Gmres.

Section GmresTest.
  Context {T : Type} {N : Num T}.
  Local Open Scope num_scope.
  Local Open Scope monad_scope.
  Variable lsq : mat T -> vec T -> vec T.       (* householderQr().solve *)

  (** Gmres.h:46, 71: the default eps = 1e-10, used by TestGmres.cpp:31. *)
  Definition default_eps : T := nlit 1 10000000000.
  (** TestGmres.cpp:34-37: members of GmresLinearSolver. *)
  Record gm_solver := { gv_kmax : Z; gv_cfg : gm_config }.
  (** TestGmres.cpp:79-81, 84 with 22-32, 88: the error of one trial. A new Gmres object is made for every call. *)
  Definition trial_err {S} (sv : gm_solver) (p : mat T * vec T) : M S T :=
    let '(A, b) := p in
    out <- gm_solve_mat (gv_cfg sv) lsq A b (vzero (length b)) (gv_kmax sv) default_eps ;;
    ret (vnorm (vsub (mvmul A (go_x out)) b)).
  (** TestGmres.cpp:77-89: the loop; [err] is the sum so far. *)
  Fixpoint eval_loop {S} (sv : gm_solver) (ps : list (mat T * vec T)) (err : T) : M S T :=
    match ps with
    | [] => ret err
    | p :: ps' => e <- trial_err sv p ;; eval_loop sv ps' (err + e)
    end.
  (** TestGmres.cpp:69-96 eval; A_list and b_list are one list of pairs, times are left out. *)
  Definition eval {S} (sv : gm_solver) (ps : list (mat T * vec T)) : M S T :=
    err <- eval_loop sv ps nzero ;; ret (err / nofnat (length ps)).
  (** TestGmres.cpp:117-142: the EXPECT_LT of one equation size, in their order. *)
  Definition gm_checks {S} (eq_size : nat) (ps : list (mat T * vec T)) : M S (list bool) :=
    e1 <- eval {| gv_kmax := 1000; gv_cfg := {| gm_tri := true; gm_reorth := true |} |} ps ;;
    c2 <- (if Nat.leb eq_size 100
           then e2 <- eval {| gv_kmax := 1000; gv_cfg := {| gm_tri := false; gm_reorth := true |} |} ps ;;
                ret [e2 <? nlit 1 10000000000]
           else ret []) ;;
    e3 <- eval {| gv_kmax := 1000; gv_cfg := {| gm_tri := true; gm_reorth := false |} |} ps ;;
    e4 <- eval {| gv_kmax := 20; gv_cfg := {| gm_tri := true; gm_reorth := true |} |} ps ;;
    ret ([e1 <? nlit 1 10000000000] ++ c2 ++ [e3 <? nlit 1 10000000000] ++ [e4 <? nofZ 100]).
End GmresTest.
