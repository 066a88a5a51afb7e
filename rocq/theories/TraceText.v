(** Text files written by the solvers: DDPSolver::dumpTraceDataList, FmpcSolver::dumpTraceDataList and the data and parameter files
    of CgmresSolver::run. [fmt] stands for operator<< of a double (default format); operator<< of an int is the decimal notation. *)
From Coq Require Import String Ascii DecimalString.
From Verif Require Import Prelude Scalar LinAlg DDP Fmpc Cgmres.
Local Open Scope string_scope.

Definition nl : string := String "010" "".
(** operator<< (int). *)
Definition show_int (z : Z) : string := NilZero.string_of_int (Z.to_int z).

Section Dump.
  Context {T : Type} (fmt : T -> string).

  (** DDPSolver.h:179-216: the fields of TraceData that the solver model leaves out. *)
  Record durations := { du_deriv : T; du_back : T; du_fwd : T }.

  (** DDPSolver.hpp:563-598. The header is written in twelve pieces, the last one without a space. *)
  Definition ddp_header : string :=
    "iter " ++ "cost " ++ "lambda " ++ "dlambda " ++ "alpha " ++ "k_rel_norm " ++ "cost_update_actual " ++ "cost_update_expected " ++
    "cost_update_ratio " ++ "duration_derivative " ++ "duration_backward " ++ "duration_forward" ++ nl.
  Definition ddp_row (e : trace T * durations) : string :=
    let '(t, d) := e in
    show_int (tr_iter t) ++ " " ++ fmt (tr_cost t) ++ " " ++ fmt (tr_lambda t) ++ " " ++ fmt (tr_dlambda t) ++ " " ++ fmt (tr_alpha t) ++ " " ++
    fmt (tr_k_rel_norm t) ++ " " ++ fmt (tr_actual t) ++ " " ++ fmt (tr_expected t) ++ " " ++ fmt (tr_ratio t) ++ " " ++
    fmt (du_deriv d) ++ " " ++ fmt (du_back d) ++ " " ++ fmt (du_fwd d) ++ nl.
  Fixpoint texts {A} (row : A -> string) (l : list A) : string :=
    match l with [] => "" | a :: r => row a ++ texts row r end.
  Definition ddp_dump (l : list (trace T * durations)) : string := ddp_header ++ texts ddp_row l.

  (** FmpcSolver.hpp:260-283; the durations are coeff, backward, forward, update. *)
  Definition fmpc_header : string :=
    "iter " ++ "kkt_error " ++ "duration_coeff " ++ "duration_backward " ++ "duration_forward " ++ "duration_update" ++ nl.
  Definition fmpc_row (e : (Z * T) * (T * T * T * T)) : string :=
    let '((i, k), (((a, b), c), d)) := e in
    show_int i ++ " " ++ fmt k ++ " " ++ fmt a ++ " " ++ fmt b ++ " " ++ fmt c ++ " " ++ fmt d ++ nl.
  Definition fmpc_dump (l : list ((Z * T) * (T * T * T * T))) : string := fmpc_header ++ texts fmpc_row l.

  (** CgmresProblem.h:67, CgmresSolver.h:108: IOFormat(StreamPrecision, 0, ", ", ", ", "", "", "", ""). With flags 0 Eigen aligns
      columns: every coefficient is padded on the left to the width of the longest; a column vector is one coefficient per row, rows
      separated by ", ". *)
  Fixpoint spaces (n : nat) : string := match n with O => "" | Datatypes.S m => String " " (spaces m) end.
  Definition pad (w : nat) (s : string) : string := spaces (w - String.length s) ++ s.
  Definition width (l : list string) : nat := fold_right (fun s m => Nat.max (String.length s) m) 0 l.
  Fixpoint commas (l : list string) : string :=
    match l with [] => "" | [a] => a | a :: r => a ++ ", " ++ commas r end.
  Definition show_vec (v : vec T) : string := let l := map fmt v in commas (map (pad (width l)) l).
  (** CgmresSolver.cpp:99-101. *)
  Definition cg_x_row (r : cg_row T) : string := fmt (cr_t r) ++ ", " ++ show_vec (cr_x r) ++ nl.
  Definition cg_u_row (r : cg_row T) : string := fmt (cr_t r) ++ ", " ++ show_vec (cr_u r) ++ nl.
  Definition cg_err_row (r : cg_row T) : string := fmt (cr_t r) ++ ", " ++ fmt (cr_err r) ++ nl.
  Definition cg_x_file (l : list (cg_row T)) : string := texts cg_x_row l.
  Definition cg_u_file (l : list (cg_row T)) : string := texts cg_u_row l.
  Definition cg_err_file (l : list (cg_row T)) : string := texts cg_err_row l.
  (** CgmresSolver.cpp:71-77 with CgmresProblem.h:51-54 (dumpData, not overridden by the problems of the package). *)
  Definition dq : string := String """" "".
  Definition cg_param_file (log_dt : T) (param : vec T) : string :=
    "{" ++ nl ++ dq ++ "log_dt" ++ dq ++ ": " ++ fmt log_dt ++ "," ++ nl ++
    dq ++ "state_eq_param" ++ dq ++ ": [" ++ show_vec param ++ "]," ++ nl ++ "}" ++ nl.
End Dump.
Arguments durations T : clear implicits.
