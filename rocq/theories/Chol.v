(** Executable Cholesky factorisation standing for Eigen::LLT (not in /repo; used by
    DDPSolver.hpp:500-510, 491 and BoxQP.h:229-237, 274).
    Eigen's unblocked algorithm: only the lower triangle is read; pivot
    x = a_kk - |A10|^2; NumericalIssue exactly when x <= 0 (a NaN pivot passes); column (A21 - A20 A10')/sqrt x.
    Here the same entries are produced row by row; for large matrices Eigen uses a blocked variant with
    the same exact-arithmetic result. *)
From Verif Require Import Prelude Scalar LinAlg.

Section Chol.
  Context {T : Type} {N : Num T}.
  Local Open Scope num_scope.

  Definition lget (L : list (list T)) (i j : nat) : T := nth j (nth i L []) nzero.

  (** Entries L_i0 .. L_i(k-1) of row i, from the rows already computed. *)
  Fixpoint chol_off (A : mat T) (L : list (list T)) (i k : nat) : list T :=
    match k with
    | O => []
    | S k' =>
      let r := chol_off A L i k' in
      r ++ [ (mget A i k' - nsum (vbuild k' (fun j => vget r j * lget L k' j))) / lget L k' k' ]
    end.

  (** First [n] rows of the factor; [None] is NumericalIssue. *)
  Fixpoint chol_rows (A : mat T) (n : nat) : option (list (list T)) :=
    match n with
    | O => Some []
    | S i =>
      match chol_rows A i with
      | None => None
      | Some L =>
        let r := chol_off A L i i in
        let p := mget A i i - nsum (vbuild i (fun j => vget r j * vget r j)) in
        if p <=? nzero then None else Some (L ++ [ r ++ [nsqrt p] ])
      end
    end.

  (** Solve L y = b: first [i] entries. *)
  Fixpoint fsub (L : list (list T)) (b : nat -> T) (i : nat) : list T :=
    match i with
    | O => []
    | S i' =>
      let y := fsub L b i' in
      y ++ [ (b i' - nsum (vbuild i' (fun j => lget L i' j * vget y j))) / lget L i' i' ]
    end.

  (** Solve L' x = y: last [m] of [n] entries. *)
  Fixpoint bsub (L : list (list T)) (y : vec T) (n m : nat) : list T :=
    match m with
    | O => []
    | S m' =>
      let x := bsub L y n m' in
      let i := (n - S m')%nat in
      (vget y i - nsum (vbuild m' (fun j => lget L (i + 1 + j) i * vget x j))) / lget L i i :: x
    end.

  Definition chol_solve (A : mat T) (b : nat -> T) : vec T :=
    match chol_rows A (mrows A) with
    | Some L => bsub L (fsub L b (mrows A)) (mrows A) (mrows A)
    | None => vzero (mrows A)     (* never used: callers test info() first *)
    end.

  Definition chol_llt : lltops T := {|
    llt_issue := fun A => match chol_rows A (mrows A) with Some _ => false | None => true end;
    llt_solve := fun A b => chol_solve A (vget b);
    llt_solve_mat := fun A B =>
      let cols := map (fun j => chol_solve A (fun i => mget B i j)) (seq 0 (mcols B)) in
      mbuild (mrows A) (mcols B) (fun i j => vget (nth j cols []) i)
  |}.
End Chol.
