(** Model of /repo/nmpc_cgmres/include/nmpc_cgmres/Gmres.h. *)
From Verif Require Import Prelude Scalar LinAlg.

Section Gmres.
  Context {T : Type} {N : Num T}.
  Local Open Scope num_scope.
  Local Open Scope monad_scope.

  (** Element assignment of Eigen vectors and matrices (callers guard the indices). *)
  Definition vset (v : vec T) (i : nat) (a : T) : vec T :=
    vbuild (length v) (fun l => if Nat.eqb l i then a else vget v l).
  Definition mset (A : mat T) (i j : nat) (a : T) : mat T :=
    mbuild (mrows A) (mcols A) (fun k l => if Nat.eqb k i && Nat.eqb l j then a else mget A k l).
  (** MatrixBase::normalized(): unchanged unless the squared norm is positive. *)
  Definition normalized (v : vec T) : vec T :=
    let z := sqnorm v in if z >? nzero then vbuild (length v) (fun i => vget v i / nsqrt z) else v.
  (** Vectors of a std::vector that the loops index below its size. *)
  Definition bget (bs : list (vec T)) (j : nat) : vec T := nth j bs [].

  (** Gmres.h:195-196 make_triangular_, apply_reorth_. *)
  Record gm_config := { gm_tri : bool; gm_reorth : bool }.
  (** x and the members H_, g_, err_list_, basis_ (198-203) after solve. *)
  Record gm_out := { go_x : vec T; go_H : mat T; go_g : vec T; go_err : list T; go_basis : list (vec T) }.
  (** Locals and members live in the main loop. *)
  Record gm_st := { gs_k : nat; gs_H : mat T; gs_g : vec T; gs_basis : list (vec T);
                    gs_c : vec T; gs_s : vec T; gs_rho : T; gs_y : vec T; gs_err : list T }.

  (** [lsq A b] stands for A.householderQr().solve(b) (Eigen, not in /repo). *)
  Variables (cfg : gm_config) (lsq : mat T -> vec T -> vec T) (Amul : vec T -> vec T).

  (** Gmres.h:104-110: one step of the Gram-Schmidt loop of iteration [k]. *)
  Definition gs_step (k : nat) (bs : list (vec T)) (p : mat T * vec T) (j : nat) : mat T * vec T :=
    let '(H, nb) := p in
    let h := dot nb (bget bs j) in
    (mset H j (k - 1) h, vsub nb (vscale h (bget bs j))).
  (** Gmres.h:123-128: one step of the reorthogonalisation loop. *)
  Definition re_step (k : nat) (bs : list (vec T)) (p : mat T * vec T) (j : nat) : mat T * vec T :=
    let '(H, nb) := p in
    let h := dot nb (bget bs j) in
    (mset H j (k - 1) (mget H j (k - 1) + h), vsub nb (vscale h (bget bs j))).
  (** Gmres.h:139-147: apply the rotation [i] to column k - 1. *)
  Definition rot_step (k : nat) (cl sl : vec T) (H : mat T) (i : nat) : mat T :=
    let h0 := mget H i (k - 1) in
    let h1 := mget H (i + 1) (k - 1) in
    let c := vget cl i in
    let s := vget sl i in
    mset (mset H i (k - 1) (c * h0 - s * h1)) (i + 1) (k - 1) (s * h0 + c * h1).

  (** H_.topLeftCorner(r, c), g_.head(n). *)
  Definition corner (r c : nat) (A : mat T) : mat T := mbuild r c (mget A).
  Definition head (n : nat) (v : vec T) : vec T := vbuild n (vget v).

  (** triangularView<Upper>().solve: the last [m] of [n] entries of the back substitution. *)
  Fixpoint usolve (A : mat T) (b : vec T) (n m : nat) : vec T :=
    match m with
    | O => []
    | Datatypes.S m' =>
      let x := usolve A b n m' in
      let i := (n - m)%nat in
      (vget b i - nsum (vbuild m' (fun l => mget A i (i + 1 + l) * vget x l))) / mget A i i :: x
    end.

  (** Gmres.h:96-178: body of the while loop. *)
  Definition gm_iter {S} (n : nat) (st : gm_st) : M S gm_st :=
    let k := Nat.add (gs_k st) 1 in
    let bs := gs_basis st in
    (* the accesses basis_[j], c_list[i], s_list[i], H_(k, k - 1), g_(k) below *)
    guard (Nat.eqb (length bs) k && Nat.ltb k (mrows (gs_H st)) && Nat.leb k (mcols (gs_H st)) && Nat.ltb k (length (gs_g st))
           && (negb (gm_tri cfg) || (Nat.eqb (length (gs_c st)) (k - 1) && Nat.eqb (length (gs_s st)) (k - 1)))) ;;;
    (* 102-103 *)
    let Avk := Amul (bget bs (k - 1)) in
    guard (vdimb n Avk) ;;;
    let '(H1, nb1) := fold_left (gs_step k bs) (seq 0 k) (gs_H st, Avk) in
    (* 113-114 *)
    let nbn := vnorm nb1 in
    let H2 := mset H1 k (k - 1) nbn in
    (* 117-130: literal 1e-3 *)
    let '(H3, nb3) :=
      if gm_reorth cfg && ((vnorm Avk + nlit 1 1000 * nbn) =? vnorm Avk)
      then fold_left (re_step k bs) (seq 0 k) (H2, nb1) else (H2, nb1) in
    (* 133 *)
    let bs' := bs ++ [normalized nb3] in
    if gm_tri cfg then
      (* 139-147 *)
      let H4 := fold_left (rot_step k (gs_c st) (gs_s st)) (seq 0 (k - 1)) H3 in
      (* 150-158: std::pow(y, 2) is y * y *)
      let a := mget H4 (k - 1) (k - 1) in
      let b := mget H4 k (k - 1) in
      let nu := nsqrt (a * a + b * b) in
      let ck := a / nu in
      let sk := nopp b / nu in
      let H5 := mset (mset H4 (k - 1) (k - 1) (ck * a - sk * b)) k (k - 1) nzero in
      (* 161-164 *)
      let g0 := vget (gs_g st) (k - 1) in
      let g1 := vget (gs_g st) k in
      let g' := vset (vset (gs_g st) (k - 1) (ck * g0 - sk * g1)) k (sk * g0 + ck * g1) in
      (* 167, 178 *)
      let rho := nabs (vget g' k) in
      ret {| gs_k := k; gs_H := H5; gs_g := g'; gs_basis := bs'; gs_c := gs_c st ++ [ck]; gs_s := gs_s st ++ [sk];
             gs_rho := rho; gs_y := gs_y st; gs_err := gs_err st ++ [rho] |}
    else
      (* 172-178 *)
      let Hk := corner (k + 1) k H3 in
      let gk := head (k + 1) (gs_g st) in
      let y := lsq Hk gk in
      guard (vdimb k y) ;;;
      let rho := vnorm (vsub gk (mvmul Hk y)) in
      ret {| gs_k := k; gs_H := H3; gs_g := gs_g st; gs_basis := bs'; gs_c := gs_c st; gs_s := gs_s st;
             gs_rho := rho; gs_y := y; gs_err := gs_err st ++ [rho] |}.

  (** Gmres.h:94 while(rho > eps * b_norm && k < k_max). [m] is k_max - k. *)
  Fixpoint gm_loop {S} (n : nat) (tol : T) (m : nat) (st : gm_st) : M S gm_st :=
    match m with
    | O => ret st
    | Datatypes.S m' =>
      if gs_rho st >? tol then st' <- gm_iter n st ;; gm_loop n tol m' st' else ret st
    end.

  (** Gmres.h:188-191: x += y_k(i) * basis_[i]. *)
  Definition x_step (y : vec T) (bs : list (vec T)) (x : vec T) (i : nat) : vec T :=
    vadd x (vscale (vget y i) (bget bs i)).

  (** Gmres.h:67-192 solve. setZero of a negative size and b - A x of different sizes are undefined. *)
  Definition gm_solve {S} (b x : vec T) (k_max : Z) (eps : T) : M S gm_out :=
    (* 73 *)
    let k_max := Z.min k_max (Z.of_nat (length x)) in
    guard (0 <=? k_max)%Z ;;;
    let km := Z.to_nat k_max in
    let n := length b in
    (* 79-81 *)
    let Ax := Amul x in
    guard (vdimb n Ax) ;;;
    let r := vsub b Ax in
    let rho := vnorm r in
    (* 80-88, 91-179 *)
    st <- gm_loop n (eps * vnorm b) km
            {| gs_k := 0; gs_H := mzero (km + 1) km; gs_g := vset (vzero (km + 1)) 0 rho; gs_basis := [normalized r];
               gs_c := []; gs_s := []; gs_rho := rho; gs_y := []; gs_err := [rho] |} ;;
    let k := gs_k st in
    (* 181-185 *)
    let y := if gm_tri cfg then usolve (corner k k (gs_H st)) (head k (gs_g st)) k k else gs_y st in
    guard (Nat.eqb k 0 || vdimb n x) ;;;
    (* 188-191 *)
    ret {| go_x := fold_left (x_step y (gs_basis st)) (seq 0 k) x; go_H := gs_H st; go_g := gs_g st;
           go_err := gs_err st; go_basis := gs_basis st |}.

End Gmres.
(** Gmres.h:42-51: the overload taking a matrix. *)
Definition gm_solve_mat {T} {N : Num T} {S} cfg lsq (A : mat T) (b x : vec T) (k_max : Z) (eps : T) : M S gm_out :=
  bind (guard (Nat.eqb (mrows A) (length b) && Nat.eqb (mcols A) (length x))) (fun _ =>
  gm_solve cfg lsq (mvmul A) b x k_max eps).
Arguments gm_out T : clear implicits.
Arguments gm_st T : clear implicits.
