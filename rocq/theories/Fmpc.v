(** Model of /repo/nmpc_fmpc/include/nmpc_fmpc: MathUtils.h, FmpcProblem.h, FmpcSolver.h and FmpcSolver.hpp. *)
From Verif Require Import Prelude Scalar LinAlg DDP.

(** ** Computations that may be undefined: [None] stands for an index out of range or a failed Eigen assertion. *)
Declare Scope opt_scope.
Delimit Scope opt_scope with opt.
Notation "x <~ o ;; k" := (match o with Some x => k | None => None end)
  (at level 61, o at next level, right associativity) : opt_scope.
Notation "' p <~ o ;; k" := (match o with Some p => k | None => None end)
  (at level 61, p pattern, o at next level, right associativity) : opt_scope.
Notation "b &> k" := (if (b : bool) then k else None) (at level 61, right associativity) : opt_scope.
(** The values of a loop body for i = 0 .. n - 1 whose passes do not depend on each other. *)
Fixpoint tabo {A} (n : nat) (f : nat -> option A) : option (list A) :=
  match n with
  | O => Some []
  | S n' => match tabo n' f, f n' with Some l, Some a => Some (l ++ [a]) | _, _ => None end
  end.
(** A loop writing the first elements of an existing vector. *)
Definition overwrite {A} (new old : list A) : list A := new ++ skipn (length new) old.

Section Fmpc.
  Context {T : Type} {N : Num T}.
  Local Open Scope num_scope.

  (** Elementwise operations of Eigen arrays. *)
  Definition vmul (x y : vec T) : vec T := vbuild (length x) (fun i => vget x i * vget y i).
  Definition vdiv (x y : vec T) : vec T := vbuild (length x) (fun i => vget x i / vget y i).
  Definition vinv (x : vec T) : vec T := vbuild (length x) (fun i => none / vget x i).
  (** cwiseMax(c), array().max(c): (a < c) ? c : a *)
  Definition vmaxc (x : vec T) (c : T) : vec T := vbuild (length x) (fun i => nmax (vget x i) c).
  Definition vl1 (x : vec T) : T := nsum (map nabs x).      (* lpNorm<1>() *)
  Definition vnegb (x : vec T) : bool := existsb (fun a => a <? nzero) x.    (* (x.array() < 0).any() *)
  (** A * v.asDiagonal() *)
  Definition mcolscale (A : mat T) (v : vec T) : mat T := mbuild (mrows A) (mcols A) (fun i j => mget A i j * vget v j).
  (** cwiseAbs().maxCoeff(), asserted non-empty. *)
  Definition vmaxabs (x : vec T) : option T :=
    match x with [] => None | a :: r => Some (fold_left (fun m b => nmax m (nabs b)) r (nabs a)) end.

  (** MathUtils.h:16-38 l1NormDirectionalDeriv. *)
  Definition l1_deriv (func : vec T) (jac : mat T) (dir : vec T) : T :=
    fold_left (fun deriv i =>
      let d := dot (mrow jac i) dir in
      if vget func i >? nzero then deriv + d
      else if vget func i <? nzero then deriv + nofZ (-1) * d
      else deriv + nabs d) (seq 0 (length func)) nzero.
  (** With the sizes that its template parameters or Eigen's products enforce. *)
  Definition l1_deriv_chk (func : vec T) (jac : mat T) (dir : vec T) : option T :=
    if mdimb (length func) (length dir) jac then Some (l1_deriv func jac dir) else None.

  (** FmpcProblem.h: a DDPProblem with inequality constraints. [fp_fixed_ng] is [Some IneqDim] or [None] for Eigen::Dynamic.
      (With IneqDim = Eigen::Dynamic, Identity() of FmpcSolver.hpp:889 is refused by Eigen at compile time; the run-time checks
      written for that case are modelled all the same.) *)
  Record fproblem := {
    fp_dp : problem T;
    fp_fixed_ng : option nat;                                                      (* FmpcProblem.h:62 ineqDim() *)
    fp_ineqDim : T -> Z;                                                           (* FmpcProblem.h:75 ineqDim(t) *)
    fp_g : T -> vec T -> vec T -> vec T;                                           (* FmpcProblem.h:94 ineqConst *)
    fp_gDeriv : T -> vec T -> vec T -> mat T * mat T -> mat T * mat T              (* FmpcProblem.h:103 calcIneqConstDeriv *)
  }.

  (** FmpcSolver.h:57-89 Configuration. *)
  Record fconfig := {
    fc_print : Z; fc_hor : Z; fc_max_iter : Z; fc_kkt : T; fc_check_nan : bool; fc_init : bool; fc_update_eps : bool;
    fc_break : bool; fc_ls : bool; fc_lagr : bool
  }.
  (** The default values of the members, FmpcSolver.h:61-88. *)
  Definition fmpc_default_config : fconfig := {|
    fc_print := 1; fc_hor := 100; fc_max_iter := 10; fc_kkt := nlit 1 10000; fc_check_nan := true; fc_init := false; fc_update_eps := true;
    fc_break := false; fc_ls := false; fc_lagr := false |}.

  (** FmpcSolver.h:92-114 Status. *)
  Inductive fstatus := Uninitialized | Succeeded | ErrorInForward | ErrorInBackward | ErrorInUpdate | MaxIterationReached | IterationContinued.

  (** FmpcSolver.h:117-158 Variable; print_level is left out. *)
  Record var := { v_hor : Z; v_x : list (vec T); v_u : list (vec T); v_l : list (vec T); v_s : list (vec T); v_n : list (vec T) }.
  (** FmpcSolver.hpp:31-39 Variable(horizon_steps) for nonnegative horizon_steps (a negative one throws std::length_error).
      [jx], [ju], [jg] are the contents of new elements. *)
  Definition var_ctor (jx ju jg : vec T) (h : nat) : var :=
    {| v_hor := Z.of_nat h; v_x := repeat jx (h + 1); v_u := repeat ju h; v_l := repeat jx (h + 1); v_s := repeat jg h; v_n := repeat jg h |}.
  (** FmpcSolver.hpp:41-68 reset; setConstant keeps the size. *)
  Definition var_reset (x u l s n : T) (v : var) : var :=
    let k c := map (fun w : vec T => vconst (length w) c) in
    {| v_hor := v_hor v; v_x := k x (v_x v); v_u := k u (v_u v); v_l := k l (v_l v); v_s := k s (v_s v); v_n := k n (v_n v) |}.
  (** FmpcSolver.hpp:70-95 containsNaN; CHECK_NAN (10-18) is isNaN().any() || isInf().any(), the negation of allFinite(). *)
  Definition var_nan (v : var) : bool :=
    let bad := existsb (fun w : vec T => negb (vfinb w)) in
    bad (v_x v) || bad (v_u v) || bad (v_l v) || bad (v_s v) || bad (v_n v).

  (** FmpcSolver.h:161-229 Coefficient; print_level is left out. *)
  Record coeff := {
    c_A : mat T; c_B : mat T; c_C : mat T; c_D : mat T;
    c_Lx : vec T; c_Lu : vec T; c_Lxx : mat T; c_Luu : mat T; c_Lxu : mat T;
    c_xbar : vec T; c_gbar : vec T; c_Lxbar : vec T; c_Lubar : vec T;
    c_k : vec T; c_K : mat T; c_s : vec T; c_P : mat T
  }.
  (** FmpcSolver.hpp:133-155 containsNaN. *)
  Definition coeff_nan (c : coeff) : bool :=
    negb (mfinb (c_A c) && mfinb (c_B c) && mfinb (c_C c) && mfinb (c_D c) && vfinb (c_Lx c) && vfinb (c_Lu c) && mfinb (c_Lxx c)
          && mfinb (c_Luu c) && mfinb (c_Lxu c) && vfinb (c_xbar c) && vfinb (c_gbar c) && vfinb (c_Lxbar c) && vfinb (c_Lubar c)
          && vfinb (c_k c) && mfinb (c_K c) && vfinb (c_s c) && mfinb (c_P c)).

  (** FmpcSolver.h:390-423 members that change; durations are left out; a TraceData is (iter, kkt_error). *)
  Record fsolver := {
    f_t : T; f_x : vec T; f_var : var; f_delta : var; f_coeff : list coeff; f_trace : list (Z * T);
    f_eps : T; f_mscale : T; f_mfunc : T; f_mderiv : T
  }.
  Definition set_fvar v s := {| f_t := f_t s; f_x := f_x s; f_var := v; f_delta := f_delta s; f_coeff := f_coeff s; f_trace := f_trace s;
    f_eps := f_eps s; f_mscale := f_mscale s; f_mfunc := f_mfunc s; f_mderiv := f_mderiv s |}.
  Definition set_fdelta v s := {| f_t := f_t s; f_x := f_x s; f_var := f_var s; f_delta := v; f_coeff := f_coeff s; f_trace := f_trace s;
    f_eps := f_eps s; f_mscale := f_mscale s; f_mfunc := f_mfunc s; f_mderiv := f_mderiv s |}.
  Definition set_fcoeff v s := {| f_t := f_t s; f_x := f_x s; f_var := f_var s; f_delta := f_delta s; f_coeff := v; f_trace := f_trace s;
    f_eps := f_eps s; f_mscale := f_mscale s; f_mfunc := f_mfunc s; f_mderiv := f_mderiv s |}.
  Definition set_ftrace v s := {| f_t := f_t s; f_x := f_x s; f_var := f_var s; f_delta := f_delta s; f_coeff := f_coeff s; f_trace := v;
    f_eps := f_eps s; f_mscale := f_mscale s; f_mfunc := f_mfunc s; f_mderiv := f_mderiv s |}.
  Definition set_feps v s := {| f_t := f_t s; f_x := f_x s; f_var := f_var s; f_delta := f_delta s; f_coeff := f_coeff s; f_trace := f_trace s;
    f_eps := v; f_mscale := f_mscale s; f_mfunc := f_mfunc s; f_mderiv := f_mderiv s |}.
  Definition set_fmerit a b c s := {| f_t := f_t s; f_x := f_x s; f_var := f_var s; f_delta := f_delta s; f_coeff := f_coeff s; f_trace := f_trace s;
    f_eps := f_eps s; f_mscale := a; f_mfunc := b; f_mderiv := c |}.

  (** Eigen::LDLT and Eigen::FullPivLU (not in /repo): [ld_ok G] is info() == Success, the others are solve on a vector and a matrix. *)
  Record linops := {
    ld_ok : mat T -> bool; ld_vec : mat T -> vec T -> vec T; ld_mat : mat T -> mat T -> mat T;
    lu_vec : mat T -> vec T -> vec T; lu_mat : mat T -> mat T -> mat T
  }.

  (** What freshly allocated storage contains: elements of a new Variable; Coefficient(nx, nu, ng) and the terminal Coefficient(nx)
      (FmpcSolver.hpp:97-131), which leave every entry uninitialised. *)
  Record fjunk := { fj_x : vec T; fj_u : vec T; fj_g : vec T; fj_coeff : nat -> nat -> nat -> coeff; fj_term : coeff }.

  Variables (LO : linops) (pb : fproblem) (cf : fconfig) (jk : fjunk).

  Definition dp := fp_dp pb.
  Definition Nf : nat := Z.to_nat (fc_hor cf).
  (** t = current_t_ + i * dt *)
  Definition ft (t0 : T) (i : nat) : T := t0 + nofnat i * pb_dt dp.
  Definition mone : T := nofZ (-1).

  (** *** solve: initialisation of s and nu *)
  Definition one_margin : T := nofZ 1 + nlit 1 100.
  (** FmpcSolver.hpp:182-184. *)
  Definition init_s (g : vec T) : vec T := vscale one_margin (vmaxc (vscale mone g) (nlit 1 100)).
  (** FmpcSolver.hpp:185-186. *)
  Definition init_n (eps : T) (s : vec T) : vec T := vscale one_margin (vmaxc (vscale eps (vinv s)) (nlit 1 100)).
  (** FmpcSolver.hpp:179-187: the loop, without bounds checks on the lists. *)
  Definition init_var (t0 eps : T) (v : var) : option var :=
    (ss <~ tabo Nf (fun i =>
       x <~ nth_error (v_x v) i ;; u <~ nth_error (v_u v) i ;;
       Nat.ltb i (length (v_s v)) && Nat.ltb i (length (v_n v)) &> Some (init_s (fp_g pb (ft t0 i) x u))) ;;
     Some {| v_hor := v_hor v; v_x := v_x v; v_u := v_u v; v_l := v_l v; v_s := overwrite ss (v_s v);
             v_n := overwrite (map (init_n eps) ss) (v_n v) |})%opt.

  (** FmpcSolver.hpp:284-362 checkVariable. std::vector::size() is assumed to fit an int. *)
  Definition bad_length (v : var) : bool :=
    let h := fc_hor cf in
    negb (Z.eqb (Z.of_nat (length (v_x v))) (h + 1) && Z.eqb (Z.of_nat (length (v_u v))) h
          && Z.eqb (Z.of_nat (length (v_l v))) (h + 1) && Z.eqb (Z.of_nat (length (v_s v))) h && Z.eqb (Z.of_nat (length (v_n v))) h).
  (** 315-345 *)
  Definition bad_dim (t0 : T) (v : var) (i : nat) : bool :=
    (match pb_fixed_nu dp with Some _ => false
     | None => negb (Z.eqb (Z.of_nat (length (nth i (v_u v) []))) (pb_inputDim dp (ft t0 i))) end)
    || (match fp_fixed_ng pb with Some _ => false
        | None => negb (Z.eqb (Z.of_nat (length (nth i (v_s v) []))) (fp_ineqDim pb (ft t0 i)))
                  || negb (Z.eqb (Z.of_nat (length (nth i (v_n v) []))) (fp_ineqDim pb (ft t0 i))) end).
  (** 348-361 *)
  Definition bad_sign (v : var) (i : nat) : bool := vnegb (nth i (v_s v) []) || vnegb (nth i (v_n v) []).
  Definition check_variable : M fsolver unit :=
    fun s =>
      if bad_length (f_var s) then Throw InvalidArgument s
      else if existsb (bad_dim (f_t s) (f_var s)) (seq 0 Nf) then Throw RuntimeError s
      else if existsb (bad_sign (f_var s)) (seq 0 Nf) then Throw RuntimeError s
      else Ok tt s.

  (** *** procOnce *)
  (** FmpcSolver.hpp:381-390: the average of s .* nu; minCoeff() of an empty vector is an Eigen assertion (its value is not used). *)
  Fixpoint eps_sum (ss ns : list (vec T)) (n : nat) (acc : T) (dim : nat) : option (T * nat) :=
    match n with
    | O => Some (acc, dim)
    | Datatypes.S n' =>
      match ss, ns with
      | s :: ss', w :: ns' =>
        (vdimb (length s) w && Nat.ltb 0 (length s) &> eps_sum ss' ns' n' (acc + dot s w) (Nat.add dim (length s)))%opt
      | _, _ => None
      end
    end.
  (** 390-398: literals 0.5, 1e-8, 1e6 *)
  Definition eps_of (sum : T) (dim : nat) : T := nclamp (nhalf * (sum / nofnat dim)) (nlit 1 100000000) (nofZ 1000000).

  (** FmpcSolver.hpp:406-427: one pass of Step 1. *)
  Definition coeff_at (t0 : T) (v : var) (cl : list coeff) (i : nat) : option coeff :=
    (c <~ nth_error cl i ;;
     x <~ nth_error (v_x v) i ;; x' <~ nth_error (v_x v) (Nat.add i 1) ;; u <~ nth_error (v_u v) i ;;
     l <~ nth_error (v_l v) i ;; l' <~ nth_error (v_l v) (Nat.add i 1) ;; s <~ nth_error (v_s v) i ;; n <~ nth_error (v_n v) i ;;
     let t := ft t0 i in
     let dt := pb_dt dp in
     let '(A, B) := pb_stateEqDeriv dp t x u (c_A c, c_B c) in
     let '(C, D) := fp_gDeriv pb t x u (c_C c, c_D c) in
     let '(Lx, Lu, Lxx, Luu, Lxu) := pb_runningCostDeriv dp t x u (c_Lx c, c_Lu c, c_Lxx c, c_Luu c, c_Lxu c) in
     let xn := pb_stateEq dp t x u in
     let g := fp_g pb t x u in
     let nx := pb_nx dp in let nu := length u in let ng := length s in
     vdimb nx x' && vdimb nx xn && vdimb nx l && vdimb nx l' && vdimb ng n && vdimb ng g && mdimb nx nx A && mdimb nx nu B
       && mdimb ng nx C && mdimb ng nu D && vdimb nx Lx && vdimb nu Lu &>
     Some {| c_A := A; c_B := B; c_C := C; c_D := D; c_Lx := Lx; c_Lu := Lu; c_Lxx := Lxx; c_Luu := Luu; c_Lxu := Lxu;
             c_xbar := vsub xn x';
             c_gbar := vadd g s;
             c_Lxbar := vadd (vadd (vadd (vscale mone l) (vscale dt Lx)) (mvmul (mtr A) l')) (mvmul (mtr C) n);
             c_Lubar := vadd (vadd (vscale dt Lu) (mvmul (mtr B) l')) (mvmul (mtr D) n);
             c_k := c_k c; c_K := c_K c; c_s := c_s c; c_P := c_P c |})%opt.
  (** FmpcSolver.hpp:428-435. *)
  Definition coeff_end (t0 : T) (v : var) (cl : list coeff) : option coeff :=
    (c <~ nth_error cl Nf ;;
     x <~ nth_error (v_x v) Nf ;; l <~ nth_error (v_l v) Nf ;;
     let '(Lx, Lxx) := pb_terminalCostDeriv dp (ft t0 Nf) x (c_Lx c, c_Lxx c) in
     vdimb (pb_nx dp) Lx && vdimb (pb_nx dp) l &>
     Some {| c_A := c_A c; c_B := c_B c; c_C := c_C c; c_D := c_D c; c_Lx := Lx; c_Lu := c_Lu c; c_Lxx := Lxx; c_Luu := c_Luu c;
             c_Lxu := c_Lxu c; c_xbar := c_xbar c; c_gbar := c_gbar c; c_Lxbar := vsub Lx l; c_Lubar := c_Lubar c;
             c_k := c_k c; c_K := c_K c; c_s := c_s c; c_P := c_P c |})%opt.
  Definition coeffs (t0 : T) (v : var) (cl : list coeff) : option (list coeff) :=
    (cs <~ tabo Nf (coeff_at t0 v cl) ;; ce <~ coeff_end t0 v cl ;; Some (cs ++ [ce]))%opt.

  (** FmpcSolver.hpp:495-521 calcKktError. *)
  Definition kkt_comp (eps : T) (s n : vec T) : vec T := vbuild (length s) (fun j => nmax (vget s j * vget n j - eps) nzero).
  Fixpoint kkt_sum (eps : T) (cl : list coeff) (ss ns : list (vec T)) (n : nat) (acc : T) : option T :=
    match n with
    | O => match cl with c :: _ => Some (acc + sqnorm (c_Lxbar c)) | [] => None end
    | Datatypes.S n' =>
      match cl, ss, ns with
      | c :: cl', s :: ss', w :: ns' =>
        (vdimb (length s) w &>
         kkt_sum eps cl' ss' ns' n'
           (acc + sqnorm (c_xbar c) + sqnorm (c_gbar c) + sqnorm (c_Lxbar c) + sqnorm (c_Lubar c) + sqnorm (kkt_comp eps s w)))%opt
      | _, _, _ => None
      end
    end.
  Definition kkt_error (eps : T) (s : fsolver) : option T :=
    (x0 <~ nth_error (v_x (f_var s)) 0 ;;
     vdimb (length (f_x s)) x0 &>
     e <~ kkt_sum eps (f_coeff s) (v_s (f_var s)) (v_n (f_var s)) Nf (nzero + sqnorm (vsub (f_x s) x0)) ;;
     Some (nsqrt e))%opt.

  (** FmpcSolver.hpp:553-646: one step of the backward pass from the later s and P.
      [None]: undefined. [Some None]: return false. *)
  Definition bw_coeff (eps : T) (c : coeff) (sl nl : vec T) (s : vec T) (P : mat T) : option (option coeff) :=
    let dt := pb_dt dp in
    let A := c_A c in let B := c_B c in let C := c_C c in let D := c_D c in
    let nx := pb_nx dp in let nu := mcols B in let ng := length sl in
    (vdimb nx s && mdimb nx nx P && mdimb nx nx A && mdimb nx nu B && mdimb ng nx C && mdimb ng nu D && mdimb nx nx (c_Lxx c)
       && mdimb nu nu (c_Luu c) && mdimb nx nu (c_Lxu c) && vdimb nx (c_xbar c) && vdimb ng (c_gbar c) && vdimb nx (c_Lxbar c)
       && vdimb nu (c_Lubar c) && vdimb ng nl &>
     (* 572-583 *)
     let nu_s := vdiv nl sl in
     let tilde_sub := vadd (vsub (vmul nu_s (c_gbar c)) nl) (vscale eps (vinv sl)) in
     let Ct := mtr C in let Dt := mtr D in
     let Qxx := madd (mscale dt (c_Lxx c)) (mmul (mcolscale Ct nu_s) C) in
     let Quu := madd (mscale dt (c_Luu c)) (mmul (mcolscale Dt nu_s) D) in
     let Qxu := madd (mscale dt (c_Lxu c)) (mmul (mcolscale Ct nu_s) D) in
     let Lxt := vadd (c_Lxbar c) (mvmul Ct tilde_sub) in
     let Lut := vadd (c_Lubar c) (mvmul Dt tilde_sub) in
     let F := madd Qxx (mmul (mmul (mtr A) P) A) in
     let H := madd Qxu (mmul (mmul (mtr A) P) B) in
     let G := madd Quu (mmul (mmul (mtr B) P) B) in
     (* 592-624 *)
     let rhs := vadd (mvmul (mtr B) (vsub (mvmul P (c_xbar c)) s)) Lut in
     let gains :=
       if Nat.ltb 0 nu then
         if ld_ok LO G then Some (vscale mone (ld_vec LO G rhs), mscale mone (ld_mat LO G (mtr H)))
         else if fc_break cf then None
         else Some (vscale mone (lu_vec LO G rhs), mscale mone (lu_mat LO G (mtr H)))
       else Some ([], mzero 0 nx) in
     match gains with
     | None => Some None
     | Some (k, K) =>
       vdimb nu k && mdimb nu nx K &>
       (* 633-637 *)
       let s' := vsub (vsub (mvmul (mtr A) (vsub s (mvmul P (c_xbar c)))) Lxt) (mvmul H k) in
       let P1 := msub F (mmul (mmul (mtr K) G) K) in
       let P' := mscale nhalf (madd P1 (mtr P1)) in
       Some (Some {| c_A := A; c_B := B; c_C := C; c_D := D; c_Lx := c_Lx c; c_Lu := c_Lu c; c_Lxx := c_Lxx c; c_Luu := c_Luu c;
                     c_Lxu := c_Lxu c; c_xbar := c_xbar c; c_gbar := c_gbar c; c_Lxbar := c_Lxbar c; c_Lubar := c_Lubar c;
                     c_k := k; c_K := K; c_s := s'; c_P := P' |})
     end)%opt.
  (** FmpcSolver.hpp:543-549. *)
  Definition bw_end (c : coeff) : coeff :=
    {| c_A := c_A c; c_B := c_B c; c_C := c_C c; c_D := c_D c; c_Lx := c_Lx c; c_Lu := c_Lu c; c_Lxx := c_Lxx c; c_Luu := c_Luu c;
       c_Lxu := c_Lxu c; c_xbar := c_xbar c; c_gbar := c_gbar c; c_Lxbar := c_Lxbar c; c_Lubar := c_Lubar c;
       c_k := c_k c; c_K := c_K c; c_s := vscale mone (c_Lxbar c); c_P := c_Lxx c |}.
  (** FmpcSolver.hpp:551-647: i = n - 1 down to 0; [acc] holds the coefficients from n on. The flag is false for "return false". *)
  Fixpoint bw_coeffs (eps : T) (cl : list coeff) (ss ns : list (vec T)) (n : nat) (s : vec T) (P : mat T) (acc : list coeff)
    : option (bool * list coeff) :=
    match n with
    | O => Some (true, acc)
    | Datatypes.S i =>
      (c <~ nth_error cl i ;; sl <~ nth_error ss i ;; nl <~ nth_error ns i ;;
       r <~ bw_coeff eps c sl nl s P ;;
       match r with
       | None => Some (false, firstn n cl ++ acc)
       | Some c' => bw_coeffs eps cl ss ns i (c_s c') (c_P c') (c' :: acc)
       end)%opt
    end.
  (** FmpcSolver.hpp:523-665 backwardPass. *)
  Definition backward_pass : M fsolver bool :=
    fun st =>
      match nth_error (f_coeff st) Nf with
      | None => UB
      | Some c =>
        let e := bw_end c in
        match bw_coeffs (f_eps st) (f_coeff st) (v_s (f_var st)) (v_n (f_var st)) Nf (c_s e) (c_P e) (overwrite [e] (skipn Nf (f_coeff st))) with
        | None => UB
        | Some (b, cl) => Ok (b && negb (fc_check_nan cf && existsb coeff_nan cl)) (set_fcoeff cl st)
        end
      end.

  (** FmpcSolver.hpp:670-684: (delta x, delta lambda, delta u) from step i on, given delta x. *)
  Fixpoint fw_lists (cl : list coeff) (n : nat) (dx : vec T) : option (list (vec T) * list (vec T) * list (vec T)) :=
    match cl with
    | [] => None
    | c :: cl' =>
      let nx := pb_nx dp in
      (vdimb nx dx && mdimb nx nx (c_P c) && vdimb nx (c_s c) &>
       let dl := vsub (mvmul (c_P c) dx) (c_s c) in
       match n with
       | O => Some ([dx], [dl], [])
       | Datatypes.S n' =>
         let nu := mcols (c_B c) in
         mdimb nu nx (c_K c) && vdimb nu (c_k c) && mdimb nx nx (c_A c) && mdimb nx nu (c_B c) && vdimb nx (c_xbar c) &>
         let du := vadd (mvmul (c_K c) dx) (c_k c) in
         let dx' := vadd (vadd (mvmul (c_A c) dx) (mvmul (c_B c) du)) (c_xbar c) in
         '(xs, ls, us) <~ fw_lists cl' n' dx' ;; Some (dx :: xs, dl :: ls, du :: us)
       end)%opt
    end.
  (** FmpcSolver.hpp:686-696. *)
  Definition fw_s (c : coeff) (dx du : vec T) : vec T :=
    vscale mone (vadd (vadd (mvmul (c_C c) dx) (mvmul (c_D c) du)) (c_gbar c)).
  Definition fw_n (eps : T) (s n ds : vec T) : vec T :=
    vbuild (length s) (fun j => mone * (vget n j * (vget ds j + vget s j) - eps) / vget s j).
  Definition fw_sn (eps : T) (cl : list coeff) (v : var) (xs us : list (vec T)) (i : nat) : option (vec T * vec T) :=
    (c <~ nth_error cl i ;; dx <~ nth_error xs i ;; du <~ nth_error us i ;; s <~ nth_error (v_s v) i ;; n <~ nth_error (v_n v) i ;;
     let ng := length s in
     mdimb ng (length dx) (c_C c) && mdimb ng (length du) (c_D c) && vdimb ng (c_gbar c) && vdimb ng n &>
     let ds := fw_s c dx du in Some (ds, fw_n eps s n ds))%opt.
  (** FmpcSolver.hpp:667-708 forwardPass. *)
  Definition delta_of (st : fsolver) : option var :=
    let d := f_delta st in
    (x0 <~ nth_error (v_x (f_var st)) 0 ;;
     vdimb (length (f_x st)) x0 &>
     '(xs, ls, us) <~ fw_lists (f_coeff st) Nf (vsub (f_x st) x0) ;;
     sn <~ tabo Nf (fw_sn (f_eps st) (f_coeff st) (f_var st) xs us) ;;
     Nat.leb (Nat.add Nf 1) (length (v_x d)) && Nat.leb (Nat.add Nf 1) (length (v_l d)) && Nat.leb Nf (length (v_u d)) && Nat.leb Nf (length (v_s d)) && Nat.leb Nf (length (v_n d)) &>
     Some {| v_hor := v_hor d; v_x := overwrite xs (v_x d); v_u := overwrite us (v_u d); v_l := overwrite ls (v_l d);
             v_s := overwrite (map fst sn) (v_s d); v_n := overwrite (map snd sn) (v_n d) |})%opt.
  Definition forward_pass : M fsolver bool :=
    fun st => match delta_of st with
              | None => UB
              | Some d => Ok (negb (fc_check_nan cf && var_nan d)) (set_fdelta d st)
              end.

  (** *** updateVariables *)
  (** FmpcSolver.hpp:729-732 (s) and 733-736 (nu): literal 0.995; the two minima do not interact. *)
  Definition frac1 (a : T) (p : T * T) : T :=
    if snd p <? nzero then nmin a (mone * nlit 995 1000 * fst p / snd p) else a.
  Definition frac (ss ds : list (vec T)) : option T :=
    (l <~ tabo Nf (fun i => s <~ nth_error ss i ;; d <~ nth_error ds i ;; vdimb (length s) d &> Some (combine s d)) ;;
     Some (fold_left frac1 (concat l) (nofZ 1)))%opt.

  (** FmpcSolver.hpp:836-933 setupMeritFunc and 935-982 calcMeritFunc: the terms of step i as
      (running cost * dt, barrier, |dynamics|_1, |inequality|_1). *)
  Definition merit_terms (t0 eps : T) (v : var) (i : nat) : option (T * T * T * T) :=
    (x <~ nth_error (v_x v) i ;; u <~ nth_error (v_u v) i ;; s <~ nth_error (v_s v) i ;; x' <~ nth_error (v_x v) (Nat.add i 1) ;;
     let t := ft t0 i in
     let xn := pb_stateEq dp t x u in
     let g := fp_g pb t x u in
     vdimb (length xn) x' && vdimb (length g) s &>
     Some (pb_runningCost dp t x u * pb_dt dp, mone * eps * nsum (map nlog s), vl1 (vsub xn x'), vl1 (vadd g s)))%opt.
  (** (merit_func_obj, merit_func_const), 942-979 (and 846-847, 866-886, 899). *)
  Definition merit_parts (t0 : T) (x0 : vec T) (eps : T) (v : var) : option (T * T) :=
    (xi <~ nth_error (v_x v) 0 ;; xN <~ nth_error (v_x v) Nf ;; vdimb (length x0) xi &>
     l <~ tabo Nf (merit_terms t0 eps v) ;;
     Some (fold_left (fun a p => let '(rc, ba, _, _) := p in a + rc + ba) l nzero + pb_terminalCost dp (ft t0 Nf) xN,
           fold_left (fun a p => let '(_, _, d, g) := p in a + d + g) l (nzero + vl1 (vsub x0 xi))))%opt.
  (** FmpcSolver.hpp:935-982 calcMeritFunc. *)
  Definition merit (t0 : T) (x0 : vec T) (eps scale : T) (v : var) : option T :=
    ('(o, c) <~ merit_parts t0 x0 eps v ;; Some (o + scale * c))%opt.
  (** The derivative terms of step i: objective (867, 872) and constraints (878-881, 887-889). *)
  Definition deriv_terms (t0 eps : T) (v d : var) (cl : list coeff) (i : nat) : option (T * T * (T * T * T) * (T * T * T)) :=
    (x <~ nth_error (v_x v) i ;; u <~ nth_error (v_u v) i ;; s <~ nth_error (v_s v) i ;; x' <~ nth_error (v_x v) (Nat.add i 1) ;;
     dx <~ nth_error (v_x d) i ;; du <~ nth_error (v_u d) i ;; ds <~ nth_error (v_s d) i ;; dx' <~ nth_error (v_x d) (Nat.add i 1) ;;
     c <~ nth_error cl i ;;
     let t := ft t0 i in
     let xn := pb_stateEq dp t x u in
     let g := fp_g pb t x u in
     let nx := length xn in let ng := length g in
     vdimb nx x' && vdimb ng s && vdimb (length (c_Lx c)) dx && vdimb (length (c_Lu c)) du && vdimb (length s) ds &>
     let cx := vsub xn x' in
     let cg := vadd g s in
     a1 <~ l1_deriv_chk cx (c_A c) dx ;; a2 <~ l1_deriv_chk cx (c_B c) du ;; a3 <~ l1_deriv_chk cx (mscale mone (mid nx)) dx' ;;
     b1 <~ l1_deriv_chk cg (c_C c) dx ;; b2 <~ l1_deriv_chk cg (c_D c) du ;; b3 <~ l1_deriv_chk cg (mid ng) ds ;;
     Some ((dot (c_Lx c) dx + dot (c_Lu c) du) * pb_dt dp, mone * eps * dot (vinv s) ds, (a1, a2, a3), (b1, b2, b3)))%opt.
  (** (merit_deriv_obj, merit_deriv_const), 848-900. *)
  Definition deriv_parts (t0 : T) (x0 : vec T) (eps : T) (v d : var) (cl : list coeff) : option (T * T) :=
    (xi <~ nth_error (v_x v) 0 ;; dxi <~ nth_error (v_x d) 0 ;; dxN <~ nth_error (v_x d) Nf ;; cN <~ nth_error cl Nf ;;
     vdimb (length x0) xi && vdimb (length (c_Lx cN)) dxN &>
     a0 <~ l1_deriv_chk (vsub x0 xi) (mscale mone (mid (length x0))) dxi ;;
     l <~ tabo Nf (deriv_terms t0 eps v d cl) ;;
     Some (fold_left (fun a p => let '(rc, ba, _, _) := p in a + rc + ba) l nzero + dot (c_Lx cN) dxN,
           fold_left (fun a p => let '(_, _, (a1, a2, a3), (b1, b2, b3)) := p in a + a1 + a2 + a3 + b1 + b2 + b3) l (nzero + a0)))%opt.
  (** 903-923 merit_const_scale_: literals 1e-3, 0.5. *)
  Fixpoint lagr_scale (ls ns : list (vec T)) (n : nat) (acc : T) : option T :=
    match ls with
    | [] => None
    | l :: ls' =>
      (m <~ vmaxabs l ;;
       let acc := nmax acc m in
       match n with
       | O => Some acc
       | Datatypes.S n' =>
         match ns with
         | [] => None
         | w :: ns' => m2 <~ vmaxabs w ;; lagr_scale ls' ns' n' (nmax acc m2)
         end
       end)%opt
    end.
  Definition merit_scale (v : var) (deriv_obj func_const : T) : option T :=
    let scale_min := nlit 1 1000 in
    if fc_lagr cf then lagr_scale (v_l v) (v_n v) Nf scale_min
    else Some (nmax (deriv_obj / ((nofZ 1 - nhalf) * func_const)) scale_min).
  (** FmpcSolver.hpp:836-933 setupMeritFunc. *)
  Definition setup_merit : M fsolver unit :=
    fun st =>
      match (p <~ merit_parts (f_t st) (f_x st) (f_eps st) (f_var st) ;;
             d <~ deriv_parts (f_t st) (f_x st) (f_eps st) (f_var st) (f_delta st) (f_coeff st) ;;
             sc <~ merit_scale (f_var st) (fst d) (snd p) ;;
             Some (p, d, sc))%opt with
      | None => UB
      | Some (p, d, sc) => Ok tt (set_fmerit sc (fst p + sc * snd p) (fst d + sc * snd d) st)
      end.

  (** variable_ + alpha * delta_variable_ on one list (first n elements), 775-784 and 802-811. *)
  Definition step_list (n : nat) (a : T) (vs ds : list (vec T)) : option (list (vec T)) :=
    (l <~ tabo n (fun i => v <~ nth_error vs i ;; d <~ nth_error ds i ;; vdimb (length v) d &> Some (vadd v (vscale a d))) ;;
     Some (overwrite l vs))%opt.
  (** 762, 775-784 ls_variable. *)
  Definition ls_var (a : T) (v d : var) : option var :=
    (xs <~ step_list (Nat.add Nf 1) a (v_x v) (v_x d) ;; us <~ step_list Nf a (v_u v) (v_u d) ;; ss <~ step_list Nf a (v_s v) (v_s d) ;;
     Some {| v_hor := v_hor v; v_x := xs; v_u := us; v_l := v_l v; v_s := ss; v_n := v_n v |})%opt.
  (** 759-792: while(true); the literals 1e-10, 1e-3, 0.5. Returns alpha_s. *)
  Fixpoint ls_loop (fuel : nat) (a : T) : M fsolver T :=
    match fuel with
    | O => fun _ => OutOfFuel
    | Datatypes.S fuel' => fun st =>
      if a <? nlit 1 10000000000 then Ok a st else
      match (v <~ ls_var a (f_var st) (f_delta st) ;; merit (f_t st) (f_x st) (f_eps st) (f_mscale st) v)%opt with
      | None => UB
      | Some m => if m <? f_mfunc st + nlit 1 1000 * a * f_mderiv st then Ok a st else ls_loop fuel' (a * nhalf) st
      end
    end.

  (** std::numeric_limits<double>::lowest(), -(2^1024 - 2^971). *)
  Definition lowest : T := nofZ (- (2 ^ 1024 - 2 ^ 971)).
  (** 813-829 *)
  Definition clip_low (w : vec T) : vec T := if vnegb w then vmaxc w lowest else w.
  (** 802-831 *)
  Definition step_var (a_s a_n : T) (v d : var) : option var :=
    (xs <~ step_list (Nat.add Nf 1) a_s (v_x v) (v_x d) ;; ls <~ step_list (Nat.add Nf 1) a_n (v_l v) (v_l d) ;;
     us <~ step_list Nf a_s (v_u v) (v_u d) ;; ss <~ step_list Nf a_s (v_s v) (v_s d) ;; ns <~ step_list Nf a_n (v_n v) (v_n d) ;;
     Some {| v_hor := v_hor v; v_x := xs; v_u := us; v_l := ls;
             v_s := overwrite (map clip_low (firstn Nf ss)) ss; v_n := overwrite (map clip_low (firstn Nf ns)) ns |})%opt.

  Local Open Scope monad_scope.
  (** FmpcSolver.hpp:710-834 updateVariables. *)
  Definition update_variables (fuel : nat) : M fsolver bool :=
    st <- get ;;
    a_s <- must (frac (v_s (f_var st)) (v_s (f_delta st))) ;;
    a_n <- must (frac (v_n (f_var st)) (v_n (f_delta st))) ;;
    (* 739-747 *)
    if negb ((a_s >? nzero) && (a_s <=? nofZ 1) && (a_n >? nzero) && (a_n <=? nofZ 1)) then ret false
    else
    (* 753-793 *)
    a_s <- (if fc_ls cf then setup_merit ;;; ls_loop fuel a_s else ret a_s) ;;
    v <- must (step_var a_s a_n (f_var st) (f_delta st)) ;;
    modify (set_fvar v) ;;;
    ret true.

  (** FmpcSolver.hpp:364-493 procOnce. *)
  Definition proc_once (fuel : nat) (iter : Z) : M fsolver fstatus :=
    modify (fun s => set_ftrace (f_trace s ++ [(iter, nzero)]) s) ;;;
    (* 377-399 *)
    (if fc_update_eps cf then
       st <- get ;;
       '(sum, dim) <- must (eps_sum (v_s (f_var st)) (v_n (f_var st)) Nf nzero 0) ;;
       put (set_feps (eps_of sum dim) st)
     else ret tt) ;;;
    (* 401-440 *)
    st <- get ;;
    cl <- must (coeffs (f_t st) (f_var st) (f_coeff st)) ;;
    put (set_fcoeff cl st) ;;;
    (* 442-448 *)
    st <- get ;;
    e <- must (kkt_error nzero st) ;;
    put (set_ftrace (upd_last (fun p => (fst p, e)) (f_trace st)) st) ;;;
    if e <=? fc_kkt cf then ret Succeeded else
    b <- backward_pass ;;
    if negb b then ret ErrorInBackward else
    b <- forward_pass ;;
    if negb b then ret ErrorInForward else
    b <- update_variables fuel ;;
    if negb b then ret ErrorInUpdate else
    ret IterationContinued.

  (** FmpcSolver.hpp:232-240: the optimization loop with [n] iterations left. *)
  Fixpoint fopt_loop (fuel n : nat) (iter : Z) (status : fstatus) : M fsolver fstatus :=
    match n with
    | O => ret status
    | Datatypes.S n' =>
      r <- proc_once fuel iter ;;
      match r with
      | IterationContinued => fopt_loop fuel n' (iter + 1) IterationContinued
      | _ => ret r
      end
    end.

  (** FmpcSolver.hpp:193-220: delta_variable_ and coeff_list_. resize(n, Coefficient(...)) keeps existing elements. *)
  Definition setup_delta (d : var) : var := if Z.eqb (v_hor d) (fc_hor cf) then d else var_ctor (fj_x jk) (fj_u jk) (fj_g jk) Nf.
  Definition setup_coeff (t0 : T) (cl : list coeff) : option (list coeff) :=
    let nx := pb_nx dp in
    (cs <~ match pb_fixed_nu dp, fp_fixed_ng pb with
           | Some nu, Some ng => Some (resize Nf (fj_coeff jk nx nu ng) cl)
           | _, _ => tabo Nf (fun i => let nu := pb_inputDim dp (ft t0 i) in let ng := fp_ineqDim pb (ft t0 i) in
                                       Z.leb 0 nu && Z.leb 0 ng &> Some (fj_coeff jk nx (Z.to_nat nu) (Z.to_nat ng)))
           end ;;
     Some (cs ++ [fj_term jk]))%opt.

  (** FmpcSolver.hpp:157-257 solve. *)
  Definition fmpc_solve (fuel : nat) (t0 : T) (x0 : vec T) (v0 : var) : M fsolver fstatus :=
    (* 166-168 *)
    modify (fun s => {| f_t := t0; f_x := x0; f_var := v0; f_delta := f_delta s; f_coeff := f_coeff s; f_trace := f_trace s;
                        f_eps := f_eps s; f_mscale := f_mscale s; f_mfunc := f_mfunc s; f_mderiv := f_mderiv s |}) ;;;
    (* 171-188: literal 1e-4 *)
    (if fc_init cf then
       let eps := nlit 1 10000 in
       v <- must (init_var t0 eps v0) ;;
       modify (fun s => set_feps eps (set_fvar v s))
     else ret tt) ;;;
    check_variable ;;;
    (* 193-223 *)
    st <- get ;;
    cl <- must (setup_coeff t0 (f_coeff st)) ;;
    put (set_ftrace [] (set_fcoeff cl (set_fdelta (setup_delta (f_delta st)) st))) ;;;
    (* 231-244 *)
    r <- fopt_loop fuel (Z.to_nat (fc_max_iter cf)) 1 Uninitialized ;;
    (* 250-254: trace_data_list_.back() *)
    st <- get ;;
    guard (negb (3 <=? fc_print cf)%Z || negb (Nat.eqb (length (f_trace st)) 0)) ;;;
    ret match r with IterationContinued => MaxIterationReached | _ => r end.
End Fmpc.
Arguments fproblem T : clear implicits.
Arguments fconfig T : clear implicits.
Arguments var T : clear implicits.
Arguments coeff T : clear implicits.
Arguments fsolver T : clear implicits.
Arguments linops T : clear implicits.
Arguments fjunk T : clear implicits.
