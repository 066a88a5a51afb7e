(** Specifications for the FMPC solver, written without the functions of the model. *)
From Coq Require Import Reals Lra.
From Verif Require Import Prelude Scalar LinAlg RLin DDP Fmpc.

Section Valid.
  Context {T : Type} {N : Num T}.
  Variables (pb : fproblem T) (cf : fconfig T) (t0 : T).

  Definition stage_time (i : nat) : T := nadd t0 (nmul (nofnat i) (pb_dt (fp_dp pb))).
  Definition right_lengths (v : var T) : Prop :=
    Z.of_nat (length (v_x v)) = (fc_hor cf + 1)%Z /\ Z.of_nat (length (v_u v)) = fc_hor cf /\
    Z.of_nat (length (v_l v)) = (fc_hor cf + 1)%Z /\ Z.of_nat (length (v_s v)) = fc_hor cf /\ Z.of_nat (length (v_n v)) = fc_hor cf.
  (** Sizes that are only known at run time. *)
  Definition right_dims (v : var T) : Prop :=
    (pb_fixed_nu (fp_dp pb) = None -> forall i u, nth_error (v_u v) i = Some u -> Z.of_nat (length u) = pb_inputDim (fp_dp pb) (stage_time i)) /\
    (fp_fixed_ng pb = None -> forall i w, nth_error (v_s v) i = Some w \/ nth_error (v_n v) i = Some w ->
       Z.of_nat (length w) = fp_ineqDim pb (stage_time i)).
  Definition no_negative (v : var T) : Prop :=
    forall w a, In w (v_s v) \/ In w (v_n v) -> In a w -> nltb a nzero = false.
End Valid.

(** What the derivative callbacks return, whatever was in the buffers they are given. *)
Record derivs (T : Type) := {
  d_A : T -> vec T -> vec T -> mat T; d_B : T -> vec T -> vec T -> mat T;
  d_C : T -> vec T -> vec T -> mat T; d_D : T -> vec T -> vec T -> mat T;
  d_Lx : T -> vec T -> vec T -> vec T; d_Lu : T -> vec T -> vec T -> vec T;
  d_Lxx : T -> vec T -> vec T -> mat T; d_Luu : T -> vec T -> vec T -> mat T; d_Lxu : T -> vec T -> vec T -> mat T;
  d_Tx : T -> vec T -> vec T; d_Txx : T -> vec T -> mat T
}.
Arguments d_A {T}. Arguments d_B {T}. Arguments d_C {T}. Arguments d_D {T}. Arguments d_Lx {T}. Arguments d_Lu {T}.
Arguments d_Lxx {T}. Arguments d_Luu {T}. Arguments d_Lxu {T}. Arguments d_Tx {T}. Arguments d_Txx {T}.
Record computes {T} (pb : fproblem T) (D : derivs T) : Prop := {
  cm_f : forall t x u b, pb_stateEqDeriv (fp_dp pb) t x u b = (d_A D t x u, d_B D t x u);
  cm_g : forall t x u b, fp_gDeriv pb t x u b = (d_C D t x u, d_D D t x u);
  cm_L : forall t x u b, pb_runningCostDeriv (fp_dp pb) t x u b = (d_Lx D t x u, d_Lu D t x u, d_Lxx D t x u, d_Luu D t x u, d_Lxu D t x u);
  cm_T : forall t x b, pb_terminalCostDeriv (fp_dp pb) t x b = (d_Tx D t x, d_Txx D t x)
}.

Section KKT.
  Local Open Scope R_scope.
  (** The variables around step i of a trajectory. *)
  Definition stage {T} (v : var T) (i : nat) (x u l s n x' l' : vec T) : Prop :=
    nth_error (v_x v) i = Some x /\ nth_error (v_u v) i = Some u /\ nth_error (v_l v) i = Some l /\ nth_error (v_s v) i = Some s /\
    nth_error (v_n v) i = Some n /\ nth_error (v_x v) (i + 1) = Some x' /\ nth_error (v_l v) (i + 1) = Some l'.

  (** Every residual of the KKT conditions of
        min  sum_i L(x_i, u_i) dt + Lf(x_N)   s.t.  x_0 = x0,  x_{i+1} = f(x_i, u_i),  g(x_i, u_i) + s_i = 0,  s_i >= 0
      is at most [e]. *)
  Record approx_kkt (pb : fproblem R) (D : derivs R) (t0 : R) (x0 : vec R) (v : var R) (N : nat) (e : R) : Prop := {
    ak_init : forall x, nth_error (v_x v) 0 = Some x -> length x = length x0 /\ forall j, (j < length x0)%nat -> Rabs (vget x0 j - vget x j) <= e;
    ak_stage : forall i x u l s n x' l', (i < N)%nat -> stage v i x u l s n x' l' ->
      let t := t0 + INR i * pb_dt (fp_dp pb) in
      let dt := pb_dt (fp_dp pb) in
      let A := d_A D t x u in let B := d_B D t x u in let C := d_C D t x u in let DD := d_D D t x u in
      let nx := pb_nx (fp_dp pb) in let nu := length u in let ng := length s in
      (* dynamics *)
      (forall j, (j < nx)%nat -> Rabs (vget (pb_stateEq (fp_dp pb) t x u) j - vget x' j) <= e) /\
      (* constraint *)
      (forall j, (j < ng)%nat -> Rabs (vget (fp_g pb t x u) j + vget s j) <= e) /\
      (* stationarity *)
      (forall j, (j < nx)%nat ->
         Rabs (dt * vget (d_Lx D t x u) j + Rsum nx (fun k => mget A k j * vget l' k) + Rsum ng (fun k => mget C k j * vget n k) - vget l j) <= e) /\
      (forall j, (j < nu)%nat ->
         Rabs (dt * vget (d_Lu D t x u) j + Rsum nx (fun k => mget B k j * vget l' k) + Rsum ng (fun k => mget DD k j * vget n k)) <= e) /\
      (* complementarity *)
      (forall j, (j < ng)%nat -> 0 <= vget s j /\ 0 <= vget n j /\ vget s j * vget n j <= e);
    ak_end : forall x l, nth_error (v_x v) N = Some x -> nth_error (v_l v) N = Some l ->
      forall j, (j < pb_nx (fp_dp pb))%nat -> Rabs (vget (d_Tx D (t0 + INR N * pb_dt (fp_dp pb)) x) j - vget l j) <= e
  }.

  (** [new] is [old + a d] in the first [n] elements. *)
  Definition moved (n : nat) (a : R) (old d new : list (vec R)) : Prop :=
    length new = length old /\
    (forall i, (i < n)%nat -> exists v dv w, nth_error old i = Some v /\ nth_error d i = Some dv /\ nth_error new i = Some w /\
       length dv = length v /\ length w = length v /\ forall j, (j < length v)%nat -> vget w j = vget v j + a * vget dv j) /\
    (forall i, (n <= i)%nat -> nth_error new i = nth_error old i).
  (** Fraction-to-boundary rule: no component loses more than 99.5 % of its value. *)
  Definition within_boundary (n : nat) (a : R) (old d : list (vec R)) : Prop :=
    forall i v dv j, (i < n)%nat -> nth_error old i = Some v -> nth_error d i = Some dv -> (j < length v)%nat ->
      - (a * vget dv j) <= 995 / 1000 * vget v j.
  (** ... and some component does. *)
  Definition at_boundary (n : nat) (a : R) (old d : list (vec R)) : Prop :=
    exists i v dv j, (i < n)%nat /\ nth_error old i = Some v /\ nth_error d i = Some dv /\ (j < length v)%nat /\ vget dv j < 0 /\
      - (a * vget dv j) = 995 / 1000 * vget v j.
  Definition all_ge (c : R) (l : list (vec R)) : Prop := forall w a, In w l -> In a w -> c <= a.
  Definition all_pos (l : list (vec R)) : Prop := forall w a, In w l -> In a w -> 0 < a.

  (** The merit function of the line search: cost with logarithmic barrier plus [scale] times the 1-norm of the constraints. *)
  Definition merit_cost (pb : fproblem R) (t0 eps : R) (N : nat) (v : var R) : R :=
    Rsum N (fun i =>
      let t := t0 + INR i * pb_dt (fp_dp pb) in let x := nth i (v_x v) [] in let u := nth i (v_u v) [] in let s := nth i (v_s v) [] in
      pb_runningCost (fp_dp pb) t x u * pb_dt (fp_dp pb) - eps * Rsum (length s) (fun j => ln (vget s j)))
    + pb_terminalCost (fp_dp pb) (t0 + INR N * pb_dt (fp_dp pb)) (nth N (v_x v) []).
  Definition merit_viol (pb : fproblem R) (t0 : R) (x0 : vec R) (N : nat) (v : var R) : R :=
    Rsum (length x0) (fun j => Rabs (vget x0 j - vget (nth 0 (v_x v) []) j)) +
    Rsum N (fun i =>
      let t := t0 + INR i * pb_dt (fp_dp pb) in let x := nth i (v_x v) [] in let u := nth i (v_u v) [] in let s := nth i (v_s v) [] in
      let xn := pb_stateEq (fp_dp pb) t x u in let g := fp_g pb t x u in
      Rsum (length xn) (fun j => Rabs (vget xn j - vget (nth (i + 1) (v_x v) []) j)) +
      Rsum (length g) (fun j => Rabs (vget g j + vget s j))).
  Definition phi (pb : fproblem R) (t0 : R) (x0 : vec R) (eps scale : R) (N : nat) (v : var R) : R :=
    merit_cost pb t0 eps N v + scale * merit_viol pb t0 x0 N v.
  (** The candidate of the line search with step length [a]. *)
  Definition primal_at (N : nat) (a : R) (v d w : var R) : Prop :=
    moved (N + 1) a (v_x v) (v_x d) (v_x w) /\ moved N a (v_u v) (v_u d) (v_u w) /\ moved N a (v_s v) (v_s d) (v_s w) /\
    v_l w = v_l v /\ v_n w = v_n v.

  (** [f] has the value [y] and the right derivative [l] at 0. *)
  Definition right_deriv (f : R -> R) (y l : R) : Prop :=
    forall e, 0 < e -> exists h, 0 < h /\ forall t, 0 < t < h -> Rabs (f t - y - l * t) <= e * t.
  (** x + a d *)
  Definition go (a : R) (x d : vec R) : vec R := vbuild (length x) (fun j => vget x j + a * vget d j).
  (** The coefficients are the derivatives of the problem functions along the direction [d], at the variable [v]. *)
  Record smooth_along (pb : fproblem R) (t0 : R) (N : nat) (v d : var R) (cl : list (coeff R)) : Prop := {
    sa_step : forall i c, (i < N)%nat -> nth_error cl i = Some c ->
      let t := t0 + INR i * pb_dt (fp_dp pb) in
      let x := nth i (v_x v) [] in let u := nth i (v_u v) [] in let dx := nth i (v_x d) [] in let du := nth i (v_u d) [] in
      let f := pb_stateEq (fp_dp pb) t in let g := fp_g pb t in let L := pb_runningCost (fp_dp pb) t in
      (forall a, length (f (go a x dx) (go a u du)) = length (f x u)) /\ (forall a, length (g (go a x dx) (go a u du)) = length (g x u)) /\
      (forall j, (j < length (f x u))%nat -> right_deriv (fun a => vget (f (go a x dx) (go a u du)) j) (vget (f x u) j)
         (Rsum (length dx) (fun k => mget (c_A c) j k * vget dx k) + Rsum (length du) (fun k => mget (c_B c) j k * vget du k))) /\
      (forall j, (j < length (g x u))%nat -> right_deriv (fun a => vget (g (go a x dx) (go a u du)) j) (vget (g x u) j)
         (Rsum (length dx) (fun k => mget (c_C c) j k * vget dx k) + Rsum (length du) (fun k => mget (c_D c) j k * vget du k))) /\
      right_deriv (fun a => L (go a x dx) (go a u du)) (L x u)
         (Rsum (length dx) (fun k => vget (c_Lx c) k * vget dx k) + Rsum (length du) (fun k => vget (c_Lu c) k * vget du k));
    sa_end : forall c, nth_error cl N = Some c ->
      let t := t0 + INR N * pb_dt (fp_dp pb) in let x := nth N (v_x v) [] in let dx := nth N (v_x d) [] in
      right_deriv (fun a => pb_terminalCost (fp_dp pb) t (go a x dx)) (pb_terminalCost (fp_dp pb) t x)
         (Rsum (length dx) (fun k => vget (c_Lx c) k * vget dx k))
  }.
  (** No component of an equality constraint of the merit function vanishes. *)
  Definition no_zero_residual (pb : fproblem R) (t0 : R) (x0 : vec R) (N : nat) (v : var R) : Prop :=
    (forall j, (j < length x0)%nat -> vget x0 j <> vget (nth 0 (v_x v) []) j) /\
    forall i, (i < N)%nat ->
      let t := t0 + INR i * pb_dt (fp_dp pb) in let x := nth i (v_x v) [] in let u := nth i (v_u v) [] in let s := nth i (v_s v) [] in
      let xn := pb_stateEq (fp_dp pb) t x u in let g := fp_g pb t x u in
      (forall j, (j < length xn)%nat -> vget xn j <> vget (nth (i + 1) (v_x v) []) j) /\
      (forall j, (j < length g)%nat -> vget g j + vget s j <> 0).

  (** Square systems that [LO] solves exactly: all nonsingular symmetric ones of size [n]. *)
  Definition nonsing (n : nat) (G : nat -> nat -> R) : Prop :=
    forall y, (forall i, (i < n)%nat -> Rsum n (fun j => G i j * y j) = 0) -> forall i, (i < n)%nat -> y i = 0.
  Definition solves (n : nat) (G : mat R) (sv : vec R -> vec R) (sm : mat R -> mat R) : Prop :=
    (forall b, length b = n -> length (sv b) = n /\ forall i, (i < n)%nat -> Rsum n (fun j => mget G i j * vget (sv b) j) = vget b i) /\
    (forall m B, mdimb n m B = true -> mdimb n m (sm B) = true /\
       forall i j, (i < n)%nat -> (j < m)%nat -> Rsum n (fun k => mget G i k * mget (sm B) k j) = mget B i j).
  Definition exact_at (LO : linops R) (n : nat) : Prop :=
    forall G, mdimb n n G = true -> fsym n (mget G) -> nonsing n (mget G) ->
      (ld_ok LO G = true -> solves n G (ld_vec LO G) (ld_mat LO G)) /\ (ld_ok LO G = false -> solves n G (lu_vec LO G) (lu_mat LO G)).
  Definition sym_hessians (pb : fproblem R) (D : derivs R) : Prop :=
    (forall t x u, fsym (pb_nx (fp_dp pb)) (mget (d_Lxx D t x u)) /\ fsym (length u) (mget (d_Luu D t x u))) /\
    (forall t x, fsym (pb_nx (fp_dp pb)) (mget (d_Txx D t x))).
  (** dt Luu + D' diag(nu / s) D + B' P B, the matrix of the linear system of one step of the backward pass. *)
  Definition condensed (pb : fproblem R) (D : derivs R) (t : R) (x u s n : vec R) (P : mat R) (i j : nat) : R :=
    pb_dt (fp_dp pb) * mget (d_Luu D t x u) i j
    + Rsum (length s) (fun k => mget (d_D D t x u) k i * (vget n k / vget s k) * mget (d_D D t x u) k j)
    + Rsum (pb_nx (fp_dp pb)) (fun k => mget (d_B D t x u) k i * Rsum (pb_nx (fp_dp pb)) (fun l => mget P k l * mget (d_B D t x u) l j)).
  (** The KKT conditions with barrier parameter [eps], linearised at [v], hold for the direction [d]. *)
  Record newton_step (pb : fproblem R) (D : derivs R) (t0 : R) (x0 : vec R) (eps : R) (N : nat) (v d : var R) : Prop := {
    nw_init : forall x dx, nth_error (v_x v) 0 = Some x -> nth_error (v_x d) 0 = Some dx ->
      forall j, (j < length x0)%nat -> vget x j + vget dx j = vget x0 j;
    nw_stage : forall i, (i < N)%nat -> exists x u l s n x' l' dx du dl ds dn dx' dl',
      stage v i x u l s n x' l' /\ stage d i dx du dl ds dn dx' dl' /\
      length du = length u /\ length ds = length s /\ length dn = length s /\
      let t := t0 + INR i * pb_dt (fp_dp pb) in
      let dt := pb_dt (fp_dp pb) in
      let A := mget (d_A D t x u) in let B := mget (d_B D t x u) in let C := mget (d_C D t x u) in let DD := mget (d_D D t x u) in
      let Lxx := mget (d_Lxx D t x u) in let Luu := mget (d_Luu D t x u) in let Lxu := mget (d_Lxu D t x u) in
      let nx := pb_nx (fp_dp pb) in let nu := length u in let ng := length s in
      (* dynamics *)
      (forall j, (j < nx)%nat -> vget x' j + vget dx' j
         = vget (pb_stateEq (fp_dp pb) t x u) j + Rsum nx (fun k => A j k * vget dx k) + Rsum nu (fun k => B j k * vget du k)) /\
      (* inequality constraint *)
      (forall j, (j < ng)%nat -> vget (fp_g pb t x u) j + Rsum nx (fun k => C j k * vget dx k) + Rsum nu (fun k => DD j k * vget du k)
         + (vget s j + vget ds j) = 0) /\
      (* complementarity *)
      (forall j, (j < ng)%nat -> vget s j * vget n j + vget s j * vget dn j + vget n j * vget ds j = eps) /\
      (* stationarity *)
      (forall j, (j < nx)%nat ->
         dt * vget (d_Lx D t x u) j + dt * Rsum nx (fun k => Lxx j k * vget dx k) + dt * Rsum nu (fun k => Lxu j k * vget du k)
         + Rsum nx (fun k => A k j * (vget l' k + vget dl' k)) + Rsum ng (fun k => C k j * (vget n k + vget dn k)) = vget l j + vget dl j) /\
      (forall j, (j < nu)%nat ->
         dt * vget (d_Lu D t x u) j + dt * Rsum nx (fun k => Lxu k j * vget dx k) + dt * Rsum nu (fun k => Luu j k * vget du k)
         + Rsum nx (fun k => B k j * (vget l' k + vget dl' k)) + Rsum ng (fun k => DD k j * (vget n k + vget dn k)) = 0);
    nw_end : exists x l dx dl, nth_error (v_x v) N = Some x /\ nth_error (v_l v) N = Some l /\ nth_error (v_x d) N = Some dx /\ nth_error (v_l d) N = Some dl /\
      let t := t0 + INR N * pb_dt (fp_dp pb) in let nx := pb_nx (fp_dp pb) in
      forall j, (j < nx)%nat -> vget (d_Tx D t x) j + Rsum nx (fun k => mget (d_Txx D t x) j k * vget dx k) = vget l j + vget dl j
  }.
  (** The cost is convex at second order along [v]: positive definite in u, positive semidefinite in (x, u). *)
  Definition convex_cost (pb : fproblem R) (D : derivs R) (t0 : R) (N : nat) (v : var R) : Prop :=
    let nx := pb_nx (fp_dp pb) in let dt := pb_dt (fp_dp pb) in
    0 < dt /\
    (forall i x u, (i < N)%nat -> nth_error (v_x v) i = Some x -> nth_error (v_u v) i = Some u ->
       let t := t0 + INR i * dt in
       posdef (length u) (mget (d_Luu D t x u)) /\
       forall y w, 0 <= Rsum nx (fun i => y i * Rsum nx (fun j => mget (d_Lxx D t x u) i j * y j))
                        + 2 * Rsum nx (fun i => y i * Rsum (length u) (fun j => mget (d_Lxu D t x u) i j * w j))
                        + Rsum (length u) (fun i => w i * Rsum (length u) (fun j => mget (d_Luu D t x u) i j * w j))) /\
    (forall x, nth_error (v_x v) N = Some x -> psd nx (mget (d_Txx D (t0 + INR N * dt) x))).
End KKT.

(** ** Primal residuals *)
Section Affine.
  Local Open Scope R_scope.
  (** x0 - x_0;  f(x_i, u_i) - x_{i+1};  g(x_i, u_i) + s_i. *)
  Definition init_res (x0 : vec R) (v : var R) (j : nat) : R := vget x0 j - vget (nth 0 (v_x v) []) j.
  Definition dyn_res (pb : fproblem R) (t0 : R) (v : var R) (i j : nat) : R :=
    vget (pb_stateEq (fp_dp pb) (t0 + INR i * pb_dt (fp_dp pb)) (nth i (v_x v) []) (nth i (v_u v) [])) j - vget (nth (i + 1) (v_x v) []) j.
  Definition ineq_res (pb : fproblem R) (t0 : R) (v : var R) (i j : nat) : R :=
    vget (fp_g pb (t0 + INR i * pb_dt (fp_dp pb)) (nth i (v_x v) []) (nth i (v_u v) [])) j + vget (nth i (v_s v) []) j.
  (** Every primal residual of [v'] is [c] times that of [v]. *)
  Record scaled (pb : fproblem R) (t0 : R) (x0 : vec R) (N : nat) (c : R) (v v' : var R) : Prop := {
    sc_init : forall j, (j < length x0)%nat -> init_res x0 v' j = c * init_res x0 v j;
    sc_dyn : forall i j, (i < N)%nat -> (j < pb_nx (fp_dp pb))%nat -> dyn_res pb t0 v' i j = c * dyn_res pb t0 v i j;
    sc_size : forall i, (i < N)%nat -> length (nth i (v_s v') []) = length (nth i (v_s v) []);
    sc_ineq : forall i j, (i < N)%nat -> (j < length (nth i (v_s v) []))%nat -> ineq_res pb t0 v' i j = c * ineq_res pb t0 v i j
  }.
  (** The state equation and the inequality function are affine in (x, u). *)
  Definition affine_primal (pb : fproblem R) (D : derivs R) : Prop :=
    forall t x u y w, length x = pb_nx (fp_dp pb) -> length y = length x -> length w = length u ->
      (forall j, (j < pb_nx (fp_dp pb))%nat -> vget (pb_stateEq (fp_dp pb) t y w) j = vget (pb_stateEq (fp_dp pb) t x u) j
         + Rsum (length x) (fun k => mget (d_A D t x u) j k * (vget y k - vget x k)) + Rsum (length u) (fun k => mget (d_B D t x u) j k * (vget w k - vget u k))) /\
      (forall j, (j < length (fp_g pb t x u))%nat -> vget (fp_g pb t y w) j = vget (fp_g pb t x u) j
         + Rsum (length x) (fun k => mget (d_C D t x u) j k * (vget y k - vget x k)) + Rsum (length u) (fun k => mget (d_D D t x u) j k * (vget w k - vget u k))).
End Affine.

(** ** Linear-quadratic problems *)
Section LQ.
  Local Open Scope R_scope.
  (** Affine dynamics, quadratic cost and no inequality constraint: the derivative functions satisfy their expansions exactly. *)
  Record lq_problem (pb : fproblem R) (D : derivs R) : Prop := {
    lq_affine : affine_primal pb D;
    lq_const : forall t x u y w, length x = pb_nx (fp_dp pb) -> length y = length x -> length w = length u ->
      d_A D t y w = d_A D t x u /\ d_B D t y w = d_B D t x u;
    lq_Lx : forall t x u y w, length x = pb_nx (fp_dp pb) -> length y = length x -> length w = length u ->
      forall j, (j < length x)%nat -> vget (d_Lx D t y w) j = vget (d_Lx D t x u) j
        + Rsum (length x) (fun k => mget (d_Lxx D t x u) j k * (vget y k - vget x k)) + Rsum (length u) (fun k => mget (d_Lxu D t x u) j k * (vget w k - vget u k));
    lq_Lu : forall t x u y w, length x = pb_nx (fp_dp pb) -> length y = length x -> length w = length u ->
      forall j, (j < length u)%nat -> vget (d_Lu D t y w) j = vget (d_Lu D t x u) j
        + Rsum (length x) (fun k => mget (d_Lxu D t x u) k j * (vget y k - vget x k)) + Rsum (length u) (fun k => mget (d_Luu D t x u) j k * (vget w k - vget u k));
    lq_Tx : forall t x y, length x = pb_nx (fp_dp pb) -> length y = length x ->
      forall j, (j < length x)%nat -> vget (d_Tx D t y) j = vget (d_Tx D t x) j + Rsum (length x) (fun k => mget (d_Txx D t x) j k * (vget y k - vget x k));
    lq_free : forall t x u, fp_g pb t x u = []
  }.
End LQ.
