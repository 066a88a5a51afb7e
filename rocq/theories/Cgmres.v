(** Model of /repo/nmpc_cgmres: OdeSolver.h, CgmresProblem.h, CgmresSolver.h and CgmresSolver.cpp. *)
From Verif Require Import Prelude Scalar LinAlg Gmres.

Section Ode.
  Context {T : Type} {N : Num T}.
  Local Open Scope num_scope.
  (** OdeSolver.h:16-19. A callback writes into an Eigen::Ref of fixed size; it is a function returning the vector written. *)
  Definition state_eq := T -> vec T -> vec T -> vec T.
  (** OdeSolver.h:24-29. *)
  Definition ode := state_eq -> T -> vec T -> vec T -> T -> vec T.

  (** OdeSolver.h:38-48 EulerOdeSolver::solve. *)
  Definition euler : ode := fun f t x u dt =>
    let dotx := f t x u in
    vadd x (vscale dt dotx).

  (** OdeSolver.h:57-71 RungeKuttaOdeSolver::solve. *)
  Definition rk4 : ode := fun f t x u dt =>
    let dt_half := dt / nlit 2 1 in
    let k1 := f t x u in
    let k2 := f (t + dt_half) (vadd x (vscale dt_half k1)) u in
    let k3 := f (t + dt_half) (vadd x (vscale dt_half k2)) u in
    let k4 := f (t + dt) (vadd x (vscale dt k3)) u in
    vadd x (vscale (dt / nlit 6 1) (vadd (vadd (vadd k1 (vscale (nlit 2 1) k2)) (vscale (nlit 2 1) k3)) k4)).
End Ode.
Arguments state_eq T : clear implicits.
Arguments ode T : clear implicits.

(** CgmresProblem.h: callbacks (26-49) and members (58-66) that the solver reads. *)
Record cg_problem (T : Type) := {
  cp_dim_x : nat; cp_dim_uc : nat;
  cp_f : T -> vec T -> vec T -> vec T;              (* stateEquation t x u *)
  cp_costate : T -> vec T -> vec T -> vec T;        (* costateEquation t lmd xu *)
  cp_dphi : T -> vec T -> vec T;                    (* calcDphiDx t x *)
  cp_dhdu : T -> vec T -> vec T -> vec T -> vec T;  (* calcDhDu t x u lmd *)
  cp_x0 : vec T; cp_u0 : vec T
}.
Arguments cp_dim_x {T}. Arguments cp_dim_uc {T}. Arguments cp_f {T}. Arguments cp_costate {T}. Arguments cp_dphi {T}.
Arguments cp_dhdu {T}. Arguments cp_x0 {T}. Arguments cp_u0 {T}.

(** CgmresSolver.h:66-79 parameters. *)
Record cg_conf (T : Type) := {
  cc_sim : T; cc_horizon : T; cc_num : Z; cc_ratio : T; cc_dt : T; cc_zeta : T; cc_kmax : Z; cc_delta : T; cc_dump : Z
}.
Arguments cc_sim {T}. Arguments cc_horizon {T}. Arguments cc_num {T}. Arguments cc_ratio {T}. Arguments cc_dt {T}.
Arguments cc_zeta {T}. Arguments cc_kmax {T}. Arguments cc_delta {T}. Arguments cc_dump {T}.

(** One row of each of the files cgmres_x.dat, cgmres_u.dat, cgmres_err.dat. *)
Record cg_row (T : Type) := { cr_t : T; cr_x : vec T; cr_u : vec T; cr_err : T }.
Arguments cr_t {T}. Arguments cr_x {T}. Arguments cr_u {T}. Arguments cr_err {T}.

(** CgmresSolver.h:82-102 members; a matrix with one column per horizon step is the list of its columns.
    x_list_, lmd_list_, u_list_Amul_func_ and DhDu_list_Amul_func_ are scratch: every call of calcDhDuList
    writes them before reading them, so they are values returned by [calc_dhdu] instead of members. *)
Record cg_st (T : Type) := {
  cs_x : vec T; cs_u : vec T; cs_t_delta : T; cs_x_delta : vec T;
  cs_u_list : list (vec T); cs_dhdu : list (vec T); cs_dhdu_delta : list (vec T); cs_delta_u : vec T;
  cs_log : list (cg_row T)
}.
Arguments cs_x {T}. Arguments cs_u {T}. Arguments cs_t_delta {T}. Arguments cs_x_delta {T}. Arguments cs_u_list {T}.
Arguments cs_dhdu {T}. Arguments cs_dhdu_delta {T}. Arguments cs_delta_u {T}. Arguments cs_log {T}.

(** Gmres.h:194-195 default members of a fresh Gmres. *)
Definition gm_default : gm_config := {| gm_tri := true; gm_reorth := true |}.

Section Cgmres.
  Context {T : Type} {N : Num T}.
  Local Open Scope num_scope.
  Local Open Scope monad_scope.
  Variables (pb : cg_problem T) (cf : cg_conf T) (od sim_od : ode T).

  (** CgmresSolver.cpp:151-152 horizon_divide_step at time t. *)
  Definition horizon_step (t : T) : T :=
    let horizon_duration := cc_horizon cf * (none - nexp (nopp (cc_ratio cf) * t)) in
    horizon_duration / nofZ (cc_num cf).

  (** CgmresSolver.cpp:155-165: the columns of x_list_ and the final tau. *)
  Fixpoint forward (h tau : T) (x : vec T) (us : list (vec T)) : list (vec T) * T :=
    match us with
    | [] => ([x], tau)
    | u :: us' =>
      let '(xs, tau') := forward h (tau + h) (od (cp_f pb) tau x u h) us' in
      (x :: xs, tau')
    end.

  (** CgmresSolver.cpp:171-183: [rev] lists (x_i, u_i) from i = N - 1 down; the accumulators hold the columns
      of lmd_list_ and DhDu_list from the current i on. *)
  Fixpoint backward (h tau : T) (lmd : vec T) (rev : list (vec T * vec T)) (ls ds : list (vec T)) : list (vec T) * list (vec T) :=
    match rev with
    | [] => (ls, ds)
    | (x, u) :: rev' =>
      let lmd' := od (cp_costate pb) tau lmd (x ++ u) (nopp h) in
      let tau' := tau - h in
      let d := cp_dhdu pb tau' x u lmd in
      backward h tau' lmd' rev' (lmd' :: ls) (d :: ds)
    end.

  (** CgmresSolver.cpp:146-184 calcDhDuList: x_list_, lmd_list_ and DhDu_list. *)
  Definition calc_all (t : T) (x : vec T) (us : list (vec T)) : list (vec T) * list (vec T) * list (vec T) :=
    let h := horizon_step t in
    let '(xs, tau) := forward h t x us in
    let lmd := cp_dphi pb tau (last xs []) in
    let '(ls, ds) := backward h tau lmd (rev (combine (removelast xs) us)) [lmd] [] in
    (xs, ls, ds).
  Definition calc_dhdu (t : T) (x : vec T) (us : list (vec T)) : list (vec T) := snd (calc_all t x us).

  (** vec.segment(i * dim_uc, dim_uc) and the per-column updates of 137-140 and 189-193. *)
  Definition seg (v : vec T) (i : nat) : vec T := vbuild (cp_dim_uc pb) (fun j => vget v (Nat.add (Nat.mul i (cp_dim_uc pb)) j)).
  Definition add_cols (c : T) (v : vec T) (us : list (vec T)) : list (vec T) :=
    map (fun iu => vadd (snd iu) (vscale c (seg v (fst iu)))) (combine (seq 0 (length us)) us).

  (** CgmresSolver.cpp:186-202 eqAmulFunc. [dd] is *DhDu_vec_with_delta_. *)
  Definition eq_amul (td : T) (xd : vec T) (us : list (vec T)) (dd : vec T) (v : vec T) : vec T :=
    let da := concat (calc_dhdu td xd (add_cols (cc_delta cf) v us)) in
    vbuild (length da) (fun i => (vget da i - vget dd i) / cc_delta cf).

  (** [lsq] is unused: the Gmres objects are default constructed. *)
  Definition no_lsq : mat T -> vec T -> vec T := fun _ _ => [].

  (** CgmresSolver.cpp:111-144 calcControlInput; returns u. Guards: horizon_divide_num_ columns, the sizes of x,
      next_x and delta_u_vec_, and u_list_.col(0). *)
  Definition calc_control (t : T) (x next_x : vec T) : M (cg_st T) (vec T) :=
    st <- get ;;
    guard (Z.eqb (Z.of_nat (length (cs_u_list st))) (cc_num cf) && vdimb (cp_dim_x pb) x && vdimb (cp_dim_x pb) next_x) ;;;
    (* 117 *)
    let dh := calc_dhdu t x (cs_u_list st) in
    (* 120-122 *)
    let td := t + cc_delta cf in
    let xd := vadd (vscale (none - cc_delta cf / cc_dt cf) x) (vscale (cc_delta cf / cc_dt cf) next_x) in
    let dhd := calc_dhdu td xd (cs_u_list st) in
    (* 126-130 *)
    let d := concat dh in
    let dd := concat dhd in
    let eq_b := vbuild (length d) (fun i => ((none - cc_zeta cf * cc_delta cf) * vget d i - vget dd i) / cc_delta cf) in
    (* 133-134: literal 1e-10 *)
    guard (vdimb (Nat.mul (length (cs_u_list st)) (cp_dim_uc pb)) (cs_delta_u st)) ;;;
    out <- gm_solve gm_default no_lsq (eq_amul td xd (cs_u_list st) dd) eq_b (cs_delta_u st) (cc_kmax cf) (nlit 1 10000000000) ;;
    (* 137-140 *)
    let us := add_cols (cc_dt cf) (go_x out) (cs_u_list st) in
    put {| cs_x := cs_x st; cs_u := cs_u st; cs_t_delta := td; cs_x_delta := xd; cs_u_list := us; cs_dhdu := dh;
           cs_dhdu_delta := dhd; cs_delta_u := go_x out; cs_log := cs_log st |} ;;;
    (* 143 *)
    must (hd_error us).

  (** CgmresSolver.cpp:21-41: the Newton loop of setup with its finite-difference operator; literals 1e-6 and 1e-10.
      Returns u_ and DhDu. *)
  Definition su_amul (x lmd u dh v : vec T) : vec T :=
    let dd := cp_dhdu pb nzero x (vadd u (vscale (cc_delta cf) v)) lmd in
    vbuild (length dd) (fun i => (vget dd i - vget dh i) / cc_delta cf).
  Fixpoint newton {S} (m : nat) (x lmd u delta_u dh : vec T) : M S (vec T * vec T) :=
    match m with
    | O => ret (u, dh)
    | Datatypes.S m' =>
      let dh' := cp_dhdu pb nzero x u lmd in
      if vnorm dh' <=? nlit 1 1000000 then ret (u, dh')
      else
        guard (vdimb (cp_dim_uc pb) u) ;;;
        out <- gm_solve gm_default no_lsq (su_amul x lmd u dh') (vopp dh') delta_u (Z.of_nat (cp_dim_uc pb)) (nlit 1 10000000000) ;;
        newton m' x lmd (vadd u (go_x out)) (go_x out) dh'
    end.

  (** CgmresSolver.cpp:8-64 setup; the message of 42-45 is not modelled. resize needs at least zero columns. *)
  Definition setup : M (cg_st T) unit :=
    st <- get ;;
    let x := cp_x0 pb in
    let lmd := cp_dphi pb nzero x in
    r <- newton 100 x lmd (cp_u0 pb) (vzero (cp_dim_uc pb)) (vzero (cp_dim_uc pb)) ;;
    let u := fst r in
    let dh := snd r in
    guard (0 <=? cc_num cf)%Z ;;;
    let n := Z.to_nat (cc_num cf) in
    guard (Nat.eqb n 0 || vdimb (cp_dim_uc pb) u) ;;;
    put {| cs_x := x; cs_u := u; cs_t_delta := cs_t_delta st; cs_x_delta := vzero (cp_dim_x pb); cs_u_list := repeat u n;
           cs_dhdu := repeat dh n; cs_dhdu_delta := repeat (vzero (cp_dim_uc pb)) n;
           cs_delta_u := vzero (Nat.mul n (cp_dim_uc pb)); cs_log := cs_log st |}.

  (** CgmresSolver.cpp:86-103: one pass of the simulation loop at time t with counter i. The counter is an int. *)
  Definition run_step (t : T) (i : Z) : M (cg_st T) unit :=
    st <- get ;;
    (* 87-89 *)
    let next_x := sim_od (cp_f pb) t (cs_x st) (cs_u st) (cc_dt cf) in
    (* 92 *)
    u <- calc_control t (cs_x st) next_x ;;
    (* 94 *)
    st' <- get ;;
    put {| cs_x := next_x; cs_u := u; cs_t_delta := cs_t_delta st'; cs_x_delta := cs_x_delta st'; cs_u_list := cs_u_list st';
           cs_dhdu := cs_dhdu st'; cs_dhdu_delta := cs_dhdu_delta st'; cs_delta_u := cs_delta_u st'; cs_log := cs_log st' |} ;;;
    (* 97-102: i % dump_step_ *)
    guard (negb (Z.eqb (cc_dump cf) 0)) ;;;
    (if Z.eqb (Z.rem i (cc_dump cf)) 0 then
       modify (fun s => {| cs_x := cs_x s; cs_u := cs_u s; cs_t_delta := cs_t_delta s; cs_x_delta := cs_x_delta s;
                           cs_u_list := cs_u_list s; cs_dhdu := cs_dhdu s; cs_dhdu_delta := cs_dhdu_delta s; cs_delta_u := cs_delta_u s;
                           cs_log := cs_log s ++ [{| cr_t := t; cr_x := cs_x s; cr_u := cs_u s; cr_err := vnorm (concat (cs_dhdu s)) |}] |})
     else ret tt) ;;;
    (* 103 *)
    guard (i <? 2147483647)%Z.

  (** CgmresSolver.cpp:84 for(double t = 0; t <= sim_duration_; t += dt_). *)
  Fixpoint run_loop (fuel : nat) (t : T) (i : Z) : M (cg_st T) unit :=
    match fuel with
    | O => fun _ => OutOfFuel
    | Datatypes.S fuel' =>
      if t <=? cc_sim cf then run_step t i ;;; run_loop fuel' (t + cc_dt cf) (i + 1)%Z else ret tt
    end.

  (** CgmresSolver.cpp:66-109 run; the parameter file (71-77) is not modelled. The files are truncated by open. *)
  Definition cg_run (fuel : nat) : M (cg_st T) unit :=
    modify (fun s => {| cs_x := cs_x s; cs_u := cs_u s; cs_t_delta := cs_t_delta s; cs_x_delta := cs_x_delta s; cs_u_list := cs_u_list s;
                        cs_dhdu := cs_dhdu s; cs_dhdu_delta := cs_dhdu_delta s; cs_delta_u := cs_delta_u s; cs_log := [] |}) ;;;
    setup ;;; run_loop fuel nzero 0.
End Cgmres.
