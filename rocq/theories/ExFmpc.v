(** Concrete FMPC problems, used as non-vacuity examples and as counterexamples. *)
From Verif Require Import Prelude Scalar LinAlg DDP Fmpc ExDDP.
Local Open Scope num_scope.

Section Ex.
  Context {T : Type} {N : Num T}.
  (** One input: the linear solves are divisions. *)
  Definition div_lin : linops T := {|
    ld_ok := fun G => true;
    ld_vec := fun G b => vbuild 1 (fun i => vget b i / mget G 0 0);
    ld_mat := fun G B => mbuild 1 (mcols B) (fun i j => mget B i j / mget G 0 0);
    lu_vec := fun G b => vbuild 1 (fun i => vget b i / mget G 0 0);
    lu_mat := fun G B => mbuild 1 (mcols B) (fun i j => mget B i j / mget G 0 0) |}.

  (** x' = x + u, running cost (x^2 + u^2)/2, terminal cost x^2/2 (lq_pb) with u <= 1. *)
  Definition ex_fp : fproblem T := {|
    fp_dp := lq_pb; fp_fixed_ng := Some 1%nat; fp_ineqDim := fun _ => 1%Z;
    fp_g := fun t x u => [vget u 0 - nofZ 1];
    fp_gDeriv := fun t x u _ => (m11 nzero, m11 none) |}.
  (** The same with run-time dimensions. *)
  Definition ex_fp_dyn : fproblem T := {|
    fp_dp := lq_pb_dyn; fp_fixed_ng := None; fp_ineqDim := fun _ => 1%Z;
    fp_g := fp_g ex_fp; fp_gDeriv := fp_gDeriv ex_fp |}.
  (** The same without inequality constraints. *)
  Definition ex_fp_free : fproblem T := {|
    fp_dp := lq_pb; fp_fixed_ng := Some 0%nat; fp_ineqDim := fun _ => 0%Z;
    fp_g := fun t x u => []; fp_gDeriv := fun t x u _ => (mzero 0 1, mzero 0 1) |}.

  Definition ex_fcoeff (a : T) : coeff T := {|
    c_A := m11 a; c_B := m11 a; c_C := m11 a; c_D := m11 a; c_Lx := [a]; c_Lu := [a]; c_Lxx := m11 a; c_Luu := m11 a; c_Lxu := m11 a;
    c_xbar := [a]; c_gbar := [a]; c_Lxbar := [a]; c_Lubar := [a]; c_k := [a]; c_K := m11 a; c_s := [a]; c_P := m11 a |}.
  (** Fresh memory filled with [a]. *)
  Definition ex_fjunk (a : T) : fjunk T := {| fj_x := [a]; fj_u := [a]; fj_g := [a]; fj_coeff := fun _ _ _ => ex_fcoeff a; fj_term := ex_fcoeff a |}.

  Definition ex_fvar (n : nat) (x u l s w : T) : var T :=
    var_reset x u l s w (var_ctor [nzero] [nzero] [nzero] n).
  (** A freshly constructed solver. *)
  Definition ex_fs0 : fsolver T := {|
    f_t := nzero; f_x := [nzero]; f_var := var_ctor [nzero] [nzero] [nzero] 0; f_delta := var_ctor [nzero] [nzero] [nzero] 0; f_coeff := [];
    f_trace := []; f_eps := nlit 1 10000; f_mscale := nzero; f_mfunc := nzero; f_mderiv := nzero |}.

  (** FmpcSolver.h:58-89: the default configuration but for the horizon, the iteration limit and three flags. *)
  Definition ex_fcf (hor max_iter : Z) (init upd ls : bool) : fconfig T := let d := fmpc_default_config in {|
    fc_print := fc_print d; fc_hor := hor; fc_max_iter := max_iter; fc_kkt := fc_kkt d; fc_check_nan := fc_check_nan d; fc_init := init;
    fc_update_eps := upd; fc_break := fc_break d; fc_ls := ls; fc_lagr := fc_lagr d |}.
End Ex.
