(** The example problems shipped with the solvers (the test directories of the three packages).
    std::pow(a, 2) is written a * a. The output buffers handed to a derivative callback have the documented size
    (the solvers guarantee it), so the callbacks below build their results from the sizes of the arguments.
    The overloads of calcStateEqDeriv with second derivatives are only called by the solver just before it throws
    (use_state_eq_second_derivative); the overloads that throw std::runtime_error at once are not distinguished from that. *)
From Verif Require Import Prelude Scalar LinAlg DDP Fmpc Cgmres.

Section Vectors.
  Context {T : Type} {N : Num T}.
  Local Open Scope num_scope.
  Definition sqr (a : T) : T := a * a.
  (** a.cwiseProduct(b), a.cwiseAbs2(), a / c *)
  Definition vcwise (a b : vec T) : vec T := vbuild (length a) (fun i => vget a i * vget b i).
  Definition vabs2 (a : vec T) : vec T := vcwise a a.
  Definition vdivs (a : vec T) (c : T) : vec T := vbuild (length a) (fun i => vget a i / c).
  (** Comma initialisers *)
  Definition mat22 (a b c d : T) : mat T := mkmat 2 2 [[a; b]; [c; d]].
  Definition col2 (a b : T) : mat T := mkmat 2 1 [[a]; [b]].
  (** x.segment<3>(k) *)
  Definition seg3 (x : vec T) (k : nat) : vec T := vbuild 3 (fun i => vget x (k + i)).
  (** a.cross(b) *)
  Definition cross (a b : vec T) : vec T :=
    [vget a 1 * vget b 2 - vget a 2 * vget b 1; vget a 2 * vget b 0 - vget a 0 * vget b 2; vget a 0 * vget b 1 - vget a 1 * vget b 0].
End Vectors.

(** ** nmpc_ddp/tests/src/TestDDPBipedal.cpp *)
Section Bipedal.
  Context {T : Type} {N : Num T}.
  Local Open Scope num_scope.
  (** 30-36 constructor arguments, 21-28 CostWeight *)
  Record bip_par := { bp_dt : T; bp_zmp : T -> T; bp_omega2 : T -> T; bp_rvel : T; bp_rzmp : T; bp_tpos : T; bp_tvel : T }.
  Variable p : bip_par.
  (** 124-130 *)
  Definition bip_A (t : T) : mat T :=
    let omega2 := bp_omega2 p t in
    mat22 (nofZ 1 + nhalf * bp_dt p * bp_dt p * omega2) (bp_dt p) (bp_dt p * omega2) (nofZ 1).
  (** 132-138 *)
  Definition bip_B (t : T) : mat T :=
    let omega2 := bp_omega2 p t in
    col2 (nopp nhalf * bp_dt p * bp_dt p * omega2) (nofZ (-1) * bp_dt p * omega2).
  (** 38-41 *)
  Definition bip_f (t : T) (x u : vec T) : vec T := vadd (mvmul (bip_A t) x) (mvmul (bip_B t) u).
  (** 43-47 *)
  Definition bip_L (t : T) (x u : vec T) : T :=
    bp_rvel p * nhalf * sqr (vget x 1) + bp_rzmp p * nhalf * sqr (vget u 0 - bp_zmp p t).
  (** 49-53 *)
  Definition bip_phi (t : T) (x : vec T) : T :=
    bp_tpos p * nhalf * sqr (vget x 0 - bp_zmp p t) + bp_tvel p * nhalf * sqr (vget x 1).
  (** 55-63 *)
  Definition bip_fd (t : T) (x u : vec T) : mat T * mat T := (bip_A t, bip_B t).
  (** 80-89 *)
  Definition bip_Ld1 (t : T) (x u : vec T) : vec T * vec T :=
    ([nzero; bp_rvel p * vget x 1], [bp_rzmp p * (vget u 0 - bp_zmp p t)]).
  (** 91-104 *)
  Definition bip_Ld (t : T) (x u : vec T) : vec T * vec T * mat T * mat T * mat T :=
    let '(Lx, Lu) := bip_Ld1 t x u in
    (Lx, Lu, mat22 nzero nzero nzero (bp_rvel p), mkmat 1 1 [[bp_rzmp p]], col2 nzero nzero).
  (** 106-112 *)
  Definition bip_phid1 (t : T) (x : vec T) : vec T := [bp_tpos p * (vget x 0 - bp_zmp p t); bp_tvel p * vget x 1].
  (** 114-121 *)
  Definition bip_phid (t : T) (x : vec T) : vec T * mat T := (bip_phid1 t x, mat22 (bp_tpos p) nzero nzero (bp_tvel p)).
  (** 18: DDPProblem<2, 1> *)
  Definition bipedal : problem T := {|
    pb_dt := bp_dt p; pb_nx := 2; pb_fixed_nu := Some 1%nat; pb_inputDim := fun _ => 1%Z;
    pb_stateEq := bip_f; pb_runningCost := bip_L; pb_terminalCost := bip_phi;
    pb_stateEqDeriv := fun t x u _ => bip_fd t x u; pb_stateEqDeriv2 := fun t x u _ => bip_fd t x u;
    pb_runningCostDeriv := fun t x u _ => bip_Ld t x u; pb_terminalCostDeriv := fun t x _ => bip_phid t x |}.

  (** 152-160 *)
  Definition min_jerk (t : T) : T := nofZ 6 * (t * t * t * t * t) + nofZ (-15) * (t * t * t * t) + nofZ 10 * (t * t * t).
  Definition min_jerk_dd (t : T) : T := nofZ 120 * (t * t * t) + nofZ (-180) * (t * t) + nofZ 60 * t.
End Bipedal.
Arguments bip_par T : clear implicits.

(** ** nmpc_ddp/tests/src/TestDDPVerticalMotion.cpp *)
Section Vertical.
  Context {T : Type} {N : Num T}.
  Local Open Scope num_scope.
  (** 14-17 and 20-23, with scale_factor = 1 *)
  Definition smooth_abs (v : vec T) : vec T := vbuild (length v) (fun i => nsqrt (sqr (vget v i) + sqr none) - none).
  Definition smooth_abs_d (v : vec T) : vec T := vbuild (length v) (fun i => vget v i * (none / nsqrt (sqr (vget v i) + sqr none))).
  (** 49-54 constructor arguments, 35-47 CostWeight, 225-233 members *)
  Record vert_par := { vp_dt : T; vp_ref : T -> T; vp_rx : vec T; vp_ru : T; vp_tx : vec T; vp_mass : T; vp_smooth : bool }.
  Variable p : vert_par.
  Definition grav : T := nlit 980665 100000.
  (** 58-75 *)
  Definition vert_dim (t : T) : Z :=
    let t := t + nlit 1 1000000 in
    if (nofZ 2 <? t) && (t <? nofZ 3) then 2%Z
    else if (nlit 45 10 <? t) && (t <? nofZ 5) then 0%Z else 1%Z.
  (** 77-84 *)
  Definition vert_f (t : T) (x u : vec T) : vec T :=
    vadd x (vscale (vp_dt p) [vget x 1; nsum u / vp_mass p - grav]).
  Definition vert_rx (t : T) : vec T := [vp_ref p t; nzero].
  (** 86-101 *)
  Definition vert_L (t : T) (x u : vec T) : T :=
    let cost_x := nhalf * dot (vp_rx p) (vabs2 (vsub x (vert_rx t))) in
    let cost_u := if vp_smooth p then nhalf * vp_ru p * sqnorm (smooth_abs u) else nhalf * vp_ru p * sqnorm u in
    cost_x + cost_u.
  (** 103-108 *)
  Definition vert_phi (t : T) (x : vec T) : T := nhalf * dot (vp_tx p) (vabs2 (vsub x (vert_rx t))).
  (** 110-123 *)
  Definition vert_fd (t : T) (x u : vec T) : mat T * mat T :=
    (mdiagadd (mscale (vp_dt p) (mat22 nzero none nzero nzero)) none,
     mscale (vp_dt p) (mbuild 2 (length u) (fun i j => if Nat.eqb i 0 then nzero else none / vp_mass p))).
  (** 150-169 *)
  Definition vert_Ld1 (t : T) (x u : vec T) : vec T * vec T :=
    (vcwise (vp_rx p) (vsub x (vert_rx t)),
     if vp_smooth p then vscale (vp_ru p) (vcwise (smooth_abs_d u) (smooth_abs u)) else vscale (vp_ru p) u).
  (** 171-200 *)
  Definition vert_Ld (t : T) (x u : vec T) : vec T * vec T * mat T * mat T * mat T :=
    let Lx := vcwise (vp_rx p) (vsub x (vert_rx t)) in
    let Lxx := mdiag (vp_rx p) in
    let Lxu := mzero 2 (length u) in
    if vp_smooth p then
      let sd := smooth_abs_d u in
      (Lx, vscale (vp_ru p) (vcwise sd (smooth_abs u)), Lxx, mscale (vp_ru p) (mdiag (vabs2 sd)), Lxu)
    else (Lx, vscale (vp_ru p) u, Lxx, mscale (vp_ru p) (mid (length u)), Lxu).
  (** 202-210 *)
  Definition vert_phid1 (t : T) (x : vec T) : vec T := vcwise (vp_tx p) (vsub x (vert_rx t)).
  (** 212-222 *)
  Definition vert_phid (t : T) (x : vec T) : vec T * mat T := (vcwise (vp_tx p) (vsub x (vert_rx t)), mdiag (vp_tx p)).
  (** 32: DDPProblem<2, Eigen::Dynamic> *)
  Definition vertical : problem T := {|
    pb_dt := vp_dt p; pb_nx := 2; pb_fixed_nu := None; pb_inputDim := vert_dim;
    pb_stateEq := vert_f; pb_runningCost := vert_L; pb_terminalCost := vert_phi;
    pb_stateEqDeriv := fun t x u _ => vert_fd t x u; pb_stateEqDeriv2 := fun t x u _ => vert_fd t x u;
    pb_runningCostDeriv := fun t x u _ => vert_Ld t x u; pb_terminalCostDeriv := fun t x _ => vert_phid t x |}.
End Vertical.
Arguments vert_par T : clear implicits.

(** ** nmpc_ddp/tests/src/TestDDPCentroidalMotion.cpp *)
Section Centroidal.
  Context {T : Type} {N : Num T}.
  Local Open Scope num_scope.
  (** 10-16 *)
  Definition cross_mat (v : vec T) : mat T :=
    mkmat 3 3 [[nzero; nopp (vget v 2); vget v 1]; [vget v 2; nzero; nopp (vget v 0)]; [nopp (vget v 1); vget v 0; nzero]].
  (** 27-37 StanceData: vertices_mat and ridges_mat; 39-51 CostWeight; 54-60 constructor; 199-203 members *)
  Record cent_par := { cn_dt : T; cn_stance : T -> mat T * mat T; cn_ref : T -> vec T; cn_rx : vec T; cn_ru : T; cn_tx : vec T; cn_mass : T }.
  Variable p : cent_par.
  (** 64-68 *)
  Definition cent_dim (t : T) : Z := Z.of_nat (mcols (fst (cn_stance p t))).
  Definition cent_g : vec T := [nzero; nzero; nlit 980665 100000].
  (** 88-91: one contact force's moment about the centre of mass, and the accumulated sum *)
  Definition moment (V R : mat T) (com : vec T) (i : nat) : vec T := cross (vsub (mcol V i) com) (mcol R i).
  Definition moments (V R : mat T) (com u : vec T) : vec T :=
    fold_left (fun acc i => vadd acc (vscale (vget u i) (moment V R com i))) (seq 0 (length u)) (vzero 3).
  (** 70-93 *)
  Definition cent_f (t : T) (x u : vec T) : vec T :=
    let '(V, R) := cn_stance p t in
    let com := seg3 x 0 in
    let lin := seg3 x 3 in
    let com_dot := vdivs lin (cn_mass p) in
    let lin_dot := vsub (mvmul R u) (vscale (cn_mass p) cent_g) in
    let ang_dot := moments V R com u in
    vadd x (vscale (cn_dt p) (com_dot ++ lin_dot ++ ang_dot)).
  (** 97-98 x_diff *)
  Definition cent_diff (t : T) (x : vec T) : vec T := vsub (seg3 x 0) (cn_ref p t) ++ vbuild 6 (fun i => vget x (3 + i)).
  (** 95-100 *)
  Definition cent_L (t : T) (x u : vec T) : T :=
    nhalf * dot (cn_rx p) (vabs2 (cent_diff t x)) + nhalf * cn_ru p * sqnorm u.
  (** 102-107 *)
  Definition cent_phi (t : T) (x : vec T) : T := nhalf * dot (cn_tx p) (vabs2 (cent_diff t x)).
  (** 109-136 *)
  Definition cent_fd (t : T) (x u : vec T) : mat T * mat T :=
    let '(V, R) := cn_stance p t in
    let com := seg3 x 0 in
    let blk := cross_mat (mvmul R u) in
    let A := mbuild 9 9 (fun i j =>
      if Nat.ltb i 3 then (if Nat.eqb j (i + 3) then none / cn_mass p else nzero)
      else if Nat.ltb i 6 then nzero
      else if Nat.ltb j 3 then mget blk (i - 6) j else nzero) in
    let B := mbuild 9 (length u) (fun i j =>
      if Nat.ltb i 3 then nzero
      else if Nat.ltb i 6 then mget R (i - 3) j
      else vget (moment V R com j) (i - 6)) in
    (mdiagadd (mscale (cn_dt p) A) none, mscale (cn_dt p) B).
  (** 151-161 *)
  Definition cent_Ld1 (t : T) (x u : vec T) : vec T * vec T := (vcwise (cn_rx p) (cent_diff t x), vscale (cn_ru p) u).
  (** 163-178 *)
  Definition cent_Ld (t : T) (x u : vec T) : vec T * vec T * mat T * mat T * mat T :=
    let '(Lx, Lu) := cent_Ld1 t x u in
    (Lx, Lu, mdiag (cn_rx p), mscale (cn_ru p) (mid (length u)), mzero 9 (length u)).
  (** 180-187 and 189-196 *)
  Definition cent_phid1 (t : T) (x : vec T) : vec T := vcwise (cn_tx p) (cent_diff t x).
  Definition cent_phid (t : T) (x : vec T) : vec T * mat T := (cent_phid1 t x, mdiag (cn_tx p)).
  (** 24: DDPProblem<9, Eigen::Dynamic> *)
  Definition centroidal : problem T := {|
    pb_dt := cn_dt p; pb_nx := 9; pb_fixed_nu := None; pb_inputDim := cent_dim;
    pb_stateEq := cent_f; pb_runningCost := cent_L; pb_terminalCost := cent_phi;
    pb_stateEqDeriv := fun t x u _ => cent_fd t x u; pb_stateEqDeriv2 := fun t x u _ => cent_fd t x u;
    pb_runningCostDeriv := fun t x u _ => cent_Ld t x u; pb_terminalCostDeriv := fun t x _ => cent_phid t x |}.
End Centroidal.
Arguments cent_par T : clear implicits.

(** ** nmpc_fmpc/tests/src/TestFmpcOscillator.cpp *)
Section Oscillator.
  Context {T : Type} {N : Num T}.
  Local Open Scope num_scope.
  Variable dt : T.
  (** 28-36 *)
  Definition osc_f_dt (t : T) (x u : vec T) (h : T) : vec T :=
    vadd x (vscale h [(none - sqr (vget x 1)) * vget x 0 - vget x 1 + vget u 0; vget x 0]).
  (** 63-79 *)
  Definition osc_fd (t : T) (x u : vec T) : mat T * mat T :=
    (mdiagadd (mscale dt (mat22 (none - sqr (vget x 1)) (nofZ (-2) * vget x 0 * vget x 1 - none) none nzero)) none,
     mscale dt (col2 none nzero)).
  (** 19: FmpcProblem<2, 1, 3>; 23-26 stateEq, 38-43 runningCost, 45-50 terminalCost, 52-61 ineqConst,
      81-104 calcRunningCostDeriv, 106-120 calcTerminalCostDeriv, 122-134 calcIneqConstDeriv *)
  Definition oscillator : fproblem T := {|
    fp_dp := {|
      pb_dt := dt; pb_nx := 2; pb_fixed_nu := Some 1%nat; pb_inputDim := fun _ => 1%Z;
      pb_stateEq := fun t x u => osc_f_dt t x u dt;
      pb_runningCost := fun t x u => nhalf * (sqnorm x + sqnorm u);
      pb_terminalCost := fun t x => nzero;
      pb_stateEqDeriv := fun t x u _ => osc_fd t x u; pb_stateEqDeriv2 := fun t x u _ => osc_fd t x u;
      pb_runningCostDeriv := fun t x u _ => (x, u, mid 2, mid 1, mzero 2 1);
      pb_terminalCostDeriv := fun t x _ => (vzero 2, mzero 2 2) |};
    fp_fixed_ng := Some 3%nat; fp_ineqDim := fun _ => 3%Z;
    fp_g := fun t x u => [nofZ (-1) * vget x 1 - nlit 5 100; nofZ (-1) * vget u 0 - none; vget u 0 - nlit 9 10];
    fp_gDeriv := fun t x u _ => (mkmat 3 2 [[nzero; nofZ (-1)]; [nzero; nzero]; [nzero; nzero]], mkmat 3 1 [[nzero]; [nofZ (-1)]; [none]]) |}.
End Oscillator.

(** ** The cart-pole of nmpc_ddp/tests/src/TestDDPCartPole.cpp and nmpc_fmpc/tests/src/TestFmpcCartPole.cpp.
    std::sin and std::cos are parameters. *)
Section CartPole.
  Context {T : Type} {N : Num T}.
  Local Open Scope num_scope.
  Variables nsin ncos : T -> T.
  (** DDP 25-51, 54-61 and FMPC 31-57, 60-65: Param, CostWeight and constructor *)
  Record cart_par := { cr_dt : T; cr_ref : T -> T; cr_m1 : T; cr_m2 : T; cr_l : T; cr_rx : vec T; cr_ru : vec T; cr_tx : vec T }.
  Variable p : cart_par.
  (** DDP 68-98, FMPC 72-102 *)
  Definition cart_f_dt (t : T) (x u : vec T) (h : T) : vec T :=
    let theta := vget x 1 in let vel := vget x 2 in let omega := vget x 3 in let f := vget u 0 in
    let m1 := cr_m1 p in let m2 := cr_m2 p in let l := cr_l p in
    let sin_theta := nsin theta in let cos_theta := ncos theta in let omega2 := sqr omega in
    let denom := m1 + m2 * sqr sin_theta in
    vadd x (vscale h
      [vel; omega;
       (f - m2 * l * omega2 * sin_theta + m2 * grav * sin_theta * cos_theta) / denom;
       (f * cos_theta - m2 * l * omega2 * sin_theta * cos_theta + grav * (m1 + m2) * sin_theta) / (l * denom)]).
  (** DDP 63-66, FMPC 67-70 *)
  Definition cart_f (t : T) (x u : vec T) : vec T := cart_f_dt t x u (cr_dt p).
  Definition cart_rx (t : T) : vec T := [cr_ref p t; nzero; nzero; nzero].
  (** DDP 100-105, FMPC 104-109 *)
  Definition cart_L (t : T) (x u : vec T) : T :=
    nhalf * dot (cr_rx p) (vabs2 (vsub x (cart_rx t))) + nhalf * dot (cr_ru p) (vabs2 u).
  (** DDP 107-112, FMPC 111-116 *)
  Definition cart_phi (t : T) (x : vec T) : T := nhalf * dot (cr_tx p) (vabs2 (vsub x (cart_rx t))).
  (** DDP 114-159, FMPC 134-179 *)
  Definition cart_fd (t : T) (x u : vec T) : mat T * mat T :=
    let theta := vget x 1 in let omega := vget x 3 in let f := vget u 0 in
    let m1 := cr_m1 p in let m2 := cr_m2 p in let l := cr_l p in
    let sin_theta := nsin theta in let cos_theta := ncos theta in let omega2 := sqr omega in
    let denom := m1 + m2 * sqr sin_theta in
    let m21 := ((nofZ (-1) * m2 * l * omega2 * cos_theta + m2 * grav * (none - nofZ 2 * sqr sin_theta)) * denom
                + nofZ (-1) * (f - m2 * l * omega2 * sin_theta + m2 * grav * sin_theta * cos_theta) * (nofZ 2 * m2 * sin_theta * cos_theta))
               / sqr denom in
    let m23 := (nofZ (-2) * m2 * l * omega * sin_theta) / denom in
    let m31 := ((nofZ (-1) * f * sin_theta + nofZ (-1) * m2 * l * omega2 * (none - nofZ 2 * sqr sin_theta) + grav * (m1 + m2) * cos_theta) * denom
                + nofZ (-1) * (f * cos_theta - m2 * l * omega2 * sin_theta * cos_theta + grav * (m1 + m2) * sin_theta)
                  * (nofZ 2 * m2 * sin_theta * cos_theta))
               / (l * sqr denom) in
    let m33 := (nofZ (-2) * m2 * l * omega * sin_theta * cos_theta) / (l * denom) in
    (mdiagadd (mscale (cr_dt p)
       (mkmat 4 4 [[nzero; nzero; none; nzero]; [nzero; nzero; nzero; none]; [nzero; m21; nzero; m23]; [nzero; m31; nzero; m33]])) none,
     mscale (cr_dt p) (mkmat 4 1 [[nzero]; [nzero]; [none / denom]; [cos_theta / (l * denom)]])).
  (** DDP 174-185, FMPC 181-192 *)
  Definition cart_Ld1 (t : T) (x u : vec T) : vec T * vec T := (vcwise (cr_rx p) (vsub x (cart_rx t)), vcwise (cr_ru p) u).
  (** DDP 187-205, FMPC 194-212 *)
  Definition cart_Ld (t : T) (x u : vec T) : vec T * vec T * mat T * mat T * mat T :=
    (vcwise (cr_rx p) (vsub x (cart_rx t)), vcwise (cr_ru p) u, mdiag (cr_rx p), mdiag (cr_ru p), mzero 4 1).
  (** DDP 207-215, FMPC 214-222 *)
  Definition cart_phid1 (t : T) (x : vec T) : vec T := vcwise (cr_tx p) (vsub x (cart_rx t)).
  (** DDP 217-227, FMPC 224-234 *)
  Definition cart_phid (t : T) (x : vec T) : vec T * mat T := (vcwise (cr_tx p) (vsub x (cart_rx t)), mdiag (cr_tx p)).
  (** DDP 22: DDPProblem<4, 1> *)
  Definition cartpole : problem T := {|
    pb_dt := cr_dt p; pb_nx := 4; pb_fixed_nu := Some 1%nat; pb_inputDim := fun _ => 1%Z;
    pb_stateEq := cart_f; pb_runningCost := cart_L; pb_terminalCost := cart_phi;
    pb_stateEqDeriv := fun t x u _ => cart_fd t x u; pb_stateEqDeriv2 := fun t x u _ => cart_fd t x u;
    pb_runningCostDeriv := fun t x u _ => cart_Ld t x u; pb_terminalCostDeriv := fun t x _ => cart_phid t x |}.
  (** FMPC 28: FmpcProblem<4, 1, 4>; 118-132 ineqConst, 236-249 calcIneqConstDeriv *)
  Definition cartpole_f : fproblem T := {|
    fp_dp := cartpole; fp_fixed_ng := Some 4%nat; fp_ineqDim := fun _ => 4%Z;
    fp_g := fun t x u =>
      let u_max := nofZ 15 in let u_min := nofZ (-1) * u_max in let x_max := nofZ 20 in let x_min := nofZ (-20) in
      [nofZ (-1) * vget u 0 + u_min; vget u 0 - u_max; nofZ (-1) * vget x 0 + x_min; vget x 0 - x_max];
    fp_gDeriv := fun t x u _ =>
      (mkmat 4 4 [[nzero; nzero; nzero; nzero]; [nzero; nzero; nzero; nzero]; [nofZ (-1); nzero; nzero; nzero]; [none; nzero; nzero; nzero]],
       mkmat 4 1 [[nofZ (-1)]; [none]; [nzero]; [nzero]]) |}.
End CartPole.
Arguments cart_par T : clear implicits.

(** ** nmpc_cgmres/tests/src/SemiactiveDamperProblem.h *)
Section Damper.
  Context {T : Type} {N : Num T}.
  Local Open Scope num_scope.
  (** 31-38 state_eq_param_ (a, b, u_max), obj_weight_, terminal_obj_weight_ *)
  Record damper_par := { dp_a : T; dp_b : T; dp_umax : T; dp_q1 : T; dp_q2 : T; dp_r1 : T; dp_r2 : T; dp_s1 : T; dp_s2 : T }.
  Variable p : damper_par.
  (** 40-48 *)
  Definition damp_f (t : T) (x u : vec T) : vec T := [vget x 1; dp_a p * vget x 0 + dp_b p * vget x 1 * vget u 0].
  (** xu.head(n), xu.tail(n) *)
  Definition vhead (n : nat) (v : vec T) : vec T := firstn n v.
  Definition vtail (n : nat) (v : vec T) : vec T := skipn (length v - n) v.
  (** 51-67: line 62 takes the last dim_u_ = 2 entries of xu, which the solver builds from x and the dim_uc_ = 3 entries of u *)
  Definition damp_costate (t : T) (lmd xu : vec T) : vec T :=
    let x := vhead 2 xu in let u := vtail 2 xu in
    [nopp (dp_a p) * vget lmd 1 - dp_q1 p * vget x 0; nopp (dp_b p) * vget lmd 1 * vget u 0 - dp_q2 p * vget x 1 - vget lmd 0].
  (** 70-80 *)
  Definition damp_dphi (t : T) (x : vec T) : vec T := [dp_s1 p * vget x 0; dp_s2 p * vget x 1].
  (** 83-101 *)
  Definition damp_dhdu (t : T) (x u lmd : vec T) : vec T :=
    let mu := vget u 2 in
    [dp_r1 p * vget u 0 + dp_b p * vget lmd 1 * vget x 1 + mu * (nofZ 2 * vget u 0 - dp_umax p);
     nopp (dp_r2 p) + nofZ 2 * mu * vget u 1;
     sqr (vget u 0 - dp_umax p / nofZ 2) + vget u 1 * vget u 1 - dp_umax p * dp_umax p / nofZ 4].
  (** 17-29 *)
  Definition damper : cg_problem T := {|
    cp_dim_x := 2; cp_dim_uc := 3; cp_f := damp_f; cp_costate := damp_costate; cp_dphi := damp_dphi; cp_dhdu := damp_dhdu;
    cp_x0 := [nofZ 2; nzero]; cp_u0 := [nlit 1 100; nlit 9 10; nlit 3 100] |}.
  Definition damper_default : damper_par := {| dp_a := nofZ (-1); dp_b := nofZ (-1); dp_umax := nofZ 1;
    dp_q1 := nofZ 1; dp_q2 := nofZ 10; dp_r1 := nofZ 1; dp_r2 := nlit 1 10; dp_s1 := nofZ 1; dp_s2 := nofZ 10 |}.
End Damper.
Arguments damper_par T : clear implicits.
Arguments damper_default T {N}.

(** ** nmpc_cgmres/tests/src/CartPoleProblem.h *)
Section CgCart.
  Context {T : Type} {N : Num T}.
  Local Open Scope num_scope.
  Variables nsin ncos : T -> T.
  (** 17-18 ref_func_, with_input_bound_; 44-54 state_eq_param_ (m1, m2, l, f_max), obj_weight_, terminal_obj_weight_ *)
  Record cgc_par := { cg_ref : T -> vec T; cg_bound : bool; cg_m1 : T; cg_m2 : T; cg_l : T; cg_fmax : T; cg_q : vec T; cg_s : vec T }.
  Variable p : cgc_par.
  (** 22-25, 32-35 *)
  Definition cgc_dim_uc : nat := if cg_bound p then 3 else 1.
  (** 65-90 *)
  Definition cgc_f (t : T) (x u : vec T) : vec T :=
    let m1 := cg_m1 p in let m2 := cg_m2 p in let l := cg_l p in
    let theta := vget x 1 in let dx := vget x 2 in let dtheta := vget x 3 in let f := vget u 0 in
    let sin_theta := nsin theta in let cos_theta := ncos theta in
    let denom := m1 + m2 * sqr sin_theta in
    [dx; dtheta;
     (f - m2 * l * sqr dtheta * sin_theta + m2 * grav * sin_theta * cos_theta) / denom;
     (f * cos_theta - m2 * l * sqr dtheta * sin_theta * cos_theta + grav * (m1 + m2) * sin_theta) / (l * denom)].
  (** 93-137 *)
  Definition cgc_costate (t : T) (lmd xu : vec T) : vec T :=
    let x := vhead 4 xu in let u := vtail cgc_dim_uc xu in
    let m1 := cg_m1 p in let m2 := cg_m2 p in let l := cg_l p in
    let theta := vget x 1 in let dtheta := vget x 3 in let f := vget u 0 in
    let sin_theta := nsin theta in let cos_theta := ncos theta in
    let dtheta2 := sqr dtheta in let sin_theta2 := sqr sin_theta in let cos_theta2 := sqr cos_theta in
    let denom := m1 + m2 * sin_theta2 in let denom_square := sqr denom in
    let ref := cg_ref p t in let w := cg_q p in
    [nopp (vget w 0 * (vget x 0 - vget ref 0));
     nopp (vget w 1 * (vget x 1 - vget ref 1)
           + (vget lmd 2 / denom_square)
             * (((nopp m2 * l * dtheta2 * cos_theta + m2 * grav * (cos_theta2 - sin_theta2)) * denom)
                - ((f - m2 * l * dtheta2 * sin_theta + m2 * grav * sin_theta * cos_theta) * (nofZ 2 * m2 * sin_theta * cos_theta)))
           + (vget lmd 3 / (sqr l * denom_square))
             * (((nopp f * sin_theta - m2 * l * dtheta2 * (cos_theta2 - sin_theta2) + grav * (m1 + m2) * cos_theta) * l * denom)
                - ((f * cos_theta - m2 * l * dtheta2 * sin_theta * cos_theta + grav * (m1 + m2) * sin_theta)
                   * (nofZ 2 * l * m2 * sin_theta * cos_theta))));
     nopp (vget w 2 * (vget x 2 - vget ref 2) + vget lmd 0);
     nopp (vget w 3 * (vget x 3 - vget ref 3) + vget lmd 1 + vget lmd 2 * (nofZ (-2) * m2 * l * dtheta * sin_theta) / denom
           + vget lmd 3 * (nofZ (-2) * m2 * l * dtheta * sin_theta * cos_theta) / (l * denom))].
  (** 140-152 *)
  Definition cgc_dphi (t : T) (x : vec T) : vec T :=
    let ref := cg_ref p t in vbuild 4 (fun i => vget (cg_s p) i * (vget x i - vget ref i)).
  (** 155-189 *)
  Definition cgc_dhdu (t : T) (x u lmd : vec T) : vec T :=
    let m1 := cg_m1 p in let m2 := cg_m2 p in let l := cg_l p in
    let theta := vget x 1 in let f := vget u 0 in let r1 := vget (cg_q p) 4 in
    let sin_theta := nsin theta in let cos_theta := ncos theta in
    let denom := m1 + m2 * sqr sin_theta in
    let d0 := r1 * f + vget lmd 2 * (none / denom) + vget lmd 3 * (cos_theta / (l * denom)) in
    if cg_bound p then
      let f_max := cg_fmax p in let r2 := vget (cg_q p) 5 in let f_dummy := vget u 1 in let mu := vget u 2 in
      [d0 + nofZ 2 * mu * f; nopp r2 + nofZ 2 * mu * f_dummy; sqr f + sqr f_dummy - sqr f_max]
    else [d0].
  (** 20-42; [pi] is M_PI *)
  Definition cg_cartpole (pi : T) : cg_problem T := {|
    cp_dim_x := 4; cp_dim_uc := cgc_dim_uc; cp_f := cgc_f; cp_costate := cgc_costate; cp_dphi := cgc_dphi; cp_dhdu := cgc_dhdu;
    cp_x0 := [nzero; pi; nzero; nzero]; cp_u0 := if cg_bound p then [nzero; none; nlit 1 100] else [nzero] |}.
End CgCart.
Arguments cgc_par T : clear implicits.
