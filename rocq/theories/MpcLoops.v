(** The receding-horizon loops of the test programs. *)
From Verif Require Import Prelude Scalar LinAlg DDP Fmpc Problems.

(** ** nmpc_ddp/tests/src: TestDDPBipedal.cpp 232-268, TestDDPVerticalMotion.cpp 274-325, TestDDPCentroidalMotion.cpp 270-340 *)
Section DDPLoop.
  Context {T : Type} {N : Num T}.
  Local Open Scope num_scope.
  Variables (LL : lltops T) (pb : problem T) (limits : option (T -> vec T * vec T)).

  (** How the input sequence is extended after the shift.
      [Repeat]: Bipedal 267. [Fit]: Vertical 314-323, Centroidal 323-332. *)
  Inductive refill := Repeat | Fit.

  (** std::vector::back(), undefined on an empty vector *)
  Definition back {A} (l : list A) : option A := nth_error l (length l - 1).

  (** Bipedal 265-267, Vertical 312-323, Centroidal 321-332. None: back() or erase(begin()) of an empty vector, or Zero(negative). *)
  Definition shift (k : refill) (horizon : Z) (t : T) (us : list (vec T)) : option (list (vec T)) :=
    match us with
    | [] => None
    | _ :: us1 =>
        match back us1 with
        | None => None
        | Some u =>
            match k with
            | Repeat => Some (us1 ++ [u])
            | Fit =>
                let d := pb_inputDim pb (t + nofZ horizon * pb_dt pb) in
                if (Z.of_nat (length u) =? d)%Z then Some (us1 ++ [u])
                else if (d <? 0)%Z then None else Some (us1 ++ [vzero (Z.to_nat d)])
            end
        end
    end.

  (** current_t, current_x, current_u_list, the solver object, and what each pass wrote to the result file and read from the
      solver (t, controlData(), traceDataList()) *)
  Record mpc := { m_t : T; m_x : vec T; m_us : list (vec T); m_sol : ddp T; m_log : list (T * cdata T * list (trace T)) }.

  (** One pass. [cf], [jk], [fuel], [qfuel]: see ddp_solve. Reading u_list[0], x_list[1] and traceDataList().back() is guarded. *)
  Definition mpc_pass (k : refill) (cf : config T) (jk : junk T) (fuel qfuel : nat) (st : mpc) : outcome mpc unit :=
    match ddp_solve LL pb cf limits jk fuel qfuel (m_t st) (m_x st) (m_us st) (m_sol st) with
    | Ok _ s =>
        match nth_error (cd_u (s_cd s)) 0, nth_error (cd_x (s_cd s)) 1, back (s_trace s), shift k (cf_horizon cf) (m_t st) (cd_u (s_cd s)) with
        | Some _, Some x1, Some _, Some us =>
            Ok tt {| m_t := m_t st + pb_dt pb; m_x := x1; m_us := us; m_sol := s; m_log := m_log st ++ [(m_t st, s_cd s, s_trace s)] |}
        | _, _, _, _ => UB
        end
    | Throw e s => Throw e {| m_t := m_t st; m_x := m_x st; m_us := m_us st; m_sol := s; m_log := m_log st |}
    | UB => UB
    | OutOfFuel => OutOfFuel
    end.

  (** while(current_t < end_t). The configuration may change between passes (max_iter = 3 after the first one). *)
  Fixpoint mpc_loop (k : refill) (cfs : nat -> config T) (jks : nat -> junk T) (fuel qfuel : nat) (end_t : T) (passes : nat) (i : nat) (st : mpc) : outcome mpc unit :=
    if m_t st <? end_t then
      match passes with
      | O => OutOfFuel
      | Datatypes.S passes' =>
          match mpc_pass k (cfs i) (jks i) fuel qfuel st with
          | Ok _ st' => mpc_loop k cfs jks fuel qfuel end_t passes' (Datatypes.S i) st'
          | o => o
          end
      end
    else Ok tt st.
End DDPLoop.

(** ** nmpc_fmpc/tests/src/TestFmpcOscillator.cpp 153-191 *)
Section FmpcLoop.
  Context {T : Type} {N : Num T}.
  Local Open Scope num_scope.
  Variables (LO : linops T) (horizon_dt sim_dt : T) (cf : fconfig T).

  (** current_t, current_x, variable, the solver object, and per pass: t, x, u, status, value of ineqConst (169-185) *)
  Record osc_mpc := { o_t : T; o_x : vec T; o_var : var T; o_sol : fsolver T; o_log : list (T * vec T * vec T * fstatus * vec T) }.

  (** 166-190 *)
  Definition osc_pass (jk : fjunk T) (fuel : nat) (st : osc_mpc) : outcome osc_mpc unit :=
    let pb := oscillator horizon_dt in
    match fmpc_solve LO pb cf jk fuel (o_t st) (o_x st) (o_var st) (o_sol st) with
    | Ok r s =>
        match nth_error (v_u (f_var s)) 0, back (f_trace s) with
        | Some u, Some _ =>
            Ok tt {| o_t := o_t st + sim_dt; o_x := osc_f_dt (o_t st) (o_x st) u sim_dt; o_var := f_var s; o_sol := s;
                     o_log := o_log st ++ [(o_t st, o_x st, u, r, fp_g pb (o_t st) (o_x st) u)] |}
        | _, _ => UB
        end
    | Throw e s => Throw e {| o_t := o_t st; o_x := o_x st; o_var := o_var st; o_sol := s; o_log := o_log st |}
    | UB => UB
    | OutOfFuel => OutOfFuel
    end.
  Fixpoint osc_loop (jks : nat -> fjunk T) (fuel : nat) (end_t : T) (passes i : nat) (st : osc_mpc) : outcome osc_mpc unit :=
    if o_t st <? end_t then
      match passes with
      | O => OutOfFuel
      | Datatypes.S passes' =>
          match osc_pass (jks i) fuel st with
          | Ok _ st' => osc_loop jks fuel end_t passes' (Datatypes.S i) st'
          | o => o
          end
      end
    else Ok tt st.
End FmpcLoop.
(** ** nmpc_ddp/tests/src/TestDDPCartPole.cpp and nmpc_fmpc/tests/src/TestFmpcCartPole.cpp: simulation loop, MPC timer and services.
    ros::spinOnce runs the callbacks that are due between two simulation steps, in an order the programs do not determine. A run is therefore
    a list of events, in any order. ros::ok(), no_exit and end_t only determine how many simulation steps there are. *)
Section CartLoop.
  Context {T : Type} {N : Num T}.
  Local Open Scope num_scope.
  Variables (nsin ncos : T -> T) (par : cart_par T) (sim_dt : T).

  (** current_t_, current_x_, current_u_, dist_t_, dist_u_, target_pos_ (None: NaN, its initial value) *)
  Record cart_sim := { k_t : T; k_x : vec T; k_u : vec T; k_dist_t : T; k_dist : vec T; k_target : option T }.
  (** DDP 364-377, FMPC 390-403 getRefPos; the result does not depend on t *)
  Definition cart_ref (st : cart_sim) : T := match k_target st with None => nzero | Some q => q end.
  (** The problem object, which reads the target through the function given to its constructor (DDP 272-273, FMPC 294-295) *)
  Definition cart_now (st : cart_sim) : cart_par T := {| cr_dt := cr_dt par; cr_ref := fun _ => cart_ref st;
    cr_m1 := cr_m1 par; cr_m2 := cr_m2 par; cr_l := cr_l par; cr_rx := cr_rx par; cr_ru := cr_ru par; cr_tx := cr_tx par |}.
  (** DDP 325-331, FMPC 346-357: one simulation step, [u] being the input before the disturbance *)
  Definition cart_move (u : vec T) (st : cart_sim) : cart_sim :=
    let dist := if k_dist_t st <? k_t st then vconst 1 nzero else k_dist st in
    {| k_t := k_t st + sim_dt; k_x := cart_f_dt nsin ncos (cart_now st) (k_t st) (k_x st) (vadd u dist) sim_dt; k_u := k_u st;
       k_dist_t := k_dist_t st; k_dist := dist; k_target := k_target st |}.
  (** DDP 405-412, FMPC 421-428 distCallback *)
  Definition cart_push (force : T) (st : cart_sim) : cart_sim :=
    {| k_t := k_t st; k_x := k_x st; k_u := k_u st; k_dist_t := k_t st + nlit 1 2; k_dist := [force]; k_target := k_target st |}.
  (** DDP 414-420, FMPC 430-436 targetPosCallback *)
  Definition cart_aim (q : T) (st : cart_sim) : cart_sim :=
    {| k_t := k_t st; k_x := k_x st; k_u := k_u st; k_dist_t := k_dist_t st; k_dist := k_dist st; k_target := Some q |}.
  Definition cart_set_u (u : vec T) (st : cart_sim) : cart_sim :=
    {| k_t := k_t st; k_x := k_x st; k_u := u; k_dist_t := k_dist_t st; k_dist := k_dist st; k_target := k_target st |}.
  (** [Mpc jk]: the timer fires; [jk] is what new memory contains *)
  Inductive cart_event (J : Type) := Sim | Mpc (jk : J) | Push (force : T) | Aim (q : T).
  Arguments Sim {J}. Arguments Mpc {J}. Arguments Push {J}. Arguments Aim {J}.

  (** *** FMPC *)
  (** the simulation, variable_, first_iter_, *fmpc_solver_ *)
  Record fcart := { fk_sim : cart_sim; fk_var : var T; fk_first : bool; fk_sol : fsolver T }.
  (** FMPC 354: u + coeffList().front().K * (variable().x_list[0] - x).
      K is a compile-time 1 x 4 matrix, so the product is always defined; front() and x_list[0] are undefined on empty lists. *)
  Definition feedback (s : fsolver T) (u x : vec T) : option (vec T) :=
    match nth_error (f_coeff s) 0, nth_error (v_x (f_var s)) 0 with
    | Some c, Some xp => Some (vadd u (mvmul (c_K c) (vsub xp x)))
    | _, _ => None
    end.
  (** FMPC 351-355: current_u_, corrected by the feedback after the first solve *)
  Definition fcart_u (st : fcart) : option (vec T) :=
    if fk_first st then Some (k_u (fk_sim st)) else feedback (fk_sol st) (k_u (fk_sim st)) (k_x (fk_sim st)).
  (** FMPC 405-419 mpcTimerCallback; the trace file is left out *)
  Definition fcart_mpc (LO : linops T) (cf : fconfig T) (fuel : nat) (jk : fjunk T) (st : fcart) : outcome fcart unit :=
    let sm := fk_sim st in
    match fmpc_solve LO (cartpole_f nsin ncos (cart_now sm)) cf jk fuel (k_t sm) (k_x sm) (fk_var st) (fk_sol st) with
    | Ok _ s => match nth_error (v_u (f_var s)) 0 with
                | Some u => Ok tt {| fk_sim := cart_set_u u sm; fk_var := f_var s; fk_first := false; fk_sol := s |}
                | None => UB
                end
    | Throw e s => Throw e {| fk_sim := sm; fk_var := fk_var st; fk_first := fk_first st; fk_sol := s |}
    | UB => UB
    | OutOfFuel => OutOfFuel
    end.
  Definition fcart_with (f : cart_sim -> cart_sim) (st : fcart) : fcart :=
    {| fk_sim := f (fk_sim st); fk_var := fk_var st; fk_first := fk_first st; fk_sol := fk_sol st |}.
  Definition fcart_step (LO : linops T) (cf : fconfig T) (fuel : nat) (e : cart_event (fjunk T)) (st : fcart) : outcome fcart unit :=
    match e with
    | Sim => match fcart_u st with Some u => Ok tt (fcart_with (cart_move u) st) | None => UB end
    | Mpc jk => fcart_mpc LO cf fuel jk st
    | Push force => Ok tt (fcart_with (cart_push force) st)
    | Aim q => Ok tt (fcart_with (cart_aim q) st)
    end.
  Fixpoint fcart_run (LO : linops T) (cf : fconfig T) (fuel : nat) (es : list (cart_event (fjunk T))) (st : fcart) : outcome fcart unit :=
    match es with
    | [] => Ok tt st
    | e :: es' => match fcart_step LO cf fuel e st with Ok _ st' => fcart_run LO cf fuel es' st' | o => o end
    end.

  (** *** DDP *)
  (** DDP 379-386 getInputLimits *)
  Definition cart_limits (t : T) : vec T * vec T := (vconst 1 (nofZ (-15)), vconst 1 (nofZ 15)).
  (** the simulation, initial_u_list_, *ddp_solver_ *)
  Record dcart := { dk_sim : cart_sim; dk_us : list (vec T); dk_sol : ddp T }.
  (** DDP 388-403 mpcTimerCallback; the trace file is left out *)
  Definition dcart_mpc (LL : lltops T) (cf : config T) (fuel qfuel : nat) (jk : junk T) (st : dcart) : outcome dcart unit :=
    let sm := dk_sim st in
    match ddp_solve LL (cartpole nsin ncos (cart_now sm)) cf (Some cart_limits) jk fuel qfuel (k_t sm) (k_x sm) (dk_us st) (dk_sol st) with
    | Ok _ s => match nth_error (cd_u (s_cd s)) 0 with
                | Some u => Ok tt {| dk_sim := cart_set_u (vmin (vmax u (fst (cart_limits (k_t sm)))) (snd (cart_limits (k_t sm)))) sm;
                                     dk_us := cd_u (s_cd s); dk_sol := s |}
                | None => UB
                end
    | Throw e s => Throw e {| dk_sim := sm; dk_us := dk_us st; dk_sol := s |}
    | UB => UB
    | OutOfFuel => OutOfFuel
    end.
  Definition dcart_with (f : cart_sim -> cart_sim) (st : dcart) : dcart := {| dk_sim := f (dk_sim st); dk_us := dk_us st; dk_sol := dk_sol st |}.
  Definition dcart_step (LL : lltops T) (cf : config T) (fuel qfuel : nat) (e : cart_event (junk T)) (st : dcart) : outcome dcart unit :=
    match e with
    | Sim => Ok tt (dcart_with (cart_move (k_u (dk_sim st))) st)
    | Mpc jk => dcart_mpc LL cf fuel qfuel jk st
    | Push force => Ok tt (dcart_with (cart_push force) st)
    | Aim q => Ok tt (dcart_with (cart_aim q) st)
    end.
  Fixpoint dcart_run (LL : lltops T) (cf : config T) (fuel qfuel : nat) (es : list (cart_event (junk T))) (st : dcart) : outcome dcart unit :=
    match es with
    | [] => Ok tt st
    | e :: es' => match dcart_step LL cf fuel qfuel e st with Ok _ st' => dcart_run LL cf fuel qfuel es' st' | o => o end
    end.
End CartLoop.
Arguments Sim {T J}. Arguments Mpc {T J}. Arguments Push {T J}. Arguments Aim {T J}.
Arguments cart_sim T : clear implicits. Arguments fcart T : clear implicits. Arguments dcart T : clear implicits. Arguments cart_event T J : clear implicits.
Arguments mpc T : clear implicits.
Arguments osc_mpc T : clear implicits.
