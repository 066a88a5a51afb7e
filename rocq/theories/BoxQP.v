(** Model of /repo/nmpc_ddp/include/nmpc_ddp/BoxQP.h. *)
From Verif Require Import Prelude Scalar LinAlg.

Section BoxQP.
  Context {T : Type} {N : Num T} (LL : lltops T).
  Local Open Scope num_scope.
  Local Open Scope monad_scope.

  (** BoxQP.h:33-55 Configuration. *)
  Record qp_config := {
    qp_print_level : Z;
    qp_max_iter : Z;
    qp_grad_thre : T;
    qp_rel_improve_thre : T;
    qp_step_factor : T;
    qp_min_step : T;
    qp_armijo_param : T
  }.
  (** BoxQP.h:36-54 default member initialisers. *)
  Definition qp_default_config : qp_config := {|
    qp_print_level := 1; qp_max_iter := 500;
    qp_grad_thre := nlit 1 100000000; qp_rel_improve_thre := nlit 1 100000000;
    qp_step_factor := nlit 6 10; qp_min_step := nlit 1 10000000000000000000000;
    qp_armijo_param := nlit 1 10 |}.

  (** BoxQP.h:58-92 TraceData. *)
  Record qp_trace := {
    qt_iter : Z; qt_x : vec T; qt_obj : T; qt_dir : vec T; qt_clamped : list bool;
    qt_fnum : Z; qt_snum : Z
  }.
  (** BoxQP.h:86-91 TraceData(int): vectors zeroed, numbers 0. *)
  Definition qp_trace0 (n : nat) (iter : Z) : qp_trace := {|
    qt_iter := iter; qt_x := vzero n; qt_obj := nzero; qt_dir := vzero n;
    qt_clamped := repeat false n; qt_fnum := 0; qt_snum := 0 |}.

  (** BoxQP.h:375-383 keys of retstr_. *)
  Definition qp_retstr_keys : list Z := [-2; -1; 0; 1; 2; 3; 4; 5; 6]%Z.

  (** Public members after solve: BoxQP.h:372 retval_, 386 llt_free_, 389 free_idxs_, 396 trace;
      and the returned x. *)
  Record qp_out := {
    qo_x : vec T; qo_retval : Z; qo_free : list nat; qo_llt : option (mat T); qo_trace : list qp_trace
  }.

  (** Locals and members live in the main loop (BoxQP.h:148-167). [qs_obj] is [obj]. *)
  Record qp_st := {
    qs_x : vec T; qs_obj : T; qs_old_obj : T; qs_clamped : list bool; qs_free : list nat;
    qs_llt : option (mat T); qs_fnum : Z; qs_retval : Z; qs_trace : list qp_trace
  }.

  Variables (cfg : qp_config) (n : nat) (H : mat T) (g lower upper : vec T).

  (** BoxQP.h:149, 297, 303: x.dot(g) + 0.5 * x.dot(H * x). *)
  Definition qp_obj (x : vec T) : T := dot x g + nhalf * dot x (mvmul H x).
  (** BoxQP.h:148, 296, 302: v.cwiseMin(upper).cwiseMax(lower). *)
  Definition qp_clip (v : vec T) : vec T := vmax (vmin v upper) lower.
  (** BoxQP.h:184: grad = g + H * x. *)
  Definition qp_grad (x : vec T) : vec T := vadd g (mvmul H x).
  (** BoxQP.h:188-191: clamped_flag. *)
  Definition qp_clamped_at (x grad : vec T) (i : nat) : bool :=
    ((vget x i =? vget lower i) && (vget grad i >? nzero))
    || ((vget x i =? vget upper i) && (vget grad i <? nzero)).
  Definition qp_clamped (x grad : vec T) : list bool := map (qp_clamped_at x grad) (seq 0 n).
  (** BoxQP.h:194-206: indices with flag [b], in increasing order. *)
  Definition idx_of (b : bool) (fl : list bool) : list nat :=
    filter (fun i => Bool.eqb (nth i fl (negb b)) b) (seq 0 (length fl)).
  (** BoxQP.h:244-248: grad_norm, a sum of squares over the free indices; std::pow(y, 2) is y * y. *)
  Definition qp_grad_norm (grad : vec T) (free : list nat) : T :=
    fold_left (fun acc i => acc + vget grad i * vget grad i) free nzero.
  (** BoxQP.h:255-279: search direction from the factorised matrix [Hf]. *)
  Definition qp_search_dir (Hf : mat T) (x : vec T) (free clamped : list nat) : vec T :=
    let x_clamped := vgather x clamped in
    let x_free := vgather x free in
    let g_free := vgather g free in
    let grad_free_clamped := vadd g_free (mvmul (mgather H free clamped) x_clamped) in
    let sdf := vsub (vscale (nopp none) (llt_solve LL Hf grad_free_clamped)) x_free in
    vbuild n (fun i => match find_idx i free with Some p => vget sdf p | None => nzero end).

  (** BoxQP.h:298-309: Armijo loop. Returns (step, step_num, x_candidate, obj_candidate, retval_). *)
  Fixpoint qp_armijo {S} (fuel : nat) (x dir : vec T) (old_obj sdg : T)
      (step : T) (snum : Z) (xc : vec T) (oc : T) (retval : Z) : M S (T * Z * vec T * T * Z) :=
    if (oc - old_obj) / (step * sdg) <? qp_armijo_param cfg then
      match fuel with
      | O => fun _ => OutOfFuel
      | Datatypes.S fuel' =>
        let step' := step * qp_step_factor cfg in
        let snum' := (snum + 1)%Z in
        let xc' := qp_clip (vadd x (vscale step' dir)) in
        let oc' := qp_obj xc' in
        if step' <? qp_min_step cfg then ret (step', snum', xc', oc', 2%Z)
        else qp_armijo fuel' x dir old_obj sdg step' snum' xc' oc' retval
      end
    else ret (step, snum, xc, oc, retval).

  Definition qp_st_exit (st : qp_st) (retval : Z) (tr : list qp_trace) : qp_st :=
    {| qs_x := qs_x st; qs_obj := qs_obj st; qs_old_obj := qs_old_obj st;
       qs_clamped := qs_clamped st; qs_free := qs_free st; qs_llt := qs_llt st;
       qs_fnum := qs_fnum st; qs_retval := retval; qs_trace := tr |}.

  (** BoxQP.h:168-337: one pass of the main loop with counter [iter]. [true] means break. *)
  Definition qp_iter {S} (fuel : nat) (iter : Z) (st : qp_st) : M S (qp_st * bool) :=
    (* 170-173: append trace data *)
    let tr0 := qs_trace st ++ [qp_trace0 n iter] in
    (* 175-180 *)
    if (1 <? iter)%Z && ((qs_old_obj st - qs_obj st) <? qp_rel_improve_thre cfg * nabs (qs_old_obj st))
    then ret (qp_st_exit st 4 tr0, true)
    else
    (* 181 *)
    let old_obj := qs_obj st in
    (* 184-206 *)
    let x := qs_x st in
    let grad := qp_grad x in
    let old_clamped := qs_clamped st in
    let clamped := qp_clamped x grad in
    let clamped_idxs := idx_of true clamped in
    let free := idx_of false clamped in
    let st1 := {| qs_x := x; qs_obj := qs_obj st; qs_old_obj := old_obj; qs_clamped := clamped;
                  qs_free := free; qs_llt := qs_llt st; qs_fnum := qs_fnum st;
                  qs_retval := qs_retval st; qs_trace := tr0 |} in
    (* 208-213 *)
    if forallb (fun b => b) clamped then ret (qp_st_exit st1 6 tr0, true)
    else
    (* 215-241: factorise if clamped has changed *)
    let changed := (iter =? 1)%Z
                   || negb (forallb (fun i => Bool.eqb (nth i clamped false) (nth i old_clamped false)) (seq 0 n)) in
    let llt' := if changed then Some (mgather H free free) else qs_llt st in
    let fnum' := if changed then (qs_fnum st + 1)%Z else qs_fnum st in
    let st2 := {| qs_x := x; qs_obj := qs_obj st; qs_old_obj := old_obj; qs_clamped := clamped;
                  qs_free := free; qs_llt := llt'; qs_fnum := fnum';
                  qs_retval := qs_retval st; qs_trace := tr0 |} in
    if changed && llt_issue LL (mgather H free free)
    then ret ({| qs_x := x; qs_obj := qs_obj st; qs_old_obj := old_obj; qs_clamped := clamped;
                 qs_free := free; qs_llt := llt'; qs_fnum := qs_fnum st;
                 qs_retval := (-1)%Z; qs_trace := tr0 |}, true)
    else
    (* 243-253: std::pow(grad_thre, 2) is grad_thre * grad_thre *)
    if qp_grad_norm grad free <? qp_grad_thre cfg * qp_grad_thre cfg
    then ret (qp_st_exit st2 5 tr0, true)
    else
    (* 255-279: llt_free_-> is a null dereference if there was no factorisation, and Eigen asserts
       that the factorisation has the size of the right-hand side *)
    Hf <- must llt' ;;
    guard (Nat.eqb (mrows Hf) (length free)) ;;;
    let dir := qp_search_dir Hf x free clamped_idxs in
    (* 281-291 *)
    let sdg := dot dir grad in
    if sdg >? nlit 1 10000000000 then ret (qp_st_exit st2 (-2) tr0, true)
    else
    (* 293-309 *)
    let step0 := nofZ 1 in
    let xc0 := qp_clip (vadd x (vscale step0 dir)) in
    let oc0 := qp_obj xc0 in
    '(_, snum, xc, oc, rv) <- qp_armijo fuel x dir old_obj sdg step0 0 xc0 oc0 (qs_retval st) ;;
    (* 319-325 *)
    let tr1 := upd_last (fun _ => {| qt_iter := iter; qt_x := x; qt_obj := qs_obj st; qt_dir := dir;
                                     qt_clamped := clamped; qt_fnum := fnum'; qt_snum := snum |}) tr0 in
    (* 327-336 *)
    let st3 := {| qs_x := xc; qs_obj := oc; qs_old_obj := old_obj; qs_clamped := clamped;
                  qs_free := free; qs_llt := llt'; qs_fnum := fnum';
                  qs_retval := if (iter =? qp_max_iter cfg)%Z then 1%Z else rv; qs_trace := tr1 |} in
    ret (st3, (iter =? qp_max_iter cfg)%Z).

  (** BoxQP.h:168 for(;; iter++). *)
  Fixpoint qp_loop {S} (fuel afuel : nat) (iter : Z) (st : qp_st) : M S qp_st :=
    match fuel with
    | O => fun _ => OutOfFuel
    | Datatypes.S fuel' =>
      '(st', brk) <- qp_iter afuel iter st ;;
      if (brk : bool) then ret st' else qp_loop fuel' afuel (iter + 1) st'
    end.

  (** BoxQP.h:141-347 solve. [old_llt] is what llt_free_ held before the call (the object may be reused).
      [fuel] bounds the main loop, [afuel] each Armijo loop. *)
  Definition qp_solve {S} (fuel afuel : nat) (old_llt : option (mat T)) (initial_x : vec T) : M S qp_out :=
    guard (mdimb n n H && vdimb n g && vdimb n lower && vdimb n upper && vdimb n initial_x) ;;;
    (* 148-150 *)
    let x := qp_clip initial_x in
    let obj := qp_obj x in
    (* 153-167 *)
    let tr := [{| qt_iter := 0; qt_x := x; qt_obj := obj; qt_dir := vzero n;
                  qt_clamped := repeat false n; qt_fnum := 0; qt_snum := 0 |}] in
    st <- qp_loop fuel afuel 1 {| qs_x := x; qs_obj := obj; qs_old_obj := obj;
                                  qs_clamped := repeat false n; qs_free := []; qs_llt := old_llt;
                                  qs_fnum := 0; qs_retval := 0; qs_trace := tr |} ;;
    (* 340-344: retstr_.at throws std::out_of_range for an unknown key *)
    (if (2 <=? qp_print_level cfg)%Z && negb (existsb (Z.eqb (qs_retval st)) qp_retstr_keys)
     then throw OutOfRange else ret tt) ;;;
    ret {| qo_x := qs_x st; qo_retval := qs_retval st; qo_free := qs_free st; qo_llt := qs_llt st;
           qo_trace := qs_trace st |}.

End BoxQP.

(** BoxQP.h:101-118 constructor with run-time dimension [var_dim] and template dimension
    [None] = Eigen::Dynamic: the dimension must be positive and equal to a fixed template value. *)
Definition qp_ctor {S} (templ : option Z) (var_dim : Z) : M S nat :=
  if (var_dim <=? 0)%Z then throw RuntimeError
  else match templ with
       | None => ret (Z.to_nat var_dim)
       | Some d => if (var_dim =? d)%Z then ret (Z.to_nat var_dim) else throw RuntimeError
       end.

Arguments qp_config T : clear implicits.
Arguments qp_out T : clear implicits.
Arguments qp_st T : clear implicits.
Arguments qp_trace T : clear implicits.
