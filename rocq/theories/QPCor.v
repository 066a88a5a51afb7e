(** Consequences of [qp_solve_spec] for every scalar type, and the non-terminating configuration. *)
From Verif Require Import Prelude Scalar LinAlg BoxQP BoxQPProofs BoxQPTerm Chol.
From Coq Require Import Sorted Reals Lra.

Section Any.
  Context {T : Type} {N : Num T} (LL : lltops T).
  Variables (cfg : qp_config T) (n : nat) (H : mat T) (g lower upper : vec T).
  Context {S : Type}.
  Variables (fuel afuel : nat) (ol : option (mat T)) (ix : vec T) (s s' : S) (out : qp_out T).
  Notation solve := (qp_solve LL cfg n H g lower upper fuel afuel ol ix s).

  Lemma qp_ok : solve = Ok out s' -> s' = s /\ qp_result LL cfg n H g lower upper ix out /\
     mdimb n n H = true /\ length g = n /\ length lower = n /\ length upper = n /\ length ix = n.
  Proof.
    intros E. pose proof (qp_solve_spec LL cfg n H g lower upper True (fun _ _ => True) fuel afuel ol ix s (fun _ => I)) as W.
    unfold wp in W. rewrite E in W. exact W.
  Qed.

  Lemma qp_length : solve = Ok out s' -> length (qo_x out) = n.
  Proof.
    intros E. destruct (qp_ok E) as (_ & R & _). destruct (qr_x _ _ _ _ _ _ _ _ _ R) as (v & Hv & ->).
    rewrite qp_clip_length; exact Hv.
  Qed.

  Lemma qp_feasible i : solve = Ok out s' -> i < n ->
    nltb (vget lower i) (vget lower i) = false -> nltb (vget upper i) (vget upper i) = false ->
    nltb (vget upper i) (vget lower i) = false ->
    nltb (vget (qo_x out) i) (vget lower i) = false /\ nltb (vget upper i) (vget (qo_x out) i) = false.
  Proof.
    intros E Hi H1 H2 H3. destruct (qp_ok E) as (_ & R & _).
    destruct (qr_x _ _ _ _ _ _ _ _ _ R) as (v & Hv & ->).
    rewrite qp_clip_get by lia. unfold nmax, nmin.
    destruct (nltb (vget upper i) (vget v i)) eqn:Ev.
    - destruct (nltb (vget upper i) (vget lower i)) eqn:El; [discriminate|]. auto.
    - destruct (nltb (vget v i) (vget lower i)) eqn:El; auto.
  Qed.

  Lemma qp_retval : solve = Ok out s' -> In (qo_retval out) [-2; -1; 1; 4; 5; 6]%Z.
  Proof. intros E. apply (qp_ok E). Qed.

  Lemma qp_no_throw e : solve <> Throw e s'.
  Proof.
    pose proof (qp_solve_spec LL cfg n H g lower upper True (fun _ _ => False) fuel afuel ol ix s (fun _ => I)) as W.
    unfold wp in W. intros E; rewrite E in W; exact W.
  Qed.

  Lemma qp_factor : solve = Ok out s' ->
    StronglySorted lt (qo_free out) /\ Forall (fun i => i < n) (qo_free out) /\
    ((0 <= qo_retval out)%Z -> qo_free out <> [] ->
       qo_llt out = Some (mgather H (qo_free out) (qo_free out)) /\
       llt_issue LL (mgather H (qo_free out) (qo_free out)) = false).
  Proof.
    intros E. destruct (qp_ok E) as (_ & R & _). split; [apply R|]. split; [apply R|].
    intros Hr Hf. split.
    - destruct (qr_llt _ _ _ _ _ _ _ _ _ R) as [H0|H0]; [contradiction|exact H0].
    - apply (qr_ok _ _ _ _ _ _ _ _ _ R Hr Hf).
  Qed.

  Lemma qp_traces : solve = Ok out s' ->
    exists rest, qo_trace out = {| qt_iter := 0; qt_x := qp_clip lower upper ix;
                        qt_obj := qp_obj H g (qp_clip lower upper ix); qt_dir := vzero n;
                        qt_clamped := repeat false n; qt_fnum := 0; qt_snum := 0 |} :: rest /\
      rest <> [] /\
      (forall i e, nth_error (qo_trace out) i = Some e -> qt_iter e = Z.of_nat i) /\
      ((1 <= qp_max_iter cfg)%Z -> (Z.of_nat (length rest) <= qp_max_iter cfg)%Z) /\
      (qo_retval out = 1%Z -> Z.of_nat (length rest) = qp_max_iter cfg).
  Proof.
    intros E. destruct (qp_ok E) as (_ & R & _).
    destruct (qr_tr _ _ _ _ _ _ _ _ _ R) as (m & Hm & (Hl & H0) & Hmax & H1).
    pose proof (f_equal (@length Z) Hl) as Hlen. rewrite !map_length, seq_length in Hlen.
    assert (Hi : forall i e, nth_error (qo_trace out) i = Some e -> qt_iter e = Z.of_nat i).
    { intros i e Hi. pose proof (map_nth_error qt_iter i _ Hi) as Hj. rewrite Hl in Hj.
      assert (Him : i < m) by (rewrite <- Hlen; apply nth_error_Some; congruence).
      erewrite (map_nth_error Z.of_nat i) in Hj; [injection Hj as <-; reflexivity|].
      rewrite (nth_error_nth' _ 0) by (rewrite seq_length; exact Him). rewrite seq_nth by exact Him. reflexivity. }
    destruct (qo_trace out) as [|e0 rest] eqn:Et; [cbn in Hlen; lia|].
    cbn in H0. injection H0 as ->. exists rest. split; [reflexivity|].
    split; [intros ->; cbn in Hlen; lia|]. split; [exact Hi|]. cbn in Hlen.
    split; intros Hx; [specialize (Hmax Hx)|specialize (H1 Hx)]; lia.
  Qed.
End Any.

(** Feasibility read on the reals. *)
Lemma qp_feasible_R {S} LL cfg n H g lower upper fuel afuel ol ix (s s' : S) out i :
  qp_solve (T := R) LL cfg n H g lower upper fuel afuel ol ix s = Ok out s' -> i < n ->
  (vget lower i <= vget upper i)%R ->
  (vget lower i <= vget (qo_x out) i <= vget upper i)%R.
Proof.
  intros E Hi Hb. destruct (qp_feasible LL cfg n H g lower upper fuel afuel ol ix s s' out i E Hi) as [H1 H2]; numR;
    try (apply Rltb_false; lra).
  apply Rltb_false in H1, H2. lra.
Qed.

(** With max_iter = 0 and a NaN in g the loop never ends: every bound on the number of passes is too small. *)
Definition nan_cfg : qp_config f64 :=
  {| qp_print_level := 1; qp_max_iter := 0; qp_grad_thre := qp_grad_thre qp_default_config;
     qp_rel_improve_thre := qp_rel_improve_thre qp_default_config;
     qp_step_factor := qp_step_factor qp_default_config; qp_min_step := qp_min_step qp_default_config;
     qp_armijo_param := qp_armijo_param qp_default_config |}.
Definition nan_H : mat f64 := mkmat 1 1 [[none]].

Definition nan_loop (afuel : nat) := qp_loop chol_llt nan_cfg 1 nan_H [f64_nan] [nofZ (-1)] [nofZ 1] (S := unit).

Lemma nan_iter afuel it old fnum tr : (1 < it)%Z ->
  exists old' tr', 
  qp_iter chol_llt nan_cfg 1 nan_H [f64_nan] [nofZ (-1)] [nofZ 1] afuel it
    {| qs_x := [f64_nan]; qs_obj := f64_nan; qs_old_obj := old; qs_clamped := [false]; qs_free := [0];
       qs_llt := Some nan_H; qs_fnum := fnum; qs_retval := 0; qs_trace := tr |} tt =
  Ok ({| qs_x := [f64_nan]; qs_obj := f64_nan; qs_old_obj := old'; qs_clamped := [false]; qs_free := [0];
       qs_llt := Some nan_H; qs_fnum := fnum; qs_retval := 0; qs_trace := tr' |}, false) tt.
Proof.
  intros Hit. unfold qp_iter. cbn [qs_old_obj qs_obj].
  replace (1 <? it)%Z with true by (symmetry; apply Z.ltb_lt; lia).
  assert (E1 : nltb (nsub old f64_nan) (nmul (qp_rel_improve_thre nan_cfg) (nabs old)) = false)
    by (destruct old as [[]|[]| |[] ? ?]; reflexivity).
  rewrite E1. cbn [andb].
  replace (it =? 1)%Z with false by (symmetry; apply Z.eqb_neq; lia).
  replace (it =? qp_max_iter nan_cfg)%Z with false by (symmetry; apply Z.eqb_neq; cbn; lia).
  eexists _, _. destruct afuel; vm_compute; reflexivity.
Qed.

Lemma nan_loop_diverges afuel fuel : forall it old fnum tr, (1 < it)%Z ->
  qp_loop chol_llt nan_cfg 1 nan_H [f64_nan] [nofZ (-1)] [nofZ 1] fuel afuel it
    {| qs_x := [f64_nan]; qs_obj := f64_nan; qs_old_obj := old; qs_clamped := [false]; qs_free := [0];
       qs_llt := Some nan_H; qs_fnum := fnum; qs_retval := 0; qs_trace := tr |} tt = OutOfFuel.
Proof.
  induction fuel as [|f IH]; intros it old fnum tr Hit; [reflexivity|].
  cbn [qp_loop]. destruct (nan_iter afuel it old fnum tr Hit) as (old' & tr' & E).
  unfold bind. rewrite E. apply IH. lia.
Qed.

Lemma nan_solve_diverges afuel fuel :
  qp_solve chol_llt nan_cfg 1 nan_H [f64_nan] [nofZ (-1)] [nofZ 1] fuel afuel None [nzero] tt = OutOfFuel.
Proof.
  destruct fuel as [|f]; [vm_compute; reflexivity|].
  unfold qp_solve, bind at 1. 
  replace (guard _ tt) with (@Ok unit unit tt tt) by (vm_compute; reflexivity).
  cbv zeta. unfold bind at 1. cbn [qp_loop]. unfold bind at 1.
  match goal with |- context [qp_iter ?a ?b ?c ?d ?e ?f ?g ?h ?i ?st tt] =>
    set (st0 := st); assert (E : exists old' tr', qp_iter a b c d e f g h i st0 tt =
      Ok ({| qs_x := [f64_nan]; qs_obj := f64_nan; qs_old_obj := old'; qs_clamped := [false]; qs_free := [0];
       qs_llt := Some nan_H; qs_fnum := 1; qs_retval := 0; qs_trace := tr' |}, false) tt) end.
  { eexists _, _. destruct afuel; vm_compute; reflexivity. }
  destruct E as (old' & tr' & E). rewrite E. rewrite nan_loop_diverges by lia. reflexivity.
Qed.
