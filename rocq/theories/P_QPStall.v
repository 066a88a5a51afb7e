(** C67, the negative side: a Box QP run that ends by "relative improvement too small" (retval 4) far from the optimum. *)
From Verif Require Import Prelude Scalar LinAlg BoxQP Chol RLin CholProofs P_QPReal.
From Coq Require Import Reals Lra Psatz.
Local Open Scope R_scope.

(** f(x, y) = (x^2 + y^2) / 2 + 3/4 x y + x + 3/4 y over [0, 10] x [-10, 10]: strictly convex, minimum -9/32 at (0, -3/4). *)
Definition stall_H {T} {N : Num T} : mat T := mkmat 2 2 [[nofZ 1; nlit 3 4]; [nlit 3 4; nofZ 1]].
Definition stall_g {T} {N : Num T} : vec T := [nofZ 1; nlit 3 4].
Definition stall_lo {T} {N : Num T} : vec T := [nofZ 0; nofZ (-10)].
Definition stall_up {T} {N : Num T} : vec T := [nofZ 10; nofZ 10].

Ltac rmat := cbv [stall_H stall_g stall_lo stall_up nofZ nlit RNum mrows mcols mdat mget vget nth].

Lemma small_pow : (6 / 10) ^ 200 <= / 10 ^ 21.
Proof.
  change 200%nat with (5 * 40)%nat. rewrite pow_mult. apply Rle_trans with ((/ 10) ^ 40).
  - apply pow_incr. split; [apply pow_le; lra|cbn; lra].
  - change 40%nat with (21 + 19)%nat. rewrite pow_add, (pow_inv 10 21). rewrite <- (Rmult_1_r (/ 10 ^ 21)) at 2.
    apply Rmult_le_compat_l; [left; apply Rinv_0_lt_compat, pow_lt; lra|]. rewrite <- (pow1 19). apply pow_incr. lra.
Qed.

Section Stall.
  Variables (e : R).
  Hypothesis He : / 10 ^ 21 <= e <= / 10 ^ 9.
  Let x : vec R := [e; - / 2].
  Let d : vec R := [- 1 - e; / 2].
  Let f0 : R := - / 4 + 5 / 8 * e + e * e / 2.
  Let sdg : R := - (/ 2 + 5 / 4 * e + e * e).
  Lemma e_pos : 0 < e.
  Proof. destruct He as [H _]. eapply Rlt_le_trans; [|exact H]. apply Rinv_0_lt_compat, pow_lt. lra. Qed.
  Lemma e_small : e <= / 1000000000.
  Proof. destruct He as [_ H]. replace (10 ^ 9) with 1000000000 in H by ring. exact H. Qed.

  Lemma clip_at a : 0 < a <= 1 -> e < a -> qp_clip stall_lo stall_up (vadd x (vscale a d)) = [0; - / 2 + a / 2].
  Proof.
    intros Ha Hea. pose proof e_pos. pose proof e_small. unfold qp_clip, vmax, vmin, vadd, vscale, x, d, stall_lo, stall_up, vbuild. cbn. numR.
    unfold nmax, nmin. numR.
    assert (E1 : Rltb (10 / 1) (e + a * (-1 - e)) = false) by (apply Rltb_false; nra).
    assert (E2 : Rltb (10 / 1) (- / 2 + a * / 2) = false) by (apply Rltb_false; nra).
    assert (E3 : Rltb (e + a * (-1 - e)) (0 / 1) = true) by (apply Rltb_true; nra).
    assert (E4 : Rltb (- / 2 + a * / 2) (-10 / 1) = false) by (apply Rltb_false; nra).
    rewrite ?E1, ?E2, ?E3, ?E4. apply f_equal2; [lra|apply f_equal2; [lra|reflexivity]].
  Qed.

  Lemma obj_at y : qp_obj stall_H stall_g [0; y] = 3 / 4 * y + y * y / 2.
  Proof. unfold qp_obj, dot, mvmul, stall_H, stall_g, vbuild, nhalf. cbn. unfold mget. cbn. numR. field. Qed.
  Lemma obj_start : qp_obj stall_H stall_g x = f0.
  Proof. unfold qp_obj, dot, mvmul, stall_H, stall_g, vbuild, nhalf, x, f0. cbn. unfold mget. cbn. numR. field. Qed.
  Lemma clip_start : qp_clip stall_lo stall_up x = x.
  Proof.
    pose proof e_pos. pose proof e_small. unfold qp_clip, vmax, vmin, x, stall_lo, stall_up, vbuild. cbn. numR. unfold nmax, nmin. numR.
    assert (E1 : Rltb (10 / 1) e = false) by (apply Rltb_false; lra).
    assert (E2 : Rltb (10 / 1) (- / 2) = false) by (apply Rltb_false; lra).
    assert (E3 : Rltb e (0 / 1) = false) by (apply Rltb_false; lra).
    assert (E4 : Rltb (- / 2) (-10 / 1) = false) by (apply Rltb_false; lra).
    rewrite ?E1, ?E2, ?E3, ?E4. reflexivity.
  Qed.
  (** The line search: every trial step above 36/10 e is refused, every one in [21/10 e, 35/10 e] accepted. *)
  Lemma armijo_ends fuel : forall k xc oc, let a := (6 / 10) ^ k in 21 / 10 * e <= a -> a * (6 / 10) ^ fuel < 35 / 10 * e ->
    xc = [0; - / 2 + a / 2] -> oc = - / 4 + a / 8 + a * a / 8 ->
    exists a' n, 21 / 10 * e <= a' <= 36 / 10 * e /\
      qp_armijo qp_default_config stall_H stall_g stall_lo stall_up fuel x d f0 sdg a (Z.of_nat k) xc oc 0 tt
        = Ok (a', n, [0; - / 2 + a' / 2], - / 4 + a' / 8 + a' * a' / 8, 0%Z) tt.
  Proof.
    pose proof e_pos as P. pose proof e_small as Q.
    assert (Sd : sdg < 0) by (unfold sdg; nra).

    assert (T1 : forall a, 0 < a -> Rltb ((- / 4 + a / 8 + a * a / 8 - f0) / (a * sdg)) (1 / 10) = true -> 35 / 10 * e < a).
    { intros a Ha Ht. apply Rltb_true in Ht. apply Rnot_le_lt. intros Hle.
      assert (M : a * sdg < 0) by nra.
      assert (K : - / 4 + a / 8 + a * a / 8 - f0 > 1 / 10 * (a * sdg)).
      { replace (- / 4 + a / 8 + a * a / 8 - f0) with ((- / 4 + a / 8 + a * a / 8 - f0) / (a * sdg) * (a * sdg)) by (field; split; [lra|unfold sdg in Sd |- *; lra]). nra. }
      unfold f0, sdg in K. assert (e * e <= e / 1000000000) by nra. assert (0 <= e * e) by nra. assert (a * a <= 35 / 10 * e * (35 / 10 * e)) by nra. assert (a * (e * e) <= 35 / 10 * e * (e * e)) by nra. nra. }
    assert (T2 : forall a, 0 < a -> Rltb ((- / 4 + a / 8 + a * a / 8 - f0) / (a * sdg)) (1 / 10) = false -> a <= 36 / 10 * e).
    { intros a Ha Ht. apply Rltb_false in Ht.
      assert (M : a * sdg < 0) by nra.
      assert (K : - / 4 + a / 8 + a * a / 8 - f0 <= 1 / 10 * (a * sdg)).
      { replace (- / 4 + a / 8 + a * a / 8 - f0) with ((- / 4 + a / 8 + a * a / 8 - f0) / (a * sdg) * (a * sdg)) by (field; split; [lra|unfold sdg in Sd |- *; lra]). nra. }
      unfold f0, sdg in K. assert (e * e <= e / 1000000000) by nra. assert (0 <= e * e) by nra. assert (0 <= a * a) by nra. assert (0 <= a * (e * e)) by nra. nra. }
    assert (A1 : forall k, (6 / 10) ^ k <= 1) by (intros k; rewrite <- (pow1 k); apply pow_incr; lra).
    induction fuel as [|fuel IH]; intros k xc oc a Ha Hf -> ->.
    - cbn [pow] in Hf. cbn [qp_armijo].
      match goal with |- context [if ?c then _ else _] => destruct c eqn:E end.
      + exfalso. apply (T1 a ltac:(lra)) in E. lra.
      + exists a, (Z.of_nat k). split; [split; [exact Ha|apply (T2 a ltac:(lra)); exact E]|reflexivity].
    - cbn [pow] in Hf. cbn [qp_armijo].
      match goal with |- context [if ?c then _ else _] => destruct c eqn:E end.
      2:{ exists a, (Z.of_nat k). split; [split; [exact Ha|apply (T2 a ltac:(lra)); exact E]|reflexivity]. }
      apply (T1 a ltac:(lra)) in E.
      assert (Es : (a * qp_step_factor qp_default_config)%num = (6 / 10) ^ Datatypes.S k) by (unfold a; cbn; numR; ring).
      rewrite Es. assert (Ek : (Z.of_nat k + 1)%Z = Z.of_nat (Datatypes.S k)) by lia. rewrite Ek.
      assert (Hn : 21 / 10 * e <= (6 / 10) ^ Datatypes.S k) by (cbn [pow]; fold a; lra).
      assert (Hc : qp_clip stall_lo stall_up (vadd x (vscale ((6 / 10) ^ Datatypes.S k) d)) = [0; - / 2 + (6 / 10) ^ Datatypes.S k / 2])
        by (apply clip_at; [split; [lra|apply A1]|lra]).
      rewrite Hc, obj_at.
      assert (Hm : nltb ((6 / 10) ^ Datatypes.S k) (qp_min_step (qp_default_config (T := R))) = false).
      { apply Rltb_false. cbn [qp_min_step qp_default_config nlit RNum]. destruct He as [Hl _].
        replace (1 / 10000000000000000000000) with (/ 10 ^ 21 / 10) by (field_simplify_eq; cbn [pow]; lra). lra. }
      rewrite Hm. apply IH; [exact Hn|cbn [pow]; fold a; lra|reflexivity|field].
  Qed.

  Context (LL : lltops R) (HLL : exact_llt LL).
  Lemma pd_H : posdef 2 (mget stall_H).
  Proof.
    intros y (i & Hi & Hy). unfold fdot, fmv, stall_H, nofZ; cbn. unfold mget; cbn.
    assert (E : y 0%nat <> 0 \/ y 1%nat <> 0) by (destruct i as [|[|i]]; auto; lia).
    assert (P : 0 < y 0%nat * y 0%nat + y 1%nat * y 1%nat).
    { destruct E as [E|E]; [pose proof (Rsqr_pos_lt _ E) as Q; pose proof (Rle_0_sqr (y 1%nat))|pose proof (Rsqr_pos_lt _ E) as Q; pose proof (Rle_0_sqr (y 0%nat))]; unfold Rsqr in *; lra. }
    pose proof (Rle_0_sqr (y 0%nat + y 1%nat)) as Q. unfold Rsqr in Q. nra.
  Qed.
  Lemma sym_H : fsym 2 (mget (stall_H (T := R))).
  Proof. intros [|[|i]] [|[|j]] Hi Hj; try lia; reflexivity. Qed.
  Lemma newton_dir : qp_search_dir LL 2 stall_H stall_g (mgather stall_H [0; 1]%nat [0; 1]%nat) x [0; 1]%nat [] = d.
  Proof.
    assert (Eg : mgather stall_H [0; 1]%nat [0; 1]%nat = stall_H (T := R)) by reflexivity.
    rewrite Eg. unfold qp_search_dir. 
    assert (Eb : vadd (vgather stall_g [0; 1]%nat) (mvmul (mgather (stall_H (T := R)) [0; 1]%nat []) (vgather x [])) = [1; 3 / 4]).
    { unfold vadd, vgather, mvmul, mgather, stall_g, vbuild, nofZ. cbn. numR. apply f_equal2; [lra|apply f_equal2; [lra|reflexivity]]. }
    rewrite Eb.
    assert (Li : llt_issue LL stall_H = false) by (apply (el_issue LL HLL stall_H 2); [reflexivity|apply sym_H|apply pd_H]).
    pose proof (el_len LL HLL stall_H 2 [1; 3 / 4] eq_refl eq_refl) as Ll.
    pose proof (el_solve LL HLL stall_H 2 [1; 3 / 4] eq_refl sym_H Li eq_refl) as Es.
    destruct (llt_solve LL stall_H [1; 3 / 4]) as [|y0 [|y1 [|]]]; try discriminate Ll.
    pose proof (Es 0%nat ltac:(lia)) as E0. pose proof (Es 1%nat ltac:(lia)) as E1. unfold fmv in E0, E1. cbn in E0, E1. unfold mget, vget in E0, E1. cbn in E0, E1.
    unfold vsub, vscale, vgather, vbuild, x, d. cbn. numR. apply f_equal2; [lra|apply f_equal2; [lra|reflexivity]].
  Qed.
  Lemma grad_start : qp_grad stall_H stall_g x = [5 / 8 + e; / 4 + 3 / 4 * e].
  Proof. unfold qp_grad, vadd, mvmul, dot, stall_H, stall_g, x, vbuild, nofZ. cbn. unfold mget; cbn. numR. apply f_equal2; [field|apply f_equal2; [field|reflexivity]]. Qed.
  Lemma clamped_start : qp_clamped 2 stall_lo stall_up x [5 / 8 + e; / 4 + 3 / 4 * e] = [false; false].
  Proof.
    pose proof e_pos. pose proof e_small. unfold qp_clamped, qp_clamped_at, stall_lo, stall_up, x, nofZ. cbn. numR.
    assert (F1 : Reqb e (0 / 1) = false) by (apply Reqb_false; lra). assert (F2 : Reqb e (10 / 1) = false) by (apply Reqb_false; lra).
    assert (F3 : Reqb (- / 2) (-10 / 1) = false) by (apply Reqb_false; lra). assert (F4 : Reqb (- / 2) (10 / 1) = false) by (apply Reqb_false; lra).
    rewrite F1, F2, F3, F4. reflexivity.
  Qed.
  Lemma run_stalls : exists out y, qp_solve LL qp_default_config 2 stall_H stall_g stall_lo stall_up 2 200 None x tt = Ok out tt /\
    qo_retval out = 4%Z /\ qo_x out = [0; y] /\ - / 2 <= y <= - / 2 + 2 * e.
  Proof.
    pose proof e_pos as P. pose proof e_small as Q.
    assert (Hal : exists a' n, 21 / 10 * e <= a' <= 36 / 10 * e /\
      qp_armijo qp_default_config stall_H stall_g stall_lo stall_up 200 x d f0 sdg ((6 / 10) ^ 0) (Z.of_nat 0) [0; - / 2 + (6 / 10) ^ 0 / 2] (- / 4 + (6 / 10) ^ 0 / 8 + (6 / 10) ^ 0 * (6 / 10) ^ 0 / 8) 0 tt
        = Ok (a', n, [0; - / 2 + a' / 2], - / 4 + a' / 8 + a' * a' / 8, 0%Z) tt).
    { apply armijo_ends; [cbn; lra| |reflexivity|reflexivity]. change ((6 / 10) ^ 0) with 1. rewrite Rmult_1_l. destruct He as [Hl _]. pose proof small_pow. lra. }
    destruct Hal as (a & n & Ha & Hal).

    unfold qp_solve, bind. cbn [guard mdimb vdimb]. unfold qp_loop, qp_iter, bind.
    cbn -[qp_clip qp_obj qp_grad qp_clamped qp_grad_norm idx_of mgather qp_search_dir dot vadd vscale qp_armijo nofZ qp_default_config].
    rewrite clip_start, grad_start, clamped_start.
    cbn -[qp_clip qp_obj qp_grad qp_clamped qp_grad_norm mgather qp_search_dir dot vadd vscale qp_armijo nofZ qp_default_config].
    assert (Li : llt_issue LL (mgather stall_H [0%nat; 1%nat] [0%nat; 1%nat]) = false)
      by (apply (el_issue LL HLL (stall_H (T := R)) 2); [reflexivity|apply sym_H|apply pd_H]).
    rewrite Li.
    assert (Gn : Rltb (qp_grad_norm [5 / 8 + e; / 4 + 3 / 4 * e] [0%nat; 1%nat]) (qp_grad_thre qp_default_config * qp_grad_thre qp_default_config) = false).
    { apply Rltb_false. unfold qp_grad_norm. cbn. nra. }
    rewrite Gn. change (guard (mrows (mgather (stall_H (T := R)) [0%nat; 1%nat] [0%nat; 1%nat]) =? 2)%nat) with (@ret unit unit tt). cbn -[qp_clip qp_obj qp_grad qp_clamped qp_grad_norm mgather qp_search_dir dot vadd vscale qp_armijo nofZ qp_default_config].
    rewrite newton_dir, obj_start.
    assert (Sg : dot d [5 / 8 + e; / 4 + 3 / 4 * e] = sdg) by (unfold dot, d, sdg, vbuild; cbn; numR; field).
    rewrite Sg.
    assert (Sn : Rltb (1 / 10000000000) sdg = false) by (apply Rltb_false; unfold sdg; nra).
    rewrite Sn.
    assert (C0 : qp_clip stall_lo stall_up (vadd x (vscale (nofZ 1) d)) = [0; - / 2 + (6 / 10) ^ 0 / 2]).
    { replace (nofZ 1 : R) with ((6 / 10) ^ 0) by (unfold nofZ; cbn; field). apply clip_at; cbn; lra. }
    rewrite C0, obj_at.
    replace (3 / 4 * (- / 2 + (6 / 10) ^ 0 / 2) + (- / 2 + (6 / 10) ^ 0 / 2) * (- / 2 + (6 / 10) ^ 0 / 2) / 2)
      with (- / 4 + (6 / 10) ^ 0 / 8 + (6 / 10) ^ 0 * (6 / 10) ^ 0 / 8) by field.
    replace (nofZ 1 : R) with ((6 / 10) ^ 0) by (unfold nofZ; cbn; field).
    change (Z.of_nat 0) with 0%Z in Hal. rewrite Hal.

    cbn -[qp_clip qp_obj qp_grad qp_clamped qp_grad_norm mgather qp_search_dir dot vadd vscale qp_armijo nofZ qp_rel_improve_thre].
    assert (Rn : Rltb (f0 - (- / 4 + a / 8 + a * a / 8)) (qp_rel_improve_thre (qp_default_config (T := R)) * Rabs f0) = true).
    { apply Rltb_true. cbn [qp_rel_improve_thre qp_default_config nlit RNum]. assert (Q2 : 0 <= e * e <= e / 1000000000) by nra. assert (0 <= a * a) by nra.
      rewrite Rabs_left by (unfold f0; lra). unfold f0. lra. }
    rewrite Rn. cbn -[qp_clip qp_obj qp_grad qp_clamped qp_grad_norm mgather qp_search_dir dot vadd vscale qp_armijo nofZ].
    eexists. exists (- / 2 + a / 2). split; [reflexivity|]. split; [reflexivity|]. split; [reflexivity|]. lra.
  Qed.
End Stall.

(** The property one would want of this exit - the result of a run that stops for lack of improvement is close to the optimum, measured on the scale of the threshold -
    is false with the default settings of BoxQP.h, in exact arithmetic: started at (e, -1/2), however small e, the run ends with retval 4 near (0, -1/2),
    where the objective is -1/4; the minimum is -9/32. A million times the threshold would not cover the gap. *)
Theorem C67_refuted (LL : lltops R) (e : R) : exact_llt LL -> / 10 ^ 21 <= e <= / 10 ^ 9 ->
  fsym 2 (mget (stall_H (T := R))) /\ posdef 2 (mget stall_H) /\ (forall i, (i < 2)%nat -> vget stall_lo i < vget stall_up i) /\
  in_box 2 stall_lo stall_up (vget [e; - / 2]) /\
  exists out y, qp_solve LL qp_default_config 2 stall_H stall_g stall_lo stall_up 2 200 None [e; - / 2] tt = Ok out tt /\ qo_retval out = 4%Z /\
    in_box 2 stall_lo stall_up y /\
    quad 2 (mget stall_H) (vget stall_g) y + 1000000 * (qp_rel_improve_thre (qp_default_config (T := R)) * Rabs (quad 2 (mget stall_H) (vget stall_g) (vget [e; - / 2])))
      < quad 2 (mget stall_H) (vget stall_g) (vget (qo_x out)).
Proof.
  intros HLL He. pose proof (e_pos e He) as P. pose proof (e_small e He) as Q.
  split; [exact sym_H|]. split; [exact pd_H|].
  split; [intros [|[|i]] Hi; try lia; cbn; lra|].
  split; [intros [|[|i]] Hi; try lia; cbn; lra|].
  destruct (run_stalls e He LL HLL) as (out & y & Hr & H4 & Hx & Hy). exists out, (vget [0; - (3 / 4)]). split; [exact Hr|]. split; [exact H4|].
  split; [intros [|[|i]] Hi; try lia; cbn; lra|].
  rewrite Hx. unfold quad, vget, mget, stall_H, stall_g, qp_default_config. cbn.
  assert (0 <= e * e <= e / 1000000000) by nra.
  rewrite Rabs_left by nra. nra.
Qed.
Print Assumptions C67_refuted.

(** The same in binary64, with the modelled Cholesky routine: from (1e-10, -1/2) the solver returns 4 at (0, -0.5), where the objective is above -0.2500001;
    from (1, -1/2) it returns 5 at (0, -3/4), where it is below -0.28. *)
Definition stall_run (x0 : f64) : option (Z * vec f64) :=
  match qp_solve (T := f64) chol_llt qp_default_config 2 stall_H stall_g stall_lo stall_up 501 200 None [x0; nlit (-1) 2] tt with
  | Ok out _ => Some (qo_retval out, qo_x out) | _ => None end.
Definition stalled (r : option (Z * vec f64)) (rv : Z) (lo up : f64) : bool :=
  match r with Some (z, x) => (z =? rv)%Z && neqb (vget x 0) nzero && nltb lo (qp_obj stall_H stall_g x) && nltb (qp_obj stall_H stall_g x) up | None => false end.
Theorem C67_refuted_double :
  stalled (stall_run (nlit 1 10000000000)) 4 (nlit (-2500001) 10000000) (nlit (-2499999) 10000000) = true /\
  stalled (stall_run (nofZ 1)) 5 (nlit (-282) 1000) (nlit (-281) 1000) = true.
Proof. split; vm_compute; reflexivity. Qed.
Print Assumptions C67_refuted_double.
