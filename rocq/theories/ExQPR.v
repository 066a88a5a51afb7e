(** Small runs of BoxQP in exact arithmetic, used as non-vacuity examples of the theorems over R. *)
From Verif Require Import Prelude Scalar LinAlg BoxQP BoxQPProofs QPCor Chol RLin CholProofs QPReal QPReal2 RQ.
From Coq Require Import QArith Qreals.
Open Scope R_scope.

Ltac rcbv := cbv -[Rplus Rminus Rmult Rdiv Rinv Ropp IZR Rltb Rleb Reqb R_sqrt.sqrt Rabs exp Q2R].

Section Steps.
  Context {T : Type} {N : Num T} (LL : lltops T) (cfg : qp_config T) (n : nat) (H : mat T) (g lower upper : vec T).
  Context {S : Type}.
  (** One pass, by the exit it takes; [ix] is the initial guess and [x] the clamped one. *)
  Variables (fu af : nat) (ol : option (mat T)) (ix : vec T) (s : S) (x grad : vec T) (cl : list bool).
  Hypothesis Hd : mdimb n n H && vdimb n g && vdimb n lower && vdimb n upper && vdimb n ix = true.
  Hypothesis Hx : qp_clip lower upper ix = x.
  Hypothesis Hgrad : qp_grad H g x = grad.
  Hypothesis Hcl : qp_clamped n lower upper x grad = cl.
  Hypothesis Hpl : (2 <=? qp_print_level cfg)%Z = false.

  Lemma run_exit6 : forallb (fun b => b) cl = true ->
    exists out, qp_solve LL cfg n H g lower upper (Datatypes.S fu) af ol ix s = Ok out s /\ qo_retval out = 6%Z /\ qo_x out = x.
  Proof.
    intros Hall. unfold qp_solve, bind. rewrite Hd. cbn [guard ret]. unfold qp_loop at 1, qp_iter, bind. cbn -[qp_clip qp_obj qp_grad qp_clamped].
    rewrite Hx, Hgrad, Hcl, Hall. cbn. rewrite Hpl; cbn. eexists; split; [reflexivity|]. split; reflexivity.
  Qed.
  Lemma run_exit5 : forallb (fun b => b) cl = false -> llt_issue LL (mgather H (idx_of false cl) (idx_of false cl)) = false ->
    nltb (qp_grad_norm grad (idx_of false cl)) (qp_grad_thre cfg * qp_grad_thre cfg)%num = true ->
    exists out, qp_solve LL cfg n H g lower upper (Datatypes.S fu) af ol ix s = Ok out s /\ qo_retval out = 5%Z /\ qo_x out = x.
  Proof.
    intros Hall Hi Hn. unfold qp_solve, bind. rewrite Hd. cbn [guard ret]. unfold qp_loop at 1, qp_iter, bind. cbn -[qp_clip qp_obj qp_grad qp_clamped qp_grad_norm idx_of mgather].
    rewrite Hx, Hgrad, Hcl, Hall. cbn -[qp_grad_norm idx_of mgather]. rewrite Hi, Hn. cbn. rewrite Hpl; cbn.
    eexists; split; [reflexivity|]. split; reflexivity.
  Qed.
  Variables (d : vec T) (x1 : vec T) (o0 o1 : T).
  Lemma run_one_step : forallb (fun b => b) cl = false -> llt_issue LL (mgather H (idx_of false cl) (idx_of false cl)) = false ->
    nltb (qp_grad_norm grad (idx_of false cl)) (qp_grad_thre cfg * qp_grad_thre cfg)%num = false ->
    qp_search_dir LL n H g (mgather H (idx_of false cl) (idx_of false cl)) x (idx_of false cl) (idx_of true cl) = d ->
    nltb (nlit 1 10000000000) (dot d grad) = false ->
    qp_clip lower upper (vadd x (vscale (nofZ 1) d)) = x1 -> qp_obj H g x = o0 -> qp_obj H g x1 = o1 ->
    nltb ((o1 - o0) / (nofZ 1 * dot d grad))%num (qp_armijo_param cfg) = false ->
    qp_max_iter cfg = 1%Z ->
    exists out, qp_solve LL cfg n H g lower upper (Datatypes.S fu) af ol ix s = Ok out s /\ qo_retval out = 1%Z /\ qo_x out = x1 /\
      exists e0 e, qo_trace out = [e0; e] /\ qt_x e = x /\ qt_dir e = d /\ qt_snum e0 = 0%Z /\ qt_snum e = 0%Z.
  Proof.
    intros Hall Hi Hn Hdir Hsd Hx1 Ho0 Ho1 Ha Hm.
    unfold qp_solve, bind. rewrite Hd. cbn [guard ret]. unfold qp_loop at 1, qp_iter, bind.
    cbn -[qp_clip qp_obj qp_grad qp_clamped qp_grad_norm idx_of mgather qp_search_dir dot vadd vscale qp_armijo nofZ].
    rewrite Hx, Hgrad, Hcl, Hall. cbn -[qp_clip qp_obj qp_grad qp_clamped qp_grad_norm idx_of mgather qp_search_dir dot vadd vscale qp_armijo nofZ].
    rewrite Hi, Hn, Nat.eqb_refl. cbn -[qp_clip qp_obj qp_grad qp_clamped qp_grad_norm idx_of mgather qp_search_dir dot vadd vscale qp_armijo nofZ].
    rewrite Hdir, Hsd, Hx1, Ho0, Ho1.
    assert (Hq : @qp_armijo T N cfg H g lower upper S af x d o0 (dot d grad) (nofZ 1) 0 x1 o1 0 s = ret (nofZ 1, 0%Z, x1, o1, 0%Z) s).
    { destruct af; cbn [qp_armijo]; rewrite Ha; reflexivity. }
    rewrite Hq. cbn -[qp_obj]. rewrite Hm. cbn -[qp_obj]. rewrite Hpl; cbn -[qp_obj].
    eexists; split; [reflexivity|]. split; [reflexivity|]. split; [reflexivity|].
    eexists _, _. split; [reflexivity|]. split; [reflexivity|]. split; [reflexivity|]. split; reflexivity.
  Qed.
End Steps.

Definition exr_cfg : qp_config R := {| qp_print_level := 1; qp_max_iter := 1; qp_grad_thre := 1/1000;
   qp_rel_improve_thre := 0; qp_step_factor := 6/10; qp_min_step := 1/1000000; qp_armijo_param := 1/10 |}.
Definition exr_H : mat R := mkmat 2 2 [[1; 0]; [0; 4]].

Lemma exr_run6 : exists out, qp_solve chol_llt exr_cfg 2 exr_H [1; -8] [0; 0] [1; 1] 1 0 None [-2; 1] tt = Ok out tt /\
  qo_retval out = 6%Z /\ qo_x out = [Q2R 0; Q2R 1].
Proof.
  eapply run_exit6; try reflexivity.
  all: rcbv; rq; reflexivity.
Qed.
Lemma exr_run5 : exists out, qp_solve chol_llt exr_cfg 2 exr_H [1; -4] [0; 0] [1; 2] 1 0 None [-2; 1] tt = Ok out tt /\
  qo_retval out = 5%Z /\ qo_x out = [Q2R 0; Q2R 1].
Proof.
  eapply run_exit5; try reflexivity.
  all: rcbv; rq; reflexivity.
Qed.
Lemma exr_run_step : exists out, qp_solve chol_llt exr_cfg 2 exr_H [1; -4] [0; 0] [1; 2] 1 0 None [-2; 0] tt = Ok out tt /\
  qo_retval out = 1%Z /\ qo_x out = [Q2R 0; Q2R 1] /\
  exists e0 e, qo_trace out = [e0; e] /\ qt_x e = [Q2R 0; Q2R 0] /\ qt_dir e = [Q2R 0; Q2R 1] /\ qt_snum e0 = 0%Z /\ qt_snum e = 0%Z.
Proof.
  eapply run_one_step; try reflexivity.
  all: rcbv; rq; reflexivity.
Qed.
