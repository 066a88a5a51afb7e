(** Properties C19-C22: optimality of BoxQP's exits, descent and monotonicity, in exact arithmetic.
    The factorisation is any one that meets [exact_llt]; C50 shows that the modelled Cholesky routine does. *)
From Verif Require Import Prelude Scalar LinAlg BoxQP BoxQPProofs QPCor Chol RLin CholProofs QPReal QPReal2 RQ ExQPR.
From Coq Require Import QArith Qreals.
Open Scope R_scope.

(** The quadratic objective and its gradient, written out. *)
Definition quad (n : nat) (H : nat -> nat -> R) (g x : nat -> R) : R :=
  Rsum n (fun i => x i * g i) + / 2 * Rsum n (fun i => x i * Rsum n (fun j => H i j * x j)).
Definition quad_grad (n : nat) (H : nat -> nat -> R) (g x : nat -> R) (i : nat) : R :=
  g i + Rsum n (fun j => H i j * x j).
Definition in_box (n : nat) (lower upper : vec R) (y : nat -> R) : Prop :=
  forall i, (i < n)%nat -> vget lower i <= y i <= vget upper i.
Definition energy (n : nat) (H : nat -> nat -> R) (d : nat -> R) : R :=
  Rsum n (fun i => d i * Rsum n (fun j => H i j * d j)).
(** Projection on the box. *)
Definition proj (lower upper : vec R) (y : nat -> R) (i : nat) : R := Rmax (Rmin (y i) (vget upper i)) (vget lower i).

Section Opt.
  Context {S : Type} (LL : lltops R) (cfg : qp_config R) (n : nat) (H : mat R) (g lower upper : vec R)
          (fuel afuel : nat) (ol : option (mat R)) (ix : vec R) (s s' : S) (out : qp_out R).
  Hypothesis Hsym : fsym n (mget H).
  Hypothesis Hrun : qp_solve LL cfg n H g lower upper fuel afuel ol ix s = Ok out s'.

  Theorem C19_all_clamped_optimal (y : nat -> R) : psd n (mget H) ->
    qo_retval out = 6%Z -> in_box n lower upper y ->
    quad n (mget H) (vget g) (vget (qo_x out)) <= quad n (mget H) (vget g) y.
  Proof. exact (fun Hpsd => exit6_optimal LL cfg n H g lower upper fuel afuel ol ix s s' out Hsym Hpsd y Hrun). Qed.

  Theorem C20_small_gradient_near_optimal (y : nat -> R) : psd n (mget H) ->
    qo_retval out = 5%Z -> in_box n lower upper y ->
    quad n (mget H) (vget g) (vget (qo_x out))
      - Rabs (qp_grad_thre cfg) * sqrt (Rsum n (fun i => (y i - vget (qo_x out) i) * (y i - vget (qo_x out) i)))
    <= quad n (mget H) (vget g) y.
  Proof. exact (fun Hpsd => exit5_near_optimal LL cfg n H g lower upper fuel afuel ol ix s s' out Hsym Hpsd y Hrun). Qed.

  Hypothesis HLL : exact_llt LL.
  Hypothesis Hpd : posdef n (mget H).
  Hypothesis Hbox : forall i, (i < n)%nat -> vget lower i <= vget upper i.
  Hypothesis Hthre : qp_grad_thre cfg <> 0.
  Hypothesis Hfac : 0 < qp_step_factor cfg.
  Hypothesis Hparam : 0 <= qp_armijo_param cfg.

  (** C21: the objective does not increase over the call unless a line search was cut off by min_step. *)
  Theorem C21_monotone :
    (forall e, In e (qo_trace out) -> qp_min_step cfg <= qp_step_factor cfg ^ Z.to_nat (qt_snum e)) ->
    quad n (mget H) (vget g) (vget (qo_x out)) <= quad n (mget H) (vget g) (vget (qp_clip lower upper ix)).
  Proof.
    intros Hnc.
    destruct (qp_ok LL cfg n H g lower upper fuel afuel ol ix s s' out Hrun) as (_ & _ & HH & Hg & Hl & Hu & _).
    destruct (qp_solve_R LL cfg n H g lower upper HLL HH Hg Hl Hu Hbox Hsym Hpd Hthre Hfac Hparam fuel afuel ol ix s s' out Hrun)
      as (_ & [Hm|Hm] & _); [exact Hm|].
    apply Exists_exists in Hm as (e & Hin & Hcut). exfalso. apply (Rlt_not_le _ _ Hcut). apply Hnc; exact Hin.
  Qed.

  (** C22: the two failure codes never occur. *)
  Theorem C22_no_failure : qo_retval out <> (-1)%Z /\ qo_retval out <> (-2)%Z.
  Proof.
    destruct (qp_ok LL cfg n H g lower upper fuel afuel ol ix s s' out Hrun) as (_ & _ & HH & Hg & Hl & Hu & _).
    exact (proj2 (proj2 (qp_solve_R LL cfg n H g lower upper HLL HH Hg Hl Hu Hbox Hsym Hpd Hthre Hfac Hparam fuel afuel ol ix s s' out Hrun))).
  Qed.

  (** C22: every entry after the first is either the blank entry of a pass that ended the loop, or reports an
      iterate inside the box and a strict descent direction whose slope is minus its H-energy; the full step is
      taken at once when it stays in the box; and all small enough steps meet the Armijo test. *)
  Theorem C22_descent e : In e (tl (qo_trace out)) ->
    e = qp_trace0 n (qt_iter e) \/
    let x := vget (qt_x e) in let d := vget (qt_dir e) in
    let slope := Rsum n (fun i => d i * quad_grad n (mget H) (vget g) x i) in
    in_box n lower upper x /\ qt_obj e = quad n (mget H) (vget g) x /\
    slope = - energy n (mget H) d /\ slope < 0 /\
    (qp_armijo_param cfg <= / 2 -> in_box n lower upper (fun i => x i + d i) -> qt_snum e = 0%Z) /\
    (qp_armijo_param cfg < 1 -> exists dl, 0 < dl /\ forall a, 0 < a <= dl ->
       quad n (mget H) (vget g) (proj lower upper (fun i => x i + a * d i)) - quad n (mget H) (vget g) x
         <= qp_armijo_param cfg * (a * slope)).
  Proof.
    intros Hin.
    destruct (qp_ok LL cfg n H g lower upper fuel afuel ol ix s s' out Hrun) as (_ & _ & HH & Hg & Hl & Hu & _).
    destruct (qp_solve_R LL cfg n H g lower upper HLL HH Hg Hl Hu Hbox Hsym Hpd Hthre Hfac Hparam fuel afuel ol ix s s' out Hrun)
      as (Hall & _).
    rewrite Forall_forall in Hall. destruct (Hall e Hin) as [He|He]; [left; exact He|right].
    destruct He as [_ _ H1 H2 H3 H4 H5 H6]. split; [exact H1|]. split; [exact H2|]. split; [exact H3|].
    split; [exact H4|]. split; [exact H5|exact H6].
  Qed.
End Opt.
Print Assumptions C19_all_clamped_optimal.
Print Assumptions C20_small_gradient_near_optimal.
Print Assumptions C21_monotone.
Print Assumptions C22_no_failure.
Print Assumptions C22_descent.


(** Non-vacuity: H = diag(1, 4) is symmetric positive definite, and three runs end by exits 6 and 5 and after
    one full Newton step along (0, 1), the first coordinate being clamped at its bound. *)
Example C19_C22_nonvacuous_H : fsym 2 (mget exr_H) /\ posdef 2 (mget exr_H) /\ psd 2 (mget exr_H) /\
  exact_llt (chol_llt (T := R)) /\
  qp_grad_thre exr_cfg <> 0 /\ 0 < qp_step_factor exr_cfg /\ 0 <= qp_armijo_param exr_cfg.
Proof.
  assert (Hp : posdef 2 (mget exr_H)).
  { intros x (i & Hi & Hx). unfold fdot, fmv, exr_H; cbn.
    assert (E : x 0%nat <> 0 \/ x 1%nat <> 0) by (destruct i as [|[|i]]; auto; lia).
    destruct E as [E|E]; [assert (0 < x 0%nat * x 0%nat) by (apply Rsqr_pos_lt; auto)|
                          assert (0 < x 1%nat * x 1%nat) by (apply Rsqr_pos_lt; auto)]; nra. }
  split; [intros [|[|i]] [|[|j]] Hi Hj; try lia; reflexivity|].
  split; [exact Hp|]. split; [apply posdef_psd; exact Hp|]. split; [exact chol_exact|].
  unfold exr_cfg; cbn. lra.
Qed.
Example C19_nonvacuous : exists out, qp_solve chol_llt exr_cfg 2 exr_H [1; -8] [0; 0] [1; 1] 1 0 None [-2; 1] tt = Ok out tt /\
  qo_retval out = 6%Z /\ qo_x out = [Q2R 0; Q2R 1].
Proof. exact exr_run6. Qed.
Example C20_nonvacuous : exists out, qp_solve chol_llt exr_cfg 2 exr_H [1; -4] [0; 0] [1; 2] 1 0 None [-2; 1] tt = Ok out tt /\
  qo_retval out = 5%Z /\ qo_x out = [Q2R 0; Q2R 1].
Proof. exact exr_run5. Qed.
Example C21_C22_nonvacuous : exists out, qp_solve chol_llt exr_cfg 2 exr_H [1; -4] [0; 0] [1; 2] 1 0 None [-2; 0] tt = Ok out tt /\
  qo_retval out = 1%Z /\ qo_x out = [Q2R 0; Q2R 1] /\
  exists e0 e, qo_trace out = [e0; e] /\ qt_x e = [Q2R 0; Q2R 0] /\ qt_dir e = [Q2R 0; Q2R 1] /\ qt_snum e0 = 0%Z /\ qt_snum e = 0%Z.
Proof. exact exr_run_step. Qed.
