(** Property C70 of DDPSolver: the direction of a backward pass under input limits. *)
From Verif Require Import Prelude Scalar LinAlg BoxQP DDP DDPSpec DDPProofs DDPCor DDPReal DDPSafe RLin Chol CholProofs LQ LQ2 LQ3 LQ4
  GmresSpec P_Ode CgmresGrad Problems ProbSpec ProbProofs ProbProofs2 ProbProofs3 ProbSolve DDPDescent DDPBoxDescent.
From Verif Require Import DDPLimits P_DDP_lq ExDDP ExQPR RQ P_DDP_descent.
From Coq Require Import QArith Qreals Reals Lra Psatz.
Local Open Scope R_scope.

Section Limits.
  Variables (LL : lltops R) (pb : problem R) (cf : config R) (limits : option (R -> vec R * vec R)) (qfuel : nat).
  Variables (t0 : R) (x0 : vec R) (N : nat).
  Hypothesis Hsp : smooth_problem pb.
  Hypothesis Hpc : psd_costs pb.
  Hypothesis Hx0 : length x0 = pb_nx pb.
  Variables (c : cdata R) (l : R).
  Hypothesis Hro : is_rollout pb t0 x0 N c.
  Hypothesis Ht : inputs_typed pb t0 (cd_u c).
  Hypothesis Hl : 0 <= l.
  Notation candidate := (is_candidate pb t0 x0 N c).
  Let Hc : traj pb t0 x0 N c := conj Hro Ht.

  (** Every successful pass under limits has Box QP results; the relation does not restrict it. *)
  Theorem C70_boxes g : cf_constraint cf = true ->
    (backward pb cf t0 N LL limits qfuel c l (Some g) <-> exists outs, boxes pb cf t0 N LL limits qfuel c l outs g).
  Proof.
    intros Hcon. split.
    - intros (ds & xN & old & H1 & H2 & H3 & H4). destruct (backward_boxes _ _ _ _ _ _ _ _ _ _ _ _ _ _ Hcon H4 g eq_refl) as (outs & B).
      exists outs, ds, xN, old. auto.
    - intros (outs & ds & xN & old & H1 & H2 & H3 & H4). exists ds, xN, old. split; [exact H1|]. split; [exact H2|]. split; [exact H3|].
      exact (boxes_backward _ _ _ _ _ _ _ _ _ _ _ _ _ _ _ H4).
  Qed.

  Variables (g : pass R) (outs : list (option (qp_out R))) (mu : R).
  Hypothesis Hb : boxes pb cf t0 N LL limits qfuel c l outs g.
  Hypothesis Hlim : within_limits pb t0 limits (cd_u c).
  Hypothesis Hset : Forall settled outs \/ one_input pb LL mu.
  Hypothesis Hmu : input_modulus pb mu.
  Notation thre := (/ 100000000).

  Lemma box_backward : backward pb cf t0 N LL limits qfuel c l (Some g).
  Proof.
    destruct Hb as (ds & xN & old & H1 & H2 & H3 & H4). exists ds, xN, old. split; [exact H1|]. split; [exact H2|]. split; [exact H3|].
    exact (boxes_backward _ _ _ _ _ _ _ _ _ _ _ _ _ _ _ H4).
  Qed.
  Lemma box_facts : 0 <= p_d1 g /\ mu / 2 * gain_square g <= p_d1 g /\ p_d0 g + 2 * p_d1 g <= thre * gain_size g.
  Proof.
    destruct Hb as (ds & xN & old & H1 & H2 & H3 & H4). cbv zeta in H4.
    assert (Le : length xN = pb_nx pb) by (apply (trj_x pb t0 x0 N Hsp Hx0 c Hc N); exact H3).
    destruct (boxes_desc pb cf t0 x0 N LL limits qfuel Hsp Hpc Hx0 c Hc mu Hmu l Hl ds H2 Hlim N _ _ _ _ _ H4 (Nat.le_refl N)
      (sp_symT pb Hsp _ xN old Le) (pc_T pb Hpc _ xN old Le) Hset) as (D0 & D1 & D2).
    cbn [p_d0 p_d1] in D0, D1, D2. unfold gain_square at 2 in D0. unfold gain_size at 2 in D2. cbn [p_k fold_right] in D0, D2.
    cbn [qp_default_config qp_grad_thre] in D2. numR. lra.
  Qed.

  (** C70: with settled Box QPs the derivative of the true cost along the step factor is at most the gradient threshold of
      BoxQP times the length of the gains, less the curvature. *)
  Theorem C70_slope F : (forall a, candidate g a (F a)) ->
    exists s, derivable_pt_lim (fun a => total (F a)) 0 s /\ s <= thre * gain_size g - mu / 2 * gain_square g /\
      s <= / 2 * p_d0 g + thre / 2 * gain_size g /\ s <= thre * gain_size g.
  Proof.
    intros HF. destruct (C68_slope LL pb cf limits qfuel t0 x0 N Hsp Hx0 c l g Hro Ht box_backward F Hpc HF) as (_ & s & D & Hs).
    destruct box_facts as (P0 & P1 & P2). exists s. split; [exact D|]. repeat split; lra.
  Qed.

  (** Short steps along a direction of slope at most [ka] times the linear part of the expected change. *)
  Lemma short_steps ka s : 0 < ka <= 1 -> cf_cost_update_ratio_thre cf < ka -> p_d0 g < 0 -> s <= ka * p_d0 g ->
    derivable_pt_lim (fun a => total (cl_cand pb t0 x0 c g a)) 0 s ->
    exists abar, 0 < abar /\ forall a c', 0 < a < abar -> candidate g a c' -> total c' < total c /\ trial pb cf t0 x0 N c g a c' true.
  Proof.
    intros Hka Hth Hd Hs D.
    pose proof (clF LL pb cf limits qfuel t0 x0 N Hsp Hx0 c l g Hro Ht box_backward) as clF.
    destruct (C68_slope LL pb cf limits qfuel t0 x0 N Hsp Hx0 c l g Hro Ht box_backward (cl_cand pb t0 x0 c g) Hpc clF) as (E0 & _).
    set (th := Rmax (cf_cost_update_ratio_thre cf) 0). assert (Th : 0 <= th < ka) by (unfold th; split; [apply Rmax_r|apply Rmax_lub_lt; lra]).
    assert (Th' : cf_cost_update_ratio_thre cf <= th) by apply Rmax_l.
    set (D0 := - p_d0 g) in *. assert (HD : 0 < D0) by (unfold D0; lra). set (e := (ka - th) * D0 / 2).
    assert (He : 0 < e) by (unfold e; apply Rdiv_lt_0_compat; [apply Rmult_lt_0_compat|]; lra).
    destruct (D e He) as [dl Hdl].
    set (b2 := e / (Rabs (p_d1 g) + 1)). pose proof (Rabs_pos (p_d1 g)) as Ha1.
    assert (Hb2 : 0 < b2) by (apply Rdiv_lt_0_compat; lra).
    exists (Rmin dl (Rmin 1 b2)). split; [apply Rmin_glb_lt; [apply cond_pos|apply Rmin_glb_lt; lra]|].
    intros a c' [Ha Hab] Hcand.
    assert (Ha2 : a < dl) by (eapply Rlt_le_trans; [exact Hab|apply Rmin_l]).
    assert (Ha4 : a < b2) by (eapply Rlt_le_trans; [exact Hab|eapply Rle_trans; [apply Rmin_r|apply Rmin_r]]).
    assert (Ha5 : a * Rabs (p_d1 g) < e).
    { apply Rle_lt_trans with (a * (Rabs (p_d1 g) + 1)); [nra|]. apply Rlt_le_trans with (b2 * (Rabs (p_d1 g) + 1)); [apply Rmult_lt_compat_r; lra|].
      right. unfold b2. field. lra. }
    rewrite <- (cand_total pb t0 x0 N Hsp Hx0 c g a _ _ Hc (clF a) Hcand).
    specialize (Hdl a ltac:(lra) ltac:(rewrite Rabs_pos_eq; lra)). rewrite Rplus_0_l in Hdl.
    set (J := total (cl_cand pb t0 x0 c g a)) in *. rewrite E0 in Hdl. apply Rabs_def2 in Hdl. destruct Hdl as [Hdl _].
    assert (HkD : s <= - (ka * D0)) by (unfold D0; lra).
    assert (Hdec : total c - J > a * (ka * D0 - e)).
    { assert ((J - total c) / a < s + e) by lra.
      assert (J - total c < a * (s + e)) by (replace (J - total c) with (a * ((J - total c) / a)) by (field; lra); apply Rmult_lt_compat_l; lra).
      assert (a * s <= a * (- (ka * D0))) by (apply Rmult_le_compat_l; lra). lra. }
    assert (HthD : 0 <= th * D0) by (apply Rmult_le_pos; lra).
    assert (Ee : 2 * e = ka * D0 - th * D0) by (unfold e; field).
    assert (HkD2 : ka * D0 <= D0) by nra.
    assert (Hpos : J < total c) by (assert (0 < a * (ka * D0 - e)) by (apply Rmult_lt_0_compat; lra); lra).
    split; [exact Hpos|]. split; [exact Hcand|].
    rewrite <- (cand_total pb t0 x0 N Hsp Hx0 c g a _ _ Hc (clF a) Hcand). fold J.
    unfold expected_of, ratio_of.
    assert (Eex : (nopp none * a * (p_d0 g + a * p_d1 g))%num = a * (D0 - a * p_d1 g)) by (unfold D0; numR; ring). rewrite Eex. clear Eex.
    assert (Ap : - e <= a * p_d1 g <= e).
    { pose proof (Rle_abs (p_d1 g)). pose proof (Rle_abs (- p_d1 g)) as A. rewrite Rabs_Ropp in A. split; nra. }
    assert (Hex : 0 < D0 - a * p_d1 g) by lra.
    numR. assert (En : Rltb (a * (D0 - a * p_d1 g)) 0 = false) by (apply Rltb_false; nra). rewrite En.
    apply Rltb_true. unfold Rgt in *.
    apply Rmult_lt_reg_r with (a * (D0 - a * p_d1 g)); [nra|].
    replace ((total c - J) / (a * (D0 - a * p_d1 g)) * (a * (D0 - a * p_d1 g))) with (total c - J) by (field; split; lra).
    apply Rle_lt_trans with (th * (a * (D0 - a * p_d1 g))); [apply Rmult_le_compat_r; nra|].
    apply Rle_lt_trans with (a * (ka * D0 - e)); [|lra].
    replace (th * (a * (D0 - a * p_d1 g))) with (a * (th * (D0 - a * p_d1 g))) by ring. apply Rmult_le_compat_l; [lra|].
    assert (th * (D0 - a * p_d1 g) <= th * D0 + e) by nra. lra.
  Qed.

  (** C70: gains that are not tiny cannot be rejected by a line search with short enough factors. *)
  Theorem C70_accept : cf_cost_update_ratio_thre cf < / 4 -> 0 < gain_size g -> 3 * thre * gain_size g <= mu * gain_square g ->
    exists abar, 0 < abar /\ forall a c', 0 < a < abar -> candidate g a c' -> total c' < total c /\ trial pb cf t0 x0 N c g a c' true.
  Proof.
    intros Hth Hg Hbig. destruct box_facts as (P0 & P1 & P2).
    pose proof (clF LL pb cf limits qfuel t0 x0 N Hsp Hx0 c l g Hro Ht box_backward) as clF.
    destruct (C70_slope _ clF) as (s & D & _ & S2 & _).
    apply (short_steps (/ 4) s); [lra|exact Hth|lra|lra|exact D].
  Qed.
  Theorem C70_search : cf_cost_update_ratio_thre cf < / 4 -> 0 < gain_size g -> 3 * thre * gain_size g <= mu * gain_square g ->
    exists abar, 0 < abar /\ forall alphas o al ac ex ra, search pb cf t0 x0 N c g alphas o al ac ex ra ->
      (exists a, In a alphas /\ 0 < a < abar) -> exists c', o = Some c'.
  Proof.
    intros Hth Hg Hbig. destruct (C70_accept Hth Hg Hbig) as (abar & Ha & H). exists abar. split; [exact Ha|].
    intros alphas o al ac ex ra Hs. induction Hs as [|a rest c' Ht'|a c' Ht'|a b rest c' o al ac ex ra Ht' Hs IH]; intros (a0 & Hin & Ha0).
    - destruct Hin.
    - eauto.
    - exfalso. destruct Hin as [->|[]]. destruct (H a0 c' Ha0 (proj1 Ht')) as [_ Hacc].
      destruct Hacc as [_ E1]. destruct Ht' as [_ E2]. rewrite E1 in E2. discriminate.
    - destruct Hin as [->|Hin]; [|apply IH; eauto]. exfalso. destruct (H a0 c' Ha0 (proj1 Ht')) as [_ Hacc].
      destruct Hacc as [_ E1]. destruct Ht' as [_ E2]. rewrite E1 in E2. discriminate.
  Qed.
End Limits.

(** C70: with limits in order and definite Hessians no pass under limits fails. *)
Theorem C70_no_failure LL pb cf limits qfuel t0 x0 N c l mu : smooth_problem pb -> psd_costs pb -> length x0 = pb_nx pb ->
  is_rollout pb t0 x0 N c -> inputs_typed pb t0 (cd_u c) -> 0 <= l -> input_modulus pb mu -> 0 < mu \/ (cf_reg_type cf = 1%Z /\ 0 < l) ->
  exact_llt LL -> cf_constraint cf = true ->
  (forall f t b, limits = Some f -> (b < nu_of pb t)%nat -> vget (fst (f t)) b <= vget (snd (f t)) b) ->
  ~ backward pb cf t0 N LL limits qfuel c l None.
Proof.
  intros Hsp Hpc Hx0 Hro Ht Hl Hmu Hd HE Hcon Hord (ds & xN & old & H1 & H2 & H3 & H4). cbv zeta in H4.
  assert (Hc : traj pb t0 x0 N c) by (split; assumption).
  assert (Le : length xN = pb_nx pb) by (apply (trj_x pb t0 x0 N Hsp Hx0 c Hc N); exact H3).
  exact (boxes_some pb cf t0 x0 N LL limits qfuel Hsp Hpc Hx0 c Hc mu Hmu l Hl ds H2 N _ _ _ _ HE Hcon Hord Hd H4 (Nat.le_refl N)
    (sp_symT pb Hsp _ xN old Le) (pc_T pb Hpc _ xN old Le) eq_refl).
Qed.
Print Assumptions C70_boxes.
Print Assumptions C70_slope.
Print Assumptions C70_accept.
Print Assumptions C70_search.
Print Assumptions C70_no_failure.

(** ** A concrete case
    One step of lq_pb from x = 1 with input 0 and limits -1/8, 1/8: the full Newton step -1/4 is cut by the limit, the second
    pass of the Box QP finds the input on its limit (6), and the cost has a negative slope. *)
Section TwoPasses.
  Context {T : Type} {NT : Num T} (LL : lltops T) (cfg : qp_config T) (n : nat) (H : mat T) (g lower upper : vec T).
  Context {S : Type}.
  Variables (fu af : nat) (ol : option (mat T)) (ix : vec T) (s : S) (x grad d x1 grad1 : vec T) (cl cl1 : list bool) (o0 o1 : T).
  Lemma run_step_exit6 : mdimb n n H && vdimb n g && vdimb n lower && vdimb n upper && vdimb n ix = true ->
    qp_clip lower upper ix = x -> qp_grad H g x = grad -> qp_clamped n lower upper x grad = cl ->
    (2 <=? qp_print_level cfg)%Z = false -> qp_max_iter cfg = 500%Z ->
    forallb (fun b => b) cl = false -> llt_issue LL (mgather H (idx_of false cl) (idx_of false cl)) = false ->
    nltb (qp_grad_norm grad (idx_of false cl)) (qp_grad_thre cfg * qp_grad_thre cfg)%num = false ->
    qp_search_dir LL n H g (mgather H (idx_of false cl) (idx_of false cl)) x (idx_of false cl) (idx_of true cl) = d ->
    nltb (nlit 1 10000000000) (dot d grad) = false ->
    qp_clip lower upper (vadd x (vscale (nofZ 1) d)) = x1 -> qp_obj H g x = o0 -> qp_obj H g x1 = o1 ->
    nltb ((o1 - o0) / (nofZ 1 * dot d grad))%num (qp_armijo_param cfg) = false ->
    nltb (o0 - o1)%num (qp_rel_improve_thre cfg * nabs o0)%num = false ->
    qp_grad H g x1 = grad1 -> qp_clamped n lower upper x1 grad1 = cl1 -> forallb (fun b => b) cl1 = true ->
    exists out, qp_solve LL cfg n H g lower upper (Datatypes.S (Datatypes.S fu)) af ol ix s = Ok out s /\ qo_retval out = 6%Z /\ qo_x out = x1 /\
      qo_free out = idx_of false cl1.
  Proof.
    intros Hd Hx Hgrad Hcl Hpl Hm Hall Hi Hn Hdir Hsd Hx1 Ho0 Ho1 Ha Hr Hg1 Hcl1 Hall1.
    unfold qp_solve, bind. rewrite Hd. cbn [guard ret]. unfold qp_loop at 1, qp_iter, bind.
    cbn -[qp_clip qp_obj qp_grad qp_clamped qp_grad_norm idx_of mgather qp_search_dir dot vadd vscale qp_armijo nofZ].
    rewrite Hx, Hgrad, Hcl, Hall. cbn -[qp_clip qp_obj qp_grad qp_clamped qp_grad_norm idx_of mgather qp_search_dir dot vadd vscale qp_armijo nofZ].
    rewrite Hi, Hn, Nat.eqb_refl. cbn -[qp_clip qp_obj qp_grad qp_clamped qp_grad_norm idx_of mgather qp_search_dir dot vadd vscale qp_armijo nofZ].
    rewrite Hdir, Hsd, Hx1, Ho0, Ho1.
    assert (Hq : qp_armijo cfg H g lower upper af x d o0 (dot d grad) (nofZ 1) 0 x1 o1 0 s = ret (nofZ 1, 0%Z, x1, o1, 0%Z) s).
    { destruct af; cbn [qp_armijo]; rewrite Ha; reflexivity. }
    rewrite Hq. cbn -[qp_obj qp_grad qp_clamped idx_of]. rewrite Hm. cbn -[qp_obj qp_grad qp_clamped idx_of].
    rewrite Hr, Hg1, Hcl1, Hall1. cbn -[idx_of Z.leb]. rewrite Hpl. cbn -[idx_of].
    eexists; split; [reflexivity|]. split; [reflexivity|]. split; reflexivity.
  Qed.
End TwoPasses.

Lemma lq_smooth : smooth_problem (lq_pb (T := R)).
Proof.
  constructor.
  - reflexivity.
  - reflexivity.
  - constructor. intros t x u old A B Lx Lu E i Hi. cbn in *. injection E as <- <-. replace i with 0%nat by lia. split; [reflexivity|]. split; [reflexivity|].
    intros X dX U dU CX CU EX EU.
    apply dl_eq with (nth 0 dX 0 + nth 0 dU 0); [|cbn; unfold mget; cbn; ring].
    apply (dl_plus (fun s => nth 0 (X s) 0) (fun s => nth 0 (U s) 0)); [apply CX; lia|apply CU; lia].
  - constructor.
    + intros t x u old Lx Lu Lxx Luu Lxu Hx Hu E. cbn in *. injection E as <- <- <- <- <-. split; [reflexivity|]. split; [reflexivity|].
      intros X dX U dU CX CU EX EU.
      assert (D1 : dl (fun s => nth 0 (X s) 0) (nth 0 dX 0)) by (apply CX; lia). assert (D2 : dl (fun s => nth 0 (U s) 0) (nth 0 dU 0)) by (apply CU; lia).
      apply dl_conv with (fun s => 1 / 2 * (nth 0 (X s) 0 * nth 0 (X s) 0) + 1 / 2 * (nth 0 (U s) 0 * nth 0 (U s) 0)) (nth 0 x 0 * nth 0 dX 0 + nth 0 u 0 * nth 0 dU 0);
        [reflexivity| |cbn; unfold vget; cbn; ring].
      eapply dl_eq.
      * apply (dl_plus (fun s => 1 / 2 * (nth 0 (X s) 0 * nth 0 (X s) 0)) (fun s => 1 / 2 * (nth 0 (U s) 0 * nth 0 (U s) 0)));
          [apply (dl_mult (fun _ => 1 / 2) (fun s => nth 0 (X s) 0 * nth 0 (X s) 0))|apply (dl_mult (fun _ => 1 / 2) (fun s => nth 0 (U s) 0 * nth 0 (U s) 0))];
          [apply dl_const|apply dl_mult; exact D1|apply dl_const|apply dl_mult; exact D2].
      * cbv beta. rewrite EX, EU. field.
    + intros t x old Vx Vxx Hx E. cbn in *. injection E as <- <-. split; [reflexivity|]. split; [reflexivity|].
      intros X dX U dU CX CU EX EU. assert (D1 : dl (fun s => nth 0 (X s) 0) (nth 0 dX 0)) by (apply CX; lia).
      apply dl_conv with (fun s => 1 / 2 * (nth 0 (X s) 0 * nth 0 (X s) 0)) (nth 0 x 0 * nth 0 dX 0); [reflexivity| |cbn; unfold vget; cbn; ring].
      eapply dl_eq; [apply (dl_mult (fun _ => 1 / 2) (fun s => nth 0 (X s) 0 * nth 0 (X s) 0)); [apply dl_const|apply dl_mult; exact D1]|]. cbv beta. rewrite EX. field.
  - intros t x u old Lx Lu Lxx Luu Lxu Hx Hu E. cbn in *. injection E as <- <- <- <- <-. intros i j Hi Hj. cbn in *. replace i with 0%nat by lia. replace j with 0%nat by lia. reflexivity.
  - intros t x old Hx i j Hi Hj. cbn in *. replace i with 0%nat by lia. replace j with 0%nat by lia. reflexivity.
Qed.
Lemma lq_psd : psd_costs (lq_pb (T := R)).
Proof.
  constructor.
  - intros t x u old Lx Lu Lxx Luu Lxu Hx Hu E. cbn in E. injection E as <- <- <- <- <-. cbv zeta. intros dx du. unfold fdot, fmv. cbn. unfold mget. cbn. nra.
  - intros t x old Hx y. unfold fdot, fmv. cbn. unfold mget. cbn. nra.
Qed.
Lemma lq_modulus : input_modulus (lq_pb (T := R)) 1.
Proof. intros t x u old Lx Lu Lxx Luu Lxu Hx Hu E y. cbn in E. injection E as <- <- <- <- <-. cbn. unfold mget. cbn. lra. Qed.

Definition ex_limits : option (R -> vec R * vec R) := Some (fun _ => ([- / 8], [/ 8])).
Definition ex_c : cdata R := {| cd_x := [[1]; [1]]; cd_u := [[0]]; cd_cost := [/ 2; / 2] |}.
Example C70_nonvacuous : exists out g, let cf := with_cf false true 50 1 in
  is_rollout lq_pb 0 [1] 1 ex_c /\ inputs_typed lq_pb 0 (cd_u ex_c) /\ within_limits lq_pb 0 ex_limits (cd_u ex_c) /\
  boxes lq_pb cf 0 1 chol_llt ex_limits 2 ex_c 2 [Some out] g /\ settled (Some out) /\
  smooth_problem (lq_pb (T := R)) /\ psd_costs (lq_pb (T := R)) /\ input_modulus (lq_pb (T := R)) 1 /\
  gain_size g = / 8 /\ gain_square g = / 64 /\ p_d0 g = - / 8 /\ 3 * / 100000000 * gain_size g <= 1 * gain_square g.
Proof.
  set (d := {| dFx := m11 1; dFu := m11 1; dLx := [1]; dLu := [0]; dLxx := m11 1; dLuu := m11 1; dLxu := m11 0 |} : deriv R).
  set (cf := with_cf (T := R) false true 50 1).
  set (q := expansion cf d [1] (m11 1) 2).
  destruct (run_step_exit6 chol_llt qp_default_config 1 (qQuu_F q) (qQu q) [- / 8 - 0] [/ 8 - 0] 0 2 None [0] tt [Q2R 0] [Q2R 1] [Q2R (-1 # 4)] [Q2R (-1 # 8)] [Q2R (1 # 2)]
    [false] [true] (Q2R 0) (Q2R (-3 # 32))) as (out & Eo & Er & Ex & Ef); try reflexivity.
  all: try (unfold q; rcbv; rq; reflexivity).
  assert (Ek : qo_x out = [- / 8]) by (rewrite Ex; apply f_equal2; [unfold Q2R; cbn; lra|reflexivity]).
  exists out, {| p_k := [qo_x out]; p_K := [mzero 1 1]; p_d0 := 0 + dot (qo_x out) (qQu q); p_d1 := 0 + nhalf * dot (qo_x out) (mvmul (qQuu q) (qo_x out)) |}.
  assert (Gs : forall gg : pass R, p_k gg = [qo_x out] -> gain_size gg = / 8 /\ gain_square gg = / 64).
  { intros gg E. unfold gain_size, gain_square. rewrite E, Ek. cbn [fold_right length]. rewrite !Rsum_S. unfold vget. cbn [nth Rsum].
    replace (0 + - / 8 * - / 8) with (/ 8 * / 8) by ring. rewrite sqrt_square by lra. split; lra. }
  cbv zeta. fold cf. split; [|split; [|split; [|split; [|split; [|split; [|split; [|split]]]]]]].
  - constructor; try reflexivity.
    + intros i Hi. replace i with 0%nat by lia. exists [1], [0]. cbn. repeat split; do 2 f_equal; unfold vget; cbn; try lra; f_equal; lra.
    + exists [1]. split; [reflexivity|]. cbn. f_equal. unfold vget; cbn. lra.
  - intros i u. destruct i as [|[|i]]; intros H; [injection H as <-; reflexivity|discriminate|discriminate].
  - intros f i u b Ef' Hu Hb. injection Ef' as <-. destruct i as [|[|i]]; try discriminate. injection Hu as <-. cbn in Hb. replace b with 0%nat by lia. cbn. unfold vget; cbn. lra.
  - exists [d], [1], ([1], m11 1). split; [reflexivity|]. split; [|split; [reflexivity|]].
    + intros i Hi. replace i with 0%nat by lia. exists [1], [0], d, d. cbn. repeat split.
    + cbv zeta. change [Some out] with ([] ++ [Some out]).
      refine (bx_step lq_pb cf 0 chol_llt ex_limits 2 [[0]] [d] 2 0 [0] d [1] (m11 1) _ (qo_x out) (mzero 1 1) _ _ (Some out) [] _ eq_refl eq_refl eq_refl eq_refl _ _ _ eq_refl _ _).
      * eapply sg_box with (f := fun _ => ([- / 8], [/ 8])) (ik := [0]) (out := out); [cbn; lia|reflexivity| | | |].
        -- split; [reflexivity|]. cbv zeta. split; [reflexivity|]. split; [reflexivity|]. split; [reflexivity|]. exact Eo.
        -- rewrite Er. lia.
        -- intros _. reflexivity.
        -- intros H. rewrite Ef in H. exfalso. apply H. reflexivity.
      * right. exists (fun _ => ([- / 8], [/ 8])), [0], out. split; [|auto].
        split; [reflexivity|]. cbv zeta. split; [reflexivity|]. split; [reflexivity|]. split; [reflexivity|]. exact Eo.
      * rewrite Ek. reflexivity.
      * apply surjective_pairing.
      * constructor.
  - right. exact Er.
  - exact lq_smooth.
  - exact lq_psd.
  - exact lq_modulus.
  - destruct (Gs {| p_k := [qo_x out]; p_K := [mzero 1 1]; p_d0 := 0 + dot (qo_x out) (qQu q); p_d1 := 0 + nhalf * dot (qo_x out) (mvmul (qQuu q) (qo_x out)) |} eq_refl) as [G1 G2].
    split; [exact G1|]. split; [exact G2|]. split; [|rewrite G1, G2; lra]. cbn [p_d0]. rewrite Ek. unfold q. rcbv. lra.
Qed.

(** ** A Box QP that ended by "relative improvement too small" (4)
    Two steps with trivial dynamics and two inputs: the cost of the first is
    (a^2 + b^2)/2 + 3/4 a b + 17/32 a + 1/8 b with 0 <= a <= 10, that of the second (a^2 + b^2)/2048 - 2^-44 a - 2^-13 b. The gain of the
    second step, (2^-34, 1/8), is the initial guess of the Box QP of the first; from there its line search is cut to steps of order
    2^-34 by the limit of a, and the loop ends with the first input on its limit and the second still near 1/8, where the cost is higher
    than at 0. *)
Section Stalled.
  Context {T : Type} {NT : Num T}.
  Local Open Scope num_scope.
  Definition quad2 (a b c g h : T) (u : vec T) : T :=
    let x := vget u 0 in let y := vget u 1 in nhalf * (a * (x * x)) + b * (x * y) + nhalf * (c * (y * y)) + (g * x + h * y).
  Definition quad2_deriv (a b c g h : T) (u : vec T) : vec T * mat T :=
    let x := vget u 0 in let y := vget u 1 in ([a * x + b * y + g; b * x + c * y + h], mkmat 2 2 [[a; b]; [b; c]]).
  Definition first_cost {A} (k : T -> T -> T -> T -> T -> A) : A := k (nofZ 1) (nlit 3 4) (nofZ 1) (nlit 17 32) (nlit 1 8).
  Definition second_cost {A} (k : T -> T -> T -> T -> T -> A) : A := k (nlit 1 1024) nzero (nlit 1 1024) (nlit (-1) 17592186044416) (nlit (-1) 8192).
  Definition stalled_pb : problem T := {|
    pb_dt := nofZ 1; pb_nx := 1; pb_fixed_nu := Some 2%nat; pb_inputDim := fun _ => 2%Z;
    pb_stateEq := fun t x u => [vget x 0];
    pb_runningCost := fun t x u => if t <? nhalf then first_cost quad2 u else second_cost quad2 u;
    pb_terminalCost := fun t x => nzero;
    pb_stateEqDeriv := fun t x u _ => (m11 none, mzero 1 2);
    pb_stateEqDeriv2 := fun t x u _ => (m11 none, mzero 1 2);
    pb_runningCostDeriv := fun t x u _ => let '(g, H) := if t <? nhalf then first_cost quad2_deriv u else second_cost quad2_deriv u in
      ([nzero], g, m11 nzero, H, mzero 1 2);
    pb_terminalCostDeriv := fun t x _ => ([nzero], m11 nzero) |}.
  Definition stalled_limits : T -> vec T * vec T := fun t =>
    (if t <? nhalf then [nzero; nofZ (-10)] else [nofZ (-10); nofZ (-10)], [nofZ 10; nofZ 10]).
End Stalled.
Definition stalled_run : outcome (ddp f64) bool :=
  ddp_solve chol_llt stalled_pb (with_cf false true 50 2) (Some stalled_limits) ex_junk 200 1000 nzero [nzero] [[nzero; nzero]; [nzero; nzero]] ex_s0.
(** Within the limits, component by component. *)
Definition inside (lim : vec f64 * vec f64) (u : vec f64) : bool :=
  forallb (fun i => nleb (vget (fst lim) i) (vget u i) && nleb (vget u i) (vget (snd lim) i))%bool (seq 0 (length u)).

Definition zeros (l : list (vec f64)) : bool :=
  match l with
  | [[SpecFloat.S754_zero false; SpecFloat.S754_zero false]; [SpecFloat.S754_zero false; SpecFloat.S754_zero false]] => true
  | _ => false
  end.
Lemma zeros_true l : zeros l = true -> l = [[nzero; nzero]; [nzero; nzero]].
Proof.
  destruct l as [|[|a [|b [|]]] [|[|c [|d [|]]] [|]]]; cbn; intros H1;
    repeat match type of H1 with context [match ?x with _ => _ end] => destruct x end; try discriminate H1. reflexivity.
Qed.

(** C70 refuted without the condition on the exits: with the default regularisation the run above returns false and leaves the inputs at
    zero, which is within the limits, although the inputs (0, -1/8) for the first step are within the limits and cheaper; its
    last feed-forward gains have a positive slope (dV[0] > 0). *)
Theorem C70_refuted : exists s', stalled_run = Ok false s' /\
  cd_u (s_cd s') = [[nzero; nzero]; [nzero; nzero]] /\
  inside (stalled_limits nzero) [nzero; nzero] = true /\ inside (stalled_limits nzero) [nzero; nlit (-1) 8] = true /\
  nltb (pb_runningCost stalled_pb nzero [nzero] [nzero; nlit (-1) 8]) (pb_runningCost stalled_pb nzero [nzero] [nzero; nzero] - nlit 7 1000)%num = true /\
  nltb nzero (s_dV0 s') = true.
Proof.
  destruct (ok_and_true (fun b s => negb b && (zeros (cd_u (s_cd s)) && nltb nzero (s_dV0 s)))%bool stalled_run) as (b & s' & E & H).
  { vm_compute. reflexivity. }
  apply andb_true_iff in H as [Hb H]. apply andb_true_iff in H as [H1 H2]. exists s'. destruct b; [discriminate Hb|].
  split; [exact E|]. split; [exact (zeros_true _ H1)|].
  split; [vm_compute; reflexivity|]. split; [vm_compute; reflexivity|]. split; [vm_compute; reflexivity|exact H2].
Qed.
Print Assumptions C70_refuted.
