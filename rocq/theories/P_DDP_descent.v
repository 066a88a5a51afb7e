(** Property C68 of DDPSolver: on smooth nonlinear problems an unconstrained backward pass gives a descent direction of the true
    cost, the line search cannot reject small steps, and zero feed-forward gains mean a zero gradient. *)
From Verif Require Import Prelude Scalar LinAlg BoxQP DDP DDPSpec DDPProofs DDPCor DDPReal DDPSafe DDPLimits RLin Chol CholProofs LQ LQ2 LQ3 LQ4
  GmresSpec P_Ode CgmresGrad Problems ProbSpec ProbProofs ProbProofs2 ProbProofs3 ProbSolve P_DDP_lq P_Problems DDPDescent.
From Verif Require Import ExDDP P_DDP_real P_DDP_safe P_ProblemsRun MpcProofs.
From Coq Require Import Reals Lra.
Local Open Scope R_scope.

(** Every feed-forward gain of the pass is zero. *)
Definition no_feedforward (g : pass R) : Prop := forall j k, nth_error (p_k g) j = Some k -> forall b, vget k b = 0.
(** The cost of the inputs us has derivative zero along every direction. *)
Definition zero_gradient (pb : problem R) (t0 : R) (x0 : vec R) (us : list (vec R)) : Prop :=
  forall v, length v = length us -> inputs_typed pb t0 v -> derivable_pt_lim (fun s => cost_of pb t0 0 x0 (moved us v s)) 0 0.

Section Descent.
  Variables (LL : lltops R) (pb : problem R) (cf : config R) (limits : option (R -> vec R * vec R)) (qfuel : nat).
  Variables (t0 : R) (x0 : vec R) (N : nat).
  Hypothesis Hsp : smooth_problem pb.
  Hypothesis Hx0 : length x0 = pb_nx pb.
  Variables (c : cdata R) (l : R) (g : pass R).
  Hypothesis Hro : is_rollout pb t0 x0 N c.
  Hypothesis Ht : inputs_typed pb t0 (cd_u c).
  Hypothesis Hb : backward pb cf t0 N LL limits qfuel c l (Some g).
  Notation candidate := (is_candidate pb t0 x0 N c g).
  Let Hc : traj pb t0 x0 N c := conj Hro Ht.

  Lemma fits : gains_fit pb t0 N c g.
  Proof.
    destruct Hb as (ds & xN & old & Lds & Hds & HxN & Hbf). cbv zeta in Hbf.
    destruct (pass_fits pb cf t0 x0 N LL limits qfuel Hsp Hx0 c Hc l ds Hds g N _ _ _ _ Hbf (Nat.le_refl N) eq_refl) as (F1 & F2 & _ & F4).
    cbn [p_k p_K length] in F1, F2. split; [lia|]. split; [lia|]. exact F4.
  Qed.
  Lemma seconds : (0 < N)%nat -> cf_second cf = false.
  Proof.
    destruct Hb as (ds & xN & old & Lds & Hds & HxN & Hbf). cbv zeta in Hbf.
    apply (pass_fits pb cf t0 x0 N LL limits qfuel Hsp Hx0 c Hc l ds Hds g N _ _ _ _ Hbf (Nat.le_refl N) eq_refl).
  Qed.
  Lemma clF a : candidate a (cl_cand pb t0 x0 c g a).
  Proof. apply (cl_cand_ok pb t0 x0 N Hsp Hx0 c g a Hc fits). Qed.

  Lemma slope_exists F : (forall a, candidate a (F a)) -> exists s q, derivable_pt_lim (fun a => total (F a)) 0 s /\ s + / 2 * q = p_d0 g + p_d1 g /\ (psd_costs pb -> 0 <= q).
  Proof.
    intros HF. destruct Hb as (ds & xN & old & Lds & Hds & HxN & Hbf). cbv zeta in Hbf.
    destruct (pb_terminalCostDeriv pb (t0 + nofnat N * pb_dt pb)%num xN old) as [Vx Vxx] eqn:EV. cbn [fst snd] in Hbf.
    destruct (pass_fits pb cf t0 x0 N LL limits qfuel Hsp Hx0 c Hc l ds Hds g N _ _ _ _ Hbf (Nat.le_refl N) eq_refl) as (_ & _ & Hsec & _).
    assert (Le : length xN = pb_nx pb) by (apply (trj_x pb t0 x0 N Hsp Hx0 c Hc N); exact HxN).
    assert (Hsym : fsym (pb_nx pb) (mget Vxx)) by (pose proof (sp_symT pb Hsp (t0 + nofnat N * pb_dt pb)%num xN old Le) as S; rewrite EV in S; exact S).
    exists (slope_of pb N g ds Vx), (curv_of pb N g ds Vxx). split; [|split].
    - apply (F_slope pb cf t0 x0 N Hsp Hx0 c Hc g ds Hsec Hds F HF old Vx Vxx).
      replace (at_x c N) with xN; [exact EV|]. symmetry. apply nth_some. exact HxN.
    - refine (pass_id pb cf t0 x0 N LL limits qfuel Hsp Hx0 c Hc l ds Hds g N _ _ _ _ _ _ Hbf (Nat.le_refl N) Hsym eq_refl _).
      unfold slope_of, curv_of, LQ2.dq. cbn [p_d0 p_d1]. change (@nzero R RNum) with 0. ring.
    - intros Hp. unfold curv_of. assert (0 <= Rsum N (cv pb g ds)).
      { apply Rsum_nonneg. intros i Hi. unfold cv. destruct (nth_error ds i) as [d|] eqn:Ed; [|lra]. cbv zeta.
        destruct (Hds i Hi) as (x & u & old' & d' & A1 & A2 & A3 & A4). rewrite Ed in A3. injection A3 as <-.
        destruct (step_sizes pb cf t0 x0 N Hsp Hx0 c Hc ds Hds i u d Hi (Hsec ltac:(lia)) A2 Ed) as (_ & _ & _ & HJ). apply (HJ Hp). }
      pose proof (pc_T pb Hp (t0 + nofnat N * pb_dt pb)%num xN old Le) as P. rewrite EV in P. cbn [snd] in P.
      pose proof (P (disp pb g ds N)). lra.
  Qed.

  (** C68: the derivative of the true cost along the step factor is at most the expected change of the full step (also for passes
      under input limits). *)
  Theorem C68_slope F : psd_costs pb -> (forall a, candidate a (F a)) ->
    total (F 0) = total c /\ exists s, derivable_pt_lim (fun a => total (F a)) 0 s /\ s <= p_d0 g + p_d1 g.
  Proof.
    intros Hp HF. destruct (slope_exists F HF) as (s & q & D & E & Q). specialize (Q Hp). split; [|exists s; split; [exact D|lra]].
    exact (F_zero_total pb cf t0 x0 N Hsp Hx0 c Hc g seconds F HF).
  Qed.

  Hypothesis HE : exact_llt LL.
  Hypothesis Hcon : cf_constraint cf = false.
  Hypothesis Hl : 0 <= l.

  Lemma pass_facts : p_d0 g <= 0 /\ p_d1 g <= - / 2 * p_d0 g /\ (p_d0 g = 0 -> no_feedforward g).
  Proof.
    destruct Hb as (ds & xN & old & Lds & Hds & HxN & Hbf). cbv zeta in Hbf.
    assert (Le : length xN = pb_nx pb) by (apply (trj_x pb t0 x0 N Hsp Hx0 c Hc N); exact HxN).
    destruct (pass_desc pb cf t0 x0 N LL limits qfuel Hsp Hx0 c Hc l ds Hds g HE Hcon Hl N _ _ _ _ Hbf (Nat.le_refl N)
      (sp_symT pb Hsp _ xN old Le) eq_refl) as (D0 & D1 & D2); [cbn [p_d0 p_d1]; change (@nzero R RNum) with 0; lra|].
    cbn [p_d0] in D0, D2. change (@nzero R RNum) with 0 in D0, D2. split; [exact D0|]. split; [exact D1|].
    intros E j k Hk b. destruct fits as (L1 & _). assert (Hj : (j < N)%nat) by (rewrite <- L1; apply nth_error_Some; congruence).
    destruct (D2 E j Hj) as (k' & Ek & Z). rewrite Hk in Ek. injection Ek as <-.
    destruct (Nat.lt_ge_cases b (length k)) as [H|H]; [apply Z; exact H|unfold vget; rewrite nth_overflow by exact H; reflexivity].
  Qed.

  (** C68: unconstrained: the slope is at most half the linear part of the expected change, which is negative unless every
      feed-forward gain is zero. *)
  Theorem C68_descent F : psd_costs pb -> (forall a, candidate a (F a)) ->
    exists s, derivable_pt_lim (fun a => total (F a)) 0 s /\ s <= / 2 * p_d0 g /\ p_d0 g <= 0 /\ (~ no_feedforward g -> s < 0).
  Proof.
    intros Hp HF. destruct (C68_slope F Hp HF) as (_ & s & D & Hs). destruct pass_facts as (P0 & P1 & P2).
    exists s. split; [exact D|]. split; [lra|]. split; [exact P0|]. intros Hn.
    assert (p_d0 g <> 0) by (intros E; apply Hn, P2, E). lra.
  Qed.

  (** C68: small steps pass the test of the line search. *)
  Theorem C68_accept : psd_costs pb -> cf_cost_update_ratio_thre cf < / 2 -> ~ no_feedforward g ->
    exists abar, 0 < abar /\ forall a c', 0 < a < abar -> candidate a c' -> total c' < total c /\ trial pb cf t0 x0 N c g a c' true.
  Proof.
    intros Hp Hth Hn. destruct (C68_slope (cl_cand pb t0 x0 c g) Hp clF) as (E0 & s & D & Hs). destruct pass_facts as (P0 & P1 & P2).
    assert (Hd : p_d0 g < 0) by (assert (p_d0 g <> 0) by (intros E; apply Hn, P2, E); lra).
    set (th := Rmax (cf_cost_update_ratio_thre cf) 0). assert (Th : 0 <= th < / 2) by (unfold th; split; [apply Rmax_r|apply Rmax_lub_lt; lra]).
    assert (Th' : cf_cost_update_ratio_thre cf <= th) by apply Rmax_l.
    set (D0 := - p_d0 g) in *. assert (HD : 0 < D0) by (unfold D0; lra). set (e := (/ 2 - th) * D0 / 2).
    assert (He : 0 < e) by (unfold e; apply Rdiv_lt_0_compat; [apply Rmult_lt_0_compat|]; lra).
    destruct (D e He) as [dl Hdl].
    set (b2 := e / (Rabs (p_d1 g) + 1)). pose proof (Rabs_pos (p_d1 g)) as Ha1.
    assert (Hb2 : 0 < b2) by (apply Rdiv_lt_0_compat; lra).
    exists (Rmin dl (Rmin 1 b2)). split; [apply Rmin_glb_lt; [apply cond_pos|apply Rmin_glb_lt; lra]|].
    intros a c' [Ha Hab] Hcand.
    assert (Ha2 : a < dl) by (eapply Rlt_le_trans; [exact Hab|apply Rmin_l]).
    assert (Ha3 : a < 1) by (eapply Rlt_le_trans; [exact Hab|eapply Rle_trans; [apply Rmin_r|apply Rmin_l]]).
    assert (Ha4 : a < b2) by (eapply Rlt_le_trans; [exact Hab|eapply Rle_trans; [apply Rmin_r|apply Rmin_r]]).
    assert (Ha5 : a * Rabs (p_d1 g) < e).
    { apply Rle_lt_trans with (a * (Rabs (p_d1 g) + 1)); [nra|]. apply Rlt_le_trans with (b2 * (Rabs (p_d1 g) + 1)); [apply Rmult_lt_compat_r; lra|].
      right. unfold b2. field. lra. }
    rewrite <- (cand_total pb t0 x0 N Hsp Hx0 c g a _ _ Hc (clF a) Hcand).
    specialize (Hdl a ltac:(lra) ltac:(rewrite Rabs_pos_eq; lra)). rewrite Rplus_0_l in Hdl.
    set (J := total (cl_cand pb t0 x0 c g a)) in *. rewrite E0 in Hdl. apply Rabs_def2 in Hdl. destruct Hdl as [Hdl _].
    assert (Hdec : total c - J > a * (/ 2 * D0 - e)).
    { assert ((J - total c) / a < s + e) by lra.
      assert (J - total c < a * (s + e)) by (replace (J - total c) with (a * ((J - total c) / a)) by (field; lra); apply Rmult_lt_compat_l; lra).
      assert (a * s <= a * (- / 2 * D0)) by (apply Rmult_le_compat_l; unfold D0; lra). lra. }
    assert (HthD : 0 <= th * D0) by (apply Rmult_le_pos; lra).
    assert (Ee : e = / 4 * D0 - / 2 * (th * D0)) by (unfold e; field).
    assert (He2 : e <= / 4 * D0) by lra.
    assert (Hpos : J < total c) by nra.
    split; [exact Hpos|]. split; [exact Hcand|].
    rewrite <- (cand_total pb t0 x0 N Hsp Hx0 c g a _ _ Hc (clF a) Hcand). fold J.
    unfold expected_of, ratio_of.
    assert (Eex : (nopp none * a * (p_d0 g + a * p_d1 g))%num = a * (D0 - a * p_d1 g)) by (unfold D0; numR; ring). rewrite Eex. clear Eex.
    assert (Hex : 0 < D0 - a * p_d1 g) by (destruct (Rle_dec (p_d1 g) 0); unfold D0 in *; nra).
    numR. assert (En : Rltb (a * (D0 - a * p_d1 g)) 0 = false) by (apply Rltb_false; nra). rewrite En.
    apply Rltb_true. unfold Rgt in *.
    apply Rmult_lt_reg_r with (a * (D0 - a * p_d1 g)); [nra|].
    replace ((total c - J) / (a * (D0 - a * p_d1 g)) * (a * (D0 - a * p_d1 g))) with (total c - J) by (field; split; lra).
    apply Rle_lt_trans with (th * (a * (D0 - a * p_d1 g))); [apply Rmult_le_compat_r; nra|].
    apply Rle_lt_trans with (a * (/ 2 * D0 - e)); [|lra].
    assert (- (a * p_d1 g) <= e) by (pose proof (Rle_abs (- p_d1 g)) as A; rewrite Rabs_Ropp in A; nra).
    replace (th * (a * (D0 - a * p_d1 g))) with (a * (th * (D0 - a * p_d1 g))) by ring. apply Rmult_le_compat_l; [lra|].
    unfold e in *. nra.
  Qed.

  (** C68: a line search whose list contains such a factor succeeds. *)
  Theorem C68_search : psd_costs pb -> cf_cost_update_ratio_thre cf < / 2 -> ~ no_feedforward g ->
    exists abar, 0 < abar /\ forall alphas o al ac ex ra, search pb cf t0 x0 N c g alphas o al ac ex ra ->
      (exists a, In a alphas /\ 0 < a < abar) -> exists c', o = Some c'.
  Proof.
    intros Hp Hth Hn. destruct (C68_accept Hp Hth Hn) as (abar & Ha & H). exists abar. split; [exact Ha|].
    intros alphas o al ac ex ra Hs. induction Hs as [|a rest c' Ht'|a c' Ht'|a b rest c' o al ac ex ra Ht' Hs IH]; intros (a0 & Hin & Ha0).
    - destruct Hin.
    - eauto.
    - exfalso. destruct Hin as [->|[]]. destruct (H a0 c' Ha0 (proj1 Ht')) as [_ Hacc].
      destruct Hacc as [_ E1]. destruct Ht' as [_ E2]. rewrite E1 in E2. discriminate.
    - destruct Hin as [->|Hin]; [|apply IH; eauto]. exfalso. destruct (H a0 c' Ha0 (proj1 Ht')) as [_ Hacc].
      destruct Hacc as [_ E1]. destruct Ht' as [_ E2]. rewrite E1 in E2. discriminate.
  Qed.

  Lemma open_total v s : length v = N -> inputs_typed pb t0 v -> total (rollout_of pb t0 x0 (moved (cd_u c) v s)) = cost_of pb t0 0 x0 (moved (cd_u c) v s).
  Proof. intros _ _. unfold total. cbn [rollout_of cd_cost]. apply rollout_cost. Qed.

  (** C68: the feed-forward gains vanish exactly where the gradient of the cost in the inputs vanishes, whatever the
      regularisation and the second derivatives. *)
  Theorem C68_stationary : no_feedforward g <-> zero_gradient pb t0 x0 (cd_u c).
  Proof.
    destruct Hb as (ds & xN & old & Lds & Hds & HxN & Hbf). cbv zeta in Hbf. pose proof seconds as Hsec. pose proof fits as (L1 & _ & Ff).
    assert (LuN : length (cd_u c) = N) by apply (ro_lu _ _ _ _ _ Hro).
    destruct (pb_terminalCostDeriv pb (t0 + nofnat N * pb_dt pb)%num xN old) as [Vx Vxx] eqn:EV. cbn [fst snd] in Hbf.
    assert (Le : length xN = pb_nx pb) by (apply (trj_x pb t0 x0 N Hsp Hx0 c Hc N); exact HxN).
    assert (Hsym : fsym (pb_nx pb) (mget Vxx)) by (pose proof (sp_symT pb Hsp (t0 + nofnat N * pb_dt pb)%num xN old Le) as S; rewrite EV in S; exact S).
    assert (EV' : pb_terminalCostDeriv pb (t0 + nofnat N * pb_dt pb)%num (at_x c N) old = (Vx, Vxx)).
    { replace (at_x c N) with xN; [exact EV|]. symmetry. apply nth_some. exact HxN. }
    destruct (pass_stat pb cf t0 x0 N LL limits qfuel Hsp Hx0 c Hc l ds Hds g HE Hcon Hl N Vx Vxx _ _ Vx Hbf (Nat.le_refl N) Hsym eq_refl) as [S1 S2].
    { intros h. unfold slope_of. ring. }
    assert (Dv : forall v, length v = N -> inputs_typed pb t0 v ->
      derivable_pt_lim (fun s => cost_of pb t0 0 x0 (moved (cd_u c) v s)) 0 (slope_of pb N (open_pass pb t0 N v) ds Vx)).
    { intros v Lv Tv. eapply dl_conv; [intros s; symmetry; apply (open_total v s Lv Tv)| |reflexivity].
      apply (F_slope pb cf t0 x0 N Hsp Hx0 c Hc (open_pass pb t0 N v) ds Hsec Hds (fun s => rollout_of pb t0 x0 (moved (cd_u c) v s))
        (fun s => moved_cand pb t0 x0 N Hsp Hx0 c v s Hc Lv Tv) old Vx Vxx EV'). }
    split.
    - intros Hz v Lv Tv. rewrite LuN in Lv. eapply dl_eq; [exact (Dv v Lv Tv)|]. apply S1. intros j Hj.
      destruct (Ff j Hj) as (k & K & Ek & _). exists k. split; [exact Ek|]. intros b _. exact (Hz j k Ek b).
    - intros Hz j k Ek b. assert (Hj : (j < N)%nat) by (rewrite <- L1; apply nth_error_Some; congruence).
      destruct (S2) with (j := j) as (k' & Ek' & Z); [|exact Hj|].
      + intros v Lv Tv h Eh EK. assert (Lv' : length v = length (cd_u c)) by congruence.
        pose proof (uniqueness_limite _ _ _ _ (Dv v Lv Tv) (Hz v Lv' Tv)) as E0. rewrite <- E0. clear E0.
        assert (Ed : forall i e, (i < N)%nat -> dispu pb h i e = dispu pb (open_pass pb t0 N v) i e).
        { intros i e Hi. unfold dispu. rewrite Eh, (EK i Hi). cbn [open_pass p_k p_K].
          rewrite nth_error_map, (nth_error_nth' _ O) by (rewrite seq_length; exact Hi). rewrite seq_nth by exact Hi. reflexivity. }
        assert (Ex : forall i, (i <= N)%nat -> disp pb h ds i = disp pb (open_pass pb t0 N v) ds i).
        { induction i as [|i IH]; intros Hi; [reflexivity|]. cbn [disp]. rewrite (IH ltac:(lia)), Ed by lia. reflexivity. }
        unfold slope_of. rewrite Ex by lia. f_equal. apply Rsum_ext. intros i Hi. unfold sl. rewrite Ex by lia. rewrite Ed by lia. reflexivity.
      + rewrite Ek in Ek'. injection Ek' as <-.
        destruct (Nat.lt_ge_cases b (length k)) as [H|H]; [apply Z; exact H|unfold vget; rewrite nth_overflow by exact H; reflexivity].
  Qed.
End Descent.

(** Every step has positive definite input Hessians, or the regularisation adds lambda > 0 to the diagonal of Quu. *)
Definition always_definite (pb : problem R) (cf : config R) (l : R) : Prop :=
  (forall t x u old Lx Lu Lxx Luu Lxu, length x = pb_nx pb -> length u = nu_of pb t ->
     pb_runningCostDeriv pb t x u old = (Lx, Lu, Lxx, Luu, Lxu) -> posdef (nu_of pb t) (mget Luu)) \/
  (cf_reg_type cf = 1%Z /\ 0 < l).

Section Iteration.
  Variables (LL : lltops R) (pb : problem R) (cf : config R) (limits : option (R -> vec R * vec R)) (qfuel : nat).
  Variables (t0 : R) (x0 : vec R) (N : nat).
  Hypothesis Hsp : smooth_problem pb.
  Hypothesis Hpc : psd_costs pb.
  Hypothesis Hx0 : length x0 = pb_nx pb.
  Hypothesis HE : exact_llt LL.
  Hypothesis Hcon : cf_constraint cf = false.

  (** C68: unconstrained backward passes do not fail. *)
  Theorem C68_no_failure c l : is_rollout pb t0 x0 N c -> inputs_typed pb t0 (cd_u c) -> 0 <= l -> always_definite pb cf l ->
    ~ backward pb cf t0 N LL limits qfuel c l None.
  Proof.
    intros Hro Ht Hl Hd (ds & xN & old & Lds & Hds & HxN & Hbf). cbv zeta in Hbf. assert (Hc : traj pb t0 x0 N c) by (split; assumption).
    assert (Le : length xN = pb_nx pb) by (apply (trj_x pb t0 x0 N Hsp Hx0 c Hc N); exact HxN).
    exact (pass_some pb cf t0 x0 N LL limits qfuel Hsp Hx0 c Hc l ds Hds HE Hcon Hl N _ _ _ _ Hpc Hd Hbf (Nat.le_refl N)
      (sp_symT pb Hsp _ xN old Le) (pc_T pb Hpc _ xN old Le) eq_refl).
  Qed.

  (** C68: what one iteration can do: its only backward pass succeeds; if no step factor of the list is accepted, the gradient is
      zero or a list with shorter factors would have done: the gains are those of a descent direction. *)
  Theorem C68_iteration it s r e s' : iteration pb cf t0 x0 N LL limits qfuel it s r e s' ->
    let '(c, p, _) := s in let '(c', _, _) := s' in
    is_rollout pb t0 x0 N c -> inputs_typed pb t0 (cd_u c) -> 0 <= fst p -> always_definite pb cf (fst p) -> cf_cost_update_ratio_thre cf < / 2 ->
    exists g, backward pb cf t0 N LL limits qfuel c (fst p) (Some g) /\
      (r = 1%Z \/ (exists a, In a (cf_alpha_list cf) /\ trial pb cf t0 x0 N c g a c' true) \/
       (c' = c /\ (zero_gradient pb t0 x0 (cd_u c) \/
          exists abar, 0 < abar /\ (forall a, In a (cf_alpha_list cf) -> 0 < a -> abar <= a) /\
            forall a c1, 0 < a < abar -> is_candidate pb t0 x0 N c g a c1 -> total c1 < total c /\ trial pb cf t0 x0 N c g a c1 true))).
  Proof.
    assert (Hre : forall c o p q, is_rollout pb t0 x0 N c -> inputs_typed pb t0 (cd_u c) -> 0 <= fst p -> always_definite pb cf (fst p) ->
      retry pb cf t0 N LL limits qfuel c o p q -> exists g, o = Some g /\ backward pb cf t0 N LL limits qfuel c (fst p) (Some g)).
    { intros c o p q Hro Ht Hl Hd H. destruct H as [p g H|p H _|o p q H _ _]; [eauto| |]; exfalso; exact (C68_no_failure c (fst p) Hro Ht Hl Hd H). }
    assert (Hac : forall c g alphas o al ac ex ra, search pb cf t0 x0 N c g alphas o al ac ex ra -> forall c', o = Some c' ->
      exists a, In a alphas /\ trial pb cf t0 x0 N c g a c' true).
    { intros c g alphas o al ac ex ra. induction 1 as [|a rest c' H|a c' H|a b rest c' o al ac ex ra H Hs IH]; intros c1 E; try discriminate.
      - injection E as <-. exists a. split; [left; reflexivity|exact H].
      - destruct (IH c1 E) as (a1 & I1 & I2). exists a1. split; [right; exact I1|exact I2]. }
    destruct 1 as [c p q g0 g H|c p q g0 g krn H Hk Hkr H1 H2|c p q g0 g krn c' al ac ex ra H Hk Hkr H1 H2|c p q g0 g krn al ac ex ra H Hk Hkr H1 H2];
      intros Hro Ht Hl Hd Hth; destruct (Hre _ _ _ _ Hro Ht Hl Hd H) as (g' & Eg & Hbk).
    - discriminate.
    - exists g'. auto.
    - injection Eg as <-. exists g. split; [exact Hbk|]. right. left. exact (Hac _ _ _ _ _ _ _ _ H2 c' eq_refl).
    - injection Eg as <-. exists g. split; [exact Hbk|]. right. right. split; [reflexivity|].
      destruct (Classical_Prop.classic (no_feedforward g)) as [Hz|Hz].
      + left. apply (C68_stationary LL pb cf limits qfuel t0 x0 N Hsp Hx0 c (fst p) g Hro Ht Hbk HE Hcon Hl). exact Hz.
      + right. destruct (C68_accept LL pb cf limits qfuel t0 x0 N Hsp Hx0 c (fst p) g Hro Ht Hbk HE Hcon Hl Hpc Hth Hz) as (abar & Ha & Hs).
        exists abar. split; [exact Ha|]. split; [|exact Hs]. intros a Hin Hpos. destruct (Rle_lt_dec abar a) as [Hle|Hlt]; [exact Hle|]. exfalso.
        assert (Hrej : forall alphas o al ac ex ra, search pb cf t0 x0 N c g alphas o al ac ex ra -> o = None -> forall a, In a alphas ->
          exists c1, trial pb cf t0 x0 N c g a c1 false).
        { induction 1 as [|a1 rest c1 H'|a1 c1 H'|a1 b rest c1 o' al' ac' ex' ra' H' Hs' IH]; intros E a2 Hin2; try discriminate.
          - destruct Hin2.
          - destruct Hin2 as [<-|[]]. eauto.
          - destruct Hin2 as [<-|Hin2]; [eauto|exact (IH E a2 Hin2)]. }
        destruct (Hrej _ _ _ _ _ _ H2 eq_refl a Hin) as (c1 & Hc1 & E1). destruct (Hs a c1 (conj Hpos Hlt) Hc1) as [_ [_ E2]]. rewrite E1 in E2. discriminate.
  Qed.
End Iteration.
Print Assumptions C68_slope.
Print Assumptions C68_descent.
Print Assumptions C68_accept.
Print Assumptions C68_search.
Print Assumptions C68_stationary.
Print Assumptions C68_no_failure.
Print Assumptions C68_iteration.

(** ** The example problems meet the hypotheses *)
Lemma diag_posdef (w : vec R) n : length w = n -> (forall i, (i < n)%nat -> 0 < vget w i) -> posdef n (mget (mdiag w)).
Proof.
  intros Hw Hp y (i & Hi & Hy). unfold fdot.
  assert (Hn : forall j, (j < n)%nat -> 0 <= y j * fmv n (mget (mdiag w)) y j).
  { intros j Hj. rewrite (mv_diag w n y j Hw Hj). pose proof (Rle_0_sqr (y j)) as S. unfold Rsqr in S. pose proof (Rmult_le_pos _ _ (Rlt_le _ _ (Hp j Hj)) S). lra. }
  pose proof (Rsum_term_le n _ i Hn Hi) as Ht. cbv beta in Ht. rewrite (mv_diag w n y i Hw Hi) in Ht.
  pose proof (Rsqr_pos_lt _ Hy) as Hq. unfold Rsqr in Hq. pose proof (Rmult_lt_0_compat _ _ (Hp i Hi) Hq). lra.
Qed.
Lemma sid_form c m (y : fvec) : fdot m y (fmv m (mget (mscale c (@mid R RNum m))) y) = Rsum m (fun i => c * (y i * y i)).
Proof. unfold fdot. apply Rsum_ext. intros i Hi. rewrite (mv_sid _ m _ i Hi). ring. Qed.
Lemma sid_psd c m : 0 <= c -> psd m (mget (mscale c (@mid R RNum m))).
Proof. intros Hc y. rewrite sid_form. apply Rsum_nonneg. intros i Hi. pose proof (Rle_0_sqr (y i)) as S. unfold Rsqr in S. nra. Qed.
Lemma sid_posdef c m : 0 < c -> posdef m (mget (mscale c (@mid R RNum m))).
Proof.
  intros Hc y (i & Hi & Hy). rewrite sid_form.
  pose proof (Rsum_term_le m (fun i => c * (y i * y i)) i ltac:(intros j Hj; pose proof (Rle_0_sqr (y j)) as S; unfold Rsqr in S; nra) Hi) as Ht. cbv beta in Ht.
  pose proof (Rsqr_pos_lt _ Hy) as Hq. unfold Rsqr in Hq. pose proof (Rmult_lt_0_compat _ _ Hc Hq). lra.
Qed.
Lemma sdiag_get c (w : vec R) m i j : length w = m -> (i < m)%nat -> (j < m)%nat -> mget (mscale c (mdiag w)) i j = if Nat.eqb i j then c * vget w i else 0.
Proof.
  intros Hw Hi Hj. unfold mscale. cbn [mdiag mbuild mrows mcols]. rewrite mbuild_get by lia. rewrite mget_mdiag by lia.
  destruct (Nat.eqb i j); [reflexivity|numR; ring].
Qed.
Lemma sdiag_fsym c (w : vec R) m : length w = m -> fsym m (mget (mscale c (mdiag w))).
Proof. intros Hw i j Hi Hj. rewrite !sdiag_get with (m := m) by auto. rewrite (Nat.eqb_sym j i). destruct (Nat.eqb_spec i j) as [->|]; reflexivity. Qed.
Lemma sdiag_psd c (w : vec R) m : length w = m -> 0 <= c -> (forall i, 0 <= vget w i) -> psd m (mget (mscale c (mdiag w))).
Proof.
  intros Hw Hc Hp y. unfold fdot. apply Rsum_nonneg. intros i Hi. unfold fmv.
  rewrite (Rsum_single m _ i Hi) by (intros j Hj Hne; rewrite (sdiag_get c w m i j Hw Hi Hj); destruct (Nat.eqb_spec i j); [congruence|ring]).
  rewrite (sdiag_get c w m i i Hw Hi Hi), Nat.eqb_refl. pose proof (Rle_0_sqr (y i)) as S. unfold Rsqr in S.
  pose proof (Rmult_le_pos _ _ (Rmult_le_pos _ _ Hc (Hp i)) S). lra.
Qed.

(** Cart-pole. *)
Lemma cart_smooth p : cart_ok p -> smooth_problem (cartpole sin cos p).
Proof.
  intros OK. destruct (C49_cartpole p OK) as ((E1 & E2 & _) & _). pose proof (cart_wd sin cos p (co_rx p OK) (co_ru p OK) (co_tx p OK)) as WD. split; try assumption.
  - apply (wd_state _ WD).
  - reflexivity.
  - intros t x u old Lx Lu Lxx Luu Lxu _ _ E. cbn [cartpole pb_runningCostDeriv] in E. unfold cart_Ld in E. injection E as _ _ _ <- _. apply diag_fsym, OK.
  - intros t x old _. apply diag_fsym, OK.
Qed.
Lemma cart_psd p : cart_ok p -> (forall i, 0 <= vget (cr_rx p) i) -> (forall i, 0 <= vget (cr_ru p) i) -> (forall i, 0 <= vget (cr_tx p) i) -> psd_costs (cartpole sin cos p).
Proof.
  intros OK P1 P2 P3. split.
  - intros t x u old Lx Lu Lxx Luu Lxu _ _ E. cbn [cartpole pb_runningCostDeriv] in E. unfold cart_Ld in E. injection E as _ _ <- <- <-.
    intros n m dx du. unfold n, m. cbn [cartpole pb_nx nu_of pb_fixed_nu]. rewrite fdot_mzero.
    pose proof (diag_psd (cr_rx p) 4 (co_rx p OK) P1 dx). pose proof (diag_psd (cr_ru p) 1 (co_ru p OK) P2 du). lra.
  - intros t x old _. apply (diag_psd (cr_tx p) 4 (co_tx p OK) P3).
Qed.
Lemma cart_definite p cf l : cart_ok p -> 0 < vget (cr_ru p) 0 -> always_definite (cartpole sin cos p) cf l.
Proof.
  intros OK Hu. left. intros t x u old Lx Lu Lxx Luu Lxu _ _ E. cbn [cartpole pb_runningCostDeriv] in E. unfold cart_Ld in E. injection E as _ _ _ <- _.
  apply (diag_posdef (cr_ru p) 1 (co_ru p OK)). intros i Hi. replace i with 0%nat by lia. exact Hu.
Qed.
(** Centroidal motion. *)
Lemma cent_smooth p : cent_ok p -> smooth_problem (centroidal p).
Proof.
  intros OK. destruct (C49_centroidal p OK) as (E1 & E2 & _). pose proof (cent_wd p (ce_rx p OK) (ce_tx p OK)) as WD. split; try assumption.
  - apply (wd_state _ WD).
  - intros t x u old Lx Lu. cbn [centroidal pb_stateEqDeriv]. rewrite <- Lu. unfold cent_fd. destruct (cn_stance p t). reflexivity.
  - intros t x u old Lx Lu Lxx Luu Lxu _ Hu E. cbn [centroidal pb_runningCostDeriv] in E. unfold cent_Ld, cent_Ld1 in E. injection E as _ _ _ <- _. rewrite Hu. apply sid_fsym.
  - intros t x old _. apply diag_fsym, OK.
Qed.
Lemma cent_psd p : cent_ok p -> (forall i, 0 <= vget (cn_rx p) i) -> 0 <= cn_ru p -> (forall i, 0 <= vget (cn_tx p) i) -> psd_costs (centroidal p).
Proof.
  intros OK P1 P2 P3. split.
  - intros t x u old Lx Lu Lxx Luu Lxu _ Hu E. cbn [centroidal pb_runningCostDeriv] in E. unfold cent_Ld, cent_Ld1 in E. injection E as _ _ <- <- <-. rewrite Hu.
    intros n m dx du. fold m. unfold n. cbn [centroidal pb_nx]. rewrite fdot_mzero.
    pose proof (diag_psd (cn_rx p) 9 (ce_rx p OK) P1 dx). pose proof (sid_psd (cn_ru p) m P2 du). lra.
  - intros t x old _. apply (diag_psd (cn_tx p) 9 (ce_tx p OK) P3).
Qed.
Lemma cent_definite p cf l : 0 < cn_ru p -> always_definite (centroidal p) cf l.
Proof.
  intros Hp. left. intros t x u old Lx Lu Lxx Luu Lxu _ Hu E. cbn [centroidal pb_runningCostDeriv] in E. unfold cent_Ld, cent_Ld1 in E. injection E as _ _ _ <- _.
  rewrite Hu. apply sid_posdef. exact Hp.
Qed.
(** Vertical motion, also with the smooth absolute value (whose Luu is a Gauss-Newton matrix: singular at u = 0). *)
Lemma vert_smooth_problem p : length (vp_rx p) = 2%nat -> length (vp_tx p) = 2%nat -> smooth_problem (vertical p).
Proof.
  intros H1 H2. destruct (C49_vertical p H1 H2) as (E1 & E2 & _). pose proof (vert_wd p H1 H2) as WD. split; try assumption.
  - apply (wd_state _ WD).
  - intros t x u old Lx Lu. exact Lu.
  - intros t x u old Lx Lu Lxx Luu Lxu _ Hu E. cbn [vertical pb_runningCostDeriv] in E. unfold vert_Ld in E. destruct (vp_smooth p); injection E as _ _ _ <- _.
    + apply sdiag_fsym. unfold vabs2. rewrite vcwise_len, smooth_abs_d_len. exact Hu.
    + rewrite Hu. apply sid_fsym.
  - intros t x old _. apply diag_fsym, H2.
Qed.
Lemma vabs2_nonneg (v : vec R) i : 0 <= vget (vabs2 v) i.
Proof.
  unfold vabs2, vcwise. destruct (Nat.lt_ge_cases i (length v)) as [H|H].
  - rewrite vbuild_get by exact H. numR. pose proof (Rle_0_sqr (vget v i)) as S. exact S.
  - unfold vget. rewrite nth_overflow by (rewrite vbuild_length; exact H). apply Rle_refl.
Qed.
Lemma vert_psd p : length (vp_rx p) = 2%nat -> length (vp_tx p) = 2%nat -> (forall i, 0 <= vget (vp_rx p) i) -> 0 <= vp_ru p -> (forall i, 0 <= vget (vp_tx p) i) ->
  psd_costs (vertical p).
Proof.
  intros H1 H2 P1 P2 P3. split.
  - intros t x u old Lx Lu Lxx Luu Lxu _ Hu E. cbn [vertical pb_runningCostDeriv] in E. unfold vert_Ld in E.
    intros n m dx du. assert (Hp : psd m (mget Luu) /\ Lxx = mdiag (vp_rx p) /\ Lxu = mzero 2 (length u)).
    { destruct (vp_smooth p); injection E as _ _ <- <- <-; split; auto.
      - apply sdiag_psd; [unfold vabs2; rewrite vcwise_len, smooth_abs_d_len; exact Hu|exact P2|apply vabs2_nonneg].
      - rewrite Hu. apply sid_psd. exact P2. }
    destruct Hp as (Hp & -> & ->). unfold n. cbn [vertical pb_nx]. rewrite fdot_mzero.
    pose proof (diag_psd (vp_rx p) 2 H1 P1 dx). pose proof (Hp du). lra.
  - intros t x old _. apply (diag_psd (vp_tx p) 2 H2 P3).
Qed.

Lemma rollout_unique pb t0 x0 us c : is_rollout pb t0 x0 (length us) c -> cd_u c = us -> c = rollout_of pb t0 x0 us.
Proof.
  intros Hro Hu. pose proof (rollout_of_ok pb t0 x0 us) as Hr.
  set (c0 := rollout_of pb t0 x0 us) in *.
  assert (X : forall i, (i <= length us)%nat -> nth_error (cd_x c) i = nth_error (cd_x c0) i).
  { induction i as [|i IH]; intros Hi; [rewrite (ro_x0 _ _ _ _ _ Hro), (ro_x0 _ _ _ _ _ Hr); reflexivity|].
    destruct (ro_step _ _ _ _ _ Hro i ltac:(lia)) as (x & u & A1 & A2 & A3 & _). destruct (ro_step _ _ _ _ _ Hr i ltac:(lia)) as (y & w & B1 & B2 & B3 & _).
    rewrite Nat.add_1_r in A3, B3. rewrite A3, B3. rewrite IH, B1 in A1 by lia. injection A1 as <-. rewrite Hu in A2. change (cd_u c0) with us in B2. rewrite A2 in B2. injection B2 as <-. reflexivity. }
  assert (X1 : cd_x c = cd_x c0).
  { apply nth_error_same. intros i. destruct (Nat.le_gt_cases i (length us)) as [Hi|Hi]; [apply X; exact Hi|].
    rewrite !(proj2 (nth_error_None _ i)); [reflexivity| |]; rewrite ?(ro_lx _ _ _ _ _ Hro), ?(ro_lx _ _ _ _ _ Hr); lia. }
  assert (X2 : cd_cost c = cd_cost c0).
  { apply nth_error_same. intros i. destruct (Nat.lt_total i (length us)) as [Hi|[->|Hi]].
    - destruct (ro_step _ _ _ _ _ Hro i Hi) as (x & u & A1 & A2 & _ & A4). destruct (ro_step _ _ _ _ _ Hr i Hi) as (y & w & B1 & B2 & _ & B4).
      rewrite A4, B4. rewrite X, B1 in A1 by lia. injection A1 as <-. rewrite Hu in A2. change (cd_u c0) with us in B2. rewrite A2 in B2. injection B2 as <-. reflexivity.
    - destruct (ro_end _ _ _ _ _ Hro) as (x & A1 & A2). destruct (ro_end _ _ _ _ _ Hr) as (y & B1 & B2). rewrite A2, B2. rewrite X, B1 in A1 by lia. injection A1 as <-. reflexivity.
    - rewrite !(proj2 (nth_error_None _ i)); [reflexivity| |]; rewrite ?(ro_lc _ _ _ _ _ Hro), ?(ro_lc _ _ _ _ _ Hr); lia. }
  assert (X3 : cd_u c = cd_u c0) by exact Hu. destruct c, c0. cbn in *. congruence.
Qed.

(** C68 for a call of solve: the first backward pass succeeds with the initial regularisation, and its feed-forward gains are zero
    exactly if the given inputs are a stationary point; otherwise they are a descent direction. *)
Theorem C68_solve LL pb cf limits jk fuel qfuel t0 x0 us s b s' :
  smooth_problem pb -> psd_costs pb -> length x0 = pb_nx pb -> exact_llt LL -> cf_constraint cf = false ->
  0 <= cf_initial_lambda cf -> always_definite pb cf (cf_initial_lambda cf) -> (1 <= cf_max_iter cf)%Z -> inputs_typed pb t0 us ->
  ddp_solve LL pb cf limits jk fuel qfuel t0 x0 us s = Ok b s' ->
  exists g, let c := rollout_of pb t0 x0 us in
    backward pb cf t0 (length us) LL limits qfuel c (cf_initial_lambda cf) (Some g) /\
    (no_feedforward g <-> zero_gradient pb t0 x0 us) /\
    (~ zero_gradient pb t0 x0 us -> forall F, (forall a, is_candidate pb t0 x0 (length us) c g a (F a)) ->
       exists sl, derivable_pt_lim (fun a => total (F a)) 0 sl /\ sl <= / 2 * p_d0 g < 0).
Proof.
  intros Hsp Hpc Hx0 HE Hcon Hl Hd Hmi Htu E.
  destruct (solve_ok _ _ _ _ _ _ _ _ _ _ _ _ _ E) as ([Hlen _] & Hro & c & r & es & (Hro0 & Hus & g0 & Hits) & Hb & Htr).
  assert (En : Z.to_nat (cf_horizon cf) = length us) by lia. rewrite En in *.
  destruct (Z.to_nat (cf_max_iter cf)) as [|m] eqn:Em; [lia|].
  assert (Ec : c = rollout_of pb t0 x0 us) by (exact (rollout_unique pb t0 x0 us c Hro0 Hus)).
  assert (Ht : inputs_typed pb t0 (cd_u c)) by (rewrite Hus; exact Htu).
  assert (Hg : exists g, backward pb cf t0 (length us) LL limits qfuel c (cf_initial_lambda cf) (Some g)).
  { clear Ec Hus. assert (Hi : exists r1 e1 s1, iteration pb cf t0 x0 (length us) LL limits qfuel 1 (c, (cf_initial_lambda cf, cf_initial_dlambda cf), g0) r1 e1 s1)
      by (inversion Hits; subst; eauto). destruct Hi as (r1 & e1 & s1 & Hi).
    assert (Hr : exists o q, retry pb cf t0 (length us) LL limits qfuel c o (cf_initial_lambda cf, cf_initial_dlambda cf) q) by (inversion Hi; subst; eauto).
    destruct Hr as (o & q & Hr).
    inversion Hr as [p g H E1 E2|p H HH E1 E2|o' p q' H HH HH' E1 E2]; subst; cbn [fst] in H; [eauto| |]; exfalso;
      revert H; apply (C68_no_failure LL pb cf limits qfuel t0 x0 (length us) Hsp Hpc Hx0 HE Hcon); auto. }
  destruct Hg as (g & Hg). exists g. cbv zeta. rewrite <- Ec. split; [exact Hg|].
  assert (St : no_feedforward g <-> zero_gradient pb t0 x0 us).
  { rewrite <- Hus. exact (C68_stationary LL pb cf limits qfuel t0 x0 (length us) Hsp Hx0 c _ g Hro0 Ht Hg HE Hcon Hl). }
  split; [exact St|]. intros Hn F HF. assert (Hn' : ~ no_feedforward g) by (intros H; apply Hn, St, H).
  destruct (C68_descent LL pb cf limits qfuel t0 x0 (length us) Hsp Hx0 c _ g Hro0 Ht Hg HE Hcon Hl F Hpc HF) as (sl & D & S1 & S2 & S3).
  exists sl. split; [exact D|]. split; [exact S1|].
  destruct (pass_facts LL pb cf limits qfuel t0 x0 (length us) Hsp Hx0 c _ g Hro0 Ht Hg HE Hcon Hl) as (P0 & P1 & P2).
  assert (p_d0 g <> 0) by (intros H; apply Hn', P2, H). lra.
Qed.
Print Assumptions C68_solve.

(** A call on the cart-pole of the tests with one step from the lower equilibrium and input 1: it returns, the gradient is not zero,
    so its first pass is a descent direction. *)
Definition cart_pb : problem R := cartpole sin cos P_Problems.cart_test.
Lemma cart_pb_ok : cart_ok P_Problems.cart_test.
Proof. constructor; cbn; lra || reflexivity. Qed.
Lemma cart_pb_moving : ~ zero_gradient cart_pb 0 [0; 0; 0; 0] [[1]].
Proof.
  intros H. specialize (H [[1]] eq_refl). assert (T : inputs_typed cart_pb 0 [[1]]) by (intros [|[|i]] u E; [injection E as <-; reflexivity|discriminate|discriminate]).
  specialize (H T). set (k := / 1000 + / 100 * (/ 100 * / 100) + / 10 * (/ 200 * / 200)).
  assert (D : derivable_pt_lim (fun s => / 2 * k * ((1 + s) * (1 + s))) 0 k).
  { eapply dl_eq; [apply (dl_mult (fun _ => / 2 * k) (fun s => (1 + s) * (1 + s))); [apply dl_const|]; apply (dl_mult (fun s => 1 + s) (fun s => 1 + s));
      (apply (dl_plus (fun _ => 1) (fun s => s)); [apply dl_const|apply derivable_pt_lim_id])|]. cbv beta. field. }
  assert (H' : derivable_pt_lim (fun s => / 2 * k * ((1 + s) * (1 + s))) 0 0).
  { eapply dl_conv; [|exact H|reflexivity]. intros s. cbn. unfold vget. cbn. rewrite sin_0, cos_0. unfold k. field. }
  pose proof (uniqueness_limite _ _ _ _ D H'). unfold k in H0. lra.
Qed.
Definition cart_obj : ddp R := set_lastV (vzero 4) (mzero 4 4) ex_s0.
Example C68_nonvacuous : exists (b : bool) (s' : ddp R) g, let cf := test_cf (/ 10000) false 500 1 [1; / 2] in
  ddp_solve chol_llt cart_pb cf None vary_junk 81 500 0 [0; 0; 0; 0] [[1]] cart_obj = Ok b s' /\
  backward cart_pb cf 0 1 chol_llt None 500 (rollout_of cart_pb 0 [0; 0; 0; 0] [[1]]) (/ 10000) (Some g) /\
  ~ no_feedforward g /\ p_d0 g < 0.
Proof.
  set (cf := test_cf (/ 10000) false 500 1 [1; / 2]).
  destruct (C60_ddp_returns chol_llt chol_dims cart_pb (/ 10000) false 500 1 [1; / 2] None vary_junk 0 [0; 0; 0; 0] [[1]] cart_obj) as (b & s' & E & _).
  - apply ex_cartpole; reflexivity.
  - discriminate.
  - apply junk_any.
  - split; [reflexivity|]. split; [reflexivity|]. intros nu _. constructor.
  - reflexivity.
  - reflexivity.
  - intros [|[|i]] u Hu; [injection Hu as <-; reflexivity|discriminate|discriminate].
  - assert (T : inputs_typed cart_pb 0 [[1]]) by (intros [|[|i]] u Hu; [injection Hu as <-; reflexivity|discriminate|discriminate]).
    assert (Hp : forall i, 0 <= vget (cr_rx P_Problems.cart_test) i) by (intros [|[|[|[|[|i]]]]]; cbn; lra).
    assert (Hp1 : forall i, 0 <= vget (cr_ru P_Problems.cart_test) i) by (intros [|[|i]]; cbn; lra).
    assert (Hp2 : forall i, 0 <= vget (cr_tx P_Problems.cart_test) i) by (intros [|[|[|[|[|i]]]]]; cbn; lra).
    destruct (C68_solve chol_llt cart_pb cf None vary_junk 81 500 0 [0; 0; 0; 0] [[1]] cart_obj b s' (cart_smooth _ cart_pb_ok) (cart_psd _ cart_pb_ok Hp Hp1 Hp2)
      eq_refl chol_exact eq_refl) as (g & Hb & Hs & Hd); try exact E.
    + cbn. lra.
    + apply cart_definite; [exact cart_pb_ok|cbn; lra].
    + cbn. lia.
    + exact T.
    + exists b, s', g. cbv zeta. split; [exact E|]. split; [exact Hb|]. split; [intros H; apply cart_pb_moving, Hs, H|].
      assert (Hf : exists F, forall a, is_candidate cart_pb 0 [0; 0; 0; 0] 1 (rollout_of cart_pb 0 [0; 0; 0; 0] [[1]]) g a (F a)).
      { exists (cl_cand cart_pb 0 [0; 0; 0; 0] (rollout_of cart_pb 0 [0; 0; 0; 0] [[1]]) g).
        apply (clF chol_llt cart_pb cf None 500 0 [0; 0; 0; 0] 1 (cart_smooth _ cart_pb_ok) eq_refl _ (/ 10000)); [apply (rollout_of_ok cart_pb 0 [0; 0; 0; 0] [[1]])|exact T|exact Hb]. }
      destruct Hf as (F & HF). destruct (Hd cart_pb_moving F HF) as (sl & _ & _ & Hn). lra.
Qed.
