(** Convex linear-quadratic problems: the unregularised backward pass succeeds, and a whole run finds the optimum. *)
From Verif Require Import Prelude Scalar LinAlg BoxQP DDP DDPSpec DDPProofs DDPCor DDPReal DDPSafe DDPLimits RLin CholProofs LQ LQ2.
From Coq Require Import Reals Lra.
Open Scope R_scope.

(** Strictly convex in the input, jointly convex; the callbacks return matrices of the documented size. *)
Record lq_convex (pb : problem R) : Prop := {
  lc_sized : forall t x u old, length x = pb_nx pb -> length u = nu_of pb t ->
    mcols (snd (pb_stateEqDeriv pb t x u old)) = nu_of pb t;
  lc_L : forall t x u old Lx Lu Lxx Luu Lxu, length x = pb_nx pb -> length u = nu_of pb t ->
    pb_runningCostDeriv pb t x u old = (Lx, Lu, Lxx, Luu, Lxu) ->
    let n := pb_nx pb in let m := nu_of pb t in
    posdef m (mget Luu) /\
    forall dx du, 0 <= fdot n dx (fmv n (mget Lxx) dx) + 2 * fdot n dx (fmv m (mget Lxu) du) + fdot m du (fmv m (mget Luu) du);
  lc_T : forall t x old, length x = pb_nx pb -> psd (pb_nx pb) (mget (snd (pb_terminalCostDeriv pb t x old)))
}.

Section Algebra.
  Variables (n m : nat) (Lxx Luu Lxu Fx Fu Vxx : fmat).
  Notation Qxx := (fmadd Lxx (fmm n (fmm n (ftr Fx) Vxx) Fx)).
  Notation Qux := (fmadd (ftr Lxu) (fmm n (fmm n (ftr Fu) Vxx) Fx)).
  Notation Quu := (fmadd Luu (fmm n (fmm n (ftr Fu) Vxx) Fu)).
  Hypothesis Hsym : fsym n Vxx.
  Hypothesis HsL : fsym m Luu.
  Hypothesis Hpsd : psd n Vxx.
  Hypothesis HposL : posdef m Luu.
  Hypothesis Hjoint : forall dx du,
    0 <= fdot n dx (fmv n Lxx dx) + 2 * fdot n dx (fmv m Lxu du) + fdot m du (fmv m Luu du).

  Lemma quu_posdef : posdef m Quu.
  Proof.
    intros y Hy. rewrite fmv_madd, fdot_add_r, !fmv_mm.
    replace (fdot m y (fmv n (ftr Fu) (fmv n Vxx (fmv m Fu y)))) with (fdot n (fmv m Fu y) (fmv n Vxx (fmv m Fu y))).
    - pose proof (HposL y Hy). pose proof (Hpsd (fmv m Fu y)). lra.
    - rewrite (fdot_mv m n). reflexivity.
  Qed.

  Lemma vxx_psd K : (forall i j, (i < m)%nat -> (j < n)%nat -> fmm m Quu K i j = - Qux i j) -> psd n (sqVxx m Qxx Qux Quu K).
  Proof.
    intros HK y.
    pose proof (square n m fzero fzero Qxx Qux Quu fzero K (quad_sym n m Luu Vxx Fu HsL Hsym)) as Sq.
    assert (H0 : forall i, (i < m)%nat -> fmv m Quu fzero i = - fzero i) by (intros; rewrite fmv_0; unfold fzero; ring).
    specialize (Sq H0 HK y (fmv n K y)). cbv zeta in Sq.
    pose proof (q_expand n m fzero fzero Lxx Luu Lxu Fx Fu fzero Vxx Hsym y (fmv n K y)) as Qe. cbv zeta in Qe.
    rewrite !fmv_0 in Qe.
    replace (fadd fzero fzero) with fzero in Qe by (apply FunctionalExtensionality.functional_extensionality; intros; unfold fadd, fzero; ring).
    rewrite Sq in Qe. clear Sq.
    assert (Vz : fdot n (sqVx m fzero fzero Qux Quu fzero K) y = 0).
    { unfold sqVx. rewrite !fmv_0. rewrite !fdot_add_l, !fdot_0_l. ring. }
    replace (fsubv (fsubv (fmv n K y) fzero) (fmv n K y)) with fzero in Qe
      by (apply FunctionalExtensionality.functional_extensionality; intros; unfold fsubv, fzero; ring).
    rewrite Vz, !fmv_0, !fdot_0_l in Qe.
    pose proof (Hjoint y (fmv n K y)) as Hj. pose proof (Hpsd (fadd (fmv n Fx y) (fmv m Fu (fmv n K y)))) as Hp. lra.
  Qed.
End Algebra.

Section Convex.
  Variables (pb : problem R) (cf : config R) (t0 : R) (x0 : vec R) (N : nat).
  Variables (LL : lltops R) (limits : option (R -> vec R * vec R)) (qfuel : nat).
  Hypothesis HL : exact_llt LL.
  Hypothesis Hlq : lq_problem pb.
  Hypothesis Hcv : lq_convex pb.
  Hypothesis Hcon : cf_constraint cf = false.
  Hypothesis Hx0 : length x0 = pb_nx pb.
  Notation n := (pb_nx pb).
  Notation tm i := (t0 + nofnat i * pb_dt pb)%num.
  Notation traj := (traj pb t0 x0 N).

  Lemma backward_from_ok c ds i Vx Vxx gi o : traj c -> backward_from pb cf t0 LL limits qfuel (cd_u c) ds 0 i Vx Vxx gi o ->
    (i <= N)%nat ->
    (forall j, (j < i)%nat -> exists x u old d, nth_error (cd_x c) j = Some x /\ nth_error (cd_u c) j = Some u /\
         nth_error ds j = Some d /\ derivs_at pb cf (tm j) x u old d) ->
    (vdimb n Vx = true -> mdimb n n Vxx = true -> fsym n (mget Vxx) /\ psd n (mget Vxx)) -> o <> None.
  Proof.
    intros Hc.
    induction 1 as [Vx Vxx g0|i u d Vx Vxx g0 Hsec Hu Hd Hdim Hst|i u d Vx Vxx g0 k K Vx' Vxx' o Hsec Hu Hd Hdim q Hst Hk HK Hv Hb IH];
      intros HiN Hder Hinv; [discriminate| |].
    - exfalso. destruct (dd pb d Vx Vxx Hdim) as (D1 & D2 & D3 & D4 & D5 & D6 & D7 & D8 & D9).
      destruct (Hinv D1 D2) as [I1 I2]. destruct (Hder i ltac:(lia)) as (x & u1 & old & d1 & A1 & A2 & A3 & A4 & A5).
      rewrite Hu in A2. injection A2 as <-. rewrite Hd in A3. injection A3 as <-. rewrite Hsec in A4.
      assert (Lx : length x = n) by (apply (traj_x pb t0 x0 N Hlq Hx0 c Hc i); exact A1).
      assert (Lu : length u = nu_of pb (tm i)) by (apply (proj2 Hc); exact Hu).
      pose proof (lc_sized pb Hcv (tm i) x u (dFx old, dFu old) Lx Lu) as Em. rewrite <- A4 in Em. cbn [snd] in Em.
      symmetry in A5. destruct (lc_L pb Hcv (tm i) x u _ _ _ _ _ _ Lx Lu A5) as [J1 J2].
      pose proof (lq_L pb Hlq (tm i) x u x u _ _ _ _ _ _ Lx Lu Lx Lu A5 (vdimb_len _ _ D5)) as J3. cbv zeta in J2, J3.
      rewrite <- Em in J1, J2, J3. destruct (J3 (vdimb_len _ _ D6) D7 D8 D9) as [J4 _].
      destruct (qdims pb cf d Vx Vxx Hdim) as (Q1 & Q2 & Q3 & Q4 & Q5).
      remember (expansion cf d Vx Vxx 0) as q eqn:Eq. remember (@None (vec R * mat R)) as o eqn:Eo.
      destruct Hst as [H0|Hpos Hcc His|Hpos Hcc His|f' ik out Hpos Hcc|]; [discriminate| |discriminate|rewrite Hcon in Hcc; discriminate|discriminate].
      rewrite Eq, (qF pb cf d Vx Vxx Hdim), <- Eq in His.
      assert (Hi : llt_issue LL (qQuu q) = false); [|rewrite Hi in His; discriminate].
      apply (el_issue LL HL _ _ Q4); rewrite Eq, (qQuu_f pb cf d Vx Vxx Hdim).
      + apply quad_sym; assumption.
      + apply quu_posdef; assumption.
    - destruct (dd pb d Vx Vxx Hdim) as (D1 & D2 & D3 & D4 & D5 & D6 & D7 & D8 & D9).
      destruct (Hinv D1 D2) as [I1 I2]. destruct (Hder i ltac:(lia)) as (x & u1 & old & d1 & A1 & A2 & A3 & A4 & A5).
      rewrite Hu in A2. injection A2 as <-. rewrite Hd in A3. injection A3 as <-. rewrite Hsec in A4.
      assert (Lx : length x = n) by (apply (traj_x pb t0 x0 N Hlq Hx0 c Hc i); exact A1).
      assert (Lu : length u = nu_of pb (tm i)) by (apply (proj2 Hc); exact Hu).
      pose proof (lc_sized pb Hcv (tm i) x u (dFx old, dFu old) Lx Lu) as Em. rewrite <- A4 in Em. cbn [snd] in Em.
      symmetry in A5. destruct (lc_L pb Hcv (tm i) x u _ _ _ _ _ _ Lx Lu A5) as [J1 J2].
      pose proof (lq_L pb Hlq (tm i) x u x u _ _ _ _ _ _ Lx Lu Lx Lu A5 (vdimb_len _ _ D5)) as J3. cbv zeta in J2, J3.
      rewrite <- Em in J1, J2, J3. destruct (J3 (vdimb_len _ _ D6) D7 D8 D9) as [J4 _].
      apply IH; [lia|intros j Hj; apply Hder; lia|]. intros _ _.
      destruct (value_f pb cf d Vx Vxx Hdim k K HK _ _ Hv) as (V1 & V2 & V3 & V4).
      rewrite V2. split; [apply sqVxx_sym|].
      rewrite (qQuu_f pb cf d Vx Vxx Hdim), (qQux_f pb cf d Vx Vxx Hdim), (qQxx_f pb cf d Vx Vxx Hdim).
      apply vxx_psd; try assumption.
      assert (SQ : fsym (mcols (dFu d)) (mget (qQuu q))) by (unfold q; rewrite (qQuu_f pb cf d Vx Vxx Hdim); apply quad_sym; assumption).
      rewrite <- (qQuu_f pb cf d Vx Vxx Hdim), <- (qQux_f pb cf d Vx Vxx Hdim). fold q.
      remember (Some (k, K)) as o1 eqn:Eo. destruct Hst as [H0| |Hpos Hcc His| |f' ik out K' Hpos Hcc]; [| discriminate | | discriminate | rewrite Hcon in Hcc; discriminate].
      + rewrite H0. intros; lia.
      + injection Eo as Ek EK. destruct (newton_f pb cf d Vx Vxx Hdim k K LL HL D2 SQ His (eq_sym Ek) (eq_sym EK)) as (N1 & N2 & N3). exact N2.
  Qed.

  Lemma backward_succeeds c : traj c -> ~ backward pb cf t0 N LL limits qfuel c 0 None.
  Proof.
    intros Hc (ds & xN & old & Lds & Hds & HxN & Hb).
    pose proof (traj_x pb t0 x0 N Hlq Hx0 c Hc N _ HxN) as LxN.
    destruct (pb_terminalCostDeriv pb (tm N) xN old) as [Vx Vxx] eqn:EV. cbn [fst snd] in Hb.
    apply (backward_from_ok c ds N Vx Vxx _ _ Hc Hb (Nat.le_refl _) Hds); [|reflexivity].
    intros H1 H2. split.
    - apply (lq_T pb Hlq (tm N) xN xN old Vx Vxx LxN LxN EV (vdimb_len _ _ H1) H2).
    - pose proof (lc_T pb Hcv (tm N) xN old LxN) as HT. rewrite EV in HT. exact HT.
  Qed.

  Lemma cand_traj c g a c' : traj c -> is_candidate pb t0 x0 N c g a c' -> traj c'.
  Proof.
    intros Hc [Hro Hcd]. split; [exact Hro|]. intros i u Hu.
    assert (Hi : (i < N)%nat).
    { rewrite <- (ro_lu _ _ _ _ _ Hro). apply nth_error_Some. congruence. }
    destruct (Hcd i Hi) as (x1 & u1 & x1' & k1 & K1 & A1 & A2 & A3 & A4 & A5 & A6 & A7 & A8 & A9).
    rewrite A9 in Hu. injection Hu as <-. rewrite !vadd_len. apply (proj2 Hc); exact A2.
  Qed.
  Lemma cand_fit c g a c' : is_candidate pb t0 x0 N c g a c' ->
    forall i, (i < N)%nat -> exists u k, nth_error (cd_u c) i = Some u /\ nth_error (p_k g) i = Some k /\ length k = length u.
  Proof.
    intros [Hro Hcd] i Hi.
    destruct (Hcd i Hi) as (x1 & u1 & x1' & k1 & K1 & A1 & A2 & A3 & A4 & A5 & A6 & A7 & A8 & A9). eauto 6.
  Qed.

  (** No typed trajectory from the start state is cheaper than [c]. *)
  Definition optimal (c : cdata R) : Prop := forall c', traj c' -> total c <= total c'.

  Hypothesis Hlist : exists rest, cf_alpha_list cf = 1 :: rest.
  Hypothesis Hthre : 0 <= cf_cost_update_ratio_thre cf < 1.

  Lemma first_trial c g c1 ok : traj c -> backward pb cf t0 N LL limits qfuel c 0 (Some g) -> trial pb cf t0 x0 N c g 1 c1 ok ->
    if ok then optimal c1 else optimal c.
  Proof.
    intros Hc Hb [Hcand Hok]. pose proof (cand_traj _ _ _ _ Hc Hcand) as Hc1.
    destruct (lq_pass pb cf t0 x0 N LL limits qfuel HL Hlq Hcon Hx0 c g Hc (cand_fit _ _ _ _ Hcand) Hb) as (E0 & E1 & Hopt & Hex).
    specialize (Hex 1 c1 Hc1 Hcand). destruct ok.
    - intros c' Hc'. specialize (Hopt c' Hc'). lra.
    - assert (Ez : p_d1 g = 0).
      { destruct E1 as [E1|E1]; [exfalso|auto].
        revert Hok. unfold ratio_of, expected_of. numR. rewrite Hex, E0.
        replace (- (1) * 1 * (-2 * p_d1 g + 1 * p_d1 g)) with (p_d1 g) by ring.
        replace (total c - (total c + 1 * (-2 * p_d1 g) + 1 * 1 * p_d1 g)) with (p_d1 g) by ring.
        replace (Rltb (p_d1 g) 0) with false by (symmetry; apply Rltb_false; lra).
        unfold Rdiv. rewrite Rinv_r by lra. intros Hok. apply Rltb_false in Hok. lra. }
      intros c' Hc'. specialize (Hopt c' Hc'). rewrite Ez in E0. lra.
  Qed.

  Lemma retry_first c o p q : traj c -> fst p = 0 -> retry pb cf t0 N LL limits qfuel c o p q ->
    q = p /\ exists g, o = Some g /\ backward pb cf t0 N LL limits qfuel c 0 (Some g).
  Proof.
    intros Hc Hp H. destruct H as [p g Hb|p Hb Hl|o p q Hb Hl Hr]; rewrite Hp in Hb;
      [split; [reflexivity|eauto]|exfalso; revert Hb; apply backward_succeeds; exact Hc|exfalso; revert Hb; apply backward_succeeds; exact Hc].
  Qed.

  (** First iteration without regularisation. *)
  Lemma first_iteration it s r e s' : iteration pb cf t0 x0 N LL limits qfuel it s r e s' -> traj (mc s) -> fst (mreg s) = 0 ->
    (r = 1%Z /\ small_gradient pb cf t0 N LL limits qfuel s e s') \/ optimal (mc s') \/ optimal (mc s).
  Proof.
    destruct Hlist as [rest El].
    destruct 1 as [c p q g0 g H|c p q g0 g krn H Hk Hkr H1 H2|c p q g0 g krn c' al ac ex ra H Hk Hkr H1 H2|c p q g0 g krn al ac ex ra H Hk Hkr H1 H2];
      cbn [mc mreg fst snd]; intros Hc Hp.
    - destruct (retry_first _ _ _ _ Hc Hp H) as (_ & g' & E & _). discriminate.
    - left. split; [reflexivity|]. unfold small_gradient; cbn. subst krn. auto.
    - right. destruct (retry_first _ _ _ _ Hc Hp H) as (-> & g' & E & Hb). injection E as <-.
      rewrite El in H2. inversion H2 as [|a rest' c1 Ht E1 E2|a c1 Ht|a b rest' c1 o al' ac' ex' ra' Ht Hs]; subst.
      + left. apply (first_trial c g c' true Hc Hb Ht).
      + right. apply (first_trial c g c1 false Hc Hb Ht).
    - right. right. destruct (retry_first _ _ _ _ Hc Hp H) as (-> & g' & E & Hb). injection E as <-.
      rewrite El in H2. inversion H2 as [|a rest' c1 Ht E1 E2|a c1 Ht|a b rest' c1 o al' ac' ex' ra' Ht Hs]; subst;
        apply (first_trial c g c1 false Hc Hb Ht).
  Qed.

  Lemma run_optimal m it s r es s' : iterations pb cf t0 x0 N LL limits qfuel (S m) it s r es s' -> traj (mc s) -> fst (mreg s) = 0 ->
    optimal (mc s') \/ (r = 1%Z /\ exists e, es = [e] /\ small_gradient pb cf t0 N LL limits qfuel s e s').
  Proof.
    intros H Hc Hp.
    assert (Hmono : total (mc s') <= total (mc s)) by (apply (iterations_cost cf pb t0 x0 N LL limits qfuel (proj1 Hthre) _ _ _ _ _ _ H)).
    inversion H as [|m' it' s1 r1 e s1' Hi Hr|m' it' s1 e s2 r1 es' s1' Hi Hits]; subst.
    - destruct (first_iteration _ _ _ _ _ Hi Hc Hp) as [[-> Hg]|[Ho|Ho]].
      + right. split; [reflexivity|]. exists e. auto.
      + left. exact Ho.
      + left. intros c' Hc'. specialize (Ho c' Hc'). lra.
    - left. destruct (first_iteration _ _ _ _ _ Hi Hc Hp) as [[Hr _]|[Ho|Ho]]; [discriminate| |].
      + pose proof (iterations_cost cf pb t0 x0 N LL limits qfuel (proj1 Hthre) _ _ _ _ _ _ Hits) as (Hm & _).
        intros c' Hc'. specialize (Ho c' Hc'). lra.
      + intros c' Hc'. specialize (Ho c' Hc'). lra.
  Qed.
End Convex.
