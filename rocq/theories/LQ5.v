(** Whole runs on convex linear-quadratic problems that start with a positive regularisation coefficient. *)
From Verif Require Import Prelude Scalar LinAlg BoxQP DDP DDPSpec DDPProofs DDPCor DDPReal DDPSafe DDPLimits RLin CholProofs LQ LQ2 LQ3 LQ4.
From Coq Require Import Reals Lra.
Local Open Scope R_scope.

(** ** The regularisation after [j] accepted steps *)
Fixpoint downs (cf : config R) (j : nat) (p : R * R) : R * R := match j with O => p | S j' => downs cf j' (reg_down cf p) end.

Section Downs.
  Variable cf : config R.
  Hypothesis Hf : 1 < cf_lambda_factor cf.
  Hypothesis Hm : 0 < cf_lambda_min cf.
  Notation f := (cf_lambda_factor cf).

  Lemma down_le p a : good_reg p -> snd p <= a -> snd (reg_down cf p) <= a / f /\
    (fst (reg_down cf p) <= fst p * (a / f)) /\ (fst p < cf_lambda_min cf -> fst (reg_down cf p) = 0).
  Proof.
    intros [G1 G2] Ha. rewrite down_R. cbn [fst snd].
    assert (H1 : snd p / f <= a / f) by (apply Rmult_le_compat_r; [left; apply Rinv_0_lt_compat; lra|exact Ha]).
    assert (Hd : Rmin (snd p / f) (1 / 1 / f) <= a / f) by (eapply Rle_trans; [apply Rmin_l|exact H1]).
    assert (H2 : 0 < snd p / f) by (apply Rdiv_lt_0_compat; lra).
    split; [exact Hd|]. destruct (Rleb (cf_lambda_min cf) (fst p)) eqn:El.
    - split; [apply Rmult_le_compat_l; [exact G1|exact Hd]|]. intros Hlt. apply Rleb_true in El. lra.
    - split; [|reflexivity]. apply Rmult_le_pos; [exact G1|]. lra.
  Qed.

  (** [tri j] = 1 + 2 + ... + j *)
  Fixpoint tri (j : nat) : nat := match j with O => O | S j' => (tri j' + j)%nat end.

  Lemma downs_S j p : downs cf (S j) p = reg_down cf (downs cf j p).
  Proof. revert p. induction j as [|j IH]; intros p; [reflexivity|]. cbn [downs]. rewrite <- IH. reflexivity. Qed.

  Lemma downs_le j p : good_reg p -> snd p <= 1 ->
    good_reg (downs cf j p) /\ snd (downs cf j p) <= / f ^ j /\ fst (downs cf j p) <= fst p * / f ^ tri j.
  Proof.
    intros Hg Hs. induction j as [|j (I1 & I2 & I3)].
    - cbn. rewrite Rinv_1. split; [exact Hg|]. split; [lra|]. lra.
    - rewrite downs_S. destruct (down_le _ _ I1 I2) as (D1 & D2 & _).
      assert (Pj : 0 < f ^ j) by (apply pow_lt; lra). assert (Pt : 0 < f ^ tri j) by (apply pow_lt; lra).
      split; [apply good_down; [exact Hf|exact I1]|]. split.
      + cbn [pow]. eapply Rle_trans; [exact D1|]. right. field. split; lra.
      + eapply Rle_trans; [exact D2|]. cbn [tri]. rewrite pow_add. cbn [pow].
        replace (fst p * / (f ^ tri j * (f * f ^ j))) with (fst p * / f ^ tri j * (/ f ^ j / f)) by (field; repeat split; lra).
        apply Rmult_le_compat_r; [|exact I3]. left. apply Rdiv_lt_0_compat; [apply Rinv_0_lt_compat|]; lra.
  Qed.

  (** The regularisation is switched off after J + 1 accepted steps if lambda < lambda_min * factor^(1 + ... + J). *)
  Lemma downs_zero J p : good_reg p -> snd p <= 1 -> fst p < cf_lambda_min cf * f ^ tri J -> fst (downs cf (S J) p) = 0.
  Proof.
    intros Hg Hs Hlt. rewrite downs_S. destruct (downs_le J p Hg Hs) as (I1 & I2 & I3).
    apply (proj2 (proj2 (down_le _ _ I1 I2))).
    assert (Pt : 0 < f ^ tri J) by (apply pow_lt; lra).
    eapply Rle_lt_trans; [exact I3|]. apply Rmult_lt_reg_r with (f ^ tri J); [exact Pt|].
    rewrite Rmult_assoc, Rinv_l by lra. lra.
  Qed.
End Downs.

Section Runs.
  Variables (pb : problem R) (cf : config R) (t0 : R) (x0 : vec R) (N : nat).
  Variables (LL : lltops R) (limits : option (R -> vec R * vec R)) (qfuel : nat).
  Hypothesis HE : exact_llt LL.
  Hypothesis Hlq : lq_problem pb.
  Hypothesis Hcv : lq_convex pb.
  Hypothesis Hcon : cf_constraint cf = false.
  Hypothesis Hx0 : length x0 = pb_nx pb.
  Notation n := (pb_nx pb).
  Notation tm i := (t0 + nofnat i * pb_dt pb)%num.
  Notation traj := (traj pb t0 x0 N).
  Notation optimal := (optimal pb t0 x0 N).
  Notation backward := (backward pb cf t0 N LL limits qfuel).

  Lemma empty_equal c c' : N = O -> traj c -> traj c' -> total c' = total c.
  Proof.
    intros EN Hc Hc'. rewrite <- (tail_0 c'), <- (tail_0 c), <- EN.
    rewrite (tail_N pb t0 x0 N Hx0 c' (proj1 Hc')), (tail_N pb t0 x0 N Hx0 c (proj1 Hc)).
    destruct (ro_end _ _ _ _ _ (proj1 Hc)) as (xa & A1 & A2). destruct (ro_end _ _ _ _ _ (proj1 Hc')) as (xb & B1 & B2).
    unfold cst, vget. rewrite (nth_some _ _ _ _ A2), (nth_some _ _ _ _ B2).
    rewrite EN in A1, B1. rewrite (ro_x0 _ _ _ _ _ (proj1 Hc)) in A1. rewrite (ro_x0 _ _ _ _ _ (proj1 Hc')) in B1.
    injection A1 as <-. injection B1 as <-. reflexivity.
  Qed.

  Lemma reg_pass c l o : traj c -> 0 <= l -> backward c l o ->
    exists g, o = Some g /\
      ((forall i, (i < N)%nat -> exists u k, nth_error (cd_u c) i = Some u /\ nth_error (p_k g) i = Some k /\ length k = length u) ->
       p_d0 g + p_d1 g <= 0 /\
       (forall c', traj c' -> is_candidate pb t0 x0 N c g 1 c' -> total c' = total c + p_d0 g + p_d1 g) /\
       (p_d0 g + p_d1 g = 0 -> optimal c)).
  Proof.
    intros Hc Hl (ds & xN & old & Lds & Hds & HxN & Hb). set (g0 := {| p_k := []; p_K := []; p_d0 := _; p_d1 := _ |}) in Hb.
    assert (Hz : p_d0 g0 + p_d1 g0 = 0) by (cbn; numR; lra).
    destruct (Nat.eq_dec N 0) as [EN|EN].
    - assert (Eo : o = Some g0) by (rewrite EN in Hb; inversion Hb; reflexivity).
      exists g0. split; [exact Eo|]. intros _. split; [lra|]. split.
      + intros c' Hc' _. rewrite (empty_equal c c' EN Hc Hc'). lra.
      + intros _ c' Hc'. rewrite (empty_equal c c' EN Hc Hc'). lra.
    - destruct (pb_terminalCostDeriv pb (tm N) xN old) as [Vx Vxx] eqn:EV. cbn [fst snd] in Hb.
      assert (Hdims : vdimb n Vx = true /\ mdimb n n Vxx = true).
      { destruct N as [|N']; [contradiction|]. inversion Hb; subst;
        match goal with H : deriv_dims pb _ Vx Vxx = true |- _ => destruct (dd _ _ _ _ H) as (? & ? & _); auto end. }
      destruct Hdims as [HdV HdVV].
      assert (LxN : length xN = n) by (apply (traj_x pb t0 x0 N Hlq Hx0 c Hc N); exact HxN).
      assert (Hps : psd n (mget Vxx)) by (pose proof (lc_T pb Hcv (tm N) xN old LxN) as HT; rewrite EV in HT; exact HT).
      assert (HT : forall c', traj c' -> fsym n (mget Vxx) /\ tail c' N - tail c N = dq pb Vx Vxx (dx c c' N)).
      { intros c' Hc'. rewrite (tail_N pb t0 x0 N Hx0 c' (proj1 Hc')), (tail_N pb t0 x0 N Hx0 c (proj1 Hc)).
        destruct (ro_end _ _ _ _ _ (proj1 Hc)) as (xa & A1 & A2). destruct (ro_end _ _ _ _ _ (proj1 Hc')) as (xb & B1 & B2).
        rewrite HxN in A1. injection A1 as <-.
        destruct (lq_T pb Hlq (tm N) xN xb old Vx Vxx LxN (traj_x pb t0 x0 N Hlq Hx0 c' Hc' N _ B1) EV (vdimb_len _ _ HdV) HdVV) as [TS TE].
        split; [exact TS|]. unfold cst, vget at 1 2. rewrite (nth_some _ _ _ _ A2), (nth_some _ _ _ _ B2), TE.
        unfold dx, at_x. rewrite (nth_some _ _ _ _ HxN), (nth_some _ _ _ _ B1). unfold dq. ring. }
      destruct (reg_inv pb cf t0 x0 N LL limits qfuel HE Hlq Hcv Hcon Hx0 l Hl c Hc ds Hds g0 N Vx Vxx g0 o Hb (Nat.le_refl _) (conj (proj1 (HT c Hc)) Hps)) as [Hn _].
      destruct o as [g|]; [|contradiction]. exists g. split; [reflexivity|]. intros Hfit.
      destruct (reg_inv pb cf t0 x0 N LL limits qfuel HE Hlq Hcv Hcon Hx0 l Hl c Hc ds Hds g N Vx Vxx g0 (Some g) Hb (Nat.le_refl _) (conj (proj1 (HT c Hc)) Hps)) as [_ Hi].
      destruct Hi as (Vx0 & Vxx0 & _ & _ & J3 & J4 & J5); [reflexivity| |].
      + split; [apply (HT c Hc)|]. split; [exact Hps|]. split; [lra|]. split.
        * intros c' Hc' _. rewrite (proj2 (HT c' Hc')), Hz. ring.
        * intros _ c' Hc'. rewrite (proj2 (HT c' Hc')). unfold dq. pose proof (Hps (dx c c' N)). lra.
      + split; [exact J3|]. split.
        * intros c' Hc' Hcand. specialize (J4 c' Hc' Hcand). rewrite (dx_0 pb t0 x0 N c Hc c' Hc'), dq_0, !tail_0 in J4. lra.
        * intros Ez c' Hc'. specialize (J5 Ez c' Hc'). rewrite (dx_0 pb t0 x0 N c Hc c' Hc'), fdot_0_r, !tail_0 in J5. lra.
  Qed.

  Lemma reg_retry c o p q : traj c -> 0 <= fst p -> retry pb cf t0 N LL limits qfuel c o p q ->
    q = p /\ exists g, o = Some g /\ backward c (fst p) (Some g).
  Proof.
    intros Hc Hp H. destruct H as [p g Hb|p Hb Hl|o p q Hb Hl Hr]; [split; [reflexivity|eauto]| |];
      exfalso; destruct (reg_pass c _ _ Hc Hp Hb) as (g & E & _); discriminate.
  Qed.

  Hypothesis Hlist : exists rest, cf_alpha_list cf = 1 :: rest.
  Hypothesis Hthre : 0 <= cf_cost_update_ratio_thre cf < 1.

  (** The first trial. *)
  Lemma reg_trial c l g c1 ok : traj c -> 0 <= l -> backward c l (Some g) -> trial pb cf t0 x0 N c g 1 c1 ok ->
    traj c1 /\ total c - total c1 = expected_of g 1 /\ 0 <= expected_of g 1 /\ (ok = false -> optimal c).
  Proof.
    intros Hc Hl Hb [Hcand Hok]. pose proof (cand_traj pb t0 x0 N _ _ _ _ Hc Hcand) as Hc1.
    destruct (reg_pass c l _ Hc Hl Hb) as (g' & E & Hg). injection E as <-.
    destruct (Hg (cand_fit pb t0 x0 N _ _ _ _ Hcand)) as (E0 & E1 & E2). specialize (E1 c1 Hc1 Hcand).
    assert (Ex : expected_of g 1 = - (p_d0 g + p_d1 g)) by (unfold expected_of; numR; ring).
    assert (Ea : total c - total c1 = expected_of g 1) by (rewrite Ex, E1; ring).
    split; [exact Hc1|]. split; [exact Ea|]. split; [rewrite Ex; lra|]. intros ->.
    apply E2. destruct (Req_dec (p_d0 g + p_d1 g) 0) as [Z|Z]; [exact Z|]. exfalso.
    change (nsub (total c) (total c1)) with (total c - total c1) in Hok. rewrite Ea in Hok.
    revert Hok. unfold ratio_of. numR. rewrite Ex.
    replace (Rltb (- (p_d0 g + p_d1 g)) 0) with false by (symmetry; apply Rltb_false; lra).
    unfold Rdiv. rewrite Rinv_r by lra. intros Hok. apply Rltb_false in Hok. lra.
  Qed.

  Lemma rel_ge (ks us : list (vec R)) : forall acc, acc <= rel_norm ks us acc.
  Proof.
    revert us. induction ks as [|k ks IH]; intros us acc; [apply Rle_refl|]. destruct us as [|u us]; [apply Rle_refl|].
    cbn [rel_norm]. eapply Rle_trans; [|apply IH]. rewrite nmax_R. apply Rmax_l.
  Qed.

  (** One iteration: stop on small gains, or accept the full step with exactly the expected decrease, or already optimal. *)
  Lemma reg_iteration it s r e s' : iteration pb cf t0 x0 N LL limits qfuel it s r e s' -> traj (mc s) -> 0 <= fst (mreg s) ->
    (r = 1%Z /\ mc s' = mc s /\ 0 <= tr_k_rel_norm e < cf_k_rel_norm_thre cf) \/
    (tr_alpha e = 1 /\ tr_actual e = tr_expected e /\ 0 <= tr_actual e /\ total (mc s) - total (mc s') = tr_actual e /\
     traj (mc s') /\ mreg s' = reg_down cf (mreg s) /\ r = (if Rltb (tr_actual e) (cf_cost_update_thre cf) then 1 else 0)%Z) \/
    optimal (mc s).
  Proof.
    destruct Hlist as [rest El].
    destruct 1 as [c p q g0 g H|c p q g0 g krn H Hk Hkr H1 H2|c p q g0 g krn c' al ac ex ra H Hk Hkr H1 H2|c p q g0 g krn al ac ex ra H Hk Hkr H1 H2];
      cbn [mc mreg fst snd]; intros Hc Hp.
    - destruct (reg_retry _ _ _ _ Hc Hp H) as (_ & g' & E & _). discriminate.
    - left. split; [reflexivity|]. split; [reflexivity|]. cbn [tr_set_krel tr_k_rel_norm]. apply Rltb_true in H1.
      split; [|exact H1]. rewrite Hkr. apply rel_ge.
    - destruct (reg_retry _ _ _ _ Hc Hp H) as (-> & g' & E & Hb). injection E as <-.
      clear Hk Hkr H. rewrite El in H2. inversion H2 as [|a rest' c1 Ht E1 E2|a c1 Ht|a b rest' c1 o al' ac' ex' ra' Ht Hs]; subst.
      + right; left. cbn [tr_alpha tr_actual tr_expected].
        destruct (reg_trial c _ g c' true Hc Hp Hb Ht) as (T1 & T2 & T3 & _).
        change (nsub (total c) (total c')) with (total c - total c').
        split; [reflexivity|]. split; [exact T2|]. split; [rewrite T2; exact T3|]. split; [reflexivity|]. split; [exact T1|]. split; reflexivity.
      + right; right. apply (reg_trial c _ g c1 false Hc Hp Hb Ht). reflexivity.
    - right; right. destruct (reg_retry _ _ _ _ Hc Hp H) as (-> & g' & E & Hb). injection E as <-.
      clear Hk Hkr H. rewrite El in H2. inversion H2 as [|a rest' c1 Ht E1 E2|a c1 Ht|a b rest' c1 o al' ac' ex' ra' Ht Hs]; subst;
        apply (reg_trial c _ g c1 false Hc Hp Hb Ht); reflexivity.
  Qed.

  Hypothesis Hf : 1 < cf_lambda_factor cf.

  Definition stopped_early (j : nat) (r : Z) (es : list (trace R)) : Prop :=
    r = 1%Z /\ (length es <= j)%nat /\ exists es' e, es = es' ++ [e] /\
      (0 <= tr_k_rel_norm e < cf_k_rel_norm_thre cf \/ (0 <= tr_actual e < cf_cost_update_thre cf /\ tr_actual e = tr_expected e /\ tr_alpha e = 1)).

  Lemma reg_run j : forall m it s r es s', iterations pb cf t0 x0 N LL limits qfuel (j + S m) it s r es s' ->
    traj (mc s) -> good_reg (mreg s) -> fst (downs cf j (mreg s)) = 0 ->
    optimal (mc s') \/ stopped_early (S j) r es.
  Proof.
    induction j as [|j IH]; intros m it s r es s' Hits Hc Hg Hz.
    - cbn [downs Nat.add] in *.
      destruct (run_optimal pb cf t0 x0 N LL limits qfuel HE Hlq Hcv Hcon Hx0 Hlist Hthre m it s r es s' Hits Hc Hz) as [Ho|(Hr & e & -> & Hsg)]; [left; exact Ho|].
      right. split; [exact Hr|]. split; [cbn; lia|]. exists [], e. split; [reflexivity|].
      left. destruct Hsg as (_ & _ & G2 & G3 & _). apply Rltb_true in G3. split; [rewrite G2; apply rel_ge|exact G3].
    - cbn [Nat.add] in Hits.
      assert (Hmono : total (mc s') <= total (mc s)) by (apply (iterations_cost cf pb t0 x0 N LL limits qfuel (proj1 Hthre) _ _ _ _ _ _ Hits)).
      inversion Hits as [|m' it' s1 r1 e s1' Hi Hr|m' it' s1 e s2 r1 es' s1' Hi Hits']; subst;
        (destruct (reg_iteration _ _ _ _ _ Hi Hc (proj1 Hg)) as [(Er & Em & Ek)|[(E1 & E2 & E3 & E4 & E5 & E6 & E7)|Ho]]; [| |left; intros c' Hc'; specialize (Ho c' Hc'); lra]).
      + right. split; [exact Er|]. split; [cbn; lia|]. exists [], e. auto.
      + right. destruct (Rltb (tr_actual e) (cf_cost_update_thre cf)) eqn:Eb; [|contradiction].
        apply Rltb_true in Eb. split; [exact E7|]. split; [cbn; lia|]. exists [], e. split; [reflexivity|]. right. auto.
      + discriminate.
      + cbn [downs] in Hz. rewrite <- E6 in Hz.
        destruct (IH m _ s2 r es' s' Hits' E5 ltac:(rewrite E6; apply good_down; assumption) Hz) as [Ho|(Q1 & Q2 & es1 & e1 & -> & Q3)]; [left; exact Ho|].
        right. split; [exact Q1|]. split; [cbn [length]; lia|]. exists (e :: es1), e1. auto.
  Qed.
End Runs.
