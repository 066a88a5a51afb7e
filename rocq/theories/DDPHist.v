(** Two DDPSolver objects with different histories, and different contents of fresh memory, give the same results. *)
From Verif Require Import Prelude Scalar LinAlg BoxQP BoxQPProofs DDP DDPSpec DDPProofs.

Section Rel.
  Context {S A B : Type} (Rs : S -> S -> Prop) (Rv : B -> S -> S -> Prop).
  Lemma rel_get (k1 k2 : S -> M S B) s1 s2 : rel Rs Rv (k1 s1 s1) (k2 s2 s2) -> rel Rs Rv (bind get k1 s1) (bind get k2 s2).
  Proof. auto. Qed.
  Lemma rel_put (k1 k2 : unit -> M S B) s1 s2 x1 x2 : rel Rs Rv (k1 tt x1) (k2 tt x2) -> rel Rs Rv (bind (put x1) k1 s1) (bind (put x2) k2 s2).
  Proof. auto. Qed.
  Lemma rel_modify (k1 k2 : unit -> M S B) s1 s2 f1 f2 : rel Rs Rv (k1 tt (f1 s1)) (k2 tt (f2 s2)) -> rel Rs Rv (bind (modify f1) k1 s1) (bind (modify f2) k2 s2).
  Proof. auto. Qed.
  Lemma rel_must (k1 k2 : A -> M S B) o1 o2 s1 s2 : o1 = o2 ->
    (forall a, o1 = Some a -> rel Rs Rv (k1 a s1) (k2 a s2)) -> rel Rs Rv (bind (must o1) k1 s1) (bind (must o2) k2 s2).
  Proof. intros <- H. destruct o1; cbn; auto. Qed.
  Lemma rel_must2 (k1 k2 : A -> M S B) o1 o2 s1 s2 : (o1 = None <-> o2 = None) ->
    (forall a1 a2, o1 = Some a1 -> o2 = Some a2 -> rel Rs Rv (k1 a1 s1) (k2 a2 s2)) ->
    rel Rs Rv (bind (must o1) k1 s1) (bind (must o2) k2 s2).
  Proof.
    intros [H1 H2] H. destruct o1, o2; cbn; auto.
    - specialize (H2 eq_refl); discriminate.
    - specialize (H1 eq_refl); discriminate.
  Qed.
  Lemma rel_guard (k1 k2 : unit -> M S B) b1 b2 s1 s2 : b1 = b2 ->
    rel Rs Rv (k1 tt s1) (k2 tt s2) -> rel Rs Rv (bind (guard b1) k1 s1) (bind (guard b2) k2 s2).
  Proof. intros <- H. destruct b1; cbn; auto. Qed.
  (** A computation that does not touch the state. *)
  Lemma rel_nat (m : M S B) mu s1 s2 (R : S -> S -> Prop) : st_nat m mu -> R s1 s2 -> Rs s1 s2 ->
    rel Rs (fun _ => R) (m s1) (m s2).
  Proof. intros H HR HS. rewrite !H. destruct (mu tt) as [a []| | |]; cbn; auto. Qed.
End Rel.

Section Hist.
  Context {T : Type} {N : Num T} (LL : lltops T).
  Variables (pb : problem T) (cf : config T) (limits : option (T -> vec T * vec T)).
  Notation Nn := (N_ cf).

  (** Derivative callbacks write every entry of their outputs. *)
  Record overwrites : Prop := {
    ow_sd : forall t x u o o', pb_stateEqDeriv pb t x u o = pb_stateEqDeriv pb t x u o';
    ow_sd2 : forall t x u o o', pb_stateEqDeriv2 pb t x u o = pb_stateEqDeriv2 pb t x u o';
    ow_cd : forall t x u o o', pb_runningCostDeriv pb t x u o = pb_runningCostDeriv pb t x u o';
    ow_td : forall t x o o', pb_terminalCostDeriv pb t x o = pb_terminalCostDeriv pb t x o'
  }.
  Hypothesis OW : overwrites.

  Record base (s1 s2 : ddp T) : Prop := {
    b_t : s_t s1 = s_t s2;
    b_l : s_lambda s1 = s_lambda s2;
    b_dl : s_dlambda s1 = s_dlambda s2;
    b_cd : s_cd s1 = s_cd s2;
    b_tr : s_trace s1 = s_trace s2;
    b_k1 : length (s_k s1) = Nn; b_k2 : length (s_k s2) = Nn;
    b_K1 : length (s_K s1) = Nn; b_K2 : length (s_K s2) = Nn;
    b_d1 : length (s_deriv s1) = Nn; b_d2 : length (s_deriv s2) = Nn;
    b_c1 : cand_lens cf (s_cand s1); b_c2 : cand_lens cf (s_cand s2)
  }.
  Ltac bs H := destruct H; split; cbn [s_t s_lambda s_dlambda s_cd s_trace s_k s_K s_deriv s_cand
     set_t set_lambda set_cd set_cand set_gains set_deriv set_dV set_trace set_lastV inc_lambda dec_lambda]; auto; try congruence.

  Lemma upd_none {A} (l1 l2 : list A) i v1 v2 : length l1 = length l2 -> (upd l1 i v1 = None <-> upd l2 i v2 = None).
  Proof.
    intros H. split; intros E.
    - destruct (upd l2 i v2) eqn:E2; [|reflexivity]. pose proof (nth_upd_eq _ _ _ _ E2) as Hn.
      assert (i < length l1) by (rewrite H, <- (upd_length _ _ _ _ E2); apply nth_error_Some; congruence).
      destruct (upd_some l1 i v1 H0) as [l' E']. congruence.
    - destruct (upd l1 i v1) eqn:E2; [|reflexivity]. pose proof (nth_upd_eq _ _ _ _ E2) as Hn.
      assert (i < length l2) by (rewrite <- H, <- (upd_length _ _ _ _ E2); apply nth_error_Some; congruence).
      destruct (upd_some l2 i v2 H0) as [l' E']. congruence.
  Qed.
  Lemma opt_map_none {A B} (f g : A -> B) o1 o2 : (o1 = None <-> o2 = None) -> (option_map f o1 = None <-> option_map g o2 = None).
  Proof. destruct o1, o2; cbn; intuition discriminate. Qed.
  Lemma nth_list_ext {A} (l1 l2 : list A) : length l1 = length l2 -> (forall j, j < length l1 -> nth_error l1 j = nth_error l2 j) -> l1 = l2.
  Proof.
    revert l2; induction l1 as [|a l1 IH]; intros [|b l2] H Hn; cbn in *; try lia; [reflexivity|].
    pose proof (Hn 0 ltac:(lia)) as H0. cbn in H0. injection H0 as <-. f_equal. apply IH; [lia|].
    intros j Hj. exact (Hn (S j) ltac:(lia)).
  Qed.
  Definition agree_below {A} (i : nat) (l1 l2 : list A) := forall j, j < i -> nth_error l1 j = nth_error l2 j.
  Definition agree_above {A} (i : nat) (l1 l2 : list A) := forall j, i <= j -> nth_error l1 j = nth_error l2 j.
  Lemma agree_upd_below {A} i (l1 l2 l1' l2' : list A) v : agree_below i l1 l2 ->
    upd l1 i v = Some l1' -> upd l2 i v = Some l2' -> agree_below (S i) l1' l2'.
  Proof.
    intros H U1 U2 j Hj. destruct (Nat.eq_dec j i) as [->|E].
    - rewrite (nth_upd_eq _ _ _ _ U1), (nth_upd_eq _ _ _ _ U2). reflexivity.
    - rewrite (nth_upd_ne _ _ _ _ _ U1 E), (nth_upd_ne _ _ _ _ _ U2 E). apply H. lia.
  Qed.
  Lemma agree_upd_above {A} i (l1 l2 l1' l2' : list A) v : agree_above (S i) l1 l2 ->
    upd l1 i v = Some l1' -> upd l2 i v = Some l2' -> agree_above i l1' l2'.
  Proof.
    intros H U1 U2 j Hj. destruct (Nat.eq_dec j i) as [->|E].
    - rewrite (nth_upd_eq _ _ _ _ U1), (nth_upd_eq _ _ _ _ U2). reflexivity.
    - rewrite (nth_upd_ne _ _ _ _ _ U1 E), (nth_upd_ne _ _ _ _ _ U2 E). apply H. lia.
  Qed.

  (** *** Derivatives *)
  Lemma deriv_loop_rel s1 s2 : base s1 s2 ->
    rel base (fun _ x y => base x y /\ s_deriv x = s_deriv y) (for_up Nn (deriv_body pb cf) s1) (for_up Nn (deriv_body pb cf) s2).
  Proof.
    intros Hb. eapply rel_conseq.
    - apply (rel_for_up base (fun i x y => base x y /\ agree_below i (s_deriv x) (s_deriv y))).
      + intros i x y Hi [B A]. unfold deriv_body. apply rel_get.
        apply rel_must2.
        { rewrite !nth_error_None, (b_d1 _ _ B), (b_d2 _ _ B). tauto. }
        intros d1 d2 E1 E2. rewrite <- (b_cd _ _ B), <- (b_t _ _ B).
        apply rel_must; [reflexivity|]. intros xi Exi. apply rel_must; [reflexivity|]. intros ui Eui.
        assert (HF : (if cf_second cf then pb_stateEqDeriv2 pb (tm pb (s_t x) i) xi ui (dFx d1, dFu d1) else pb_stateEqDeriv pb (tm pb (s_t x) i) xi ui (dFx d1, dFu d1)) =
                     (if cf_second cf then pb_stateEqDeriv2 pb (tm pb (s_t x) i) xi ui (dFx d2, dFu d2) else pb_stateEqDeriv pb (tm pb (s_t x) i) xi ui (dFx d2, dFu d2))).
        { destruct (cf_second cf); [apply (ow_sd2 OW)|apply (ow_sd OW)]. }
        rewrite HF. clear HF. destruct (if cf_second cf then pb_stateEqDeriv2 pb (tm pb (s_t x) i) xi ui (dFx d2, dFu d2) else pb_stateEqDeriv pb (tm pb (s_t x) i) xi ui (dFx d2, dFu d2)) as [Fx Fu].
        rewrite (ow_cd OW _ _ _ (dLx d1, dLu d1, dLxx d1, dLuu d1, dLxu d1) (dLx d2, dLu d2, dLxx d2, dLuu d2, dLxu d2)).
        destruct (pb_runningCostDeriv _ _ _ _ _) as [[[[Lx Lu] Lxx] Luu] Lxu].
        apply rel_must2; [apply upd_none; rewrite (b_d1 _ _ B), (b_d2 _ _ B); reflexivity|].
        intros l1 l2 U1 U2. cbn. split; [reflexivity|]. split.
        * pose proof (upd_length _ _ _ _ U1). pose proof (upd_length _ _ _ _ U2). bs B.
        * cbn. eapply agree_upd_below; eauto.
      + split; [exact Hb|]. intros j Hj; lia.
    - intros _ x y [B A]. split; [exact B|]. apply nth_list_ext.
      + rewrite (b_d1 _ _ B), (b_d2 _ _ B); reflexivity.
      + intros j Hj. apply A. rewrite (b_d1 _ _ B) in Hj. exact Hj.
    - auto.
  Qed.

  (** *** Backward pass *)
  Record bwr (i : nat) (s1 s2 : ddp T) : Prop := {
    w_b : base s1 s2;
    w_d : s_deriv s1 = s_deriv s2;
    w_V : s_Vx s1 = s_Vx s2;
    w_VV : s_Vxx s1 = s_Vxx s2;
    w_0 : s_dV0 s1 = s_dV0 s2;
    w_1 : s_dV1 s1 = s_dV1 s2;
    w_k : agree_above i (s_k s1) (s_k s2);
    w_K : agree_above i (s_K s1) (s_K s2)
  }.

  Lemma gains_rel fuel i t d q s1 s2 : bwr (S i) s1 s2 ->
    rel base (fun _ x y => x = s1 /\ y = s2) (gains LL pb cf limits fuel i t d q s1) (gains LL pb cf limits fuel i t d q s2).
  Proof.
    intros W. pose proof (w_b _ _ _ W) as B. unfold gains.
    destruct (Nat.ltb 0 (mcols (dFu d))); [|cbn; auto].
    destruct (cf_constraint cf).
    2:{ destruct (llt_issue LL (qQuu_F q)); cbn; auto. }
    apply rel_get.
    eapply (rel_bind base (fun _ x y => x = s1 /\ y = s2)).
    { destruct (Nat.eqb (i + 1) Nn); [cbn; auto|].
      apply rel_must; [apply (w_k _ _ _ W); lia|]. intros k1 _. cbn. auto. }
    intros ik ? ? [-> ->].
    eapply (rel_bind base (fun _ x y => x = s1 /\ y = s2)).
    { unfold qp_ctor. destruct (_ <=? 0)%Z; cbn; auto. }
    intros n ? ? [-> ->].
    eapply (rel_bind base (fun _ x y => x = s1 /\ y = s2)).
    { destruct limits; cbn; auto. }
    intros lim ? ? [-> ->].
    rewrite <- (b_cd _ _ B).
    apply rel_must; [reflexivity|]. intros u _. apply rel_guard; [reflexivity|].
    eapply (rel_bind base (fun _ x y => x = s1 /\ y = s2)).
    { eapply (rel_nat base); [apply qp_solve_state|auto|exact B]. }
    intros out ? ? [-> ->].
    destruct (_ <? 0)%Z.
    - match goal with |- rel _ _ ((if ?c then _ else _) _) _ => destruct c end; cbn; auto.
    - destruct (Nat.ltb _ _); [|cbn; auto].
      apply rel_must; [reflexivity|]. intros Hf _. apply rel_guard; [reflexivity|]. cbn; auto.
  Qed.

  Lemma bw_step_rel fuel i Vx Vxx s1 s2 : bwr (S i) s1 s2 ->
    rel base (fun r x y => match r with Some _ => bwr i x y | None => bwr (S i) x y end)
      (bw_step LL pb cf limits fuel i Vx Vxx s1) (bw_step LL pb cf limits fuel i Vx Vxx s2).
  Proof.
    intros W. pose proof (w_b _ _ _ W) as B. unfold bw_step. apply rel_get.
    rewrite <- (w_d _ _ _ W), <- (b_t _ _ B), <- (b_l _ _ B).
    apply rel_must; [reflexivity|]. intros d _. apply rel_guard; [reflexivity|].
    destruct (cf_second cf); [cbn; auto|].
    eapply rel_bind; [apply gains_rel; exact W|].
    intros [[k K]|] ? ? [-> ->]; [|cbn; auto].
    apply rel_guard; [reflexivity|]. apply rel_get.
    destruct (v_update _ _ _) as [Vx' Vxx'].
    apply rel_must2; [apply upd_none; rewrite (b_k1 _ _ B), (b_k2 _ _ B); reflexivity|]. intros k1 k2 U1 U2.
    apply rel_must2; [apply upd_none; rewrite (b_K1 _ _ B), (b_K2 _ _ B); reflexivity|]. intros K1 K2 U3 U4.
    apply rel_put. cbn. split; [reflexivity|]. destruct W. split; cbn; auto; try congruence.
    - pose proof (upd_length _ _ _ _ U1). pose proof (upd_length _ _ _ _ U2).
      pose proof (upd_length _ _ _ _ U3). pose proof (upd_length _ _ _ _ U4). bs B.
    - eapply agree_upd_above; eauto.
    - eapply agree_upd_above; eauto.
  Qed.

  Lemma bw_loop_rel fuel n : forall Vx Vxx s1 s2, n <= Nn -> bwr n s1 s2 ->
    rel base (fun b x y => bwr (if b : bool then 0 else Nn) x y)
      (bw_loop LL pb cf limits fuel n Vx Vxx s1) (bw_loop LL pb cf limits fuel n Vx Vxx s2).
  Proof.
    induction n as [|i IH]; intros Vx Vxx s1 s2 Hn W; cbn [bw_loop]; [cbn; auto|].
    eapply rel_bind; [apply bw_step_rel; exact W|].
    intros [[Vx' Vxx']|] x y W'; [apply IH; [lia|exact W']|].
    cbn. split; [reflexivity|]. destruct W'; split; auto; intros j Hj; auto with arith.
    - apply w_k0; lia.
    - apply w_K0; lia.
  Qed.

  Lemma above_N {A} (l1 l2 : list A) n : length l1 = n -> length l2 = n -> agree_above n l1 l2.
  Proof. intros H1 H2 j Hj. rewrite !(proj2 (nth_error_None _ _)) by lia. reflexivity. Qed.

  Lemma backwardPass_rel fuel s1 s2 : base s1 s2 -> s_deriv s1 = s_deriv s2 -> s_Vx s1 = s_Vx s2 -> s_Vxx s1 = s_Vxx s2 ->
    rel base (fun b x y => bwr (if b : bool then 0 else Nn) x y)
      (backwardPass LL pb cf limits fuel s1) (backwardPass LL pb cf limits fuel s2).
  Proof.
    intros B D V VV. unfold backwardPass. apply rel_get. apply rel_put. rewrite <- V, <- VV.
    apply bw_loop_rel; [lia|]. split; cbn; auto.
    - bs B.
    - apply above_N; apply B.
    - apply above_N; apply B.
  Qed.

  Lemma bw_retry_rel fuel qfuel : forall s1 s2, base s1 s2 -> s_deriv s1 = s_deriv s2 -> s_Vx s1 = s_Vx s2 -> s_Vxx s1 = s_Vxx s2 ->
    rel base (fun b x y => bwr (if b : bool then 0 else Nn) x y)
      (bw_retry LL pb cf limits fuel qfuel s1) (bw_retry LL pb cf limits fuel qfuel s2).
  Proof.
    induction fuel as [|f IH]; intros s1 s2 B D V VV; cbn [bw_retry]; [cbn; auto|].
    eapply rel_bind; [apply backwardPass_rel; auto|].
    intros [|] x y W; [cbn; auto|].
    apply rel_modify. apply rel_get. pose proof (w_b _ _ _ W) as B'.
    assert (B2 : base (inc_lambda cf x) (inc_lambda cf y)).
    { bs B'. all: unfold inc_lambda; cbn; rewrite ?b_l0, ?b_dl0; reflexivity. }
    rewrite <- (b_l _ _ B2).
    match goal with |- rel _ _ ((if ?c then _ else _) _) _ => destruct c end.
    - cbn. split; [reflexivity|]. destruct W; split; cbn; auto.
    - apply IH; auto; apply W.
  Qed.

  (** *** Forward pass *)
  Lemma forwardPass_rel alpha s1 s2 : bwr 0 s1 s2 ->
    rel base (fun _ x y => bwr 0 x y /\ s_cand x = s_cand y) (forwardPass pb cf alpha s1) (forwardPass pb cf alpha s2).
  Proof.
    intros W. pose proof (w_b _ _ _ W) as B.
    assert (Hk : s_k s1 = s_k s2).
    { apply nth_list_ext; [rewrite (b_k1 _ _ B), (b_k2 _ _ B); reflexivity|]. intros; apply (w_k _ _ _ W); lia. }
    assert (HK : s_K s1 = s_K s2).
    { apply nth_list_ext; [rewrite (b_K1 _ _ B), (b_K2 _ _ B); reflexivity|]. intros; apply (w_K _ _ _ W); lia. }
    destruct (b_c1 _ _ B) as (Lx1 & Lu1 & Lc1). destruct (b_c2 _ _ B) as (Lx2 & Lu2 & Lc2).
    unfold forwardPass. apply rel_get. rewrite <- (b_cd _ _ B).
    apply rel_must; [reflexivity|]. intros y0 _.
    apply rel_must2.
    { unfold cd_setx. apply opt_map_none. apply upd_none. congruence. }
    intros c1 c2 E1 E2. apply cd_setx_inv in E1 as (lx1 & U1 & ->). apply cd_setx_inv in E2 as (lx2 & U2 & ->).
    apply rel_put.
    eapply rel_bind.
    - apply (rel_for_up base (fun i x y => exists c1 c2, x = set_cand c1 s1 /\ y = set_cand c2 s2 /\
          cand_lens cf c1 /\ cand_lens cf c2 /\ agree_below (S i) (cd_x c1) (cd_x c2) /\
          agree_below i (cd_u c1) (cd_u c2) /\ agree_below i (cd_cost c1) (cd_cost c2))).
      + intros i x y Hi (d1 & d2 & -> & -> & (Kx1 & Ku1 & Kc1) & (Kx2 & Ku2 & Kc2) & Ax & Au & Ac).
        unfold fw_body. apply rel_get. cbn [set_cand s_cd s_cand s_k s_K s_t].
        rewrite <- (b_cd _ _ B), <- Hk, <- HK, <- (b_t _ _ B).
        apply rel_must; [reflexivity|]. intros u _. apply rel_must; [reflexivity|]. intros k _.
        apply rel_must; [reflexivity|]. intros K _.
        apply rel_must; [apply Ax; lia|]. intros xc _. apply rel_must; [reflexivity|]. intros xi _.
        apply rel_guard; [reflexivity|].
        apply rel_must2; [unfold cd_setu; apply opt_map_none, upd_none; congruence|].
        intros e1 e2 E1 E2. apply cd_setu_inv in E1 as (lu1 & V1 & ->). apply cd_setu_inv in E2 as (lu2 & V2 & ->).
        apply rel_must2; [unfold cd_setx; cbn; apply opt_map_none, upd_none; congruence|].
        intros e1 e2 E1 E2. apply cd_setx_inv in E1 as (lx1' & V3 & ->). apply cd_setx_inv in E2 as (lx2' & V4 & ->).
        apply rel_must2; [unfold cd_setc; cbn; apply opt_map_none, upd_none; congruence|].
        intros e1 e2 E1 E2. apply cd_setc_inv in E1 as (lc1 & V5 & ->). apply cd_setc_inv in E2 as (lc2 & V6 & ->).
        cbn in *. split; [reflexivity|]. eexists _, _. split; [reflexivity|]. split; [reflexivity|].
        unfold cand_lens; cbn. apply upd_length in V1 as W1. apply upd_length in V2 as W2. apply upd_length in V3 as W3.
        apply upd_length in V4 as W4. apply upd_length in V5 as W5. apply upd_length in V6 as W6.
        split; [repeat split; congruence|]. split; [repeat split; congruence|].
        replace (i + 1) with (S i) in V3, V4 by lia.
        split; [eapply agree_upd_below; eauto|]. split; [eapply agree_upd_below; eauto|eapply agree_upd_below; eauto].
      + eexists _, _. split; [reflexivity|]. split; [reflexivity|]. unfold cand_lens; cbn.
        apply upd_length in U1 as W1. apply upd_length in U2 as W2.
        split; [repeat split; congruence|]. split; [repeat split; congruence|].
        split; [eapply agree_upd_below; eauto; intros j Hj; lia|]. split; intros j Hj; lia.
    - intros [] x y (d1 & d2 & -> & -> & (Kx1 & Ku1 & Kc1) & (Kx2 & Ku2 & Kc2) & Ax & Au & Ac).
      apply rel_get. cbn [set_cand s_cd s_cand s_k s_K s_t]. rewrite <- (b_t _ _ B).
      apply rel_must; [apply Ax; lia|]. intros xN _.
      apply rel_must2; [unfold cd_setc; cbn; apply opt_map_none, upd_none; congruence|].
      intros e1 e2 E1 E2. apply cd_setc_inv in E1 as (lc1 & V5 & ->). apply cd_setc_inv in E2 as (lc2 & V6 & ->).
      apply upd_length in V5 as W5. apply upd_length in V6 as W6.
      pose proof (agree_upd_below _ _ _ _ _ _ Ac V5 V6) as Ac'.
      cbn. split; [reflexivity|]. split.
      + destruct W. split; cbn; auto. bs B.
        * unfold cand_lens; cbn; repeat split; congruence.
        * unfold cand_lens; cbn; repeat split; congruence.
      + f_equal; apply nth_list_ext; try congruence; intros j Hj; [apply Ax|apply Au|apply Ac']; lia.
  Qed.

  Lemma line_search_rel alphas : forall al ac ex ra s1 s2, bwr 0 s1 s2 ->
    rel base (fun r x y => bwr 0 x y /\ (fst (fst (fst (fst r))) = true -> s_cand x = s_cand y))
      (line_search pb cf alphas al ac ex ra s1) (line_search pb cf alphas al ac ex ra s2).
  Proof.
    induction alphas as [|a rest IH]; intros al ac ex ra s1 s2 W; cbn [line_search].
    - cbn. split; [reflexivity|]. split; [exact W|discriminate].
    - eapply rel_bind; [apply forwardPass_rel; exact W|]. intros _ x y [W' C]. apply rel_get.
      pose proof (w_b _ _ _ W') as B. cbv zeta. rewrite <- (b_cd _ _ B), <- C, <- (w_0 _ _ _ W'), <- (w_1 _ _ _ W').
      match goal with |- rel _ _ ((if ?c then _ else _) _) _ => destruct c end.
      + cbn. auto.
      + apply IH; exact W'.
  Qed.

  Lemma k_rel_norm_rel n : forall i acc s1 s2, s_k s1 = s_k s2 -> s_cd s1 = s_cd s2 ->
    k_rel_norm_from i n acc s1 = k_rel_norm_from i n acc s2.
  Proof.
    induction n as [|n IH]; intros i acc s1 s2 H1 H2; cbn [k_rel_norm_from]; [reflexivity|].
    rewrite H1, H2. destruct (nth_error (s_k s2) i), (nth_error (cd_u (s_cd s2)) i); auto.
  Qed.

  Lemma procOnce_rel fuel qfuel it s1 s2 : base s1 s2 ->
    rel base (fun _ => base) (procOnce LL pb cf limits fuel qfuel it s1) (procOnce LL pb cf limits fuel qfuel it s2).
  Proof.
    intros B. unfold procOnce. apply rel_modify.
    eapply rel_bind; [apply deriv_loop_rel; bs B|].
    intros _ x y [B1 D]. apply rel_get. rewrite <- (b_cd _ _ B1), <- (b_t _ _ B1).
    apply rel_must; [reflexivity|]. intros xN _.
    rewrite (ow_td OW _ _ (s_Vx x, s_Vxx x) (s_Vx y, s_Vxx y)).
    destruct (pb_terminalCostDeriv _ _ _ _) as [Vx Vxx]. apply rel_put.
    eapply rel_bind; [apply bw_retry_rel; cbn; auto; bs B1|].
    intros [|] z w W; cbn [negb]; [|cbn; split; [reflexivity|apply W]].
    pose proof (w_b _ _ _ W) as B2. apply rel_get.
    assert (Hk : s_k z = s_k w).
    { apply nth_list_ext; [rewrite (b_k1 _ _ B2), (b_k2 _ _ B2); reflexivity|]. intros; apply (w_k _ _ _ W); lia. }
    apply rel_must; [apply k_rel_norm_rel; [exact Hk|apply B2]|]. intros krn _.
    apply rel_put. rewrite <- (b_l _ _ B2).
    match goal with |- rel _ _ ((if ?c then _ else _) _) _ => destruct c end.
    { cbn. split; [reflexivity|]. bs B2. }
    eapply rel_bind.
    { apply line_search_rel. destruct W; split; cbn; auto. bs B2. }
    intros [[[[succ al] ac] ex] ra] z' w' [W' C]. cbn in C. pose proof (w_b _ _ _ W') as B3.
    apply rel_modify.
    eapply (rel_bind base (fun _ => base)).
    - unfold accept. destruct succ.
      + apply rel_get. apply rel_put. apply rel_modify. cbn. split; [reflexivity|]. specialize (C eq_refl).
        bs B3; unfold dec_lambda; cbn; rewrite ?b_l0, ?b_dl0; reflexivity.
      + apply rel_modify. apply rel_get. cbn. split.
        * rewrite (b_l _ _ B3), (b_dl _ _ B3). reflexivity.
        * bs B3; unfold inc_lambda; cbn; rewrite ?b_l0, ?b_dl0; reflexivity.
    - intros r z2 w2 B4. apply rel_modify. cbn. split; [reflexivity|]. bs B4.
  Qed.

  Lemma opt_loop_rel fuel qfuel n : forall it s1 s2, base s1 s2 ->
    rel base (fun _ => base) (opt_loop LL pb cf limits fuel qfuel n it s1) (opt_loop LL pb cf limits fuel qfuel n it s2).
  Proof.
    induction n as [|n IH]; intros it s1 s2 B; cbn [opt_loop]; [cbn; auto|].
    eapply rel_bind; [apply procOnce_rel; exact B|]. intros r x y B'.
    destruct (r =? 0)%Z; [apply IH; exact B'|cbn; auto].
  Qed.

  Lemma cost_resize_len (jk : junk T) n l : length (cost_resize jk n l) = n.
  Proof. unfold cost_resize. destruct (Nat.eqb _ _) eqn:E; [apply Nat.eqb_eq in E; auto|]. rewrite map_length, seq_length; auto. Qed.

  (** The two initial states need not be related at all; the comparison of states is only claimed when the
      arguments are accepted. *)
  Lemma ddp_solve_rel jk1 jk2 fuel qfuel t0 x0 us s1 s2 :
    rel (fun x y => valid_args pb cf t0 us -> base x y) (fun _ => base)
      (ddp_solve LL pb cf limits jk1 fuel qfuel t0 x0 us s1) (ddp_solve LL pb cf limits jk2 fuel qfuel t0 x0 us s2).
  Proof.
    unfold ddp_solve. apply rel_modify.
    destruct (Z.of_nat (length us) =? cf_horizon cf)%Z eqn:El; cbn [negb].
    2:{ apply Z.eqb_neq in El. cbn. split; [reflexivity|]. intros [H _]; contradiction. }
    apply Z.eqb_eq in El.
    assert (HN : length us = Nn) by (unfold N_; lia).
    match goal with |- rel _ _ ((if ?c then _ else _) _) _ => destruct c eqn:Ed end.
    { cbn. split; [reflexivity|]. intros [_ Hv].
      destruct (pb_fixed_nu pb); [discriminate|]. apply negb_true_iff in Ed. exfalso.
      rewrite <- not_true_iff_false in Ed. apply Ed. apply check_u_spec. intros j u Hj. apply (Hv eq_refl j u Hj). }
    eapply rel_conseq; [|intros a x y H; exact H|intros x y H _; exact H].
    apply rel_modify. apply rel_get.
    apply rel_must2.
    { unfold cd_setx; cbn. apply opt_map_none, upd_none. rewrite !resize_length; reflexivity. }
    intros c1 c2 E1 E2. apply cd_setx_inv in E1 as (lx1 & U1 & ->). apply cd_setx_inv in E2 as (lx2 & U2 & ->).
    cbn in U1, U2. apply rel_put.
    set (r1 := set_cd _ _). set (r2 := set_cd _ _).
    assert (HR : forall c, base (set_cd c r1) (set_cd c (set_trace (s_trace s1) r2))).
    { intros c. split; cbn; auto; rewrite ?resize_length; auto.
      - destruct (pb_fixed_nu pb); [apply resize_length|rewrite map_length, seq_length; reflexivity].
      - destruct (pb_fixed_nu pb); [apply resize_length|rewrite map_length, seq_length; reflexivity].
      - unfold cand_lens; cbn. rewrite !resize_length, cost_resize_len; auto.
      - unfold cand_lens; cbn. rewrite !resize_length, cost_resize_len; auto. }
    eapply rel_bind.
    - apply (rel_for_up base (fun i x y => exists c1 c2, x = set_cd c1 r1 /\ y = set_cd c2 r2 /\
          length (cd_x c1) = Nn + 1 /\ length (cd_x c2) = Nn + 1 /\ cd_u c1 = us /\ cd_u c2 = us /\
          length (cd_cost c1) = Nn + 1 /\ length (cd_cost c2) = Nn + 1 /\
          agree_below (S i) (cd_x c1) (cd_x c2) /\ agree_below i (cd_cost c1) (cd_cost c2))).
      + intros i x y Hi (d1 & d2 & -> & -> & Kx1 & Kx2 & Ku1 & Ku2 & Kc1 & Kc2 & Ax & Ac).
        unfold rollout_body. apply rel_get. cbn [set_cd s_cd s_t r1 r2 s_cand set_gains set_deriv set_cand].
        apply rel_must; [apply Ax; lia|]. intros xi _.
        rewrite Ku1, Ku2. apply rel_must; [reflexivity|]. intros u _.
        apply rel_must2; [unfold cd_setx; cbn; apply opt_map_none, upd_none; congruence|].
        intros e1 e2 E1 E2. apply cd_setx_inv in E1 as (lx1' & V3 & ->). apply cd_setx_inv in E2 as (lx2' & V4 & ->).
        apply rel_must2; [unfold cd_setc; cbn; apply opt_map_none, upd_none; congruence|].
        intros e1 e2 E1 E2. apply cd_setc_inv in E1 as (lc1 & V5 & ->). apply cd_setc_inv in E2 as (lc2 & V6 & ->).
        cbn in *. split; [reflexivity|]. eexists _, _. split; [reflexivity|]. split; [reflexivity|]. cbn.
        apply upd_length in V3 as W3. apply upd_length in V4 as W4. apply upd_length in V5 as W5. apply upd_length in V6 as W6.
        replace (i + 1) with (S i) in V3, V4 by lia.
        repeat (split; [congruence|]). split; eapply agree_upd_below; eauto.
      + eexists _, _. split; [unfold r1; reflexivity|]. split; [unfold r2; reflexivity|]. cbn.
        apply upd_length in U1 as W1. apply upd_length in U2 as W2. rewrite resize_length in W1, W2.
        rewrite !cost_resize_len. repeat (split; [congruence|]).
        split; [eapply agree_upd_below; eauto; intros j Hj; lia|intros j Hj; lia].
    - intros [] x y (d1 & d2 & -> & -> & Kx1 & Kx2 & Ku1 & Ku2 & Kc1 & Kc2 & Ax & Ac).
      apply rel_get. cbn [set_cd s_cd s_t r1 r2 s_cand set_gains set_deriv set_cand].
      apply rel_must; [apply Ax; lia|]. intros xN _.
      apply rel_must2; [unfold cd_setc; cbn; apply opt_map_none, upd_none; congruence|].
      intros e1 e2 E1 E2. apply cd_setc_inv in E1 as (lc1 & V5 & ->). apply cd_setc_inv in E2 as (lc2 & V6 & ->).
      apply upd_length in V5 as W5. apply upd_length in V6 as W6.
      pose proof (agree_upd_below _ _ _ _ _ _ Ac V5 V6) as Ac'.
      replace {| cd_x := cd_x d2; cd_u := cd_u d2; cd_cost := lc2 |} with {| cd_x := cd_x d1; cd_u := cd_u d1; cd_cost := lc1 |}.
      2:{ f_equal; [|congruence|]; apply nth_list_ext; try congruence; intros j Hj; [apply Ax|apply Ac']; lia. }
      apply rel_put. apply rel_modify.
      eapply rel_bind; [apply opt_loop_rel|intros r x y H; cbn; auto].
      specialize (HR {| cd_x := cd_x d1; cd_u := cd_u d1; cd_cost := lc1 |}). bs HR.
  Qed.
End Hist.
