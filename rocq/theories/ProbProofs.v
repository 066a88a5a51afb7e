(** The derivative callbacks of the DDP and FMPC example problems are exact. *)
From Coq Require Import Reals Lra.
From Verif Require Import Prelude Scalar LinAlg RLin DDP DDPSafe DDPHist Fmpc FmpcSafe FmpcSpec GmresSpec P_Ode CgmresGrad Problems ProbSpec.
Local Open Scope R_scope.
Local Arguments IZR : simpl never.
Local Arguments Rdiv : simpl never.
Local Arguments Rminus : simpl never.
Local Arguments Rplus : simpl never.
Local Arguments Rmult : simpl never.
Local Arguments Ropp : simpl never.
Local Arguments sin : simpl never.
Local Arguments cos : simpl never.

Lemma list1 (l : list R) : length l = 1%nat -> l = [nth 0 l 0].
Proof. destruct l as [|a [|]]; try discriminate; reflexivity. Qed.
Lemma list2 (l : list R) : length l = 2%nat -> l = [nth 0 l 0; nth 1 l 0].
Proof. destruct l as [|a [|b [|]]]; try discriminate; reflexivity. Qed.
Lemma list4 (l : list R) : length l = 4%nat -> l = [nth 0 l 0; nth 1 l 0; nth 2 l 0; nth 3 l 0].
Proof. destruct l as [|a [|b [|c [|d [|]]]]]; try discriminate; reflexivity. Qed.

(** ** Bipedal walking *)
Section Bip.
  Variable p : bip_par R.
  Ltac flat LX LU := eapply dl_conv; [intros s; try rewrite (list2 _ (LX s)); try rewrite (list1 _ (LU s)); cbn; reflexivity|cbv beta; repeat dstep|cbn; unfold vget; cbn; field].
  Lemma bip_exact : exact_derivatives (bipedal p).
  Proof.
    split; [|split; [|split]]; constructor.
    - intros t x u old A B Hx Hu E i Hi. cbn [pb_nx pb_stateEqDeriv pb_stateEq bipedal nu_of pb_fixed_nu bip_fd] in *.
      injection E as <- <-. apply partials_rows. intros X dX U dU LX LU EX EU DX DU. subst x u.
      destruct i as [|[|]]; [| |lia]; flat LX LU.
    - intros t x u old Lx Lu Lxx Luu Lxu Hx Hu E. cbn [pb_nx pb_runningCostDeriv pb_runningCost bipedal nu_of pb_fixed_nu bip_Ld bip_Ld1] in *.
      injection E as <- <- _ _ _. apply partials_intro; [reflexivity|reflexivity|]. intros X dX U dU LX LU EX EU DX DU. subst x u. flat LX LU.
    - intros t x old Vx Vxx Hx E. cbn [pb_nx pb_terminalCostDeriv pb_terminalCost bipedal bip_phid bip_phid1] in *.
      injection E as <- _. apply partials_intro; [reflexivity|reflexivity|]. intros X dX U dU LX LU EX EU DX DU. subst x. flat LX LU.
    - intros t x u old Lx Lu Lxx Luu Lxu Hx Hu E i Hi. unfold grad_x. cbn [pb_nx pb_runningCostDeriv pb_runningCost bipedal nu_of pb_fixed_nu bip_Ld bip_Ld1] in *.
      injection E as _ _ <- _ <-. apply partials_rows. intros X dX U dU LX LU EX EU DX DU. subst x u.
      destruct i as [|[|]]; [| |lia]; flat LX LU.
    - intros t x old Vx Vxx Hx E i Hi. unfold grad_T. cbn [pb_nx pb_terminalCostDeriv pb_terminalCost bipedal bip_phid bip_phid1 fst] in *.
      injection E as _ <-. apply partials_T. intros X dX LX EX DX. subst x.
      destruct i as [|[|]]; [| |lia]; (eapply dl_conv; [intros s; rewrite (list2 _ (LX s)); cbn; reflexivity|cbv beta; repeat dstep|cbn; unfold vget; cbn; field]).
    - intros t x u old Lx Lu Lxx Luu Lxu Hx Hu E i Hi. unfold grad_u. cbn [pb_nx pb_runningCostDeriv pb_runningCost bipedal nu_of pb_fixed_nu bip_Ld bip_Ld1] in *.
      injection E as _ _ _ <- <-. apply partials_col. intros X dX U dU LX LU EX EU DX DU. subst x u.
      destruct i as [|]; [|lia]; flat LX LU.
  Qed.
End Bip.

(** ** Oscillator *)
Section Osc.
  Variable dt : R.
  Ltac flat LX LU := eapply dl_conv; [intros s; try rewrite (list2 _ (LX s)); try rewrite (list1 _ (LU s)); cbn; reflexivity|cbv beta; repeat dstep|cbn; unfold vget; cbn; field].
  Lemma osc_exact : exact_derivatives (fp_dp (oscillator dt)) /\ exact_constraints (oscillator dt).
  Proof.
    split; [split; [|split; [|split]]|]; constructor.
    - intros t x u old A B Hx Hu E i Hi. cbn [fp_dp pb_nx pb_stateEqDeriv pb_stateEq oscillator nu_of pb_fixed_nu osc_fd] in *.
      injection E as <- <-. apply partials_rows. intros X dX U dU LX LU EX EU DX DU. subst x u.
      destruct i as [|[|]]; [| |lia]; flat LX LU.
    - intros t x u old Lx Lu Lxx Luu Lxu Hx Hu E. cbn [fp_dp pb_nx pb_runningCostDeriv pb_runningCost oscillator nu_of pb_fixed_nu] in *.
      injection E as <- <- _ _ _. apply partials_intro; [exact Hx|exact Hu|]. intros X dX U dU LX LU EX EU DX DU. subst x u. flat LX LU.
    - intros t x old Vx Vxx Hx E. cbn [fp_dp pb_nx pb_terminalCostDeriv pb_terminalCost oscillator] in *.
      injection E as <- _. apply partials_intro; [reflexivity|reflexivity|]. intros X dX U dU LX LU EX EU DX DU. subst x. flat LX LU.
    - intros t x u old Lx Lu Lxx Luu Lxu Hx Hu E i Hi. unfold grad_x. cbn [fp_dp pb_nx pb_runningCostDeriv pb_runningCost oscillator nu_of pb_fixed_nu] in *.
      injection E as _ _ <- _ <-. apply partials_rows. intros X dX U dU LX LU EX EU DX DU. subst x u.
      destruct i as [|[|]]; [| |lia]; flat LX LU.
    - intros t x old Vx Vxx Hx E i Hi. unfold grad_T. cbn [fp_dp pb_nx pb_terminalCostDeriv pb_terminalCost oscillator fst] in *.
      injection E as _ <-. apply partials_T. intros X dX LX EX DX. subst x.
      destruct i as [|[|]]; [| |lia]; (eapply dl_conv; [intros s; cbn; reflexivity|cbv beta; repeat dstep|cbn; unfold vget; cbn; field]).
    - intros t x u old Lx Lu Lxx Luu Lxu Hx Hu E i Hi. unfold grad_u. cbn [fp_dp pb_nx pb_runningCostDeriv pb_runningCost oscillator nu_of pb_fixed_nu] in *.
      injection E as _ _ _ <- <-. apply partials_col. intros X dX U dU LX LU EX EU DX DU. subst x u.
      destruct i as [|]; [|lia]; flat LX LU.
    - intros t x u old A B Hx Hu E i Hi. cbn [fp_dp pb_nx fp_g fp_gDeriv oscillator nu_of ng_of pb_fixed_nu fp_fixed_ng] in *.
      injection E as <- <-. apply partials_rows. intros X dX U dU LX LU EX EU DX DU. subst x u.
      destruct i as [|[|[|]]]; [| | |lia]; flat LX LU.
  Qed.
End Osc.

(** ** Cart-pole *)
(** Fixed-size vectors of the C++ class, and no division by zero in the dynamics. *)
Record cart_ok (p : cart_par R) : Prop := {
  co_rx : length (cr_rx p) = 4%nat; co_ru : length (cr_ru p) = 1%nat; co_tx : length (cr_tx p) = 4%nat;
  co_m1 : 0 < cr_m1 p; co_m2 : 0 <= cr_m2 p; co_l : cr_l p <> 0 }.
Lemma denom_pos m1 m2 s : 0 < m1 -> 0 <= m2 -> m1 + m2 * (s * s) <> 0.
Proof. intros H1 H2. pose proof (Rle_0_sqr s). unfold Rsqr in *. pose proof (Rmult_le_pos m2 (s * s) H2 H). lra. Qed.
Lemma cos_sin_2 a : cos a * cos a = 1 - sin a * sin a.
Proof. pose proof (sin2_cos2 a). unfold Rsqr in *. lra. Qed.

Section Cart.
  Variable p : cart_par R.
  Hypothesis OK : cart_ok p.
  Notation pb := (cartpole sin cos p).
  Lemma cart_dyn : exact_dynamics pb.
  Proof using OK.
    constructor. intros t x u old A B Hx Hu E i Hi. cbn [pb_nx pb_stateEqDeriv pb_stateEq cartpole nu_of pb_fixed_nu cart_fd] in *.
    injection E as <- <-. apply partials_rows. intros X dX U dU LX LU EX EU DX DU. subst x u.
    destruct OK as [_ _ _ H1 H2 H3]. pose proof (denom_pos _ _ (sin (nth 1 (X 0) 0)) H1 H2) as Hd.
    destruct i as [|[|[|[|]]]]; [| | | |lia].
    - eapply dl_conv; [intros s; try rewrite (list4 _ (LX s)); try rewrite (list1 _ (LU s)); cbn; reflexivity|cbv beta; repeat dstep|cbn; unfold vget; cbn; field].
    - eapply dl_conv; [intros s; try rewrite (list4 _ (LX s)); try rewrite (list1 _ (LU s)); cbn; reflexivity|cbv beta; repeat dstep|cbn; unfold vget; cbn; field].
    - eapply dl_conv; [intros s; try rewrite (list4 _ (LX s)); try rewrite (list1 _ (LU s)); cbn; reflexivity|cbv beta; repeat dstep|cbn; unfold vget; cbn; unfold vget; cbn].
      { exact Hd. } set (th := nth 1 (X 0) 0) in *.
      replace (1 - 2 / 1 * (sin th * sin th)) with (cos th * cos th - sin th * sin th) by (rewrite cos_sin_2; field).
      field. exact Hd.
    - eapply dl_conv; [intros s; try rewrite (list4 _ (LX s)); try rewrite (list1 _ (LU s)); cbn; reflexivity|cbv beta; repeat dstep|cbn; unfold vget; cbn; unfold vget; cbn].
      { apply Rmult_integral_contrapositive_currified; assumption. } set (th := nth 1 (X 0) 0) in *.
      replace (1 - 2 / 1 * (sin th * sin th)) with (cos th * cos th - sin th * sin th) by (rewrite cos_sin_2; field).
      field. auto.
  Qed.
  Ltac flat LX LU := eapply dl_conv; [intros s; try rewrite (list4 _ (LX s)); try rewrite (list1 _ (LU s)); cbn; reflexivity|cbv beta; repeat dstep|cbn; unfold vget; cbn; field].
  Lemma cart_exact : exact_derivatives pb.
  Proof using OK.
    split; [exact cart_dyn|]. destruct OK as [L1 L2 L3 _ _ _]. clear OK. destruct p as [dt ref m1 m2 l rx ru tx]. cbn in L1, L2, L3.
    rewrite (list4 _ L1), (list1 _ L2), (list4 _ L3).
    set (a0 := nth 0 rx 0). set (a1 := nth 1 rx 0). set (a2 := nth 2 rx 0). set (a3 := nth 3 rx 0). set (b0 := nth 0 ru 0).
    set (c0 := nth 0 tx 0). set (c1 := nth 1 tx 0). set (c2 := nth 2 tx 0). set (c3 := nth 3 tx 0). clearbody a0 a1 a2 a3 b0 c0 c1 c2 c3.
    split; [|split]; constructor.
    - intros t x u old Lx Lu Lxx Luu Lxu Hx Hu E. cbn [pb_nx pb_runningCostDeriv pb_runningCost cartpole nu_of pb_fixed_nu cart_Ld] in *.
      injection E as <- <- _ _ _. apply partials_intro; [reflexivity|reflexivity|]. intros X dX U dU LX LU EX EU DX DU. subst x u.
      rewrite (list4 _ (LX 0)). flat LX LU.
    - intros t x old Vx Vxx Hx E. cbn [pb_nx pb_terminalCostDeriv pb_terminalCost cartpole cart_phid] in *.
      injection E as <- _. apply partials_intro; [reflexivity|reflexivity|]. intros X dX U dU LX LU EX EU DX DU. subst x.
      rewrite (list4 _ (LX 0)). flat LX LU.
    - intros t x u old Lx Lu Lxx Luu Lxu Hx Hu E i Hi. unfold grad_x. cbn [pb_nx pb_runningCostDeriv pb_runningCost cartpole nu_of pb_fixed_nu cart_Ld] in *.
      injection E as _ _ <- _ <-. apply partials_rows. intros X dX U dU LX LU EX EU DX DU. subst x u.
      destruct i as [|[|[|[|]]]]; [| | | |lia]; flat LX LU.
    - intros t x old Vx Vxx Hx E i Hi. unfold grad_T. cbn [pb_nx pb_terminalCostDeriv pb_terminalCost cartpole cart_phid fst] in *.
      injection E as _ <-. apply partials_T. intros X dX LX EX DX. subst x.
      destruct i as [|[|[|[|]]]]; [| | | |lia]; flat LX LX.
    - intros t x u old Lx Lu Lxx Luu Lxu Hx Hu E i Hi. unfold grad_u. cbn [pb_nx pb_runningCostDeriv pb_runningCost cartpole nu_of pb_fixed_nu cart_Ld] in *.
      injection E as _ _ _ <- <-. apply partials_col. intros X dX U dU LX LU EX EU DX DU. subst x u.
      destruct i as [|]; [|lia]; flat LX LU.
  Qed.
  Lemma cart_con : exact_constraints (cartpole_f sin cos p).
  Proof.
    constructor. intros t x u old A B Hx Hu E i Hi. cbn [fp_dp pb_nx fp_g fp_gDeriv cartpole cartpole_f nu_of ng_of pb_fixed_nu fp_fixed_ng] in *.
    injection E as <- <-. apply partials_rows. intros X dX U dU LX LU EX EU DX DU. subst x u.
    destruct i as [|[|[|[|]]]]; [| | | |lia]; 
    (eapply dl_conv; [intros s; try rewrite (list4 _ (LX s)); try rewrite (list1 _ (LU s)); cbn; reflexivity|cbv beta; repeat dstep|cbn; unfold vget; cbn; field]).
  Qed.
End Cart.
