(** C49: the derivatives returned by the example problems. *)
From Coq Require Import Reals Lra.
From Verif Require Import Prelude Scalar LinAlg RLin DDP DDPSafe Fmpc FmpcSafe GmresSpec GmresCor Cgmres P_Ode CgmresGrad P_Cgmres Problems ProbSpec ProbProofs ProbProofs2 ProbProofs3.
Local Open Scope R_scope.
Local Arguments IZR : simpl never.
Local Arguments Rdiv : simpl never.
Local Arguments Rminus : simpl never.
Local Arguments Rplus : simpl never.
Local Arguments Rmult : simpl never.
Local Arguments Ropp : simpl never.

(** ** DDP problems *)

(** C49: bipedal walking, whatever the reference, the height function and the weights. *)
Theorem C49_bipedal p : exact_derivatives (bipedal p).
Proof. exact (bip_exact p). Qed.
Print Assumptions C49_bipedal.

(** C49: vertical motion with any number of inputs. All derivatives are exact without the smooth absolute value; with it,
    all but the second derivative in u. *)
Theorem C49_vertical p : length (vp_rx p) = 2%nat -> length (vp_tx p) = 2%nat ->
  exact_dynamics (vertical p) /\ exact_gradients (vertical p) /\ exact_hessian_x (vertical p) /\ (vp_smooth p = false -> exact_hessian_u (vertical p)).
Proof.
  destruct p as [dt ref rx ru tx mass smooth]. cbn [vp_rx vp_tx vp_smooth]. intros H1 H2.
  destruct rx as [|w0 [|w1 [|]]]; try discriminate. destruct tx as [|v0 [|v1 [|]]]; try discriminate.
  pose proof (vert_dyn dt ref w0 w1 ru v0 v1 mass smooth). pose proof (vert_grads dt ref w0 w1 ru v0 v1 mass smooth).
  pose proof (vert_hess_x dt ref w0 w1 ru v0 v1 mass smooth). pose proof (vert_hess_u dt ref w0 w1 ru v0 v1 mass smooth). auto.
Qed.
Print Assumptions C49_vertical.

(** The cost weights of TestDDPVerticalMotion.cpp. *)
Definition vert_smooth : vert_par R := {| vp_dt := / 100; vp_ref := fun _ => 1; vp_rx := [1; / 1000]; vp_ru := / 10000; vp_tx := [1; / 1000]; vp_mass := 1; vp_smooth := true |}.
Lemma vert_nu0 : nu_of (vertical vert_smooth) 0 = 1%nat.
Proof.
  unfold nu_of, vertical, vert_dim. cbn [pb_fixed_nu pb_inputDim]. unfold nofZ. cbn [nlit nltb nadd RNum].
  rewrite (proj2 (Rltb_false (2 / 1) (0 + 1 / 1000000))) by lra. rewrite (proj2 (Rltb_false (45 / 10) (0 + 1 / 1000000))) by lra. reflexivity.
Qed.
(** C49 fails with the smooth absolute value: Luu is not the derivative of Lu (it lacks the second derivative of the function). *)
Theorem C49_smooth_hessian_refuted : exists p, length (vp_rx p) = 2%nat /\ length (vp_tx p) = 2%nat /\ vp_smooth p = true /\ ~ exact_hessian_u (vertical p).
Proof.
  exists vert_smooth. split; [reflexivity|]. split; [reflexivity|]. split; [reflexivity|]. intros [H].
  specialize (H 0 [1; 0] [3 / 4] (vzero 0, vzero 0, mzero 0 0, mzero 0 0, mzero 0 0)). rewrite vert_nu0 in H.
  specialize (H _ _ _ _ _ eq_refl eq_refl eq_refl 0%nat ltac:(lia)). destruct H as (_ & _ & H).
  specialize (H (fun _ => [1; 0]) [0; 0] (fun s => [3 / 4 + s]) [1]).
  assert (CX : curve 2 (fun _ => [1; 0]) [0; 0]).
  { split; [reflexivity|]. split; [reflexivity|]. intros [|[|]] Hi; [apply derivable_pt_lim_const|apply derivable_pt_lim_const|lia]. }
  assert (CU : curve 1 (fun s => [3 / 4 + s]) [1]).
  { split; [reflexivity|]. split; [reflexivity|]. intros [|] Hi; [|lia]. cbn [nth]. replace 1 with (0 + 1) by ring.
    apply (dl_plus (fun _ => 3 / 4) (fun s => s)); [apply dl_const|apply derivable_pt_lim_id]. }
  specialize (H CX CU eq_refl ltac:(cbv beta; f_equal; ring)).
  assert (S : sqrt (3 / 4 * (3 / 4) + 1 * 1) = 5 / 4).
  { replace (3 / 4 * (3 / 4) + 1 * 1) with (5 / 4 * (5 / 4)) by field. apply sqrt_square. lra. }
  assert (S0 : sqrt ((3 / 4 + 0) * (3 / 4 + 0) + 1 * 1) = 5 / 4) by (rewrite Rplus_0_r; exact S).
  assert (G : dl (fun s => / 10000 * ((3 / 4 + s) * (1 / sqrt ((3 / 4 + s) * (3 / 4 + s) + 1 * 1)) * (sqrt ((3 / 4 + s) * (3 / 4 + s) + 1 * 1) - 1))) (/ 10000 * (9 / 25 + 16 / 125))).
  { assert (D1 : dl (fun s => 3 / 4 + s) 1).
    { eapply dl_eq; [apply (dl_plus (fun _ => 3 / 4) (fun s => s)); [apply dl_const|apply derivable_pt_lim_id]|]. ring. }
    assert (D2 : dl (fun s => sqrt ((3 / 4 + s) * (3 / 4 + s) + 1 * 1)) (3 / 5)).
    { eapply dl_eq; [apply dl_sqrt; [apply dl_plus; [apply dl_mult; exact D1|apply dl_const]|cbv beta; nra]|]. cbv beta. rewrite S0. field. }
    eapply dl_eq.
    - apply dl_mult; [apply dl_const|]. apply dl_mult.
      + apply dl_mult; [exact D1|]. apply dl_div; [apply dl_const|exact D2|]. cbv beta. rewrite S0. lra.
      + apply dl_minus; [exact D2|apply dl_const].
    - cbv beta. rewrite S0. field. }
  assert (H' : dl (fun s => / 10000 * ((3 / 4 + s) * (1 / sqrt ((3 / 4 + s) * (3 / 4 + s) + 1 * 1)) * (sqrt ((3 / 4 + s) * (3 / 4 + s) + 1 * 1) - 1)))
    (/ 10000 * (9 / 25))).
  { eapply dl_conv; [|exact H|]; [intros s; reflexivity|]. cbn. unfold vget. cbn. rewrite S. field. }
  pose proof (uniqueness_limite _ _ _ _ G H'). lra.
Qed.
Print Assumptions C49_smooth_hessian_refuted.

(** C49: centroidal motion, any contact sequence (three-row matrices with one column per force). *)
Theorem C49_centroidal p : cent_ok p -> exact_derivatives (centroidal p).
Proof. intros OK. split; [exact (cent_dyn p OK)|exact (cent_rest p OK)]. Qed.
Print Assumptions C49_centroidal.

(** C49: cart-pole of the DDP and FMPC tests. *)
Theorem C49_cartpole p : cart_ok p -> exact_derivatives (cartpole sin cos p) /\ exact_constraints (cartpole_f sin cos p).
Proof. intros OK. split; [exact (cart_exact p OK)|exact (cart_con p)]. Qed.
Print Assumptions C49_cartpole.
(** C49: oscillator of the FMPC test. *)
Theorem C49_oscillator dt : exact_derivatives (fp_dp (oscillator dt)) /\ exact_constraints (oscillator dt).
Proof. exact (osc_exact dt). Qed.
Print Assumptions C49_oscillator.

(** The overloads without second derivatives return the same gradients, for every scalar type. *)
Theorem C49_overloads {T} {N : Num T} (p1 : bip_par T) (p2 : vert_par T) (p3 : cent_par T) (p4 : cart_par T) t x u :
  (let '(Lx, Lu, _, _, _) := bip_Ld p1 t x u in bip_Ld1 p1 t x u = (Lx, Lu)) /\ bip_phid1 p1 t x = fst (bip_phid p1 t x) /\
  (let '(Lx, Lu, _, _, _) := vert_Ld p2 t x u in vert_Ld1 p2 t x u = (Lx, Lu)) /\ vert_phid1 p2 t x = fst (vert_phid p2 t x) /\
  (let '(Lx, Lu, _, _, _) := cent_Ld p3 t x u in cent_Ld1 p3 t x u = (Lx, Lu)) /\ cent_phid1 p3 t x = fst (cent_phid p3 t x) /\
  (let '(Lx, Lu, _, _, _) := cart_Ld p4 t x u in cart_Ld1 p4 t x u = (Lx, Lu)) /\ cart_phid1 p4 t x = fst (cart_phid p4 t x).
Proof.
  split; [reflexivity|]. split; [reflexivity|]. split; [unfold vert_Ld, vert_Ld1; destruct (vp_smooth p2); reflexivity|]. repeat (split; [reflexivity|]). reflexivity.
Qed.
Print Assumptions C49_overloads.

(** The height profile of the bipedal test: minJerkDDot is the second derivative of minJerk. *)
Theorem C49_min_jerk t : exists d, (forall s, derivable_pt_lim (@min_jerk R RNum) s (d s)) /\ derivable_pt_lim d t (@min_jerk_dd R RNum t).
Proof.
  assert (P : forall n c s, derivable_pt_lim (fun x => c * x ^ S n) s (c * (INR (S n) * s ^ n))).
  { intros n c s. apply (derivable_pt_lim_scal (fun x => x ^ S n)). exact (derivable_pt_lim_pow s (S n)). }
  exists (fun s => 30 * s ^ 4 + -60 * s ^ 3 + 30 * s ^ 2). split.
  - intros s. apply (derivable_pt_lim_ext (fun x => 6 * x ^ 5 + -15 * x ^ 4 + 10 * x ^ 3)).
    { intros x. unfold min_jerk, nofZ. cbn. field. }
    replace (30 * s ^ 4 + -60 * s ^ 3 + 30 * s ^ 2) with (6 * (INR 5 * s ^ 4) + -15 * (INR 4 * s ^ 3) + 10 * (INR 3 * s ^ 2)) by (cbn [INR]; ring).
    apply (derivable_pt_lim_plus (fun x => 6 * x ^ 5 + -15 * x ^ 4) (fun x => 10 * x ^ 3)); [|apply P].
    apply (derivable_pt_lim_plus (fun x => 6 * x ^ 5) (fun x => -15 * x ^ 4)); apply P.
  - replace (min_jerk_dd t) with (30 * (INR 4 * t ^ 3) + -60 * (INR 3 * t ^ 2) + 30 * (INR 2 * t ^ 1)) by (unfold min_jerk_dd, nofZ; cbn; field).
    apply (derivable_pt_lim_plus (fun x => 30 * x ^ 4 + -60 * x ^ 3) (fun x => 30 * x ^ 2)); [|apply P].
    apply (derivable_pt_lim_plus (fun x => 30 * x ^ 4) (fun x => -60 * x ^ 3)); apply P.
Qed.
Print Assumptions C49_min_jerk.

(** ** C/GMRES problems *)

(** C49: for the C/GMRES cart-pole, with and without input bound, costateEq is minus the derivative of the Hamiltonian in x, calcDhDu its
    derivative in u and calcDphiDx the derivative of the terminal cost. *)
Theorem C49_cgmres_cartpole p pi : cgc_ok p -> true_callbacks_t (cg_cartpole sin cos p pi) (cgc_f sin cos p) (cgc_cost p) (cgc_end p).
Proof. exact (cgc_true_t p pi). Qed.
Print Assumptions C49_cgmres_cartpole.
(** With a constant reference calcDhDuList therefore returns the gradient of the discretised cost. *)
Theorem C49_cgmres_cartpole_gradient p pi cf t x us N : cgc_ok p -> (forall t, cg_ref p t = cg_ref p 0) ->
  length us = N -> cc_num cf = Z.of_nat N -> length x = 4%nat -> (forall u, In u us -> length u = if cg_bound p then 3%nat else 1%nat) ->
  let m := if cg_bound p then 3%nat else 1%nat in let h := grid_step cf N t in
  gradient (N * m) (fun U => horizon_cost (cgc_f sin cos p 0) (cgc_cost p 0) (cgc_end p 0) h x (columns m N U)) (concat us)
    (lscal h (concat (calc_dhdu (cg_cartpole sin cos p pi) cf euler t x us))).
Proof.
  intros OK HR HN HE Hx Hu. exact (C45_exact_gradient (cg_cartpole sin cos p pi) cf _ _ _ t x us N (cgc_true p pi OK HR) HN HE Hx Hu).
Qed.
Print Assumptions C49_cgmres_cartpole_gradient.

(** C49 for the semi-active damper: costateEq and calcDhDu are the derivatives of the Hamiltonian exactly where reading u1
    instead of u0 makes no difference. *)
Theorem C49_damper p t x u l : length x = 2%nat -> length u = 3%nat -> length l = 2%nat ->
  gradient 5 (hamiltonian 2 (damp_f p 0) (damp_cost p) l) (x ++ u)
    (lscal (-1) (cp_costate (damper p) t l (x ++ u)) ++ cp_dhdu (damper p) t x u l)
  <-> dp_b p * nth 1 l 0 * (nth 0 u 0 - nth 1 u 0) = 0.
Proof. exact (damp_costate_iff p t x u l). Qed.
Print Assumptions C49_damper.
(** C49 fails for the damper: with the default parameters DhDu is not the gradient of the discretised cost (it is if the costate
    equation reads u0: [damper_good] differs from [damper] in that entry only). *)
Theorem C49_damper_refuted : exists cf t x us, cc_num cf = Z.of_nat (length us) /\ length x = 2%nat /\ (forall u, In u us -> length u = 3%nat) /\
  let N := length us in let h := grid_step cf N t in let p := damper_default R in
  let J U := horizon_cost (damp_f p 0) (damp_cost p) (damp_end p) h x (columns 3 N U) in
  ~ gradient (N * 3) J (concat us) (lscal h (concat (calc_dhdu (damper p) cf euler t x us))) /\
  gradient (N * 3) J (concat us) (lscal h (concat (calc_dhdu (damper_good p) cf euler t x us))).
Proof.
  exists bil_conf, 1, [0; 1], [[0; 0; 0]; [0; 1; 0]]. split; [reflexivity|]. split; [reflexivity|].
  assert (Hu : forall u, In u [[0; 0; 0]; [0; 1; 0]] -> length u = 3%nat) by (intros u [<-|[<-|[]]]; reflexivity). split; [exact Hu|]. split.
  - exact damp_grad_wrong.
  - exact (C45_exact_gradient (damper_good (damper_default R)) bil_conf _ _ _ 1 [0; 1] [[0; 0; 0]; [0; 1; 0]] 2 (damp_good_true _) eq_refl eq_refl eq_refl Hu).
Qed.
Print Assumptions C49_damper_refuted.

(** ** Concrete cases *)
(** The weights of TestDDPVerticalMotion.cpp without the smooth absolute value, at a time with two inputs. *)
Definition vert_plain : vert_par R := {| vp_dt := / 100; vp_ref := fun _ => 1; vp_rx := [1; / 1000]; vp_ru := / 10000; vp_tx := [1; / 1000]; vp_mass := 1; vp_smooth := false |}.
Example C49_vertical_nonvacuous : exact_derivatives (vertical vert_plain) /\ nu_of (vertical vert_plain) (5 / 2) = 2%nat /\
  mget (snd (vert_fd vert_plain (5 / 2) [1; 0] [2; 3])) 1 1 = / 100.
Proof.
  destruct (C49_vertical vert_plain eq_refl eq_refl) as (A & B & C & D). split; [split; [exact A|split; [exact B|split; [exact C|apply D; reflexivity]]]|]. split.
  - unfold nu_of, vertical, vert_dim. cbn [pb_fixed_nu pb_inputDim]. unfold nofZ. cbn [nlit nltb nadd RNum].
    rewrite (proj2 (Rltb_true (2 / 1) (5 / 2 + 1 / 1000000))) by lra. rewrite (proj2 (Rltb_true (5 / 2 + 1 / 1000000) (3 / 1))) by lra. reflexivity.
  - cbn. field.
Qed.
(** Two contact forces. *)
Definition cent_two : cent_par R := {| cn_dt := / 100;
  cn_stance := fun _ => (mkmat 3 2 [[1; -1]; [0; 0]; [0; 0]], mkmat 3 2 [[0; 0]; [/ 2; - / 2]; [1; 1]]);
  cn_ref := fun t => [t; 0; 1]; cn_rx := [1; 1; 1; 0; 0; 0; 1; 1; 1]; cn_ru := / 1000000; cn_tx := [1; 1; 1; 0; 0; 0; 1; 1; 1]; cn_mass := 100 |}.
Example C49_centroidal_nonvacuous : exact_derivatives (centroidal cent_two) /\ nu_of (centroidal cent_two) 0 = 2%nat /\
  mget (fst (cent_fd cent_two 0 [0; 0; 1; 0; 0; 0; 0; 0; 0] [3; 1])) 6 1 = - (4 / 100).
Proof.
  split; [apply C49_centroidal; constructor; reflexivity|]. split; [reflexivity|]. cbn. unfold vget. cbn. field.
Qed.
(** The parameters of the cart-pole tests. *)
Definition cart_test : cart_par R := {| cr_dt := / 100; cr_ref := fun _ => 0; cr_m1 := 1; cr_m2 := / 2; cr_l := 2; cr_rx := [/ 10; 1; / 100; / 10]; cr_ru := [/ 1000]; cr_tx := [/ 10; 1; / 100; / 10] |}.
Example C49_cartpole_nonvacuous : exact_derivatives (cartpole sin cos cart_test) /\ mget (snd (cart_fd sin cos cart_test 0 [0; 0; 0; 0] [1])) 3 0 = / 200.
Proof.
  split; [apply C49_cartpole; constructor; cbn; lra || reflexivity|]. cbn. unfold vget. cbn. rewrite sin_0, cos_0. field.
Qed.
(** The C/GMRES cart-pole with input bound. *)
Definition cgc_test : cgc_par R := {| cg_ref := fun _ => [0; 0; 0; 0]; cg_bound := true; cg_m1 := 1; cg_m2 := 1; cg_l := 1; cg_fmax := 100;
  cg_q := [10; 100; 1; 10; 10; / 100]; cg_s := [100; 300; 1; 10] |}.
Example C49_cgmres_cartpole_nonvacuous : cgc_ok cgc_test /\ nth 0 (cp_dhdu (cg_cartpole sin cos cgc_test PI) 0 [0; 0; 0; 0] [3; 1; / 2] [0; 0; 1; 1]) 0 = 35.
Proof. split; [constructor; cbn; lra|]. cbn. unfold vget. cbn. rewrite sin_0, cos_0. field. Qed.
