(** The derivative callbacks of the vertical motion and centroidal motion problems, whose number of inputs varies. *)
From Coq Require Import Reals Lra.
From Verif Require Import Prelude Scalar LinAlg RLin DDP DDPSafe DDPHist Fmpc FmpcSafe GmresSpec P_Ode CgmresGrad Problems ProbSpec ProbProofs.
Local Open Scope R_scope.
Local Arguments IZR : simpl never.
Local Arguments Rdiv : simpl never.
Local Arguments Rminus : simpl never.
Local Arguments Rplus : simpl never.
Local Arguments Rmult : simpl never.
Local Arguments Ropp : simpl never.

(** ** Sums over the inputs *)
Section Inputs.
  Variables (m : nat) (U : R -> list R) (dU : list R).
  Hypothesis LU : forall s, length (U s) = m.
  Hypothesis DU : forall j, (j < m)%nat -> dl (fun s => nth j (U s) 0) (nth j dU 0).
  Lemma dl_total : dl (fun s => @nsum R RNum (U s)) (Rsum m (fun j => nth j dU 0)).
  Proof using LU DU.
    apply (dl_conv (fun s => Rsum m (fun j => nth j (U s) 0)) _ (Rsum m (fun j => nth j dU 0))); [|apply dl_sum; exact DU|reflexivity].
    intros s. rewrite nsum_list, LU. reflexivity.
  Qed.
  (** A sum of c j / 2 * q(u_j)^2 *)
  Lemma dl_sq (q dq : R -> R) : (forall a, derivable_pt_lim q a (dq a)) ->
    dl (fun s => Rsum m (fun j => q (nth j (U s) 0) * q (nth j (U s) 0))) (Rsum m (fun j => 2 * (dq (nth j (U 0) 0) * q (nth j (U 0) 0)) * nth j dU 0)).
  Proof using DU.
    intros Hq. apply (dl_sum m (fun j s => q (nth j (U s) 0) * q (nth j (U s) 0))). intros j Hj.
    eapply dl_eq.
    - apply dl_mult; apply (derivable_pt_lim_comp (fun s => nth j (U s) 0) q 0 (nth j dU 0) (dq (nth j (U 0) 0))); auto.
    - cbv beta. ring.
  Qed.
End Inputs.

Definition sm (a : R) : R := sqrt (a * a + 1 * 1) - 1.
Definition smd (a : R) : R := a * (1 / sqrt (a * a + 1 * 1)).
Lemma sm_pos a : 0 < a * a + 1 * 1.
Proof. pose proof (Rle_0_sqr a). unfold Rsqr in *. lra. Qed.
Lemma sm_deriv a : derivable_pt_lim sm a (smd a).
Proof.
  unfold sm, smd. pose proof (sm_pos a) as P. pose proof (sqrt_lt_R0 _ P) as Q.
  replace (a * (1 / sqrt (a * a + 1 * 1))) with (/ (2 * sqrt (a * a + 1 * 1)) * (1 * a + a * 1 + 0) - 0) by (field; lra).
  apply (derivable_pt_lim_minus (fun a => sqrt (a * a + 1 * 1)) (fun _ => 1)); [|apply derivable_pt_lim_const].
  apply (derivable_pt_lim_comp (fun a => a * a + 1 * 1) sqrt).
  - apply (derivable_pt_lim_plus (fun a => a * a) (fun _ => 1 * 1)); [|apply derivable_pt_lim_const].
    apply (derivable_pt_lim_mult (fun a => a) (fun a => a)); apply derivable_pt_lim_id.
  - apply derivable_pt_lim_sqrt. exact P.
Qed.
Lemma smooth_get (v : list R) j : (j < length v)%nat -> nth j (smooth_abs v) 0 = sm (nth j v 0).
Proof. intros H. exact (vbuild_get (length v) (fun i => sm (vget v i)) j H). Qed.
Lemma smoothd_get (v : list R) j : (j < length v)%nat -> nth j (smooth_abs_d v) 0 = smd (nth j v 0).
Proof. intros H. exact (vbuild_get (length v) (fun i => smd (vget v i)) j H). Qed.
Lemma smooth_len (v : list R) : length (smooth_abs v) = length v.
Proof. unfold smooth_abs. rewrite vbuild_length. reflexivity. Qed.
Lemma smoothd_len (v : list R) : length (smooth_abs_d v) = length v.
Proof. unfold smooth_abs_d. rewrite vbuild_length. reflexivity. Qed.

(** ** Vertical motion *)
Section Vert.
  Variables (dt : R) (ref : R -> R) (w0 w1 ru v0 v1 mass : R) (smooth : bool).
  Definition vp : vert_par R := {| vp_dt := dt; vp_ref := ref; vp_rx := [w0; w1]; vp_ru := ru; vp_tx := [v0; v1]; vp_mass := mass; vp_smooth := smooth |}.
  Notation pb := (vertical vp).

  Lemma vert_dyn : exact_dynamics pb.
  Proof.
    constructor. intros t x u old A B Hx Hu E i Hi. cbn [pb_nx pb_stateEqDeriv pb_stateEq vertical vert_fd] in *. set (m := nu_of pb t) in *.
    injection E as <- <-. apply partials_rows. intros X dX U dU LX LU EX EU DX DU. subst x u.
    rewrite (Rsum_ext m _ (fun j => (if Nat.eqb i 0 then 0 else dt * (1 / mass)) * nth j dU 0)).
    - destruct i as [|[|]]; [| |lia].
      + eapply dl_conv; [intros s; rewrite (list2 _ (LX s)); cbn; reflexivity|cbv beta; repeat dstep|]. rewrite Rsum_scal. cbn. field.
      + apply (dl_conv (fun s => nth 1 (X s) 0 + dt * (@nsum R RNum (U s) * / mass - @grav R RNum)) _
          (nth 1 dX 0 + (0 * (@nsum R RNum (U 0) * / mass - @grav R RNum) + dt * (Rsum m (fun j => nth j dU 0) * / mass + @nsum R RNum (U 0) * 0 - 0)))).
        * intros s. rewrite (list2 _ (LX s)). reflexivity.
        * apply dl_plus; [apply DX; lia|]. apply dl_mult; [apply dl_const|]. apply dl_minus; [|apply dl_const].
          apply (dl_mult (fun s => @nsum R RNum (U s)) (fun _ => / mass)); [|apply dl_const]. apply dl_total; assumption.
        * rewrite Rsum_scal. cbn [Nat.eqb]. rewrite (proj1 (Nat.eqb_eq 0 0) eq_refl) || idtac. cbn. unfold Rdiv. ring.
    - intros j Hj. f_equal. rewrite (mscale_f 2 m) by (rewrite (LU 0); apply mbuild_dim). unfold fmscal. rewrite mbuild_get by (rewrite ?(LU 0); assumption).
      destruct i; cbn; [ring|reflexivity].
  Qed.

  (** The cost in terms of its entries. *)
  Definition qx (a b : R) (t : R) (x : list R) : R :=
    1 / 2 * (a * ((nth 0 x 0 - ref t) * (nth 0 x 0 - ref t)) + (b * ((nth 1 x 0 - 0) * (nth 1 x 0 - 0)) + 0)).
  Definition q (a : R) : R := if smooth then sm a else a.
  Definition dq (a : R) : R := if smooth then smd a else 1.
  Lemma q_deriv a : derivable_pt_lim q a (dq a).
  Proof. unfold q, dq. destruct smooth; [apply sm_deriv|apply derivable_pt_lim_id]. Qed.
  Lemma vert_L_eq t x u : length x = 2%nat ->
    vert_L vp t x u = qx w0 w1 t x + 1 / 2 * ru * Rsum (length u) (fun j => q (nth j u 0) * q (nth j u 0)).
  Proof.
    intros Hx. unfold vert_L, q. apply (f_equal2 Rplus); [rewrite (list2 _ Hx) at 1; reflexivity|]. cbn [vp_smooth vp]. destruct smooth.
    - cbn [vp_ru vp]. unfold nhalf. change (@nmul R RNum) with Rmult. rewrite sqnorm_R, smooth_len. f_equal. unfold fdot. apply Rsum_ext. intros j Hj.
      change (vget (smooth_abs u) j) with (nth j (smooth_abs u) 0). rewrite smooth_get by exact Hj. reflexivity.
    - cbn [vp_ru vp]. change (@nmul R RNum) with Rmult. rewrite sqnorm_R. reflexivity.
  Qed.
  Lemma dl_qx a b t X dX : (forall i, (i < 2)%nat -> dl (fun s => nth i (X s) 0) (nth i dX 0)) ->
    dl (fun s => qx a b t (X s)) (a * (nth 0 (X 0) 0 - ref t) * nth 0 dX 0 + b * nth 1 (X 0) 0 * nth 1 dX 0).
  Proof. intros DX. unfold qx. eapply dl_eq; [repeat dstep|]. cbv beta. field. Qed.
  (** The gradient with respect to u. *)
  Lemma vert_Lu_get t x u j old : (j < length u)%nat -> nth j (grad_u pb old t x u) 0 = ru * (dq (nth j u 0) * q (nth j u 0)).
  Proof.
    intros Hj. unfold grad_u. cbn [pb_runningCostDeriv vertical]. unfold vert_Ld. cbn [vp_smooth vp]. unfold q, dq. destruct smooth.
    - change (vget (vscale ru (vcwise (smooth_abs_d u) (smooth_abs u))) j = ru * (smd (nth j u 0) * sm (nth j u 0))).
      rewrite vscale_f. unfold fscal, vcwise. rewrite vbuild_get by (rewrite smoothd_len; exact Hj).
      change (vget ?a j) with (nth j a 0). rewrite smooth_get, smoothd_get by exact Hj. reflexivity.
    - change (vget (vscale ru u) j = ru * (1 * nth j u 0)). rewrite vscale_f. unfold fscal, vget. cbn. ring.
  Qed.
  Lemma vert_grads : exact_gradients pb.
  Proof.
    constructor.
    - intros t x u old Lx Lu Lxx Luu Lxu Hx Hu E.
      assert (EL : Lx = [w0 * (nth 0 x 0 - ref t); w1 * (nth 1 x 0 - 0)] /\ Lu = grad_u pb old t x u).
      { unfold grad_u. rewrite E. split; [|reflexivity]. cbn [pb_runningCostDeriv vertical] in E. unfold vert_Ld in E. rewrite (list2 _ Hx) in E. cbn [vp_smooth vp] in E.
        destruct smooth; injection E as <- _ _ _ _; reflexivity. }
      destruct EL as [-> ->]. cbn [pb_nx pb_runningCost vertical] in *. set (m := nu_of pb t) in *.
      apply partials_intro; [reflexivity| |].
      { unfold grad_u. cbn [pb_runningCostDeriv vertical]. unfold vert_Ld. cbn [vp_smooth vp]. destruct smooth; cbn [vp_ru vp]; unfold vscale, vcwise; rewrite ?vbuild_length, ?smoothd_len; exact Hu. }
      intros X dX U dU LX LU EX EU DX DU. subst x u.
      apply (dl_conv (fun s => qx w0 w1 t (X s) + 1 / 2 * ru * Rsum m (fun j => q (nth j (U s) 0) * q (nth j (U s) 0))) _
        ((w0 * (nth 0 (X 0) 0 - ref t) * nth 0 dX 0 + w1 * nth 1 (X 0) 0 * nth 1 dX 0)
         + (0 * Rsum m (fun j => q (nth j (U 0) 0) * q (nth j (U 0) 0)) + 1 / 2 * ru * Rsum m (fun j => 2 * (dq (nth j (U 0) 0) * q (nth j (U 0) 0)) * nth j dU 0)))).
      + intros s. rewrite (vert_L_eq t (X s) (U s) (LX s)), (LU s). reflexivity.
      + apply dl_plus; [apply dl_qx; exact DX|]. apply (dl_mult (fun _ => 1 / 2 * ru)); [apply dl_const|]. apply dl_sq; [exact DU|apply q_deriv].
      + rewrite (Rsum_ext m (fun j => nth j (grad_u pb old t (X 0) (U 0)) 0 * nth j dU 0) (fun j => 1 / 2 * ru * (2 * (dq (nth j (U 0) 0) * q (nth j (U 0) 0)) * nth j dU 0))).
        * rewrite Rsum_scal. cbn [Rsum nth]. ring.
        * intros j Hj. rewrite vert_Lu_get by (rewrite LU; exact Hj). field.
    - intros t x old Vx Vxx Hx E. cbn [pb_nx pb_terminalCostDeriv pb_terminalCost vertical] in *. unfold vert_phid in E. rewrite (list2 _ Hx) in E.
      injection E as <- _. apply partials_intro; [reflexivity|reflexivity|]. intros X dX U dU LX LU EX EU DX DU. subst x.
      eapply dl_conv; [intros s; rewrite (list2 _ (LX s)); cbn; reflexivity|cbv beta; repeat dstep|cbn; unfold vget; cbn; field].
  Qed.
  Lemma vert_hess_x : exact_hessian_x pb.
  Proof.
    constructor.
    - intros t x u old Lx Lu Lxx Luu Lxu Hx Hu E i Hi. cbn [pb_nx pb_runningCostDeriv vertical] in *. set (m := nu_of pb t) in *.
      assert (EL : Lxx = mdiag [w0; w1] /\ Lxu = mzero 2 (length u)) by (unfold vert_Ld in E; cbn [vp_smooth vp] in E; destruct smooth; injection E as _ _ <- _ <-; split; reflexivity).
      destruct EL as [-> ->]. apply partials_rows. intros X dX U dU LX LU EX EU DX DU. subst x u.
      apply (dl_conv (fun s => if Nat.eqb i 0 then w0 * (nth 0 (X s) 0 - ref t) else w1 * (nth 1 (X s) 0 - 0)) _
        (if Nat.eqb i 0 then w0 * nth 0 dX 0 else w1 * nth 1 dX 0)).
      + intros s. unfold grad_x. cbn [pb_runningCostDeriv vertical]. unfold vert_Ld. cbn [vp_smooth vp].
        destruct i as [|[|]]; [| |lia]; (destruct smooth; rewrite (list2 _ (LX s)); reflexivity).
      + destruct i as [|[|]]; [| |lia]; cbn [Nat.eqb]; (eapply dl_eq; [repeat dstep|cbv beta; ring]).
      + rewrite (Rsum_zero m); [|intros j Hj; unfold mzero; rewrite mbuild_get by (rewrite ?LU; assumption); cbn; ring].
        destruct i as [|[|]]; [| |lia]; cbn; ring.
    - intros t x old Vx Vxx Hx E i Hi. unfold grad_T. cbn [pb_nx pb_terminalCostDeriv pb_terminalCost vertical vert_phid fst] in *.
      injection E as _ <-. apply partials_T. intros X dX LX EX DX. subst x.
      destruct i as [|[|]]; [| |lia]; (eapply dl_conv; [intros s; rewrite (list2 _ (LX s)); cbn; reflexivity|cbv beta; repeat dstep|cbn; unfold vget; cbn; field]).
  Qed.
  Lemma vert_hess_u : smooth = false -> exact_hessian_u pb.
  Proof.
    intros Hs. constructor. intros t x u old Lx Lu Lxx Luu Lxu Hx Hu E i Hi. cbn [pb_nx pb_runningCostDeriv vertical] in *. set (m := nu_of pb t) in *.
    assert (EL : Luu = mscale ru (mid (length u)) /\ Lxu = mzero 2 (length u)) by (unfold vert_Ld in E; cbn [vp_smooth vp] in E; rewrite Hs in E; injection E as _ _ _ <- <-; split; reflexivity).
    destruct EL as [-> ->]. apply partials_col. intros X dX U dU LX LU EX EU DX DU. subst x u.
    apply (dl_conv (fun s => ru * (dq (nth i (U s) 0) * q (nth i (U s) 0))) _ (ru * nth i dU 0)).
    - intros s. rewrite vert_Lu_get by (rewrite LU; exact Hi). reflexivity.
    - unfold q, dq. rewrite Hs. eapply dl_eq; [repeat dstep|cbv beta; ring].
    - rewrite (Rsum_zero 2); [|intros j Hj; unfold mzero; rewrite mbuild_get by (rewrite ?LU; assumption); cbn; ring].
      rewrite (Rsum_ext m _ (fun k => (if Nat.eqb i k then ru else 0) * nth k dU 0)); [rewrite Rsum_delta by exact Hi; ring|].
      intros k Hk. f_equal. rewrite LU, (mscale_f m m) by (unfold mid; apply mbuild_dim). unfold fmscal. rewrite mget_mid by assumption. destruct (Nat.eqb i k); ring.
  Qed.
End Vert.

(** ** Centroidal motion *)
(** The stance of the test: 3 rows, one column per contact force direction. *)
Record cent_ok (p : cent_par R) : Prop := {
  ce_V : forall t, mdimb 3 (mcols (fst (cn_stance p t))) (fst (cn_stance p t)) = true;
  ce_R : forall t, mdimb 3 (mcols (fst (cn_stance p t))) (snd (cn_stance p t)) = true;
  ce_ref : forall t, length (cn_ref p t) = 3%nat;
  ce_rx : length (cn_rx p) = 9%nat; ce_tx : length (cn_tx p) = 9%nat }.

Lemma list9 (l : list R) : length l = 9%nat ->
  l = [nth 0 l 0; nth 1 l 0; nth 2 l 0; nth 3 l 0; nth 4 l 0; nth 5 l 0; nth 6 l 0; nth 7 l 0; nth 8 l 0].
Proof. do 9 (destruct l as [|? l]; [discriminate|]). destruct l; [|discriminate]. reflexivity. Qed.
Lemma list3 (l : list R) : length l = 3%nat -> l = [nth 0 l 0; nth 1 l 0; nth 2 l 0].
Proof. destruct l as [|a [|b [|c [|]]]]; try discriminate; reflexivity. Qed.

(** The accumulated moment is a sum. *)
Lemma moments_get V Q com u k : (k < 3)%nat ->
  nth k (moments V Q com u) 0 = Rsum (length u) (fun j => nth j u 0 * nth k (moment V Q com j) 0).
Proof.
  intros Hk. unfold moments. generalize (length u) as m. intros m.
  enough (G : forall m, length (fold_left (fun acc i => vadd acc (vscale (vget u i) (moment V Q com i))) (seq 0 m) (vzero 3)) = 3%nat /\
    nth k (fold_left (fun acc i => vadd acc (vscale (vget u i) (moment V Q com i))) (seq 0 m) (vzero 3)) 0
    = Rsum m (fun j => nth j u 0 * nth k (moment V Q com j) 0)) by apply G.
  clear m. induction m as [|m [IH1 IH2]].
  - split; [reflexivity|]. destruct k as [|[|[|]]]; [| | |lia]; reflexivity.
  - rewrite seq_S, fold_left_app. cbn [fold_left plus]. set (acc := fold_left _ _ _) in *. split; [unfold vadd; rewrite vbuild_length; exact IH1|].
    cbn [Rsum]. rewrite <- IH2. change (nth k ?v 0) with (vget v k). rewrite vadd_f by (rewrite IH1; unfold vscale; rewrite vbuild_length; reflexivity).
    unfold fadd. rewrite vscale_f. reflexivity.
Qed.

Section Cent.
  Variable p : cent_par R.
  Hypothesis OK : cent_ok p.
  Notation pb := (centroidal p).
  Notation V t := (fst (cn_stance p t)).
  Notation Q t := (snd (cn_stance p t)).
  Notation m t := (mcols (fst (cn_stance p t))).
  Lemma cent_nu t : nu_of pb t = m t.
  Proof. unfold nu_of. cbn [pb_fixed_nu centroidal pb_inputDim]. unfold cent_dim. apply Nat2Z.id. Qed.
  (** Total force in direction i *)
  Lemma force_get t (u : list R) i : length u = m t -> (i < 3)%nat -> nth i (mvmul (Q t) u) 0 = Rsum (m t) (fun j => mget (Q t) i j * nth j u 0).
  Proof using OK.
    intros Hu Hi. change (vget (mvmul (Q t) u) i = Rsum (m t) (fun j => mget (Q t) i j * vget u j)).
    rewrite (mvmul_f 3 (m t)) by apply OK. reflexivity.
  Qed.
  Definition com (x : list R) : list R := [nth 0 x 0; nth 1 x 0; nth 2 x 0].
  Definition cent_row (t : R) (x u : list R) (i : nat) : R :=
    nth i x 0 + cn_dt p *
      (if Nat.ltb i 3 then nth (3 + i) x 0 / cn_mass p
       else if Nat.ltb i 6 then Rsum (m t) (fun j => mget (Q t) (i - 3) j * nth j u 0) - cn_mass p * nth (i - 3) (@cent_g R RNum) 0
       else Rsum (m t) (fun j => nth j u 0 * nth (i - 6) (moment (V t) (Q t) (com x) j) 0)).
  Lemma cent_f_get t x u i : length x = 9%nat -> length u = m t -> (i < 9)%nat -> nth i (cent_f p t x u) 0 = cent_row t x u i.
  Proof using OK.
    intros Hx Hu Hi. unfold cent_f, cent_row. pose proof (force_get t u) as F. pose proof (ce_R _ OK t) as HR.
    destruct (cn_stance p t) as [V0 Q0] eqn:ES. cbn [fst snd] in *.
    change (nth i ?v 0) with (vget v i) at 1.
    assert (L3 : length (mvmul Q0 u) = 3%nat) by (unfold mvmul; rewrite vbuild_length; apply (mdimb_rows _ _ _ HR)).
    assert (LM : length (moments V0 Q0 (seg3 x 0) u) = 3%nat).
    { unfold moments. generalize (seq 0 (length u)). intros l. assert (G : forall acc, length acc = 3%nat ->
        length (fold_left (fun acc i => vadd acc (vscale (vget u i) (moment V0 Q0 (seg3 x 0) i))) l acc) = 3%nat).
      { induction l as [|a l IH]; intros acc Ha; [exact Ha|]. cbn [fold_left]. apply IH. unfold vadd. rewrite vbuild_length. exact Ha. }
      apply G. reflexivity. }
    rewrite vadd_f, vscale_f.
    2:{ unfold vscale. rewrite vbuild_length, !app_length, LM. unfold vdivs, vsub. rewrite !vbuild_length, L3. exact Hx. }
    unfold fadd, fscal. f_equal. f_equal. unfold vget at 1.
    destruct (Nat.ltb_spec i 3) as [H3|H3]; [|destruct (Nat.ltb_spec i 6) as [H6|H6]].
    - rewrite app_nth1 by (unfold vdivs; rewrite vbuild_length; exact H3).
      change (vget (vdivs (seg3 x 3) (cn_mass p)) i = vget x (3 + i) / cn_mass p). unfold vdivs. rewrite vbuild_get by exact H3.
      unfold seg3. rewrite vbuild_get by exact H3. reflexivity.
    - rewrite app_nth2 by (unfold vdivs; rewrite vbuild_length; exact H3). unfold vdivs. rewrite vbuild_length. change (length (seg3 x 3)) with 3%nat.
      rewrite app_nth1 by (unfold vsub; rewrite vbuild_length, L3; lia).
      change (vget (vsub (mvmul Q0 u) (vscale (cn_mass p) cent_g)) (i - 3) = Rsum (mcols V0) (fun j => mget Q0 (i - 3) j * nth j u 0) - cn_mass p * nth (i - 3) cent_g 0).
      rewrite vsub_f by (rewrite L3; reflexivity). unfold fsubv. rewrite vscale_f. unfold fscal.
      change (vget (mvmul Q0 u) (i - 3)) with (nth (i - 3) (mvmul Q0 u) 0). rewrite F by lia. reflexivity.
    - rewrite app_nth2 by (unfold vdivs; rewrite vbuild_length; exact H3). unfold vdivs. rewrite vbuild_length. change (length (seg3 x 3)) with 3%nat.
      rewrite app_nth2 by (unfold vsub; rewrite vbuild_length, L3; lia). unfold vsub. rewrite vbuild_length, L3.
      replace (i - 3 - 3)%nat with (i - 6)%nat by lia. rewrite moments_get by lia. rewrite Hu. reflexivity.
  Qed.
  Definition mom (t : R) (c0 c1 c2 : R) (j k : nat) : R :=
    let v i := mget (V t) i j in let r i := mget (Q t) i j in
    match k with 0 => (v 1%nat - c1) * r 2%nat - (v 2%nat - c2) * r 1%nat
               | 1 => (v 2%nat - c2) * r 0%nat - (v 0%nat - c0) * r 2%nat
               | _ => (v 0%nat - c0) * r 1%nat - (v 1%nat - c1) * r 0%nat end.
  Lemma mom_get t x j k : (k < 3)%nat -> nth k (moment (V t) (Q t) (com x) j) 0 = mom t (nth 0 x 0) (nth 1 x 0) (nth 2 x 0) j k.
  Proof using OK.
    intros Hk. unfold moment. pose proof (mdimb_rows _ _ _ (ce_V _ OK t)) as EV. pose proof (mdimb_rows _ _ _ (ce_R _ OK t)) as ER.
    unfold mom, vsub, mcol. rewrite EV, ER. destruct k as [|[|[|]]]; [| | |lia]; reflexivity.
  Qed.
  Lemma seg_com x : length x = 9%nat -> seg3 x 0 = com x.
  Proof. intros _. reflexivity. Qed.
  Lemma cent_dyn : exact_dynamics pb.
  Proof using OK.
    constructor. intros t x u old A B Hx Hu E i Hi. rewrite cent_nu in *. cbn [pb_nx pb_stateEqDeriv pb_stateEq centroidal] in *.
    unfold cent_fd in E. rewrite (surjective_pairing (cn_stance p t)) in E. apply pair_equal_spec in E. destruct E as [<- <-].
    apply partials_rows. intros X dX U dU LX LU EX EU DX DU. subst x u.
    set (h := cn_dt p). set (mu := cn_mass p).
    (* entries of A and B *)
    rewrite (Rsum_ext 9 _ (fun j => ((if Nat.eqb i j then 1 else 0) + h * (if Nat.ltb i 3 then (if Nat.eqb j (i + 3) then 1 / mu else 0)
      else if Nat.ltb i 6 then 0 else if Nat.ltb j 3 then mget (cross_mat (mvmul (Q t) (U 0))) (i - 6) j else 0)) * nth j dX 0)).
    2:{ intros j Hj. f_equal. unfold mdiagadd. cbn [mrows mcols mscale mbuild]. rewrite mbuild_get by assumption.
        unfold mscale. cbn [mrows mcols mbuild]. rewrite !mbuild_get by assumption. cbn [nadd nmul none nzero ndiv RNum]. fold h mu.
        destruct (Nat.eqb i j); ring. }
    rewrite (Rsum_ext (m t) _ (fun j => h * (if Nat.ltb i 3 then 0 else if Nat.ltb i 6 then mget (Q t) (i - 3) j
       else nth (i - 6) (moment (V t) (Q t) (com (X 0)) j) 0) * nth j dU 0)).
    2:{ intros j Hj. f_equal. unfold mscale. cbn [mrows mcols mbuild]. rewrite !mbuild_get by (rewrite ?LU; assumption). reflexivity. }
    apply (dl_conv (fun s => cent_row t (X s) (U s) i) _
      (nth i dX 0 + (0 * (if Nat.ltb i 3 then nth (3 + i) (X 0) 0 / mu
       else if Nat.ltb i 6 then Rsum (m t) (fun j => mget (Q t) (i - 3) j * nth j (U 0) 0) - mu * nth (i - 3) (@cent_g R RNum) 0
       else Rsum (m t) (fun j => nth j (U 0) 0 * nth (i - 6) (moment (V t) (Q t) (com (X 0)) j) 0))
       + h * (if Nat.ltb i 3 then nth (3 + i) dX 0 * / mu + nth (3 + i) (X 0) 0 * 0
       else if Nat.ltb i 6 then Rsum (m t) (fun j => mget (Q t) (i - 3) j * nth j dU 0) - 0
       else Rsum (m t) (fun j => nth j dU 0 * mom t (nth 0 (X 0) 0) (nth 1 (X 0) 0) (nth 2 (X 0) 0) j (i - 6)
         + nth j (U 0) 0 * (mom t (nth 0 dX 0) (nth 1 dX 0) (nth 2 dX 0) j (i - 6) - mom t 0 0 0 j (i - 6))))))).
    - intros s. apply cent_f_get; auto.
    - unfold cent_row. apply dl_plus; [apply DX; exact Hi|]. apply (dl_mult (fun _ => h)); [apply dl_const|].
      destruct (Nat.ltb_spec i 3) as [H3|H3]; [|destruct (Nat.ltb_spec i 6) as [H6|H6]].
      + apply (dl_mult (fun s => nth (3 + i) (X s) 0) (fun _ => / mu)); [apply DX; lia|apply dl_const].
      + apply dl_minus; [|apply dl_const]. apply (dl_sum (m t) (fun j s => mget (Q t) (i - 3) j * nth j (U s) 0)). intros j Hj.
        eapply dl_eq; [apply dl_mult; [apply dl_const|apply DU; exact Hj]|cbv beta; ring].
      + apply (dl_sum (m t) (fun j s => nth j (U s) 0 * nth (i - 6) (moment (V t) (Q t) (com (X s)) j) 0)). intros j Hj.
        eapply (dl_conv (fun s => nth j (U s) 0 * mom t (nth 0 (X s) 0) (nth 1 (X s) 0) (nth 2 (X s) 0) j (i - 6))); [intros s; rewrite mom_get by lia; reflexivity| |].
        { apply dl_mult; [apply DU; exact Hj|]. instantiate (1 := mom t (nth 0 dX 0) (nth 1 dX 0) (nth 2 dX 0) j (i - 6) - mom t 0 0 0 j (i - 6)).
          unfold mom. destruct (i - 6)%nat as [|[|]]; (eapply dl_eq; [repeat dstep|cbv beta; ring]). }
        cbv beta. ring.
    - fold h mu. destruct (Nat.ltb_spec i 3) as [H3|H3]; [|destruct (Nat.ltb_spec i 6) as [H6|H6]].
      + rewrite (Rsum_zero (m t)) by (intros; ring).
        rewrite (Rsum_ext 9 _ (fun j => (if Nat.eqb i j then 1 else 0) * nth j dX 0 + (if Nat.eqb (3 + i) j then h / mu else 0) * nth j dX 0)).
        * rewrite Rsum_plus, !Rsum_delta by lia. unfold Rdiv. ring.
        * intros j Hj. rewrite (Nat.eqb_sym j), (Nat.add_comm i 3). destruct (Nat.eqb i j), (Nat.eqb (3 + i) j); unfold Rdiv; ring.
      + rewrite (Rsum_ext 9 _ (fun j => (if Nat.eqb i j then 1 else 0) * nth j dX 0)) by (intros; ring). rewrite Rsum_delta by exact Hi.
        rewrite (Rsum_ext (m t) (fun j => h * mget (Q t) (i - 3) j * nth j dU 0) (fun j => h * (mget (Q t) (i - 3) j * nth j dU 0))) by (intros; ring).
        rewrite Rsum_scal. ring.
      + rewrite (Rsum_ext 9 _ (fun j => (if Nat.eqb i j then 1 else 0) * nth j dX 0 + h * ((if Nat.ltb j 3 then mget (cross_mat (mvmul (Q t) (U 0))) (i - 6) j else 0) * nth j dX 0)))
          by (intros; ring). rewrite (Rsum_plus 9), (Rsum_delta 9 i 1 (fun j => nth j dX 0)), (Rsum_scal 9) by exact Hi.
        rewrite (Rsum_plus (m t)).
        rewrite (Rsum_ext (m t) (fun j => h * nth (i - 6) (moment (V t) (Q t) (com (X 0)) j) 0 * nth j dU 0)
          (fun j => h * (nth j dU 0 * mom t (nth 0 (X 0) 0) (nth 1 (X 0) 0) (nth 2 (X 0) 0) j (i - 6)))).
        2:{ intros j Hj. rewrite mom_get by lia. ring. }
        rewrite Rsum_scal.
        enough (G : Rsum (m t) (fun j => nth j (U 0) 0 * (mom t (nth 0 dX 0) (nth 1 dX 0) (nth 2 dX 0) j (i - 6) - mom t 0 0 0 j (i - 6)))
          = Rsum 9 (fun j => (if Nat.ltb j 3 then mget (cross_mat (mvmul (Q t) (U 0))) (i - 6) j else 0) * nth j dX 0)) by (rewrite G; ring).
        assert (F : forall k, (k < 3)%nat -> vget (mvmul (Q t) (U 0)) k = Rsum (m t) (fun j => mget (Q t) k j * nth j (U 0) 0)) by (intros k Hk; apply force_get; auto).
        assert (i = 6 \/ i = 7 \/ i = 8)%nat as [->|[->| ->]] by lia; cbn [Nat.sub Rsum Nat.ltb Nat.leb]; unfold cross_mat, mget; cbn [mdat nth]; rewrite !F by lia; cbn [nzero nopp RNum]; unfold mom.
        * rewrite (Rsum_ext (m t) _ (fun j => - nth 1 dX 0 * (mget (Q t) 2 j * nth j (U 0) 0) + nth 2 dX 0 * (mget (Q t) 1 j * nth j (U 0) 0))) by (intros; ring).
          rewrite Rsum_plus, !Rsum_scal. ring.
        * rewrite (Rsum_ext (m t) _ (fun j => nth 0 dX 0 * (mget (Q t) 2 j * nth j (U 0) 0) + - nth 2 dX 0 * (mget (Q t) 0 j * nth j (U 0) 0))) by (intros; ring).
          rewrite Rsum_plus, !Rsum_scal. ring.
        * rewrite (Rsum_ext (m t) _ (fun j => - nth 0 dX 0 * (mget (Q t) 1 j * nth j (U 0) 0) + nth 1 dX 0 * (mget (Q t) 0 j * nth j (U 0) 0))) by (intros; ring).
          rewrite Rsum_plus, !Rsum_scal. ring.
  Qed.

  (** The error vector *)
  Definition cref (t : R) (i : nat) : R := if Nat.ltb i 3 then nth i (cn_ref p t) 0 else 0.
  Lemma diff_get t x i : length x = 9%nat -> (i < 9)%nat -> nth i (cent_diff p t x) 0 = nth i x 0 - cref t i.
  Proof using OK.
    intros Hx Hi. unfold cent_diff, cref. pose proof (ce_ref _ OK t) as LR. rewrite (list9 x Hx), (list3 _ LR).
    do 9 (destruct i as [|i]; [cbn; ring|]). lia.
  Qed.
  Lemma diff_len t x : length (cent_diff p t x) = 9%nat.
  Proof. reflexivity. Qed.
  Lemma wsq (w : list R) t x : length w = 9%nat -> length x = 9%nat ->
    dot w (vabs2 (cent_diff p t x)) = Rsum 9 (fun i => nth i w 0 * ((nth i x 0 - cref t i) * (nth i x 0 - cref t i))).
  Proof using OK.
    intros Hw Hx. rewrite dot_R. unfold fdot. rewrite Hw. apply Rsum_ext. intros i Hi. unfold vget at 1. f_equal.
    unfold vabs2, vcwise. rewrite vbuild_get by exact Hi. change (vget ?v i) with (nth i v 0). rewrite diff_get by assumption. reflexivity.
  Qed.
  Lemma cw_get (w : list R) t x i : length w = 9%nat -> length x = 9%nat -> (i < 9)%nat ->
    nth i (vcwise w (cent_diff p t x)) 0 = nth i w 0 * (nth i x 0 - cref t i).
  Proof using OK.
    intros Hw Hx Hi. change (vget (vcwise w (cent_diff p t x)) i = nth i w 0 * (nth i x 0 - cref t i)). unfold vcwise. rewrite vbuild_get by (rewrite Hw; exact Hi).
    change (vget ?v i) with (nth i v 0). rewrite diff_get by assumption. reflexivity.
  Qed.
  Lemma cent_rest : exact_gradients pb /\ exact_hessian_x pb /\ exact_hessian_u pb.
  Proof using OK.
    pose proof (ce_rx _ OK) as Lr. pose proof (ce_tx _ OK) as Lt.
    split; [|split]; constructor.
    - intros t x u old Lx Lu Lxx Luu Lxu Hx Hu E. rewrite cent_nu in *. cbn [pb_nx pb_runningCostDeriv pb_runningCost centroidal cent_Ld cent_Ld1] in *.
      injection E as <- <- _ _ _. apply partials_intro; [unfold vcwise; rewrite vbuild_length; exact Lr|unfold vscale; rewrite vbuild_length; exact Hu|].
      intros X dX U dU LX LU EX EU DX DU. subst x u.
      apply (dl_conv (fun s => / 2 * Rsum 9 (fun i => nth i (cn_rx p) 0 * ((nth i (X s) 0 - cref t i) * (nth i (X s) 0 - cref t i)))
          + cn_ru p * (/ 2 * Rsum (m t) (fun j => 1 * ((nth j (U s) 0 - 0) * (nth j (U s) 0 - 0))))) _
        (Rsum 9 (fun i => nth i (cn_rx p) 0 * (nth i (X 0) 0 - cref t i) * nth i dX 0)
         + (0 * (/ 2 * Rsum (m t) (fun j => 1 * ((nth j (U 0) 0 - 0) * (nth j (U 0) 0 - 0)))) + cn_ru p * Rsum (m t) (fun j => 1 * (nth j (U 0) 0 - 0) * nth j dU 0)))).
      + intros s. unfold cent_L. apply (f_equal2 Rplus).
        * rewrite <- wsq by auto. change (1 / 2 * dot (cn_rx p) (vabs2 (cent_diff p t (X s))) = / 2 * dot (cn_rx p) (vabs2 (cent_diff p t (X s)))). lra.
        * change (1 / 2 * cn_ru p * sqnorm (U s) = cn_ru p * (/ 2 * Rsum (m t) (fun j => 1 * ((nth j (U s) 0 - 0) * (nth j (U s) 0 - 0))))).
          rewrite sqnorm_R, LU. unfold fdot. rewrite (Rsum_ext (m t) (fun j => 1 * ((nth j (U s) 0 - 0) * (nth j (U s) 0 - 0))) (fun j => vget (U s) j * vget (U s) j)); [lra|].
          intros j Hj. unfold vget. cbn [nzero RNum]. ring.
      + apply dl_plus; [apply dl_quad; exact DX|]. apply (dl_mult (fun _ => cn_ru p)); [apply dl_const|]. apply dl_quad. exact DU.
      + f_equal; [apply Rsum_ext; intros i Hi; rewrite cw_get by auto; reflexivity|]. rewrite Rmult_0_l, Rplus_0_l, <- Rsum_scal.
        apply Rsum_ext. intros j Hj. change (nth j (vscale (cn_ru p) (U 0)) 0) with (vget (vscale (cn_ru p) (U 0)) j). rewrite vscale_f. unfold fscal, vget. cbn [nzero RNum]. ring.
    - intros t x old Vx Vxx Hx E. cbn [pb_nx pb_terminalCostDeriv pb_terminalCost centroidal] in *. unfold cent_phid in E.
      injection E as <- _. apply partials_intro; [unfold cent_phid1, vcwise; rewrite vbuild_length; exact Lt|reflexivity|].
      intros X dX U dU LX LU EX EU DX DU. subst x.
      apply (dl_conv (fun s => / 2 * Rsum 9 (fun i => nth i (cn_tx p) 0 * ((nth i (X s) 0 - cref t i) * (nth i (X s) 0 - cref t i)))) _
        (Rsum 9 (fun i => nth i (cn_tx p) 0 * (nth i (X 0) 0 - cref t i) * nth i dX 0))).
      + intros s. rewrite <- wsq by auto. change (1 / 2 * dot (cn_tx p) (vabs2 (cent_diff p t (X s))) = / 2 * dot (cn_tx p) (vabs2 (cent_diff p t (X s)))). lra.
      + apply dl_quad. exact DX.
      + replace (Rsum 0 (fun j => nth j [] 0 * nth j dU 0)) with 0 by reflexivity. rewrite Rplus_0_r.
        apply Rsum_ext; intros i Hi; unfold cent_phid1; rewrite cw_get by auto; reflexivity.
    - intros t x u old Lx Lu Lxx Luu Lxu Hx Hu E i Hi. rewrite cent_nu in *. unfold grad_x. cbn [pb_nx pb_runningCostDeriv centroidal cent_Ld cent_Ld1] in *.
      injection E as _ _ <- _ <-. apply partials_rows. intros X dX U dU LX LU EX EU DX DU. subst x u.
      apply (dl_conv (fun s => nth i (cn_rx p) 0 * (nth i (X s) 0 - cref t i)) _ (nth i (cn_rx p) 0 * nth i dX 0)).
      + intros s. apply cw_get; auto.
      + eapply dl_eq; [repeat dstep|cbv beta; ring].
      + rewrite (Rsum_ext 9 _ (fun j => (if Nat.eqb i j then nth i (cn_rx p) 0 else 0) * nth j dX 0)).
        2:{ intros j Hj. rewrite mget_mdiag by (rewrite Lr; assumption). reflexivity. }
        rewrite Rsum_delta by exact Hi. rewrite (Rsum_zero (m t)); [ring|]. intros j Hj. unfold mzero. rewrite mbuild_get by (rewrite ?LU; assumption). cbn. ring.
    - intros t x old Vx Vxx Hx E i Hi. unfold grad_T. cbn [pb_nx pb_terminalCostDeriv centroidal cent_phid fst] in *.
      injection E as _ <-. apply partials_T. intros X dX LX EX DX. subst x.
      apply (dl_conv (fun s => nth i (cn_tx p) 0 * (nth i (X s) 0 - cref t i)) _ (nth i (cn_tx p) 0 * nth i dX 0)).
      + intros s. apply cw_get; auto.
      + eapply dl_eq; [repeat dstep|cbv beta; ring].
      + rewrite (Rsum_ext 9 _ (fun j => (if Nat.eqb i j then nth i (cn_tx p) 0 else 0) * nth j dX 0)).
        2:{ intros j Hj. rewrite mget_mdiag by (rewrite Lt; assumption). reflexivity. }
        rewrite Rsum_delta by exact Hi. ring.
    - intros t x u old Lx Lu Lxx Luu Lxu Hx Hu E i Hi. rewrite cent_nu in *. unfold grad_u. cbn [pb_nx pb_runningCostDeriv centroidal cent_Ld cent_Ld1] in *.
      injection E as _ _ _ <- <-. apply partials_col. intros X dX U dU LX LU EX EU DX DU. subst x u.
      apply (dl_conv (fun s => cn_ru p * nth i (U s) 0) _ (cn_ru p * nth i dU 0)).
      + intros s. change (vget (vscale (cn_ru p) (U s)) i = cn_ru p * vget (U s) i). rewrite vscale_f. reflexivity.
      + eapply dl_eq; [repeat dstep|cbv beta; ring].
      + rewrite (Rsum_zero 9); [|intros j Hj; unfold mzero; rewrite mbuild_get by (rewrite ?LU; assumption); cbn; ring].
        rewrite (Rsum_ext (m t) _ (fun k => (if Nat.eqb i k then cn_ru p else 0) * nth k dU 0)); [rewrite Rsum_delta by exact Hi; ring|].
        intros k Hk. f_equal. rewrite LU, (mscale_f (m t) (m t)) by (unfold mid; apply mbuild_dim). unfold fmscal. rewrite mget_mid by assumption. destruct (Nat.eqb i k); ring.
  Qed.
End Cent.
