(** Linear-quadratic problems in exact arithmetic: completing the square in the backward pass. *)
From Verif Require Import Prelude Scalar LinAlg BoxQP DDP DDPSpec DDPProofs DDPSafe DDPLimits RLin CholProofs.
From Coq Require Import Reals Lra.
Open Scope R_scope.

(** ** Algebra *)
Section Square.
  Variables (n m : nat) (Qx : fvec) (Qu : fvec) (Qxx Qux Quu : fmat) (k : fvec) (K : fmat).
  Hypothesis Hsym : fsym m Quu.
  Hypothesis Hk : forall i, (i < m)%nat -> fmv m Quu k i = - Qu i.
  Hypothesis HK : forall i j, (i < m)%nat -> (j < n)%nat -> fmm m Quu K i j = - Qux i j.

  Definition sqVx : fvec := fadd (fadd (fadd Qx (fmv m (fmm m (ftr K) Quu) k)) (fmv m (ftr K) Qu)) (fmv m (ftr Qux) k).
  Definition sqW : fmat := fmadd (fmadd (fmadd Qxx (fmm m (fmm m (ftr K) Quu) K)) (fmm m (ftr K) Qux)) (fmm m (ftr Qux) K).
  Definition sqVxx : fmat := fmscal (/ 2) (fmadd sqW (ftr sqW)).

  Lemma sqVxx_sym : fsym n sqVxx.
  Proof. intros i j _ _. unfold sqVxx, fmscal, fmadd, ftr. ring. Qed.

  (** Value of the quadratic model at (dx, du). *)
  Definition qval (dx du : fvec) : R :=
    fdot n Qx dx + fdot m Qu du + / 2 * fdot n dx (fmv n Qxx dx) + fdot m du (fmv n Qux dx) + / 2 * fdot m du (fmv m Quu du).

  Lemma square dx du : let w := fsubv (fsubv du k) (fmv n K dx) in
    qval dx du = fdot m k Qu + / 2 * fdot m k (fmv m Quu k) + fdot n sqVx dx + / 2 * fdot n dx (fmv n sqVxx dx)
                 + / 2 * fdot m w (fmv m Quu w).
  Proof.
    intros w. set (e := fmv n K dx) in *. set (B := fun a b => fdot m a (fmv m Quu b)).
    assert (Bs : forall a b, B a b = B b a) by (intros; apply fsym_swap; exact Hsym).
    assert (Eu : forall y, fdot m Qu y = - B k y).
    { intros y. rewrite (Bs k y). unfold B. rewrite fdot_comm. rewrite (fdot_ext m y (fmv m Quu k) y (fopp Qu)); auto.
      rewrite fdot_opp_r. ring. }
    assert (Ex : forall y, fdot m y (fmv n Qux dx) = - B y e).
    { intros y. unfold B, e. rewrite <- fmv_mm. rewrite (fdot_ext m y (fmv n (fmm m Quu K) dx) y (fopp (fmv n Qux dx))); auto.
      - rewrite fdot_opp_r. ring.
      - intros i Hi. unfold fopp, fmv. rewrite <- Rsum_opp. apply Rsum_ext. intros j Hj. rewrite HK by assumption. ring. }
    assert (Evx : fdot n sqVx dx = fdot n Qx dx - B k e).
    { unfold sqVx. rewrite !fdot_add_l, fmv_mm.
      assert (T : forall A y, fdot n (fmv m (ftr A) y) dx = fdot m y (fmv n A dx)) by (intros; symmetry; apply fdot_mv).
      rewrite !T. fold e. rewrite Ex, Eu. rewrite (fdot_comm m (fmv m Quu k) e). fold (B e k). rewrite (Bs e k). ring. }
    assert (Ew : fdot n dx (fmv n sqW dx) = fdot n dx (fmv n Qxx dx) - B e e).
    { unfold sqW. rewrite !fmv_madd, !fdot_add_r, !fmv_mm.
      assert (T : forall A y, fdot n dx (fmv m (ftr A) y) = fdot m (fmv n A dx) y).
      { intros A y. rewrite fdot_mv. reflexivity. }
      rewrite !T. fold e. fold (B e e). rewrite (fdot_comm m (fmv n Qux dx) e), Ex. ring. }
    assert (Evxx : fdot n dx (fmv n sqVxx dx) = fdot n dx (fmv n sqW dx)).
    { unfold sqVxx. rewrite fmv_mscal, fmv_madd, fdot_scal_r, fdot_add_r.
      replace (fdot n dx (fmv n (ftr sqW) dx)) with (fdot n dx (fmv n sqW dx)); [field|].
      rewrite fdot_mv, fdot_comm. reflexivity. }
    assert (Bw : B w w = B du du + B k k + B e e - 2 * B du k - 2 * B du e + 2 * B k e).
    { unfold w, B. rewrite !fmv_sub, !fdot_sub_l, !fdot_sub_r.
      fold (B du du) (B du k) (B du e) (B k du) (B k k) (B k e) (B e du) (B e k) (B e e).
      rewrite (Bs k du), (Bs e du), (Bs e k). ring. }
    unfold qval. fold (B du du) (B k k) (B w w). rewrite (fdot_comm m k Qu), !Eu, Ex, Evx, Evxx, Ew, Bw, (Bs du k). field.
  Qed.
End Square.

(** Cost of one step plus the quadratic cost-to-go after it. *)
Section Expand.
  Variables (n m : nat) (Lx Lu : fvec) (Lxx Luu Lxu Fx Fu : fmat) (Vx : fvec) (Vxx : fmat).
  Hypothesis Hsym : fsym n Vxx.
  Lemma q_expand dx du : let p := fadd (fmv n Fx dx) (fmv m Fu du) in
    fdot n Lx dx + fdot m Lu du + / 2 * fdot n dx (fmv n Lxx dx) + fdot n dx (fmv m Lxu du) + / 2 * fdot m du (fmv m Luu du)
      + (fdot n Vx p + / 2 * fdot n p (fmv n Vxx p))
    = qval n m (fadd Lx (fmv n (ftr Fx) Vx)) (fadd Lu (fmv n (ftr Fu) Vx))
           (fmadd Lxx (fmm n (fmm n (ftr Fx) Vxx) Fx)) (fmadd (ftr Lxu) (fmm n (fmm n (ftr Fu) Vxx) Fx))
           (fmadd Luu (fmm n (fmm n (ftr Fu) Vxx) Fu)) dx du.
  Proof.
    intros p. unfold qval, p. rewrite !fmv_madd, !fdot_add_l, !fdot_add_r, !fmv_mm, !fmv_add, !fdot_add_r.
    assert (T1 : forall y z, fdot m y (fmv n (ftr Fu) z) = fdot n (fmv m Fu y) z) by (intros; rewrite fdot_mv; reflexivity).
    assert (T2 : forall y z, fdot n y (fmv n (ftr Fx) z) = fdot n (fmv n Fx y) z) by (intros; rewrite fdot_mv; reflexivity).
    assert (T3 : fdot m du (fmv n (ftr Lxu) dx) = fdot n dx (fmv m Lxu du)).
    { rewrite fdot_mv, fdot_comm. reflexivity. }
    rewrite T3, !T1, !T2. rewrite (fdot_comm n (fmv n (ftr Fx) Vx) dx), (fdot_comm m (fmv n (ftr Fu) Vx) du), T1, T2.
    rewrite (fdot_comm n (fmv m Fu du) Vx), (fdot_comm n (fmv n Fx dx) Vx).
    rewrite (fsym_swap n Vxx (fmv n Fx dx) (fmv m Fu du) Hsym). field.
  Qed.
End Expand.

(** ** The model's local quantities as functions *)
Lemma mdiagadd_0 r c (A : mat R) : mdimb r c A = true -> mdiagadd A 0 = A.
Proof.
  intros H. apply (mat_ext r c); [apply mdiagadd_dim; exact H|exact H|]. intros i j Hi Hj.
  unfold mdiagadd. rewrite (mdimb_rows _ _ _ H), (mdimb_cols _ _ _ H), mbuild_get by assumption.
  destruct (Nat.eqb i j); [|reflexivity]. numR. ring.
Qed.

Lemma vadd4_f n (a b c e : vec R) : length a = n -> length b = n -> length c = n -> length e = n ->
  vget (vadd (vadd (vadd a b) c) e) = fadd (fadd (fadd (vget a) (vget b)) (vget c)) (vget e).
Proof. intros. rewrite !vadd_f; rewrite ?vadd_len; congruence. Qed.

Section Terms.
  Variables (pb : problem R) (cf : config R) (d : deriv R) (Vx : vec R) (Vxx : mat R).
  Notation n := (pb_nx pb).
  Notation m := (mcols (dFu d)).
  Hypothesis Hd : deriv_dims pb d Vx Vxx = true.
  Notation q := (expansion cf d Vx Vxx 0).

  Lemma dd : vdimb n Vx = true /\ mdimb n n Vxx = true /\ mdimb n n (dFx d) = true /\ mdimb n m (dFu d) = true /\
    vdimb n (dLx d) = true /\ vdimb m (dLu d) = true /\ mdimb n n (dLxx d) = true /\ mdimb m m (dLuu d) = true /\
    mdimb n m (dLxu d) = true.
  Proof. unfold deriv_dims in Hd. repeat (apply andb_true_iff in Hd as [Hd ?]). auto 12. Qed.
  Lemma vdimb_len (v : vec R) k : vdimb k v = true -> length v = k.
  Proof. intros H. apply Nat.eqb_eq in H. exact H. Qed.

  Lemma qQu_f : vget (qQu q) = fadd (vget (dLu d)) (fmv n (ftr (mget (dFu d))) (vget Vx)).
  Proof.
    destruct dd as (H1 & H2 & H3 & H4 & H5 & H6 & H7 & H8 & H9). cbn [expansion qQu].
    pose proof (mtr_dim _ _ _ H4) as H4'.
    rewrite vadd_f, (mvmul_f _ _ _ _ H4'), (mtr_f _ _ _ H4); [reflexivity|].
    rewrite mvmul_length, (mdimb_rows _ _ _ H4'). apply vdimb_len; assumption.
  Qed.
  Lemma qQx_f : vget (qQx q) = fadd (vget (dLx d)) (fmv n (ftr (mget (dFx d))) (vget Vx)).
  Proof.
    destruct dd as (H1 & H2 & H3 & H4 & H5 & H6 & H7 & H8 & H9). cbn [expansion qQx].
    pose proof (mtr_dim _ _ _ H3) as H3'.
    rewrite vadd_f, (mvmul_f _ _ _ _ H3'), (mtr_f _ _ _ H3); [reflexivity|].
    rewrite mvmul_length, (mdimb_rows _ _ _ H3'). apply vdimb_len; assumption.
  Qed.
  Lemma qdims : length (qQu q) = m /\ length (qQx q) = n /\ mdimb m n (qQux q) = true /\ mdimb m m (qQuu q) = true /\
    mdimb n n (qQxx q) = true.
  Proof.
    destruct dd as (H1 & H2 & H3 & H4 & H5 & H6 & H7 & H8 & H9). cbn [expansion qQu qQx qQux qQuu qQxx].
    rewrite !vadd_len. split; [apply vdimb_len; assumption|]. split; [apply vdimb_len; assumption|].
    split; [apply madd_dim, mtr_dim; assumption|]. split; apply madd_dim; assumption.
  Qed.
  Lemma qQux_f : mget (qQux q) = fmadd (ftr (mget (dLxu d))) (fmm n (fmm n (ftr (mget (dFu d))) (mget Vxx)) (mget (dFx d))).
  Proof.
    destruct dd as (H1 & H2 & H3 & H4 & H5 & H6 & H7 & H8 & H9). cbn [expansion qQux].
    pose proof (mtr_dim _ _ _ H4) as H4'. pose proof (mmul_dim _ _ _ _ _ H4' H2) as HA. pose proof (mmul_dim _ _ _ _ _ HA H3) as HB.
    rewrite (madd_f m n) by (auto; apply mtr_dim; assumption). rewrite (mtr_f _ _ _ H9), (mmul_f _ _ _ _ _ HA H3), (mmul_f _ _ _ _ _ H4' H2), (mtr_f _ _ _ H4). reflexivity.
  Qed.
  Lemma qQuu_f : mget (qQuu q) = fmadd (mget (dLuu d)) (fmm n (fmm n (ftr (mget (dFu d))) (mget Vxx)) (mget (dFu d))).
  Proof.
    destruct dd as (H1 & H2 & H3 & H4 & H5 & H6 & H7 & H8 & H9). cbn [expansion qQuu].
    pose proof (mtr_dim _ _ _ H4) as H4'. pose proof (mmul_dim _ _ _ _ _ H4' H2) as HA. pose proof (mmul_dim _ _ _ _ _ HA H4) as HB.
    rewrite (madd_f m m) by auto. rewrite (mmul_f _ _ _ _ _ HA H4), (mmul_f _ _ _ _ _ H4' H2), (mtr_f _ _ _ H4). reflexivity.
  Qed.
  Lemma qQxx_f : mget (qQxx q) = fmadd (mget (dLxx d)) (fmm n (fmm n (ftr (mget (dFx d))) (mget Vxx)) (mget (dFx d))).
  Proof.
    destruct dd as (H1 & H2 & H3 & H4 & H5 & H6 & H7 & H8 & H9). cbn [expansion qQxx].
    pose proof (mtr_dim _ _ _ H3) as H3'. pose proof (mmul_dim _ _ _ _ _ H3' H2) as HA. pose proof (mmul_dim _ _ _ _ _ HA H3) as HB.
    rewrite (madd_f n n) by auto. rewrite (mmul_f _ _ _ _ _ HA H3), (mmul_f _ _ _ _ _ H3' H2), (mtr_f _ _ _ H3). reflexivity.
  Qed.
  (** Without regularisation the regularised copies are the plain ones. *)
  Lemma qF : qQuu_F q = qQuu q.
  Proof.
    destruct dd as (H1 & H2 & H3 & H4 & H5 & H6 & H7 & H8 & H9). cbn [expansion qQuu_F qQuu].
    rewrite (mdiagadd_0 n n Vxx H2).
    replace (if (cf_reg_type cf =? 2)%Z then Vxx else Vxx) with Vxx by (destruct (_ =? _)%Z; reflexivity).
    destruct (_ =? _)%Z; [|reflexivity]. apply (mdiagadd_0 m m). apply madd_dim; assumption.
  Qed.
  Lemma qReg : qQux_reg q = qQux q.
  Proof.
    destruct dd as (H1 & H2 & H3 & H4 & H5 & H6 & H7 & H8 & H9). cbn [expansion qQux_reg qQux].
    rewrite (mdiagadd_0 n n Vxx H2). destruct (_ =? _)%Z; reflexivity.
  Qed.

  Variables (k : vec R) (K : mat R).
  Hypothesis Lk : length k = m.
  Hypothesis LK : mdimb m n K = true.
  Lemma value_f Vx' Vxx' : propagate q k K = (Vx', Vxx') ->
    vget Vx' = sqVx m (vget (qQx q)) (vget (qQu q)) (mget (qQux q)) (mget (qQuu q)) (vget k) (mget K) /\
    mget Vxx' = sqVxx m (mget (qQxx q)) (mget (qQux q)) (mget (qQuu q)) (mget K) /\
    length Vx' = n /\ mdimb n n Vxx' = true.
  Proof.
    intros E. unfold propagate in E. pose proof (f_equal fst E) as E1. pose proof (f_equal snd E) as E2.
    cbn [fst snd] in E1, E2. rewrite <- E1, <- E2. clear E E1 E2. destruct qdims as (D1 & D2 & D3 & D4 & D5).
    pose proof (mtr_dim _ _ _ LK) as LKt. pose proof (mmul_dim _ _ _ _ _ LKt D4) as HA. pose proof (mtr_dim _ _ _ D3) as D3t.
    pose proof (mmul_dim _ _ _ _ _ HA LK) as HB. pose proof (mmul_dim _ _ _ _ _ LKt D3) as HC. pose proof (mmul_dim _ _ _ _ _ D3t LK) as HD.
    pose proof (madd_dim _ _ _ (mmul (mmul (mtr K) (qQuu q)) K) D5) as HE.
    pose proof (madd_dim _ _ _ (mmul (mtr K) (qQux q)) HE) as HF. pose proof (madd_dim _ _ _ (mmul (mtr (qQux q)) K) HF) as HG.
    split; [|split; [|split]].
    - assert (M1 : length (mvmul (mmul (mtr K) (qQuu q)) k) = n) by (rewrite mvmul_length; apply (mdimb_rows _ _ _ HA)).
      assert (M2 : length (mvmul (mtr K) (qQu q)) = n) by (rewrite mvmul_length; apply (mdimb_rows _ _ _ LKt)).
      assert (M3 : length (mvmul (mtr (qQux q)) k) = n) by (rewrite mvmul_length; apply (mdimb_rows _ _ _ D3t)).
      rewrite (vadd4_f n _ _ _ _ D2 M1 M2 M3).
      rewrite (mvmul_f _ _ _ _ HA), (mvmul_f _ _ _ _ LKt), (mvmul_f _ _ _ _ D3t), (mmul_f _ _ _ _ _ LKt D4), (mtr_f _ _ _ LK), (mtr_f _ _ _ D3).
      reflexivity.
    - rewrite (mscale_f n n) by (apply madd_dim; exact HG). rewrite (madd_f n n) by (auto; apply mtr_dim; exact HG).
      rewrite (mtr_f _ _ _ HG). rewrite (madd_f n n _ _ HF HD), (madd_f n n _ _ HE HC), (madd_f n n _ _ D5 HB).
      rewrite (mmul_f _ _ _ _ _ HA LK), (mmul_f _ _ _ _ _ LKt D3), (mmul_f _ _ _ _ _ D3t LK), (mmul_f _ _ _ _ _ LKt D4), (mtr_f _ _ _ LK), (mtr_f _ _ _ D3).
      unfold sqVxx, sqW. replace (@nhalf R RNum) with (/ 2); [reflexivity|]. unfold nhalf. numR. field.
    - rewrite !vadd_len. exact D2.
    - apply mscale_dim, madd_dim. exact HG.
  Qed.

  (** Gains of an unconstrained step: exact solutions of the two linear systems. *)
  Lemma newton_f LL (HL : exact_llt LL) : mdimb n n Vxx = true -> fsym m (mget (qQuu q)) -> llt_issue LL (qQuu_F q) = false ->
    k = vscale (nopp none) (llt_solve LL (qQuu_F q) (qQu q)) ->
    K = mscale (nopp none) (llt_solve_mat LL (qQuu_F q) (qQux_reg q)) ->
    (forall i, (i < m)%nat -> fmv m (mget (qQuu q)) (vget k) i = - vget (qQu q) i) /\
    (forall i j, (i < m)%nat -> (j < n)%nat -> fmm m (mget (qQuu q)) (mget K) i j = - mget (qQux q) i j) /\
    posdef m (mget (qQuu q)).
  Proof.
    intros HV Hs Hi Ek EK. rewrite qF in *. rewrite qReg in *. destruct qdims as (D1 & D2 & D3 & D4 & D5).
    replace (@nopp R RNum none) with (-1) in * by (numR; lra).
    split; [|split].
    - intros i Hi'. rewrite Ek, vscale_f, fmv_scal. unfold fscal. rewrite (el_solve LL HL _ m _ D4 Hs Hi D1 i Hi'). ring.
    - intros i j Hi' Hj. rewrite EK, (mscale_f m n) by (apply (el_mdim LL HL); assumption).
      rewrite <- (el_msolve LL HL _ m n _ D4 Hs Hi D3 i j Hi' Hj). unfold fmm, fmscal. rewrite <- Rsum_opp. apply Rsum_ext; intros; ring.
    - apply (el_issue LL HL _ m D4 Hs). exact Hi.
  Qed.
End Terms.
