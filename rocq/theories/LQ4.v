(** Linear-quadratic problems with a regularised backward pass: the full step changes the cost by exactly the expected amount,
    is accepted unless the trajectory is already optimal, and the regularisation is gone after a known number of iterations. *)
From Verif Require Import Prelude Scalar LinAlg BoxQP DDP DDPSpec DDPProofs DDPCor DDPReal DDPSafe DDPLimits RLin CholProofs LQ LQ2 LQ3.
From Coq Require Import Reals Lra.
Local Open Scope R_scope.

(** ** Algebra *)
Section Policy.
  Variables (n m : nat) (Qx Qu : fvec) (Qxx Qux Quu : fmat) (k : fvec) (K : fmat).
  Hypothesis Hsym : fsym m Quu.
  (** The propagated value function is the cost of the policy du = k + K dx, whatever the gains. *)
  Lemma policy_value dx :
    qval n m Qx Qu Qxx Qux Quu dx (fadd k (fmv n K dx)) =
      fdot m k Qu + / 2 * fdot m k (fmv m Quu k) + fdot n (sqVx m Qx Qu Qux Quu k K) dx + / 2 * fdot n dx (fmv n (sqVxx m Qxx Qux Quu K) dx).
  Proof.
    set (e := fmv n K dx). set (B := fun a b => fdot m a (fmv m Quu b)).
    assert (Bs : forall a b, B a b = B b a) by (intros; apply fsym_swap; exact Hsym).
    assert (Evx : fdot n (sqVx m Qx Qu Qux Quu k K) dx = fdot n Qx dx + B e k + fdot m Qu e + fdot m k (fmv n Qux dx)).
    { unfold sqVx. rewrite !fdot_add_l, fmv_mm.
      assert (T : forall A y, fdot n (fmv m (ftr A) y) dx = fdot m y (fmv n A dx)) by (intros; symmetry; apply fdot_mv).
      rewrite !T. fold e. rewrite (fdot_comm m (fmv m Quu k) e). fold (B e k). ring. }
    assert (Ew : fdot n dx (fmv n (sqW m Qxx Qux Quu K) dx) = fdot n dx (fmv n Qxx dx) + B e e + 2 * fdot m e (fmv n Qux dx)).
    { unfold sqW. rewrite !fmv_madd, !fdot_add_r, !fmv_mm.
      assert (T : forall A y, fdot n dx (fmv m (ftr A) y) = fdot m (fmv n A dx) y).
      { intros A y. rewrite fdot_mv. reflexivity. }
      rewrite !T. fold e. fold (B e e). rewrite (fdot_comm m (fmv n Qux dx) e). ring. }
    assert (Evxx : fdot n dx (fmv n (sqVxx m Qxx Qux Quu K) dx) = fdot n dx (fmv n (sqW m Qxx Qux Quu K) dx)).
    { unfold sqVxx. rewrite fmv_mscal, fmv_madd, fdot_scal_r, fdot_add_r.
      replace (fdot n dx (fmv n (ftr (sqW m Qxx Qux Quu K)) dx)) with (fdot n dx (fmv n (sqW m Qxx Qux Quu K) dx)); [field|].
      rewrite fdot_mv, fdot_comm. reflexivity. }
    unfold qval. rewrite !fdot_add_l, !fdot_add_r, !fmv_add, !fdot_add_r.
    fold (B k k) (B k e) (B e k) (B e e). rewrite Evx, Evxx, Ew, (Bs k e), (fdot_comm m k Qu). field.
  Qed.
End Policy.

Lemma diag_mv r (A : mat R) l y i : mdimb r r A = true -> (i < r)%nat ->
  fmv r (mget (mdiagadd A l)) y i = fmv r (mget A) y i + l * y i.
Proof.
  intros H Hi. unfold fmv.
  assert (E : l * y i = Rsum r (fun j => if Nat.eqb i j then l * y j else 0)).
  { rewrite (Rsum_single r _ i Hi).
    - rewrite Nat.eqb_refl. reflexivity.
    - intros j Hj Hne. destruct (Nat.eqb_spec i j) as [->|]; [contradiction|reflexivity]. }
  rewrite E, <- Rsum_plus. apply Rsum_ext. intros j Hj.
  unfold mdiagadd. rewrite (mdimb_rows _ _ _ H), (mdimb_cols _ _ _ H), mbuild_get by assumption.
  destruct (Nat.eqb i j); numR; ring.
Qed.
Lemma diag_quad r (A : mat R) l y : mdimb r r A = true ->
  fdot r y (fmv r (mget (mdiagadd A l)) y) = fdot r y (fmv r (mget A) y) + l * fdot r y y.
Proof.
  intros H. unfold fdot at 1 2 3. rewrite <- Rsum_scal, <- Rsum_plus. apply Rsum_ext. intros i Hi.
  rewrite (diag_mv r A l y i H Hi). ring.
Qed.
Lemma diag_sym r (A : mat R) l : mdimb r r A = true -> fsym r (mget A) -> fsym r (mget (mdiagadd A l)).
Proof.
  intros H Hs i j Hi Hj. unfold mdiagadd. rewrite (mdimb_rows _ _ _ H), (mdimb_cols _ _ _ H), !mbuild_get by assumption.
  rewrite (Nat.eqb_sym j i), (Hs i j Hi Hj). reflexivity.
Qed.
Lemma fdot_nonneg r y : 0 <= fdot r y y.
Proof. unfold fdot. apply Rsum_nonneg. intros i _. nra. Qed.

(** ** The regularised terms of one step *)
Section RegTerms.
  Variables (pb : problem R) (cf : config R) (d : deriv R) (Vx : vec R) (Vxx : mat R) (l : R).
  Notation n := (pb_nx pb).
  Notation m := (mcols (dFu d)).
  Hypothesis Hd : deriv_dims pb d Vx Vxx = true.
  Hypothesis Hl : 0 <= l.
  Hypothesis HV : fsym n (mget Vxx).
  Hypothesis HL : fsym m (mget (dLuu d)).
  Notation q := (expansion cf d Vx Vxx l).

  (** With reg_type 1 or 2 (or neither) the matrix that is factorised is Quu plus a positive semi-definite one. *)
  Lemma reg_facts : mdimb m m (qQuu_F q) = true /\ mdimb m n (qQux_reg q) = true /\ fsym m (mget (qQuu_F q)) /\
    forall y, fdot m y (fmv m (mget (qQuu q)) y) <= fdot m y (fmv m (mget (qQuu_F q)) y).
  Proof.
    destruct (dd pb d Vx Vxx Hd) as (D1 & D2 & D3 & D4 & D5 & D6 & D7 & D8 & D9).
    destruct (qdims pb cf d Vx Vxx Hd) as (Q1 & Q2 & Q3 & Q4 & Q5).
    pose proof (mtr_dim _ _ _ D4) as D4'.
    assert (SQ : fsym m (mget (qQuu q))).
    { change (qQuu q) with (qQuu (expansion cf d Vx Vxx 0)). rewrite (qQuu_f pb cf d Vx Vxx Hd). apply quad_sym; assumption. }
    cbn [expansion qQuu_F qQux_reg].
    destruct (cf_reg_type cf =? 2)%Z eqn:E2.
    - assert (E1 : (cf_reg_type cf =? 1)%Z = false) by (apply Z.eqb_eq in E2; rewrite E2; reflexivity). rewrite E1.
      pose proof (mdiagadd_dim _ _ _ l D2) as DW. pose proof (diag_sym n Vxx l D2 HV) as SW.
      set (W := mdiagadd Vxx l) in *.
      pose proof (mmul_dim _ _ _ _ _ D4' DW) as HA. pose proof (mmul_dim _ _ _ _ _ HA D4) as HB.
      split; [apply madd_dim; assumption|]. split; [apply madd_dim, mtr_dim; assumption|].
      assert (EF : mget (madd (dLuu d) (mmul (mmul (mtr (dFu d)) W) (dFu d))) =
                   fmadd (mget (dLuu d)) (fmm n (fmm n (ftr (mget (dFu d))) (mget W)) (mget (dFu d)))).
      { rewrite (madd_f m m) by auto. rewrite (mmul_f _ _ _ _ _ HA D4), (mmul_f _ _ _ _ _ D4' DW), (mtr_f _ _ _ D4). reflexivity. }
      rewrite EF. split; [apply quad_sym; assumption|]. intros y.
      change (qQuu q) with (qQuu (expansion cf d Vx Vxx 0)). rewrite (qQuu_f pb cf d Vx Vxx Hd).
      rewrite !fmv_madd, !fdot_add_r, !fmv_mm.
      assert (T1 : forall z, fdot m y (fmv n (ftr (mget (dFu d))) z) = fdot n (fmv m (mget (dFu d)) y) z) by (intros; rewrite fdot_mv; reflexivity).
      rewrite !T1. unfold W. rewrite (diag_quad n Vxx l _ D2).
      pose proof (fdot_nonneg n (fmv m (mget (dFu d)) y)). nra.
    - split; [|split; [exact Q3|]].
      + destruct (cf_reg_type cf =? 1)%Z; [apply mdiagadd_dim|]; exact Q4.
      + destruct (cf_reg_type cf =? 1)%Z; [|split; [exact SQ|intros; apply Rle_refl]].
        split; [apply diag_sym; [exact Q4|exact SQ]|]. intros y.
        pose proof (diag_quad m _ l y Q4) as E. cbn [expansion qQuu] in E |- *. rewrite E. pose proof (fdot_nonneg m y). nra.
  Qed.

  (** Feed-forward gain of an unconstrained step. *)
  Lemma newton_reg LL (HE : exact_llt LL) k : llt_issue LL (qQuu_F q) = false ->
    k = vscale (nopp none) (llt_solve LL (qQuu_F q) (qQu q)) ->
    (forall i, (i < m)%nat -> fmv m (mget (qQuu_F q)) (vget k) i = - vget (qQu q) i) /\ posdef m (mget (qQuu_F q)).
  Proof.
    intros Hi Ek. destruct reg_facts as (R1 & R2 & R3 & R4). assert (D1 : length (qQu q) = m) by apply (qdims pb cf d Vx Vxx Hd).
    replace (@nopp R RNum none) with (-1) in * by (numR; lra). split.
    - intros i Hi'. rewrite Ek, vscale_f, fmv_scal. unfold fscal. rewrite (el_solve LL HE _ m _ R1 R3 Hi D1 i Hi'). ring.
    - apply (el_issue LL HE _ m R1 R3). exact Hi.
  Qed.
End RegTerms.

(** ** The whole pass *)
Section Main.
  Variables (pb : problem R) (cf : config R) (t0 : R) (x0 : vec R) (N : nat).
  Variables (LL : lltops R) (limits : option (R -> vec R * vec R)) (qfuel : nat).
  Hypothesis HE : exact_llt LL.
  Hypothesis Hlq : lq_problem pb.
  Hypothesis Hcv : lq_convex pb.
  Hypothesis Hcon : cf_constraint cf = false.
  Hypothesis Hx0 : length x0 = pb_nx pb.
  Variable l : R.
  Hypothesis Hl : 0 <= l.
  Notation n := (pb_nx pb).
  Notation tm i := (t0 + nofnat i * pb_dt pb)%num.
  Notation traj := (traj pb t0 x0 N).
  Notation dq := (dq pb).
  Notation backward_from := (backward_from pb cf t0 LL limits qfuel).

  Variable c : cdata R.
  Hypothesis Hc : traj c.
  Variable ds : list (deriv R).
  Hypothesis Hder : forall j, (j < N)%nat -> exists x u old d, nth_error (cd_x c) j = Some x /\ nth_error (cd_u c) j = Some u /\
         nth_error ds j = Some d /\ derivs_at pb cf (tm j) x u old d.

  (** What one step of the problem gives, in the terms of the backward pass. *)
  Lemma step_data i u d Vx Vxx : (i < N)%nat -> cf_second cf = false -> nth_error (cd_u c) i = Some u -> nth_error ds i = Some d ->
    deriv_dims pb d Vx Vxx = true -> fsym n (mget Vxx) ->
    nu_of pb (tm i) = mcols (dFu d) /\ length u = mcols (dFu d) /\ fsym (mcols (dFu d)) (mget (dLuu d)) /\ posdef (mcols (dFu d)) (mget (dLuu d)) /\
    (forall dx du, 0 <= fdot n dx (fmv n (mget (dLxx d)) dx) + 2 * fdot n dx (fmv (mcols (dFu d)) (mget (dLxu d)) du)
                        + fdot (mcols (dFu d)) du (fmv (mcols (dFu d)) (mget (dLuu d)) du)) /\
    (forall c', traj c' ->
       (forall j, (j < n)%nat -> dx c c' (S i) j = fadd (fmv n (mget (dFx d)) (dx c c' i)) (fmv (mcols (dFu d)) (mget (dFu d)) (du c c' i)) j) /\
       cst c' i - cst c i = fdot n (vget (dLx d)) (dx c c' i) + fdot (mcols (dFu d)) (vget (dLu d)) (du c c' i)
         + / 2 * fdot n (dx c c' i) (fmv n (mget (dLxx d)) (dx c c' i)) + fdot n (dx c c' i) (fmv (mcols (dFu d)) (mget (dLxu d)) (du c c' i))
         + / 2 * fdot (mcols (dFu d)) (du c c' i) (fmv (mcols (dFu d)) (mget (dLuu d)) (du c c' i))).
  Proof.
    intros Hi Hsec Hu Hd Hdim Hsym. destruct (dd pb d Vx Vxx Hdim) as (D1 & D2 & D3 & D4 & D5 & D6 & D7 & D8 & D9).
    destruct (Hder i Hi) as (x & u1 & old & d1 & A1 & A2 & A3 & A4 & A5).
    rewrite Hu in A2. injection A2 as <-. rewrite Hd in A3. injection A3 as <-. rewrite Hsec in A4.
    destruct (traj_step pb t0 x0 N Hlq Hx0 c i Hc Hi) as (x1 & u1 & B1 & B2 & B3 & B4 & B5 & B6 & B7 & B8).
    rewrite A1 in B1. injection B1 as <-. rewrite Hu in B2. injection B2 as <-.
    pose proof (lc_sized pb Hcv (tm i) x u (dFx old, dFu old) B5 B6) as Em. rewrite <- A4 in Em. cbn [snd] in Em.
    symmetry in A4, A5. destruct (lc_L pb Hcv (tm i) x u _ _ _ _ _ _ B5 B6 A5) as [J1 J2]. cbv zeta in J2.
    pose proof (lq_L pb Hlq (tm i) x u x u _ _ _ _ _ _ B5 B6 B5 B6 A5 (vdimb_len _ _ D5)) as J3. cbv zeta in J3.
    rewrite <- Em in J1, J2, J3. destruct (J3 (vdimb_len _ _ D6) D7 D8 D9) as [J4 _].
    split; [auto|]. split; [congruence|]. split; [exact J4|]. split; [exact J1|]. split; [exact J2|].
    intros c' Hc'. destruct (traj_step pb t0 x0 N Hlq Hx0 c' i Hc' Hi) as (x' & u' & C1 & C2 & C3 & C4 & C5 & C6 & C7 & C8).
    pose proof (lq_f pb Hlq (tm i) x u x' u' _ _ _ B5 B6 C5 C6 A4 D3) as EF.
    pose proof (lq_L pb Hlq (tm i) x u x' u' _ _ _ _ _ _ B5 B6 C5 C6 A5 (vdimb_len _ _ D5)) as EL0. cbv zeta in EL0.
    rewrite <- Em in EF, EL0. specialize (EF D4). destruct (EL0 (vdimb_len _ _ D6) D7 D8 D9) as [_ EL].
    assert (Edx : dx c c' i = fsubv (vget x') (vget x)) by (unfold dx; rewrite B3, C3; reflexivity).
    assert (Edu : du c c' i = fsubv (vget u') (vget u)) by (unfold du; rewrite B4, C4; reflexivity).
    split.
    - intros j Hj. unfold dx at 1. rewrite B7, C7. unfold fsubv, fadd. rewrite (EF j Hj), <- Edx, <- Edu. ring.
    - rewrite B8, C8, EL, <- Edx, <- Edu. ring.
  Qed.

  (** Cost of one step plus a quadratic cost-to-go, for any competitor. *)
  Lemma step_qval i u d Vx Vxx c' : (i < N)%nat -> cf_second cf = false -> nth_error (cd_u c) i = Some u -> nth_error ds i = Some d ->
    deriv_dims pb d Vx Vxx = true -> fsym n (mget Vxx) -> traj c' -> let q := expansion cf d Vx Vxx l in
    cst c' i - cst c i + dq Vx Vxx (dx c c' (S i)) =
    qval n (mcols (dFu d)) (vget (qQx q)) (vget (qQu q)) (mget (qQxx q)) (mget (qQux q)) (mget (qQuu q)) (dx c c' i) (du c c' i).
  Proof.
    intros Hi Hsec Hu Hd Hdim Hsym Hc' q. destruct (step_data i u d Vx Vxx Hi Hsec Hu Hd Hdim Hsym) as (_ & _ & _ & _ & _ & HS).
    destruct (HS c' Hc') as [Ep EL].
    change (qQx q) with (qQx (expansion cf d Vx Vxx 0)). change (qQu q) with (qQu (expansion cf d Vx Vxx 0)).
    change (qQxx q) with (qQxx (expansion cf d Vx Vxx 0)). change (qQux q) with (qQux (expansion cf d Vx Vxx 0)).
    change (qQuu q) with (qQuu (expansion cf d Vx Vxx 0)).
    rewrite (qQuu_f pb cf d Vx Vxx Hdim), (qQxx_f pb cf d Vx Vxx Hdim), (qQux_f pb cf d Vx Vxx Hdim), (qQx_f pb cf d Vx Vxx Hdim), (qQu_f pb cf d Vx Vxx Hdim).
    rewrite <- (q_expand n _ _ _ _ _ _ _ _ _ _ Hsym). cbv zeta. rewrite EL.
    unfold LQ2.dq. rewrite (fdot_ext n _ _ _ _ (fun i _ => eq_refl) Ep), (fmv_extv n _ _ _ Ep).
    rewrite (fdot_ext n _ _ _ _ Ep (fun i _ => eq_refl)). ring.
  Qed.

  Variable g : pass R.

  (** Invariant of the recursion: symmetric, positive semi-definite; exact for the full step; a zero expectation means the
      current trajectory is stationary from here on, hence (convexity) not worse than any competitor by more than its linear part. *)
  Definition rinv (i : nat) (Vx : vec R) (Vxx : mat R) (gi : pass R) : Prop :=
    fsym n (mget Vxx) /\ psd n (mget Vxx) /\ p_d0 gi + p_d1 gi <= 0 /\
    (forall c', traj c' -> is_candidate pb t0 x0 N c g 1 c' -> tail c' i - tail c i = p_d0 gi + p_d1 gi + dq Vx Vxx (dx c c' i)) /\
    (p_d0 gi + p_d1 gi = 0 -> forall c', traj c' -> fdot n (vget Vx) (dx c c' i) <= tail c' i - tail c i).

  Lemma half_R : @nhalf R RNum = / 2.
  Proof. unfold nhalf. numR. field. Qed.

  (** The gain of one step, with its share of the expectation. *)
  Lemma gain_facts i u d Vx Vxx k K ks : deriv_dims pb d Vx Vxx = true -> fsym n (mget Vxx) -> psd n (mget Vxx) ->
    fsym (mcols (dFu d)) (mget (dLuu d)) -> let q := expansion cf d Vx Vxx l in
    step_gains pb cf t0 LL limits qfuel i u d q ks (Some (k, K)) -> length k = mcols (dFu d) ->
    dot k (qQu q) + nhalf * dot k (mvmul (qQuu q) k) <= 0 /\
    (dot k (qQu q) + nhalf * dot k (mvmul (qQuu q) k) = 0 -> forall j, (j < mcols (dFu d))%nat -> vget k j = 0 /\ vget (qQu q) j = 0) /\
    dot k (qQu q) + nhalf * dot k (mvmul (qQuu q) k) =
      fdot (mcols (dFu d)) (vget k) (vget (qQu q)) + / 2 * fdot (mcols (dFu d)) (vget k) (fmv (mcols (dFu d)) (mget (qQuu q)) (vget k)).
  Proof.
    intros Hdim Hsym Hpsd HsL q Hst Lk. set (m := mcols (dFu d)) in *.
    destruct (qdims pb cf d Vx Vxx Hdim) as (Q1 & Q2 & Q3 & Q4 & Q5). fold m in Q1, Q3, Q4.
    assert (Edot1 : dot k (qQu q) = fdot m (vget k) (vget (qQu q))) by (rewrite dot_R, Lk; reflexivity).
    assert (Edot2 : dot k (mvmul (qQuu q) k) = fdot m (vget k) (fmv m (mget (qQuu q)) (vget k))).
    { rewrite dot_R, Lk, (mvmul_f m m _ _ Q4). reflexivity. }
    rewrite Edot1, Edot2, half_R.
    destruct (reg_facts pb cf d Vx Vxx l Hdim Hl Hsym HsL) as (R1 & R2 & R3 & R4). fold m q in R1, R2, R3, R4.
    remember (Some (k, K)) as o eqn:Eo.
    destruct Hst as [H0| |Hpos Hcc His| |f' ik out K' Hpos Hcc]; [| discriminate | | discriminate | rewrite Hcon in Hcc; discriminate Hcc].
    - fold m in H0. rewrite H0. unfold fdot, fmv. cbn [Rsum]. split; [lra|]. split; [intros; lia|reflexivity].
    - injection Eo as Ek EK.
      destruct (newton_reg pb cf d Vx Vxx l Hdim Hl Hsym HsL LL HE k His (eq_sym Ek)) as [N1 N2]. fold m q in N1, N2.
      assert (E1 : fdot m (vget k) (vget (qQu q)) = - fdot m (vget k) (fmv m (mget (qQuu_F q)) (vget k))).
      { rewrite (fdot_ext m (vget k) (fmv m (mget (qQuu_F q)) (vget k)) (vget k) (fopp (vget (qQu q)))) by auto. rewrite fdot_opp_r. ring. }
      pose proof (R4 (vget k)) as R4k. pose proof (posdef_psd _ _ N2 (vget k)) as R5. rewrite E1.
      split; [lra|]. split; [|reflexivity]. intros Hz j Hj.
      assert (Hk0 : forall i, (i < m)%nat -> vget k i = 0).
      { intros i' Hi'. destruct (Req_dec (vget k i') 0) as [Z|Z]; [exact Z|]. exfalso.
        assert (0 < fdot m (vget k) (fmv m (mget (qQuu_F q)) (vget k))) by (apply N2; eauto). lra. }
      split; [apply Hk0; exact Hj|]. specialize (N1 j Hj).
      assert (fmv m (mget (qQuu_F q)) (vget k) j = 0).
      { unfold fmv. apply Rsum_zero. intros b Hb. rewrite (Hk0 b Hb). ring. }
      lra.
  Qed.

  Lemma reg_inv i Vx Vxx gi o : backward_from (cd_u c) ds l i Vx Vxx gi o -> (i <= N)%nat ->
    (fsym n (mget Vxx) /\ psd n (mget Vxx)) ->
    o <> None /\ (o = Some g -> rinv i Vx Vxx gi -> exists Vx0 Vxx0, rinv 0 Vx0 Vxx0 g).
  Proof.
    induction 1 as [Vx Vxx g0|i u d Vx Vxx g0 Hsec Hu Hd Hdim Hst|i u d Vx Vxx g0 k K Vx' Vxx' o Hsec Hu Hd Hdim q Hst Hk HK Hv Hb IH];
      intros HiN [Hsym Hpsd].
    - split; [discriminate|]. intros Eo. injection Eo as <-. eauto.
    - exfalso. destruct (step_data i u d Vx Vxx ltac:(lia) Hsec Hu Hd Hdim Hsym) as (Em & Lu & HsL & HpL & HJ & _).
      destruct (reg_facts pb cf d Vx Vxx l Hdim Hl Hsym HsL) as (R1 & R2 & R3 & R4).
      remember (@None (vec R * mat R)) as o eqn:Eo.
      destruct Hst as [H0|Hpos Hcc His|Hpos Hcc His|f' ik out Hpos Hcc|]; [discriminate| |discriminate|rewrite Hcon in Hcc; discriminate|discriminate].
      assert (Hi : llt_issue LL (qQuu_F (expansion cf d Vx Vxx l)) = false); [|rewrite Hi in His; discriminate].
      apply (el_issue LL HE _ _ R1 R3). intros y Hy. eapply Rlt_le_trans; [|apply R4].
      change (qQuu (expansion cf d Vx Vxx l)) with (qQuu (expansion cf d Vx Vxx 0)). rewrite (qQuu_f pb cf d Vx Vxx Hdim).
      apply quu_posdef; assumption.
    - destruct (step_data i u d Vx Vxx ltac:(lia) Hsec Hu Hd Hdim Hsym) as (Em & Lu & HsL & HpL & HJ & HS).
      destruct (gain_facts i u d Vx Vxx k K (p_k g0) Hdim Hsym Hpsd HsL Hst Hk) as (G1 & G2 & G3). fold q in G1, G2, G3.
      set (m := mcols (dFu d)) in *.
      assert (SQ : fsym m (mget (qQuu q))).
      { change (qQuu q) with (qQuu (expansion cf d Vx Vxx 0)). rewrite (qQuu_f pb cf d Vx Vxx Hdim). apply quad_sym; assumption. }
      destruct (value_f pb cf d Vx Vxx Hdim k K HK Vx' Vxx' Hv) as (V1 & V2 & V3 & V4). fold m in V1, V2.
      change (expansion cf d Vx Vxx 0) with (expansion cf d Vx Vxx 0) in V1.
      assert (Hsym' : fsym n (mget Vxx')) by (rewrite V2; apply sqVxx_sym).
      assert (Hpsd' : psd n (mget Vxx')).
      { intros y. rewrite V2.
        pose proof (policy_value n m fzero fzero (mget (qQxx q)) (mget (qQux q)) (mget (qQuu q)) fzero (mget K) SQ y) as PV.
        assert (Vz : fdot n (sqVx m fzero fzero (mget (qQux q)) (mget (qQuu q)) fzero (mget K)) y = 0).
        { unfold sqVx. rewrite !fmv_0. rewrite !fdot_add_l, !fdot_0_l. ring. }
        rewrite Vz, !fmv_0, !fdot_0_l in PV.
        replace (fadd fzero (fmv n (mget K) y)) with (fmv n (mget K) y) in PV
          by (apply FunctionalExtensionality.functional_extensionality; intros; unfold fadd, fzero; ring).
        pose proof (q_expand n m fzero fzero (mget (dLxx d)) (mget (dLuu d)) (mget (dLxu d)) (mget (dFx d)) (mget (dFu d)) fzero (mget Vxx) Hsym
                      y (fmv n (mget K) y)) as Qe. cbv zeta in Qe.
        rewrite !fmv_0 in Qe.
        replace (fadd fzero fzero) with fzero in Qe by (apply FunctionalExtensionality.functional_extensionality; intros; unfold fadd, fzero; ring).
        assert (E1 : mget (qQuu q) = fmadd (mget (dLuu d)) (fmm n (fmm n (ftr (mget (dFu d))) (mget Vxx)) (mget (dFu d)))) by apply (qQuu_f pb cf d Vx Vxx Hdim).
        assert (E2 : mget (qQux q) = fmadd (ftr (mget (dLxu d))) (fmm n (fmm n (ftr (mget (dFu d))) (mget Vxx)) (mget (dFx d)))) by apply (qQux_f pb cf d Vx Vxx Hdim).
        assert (E3 : mget (qQxx q) = fmadd (mget (dLxx d)) (fmm n (fmm n (ftr (mget (dFx d))) (mget Vxx)) (mget (dFx d)))) by apply (qQxx_f pb cf d Vx Vxx Hdim).
        rewrite <- E1, <- E2, <- E3 in Qe. rewrite PV in Qe. rewrite !fdot_0_l in Qe.
        pose proof (HJ y (fmv n (mget K) y)) as Hj. pose proof (Hpsd (fadd (fmv n (mget (dFx d)) y) (fmv m (mget (dFu d)) (fmv n (mget K) y)))) as Hp.
        change (qQxx (expansion cf d Vx Vxx 0)) with (qQxx q). change (qQux (expansion cf d Vx Vxx 0)) with (qQux q). change (qQuu (expansion cf d Vx Vxx 0)) with (qQuu q).
        lra. }
      destruct (IH ltac:(lia) (conj Hsym' Hpsd')) as [IH1 IH2]. split; [exact IH1|].
      intros Eo (_ & _ & I3 & I4 & I5). apply IH2; [exact Eo|].
      destruct (backward_gains _ _ _ _ _ _ _ _ _ _ _ _ _ _ Hb _ Eo) as (ks & Ks & E1 & E2 & L1 & L2 & _). cbn [p_k p_K] in E1, E2.
      assert (Nk : nth_error (p_k g) i = Some k) by (rewrite E1, nth_error_app2, L1, Nat.sub_diag by lia; reflexivity).
      assert (NK : nth_error (p_K g) i = Some K) by (rewrite E2, nth_error_app2, L2, Nat.sub_diag by lia; reflexivity).
      set (e := dot k (qQu q) + nhalf * dot k (mvmul (qQuu q) k)) in *.
      assert (Es : p_d0 g0 + dot k (qQu q) + (p_d1 g0 + nhalf * dot k (mvmul (qQuu q) k)) = p_d0 g0 + p_d1 g0 + e) by (unfold e; numR; ring).
      unfold rinv. cbn [p_d0 p_d1]. change (@nadd R RNum) with Rplus. change (@nmul R RNum) with Rmult.
      change (@nadd R RNum) with Rplus in Es. change (@nmul R RNum) with Rmult in Es. rewrite Es.
      split; [exact Hsym'|]. split; [exact Hpsd'|]. split; [lra|]. split.
      + intros c' Hc' Hcand. rewrite (tail_S c' i), (tail_S c i).
        replace (cst c' i + tail c' (S i) - (cst c i + tail c (S i))) with
          ((cst c' i - cst c i + dq Vx Vxx (dx c c' (S i))) + (tail c' (S i) - tail c (S i) - dq Vx Vxx (dx c c' (S i)))) by ring.
        rewrite (I4 c' Hc' Hcand), (step_qval i u d Vx Vxx c' ltac:(lia) Hsec Hu Hd Hdim Hsym Hc'). fold m q.
        rewrite (cand_du pb t0 x0 N c g 1 c' i u k K Hcand ltac:(lia) Hc' Hu Nk NK) by (rewrite ?Lu; assumption || congruence).
        replace (fscal 1 (vget k)) with (vget k) by (apply FunctionalExtensionality.functional_extensionality; intros; unfold fscal; ring).
        rewrite (policy_value n m _ _ _ _ _ _ _ SQ). unfold LQ2.dq at 3. rewrite V1, V2.
        change (expansion cf d Vx Vxx 0) with (expansion cf d Vx Vxx 0).
        rewrite G3. change (qQx (expansion cf d Vx Vxx 0)) with (qQx q). change (qQu (expansion cf d Vx Vxx 0)) with (qQu q).
        change (qQxx (expansion cf d Vx Vxx 0)) with (qQxx q). change (qQux (expansion cf d Vx Vxx 0)) with (qQux q). change (qQuu (expansion cf d Vx Vxx 0)) with (qQuu q).
        ring.
      + intros Ez c' Hc'. assert (Z0 : p_d0 g0 + p_d1 g0 = 0) by lra. assert (Z1 : e = 0) by lra.
        specialize (I5 Z0 c' Hc'). specialize (G2 Z1). destruct (HS c' Hc') as [Ep EL].
        rewrite (tail_S c' i), (tail_S c i).
        assert (Evx : fdot n (vget Vx') (dx c c' i) = fdot n (vget (qQx q)) (dx c c' i)).
        { rewrite V1. change (qQx (expansion cf d Vx Vxx 0)) with (qQx q). change (qQu (expansion cf d Vx Vxx 0)) with (qQu q).
          change (qQux (expansion cf d Vx Vxx 0)) with (qQux q). change (qQuu (expansion cf d Vx Vxx 0)) with (qQuu q).
          unfold sqVx. rewrite !fdot_add_l, fmv_mm.
          assert (T : forall A y, fdot n (fmv m (ftr A) y) (dx c c' i) = fdot m y (fmv n A (dx c c' i))) by (intros; symmetry; apply fdot_mv).
          rewrite !T.
          assert (Zk : forall y, fdot m (vget k) y = 0) by (intros y; unfold fdot; apply Rsum_zero; intros j Hj; rewrite (proj1 (G2 j Hj)); ring).
          assert (Zu : forall y, fdot m (vget (qQu q)) y = 0) by (intros y; unfold fdot; apply Rsum_zero; intros j Hj; rewrite (proj2 (G2 j Hj)); ring).
          rewrite Zk, Zu, (fdot_comm m (fmv m (mget (qQuu q)) (vget k))), (fsym_swap m _ _ _ SQ), Zk. ring. }
        rewrite Evx. change (vget (qQx q)) with (vget (qQx (expansion cf d Vx Vxx 0))). rewrite (qQx_f pb cf d Vx Vxx Hdim).
        rewrite fdot_add_l.
        rewrite (fdot_ext n _ _ _ _ (fun i _ => eq_refl) Ep), fdot_add_r in I5.
        assert (Ex1 : fdot n (fmv n (ftr (mget (dFx d))) (vget Vx)) (dx c c' i) = fdot n (vget Vx) (fmv n (mget (dFx d)) (dx c c' i))) by (symmetry; apply fdot_mv).
        assert (Eu1 : fdot m (vget (dLu d)) (du c c' i) + fdot n (vget Vx) (fmv m (mget (dFu d)) (du c c' i)) = 0).
        { rewrite (fdot_mv n m), <- fdot_add_l.
          pose proof (qQu_f pb cf d Vx Vxx Hdim) as F. change (qQu (expansion cf d Vx Vxx 0)) with (qQu q) in F.
          rewrite <- F. unfold fdot. apply Rsum_zero. intros j Hj. rewrite (proj2 (G2 j Hj)). ring. }
        pose proof (HJ (dx c c' i) (du c c' i)) as Hj. rewrite Ex1. lra.
  Qed.
End Main.
