(** Exactness of the expected cost change and optimality of the full step on linear-quadratic problems. *)
From Verif Require Import Prelude Scalar LinAlg BoxQP DDP DDPSpec DDPProofs DDPSafe DDPLimits RLin CholProofs LQ.
From Coq Require Import Reals Lra.
Open Scope R_scope.

(** ** Specification *)
(** The dynamics are affine, the costs quadratic, and the derivative callbacks return their exact derivatives (whatever
    their output arguments held before, as long as what they return has the documented size). *)
Record lq_problem (pb : problem R) : Prop := {
  lq_dim : forall t x u, length x = pb_nx pb -> length u = nu_of pb t -> length (pb_stateEq pb t x u) = pb_nx pb;
  lq_f : forall t x u x' u' old Fx Fu,
    length x = pb_nx pb -> length u = nu_of pb t -> length x' = pb_nx pb -> length u' = nu_of pb t ->
    pb_stateEqDeriv pb t x u old = (Fx, Fu) ->
    mdimb (pb_nx pb) (pb_nx pb) Fx = true -> mdimb (pb_nx pb) (nu_of pb t) Fu = true ->
    forall i, (i < pb_nx pb)%nat ->
      vget (pb_stateEq pb t x' u') i = vget (pb_stateEq pb t x u) i
        + fmv (pb_nx pb) (mget Fx) (fsubv (vget x') (vget x)) i + fmv (nu_of pb t) (mget Fu) (fsubv (vget u') (vget u)) i;
  lq_L : forall t x u x' u' old Lx Lu Lxx Luu Lxu,
    length x = pb_nx pb -> length u = nu_of pb t -> length x' = pb_nx pb -> length u' = nu_of pb t ->
    pb_runningCostDeriv pb t x u old = (Lx, Lu, Lxx, Luu, Lxu) ->
    length Lx = pb_nx pb -> length Lu = nu_of pb t -> mdimb (pb_nx pb) (pb_nx pb) Lxx = true ->
    mdimb (nu_of pb t) (nu_of pb t) Luu = true -> mdimb (pb_nx pb) (nu_of pb t) Lxu = true ->
    let dx := fsubv (vget x') (vget x) in let du := fsubv (vget u') (vget u) in
    let n := pb_nx pb in let m := nu_of pb t in
    fsym m (mget Luu) /\
    pb_runningCost pb t x' u' = pb_runningCost pb t x u
      + (fdot n (vget Lx) dx + fdot m (vget Lu) du + / 2 * fdot n dx (fmv n (mget Lxx) dx)
         + fdot n dx (fmv m (mget Lxu) du) + / 2 * fdot m du (fmv m (mget Luu) du));
  lq_T : forall t x x' old Vx Vxx, length x = pb_nx pb -> length x' = pb_nx pb ->
    pb_terminalCostDeriv pb t x old = (Vx, Vxx) -> length Vx = pb_nx pb -> mdimb (pb_nx pb) (pb_nx pb) Vxx = true ->
    let dx := fsubv (vget x') (vget x) in let n := pb_nx pb in
    fsym n (mget Vxx) /\
    pb_terminalCost pb t x' = pb_terminalCost pb t x + (fdot n (vget Vx) dx + / 2 * fdot n dx (fmv n (mget Vxx) dx))
}.

(** Every input has the dimension documented for its time. *)
Definition typed_inputs (pb : problem R) (t0 : R) (c : cdata R) : Prop :=
  forall i u, nth_error (cd_u c) i = Some u -> length u = nu_of pb (t0 + nofnat i * pb_dt pb)%num.

Lemma quad_sym n m (L V F : fmat) : fsym m L -> fsym n V -> fsym m (fmadd L (fmm n (fmm n (ftr F) V) F)).
Proof.
  intros SL Hsym a b Ha Hb. unfold fmadd. rewrite (SL a b Ha Hb). f_equal.
  transitivity (Rsum n (fun k => Rsum n (fun l => F l a * V l k * F k b))).
  { apply Rsum_ext. intros k Hk. unfold fmm, ftr. rewrite <- Rsum_scal_r. reflexivity. }
  rewrite Rsum_swap. apply Rsum_ext. intros l Hl. unfold fmm, ftr. rewrite <- Rsum_scal_r. apply Rsum_ext. intros k Hk.
  rewrite (Hsym l k Hl Hk). ring.
Qed.

Section Main.
  Variables (pb : problem R) (cf : config R) (t0 : R) (x0 : vec R) (N : nat).
  Variables (LL : lltops R) (limits : option (R -> vec R * vec R)) (qfuel : nat).
  Hypothesis HL : exact_llt LL.
  Hypothesis Hlq : lq_problem pb.
  Hypothesis Hcon : cf_constraint cf = false.
  Hypothesis Hx0 : length x0 = pb_nx pb.
  Notation n := (pb_nx pb).
  Notation tm i := (t0 + nofnat i * pb_dt pb)%num.
  Notation rollout := (is_rollout pb t0 x0 N).

  Definition traj (c : cdata R) : Prop := rollout c /\ typed_inputs pb t0 c.

  Lemma traj_x c : traj c -> forall i x, nth_error (cd_x c) i = Some x -> length x = n.
  Proof.
    intros [Hro Ht]. induction i as [|i IH]; intros x Hx.
    - rewrite (ro_x0 _ _ _ _ _ Hro) in Hx. injection Hx as <-. exact Hx0.
    - assert (Hi : (i < N)%nat).
      { assert (S i < length (cd_x c))%nat by (apply nth_error_Some; congruence). rewrite (ro_lx _ _ _ _ _ Hro) in H. lia. }
      destruct (ro_step _ _ _ _ _ Hro i Hi) as (x1 & u1 & A1 & A2 & A3 & _).
      replace (i + 1)%nat with (S i) in A3 by lia. rewrite A3 in Hx. injection Hx as <-.
      apply (lq_dim pb Hlq); [apply IH; exact A1|apply Ht; exact A2].
  Qed.

  Definition cst (c : cdata R) : nat -> R := vget (cd_cost c).
  Definition tail (c : cdata R) (i : nat) : R := total c - Rsum i (cst c).
  Lemma tail_0 c : tail c 0 = total c.
  Proof. unfold tail. cbn [Rsum]. ring. Qed.
  Lemma tail_S c i : tail c i = cst c i + tail c (S i).
  Proof. unfold tail. rewrite Rsum_S. ring. Qed.
  Lemma tail_N c : rollout c -> tail c N = cst c N.
  Proof.
    intros Hro. unfold tail, total. rewrite nsum_list, (ro_lc _ _ _ _ _ Hro). replace (N + 1)%nat with (S N) by lia.
    rewrite Rsum_S. unfold cst. ring.
  Qed.

  (** Quadratic part of a cost-to-go. *)
  Definition dq (Vx : vec R) (Vxx : mat R) (dx : fvec) : R := fdot n (vget Vx) dx + / 2 * fdot n dx (fmv n (mget Vxx) dx).
  Definition at_x (c : cdata R) (i : nat) : vec R := nth i (cd_x c) [].
  Definition at_u (c : cdata R) (i : nat) : vec R := nth i (cd_u c) [].
  Definition dx (c c' : cdata R) (i : nat) : fvec := fsubv (vget (at_x c' i)) (vget (at_x c i)).
  Definition du (c c' : cdata R) (i : nat) : fvec := fsubv (vget (at_u c' i)) (vget (at_u c i)).

  Lemma nth_some {A} (l : list A) i a b : nth_error l i = Some a -> nth i l b = a.
  Proof. intros H. apply (nth_error_nth _ _ _ H). Qed.

  Lemma traj_step c i : traj c -> (i < N)%nat -> exists x u, nth_error (cd_x c) i = Some x /\ nth_error (cd_u c) i = Some u /\
    at_x c i = x /\ at_u c i = u /\ length x = n /\ length u = nu_of pb (tm i) /\
    at_x c (S i) = pb_stateEq pb (tm i) x u /\ cst c i = pb_runningCost pb (tm i) x u.
  Proof.
    intros Hc Hi. destruct (ro_step _ _ _ _ _ (proj1 Hc) i Hi) as (x & u & A1 & A2 & A3 & A4).
    replace (i + 1)%nat with (S i) in A3 by lia.
    exists x, u. repeat split; auto.
    - apply nth_some; exact A1.
    - apply nth_some; exact A2.
    - apply (traj_x c Hc i). exact A1.
    - apply (proj2 Hc). exact A2.
    - apply nth_some; exact A3.
    - unfold cst, vget. apply nth_some. exact A4.
  Qed.

  (** One step of the backward pass around [c], seen from a competitor [c']. *)
  Lemma step_identity c c' i u d x old Vx Vxx k K Vx' Vxx' m q ks :
    traj c -> traj c' -> (i < N)%nat ->
    nth_error (cd_x c) i = Some x -> nth_error (cd_u c) i = Some u -> derivs_at pb cf (tm i) x u old d -> cf_second cf = false ->
    deriv_dims pb d Vx Vxx = true -> fsym n (mget Vxx) -> mcols (dFu d) = m -> nu_of pb (tm i) = m ->
    expansion cf d Vx Vxx 0 = q ->
    step_gains pb cf t0 LL limits qfuel i u d q ks (Some (k, K)) ->
    length k = m -> mdimb m n K = true -> propagate q k K = (Vx', Vxx') ->
    let w := fsubv (fsubv (du c c' i) (vget k)) (fmv n (mget K) (dx c c' i)) in
    cst c' i - cst c i + dq Vx Vxx (dx c c' (S i)) =
      dot k (qQu q) + nhalf * dot k (mvmul (qQuu q) k) + dq Vx' Vxx' (dx c c' i) + / 2 * fdot m w (fmv m (mget (qQuu q)) w) /\
    dot k (qQu q) = - dot k (mvmul (qQuu q) k) /\
    psd m (mget (qQuu q)) /\ fsym n (mget Vxx') /\ vdimb n Vx' = true /\ mdimb n n Vxx' = true /\
    fdot m (vget k) (fmv m (mget (qQuu q)) (vget k)) = dot k (mvmul (qQuu q) k).
  Proof.
    intros Hc Hc' Hi Hx Hu Hder Hsec Hdim Hsym Hm Hmu Hq Hst Lk LK Hv w.
    destruct (dd pb d Vx Vxx Hdim) as (D1 & D2 & D3 & D4 & D5 & D6 & D7 & D8 & D9). rewrite Hm in D4, D6, D8, D9.
    destruct (qdims pb cf d Vx Vxx Hdim) as (Q1 & Q2 & Q3 & Q4 & Q5). rewrite Hm, Hq in *.
    pose proof (value_f pb cf d Vx Vxx Hdim k K) as HV. rewrite Hm, Hq in HV.
    destruct (HV LK _ _ Hv) as (V1 & V2 & V3 & V4). clear HV.
    destruct (traj_step c i Hc Hi) as (x1 & u1 & B1 & B2 & B3 & B4 & B5 & B6 & B7 & B8).
    rewrite Hx in B1. injection B1 as <-. rewrite Hu in B2. injection B2 as <-.
    destruct (traj_step c' i Hc' Hi) as (x' & u' & C1 & C2 & C3 & C4 & C5 & C6 & C7 & C8).
    destruct Hder as [Hf Hcost]. rewrite Hsec in Hf.
    (* exact expansions *)
    symmetry in Hf, Hcost.
    pose proof (lq_f pb Hlq (tm i) x u x' u' _ _ _ B5 B6 C5 C6 Hf D3) as EF.
    pose proof (lq_L pb Hlq (tm i) x u x' u' _ _ _ _ _ _ B5 B6 C5 C6 Hcost (vdimb_len _ _ D5)) as EL0. cbv zeta in EL0.
    rewrite Hmu in EF, EL0. specialize (EF D4).
    destruct (EL0 (vdimb_len _ _ D6) D7 D8 D9) as [SL EL]. clear EL0.
    assert (Edx : dx c c' i = fsubv (vget x') (vget x)) by (unfold dx; rewrite B3, C3; reflexivity).
    assert (Edu : du c c' i = fsubv (vget u') (vget u)) by (unfold du; rewrite B4, C4; reflexivity).
    pose proof (qQuu_f pb cf d Vx Vxx Hdim) as FQuu. pose proof (qQxx_f pb cf d Vx Vxx Hdim) as FQxx.
    pose proof (qQux_f pb cf d Vx Vxx Hdim) as FQux. pose proof (qQx_f pb cf d Vx Vxx Hdim) as FQx.
    pose proof (qQu_f pb cf d Vx Vxx Hdim) as FQu.
    rewrite Hq in FQuu, FQxx, FQux, FQx, FQu.
    assert (Esum : cst c' i - cst c i + dq Vx Vxx (dx c c' (S i)) =
      qval n m (vget (qQx q)) (vget (qQu q)) (mget (qQxx q)) (mget (qQux q)) (mget (qQuu q)) (dx c c' i) (du c c' i)).
    { rewrite B8, C8, EL, <- Edx, <- Edu, FQx, FQu, FQxx, FQux, FQuu.
      rewrite <- (q_expand n m _ _ _ _ _ _ _ _ _ Hsym). cbv zeta.
      assert (Ep : forall j, (j < n)%nat -> dx c c' (S i) j = fadd (fmv n (mget (dFx d)) (dx c c' i)) (fmv m (mget (dFu d)) (du c c' i)) j).
      { intros j Hj. unfold dx at 1. rewrite B7, C7. unfold fsubv, fadd. rewrite (EF j Hj), <- Edx, <- Edu. ring. }
      unfold dq. rewrite (fdot_ext n _ _ _ _ (fun i _ => eq_refl) Ep), (fmv_extv n _ _ _ Ep).
      rewrite (fdot_ext n _ _ _ _ Ep (fun i _ => eq_refl)). ring. }
    assert (SQ : fsym m (mget (qQuu q))) by (rewrite FQuu; apply quad_sym; assumption).
    assert (G : (forall j, (j < m)%nat -> fmv m (mget (qQuu q)) (vget k) j = - vget (qQu q) j) /\
                (forall a b, (a < m)%nat -> (b < n)%nat -> fmm m (mget (qQuu q)) (mget K) a b = - mget (qQux q) a b) /\
                psd m (mget (qQuu q))).
    { remember (Some (k, K)) as o eqn:Eo. destruct Hst as [H0| |Hpos Hcc His| |f' ik out K' Hpos Hcc]; [| discriminate | | discriminate | rewrite Hcon in Hcc; discriminate Hcc].
      - rewrite <- Hm, H0. split; [intros; lia|]. split; [intros; lia|]. intros y. unfold fdot. cbn [Rsum]. lra.
      - pose proof (newton_f pb cf d Vx Vxx Hdim k K LL HL D2) as HN. rewrite Hm, Hq in HN.
        injection Eo as Ek EK. destruct (HN SQ His (eq_sym Ek) (eq_sym EK)) as (N1 & N2 & N3).
        split; [exact N1|]. split; [exact N2|]. apply posdef_psd; exact N3. }
    destruct G as (G1 & G2 & G3).
    assert (Edot1 : dot k (qQu q) = fdot m (vget k) (vget (qQu q))) by (rewrite dot_R, Lk; reflexivity).
    assert (Edot2 : dot k (mvmul (qQuu q) k) = fdot m (vget k) (fmv m (mget (qQuu q)) (vget k))).
    { rewrite dot_R, Lk, (mvmul_f m m _ _ Q4). reflexivity. }
    split; [|split; [|split; [|split; [|split; [|split]]]]].
    - rewrite Esum. rewrite (square n m _ _ _ _ _ (vget k) (mget K) SQ G1 G2). fold w.
      rewrite Edot1, Edot2. unfold dq. rewrite V1, V2.
      replace (@nhalf R RNum) with (/ 2) by (unfold nhalf; numR; field). numR. ring.
    - rewrite Edot1, Edot2. rewrite (fdot_ext m (vget k) (fmv m (mget (qQuu q)) (vget k)) (vget k) (fopp (vget (qQu q)))); auto.
      rewrite fdot_opp_r. ring.
    - exact G3.
    - rewrite V2. apply sqVxx_sym.
    - apply Nat.eqb_eq. exact V3.
    - exact V4.
    - symmetry; exact Edot2.
  Qed.

  (** *** The whole pass *)
  Variables (c : cdata R) (g : pass R).
  Hypothesis Hc : traj c.
  Notation backward_from := (backward_from pb cf t0 LL limits qfuel).
  (* gains have the size of the inputs (checked by every forward pass) *)
  Hypothesis Hfit : forall i, (i < N)%nat -> exists u k, nth_error (cd_u c) i = Some u /\ nth_error (p_k g) i = Some k /\ length k = length u.

  (** Cost-to-go change of a competitor / of a trial with these gains, given the pass has reached step [i]. *)
  Definition inv (i : nat) (Vx : vec R) (Vxx : mat R) (gi : pass R) : Prop :=
    vdimb n Vx = true -> mdimb n n Vxx = true ->
    fsym n (mget Vxx) /\ p_d0 gi = - 2 * p_d1 gi /\ 0 <= p_d1 gi /\
    (forall c', traj c' -> tail c' i - tail c i >= p_d0 gi + p_d1 gi + dq Vx Vxx (dx c c' i)) /\
    (forall a c', traj c' -> is_candidate pb t0 x0 N c g a c' ->
       tail c' i - tail c i = a * p_d0 gi + a * a * p_d1 gi + dq Vx Vxx (dx c c' i)).

  Lemma cand_du a c' i u k K : is_candidate pb t0 x0 N c g a c' -> (i < N)%nat -> traj c' ->
    nth_error (cd_u c) i = Some u -> nth_error (p_k g) i = Some k -> nth_error (p_K g) i = Some K ->
    mdimb (length u) n K = true -> length k = length u ->
    du c c' i = fadd (fscal a (vget k)) (fmv n (mget K) (dx c c' i)).
  Proof.
    intros [_ Hcand] Hi Hc' Hu Hk HK LK Lk.
    destruct (Hcand i Hi) as (x1 & u1 & x1' & k1 & K1 & A1 & A2 & A3 & A4 & A5 & A6 & A7 & A8 & A9).
    rewrite Hu in A2. injection A2 as <-. rewrite Hk in A4. injection A4 as <-. rewrite HK in A5. injection A5 as <-.
    unfold du, dx, at_u, at_x. rewrite (nth_some _ _ _ _ A9), (nth_some _ _ _ _ Hu), (nth_some _ _ _ _ A1), (nth_some _ _ _ _ A3).
    rewrite vadd_f by (rewrite vadd_len, mvmul_length, (mdimb_rows _ _ _ LK); reflexivity).
    rewrite vadd_f by (rewrite vscale_len; symmetry; exact Lk). rewrite vscale_f, (mvmul_f _ _ _ _ LK), vsub_f by exact A8.
    apply FunctionalExtensionality.functional_extensionality. intros j. unfold fsubv, fadd. ring.
  Qed.

  Lemma backward_inv ds i Vx Vxx gi o : backward_from (cd_u c) ds 0 i Vx Vxx gi o -> o = Some g -> (i <= N)%nat ->
    (forall j, (j < i)%nat -> exists x u old d, nth_error (cd_x c) j = Some x /\ nth_error (cd_u c) j = Some u /\
         nth_error ds j = Some d /\ derivs_at pb cf (tm j) x u old d) ->
    inv i Vx Vxx gi -> vdimb n Vx = true -> mdimb n n Vxx = true ->
    exists Vx0 Vxx0, inv 0 Vx0 Vxx0 g /\ vdimb n Vx0 = true /\ mdimb n n Vxx0 = true.
  Proof.
    induction 1 as [Vx Vxx g0|i u d Vx Vxx g0|i u d Vx Vxx g0 k K Vx' Vxx' o Hsec Hu Hd Hdim q Hst Hk HK Hv Hb IH];
      intros Eo HiN Hder Hinv HdV HdVV; [injection Eo as ->; eauto|discriminate|].
    destruct (backward_gains _ _ _ _ _ _ _ _ _ _ _ _ _ _ Hb _ Eo) as (ks & Ks & E1 & E2 & L1 & L2 & _). cbn [p_k p_K] in E1, E2.
    assert (Nk : nth_error (p_k g) i = Some k) by (rewrite E1, nth_error_app2, L1, Nat.sub_diag by lia; reflexivity).
    assert (NK : nth_error (p_K g) i = Some K) by (rewrite E2, nth_error_app2, L2, Nat.sub_diag by lia; reflexivity).
    destruct (Hfit i ltac:(lia)) as (u1 & k1 & F1 & F2 & F3).
    rewrite Hu in F1. injection F1 as <-. rewrite Nk in F2. injection F2 as <-.
    destruct (Hder i ltac:(lia)) as (x & u1 & old & d1 & A1 & A2 & A3 & A4).
    rewrite Hu in A2. injection A2 as <-. rewrite Hd in A3. injection A3 as <-.
    destruct (Hinv HdV HdVV) as (I1 & I2 & I2' & I3 & I4).
    assert (Hm : nu_of pb (tm i) = mcols (dFu d)).
    { rewrite <- Hk, F3. symmetry. apply (proj2 Hc). exact Hu. }
    assert (SI : forall c', traj c' ->
      let w := fsubv (fsubv (du c c' i) (vget k)) (fmv n (mget K) (dx c c' i)) in
      cst c' i - cst c i + dq Vx Vxx (dx c c' (S i)) =
        dot k (qQu q) + nhalf * dot k (mvmul (qQuu q) k) + dq Vx' Vxx' (dx c c' i) + / 2 * fdot (mcols (dFu d)) w (fmv (mcols (dFu d)) (mget (qQuu q)) w) /\
      dot k (qQu q) = - dot k (mvmul (qQuu q) k) /\
      psd (mcols (dFu d)) (mget (qQuu q)) /\ fsym n (mget Vxx') /\ vdimb n Vx' = true /\ mdimb n n Vxx' = true /\
      fdot (mcols (dFu d)) (vget k) (fmv (mcols (dFu d)) (mget (qQuu q)) (vget k)) = dot k (mvmul (qQuu q) k)).
    { intros c' Hc'. apply (step_identity c c' i u d x old Vx Vxx k K Vx' Vxx' (mcols (dFu d)) q (p_k g0) Hc Hc'); auto. }
    assert (Hhalf : @nhalf R RNum = / 2) by (unfold nhalf; numR; field).
    destruct (SI c Hc) as (_ & S2 & S3 & S4 & S5 & S6 & S7).
    apply IH; [exact Eo|lia|intros j Hj; apply Hder; lia| |exact S5|exact S6].
    intros _ _. cbn [p_d0 p_d1].
    set (e0 := dot k (qQu q)) in *. set (e1 := dot k (mvmul (qQuu q) k)) in *.
    assert (P1 : 0 <= e1) by (rewrite <- S7; apply S3).
    split; [exact S4|]. split; [numR; rewrite S2, I2, Hhalf; field|]. split; [numR; rewrite Hhalf; nra|]. split.
    - intros c' Hc'. destruct (SI c' Hc') as (T1 & _). specialize (I3 c' Hc').
      pose proof (S3 (fsubv (fsubv (du c c' i) (vget k)) (fmv n (mget K) (dx c c' i)))) as Hw.
      rewrite (tail_S c' i), (tail_S c i). rewrite Hhalf in T1. fold e0 e1 in T1. numR. rewrite Hhalf. lra.
    - intros a c' Hc' Hcand. destruct (SI c' Hc') as (T1 & _). specialize (I4 a c' Hc' Hcand).
      rewrite (cand_du a c' i u k K Hcand ltac:(lia) Hc' Hu Nk NK) in T1; [|rewrite <- F3, Hk; exact HK|exact F3].
      set (y := fmv n (mget K) (dx c c' i)) in T1.
      assert (Ew : fsubv (fsubv (fadd (fscal a (vget k)) y) (vget k)) y = fscal (a - 1) (vget k)).
      { apply FunctionalExtensionality.functional_extensionality. intros j. unfold fsubv, fadd, fscal. ring. }
      rewrite Ew, fmv_scal, fdot_scal_l, fdot_scal_r, S7 in T1. fold e0 e1 in T1. rewrite S2, Hhalf in T1.
      rewrite (tail_S c' i), (tail_S c i). numR. rewrite S2, Hhalf.
      replace (cst c' i + tail c' (S i) - (cst c i + tail c (S i))) with
        ((cst c' i - cst c i + dq Vx Vxx (dx c c' (S i))) + (tail c' (S i) - tail c (S i) - dq Vx Vxx (dx c c' (S i)))) by ring.
      rewrite T1, I4. field.
  Qed.

  Lemma dx_0 c' : traj c' -> dx c c' 0 = fzero.
  Proof.
    intros Hc'. unfold dx, at_x. rewrite (nth_some _ _ _ _ (ro_x0 _ _ _ _ _ (proj1 Hc))), (nth_some _ _ _ _ (ro_x0 _ _ _ _ _ (proj1 Hc'))).
    apply FunctionalExtensionality.functional_extensionality. intros j. unfold fsubv, fzero. ring.
  Qed.
  Lemma dq_0 Vx Vxx : dq Vx Vxx fzero = 0.
  Proof. unfold dq. rewrite fdot_0_r, fdot_0_l. ring. Qed.

  (** A successful unregularised pass: expected change exact for every factor, full step at least as good as any competitor. *)
  Lemma lq_pass : backward pb cf t0 N LL limits qfuel c 0 (Some g) ->
    p_d0 g = - 2 * p_d1 g /\ 0 <= p_d1 g /\
    (forall c', traj c' -> total c' >= total c + p_d0 g + p_d1 g) /\
    (forall a c', traj c' -> is_candidate pb t0 x0 N c g a c' -> total c' = total c + a * p_d0 g + a * a * p_d1 g).
  Proof.
    intros (ds & xN & old & Lds & Hds & HxN & Hb). set (g0 := {| p_k := []; p_K := []; p_d0 := _; p_d1 := _ |}) in Hb.
    destruct (Nat.eq_dec N 0) as [EN|EN].
    - (* empty horizon *)
      assert (Eg : g0 = g).
      { rewrite EN in Hb. inversion Hb. reflexivity. }
      assert (ET : forall c', traj c' -> total c' = total c).
      { intros c' Hc'. rewrite <- !tail_0. rewrite <- EN. rewrite (tail_N c' (proj1 Hc')), (tail_N c (proj1 Hc)).
        destruct (ro_end _ _ _ _ _ (proj1 Hc)) as (xa & A1 & A2). destruct (ro_end _ _ _ _ _ (proj1 Hc')) as (xb & B1 & B2).
        unfold cst, vget. rewrite (nth_some _ _ _ _ A2), (nth_some _ _ _ _ B2).
        rewrite EN in A1, B1. rewrite (ro_x0 _ _ _ _ _ (proj1 Hc)) in A1. rewrite (ro_x0 _ _ _ _ _ (proj1 Hc')) in B1.
        injection A1 as <-. injection B1 as <-. reflexivity. }
      rewrite <- Eg. cbn [g0 p_d0 p_d1]. numR. split; [ring|]. split; [lra|].
      split; [intros c' Hc'; rewrite (ET c' Hc'); lra|intros a c' Hc' _; rewrite (ET c' Hc'); ring].
    - destruct (pb_terminalCostDeriv pb (tm N) xN old) as [Vx Vxx] eqn:EV. cbn [fst snd] in Hb.
      assert (Hdims : vdimb n Vx = true /\ mdimb n n Vxx = true).
      { destruct N as [|N']; [contradiction|]. inversion Hb; subst;
        match goal with H : deriv_dims pb _ Vx Vxx = true |- _ => destruct (dd _ _ _ _ H) as (? & ? & _); auto end. }
      destruct Hdims as [HdV HdVV].
      destruct (backward_inv ds N Vx Vxx g0 _ Hb eq_refl (Nat.le_refl _) Hds) as (Vx0 & Vxx0 & Hinv & HV0 & HVV0); [|assumption|assumption|].
      + intros _ _. cbn [g0 p_d0 p_d1].
        assert (LxN : length xN = n) by (apply (traj_x c Hc N); exact HxN).
        assert (HT : forall c', traj c' -> fsym n (mget Vxx) /\ tail c' N - tail c N = dq Vx Vxx (dx c c' N)).
        { intros c' Hc'. rewrite (tail_N c' (proj1 Hc')), (tail_N c (proj1 Hc)).
          destruct (ro_end _ _ _ _ _ (proj1 Hc)) as (xa & A1 & A2). destruct (ro_end _ _ _ _ _ (proj1 Hc')) as (xb & B1 & B2).
          rewrite HxN in A1. injection A1 as <-.
          destruct (lq_T pb Hlq (tm N) xN xb old Vx Vxx LxN (traj_x c' Hc' N _ B1) EV (vdimb_len _ _ HdV) HdVV) as [TS TE].
          split; [exact TS|]. unfold cst, vget at 1 2. rewrite (nth_some _ _ _ _ A2), (nth_some _ _ _ _ B2), TE.
          unfold dx, at_x. rewrite (nth_some _ _ _ _ HxN), (nth_some _ _ _ _ B1). unfold dq. ring. }
        split; [apply (HT c Hc)|]. numR. split; [ring|]. split; [lra|].
        split; [intros c' Hc'; rewrite (proj2 (HT c' Hc')); lra|intros a c' Hc' _; rewrite (proj2 (HT c' Hc')); ring].
      + destruct (Hinv HV0 HVV0) as (_ & J1 & J2 & J3 & J4). split; [exact J1|]. split; [exact J2|]. split.
        * intros c' Hc'. specialize (J3 c' Hc'). rewrite (dx_0 c' Hc'), dq_0, !tail_0 in J3. lra.
        * intros a c' Hc' Hcand. specialize (J4 a c' Hc' Hcand). rewrite (dx_0 c' Hc'), dq_0, !tail_0 in J4. lra.
  Qed.
End Main.
