(** The step of DDP on smooth nonlinear problems: slope of the true cost along the step factor, descent and stationarity. *)
From Verif Require Import Prelude Scalar LinAlg BoxQP DDP DDPSpec DDPProofs DDPCor DDPReal DDPSafe DDPLimits RLin CholProofs LQ LQ2 LQ3 LQ4 GmresSpec P_Ode CgmresGrad ProbSpec P_DDP_lq.
From Coq Require Import Reals Lra.
Local Open Scope R_scope.

(** ** Specification *)
(** Exact first derivatives (ProbSpec.v), sizes as documented, symmetric input and terminal Hessians. *)
Record smooth_problem (pb : problem R) : Prop := {
  sp_dim : forall t x u, length x = pb_nx pb -> length u = nu_of pb t -> length (pb_stateEq pb t x u) = pb_nx pb;
  sp_sized : forall t x u old, length x = pb_nx pb -> length u = nu_of pb t -> mcols (snd (pb_stateEqDeriv pb t x u old)) = nu_of pb t;
  sp_dyn : exact_dynamics pb;
  sp_grad : exact_gradients pb;
  sp_symL : forall t x u old Lx Lu Lxx Luu Lxu, length x = pb_nx pb -> length u = nu_of pb t ->
    pb_runningCostDeriv pb t x u old = (Lx, Lu, Lxx, Luu, Lxu) -> fsym (nu_of pb t) (mget Luu);
  sp_symT : forall t x old, length x = pb_nx pb -> fsym (pb_nx pb) (mget (snd (pb_terminalCostDeriv pb t x old)))
}.
(** The second derivatives the callbacks return are positive semi-definite (convex costs, or Gauss-Newton matrices). *)
Record psd_costs (pb : problem R) : Prop := {
  pc_L : forall t x u old Lx Lu Lxx Luu Lxu, length x = pb_nx pb -> length u = nu_of pb t ->
    pb_runningCostDeriv pb t x u old = (Lx, Lu, Lxx, Luu, Lxu) ->
    let n := pb_nx pb in let m := nu_of pb t in
    forall dx du, 0 <= fdot n dx (fmv n (mget Lxx) dx) + 2 * fdot n dx (fmv m (mget Lxu) du) + fdot m du (fmv m (mget Luu) du);
  pc_T : forall t x old, length x = pb_nx pb -> psd (pb_nx pb) (mget (snd (pb_terminalCostDeriv pb t x old)))
}.

Lemma vec_ext (a b : vec R) : length a = length b -> (forall i, (i < length a)%nat -> vget a i = vget b i) -> a = b.
Proof. intros L H. apply (nth_ext a b 0 0 L). exact H. Qed.

Lemma vbn m (f : nat -> R) j : (j < m)%nat -> nth j (vbuild m f) 0 = f j.
Proof. intros H. change (vget (vbuild m f) j = f j). apply vbuild_get. exact H. Qed.

Section Family.
  Variables (pb : problem R) (cf : config R) (t0 : R) (x0 : vec R) (N : nat).
  Hypothesis Hsp : smooth_problem pb.
  Hypothesis Hx0 : length x0 = pb_nx pb.
  Notation n := (pb_nx pb).
  Notation tm i := (t0 + nofnat i * pb_dt pb)%num.
  Notation traj := (traj pb t0 x0 N).

  Lemma trj_x c : traj c -> forall i x, nth_error (cd_x c) i = Some x -> length x = n.
  Proof.
    intros [Hro Ht]. induction i as [|i IH]; intros x Hx.
    - rewrite (ro_x0 _ _ _ _ _ Hro) in Hx. injection Hx as <-. exact Hx0.
    - assert (Hi : (i < N)%nat).
      { assert (S i < length (cd_x c))%nat by (apply nth_error_Some; congruence). rewrite (ro_lx _ _ _ _ _ Hro) in H. lia. }
      destruct (ro_step _ _ _ _ _ Hro i Hi) as (x1 & u1 & A1 & A2 & A3 & _).
      replace (i + 1)%nat with (S i) in A3 by lia. rewrite A3 in Hx. injection Hx as <-.
      apply (sp_dim pb Hsp); [apply IH; exact A1|apply Ht; exact A2].
  Qed.
  Lemma trj_step c i : traj c -> (i < N)%nat -> exists x u, nth_error (cd_x c) i = Some x /\ nth_error (cd_u c) i = Some u /\
    at_x c i = x /\ at_u c i = u /\ length x = n /\ length u = nu_of pb (tm i) /\
    at_x c (S i) = pb_stateEq pb (tm i) x u /\ cst c i = pb_runningCost pb (tm i) x u.
  Proof.
    intros Hc Hi. destruct (ro_step _ _ _ _ _ (proj1 Hc) i Hi) as (x & u & A1 & A2 & A3 & A4).
    replace (i + 1)%nat with (S i) in A3 by lia.
    exists x, u. split; [exact A1|]. split; [exact A2|]. split; [apply nth_some; exact A1|]. split; [apply nth_some; exact A2|].
    split; [apply (trj_x c Hc i); exact A1|]. split; [apply (proj2 Hc); exact A2|]. split; [apply nth_some; exact A3|].
    unfold cst, vget. apply nth_some. exact A4.
  Qed.
  Lemma trj_end c : traj c -> length (at_x c N) = n /\ cst c N = pb_terminalCost pb (tm N) (at_x c N) /\ nth_error (cd_x c) N = Some (at_x c N).
  Proof.
    intros Hc. destruct (ro_end _ _ _ _ _ (proj1 Hc)) as (x & A1 & A2).
    assert (E : at_x c N = x) by (apply nth_some; exact A1). rewrite E.
    split; [apply (trj_x c Hc N); exact A1|]. split; [unfold cst, vget; apply nth_some; exact A2|exact A1].
  Qed.
  Lemma at_x_0 c : traj c -> at_x c 0 = x0.
  Proof. intros Hc. apply nth_some. exact (ro_x0 _ _ _ _ _ (proj1 Hc)). Qed.
  Lemma total_sum c : traj c -> total c = Rsum N (cst c) + cst c N.
  Proof.
    intros Hc. unfold total. rewrite nsum_list, (ro_lc _ _ _ _ _ (proj1 Hc)). replace (N + 1)%nat with (S N) by lia. rewrite Rsum_S. reflexivity.
  Qed.

  Variable c : cdata R.
  Hypothesis Hc : traj c.
  Variable g : pass R.
  Variable ds : list (deriv R).
  Hypothesis Hsec : (0 < N)%nat -> cf_second cf = false.
  Hypothesis Hder : forall j, (j < N)%nat -> exists x u old d, nth_error (cd_x c) j = Some x /\ nth_error (cd_u c) j = Some u /\
         nth_error ds j = Some d /\ derivs_at pb cf (tm j) x u old d.

  (** Displacements of the linearised closed loop for step factor 1. *)
  Definition dispu (j : nat) (e : fvec) : fvec :=
    match nth_error (p_k g) j, nth_error (p_K g) j with Some k, Some K => fadd (vget k) (fmv n (mget K) e) | _, _ => fzero end.
  Fixpoint disp (i : nat) : fvec :=
    match i with
    | O => fzero
    | S j => match nth_error ds j with
             | Some d => fadd (fmv n (mget (dFx d)) (disp j)) (fmv (mcols (dFu d)) (mget (dFu d)) (dispu j (disp j)))
             | None => fzero end
    end.
  Definition sl (j : nat) : R :=
    match nth_error ds j with
    | Some d => fdot n (vget (dLx d)) (disp j) + fdot (mcols (dFu d)) (vget (dLu d)) (dispu j (disp j))
    | None => 0 end.
  Definition cv (j : nat) : R :=
    match nth_error ds j with
    | Some d => let e := disp j in let u := dispu j e in let m := mcols (dFu d) in
        fdot n e (fmv n (mget (dLxx d)) e) + 2 * fdot n e (fmv m (mget (dLxu d)) u) + fdot m u (fmv m (mget (dLuu d)) u)
    | None => 0 end.
  Definition slope_of (VxN : vec R) : R := Rsum N sl + fdot n (vget VxN) (disp N).
  Definition curv_of (VxxN : mat R) : R := Rsum N cv + fdot n (disp N) (fmv n (mget VxxN) (disp N)).

  Variable F : R -> cdata R.
  Hypothesis HF : forall a, is_candidate pb t0 x0 N c g a (F a).

  Lemma F_traj a : traj (F a).
  Proof. apply (cand_traj pb t0 x0 N c g a _ Hc (HF a)). Qed.

  (** The input of step i as a function of the step factor. *)
  Lemma F_input i : (i < N)%nat -> exists k K, nth_error (p_k g) i = Some k /\ nth_error (p_K g) i = Some K /\
    length k = nu_of pb (tm i) /\ forall a, length (at_u (F a) i) = nu_of pb (tm i) /\ forall j,
      vget (at_u (F a) i) j = vget (at_u c i) j + a * vget k j + Rsum n (fun l => mget K j l * (vget (at_x (F a) i) l - vget (at_x c i) l)).
  Proof.
    intros Hi. destruct (trj_step c i Hc Hi) as (x & u & A1 & A2 & A3 & A4 & A5 & A6 & A7 & A8).
    destruct (proj2 (HF 0) i Hi) as (y & v & y' & k & K & C1 & C2 & C3 & C4 & C5 & C6 & C7 & C8 & C9).
    rewrite A2 in C2. injection C2 as <-. exists k, K. split; [exact C4|]. split; [exact C5|]. split; [congruence|].
    intros a. destruct (trj_step (F a) i (F_traj a) Hi) as (x' & u' & B1 & B2 & B3 & B4 & B5 & B6 & B7 & B8).
    destruct (proj2 (HF a) i Hi) as (y1 & v1 & y1' & k1 & K1 & D1 & D2 & D3 & D4 & D5 & D6 & D7 & D8 & D9).
    rewrite A1 in D1. injection D1 as <-. rewrite A2 in D2. injection D2 as <-. rewrite B1 in D3. injection D3 as <-. rewrite B2 in D9. injection D9 as Eu.
    rewrite C4 in D4. injection D4 as <-. rewrite C5 in D5. injection D5 as <-.
    rewrite B4. split; [exact B6|]. intros j. rewrite Eu, A3, A4, B3.
    rewrite vadd_f by (rewrite vadd_len, mvmul_length, (mdimb_rows _ _ _ D7); reflexivity).
    rewrite vadd_f by (rewrite vscale_len; symmetry; exact C6). rewrite vscale_f, (mvmul_f _ _ _ _ D7), vsub_f by exact D8.
    unfold fadd, fscal, fmv, fsubv. rewrite A5. reflexivity.
  Qed.
  Lemma F_step a i : (i < N)%nat -> length (at_x (F a) i) = n /\ at_x (F a) (S i) = pb_stateEq pb (tm i) (at_x (F a) i) (at_u (F a) i) /\
    cst (F a) i = pb_runningCost pb (tm i) (at_x (F a) i) (at_u (F a) i).
  Proof.
    intros Hi. destruct (trj_step (F a) i (F_traj a) Hi) as (x' & u' & B1 & B2 & B3 & B4 & B5 & B6 & B7 & B8). rewrite B3, B4. auto.
  Qed.
  Lemma F_zero i : (i <= N)%nat -> at_x (F 0) i = at_x c i.
  Proof.
    induction i as [|i IH]; intros Hi; [rewrite (at_x_0 c Hc), (at_x_0 _ (F_traj 0)); reflexivity|].
    specialize (IH ltac:(lia)). destruct (trj_step c i Hc ltac:(lia)) as (x & u & A1 & A2 & A3 & A4 & A5 & A6 & A7 & A8).
    destruct (F_step 0 i ltac:(lia)) as (_ & E & _). rewrite E, A7, IH, A3. f_equal.
    destruct (F_input i ltac:(lia)) as (k & K & _ & _ & _ & Hu). destruct (Hu 0) as [Lu Eu]. apply vec_ext; [congruence|].
    intros j Hj. rewrite Eu, IH, A4. rewrite Rsum_zero by (intros; ring). ring.
  Qed.
  Lemma F_zero_u i : (i < N)%nat -> at_u (F 0) i = at_u c i.
  Proof.
    intros Hi. destruct (trj_step c i Hc Hi) as (x & u & A1 & A2 & A3 & A4 & A5 & A6 & A7 & A8).
    destruct (F_input i Hi) as (k & K & _ & _ & _ & Hu). destruct (Hu 0) as [Lu Eu]. apply vec_ext; [congruence|].
    intros j Hj. rewrite Eu, (F_zero i) by lia. rewrite Rsum_zero by (intros; ring). ring.
  Qed.

  Lemma F_zero_total : total (F 0) = total c.
  Proof.
    rewrite (total_sum _ (F_traj 0)), (total_sum _ Hc). f_equal.
    - apply Rsum_ext. intros i Hi. destruct (trj_step c i Hc Hi) as (x & u & A1 & A2 & A3 & A4 & A5 & A6 & A7 & A8).
      destruct (F_step 0 i Hi) as (_ & _ & E). rewrite E, A8, (F_zero i), (F_zero_u i Hi) by lia. congruence.
    - destruct (trj_end c Hc) as (_ & E1 & _). destruct (trj_end _ (F_traj 0)) as (_ & E2 & _). rewrite E1, E2, (F_zero N) by lia. reflexivity.
  Qed.

  (** Velocity of states and inputs along the step factor. *)
  Lemma F_curve_u i : (i < N)%nat -> curve n (fun a => at_x (F a) i) (vbuild n (disp i)) ->
    curve (nu_of pb (tm i)) (fun a => at_u (F a) i) (vbuild (nu_of pb (tm i)) (dispu i (disp i))).
  Proof.
    intros Hi (_ & _ & HX). destruct (F_input i Hi) as (k & K & Ek & EK & Lk & Hu).
    split; [intros a; apply Hu|]. split; [apply vbuild_length|]. intros j Hj.
    apply (dl_conv (fun a => vget (at_u c i) j + a * vget k j + Rsum n (fun l => mget K j l * (vget (at_x (F a) i) l - vget (at_x c i) l))) _
      (0 + (1 * vget k j + 0 * 0) + Rsum n (fun l => 0 * (vget (at_x (F 0) i) l - vget (at_x c i) l) + mget K j l * (disp i l - 0)))).
    - intros a. apply (Hu a).
    - apply dl_plus; [apply dl_plus; [apply dl_const|]|].
      + apply (dl_mult (fun a => a) (fun _ => vget k j)); [apply derivable_pt_lim_id|apply dl_const].
      + apply dl_sum. intros l Hl. apply (dl_mult (fun _ => mget K j l) (fun a => vget (at_x (F a) i) l - vget (at_x c i) l)); [apply dl_const|].
        apply dl_minus; [|apply dl_const]. specialize (HX l Hl). eapply dl_eq; [exact HX|]. apply vbn; exact Hl.
    - rewrite vbn by exact Hj.
      unfold dispu. rewrite Ek, EK. unfold fadd, fmv. rewrite !Rmult_1_l, Rplus_0_l, Rmult_0_l, Rplus_0_r. f_equal. apply Rsum_ext. intros; ring.
  Qed.
  Lemma F_curve_x i : (i <= N)%nat -> curve n (fun a => at_x (F a) i) (vbuild n (disp i)).
  Proof.
    induction i as [|i IH]; intros Hi.
    - split; [|split].
      + intros a. rewrite (at_x_0 _ (F_traj a)). exact Hx0.
      + apply vbuild_length.
      + intros j Hj. apply (dl_conv (fun _ => vget x0 j) _ 0).
        * intros a. rewrite (at_x_0 _ (F_traj a)). reflexivity.
        * apply dl_const.
        * symmetry. apply vbn; exact Hj.
    - specialize (IH ltac:(lia)). pose proof (F_curve_u i ltac:(lia) IH) as IHu.
      destruct (Hder i ltac:(lia)) as (x & u & old & d & A1 & A2 & A3 & A4 & A5). rewrite Hsec in A4 by lia.
      destruct (trj_step c i Hc ltac:(lia)) as (x1 & u1 & B1 & B2 & B3 & B4 & B5 & B6 & B7 & B8).
      rewrite A1 in B1. injection B1 as <-. rewrite A2 in B2. injection B2 as <-.
      pose proof (sp_sized pb Hsp (tm i) x u (dFx old, dFu old) B5 B6) as Em. rewrite <- A4 in Em. cbn [snd] in Em.
      split; [intros a; destruct (F_step a i ltac:(lia)) as (La & Ea & _); rewrite Ea; apply (sp_dim pb Hsp); [exact La|apply IHu]|]. split; [apply vbuild_length|].
      intros j Hj. destruct (ed_f pb (sp_dyn pb Hsp) (tm i) x u (dFx old, dFu old) _ _ B5 B6 (eq_sym A4) j Hj) as (_ & _ & P).
      specialize (P _ _ _ _ IH IHu ltac:(cbn beta; rewrite (F_zero i) by lia; exact B3) ltac:(cbn beta; rewrite (F_zero_u i) by lia; exact B4)).
      eapply dl_conv; [|exact P|].
      + intros a. destruct (F_step a i ltac:(lia)) as (_ & Ea & _). cbn beta. rewrite Ea. reflexivity.
      + rewrite vbn by exact Hj. cbn [disp]. rewrite A3. unfold fadd, fmv. rewrite Em.
        f_equal; apply Rsum_ext; intros l Hl; rewrite row_nth by exact Hl; f_equal; apply vbn; exact Hl.
  Qed.

  (** Derivative of the total cost along the step factor. *)
  Lemma F_slope old Vx Vxx : pb_terminalCostDeriv pb (tm N) (at_x c N) old = (Vx, Vxx) ->
    derivable_pt_lim (fun a => total (F a)) 0 (slope_of Vx).
  Proof.
    intros EV. unfold slope_of. apply (dl_conv (fun a => Rsum N (fun i => cst (F a) i) + cst (F a) N) _ (Rsum N sl + fdot n (vget Vx) (disp N))); [intros a; apply total_sum, F_traj| |reflexivity].
    apply dl_plus.
    - apply (dl_sum N (fun i a => cst (F a) i)). intros i Hi.
      pose proof (F_curve_x i ltac:(lia)) as IH. pose proof (F_curve_u i Hi IH) as IHu.
      destruct (Hder i Hi) as (x & u & old' & d & A1 & A2 & A3 & A4 & A5). rewrite Hsec in A4 by lia.
      destruct (trj_step c i Hc Hi) as (x1 & u1 & B1 & B2 & B3 & B4 & B5 & B6 & B7 & B8).
      rewrite A1 in B1. injection B1 as <-. rewrite A2 in B2. injection B2 as <-.
      pose proof (sp_sized pb Hsp (tm i) x u (dFx old', dFu old') B5 B6) as Em. rewrite <- A4 in Em. cbn [snd] in Em.
      destruct (eg_L pb (sp_grad pb Hsp) (tm i) x u _ _ _ _ _ _ B5 B6 (eq_sym A5)) as (_ & _ & P).
      specialize (P _ _ _ _ IH IHu ltac:(cbn beta; rewrite (F_zero i) by lia; exact B3) ltac:(cbn beta; rewrite (F_zero_u i) by lia; exact B4)).
      eapply dl_conv; [|exact P|].
      + intros a. destruct (F_step a i Hi) as (_ & _ & Ea). exact Ea.
      + unfold sl. rewrite A3. unfold fdot. rewrite Em. f_equal; apply Rsum_ext; intros l Hl; f_equal; apply vbn; exact Hl.
    - destruct (trj_end c Hc) as (Le & _).
      destruct (eg_T pb (sp_grad pb Hsp) (tm N) (at_x c N) old Vx Vxx Le EV) as (_ & _ & P).
      specialize (P _ _ (fun _ => []) [] (F_curve_x N (Nat.le_refl N)) ltac:(split; [reflexivity|split; [reflexivity|intros; lia]]) ltac:(cbn beta; apply (F_zero N); lia) eq_refl).
      eapply dl_conv; [|exact P|].
      + intros a. destruct (trj_end (F a) (F_traj a)) as (_ & Ea & _). exact Ea.
      + cbn [Rsum]. rewrite Rplus_0_r. unfold fdot. apply Rsum_ext; intros l Hl; f_equal; apply vbn; exact Hl.
  Qed.
End Family.

(** ** The backward pass *)
(** The terms that do not depend on the regularisation. *)
Section TermsL.
  Variables (pb : problem R) (cf : config R) (d : deriv R) (Vx : vec R) (Vxx : mat R) (l : R).
  Notation q := (expansion cf d Vx Vxx l).
  Notation n := (pb_nx pb).
  Notation m := (mcols (dFu d)).
  Hypothesis Hd : deriv_dims pb d Vx Vxx = true.
  Lemma lQuu : mget (qQuu q) = fmadd (mget (dLuu d)) (fmm n (fmm n (ftr (mget (dFu d))) (mget Vxx)) (mget (dFu d))).
  Proof. pose proof (qQuu_f pb cf d Vx Vxx Hd) as H. cbn [expansion qQuu] in H |- *. exact H. Qed.
  Lemma lQux : mget (qQux q) = fmadd (ftr (mget (dLxu d))) (fmm n (fmm n (ftr (mget (dFu d))) (mget Vxx)) (mget (dFx d))).
  Proof. pose proof (qQux_f pb cf d Vx Vxx Hd) as H. cbn [expansion qQux] in H |- *. exact H. Qed.
  Lemma lQxx : mget (qQxx q) = fmadd (mget (dLxx d)) (fmm n (fmm n (ftr (mget (dFx d))) (mget Vxx)) (mget (dFx d))).
  Proof. pose proof (qQxx_f pb cf d Vx Vxx Hd) as H. cbn [expansion qQxx] in H |- *. exact H. Qed.
  Lemma lQx : vget (qQx q) = fadd (vget (dLx d)) (fmv n (ftr (mget (dFx d))) (vget Vx)).
  Proof. pose proof (qQx_f pb cf d Vx Vxx Hd) as H. cbn [expansion qQx] in H |- *. exact H. Qed.
  Lemma lQu : vget (qQu q) = fadd (vget (dLu d)) (fmv n (ftr (mget (dFu d))) (vget Vx)).
  Proof. pose proof (qQu_f pb cf d Vx Vxx Hd) as H. cbn [expansion qQu] in H |- *. exact H. Qed.
  Lemma ldims : length (qQu q) = m /\ length (qQx q) = n /\ mdimb m n (qQux q) = true /\ mdimb m m (qQuu q) = true /\ mdimb n n (qQxx q) = true.
  Proof. pose proof (qdims pb cf d Vx Vxx Hd) as H. cbn [expansion qQx qQu qQxx qQux qQuu] in H |- *. exact H. Qed.
  Lemma lvalue k K Vx' Vxx' : mdimb m n K = true -> propagate q k K = (Vx', Vxx') ->
    vget Vx' = sqVx m (vget (qQx q)) (vget (qQu q)) (mget (qQux q)) (mget (qQuu q)) (vget k) (mget K) /\
    mget Vxx' = sqVxx m (mget (qQxx q)) (mget (qQux q)) (mget (qQuu q)) (mget K) /\ length Vx' = n /\ mdimb n n Vxx' = true.
  Proof.
    intros HK Hv. assert (E : propagate (expansion cf d Vx Vxx 0) k K = (Vx', Vxx')).
    { rewrite <- Hv. unfold propagate. cbn [expansion qQx qQu qQxx qQux qQuu]. reflexivity. }
    destruct (value_f pb cf d Vx Vxx Hd k K HK Vx' Vxx' E) as (V1 & V2 & V3 & V4).
    cbn [expansion qQx qQu qQxx qQux qQuu] in V1, V2 |- *. split; [exact V1|]. split; [exact V2|]. split; assumption.
  Qed.
End TermsL.

Section Pass.
  Variables (pb : problem R) (cf : config R) (t0 : R) (x0 : vec R) (N : nat).
  Variables (LL : lltops R) (limits : option (R -> vec R * vec R)) (qfuel : nat).
  Hypothesis Hsp : smooth_problem pb.
  Hypothesis Hx0 : length x0 = pb_nx pb.
  Notation n := (pb_nx pb).
  Notation tm i := (t0 + nofnat i * pb_dt pb)%num.
  Notation traj := (traj pb t0 x0 N).
  Notation dq := (dq pb).
  Notation backward_from := (backward_from pb cf t0 LL limits qfuel).

  Variable c : cdata R.
  Hypothesis Hc : traj c.
  Variable l : R.
  Variable ds : list (deriv R).
  Hypothesis Hder : forall j, (j < N)%nat -> exists x u old d, nth_error (cd_x c) j = Some x /\ nth_error (cd_u c) j = Some u /\
         nth_error ds j = Some d /\ derivs_at pb cf (tm j) x u old d.

  Lemma step_sizes i u d : (i < N)%nat -> cf_second cf = false -> nth_error (cd_u c) i = Some u -> nth_error ds i = Some d ->
    mcols (dFu d) = nu_of pb (tm i) /\ length u = nu_of pb (tm i) /\ fsym (mcols (dFu d)) (mget (dLuu d)) /\
    (psd_costs pb -> forall e w, 0 <= fdot n e (fmv n (mget (dLxx d)) e) + 2 * fdot n e (fmv (mcols (dFu d)) (mget (dLxu d)) w)
                                    + fdot (mcols (dFu d)) w (fmv (mcols (dFu d)) (mget (dLuu d)) w)).
  Proof.
    intros Hi Hsec Hu Hd. destruct (Hder i Hi) as (x & u1 & old & d1 & A1 & A2 & A3 & A4 & A5).
    rewrite Hu in A2. injection A2 as <-. rewrite Hd in A3. injection A3 as <-. rewrite Hsec in A4.
    destruct (trj_step pb t0 x0 N Hsp Hx0 c i Hc Hi) as (x1 & u1 & B1 & B2 & B3 & B4 & B5 & B6 & B7 & B8).
    rewrite A1 in B1. injection B1 as <-. rewrite Hu in B2. injection B2 as <-.
    pose proof (sp_sized pb Hsp (tm i) x u (dFx old, dFu old) B5 B6) as Em. rewrite <- A4 in Em. cbn [snd] in Em.
    symmetry in A5. pose proof (sp_symL pb Hsp (tm i) x u _ _ _ _ _ _ B5 B6 A5) as J. rewrite <- Em in J.
    split; [exact Em|]. split; [exact B6|]. split; [exact J|].
    intros Hp. pose proof (pc_L pb Hp (tm i) x u _ _ _ _ _ _ B5 B6 A5) as J2. cbv zeta in J2. rewrite <- Em in J2. exact J2.
  Qed.

  Variable g : pass R.
  Notation disp := (disp pb g ds).
  Notation dispu := (dispu pb g).

  (** Slope plus half the curvature of the model = what the pass records. *)
  Lemma pass_id i Vx Vxx gi o sN cN : backward_from (cd_u c) ds l i Vx Vxx gi o -> (i <= N)%nat -> fsym n (mget Vxx) -> o = Some g ->
    (sN - Rsum i (sl pb g ds)) + / 2 * (cN - Rsum i (cv pb g ds)) = p_d0 gi + p_d1 gi + dq Vx Vxx (disp i) ->
    sN + / 2 * cN = p_d0 g + p_d1 g.
  Proof.
    induction 1 as [Vx Vxx g0|i u d Vx Vxx g0 Hsec Hu Hd Hdim Hst|i u d Vx Vxx g0 k K Vx' Vxx' o Hsec Hu Hd Hdim q Hst Hk HK Hv Hb IH];
      intros HiN Hsym Eo E.
    - injection Eo as <-. unfold LQ2.dq in E. cbn [DDPDescent.disp Rsum] in E. rewrite fmv_0, fdot_0_l, fdot_comm, fdot_0_l in E. lra.
    - discriminate.
    - destruct (step_sizes i u d ltac:(lia) Hsec Hu Hd) as (Em & Lu & HsL & _).
      destruct (ldims pb cf d Vx Vxx l Hdim) as (Q1 & Q2 & Q3 & Q4 & Q5).
      set (m := mcols (dFu d)) in *.
      assert (SQ : fsym m (mget (qQuu q))).
      { unfold q. rewrite (lQuu pb cf d Vx Vxx l Hdim). apply quad_sym; assumption. }
      destruct (lvalue pb cf d Vx Vxx l Hdim k K Vx' Vxx' HK Hv) as (V1 & V2 & V3 & V4). fold m in V1, V2. fold q in V1, V2.
      destruct (backward_gains _ _ _ _ _ _ _ _ _ _ _ _ _ _ Hb _ Eo) as (ks & Ks & E1 & E2 & L1 & L2 & _). cbn [p_k p_K] in E1, E2.
      assert (Nk : nth_error (p_k g) i = Some k) by (rewrite E1, nth_error_app2, L1, Nat.sub_diag by lia; reflexivity).
      assert (NK : nth_error (p_K g) i = Some K) by (rewrite E2, nth_error_app2, L2, Nat.sub_diag by lia; reflexivity).
      apply IH; [lia|rewrite V2; apply sqVxx_sym|exact Eo|]. cbn [p_d0 p_d1].
      rewrite !Rsum_S in E. unfold sl at 2, cv at 2 in E. cbn [DDPDescent.disp] in E. rewrite Hd in E. cbv zeta in E. fold m in E.
      set (e := disp i) in *. assert (Ew : dispu i e = fadd (vget k) (fmv n (mget K) e)) by (unfold DDPDescent.dispu; rewrite Nk, NK; reflexivity).
      set (w := dispu i e) in *.
      pose proof (q_expand n m (vget (dLx d)) (vget (dLu d)) (mget (dLxx d)) (mget (dLuu d)) (mget (dLxu d)) (mget (dFx d)) (mget (dFu d)) (vget Vx) (mget Vxx) Hsym e w) as Qe.
      cbv zeta in Qe. unfold LQ2.dq in E.
      rewrite <- (lQuu pb cf d Vx Vxx l Hdim), <- (lQxx pb cf d Vx Vxx l Hdim), <- (lQux pb cf d Vx Vxx l Hdim), <- (lQx pb cf d Vx Vxx l Hdim), <- (lQu pb cf d Vx Vxx l Hdim) in Qe.
      change (expansion cf d Vx Vxx l) with q in Qe.
      pose proof (policy_value n m (vget (qQx q)) (vget (qQu q)) (mget (qQxx q)) (mget (qQux q)) (mget (qQuu q)) (vget k) (mget K) SQ e) as PV.
      rewrite <- Ew in PV. rewrite PV in Qe.
      assert (Edot1 : dot k (qQu q) = fdot m (vget k) (vget (qQu q))) by (rewrite dot_R, Hk; reflexivity).
      assert (Edot2 : dot k (mvmul (qQuu q) k) = fdot m (vget k) (fmv m (mget (qQuu q)) (vget k))).
      { rewrite dot_R, Hk, (mvmul_f m m _ _ Q4). reflexivity. }
      rewrite Edot1, Edot2, half_R. unfold LQ2.dq. rewrite V1, V2. change (@nadd R RNum) with Rplus. change (@nmul R RNum) with Rmult. lra.
  Qed.

  Lemma pass_fits i Vx Vxx gi o : backward_from (cd_u c) ds l i Vx Vxx gi o -> (i <= N)%nat -> o = Some g ->
    length (p_k g) = (i + length (p_k gi))%nat /\ length (p_K g) = (i + length (p_K gi))%nat /\ ((0 < i)%nat -> cf_second cf = false) /\
    forall j, (j < i)%nat -> exists k K, nth_error (p_k g) j = Some k /\ nth_error (p_K g) j = Some K /\
      length k = nu_of pb (tm j) /\ mdimb (nu_of pb (tm j)) n K = true.
  Proof.
    induction 1 as [Vx Vxx g0|i u d Vx Vxx g0 Hsec Hu Hd Hdim Hst|i u d Vx Vxx g0 k K Vx' Vxx' o Hsec Hu Hd Hdim q Hst Hk HK Hv Hb IH];
      intros HiN Eo.
    - injection Eo as <-. split; [reflexivity|]. split; [reflexivity|]. split; [intros; lia|]. intros; lia.
    - discriminate.
    - destruct (step_sizes i u d ltac:(lia) Hsec Hu Hd) as (Em & Lu & _).
      destruct (IH ltac:(lia) Eo) as (I1 & I2 & _ & I4). cbn [p_k p_K length] in I1, I2.
      destruct (backward_gains _ _ _ _ _ _ _ _ _ _ _ _ _ _ Hb _ Eo) as (ks & Ks & E1 & E2 & L1 & L2 & _). cbn [p_k p_K] in E1, E2.
      assert (Nk : nth_error (p_k g) i = Some k) by (rewrite E1, nth_error_app2, L1, Nat.sub_diag by lia; reflexivity).
      assert (NK : nth_error (p_K g) i = Some K) by (rewrite E2, nth_error_app2, L2, Nat.sub_diag by lia; reflexivity).
      split; [lia|]. split; [lia|]. split; [auto|]. intros j Hj. assert (j < i \/ j = i)%nat as [H| ->] by lia; [apply I4; exact H|].
      exists k, K. rewrite <- Em. auto.
  Qed.

  Hypothesis HE : exact_llt LL.
  Hypothesis Hcon : cf_constraint cf = false.
  Hypothesis Hl : 0 <= l.

  Lemma gain_desc i u d Vx Vxx k K ks : deriv_dims pb d Vx Vxx = true -> fsym n (mget Vxx) ->
    fsym (mcols (dFu d)) (mget (dLuu d)) -> let q := expansion cf d Vx Vxx l in
    step_gains pb cf t0 LL limits qfuel i u d q ks (Some (k, K)) -> length k = mcols (dFu d) ->
    dot k (qQu q) <= 0 /\ nhalf * dot k (mvmul (qQuu q) k) <= - / 2 * dot k (qQu q) /\
    (dot k (qQu q) = 0 -> forall j, (j < mcols (dFu d))%nat -> vget k j = 0) /\
    ((forall j, (j < mcols (dFu d))%nat -> vget k j = 0) <-> (forall j, (j < mcols (dFu d))%nat -> vget (qQu q) j = 0)).
  Proof.
    intros Hdim Hsym HsL q Hst Lk. set (m := mcols (dFu d)) in *.
    destruct (ldims pb cf d Vx Vxx l Hdim) as (Q1 & Q2 & Q3 & Q4 & Q5). fold m in Q1, Q3, Q4.
    assert (Edot1 : dot k (qQu q) = fdot m (vget k) (vget (qQu q))) by (rewrite dot_R, Lk; reflexivity).
    assert (Edot2 : dot k (mvmul (qQuu q) k) = fdot m (vget k) (fmv m (mget (qQuu q)) (vget k))).
    { rewrite dot_R, Lk, (mvmul_f m m _ _ Q4). reflexivity. }
    rewrite Edot1, Edot2, half_R. change (@nmul R RNum) with Rmult.
    destruct (reg_facts pb cf d Vx Vxx l Hdim Hl Hsym HsL) as (R1 & R2 & R3 & R4). fold m q in R1, R2, R3, R4.
    remember (Some (k, K)) as o eqn:Eo.
    destruct Hst as [H0| |Hpos Hcc His| |f' ik out K' Hpos Hcc]; [| discriminate | | discriminate | rewrite Hcon in Hcc; discriminate Hcc].
    - fold m in H0. rewrite H0. unfold fdot, fmv. cbn [Rsum]. split; [lra|]. split; [lra|]. split; [intros; lia|split; intros; lia].
    - injection Eo as Ek EK.
      destruct (newton_reg pb cf d Vx Vxx l Hdim Hl Hsym HsL LL HE k His (eq_sym Ek)) as [N1 N2]. fold m q in N1, N2.
      assert (E1 : fdot m (vget k) (vget (qQu q)) = - fdot m (vget k) (fmv m (mget (qQuu_F q)) (vget k))).
      { rewrite (fdot_ext m (vget k) (fmv m (mget (qQuu_F q)) (vget k)) (vget k) (fopp (vget (qQu q)))) by auto. rewrite fdot_opp_r. ring. }
      pose proof (R4 (vget k)) as R4k. pose proof (posdef_psd _ _ N2 (vget k)) as R5.
      assert (Hz : fdot m (vget k) (vget (qQu q)) = 0 -> forall j, (j < m)%nat -> vget k j = 0).
      { intros Hz j Hj. destruct (Req_dec (vget k j) 0) as [Z|Z]; [exact Z|]. exfalso.
        assert (0 < fdot m (vget k) (fmv m (mget (qQuu_F q)) (vget k))) by (apply N2; eauto). lra. }
      split; [lra|]. split; [lra|]. split; [exact Hz|]. split.
      + intros Hk0 j Hj. specialize (N1 j Hj).
        assert (fmv m (mget (qQuu_F q)) (vget k) j = 0); [|lra]. unfold fmv. apply Rsum_zero. intros b Hb. rewrite (Hk0 b Hb). ring.
      + intros Hq0. apply Hz. unfold fdot. apply Rsum_zero. intros j Hj. rewrite (Hq0 j Hj). ring.
  Qed.

  (** The value function stays positive semi-definite, whatever the gains. *)
  Lemma value_psd d Vx Vxx k K Vx' Vxx' : deriv_dims pb d Vx Vxx = true -> fsym n (mget Vxx) -> psd n (mget Vxx) -> fsym (mcols (dFu d)) (mget (dLuu d)) ->
    (forall e w, 0 <= fdot n e (fmv n (mget (dLxx d)) e) + 2 * fdot n e (fmv (mcols (dFu d)) (mget (dLxu d)) w) + fdot (mcols (dFu d)) w (fmv (mcols (dFu d)) (mget (dLuu d)) w)) ->
    mdimb (mcols (dFu d)) n K = true -> propagate (expansion cf d Vx Vxx l) k K = (Vx', Vxx') -> psd n (mget Vxx').
  Proof.
    intros Hdim Hsym Hpsd HsL HJ HK Hv y. set (m := mcols (dFu d)) in *. set (q := expansion cf d Vx Vxx l) in *.
    destruct (lvalue pb cf d Vx Vxx l Hdim k K Vx' Vxx' HK Hv) as (_ & V2 & _). fold m in V2. fold q in V2. rewrite V2.
    assert (SQ : fsym m (mget (qQuu q))).
    { unfold q. rewrite (lQuu pb cf d Vx Vxx l Hdim). apply quad_sym; assumption. }
    pose proof (policy_value n m fzero fzero (mget (qQxx q)) (mget (qQux q)) (mget (qQuu q)) fzero (mget K) SQ y) as PV.
    assert (Vz : fdot n (sqVx m fzero fzero (mget (qQux q)) (mget (qQuu q)) fzero (mget K)) y = 0).
    { unfold sqVx. rewrite !fmv_0. rewrite !fdot_add_l, !fdot_0_l. ring. }
    rewrite Vz, !fmv_0, !fdot_0_l in PV.
    replace (fadd fzero (fmv n (mget K) y)) with (fmv n (mget K) y) in PV
      by (apply FunctionalExtensionality.functional_extensionality; intros; unfold fadd, fzero; ring).
    pose proof (q_expand n m fzero fzero (mget (dLxx d)) (mget (dLuu d)) (mget (dLxu d)) (mget (dFx d)) (mget (dFu d)) fzero (mget Vxx) Hsym
                  y (fmv n (mget K) y)) as Qe. cbv zeta in Qe.
    rewrite !fmv_0 in Qe.
    replace (fadd fzero fzero) with fzero in Qe by (apply FunctionalExtensionality.functional_extensionality; intros; unfold fadd, fzero; ring).
    assert (E1 : mget (qQuu q) = fmadd (mget (dLuu d)) (fmm n (fmm n (ftr (mget (dFu d))) (mget Vxx)) (mget (dFu d)))) by apply (lQuu pb cf d Vx Vxx l Hdim).
    assert (E2 : mget (qQux q) = fmadd (ftr (mget (dLxu d))) (fmm n (fmm n (ftr (mget (dFu d))) (mget Vxx)) (mget (dFx d)))) by apply (lQux pb cf d Vx Vxx l Hdim).
    assert (E3 : mget (qQxx q) = fmadd (mget (dLxx d)) (fmm n (fmm n (ftr (mget (dFx d))) (mget Vxx)) (mget (dFx d)))) by apply (lQxx pb cf d Vx Vxx l Hdim).
    rewrite <- E1, <- E2, <- E3 in Qe. rewrite PV in Qe. rewrite !fdot_0_l in Qe.
    pose proof (HJ y (fmv n (mget K) y)) as Hj. pose proof (Hpsd (fadd (fmv n (mget (dFx d)) y) (fmv m (mget (dFu d)) (fmv n (mget K) y)))) as Hp.

    lra.
  Qed.
  Lemma quu_psd (m : nat) (L V F : fmat) : psd n V -> (forall y, 0 <= fdot m y (fmv m L y)) ->
    forall y, fdot m y (fmv m L y) <= fdot m y (fmv m (fmadd L (fmm n (fmm n (ftr F) V) F)) y).
  Proof.
    intros HV HL y. rewrite fmv_madd, fdot_add_r, !fmv_mm.
    replace (fdot m y (fmv n (ftr F) (fmv n V (fmv m F y)))) with (fdot n (fmv m F y) (fmv n V (fmv m F y))) by (rewrite (fdot_mv m n); reflexivity).
    pose proof (HV (fmv m F y)). lra.
  Qed.

  Lemma pass_some i Vx Vxx gi o : psd_costs pb ->
    (forall t x u old Lx Lu Lxx Luu Lxu, length x = n -> length u = nu_of pb t -> pb_runningCostDeriv pb t x u old = (Lx, Lu, Lxx, Luu, Lxu) -> posdef (nu_of pb t) (mget Luu))
      \/ (cf_reg_type cf = 1%Z /\ 0 < l) ->
    backward_from (cd_u c) ds l i Vx Vxx gi o -> (i <= N)%nat -> fsym n (mget Vxx) -> psd n (mget Vxx) -> o <> None.
  Proof.
    intros Hpc Hst0.
    induction 1 as [Vx Vxx g0|i u d Vx Vxx g0 Hsec Hu Hd Hdim Hst|i u d Vx Vxx g0 k K Vx' Vxx' o Hsec Hu Hd Hdim q Hst Hk HK Hv Hb IH];
      intros HiN Hsym Hpsd; [discriminate| |].
    - exfalso. destruct (step_sizes i u d ltac:(lia) Hsec Hu Hd) as (Em & Lu & HsL & HJ0). pose proof (HJ0 Hpc) as HJ.
      destruct (reg_facts pb cf d Vx Vxx l Hdim Hl Hsym HsL) as (R1 & R2 & R3 & R4).
      remember (@None (vec R * mat R)) as o eqn:Eo.
      destruct Hst as [H0|Hpos Hcc His|Hpos Hcc His|f' ik out Hpos Hcc|]; [discriminate| |discriminate|rewrite Hcon in Hcc; discriminate|discriminate].
      assert (Hi : llt_issue LL (qQuu_F (expansion cf d Vx Vxx l)) = false); [|rewrite Hi in His; discriminate].
      set (m := mcols (dFu d)) in *.
      assert (HLp : forall y, 0 <= fdot m y (fmv m (mget (dLuu d)) y)).
      { intros y. specialize (HJ fzero y). rewrite !fdot_0_l in HJ. lra. }
      assert (HQ : forall y, fdot m y (fmv m (mget (dLuu d)) y) <= fdot m y (fmv m (mget (qQuu (expansion cf d Vx Vxx l))) y)).
      { rewrite (lQuu pb cf d Vx Vxx l Hdim). apply quu_psd; assumption. }
      apply (el_issue LL HE _ _ R1 R3). intros y Hy. destruct Hst0 as [Hp|[Ert Hl0]].
      + eapply Rlt_le_trans; [|apply R4]. eapply Rlt_le_trans; [|apply HQ].
        destruct (Hder i ltac:(lia)) as (x & u1 & old & d1 & A1 & A2 & A3 & A4 & A5).
        rewrite Hu in A2. injection A2 as <-. rewrite Hd in A3. injection A3 as <-.
        pose proof (Hp (tm i) x u _ _ _ _ _ _ (trj_x pb t0 x0 N Hsp Hx0 c Hc i x A1) Lu (eq_sym A5)) as P. rewrite <- Em in P. apply P. exact Hy.
      + destruct (ldims pb cf d Vx Vxx l Hdim) as (Q1 & Q2 & Q3 & Q4 & Q5). fold m in Q4.
        pose proof (diag_quad m _ l y Q4) as E. cbn [expansion qQuu_F qQuu] in E, HQ |- *. rewrite Ert in *.
        change ((1 =? 2)%Z) with false in *. change ((1 =? 1)%Z) with true in *. cbv iota in *. rewrite E.
        pose proof (HQ y) as HQy. pose proof (HLp y) as HLy.
        assert (0 < fdot m y y).
        { destruct Hy as (b & Hb & Hyb). unfold fdot. apply Rlt_le_trans with (y b * y b); [nra|].
          set (f := fun x => if Nat.eqb x b then y b * y b else 0). assert (Ef : Rsum m f = y b * y b).
          { rewrite (Rsum_single m f b Hb); [unfold f; rewrite Nat.eqb_refl; reflexivity|]. intros x _ Hx. unfold f. destruct (Nat.eqb_spec x b); [contradiction|reflexivity]. }
          rewrite <- Ef. apply Rsum_le. intros x _. unfold f. destruct (Nat.eqb_spec x b) as [->|]; [lra|nra]. }
        nra.
    - destruct (step_sizes i u d ltac:(lia) Hsec Hu Hd) as (Em & Lu & HsL & HJ0). pose proof (HJ0 Hpc) as HJ.
      apply IH; [lia| |].
      + destruct (lvalue pb cf d Vx Vxx l Hdim k K Vx' Vxx' HK Hv) as (_ & V2 & _). rewrite V2. apply sqVxx_sym.
      + eapply value_psd; eassumption.
  Qed.

  Definition zero_gain (j : nat) : Prop := exists k, nth_error (p_k g) j = Some k /\ forall b, (b < length k)%nat -> vget k b = 0.

  Lemma pass_desc i Vx Vxx gi o : backward_from (cd_u c) ds l i Vx Vxx gi o -> (i <= N)%nat -> fsym n (mget Vxx) -> o = Some g ->
    p_d1 gi <= - / 2 * p_d0 gi ->
    p_d0 g <= p_d0 gi /\ p_d1 g <= - / 2 * p_d0 g /\ (p_d0 g = p_d0 gi -> forall j, (j < i)%nat -> zero_gain j).
  Proof.
    induction 1 as [Vx Vxx g0|i u d Vx Vxx g0 Hsec Hu Hd Hdim Hst|i u d Vx Vxx g0 k K Vx' Vxx' o Hsec Hu Hd Hdim q Hst Hk HK Hv Hb IH];
      intros HiN Hsym Eo E.
    - injection Eo as <-. split; [lra|]. split; [exact E|]. intros; lia.
    - discriminate.
    - destruct (step_sizes i u d ltac:(lia) Hsec Hu Hd) as (Em & Lu & HsL & _).
      destruct (gain_desc i u d Vx Vxx k K (p_k g0) Hdim Hsym HsL Hst Hk) as (G1 & G2 & G3 & _). fold q in G1, G2, G3.
      destruct (lvalue pb cf d Vx Vxx l Hdim k K Vx' Vxx' HK Hv) as (V1 & V2 & V3 & V4).
      destruct (backward_gains _ _ _ _ _ _ _ _ _ _ _ _ _ _ Hb _ Eo) as (ks & Ks & E1 & E2 & L1 & L2 & _). cbn [p_k p_K] in E1, E2.
      assert (Nk : nth_error (p_k g) i = Some k) by (rewrite E1, nth_error_app2, L1, Nat.sub_diag by lia; reflexivity).
      cbn [p_d0 p_d1] in IH. change (@nadd R RNum) with Rplus in *. change (@nmul R RNum) with Rmult in *.
      destruct IH as (I1 & I2 & I3); [lia|rewrite V2; apply sqVxx_sym|exact Eo|lra|].
      split; [lra|]. split; [exact I2|]. intros Eg j Hj.
      assert (j < i \/ j = i)%nat as [H| ->] by lia; [apply I3; [lra|exact H]|].
      exists k. split; [exact Nk|]. rewrite Hk. apply G3. lra.
  Qed.

  (** Zero feed-forward gains = zero gradient. *)
  Lemma pass_stat i Vx Vxx gi o VxN : backward_from (cd_u c) ds l i Vx Vxx gi o -> (i <= N)%nat -> fsym n (mget Vxx) -> o = Some g ->
    (forall h, slope_of pb N h ds VxN - Rsum i (sl pb h ds) = fdot n (vget Vx) (DDPDescent.disp pb h ds i)) ->
    ((forall j, (j < i)%nat -> zero_gain j) -> forall h, slope_of pb N h ds VxN = 0) /\
    ((forall v, length v = N -> inputs_typed pb t0 v -> forall h, p_k h = v -> (forall j, (j < N)%nat -> nth_error (p_K h) j = Some (mzero (nu_of pb (tm j)) n)) ->
        slope_of pb N h ds VxN = 0) -> forall j, (j < i)%nat -> zero_gain j).
  Proof.
    induction 1 as [Vx Vxx g0|i u d Vx Vxx g0 Hsec Hu Hd Hdim Hst|i u d Vx Vxx g0 k K Vx' Vxx' o Hsec Hu Hd Hdim q Hst Hk HK Hv Hb IH];
      intros HiN Hsym Eo E.
    - split; [|intros; lia]. intros _ h. specialize (E h). cbn [DDPDescent.disp Rsum] in E. rewrite fdot_comm, fdot_0_l in E. lra.
    - discriminate.
    - destruct (step_sizes i u d ltac:(lia) Hsec Hu Hd) as (Em & Lu & HsL & _).
      destruct (gain_desc i u d Vx Vxx k K (p_k g0) Hdim Hsym HsL Hst Hk) as (_ & _ & _ & G4). fold q in G4.
      set (m := mcols (dFu d)) in *.
      destruct (lvalue pb cf d Vx Vxx l Hdim k K Vx' Vxx' HK Hv) as (V1 & V2 & V3 & V4). fold m in V1, V2. fold q in V1, V2.
      destruct (backward_gains _ _ _ _ _ _ _ _ _ _ _ _ _ _ Hb _ Eo) as (ks & Ks & E1 & E2 & L1 & L2 & _). cbn [p_k p_K] in E1, E2.
      assert (Nk : nth_error (p_k g) i = Some k) by (rewrite E1, nth_error_app2, L1, Nat.sub_diag by lia; reflexivity).
      assert (Es : forall h, let e := DDPDescent.disp pb h ds i in
        slope_of pb N h ds VxN - Rsum i (sl pb h ds) = fdot n (vget (qQx q)) e + fdot m (vget (qQu q)) (DDPDescent.dispu pb h i e)).
      { intros h e. specialize (E h). rewrite Rsum_S in E. unfold sl at 2 in E. cbn [DDPDescent.disp] in E. rewrite Hd in E. fold m in E. fold e in E.
        set (w := DDPDescent.dispu pb h i e) in *. rewrite fdot_add_r in E.

        unfold q. rewrite (lQx pb cf d Vx Vxx l Hdim), (lQu pb cf d Vx Vxx l Hdim), !fdot_add_l. fold m.
        assert (T1 : fdot n (fmv n (ftr (mget (dFx d))) (vget Vx)) e = fdot n (vget Vx) (fmv n (mget (dFx d)) e)) by (symmetry; apply fdot_mv).
        assert (T2 : fdot m (fmv n (ftr (mget (dFu d))) (vget Vx)) w = fdot n (vget Vx) (fmv m (mget (dFu d)) w)) by (symmetry; apply fdot_mv).
        rewrite T1, T2. lra. }
      assert (Ez : (forall j, (j < m)%nat -> vget k j = 0) -> forall h,
        slope_of pb N h ds VxN - Rsum i (sl pb h ds) = fdot n (vget Vx') (DDPDescent.disp pb h ds i)).
      { intros Hk0 h. rewrite (Es h). pose proof (proj1 G4 Hk0) as Hq0. rewrite V1. unfold sqVx.

        assert (Ek : forall A, fmv m A (vget k) = fzero).
        { intros A. rewrite (fmv_extv m A (vget k) fzero) by exact Hk0. apply fmv_0. }
        assert (Eq : forall A, fmv m A (vget (qQu q)) = fzero).
        { intros A. rewrite (fmv_extv m A (vget (qQu q)) fzero) by exact Hq0. apply fmv_0. }
        rewrite !Ek, Eq, !fdot_add_l, !fdot_0_l.
        rewrite (fdot_ext m (vget (qQu q)) (DDPDescent.dispu pb h i (DDPDescent.disp pb h ds i)) fzero (DDPDescent.dispu pb h i (DDPDescent.disp pb h ds i)) Hq0 (fun _ _ => eq_refl)), fdot_0_l. ring. }
      assert (IH' : (forall j, (j < m)%nat -> vget k j = 0) -> _) by (intros Hk0; exact (IH ltac:(lia) ltac:(rewrite V2; apply sqVxx_sym) Eo (Ez Hk0))).
      clear IH Ez. split.
      + intros Hz h. destruct (Hz i ltac:(lia)) as (k1 & Ek1 & Hk1). rewrite Nk in Ek1. injection Ek1 as <-. rewrite Hk in Hk1.
        apply (proj1 (IH' Hk1)). intros j Hj. apply Hz. lia.
      + intros Hg.
        (* direction supported at step i *)
        assert (Hq0 : forall b, (b < m)%nat -> vget (qQu q) b = 0).
        { set (w := qQu q). assert (Lw : length w = nu_of pb (tm i)) by (rewrite <- Em; apply (ldims pb cf d Vx Vxx l Hdim)).
          set (v := map (fun j => if Nat.eqb j i then w else vzero (nu_of pb (tm j))) (seq 0 N)).
          set (h := {| p_k := v; p_K := map (fun j => mzero (nu_of pb (tm j)) n) (seq 0 N); p_d0 := 0; p_d1 := 0 |}).
          assert (Nv : forall j, (j < N)%nat -> nth_error v j = Some (if Nat.eqb j i then w else vzero (nu_of pb (tm j)))).
          { intros j Hj. unfold v. rewrite nth_error_map, (nth_error_nth' _ O) by (rewrite seq_length; exact Hj). rewrite seq_nth by exact Hj. reflexivity. }
          assert (NK0 : forall j, (j < N)%nat -> nth_error (p_K h) j = Some (mzero (nu_of pb (tm j)) n)).
          { intros j Hj. cbn [h p_K]. rewrite nth_error_map, (nth_error_nth' _ O) by (rewrite seq_length; exact Hj). rewrite seq_nth by exact Hj. reflexivity. }
          assert (Lv : length v = N) by (unfold v; rewrite map_length, seq_length; reflexivity).
          assert (Tv : inputs_typed pb t0 v).
          { intros j y Hy. assert (Hj : (j < N)%nat) by (rewrite <- Lv; apply nth_error_Some; congruence). rewrite (Nv j Hj) in Hy.
            injection Hy as <-. destruct (Nat.eqb_spec j i) as [->|]; [exact Lw|unfold vzero; apply vbuild_length]. }
          specialize (Hg v Lv Tv h eq_refl NK0).
          assert (Zm : forall r e, fmv n (mget (mzero (T := R) r n)) e = fzero).
          { intros r e. apply FunctionalExtensionality.functional_extensionality. intros b. unfold fmv. apply Rsum_zero. intros b' Hb'. rewrite mzero_f. ring. }
          assert (Hd0 : forall j, (j <= i)%nat -> DDPDescent.disp pb h ds j = fzero).
          { induction j as [|j IHj]; intros Hj; [reflexivity|]. cbn [DDPDescent.disp]. rewrite (IHj ltac:(lia)).
            destruct (nth_error ds j); [|reflexivity]. rewrite fmv_0.
            assert (Eu : DDPDescent.dispu pb h j fzero = fzero).
            { unfold DDPDescent.dispu. cbn [h p_k]. rewrite (Nv j ltac:(lia)), (NK0 j ltac:(lia)).
              destruct (Nat.eqb_spec j i) as [->|]; [lia|]. rewrite fmv_0. apply FunctionalExtensionality.functional_extensionality. intros b.
              unfold fadd, fzero. rewrite vzero_f. unfold fzero. ring. }
            rewrite Eu, fmv_0. apply FunctionalExtensionality.functional_extensionality. intros b. unfold fadd, fzero. ring. }
          assert (Hs0 : Rsum i (sl pb h ds) = 0).
          { apply Rsum_zero. intros j Hj. unfold sl. rewrite (Hd0 j ltac:(lia)).
            assert (Eu : DDPDescent.dispu pb h j fzero = fzero).
            { unfold DDPDescent.dispu. cbn [h p_k]. rewrite (Nv j ltac:(lia)), (NK0 j ltac:(lia)).
              destruct (Nat.eqb_spec j i) as [->|]; [lia|]. rewrite fmv_0. apply FunctionalExtensionality.functional_extensionality. intros b.
              unfold fadd, fzero. rewrite vzero_f. unfold fzero. ring. }
            rewrite Eu. destruct (nth_error ds j); [|reflexivity]. rewrite !(fdot_comm _ _ fzero), !fdot_0_l. ring. }
          pose proof (Es h) as E0. cbv zeta in E0. rewrite Hg, Hs0, (Hd0 i (Nat.le_refl i)) in E0.
          rewrite (fdot_comm n _ fzero), fdot_0_l in E0.
          assert (Eu : DDPDescent.dispu pb h i fzero = vget w).
          { unfold DDPDescent.dispu. cbn [h p_k]. rewrite (Nv i ltac:(lia)), (NK0 i ltac:(lia)), Nat.eqb_refl, fmv_0.
            apply FunctionalExtensionality.functional_extensionality. intros b. unfold fadd, fzero. ring. }
          rewrite Eu in E0. fold w in E0. assert (Hw : fdot m (vget w) (vget w) = 0) by lra.
          intros b Hb'. destruct (Req_dec (vget w b) 0) as [Z|Z]; [exact Z|exfalso].
          assert (P : vget w b * vget w b <= fdot m (vget w) (vget w)).
          { set (f := fun x => if Nat.eqb x b then vget w b * vget w b else 0). assert (Ef : Rsum m f = vget w b * vget w b).
            { rewrite (Rsum_single m f b Hb'); [unfold f; rewrite Nat.eqb_refl; reflexivity|]. intros x _ Hx. unfold f. destruct (Nat.eqb_spec x b); [contradiction|reflexivity]. }
            rewrite <- Ef. unfold fdot. apply Rsum_le. intros x _. unfold f. destruct (Nat.eqb_spec x b) as [->|]; [lra|nra]. }
          nra. }
        pose proof (proj2 G4 Hq0) as Hk0. destruct (IH' Hk0) as [_ IH2]. intros j Hj.
        assert (j < i \/ j = i)%nat as [H| ->] by lia; [apply IH2; assumption|].
        exists k. split; [exact Nk|]. rewrite Hk. exact Hk0.
  Qed.
End Pass.

(** ** Closed-loop and open-loop families *)
Section Loops.
  Variables (pb : problem R) (t0 : R) (x0 : vec R) (N : nat).
  Hypothesis Hsp : smooth_problem pb.
  Hypothesis Hx0 : length x0 = pb_nx pb.
  Notation n := (pb_nx pb).
  Notation tm i := (t0 + nofnat i * pb_dt pb)%num.
  Notation traj := (traj pb t0 x0 N).

  Fixpoint cl_inputs (a : R) (i : nat) (x : vec R) (us xs ks : list (vec R)) (Ks : list (mat R)) : list (vec R) :=
    match us, xs, ks, Ks with
    | u :: us', y :: xs', k :: ks', K :: Ks' =>
        let v := vadd (vadd u (vscale a k)) (mvmul K (vsub x y)) in
        v :: cl_inputs a (S i) (pb_stateEq pb (t0 + INR i * pb_dt pb) x v) us' xs' ks' Ks'
    | _, _, _, _ => []
    end.
  Definition gains_fit (c : cdata R) (g : pass R) : Prop :=
    length (p_k g) = N /\ length (p_K g) = N /\
    forall i, (i < N)%nat -> exists k K, nth_error (p_k g) i = Some k /\ nth_error (p_K g) i = Some K /\
      length k = nu_of pb (tm i) /\ mdimb (nu_of pb (tm i)) n K = true.
  Definition cl_cand (c : cdata R) (g : pass R) (a : R) : cdata R := rollout_of pb t0 x0 (cl_inputs a 0 x0 (cd_u c) (cd_x c) (p_k g) (p_K g)).

  Lemma cl_steps a : forall us xs ks Ks i x, (length us <= length xs)%nat -> length ks = length us -> length Ks = length us ->
    let v := cl_inputs a i x us xs ks Ks in length v = length us /\
    forall j, (j < length us)%nat -> exists u y k K z, nth_error us j = Some u /\ nth_error xs j = Some y /\ nth_error ks j = Some k /\ nth_error Ks j = Some K /\
      nth_error (states_of pb t0 i x v) j = Some z /\ nth_error v j = Some (vadd (vadd u (vscale a k)) (mvmul K (vsub z y))).
  Proof.
    induction us as [|u us IH]; intros xs ks Ks i x H1 H2 H3; cbn [length] in *.
    - split; [destruct xs, ks, Ks; reflexivity|intros; lia].
    - destruct xs as [|y xs]; [cbn in H1; lia|]. destruct ks as [|k ks]; [discriminate|]. destruct Ks as [|K Ks]; [discriminate|]. cbn [length cl_inputs] in *.
      set (w := vadd (vadd u (vscale a k)) (mvmul K (vsub x y))).
      destruct (IH xs ks Ks (S i) (pb_stateEq pb (t0 + INR i * pb_dt pb) x w) ltac:(lia) ltac:(lia) ltac:(lia)) as [L S].
      cbv zeta. cbn [length]. split; [lia|]. intros [|j] Hj.
      + exists u, y, k, K, x. cbn [nth_error states_of]. repeat (split; [reflexivity|]). reflexivity.
      + destruct (S j ltac:(lia)) as (u' & y' & k' & K' & z & E). exists u', y', k', K', z. cbn [nth_error states_of]. exact E.
  Qed.
  Lemma cl_cand_ok c g a : traj c -> gains_fit c g -> is_candidate pb t0 x0 N c g a (cl_cand c g a).
  Proof.
    intros Hc (G1 & G2 & G3). pose proof (proj1 Hc) as Hro.
    assert (LuN : length (cd_u c) = N) by apply (ro_lu _ _ _ _ _ Hro).
    destruct (cl_steps a (cd_u c) (cd_x c) (p_k g) (p_K g) 0 x0 ltac:(rewrite (ro_lx _ _ _ _ _ Hro); lia) ltac:(lia) ltac:(lia)) as [L S]. cbv zeta in L, S.
    set (v := cl_inputs a 0 x0 (cd_u c) (cd_x c) (p_k g) (p_K g)) in *.
    assert (Hr : is_rollout pb t0 x0 N (rollout_of pb t0 x0 v)) by (rewrite <- LuN, <- L; apply rollout_of_ok).
    assert (Tv : inputs_typed pb t0 v).
    { intros j w Hw. assert (Hj : (j < length (cd_u c))%nat) by (rewrite <- L; apply nth_error_Some; congruence).
      destruct (S j Hj) as (u & y & k & K & z & E1 & E2 & E3 & E4 & E5 & E6). rewrite Hw in E6. injection E6 as ->. rewrite !vadd_len. apply (proj2 Hc). exact E1. }
    split; [exact Hr|].
    intros i Hi. destruct (S i ltac:(lia)) as (u & y & k & K & z & E1 & E2 & E3 & E4 & E5 & E6).
    destruct (G3 i Hi) as (k' & K' & F1 & F2 & F3 & F4). rewrite E3 in F1. injection F1 as <-. rewrite E4 in F2. injection F2 as <-.
    assert (Ly : length y = n) by (apply (trj_x pb t0 x0 N Hsp Hx0 c Hc i y E2)).
    assert (Lz : length z = n) by (apply (trj_x pb t0 x0 N Hsp Hx0 (rollout_of pb t0 x0 v) (conj Hr Tv) i z E5)).
    assert (Lu : length u = nu_of pb (tm i)) by (apply (proj2 Hc); exact E1).
    exists y, u, z, k, K. split; [exact E2|]. split; [exact E1|]. split; [exact E5|]. split; [exact E3|]. split; [exact E4|].
    split; [congruence|]. split; [rewrite Lu, Ly; exact F4|]. split; [congruence|exact E6].
  Qed.
  Lemma cand_fits c g a c' : traj c -> is_candidate pb t0 x0 N c g a c' -> length (p_k g) = N -> length (p_K g) = N -> gains_fit c g.
  Proof.
    intros Hc [_ H] L1 L2. split; [exact L1|]. split; [exact L2|]. intros i Hi. destruct (H i Hi) as (x & u & x' & k & K & A1 & A2 & A3 & A4 & A5 & A6 & A7 & A8 & A9).
    exists k, K. pose proof (proj2 Hc i u A2) as Lu. pose proof (trj_x pb t0 x0 N Hsp Hx0 c Hc i x A1) as Lx.
    split; [exact A4|]. split; [exact A5|]. split; [congruence|]. rewrite <- Lu, <- Lx. exact A7.
  Qed.

  (** A candidate is determined by the step factor. *)
  Lemma cand_total c g a c1 c2 : traj c -> is_candidate pb t0 x0 N c g a c1 -> is_candidate pb t0 x0 N c g a c2 -> total c1 = total c2.
  Proof.
    intros Hc H1 H2. pose proof (cand_traj pb t0 x0 N c g a _ Hc H1) as T1. pose proof (cand_traj pb t0 x0 N c g a _ Hc H2) as T2.
    assert (U : forall i, (i < N)%nat -> at_x c1 i = at_x c2 i -> at_u c1 i = at_u c2 i).
    { intros i Hi E. destruct (proj2 H1 i Hi) as (x & u & x' & k & K & A1 & A2 & A3 & A4 & A5 & A6 & A7 & A8 & A9).
      destruct (proj2 H2 i Hi) as (y & v & y' & k1 & K1 & B1 & B2 & B3 & B4 & B5 & B6 & B7 & B8 & B9).
      rewrite A1 in B1. injection B1 as <-. rewrite A2 in B2. injection B2 as <-. rewrite A4 in B4. injection B4 as <-. rewrite A5 in B5. injection B5 as <-.
      assert (x' = y') as <-.
      { transitivity (at_x c1 i); [symmetry; apply nth_some; exact A3|]. rewrite E. apply nth_some; exact B3. }
      transitivity (vadd (vadd u (vscale a k)) (mvmul K (vsub x' x))); [apply nth_some; exact A9|symmetry; apply nth_some; exact B9]. }
    assert (X : forall i, (i <= N)%nat -> at_x c1 i = at_x c2 i).
    { induction i as [|i IH]; intros Hi; [rewrite (at_x_0 pb t0 x0 N c1 T1), (at_x_0 pb t0 x0 N c2 T2); reflexivity|].
      specialize (IH ltac:(lia)). pose proof (U i ltac:(lia) IH) as EU.
      destruct (trj_step pb t0 x0 N Hsp Hx0 c1 i T1 ltac:(lia)) as (x & u & A1 & A2 & A3 & A4 & A5 & A6 & A7 & A8).
      destruct (trj_step pb t0 x0 N Hsp Hx0 c2 i T2 ltac:(lia)) as (y & v & B1 & B2 & B3 & B4 & B5 & B6 & B7 & B8).
      rewrite A7, B7. congruence. }
    rewrite (total_sum pb t0 x0 N Hx0 c1 T1), (total_sum pb t0 x0 N Hx0 c2 T2). f_equal.
    - apply Rsum_ext. intros i Hi.
      destruct (trj_step pb t0 x0 N Hsp Hx0 c1 i T1 Hi) as (x & u & A1 & A2 & A3 & A4 & A5 & A6 & A7 & A8).
      destruct (trj_step pb t0 x0 N Hsp Hx0 c2 i T2 Hi) as (y & v & B1 & B2 & B3 & B4 & B5 & B6 & B7 & B8).
      pose proof (X i ltac:(lia)) as EX. pose proof (U i Hi EX) as EU. rewrite A8, B8. congruence.
    - destruct (trj_end pb t0 x0 N Hsp Hx0 c1 T1) as (_ & E1 & _). destruct (trj_end pb t0 x0 N Hsp Hx0 c2 T2) as (_ & E2 & _).
      rewrite E1, E2, (X N (Nat.le_refl N)). reflexivity.
  Qed.

  (** Inputs us + s v. *)
  Definition moved (us v : list (vec R)) (s : R) : list (vec R) :=
    map (fun p => map (fun q => fst q + s * snd q) (combine (fst p) (snd p))) (combine us v).
  Definition open_pass (v : list (vec R)) : pass R :=
    {| p_k := v; p_K := map (fun j => mzero (nu_of pb (tm j)) n) (seq 0 N); p_d0 := 0; p_d1 := 0 |}.
  Lemma moved_cand c v s : traj c -> length v = N -> inputs_typed pb t0 v ->
    is_candidate pb t0 x0 N c (open_pass v) s (rollout_of pb t0 x0 (moved (cd_u c) v s)).
  Proof.
    intros Hc Lv Tv. assert (LuN : length (cd_u c) = N) by apply (ro_lu _ _ _ _ _ (proj1 Hc)).
    assert (Lm : length (moved (cd_u c) v s) = N) by (unfold moved; rewrite map_length, combine_length; lia).
    assert (Nm : forall i u w, nth_error (cd_u c) i = Some u -> nth_error v i = Some w ->
      nth_error (moved (cd_u c) v s) i = Some (map (fun q => fst q + s * snd q) (combine u w))).
    { intros i u w H1 H2. unfold moved.
      apply (map_nth_error (fun p : vec R * vec R => map (fun q => fst q + s * snd q) (combine (fst p) (snd p))) i (combine (cd_u c) v) (d := (u, w))).
      revert i H1 H2. generalize (cd_u c) as l1. clear. induction v as [|b v IH]; intros [|a l1] [|i] H1 H2; try discriminate; cbn in *.
      - congruence.
      - apply IH; assumption. }
    assert (Hr : is_rollout pb t0 x0 N (rollout_of pb t0 x0 (moved (cd_u c) v s))) by (rewrite <- Lm at 1; apply rollout_of_ok).
    assert (Huv : forall i, (i < N)%nat -> exists u w, nth_error (cd_u c) i = Some u /\ nth_error v i = Some w /\ length u = nu_of pb (tm i) /\ length w = nu_of pb (tm i)).
    { intros i Hi. destruct (nth_error (cd_u c) i) as [u|] eqn:E1; [|apply nth_error_None in E1; lia].
      destruct (nth_error v i) as [w|] eqn:E2; [|apply nth_error_None in E2; lia]. exists u, w. split; [reflexivity|]. split; [reflexivity|].
      split; [apply (proj2 Hc); exact E1|apply Tv; exact E2]. }
    assert (Tm : inputs_typed pb t0 (moved (cd_u c) v s)).
    { intros i y Hy. assert (Hi : (i < N)%nat) by (rewrite <- Lm; apply nth_error_Some; congruence).
      destruct (Huv i Hi) as (u & w & E1 & E2 & E3 & E4). rewrite (Nm i u w E1 E2) in Hy. injection Hy as <-. rewrite map_length, combine_length. lia. }
    split; [exact Hr|]. intros i Hi. destruct (Huv i Hi) as (u & w & E1 & E2 & E3 & E4).
    destruct (trj_step pb t0 x0 N Hsp Hx0 c i Hc Hi) as (x & u' & A1 & A2 & A3 & A4 & A5 & A6 & A7 & A8).
    destruct (trj_step pb t0 x0 N Hsp Hx0 _ i (conj Hr Tm) Hi) as (x' & u'' & B1 & B2 & B3 & B4 & B5 & B6 & B7 & B8).
    exists x, u, x', w, (mzero (nu_of pb (tm i)) n). split; [exact A1|]. split; [exact E1|]. split; [exact B1|]. split; [exact E2|].
    split; [cbn [open_pass p_K]; rewrite nth_error_map, (nth_error_nth' _ O) by (rewrite seq_length; exact Hi); rewrite seq_nth by exact Hi; reflexivity|].
    split; [congruence|]. split; [rewrite E3, A5; apply mzero_dim|]. split; [congruence|].
    change (cd_u (rollout_of pb t0 x0 (moved (cd_u c) v s))) with (moved (cd_u c) v s). rewrite (Nm i u w E1 E2).
    apply (f_equal (@Some (vec R))). apply vec_ext; [rewrite !vadd_len, map_length, combine_length; lia|]. intros j Hj. rewrite map_length, combine_length in Hj.
    rewrite vadd_f by (rewrite vadd_len, mvmul_length, (mdimb_rows _ _ _ (mzero_dim (nu_of pb (tm i)) n)); exact E3).
    rewrite vadd_f by (rewrite vscale_len; congruence). rewrite vscale_f, (mvmul_f (nu_of pb (tm i)) n) by apply mzero_dim.
    unfold fadd, fscal, fmv. rewrite Rsum_zero by (intros; rewrite mzero_f; ring). rewrite Rplus_0_r.
    unfold vget. rewrite (nth_indep _ _ (0 + s * 0)) by (rewrite map_length, combine_length; exact Hj).
    change (0 + s * 0) with ((fun q => fst q + s * snd q) (0, 0)) at 1. rewrite map_nth.
    rewrite combine_nth by congruence. reflexivity.
  Qed.
End Loops.
