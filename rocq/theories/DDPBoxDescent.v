(** Input limits: the gains of a backward pass whose Box QPs ended with a small gradient or with every input on a limit give a
    direction that raises the true cost by no more than the gradient threshold times their length. *)
From Verif Require Import Prelude Scalar LinAlg BoxQP DDP DDPSpec DDPProofs DDPCor DDPReal DDPSafe RLin Chol CholProofs LQ LQ2 LQ3 LQ4
  BoxQPProofs QPCor QPReal QPReal2 ProbSpec DDPDescent.
From Verif Require Import P_QPReal P_QPOne.
From Coq Require Import Reals Lra Psatz.
Local Open Scope R_scope.

(** ** Specification *)
Section Spec.
  Variables (pb : problem R) (cf : config R) (t0 : R) (N : nat).
  Variables (LL : lltops R) (limits : option (R -> vec R * vec R)) (qfuel : nat).

  (** A successful backward pass together with the result of each Box QP, of step 0 first; steps without inputs have none. *)
  Inductive boxes_from (us : list (vec R)) (ds : list (deriv R)) (lambda : R) :
    nat -> vec R -> mat R -> pass R -> list (option (qp_out R)) -> pass R -> Prop :=
  | bx_end Vx Vxx g : boxes_from us ds lambda 0 Vx Vxx g [] g
  | bx_step i u d Vx Vxx g k K Vx' Vxx' w outs g' : cf_second cf = false ->
      nth_error us i = Some u -> nth_error ds i = Some d -> deriv_dims pb d Vx Vxx = true ->
      let q := expansion cf d Vx Vxx lambda in
      step_gains pb cf t0 LL limits qfuel i u d q (p_k g) (Some (k, K)) ->
      (mcols (dFu d) = 0%nat /\ w = None \/
       exists f ik out, box pb t0 LL limits qfuel i u d q (p_k g) f ik out /\ qo_x out = k /\ w = Some out) ->
      length k = mcols (dFu d) -> mdimb (mcols (dFu d)) (pb_nx pb) K = true ->
      propagate q k K = (Vx', Vxx') ->
      boxes_from us ds lambda i Vx' Vxx'
        {| p_k := k :: p_k g; p_K := K :: p_K g; p_d0 := p_d0 g + dot k (qQu q);
           p_d1 := p_d1 g + nhalf * dot k (mvmul (qQuu q) k) |} outs g' ->
      boxes_from us ds lambda (S i) Vx Vxx g (outs ++ [w]) g'.
  Definition boxes (c : cdata R) (lambda : R) (outs : list (option (qp_out R))) (g : pass R) : Prop :=
    exists ds xN old, length ds = N /\
      (forall i, (i < N)%nat -> exists x u old d, nth_error (cd_x c) i = Some x /\ nth_error (cd_u c) i = Some u /\
         nth_error ds i = Some d /\ derivs_at pb cf (t0 + nofnat i * pb_dt pb)%num x u old d) /\
      nth_error (cd_x c) N = Some xN /\
      let V := pb_terminalCostDeriv pb (t0 + nofnat N * pb_dt pb)%num xN old in
      boxes_from (cd_u c) ds lambda N (fst V) (snd V) {| p_k := []; p_K := []; p_d0 := nzero; p_d1 := nzero |} outs g.

  (** The Box QP reported a small gradient (5) or that every input is on a limit (6). *)
  Definition settled (w : option (qp_out R)) : Prop :=
    match w with None => True | Some out => qo_retval out = 5%Z \/ qo_retval out = 6%Z end.
  (** The inputs are within the limits. *)
  Definition within_limits (us : list (vec R)) : Prop :=
    forall f i u b, limits = Some f -> nth_error us i = Some u -> (b < length u)%nat ->
      vget (fst (f (t0 + INR i * pb_dt pb))) b <= vget u b <= vget (snd (f (t0 + INR i * pb_dt pb))) b.
  (** The sum of the lengths of the feed-forward gains. *)
  Definition gain_size (g : pass R) : R := fold_right (fun k a => sqrt (Rsum (length k) (fun b => vget k b * vget k b)) + a) 0 (p_k g).
  (** The sum of their squared lengths. *)
  Definition gain_square (g : pass R) : R := fold_right (fun k a => Rsum (length k) (fun b => vget k b * vget k b) + a) 0 (p_k g).
  (** Each Luu is at least [mu] times the identity. *)
  Definition input_modulus (mu : R) : Prop := forall t x u old Lx Lu Lxx Luu Lxu, length x = pb_nx pb -> length u = nu_of pb t ->
    pb_runningCostDeriv pb t x u old = (Lx, Lu, Lxx, Luu, Lxu) ->
    forall y, mu * Rsum (nu_of pb t) (fun b => y b * y b) <= Rsum (nu_of pb t) (fun b => y b * Rsum (nu_of pb t) (fun b' => mget Luu b b' * y b')).
  (** At most one input per step, weighted with at least [mu] > 0, and an exact factorisation. *)
  Definition one_input (mu : R) : Prop := exact_llt LL /\ 0 < mu /\ forall t, (nu_of pb t <= 1)%nat.
End Spec.

Section Lemmas.
  Variables (pb : problem R) (cf : config R) (t0 : R) (N : nat).
  Variables (LL : lltops R) (limits : option (R -> vec R * vec R)) (qfuel : nat).
  Lemma boxes_backward us ds l i Vx Vxx gi outs g : boxes_from pb cf t0 LL limits qfuel us ds l i Vx Vxx gi outs g ->
    backward_from pb cf t0 LL limits qfuel us ds l i Vx Vxx gi (Some g).
  Proof. induction 1; [constructor|]. econstructor; eassumption. Qed.
  Lemma backward_boxes us ds l i Vx Vxx gi o : cf_constraint cf = true -> backward_from pb cf t0 LL limits qfuel us ds l i Vx Vxx gi o ->
    forall g, o = Some g -> exists outs, boxes_from pb cf t0 LL limits qfuel us ds l i Vx Vxx gi outs g.
  Proof.
    intros Hcon. induction 1 as [Vx Vxx g0|i u d Vx Vxx g0 Hsec Hu Hd Hdim Hst|i u d Vx Vxx g0 k K Vx' Vxx' o Hsec Hu Hd Hdim q Hst Hk HK Hv Hb IH]; intros g E.
    - injection E as <-. exists []. constructor.
    - discriminate.
    - destruct (IH g E) as (outs & B).
      assert (W : exists w, mcols (dFu d) = 0%nat /\ w = None \/ exists f ik out, box pb t0 LL limits qfuel i u d q (p_k g0) f ik out /\ qo_x out = k /\ w = Some out).
      { remember (Some (k, K)) as o' eqn:Eo.
        destruct Hst as [H0| |Hpos Hcc His| |f' ik out K' Hpos Hcc Hbx]; try discriminate; try (rewrite Hcon in *; discriminate).
        - exists None. left. auto.
        - exists (Some out). right. exists f', ik, out. injection Eo as <- _. auto. }
      destruct W as (w & W). exists (outs ++ [w]). econstructor; eassumption.
  Qed.
  (** Nearly optimal on the box, and the box contains 0: the slope at the solution along itself is small. *)
  Lemma quad_line m H g k th : fsym m H -> quad m H g (fun i => (1 - th) * k i) =
    quad m H g k - th * (fdot m k (fmv m H k) + fdot m k g) + th * th / 2 * fdot m k (fmv m H k).
  Proof.
    intros _. unfold quad. 
    assert (E1 : Rsum m (fun i => (1 - th) * k i * g i) = (1 - th) * fdot m k g).
    { unfold fdot. rewrite <- Rsum_scal. apply Rsum_ext. intros. ring. }
    assert (E2 : Rsum m (fun i => (1 - th) * k i * Rsum m (fun j => H i j * ((1 - th) * k j))) = (1 - th) * (1 - th) * fdot m k (fmv m H k)).
    { unfold fdot, fmv. rewrite <- Rsum_scal. apply Rsum_ext. intros i _. 
      replace (Rsum m (fun j => H i j * ((1 - th) * k j))) with ((1 - th) * Rsum m (fun j => H i j * k j)); [ring|].
      rewrite <- Rsum_scal. apply Rsum_ext. intros. ring. }
    rewrite E1, E2. change (Rsum m (fun i => k i * g i)) with (fdot m k g).
    change (Rsum m (fun i => k i * Rsum m (fun j => H i j * k j))) with (fdot m k (fmv m H k)). field.
  Qed.
  Lemma small_slope (a b c : R) : 0 <= b -> (forall th, 0 < th <= 1 -> th * a <= th * c + th * th * b) -> a <= c.
  Proof.
    intros Hb H. destruct (Rle_lt_dec a c) as [L|L]; [exact L|exfalso].
    set (th := Rmin 1 ((a - c) / (2 * (b + 1)))). assert (P : 0 < (a - c) / (2 * (b + 1))) by (apply Rdiv_lt_0_compat; lra).
    assert (T0 : 0 < th) by (unfold th; apply Rmin_glb_lt; lra). assert (T1 : th <= 1) by apply Rmin_l.
    specialize (H th (conj T0 T1)). assert (T2 : th * (2 * (b + 1)) <= a - c).
    { apply Rle_trans with ((a - c) / (2 * (b + 1)) * (2 * (b + 1))); [apply Rmult_le_compat_r; [lra|apply Rmin_r]|]. right. field. lra. }
    assert (E : th * a - th * c - th * th * b = th * (a - c - th * b)) by ring. assert (th * b < a - c) by nra. nra.
  Qed.
End Lemmas.

Section Pass.
  Variables (pb : problem R) (cf : config R) (t0 : R) (x0 : vec R) (N : nat).
  Variables (LL : lltops R) (limits : option (R -> vec R * vec R)) (qfuel : nat).
  Hypothesis Hsp : smooth_problem pb.
  Hypothesis Hpc : psd_costs pb.
  Hypothesis Hx0 : length x0 = pb_nx pb.
  Notation n := (pb_nx pb).
  Variable c : cdata R.
  Hypothesis Hc : traj pb t0 x0 N c.
  Variable mu : R.
  Hypothesis Hmu : input_modulus pb mu.
  Variable l : R.
  Hypothesis Hl : 0 <= l.
  Variable ds : list (deriv R).
  Hypothesis Hder : forall j, (j < N)%nat -> exists x u old d, nth_error (cd_x c) j = Some x /\ nth_error (cd_u c) j = Some u /\
         nth_error ds j = Some d /\ derivs_at pb cf (t0 + nofnat j * pb_dt pb)%num x u old d.
  Lemma step_modulus i u d : (i < N)%nat -> cf_second cf = false -> nth_error (cd_u c) i = Some u -> nth_error ds i = Some d ->
    forall y, mu * Rsum (mcols (dFu d)) (fun b => y b * y b) <= fdot (mcols (dFu d)) y (fmv (mcols (dFu d)) (mget (dLuu d)) y).
  Proof.
    intros Hi Hsec Hu Hd y. destruct (step_sizes pb cf t0 x0 N Hsp Hx0 c Hc ds Hder i u d Hi Hsec Hu Hd) as (Em & Lu & _). rewrite Em.
    destruct (Hder i Hi) as (x & u1 & old & d1 & A1 & A2 & A3 & A4 & A5). rewrite Hu in A2. injection A2 as <-. rewrite Hd in A3. injection A3 as <-.
    exact (Hmu _ x u _ _ _ _ _ _ (trj_x pb t0 x0 N Hsp Hx0 c Hc i x A1) Lu (eq_sym A5) y).
  Qed.
  (** The Hessian of the Box QP is positive (semi-)definite. *)
  Lemma quu_below i u d Vx Vxx : (i < N)%nat -> cf_second cf = false -> nth_error (cd_u c) i = Some u -> nth_error ds i = Some d ->
    deriv_dims pb d Vx Vxx = true -> psd n (mget Vxx) -> let q := expansion cf d Vx Vxx l in
    forall y, fdot (mcols (dFu d)) y (fmv (mcols (dFu d)) (mget (dLuu d)) y) <= fdot (mcols (dFu d)) y (fmv (mcols (dFu d)) (mget (qQuu q)) y).
  Proof.
    intros Hi Hsec Hu Hd Hdim Hpsd q y. destruct (step_sizes pb cf t0 x0 N Hsp Hx0 c Hc ds Hder i u d Hi Hsec Hu Hd) as (_ & _ & _ & HJ0). pose proof (HJ0 Hpc) as HJ.
    unfold q. rewrite (lQuu pb cf d Vx Vxx l Hdim). apply quu_psd; [exact Hpsd|].
    intros z. specialize (HJ fzero z). rewrite !fdot_0_l in HJ. lra.
  Qed.

  Hypothesis Hlim : within_limits pb t0 limits (cd_u c).
  Notation thre := (qp_grad_thre (qp_default_config (T := R))).
  Definition len (k : vec R) : R := sqrt (Rsum (length k) (fun b => vget k b * vget k b)).

  Lemma box_desc i u d Vx Vxx ks f ik out : (i < N)%nat -> cf_second cf = false -> nth_error (cd_u c) i = Some u -> nth_error ds i = Some d ->
    deriv_dims pb d Vx Vxx = true -> fsym n (mget Vxx) -> psd n (mget Vxx) ->
    let q := expansion cf d Vx Vxx l in let k := qo_x out in
    box pb t0 LL limits qfuel i u d q ks f ik out -> settled (Some out) \/ one_input pb LL mu -> length k = mcols (dFu d) ->
    mu * Rsum (length k) (fun b => vget k b * vget k b) <= dot k (mvmul (qQuu q) k) /\ 0 <= dot k (mvmul (qQuu q) k) /\ dot k (qQu q) + dot k (mvmul (qQuu q) k) <= thre * len k.
  Proof.
    intros Hi Hsec Hu Hd Hdim Hsym Hpsd q k Hbox Hset Lk.
    destruct (step_sizes pb cf t0 x0 N Hsp Hx0 c Hc ds Hder i u d Hi Hsec Hu Hd) as (Em & Lu & HsL & HJ0). pose proof (HJ0 Hpc) as HJ.
    set (m := mcols (dFu d)) in *.
    destruct (ldims pb cf d Vx Vxx l Hdim) as (Q1 & Q2 & Q3 & Q4 & Q5). fold m q in Q1, Q3, Q4.
    destruct (reg_facts pb cf d Vx Vxx l Hdim Hl Hsym HsL) as (R1 & R2 & R3 & R4). fold m q in R1, R2, R3, R4.
    assert (Edot1 : dot k (qQu q) = fdot m (vget k) (vget (qQu q))) by (rewrite dot_R, Lk; reflexivity).
    assert (Edot2 : dot k (mvmul (qQuu q) k) = fdot m (vget k) (fmv m (mget (qQuu q)) (vget k))).
    { rewrite dot_R, Lk, (mvmul_f m m _ _ Q4). reflexivity. }
    rewrite Edot1, Edot2.
    assert (HLp : forall y, 0 <= fdot m y (fmv m (mget (dLuu d)) y)).
    { intros y. specialize (HJ fzero y). rewrite !fdot_0_l in HJ. lra. }
    assert (HQ : forall y, 0 <= fdot m y (fmv m (mget (qQuu q)) y)).
    { intros y. eapply Rle_trans; [apply HLp|]. exact (quu_below i u d Vx Vxx Hi Hsec Hu Hd Hdim Hpsd y). }
    assert (HF : psd m (mget (qQuu_F q))) by (intros y; eapply Rle_trans; [apply HQ|apply R4]).
    split; [rewrite Lk; eapply Rle_trans; [apply (step_modulus i u d Hi Hsec Hu Hd)|exact (quu_below i u d Vx Vxx Hi Hsec Hu Hd Hdim Hpsd (vget k))]|].
    split; [apply HQ|].
    destruct Hbox as (Ef & L1 & L2 & Eik & Hrun). cbv zeta in L1, L2, Hrun.
    assert (Emc : mcols (qQuu_F q) = m) by (apply (mdimb_cols _ _ _ R1)).
    rewrite Emc in Hrun.
    set (t := (t0 + nofnat i * pb_dt pb)%num) in *.
    assert (Et : t = t0 + INR i * pb_dt pb) by (unfold t, nofnat, nofZ; numR; rewrite <- INR_IZR_INZ; unfold Rdiv; rewrite Rinv_1, Rmult_1_r; reflexivity).
    destruct (qp_ok _ _ _ _ _ _ _ _ _ _ _ _ _ _ Hrun) as (_ & _ & HH & Hg & Hlo & Hup & _).
    assert (B0 : in_box m (vsub (fst (f t)) u) (vsub (snd (f t)) u) fzero /\ (forall i, (i < m)%nat -> vget (vsub (fst (f t)) u) i <= vget (vsub (snd (f t)) u) i)).
    { assert (A : forall b, (b < m)%nat -> vget (vsub (fst (f t)) u) b <= 0 <= vget (vsub (snd (f t)) u) b).
      { intros b Hb. destruct (Hlim f i u b Ef Hu) as [A1 A2]; [lia|]. rewrite <- Et in A1, A2. rewrite !vsub_f by lia. unfold fsubv. lra. }
      split; [exact A|]. intros b Hb. specialize (A b Hb). lra. }
    destruct B0 as [B0 Bo].
    assert (Bk : in_box m (vsub (fst (f t)) u) (vsub (snd (f t)) u) (vget k)) by (intros b Hb; apply (qp_feasible_R _ _ _ _ _ _ _ _ _ _ _ _ _ _ b Hrun Hb (Bo b Hb))).
    assert (Th : 0 < thre) by (cbn; numR; lra).
    assert (S0 : 0 <= Rsum m (fun b => vget k b * vget k b)) by (apply Rsum_nonneg; intros; nra).
    assert (Opt : forall th, 0 < th <= 1 -> quad m (mget (qQuu_F q)) (vget (qQu q)) (vget k) - th * (thre * len k) <= quad m (mget (qQuu_F q)) (vget (qQu q)) (fun b => (1 - th) * vget k b)).
    { intros th Hth. set (y := fun b => (1 - th) * vget k b).
      assert (By : in_box m (vsub (fst (f t)) u) (vsub (snd (f t)) u) y).
      { intros b Hb. specialize (Bk b Hb). specialize (B0 b Hb). unfold fzero in B0. unfold y. nra. }
      destruct Hset as [[E|E]|(HE & Pmu & Hone)].
      - pose proof (C20_small_gradient_near_optimal _ _ _ _ _ _ _ _ _ _ _ _ _ _ R3 Hrun y HF E By) as O. fold k in O.
        rewrite (Rabs_pos_eq thre) in O by lra.
        replace (Rsum m (fun b => (y b - vget k b) * (y b - vget k b))) with (th * th * Rsum m (fun b => vget k b * vget k b)) in O
          by (rewrite <- Rsum_scal; apply Rsum_ext; intros b _; unfold y; ring).
        rewrite sqrt_mult in O by nra. rewrite sqrt_square in O by lra. unfold len. rewrite Lk. lra.
      - pose proof (C19_all_clamped_optimal _ _ _ _ _ _ _ _ _ _ _ _ _ _ R3 Hrun y HF E By) as O. fold k in O.
        assert (0 <= th * (thre * len k)) by (apply Rmult_le_pos; [lra|apply Rmult_le_pos; [lra|apply sqrt_pos]]). lra.
      - assert (Hm : (m <= 1)%nat) by (rewrite Em; apply Hone).
        assert (HPD : posdef m (mget (qQuu_F q))).
        { intros z (b & Hb & Hz). assert (P : 0 < Rsum m (fun b => z b * z b)) by (apply Rlt_le_trans with (z b * z b); [nra|]; apply (Rsum_term_le m (fun b => z b * z b) b); [intros; nra|exact Hb]).
          eapply Rlt_le_trans; [|apply R4]. eapply Rlt_le_trans; [|exact (quu_below i u d Vx Vxx Hi Hsec Hu Hd Hdim Hpsd z)].
          eapply Rlt_le_trans; [|apply (step_modulus i u d Hi Hsec Hu Hd)]. apply Rmult_lt_0_compat; [exact Pmu|exact P]. }
        assert (0 <= th * (thre * len k)) by (apply Rmult_le_pos; [lra|apply Rmult_le_pos; [lra|apply sqrt_pos]]).
        clearbody m. assert (Em1 : m = 0%nat \/ m = 1%nat) by lia. destruct Em1 as [-> | ->]; [unfold quad; cbn [Rsum]; lra|].
        assert (Hh : 0 < mget (qQuu_F q) 0 0).
        { specialize (HPD (fun _ => 1) (ex_intro _ 0%nat (conj Nat.lt_0_1 R1_neq_R0))). unfold fdot, fmv in HPD. cbn [Rsum] in HPD. lra. }
        destruct (C78_one_variable _ _ _ _ _ _ _ _ _ _ _ _ _ Hrun HE Hh (Bo 0%nat Nat.lt_0_1)) as (_ & _ & _ & Mn & [E|(E & _)]); try (cbn; numR; lra).
        + specialize (Mn (y 0%nat) (By 0%nat Nat.lt_0_1)). rewrite <- E in Mn. fold k in Mn.
          replace (quad 1 (mget (qQuu_F q)) (vget (qQu q)) (vget k)) with (par (mget (qQuu_F q) 0 0) (vget (qQu q) 0) (vget k 0)) by (unfold quad, par; cbn [Rsum]; ring).
          replace (quad 1 (mget (qQuu_F q)) (vget (qQu q)) y) with (par (mget (qQuu_F q) 0 0) (vget (qQu q) 0) (y 0%nat)) by (unfold quad, par; cbn [Rsum]; ring). lra.
        + pose proof (C20_small_gradient_near_optimal _ _ _ _ _ _ _ _ _ _ _ _ _ _ R3 Hrun y HF E By) as O. fold k in O.
          rewrite (Rabs_pos_eq thre) in O by lra.
          replace (Rsum 1 (fun b => (y b - vget k b) * (y b - vget k b))) with (th * th * Rsum 1 (fun b => vget k b * vget k b)) in O
            by (rewrite <- Rsum_scal; apply Rsum_ext; intros b _; unfold y; ring).
          rewrite sqrt_mult in O by nra. rewrite sqrt_square in O by lra. unfold len. rewrite Lk. lra. }
    pose proof (R4 (vget k)) as R4k. apply Rle_trans with (fdot m (vget k) (vget (qQu q)) + fdot m (vget k) (fmv m (mget (qQuu_F q)) (vget k))); [lra|].
    apply small_slope with (b := / 2 * fdot m (vget k) (fmv m (mget (qQuu_F q)) (vget k))); [pose proof (HF (vget k)); lra|].
    intros th Hth. specialize (Opt th Hth). rewrite quad_line in Opt by exact R3. lra.
  Qed.

  Lemma boxes_desc i Vx Vxx gi outs g : boxes_from pb cf t0 LL limits qfuel (cd_u c) ds l i Vx Vxx gi outs g -> (i <= N)%nat ->
    fsym n (mget Vxx) -> psd n (mget Vxx) -> Forall settled outs \/ one_input pb LL mu ->
    mu / 2 * (gain_square g - gain_square gi) <= p_d1 g - p_d1 gi /\ p_d1 gi <= p_d1 g /\ (p_d0 g - p_d0 gi) + 2 * (p_d1 g - p_d1 gi) <= thre * (gain_size g - gain_size gi).
  Proof.
    induction 1 as [Vx Vxx g0|i u d Vx Vxx g0 k K Vx' Vxx' w outs g Hsec Hu Hd Hdim q Hst Hw Hk HK Hv Hb IH]; intros HiN Hsym Hpsd Hset.
    - repeat split; lra.
    - assert (Hs1 : settled w \/ one_input pb LL mu) by (destruct Hset as [Hset|]; [left|right; assumption]; apply Forall_app in Hset as [_ Hs1]; exact (Forall_inv Hs1)).
      assert (Hset' : Forall settled outs \/ one_input pb LL mu) by (destruct Hset as [Hset|]; [left|right; assumption]; apply Forall_app in Hset as [Hset _]; exact Hset).
      destruct (step_sizes pb cf t0 x0 N Hsp Hx0 c Hc ds Hder i u d ltac:(lia) Hsec Hu Hd) as (Em & Lu & HsL & HJ0). pose proof (HJ0 Hpc) as HJ.
      destruct (lvalue pb cf d Vx Vxx l Hdim k K Vx' Vxx' HK Hv) as (_ & V2 & _).
      destruct IH as (I0 & I1 & I2); [lia|rewrite V2; apply sqVxx_sym|eapply value_psd; eassumption|exact Hset'|].
      assert (G : mu * Rsum (length k) (fun b => vget k b * vget k b) <= dot k (mvmul (qQuu q) k) /\ 0 <= dot k (mvmul (qQuu q) k) /\ dot k (qQu q) + dot k (mvmul (qQuu q) k) <= thre * len k).
      { destruct Hw as [[H0 _]|(f & ik & out & Hbx & Ek & ->)].
        - rewrite H0 in Hk. apply length_zero_iff_nil in Hk. subst k. unfold len. cbn [length Rsum]. rewrite sqrt_0. rewrite !dot_R. cbn [length Rsum fdot]. unfold fdot. cbn [Rsum]. repeat split; lra.
        - subst k. eapply box_desc; try eassumption; lia. }
      unfold gain_square in I0 |- *. unfold gain_size in I2 |- *. cbn [p_k p_d0 p_d1 fold_right] in I0, I1, I2. fold (gain_square g) in I0 |- *. fold (gain_square g0) in I0 |- *. fold (gain_size g) in I2 |- *. fold (gain_size g0) in I2 |- *. fold (len k) in I2.
      rewrite half_R in I0, I1, I2. change (@nadd R RNum) with Rplus in *. change (@nmul R RNum) with Rmult in *. lra.
  Qed.

  (** Limits in order and positive definite input Hessians: no pass fails. *)
  Lemma boxes_some i Vx Vxx gi o : exact_llt LL -> cf_constraint cf = true ->
    (forall f t b, limits = Some f -> (b < nu_of pb t)%nat -> vget (fst (f t)) b <= vget (snd (f t)) b) ->
    0 < mu \/ (cf_reg_type cf = 1%Z /\ 0 < l) ->
    backward_from pb cf t0 LL limits qfuel (cd_u c) ds l i Vx Vxx gi o -> (i <= N)%nat -> fsym n (mget Vxx) -> psd n (mget Vxx) -> o <> None.
  Proof.
    intros HE Hcon Hord Hst0.
    induction 1 as [Vx Vxx g0|i u d Vx Vxx g0 Hsec Hu Hd Hdim Hst|i u d Vx Vxx g0 k K Vx' Vxx' o Hsec Hu Hd Hdim q Hst Hk HK Hv Hb IH];
      intros HiN Hsym Hpsd; [discriminate| |].
    - exfalso. destruct (step_sizes pb cf t0 x0 N Hsp Hx0 c Hc ds Hder i u d ltac:(lia) Hsec Hu Hd) as (Em & Lu & HsL & HJ0). pose proof (HJ0 Hpc) as HJ.
      destruct (reg_facts pb cf d Vx Vxx l Hdim Hl Hsym HsL) as (R1 & R2 & R3 & R4).
      pose proof (step_modulus i u d ltac:(lia) Hsec Hu Hd) as Hmo.
      pose proof (quu_below i u d Vx Vxx ltac:(lia) Hsec Hu Hd Hdim Hpsd) as HQ. cbv zeta in HQ.
      remember (@None (vec R * mat R)) as o eqn:Eo.
      destruct Hst as [H0|Hpos Hcc His|Hpos Hcc His|f ik out Hpos Hcc Hbox Hneg|]; [discriminate|rewrite Hcon in Hcc; discriminate|discriminate| |discriminate].
      set (m := mcols (dFu d)) in *. set (q := expansion cf d Vx Vxx l) in *.
      assert (HLp : forall y, 0 <= fdot m y (fmv m (mget (dLuu d)) y)).
      { intros y. specialize (HJ fzero y). rewrite !fdot_0_l in HJ. lra. }
      assert (HPD : posdef m (mget (qQuu_F q))).
      { intros y Hy.
        assert (P : 0 < Rsum m (fun b => y b * y b)).
        { destruct Hy as (b & Hb & Hyb). apply Rlt_le_trans with (y b * y b); [nra|].
          apply (Rsum_term_le m (fun b => y b * y b) b); [intros; nra|exact Hb]. }
        destruct Hst0 as [Hp|[Ert Hl0]].
        - eapply Rlt_le_trans; [|apply R4]. eapply Rlt_le_trans; [|apply HQ]. eapply Rlt_le_trans; [|apply Hmo]. nra.
        - destruct (ldims pb cf d Vx Vxx l Hdim) as (Q1 & Q2 & Q3 & Q4 & Q5). fold m in Q4. unfold q.
          pose proof (diag_quad m _ l y Q4) as E. unfold q in HQ. cbn [expansion qQuu_F qQuu] in E, HQ |- *. rewrite Ert in *.
          change ((1 =? 2)%Z) with false in *. change ((1 =? 1)%Z) with true in *. cbv iota in *. rewrite E.
          pose proof (HQ y) as HQy. pose proof (HLp y) as HLy. change (fdot m y y) with (Rsum m (fun b => y b * y b)). nra. }
      destruct Hbox as (Ef & L1 & L2 & Eik & Hrun). cbv zeta in L1, L2, Hrun. rewrite (mdimb_cols _ _ _ R1) in Hrun.
      destruct (C22_no_failure LL qp_default_config _ _ _ _ _ _ _ _ _ _ _ _ R3 Hrun HE HPD) as [F1 F2].
      + intros b Hb. rewrite !vsub_f by lia. unfold fsubv. pose proof (Hord f (t0 + nofnat i * pb_dt pb)%num b Ef ltac:(lia)). lra.
      + cbn. lra.
      + cbn. lra.
      + cbn. lra.
      + pose proof (qp_retval _ _ _ _ _ _ _ _ _ _ _ _ _ _ Hrun) as Hr. cbn in Hr. lia.
    - destruct (step_sizes pb cf t0 x0 N Hsp Hx0 c Hc ds Hder i u d ltac:(lia) Hsec Hu Hd) as (Em & Lu & HsL & HJ0). pose proof (HJ0 Hpc) as HJ.
      apply IH; [lia| |].
      + destruct (lvalue pb cf d Vx Vxx l Hdim k K Vx' Vxx' HK Hv) as (_ & V2 & _). rewrite V2. apply sqVxx_sym.
      + eapply value_psd; eassumption.
  Qed.
End Pass.
