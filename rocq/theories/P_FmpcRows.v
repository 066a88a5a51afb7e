(** C63: inequality rows that are affine, on problems that need not be. *)
From Coq Require Import Reals Lra Psatz.
From Verif Require Import Prelude Scalar LinAlg RLin DDP DDPSafe ExDDP Fmpc FmpcProofs FmpcStep FmpcSpec FmpcReal FmpcNewton FmpcSafe FmpcAffine FmpcRows ExFmpc P_FmpcRun P_FmpcReal P_FmpcNewton.
From Verif Require Import P_FmpcHist Problems ProbSolve P_ProblemsRun.
Local Open Scope R_scope.

Section Rows.
  Variables (LO : linops R) (pb : fproblem R) (cf : fconfig R) (jk : fjunk R) (D : derivs R).
  Hypothesis CM : computes pb D.
  (** One iteration that continues multiplies the residual of the initial state and the residuals g_j + s_j of all affine rows by 1 - a, a being the
      primal step length: whatever the dynamics and the other rows are, and whatever the linear solves return. *)
  Theorem C63_step fuel it s s' : proc_once LO pb cf fuel it s = Ok IterationContinued s' -> nonneg_var (f_var s) ->
    exists a, 0 < a <= 1 /\ rows_scaled pb (affine_row pb D) (f_t s) (f_x s) (Nf cf) (1 - a) (f_var s) (f_var s') /\
      moved (Nf cf) a (v_s (f_var s)) (v_s (f_delta s')) (v_s (f_var s')).
  Proof.
    intros H [Ps Pn]. apply proc_cont in H as (eps & cl & e & cl' & d & _ & Hc & Hb & Hd & Hu & _ & Ed & _).
    destruct (passes_primal LO pb cf D (checked s it eps cl e) (f_coeff s) cl' d CM Hc Hb Hd) as (Q1 & Q2).
    apply update_R in Hu; [|exact Ps|exact Pn].
    destruct Hu as (a_max & a_n & a_s & s2 & _ & _ & _ & P1 & P2 & P3 & _ & _ & _ & _ & _ & _ & M1 & M2 & M3 & M4 & M5 & _).
    exists a_s. split; [lra|]. rewrite Ed. split; [|first [exact M3|exact M4|exact M2]]. eapply row_step; eauto.
  Qed.
  Lemma loop_rows fuel n : forall it st s r s', fopt_loop LO pb cf fuel n it st s = Ok r s' -> nonneg_var (f_var s) ->
    exists c, 0 <= c <= 1 /\ rows_scaled pb (affine_row pb D) (f_t s) (f_x s) (Nf cf) c (f_var s) (f_var s') /\ (r = IterationContinued -> n <> O -> c < 1).
  Proof using CM.
    induction n as [|n IH]; intros it st s r s' H P; cbn [fopt_loop] in H.
    - injection H as <- <-. exists 1. split; [lra|]. split; [apply rows_refl|]. intros _ X. exfalso. apply X. reflexivity.
    - unfold bind in H. destruct (proc_once LO pb cf fuel it s) as [r1 s1| | |] eqn:E; try discriminate.
      pose proof (proc_once_post _ _ _ _ _ _ _ _ E) as (e & _ & Et & Ex & _ & _ & _ & Hv).
      assert (Stop : r1 <> IterationContinued -> r1 = r -> s1 = s' ->
        exists c, 0 <= c <= 1 /\ rows_scaled pb (affine_row pb D) (f_t s) (f_x s) (Nf cf) c (f_var s) (f_var s') /\ (r = IterationContinued -> Datatypes.S n <> O -> c < 1)).
      { intros Hne <- <-. exists 1. split; [lra|]. rewrite (Hv Hne). split; [apply rows_refl|]. intros X. contradiction. }
      destruct r1; try (unfold ret in H; injection H as H H'; apply Stop; [discriminate|exact H|exact H']).
      destruct (C63_step _ _ _ _ E P) as (a & Ha & Sa & _).
      assert (P1 : nonneg_var (f_var s1)).
      { apply (proc_once_var LO pb cf nonneg_var) with (2 := E); [|exact P]. intros fl st0 st' U Q. apply (C30_update pb cf fl st0 st' U Q). }
      destruct (IH _ _ _ _ _ H P1) as (c & Hc & Sc & Hlt). rewrite Et, Ex in Sc. exists ((1 - a) * c). split; [nra|].
      split; [eapply rows_trans; eassumption|]. intros _ _. nra.
  Qed.
  (** A whole run multiplies them by one factor c in [0, 1], which is below 1 if the iteration limit was reached. *)
  Theorem C63_run fuel t0 x0 v0 s r s' : fmpc_solve LO pb cf jk fuel t0 x0 v0 s = Ok r s' ->
    exists v c, (fc_init cf = false -> v = v0) /\ v_x v = v_x v0 /\ v_u v = v_u v0 /\
      (fc_init cf = true -> forall i, (i < Nf cf)%nat ->
         let g := fp_g pb (t0 + INR i * pb_dt (fp_dp pb)) (nth i (v_x v0) []) (nth i (v_u v0) []) in
         length (nth i (v_s v) []) = length g /\ forall j, (j < length g)%nat -> vget (nth i (v_s v) []) j = 101 / 100 * Rmax (- vget g j) (1 / 100)) /\
      0 <= c <= 1 /\ rows_scaled pb (affine_row pb D) t0 x0 (Nf cf) c v (f_var s') /\ (r = MaxIterationReached -> c < 1).
  Proof.
    intros H. destruct (solve_checked _ _ _ _ _ _ _ _ _ _ _ H) as (v1 & eps1 & Hi1 & Hb1 & _ & Hs1). pose proof (checked_nonneg _ _ Hb1 Hs1) as Hn.
    rewrite solve_form_eq in H. unfold solve_form in H. rewrite Hi1 in H.
    destruct (bad_length cf v1); [discriminate|]. destruct (existsb _ _); [discriminate|]. destruct (existsb _ _); [discriminate|].
    destruct (setup_coeff pb cf jk t0 (f_coeff s)) as [cl|]; [|discriminate].
    destruct (fopt_loop _ _ _ _ _ _ _ _) as [r1 s1| | |] eqn:E; try discriminate.
    destruct (_ || _); [|discriminate]. injection H as <- <-.
    assert (Hv : (fc_init cf = false -> v1 = v0) /\ v_x v1 = v_x v0 /\ v_u v1 = v_u v0 /\
      (fc_init cf = true -> forall i, (i < Nf cf)%nat ->
         let g := fp_g pb (t0 + INR i * pb_dt (fp_dp pb)) (nth i (v_x v0) []) (nth i (v_u v0) []) in
         length (nth i (v_s v1) []) = length g /\ forall j, (j < length g)%nat -> vget (nth i (v_s v1) []) j = 101 / 100 * Rmax (- vget g j) (1 / 100))).
    { unfold inited in Hi1. destruct (fc_init cf); [|injection Hi1 as -> _; repeat split; discriminate]. split; [discriminate|].
      destruct (init_var pb cf t0 (nlit 1 10000) v0) as [v2|] eqn:Ev; [|discriminate]. injection Hi1 as <- _.
      apply init_var_some in Ev. destruct Ev as (_ & _ & _ & _ & _ & -> & -> & _ & _ & _ & Ev). split; [reflexivity|]. split; [reflexivity|]. intros _ i Hi. cbn zeta.
      destruct (Ev i Hi) as (x & u & Ex & Eu & Es & _). rewrite (nth_some _ _ _ _ Ex), (nth_some _ _ _ _ Eu), (nth_some _ _ _ _ Es), <- ft_R. apply init_s_R. }
    destruct Hv as (V1 & V2 & V3 & V4).
    pose proof (fopt_loop_post _ _ _ _ _ _ _ _ _ _ E) as (_ & _ & _ & _ & _ & _ & _ & _ & _ & Hz & H0).
    apply loop_rows in E; [|exact Hn]. destruct E as (c & Hc & Sc & Hlt). exists v1, c. cbn [ready f_t f_x f_var] in Sc.
    repeat (split; [assumption|]). intros Hr. destruct r1; try discriminate.
    - exfalso. destruct (Nat.eq_dec (Z.to_nat (fc_max_iter cf)) 0) as [E0|E0]; [destruct (H0 E0); discriminate|]. destruct (Hz E0) as (_ & X). apply X. reflexivity.
    - apply Hlt; [reflexivity|]. intros E0. destruct (H0 E0) as (X & _). discriminate.
  Qed.

  Lemma slack_nonneg v i j : nonneg_var v -> 0 <= vget (nth i (v_s v) []) j.
  Proof.
    intros [P _]. destruct (nth_in_or_default i (v_s v) []) as [Hi|Hi].
    - destruct (Nat.lt_ge_cases j (length (nth i (v_s v) []))) as [Hj|Hj]; [apply (P (nth i (v_s v) [])); [exact Hi|apply nth_In; exact Hj]|].
      unfold vget. rewrite nth_overflow by exact Hj. numR. lra.
    - rewrite Hi. unfold vget. rewrite nth_overflow by (cbn; lia). numR. lra.
  Qed.
  Lemma slack_pos v i j : pos_var v -> (j < length (nth i (v_s v) []))%nat -> 0 < vget (nth i (v_s v) []) j.
  Proof.
    intros [P _] Hj. destruct (nth_in_or_default i (v_s v) []) as [Hi|Hi]; [apply (P (nth i (v_s v) [])); [exact Hi|apply nth_In; exact Hj]|].
    rewrite Hi in Hj. cbn in Hj. lia.
  Qed.
  (** What is left of the violation of an affine row: a run that starts with g_j + s_j <= 0 returns a point that satisfies the constraint, strictly
      if its slacks started positive; in general the violation of the result is at most the initial residual. *)
  Theorem C63_feasible fuel t0 x0 v0 s r s' i j : fmpc_solve LO pb cf jk fuel t0 x0 v0 s = Ok r s' -> fc_init cf = false ->
    (i < Nf cf)%nat -> affine_row pb D j -> (j < length (nth i (v_s v0) []))%nat ->
    let g v := vget (fp_g pb (t0 + INR i * pb_dt (fp_dp pb)) (nth i (v_x v) []) (nth i (v_u v) [])) j in
    let s v := vget (nth i (v_s v) []) j in
    0 <= s (f_var s') /\ (pos_var v0 -> 0 < s (f_var s')) /\
    g (f_var s') + s (f_var s') <= Rmax (g v0 + s v0) 0 /\
    (g v0 + s v0 <= 0 -> g (f_var s') <= 0 /\ (pos_var v0 -> g (f_var s') < 0)).
  Proof.
    intros H Hi HN HA Hj g sl. destruct (C63_run _ _ _ _ _ _ _ H) as (v & c & Ev & _ & _ & _ & Hc & [_ S2 S3] & _). rewrite (Ev Hi) in *.
    destruct (C30_run _ _ _ _ _ _ _ _ _ _ _ H) as (P1 & P2). pose proof (S3 i j HN HA Hj) as E. unfold ineq_res in E.
    fold (g (f_var s')) (g v0) (sl (f_var s')) (sl v0) in E.
    pose proof (slack_nonneg (f_var s') i j P1) as Q. fold (sl (f_var s')) in Q.
    assert (Q2 : pos_var v0 -> 0 < sl (f_var s')) by (intros Hp; apply slack_pos; [apply P2; right; exact Hp|rewrite S2 by exact HN; exact Hj]).
    split; [exact Q|]. split; [exact Q2|]. split.
    - rewrite E. unfold Rmax. destruct (Rle_dec (g v0 + sl v0) 0); nra.
    - intros Hr. assert (c * (g v0 + sl v0) <= 0) by nra. split; [lra|]. intros Hp. specialize (Q2 Hp). lra.
  Qed.
  (** With init_complementary_variable the start is not feasible by construction: the residual of a satisfied row starts at 1 % of its value. *)
  Theorem C63_init fuel t0 x0 v0 s r s' i j : fmpc_solve LO pb cf jk fuel t0 x0 v0 s = Ok r s' -> fc_init cf = true ->
    (i < Nf cf)%nat -> affine_row pb D j ->
    let g v := fp_g pb (t0 + INR i * pb_dt (fp_dp pb)) (nth i (v_x v) []) (nth i (v_u v) []) in
    (j < length (g v0))%nat -> exists c, 0 <= c <= 1 /\ (r = MaxIterationReached -> c < 1) /\
    0 < vget (nth i (v_s (f_var s')) []) j /\
    vget (g (f_var s')) j = c * Rmax (- vget (g v0) j / 100) (vget (g v0) j + 101 / 10000) - vget (nth i (v_s (f_var s')) []) j.
  Proof.
    intros H Hi HN HA g Hj. destruct (C63_run _ _ _ _ _ _ _ H) as (v & c & _ & Ex & Eu & Ei & Hc & [_ S2 S3] & Hr). specialize (Ei Hi i HN). cbn zeta in Ei.
    fold (g v0) in Ei. destruct Ei as (Li & Vi). destruct (C30_run _ _ _ _ _ _ _ _ _ _ _ H) as (_ & P2).
    exists c. split; [exact Hc|]. split; [exact Hr|].
    split; [apply slack_pos; [apply P2; left; exact Hi|rewrite S2, Li by exact HN; exact Hj]|].
    pose proof (S3 i j HN HA ltac:(rewrite Li; exact Hj)) as E. unfold ineq_res in E. rewrite Ex, Eu in E. fold (g (f_var s')) (g v0) in E.
    rewrite (Vi j Hj) in E. rewrite (Rplus_comm (vget (g v0) j)) in E.
    replace (101 / 100 * Rmax (- vget (g v0) j) (1 / 100) + vget (g v0) j) with (Rmax (- vget (g v0) j / 100) (vget (g v0) j + 101 / 10000)) in E; [lra|].
    unfold Rmax. destruct (Rle_dec (- vget (g v0) j) (1 / 100)), (Rle_dec (- vget (g v0) j / 100) (vget (g v0) j + 101 / 10000)); lra.
  Qed.
End Rows.
Print Assumptions C63_step.
Print Assumptions C63_run.
Print Assumptions C63_feasible.
Print Assumptions C63_init.

(** ** All rows of the two FMPC example problems are affine, though their dynamics are not *)
Definition osc_D (dt : R) : derivs R := {|
  d_A := fun t x u => fst (osc_fd dt t x u); d_B := fun t x u => snd (osc_fd dt t x u);
  d_C := fun _ _ _ => mkmat 3 2 [[nzero; nofZ (-1)]; [nzero; nzero]; [nzero; nzero]]; d_D := fun _ _ _ => mkmat 3 1 [[nzero]; [nofZ (-1)]; [none]];
  d_Lx := fun _ x _ => x; d_Lu := fun _ _ u => u; d_Lxx := fun _ _ _ => mid 2; d_Luu := fun _ _ _ => mid 1; d_Lxu := fun _ _ _ => mzero 2 1;
  d_Tx := fun _ _ => vzero 2; d_Txx := fun _ _ => mzero 2 2 |}.
Definition cart_D (nsin ncos : R -> R) (p : cart_par R) : derivs R := {|
  d_A := fun t x u => fst (cart_fd nsin ncos p t x u); d_B := fun t x u => snd (cart_fd nsin ncos p t x u);
  d_C := fun _ _ _ => mkmat 4 4 [[nzero; nzero; nzero; nzero]; [nzero; nzero; nzero; nzero]; [nofZ (-1); nzero; nzero; nzero]; [none; nzero; nzero; nzero]]; d_D := fun _ _ _ => mkmat 4 1 [[nofZ (-1)]; [none]; [nzero]; [nzero]];
  d_Lx := fun t x _ => vcwise (cr_rx p) (vsub x (cart_rx p t)); d_Lu := fun _ _ u => vcwise (cr_ru p) u;
  d_Lxx := fun _ _ _ => mdiag (cr_rx p); d_Luu := fun _ _ _ => mdiag (cr_ru p); d_Lxu := fun _ _ _ => mzero 4 1;
  d_Tx := fun t x => vcwise (cr_tx p) (vsub x (cart_rx p t)); d_Txx := fun _ _ => mdiag (cr_tx p) |}.
Lemma Rsum_head n (f : nat -> R) : (forall k, f (Datatypes.S k) = 0) -> (n = 0%nat -> f 0%nat = 0) -> Rsum n f = f 0%nat.
Proof.
  intros H H0. destruct n as [|n]; [symmetry; apply H0; reflexivity|]. clear H0. induction n as [|n IH]; [cbn; ring|]. rewrite Rsum_S, IH, H. ring.
Qed.
Lemma osc_computes dt : computes (oscillator dt) (osc_D dt).
Proof. constructor; intros; try reflexivity. Qed.
Lemma cart_computes nsin ncos p : computes (cartpole_f nsin ncos p) (cart_D nsin ncos p).
Proof. constructor; intros; try reflexivity. Qed.
Lemma osc_rows dt j : affine_row (oscillator dt) (osc_D dt) j.
Proof.
  intros t x u y w Hx Hy Hw Hj. cbn [oscillator fp_g length fp_dp pb_nx] in *. rewrite Hx. cbn [osc_D d_C d_D].
  rewrite (Rsum_head (length u)).
  - destruct j as [|[|[|j]]]; [| | |lia]; cbn; lra.
  - intros k. destruct j as [|[|[|j]]]; [| | |lia]; destruct k; cbn; lra.
  - intros E. destruct u; [|discriminate]. destruct w; [|discriminate]. cbn. ring.
Qed.
Lemma cart_rows nsin ncos p j : affine_row (cartpole_f nsin ncos p) (cart_D nsin ncos p) j.
Proof.
  intros t x u y w Hx Hy Hw Hj. cbn [cartpole_f cartpole fp_g length fp_dp pb_nx] in *. rewrite Hx. cbn [cart_D d_C d_D].
  rewrite (Rsum_head (length u)).
  - destruct j as [|[|[|[|j]]]]; [| | | |lia]; cbn; lra.
  - intros k. destruct j as [|[|[|[|j]]]]; [| | | |lia]; destruct k; cbn; lra.
  - intros E. destruct u; [|discriminate]. destruct w; [|discriminate]. cbn. ring.
Qed.
Lemma cart_g nsin ncos p t x u : let g := fp_g (cartpole_f nsin ncos p) t x u in
  vget g 0 = - vget u 0 - 15 /\ vget g 1 = vget u 0 - 15 /\ vget g 2 = - vget x 0 - 20 /\ vget g 3 = vget x 0 - 20.
Proof. cbn. repeat split; lra. Qed.
Lemma osc_g dt t x u : let g := fp_g (oscillator dt) t x u in
  vget g 0 = - vget x 1 - 1 / 20 /\ vget g 1 = - vget u 0 - 1 /\ vget g 2 = vget u 0 - 9 / 10.
Proof. cbn. repeat split; lra. Qed.
(** What every call on the cart-pole guarantees about the returned plan, whatever sin, cos and the linear solver return. *)
Theorem C63_cartpole LO nsin ncos p cf jk fuel t0 x0 v0 s r s' i : let pb := cartpole_f nsin ncos p in
  fmpc_solve LO pb cf jk fuel t0 x0 v0 s = Ok r s' -> fc_init cf = false -> FmpcSafe.typed_var pb v0 -> pos_var v0 -> (i < Nf cf)%nat ->
  let u v := vget (nth i (v_u v) []) 0 in let pos v := vget (nth i (v_x v) []) 0 in let sl j := vget (nth i (v_s v0) []) j in let v' := f_var s' in
  (sl 0%nat <= u v0 + 15 -> -15 < u v') /\ (sl 1%nat <= 15 - u v0 -> u v' < 15) /\
  (sl 2%nat <= pos v0 + 20 -> -20 < pos v') /\ (sl 3%nat <= 20 - pos v0 -> pos v' < 20).
Proof.
  intros pb H Hi Ht Hp HN u pos sl v'.
  assert (L4 : length (nth i (v_s v0) []) = 4%nat).
  { destruct (solve_checked _ _ _ _ _ _ _ _ _ _ _ H) as (v & eps & Ei & Hb & _). unfold inited in Ei. rewrite Hi in Ei. injection Ei as <- _.
    apply bad_length_spec in Hb. pose proof (right_nat _ _ Hb) as (_ & _ & _ & L4 & _).
    apply (FmpcSafe.ty_s _ _ Ht 4%nat); [reflexivity|left; apply nth_In; unfold Nf in *; lia]. }
  assert (F : forall j, (j < 4)%nat -> vget (fp_g pb (t0 + INR i * pb_dt (fp_dp pb)) (nth i (v_x v0) []) (nth i (v_u v0) [])) j + sl j <= 0 ->
    vget (fp_g pb (t0 + INR i * pb_dt (fp_dp pb)) (nth i (v_x v') []) (nth i (v_u v') [])) j < 0).
  { intros j Hj Hr. destruct (C63_feasible LO pb cf jk (cart_D nsin ncos p) (cart_computes _ _ _) _ _ _ _ _ _ _ i j H Hi HN (cart_rows _ _ _ _) ltac:(rewrite L4; exact Hj)) as (_ & _ & _ & F).
    apply F; [exact Hr|exact Hp]. }
  pose proof (F 0%nat ltac:(lia)) as G0. pose proof (F 1%nat ltac:(lia)) as G1. pose proof (F 2%nat ltac:(lia)) as G2. pose proof (F 3%nat ltac:(lia)) as G3.
  destruct (cart_g nsin ncos p (t0 + INR i * pb_dt (fp_dp pb)) (nth i (v_x v0) []) (nth i (v_u v0) [])) as (A0 & A1 & A2 & A3).
  destruct (cart_g nsin ncos p (t0 + INR i * pb_dt (fp_dp pb)) (nth i (v_x v') []) (nth i (v_u v') [])) as (B0 & B1 & B2 & B3).
  fold pb in A0, A1, A2, A3, B0, B1, B2, B3. rewrite A0, B0 in G0. rewrite A1, B1 in G1. rewrite A2, B2 in G2. rewrite A3, B3 in G3. unfold u, pos.
  split; [|split; [|split]]; intros Hr; lra.
Qed.
(** ... and on the oscillator. The bound u <= 0.9 is exceeded by at most what the start violates it by. *)
Theorem C63_oscillator LO dt cf jk fuel t0 x0 v0 s r s' i : let pb := oscillator dt in
  fmpc_solve LO pb cf jk fuel t0 x0 v0 s = Ok r s' -> fc_init cf = false -> FmpcSafe.typed_var pb v0 -> pos_var v0 -> (i < Nf cf)%nat ->
  let u v := vget (nth i (v_u v) []) 0 in let y v := vget (nth i (v_x v) []) 1 in let sl j := vget (nth i (v_s v0) []) j in let v' := f_var s' in
  (sl 0%nat <= y v0 + 1 / 20 -> - 1 / 20 < y v') /\ (sl 1%nat <= u v0 + 1 -> -1 < u v') /\ (sl 2%nat <= 9 / 10 - u v0 -> u v' < 9 / 10) /\
  u v' < 9 / 10 + Rmax (u v0 + sl 2%nat - 9 / 10) 0.
Proof.
  intros pb H Hi Ht Hp HN u y sl v'.
  assert (L3 : length (nth i (v_s v0) []) = 3%nat).
  { destruct (solve_checked _ _ _ _ _ _ _ _ _ _ _ H) as (v & eps & Ei & Hb & _). unfold inited in Ei. rewrite Hi in Ei. injection Ei as <- _.
    apply bad_length_spec in Hb. pose proof (right_nat _ _ Hb) as (_ & _ & _ & L4 & _).
    apply (FmpcSafe.ty_s _ _ Ht 3%nat); [reflexivity|left; apply nth_In; unfold Nf in *; lia]. }
  assert (F : forall j, (j < 3)%nat -> let g v := vget (fp_g pb (t0 + INR i * pb_dt (fp_dp pb)) (nth i (v_x v) []) (nth i (v_u v) [])) j in
    (g v0 + sl j <= 0 -> g v' < 0) /\ g v' < Rmax (g v0 + sl j) 0).
  { intros j Hj g. destruct (C63_feasible LO pb cf jk (osc_D dt) (osc_computes dt) _ _ _ _ _ _ _ i j H Hi HN (osc_rows dt j) ltac:(rewrite L3; exact Hj)) as (_ & F2 & F3 & F4).
    fold (g v0) in F3, F4. change (vget (nth i (v_s v0) []) j) with (sl j) in F3, F4. fold v' in F2, F3, F4. fold (g v') in F3, F4. specialize (F2 Hp).
    split; [intros Hr; apply F4; [exact Hr|exact Hp]|]. lra. }
  destruct (F 0%nat ltac:(lia)) as [G0 _]. destruct (F 1%nat ltac:(lia)) as [G1 _]. destruct (F 2%nat ltac:(lia)) as [G2 G3].
  destruct (osc_g dt (t0 + INR i * pb_dt (fp_dp pb)) (nth i (v_x v0) []) (nth i (v_u v0) [])) as (A0 & A1 & A2).
  destruct (osc_g dt (t0 + INR i * pb_dt (fp_dp pb)) (nth i (v_x v') []) (nth i (v_u v') [])) as (B0 & B1 & B2).
  fold pb in A0, A1, A2, B0, B1, B2. rewrite A0, B0 in G0. rewrite A1, B1 in G1. rewrite A2, B2 in G2, G3. fold (y v0) (y v') in G0. fold (u v0) (u v') in G1, G2, G3.
  split; [intros; lra|]. split; [intros; lra|]. split; [intros; lra|].
  replace (u v0 - 9 / 10 + sl 2%nat) with (u v0 + sl 2%nat - 9 / 10) in G3 by ring. lra.
Qed.
Print Assumptions C63_cartpole.
Print Assumptions C63_oscillator.

(** ** The hypotheses hold together: the first calls of TestFmpcCartPole.cpp and TestFmpcOscillator.cpp, with any horizon and from any state *)
(** Variable(h) after reset(0, 0, 0, 1, 1) *)
Definition start_var (nx nu ng h : nat) : var R := var_reset 0 0 0 1 1 (var_ctor (vzero nx) (vzero nu) (vzero ng) h).
Lemma start_nth nx nu ng h i : (i < h)%nat -> let v := start_var nx nu ng h in
  nth i (v_x v) [] = vconst nx 0 /\ nth i (v_u v) [] = vconst nu 0 /\ nth i (v_s v) [] = vconst ng 1.
Proof.
  intros Hi v.
  assert (Q : forall (a : R) n m, (i < m)%nat -> nth i (map (fun r : vec R => vconst (length r) a) (repeat (vzero n) m)) [] = vconst n a).
  { intros a n m Hm. apply nth_error_nth. rewrite nth_error_map. rewrite (nth_error_nth' _ (vzero n)) by (rewrite repeat_length; exact Hm). cbn [option_map].
    f_equal. rewrite nth_repeat. unfold vzero. rewrite vbuild_length. reflexivity. }
  cbn [v start_var var_reset var_ctor v_x v_u v_s]. rewrite !Q by lia. auto.
Qed.
Lemma start_ok pb cf nx nu ng h : pb_nx (fp_dp pb) = nx -> pb_fixed_nu (fp_dp pb) = Some nu -> fp_fixed_ng pb = Some ng -> fc_hor cf = Z.of_nat h ->
  FmpcSafe.typed_var pb (start_var nx nu ng h) /\ right_lengths cf (start_var nx nu ng h) /\ pos_var (start_var nx nu ng h).
Proof.
  intros E1 E2 E3 E4.
  assert (Q : forall (a : R) n m (y : vec R), In y (map (fun r : vec R => vconst (length r) a) (repeat (vzero n) m)) -> y = vconst n a).
  { intros a n m y H. apply in_map_iff in H as (z & <- & Hz). apply repeat_spec in Hz as ->. unfold vzero. rewrite vbuild_length. reflexivity. }
  assert (L : forall (a : R) n m (y : vec R), In y (map (fun r : vec R => vconst (length r) a) (repeat (vzero n) m)) -> length y = n).
  { intros a n m y H. rewrite (Q a n m y H). unfold vconst. first [apply vbuild_length|apply repeat_length]. }
  split; [constructor|split]; cbn [start_var var_reset var_ctor v_x v_u v_l v_s v_n].
  - intros w. rewrite E1. apply L.
  - intros w. rewrite E1. apply L.
  - intros n w E. rewrite E2 in E. injection E as <-. apply L.
  - intros n w E [H|H]; rewrite E3 in E; injection E as <-; revert H; apply L.
  - unfold right_lengths. cbn [start_var var_reset var_ctor v_x v_u v_l v_s v_n]. rewrite !map_length, !repeat_length, E4. lia.
  - assert (P : all_pos (map (fun r : vec R => vconst (length r) 1) (repeat (vzero ng) h))).
    { intros w a Hw Ha. rewrite (Q _ _ _ _ Hw) in Ha. unfold vconst in Ha. apply repeat_spec in Ha || (apply in_map_iff in Ha as (k & <- & _)); lra. }
    split; exact P.
Qed.
Lemma start_object (pb : fproblem R) nx nu ng : pb_nx (fp_dp pb) = nx -> pb_fixed_nu (fp_dp pb) = Some nu -> fp_fixed_ng pb = Some ng ->
  FmpcSafe.junk_ok pb (sized_junk 7 nx nu ng) /\ FmpcSafe.object_ok pb (new_object (sized_junk 7 nx nu ng) (vzero nx)).
Proof.
  intros E1 E2 E3. split.
  - split; [intros; apply sized_ok|]. destruct (sized_ok 7 nx nu ng) as (B1 & _). unfold FmpcSafe.end_ok. rewrite E1.
    split; [apply repeat_length|]. split; [apply mbuild_dim|]. intros a b F1 F2. rewrite E2 in F1. rewrite E3 in F2. injection F1 as <-. injection F2 as <-. apply sized_ok.
  - split; [cbn; repeat split; lia|]. intros a b _ _ c [].
Qed.
(** From any state: the plan stays inside the bounds, strictly. *)
Definition cart_test (ref : R -> R) : cart_par R :=
  {| cr_dt := 1 / 100; cr_ref := ref; cr_m1 := 1; cr_m2 := 1 / 2; cr_l := 2; cr_rx := [1 / 10; 1; 1 / 100; 1 / 10]; cr_ru := [1 / 100]; cr_tx := [1 / 10; 1; 1 / 100; 1 / 10] |}.
Example C63_cartpole_nonvacuous nsin ncos ref (h : nat) (t0 a b c d : R) : let pb := cartpole_f nsin ncos (cart_test ref) in exists r s',
  fmpc_solve normal_lin pb (osc_cf h) (sized_junk 7 4 1 4) 35 t0 [a; b; c; d] (start_var 4 1 4 h) (new_object (sized_junk 7 4 1 4) (vzero 4)) = Ok r s' /\
  (r = Succeeded \/ r = MaxIterationReached) /\
  forall i, (i < h)%nat -> -15 < vget (nth i (v_u (f_var s')) []) 0 < 15 /\ -20 < vget (nth i (v_x (f_var s')) []) 0 < 20.
Proof.
  intros pb. destruct (start_ok pb (osc_cf h) 4 1 4 h) as (T1 & T2 & T3); try reflexivity. destruct (start_object pb 4 1 4) as (J1 & J2); try reflexivity.
  destruct (C56_total normal_lin pb (osc_cf h) (sized_junk 7 4 1 4) 35 t0 [a; b; c; d] (start_var 4 1 4 h) (new_object (sized_junk 7 4 1 4) (vzero 4))) as (r & s' & E & Hr & _);
    try assumption; try reflexivity; try (cbn; lia).
  - apply cart_wd_f; reflexivity.
  - apply normal_dims.
  - split; discriminate.
  - left. reflexivity.
  - right. exact T3.
  - exists r, s'. split; [exact E|]. split; [exact Hr|]. intros i Hi.
    destruct (C63_cartpole normal_lin nsin ncos (cart_test ref) _ _ _ _ _ _ _ _ _ i E eq_refl T1 T3) as (A1 & A2 & A3 & A4); [unfold Nf; cbn; lia|].
    destruct (start_nth 4 1 4 h i Hi) as (X & U & S). rewrite X in A3, A4. rewrite U in A1, A2. rewrite S in A1, A2, A3, A4. cbn in A1, A2, A3, A4.
    split; split; [apply A1|apply A2|apply A3|apply A4]; lra.
Qed.
(** On the oscillator the start of the test meets the lower input bound but violates the upper one by 0.1. *)
Example C63_oscillator_nonvacuous dt (h : nat) (t0 a b : R) : exists r s',
  fmpc_solve normal_lin (oscillator dt) (osc_cf h) (sized_junk 7 2 1 3) 35 t0 [a; b] (start_var 2 1 3 h) (new_object (sized_junk 7 2 1 3) (vzero 2)) = Ok r s' /\
  forall i, (i < h)%nat -> -1 < vget (nth i (v_u (f_var s')) []) 0 < 1.
Proof.
  destruct (start_ok (oscillator dt) (osc_cf h) 2 1 3 h) as (T1 & T2 & T3); try reflexivity. destruct (start_object (oscillator dt) 2 1 3) as (J1 & J2); try reflexivity.
  destruct (C60_oscillator normal_lin dt (osc_cf h) (sized_junk 7 2 1 3) 35 t0 [a; b] (start_var 2 1 3 h) (new_object (sized_junk 7 2 1 3) (vzero 2))) as (r & s' & E & Hr & _);
    try assumption; try reflexivity; try (cbn; lia).
  - apply normal_dims.
  - right. exact T3.
  - exists r, s'. split; [exact E|]. intros i Hi.
    destruct (C63_oscillator normal_lin dt _ _ _ _ _ _ _ _ _ i E eq_refl T1 T3) as (_ & A2 & _ & A4); [unfold Nf; cbn; lia|].
    destruct (start_nth 2 1 3 h i Hi) as (X & U & S). rewrite U in A2, A4. rewrite S in A2, A4. cbn in A2, A4.
    split; [apply A2; lra|]. refine (Rlt_le_trans _ _ _ A4 _). unfold Rmax. destruct (Rle_dec _ _); lra.
Qed.
