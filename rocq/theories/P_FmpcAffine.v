(** C57 (primal residuals on affine problems), C58 (linear-quadratic problems) and C59 (exact KKT points). *)
From Coq Require Import Reals Lra Psatz.
From Verif Require Import Prelude Scalar LinAlg RLin RQ ExQPR DDP DDPSafe ExDDP Fmpc FmpcProofs FmpcStep FmpcSpec FmpcReal FmpcNewton FmpcSafe FmpcAffine FmpcLQ ExFmpc P_FmpcRun P_FmpcReal P_FmpcNewton.
Local Open Scope R_scope.

Section Affine.
  Variables (LO : linops R) (pb : fproblem R) (cf : fconfig R) (jk : fjunk R) (D : derivs R).
  Hypothesis CM : computes pb D.
  Hypothesis AF : affine_primal pb D.
  (** One iteration that continues multiplies every primal residual by 1 - a, a being the primal step length, whatever the linear
      solves return. *)
  Theorem C57_step fuel it s s' : proc_once LO pb cf fuel it s = Ok IterationContinued s' -> nonneg_var (f_var s) ->
    exists a, 0 < a <= 1 /\ scaled pb (f_t s) (f_x s) (Nf cf) (1 - a) (f_var s) (f_var s') /\
      moved (Nf cf + 1) a (v_x (f_var s)) (v_x (f_delta s')) (v_x (f_var s')).
  Proof.
    intros H [Ps Pn]. apply proc_cont in H as (eps & cl & e & cl' & d & _ & Hc & Hb & Hd & Hu & _ & Ed & _).
    destruct (passes_primal LO pb cf D (checked s it eps cl e) (f_coeff s) cl' d CM Hc Hb Hd) as (Q1 & Q2).
    apply update_R in Hu; [|exact Ps|exact Pn].
    destruct Hu as (a_max & a_n & a_s & s2 & _ & _ & _ & P1 & P2 & P3 & _ & _ & _ & _ & _ & _ & M1 & M2 & M3 & M4 & M5 & _).
    exists a_s. split; [lra|]. rewrite Ed. split; [|exact M1]. exact (affine_step pb cf D _ _ _ _ _ _ AF Q1 Q2 M1 M2 M4).
  Qed.
  Lemma loop_scaled fuel n : forall it st s r s', fopt_loop LO pb cf fuel n it st s = Ok r s' -> nonneg_var (f_var s) ->
    exists c, 0 <= c <= 1 /\ scaled pb (f_t s) (f_x s) (Nf cf) c (f_var s) (f_var s') /\ (r = IterationContinued -> n <> O -> c < 1).
  Proof using CM AF.
    induction n as [|n IH]; intros it st s r s' H P; cbn [fopt_loop] in H.
    - injection H as <- <-. exists 1. split; [lra|]. split; [apply scaled_refl|]. intros _ X. exfalso. apply X. reflexivity.
    - unfold bind in H. destruct (proc_once LO pb cf fuel it s) as [r1 s1| | |] eqn:E; try discriminate.
      pose proof (proc_once_post _ _ _ _ _ _ _ _ E) as (e & _ & Et & Ex & _ & _ & _ & Hv).
      assert (Stop : r1 <> IterationContinued -> r1 = r -> s1 = s' ->
        exists c, 0 <= c <= 1 /\ scaled pb (f_t s) (f_x s) (Nf cf) c (f_var s) (f_var s') /\ (r = IterationContinued -> Datatypes.S n <> O -> c < 1)).
      { intros Hne <- <-. exists 1. split; [lra|]. rewrite (Hv Hne). split; [apply scaled_refl|]. intros X. contradiction. }
      destruct r1; try (unfold ret in H; injection H as H H'; apply Stop; [discriminate|exact H|exact H']).
      destruct (C57_step _ _ _ _ E P) as (a & Ha & Sa & _).
      assert (P1 : nonneg_var (f_var s1)).
      { apply (proc_once_var LO pb cf nonneg_var) with (2 := E); [|exact P]. intros fl st0 st' U Q. apply (C30_update pb cf fl st0 st' U Q). }
      destruct (IH _ _ _ _ _ H P1) as (c & Hc & Sc & Hlt). rewrite Et, Ex in Sc. exists ((1 - a) * c). split; [nra|].
      split; [eapply scaled_trans; eassumption|]. intros _ _. nra.
  Qed.
  (** A whole run: the primal residuals of the result are those of the start times one factor c in [0, 1], which is below 1 if the
      iteration limit was reached. With init_complementary_variable the start is the argument with new s and nu. *)
  Theorem C57_run fuel t0 x0 v0 s r s' : fmpc_solve LO pb cf jk fuel t0 x0 v0 s = Ok r s' ->
    exists v c, (fc_init cf = false -> v = v0) /\ v_x v = v_x v0 /\ v_u v = v_u v0 /\
      0 <= c <= 1 /\ scaled pb t0 x0 (Nf cf) c v (f_var s') /\ (r = MaxIterationReached -> c < 1).
  Proof.
    intros H. destruct (solve_checked _ _ _ _ _ _ _ _ _ _ _ H) as (v1 & eps1 & Hi1 & Hb1 & _ & Hs1). pose proof (checked_nonneg _ _ Hb1 Hs1) as Hn.
    rewrite solve_form_eq in H. unfold solve_form in H. rewrite Hi1 in H.
    destruct (bad_length cf v1); [discriminate|]. destruct (existsb _ _); [discriminate|]. destruct (existsb _ _); [discriminate|].
    destruct (setup_coeff pb cf jk t0 (f_coeff s)) as [cl|]; [|discriminate].
    destruct (fopt_loop _ _ _ _ _ _ _ _) as [r1 s1| | |] eqn:E; try discriminate.
    destruct (_ || _); [|discriminate]. injection H as <- <-.
    assert (Hv : (fc_init cf = false -> v1 = v0) /\ v_x v1 = v_x v0 /\ v_u v1 = v_u v0).
    { unfold inited in Hi1. destruct (fc_init cf); [|injection Hi1 as -> _; auto]. split; [discriminate|].
      destruct (init_var pb cf t0 (nlit 1 10000) v0) as [v2|] eqn:Ev; [|discriminate]. injection Hi1 as <- _.
      apply init_var_some in Ev. destruct Ev as (_ & _ & _ & _ & _ & -> & -> & _). auto. }
    destruct Hv as (V1 & V2 & V3).
    pose proof (fopt_loop_post _ _ _ _ _ _ _ _ _ _ E) as (_ & _ & _ & _ & _ & _ & _ & _ & _ & Hz & H0).
    apply loop_scaled in E; [|exact Hn]. destruct E as (c & Hc & Sc & Hlt). exists v1, c. cbn [ready f_t f_x f_var] in Sc.
    repeat (split; [assumption|]). intros Hr. destruct r1; try discriminate.
    - exfalso. destruct (Nat.eq_dec (Z.to_nat (fc_max_iter cf)) 0) as [E0|E0]; [destruct (H0 E0); discriminate|]. destruct (Hz E0) as (_ & X). apply X. reflexivity.
    - apply Hlt; [reflexivity|]. intros E0. destruct (H0 E0) as (X & _). discriminate.
  Qed.
End Affine.
Print Assumptions C57_step.
Print Assumptions C57_run.

(** ** C59 *)
Section Fixed.
  Variables (LO : linops R) (pb : fproblem R) (cf : fconfig R) (jk : fjunk R) (D : derivs R).
  Lemma kkt_stop fuel it s r s' : computes pb D -> proc_once LO pb cf fuel it s = Ok r s' -> 0 <= fc_kkt cf ->
    approx_kkt pb D (f_t s) (f_x s) (f_var s) (Nf cf) 0 -> r = Succeeded.
  Proof.
    intros CM H Hk K. destruct (proc_once_case LO pb cf fuel it s) as [P|(eps & cl & e & He & Hc & Hke & P)]; rewrite H in P; [discriminate|].
    assert (e = 0) as ->.
    { apply (kkt_zero pb cf D (checked s it eps cl e) (f_coeff s) e CM); [exact Hc| |exact K].
      rewrite <- Hke. apply kkt_error_state; reflexivity. }
    replace (nleb 0 (fc_kkt cf)) with true in P by (symmetry; apply Rleb_true; exact Hk). injection P as -> _. reflexivity.
  Qed.
  (** Started at a point that satisfies the KKT conditions exactly, solve returns it after one evaluation. *)
  Theorem C59_fixed_point fuel t0 x0 v0 s r s' : computes pb D -> fmpc_solve LO pb cf jk fuel t0 x0 v0 s = Ok r s' ->
    fc_init cf = false -> 0 <= fc_kkt cf -> (1 <= fc_max_iter cf)%Z -> approx_kkt pb D t0 x0 v0 (Nf cf) 0 ->
    r = Succeeded /\ f_var s' = v0 /\ length (f_trace s') = 1%nat.
  Proof.
    intros CM H Hi Hk Hm K. rewrite solve_form_eq in H. unfold solve_form, inited in H. rewrite Hi in H.
    destruct (bad_length cf v0); [discriminate|]. destruct (existsb _ _); [discriminate|]. destruct (existsb _ _); [discriminate|].
    destruct (setup_coeff pb cf jk t0 (f_coeff s)) as [cl|]; [|discriminate].
    destruct (Z.to_nat (fc_max_iter cf)) as [|n] eqn:En; [lia|]. cbn [fopt_loop] in H. unfold bind in H.
    destruct (proc_once LO pb cf fuel 1 (ready cf jk t0 x0 v0 (f_eps s) cl s)) as [r1 s1| | |] eqn:E; try discriminate.
    pose proof (kkt_stop _ _ _ _ _ CM E Hk K) as ->. destruct (proc_succ_state _ _ _ _ _ _ _ E) as (Ev & _).
    pose proof (proc_once_post _ _ _ _ _ _ _ _ E) as (e & Et & _).
    cbn [ret] in H. destruct (_ || _); [|discriminate]. injection H as <- <-. rewrite Ev, Et. auto.
  Qed.
End Fixed.
Print Assumptions C59_fixed_point.

(** ** C58 *)
Section LQ.
  Variables (LO : linops R) (pb : fproblem R) (cf : fconfig R) (jk : fjunk R) (D : derivs R).
  Hypothesis CM : computes pb D.
  Hypothesis LQ : lq_problem pb D.
  Hypothesis SY : sym_hessians pb D.
  (** One iteration that continues, without line search, ends at an exact KKT point. *)
  Theorem C58_step fuel it s s' : proc_once LO pb cf fuel it s = Ok IterationContinued s' ->
    convex_cost pb D (f_t s) (Nf cf) (f_var s) -> pos_var (f_var s) -> (forall i u, nth_error (v_u (f_var s)) i = Some u -> exact_at LO (length u)) ->
    fc_ls cf = false -> approx_kkt pb D (f_t s) (f_x s) (f_var s') (Nf cf) 0.
  Proof.
    intros H CV [Ps Pn] HX Hl.
    assert (Ps0 : all_ge 0 (v_s (f_var s))) by (intros w a Hw Ha; left; apply (Ps w a Hw Ha)).
    assert (Pn0 : all_ge 0 (v_n (f_var s))) by (intros w a Hw Ha; left; apply (Pn w a Hw Ha)).
    pose proof (C29_convex LO pb cf D fuel it s s' H CM SY CV Ps Pn0 HX) as NW.
    apply proc_cont in H as (eps & cl & e & cl' & d & _ & Hc & Hb & Hd & Hu & _ & Ed & _). rewrite Ed in NW.
    destruct (passes_primal LO pb cf D (checked s it eps cl e) (f_coeff s) cl' d CM Hc Hb Hd) as (Q1 & Q2).
    apply update_R in Hu; [|exact Ps0|exact Pn0].
    destruct Hu as (a_max & a_n & a_s & s2 & Au & _ & _ & P1 & P2 & P3 & _ & _ & _ & B1 & B2 & _ & M1 & M2 & M3 & M4 & M5 & _).
    cbn [set_fdelta set_fcoeff checked f_var f_delta f_t f_x f_coeff] in *.
    assert (No : forall i w, (i < Nf cf)%nat -> nth_error (v_s (f_var s)) i = Some w \/ nth_error (v_n (f_var s)) i = Some w -> length w = 0%nat).
    { intros i w Hi Hw. apply coeffs_spec in Hc as (_ & Hc & _). destruct (Hc i Hi) as (c & _ & Hat).
      destruct (coeff_at_spec pb D _ _ _ _ _ CM Hat) as (x & u & l & s1 & n & x' & l' & cj & St & _ & S). cbn zeta in S.
      destruct S as (_ & _ & _ & _ & D5 & D6 & _). rewrite (lq_free _ _ LQ) in D6. cbn in D6.
      destruct St as (_ & _ & _ & S4 & S5 & _). destruct Hw as [Hw|Hw]; [rewrite S4 in Hw|rewrite S5 in Hw]; injection Hw as <-; lia. }
    assert (a_max = 1) as ->.
    { destruct B1 as [B1|(i & w & dw & j & Hi & Hw & _ & Hj & _)]; [exact B1|]. rewrite (No i w) in Hj by auto. lia. }
    assert (a_n = 1) as ->.
    { destruct B2 as [B2|(i & w & dw & j & Hi & Hw & _ & Hj & _)]; [exact B2|]. rewrite (No i w) in Hj by auto. lia. }
    assert (a_s = 1) as ->.
    { unfold alpha_used in Au. rewrite Hl in Au. apply Au. }
    apply (lq_full_step pb cf D (f_t s) (f_x s) (f_eps s') (f_var s) d (f_var s')); auto.
    intros i l El Hi. apply coeffs_spec in Hc as (_ & Hc & (ce & _ & Hce)).
    destruct (Nat.eq_dec i (Nf cf)) as [->|Hne].
    - destruct (coeff_end_spec pb cf D _ _ _ _ CM Hce) as (xN & lN & _ & _ & ElN & _ & _ & LlN & _). rewrite ElN in El. injection El as <-. exact LlN.
    - destruct (Hc i ltac:(lia)) as (c & _ & Hat). destruct (coeff_at_spec pb D _ _ _ _ _ CM Hat) as (x & u & l0 & s1 & n & x' & l' & cj & St & _ & S). cbn zeta in S.
      destruct S as (_ & _ & D3 & _). destruct St as (_ & _ & S3 & _). rewrite S3 in El. injection El as <-. exact D3.
  Qed.
  (** A run with at least two iterations succeeds, after at most two evaluations of the KKT error. *)
  Theorem C58_run fuel t0 x0 v0 s r s' : fmpc_solve LO pb cf jk fuel t0 x0 v0 s = Ok r s' ->
    keeps_going LO cf -> fc_init cf = true \/ pos_var v0 -> (forall i u, nth_error (v_u v0) i = Some u -> exact_at LO (length u)) ->
    convex_cost pb D t0 (Nf cf) v0 -> fc_ls cf = false -> 0 <= fc_kkt cf -> (2 <= fc_max_iter cf)%Z ->
    r = Succeeded /\ (length (f_trace s') <= 2)%nat.
  Proof.
    intros H K Hp HX CV Hl Hk Hm. destruct (solve_checked _ _ _ _ _ _ _ _ _ _ _ H) as (v1 & eps1 & Hi1 & Hb1 & _ & _).
    rewrite solve_form_eq in H. unfold solve_form in H. rewrite Hi1 in H.
    rewrite Hb1 in H. destruct (existsb _ _); [discriminate|]. destruct (existsb _ _); [discriminate|].
    destruct (setup_coeff pb cf jk t0 (f_coeff s)) as [cl|]; [|discriminate].
    assert (Pv : pos_var v1).
    { destruct (fc_init cf) eqn:Ef.
      - destruct (inited_pos pb cf t0 v0 (f_eps s) v1 eps1 Ef Hi1 Hb1) as [A B].
        split; intros w a Hw Ha; [specialize (A w a Hw Ha)|specialize (B w a Hw Ha)]; lra.
      - destruct Hp as [Hp|Hp]; [discriminate|]. unfold inited in Hi1. rewrite Ef in Hi1. injection Hi1 as <- _. exact Hp. }
    assert (Hv : v_x v1 = v_x v0 /\ v_u v1 = v_u v0).
    { unfold inited in Hi1. destruct (fc_init cf); [|injection Hi1 as -> _; auto].
      destruct (init_var pb cf t0 (nlit 1 10000) v0) as [v2|] eqn:Ev; [|discriminate]. injection Hi1 as <- _.
      apply init_var_some in Ev. destruct Ev as (_ & _ & _ & _ & _ & -> & -> & _). auto. }
    destruct Hv as (V2 & V3).
    destruct (Z.to_nat (fc_max_iter cf)) as [|[|n]] eqn:En; try lia. cbn [fopt_loop] in H. unfold bind in H.
    set (s0 := ready cf jk t0 x0 v1 eps1 cl s) in *.
    destruct (proc_once LO pb cf fuel 1 s0) as [r1 s1| | |] eqn:E; try discriminate.
    pose proof (proc_once_post _ _ _ _ _ _ _ _ E) as (e & Et & Ett & Exx & _).
    assert (T0 : f_trace s0 = []) by reflexivity.
    destruct (proc_status LO pb cf fuel 1 s0 r1 s1 K Pv E) as [->| ->].
    - cbn [ret] in H. destruct (_ || _); [|discriminate]. injection H as <- <-. split; [reflexivity|]. rewrite Et, T0. cbn. lia.
    - assert (KK : approx_kkt pb D (f_t s1) (f_x s1) (f_var s1) (Nf cf) 0).
      { rewrite Ett, Exx. apply (C58_step fuel 1 s0 s1 E); try assumption.
        - unfold convex_cost in *. cbn [s0 ready f_t f_var]. rewrite V2, V3. exact CV.
        - cbn [s0 ready f_var]. rewrite V3. exact HX. }
      destruct (proc_once LO pb cf fuel (1 + 1) s1) as [r2 s2| | |] eqn:E2; try discriminate.
      pose proof (kkt_stop LO pb cf D _ _ _ _ _ CM E2 Hk KK) as ->. pose proof (proc_once_post _ _ _ _ _ _ _ _ E2) as (e2 & Et2 & _).
      cbn [ret] in H. destruct (_ || _); [|discriminate]. injection H as <- <-. split; [reflexivity|]. rewrite Et2, Et, T0. cbn. lia.
  Qed.
End LQ.
Print Assumptions C58_step.
Print Assumptions C58_run.

(** ** Concrete cases *)
Lemma ex_affine : computes ex_fp exr_D /\ affine_primal ex_fp exr_D.
Proof.
  split; [constructor; intros; reflexivity|]. intros t x u y w Lx Ly Lw. cbn in Lx. rewrite Lx in Ly.
  destruct x as [|x [|? ?]]; try discriminate. destruct y as [|y [|? ?]]; try discriminate. destruct u as [|u us], w as [|w ws]; try discriminate.
  - split; intros [|j] Hj; cbn in Hj |- *; try lia; lra.
  - injection Lw as Lw. 
    assert (Z : forall k j, mget (m11 1) j (Datatypes.S k) = 0) by (intros k [|[|j]]; destruct k; reflexivity).
    assert (Q : forall j n f, Rsum (Datatypes.S n) (fun k => mget (m11 1) j k * f k) = mget (m11 1) j 0 * f 0%nat).
    { intros j n f. induction n as [|n IH]; [cbn; ring|]. change (Rsum (Datatypes.S (Datatypes.S n)) ?g) with (Rsum (Datatypes.S n) g + g (Datatypes.S n)). rewrite IH, Z. ring. }
    split; intros [|j] Hj; try (cbn in Hj; lia); cbn [exr_D d_A d_B d_C d_D length]; rewrite !Q; cbn; try lra.
Qed.
(** The run of C56_nonvacuous without initialisation: its residuals shrink. *)
Example C57_nonvacuous n : (1 <= n)%nat -> let v0 := ex_fvar n 0 0 0 1 1 in
  exists r s' c, fmpc_solve normal_lin ex_fp (ex_fcf (Z.of_nat n) 10 false true true) (sized_junk 7 1 1 1) 35 0 [5] v0 ex_fs0 = Ok r s' /\
    0 <= c <= 1 /\ scaled ex_fp 0 [5] n c v0 (f_var s') /\ init_res [5] v0 0 = 5.
Proof.
  intros Hn v0. destruct (C56_total normal_lin ex_fp (ex_fcf (Z.of_nat n) 10 false true true) (sized_junk 7 1 1 1) 35 0 [5] v0 ex_fs0) as (r & s' & H & Hr & _).
  - apply ex_well.
  - apply normal_dims.
  - apply ex_junk_ok.
  - split; [|intros nu ng _ _ c []]. cbn. repeat split; lia.
  - reflexivity.
  - apply ex_typed.
  - unfold right_lengths. cbn. rewrite !map_length, !repeat_length. lia.
  - split; discriminate.
  - left. reflexivity.
  - right. split; intros w a Hw Ha; apply in_map_iff in Hw as (z & <- & Hz); apply repeat_spec in Hz as ->; cbn in Ha; destruct Ha as [<-|[]]; lra.
  - intros _ i _. cbn. lia.
  - intros _ E. discriminate.
  - cbn. lia.
  - lia.
  - destruct (C57_run normal_lin ex_fp _ _ exr_D (proj1 ex_affine) (proj2 ex_affine) _ _ _ _ _ _ _ H) as (v & c & Ev & _ & _ & Hc & Sc & _).
    rewrite (Ev eq_refl) in Sc. change (Nf (T := R) (ex_fcf (Z.of_nat n) 10 false true true)) with (Z.to_nat (Z.of_nat n)) in Sc. rewrite Nat2Z.id in Sc.
    exists r, s', c. split; [exact H|]. split; [exact Hc|]. split; [exact Sc|]. unfold init_res, v0. cbn. rewrite Nat.add_1_r. cbn. lra.
Qed.

(** The problem without inequality constraint. *)
Definition free_D : derivs R := {|
  d_A := fun _ _ _ => m11 1; d_B := fun _ _ _ => m11 1; d_C := fun _ _ _ => mzero 0 1; d_D := fun _ _ _ => mzero 0 1;
  d_Lx := fun _ x _ => [vget x 0]; d_Lu := fun _ _ u => [vget u 0]; d_Lxx := fun _ _ _ => m11 1; d_Luu := fun _ _ _ => m11 1; d_Lxu := fun _ _ _ => m11 0;
  d_Tx := fun _ x => [vget x 0]; d_Txx := fun _ _ => m11 1 |}.
Lemma m11_sum (a : R) j n f : Rsum (Datatypes.S n) (fun k => mget (m11 a) j k * f k) = mget (m11 a) j 0 * f 0%nat.
Proof.
  assert (Z : forall k, mget (m11 a) j (Datatypes.S k) = 0) by (intros k; destruct j as [|[|j]], k; reflexivity).
  induction n as [|n IH]; [cbn; ring|]. rewrite Rsum_S, IH, Z. ring.
Qed.
Lemma m11_col (a : R) j n f : Rsum (Datatypes.S n) (fun k => mget (m11 a) k j * f k) = mget (m11 a) 0 j * f 0%nat.
Proof.
  assert (Z : forall k, mget (m11 a) (Datatypes.S k) j = 0) by (intros k; destruct j as [|[|j]], k; reflexivity).
  induction n as [|n IH]; [cbn; ring|]. rewrite Rsum_S, IH, Z. ring.
Qed.
Lemma free_lq : computes ex_fp_free free_D /\ lq_problem ex_fp_free free_D /\ sym_hessians ex_fp_free free_D.
Proof.
  split; [constructor; intros; reflexivity|]. split.
  - constructor; try (intros; reflexivity).
    + intros t x u y w Lx Ly Lw. cbn in Lx. rewrite Lx in Ly. split; [|intros j Hj; cbn in Hj; lia].
      destruct x as [|x [|? ?]]; try discriminate. destruct y as [|y [|? ?]]; try discriminate. destruct u as [|u us], w as [|w ws]; try discriminate;
      intros [|j] Hj; try (cbn in Hj; lia); cbn [free_D d_A d_B length]; rewrite ?m11_sum; cbn; lra.
    + intros. split; reflexivity.
    + intros t x u y w Lx Ly Lw j Hj. cbn in Lx. rewrite Lx in *. 
      destruct x as [|x [|? ?]]; try discriminate. destruct y as [|y [|? ?]]; try discriminate. destruct u as [|u us], w as [|w ws]; try discriminate;
      destruct j as [|j]; try (cbn in Hj; lia); cbn [free_D d_Lxx d_Lxu length]; rewrite ?m11_sum; cbn; lra.
    + intros t x u y w Lx Ly Lw j Hj. cbn in Lx. rewrite Lx in *.
      destruct x as [|x [|? ?]]; try discriminate. destruct y as [|y [|? ?]]; try discriminate. destruct u as [|u us], w as [|w ws]; try discriminate; [cbn in Hj; lia|].
      cbn [free_D d_Luu d_Lxu length]. rewrite m11_sum, m11_col. destruct j as [|j]; [cbn; lra|]. destruct j; cbn; lra.
    + intros t x y Lx Ly j Hj. cbn in Lx. rewrite Lx in *. destruct x as [|x [|? ?]]; try discriminate. destruct y as [|y [|? ?]]; try discriminate.
      destruct j as [|j]; [cbn; lra|lia].
  - split; [intros t x u; split|intros t x]; intros [|i] [|j] _ _; try reflexivity; cbn; try (destruct i; reflexivity); try (destruct j; reflexivity); destruct i, j; reflexivity.
Qed.
Lemma free_well {T} {NT : Num T} : well_dimensioned_f (T := T) ex_fp_free.
Proof. constructor; try apply lq_well; intros; repeat split; reflexivity. Qed.
Definition free_var n (x u l : R) : var R := var_reset x u l 0 0 (var_ctor [0] [0] [] n).
Lemma free_typed n x u l : typed_var ex_fp_free (free_var n x u l).
Proof.
  assert (Q : forall (a : R) m (z y : vec R), In y (map (fun r : vec R => vconst (length r) a) (repeat z m)) -> length y = length z).
  { intros a m z y H. apply in_map_iff in H as (z' & <- & Hz). apply repeat_spec in Hz as ->. apply vbuild_length. }
  constructor; cbn [free_var var_reset var_ctor v_x v_u v_l v_s v_n].
  - intros y Hy. apply Q in Hy. exact Hy.
  - intros y Hy. apply Q in Hy. exact Hy.
  - intros k y E Hy. injection E as <-. apply Q in Hy. exact Hy.
  - intros k y E [H|H]; injection E as <-; apply Q in H; exact H.
Qed.
Lemma free_pos n x u l : pos_var (free_var n x u l).
Proof. split; intros w a Hw Ha; apply in_map_iff in Hw as (z & <- & Hz); apply repeat_spec in Hz as ->; destruct Ha. Qed.
Lemma free_total n v x0 : (1 <= n)%nat -> typed_var ex_fp_free v -> right_lengths (T := R) (ex_fcf (Z.of_nat n) 10 false false false) v -> pos_var v -> exists r s', 
  fmpc_solve normal_lin ex_fp_free (ex_fcf (Z.of_nat n) 10 false false false) (sized_junk 7 1 1 0) 35 0 [x0] v ex_fs0 = Ok r s'.
Proof.
  intros Hn Hty Hln Hps. destruct (C56_total normal_lin ex_fp_free (ex_fcf (Z.of_nat n) 10 false false false) (sized_junk 7 1 1 0) 35 0 [x0] v ex_fs0) as (r & s' & H & _ & _); eauto.
  - apply free_well.
  - apply normal_dims.
  - split; [intros nu ng; apply sized_ok|]. split; [apply repeat_length|]. split; [apply mbuild_dim|]. intros nu ng E1 E2. injection E1 as <-. injection E2 as <-. apply sized_ok.
  - split; [|intros nu ng _ _ c []]. cbn. repeat split; lia.
  - split; discriminate.
  - left. reflexivity.
  - discriminate.
  - discriminate.
  - cbn. lia.
Qed.
(** From x0 = 5 and x = u = lambda = 0, over any horizon. *)
Example C58_nonvacuous n : (1 <= n)%nat -> exists s',
  fmpc_solve normal_lin ex_fp_free (ex_fcf (Z.of_nat n) 10 false false false) (sized_junk 7 1 1 0) 35 0 [5] (free_var n 0 0 0) ex_fs0 = Ok Succeeded s' /\
  (length (f_trace s') <= 2)%nat.
Proof.
  intros Hn. destruct (free_total n (free_var n 0 0 0) 5 Hn) as (r & s' & H).
  { apply free_typed. }
  { unfold right_lengths. cbn. rewrite !map_length, !repeat_length. lia. }
  { apply free_pos. }
  destruct free_lq as (CM & LQ & SY).
  destruct (C58_run normal_lin ex_fp_free _ _ free_D CM LQ SY _ _ _ _ _ _ _ H) as (-> & L); eauto.
  - left. reflexivity.
  - right. apply free_pos.
  - intros. apply normal_exact.
  - split; [cbn; lra|]. split.
    + intros i x u Hi Hx Hu. apply nth_error_In in Hu. apply in_map_iff in Hu as (z & <- & Hz). apply repeat_spec in Hz as ->. split.
      * intros y (j & Hj & Hy). cbn in Hj. replace j with 0%nat in * by lia. unfold fdot, fmv. cbn. nra.
      * intros y w. cbn. nra.
    + intros x Hx y. unfold fdot, fmv. cbn. nra.
  - cbn. lra.
  - cbn. lia.
Qed.
(** x0 = 11: x = (11, 1), u = -10, lambda = (2.1, 1) is the optimum of horizon 1. *)
Definition opt_var : var R := {| v_hor := 1; v_x := [[11]; [1]]; v_u := [[-10]]; v_l := [[21 / 10]; [1]]; v_s := [[]]; v_n := [[]] |}.
Lemma opt_kkt : approx_kkt ex_fp_free free_D 0 [11] opt_var 1 0.
Proof.
  assert (Z : forall a, a = 0 -> Rabs a <= 0) by (intros a ->; rewrite Rabs_R0; lra).
  constructor.
  - intros x Hx. injection Hx as <-. split; [reflexivity|]. intros [|j] Hj; [|cbn in Hj; lia]. apply Z. cbn. lra.
  - intros i x u l s n x' l' Hi (S1 & S2 & S3 & S4 & S5 & S6 & S7). replace i with 0%nat in * by lia. cbn in *.
    injection S1 as <-. injection S2 as <-. injection S3 as <-. injection S4 as <-. injection S5 as <-. injection S6 as <-. injection S7 as <-. cbn.
    split; [|split; [|split; [|split]]]; intros j Hj; try lia; (destruct j as [|j]; [|lia]); apply Z; cbn; lra.
  - intros x l Hx Hl [|j] Hj; [|cbn in Hj; lia]. injection Hx as <-. injection Hl as <-. apply Z. cbn. lra.
Qed.
Example C59_nonvacuous : exists s',
  fmpc_solve normal_lin ex_fp_free (ex_fcf 1 10 false false false) (sized_junk 7 1 1 0) 35 0 [11] opt_var ex_fs0 = Ok Succeeded s' /\ f_var s' = opt_var.
Proof.
  destruct (free_total 1 opt_var 11) as (r & s' & H).
  - lia.
  - constructor; cbn.
    + intros y [<-|[<-|[]]]; reflexivity.
    + intros y [<-|[<-|[]]]; reflexivity.
    + intros k y E [<-|[]]. injection E as <-. reflexivity.
    + intros k y E [[<-|[]]|[<-|[]]]; injection E as <-; reflexivity.
  - unfold right_lengths. cbn. repeat split.
  - split; intros w a [<-|[]] [].
  - destruct (C59_fixed_point _ _ _ _ free_D _ _ _ _ _ _ _ (proj1 free_lq) H) as (-> & Hv & _); try reflexivity; [cbn; lra|cbn; lia|apply opt_kkt|].
    exists s'. split; [exact H|exact Hv].
Qed.
