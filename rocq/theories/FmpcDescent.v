(** The Newton step and the merit function of the FMPC line search (exact arithmetic): the slope of the merit function along a
    step that solves the linearised KKT conditions. *)
From Coq Require Import Reals Lra Psatz.
From Verif Require Import Prelude Scalar LinAlg RLin DDP Fmpc FmpcProofs FmpcStep FmpcSpec FmpcReal FmpcMerit FmpcNewton FmpcConvex.
Local Open Scope R_scope.

Section Spec.
  Variables (pb : fproblem R) (D : derivs R) (t0 : R) (x0 : vec R) (N : nat).
  Notation nx := (pb_nx (fp_dp pb)).
  Notation dt := (pb_dt (fp_dp pb)).
  Notation time i := (t0 + INR i * dt).

  (** Second-order terms of a step [d] at [v]: dt (dx' Lxx dx + 2 dx' Lxu du + du' Luu du) + sum nu/s ds^2, and dx_N' Lfxx dx_N. *)
  Definition curvature (v d : var R) : R :=
    Rsum N (fun i =>
      let x := plan_x v i in let u := plan_u v i in let s := plan_s v i in let n := plan_n v i in
      let dx := vget (plan_x d i) in let du := vget (plan_u d i) in let ds := vget (plan_s d i) in
      dt * (Rsum nx (fun j => dx j * Rsum nx (fun k => mget (d_Lxx D (time i) x u) j k * dx k))
            + 2 * Rsum nx (fun j => dx j * Rsum (length u) (fun k => mget (d_Lxu D (time i) x u) j k * du k))
            + Rsum (length u) (fun j => du j * Rsum (length u) (fun k => mget (d_Luu D (time i) x u) j k * du k)))
      + Rsum (length s) (fun j => vget n j / vget s j * (ds j * ds j)))
    + Rsum nx (fun j => vget (plan_x d N) j * Rsum nx (fun k => mget (d_Txx D (time N) (plan_x v N)) j k * vget (plan_x d N) k)).
  (** Every multiplier after a full step is at most [m] in size. *)
  Definition multipliers_below (m : R) (v d : var R) : Prop :=
    (forall i j, (i <= N)%nat -> (j < nx)%nat -> Rabs (vget (plan_l v i) j + vget (plan_l d i) j) <= m) /\
    (forall i j, (i < N)%nat -> (j < length (plan_s v i))%nat -> Rabs (vget (plan_n v i) j + vget (plan_n d i) j) <= m).

  (** The coefficients hold the derivatives at [v], and the sizes fit. *)
  Record fits (v d : var R) (cl : list (coeff R)) (cN : coeff R) : Prop := {
    ft_x0 : length x0 = nx;
    ft_stage : forall i, (i < N)%nat ->
      let t := time i in let x := plan_x v i in let u := plan_u v i in let c := nth i cl cN in
      length (plan_x d i) = nx /\ length (plan_u d i) = length u /\
      length (pb_stateEq (fp_dp pb) t x u) = nx /\ length (fp_g pb t x u) = length (plan_s v i) /\
      c_A c = d_A D t x u /\ c_B c = d_B D t x u /\ c_C c = d_C D t x u /\ c_D c = d_D D t x u /\ c_Lx c = d_Lx D t x u /\ c_Lu c = d_Lu D t x u;
    ft_end : length (plan_x d N) = nx /\ c_Lx cN = d_Tx D (time N) (plan_x v N)
  }.
End Spec.

Section Slope.
  Variables (pb : fproblem R) (cf : fconfig R) (D : derivs R) (t0 eps : R) (x0 : vec R).
  Notation N := (Nf cf).
  Notation nx := (pb_nx (fp_dp pb)).
  Notation dt := (pb_dt (fp_dp pb)).
  Notation time i := (t0 + INR i * dt).
  Variables (v d : var R) (cl : list (coeff R)) (cN : coeff R).
  Hypothesis NW : newton_step pb D t0 x0 eps N v d.
  Hypothesis FT : fits pb D t0 x0 N v d cl cN.
  Hypothesis Ps : all_pos (v_s v).

  Notation lam i j := (vget (plan_l v i) j + vget (plan_l d i) j).
  Notation nus i j := (vget (plan_n v i) j + vget (plan_n d i) j).
  Notation ires i j := (vget (fp_g pb (time i) (plan_x v i) (plan_u v i)) j + vget (plan_s v i) j).
  Notation dres i j := (vget (pb_stateEq (fp_dp pb) (time i) (plan_x v i) (plan_u v i)) j - vget (plan_x v (i + 1)) j).

  (** The multipliers of the full step times the residuals. *)
  Definition pull : R :=
    Rsum nx (fun j => lam 0%nat j * (vget x0 j - vget (plan_x v 0) j)) +
    Rsum N (fun i => Rsum nx (fun j => lam (i + 1)%nat j * dres i j) + Rsum (length (plan_s v i)) (fun j => nus i j * ires i j)).

  Lemma slack_pos i j : (j < length (plan_s v i))%nat -> 0 < vget (plan_s v i) j.
  Proof using Ps.
    intros Hj. unfold plan_s in *. destruct (nth_in_or_default i (v_s v) []) as [Hin|Hin].
    - apply (Ps _ _ Hin). apply nth_In. exact Hj.
    - rewrite Hin in Hj. cbn in Hj. lia.
  Qed.

  Lemma absd_neg y : absd y (- y) = - Rabs y.
  Proof.
    unfold absd. destruct (Rlt_dec 0 y); [rewrite Rabs_right; lra|]. destruct (Rlt_dec y 0); [rewrite Rabs_left; lra|].
    assert (y = 0) by lra. subst y. rewrite Ropp_0, Rabs_R0. lra.
  Qed.

  (** All constraints are linearised to zero, so the 1-norm falls at full rate. *)
  Lemma viol_slope : dconst_true pb cf t0 x0 v d cl cN = - merit_viol pb t0 x0 N v.
  Proof using NW FT.
    unfold dconst_true, merit_viol. cbn zeta. rewrite Ropp_plus_distr, <- !Rsum_opp. f_equal.
    - apply Rsum_ext. intros j Hj. rewrite <- absd_neg. f_equal.
      destruct (nth_error (v_x v) 0) as [x|] eqn:Ex.
      + destruct (nth_error (v_x d) 0) as [dx|] eqn:Ed.
        * pose proof (nw_init _ _ _ _ _ _ _ _ NW x dx Ex Ed j Hj). rewrite (nth_of _ _ _ _ Ex), (nth_of _ _ _ _ Ed). lra.
        * exfalso. destruct (Nat.eq_dec N 0) as [E0|E0].
          -- destruct (nw_end _ _ _ _ _ _ _ _ NW) as (? & ? & ? & ? & _ & _ & E & _). rewrite E0 in E. congruence.
          -- destruct (nw_stage _ _ _ _ _ _ _ _ NW 0%nat ltac:(lia)) as (? & ? & ? & ? & ? & ? & ? & ? & ? & ? & ? & ? & ? & ? & _ & (E & _) & _). congruence.
      + exfalso. destruct (Nat.eq_dec N 0) as [E0|E0].
        * destruct (nw_end _ _ _ _ _ _ _ _ NW) as (? & ? & ? & ? & E & _). rewrite E0 in E. congruence.
        * destruct (nw_stage _ _ _ _ _ _ _ _ NW 0%nat ltac:(lia)) as (? & ? & ? & ? & ? & ? & ? & ? & ? & ? & ? & ? & ? & ? & (E & _) & _). congruence.
    - apply Rsum_ext. intros i Hi. rewrite Ropp_plus_distr, <- !Rsum_opp.
      destruct (nw_stage _ _ _ _ _ _ _ _ NW i Hi) as (x & u & l & s & n & x' & l' & dx & du & dl & ds & dn & dx' & dl' & St & Sd & Lu & Ls & Ln & K1 & K2 & _).
      destruct (ft_stage _ _ _ _ _ _ _ _ _ FT i Hi) as (F1 & F2 & F3 & F4 & FA & FB & FC & FD & _).
      destruct St as (S1 & S2 & S3 & S4 & S5 & S6 & S7). destruct Sd as (T1 & T2 & T3 & T4 & T5 & T6 & T7).
      unfold plan_x, plan_u, plan_s in *.
      rewrite (nth_of _ _ _ _ S1), (nth_of _ _ _ _ S2), ?(nth_of _ _ _ _ S4), ?(nth_of _ _ _ _ T1), ?(nth_of _ _ _ _ T2) in *.
      rewrite (nth_of _ _ _ _ S6), (nth_of _ _ _ _ T6), (nth_of _ _ _ _ T4). cbn zeta in *.
      f_equal; apply Rsum_ext; intros j Hj; rewrite <- absd_neg; f_equal; unfold mvsum; rewrite F1, F2.
      + rewrite FA, FB. rewrite F3 in Hj. specialize (K1 j Hj). lra.
      + rewrite FC, FD. rewrite F4 in Hj. specialize (K2 j Hj). lra.
  Qed.

  Lemma cost_stage i : (i < N)%nat ->
    (vvsum (c_Lx (nth i cl cN)) (nth i (v_x d) []) + vvsum (c_Lu (nth i cl cN)) (nth i (v_u d) [])) * dt
      - eps * Rsum (length (nth i (v_s v) [])) (fun j => vget (nth i (v_s d) []) j / vget (nth i (v_s v) []) j)
    = (Rsum nx (fun j => lam i j * vget (plan_x d i) j) - Rsum nx (fun j => lam (i + 1)%nat j * vget (plan_x d (i + 1)) j))
      + (Rsum nx (fun j => lam (i + 1)%nat j * dres i j) + Rsum (length (plan_s v i)) (fun j => nus i j * ires i j))
      - (let x := plan_x v i in let u := plan_u v i in let s := plan_s v i in let n := plan_n v i in
         let dx := vget (plan_x d i) in let du := vget (plan_u d i) in let ds := vget (plan_s d i) in
         dt * (Rsum nx (fun j => dx j * Rsum nx (fun k => mget (d_Lxx D (time i) x u) j k * dx k))
            + 2 * Rsum nx (fun j => dx j * Rsum (length u) (fun k => mget (d_Lxu D (time i) x u) j k * du k))
            + Rsum (length u) (fun j => du j * Rsum (length u) (fun k => mget (d_Luu D (time i) x u) j k * du k)))
         + Rsum (length s) (fun j => vget n j / vget s j * (ds j * ds j))).
  Proof using NW FT Ps.
    intros Hi. pose proof (slack_pos i) as SP.
    destruct (nw_stage _ _ _ _ _ _ _ _ NW i Hi) as (x & u & l & s & n & x' & l' & dx & du & dl & ds & dn & dx' & dl' & St & Sd & Lu & Ls & Ln & K1 & K2 & K3 & K4 & K5).
    destruct (ft_stage _ _ _ _ _ _ _ _ _ FT i Hi) as (F1 & F2 & F3 & F4 & FA & FB & FC & FD & FX & FU).
    destruct St as (S1 & S2 & S3 & S4 & S5 & S6 & S7). destruct Sd as (T1 & T2 & T3 & T4 & T5 & T6 & T7).
    unfold plan_x, plan_u, plan_s, plan_l, plan_n in *.
    rewrite ?(nth_of _ _ _ _ S1), ?(nth_of _ _ _ _ S2), ?(nth_of _ _ _ _ S3), ?(nth_of _ _ _ _ S4), ?(nth_of _ _ _ _ S5), ?(nth_of _ _ _ _ S6), ?(nth_of _ _ _ _ S7) in *.
    rewrite ?(nth_of _ _ _ _ T1), ?(nth_of _ _ _ _ T2), ?(nth_of _ _ _ _ T3), ?(nth_of _ _ _ _ T4), ?(nth_of _ _ _ _ T5), ?(nth_of _ _ _ _ T6), ?(nth_of _ _ _ _ T7) in *.
    cbn zeta in *. rewrite FX, FU. unfold vvsum. rewrite F1, F2. set (t := time i) in *. set (nu := length u) in *. set (ng := length s) in *.
    set (A := mget (d_A D t x u)) in *. set (B := mget (d_B D t x u)) in *. set (C := mget (d_C D t x u)) in *. set (E := mget (d_D D t x u)) in *.
    set (Lxx := mget (d_Lxx D t x u)) in *. set (Luu := mget (d_Luu D t x u)) in *. set (Lxu := mget (d_Lxu D t x u)) in *.
    (* stationarity times the step *)
    assert (X : dt * Rsum nx (fun k => vget (d_Lx D t x u) k * vget dx k)
      = Rsum nx (fun j => (vget l j + vget dl j) * vget dx j)
        - dt * Rsum nx (fun j => vget dx j * Rsum nx (fun k => Lxx j k * vget dx k)) - dt * Rsum nx (fun j => vget dx j * Rsum nu (fun k => Lxu j k * vget du k))
        - Rsum nx (fun k => (vget l' k + vget dl' k) * Rsum nx (fun j => A k j * vget dx j)) - Rsum ng (fun k => (vget n k + vget dn k) * Rsum nx (fun j => C k j * vget dx j))).
    { rewrite <- (transposed nx nx A (fun k => vget l' k + vget dl' k)), <- (transposed ng nx C (fun k => vget n k + vget dn k)).
      rewrite <- !Rsum_scal, <- !Rsum_minus. apply Rsum_ext. intros j Hj. rewrite <- (K4 j Hj). ring. }
    assert (U : dt * Rsum nu (fun k => vget (d_Lu D t x u) k * vget du k)
      = - (dt * Rsum nx (fun j => vget dx j * Rsum nu (fun k => Lxu j k * vget du k))) - dt * Rsum nu (fun j => vget du j * Rsum nu (fun k => Luu j k * vget du k))
        - Rsum nx (fun k => (vget l' k + vget dl' k) * Rsum nu (fun j => B k j * vget du j)) - Rsum ng (fun k => (vget n k + vget dn k) * Rsum nu (fun j => E k j * vget du j))).
    { rewrite <- (transposed nx nu B (fun k => vget l' k + vget dl' k)), <- (transposed ng nu E (fun k => vget n k + vget dn k)), <- (transposed nx nu Lxu (vget dx)).
      rewrite <- !Rsum_scal, <- Rsum_opp, <- !Rsum_minus. apply Rsum_ext. intros j Hj. specialize (K5 j Hj).
      match type of K5 with ?a + ?b + ?c + ?e + ?f = 0 => assert (Q : a = - b - c - e - f) by lra end.
      replace (dt * (vget (d_Lu D t x u) j * vget du j)) with (dt * vget (d_Lu D t x u) j * vget du j) by ring. rewrite Q. ring. }
    (* dynamics *)
    assert (Y : Rsum nx (fun k => (vget l' k + vget dl' k) * Rsum nx (fun j => A k j * vget dx j)) + Rsum nx (fun k => (vget l' k + vget dl' k) * Rsum nu (fun j => B k j * vget du j))
      = Rsum nx (fun j => (vget l' j + vget dl' j) * vget dx' j) - Rsum nx (fun j => (vget l' j + vget dl' j) * (vget (pb_stateEq (fp_dp pb) t x u) j - vget x' j))).
    { rewrite <- Rsum_plus, <- Rsum_minus. apply Rsum_ext. intros j Hj. specialize (K1 j Hj). rewrite <- !Rmult_plus_distr_l, <- Rmult_minus_distr_l. f_equal. lra. }
    (* inequality and complementarity *)
    assert (Z : Rsum ng (fun k => (vget n k + vget dn k) * Rsum nx (fun j => C k j * vget dx j)) + Rsum ng (fun k => (vget n k + vget dn k) * Rsum nu (fun j => E k j * vget du j))
      = - Rsum ng (fun j => (vget n j + vget dn j) * vget ds j) - Rsum ng (fun j => (vget n j + vget dn j) * (vget (fp_g pb t x u) j + vget s j))).
    { rewrite <- Rsum_plus, <- Rsum_opp, <- Rsum_minus. apply Rsum_ext. intros j Hj. specialize (K2 j Hj). rewrite <- Rmult_plus_distr_l.
      match type of K2 with ?a + ?b + ?c + ?e = 0 => replace (b + c) with (- a - e) by lra end. ring. }
    assert (W : Rsum ng (fun j => (vget n j + vget dn j) * vget ds j) - eps * Rsum ng (fun j => vget ds j / vget s j)
      = - Rsum ng (fun j => vget n j / vget s j * (vget ds j * vget ds j))).
    { rewrite <- Rsum_scal, <- Rsum_opp, <- Rsum_minus. apply Rsum_ext. intros j Hj. specialize (K3 j Hj). specialize (SP j Hj).
      rewrite <- K3. field. lra. }
    lra.
  Qed.

  Lemma cost_slope : dobj pb cf eps v d cl cN = pull - curvature pb D t0 N v d.
  Proof using NW FT Ps.
    unfold dobj. rewrite (Rsum_ext _ _ _ cost_stage). unfold pull, curvature. cbn zeta. rewrite Rsum_minus, Rsum_plus.
    rewrite (telescope N (fun i => Rsum nx (fun j => lam i j * vget (plan_x d i) j))).
    destruct (nw_end _ _ _ _ _ _ _ _ NW) as (x & l & dx & dl & E1 & E2 & E3 & E4 & KE). cbn zeta in KE.
    destruct (ft_end _ _ _ _ _ _ _ _ _ FT) as (L1 & L2).
    assert (EN : vvsum (c_Lx cN) (nth N (v_x d) []) = Rsum nx (fun j => lam N j * vget (plan_x d N) j)
      - Rsum nx (fun j => vget (plan_x d N) j * Rsum nx (fun k => mget (d_Txx D (time N) (plan_x v N)) j k * vget (plan_x d N) k))).
    { unfold vvsum. unfold plan_x, plan_l in *. rewrite L1, L2. rewrite <- Rsum_minus. apply Rsum_ext. intros j Hj. specialize (KE j Hj).
      rewrite (nth_of _ _ _ _ E1), (nth_of _ _ _ _ E2), (nth_of _ _ _ _ E3), (nth_of _ _ _ _ E4). rewrite <- KE. ring. }
    rewrite EN.
    assert (E0 : Rsum nx (fun j => lam 0%nat j * vget (plan_x d 0) j) = Rsum nx (fun j => lam 0%nat j * (vget x0 j - vget (plan_x v 0) j))).
    { apply Rsum_ext. intros j Hj. f_equal. rewrite <- (ft_x0 _ _ _ _ _ _ _ _ _ FT) in Hj.
      assert (exists y dy, nth_error (v_x v) 0 = Some y /\ nth_error (v_x d) 0 = Some dy) as (y & dy & Ey & Edy).
      { destruct (Nat.eq_dec N 0) as [Z|Z].
        - rewrite Z in *. eauto.
        - destruct (nw_stage _ _ _ _ _ _ _ _ NW 0%nat ltac:(lia)) as (y & ? & ? & ? & ? & ? & ? & dy & ? & ? & ? & ? & ? & ? & (Ey & _) & (Edy & _) & _). eauto. }
      pose proof (nw_init _ _ _ _ _ _ _ _ NW y dy Ey Edy j Hj). unfold plan_x. rewrite (nth_of _ _ _ _ Ey), (nth_of _ _ _ _ Edy). lra. }
    rewrite E0. lra.
  Qed.

  Lemma viol_nonneg : 0 <= merit_viol pb t0 x0 N v.
  Proof using.
    unfold merit_viol. cbn zeta. apply Rplus_le_le_0_compat; [apply Rsum_nonneg; intros; apply Rabs_pos|].
    apply Rsum_nonneg. intros i Hi. apply Rplus_le_le_0_compat; apply Rsum_nonneg; intros; apply Rabs_pos.
  Qed.
  Lemma sum_pull n (a b : nat -> R) m : (forall j, (j < n)%nat -> Rabs (a j) <= m) -> Rsum n (fun j => a j * b j) <= m * Rsum n (fun j => Rabs (b j)).
  Proof using.
    intros H. rewrite <- Rsum_scal. apply Rsum_le. intros j Hj. eapply Rle_trans; [apply Rle_abs|]. rewrite Rabs_mult.
    apply Rmult_le_compat_r; [apply Rabs_pos|auto].
  Qed.
  Lemma pull_le m : multipliers_below pb N m v d -> pull <= m * merit_viol pb t0 x0 N v.
  Proof using FT.
    intros (H1 & H2). unfold pull, merit_viol. cbn zeta. rewrite Rmult_plus_distr_l. apply Rplus_le_compat.
    - rewrite (ft_x0 _ _ _ _ _ _ _ _ _ FT). apply sum_pull. intros j Hj. apply H1; [lia|exact Hj].
    - rewrite <- Rsum_scal. apply Rsum_le. intros i Hi. destruct (ft_stage _ _ _ _ _ _ _ _ _ FT i Hi) as (_ & _ & F3 & F4 & _).
      rewrite Rmult_plus_distr_l. unfold plan_x, plan_u, plan_s in *. rewrite F3, F4. apply Rplus_le_compat; apply sum_pull; intros j Hj.
      + apply (H1 (i + 1)%nat); [lia|exact Hj].
      + apply (H2 i); [exact Hi|exact Hj].
  Qed.
End Slope.

Section Bound.
  Variables (pb : fproblem R) (N : nat) (v d : var R).
  Notation nx := (pb_nx (fp_dp pb)).
  Lemma multipliers_bounded : exists m, multipliers_below pb N m v d.
  Proof.
    set (fl := fun i => Rsum nx (fun j => Rabs (vget (plan_l v i) j + vget (plan_l d i) j))).
    set (fn := fun i => Rsum (length (plan_s v i)) (fun j => Rabs (vget (plan_n v i) j + vget (plan_n d i) j))).
    assert (Pl : forall i, 0 <= fl i) by (intros; apply Rsum_nonneg; intros; apply Rabs_pos).
    assert (Pn : forall i, 0 <= fn i) by (intros; apply Rsum_nonneg; intros; apply Rabs_pos).
    exists (Rsum (S N) fl + Rsum N fn). split; intros i j Hi Hj.
    - apply Rle_trans with (fl i).
      + apply (Rsum_term_le nx (fun j => Rabs (vget (plan_l v i) j + vget (plan_l d i) j))); [intros; apply Rabs_pos|exact Hj].
      + pose proof (Rsum_term_le (S N) fl i (fun j _ => Pl j) ltac:(lia)). pose proof (Rsum_nonneg N fn (fun j _ => Pn j)). lra.
    - apply Rle_trans with (fn i).
      + apply (Rsum_term_le (length (plan_s v i)) (fun j => Rabs (vget (plan_n v i) j + vget (plan_n d i) j))); [intros; apply Rabs_pos|exact Hj].
      + pose proof (Rsum_term_le N fn i (fun j _ => Pn j) Hi). pose proof (Rsum_nonneg (S N) fl (fun j _ => Pl j)). lra.
  Qed.
End Bound.

(** The sizes and coefficients of a continued iteration. *)
From Verif Require Import FmpcAffine.
Section Fits.
  Variables (LO : linops R) (pb : fproblem R) (cf : fconfig R) (D : derivs R).
  Notation nx := (pb_nx (fp_dp pb)).
  Notation N := (Nf cf).
  Lemma bw_keep_L eps c sl nl s P c' : bw_coeff LO pb cf eps c sl nl s P = Some (Some c') -> c_Lx c' = c_Lx c /\ c_Lu c' = c_Lu c.
  Proof.
    intros H. unfold bw_coeff in H. cbn zeta in H. opt1 H.
    match type of H with match ?g with _ => _ end = _ => destruct g as [[k K]|]; [|discriminate] end.
    opt1 H. apply some_inj, some_inj in H. subst c'. auto.
  Qed.
  Lemma proc_fits fuel it s s' : proc_once LO pb cf fuel it s = Ok IterationContinued s' -> computes pb D ->
    exists cN, nth_error (f_coeff s') N = Some cN /\ fits pb D (f_t s) (f_x s) N (f_var s) (f_delta s') (f_coeff s') cN.
  Proof.
    intros H CM. apply proc_cont in H as (eps & cl & e & cl' & d & _ & Hc & Hb & Hd & _ & Ec & Ed & _).
    rewrite Ec, Ed. destruct (passes_primal LO pb cf D (checked s it eps cl e) (f_coeff s) cl' d CM Hc Hb Hd) as (Q1 & Q2).
    cbn [checked f_t f_var f_x] in Q1, Q2.
    destruct (backward_lists _ _ _ _ _ Hb) as (ce & acc & Ece & Hbw). apply bw_coeffs_spec in Hbw as (Bend & Bst).
    cbn [checked f_coeff f_var f_eps] in Ece, Bst.
    apply coeffs_spec in Hc as (_ & Hc & (ce' & Ece' & Hce)). rewrite Ece in Ece'. injection Ece' as <-.
    destruct (coeff_end_spec pb cf D _ _ _ _ CM Hce) as (xN & lN & _ & ExN & ElN & _ & LT & LlN & ELx & ELxx & ELxb).
    exists (bw_end ce). pose proof (Bend 0%nat) as EN. rewrite Nat.add_0_r in EN. cbn [nth_error] in EN. split; [exact EN|].
    destruct Q1 as (y0 & Ey0 & Edy0 & L1 & L2). constructor.
    - congruence.
    - intros i Hi. cbn zeta. destruct (Q2 i Hi) as (x & u & l & w & n & x' & l' & dx & du & dl & ds & dn & dx' & dl' & St & Sd & K). cbn zeta in K.
      destruct K as (K1 & K2 & K3 & K4 & K5 & K6 & _).
      destruct (Bst i Hi) as (c & sl & nl & c' & cn & B1 & B2 & B3 & B4 & B5 & B6). destruct (Hc i Hi) as (c0 & E7 & Hat). rewrite B1 in E7. injection E7 as <-.
      destruct (coeff_at_spec pb D _ _ _ _ _ CM Hat) as (x1 & u1 & l1 & s1 & n1 & x1' & l1' & cj & St1 & _ & S). cbn zeta in S.
      destruct (stage_fun _ _ _ _ _ _ _ _ _ _ _ _ _ _ _ _ St St1) as (-> & -> & -> & -> & -> & -> & ->).
      destruct S as (D1 & D2 & D3 & D4 & D5 & D6 & MA & MB & MC & MD & D7 & D8 & EA & EB & EC & EDD & ELx0 & ELu & _).
      pose proof (bw_keep _ _ _ _ _ _ _ _ _ _ B6) as ((BA & BB & BC & BD & _) & _). pose proof (bw_keep_L _ _ _ _ _ _ _ B6) as (BX & BU).
      destruct St as (S1 & S2 & S3 & S4 & S5 & S6 & S7). destruct Sd as (T1 & T2 & T3 & T4 & T5 & T6 & T7).
      rewrite ft_R in *. unfold plan_x, plan_u, plan_s.
      rewrite (nth_of _ _ _ _ S1), (nth_of _ _ _ _ S2), (nth_of _ _ _ _ S4), (nth_of _ _ _ _ T1), (nth_of _ _ _ _ T2), (nth_of _ _ _ _ B4).
      repeat (split; [congruence|]). congruence.
    - split.
      + unfold plan_x. destruct (Nat.eq_dec N 0) as [Z|Z].
        * rewrite Z, (nth_of _ _ _ _ Edy0). rewrite vlen_sub. congruence.
        * destruct (Q2 (N - 1)%nat ltac:(lia)) as (x & u & l & w & n & x' & l' & dx & du & dl & ds & dn & dx' & dl' & _ & (_ & _ & _ & _ & _ & E & _) & K).
          cbn zeta in K. replace (N - 1 + 1)%nat with N in E by lia. rewrite (nth_of _ _ _ _ E). apply K.
      + cbn [bw_end c_Lx]. rewrite ELx, ft_R. unfold plan_x. rewrite (nth_of _ _ _ _ ExN). reflexivity.
  Qed.
End Fits.

Lemma nth_error_same {A} (l1 l2 : list A) : (forall i, nth_error l1 i = nth_error l2 i) -> l1 = l2.
Proof.
  revert l2. induction l1 as [|a l1 IH]; intros [|b l2] H; try reflexivity; try (specialize (H 0%nat); discriminate).
  f_equal; [specialize (H 0%nat); cbn in H; congruence|]. apply IH. intros i. exact (H (S i)).
Qed.
(** A list moved by the same length in the same direction is the same list. *)
Lemma moved_same n a (old d l1 l2 : list (vec R)) : moved n a old d l1 -> moved n a old d l2 -> l1 = l2.
Proof.
  intros (L1 & H1 & T1) (L2 & H2 & T2). apply nth_error_same. intros i. destruct (Nat.lt_ge_cases i n) as [Hi|Hi].
  - destruct (H1 i Hi) as (v & dv & w & E1 & E2 & E3 & M1 & M2 & M3). destruct (H2 i Hi) as (v' & dv' & w' & F1 & F2 & F3 & N1 & N2 & N3).
    rewrite E1 in F1. injection F1 as <-. rewrite E2 in F2. injection F2 as <-. rewrite E3, F3. f_equal. apply (nth_ext _ _ 0 0); [congruence|].
    intros j Hj. rewrite M2 in Hj. change (vget w j = vget w' j). rewrite M3, N3 by exact Hj. reflexivity.
  - rewrite T1, T2 by exact Hi. reflexivity.
Qed.

(** What setupMeritFunc stores in a continued iteration. *)
Section Stored.
  Variables (LO : linops R) (pb : fproblem R) (cf : fconfig R) (D : derivs R).
  Notation N := (Nf cf).
  Lemma proc_merit fuel it s s' : proc_once LO pb cf fuel it s = Ok IterationContinued s' -> computes pb D -> fc_ls cf = true ->
    exists cN st, nth_error (f_coeff s') N = Some cN /\ fits pb D (f_t s) (f_x s) N (f_var s) (f_delta s') (f_coeff s') cN /\
      setup_merit pb cf st = Ok tt (set_fmerit (f_mscale s') (f_mfunc s') (f_mderiv s') st) /\
      f_t st = f_t s /\ f_x st = f_x s /\ f_eps st = f_eps s' /\ f_var st = f_var s /\ f_delta st = f_delta s' /\ f_coeff st = f_coeff s' /\
      update_variables pb cf fuel st = Ok true s' /\
      (let dob := dobj pb cf (f_eps s') (f_var s) (f_delta s') (f_coeff s') cN in
       f_mderiv s' = dob + f_mscale s' * dconst pb cf (f_t s) (f_x s) (f_var s) (f_delta s') (f_coeff s') cN /\
       1 / 1000 <= f_mscale s' /\
       (fc_lagr cf = false -> 0 < merit_viol pb (f_t s) (f_x s) N (f_var s) -> dob <= 1 / 2 * f_mscale s' * merit_viol pb (f_t s) (f_x s) N (f_var s)) /\
       (fc_lagr cf = false -> f_mscale s' = Rmax (dob / (1 / 2 * merit_viol pb (f_t s) (f_x s) N (f_var s))) (1 / 1000)) /\
       (fc_lagr cf = true -> lagr_scale (v_l (f_var s)) (v_n (f_var s)) N (1 / 1000) = Some (f_mscale s'))).
  Proof.
    intros H CM LS. destruct (proc_fits LO pb cf D _ _ _ _ H CM) as (cN & EN & FT).
    apply proc_cont in H as (eps & cl & e & cl' & d & _ & Hc & Hb & Hd & Hu & Ec & Ed & Ee & Et & Ex).
    exists cN, (set_fdelta d (set_fcoeff cl' (checked s it eps cl e))). split; [exact EN|]. split; [exact FT|].
    cbn [set_fdelta set_fcoeff checked f_t f_x f_eps f_var f_delta f_coeff]. rewrite Ee, Ed, Ec in *.
    pose proof (update_variables_case pb cf fuel (set_fdelta d (set_fcoeff cl' (checked s it eps cl e)))) as U. rewrite Hu in U.
    destruct U as [U|[U|(a_s & a_n & _ & _ & [[_ U]|(_ & s3 & a & v & Ha & _ & U)])]]; try discriminate. injection U as ->.
    unfold alpha_used in Ha. rewrite LS in Ha. destruct Ha as [Hm _]. cbn [set_fvar f_mscale f_mfunc f_mderiv].
    split; [destruct (setup_merit_R pb cf _ _ Hm) as (sc & dd & ->); exact Hm|].
    repeat (split; [reflexivity|]). split; [exact Hu|]. cbn zeta. unfold setup_merit in Hm.
    cbn [set_fdelta set_fcoeff checked f_t f_x f_eps f_var f_delta f_coeff] in Hm.
    destruct (merit_parts pb cf (f_t s) (f_x s) eps (f_var s)) as [[o c]|] eqn:Em; [|discriminate].
    destruct (deriv_parts _ _ _ _ _ _ _ _) as [[d1 d2]|] eqn:Edp; [|discriminate].
    destruct (merit_scale _ _ _ _) as [sc|] eqn:Es; [|discriminate]. cbn [fst snd] in Hm, Es. injection Hm as <-.
    apply (deriv_parts_R pb cf _ _ _ _ _ _ cN) in Edp as (-> & -> & _); [|exact EN].
    apply merit_parts_R in Em as [-> ->]. cbn [set_fmerit f_mscale f_mderiv]. split; [reflexivity|].
    split; [apply (merit_scale_pos _ _ _ _ _ Es)|].
    set (dob := dobj pb cf eps (f_var s) d cl' cN) in *. set (vi := merit_viol pb (f_t s) (f_x s) N (f_var s)) in *.
    assert (Q : fc_lagr cf = false -> sc = Rmax (dob / (1 / 2 * vi)) (1 / 1000)).
    { intros LG. unfold merit_scale in Es. rewrite LG in Es. apply some_inj in Es. rewrite nmax_R in Es. rewrite <- Es.
      f_equal. assert (E2 : ((nofZ 1 - nhalf) * vi)%num = 1 / 2 * vi) by (unfold nhalf; numR; cbn; lra).
      change (dob / ((nofZ 1 - nhalf) * vi)%num = dob / (1 / 2 * vi)). rewrite E2. reflexivity. }
    split; [|split; [exact Q|]].
    - intros LG VP. pose proof (Rmax_l (dob / (1 / 2 * vi)) (1 / 1000)) as Hq. rewrite <- (Q LG) in Hq.
      apply (Rmult_le_compat_r (1 / 2 * vi)) in Hq; [|lra]. replace (dob / (1 / 2 * vi) * (1 / 2 * vi)) with dob in Hq by (field; lra). lra.
    - intros LG. unfold merit_scale in Es. rewrite LG in Es. exact Es.
  Qed.
End Stored.
