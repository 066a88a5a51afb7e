(** Convex problems: what an approximate KKT point of the FMPC solver says about the cost of every other plan.
    The first section is a specification written without the functions of the model. *)
From Coq Require Import Reals Lra Psatz.
From Verif Require Import Prelude Scalar LinAlg RLin DDP Fmpc FmpcProofs FmpcStep FmpcSpec FmpcReal.
Local Open Scope R_scope.

Section Spec.
  Variables (pb : fproblem R) (D : derivs R) (t0 : R) (x0 : vec R) (N : nat).
  Notation nx := (pb_nx (fp_dp pb)).
  Notation dt := (pb_dt (fp_dp pb)).
  Notation time i := (t0 + INR i * dt).

  (** A plan gives a state for every time 0..N and an input for every time 0..N-1. *)
  Definition plan_cost (x u : nat -> vec R) : R :=
    Rsum N (fun i => dt * pb_runningCost (fp_dp pb) (time i) (x i) (u i)) + pb_terminalCost (fp_dp pb) (time N) (x N).
  Definition plan_x (v : var R) (i : nat) : vec R := nth i (v_x v) [].
  Definition plan_u (v : var R) (i : nat) : vec R := nth i (v_u v) [].
  (** The multipliers of the state equation, the slacks and the multipliers of the inequalities. *)
  Definition plan_l (v : var R) (i : nat) : vec R := nth i (v_l v) [].
  Definition plan_s (v : var R) (i : nat) : vec R := nth i (v_s v) [].
  Definition plan_n (v : var R) (i : nat) : vec R := nth i (v_n v) [].
  (** Every constraint is violated by at most [d]. *)
  Record nearly_feasible (d : R) (y w : nat -> vec R) : Prop := {
    nf_init : forall j, (j < nx)%nat -> Rabs (vget x0 j - vget (y 0%nat) j) <= d;
    nf_dyn : forall i j, (i < N)%nat -> (j < nx)%nat -> Rabs (vget (pb_stateEq (fp_dp pb) (time i) (y i) (w i)) j - vget (y (i + 1)%nat) j) <= d;
    nf_ineq : forall i j, (i < N)%nat -> (j < length (fp_g pb (time i) (y i) (w i)))%nat -> vget (fp_g pb (time i) (y i) (w i)) j <= d
  }.
  (** The sizes of a plan. *)
  Definition plan_dims (u y w : nat -> vec R) : Prop :=
    (forall i, (i <= N)%nat -> length (y i) = nx) /\ (forall i, (i < N)%nat -> length (w i) = length (u i)).
  (** At the plan (x, u): the costs lie above their tangents, by [m / 2] times the squared distance of the inputs; the state
      equation is affine; every inequality function lies above its tangent. *)
  Definition slope (n : nat) (g x y : nat -> R) : R := Rsum n (fun k => g k * (y k - x k)).
  Definition dist2 (n : nat) (x y : nat -> R) : R := Rsum n (fun k => (y k - x k) * (y k - x k)).
  Definition dist1 (n : nat) (x y : nat -> R) : R := Rsum n (fun k => Rabs (y k - x k)).
  Definition norm1 (n : nat) (x : nat -> R) : R := Rsum n (fun k => Rabs (x k)).
  Record convex_at (m : R) (x u : nat -> vec R) : Prop := {
    cv_stage : forall i y w, (i < N)%nat -> length y = nx -> length w = length (u i) ->
      let t := time i in let xi := x i in let ui := u i in
      pb_runningCost (fp_dp pb) t y w >= pb_runningCost (fp_dp pb) t xi ui + slope nx (vget (d_Lx D t xi ui)) (vget xi) (vget y)
        + slope (length ui) (vget (d_Lu D t xi ui)) (vget ui) (vget w) + m / 2 * dist2 (length ui) (vget ui) (vget w) /\
      (forall j, (j < nx)%nat -> vget (pb_stateEq (fp_dp pb) t y w) j = vget (pb_stateEq (fp_dp pb) t xi ui) j
        + slope nx (mget (d_A D t xi ui) j) (vget xi) (vget y) + slope (length ui) (mget (d_B D t xi ui) j) (vget ui) (vget w)) /\
      length (fp_g pb t y w) = length (fp_g pb t xi ui) /\
      (forall j, (j < length (fp_g pb t xi ui))%nat -> vget (fp_g pb t y w) j >= vget (fp_g pb t xi ui) j
        + slope nx (mget (d_C D t xi ui) j) (vget xi) (vget y) + slope (length ui) (mget (d_D D t xi ui) j) (vget ui) (vget w));
    cv_end : forall y, length y = nx -> pb_terminalCost (fp_dp pb) (time N) y >= pb_terminalCost (fp_dp pb) (time N) (x N)
        + slope nx (vget (d_Tx D (time N) (x N))) (vget (x N)) (vget y)
  }.
  (** The sizes of the multipliers of a variable and the number of its inequalities. *)
  Definition multiplier_size (v : var R) : R :=
    Rsum (N + 1) (fun i => norm1 nx (vget (plan_l v i))) + Rsum N (fun i => norm1 (length (plan_s v i)) (vget (plan_n v i))).
  Definition inequalities (v : var R) : R := Rsum N (fun i => INR (length (plan_s v i))).
  (** The distance between two plans. *)
  Definition plan_dist1 (x u y w : nat -> vec R) : R :=
    Rsum (N + 1) (fun i => dist1 nx (vget (x i)) (vget (y i))) + Rsum N (fun i => dist1 (length (u i)) (vget (u i)) (vget (w i))).
  Definition input_dist2 (u w : nat -> vec R) : R := Rsum N (fun i => dist2 (length (u i)) (vget (u i)) (vget (w i))).
  (** All lists of a variable have the lengths of the horizon, with as many inequality values as slacks. *)
  Definition whole (v : var R) : Prop :=
    (forall i, (i < N)%nat -> exists x u l s n x' l', stage v i x u l s n x' l' /\ length (fp_g pb (time i) x u) = length s) /\
    (exists x l, nth_error (v_x v) N = Some x /\ nth_error (v_l v) N = Some l) /\ (exists x, nth_error (v_x v) 0 = Some x).
End Spec.

Section Lemmas.
  Lemma Rabs_le_inv a b : Rabs a <= b -> - b <= a <= b.
  Proof. unfold Rabs. destruct (Rcase_abs a); lra. Qed.
  Lemma sum_const n c : Rsum n (fun _ => c) = INR n * c.
  Proof. induction n as [|n IH]; [cbn; ring|]. rewrite Rsum_S, IH, S_INR. ring. Qed.
  (** A residual bounded by [e] contributes at most [e] times the 1-norm. *)
  Lemma resid_le n e (r d : nat -> R) : (forall j, (j < n)%nat -> Rabs (r j) <= e) ->
    Rabs (Rsum n (fun j => r j * d j)) <= e * Rsum n (fun j => Rabs (d j)).
  Proof.
    intros H. eapply Rle_trans; [apply Rsum_abs|]. rewrite <- Rsum_scal. apply Rsum_le. intros j Hj.
    rewrite Rabs_mult. apply Rmult_le_compat_r; [apply Rabs_pos|]. apply H, Hj.
  Qed.
  Lemma transposed n m (A : nat -> nat -> R) (l d : nat -> R) :
    Rsum m (fun j => Rsum n (fun k => A k j * l k) * d j) = Rsum n (fun k => l k * Rsum m (fun j => A k j * d j)).
  Proof.
    transitivity (Rsum m (fun j => Rsum n (fun k => l k * (A k j * d j)))).
    - apply Rsum_ext. intros j _. rewrite <- Rsum_scal_r. apply Rsum_ext. intros k _. ring.
    - rewrite Rsum_swap. apply Rsum_ext. intros k _. rewrite <- Rsum_scal. apply Rsum_ext. intros j _. reflexivity.
  Qed.
  Lemma telescope n (f : nat -> R) : Rsum n (fun i => f i - f (i + 1)%nat) = f 0%nat - f n.
  Proof. induction n as [|n IH]; [cbn; ring|]. rewrite Rsum_S, IH, Nat.add_1_r. ring. Qed.
End Lemmas.

Section Gap.
  Variables (pb : fproblem R) (D : derivs R) (t0 : R) (x0 : vec R) (N : nat).
  Notation nx := (pb_nx (fp_dp pb)).
  Notation dt := (pb_dt (fp_dp pb)).
  Notation time i := (t0 + INR i * dt).
  Variables (v : var R) (e d m : R) (y w : nat -> vec R).
  Hypothesis Hdt : 0 <= dt.
  Hypothesis Hx0 : length x0 = nx.
  Hypothesis W : whole pb t0 N v.
  Hypothesis K : approx_kkt pb D t0 x0 v N e.
  Hypothesis C : convex_at pb D t0 N m (plan_x v) (plan_u v).
  Hypothesis PD : plan_dims pb N (plan_u v) y w.
  Hypothesis F : nearly_feasible pb t0 x0 N d y w.
  Notation lam i := (vget (plan_l v i)).
  Notation dx i := (fun k => vget (y i) k - vget (plan_x v i) k).
  Notation flow i := (Rsum nx (fun k => lam i k * dx i k)).

  Lemma gap_stage i : (i < N)%nat ->
    dt * pb_runningCost (fp_dp pb) (time i) (y i) (w i) - dt * pb_runningCost (fp_dp pb) (time i) (plan_x v i) (plan_u v i) >=
      (flow i - flow (i + 1)%nat) + dt * (m / 2 * dist2 (length (plan_u v i)) (vget (plan_u v i)) (vget (w i)))
      - e * (dist1 nx (vget (plan_x v i)) (vget (y i)) + dist1 (length (plan_u v i)) (vget (plan_u v i)) (vget (w i)) + INR (length (plan_s v i)))
      - (e + d) * (norm1 nx (lam (i + 1)%nat) + norm1 (length (plan_s v i)) (vget (plan_n v i))).
  Proof.
    intros Hi. destruct W as (W1 & _). destruct (W1 i Hi) as (x & u & l & s & n & x' & l' & St & Lg).
    destruct (ak_stage _ _ _ _ _ _ _ K i x u l s n x' l' Hi St) as (K1 & K2 & K3 & K4 & K5).
    destruct PD as (P1 & P2). pose proof (P1 i ltac:(lia)) as Ly. pose proof (P2 i Hi) as Lw.
    destruct (cv_stage _ _ _ _ _ _ _ C i (y i) (w i) Hi Ly Lw) as (C1 & C2 & C3 & C4).
    destruct St as (S1 & S2 & S3 & S4 & S5 & S6 & S7).
    assert (T1 : plan_x v i = x) by (apply (nth_error_nth _ _ [] S1)). assert (T2 : plan_u v i = u) by (apply (nth_error_nth _ _ [] S2)).
    assert (T6 : plan_x v (i + 1) = x') by (apply (nth_error_nth _ _ [] S6)).
    assert (T3 : plan_l v i = l) by (apply (nth_error_nth _ _ [] S3)). assert (T4 : plan_s v i = s) by (apply (nth_error_nth _ _ [] S4)).
    assert (T5 : plan_n v i = n) by (apply (nth_error_nth _ _ [] S5)). assert (T7 : plan_l v (i + 1) = l') by (apply (nth_error_nth _ _ [] S7)).
    rewrite T1, T2, T3, T4, T5, T6, T7. rewrite T1, T2 in C1, C2, C3, C4. rewrite T2 in Lw.
    cbn zeta in *. set (t := time i) in *. rewrite Lg in *.
    set (dxi := fun k => vget (y i) k - vget x k). set (dui := fun k => vget (w i) k - vget u k).
    (* the gradients along the difference *)
    set (a := fun j => Rsum nx (fun k => mget (d_A D t x u) k j * vget l' k)) in *.
    set (b := fun j => Rsum nx (fun k => mget (d_B D t x u) k j * vget l' k)) in *.
    set (c := fun j => Rsum (length s) (fun k => mget (d_C D t x u) k j * vget n k)) in *.
    set (dd := fun j => Rsum (length s) (fun k => mget (d_D D t x u) k j * vget n k)) in *.
    set (rx := fun j => dt * vget (d_Lx D t x u) j + a j + c j - vget l j).
    set (ru := fun j => dt * vget (d_Lu D t x u) j + b j + dd j).
    assert (Ex : dt * slope nx (vget (d_Lx D t x u)) (vget x) (vget (y i)) =
      Rsum nx (fun j => rx j * dxi j) + Rsum nx (fun j => vget l j * dxi j) - Rsum nx (fun j => a j * dxi j) - Rsum nx (fun j => c j * dxi j)).
    { unfold slope. rewrite <- Rsum_scal, <- Rsum_plus, <- !Rsum_minus. apply Rsum_ext. intros j _. unfold rx, dxi. ring. }
    assert (Eu : dt * slope (length u) (vget (d_Lu D t x u)) (vget u) (vget (w i)) =
      Rsum (length u) (fun j => ru j * dui j) - Rsum (length u) (fun j => b j * dui j) - Rsum (length u) (fun j => dd j * dui j)).
    { unfold slope. rewrite <- Rsum_scal, <- !Rsum_minus. apply Rsum_ext. intros j _. unfold ru, dui. ring. }
    pose proof (resid_le nx e rx dxi K3) as Rx. pose proof (resid_le (length u) e ru dui K4) as Ru.
    (* the dynamics *)
    set (p := fun k => vget (pb_stateEq (fp_dp pb) t (y i) (w i)) k - vget (y (i + 1)%nat) k - (vget (pb_stateEq (fp_dp pb) t x u) k - vget x' k)).
    assert (Ef : Rsum nx (fun j => a j * dxi j) + Rsum (length u) (fun j => b j * dui j) =
      Rsum nx (fun k => vget l' k * (vget (y (i + 1)%nat) k - vget x' k)) + Rsum nx (fun k => p k * vget l' k)).
    { unfold a, b. rewrite !transposed, <- !Rsum_plus. apply Rsum_ext. intros k Hk. specialize (C2 k Hk). unfold slope in C2.
      unfold p, dxi, dui. rewrite C2. ring. }
    assert (Rp : Rabs (Rsum nx (fun k => p k * vget l' k)) <= (e + d) * Rsum nx (fun k => Rabs (vget l' k))).
    { apply resid_le. intros k Hk. pose proof (nf_dyn _ _ _ _ _ _ _ F i k Hi Hk) as B1. fold t in B1. pose proof (K1 k Hk) as B2. unfold p.
      eapply Rle_trans; [apply Rabs_triang|]. rewrite Rabs_Ropp. lra. }
    (* the inequalities *)
    assert (Eg : Rsum nx (fun j => c j * dxi j) + Rsum (length u) (fun j => dd j * dui j) <=
      (e + d) * Rsum (length s) (fun k => Rabs (vget n k)) + e * INR (length s)).
    { unfold c, dd. rewrite !transposed, <- Rsum_plus. rewrite Rmult_comm with (r1 := e). rewrite <- (sum_const (length s) e), <- Rsum_scal, <- Rsum_plus.
      apply Rsum_le. intros k Hk. specialize (C4 k Hk). destruct (K5 k Hk) as (B1 & B2 & B3). pose proof (K2 k Hk) as B4.
      pose proof (nf_ineq _ _ _ _ _ _ _ F i k Hi) as B5. fold t in B5. rewrite C3 in B5. specialize (B5 Hk). unfold slope in C4. fold dxi in C4.
      rewrite (Rabs_right (vget n k)) by lra.
      set (q1 := Rsum nx (fun j => mget (d_C D t x u) k j * dxi j)) in *. set (q2 := Rsum (length u) (fun j => mget (d_D D t x u) k j * dui j)) in *.
      change (Rsum (length u) (fun j => mget (d_D D t x u) k j * (vget (w i) j - vget u j))) with q2 in C4.
      change (Rsum nx (fun j => mget (d_C D t x u) k j * (vget (y i) j - vget x j))) with q1 in C4.
      assert (Q : q1 + q2 <= d + e + vget s k). { apply Rabs_le_inv in B4. lra. }
      rewrite <- Rmult_plus_distr_l. 
      assert (vget n k * (q1 + q2) <= vget n k * (d + e + vget s k)) by (apply Rmult_le_compat_l; lra). lra. }
    apply Rabs_le_inv in Rx. apply Rabs_le_inv in Ru. apply Rabs_le_inv in Rp.
    assert (C1' : dt * pb_runningCost (fp_dp pb) t (y i) (w i) >= dt * (pb_runningCost (fp_dp pb) t x u + slope nx (vget (d_Lx D t x u)) (vget x) (vget (y i))
        + slope (length u) (vget (d_Lu D t x u)) (vget u) (vget (w i)) + m / 2 * dist2 (length u) (vget u) (vget (w i)))).
    { apply Rle_ge, Rmult_le_compat_l; lra. }
    rewrite !Rmult_plus_distr_l in C1'. rewrite Ex, Eu in C1'.
    change (dist1 nx (vget x) (vget (y i))) with (Rsum nx (fun j => Rabs (dxi j))).
    change (dist1 (length u) (vget u) (vget (w i))) with (Rsum (length u) (fun j => Rabs (dui j))).
    change (norm1 nx (vget l')) with (Rsum nx (fun k => Rabs (vget l' k))). change (norm1 (length s) (vget n)) with (Rsum (length s) (fun k => Rabs (vget n k))).
    change (Rsum nx (fun k => vget l k * (vget (y i) k - vget x k))) with (Rsum nx (fun j => vget l j * dxi j)).
    lra.
  Qed.

  Lemma gap : plan_cost pb t0 N (plan_x v) (plan_u v) + dt * (m / 2) * input_dist2 N (plan_u v) w <=
    plan_cost pb t0 N y w + e * (plan_dist1 pb N (plan_x v) (plan_u v) y w + inequalities N v) + (e + d) * multiplier_size pb N v.
  Proof.
    pose proof (Rsum_le N (fun i => (flow i - flow (i + 1)%nat) + dt * (m / 2) * dist2 (length (plan_u v i)) (vget (plan_u v i)) (vget (w i))
      - e * (dist1 nx (vget (plan_x v i)) (vget (y i)) + dist1 (length (plan_u v i)) (vget (plan_u v i)) (vget (w i)) + INR (length (plan_s v i)))
      - (e + d) * (norm1 nx (lam (i + 1)%nat) + norm1 (length (plan_s v i)) (vget (plan_n v i))))
      (fun i => dt * pb_runningCost (fp_dp pb) (time i) (y i) (w i) - dt * pb_runningCost (fp_dp pb) (time i) (plan_x v i) (plan_u v i))) as G.
    assert (G' := G (fun i Hi => ltac:(pose proof (gap_stage i Hi); lra))). clear G.
    rewrite !Rsum_minus, !Rsum_plus, !Rsum_scal, !Rsum_plus in G'.
    pose proof (telescope N (fun i => flow i)) as TL. cbn beta in TL.
    (* the ends *)
    destruct W as (_ & (xN & lN & EN & ElN) & (xi & Ei)).
    pose proof (cv_end _ _ _ _ _ _ _ C (y N)) as CE. destruct PD as (P1 & _). specialize (CE (P1 N ltac:(lia))).
    pose proof (fun j Hj => ak_end _ _ _ _ _ _ _ K xN lN EN ElN j Hj) as KE.
    assert (Ee : slope nx (vget (d_Tx D (time N) (plan_x v N))) (vget (plan_x v N)) (vget (y N)) >= flow N - e * dist1 nx (vget (plan_x v N)) (vget (y N))).
    { assert (T1 : plan_x v N = xN) by (apply (nth_error_nth _ _ [] EN)). assert (T2 : plan_l v N = lN) by (apply (nth_error_nth _ _ [] ElN)). rewrite T1, T2.
      pose proof (resid_le nx e (fun j => vget (d_Tx D (time N) xN) j - vget lN j) (fun j => vget (y N) j - vget xN j) KE) as Q.
      unfold slope, dist1. cbn beta in Q.
      rewrite (Rsum_ext nx (fun j => (vget (d_Tx D (time N) xN) j - vget lN j) * _) (fun j => vget (d_Tx D (time N) xN) j * (vget (y N) j - vget xN j) - vget lN j * (vget (y N) j - vget xN j))) in Q by (intros; ring).
      rewrite Rsum_minus in Q. apply Rabs_le_inv in Q. lra. }
    assert (Eb : flow 0%nat >= - ((e + d) * norm1 nx (lam 0%nat))).
    { destruct (ak_init _ _ _ _ _ _ _ K xi Ei) as (_ & KI). assert (T1 : plan_x v 0 = xi) by (apply (nth_error_nth _ _ [] Ei)). rewrite T1.
      pose proof (resid_le nx (e + d) (fun j => vget (y 0%nat) j - vget xi j) (lam 0%nat)) as Q. cbn beta in Q.
      assert (Q' := Q (fun j Hj => ltac:(
        pose proof (nf_init _ _ _ _ _ _ _ F j Hj) as B1; pose proof (KI j ltac:(rewrite Hx0; exact Hj)) as B2;
        apply Rabs_le_inv in B1; apply Rabs_le_inv in B2; apply Rabs_le; lra))). clear Q.
      rewrite (Rsum_ext nx _ (fun k => lam 0%nat k * (vget (y 0%nat) k - vget xi k))) in Q' by (intros; ring).
      apply Rabs_le_inv in Q'. unfold norm1. lra. }
    unfold plan_cost, plan_dist1, input_dist2, inequalities, multiplier_size.
    rewrite (Nat.add_1_r N), !Rsum_S, !Rsum_scal.
    assert (Q1 : Rsum N (fun i => norm1 nx (lam i)) + norm1 nx (lam N) = norm1 nx (lam 0%nat) + Rsum N (fun i => norm1 nx (lam (i + 1)%nat))).
    { change (Rsum (Datatypes.S N) (fun i => norm1 nx (lam i)) = norm1 nx (lam 0%nat) + Rsum N (fun i => norm1 nx (lam (i + 1)%nat))). rewrite Rsum_S_l. f_equal. apply Rsum_ext. intros. rewrite Nat.add_1_r. reflexivity. }
    rewrite Q1. lra.
  Qed.
End Gap.

(** The variable of a successful run is whole. *)
Lemma success_whole LO pb cf jk D fuel t0 x0 v0 s s' : computes pb D -> fmpc_solve LO pb cf jk fuel t0 x0 v0 s = Ok Succeeded s' ->
  whole pb t0 (Nf cf) (f_var s').
Proof.
  intros CM H. pose proof (solve_lens _ _ _ _ _ _ _ _ _ _ _ H) as HL. unfold lens in HL. injection HL as L1 L2 L3 L4 L5.
  apply solve_succ in H as (_ & _ & cl & e & Hc & _). apply coeffs_spec in Hc as (_ & Hc & (ce & _ & Hce)). split; [|split].
  - intros i Hi. destruct (Hc i Hi) as (c & _ & Hat). destruct (coeff_at_spec pb D _ _ _ _ _ CM Hat) as (x & u & l & s1 & n & x' & l' & cj & St & _ & S).
    exists x, u, l, s1, n, x', l'. split; [exact St|]. cbn zeta in S. rewrite ft_R in S. apply S.
  - destruct (coeff_end_spec pb cf D _ _ _ _ CM Hce) as (xN & lN & _ & E1 & E2 & _). eauto.
  - destruct (v_x (f_var s')) as [|x ?] eqn:E; [cbn in L1; lia|]. exists x. reflexivity.
Qed.
