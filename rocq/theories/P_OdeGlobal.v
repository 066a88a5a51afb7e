(** C81: how far the integrators, and with them the simulation of C/GMRES, can be from the exact motion. *)
From Coq Require Import Reals Lra Psatz.
From Verif Require Import Prelude Scalar LinAlg RLin GmresSpec GmresCor Cgmres CgmresRun P_CgmresRun P_Ode.
Local Open Scope R_scope.

Definition close (n : nat) (x y : list R) (e : R) : Prop := forall i, (i < n)%nat -> Rabs (nth i x 0 - nth i y 0) <= e.
(** Lipschitz in the state, in the maximum norm, for inputs of dimension [d]. *)
Definition lipschitz (n d : nat) (f : R -> list R -> list R -> list R) (L : R) : Prop :=
  forall s x y u e, length x = n -> length y = n -> length u = d -> close n x y e -> close n (f s x u) (f s y u) (L * e).
Definition sized_eq (n d : nat) (f : R -> list R -> list R -> list R) : Prop := forall s x u, length x = n -> length u = d -> length (f s x u) = n.
(** The k-th of the intervals [t0 + k h, t0 + (k+1) h]. *)
Definition piece (t0 h : R) (k : nat) (s : R) : Prop := t0 + INR k * h <= s <= t0 + INR (k + 1) * h.
(** A motion of x' = f(t, x, u) with the input [us k] held during piece k < K; [Y k j] is its j-th time derivative there. [dom k] is where
    the equation and the derivatives are asked for: the piece, or all times. *)
Record motion (n : nat) (f : R -> list R -> list R -> list R) (t0 h : R) (us : nat -> list R) (K m : nat) (dom : nat -> R -> Prop)
  (Y : nat -> nat -> R -> list R) : Prop := {
  mo_len : forall k j s, length (Y k j s) = n;
  mo_ode : forall k s, (k < K)%nat -> dom k s -> Y k 1%nat s = f s (Y k 0%nat s) (us k);
  mo_der : forall k j s i, (k < K)%nat -> (j < m)%nat -> (i < n)%nat -> dom k s ->
    derivable_pt_lim (fun r => nth i (Y k j r) 0) s (nth i (Y k (S j) s) 0);
  mo_join : forall k, (k + 1 < K)%nat -> Y k 0%nat (t0 + INR (k + 1) * h) = Y (k + 1)%nat 0%nat (t0 + INR (k + 1) * h)
}.
Definition deriv_bound (n : nat) (t0 h : R) (K m : nat) (Y : nat -> nat -> R -> list R) (M : R) : Prop :=
  forall k s i, (k < K)%nat -> (i < n)%nat -> piece t0 h k s -> Rabs (nth i (Y k m s) 0) <= M.
(** N steps of an integrator from the exact initial state. *)
Definition steps (od : ode R) (f : R -> list R -> list R -> list R) (t0 h : R) (us : nat -> list R) (K : nat) (x : nat -> list R) : Prop :=
  forall k, (k < K)%nat -> x (k + 1)%nat = od f (t0 + INR k * h) (x k) (us k) h.

Lemma Rabs_le_inv x y : Rabs x <= y -> - y <= x <= y.
Proof. intros H. pose proof (Rle_abs x). pose proof (Rle_abs (- x)). rewrite Rabs_Ropp in *. lra. Qed.

(** ** Taylor's theorem with a bound on the last derivative *)
Lemma integrate (G G' : R -> R) a b c k : a <= b -> 0 <= c -> (forall s, a <= s <= b -> derivable_pt_lim G s (G' s)) -> G a = 0 ->
  (forall s, a <= s <= b -> Rabs (G' s) <= c * (s - a) ^ k) -> Rabs (G b) <= c * (b - a) ^ (S k) / INR (S k).
Proof.
  intros Hab Hc Hd Ga Hb.
  assert (Q : forall sg, sg = 1 \/ sg = -1 -> 0 <= c * (b - a) ^ (S k) / INR (S k) + sg * G b).
  { intros sg Hsg. destruct Hab as [Hab|<-]; [|rewrite Ga, Rminus_diag_eq by reflexivity; cbn [pow]; destruct Hsg; subst; lra].
    set (F := fun s => c * (s - a) ^ (S k) / INR (S k) + sg * G s).
    assert (HF : forall s, a <= s <= b -> derivable_pt_lim F s (c * (s - a) ^ k + sg * G' s)).
    { intros s Hs. unfold F. apply derivable_pt_lim_plus; [|apply derivable_pt_lim_scal, Hd, Hs].
      replace (c * (s - a) ^ k) with (c / INR (S k) * (INR (S k) * (s - a) ^ Nat.pred (S k) * (1 - 0))) by (cbn [Nat.pred]; field; apply not_0_INR; lia).
      apply (derivable_pt_lim_ext (fun s => c / INR (S k) * (s - a) ^ S k)); [intros r; unfold Rdiv; ring|].
      apply derivable_pt_lim_scal. apply (derivable_pt_lim_ext (comp (fun y => y ^ S k) (fun s => s - a))); [reflexivity|].
      replace (INR (S k) * (s - a) ^ Nat.pred (S k) * (1 - 0)) with ((INR (S k) * (s - a) ^ Nat.pred (S k)) * (1 - 0)) by ring.
      apply derivable_pt_lim_comp; [apply derivable_pt_lim_minus; [apply derivable_pt_lim_id|apply derivable_pt_lim_const]|apply derivable_pt_lim_pow]. }
    destruct (MVT_cor2 F _ a b Hab HF) as (z & E & Hz).
    assert (F a = 0) by (unfold F; rewrite Ga, Rminus_diag_eq by reflexivity; cbn [pow]; unfold Rdiv; ring).
    specialize (Hb z ltac:(lra)). apply Rabs_le_inv in Hb. fold (F b).
    assert (0 <= c * (z - a) ^ k + sg * G' z) by (destruct Hsg; subst; lra). nra. }
  pose proof (Q 1 (or_introl eq_refl)). pose proof (Q (-1) (or_intror eq_refl)). apply Rabs_le. lra.
Qed.
Fixpoint tsum (D : nat -> R) (d : R) (m : nat) : R := match m with O => 0 | S m => tsum D d m + d ^ m / INR (fact m) * D m end.
Lemma tsum_d D a m s : derivable_pt_lim (fun s => tsum D (s - a) (S m)) s (tsum (fun k => D (S k)) (s - a) m).
Proof.
  induction m as [|m IH]; [cbn [tsum pow fact]; apply (derivable_pt_lim_ext (fun _ => D 0%nat)); [intros r; cbn; field|apply derivable_pt_lim_const]|].
  cbn [tsum] in *. apply derivable_pt_lim_plus; [exact IH|].
  replace ((s - a) ^ m / INR (fact m) * D (S m)) with (D (S m) / INR (fact (S m)) * (INR (S m) * (s - a) ^ Nat.pred (S m) * (1 - 0))).
  - apply (derivable_pt_lim_ext (fun s => D (S m) / INR (fact (S m)) * (s - a) ^ S m)); [intros r; unfold Rdiv; ring|].
    apply derivable_pt_lim_scal. apply (derivable_pt_lim_ext (comp (fun y => y ^ S m) (fun s => s - a))); [reflexivity|].
    apply derivable_pt_lim_comp; [apply derivable_pt_lim_minus; [apply derivable_pt_lim_id|apply derivable_pt_lim_const]|apply derivable_pt_lim_pow].
  - cbn [Nat.pred]. rewrite fact_simpl, mult_INR. field. split; [apply INR_fact_neq_0|apply not_0_INR; lia].
Qed.
Lemma taylor m : forall (D : nat -> R -> R) a b M, 0 <= M -> (forall j s, (j < m)%nat -> a <= s <= b -> derivable_pt_lim (D j) s (D (S j) s)) ->
  (forall s, a <= s <= b -> Rabs (D m s) <= M) -> forall s, a <= s <= b -> Rabs (D 0%nat s - tsum (fun k => D k a) (s - a) m) <= M * (s - a) ^ m / INR (fact m).
Proof.
  induction m as [|m IH]; intros D a b M HM Hd Hb s Hs.
  - cbn. replace (D 0%nat s - 0) with (D 0%nat s) by ring. specialize (Hb s Hs). lra.
  - pose proof (IH (fun j => D (S j)) a b M HM (fun j r Hj Hr => Hd (S j) r ltac:(lia) Hr) Hb) as I.
    replace (M * (s - a) ^ S m / INR (fact (S m))) with (M / INR (fact m) * (s - a) ^ S m / INR (S m))
      by (rewrite fact_simpl, mult_INR; field; split; [apply INR_fact_neq_0|apply not_0_INR; lia]).
    pose proof (INR_fact_lt_0 m) as Fm.
    apply (integrate (fun r => D 0%nat r - tsum (fun k => D k a) (r - a) (S m)) (fun r => D 1%nat r - tsum (fun k => D (S k) a) (r - a) m) a s (M / INR (fact m)) m).
    + lra.
    + apply Rmult_le_pos; [exact HM|apply Rlt_le, Rinv_0_lt_compat, Fm].
    + intros r Hr. apply derivable_pt_lim_minus; [apply Hd; [lia|lra]|apply (tsum_d (fun k => D k a))].
    + assert (E : forall q, tsum (fun k => D k a) (a - a) (S q) = D 0%nat a).
      { induction q as [|q IHq]; [cbn; field|]. change (tsum (fun k => D k a) (a - a) (S (S q))) with (tsum (fun k => D k a) (a - a) (S q) + (a - a) ^ S q / INR (fact (S q)) * D (S q) a).
        rewrite IHq, Rminus_diag_eq by reflexivity. rewrite pow_ne_zero by lia. unfold Rdiv. ring. }
      rewrite E. ring.
    + intros r Hr. replace (M / INR (fact m) * (r - a) ^ m) with (M * (r - a) ^ m / INR (fact m)) by (field; lra). apply I. lra.
Qed.

(** ** One step with error tau, N steps with error tau N e^(aN) *)
Section Global.
  Variables (n : nat) (f : R -> list R -> list R -> list R) (od : ode R) (t0 h : R) (us : nat -> list R) (K m : nat) (dom : nat -> R -> Prop) (Y : nat -> nat -> R -> list R) (a tau : R).
  Hypothesis Hm : motion n f t0 h us K m dom Y.
  Hypothesis Ha : 0 <= a.
  Hypothesis Ht : 0 <= tau.
  Hypothesis Hlen : ode_wf od.
  Hypothesis Hlip : forall k t x y e, (k < K)%nat -> length x = n -> length y = n -> close n x y e -> close n (od f t x (us k) h) (od f t y (us k) h) ((1 + a) * e).
  Hypothesis Hloc : forall k, (k < K)%nat -> close n (od f (t0 + INR k * h) (Y k 0%nat (t0 + INR k * h)) (us k) h) (Y k 0%nat (t0 + INR (k + 1) * h)) tau.
  Variable x : nat -> list R.
  Hypothesis Hx0 : x 0%nat = Y 0%nat 0%nat t0.
  Hypothesis Hx : steps od f t0 h us K x.
  Lemma global k : (k < K)%nat -> length (x (k + 1)%nat) = n /\ close n (x (k + 1)%nat) (Y k 0%nat (t0 + INR (k + 1) * h)) (tau * INR (k + 1) * exp (a * INR (k + 1))).
  Proof.
    assert (Step : forall k, (k < K)%nat -> length (x k) = n -> close n (x k) (Y k 0%nat (t0 + INR k * h)) (tau * INR k * exp (a * INR k)) ->
      length (x (k + 1)%nat) = n /\ close n (x (k + 1)%nat) (Y k 0%nat (t0 + INR (k + 1) * h)) (tau * INR (k + 1) * exp (a * INR (k + 1)))).
    { intros q Hq Lq Cq. rewrite Hx by exact Hq. split; [rewrite Hlen; exact Lq|]. intros i Hi. set (E := tau * INR q * exp (a * INR q)) in *.
      pose proof (pos_INR q) as Pq. pose proof (exp_pos (a * INR q)) as Pe.
      assert (E0 : 0 <= E) by (unfold E; apply Rmult_le_pos; [apply Rmult_le_pos; assumption|lra]).
      pose proof (Hlip q (t0 + INR q * h) (x q) (Y q 0%nat (t0 + INR q * h)) E Hq Lq (mo_len _ _ _ _ _ _ _ _ _ Hm q 0%nat _) Cq i Hi) as A.
      pose proof (Hloc q Hq i Hi) as B. rewrite plus_INR in B |- *. cbn [INR] in B |- *.
      apply Rle_trans with ((1 + a) * E + tau).
      { eapply Rle_trans; [|apply Rplus_le_compat; [exact A|exact B]]. eapply Rle_trans; [|apply Rabs_triang]. right. f_equal. ring. }
      replace (a * (INR q + 1)) with (a * INR q + a) by ring. rewrite exp_plus. unfold E.
      assert (X1 : 1 + a <= exp a) by (destruct Ha as [P|<-]; [left; apply exp_ineq1; lra|rewrite exp_0; lra]).
      assert (X2 : 1 <= exp (a * INR q)) by (assert (0 <= a * INR q) by (apply Rmult_le_pos; assumption); destruct H as [P|P]; [left; apply Rle_lt_trans with (1 + a * INR q); [lra|apply exp_ineq1; lra]|rewrite <- P, exp_0; lra]).
      set (e1 := exp (a * INR q)) in *. set (e2 := exp a) in *.
      assert (Y1 : (1 + a) * (tau * INR q * e1) <= e2 * (tau * INR q * e1)) by (apply Rmult_le_compat_r; [exact E0|exact X1]).
      assert (Y2 : tau * 1 <= tau * (e1 * e2)) by (apply Rmult_le_compat_l; [exact Ht|nra]). nra. }
    induction k as [|k IH]; intros Hk.
    - apply Step; [exact Hk|rewrite Hx0; apply Hm|]. intros i Hi. cbn [INR]. rewrite Rmult_0_l, Rplus_0_r, Hx0, Rminus_diag_eq, Rabs_R0 by reflexivity. lra.
    - destruct IH as [I1 I2]; [lia|]. replace (k + 1)%nat with (S k) in I1, I2 by lia. apply Step; [exact Hk|exact I1|].
      pose proof (mo_join _ _ _ _ _ _ _ _ _ Hm k ltac:(lia)) as J. replace (k + 1)%nat with (S k) in J by lia. rewrite <- J. exact I2.
  Qed.
End Global.

Lemma close_mono n x y e e' : close n x y e -> e <= e' -> close n x y e'.
Proof. intros H Hle i Hi. eapply Rle_trans; [apply H, Hi|exact Hle]. Qed.

Section Steps.
  Variables (n d : nat) (f : R -> list R -> list R -> list R) (L h : R).
  Hypothesis Hf : sized_eq n d f.
  Hypothesis HL : 0 <= L.
  Hypothesis Hh : 0 < h.
  Hypothesis Hl : lipschitz n d f L.
  Lemma shift_close x y k l c e w : 0 <= c -> length x = n -> length y = n -> length k = n -> length l = n -> close n x y e -> close n k l w ->
    close n (vadd x (vscale c k)) (vadd y (vscale c l)) (e + c * w).
  Proof.
    intros Hc Lx Ly Lk Ll Cx Ck i Hi. change (nth i (vadd x (vscale c k)) 0) with (vget (vadd x (vscale c k)) i). change (nth i (vadd y (vscale c l)) 0) with (vget (vadd y (vscale c l)) i).
    rewrite !(shift_get n) by assumption. pose proof (Cx i Hi) as A. pose proof (Ck i Hi) as B.
    change (nth i x 0) with (vget x i) in A. change (nth i y 0) with (vget y i) in A. change (nth i k 0) with (vget k i) in B. change (nth i l 0) with (vget l i) in B.
    apply Rabs_le_inv in A. apply Rabs_le_inv in B. apply Rabs_le. nra.
  Qed.
  Lemma euler_lip t x y u e : length u = d -> length x = n -> length y = n -> close n x y e -> close n (euler f t x u h) (euler f t y u h) ((1 + h * L) * e).
  Proof.
    intros Lu Lx Ly C. replace ((1 + h * L) * e) with (e + h * (L * e)) by ring. unfold euler. cbv zeta.
    apply shift_close; try (apply Hf; assumption); auto. lra.
  Qed.
  (** The constant of the Runge-Kutta increment. *)
  Definition rkL : R := L * (1 + h * L / 2 + (h * L) ^ 2 / 6 + (h * L) ^ 3 / 24).
  Lemma rk4_lip t x y u e : length u = d -> length x = n -> length y = n -> close n x y e -> close n (rk4 f t x u h) (rk4 f t y u h) ((1 + h * rkL) * e).
  Proof.
    intros Lu Lx Ly C i Hi. pose proof (fun s x (H : length x = n) => Hf s x u H Lu) as Hfu.
    change (nth i (rk4 f t x u h) 0) with (vget (rk4 f t x u h) i). change (nth i (rk4 f t y u h) 0) with (vget (rk4 f t y u h) i).
    rewrite !(rk4_get n) by assumption.
    destruct (k_len n f u Hfu t x h Lx) as (A1 & A2 & A3 & A4). destruct (k_len n f u Hfu t y h Ly) as (B1 & B2 & B3 & B4).
    assert (C1 : close n (k1 f u t x) (k1 f u t y) (L * e)) by (apply Hl; assumption).
    assert (C2 : close n (k2 f u t x h) (k2 f u t y h) (L * (e + h / 2 * (L * e)))).
    { apply Hl; try (apply shift_len; assumption); try exact Lu. apply shift_close; auto. lra. }
    assert (C3 : close n (k3 f u t x h) (k3 f u t y h) (L * (e + h / 2 * (L * (e + h / 2 * (L * e)))))).
    { apply Hl; try (apply shift_len; assumption); try exact Lu. apply shift_close; auto. lra. }
    assert (C4 : close n (k4 f u t x h) (k4 f u t y h) (L * (e + h * (L * (e + h / 2 * (L * (e + h / 2 * (L * e)))))))).
    { apply Hl; try (apply shift_len; assumption); try exact Lu. apply shift_close; auto. lra. }
    specialize (C i Hi). specialize (C1 i Hi). specialize (C2 i Hi). specialize (C3 i Hi). specialize (C4 i Hi).
    change (nth i x 0) with (vget x i) in C. change (nth i y 0) with (vget y i) in C.
    change (nth i (k1 f u t x) 0) with (vget (k1 f u t x) i) in C1. change (nth i (k1 f u t y) 0) with (vget (k1 f u t y) i) in C1.
    change (nth i (k2 f u t x h) 0) with (vget (k2 f u t x h) i) in C2. change (nth i (k2 f u t y h) 0) with (vget (k2 f u t y h) i) in C2.
    change (nth i (k3 f u t x h) 0) with (vget (k3 f u t x h) i) in C3. change (nth i (k3 f u t y h) 0) with (vget (k3 f u t y h) i) in C3.
    change (nth i (k4 f u t x h) 0) with (vget (k4 f u t x h) i) in C4. change (nth i (k4 f u t y h) 0) with (vget (k4 f u t y h) i) in C4.
    apply Rabs_le_inv in C, C1, C2, C3, C4.
    assert (E : (1 + h * rkL) * e = e + h / 6 * (L * e + 2 * (L * (e + h / 2 * (L * e))) + 2 * (L * (e + h / 2 * (L * (e + h / 2 * (L * e))))) + L * (e + h * (L * (e + h / 2 * (L * (e + h / 2 * (L * e)))))))).
    { unfold rkL. field. }
    rewrite E. apply Rabs_le. set (d1 := L * e) in *. set (d2 := L * (e + h / 2 * d1)) in *. set (d3 := L * (e + h / 2 * d2)) in *. set (d4 := L * (e + h * d3)) in *.
    split; nra.
  Qed.
End Steps.

(** ** The local errors *)
Section Local.
  Variables (n d : nat) (f : R -> list R -> list R -> list R) (u : list R) (L h t : R) (D : nat -> R -> list R).
  Hypothesis Hf : sized_eq n d f.
  Hypothesis Lu : length u = d.
  Hypothesis HL : 0 <= L.
  Hypothesis Hh : 0 < h.
  Hypothesis Hl : lipschitz n d f L.
  Hypothesis LD : forall j s, length (D j s) = n.
  Hypothesis Hode : forall s, t <= s <= t + h -> D 1%nat s = f s (D 0%nat s) u.
  Lemma taylor_c m M j i s : 0 <= M -> (forall j s i, (j < m)%nat -> (i < n)%nat -> t <= s <= t + h -> derivable_pt_lim (fun r => nth i (D j r) 0) s (nth i (D (S j) s) 0)) ->
    (forall s i, (i < n)%nat -> t <= s <= t + h -> Rabs (nth i (D m s) 0) <= M) -> (j <= m)%nat -> (i < n)%nat -> t <= s <= t + h ->
    Rabs (nth i (D j s) 0 - tsum (fun k => nth i (D (j + k)%nat t) 0) (s - t) (m - j)) <= M * (s - t) ^ (m - j) / INR (fact (m - j)).
  Proof using Type.
    clear Lu. intros HM Hd Hb Hj Hi Hs.
    pose proof (taylor (m - j) (fun k s => nth i (D (j + k)%nat s) 0) t (t + h) M HM) as T. cbv beta in T. rewrite Nat.add_0_r in T. apply T; [| |exact Hs].
    - intros k r Hk Hr. rewrite Nat.add_succ_r. apply Hd; [lia|exact Hi|exact Hr].
    - intros r Hr. replace (j + (m - j))%nat with m by lia. apply Hb; assumption.
  Qed.
  Lemma euler_local M : 0 <= M -> (forall j s i, (j < 2)%nat -> (i < n)%nat -> t <= s <= t + h -> derivable_pt_lim (fun r => nth i (D j r) 0) s (nth i (D (S j) s) 0)) ->
    (forall s i, (i < n)%nat -> t <= s <= t + h -> Rabs (nth i (D 2%nat s) 0) <= M) -> close n (euler f t (D 0%nat t) u h) (D 0%nat (t + h)) (M / 2 * h ^ 2).
  Proof.
    intros HM Hd Hb i Hi. pose proof (taylor_c 2 M 0 i (t + h) HM Hd Hb ltac:(lia) Hi ltac:(lra)) as T.
    change (nth i (euler f t (D 0%nat t) u h) 0) with (vget (euler f t (D 0%nat t) u h) i).
    rewrite (euler_get n) by (auto; intros; apply Hf; auto). rewrite <- Hode by lra.
    change (vget (D 0%nat t) i) with (nth i (D 0%nat t) 0). change (vget (D 1%nat t) i) with (nth i (D 1%nat t) 0).
    cbn [tsum Nat.sub Nat.add fact Nat.mul pow INR] in T. replace (t + h - t) with h in T by ring. apply Rabs_le_inv in T. apply Rabs_le. cbn [pow]. lra.
  Qed.
  (** The constant of the local error of a Runge-Kutta step whose motion has bounded second and third derivatives. *)
  Definition rkC (M2 M3 : R) : R :=
    M3 / 3 + (2 * (L * M2 / 8) + 2 * (L * M2 * (3 / 8 + h * L / 16)) + h * L * (7 / 24 * M3 + L * M2 * (3 / 8 + h * L / 16))) / 6.
  Lemma rk4_local M2 M3 : 0 <= M2 -> 0 <= M3 -> (forall j s i, (j < 3)%nat -> (i < n)%nat -> t <= s <= t + h -> derivable_pt_lim (fun r => nth i (D j r) 0) s (nth i (D (S j) s) 0)) ->
    (forall s i, (i < n)%nat -> t <= s <= t + h -> Rabs (nth i (D 2%nat s) 0) <= M2) ->
    (forall s i, (i < n)%nat -> t <= s <= t + h -> Rabs (nth i (D 3%nat s) 0) <= M3) -> close n (rk4 f t (D 0%nat t) u h) (D 0%nat (t + h)) (rkC M2 M3 * h ^ 3).
  Proof.
    intros H2 H3 Hd B2 B3. pose proof (fun s x (H : length x = n) => Hf s x u H Lu) as Hfu.
    assert (Hd2 : forall j s i, (j < 2)%nat -> (i < n)%nat -> t <= s <= t + h -> derivable_pt_lim (fun r => nth i (D j r) 0) s (nth i (D (S j) s) 0)) by (intros; apply Hd; auto; lia).
    assert (P0 : forall i, (i < n)%nat -> Rabs (nth i (D 0%nat (t + h / 2)) 0 - (nth i (D 0%nat t) 0 + h / 2 * nth i (D 1%nat t) 0)) <= M2 / 8 * h ^ 2).
    { intros i Hi. pose proof (taylor_c 2 M2 0 i (t + h / 2) H2 Hd2 B2 ltac:(lia) Hi ltac:(lra)) as T.
      cbn [tsum Nat.sub Nat.add fact Nat.mul pow INR] in T. replace (t + h / 2 - t) with (h / 2) in T by ring. apply Rabs_le_inv in T. apply Rabs_le. cbn [pow]. lra. }
    assert (P1 : forall i, (i < n)%nat -> Rabs (nth i (D 1%nat (t + h / 2)) 0 - nth i (D 1%nat t) 0) <= M2 / 2 * h).
    { intros i Hi. pose proof (taylor_c 2 M2 1 i (t + h / 2) H2 Hd2 B2 ltac:(lia) Hi ltac:(lra)) as T.
      cbn [tsum Nat.sub Nat.add fact Nat.mul pow INR] in T. replace (t + h / 2 - t) with (h / 2) in T by ring. apply Rabs_le_inv in T. apply Rabs_le. lra. }
    assert (Q0 : forall i, (i < n)%nat -> Rabs (nth i (D 0%nat (t + h)) 0 - (nth i (D 0%nat t) 0 + h * nth i (D 1%nat t) 0 + h ^ 2 / 2 * nth i (D 2%nat t) 0)) <= M3 / 6 * h ^ 3).
    { intros i Hi. pose proof (taylor_c 3 M3 0 i (t + h) H3 Hd B3 ltac:(lia) Hi ltac:(lra)) as T.
      cbn [tsum Nat.sub Nat.add fact Nat.mul pow INR] in T. replace (t + h - t) with h in T by ring. apply Rabs_le_inv in T. apply Rabs_le. cbn [pow]. lra. }
    assert (Q1 : forall i, (i < n)%nat -> Rabs (nth i (D 1%nat (t + h)) 0 - (nth i (D 1%nat t) 0 + h * nth i (D 2%nat t) 0)) <= M3 / 2 * h ^ 2).
    { intros i Hi. pose proof (taylor_c 3 M3 1 i (t + h) H3 Hd B3 ltac:(lia) Hi ltac:(lra)) as T.
      cbn [tsum Nat.sub Nat.add fact Nat.mul pow INR] in T. replace (t + h - t) with h in T by ring. apply Rabs_le_inv in T. apply Rabs_le. cbn [pow]. lra. }
    assert (Qm : forall i, (i < n)%nat -> Rabs (nth i (D 1%nat (t + h / 2)) 0 - (nth i (D 1%nat t) 0 + h / 2 * nth i (D 2%nat t) 0)) <= M3 / 8 * h ^ 2).
    { intros i Hi. pose proof (taylor_c 3 M3 1 i (t + h / 2) H3 Hd B3 ltac:(lia) Hi ltac:(lra)) as T.
      cbn [tsum Nat.sub Nat.add fact Nat.mul pow INR] in T. replace (t + h / 2 - t) with (h / 2) in T by ring. apply Rabs_le_inv in T. apply Rabs_le. cbn [pow]. lra. }
    set (x := D 0%nat t). assert (Lx : length x = n) by apply LD. destruct (k_len n f u Hfu t x h Lx) as (A1 & A2 & A3 & A4).
    assert (E1 : k1 f u t x = D 1%nat t) by (symmetry; apply Hode; lra).
    set (d2 := L * (M2 / 8 * h ^ 2)). set (d3 := L * (3 / 8 * M2 * h ^ 2 + h / 2 * d2)). set (d4 := L * (7 / 24 * M3 * h ^ 3 + h * d3)).
    assert (C2 : close n (k2 f u t x h) (D 1%nat (t + h / 2)) d2).
    { rewrite Hode by lra. apply Hl; auto; try (apply shift_len; assumption). intros i Hi.
      change (nth i (vadd x (vscale (h / 2) (k1 f u t x))) 0) with (vget (vadd x (vscale (h / 2) (k1 f u t x))) i). rewrite (shift_get n) by assumption. rewrite E1.
      rewrite Rabs_minus_sym. apply P0, Hi. }
    assert (C3 : close n (k3 f u t x h) (D 1%nat (t + h / 2)) d3).
    { rewrite Hode by lra. apply Hl; auto; try (apply shift_len; assumption). intros i Hi.
      change (nth i (vadd x (vscale (h / 2) (k2 f u t x h))) 0) with (vget (vadd x (vscale (h / 2) (k2 f u t x h))) i). rewrite (shift_get n) by assumption.
      change (vget x i) with (nth i (D 0%nat t) 0). change (vget (k2 f u t x h) i) with (nth i (k2 f u t x h) 0).
      pose proof (C2 i Hi) as Z. pose proof (P0 i Hi) as Z0. pose proof (P1 i Hi) as Z1. clearbody d2 d3 d4. apply Rabs_le_inv in Z, Z0, Z1. apply Rabs_le. cbn [pow] in *. nra. }
    assert (C4 : close n (k4 f u t x h) (D 1%nat (t + h)) d4).
    { rewrite Hode by lra. apply Hl; auto; try (apply shift_len; assumption). intros i Hi.
      change (nth i (vadd x (vscale h (k3 f u t x h))) 0) with (vget (vadd x (vscale h (k3 f u t x h))) i). rewrite (shift_get n) by assumption.
      change (vget x i) with (nth i (D 0%nat t) 0). change (vget (k3 f u t x h) i) with (nth i (k3 f u t x h) 0).
      pose proof (C3 i Hi) as Z. pose proof (Q0 i Hi) as Z0. pose proof (Qm i Hi) as Z1. clearbody d2 d3 d4. apply Rabs_le_inv in Z, Z0, Z1. apply Rabs_le. cbn [pow] in *. nra. }
    intros i Hi. change (nth i (rk4 f t x u h) 0) with (vget (rk4 f t x u h) i). rewrite (rk4_get n) by assumption. rewrite E1.
    assert (E : rkC M2 M3 * h ^ 3 = M3 / 3 * h ^ 3 + h / 6 * (2 * d2 + 2 * d3 + d4)) by (unfold rkC, d4, d3, d2; field). rewrite E.
    specialize (C2 i Hi). specialize (C3 i Hi). specialize (C4 i Hi). specialize (Q0 i Hi). specialize (Q1 i Hi). specialize (Qm i Hi).
    clearbody d2 d3 d4. unfold vget. change (@nzero R RNum) with 0. unfold x at 1.
    apply Rabs_le_inv in C2, C3, C4, Q0, Q1, Qm. apply Rabs_le. cbn [pow] in *. split; nra.
  Qed.
End Local.

Lemma piece_step t0 h k s : t0 + INR k * h <= s <= t0 + INR k * h + h -> piece t0 h k s.
Proof. unfold piece. rewrite plus_INR. cbn [INR]. lra. Qed.
Lemma next_time t0 h k : t0 + INR (k + 1) * h = t0 + INR k * h + h.
Proof. rewrite plus_INR. cbn [INR]. ring. Qed.
Lemma bound_nonneg n t0 h K m Y M k : deriv_bound n t0 h K m Y M -> 0 < h -> (k < K)%nat -> (0 < n)%nat -> 0 <= M.
Proof.
  intros H Hh Hk Hn. eapply Rle_trans; [apply Rabs_pos|]. apply (H k (t0 + INR k * h) 0%nat Hk Hn). apply piece_step. lra.
Qed.
Lemma close_0 x y e : close 0 x y e.
Proof. intros i Hi. lia. Qed.

(** C81a: N Euler steps stay within M/2 h T e^(L T) of the exact motion, T = N h: first order, for every right-hand side. *)
Theorem C81_euler n d f L M t0 h us K Y x : sized_eq n d f -> lipschitz n d f L -> 0 <= L -> 0 < h -> (forall k, (k < K)%nat -> length (us k) = d) ->
  motion n f t0 h us K 2 (piece t0 h) Y -> deriv_bound n t0 h K 2 Y M -> x 0%nat = Y 0%nat 0%nat t0 -> steps euler f t0 h us K x ->
  forall k, (k < K)%nat -> let T := INR (k + 1) * h in close n (x (k + 1)%nat) (Y k 0%nat (t0 + T)) (M / 2 * h * T * exp (L * T)).
Proof.
  intros Hf Hl HL Hh Hu Hm HM X0 Hx k Hk T. destruct n as [|n']; [apply close_0|]. set (n := S n') in *.
  pose proof (bound_nonneg n _ _ _ _ _ _ k HM Hh Hk ltac:(unfold n; lia)) as M0.
  destruct (global n f euler t0 h us K 2 (piece t0 h) Y (h * L) (M / 2 * h ^ 2) Hm) with (x := x) (k := k) as [_ G]; auto.
  - apply Rmult_le_pos; lra.
  - assert (0 <= h ^ 2) by (apply pow_le; lra). nra.
  - exact euler_wf.
  - intros q t a b e Hq La Lb C. apply (euler_lip n d f L h Hf Hh Hl); auto.
  - intros q Hq. rewrite next_time. apply (euler_local n d f (us q) h (t0 + INR q * h) (Y q)); auto.
    + apply Hm.
    + intros s Hs. apply (mo_ode _ _ _ _ _ _ _ _ _ Hm); [exact Hq|apply piece_step; exact Hs].
    + intros j s i Hj Hi Hs. apply (mo_der _ _ _ _ _ _ _ _ _ Hm); auto. apply piece_step; exact Hs.
    + intros s i Hi Hs. apply HM; auto. apply piece_step; exact Hs.
  - eapply close_mono; [exact G|]. unfold T. replace (h * L * INR (k + 1)) with (L * (INR (k + 1) * h)) by ring. right. ring.
Qed.
Print Assumptions C81_euler.

(** C81b: N Runge-Kutta steps stay within O(h^2) for every Lipschitz right-hand side whose motion has bounded second and third derivatives. *)
Theorem C81_rk4 n d f L M2 M3 t0 h us K Y x : sized_eq n d f -> lipschitz n d f L -> 0 <= L -> 0 < h -> (forall k, (k < K)%nat -> length (us k) = d) ->
  motion n f t0 h us K 3 (piece t0 h) Y -> deriv_bound n t0 h K 2 Y M2 -> deriv_bound n t0 h K 3 Y M3 -> x 0%nat = Y 0%nat 0%nat t0 -> steps rk4 f t0 h us K x ->
  forall k, (k < K)%nat -> let T := INR (k + 1) * h in close n (x (k + 1)%nat) (Y k 0%nat (t0 + T)) (rkC L h M2 M3 * h ^ 2 * T * exp (rkL L h * T)).
Proof.
  intros Hf Hl HL Hh Hu Hm HM2 HM3 X0 Hx k Hk T. destruct n as [|n']; [apply close_0|]. set (n := S n') in *.
  pose proof (bound_nonneg n _ _ _ _ _ _ k HM2 Hh Hk ltac:(unfold n; lia)) as M20. pose proof (bound_nonneg n _ _ _ _ _ _ k HM3 Hh Hk ltac:(unfold n; lia)) as M30.
  assert (P : 0 <= h * L) by (apply Rmult_le_pos; lra).
  destruct (global n f rk4 t0 h us K 3 (piece t0 h) Y (h * rkL L h) (rkC L h M2 M3 * h ^ 3) Hm) with (x := x) (k := k) as [_ G]; auto.
  - apply Rmult_le_pos; [lra|]. unfold rkL. apply Rmult_le_pos; [exact HL|]. assert (0 <= (h * L) ^ 2 /\ 0 <= (h * L) ^ 3) as [? ?] by (split; apply pow_le, P). lra.
  - apply Rmult_le_pos; [|apply pow_le; lra]. unfold rkC. assert (Q1 : 0 <= L * M2) by (apply Rmult_le_pos; assumption).
    assert (Q2 : 0 <= L * M2 * (3 / 8 + h * L / 16)) by (apply Rmult_le_pos; lra).
    assert (Q3 : 0 <= h * L * (7 / 24 * M3 + L * M2 * (3 / 8 + h * L / 16))) by (apply Rmult_le_pos; lra). lra.
  - exact rk4_wf.
  - intros q t a b e Hq La Lb C. apply (rk4_lip n d f L h Hf Hh Hl); auto.
  - intros q Hq. rewrite next_time. apply (rk4_local n d f (us q) L h (t0 + INR q * h) (Y q)); auto.
    + apply Hm.
    + intros s Hs. apply (mo_ode _ _ _ _ _ _ _ _ _ Hm); [exact Hq|apply piece_step; exact Hs].
    + intros j s i Hj Hi Hs. apply (mo_der _ _ _ _ _ _ _ _ _ Hm); auto. apply piece_step; exact Hs.
    + intros s i Hi Hs. apply HM2; auto. apply piece_step; exact Hs.
    + intros s i Hi Hs. apply HM3; auto. apply piece_step; exact Hs.
  - eapply close_mono; [exact G|]. unfold T. replace (h * rkL L h * INR (k + 1)) with (rkL L h * (INR (k + 1) * h)) by ring. right. ring.
Qed.
Print Assumptions C81_rk4.

(** C81c: for x' = g x + c_k the Runge-Kutta steps are of fourth order. *)
Theorem C81_rk4_linear n d f g c L M t0 h us K Y x : sized_eq n d f -> lipschitz n d f L -> 0 <= L -> 0 < h -> (forall k, (k < K)%nat -> length (us k) = d) ->
  linear n g -> (forall k, (k < K)%nat -> length (c k) = n /\ forall s x, length x = n -> f s x (us k) = ladd (g x) (c k)) ->
  motion n f t0 h us K 5 (fun _ _ => True) Y -> deriv_bound n t0 h K 5 Y M -> x 0%nat = Y 0%nat 0%nat t0 -> steps rk4 f t0 h us K x ->
  forall k, (k < K)%nat -> let T := INR (k + 1) * h in close n (x (k + 1)%nat) (Y k 0%nat (t0 + T)) (M / 120 * h ^ 4 * T * exp (rkL L h * T)).
Proof.
  intros Hf Hl HL Hh Hu Hg Hc Hm HM X0 Hx k Hk T. destruct n as [|n']; [apply close_0|]. set (n := S n') in *.
  pose proof (bound_nonneg n _ _ _ _ _ _ k HM Hh Hk ltac:(unfold n; lia)) as M0.
  assert (P : 0 <= h * L) by (apply Rmult_le_pos; lra).
  destruct (global n f rk4 t0 h us K 5 (fun _ _ => True) Y (h * rkL L h) (M / 120 * h ^ 5) Hm) with (x := x) (k := k) as [_ G]; auto.
  - apply Rmult_le_pos; [lra|]. unfold rkL. apply Rmult_le_pos; [exact HL|]. assert (0 <= (h * L) ^ 2 /\ 0 <= (h * L) ^ 3) as [? ?] by (split; apply pow_le, P). lra.
  - apply Rmult_le_pos; [lra|apply pow_le; lra].
  - exact rk4_wf.
  - intros q t a b e Hq La Lb C. apply (rk4_lip n d f L h Hf Hh Hl); auto.
  - intros q Hq i Hi. rewrite next_time. set (t := t0 + INR q * h). destruct (Hc q Hq) as [Lc Ec].
    pose proof (mo_len _ _ _ _ _ _ _ _ _ Hm) as LY.
    rewrite (C43_rk4_linear n f (us q) (Y q 0%nat) g (c q) (Y q) t h).
    + pose proof (taylor_c n h t (Y q) 5 M 0 i (t + h) M0) as T5. replace (t + h - t) with h in T5 by ring.
      assert (T5' : Rabs (nth i (Y q 0%nat (t + h)) 0 - tsum (fun k => nth i (Y q (0 + k)%nat t) 0) h (5 - 0)) <= M * h ^ (5 - 0) / INR (fact (5 - 0))).
      { apply T5; [| |lia|exact Hi|lra].
        - intros j s l Hj Hl' Hs. apply (mo_der _ _ _ _ _ _ _ _ _ Hm); auto.
        - intros s l Hl' Hs. apply HM; auto. apply piece_step. exact Hs. }
      cbn [Nat.sub tsum Nat.add] in T5'.
      replace (INR (fact 5)) with 120 in T5' by (cbn; lra). replace (INR (fact 4)) with 24 in T5' by (cbn; lra). replace (INR (fact 3)) with 6 in T5' by (cbn; lra).
      replace (INR (fact 2)) with 2 in T5' by (cbn; lra). replace (INR (fact 1)) with 1 in T5' by (cbn; lra). replace (INR (fact 0)) with 1 in T5' by (cbn; lra).
      apply Rabs_le_inv in T5'. apply Rabs_le. cbn [pow] in *. lra.
    + split; [apply LY|]. split; [intros; apply Hf; auto|]. intros s l Hl'. rewrite <- (mo_ode _ _ _ _ _ _ _ _ _ Hm q s Hq I). apply (mo_der _ _ _ _ _ _ _ _ _ Hm q 0%nat); auto. lia.
    + exact Hg.
    + exact Lc.
    + exact Ec.
    + reflexivity.
    + apply LY.
    + intros j s l Hj Hl'. apply (mo_der _ _ _ _ _ _ _ _ _ Hm); auto.
    + exact Hi.
  - eapply close_mono; [exact G|]. unfold T. replace (h * rkL L h * INR (k + 1)) with (rkL L h * (INR (k + 1) * h)) by ring. right. ring.
Qed.
Print Assumptions C81_rk4_linear.

(** C81d: the closed-loop simulation of C/GMRES. Every row, written at time t, holds the state the plant driven by the inputs the controller
    produced has at time t + dt, up to the error of the integrator. *)
Theorem C81_run_euler pb cf od N fuel st L : cp_wf pb -> ode_wf od -> cc_num cf = Z.of_nat N -> (1 <= N)%nat -> (0 <= cc_kmax cf)%Z -> cc_dump cf <> 0%Z ->
  0 < cc_dt cf -> 0 <= cc_sim cf -> 0 <= L -> lipschitz (cp_dim_x pb) (cp_dim_uc pb) (cp_f pb) L ->
  let K := Z.to_nat (Int_part (cc_sim cf / cc_dt cf) + 1) in (Z.of_nat K <= 2147483647)%Z -> (K < fuel)%nat ->
  exists (us : nat -> list R) st', cg_run pb cf od euler fuel st = Ok tt st' /\
    forall Y M, motion (cp_dim_x pb) (cp_f pb) 0 (cc_dt cf) us K 2 (piece 0 (cc_dt cf)) Y -> deriv_bound (cp_dim_x pb) 0 (cc_dt cf) K 2 Y M -> Y 0%nat 0%nat 0 = cp_x0 pb ->
    forall r, In r (cs_log st') -> exists k, (k < K)%nat /\ cr_t r = INR k * cc_dt cf /\ cr_u r = us (k + 1)%nat /\
      close (cp_dim_x pb) (cr_x r) (Y k 0%nat (cr_t r + cc_dt cf)) (M / 2 * cc_dt cf * (cr_t r + cc_dt cf) * exp (L * (cr_t r + cc_dt cf))).
Proof.
  intros HW HO HN HN1 Hk Hd Hdt Hsim HL Hl K HK Hfu.
  destruct (C48_run_length pb cf od euler N fuel st HW HO euler_wf HN HN1 Hk Hd Hdt Hsim HK Hfu) as (S & E & X0 & HX & _ & HR). fold K in E, HX, HR.
  exists (fun k => cs_u (S k)), (S K). split; [exact E|]. intros Y M Hm HM Y0 r Hr. apply HR in Hr. destruct Hr as (k & Hk' & _ & Et & Ex & Eu & _).
  exists k. split; [exact Hk'|]. split; [exact Et|]. split; [exact Eu|]. rewrite Ex, Et.
  pose proof (C81_euler (cp_dim_x pb) (cp_dim_uc pb) (cp_f pb) L M 0 (cc_dt cf) (fun k => cs_u (S k)) K Y (fun k => cs_x (S k))) as G. cbv beta in G.
  replace (INR k * cc_dt cf + cc_dt cf) with (INR (k + 1) * cc_dt cf) by (rewrite plus_INR; cbn [INR]; ring). rewrite <- (Rplus_0_l (INR (k + 1) * cc_dt cf)) at 1.
  apply G; auto.
  - destruct HW as (W & _). exact W.
  - intros q Hq. apply (HX q Hq).
  - rewrite X0. symmetry. exact Y0.
  - intros q Hq. rewrite Rplus_0_l. apply (HX q Hq).
Qed.
Print Assumptions C81_run_euler.

Theorem C81_run_rk4 pb cf od N fuel st L : cp_wf pb -> ode_wf od -> cc_num cf = Z.of_nat N -> (1 <= N)%nat -> (0 <= cc_kmax cf)%Z -> cc_dump cf <> 0%Z ->
  0 < cc_dt cf -> 0 <= cc_sim cf -> 0 <= L -> lipschitz (cp_dim_x pb) (cp_dim_uc pb) (cp_f pb) L ->
  let K := Z.to_nat (Int_part (cc_sim cf / cc_dt cf) + 1) in (Z.of_nat K <= 2147483647)%Z -> (K < fuel)%nat ->
  exists (us : nat -> list R) st', cg_run pb cf od rk4 fuel st = Ok tt st' /\
    forall Y M2 M3, motion (cp_dim_x pb) (cp_f pb) 0 (cc_dt cf) us K 3 (piece 0 (cc_dt cf)) Y -> deriv_bound (cp_dim_x pb) 0 (cc_dt cf) K 2 Y M2 ->
    deriv_bound (cp_dim_x pb) 0 (cc_dt cf) K 3 Y M3 -> Y 0%nat 0%nat 0 = cp_x0 pb ->
    forall r, In r (cs_log st') -> exists k, (k < K)%nat /\ cr_t r = INR k * cc_dt cf /\ cr_u r = us (k + 1)%nat /\
      close (cp_dim_x pb) (cr_x r) (Y k 0%nat (cr_t r + cc_dt cf))
        (rkC L (cc_dt cf) M2 M3 * cc_dt cf ^ 2 * (cr_t r + cc_dt cf) * exp (rkL L (cc_dt cf) * (cr_t r + cc_dt cf))).
Proof.
  intros HW HO HN HN1 Hk Hd Hdt Hsim HL Hl K HK Hfu.
  destruct (C48_run_length pb cf od rk4 N fuel st HW HO rk4_wf HN HN1 Hk Hd Hdt Hsim HK Hfu) as (S & E & X0 & HX & _ & HR). fold K in E, HX, HR.
  exists (fun k => cs_u (S k)), (S K). split; [exact E|]. intros Y M2 M3 Hm HM2 HM3 Y0 r Hr. apply HR in Hr. destruct Hr as (k & Hk' & _ & Et & Ex & Eu & _).
  exists k. split; [exact Hk'|]. split; [exact Et|]. split; [exact Eu|]. rewrite Ex, Et.
  pose proof (C81_rk4 (cp_dim_x pb) (cp_dim_uc pb) (cp_f pb) L M2 M3 0 (cc_dt cf) (fun k => cs_u (S k)) K Y (fun k => cs_x (S k))) as G. cbv beta in G.
  replace (INR k * cc_dt cf + cc_dt cf) with (INR (k + 1) * cc_dt cf) by (rewrite plus_INR; cbn [INR]; ring). rewrite <- (Rplus_0_l (INR (k + 1) * cc_dt cf)) at 1.
  apply G; auto.
  - destruct HW as (W & _). exact W.
  - intros q Hq. apply (HX q Hq).
  - rewrite X0. symmetry. exact Y0.
  - intros q Hq. rewrite Rplus_0_l. apply (HX q Hq).
Qed.
Print Assumptions C81_run_rk4.

(** ** x' = -x meets the hypotheses: the powers (1-h)^k and (1 - h + h^2/2 - h^3/6 + h^4/24)^k against e^(-kh) *)
Definition decay_f : R -> list R -> list R -> list R := fun _ x _ => ladd (lscal (-1) x) [0].
Definition decay_Y : nat -> nat -> R -> list R := fun _ j s => [(-1) ^ j * exp (- s)].
Lemma decay_sized : sized_eq 1 1 decay_f.
Proof. intros s [|a [|b x]] u Lx Lu; try discriminate Lx. reflexivity. Qed.
Lemma decay_lip : lipschitz 1 1 decay_f 1.
Proof.
  intros s [|a [|a' x]] [|b [|b' y]] u e Lx Ly Lu H; try discriminate Lx; try discriminate Ly. intros i Hi. assert (i = 0%nat) as -> by lia.
  specialize (H 0%nat ltac:(lia)). cbn in *. replace (-1 * a + 0 - (-1 * b + 0)) with (- (a - b)) by ring. rewrite Rabs_Ropp. lra.
Qed.
Lemma exp_neg_d j s : derivable_pt_lim (fun r => (-1) ^ j * exp (- r)) s ((-1) ^ S j * exp (- s)).
Proof.
  replace ((-1) ^ S j * exp (- s)) with ((-1) ^ j * (exp (- s) * -1)) by (cbn [pow]; ring).
  apply (derivable_pt_lim_scal (fun r => exp (- r))). apply (derivable_pt_lim_comp (fun r => - r) exp); [|apply derivable_pt_lim_exp].
  apply (derivable_pt_lim_opp id). apply derivable_pt_lim_id.
Qed.
Lemma decay_motion h us K m dom : motion 1 decay_f 0 h us K m dom decay_Y.
Proof.
  split.
  - reflexivity.
  - intros k s _ _. unfold decay_Y, decay_f. cbn. f_equal. ring.
  - intros k j s i _ _ Hi _. assert (i = 0%nat) as -> by lia. apply exp_neg_d.
  - reflexivity.
Qed.
Lemma decay_bound h K m : 0 < h -> deriv_bound 1 0 h K m decay_Y 1.
Proof.
  intros Hh k s i _ Hi [Hs _]. assert (i = 0%nat) as -> by lia. cbn [nth decay_Y]. rewrite Rabs_mult, pow_1_abs, Rmult_1_l, Rabs_right by (left; apply exp_pos).
  pose proof (pos_INR k). assert (0 <= s) by nra. destruct H0 as [P|<-]; [left; rewrite <- exp_0; apply exp_increasing; lra|rewrite Ropp_0, exp_0; lra].
Qed.
Example C81_euler_nonvacuous h k : 0 < h -> let T := INR (k + 1) * h in Rabs ((1 - h) ^ (k + 1) - exp (- T)) <= 1 / 2 * h * T * exp (1 * T).
Proof.
  intros Hh T. pose proof (C81_euler 1 1 decay_f 1 1 0 h (fun _ => [0]) (k + 1) decay_Y (fun q => [(1 - h) ^ q]) decay_sized decay_lip ltac:(lra) Hh (fun _ _ => eq_refl)
    (decay_motion h _ _ _ _) (decay_bound h _ _ Hh)) as G. cbv beta in G.
  assert (Z0 : decay_Y 0 0 0 = [1]) by (unfold decay_Y; cbn [pow]; rewrite Ropp_0, exp_0; f_equal; ring).
  rewrite Z0 in G. specialize (G eq_refl).
  assert (St : steps euler decay_f 0 h (fun _ => [0]) (k + 1) (fun q => [(1 - h) ^ q])).
  { intros q Hq. rewrite Nat.add_1_r. unfold euler, decay_f, vadd, vscale, vbuild, vget. cbn. numR. f_equal. ring. }
  specialize (G St k ltac:(lia) 0%nat ltac:(lia)). cbn [nth decay_Y pow] in G. rewrite Rmult_1_l, Rplus_0_l in G. exact G.
Qed.
Example C81_rk4_nonvacuous h k : 0 < h -> let T := INR (k + 1) * h in let p := 1 - h + h ^ 2 / 2 - h ^ 3 / 6 + h ^ 4 / 24 in
  Rabs (p ^ (k + 1) - exp (- T)) <= rkC 1 h 1 1 * h ^ 2 * T * exp (rkL 1 h * T) /\ Rabs (p ^ (k + 1) - exp (- T)) <= 1 / 120 * h ^ 4 * T * exp (rkL 1 h * T).
Proof.
  intros Hh T p.
  assert (Z0 : decay_Y 0 0 0 = [1]) by (unfold decay_Y; cbn [pow]; rewrite Ropp_0, exp_0; f_equal; ring).
  assert (St : steps rk4 decay_f 0 h (fun _ => [0]) (k + 1) (fun q => [p ^ q])).
  { intros q Hq. rewrite Nat.add_1_r. unfold rk4, decay_f, vadd, vscale, vbuild, vget. cbn. numR. f_equal. unfold p. field. }
  split.
  - pose proof (C81_rk4 1 1 decay_f 1 1 1 0 h (fun _ => [0]) (k + 1) decay_Y (fun q => [p ^ q]) decay_sized decay_lip ltac:(lra) Hh (fun _ _ => eq_refl)
      (decay_motion h _ _ _ _) (decay_bound h _ _ Hh) (decay_bound h _ _ Hh)) as G. cbv beta in G. rewrite Z0 in G.
    specialize (G eq_refl St k ltac:(lia) 0%nat ltac:(lia)). cbn [nth decay_Y] in G. rewrite (Rplus_0_l (INR (k + 1) * h)), pow_O, Rmult_1_l in G. exact G.
  - assert (Hg : linear 1 (lscal (-1))).
    { split; [intros v Hv; unfold lscal; rewrite map_length; exact Hv|]. split.
      - intros [|a [|a' x]] [|b [|b' y]] Lx Ly; try discriminate Lx; try discriminate Ly. cbn. f_equal. ring.
      - intros a [|b [|b' y]] Ly; try discriminate Ly. cbn. f_equal. ring. }
    pose proof (C81_rk4_linear 1 1 decay_f (lscal (-1)) (fun _ => [0]) 1 1 0 h (fun _ => [0]) (k + 1) decay_Y (fun q => [p ^ q]) decay_sized decay_lip ltac:(lra) Hh (fun _ _ => eq_refl)
      Hg (fun _ _ => conj eq_refl (fun _ _ _ => eq_refl)) (decay_motion h _ _ _ _) (decay_bound h _ _ Hh)) as G. cbv beta in G. rewrite Z0 in G.
    specialize (G eq_refl St k ltac:(lia) 0%nat ltac:(lia)). cbn [nth decay_Y] in G. rewrite (Rplus_0_l (INR (k + 1) * h)), pow_O, Rmult_1_l in G. exact G.
Qed.
(** The closed loop: the decaying plant, simulated from 1 by Runge-Kutta. *)
Definition decay_pb : cg_problem R := {| cp_dim_x := 1; cp_dim_uc := 1; cp_f := decay_f; cp_costate := fun _ l _ => l; cp_dphi := fun _ x => x;
  cp_dhdu := fun _ _ u _ => u; cp_x0 := [1]; cp_u0 := [0] |}.
Lemma decay_wf : cp_wf decay_pb.
Proof. split; [exact decay_sized|]. repeat split; auto. Qed.
Example C81_run_nonvacuous : exists st' r, cg_run decay_pb drift_conf euler rk4 3 no_members = Ok tt st' /\ In r (cs_log st') /\
  Rabs (nth 0 (cr_x r) 0 - exp (- (cr_t r + 1))) <= rkC 1 1 1 1 * 1 ^ 2 * (cr_t r + 1) * exp (rkL 1 1 * (cr_t r + 1)).
Proof.
  pose proof (C81_run_rk4 decay_pb drift_conf euler 1 3 no_members 1 decay_wf euler_wf eq_refl ltac:(lia) ltac:(cbn; lia) ltac:(cbn; lia) ltac:(cbn; lra) ltac:(cbn; lra) ltac:(lra) decay_lip) as H.
  pose proof (C48_run_length decay_pb drift_conf euler rk4 1 3 no_members decay_wf euler_wf rk4_wf eq_refl ltac:(lia) ltac:(cbn; lia) ltac:(cbn; lia) ltac:(cbn; lra) ltac:(cbn; lra)) as R.
  rewrite drift_K in H, R. cbv zeta in H, R. destruct (H ltac:(lia) ltac:(lia)) as (us & st' & E & G). destruct (R ltac:(lia) ltac:(lia)) as (S & E' & _ & _ & LL & _).
  assert (st' = S 2%nat) as -> by congruence. exists (S 2%nat). destruct (cs_log (S 2%nat)) as [|r l] eqn:El; [cbn in LL; discriminate|]. exists r.
  split; [exact E|]. split; [left; reflexivity|].
  assert (Z0 : decay_Y 0 0 0 = [1]) by (unfold decay_Y; cbn [pow]; rewrite Ropp_0, exp_0; f_equal; ring).
  destruct (G decay_Y 1 1 (decay_motion _ _ _ _ _) (decay_bound 1 _ _ ltac:(lra)) (decay_bound 1 _ _ ltac:(lra)) Z0 r ltac:(left; reflexivity)) as (k & _ & _ & _ & C).
  specialize (C 0%nat ltac:(cbn; lia)). cbn [nth decay_Y cc_dt drift_conf] in C. rewrite pow_O, Rmult_1_l in C. exact C.
Qed.
