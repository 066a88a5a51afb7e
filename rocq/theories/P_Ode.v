(** C43: the Euler and Runge-Kutta integrators over the reals. *)
From Coq Require Import Reals Lra.
From Verif Require Import Prelude Scalar LinAlg RLin GmresSpec GmresCor Cgmres.
Local Open Scope R_scope.

(** X is a solution of x' = f(t, x, u) with constant input u, on R^n. *)
Definition solution (n : nat) (f : R -> list R -> list R -> list R) (u : list R) (X : R -> list R) : Prop :=
  (forall s, length (X s) = n) /\ (forall s x, length x = n -> length (f s x u) = n) /\
  forall s i, (i < n)%nat -> derivable_pt_lim (fun r => nth i (X r) 0) s (nth i (f s (X s) u) 0).
(** Same derivative everywhere, same value at one point: equal. *)
Lemma same_derivative (F G f : R -> R) (a b : R) : (forall s, derivable_pt_lim F s (f s)) -> (forall s, derivable_pt_lim G s (f s)) ->
  F a = G a -> F b = G b.
Proof.
  intros HF HG E.
  assert (HD : forall s, derivable_pt_lim (F - G)%F s 0). { intros s. replace 0 with (f s - f s) by ring. apply derivable_pt_lim_minus; auto. }
  set (pr := (fun s => exist _ 0 (HD s)) : derivable (F - G)%F).
  pose proof (null_derivative_1 (F - G)%F pr (fun s => derive_pt_eq_0 _ _ _ _ (HD s)) a b) as H. unfold minus_fct in H. lra.
Qed.

Definition cubic (c0 c1 c2 c3 s : R) : R := c0 + c1 * s + c2 * (s * s) + c3 * (s * s * s).
Definition cubic_int (c0 c1 c2 c3 s : R) : R := c0 * s + c1 / 2 * (s * s) + c2 / 3 * (s * s * s) + c3 / 4 * (s * s * s * s).
Lemma cubic_int_d c0 c1 c2 c3 s : derivable_pt_lim (cubic_int c0 c1 c2 c3) s (cubic c0 c1 c2 c3 s).
Proof.
  unfold cubic_int, cubic. 
  replace (c0 + c1 * s + c2 * (s * s) + c3 * (s * s * s)) with
    (c0 * 1 + c1 / 2 * (1 * s + s * 1) + c2 / 3 * ((1 * s + s * 1) * s + s * s * 1) + c3 / 4 * (((1 * s + s * 1) * s + s * s * 1) * s + s * s * s * 1)) by field.
  repeat first [apply derivable_pt_lim_plus | apply (derivable_pt_lim_scal (fun s => s)) | apply (derivable_pt_lim_scal (fun s => s * s))
               | apply (derivable_pt_lim_scal (fun s => s * s * s)) | apply (derivable_pt_lim_scal (fun s => s * s * s * s))].
  all: repeat first [apply (derivable_pt_lim_mult (fun s => s * s * s) (fun s => s)) | apply (derivable_pt_lim_mult (fun s => s * s) (fun s => s))
                    | apply (derivable_pt_lim_mult (fun s => s) (fun s => s)) | apply derivable_pt_lim_id].
Qed.
Lemma d_addc F a s l : derivable_pt_lim F s l -> derivable_pt_lim (fun r => F r + a) s l.
Proof. intros H. rewrite <- (Rplus_0_r l). apply (derivable_pt_lim_plus F (fun _ => a)); [exact H|apply derivable_pt_lim_const]. Qed.
Lemma anti_d a t c0 c1 c2 c3 s : derivable_pt_lim (fun r => a + (cubic_int c0 c1 c2 c3 r - cubic_int c0 c1 c2 c3 t)) s (cubic c0 c1 c2 c3 s).
Proof.
  replace (cubic c0 c1 c2 c3 s) with (0 + (cubic c0 c1 c2 c3 s - 0)) by ring.
  apply (derivable_pt_lim_plus (fun _ => a) (fun r => cubic_int c0 c1 c2 c3 r - cubic_int c0 c1 c2 c3 t)); [apply derivable_pt_lim_const|].
  apply (derivable_pt_lim_minus (cubic_int c0 c1 c2 c3) (fun _ => cubic_int c0 c1 c2 c3 t)); [apply cubic_int_d|apply derivable_pt_lim_const].
Qed.

Section Steps.
  Variables (n : nat) (f : R -> list R -> list R -> list R) (u : list R).
  Hypothesis Hf : forall s x, length x = n -> length (f s x u) = n.

  Lemma shift_len x c k : length x = n -> length (vadd x (@vscale R RNum c k)) = n.
  Proof. intros H. unfold vadd. rewrite vbuild_length. exact H. Qed.
  Lemma shift_get x c k i : length x = n -> length k = n -> vget (vadd x (vscale c k)) i = vget x i + c * vget k i.
  Proof. intros H1 H2. rewrite vadd_f, vscale_f by (unfold vscale; rewrite vbuild_length; congruence). reflexivity. Qed.

  Lemma euler_get t x dt i : length x = n -> vget (euler f t x u dt) i = vget x i + dt * vget (f t x u) i.
  Proof. intros H. unfold euler. cbv zeta. apply shift_get; auto. Qed.

  Definition k1 t x := f t x u.
  Definition k2 t x dt := f (t + dt / 2) (vadd x (vscale (dt / 2) (k1 t x))) u.
  Definition k3 t x dt := f (t + dt / 2) (vadd x (vscale (dt / 2) (k2 t x dt))) u.
  Definition k4 t x dt := f (t + dt) (vadd x (vscale dt (k3 t x dt))) u.
  Lemma k_len t x dt : length x = n -> length (k1 t x) = n /\ length (k2 t x dt) = n /\ length (k3 t x dt) = n /\ length (k4 t x dt) = n.
  Proof. intros H. unfold k1, k2, k3, k4. repeat split; apply Hf; auto; apply shift_len; exact H. Qed.
  Lemma rk4_get t x dt i : length x = n -> vget (rk4 f t x u dt) i =
    vget x i + dt / 6 * (vget (k1 t x) i + 2 * vget (k2 t x dt) i + 2 * vget (k3 t x dt) i + vget (k4 t x dt) i).
  Proof.
    intros H. destruct (k_len t x dt H) as (L1 & L2 & L3 & L4).
    change (rk4 f t x u dt) with (vadd x (vscale (dt / (6 / 1)) (vadd (vadd (vadd (k1 t x) (vscale (2 / 1)
      (f (t + dt / (2 / 1)) (vadd x (vscale (dt / (2 / 1)) (k1 t x))) u))) (vscale (2 / 1)
      (f (t + dt / (2 / 1)) (vadd x (vscale (dt / (2 / 1)) (f (t + dt / (2 / 1)) (vadd x (vscale (dt / (2 / 1)) (k1 t x))) u))) u)))
      (f (t + dt) (vadd x (vscale dt (f (t + dt / (2 / 1)) (vadd x (vscale (dt / (2 / 1)) (f (t + dt / (2 / 1)) (vadd x (vscale (dt / (2 / 1)) (k1 t x))) u))) u))) u)))).
    replace (6 / 1) with 6 by field. replace (2 / 1) with 2 by field. fold (k2 t x dt). fold (k3 t x dt). fold (k4 t x dt).
    rewrite shift_get; [|exact H|unfold vadd; rewrite !vbuild_length; exact L1]. f_equal. f_equal.
    rewrite vadd_f by (unfold vadd; rewrite !vbuild_length; congruence). unfold fadd. f_equal.
    rewrite vadd_f by (unfold vadd, vscale; rewrite !vbuild_length; congruence). unfold fadd. rewrite vscale_f. unfold fscal. f_equal.
    rewrite vadd_f by (unfold vscale; rewrite !vbuild_length; congruence). unfold fadd. rewrite vscale_f. reflexivity.
  Qed.
  Lemma euler_len t x dt : length x = n -> length (euler f t x u dt) = n.
  Proof. apply shift_len. Qed.
  Lemma rk4_len t x dt : length x = n -> length (rk4 f t x u dt) = n.
  Proof. intros H. unfold rk4. cbv zeta. apply shift_len. exact H. Qed.
End Steps.

(** C43a: with a constant right-hand side the Euler step lands on the solution. *)
Theorem C43_euler_exact n f u X c t dt : solution n f u X -> (forall s x, length x = n -> f s x u = c) ->
  euler f t (X t) u dt = X (t + dt).
Proof.
  intros (L & Lf & D) Hc. apply vec_ext; [rewrite L; apply euler_len, L|]. rewrite euler_len with (n := n) by apply L. intros i Hi.
  rewrite (euler_get n) by (auto; apply L). rewrite Hc by apply L.
  rewrite (same_derivative (fun r => vget (X r) i) (fun r => vget (X t) i + (cubic_int (vget c i) 0 0 0 r - cubic_int (vget c i) 0 0 0 t)) (fun _ => vget c i) t (t + dt)).
  - unfold cubic_int. field.
  - intros s. pose proof (D s i Hi) as E. rewrite Hc in E by apply L. exact E.
  - intros s. pose proof (anti_d (vget (X t) i) t (vget c i) 0 0 0 s) as A. 
    replace (cubic (vget c i) 0 0 0 s) with (vget c i) in A by (unfold cubic; ring). exact A.
  - ring.
Qed.
Print Assumptions C43_euler_exact.

(** C43b: when the derivative is a cubic polynomial of time the Runge-Kutta step lands on the solution. *)
Theorem C43_rk4_exact n f u X (c0 c1 c2 c3 : list R) t dt : solution n f u X ->
  (forall s x i, length x = n -> (i < n)%nat ->
     nth i (f s x u) 0 = nth i c0 0 + nth i c1 0 * s + nth i c2 0 * s ^ 2 + nth i c3 0 * s ^ 3) ->
  rk4 f t (X t) u dt = X (t + dt).
Proof.
  intros (L & Lf & D) Hc. apply vec_ext; [rewrite L; apply rk4_len, L|]. rewrite rk4_len with (n := n) by apply L. intros i Hi.
  assert (Hc' : forall s x, length x = n -> vget (f s x u) i = cubic (vget c0 i) (vget c1 i) (vget c2 i) (vget c3 i) s).
  { intros s x Hx. unfold vget at 1. etransitivity; [apply Hc; assumption|]. unfold cubic, vget. numR. ring. }
  clear Hc. generalize dependent (vget c0 i). generalize dependent (vget c1 i). generalize dependent (vget c2 i). generalize dependent (vget c3 i).
  intros a3 a2 a1 a0 Hc. rewrite (rk4_get n) by (auto; apply L). unfold k4, k3, k2, k1.
  rewrite !Hc by (repeat apply shift_len; apply L).
  rewrite (same_derivative (fun r => vget (X r) i) (fun r => vget (X t) i + (cubic_int a0 a1 a2 a3 r - cubic_int a0 a1 a2 a3 t)) (cubic a0 a1 a2 a3) t (t + dt)).
  - unfold cubic_int, cubic. field.
  - intros s. pose proof (D s i Hi) as E. change (nth i (f s (X s) u) 0) with (vget (f s (X s) u) i) in E. rewrite Hc in E by apply L. exact E.
  - intros s. apply anti_d.
  - ring.
Qed.
Print Assumptions C43_rk4_exact.

(** C43c: for x' = g x + c the Runge-Kutta step is the degree-4 Taylor polynomial of the solution. D k is the k-th derivative. *)
Theorem C43_rk4_linear n f u X g c (D : nat -> R -> list R) t dt : solution n f u X -> linear n g -> length c = n ->
  (forall s x, length x = n -> f s x u = ladd (g x) c) ->
  (forall s, D 0%nat s = X s) -> (forall k s, length (D k s) = n) ->
  (forall k s i, (k < 4)%nat -> (i < n)%nat -> derivable_pt_lim (fun r => nth i (D k r) 0) s (nth i (D (S k) s) 0)) ->
  forall i, (i < n)%nat -> nth i (rk4 f t (X t) u dt) 0 =
    nth i (D 0%nat t) 0 + dt * nth i (D 1%nat t) 0 + dt ^ 2 / 2 * nth i (D 2%nat t) 0 + dt ^ 3 / 6 * nth i (D 3%nat t) 0
    + dt ^ 4 / 24 * nth i (D 4%nat t) 0.
Proof.
  intros (L & Lf & DX) Hg Lc Hl D0 LD DD i Hi.
  assert (Lg : forall v, length v = n -> length (g v) = n) by apply Hg.
  assert (Gf : forall s x i, length x = n -> vget (f s x u) i = vget (g x) i + vget c i).
  { intros s x j Hx. rewrite Hl, vget_ladd by (auto; rewrite Lg; auto). reflexivity. }
  assert (Gl : forall x a y j, length x = n -> length y = n -> vget (g (vadd x (vscale a y))) j = vget (g x) j + a * vget (g y) j).
  { intros x a y j Hx Hy. destruct (lin_mat n g Hg (vadd x (vscale a y)) (shift_len n x a y Hx)) as [_ ->].
    destruct (lin_mat n g Hg x Hx) as [_ ->]. destruct (lin_mat n g Hg y Hy) as [_ ->].
    rewrite vadd_f, vscale_f by (unfold vscale; rewrite vbuild_length; congruence). rewrite fmv_add, fmv_scal. reflexivity. }
  assert (E1 : D 1%nat t = f t (X t) u /\ forall s, D 1%nat s = f s (X s) u).
  { assert (E : forall s, D 1%nat s = f s (X s) u); [|split; auto]. intros s. apply vec_ext; [rewrite LD; symmetry; apply Lf, L|].
    rewrite LD. intros j Hj. apply (uniqueness_limite (fun r => nth j (D 0%nat r) 0) s); [apply (DD 0%nat); [lia|exact Hj]|].
    eapply derivable_pt_lim_ext; [|apply DX; exact Hj]. intros r. cbv beta. rewrite D0. reflexivity. }
  assert (dg : forall (Y Y' : R -> list R) s j, (forall r, length (Y r) = n) -> (forall r, length (Y' r) = n) ->
     (forall j, (j < n)%nat -> derivable_pt_lim (fun r => nth j (Y r) 0) s (nth j (Y' s) 0)) ->
     derivable_pt_lim (fun r => vget (g (Y r)) j) s (vget (g (Y' s)) j)).
  { intros Y Y' s j LY LY' HY. destruct (lin_mat n g Hg (Y' s) (LY' s)) as [_ ->].
    apply (derivable_pt_lim_ext (fun r => fmv n (Amat n g) (vget (Y r)) j)).
    - intros r. destruct (lin_mat n g Hg (Y r) (LY r)) as [_ ->]. reflexivity.
    - unfold fmv. generalize (Amat n g j). clear -HY. intros A. induction n as [|m IH]; [apply derivable_pt_lim_const|].
      cbn [Rsum]. apply (derivable_pt_lim_plus (fun r => Rsum m (fun k => A k * vget (Y r) k))).
      + apply IH. intros k Hk. apply HY. lia.
      + apply (derivable_pt_lim_scal (fun r => vget (Y r) m)). apply HY. lia. }
  assert (E2 : forall k, (1 <= k < 4)%nat -> forall s, D (S k) s = g (D k s)).
  { induction k as [|k IHk]; [lia|]. intros Hk s. apply vec_ext; [rewrite LD; symmetry; apply Lg, LD|]. rewrite LD. intros j Hj.
    apply (uniqueness_limite (fun r => nth j (D (S k) r) 0) s); [apply DD; [lia|exact Hj]|].
    destruct k as [|k].
    - eapply (derivable_pt_lim_ext (fun r => vget (g (D 0%nat r)) j + vget c j)).
      + intros r. cbv beta. rewrite (proj2 E1 r). rewrite D0. symmetry. apply Gf, L.
      + apply (d_addc (fun r => vget (g (D 0%nat r)) j)). apply (dg _ (D 1%nat)); auto. intros l Hl'. apply DD; [lia|exact Hl'].
    - eapply (derivable_pt_lim_ext (fun r => vget (g (D (S k) r)) j)).
      + intros r. cbv beta. rewrite (IHk ltac:(lia) r). reflexivity.
      + apply (dg _ (D (S (S k)))); auto. intros l Hl'. apply DD; [lia|exact Hl']. }
  change (nth i (rk4 f t (X t) u dt) 0) with (vget (rk4 f t (X t) u dt) i).
  repeat match goal with |- context [nth i (D ?k t) 0] => change (nth i (D k t) 0) with (vget (D k t) i) end.
  rewrite (rk4_get n) by (auto; apply L). destruct (k_len n f u Lf t (X t) dt (L t)) as (L1 & L2 & L3 & L4).
  assert (K1 : k1 f u t (X t) = D 1%nat t) by (symmetry; apply E1).
  assert (G1 : forall j, vget (D 1%nat t) j = vget (g (X t)) j + vget c j) by (intros j; rewrite (proj1 E1); apply Gf, L).
  assert (K2 : forall j, vget (k2 f u t (X t) dt) j = vget (D 1%nat t) j + dt / 2 * vget (D 2%nat t) j).
  { intros j. unfold k2. rewrite Gf by (apply shift_len, L). rewrite Gl by (auto; apply L). rewrite (E2 1%nat) by lia. rewrite K1, G1. ring. }
  assert (F2 : k2 f u t (X t) dt = vadd (D 1%nat t) (vscale (dt / 2) (D 2%nat t))).
  { apply vec_ext; [rewrite L2; symmetry; apply shift_len, LD|]. intros j _. rewrite (shift_get n) by apply LD. apply K2. }
  assert (K3 : forall j, vget (k3 f u t (X t) dt) j = vget (D 1%nat t) j + dt / 2 * (vget (D 2%nat t) j + dt / 2 * vget (D 3%nat t) j)).
  { intros j. unfold k3. rewrite Gf by (apply shift_len, L). rewrite Gl by (auto; apply L). rewrite F2, Gl by apply LD.
    rewrite (E2 2%nat), (E2 1%nat) by lia. rewrite G1. ring. }
  assert (F3 : k3 f u t (X t) dt = vadd (D 1%nat t) (vscale (dt / 2) (vadd (D 2%nat t) (vscale (dt / 2) (D 3%nat t))))).
  { apply vec_ext; [rewrite L3; symmetry; apply shift_len, LD|]. intros j _. rewrite (shift_get n) by first [apply LD|apply shift_len, LD].
    rewrite (shift_get n) by apply LD. apply K3. }
  assert (K4 : vget (k4 f u t (X t) dt) i = vget (D 1%nat t) i + dt * (vget (D 2%nat t) i + dt / 2 * (vget (D 3%nat t) i + dt / 2 * vget (D 4%nat t) i))).
  { unfold k4. rewrite Gf by (apply shift_len, L). rewrite Gl by (auto; apply L). rewrite F3, Gl by first [apply LD|apply shift_len, LD]. rewrite Gl by apply LD.
    rewrite (E2 3%nat), (E2 2%nat), (E2 1%nat) by lia. rewrite G1. ring. }
  rewrite K1, K2, K3, K4, D0. field.
Qed.
Print Assumptions C43_rk4_linear.

(** Non-trivial cases. *)
Example C43_euler_nonvacuous : solution 2 (fun _ _ _ => [3; 0]) [] (fun s => [3 * s + 1; 2]) /\
  euler (fun _ _ _ => [3; 0]) 5 [16; 2] [] (-1) = [13; 2].
Proof.
  assert (H : solution 2 (fun _ _ _ => [3; 0]) [] (fun s => [3 * s + 1; 2])).
  { split; [reflexivity|]. split; [reflexivity|]. intros s [|[|i]] Hi; cbn; [| |lia].
    - apply (d_addc (fun r => 3 * r)). pose proof (derivable_pt_lim_scal (fun r => r) 3 s 1 (derivable_pt_lim_id s)) as E. rewrite Rmult_1_r in E. exact E.
    - apply derivable_pt_lim_const. }
  split; [exact H|]. pose proof (C43_euler_exact 2 _ [] _ [3; 0] 5 (-1) H (fun _ _ _ => eq_refl)) as E. cbv beta in E.
  replace (3 * 5 + 1) with 16 in E by ring. etransitivity; [exact E|]. repeat f_equal; ring.
Qed.
Example C43_rk4_nonvacuous : solution 1 (fun s _ _ => [4 * s ^ 3]) [] (fun s => [s ^ 4]) /\ rk4 (fun s _ _ => [4 * s ^ 3]) 1 [1] [] 2 = [81].
Proof.
  assert (H : solution 1 (fun s _ _ => [4 * s ^ 3]) [] (fun s => [s ^ 4])).
  { split; [reflexivity|]. split; [reflexivity|]. intros s [|i] Hi; cbn [nth]; [|lia].
    replace (4 * s ^ 3) with (INR 4 * s ^ pred 4) by (cbn; ring). apply derivable_pt_lim_pow. }
  split; [exact H|]. pose proof (C43_rk4_exact 1 _ [] _ [0] [0] [0] [4] 1 2 H) as E. cbv beta in E.
  replace (1 ^ 4) with 1 in E by ring. etransitivity; [apply E|f_equal; ring]. intros s x [|i] Hx Hi; cbn [nth]; [ring|lia].
Qed.
(** x' = x: the solution is exp and every derivative is exp. *)
Example C43_linear_nonvacuous : solution 1 (fun _ x _ => ladd x [0]) [] (fun s => [exp s]) /\
  nth 0 (rk4 (fun _ x _ => ladd x [0]) 0 [exp 0] [] 1) 0 = 1 + 1 + 1 / 2 + 1 / 6 + 1 / 24.
Proof.
  assert (H : solution 1 (fun _ x _ => ladd x [0]) [] (fun s => [exp s])).
  { split; [reflexivity|]. split; [intros; apply ladd_len; auto|]. intros s [|i] Hi; cbn [nth ladd combine map fst snd]; [|lia].
    rewrite Rplus_0_r. apply derivable_pt_lim_exp. }
  split; [exact H|]. rewrite (C43_rk4_linear 1 _ [] _ (fun x => x) [0] (fun _ s => [exp s]) 0 1 H); try reflexivity; auto.
  - cbn [nth]. rewrite exp_0. field.
  - repeat split; auto.
  - intros k s [|i] Hk Hi; cbn [nth]; [apply derivable_pt_lim_exp|lia].
Qed.
