(** What it means for the derivative callbacks of a problem to be exact, and rules to prove it. *)
From Coq Require Import Reals Lra.
From Verif Require Import Prelude Scalar LinAlg RLin DDP DDPSafe Fmpc FmpcSafe GmresSpec P_Ode CgmresGrad.
Local Open Scope R_scope.

(** ** Specification *)

(** [gx] and [gu] are the partial derivatives of F at (x, u): along every pair of curves through x and u, F has the
    derivative given by the chain rule. *)
Definition partials (n m : nat) (F : list R -> list R -> R) (x u gx gu : list R) : Prop :=
  length gx = n /\ length gu = m /\
  forall X dX U dU, curve n X dX -> curve m U dU -> X 0 = x -> U 0 = u ->
    derivable_pt_lim (fun s => F (X s) (U s)) 0
      (Rsum n (fun i => nth i gx 0 * nth i dX 0) + Rsum m (fun j => nth j gu 0 * nth j dU 0)).
(** Row i and column j of a matrix. *)
Definition row (c : nat) (A : mat R) (i : nat) : list R := map (fun j => mget A i j) (seq 0 c).
Definition column (r : nat) (A : mat R) (j : nat) : list R := map (fun i => mget A i j) (seq 0 r).

(** Exact first derivatives of the dynamics and exact first and second derivatives of the costs, whatever the output
    buffers held before. *)
Record exact_dynamics (pb : problem R) : Prop := {
  ed_f : forall t x u old A B, length x = pb_nx pb -> length u = nu_of pb t -> pb_stateEqDeriv pb t x u old = (A, B) ->
    forall i, (i < pb_nx pb)%nat ->
    partials (pb_nx pb) (nu_of pb t) (fun x u => nth i (pb_stateEq pb t x u) 0) x u (row (pb_nx pb) A i) (row (nu_of pb t) B i)
}.
Record exact_gradients (pb : problem R) : Prop := {
  eg_L : forall t x u old Lx Lu Lxx Luu Lxu, length x = pb_nx pb -> length u = nu_of pb t ->
    pb_runningCostDeriv pb t x u old = (Lx, Lu, Lxx, Luu, Lxu) ->
    partials (pb_nx pb) (nu_of pb t) (pb_runningCost pb t) x u Lx Lu;
  eg_T : forall t x old Vx Vxx, length x = pb_nx pb -> pb_terminalCostDeriv pb t x old = (Vx, Vxx) ->
    partials (pb_nx pb) 0 (fun x _ => pb_terminalCost pb t x) x [] Vx []
}.
(** The gradients the callbacks return, as functions of x and u. *)
Definition grad_x (pb : problem R) old (t : R) (x u : list R) : list R := let '(Lx, _, _, _, _) := pb_runningCostDeriv pb t x u old in Lx.
Definition grad_u (pb : problem R) old (t : R) (x u : list R) : list R := let '(_, Lu, _, _, _) := pb_runningCostDeriv pb t x u old in Lu.
Definition grad_T (pb : problem R) old (t : R) (x : list R) : list R := fst (pb_terminalCostDeriv pb t x old).
Record exact_hessian_x (pb : problem R) : Prop := {
  eh_x : forall t x u old Lx Lu Lxx Luu Lxu, length x = pb_nx pb -> length u = nu_of pb t ->
    pb_runningCostDeriv pb t x u old = (Lx, Lu, Lxx, Luu, Lxu) -> forall i, (i < pb_nx pb)%nat ->
    partials (pb_nx pb) (nu_of pb t) (fun x u => nth i (grad_x pb old t x u) 0) x u (row (pb_nx pb) Lxx i) (row (nu_of pb t) Lxu i);
  eh_T : forall t x old Vx Vxx, length x = pb_nx pb -> pb_terminalCostDeriv pb t x old = (Vx, Vxx) -> forall i, (i < pb_nx pb)%nat ->
    partials (pb_nx pb) 0 (fun x _ => nth i (grad_T pb old t x) 0) x [] (row (pb_nx pb) Vxx i) []
}.
Record exact_hessian_u (pb : problem R) : Prop := {
  eh_u : forall t x u old Lx Lu Lxx Luu Lxu, length x = pb_nx pb -> length u = nu_of pb t ->
    pb_runningCostDeriv pb t x u old = (Lx, Lu, Lxx, Luu, Lxu) -> forall j, (j < nu_of pb t)%nat ->
    partials (pb_nx pb) (nu_of pb t) (fun x u => nth j (grad_u pb old t x u) 0) x u (column (pb_nx pb) Lxu j) (row (nu_of pb t) Luu j)
}.
Definition exact_derivatives (pb : problem R) : Prop :=
  exact_dynamics pb /\ exact_gradients pb /\ exact_hessian_x pb /\ exact_hessian_u pb.
(** The same for the inequality constraints of an FMPC problem. *)
Record exact_constraints (pb : fproblem R) : Prop := {
  ec_g : forall t x u old C D, length x = pb_nx (fp_dp pb) -> length u = nu_of (fp_dp pb) t -> fp_gDeriv pb t x u old = (C, D) ->
    forall i, (i < ng_of pb t)%nat ->
    partials (pb_nx (fp_dp pb)) (nu_of (fp_dp pb) t) (fun x u => nth i (fp_g pb t x u) 0) x u
      (row (pb_nx (fp_dp pb)) C i) (row (nu_of (fp_dp pb) t) D i)
}.

(** ** Rules *)
Notation dl f l := (derivable_pt_lim f 0 l).
Lemma dl_conv f g l l' : (forall s, g s = f s) -> dl f l -> l = l' -> dl g l'.
Proof. intros H D <-. apply (derivable_pt_lim_ext f); [intros s; symmetry; apply H|exact D]. Qed.
Lemma dl_eq f l l' : dl f l -> l = l' -> dl f l'.
Proof. intros D <-. exact D. Qed.
Lemma dl_const c : dl (fun _ => c) 0.
Proof. apply derivable_pt_lim_const. Qed.
Lemma dl_plus f g a b : dl f a -> dl g b -> dl (fun s => f s + g s) (a + b).
Proof. apply derivable_pt_lim_plus. Qed.
Lemma dl_minus f g a b : dl f a -> dl g b -> dl (fun s => f s - g s) (a - b).
Proof. apply derivable_pt_lim_minus. Qed.
Lemma dl_opp f a : dl f a -> dl (fun s => - f s) (- a).
Proof. apply derivable_pt_lim_opp. Qed.
Lemma dl_mult f g a b : dl f a -> dl g b -> dl (fun s => f s * g s) (a * g 0 + f 0 * b).
Proof. apply derivable_pt_lim_mult. Qed.
Lemma dl_div f g a b : dl f a -> dl g b -> g 0 <> 0 -> dl (fun s => f s / g s) ((a * g 0 - b * f 0) / (g 0 * g 0)).
Proof. intros Hf Hg Hn. exact (derivable_pt_lim_div f g 0 a b Hf Hg Hn). Qed.
Lemma dl_sin f a : dl f a -> dl (fun s => sin (f s)) (cos (f 0) * a).
Proof. intros H. apply (derivable_pt_lim_comp f sin 0 a (cos (f 0)) H). apply derivable_pt_lim_sin. Qed.
Lemma dl_cos f a : dl f a -> dl (fun s => cos (f s)) (- sin (f 0) * a).
Proof. intros H. apply (derivable_pt_lim_comp f cos 0 a (- sin (f 0)) H). apply derivable_pt_lim_cos. Qed.
Lemma dl_sqrt f a : dl f a -> 0 < f 0 -> dl (fun s => sqrt (f s)) (/ (2 * sqrt (f 0)) * a).
Proof. intros H P. apply (derivable_pt_lim_comp f sqrt 0 a (/ (2 * sqrt (f 0))) H). apply derivable_pt_lim_sqrt. exact P. Qed.
Lemma dl_sum n (f : nat -> R -> R) l : (forall i, (i < n)%nat -> dl (f i) (l i)) -> dl (fun s => Rsum n (fun i => f i s)) (Rsum n l).
Proof.
  induction n as [|n IH]; intros H; cbn [Rsum]; [apply dl_const|]. apply dl_plus; [apply IH; intros; apply H; lia|apply H; lia].
Qed.

Ltac dstep :=
  match goal with
  | H : forall i, (i < _)%nat -> dl _ _ |- dl (fun s => nth ?i (?X s) 0) _ => apply (H i); lia
  | |- dl (fun _ => ?c) _ => apply (dl_const c)
  | |- dl (fun s => _ + _) _ => apply dl_plus
  | |- dl (fun s => _ - _) _ => apply dl_minus
  | |- dl (fun s => - _) _ => apply dl_opp
  | |- dl (fun s => _ * _) _ => apply dl_mult
  | |- dl (fun s => _ / _) _ => apply dl_div
  | |- dl (fun s => sin _) _ => apply dl_sin
  | |- dl (fun s => cos _) _ => apply dl_cos
  end.

Lemma row_len c A i : length (row c A i) = c.
Proof. unfold row. rewrite map_length, seq_length. reflexivity. Qed.
Lemma column_len r A j : length (column r A j) = r.
Proof. unfold column. rewrite map_length, seq_length. reflexivity. Qed.
Lemma row_nth c A i j : (j < c)%nat -> nth j (row c A i) 0 = mget A i j.
Proof. intros H. change (vget (vbuild c (fun j => mget A i j)) j = mget A i j). apply vbuild_get. exact H. Qed.
Lemma column_nth r A i j : (i < r)%nat -> nth i (column r A j) 0 = mget A i j.
Proof. intros H. change (vget (vbuild r (fun i => mget A i j)) i = mget A i j). apply vbuild_get with (f := fun i => mget A i j). exact H. Qed.

(** The derivative of F in terms of the entries. *)
Lemma partials_intro n m F x u gx gu : length gx = n -> length gu = m ->
  (forall X dX U dU, (forall s, length (X s) = n) -> (forall s, length (U s) = m) -> X 0 = x -> U 0 = u ->
     (forall i, (i < n)%nat -> dl (fun s => nth i (X s) 0) (nth i dX 0)) -> (forall j, (j < m)%nat -> dl (fun s => nth j (U s) 0) (nth j dU 0)) ->
     dl (fun s => F (X s) (U s)) (Rsum n (fun i => nth i gx 0 * nth i dX 0) + Rsum m (fun j => nth j gu 0 * nth j dU 0))) ->
  partials n m F x u gx gu.
Proof. intros L1 L2 H. split; [exact L1|]. split; [exact L2|]. intros X dX U dU (HX & _ & DX) (HU & _ & DU) EX EU. apply H; auto. Qed.
Lemma partials_rows n m F x u A B i :
  (forall X dX U dU, (forall s, length (X s) = n) -> (forall s, length (U s) = m) -> X 0 = x -> U 0 = u ->
     (forall i, (i < n)%nat -> dl (fun s => nth i (X s) 0) (nth i dX 0)) -> (forall j, (j < m)%nat -> dl (fun s => nth j (U s) 0) (nth j dU 0)) ->
     dl (fun s => F (X s) (U s)) (Rsum n (fun j => mget A i j * nth j dX 0) + Rsum m (fun j => mget B i j * nth j dU 0))) ->
  partials n m F x u (row n A i) (row m B i).
Proof.
  intros H. apply partials_intro; [apply row_len|apply row_len|]. intros X dX U dU H1 H2 H3 H4 H5 H6.
  eapply dl_eq; [apply (H X dX U dU); auto|]. f_equal; apply Rsum_ext; intros j Hj; rewrite row_nth by exact Hj; reflexivity.
Qed.
Lemma partials_col n m F x u A B j :
  (forall X dX U dU, (forall s, length (X s) = n) -> (forall s, length (U s) = m) -> X 0 = x -> U 0 = u ->
     (forall i, (i < n)%nat -> dl (fun s => nth i (X s) 0) (nth i dX 0)) -> (forall j, (j < m)%nat -> dl (fun s => nth j (U s) 0) (nth j dU 0)) ->
     dl (fun s => F (X s) (U s)) (Rsum n (fun i => mget A i j * nth i dX 0) + Rsum m (fun k => mget B j k * nth k dU 0))) ->
  partials n m F x u (column n A j) (row m B j).
Proof.
  intros H. apply partials_intro; [apply column_len|apply row_len|]. intros X dX U dU H1 H2 H3 H4 H5 H6.
  eapply dl_eq; [apply (H X dX U dU); auto|]. f_equal; apply Rsum_ext; intros k Hk; [rewrite column_nth by exact Hk|rewrite row_nth by exact Hk]; reflexivity.
Qed.
Lemma partials_T n F x A i :
  (forall X dX, (forall s, length (X s) = n) -> X 0 = x ->
     (forall i, (i < n)%nat -> dl (fun s => nth i (X s) 0) (nth i dX 0)) ->
     dl (fun s => F (X s)) (Rsum n (fun j => mget A i j * nth j dX 0))) ->
  partials n 0 (fun x _ => F x) x [] (row n A i) [].
Proof.
  intros H. apply partials_intro; [apply row_len|reflexivity|]. intros X dX U dU H1 _ H3 _ H5 _. cbn [Rsum].
  eapply dl_eq; [apply (H X dX); auto|]. rewrite Rplus_0_r. apply Rsum_ext; intros j Hj; rewrite row_nth by exact Hj; reflexivity.
Qed.

(** Weighted sums of squares, their gradients and Hessians. *)
Lemma Rsum_delta n i a (d : nat -> R) : (i < n)%nat -> Rsum n (fun j => (if Nat.eqb i j then a else 0) * d j) = a * d i.
Proof.
  intros H. rewrite (Rsum_single n _ i H); [rewrite Nat.eqb_refl; reflexivity|]. intros j _ Hj.
  destruct (Nat.eqb_spec i j); [congruence|ring].
Qed.
Lemma dl_quad n (w r : nat -> R) (X : R -> list R) dX : (forall i, (i < n)%nat -> dl (fun s => nth i (X s) 0) (nth i dX 0)) ->
  dl (fun s => / 2 * Rsum n (fun i => w i * ((nth i (X s) 0 - r i) * (nth i (X s) 0 - r i)))) (Rsum n (fun i => w i * (nth i (X 0) 0 - r i) * nth i dX 0)).
Proof.
  intros H. eapply dl_eq.
  - apply dl_mult; [apply dl_const|]. apply (dl_sum n (fun i s => w i * ((nth i (X s) 0 - r i) * (nth i (X s) 0 - r i)))). intros i Hi.
    apply dl_mult; [apply dl_const|]. apply dl_mult; (apply dl_minus; [apply H; exact Hi|apply dl_const]).
  - cbv beta. rewrite Rmult_0_l, Rplus_0_l, <- Rsum_scal. apply Rsum_ext. intros i _. field.
Qed.
Lemma mget_mdiag (w : vec R) i j : (i < length w)%nat -> (j < length w)%nat -> mget (mdiag w) i j = if Nat.eqb i j then nth i w 0 else 0.
Proof. intros Hi Hj. unfold mdiag. rewrite mbuild_get by assumption. reflexivity. Qed.
Lemma mget_mid n i j : (i < n)%nat -> (j < n)%nat -> mget (@mid R RNum n) i j = if Nat.eqb i j then 1 else 0.
Proof. intros Hi Hj. unfold mid. rewrite mbuild_get by assumption. reflexivity. Qed.
