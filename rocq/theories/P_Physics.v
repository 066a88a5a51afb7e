(** C66: the example problems obey the mechanics they are named after, in exact arithmetic. *)
From Coq Require Import Reals Lra Psatz.
From Verif Require Import Prelude Scalar LinAlg RLin DDP Fmpc Cgmres Problems ProbSpec ProbProofs2 P_Problems.
Local Open Scope R_scope.

(** ** Derivatives along a motion *)
Notation D := derivable_pt_lim.
Lemma D_ext f g t l : (forall s, f s = g s) -> D f t l -> D g t l.
Proof. intros E H eps He. destruct (H eps He) as (d & Hd). exists d. intros h H1 H2. rewrite <- !E. apply Hd; assumption. Qed.
Lemma D_eq f t l l' : D f t l -> l = l' -> D f t l'.
Proof. intros H <-. exact H. Qed.
Lemma D_const c t : D (fun _ => c) t 0.
Proof. apply derivable_pt_lim_const. Qed.
Lemma D_plus f g t a b : D f t a -> D g t b -> D (fun s => f s + g s) t (a + b).
Proof. apply derivable_pt_lim_plus. Qed.
Lemma D_minus f g t a b : D f t a -> D g t b -> D (fun s => f s - g s) t (a - b).
Proof. apply derivable_pt_lim_minus. Qed.
Lemma D_mult f g t a b : D f t a -> D g t b -> D (fun s => f s * g s) t (a * g t + f t * b).
Proof. apply derivable_pt_lim_mult. Qed.
Lemma D_sin f t a : D f t a -> D (fun s => sin (f s)) t (cos (f t) * a).
Proof. intros H. exact (derivable_pt_lim_comp f sin t a _ H (derivable_pt_lim_sin _)). Qed.
Lemma D_cos f t a : D f t a -> D (fun s => cos (f s)) t (- sin (f t) * a).
Proof. intros H. exact (derivable_pt_lim_comp f cos t a _ H (derivable_pt_lim_cos _)). Qed.

(** [X] is a solution of the differential equation whose explicit Euler step of length h is [step]. *)
Definition solves_ode (n : nat) (step : R -> vec R -> R -> vec R) (X : R -> vec R) : Prop :=
  forall t, length (X t) = n /\ forall i, (i < n)%nat -> exists d, D (fun s => vget (X s) i) t d /\ forall h, vget (step t (X t) h) i = vget (X t) i + h * d.

(** ** Cart-pole *)
(** A cart of mass m1 on a horizontal rail and a mass m2 at the end of a massless rod of length l, at angle theta from the upward vertical (positive to the left):
    the mass is at (p - l sin theta, l cos theta). [N] is the force in the rod. *)
Record newton (m1 m2 l g : R) (f p th : R -> R) : Prop := {
  nw_eq : forall t, exists p1 p2 x1 x2 y1 y2 N,
    (forall s, D p s (p1 s)) /\ D p1 t p2 /\
    (forall s, D (fun s => p s - l * sin (th s)) s (x1 s)) /\ D x1 t x2 /\
    (forall s, D (fun s => l * cos (th s)) s (y1 s)) /\ D y1 t y2 /\
    m1 * p2 = f t - N * sin (th t) /\ m2 * x2 = N * sin (th t) /\ m2 * y2 = - N * cos (th t) - m2 * g }.
(** kinetic and potential energy *)
Definition cart_energy (m1 m2 l g : R) (x : vec R) : R :=
  let th := vget x 1 in let v := vget x 2 in let w := vget x 3 in
  m1 * (v * v) / 2 + m2 * ((v - l * w * cos th) * (v - l * w * cos th) + (l * w * sin th) * (l * w * sin th)) / 2 + m2 * g * (l * cos th).
Section Cart.
  Variable p : cart_par R.
  Hypothesis H1 : 0 < cr_m1 p.
  Hypothesis H2 : 0 <= cr_m2 p.
  Hypothesis Hl : 0 < cr_l p.
  Notation g0 := (980665 / 100000).
  Variables (f : R -> R) (X : R -> vec R).
  Hypothesis HX : solves_ode 4 (fun t x h => cart_f_dt sin cos p t x [f t] h) X.

  Definition acc_p (t : R) : R :=
    (f t - cr_m2 p * cr_l p * (vget (X t) 3 * vget (X t) 3) * sin (vget (X t) 1) + cr_m2 p * g0 * sin (vget (X t) 1) * cos (vget (X t) 1))
    / (cr_m1 p + cr_m2 p * (sin (vget (X t) 1) * sin (vget (X t) 1))).
  Definition acc_th (t : R) : R :=
    (f t * cos (vget (X t) 1) - cr_m2 p * cr_l p * (vget (X t) 3 * vget (X t) 3) * sin (vget (X t) 1) * cos (vget (X t) 1) + g0 * (cr_m1 p + cr_m2 p) * sin (vget (X t) 1))
    / (cr_l p * (cr_m1 p + cr_m2 p * (sin (vget (X t) 1) * sin (vget (X t) 1)))).
  Lemma cart_D t : D (fun s => vget (X s) 0) t (vget (X t) 2) /\ D (fun s => vget (X s) 1) t (vget (X t) 3) /\
    D (fun s => vget (X s) 2) t (acc_p t) /\ D (fun s => vget (X s) 3) t (acc_th t).
  Proof using HX.
    destruct (HX t) as (L & H).
    assert (E : forall i, (i < 4)%nat -> vget (cart_f_dt sin cos p t (X t) [f t] 1) i = vget (X t) i + 1 * vget [vget (X t) 2; vget (X t) 3; acc_p t; acc_th t] i).
    { intros i Hi. unfold cart_f_dt. cbn zeta. unfold vadd. rewrite L, vbuild_get by exact Hi. unfold vscale. cbn [length]. rewrite vbuild_get by exact Hi.
      unfold acc_p, acc_th, sqr, grav. destruct i as [|[|[|[|]]]]; try lia; cbn [vget nth]; numR; reflexivity. }
    assert (G : forall i, (i < 4)%nat -> D (fun s => vget (X s) i) t (vget [vget (X t) 2; vget (X t) 3; acc_p t; acc_th t] i)).
    { intros i Hi. destruct (H i Hi) as (d & Hd & He). specialize (He 1). rewrite (E i Hi) in He. replace (vget _ i) with d by lra. exact Hd. }
    split; [exact (G 0%nat ltac:(lia))|]. split; [exact (G 1%nat ltac:(lia))|]. split; [exact (G 2%nat ltac:(lia))|exact (G 3%nat ltac:(lia))].
  Qed.
  Lemma cart_den t : 0 < cr_m1 p + cr_m2 p * (sin (vget (X t) 1) * sin (vget (X t) 1)).
  Proof using H1 H2. nra. Qed.
  (** The two equations of motion, from which everything below follows. *)
  Lemma cart_motion t : cr_l p * acc_th t = acc_p t * cos (vget (X t) 1) + g0 * sin (vget (X t) 1) /\
    (cr_m1 p + cr_m2 p) * acc_p t - cr_m2 p * cr_l p * acc_th t * cos (vget (X t) 1) + cr_m2 p * cr_l p * (vget (X t) 3 * vget (X t) 3) * sin (vget (X t) 1) = f t.
  Proof using H1 H2 Hl.
    pose proof (cart_den t) as Dn. unfold acc_p, acc_th. set (th := vget (X t) 1) in *. set (w := vget (X t) 3). pose proof (sin2_cos2 th) as Sc. unfold Rsqr in Sc.
    assert (Cc : cos th * cos th = 1 - sin th * sin th) by lra. generalize dependent (sin th). generalize dependent (cos th). intros c s Dn Sc Cc.
    assert (M : cr_l p * ((f t * c - cr_m2 p * cr_l p * (w * w) * s * c + g0 * (cr_m1 p + cr_m2 p) * s) / (cr_l p * (cr_m1 p + cr_m2 p * (s * s))))
              = (f t - cr_m2 p * cr_l p * (w * w) * s + cr_m2 p * g0 * s * c) / (cr_m1 p + cr_m2 p * (s * s)) * c + g0 * s).
    { assert (Z : forall a b k u d, u <> 0 -> d <> 0 -> a = b * c + k * d -> u * (a / (u * d)) = b / d * c + k) by (intros a b k u d Hu Hd ->; field; auto).
      apply Z; [lra|lra|]. replace ((f t - cr_m2 p * cr_l p * (w * w) * s + cr_m2 p * g0 * s * c) * c)
        with (f t * c - cr_m2 p * cr_l p * (w * w) * s * c + cr_m2 p * g0 * s * (c * c)) by ring. rewrite Cc. ring. }
    split; [exact M|]. set (ap := (f t - cr_m2 p * cr_l p * (w * w) * s + cr_m2 p * g0 * s * c) / (cr_m1 p + cr_m2 p * (s * s))) in *.
    assert (Ea : ap * (cr_m1 p + cr_m2 p * (s * s)) = f t - cr_m2 p * cr_l p * (w * w) * s + cr_m2 p * g0 * s * c) by (unfold ap; field; lra).
    set (at' := _ / (cr_l p * _)) in *. replace (cr_m2 p * cr_l p * at' * c) with (cr_m2 p * c * (cr_l p * at')) by ring. rewrite M.
    replace ((cr_m1 p + cr_m2 p) * ap - cr_m2 p * c * (ap * c + g0 * s) + cr_m2 p * cr_l p * (w * w) * s)
      with (ap * (cr_m1 p + cr_m2 p * (1 - c * c)) - cr_m2 p * g0 * s * c + cr_m2 p * cr_l p * (w * w) * s) by ring.
    replace (1 - c * c) with (s * s) by lra. rewrite Ea. ring.
  Qed.
  (** C66: every solution of the differential equation behind stateEq is a motion of the cart and the pole under Newton's laws. *)
  Theorem C66_cartpole_newton : newton (cr_m1 p) (cr_m2 p) (cr_l p) g0 f (fun t => vget (X t) 0) (fun t => vget (X t) 1).
  Proof using H1 H2 Hl HX.
    split. intros t. pose (c s := cos (vget (X s) 1)). pose (n s := sin (vget (X s) 1)). pose (w s := vget (X s) 3). pose (v s := vget (X s) 2).
    assert (Dn : forall s, D n s (c s * w s)) by (intros s; apply D_sin; apply cart_D).
    assert (Dc : forall s, D c s (- n s * w s)) by (intros s; apply D_cos; apply cart_D).
    assert (Dw : D w t (acc_th t)) by apply cart_D. assert (Dv : D v t (acc_p t)) by apply cart_D.
    exists v, (acc_p t), (fun s => v s - cr_l p * (c s * w s)),
      (acc_p t - cr_l p * (- n t * w t * w t + c t * acc_th t)), (fun s => cr_l p * (- n s * w s)),
      (cr_l p * (- (c t * w t) * w t + - n t * acc_th t)).
    destruct (cart_motion t) as (M1 & M2). fold (c t) (n t) (w t) in M1, M2.
    pose proof (sin2_cos2 (vget (X t) 1)) as Sc. unfold Rsqr in Sc. fold (n t) (c t) in Sc.
    exists (- (cr_m2 p) * (acc_p t * - n t + cr_l p * (- (w t * w t)) + g0 * c t)).
    split; [intros s; apply cart_D|]. split; [exact Dv|]. split.
    { intros s. apply D_minus; [apply cart_D|]. eapply D_eq; [apply (D_mult (fun _ => cr_l p) n); [apply D_const|apply Dn]|ring]. }
    split.
    { apply D_minus; [exact Dv|]. eapply D_eq; [apply (D_mult (fun _ => cr_l p) (fun s => c s * w s)); [apply D_const|apply (D_mult c w); [apply Dc|exact Dw]]|ring]. }
    split.
    { intros s. eapply D_eq; [apply (D_mult (fun _ => cr_l p) c); [apply D_const|apply Dc]|ring]. }
    split.
    { eapply D_eq; [apply (D_mult (fun _ => cr_l p) (fun s => - n s * w s)); [apply D_const|]|].
      - apply (D_mult (fun s => - n s) w); [|exact Dw]. exact (derivable_pt_lim_opp n t _ (Dn t)).
      - cbv beta. ring. }
    change (sin (vget (X t) 1)) with (n t). change (cos (vget (X t) 1)) with (c t).
    assert (Cc : c t * c t = 1 - n t * n t) by lra. set (cc := c t) in *. set (nn := n t) in *. set (ww := w t) in *. set (a := acc_p t) in *.
    assert (Q : cr_l p * acc_th t * cc = a * (1 - nn * nn) + g0 * nn * cc) by (rewrite M1, <- Cc; ring).
    split; [|split].
    - replace (cr_m1 p * a) with (f t - cr_m2 p * a + cr_m2 p * (cr_l p * acc_th t * cc) - cr_m2 p * cr_l p * (ww * ww) * nn) by lra. rewrite Q. ring.
    - replace (a - cr_l p * (- nn * ww * ww + cc * acc_th t)) with (a - (cr_l p * acc_th t * cc) + cr_l p * nn * ww * ww) by ring. rewrite Q. ring.
    - replace (cr_l p * (- (cc * ww) * ww + - nn * acc_th t)) with (- cr_l p * cc * ww * ww - nn * (cr_l p * acc_th t)) by ring. rewrite M1.
      assert (Cg : cr_m2 p * g0 * (cc * cc) = cr_m2 p * g0 * (1 - nn * nn)) by (rewrite Cc; reflexivity). lra.
  Qed.
  (** C66: the energy changes by the power of the input; without input it is conserved. *)
  Theorem C66_cartpole_energy t : D (fun s => cart_energy (cr_m1 p) (cr_m2 p) (cr_l p) g0 (X s)) t (f t * vget (X t) 2).
  Proof using H1 H2 Hl HX.
    pose (c s := cos (vget (X s) 1)). pose (n s := sin (vget (X s) 1)). pose (w s := vget (X s) 3). pose (v s := vget (X s) 2).
    assert (Dn : D n t (c t * w t)) by (apply D_sin; apply cart_D). assert (Dc : D c t (- n t * w t)) by (apply D_cos; apply cart_D).
    assert (Dw : D w t (acc_th t)) by apply cart_D. assert (Dv : D v t (acc_p t)) by apply cart_D.
    assert (K : forall k (q : R -> R) dq, D q t dq -> D (fun s => k * q s) t (k * dq)) by (intros k q dq Hq; eapply D_eq; [apply (D_mult (fun _ => k) q); [apply D_const|exact Hq]|ring]).
    pose (y s := v s - cr_l p * (w s * c s)). pose (z s := cr_l p * (w s * n s)).
    assert (Dy : D y t (acc_p t - cr_l p * (acc_th t * c t + w t * (- n t * w t)))) by (apply D_minus; [exact Dv|apply K; apply (D_mult w c); assumption]).
    assert (Dz : D z t (cr_l p * (acc_th t * n t + w t * (c t * w t)))) by (apply K; apply (D_mult w n); assumption).
    apply (D_ext (fun s => (cr_m1 p / 2 * (v s * v s) + cr_m2 p / 2 * (y s * y s + z s * z s)) + cr_m2 p * g0 * cr_l p * c s)).
    { intros s. unfold cart_energy, y, z, v, w, c, n. cbn zeta. field. }
    eapply D_eq.
    - apply D_plus; [|apply K; exact Dc]. apply D_plus; apply K; [apply (D_mult v v); exact Dv|]. apply D_plus; [apply (D_mult y y); exact Dy|apply (D_mult z z); exact Dz].
    - destruct (cart_motion t) as (M1 & M2). fold (c t) (n t) (w t) in M1, M2. pose proof (sin2_cos2 (vget (X t) 1)) as Sc. unfold Rsqr in Sc. fold (n t) (c t) in Sc.
      unfold y, z. fold (v t). rewrite <- M2. assert (Cc : c t * c t = 1 - n t * n t) by lra.
      set (cc := c t) in *. set (nn := n t) in *. set (ww := w t) in *. set (a := acc_p t) in *. set (b := acc_th t) in *. set (vv := v t) in *. set (L := cr_l p) in *.
      set (m1 := cr_m1 p) in *. set (m2 := cr_m2 p) in *.
      transitivity ((m1 + m2) * a * vv - m2 * L * (b * cc - ww * ww * nn) * vv + m2 * L * ww * (L * b * (cc * cc + nn * nn) - a * cc) - m2 * g0 * L * nn * ww); [field|].
      replace (cc * cc + nn * nn) with 1 by lra. rewrite Rmult_1_r, M1. ring.
  Qed.
End Cart.
Print Assumptions C66_cartpole_newton.
Print Assumptions C66_cartpole_energy.
(** A pole at 45 degrees on a cart in free acceleration: the rod keeps its angle. *)
Example C66_cartpole_nonvacuous : let p := {| cr_dt := / 100; cr_ref := fun _ => 0; cr_m1 := 1; cr_m2 := / 2; cr_l := 2; cr_rx := []; cr_ru := []; cr_tx := [] |} in
  let g := 980665 / 100000 in solves_ode 4 (fun t x h => cart_f_dt sin cos p t x [- (3 / 2) * g] h) (fun t => [- g * (t * t) / 2; PI / 4; - g * t; 0]).
Proof.
  intros p g t. split; [reflexivity|]. intros i Hi.
  pose proof sin_PI4 as Es. pose proof cos_PI4 as Ec. pose proof (sqrt_sqrt 2 ltac:(lra)) as S2. assert (Sp : 0 < sqrt 2) by (apply sqrt_lt_R0; lra).
  assert (Hq : (1 / sqrt 2) * (1 / sqrt 2) = 1 / 2) by (replace ((1 / sqrt 2) * (1 / sqrt 2)) with (1 / (sqrt 2 * sqrt 2)) by (field; lra); rewrite S2; reflexivity).
  assert (Di : D (fun s => s) t 1) by apply derivable_pt_lim_id.
  exists (vget [- g * t; 0; - g; 0] i). split.
  - destruct i as [|[|[|[|]]]]; try lia; cbn [vget nth].
    + apply (D_ext (fun s => - g / 2 * (s * s))); [intros s; field|]. eapply D_eq; [apply (D_mult (fun _ => - g / 2) (fun s => s * s)); [apply D_const|apply D_mult; exact Di]|cbv beta; field].
    + apply D_const.
    + eapply D_eq; [apply (D_mult (fun _ => - g) (fun s => s)); [apply D_const|exact Di]|cbv beta; ring].
    + apply D_const.
  - intros h. unfold cart_f_dt. cbn zeta. unfold vadd, vscale, vbuild. cbn [length seq map vget nth]. unfold sqr, grav, p. cbn [cr_m1 cr_m2 cr_l]. rewrite Es, Ec. numR. fold g.
    set (k := 1 / sqrt 2) in *.
    destruct i as [|[|[|[|]]]]; try lia; cbn [nth]; try ring.
    + replace ((- (3 / 2) * g - / 2 * 2 * (0 * 0) * k + / 2 * g * k * k) / (1 + / 2 * (k * k))) with (- g); [ring|].
      replace (/ 2 * g * k * k) with (/ 2 * g * (k * k)) by ring. rewrite Hq. field.
    + replace (- (3 / 2) * g * k - / 2 * 2 * (0 * 0) * k * k + g * (1 + / 2) * k) with 0 by field. unfold Rdiv. ring.
Qed.

(** C66: the cart-pole of the CGMRES tests is the same system: stateEq of the DDP and FMPC problems is one Euler step of it, for every scalar type. *)
Theorem C66_cartpoles_agree {T} {N : Num T} (nsin ncos : T -> T) (p : cart_par T) (q : cgc_par T) t x u h :
  cr_m1 p = cg_m1 q -> cr_m2 p = cg_m2 q -> cr_l p = cg_l q -> cart_f_dt nsin ncos p t x u h = vadd x (vscale h (cgc_f nsin ncos q t x u)).
Proof. intros E1 E2 E3. unfold cart_f_dt, cgc_f. rewrite E1, E2, E3. reflexivity. Qed.
Print Assumptions C66_cartpoles_agree.

(** ** Oscillator *)
(** C66: every solution is a forced van der Pol oscillation of the second state component. *)
Theorem C66_oscillator (f : R -> R) X : solves_ode 2 (fun t x h => osc_f_dt t x [f t] h) X -> let q s := vget (X s) 1 in let q1 s := vget (X s) 0 in
  forall t, D q t (q1 t) /\ D q1 t ((1 - q t * q t) * q1 t - q t + f t).
Proof.
  intros HX q q1 t. destruct (HX t) as (L & H).
  destruct (H 0%nat ltac:(lia)) as (d0 & D0 & E0). destruct (H 1%nat ltac:(lia)) as (d1 & D1 & E1). specialize (E0 1). specialize (E1 1). unfold osc_f_dt, vadd, vscale in E0, E1.
  rewrite L, !vbuild_get in E0, E1 by (cbn; lia). cbn [vget nth] in E0, E1. unfold sqr in E0. unfold vget in E0, E1. cbn in E0, E1. fold (vget (X t) 0) in E0, E1. fold (vget (X t) 1) in E0, E1.
  split; [eapply D_eq; [exact D1|]|eapply D_eq; [exact D0|]]; unfold q, q1, vget; unfold vget in E0, E1; cbn in E0, E1 |- *; lra.
Qed.
Print Assumptions C66_oscillator.
(** The unstable equilibrium, held by a constant input off the origin. *)
Example C66_oscillator_nonvacuous : solves_ode 2 (fun t x h => osc_f_dt t x [3] h) (fun _ => [0; 3]).
Proof.
  intros t. split; [reflexivity|]. intros i Hi. exists 0. split; [apply D_const|]. intros h. unfold osc_f_dt, vadd, vscale, vbuild. cbn [length seq map vget nth]. unfold sqr. numR.
  destruct i as [|[|]]; try lia; cbn; ring.
Qed.

(** ** Bipedal *)
(** C66: stateEq of the bipedal problem is the exact motion over one time step of a centre of mass whose acceleration is omega2 * (position - ZMP), frozen at the start of the step. *)
Theorem C66_bipedal p t x v z : exists q q1, q 0 = x /\ q1 0 = v /\ (forall s, D q s (q1 s)) /\ (forall s, D q1 s (bp_omega2 p t * (x - z))) /\
  bip_f p t [x; v] [z] = [q (bp_dt p); q1 (bp_dt p)].
Proof.
  set (a := bp_omega2 p t * (x - z)). exists (fun s => x + v * s + a / 2 * (s * s)), (fun s => v + a * s).
  assert (Di : forall s, D (fun s => s) s 1) by (intros s; apply derivable_pt_lim_id).
  split; [ring|]. split; [ring|]. split; [|split].
  - intros s. eapply D_eq; [apply D_plus; [apply D_plus; [apply D_const|apply (D_mult (fun _ => v)); [apply D_const|apply Di]]|apply (D_mult (fun _ => a / 2)); [apply D_const|apply (D_mult (fun s => s) (fun s => s)); apply Di]]|cbv beta; field].
  - intros s. eapply D_eq; [apply D_plus; [apply D_const|apply (D_mult (fun _ => a)); [apply D_const|apply Di]]|cbv beta; ring].
  - unfold bip_f, bip_A, bip_B, mat22, col2, mvmul, vadd, vbuild, a. cbn. unfold mget. cbn. f_equal; [field|f_equal; field].
Qed.
Print Assumptions C66_bipedal.

(** ** Vertical motion *)
(** C66: one Euler step of a mass under its contact forces and gravity, for any number of contacts. *)
Theorem C66_vertical p t z v u : vp_mass p <> 0 -> exists z' v', vert_f p t [z; v] u = [z'; v'] /\ z' = z + vp_dt p * v /\
  vp_mass p * (v' - v) = vp_dt p * (Rsum (length u) (fun i => nth i u 0) - vp_mass p * (980665 / 100000)).
Proof.
  intros Hm. eexists. eexists. split; [unfold vert_f, vadd, vscale, vbuild; cbn [length seq map vget nth]; reflexivity|]. unfold grav. unfold nlit, nadd, nmul, ndiv, nsub, nzero. cbn [RNum nth].
  split; [ring|]. pose proof (nsum_list u) as E. unfold vget in E. cbn [RNum nzero] in E. rewrite E. field. exact Hm.
Qed.
Print Assumptions C66_vertical.

(** ** Centroidal motion *)
(** cross product of two vectors given by their components *)
Definition xprod (a b : nat -> R) (k : nat) : R :=
  match k with 0 => a 1%nat * b 2%nat - a 2%nat * b 1%nat | 1 => a 2%nat * b 0%nat - a 0%nat * b 2%nat | _ => a 0%nat * b 1%nat - a 1%nat * b 0%nat end.
(** C66: one Euler step of a body under contact forces u_i R_i at the points V_i and gravity: the momentum changes by the total force, and the angular momentum
    about the origin, ang + com x lin, by the total moment about the origin, up to the second-order term of the explicit Euler step. *)
Theorem C66_centroidal p t x u : cent_ok p -> cn_mass p <> 0 -> length x = 9%nat -> length u = mcols (fst (cn_stance p t)) ->
  let n := length u in let m := cn_mass p in let dt := cn_dt p in let x' := cent_f p t x u in
  let com y k := nth k y 0 in let lin y k := nth (3 + k) y 0 in let ang y k := nth (6 + k) y 0 in
  let point i k := mget (fst (cn_stance p t)) k i in let force i k := nth i u 0 * mget (snd (cn_stance p t)) k i in
  let weight k := match k with 2%nat => - (m * (980665 / 100000)) | _ => 0 end in
  let total k := Rsum n (fun i => force i k) + weight k in
  forall k, (k < 3)%nat ->
    m * (com x' k - com x k) = dt * lin x k /\ lin x' k - lin x k = dt * total k /\
    ang x' k + xprod (com x') (lin x') k - (ang x k + xprod (com x) (lin x) k)
      = dt * (Rsum n (fun i => xprod (point i) (force i) k) + xprod (com x) weight k) + dt * dt / m * xprod (lin x) total k.
Proof.
  intros OK Hm Hx Hu n m dt x' com lin ang point force weight total k Hk.
  assert (C : forall k, (k < 3)%nat -> com x' k = com x k + dt * (lin x k / m)).
  { intros j Hj. unfold com, x', lin, dt, m. rewrite (cent_f_get p OK) by lia. unfold cent_row. destruct (Nat.ltb_spec j 3); [reflexivity|lia]. }
  assert (Q : forall k, (k < 3)%nat -> lin x' k = lin x k + dt * total k).
  { intros j Hj. unfold lin, x', total, dt. rewrite (cent_f_get p OK) by lia. unfold cent_row. destruct (Nat.ltb_spec (3 + j) 3); [lia|]. destruct (Nat.ltb_spec (3 + j) 6); [|lia].
    f_equal. f_equal. replace (3 + j - 3)%nat with j by lia. unfold Rminus. f_equal.
    - unfold n. rewrite Hu. apply Rsum_ext. intros i _. unfold force. ring.
    - unfold weight, m. destruct j as [|[|[|]]]; try lia; cbn; lra. }
  assert (A : ang x' k = ang x k + dt * (Rsum n (fun i => xprod (point i) (force i) k) - xprod (com x) (fun j => Rsum n (fun i => force i j)) k)).
  { unfold ang, x', dt. rewrite (cent_f_get p OK) by lia. unfold cent_row. destruct (Nat.ltb_spec (6 + k) 3); [lia|]. destruct (Nat.ltb_spec (6 + k) 6); [lia|]. f_equal. f_equal.
    replace (6 + k - 6)%nat with k by lia. unfold n. rewrite Hu.
    rewrite (Rsum_ext _ _ (fun i => xprod (point i) (force i) k - xprod (com x) (force i) k)).
    - rewrite Rsum_minus. f_equal. unfold xprod. destruct k as [|[|[|]]]; try lia; rewrite Rsum_minus, !Rsum_scal; reflexivity.
    - intros i _. rewrite (mom_get p OK) by exact Hk. unfold mom, xprod, point, force, com. destruct k as [|[|[|]]]; try lia; ring. }
  split; [rewrite C by exact Hk; unfold m; field; exact Hm|]. split; [rewrite Q by exact Hk; ring|]. rewrite A.
  pose proof (C 0%nat ltac:(lia)) as C0. pose proof (C 1%nat ltac:(lia)) as C1. pose proof (C 2%nat ltac:(lia)) as C2.
  pose proof (Q 0%nat ltac:(lia)) as Q0. pose proof (Q 1%nat ltac:(lia)) as Q1. pose proof (Q 2%nat ltac:(lia)) as Q2.
  set (Mo := Rsum n (fun i => xprod (point i) (force i) k)). clearbody Mo. clear A. unfold xprod. unfold total in *. unfold weight in *. destruct k as [|[|[|]]]; try lia; rewrite ?C0, ?C1, ?C2, ?Q0, ?Q1, ?Q2; unfold m; field; exact Hm.
Qed.
Print Assumptions C66_centroidal.
(** Two contacts left and right of the centre of mass, pushing with 3 and 1: the body starts to turn about the y axis. *)
Example C66_centroidal_nonvacuous : let x := [0; 0; 1; 0; 0; 0; 0; 0; 0] in let u := [3; 1] in let x' := cent_f cent_two 0 x u in
  cent_ok cent_two /\ cn_mass cent_two <> 0 /\ length u = mcols (fst (cn_stance cent_two 0)) /\
  nth 7 x' 0 + (nth 2 x' 0 * nth 3 x' 0 - nth 0 x' 0 * nth 5 x' 0) <> 0.
Proof.
  intros x u x'. split; [constructor; reflexivity|]. split; [cbn; lra|]. split; [reflexivity|]. unfold x', x, u. cbn. unfold vget. cbn. lra.
Qed.
