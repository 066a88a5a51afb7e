(** C69: on convex problems a successful FMPC run is nearly optimal. *)
From Coq Require Import Reals Lra Psatz.
From Verif Require Import Prelude Scalar LinAlg RLin DDP Fmpc FmpcProofs FmpcStep FmpcSpec FmpcReal FmpcConvex P_FmpcReal P_FmpcNewton P_FmpcAffine ExDDP ExFmpc ExQPR.
Local Open Scope R_scope.

Lemma px v i x : nth_error (v_x v) i = Some x -> plan_x v i = x.
Proof. intros H. apply (nth_error_nth _ _ [] H). Qed.
Lemma pu v i u : nth_error (v_u v) i = Some u -> plan_u v i = u.
Proof. intros H. apply (nth_error_nth _ _ [] H). Qed.

(** ** Approximate KKT points *)
Section Points.
  Variables (pb : fproblem R) (D : derivs R) (t0 : R) (x0 : vec R) (N : nat).
  Notation dt := (pb_dt (fp_dp pb)).
  (** The plan of an approximate KKT point violates every constraint by at most [e]. *)
  Theorem C69_feasible v e : length x0 = pb_nx (fp_dp pb) -> whole pb t0 N v -> approx_kkt pb D t0 x0 v N e ->
    nearly_feasible pb t0 x0 N e (plan_x v) (plan_u v).
  Proof.
    intros Hx0 (W1 & _ & (xi & Ei)) K. constructor.
    - intros j Hj. destruct (ak_init _ _ _ _ _ _ _ K xi Ei) as (_ & B). rewrite (px v 0 xi Ei). apply B. lia.
    - intros i j Hi Hj. destruct (W1 i Hi) as (x & u & l & s & n & x' & l' & St & Lg).
      destruct (ak_stage _ _ _ _ _ _ _ K i x u l s n x' l' Hi St) as (K1 & _). destruct St as (S1 & S2 & _ & _ & _ & S6 & _).
      rewrite (px _ _ _ S1), (pu _ _ _ S2), (px _ _ _ S6). apply K1, Hj.
    - intros i j Hi. destruct (W1 i Hi) as (x & u & l & s & n & x' & l' & St & Lg).
      destruct (ak_stage _ _ _ _ _ _ _ K i x u l s n x' l' Hi St) as (_ & K2 & _ & _ & K5). destruct St as (S1 & S2 & _).
      rewrite (px _ _ _ S1), (pu _ _ _ S2). cbn zeta in *. rewrite Lg. intros Hj.
      pose proof (K2 j Hj) as B. apply Rabs_le_inv in B. destruct (K5 j Hj). lra.
  Qed.
  (** An exact KKT point of a convex problem is feasible and no feasible plan is cheaper. *)
  Theorem C69_exact v m y w : 0 <= dt -> 0 <= m -> length x0 = pb_nx (fp_dp pb) -> whole pb t0 N v -> approx_kkt pb D t0 x0 v N 0 ->
    convex_at pb D t0 N m (plan_x v) (plan_u v) -> plan_dims pb N (plan_u v) y w -> nearly_feasible pb t0 x0 N 0 y w ->
    nearly_feasible pb t0 x0 N 0 (plan_x v) (plan_u v) /\
    plan_cost pb t0 N (plan_x v) (plan_u v) + dt * (m / 2) * input_dist2 N (plan_u v) w <= plan_cost pb t0 N y w.
  Proof.
    intros Hdt Hm Hx0 W K C PD F. split; [apply C69_feasible; assumption|].
    pose proof (gap pb D t0 x0 N v 0 0 m y w Hdt Hx0 W K C PD F). lra.
  Qed.
End Points.
Print Assumptions C69_feasible.
Print Assumptions C69_exact.

(** ** Runs *)
Section Runs.
  Variables (LO : linops R) (pb : fproblem R) (cf : fconfig R) (jk : fjunk R) (D : derivs R).
  Variables (fuel : nat) (t0 : R) (x0 : vec R) (v0 : var R) (s s' : fsolver R) (m : R).
  Notation N := (Nf cf).
  Notation dt := (pb_dt (fp_dp pb)).
  Notation x := (plan_x (f_var s')).
  Notation u := (plan_u (f_var s')).
  Hypothesis CM : computes pb D.
  Hypothesis Hdt : 0 <= dt.
  Hypothesis Hx0 : length x0 = pb_nx (fp_dp pb).
  Hypothesis H : fmpc_solve LO pb cf jk fuel t0 x0 v0 s = Ok Succeeded s'.
  Hypothesis C : convex_at pb D t0 N m x u.
  (** The returned plan costs at most a multiple of the threshold more than any other plan, feasible up to [d]. *)
  Theorem C69_gap d y w : plan_dims pb N u y w -> nearly_feasible pb t0 x0 N d y w ->
    nearly_feasible pb t0 x0 N (fc_kkt cf) x u /\
    plan_cost pb t0 N x u + dt * (m / 2) * input_dist2 N u w <=
      plan_cost pb t0 N y w + fc_kkt cf * (plan_dist1 pb N x u y w + inequalities N (f_var s')) + (fc_kkt cf + d) * multiplier_size pb N (f_var s').
  Proof.
    intros PD F. pose proof (success_whole LO pb cf jk D fuel t0 x0 v0 s s' CM H) as W.
    destruct (C26_success LO pb cf jk fuel t0 x0 v0 s D s' CM H) as (_ & K). split; [apply (C69_feasible pb D); assumption|].
    apply (gap pb D t0 x0 N (f_var s') (fc_kkt cf) d m y w); assumption.
  Qed.
  (** With a strongly convex cost the returned inputs are close to the inputs of every exact KKT point. *)
  Theorem C69_distance vo : whole pb t0 N vo -> approx_kkt pb D t0 x0 vo N 0 -> convex_at pb D t0 N m (plan_x vo) (plan_u vo) ->
    plan_dims pb N u (plan_x vo) (plan_u vo) -> plan_dims pb N (plan_u vo) x u ->
    dt * m * input_dist2 N u (plan_u vo) <=
      fc_kkt cf * (plan_dist1 pb N x u (plan_x vo) (plan_u vo) + inequalities N (f_var s') + multiplier_size pb N (f_var s') + multiplier_size pb N vo).
  Proof.
    intros Wo Ko Co P1 P2. pose proof (C69_feasible pb D t0 x0 N vo 0 Hx0 Wo Ko) as Fo.
    destruct (C69_gap 0 (plan_x vo) (plan_u vo) P1 Fo) as (F & G).
    pose proof (gap pb D t0 x0 N vo 0 (fc_kkt cf) m x u Hdt Hx0 Wo Ko Co P2 F) as G2.
    assert (Q : input_dist2 N (plan_u vo) u = input_dist2 N u (plan_u vo)).
    { apply Rsum_ext. intros i Hi. destruct P2 as (_ & P2). rewrite (P2 i Hi). apply Rsum_ext. intros k _. ring. }
    rewrite Q in G2. lra.
  Qed.
End Runs.
Print Assumptions C69_gap.
Print Assumptions C69_distance.

(** ** A concrete case
    Two steps of x' = x + u with u <= 1 from x0 = 1e-5. The run of C26_nonvacuous returns the zero plan. *)
Lemma ex_convex v (x0 : R) : (forall i, (i < 2)%nat -> length (plan_u v i) = 1%nat) -> convex_at ex_fp exr_D x0 2 1 (plan_x v) (plan_u v).
Proof.
  intros Lu. constructor.
  - intros i y w Hi Ly Lw. specialize (Lu i Hi). rewrite Lu in Lw. cbn zeta. rewrite Lu.
    set (x := plan_x v i) in *. set (u := plan_u v i) in *. clearbody x u. 
    destruct u as [|u [|? ?]]; try discriminate. destruct w as [|w [|? ?]]; try discriminate. cbn in Ly. destruct y as [|y [|? ?]]; try discriminate.
    unfold slope, dist2. split; [cbn; pose proof (Rle_0_sqr (y - vget x 0)) as Q; unfold Rsqr in Q; nra|]. split; [intros [|j] Hj; [cbn; lra|cbn in Hj; lia]|]. split; [reflexivity|]. intros [|j] Hj; [cbn; lra|cbn in Hj; lia].
  - intros y Ly. set (x := plan_x v 2). clearbody x. cbn in Ly. destruct y as [|y [|? ?]]; try discriminate. unfold slope. cbn. pose proof (Rle_0_sqr (y - vget x 0)) as Q; unfold Rsqr in Q; nra.
Qed.
(** The exact solution for the measured state [a]. *)
Definition ex_opt (a : R) : var R := {| v_hor := 2; v_x := [[a]; [11 * a / 32]; [a / 32]]; v_u := [[- (21 * a / 32)]; [- (10 * a / 32)]];
  v_l := [[53 * a / 320]; [21 * a / 320]; [a / 32]]; v_s := [[1 + 21 * a / 32]; [1 + 10 * a / 32]]; v_n := [[0]; [0]] |}.
Lemma ex_opt_kkt a : 0 <= a -> whole ex_fp 0 2 (ex_opt a) /\ approx_kkt ex_fp exr_D 0 [a] (ex_opt a) 2 0.
Proof.
  intros Ha. assert (Z : forall b, b = 0 -> Rabs b <= 0) by (intros b ->; rewrite Rabs_R0; lra). split.
  - split; [|split].
    + intros [|[|i]] Hi; [| |lia]; do 7 eexists; (split; [unfold stage; cbn; repeat split; reflexivity|reflexivity]).
    + do 2 eexists. split; reflexivity.
    + eexists. reflexivity.
  - constructor.
    + intros x E. injection E as <-. split; [reflexivity|]. intros [|j] Hj; [|cbn in Hj; lia]. apply Z. cbn. lra.
    + intros i x u l s n x' l' Hi (S1 & S2 & S3 & S4 & S5 & S6 & S7). destruct i as [|[|i]]; [| |lia]; cbn in S1, S2, S3, S4, S5, S6, S7;
      injection S1 as <-; injection S2 as <-; injection S3 as <-; injection S4 as <-; injection S5 as <-; injection S6 as <-; injection S7 as <-; cbn zeta;
      
      (split; [|split; [|split; [|split]]]); (intros [|j] Hj; [|cbn in Hj; lia]); try (apply Z; cbn; lra); cbn; lra.
    + intros x l E1 E2 [|j] Hj; [|cbn in Hj; lia]. cbn in E1, E2. injection E1 as <-. injection E2 as <-. apply Z. cbn. lra.
Qed.
Example C69_nonvacuous : let a := 1 / 100000 in let vo := ex_opt a in exists s',
  exr_run = Ok Succeeded s' /\ convex_at ex_fp exr_D 0 2 1 (plan_x (f_var s')) (plan_u (f_var s')) /\
  whole ex_fp 0 2 vo /\ approx_kkt ex_fp exr_D 0 [a] vo 2 0 /\ convex_at ex_fp exr_D 0 2 1 (plan_x vo) (plan_u vo) /\
  plan_dims ex_fp 2 (plan_u (f_var s')) (plan_x vo) (plan_u vo) /\ plan_dims ex_fp 2 (plan_u vo) (plan_x (f_var s')) (plan_u (f_var s')) /\
  nearly_feasible ex_fp 0 [a] 2 0 (plan_x vo) (plan_u vo) /\
  (* the conclusions *)
  0 < input_dist2 2 (plan_u (f_var s')) (plan_u vo) /\
  1 / 10 * 1 * input_dist2 2 (plan_u (f_var s')) (plan_u vo) <= 1 / 10000 * (plan_dist1 ex_fp 2 (plan_x (f_var s')) (plan_u (f_var s')) (plan_x vo) (plan_u vo)
    + inequalities 2 (f_var s') + multiplier_size ex_fp 2 (f_var s') + multiplier_size ex_fp 2 vo).
Proof.
  intros a vo. destruct exr_run_ok as (s' & H & Hv). exists s'. split; [exact H|].
  assert (L : forall i, (i < 2)%nat -> length (plan_u (f_var s') i) = 1%nat) by (rewrite Hv; intros [|[|i]] Hi; [reflexivity|reflexivity|lia]).
  assert (Lx : forall i, (i <= 2)%nat -> length (plan_x (f_var s') i) = 1%nat) by (rewrite Hv; intros [|[|[|i]]] Hi; [reflexivity|reflexivity|reflexivity|lia]).
  assert (Lo : forall i, (i < 2)%nat -> length (plan_u vo i) = 1%nat) by (intros [|[|i]] Hi; [reflexivity|reflexivity|lia]).
  assert (Lxo : forall i, (i <= 2)%nat -> length (plan_x vo i) = 1%nat) by (intros [|[|[|i]]] Hi; [reflexivity|reflexivity|reflexivity|lia]).
  assert (C1 := ex_convex (f_var s') 0 L). assert (C2 := ex_convex vo 0 Lo).
  assert (P1 : plan_dims ex_fp 2 (plan_u (f_var s')) (plan_x vo) (plan_u vo)) by (split; [exact Lxo|intros i Hi; rewrite (L i Hi), (Lo i Hi); reflexivity]).
  assert (P2 : plan_dims ex_fp 2 (plan_u vo) (plan_x (f_var s')) (plan_u (f_var s'))) by (split; [exact Lx|intros i Hi; rewrite (L i Hi), (Lo i Hi); reflexivity]).
  destruct (ex_opt_kkt a) as (Wo & Ko); [unfold a; lra|].
  pose proof (C69_feasible ex_fp exr_D 0 [a] 2 vo 0 eq_refl Wo Ko) as Fo.
  do 7 (split; [assumption|]). split.
  - rewrite Hv. unfold input_dist2, dist2, a, vo. cbn. unfold plan_u. cbn. unfold a. lra.
  - pose proof (C69_distance div_lin ex_fp exr_cf (ex_fjunk 7) exr_D 40 0 [a] exr_var ex_fs0 s' 1) as Q.
    assert (CM : computes ex_fp exr_D) by (constructor; intros; reflexivity).
    specialize (Q CM ltac:(cbn; lra) eq_refl H C1 vo Wo Ko C2 P1 P2). exact Q.
Qed.
