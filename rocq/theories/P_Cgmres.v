(** C44, C45: the state and costate sweeps of calcDhDuList over the reals. *)
From Coq Require Import Reals Lra.
From Verif Require Import Prelude Scalar LinAlg RLin GmresSpec GmresCor Cgmres CgmresProofs P_Ode CgmresGrad.
Local Open Scope R_scope.

(** Step of the horizon grid at time t: T (1 - exp(- r t)) / N. *)
Definition grid_step (cf : cg_conf R) (N : nat) (t : R) : R :=
  cc_horizon cf * (1 - exp (- (cc_ratio cf * t))) / INR N.

Lemma horizon_step_R cf N t : cc_num cf = Z.of_nat N -> horizon_step cf t = grid_step cf N t.
Proof.
  intros E. unfold horizon_step, grid_step, nofZ. rewrite E. numR. rewrite <- INR_IZR_INZ. replace (INR N / 1) with (INR N) by field.
  replace (- cc_ratio cf * t) with (- (cc_ratio cf * t)) by ring. reflexivity.
Qed.

(** C44: state i is predicted at t + i h, the terminal costate taken at t + N h, the backward sweep visits the same times,
    and DhDu_i is evaluated at t + i h with x_i, u_i and the costate i + 1. *)
Theorem C44_time_grid pb cf od t x us N : length us = N -> cc_num cf = Z.of_nat N ->
  let h := grid_step cf N t in
  let '(xs, ls, ds) := calc_all pb cf od t x us in
  let X i := nth i xs [] in let U i := nth i us [] in let Lm i := nth i ls [] in let D i := nth i ds [] in
  length xs = (N + 1)%nat /\ length ls = (N + 1)%nat /\ length ds = N /\
  X 0%nat = x /\
  (forall i, (i < N)%nat -> X (i + 1)%nat = od (cp_f pb) (t + INR i * h) (X i) (U i) h) /\
  Lm N = cp_dphi pb (t + INR N * h) (X N) /\
  (forall i, (i < N)%nat -> Lm i = od (cp_costate pb) (t + INR (i + 1) * h) (Lm (i + 1)%nat) (X i ++ U i) (- h)) /\
  (forall i, (i < N)%nat -> D i = cp_dhdu pb (t + INR i * h) (X i) (U i) (Lm (i + 1)%nat)).
Proof.
  intros <- E. cbv zeta. unfold calc_all. rewrite (horizon_step_R cf (length us) t E).
  pose proof (sweep_spec pb od (grid_step cf (length us) t) t x us) as H. cbv zeta in H.
  destruct (forward pb od _ t x us) as [xs tau]. destruct (backward _ _ _ _ _ _ _ _) as [ls ds].
  destruct H as ((L1 & L2 & L3) & H). split; [exact L1|]. split; [exact L2|]. split; [exact L3|exact H].
Qed.
Print Assumptions C44_time_grid.

Lemma columns_curves m : forall N W dW, curve (N * m) W dW ->
  Forall2 (curve m) (map (fun i s => firstn m (skipn (i * m) (W s))) (seq 0 N)) (columns m N dW).
Proof.
  intros N W dW (L1 & L2 & D). unfold columns. 
  assert (H : forall k a, (a + k <= N)%nat -> Forall2 (curve m) (map (fun i s => firstn m (skipn (i * m) (W s))) (seq a k))
    (map (fun i => firstn m (skipn (i * m) dW)) (seq a k))).
  { induction k as [|k IH]; intros a Ha; [constructor|]. cbn [seq map]. constructor; [|apply IH; lia].
    assert (Hb : (a * m + m <= N * m)%nat) by nia.
    split; [intros s; rewrite firstn_length, skipn_length, L1; lia|]. split; [rewrite firstn_length, skipn_length, L2; lia|].
    assert (Nf : forall l j, (j < m)%nat -> nth j (firstn m (skipn (a * m) l)) 0 = nth (a * m + j) l 0).
    { clear. intros l j Hj. rewrite <- (firstn_skipn (a * m) l) at 2. destruct (Nat.le_gt_cases (a * m) (length l)) as [H|H].
      - rewrite app_nth2 by (rewrite firstn_length; lia). rewrite firstn_length. replace (a * m + j - Nat.min (a * m) (length l))%nat with j by lia.
        rewrite <- (firstn_skipn m (skipn (a * m) l)) at 2. destruct (Nat.lt_ge_cases j (length (firstn m (skipn (a * m) l)))) as [H'|H'].
        + rewrite app_nth1 by exact H'. reflexivity.
        + rewrite nth_overflow by exact H'. symmetry. apply nth_overflow. rewrite app_length, (skipn_length m). rewrite firstn_length in H'. rewrite firstn_length. lia.
      - rewrite skipn_all2 by lia. rewrite firstn_nil, app_nil_r. rewrite !nth_overflow; [reflexivity|rewrite firstn_length; lia|cbn; lia]. }
    intros j Hj. rewrite Nf by exact Hj. apply (derivable_pt_lim_ext (fun s => nth (a * m + j) (W s) 0)); [intros s; rewrite Nf by exact Hj; reflexivity|].
    apply D. lia. }
  apply (H N 0%nat). lia.
Qed.
Lemma concat_columns m N : forall U, length U = (N * m)%nat -> concat (columns m N U) = U.
Proof.
  unfold columns. induction N as [|N IH]; intros U HU; [destruct U; [reflexivity|discriminate]|]. cbn [seq map concat].
  rewrite <- seq_shift, map_map. rewrite Nat.mul_0_l, skipn_O. transitivity (firstn m U ++ skipn m U); [|apply firstn_skipn]. f_equal.
  transitivity (concat (map (fun i => firstn m (skipn (i * m) (skipn m U))) (seq 0 N))); [|apply IH; rewrite skipn_length; lia]. f_equal. apply map_ext. intros i. rewrite skipn_skipn. f_equal. f_equal. lia.
Qed.
Lemma columns_concat m N us : length us = N -> (forall u, In u us -> length u = m) -> columns m N (concat us) = us.
Proof.
  intros <-. unfold columns. induction us as [|u us IH]; intros H; [reflexivity|]. cbn [length seq map concat].
  assert (Hu : length u = m) by (apply H; left; reflexivity). f_equal.
  - rewrite Nat.mul_0_l, skipn_O, firstn_app, Hu, Nat.sub_diag, firstn_O, app_nil_r. apply firstn_all2. lia.
  - rewrite <- seq_shift, map_map. rewrite <- IH at 2 by (intros; apply H; right; assumption). apply map_ext. intros i.
    rewrite skipn_app, Hu. rewrite skipn_all2 by lia. cbn [app]. f_equal. f_equal. lia.
Qed.

Lemma ldot_comm0 l k : ldot l (repeat 0 k) = 0.
Proof. revert l. induction k as [|k IH]; intros [|b l]; try reflexivity. unfold ldot in *. cbn. rewrite IH. ring. Qed.
Lemma const_curve n x : length x = n -> curve n (fun _ => x) (repeat 0 n).
Proof. intros H. split; [intros _; exact H|]. split; [apply repeat_length|]. intros i _. rewrite nth_repeat. apply derivable_pt_lim_const. Qed.
Lemma grads_lens pb f L phi h (HT : true_callbacks pb f L phi) : forall us x, length x = cp_dim_x pb -> (forall u, In u us -> length u = cp_dim_uc pb) ->
  length (concat (grads pb f h x us)) = (length us * cp_dim_uc pb)%nat.
Proof.
  induction us as [|u us IH]; intros x Hx Hu; [reflexivity|]. cbn [grads concat length]. rewrite app_length, IH.
  - cbn [Nat.mul]. f_equal. pose proof HT as (_ & _ & _ & H4). apply (H4 0); [exact Hx|apply Hu; left; reflexivity|]. apply (lam_len pb f L phi h HT); [apply (next_len pb f L phi h HT); auto; apply Hu; left; reflexivity|].
    intros; apply Hu; right; assumption.
  - apply (next_len pb f L phi h HT); auto. apply Hu. left. reflexivity.
  - intros; apply Hu; right; assumption.
Qed.

(** C45: for problems whose callbacks are the time-independent derivatives of the Hamiltonian and of the terminal cost,
    with the Euler integrator, h times the stacked DhDu is the gradient of the discretised cost in the stacked inputs. *)
Theorem C45_exact_gradient pb cf f L phi t x us N : true_callbacks pb f L phi -> length us = N -> cc_num cf = Z.of_nat N ->
  length x = cp_dim_x pb -> (forall u, In u us -> length u = cp_dim_uc pb) ->
  let h := grid_step cf N t in
  gradient (N * cp_dim_uc pb) (fun U => horizon_cost f L phi h x (columns (cp_dim_uc pb) N U)) (concat us)
    (lscal h (concat (calc_dhdu pb cf euler t x us))).
Proof.
  intros HT HN HE Hx Hu h. pose proof (C44_time_grid pb cf euler t x us N HN HE) as H. cbv zeta in H. unfold calc_dhdu.
  destruct (calc_all pb cf euler t x us) as [[xs ls] ds]. destruct H as (L1 & L2 & L3 & H0 & Hxs & HlN & Hls & Hds). cbn [snd].
  fold h in Hxs, HlN, Hls, Hds.
  assert (Ed : ds = grads pb f h x us).
  { subst N. apply (adjoint_unique pb f L phi h HT us xs ls ds t x); auto. }
  rewrite Ed. split; [rewrite lscal_len, (grads_lens pb f L phi h HT), HN by auto; reflexivity|].
  intros W dW C E0. rewrite ldot_lscal_l.
  pose proof (cost_curve pb f L phi h HT _ _ (fun _ => x) (repeat 0 (cp_dim_x pb)) 
    (const_curve (cp_dim_x pb) x Hx)
    (columns_curves (cp_dim_uc pb) N W dW C)) as G.
  cbv beta in G. rewrite map_map in G. cbv beta in G. rewrite concat_columns in G by apply C.
  change (map (fun i : nat => firstn (cp_dim_uc pb) (skipn (i * cp_dim_uc pb) (W 0))) (seq 0 N)) with (columns (cp_dim_uc pb) N (W 0)) in G.
  rewrite E0, columns_concat in G by auto. rewrite ldot_comm0 in G. rewrite Rplus_0_l in G.
  eapply derivable_pt_lim_ext; [|exact G]. intros s. cbv beta. rewrite map_map. reflexivity.
Qed.
Print Assumptions C45_exact_gradient.

(** A nonlinear case: x' = x u, L = u^2, phi = x^2. *)
Definition bil : cg_problem R := {| cp_dim_x := 1; cp_dim_uc := 1; cp_f := fun _ x u => [nth 0 x 0 * nth 0 u 0];
  cp_costate := fun _ l xu => [- (nth 0 l 0 * nth 1 xu 0)]; cp_dphi := fun _ x => [2 * nth 0 x 0];
  cp_dhdu := fun _ x u l => [2 * nth 0 u 0 + nth 0 l 0 * nth 0 x 0]; cp_x0 := [1]; cp_u0 := [1] |}.
Definition bil_f (x u : list R) : list R := [nth 0 x 0 * nth 0 u 0].
Definition bil_L (_ u : list R) : R := nth 0 u 0 * nth 0 u 0.
Definition bil_phi (x : list R) : R := nth 0 x 0 * nth 0 x 0.
Definition bil_conf : cg_conf R := {| cc_sim := 1; cc_horizon := 2; cc_num := 2; cc_ratio := 1; cc_dt := 1; cc_zeta := 1; cc_kmax := 5; cc_delta := 1; cc_dump := 1 |}.
Lemma bil_true : true_callbacks bil bil_f bil_L bil_phi.
Proof.
  split; [reflexivity|]. split; [reflexivity|]. split.
  - intros t x Hx. split; [reflexivity|]. split; [reflexivity|]. intros W dW (L1 & L2 & D) E. cbn [cp_dphi cp_dim_x bil] in *.
    destruct dW as [|d [|]]; try discriminate. pose proof (D 0%nat ltac:(lia)) as D0. cbn [nth] in D0.
    replace (ldot [2 * nth 0 x 0] [d]) with (d * nth 0 (W 0) 0 + nth 0 (W 0) 0 * d) by (rewrite E; unfold ldot; cbn; ring).
    apply (derivable_pt_lim_mult (fun s => nth 0 (W s) 0) (fun s => nth 0 (W s) 0)); exact D0.
  - intros t x u l Hx Hu Hl. cbn [cp_dim_x cp_dim_uc bil] in Hx, Hu, Hl.
    split; [reflexivity|]. split; [reflexivity|]. split; [reflexivity|]. split; [reflexivity|]. split; [reflexivity|].
    intros W dW (L1 & L2 & D) E. cbn [cp_dim_x cp_dim_uc Nat.add bil cp_costate cp_dhdu] in *.
    destruct dW as [|d [|e [|]]]; try discriminate. pose proof (D 0%nat ltac:(lia)) as D0. pose proof (D 1%nat ltac:(lia)) as D1. cbn [nth] in D0, D1.
    destruct x as [|x [|]]; try discriminate. destruct u as [|u [|]]; try discriminate. destruct l as [|l [|]]; try discriminate.
    apply (derivable_pt_lim_ext (fun s => nth 1 (W s) 0 * nth 1 (W s) 0 + l * (nth 0 (W s) 0 * nth 1 (W s) 0))).
    { intros s. specialize (L1 s). destruct (W s) as [|a [|b [|]]]; try discriminate. unfold hamiltonian, bil_L, bil_f, ldot. cbn. ring. }
    replace (ldot _ _) with (e * nth 1 (W 0) 0 + nth 1 (W 0) 0 * e + l * (d * nth 1 (W 0) 0 + nth 0 (W 0) 0 * e)).
    2:{ rewrite E. unfold ldot. cbn. ring. }
    apply (derivable_pt_lim_plus (fun s => nth 1 (W s) 0 * nth 1 (W s) 0)).
    + apply (derivable_pt_lim_mult (fun s => nth 1 (W s) 0) (fun s => nth 1 (W s) 0)); exact D1.
    + apply (derivable_pt_lim_scal (fun s => nth 0 (W s) 0 * nth 1 (W s) 0)).
      apply (derivable_pt_lim_mult (fun s => nth 0 (W s) 0) (fun s => nth 1 (W s) 0)); assumption.
Qed.
Example C45_nonvacuous : gradient 2 (fun U => horizon_cost bil_f bil_L bil_phi (grid_step bil_conf 2 1) [3] (columns 1 2 U)) [1; 2]
  (lscal (grid_step bil_conf 2 1) (concat (calc_dhdu bil bil_conf euler 1 [3] [[1]; [2]]))) /\ 0 < grid_step bil_conf 2 1.
Proof.
  split; [apply (C45_exact_gradient bil bil_conf bil_f bil_L bil_phi 1 [3] [[1]; [2]] 2 bil_true); auto; intros u [<-|[<-|[]]]; reflexivity|].
  unfold grid_step. cbn. pose proof (exp_increasing (- (1 * 1)) 0 ltac:(lra)) as H. rewrite exp_0 in H. lra.
Qed.

(** Time-dependent problems. *)
Fixpoint horizon_cost_t (f : R -> list R -> list R -> list R) (L : R -> list R -> list R -> R) (phi : R -> list R -> R) (h t : R) (x : list R)
    (us : list (list R)) : R :=
  match us with
  | [] => phi t x
  | u :: us' => h * L t x u + horizon_cost_t f L phi h (t + h) (ladd x (lscal h (f t x u))) us'
  end.
Definition true_callbacks_t (pb : cg_problem R) f L phi : Prop :=
  let n := cp_dim_x pb in let m := cp_dim_uc pb in
  (forall t x u, length x = n -> length u = m -> length (f t x u) = n /\ cp_f pb t x u = f t x u) /\
  (forall t x, length x = n -> gradient n (phi t) x (cp_dphi pb t x)) /\
  (forall t x u l, length x = n -> length u = m -> length l = n ->
     length (cp_costate pb t l (x ++ u)) = n /\ length (cp_dhdu pb t x u l) = m /\
     gradient (n + m) (hamiltonian n (f t) (L t) l) (x ++ u) (lscal (-1) (cp_costate pb t l (x ++ u)) ++ cp_dhdu pb t x u l)).

(** x' = t x + u, L = 0, phi = x. *)
Definition tv : cg_problem R := {| cp_dim_x := 1; cp_dim_uc := 1; cp_f := fun t x u => [t * nth 0 x 0 + nth 0 u 0];
  cp_costate := fun t l xu => [- (t * nth 0 l 0)]; cp_dphi := fun _ x => [1]; cp_dhdu := fun _ x u l => [nth 0 l 0]; cp_x0 := [0]; cp_u0 := [0] |}.
Definition tv_f (t : R) (x u : list R) : list R := [t * nth 0 x 0 + nth 0 u 0].

(** C45 fails for time-dependent problems: the costate sweep uses the derivative at the end of each interval. *)
Theorem C45_time_varying_refuted : exists pb cf f L phi t x us, true_callbacks_t pb f L phi /\
  cc_num cf = Z.of_nat (length us) /\ length x = cp_dim_x pb /\ (forall u, In u us -> length u = cp_dim_uc pb) /\
  let N := length us in let h := grid_step cf N t in
  ~ gradient (N * cp_dim_uc pb) (fun U => horizon_cost_t f L phi h t x (columns (cp_dim_uc pb) N U)) (concat us)
      (lscal h (concat (calc_dhdu pb cf euler t x us))).
Proof.
  exists tv, bil_conf, tv_f, (fun _ _ _ => 0), (fun _ x => nth 0 x 0), 1, [0], [[0]; [0]].
  split; [|split; [reflexivity|split; [reflexivity|split; [intros u [<-|[<-|[]]]; reflexivity|]]]].
  - split; [intros; split; reflexivity|]. split.
    + intros t x Hx. split; [reflexivity|]. intros W dW (L1 & L2 & D) E. cbn [cp_dphi cp_dim_x tv] in *.
      destruct dW as [|d [|]]; try discriminate. pose proof (D 0%nat ltac:(lia)) as D0. cbn [nth] in D0.
      replace (ldot [1] [d]) with d by (unfold ldot; cbn; ring). exact D0.
    + intros t x u l Hx Hu Hl. cbn [cp_dim_x cp_dim_uc tv] in Hx, Hu, Hl. split; [reflexivity|]. split; [reflexivity|]. split; [reflexivity|].
      intros W dW (L1 & L2 & D) E. cbn [cp_dim_x cp_dim_uc Nat.add tv cp_costate cp_dhdu] in *.
      destruct dW as [|d [|e [|]]]; try discriminate. pose proof (D 0%nat ltac:(lia)) as D0. pose proof (D 1%nat ltac:(lia)) as D1. cbn [nth] in D0, D1.
      destruct l as [|l [|]]; try discriminate.
      apply (derivable_pt_lim_ext (fun s => l * (t * nth 0 (W s) 0 + nth 1 (W s) 0))).
      { intros s. specialize (L1 s). destruct (W s) as [|a [|b [|]]]; try discriminate. unfold hamiltonian, tv_f, ldot. cbn. ring. }
      replace (ldot _ _) with (l * (t * d + e)) by (unfold ldot; cbn; ring).
      apply (derivable_pt_lim_scal (fun s => t * nth 0 (W s) 0 + nth 1 (W s) 0)). apply (derivable_pt_lim_plus (fun s => t * nth 0 (W s) 0)); [|exact D1].
      apply (derivable_pt_lim_scal (fun s => nth 0 (W s) 0)). exact D0.
  - cbv zeta. cbn [length]. set (h := grid_step bil_conf 2 1). intros (_ & G).
    assert (Hh : 0 < h). { unfold h, grid_step. cbn. pose proof (exp_increasing (- (1 * 1)) 0 ltac:(lra)) as H. rewrite exp_0 in H. lra. }
    assert (D1 : nth 0 (concat (calc_dhdu tv bil_conf euler 1 [0] [[0]; [0]])) 0 = 1 + h * (1 + 2 * h)).
    { pose proof (C44_time_grid tv bil_conf euler 1 [0] [[0]; [0]] 2 eq_refl eq_refl) as H. cbv zeta in H. unfold calc_dhdu. fold h in H.
      destruct (calc_all tv bil_conf euler 1 [0] [[0]; [0]]) as [[xs ls] ds]. destruct H as (_ & L2 & L3 & _ & _ & E2 & El & Ed). cbn [snd].
      destruct ds as [|d0 [|d1 [|]]]; try discriminate L3. destruct ls as [|l0 [|l1 [|l2 [|]]]]; try discriminate L2.
      specialize (Ed 0%nat ltac:(lia)). specialize (El 1%nat ltac:(lia)). cbn [nth Nat.add cp_dphi cp_dhdu cp_costate tv] in E2, Ed, El.
      subst l2 l1 d0. unfold euler, vadd, vscale, vbuild, vget. cbn. ring. }
    set (W := fun s : R => [s; 0] : list R).
    assert (C : curve 2 W [1; 0]).
    { split; [reflexivity|]. split; [reflexivity|]. intros [|[|i]] Hi; cbn [nth W]; [apply derivable_pt_lim_id|apply derivable_pt_lim_const|lia]. }
    specialize (G W [1; 0] C eq_refl).
    destruct (concat (calc_dhdu tv bil_conf euler 1 [0] [[0]; [0]])) as [|a r]; cbn [nth] in D1; [|].
    { nra. }
    assert (E : ldot (lscal h (a :: r)) [1; 0] = h * (1 + h * (1 + 2 * h))).
    { rewrite ldot_lscal_l, <- D1. destruct r as [|? []]; unfold ldot; cbn; ring. }
    rewrite E in G.
    assert (G' : derivable_pt_lim (fun s => horizon_cost_t tv_f (fun _ _ _ => 0) (fun _ x => nth 0 x 0) h 1 [0] (columns 1 2 (W s))) 0 (h * (1 + h * (1 + h)))).
    { apply (derivable_pt_lim_ext (fun s => (h * (1 + h * (1 + h))) * s)).
      - intros s. unfold W, columns, tv_f, ladd, lscal. cbn. ring.
      - pose proof (derivable_pt_lim_scal (fun s => s) (h * (1 + h * (1 + h))) 0 1 (derivable_pt_lim_id 0)) as H. rewrite Rmult_1_r in H. exact H. }
    pose proof (uniqueness_limite _ _ _ _ G G') as Eq. pose proof (Rmult_lt_0_compat _ _ Hh (Rmult_lt_0_compat _ _ Hh Hh)) as H3. nra.
Qed.
Print Assumptions C45_time_varying_refuted.
