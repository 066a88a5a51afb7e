(** Absence of undefined behaviour in FmpcSolver::solve, for every scalar type. *)
From Verif Require Import Prelude Scalar LinAlg RLin DDP DDPSafe Fmpc FmpcProofs FmpcStep FmpcSpec FmpcNewton P_FmpcRun.

Local Open Scope nat_scope.

Lemma some_inj' {A} (a b : A) : Some a = Some b -> a = b.
Proof. congruence. Qed.
Lemma in_firstn {A} n (l : list A) a : In a (firstn n l) -> In a l.
Proof. intros H. rewrite <- (firstn_skipn n l). apply in_or_app. left. exact H. Qed.

Section Dims.
  Context {T : Type} {N : Num T}.
  (** Inequality dimension at time [t]. *)
  Definition ng_of (pb : fproblem T) (t : T) : nat :=
    match fp_fixed_ng pb with Some n => n | None => Z.to_nat (fp_ineqDim pb t) end.
  (** Callbacks return values of the right size when given arguments of the right size. *)
  Record well_dimensioned_f (pb : fproblem T) : Prop := {
    wf_dp : well_dimensioned (fp_dp pb);
    wf_g : forall t x u, length x = pb_nx (fp_dp pb) -> length u = nu_of (fp_dp pb) t -> length (fp_g pb t x u) = ng_of pb t;
    wf_gd : forall t x u C D, length x = pb_nx (fp_dp pb) -> length u = nu_of (fp_dp pb) t ->
      mdimb (ng_of pb t) (pb_nx (fp_dp pb)) C = true -> mdimb (ng_of pb t) (nu_of (fp_dp pb) t) D = true ->
      let r := fp_gDeriv pb t x u (C, D) in
      mdimb (ng_of pb t) (pb_nx (fp_dp pb)) (fst r) = true /\ mdimb (ng_of pb t) (nu_of (fp_dp pb) t) (snd r) = true;
    (* inputDim(t) and ineqDim(t) are nonnegative and return the compile-time dimension if there is one *)
    wf_nu : forall t, pb_inputDim (fp_dp pb) t = Z.of_nat (nu_of (fp_dp pb) t);
    wf_ng : forall t, fp_ineqDim pb t = Z.of_nat (ng_of pb t)
  }.
  (** Results of the decompositions have the size of the right-hand side. *)
  Definition lin_dims (LO : linops T) : Prop :=
    forall n G, mdimb n n G = true ->
      (forall b, length b = n -> length (Fmpc.ld_vec LO G b) = n /\ length (lu_vec LO G b) = n) /\
      (forall m B, mdimb n m B = true -> mdimb n m (Fmpc.ld_mat LO G B) = true /\ mdimb n m (lu_mat LO G B) = true).
  (** The storage of a Coefficient (FmpcSolver.hpp:98-120) as far as the callbacks see it. *)
  Definition buf_ok (nx nu ng : nat) (c : coeff T) : Prop :=
    mdimb nx nx (c_A c) = true /\ mdimb nx nu (c_B c) = true /\ mdimb ng nx (c_C c) = true /\ mdimb ng nu (c_D c) = true /\
    length (c_Lx c) = nx /\ length (c_Lu c) = nu /\ mdimb nx nx (c_Lxx c) = true /\ mdimb nu nu (c_Luu c) = true /\ mdimb nx nu (c_Lxu c) = true.
  (** The terminal Coefficient(state_dim) (122-131); with compile-time dimensions every matrix has its full size. *)
  Definition end_ok (pb : fproblem T) (c : coeff T) : Prop :=
    length (c_Lx c) = pb_nx (fp_dp pb) /\ mdimb (pb_nx (fp_dp pb)) (pb_nx (fp_dp pb)) (c_Lxx c) = true /\
    forall nu ng, pb_fixed_nu (fp_dp pb) = Some nu -> fp_fixed_ng pb = Some ng -> buf_ok (pb_nx (fp_dp pb)) nu ng c.
  Definition bars_ok (nx nu ng : nat) (c : coeff T) : Prop :=
    length (c_xbar c) = nx /\ length (c_gbar c) = ng /\ length (c_Lxbar c) = nx /\ length (c_Lubar c) = nu.
  Definition gains_ok (nx nu : nat) (c : coeff T) : Prop :=
    length (c_k c) = nu /\ mdimb nu nx (c_K c) = true /\ length (c_s c) = nx /\ mdimb nx nx (c_P c) = true.
End Dims.

Section Safe.
  Context {T : Type} {N : Num T}.
  Variables (LO : linops T) (pb : fproblem T) (cf : fconfig T) (jk : fjunk T) (t0 : T).
  Notation nx := (pb_nx (fp_dp pb)).
  Notation Nf := (Nf cf).
  Notation nui i := (nu_of (fp_dp pb) (ft pb t0 i)).
  Notation ngi i := (ng_of pb (ft pb t0 i)).
  Hypothesis WF : well_dimensioned_f pb.
  Hypothesis WL : lin_dims LO.

  (** A variable of the right size. *)
  Record var_ok (v : var T) : Prop := {
    vo_len : length (v_x v) = Nf + 1 /\ length (v_u v) = Nf /\ length (v_l v) = Nf + 1 /\ length (v_s v) = Nf /\ length (v_n v) = Nf;
    vo_x : forall i w, nth_error (v_x v) i = Some w -> length w = nx;
    vo_l : forall i w, nth_error (v_l v) i = Some w -> length w = nx;
    vo_u : forall i w, nth_error (v_u v) i = Some w -> length w = nui i;
    vo_s : forall i w, nth_error (v_s v) i = Some w -> length w = ngi i;
    vo_n : forall i w, nth_error (v_n v) i = Some w -> length w = ngi i
  }.
  Definition coeffs_ok (cl : list (coeff T)) : Prop :=
    length cl = Nf + 1 /\ (forall i c, i < Nf -> nth_error cl i = Some c -> buf_ok nx (nui i) (ngi i) c) /\
    (forall c, nth_error cl Nf = Some c -> end_ok pb c).
  (** After Step 1 of an iteration. *)
  Definition coeffs_full (cl : list (coeff T)) : Prop :=
    coeffs_ok cl /\ (forall i c, i < Nf -> nth_error cl i = Some c -> bars_ok nx (nui i) (ngi i) c) /\
    (forall c, nth_error cl Nf = Some c -> length (c_Lxbar c) = nx).
  Definition delta_len (d : var T) : Prop :=
    length (v_x d) = Nf + 1 /\ length (v_u d) = Nf /\ length (v_l d) = Nf + 1 /\ length (v_s d) = Nf /\ length (v_n d) = Nf.

  Lemma get_some {A} (l : list A) i : i < length l -> exists a, nth_error l i = Some a.
  Proof. intros H. destruct (nth_error l i) eqn:E; [eauto|]. apply nth_error_None in E. lia. Qed.
  Lemma stage_at v i : var_ok v -> i < Nf -> exists x u l s n x' l', stage v i x u l s n x' l' /\
    length x = nx /\ length u = nui i /\ length l = nx /\ length s = ngi i /\ length n = ngi i /\ length x' = nx /\ length l' = nx.
  Proof.
    intros [(L1 & L2 & L3 & L4 & L5) Vx Vl Vu Vs Vn] Hi.
    destruct (get_some (v_x v) i ltac:(lia)) as (x & Ex). destruct (get_some (v_u v) i ltac:(lia)) as (u & Eu). destruct (get_some (v_l v) i ltac:(lia)) as (l & El).
    destruct (get_some (v_s v) i ltac:(lia)) as (s & Es). destruct (get_some (v_n v) i ltac:(lia)) as (n & En).
    destruct (get_some (v_x v) (i + 1) ltac:(lia)) as (x' & Ex'). destruct (get_some (v_l v) (i + 1) ltac:(lia)) as (l' & El').
    exists x, u, l, s, n, x', l'. split; [repeat split; assumption|]. repeat split; eauto.
  Qed.
  Lemma vlen (x y : vec T) : length (vadd x y) = length x /\ length (vsub x y) = length x /\ (forall c, length (vscale c x) = length x) /\
    length (vmul x y) = length x /\ length (vdiv x y) = length x /\ length (vinv x) = length x.
  Proof. repeat split; intros; apply vbuild_length. Qed.
  Lemma mvl r c (A : mat T) x : mdimb r c A = true -> length (mvmul A x) = r.
  Proof. intros H. rewrite mvmul_length. apply (mdimb_rows _ _ _ H). Qed.
  Lemma vdimb_true n (x : vec T) : length x = n -> vdimb n x = true.
  Proof. intros H. apply Nat.eqb_eq. exact H. Qed.

  Lemma coeff_at_total v cl i : var_ok v -> coeffs_ok cl -> i < Nf ->
    exists c, coeff_at pb t0 v cl i = Some c /\ buf_ok nx (nui i) (ngi i) c /\ bars_ok nx (nui i) (ngi i) c.
  Proof.
    intros Hv (Lc & Hc & _) Hi. destruct (get_some cl i ltac:(lia)) as (c & Ec). specialize (Hc i c Hi Ec).
    destruct Hc as (B1 & B2 & B3 & B4 & B5 & B6 & B7 & B8 & B9).
    destruct (stage_at v i Hv Hi) as (x & u & l & s & n & x' & l' & (S1 & S2 & S3 & S4 & S5 & S6 & S7) & Lx & Lu & Ll & Ls & Ln & Lx' & Ll').
    unfold coeff_at. rewrite Ec, S1, S2, S3, S4, S5, S6, S7. cbn zeta. unfold dp.
    pose proof (wf_dp _ WF) as WD.
    pose proof (wd_sd _ WD (ft pb t0 i) x u (c_A c) (c_B c) Lx Lu B1 B2) as W1. cbn zeta in W1.
    destruct (pb_stateEqDeriv (fp_dp pb) (ft pb t0 i) x u (c_A c, c_B c)) as [A B]. cbn [fst snd] in W1. destruct W1 as (W1 & W2).
    pose proof (wf_gd _ WF (ft pb t0 i) x u (c_C c) (c_D c) Lx Lu B3 B4) as W3. cbn zeta in W3.
    destruct (fp_gDeriv pb (ft pb t0 i) x u (c_C c, c_D c)) as [C D]. cbn [fst snd] in W3. destruct W3 as (W3 & W4).
    pose proof (wd_cd _ WD (ft pb t0 i) x u {| dFx := A; dFu := B; dLx := c_Lx c; dLu := c_Lu c; dLxx := c_Lxx c; dLuu := c_Luu c; dLxu := c_Lxu c |} A B Lx Lu) as W5.
    cbn [dLx dLu dLxx dLuu dLxu] in W5. specialize (W5 ltac:(unfold deriv_ok; cbn; repeat split; assumption) W1 W2).
    destruct (pb_runningCostDeriv (fp_dp pb) (ft pb t0 i) x u (c_Lx c, c_Lu c, c_Lxx c, c_Luu c, c_Lxu c)) as [[[[gx gu] gxx] guu] gxu].
    destruct W5 as (_ & _ & W5 & W6 & W7 & W8 & W9). cbn [dLx dLu dLxx dLuu dLxu] in *.
    pose proof (wd_state _ WD (ft pb t0 i) x u Lx Lu) as Wf. pose proof (wf_g _ WF (ft pb t0 i) x u Lx Lu) as Wg.
    rewrite Ls, Lu. rewrite !vdimb_true, W1, W2, W3, W4 by assumption. cbn [andb].
    eexists. split; [reflexivity|]. unfold buf_ok, bars_ok. cbn [c_A c_B c_C c_D c_Lx c_Lu c_Lxx c_Luu c_Lxu c_xbar c_gbar c_Lxbar c_Lubar].
    split; [auto 10|]. repeat split.
    - rewrite (proj1 (proj2 (vlen _ _))). exact Wf.
    - rewrite (proj1 (vlen _ _)). exact Wg.
    - rewrite !(proj1 (vlen _ _)), (proj1 (proj2 (proj2 (vlen l l)))). exact Ll.
    - rewrite !(proj1 (vlen _ _)), (proj1 (proj2 (proj2 (vlen gu gu)))). exact W6.
  Qed.
  Lemma coeffs_total v cl : var_ok v -> coeffs_ok cl -> exists cl', coeffs pb cf t0 v cl = Some cl' /\ coeffs_full cl'.
  Proof.
    intros Hv Hc. unfold coeffs.
    destruct (tabo_some Nf (coeff_at pb t0 v cl)) as (cs & Ecs).
    { intros i Hi. destruct (coeff_at_total v cl i Hv Hc Hi) as (c & -> & _). discriminate. }
    rewrite Ecs. pose proof (tabo_length _ _ _ Ecs) as Lcs.
    destruct Hc as (Lc & Hb & He). pose proof Hv as [(L1 & L2 & L3 & L4 & L5) Vx Vl _ _ _].
    unfold coeff_end. destruct (get_some cl Nf ltac:(lia)) as (c & Ec). destruct (get_some (v_x v) Nf ltac:(lia)) as (x & Ex). destruct (get_some (v_l v) Nf ltac:(lia)) as (l & El).
    rewrite Ec, Ex, El. unfold dp. destruct (He c Ec) as (E1 & E2 & E2'). pose proof (Vx _ _ Ex) as Lx. pose proof (Vl _ _ El) as Ll.
    pose proof (wd_td _ (wf_dp _ WF) (ft pb t0 Nf) x (c_Lx c) (c_Lxx c) Lx E1 E2) as W. cbn zeta in W.
    destruct (pb_terminalCostDeriv (fp_dp pb) (ft pb t0 Nf) x (c_Lx c, c_Lxx c)) as [gx gxx] eqn:ED. setoid_rewrite ED in W. cbn [fst snd] in W. destruct W as (W1 & W2).
    rewrite !vdimb_true by assumption. cbn [andb]. eexists. split; [reflexivity|].
    assert (A : forall i d, i < Nf -> nth_error (cs ++ [{| c_A := c_A c; c_B := c_B c; c_C := c_C c; c_D := c_D c; c_Lx := gx; c_Lu := c_Lu c; c_Lxx := gxx; c_Luu := c_Luu c;
             c_Lxu := c_Lxu c; c_xbar := c_xbar c; c_gbar := c_gbar c; c_Lxbar := vsub gx l; c_Lubar := c_Lubar c;
             c_k := c_k c; c_K := c_K c; c_s := c_s c; c_P := c_P c |}]) i = Some d -> buf_ok nx (nui i) (ngi i) d /\ bars_ok nx (nui i) (ngi i) d).
    { intros i d Hi Hd. rewrite nth_error_app1 in Hd by lia. destruct (tabo_nth _ _ _ _ Ecs Hi) as (E3 & _). rewrite Hd in E3.
      destruct (coeff_at_total v cl i Hv ltac:(split; auto) Hi) as (c' & E4 & E5). rewrite E4 in E3. injection E3 as ->. exact E5. }
    split; [|split].
    - split; [rewrite app_length, Lcs; reflexivity|]. split; [intros i d Hi Hd; apply (A i d Hi Hd)|].
      intros d Hd. rewrite nth_error_app2, Lcs, Nat.sub_diag in Hd by lia. cbn in Hd. injection Hd as <-. split; [exact W1|]. split; [exact W2|].
      intros nu ng H1 H2. destruct (E2' nu ng H1 H2) as (? & ? & ? & ? & ? & ? & ? & ? & ?). unfold buf_ok. cbn. auto 12.
    - intros i d Hi Hd; apply (A i d Hi Hd).
    - intros d Hd. rewrite nth_error_app2, Lcs, Nat.sub_diag in Hd by lia. cbn in Hd. injection Hd as <-. cbn. rewrite (proj1 (proj2 (vlen _ _))). exact W1.
  Qed.

  Lemma kkt_sum_total eps n : forall cl (ss ns : list (vec T)) acc, n + 1 <= length cl -> n <= length ss -> n <= length ns ->
    (forall i (s w : vec T), i < n -> nth_error ss i = Some s -> nth_error ns i = Some w -> length w = length s) -> exists e, kkt_sum eps cl ss ns n acc = Some e.
  Proof.
    induction n as [|n IH]; intros cl ss ns acc H1 H2 H3 H4; destruct cl as [|c cl]; cbn [length] in H1; try lia; cbn [kkt_sum]; [eauto|].
    destruct ss as [|s ss]; [cbn [length] in H2; lia|]. destruct ns as [|w ns]; [cbn [length] in H3; lia|]. cbn [length] in H2, H3.
    rewrite (vdimb_true _ w) by (apply (H4 0 s w); [lia|reflexivity|reflexivity]). apply IH; try lia.
    intros i s' w' Hi Hs Hw. apply (H4 (Datatypes.S i) s' w'); [lia|exact Hs|exact Hw].
  Qed.
  Lemma kkt_error_total s : var_ok (f_var s) -> length (f_coeff s) = Nf + 1 -> length (f_x s) = nx -> exists e, kkt_error cf nzero s = Some e.
  Proof.
    intros [(L1 & L2 & L3 & L4 & L5) Vx Vl Vu Vs Vn] Lc Lx. unfold kkt_error. destruct (get_some (v_x (f_var s)) 0 ltac:(lia)) as (x & Ex). rewrite Ex.
    rewrite vdimb_true by (rewrite Lx; eapply Vx; eauto).
    destruct (kkt_sum_total nzero Nf (f_coeff s) (v_s (f_var s)) (v_n (f_var s)) (nadd nzero (sqnorm (vsub (f_x s) x)))) as (e & ->); try lia; [|eauto].
    intros i a b _ Ha Hb. rewrite (Vs _ _ Ha), (Vn _ _ Hb). reflexivity.
  Qed.
  Lemma eps_sum_total n : forall (ss ns : list (vec T)) acc dim, n <= length ss -> n <= length ns ->
    (forall i (s w : vec T), i < n -> nth_error ss i = Some s -> nth_error ns i = Some w -> length w = length s /\ 0 < length s) -> exists r, eps_sum ss ns n acc dim = Some r.
  Proof.
    induction n as [|n IH]; intros ss ns acc dim H2 H3 H4.
    { destruct ss, ns; cbn [eps_sum]; eauto. }
    destruct ss as [|s ss]; [cbn [length] in H2; lia|]. destruct ns as [|w ns]; [cbn [length] in H3; lia|]. cbn [length] in H2, H3.
    cbn [eps_sum]. destruct (H4 0 s w) as (E1 & E2); [lia|reflexivity|reflexivity|].
    rewrite (vdimb_true _ w E1), (proj2 (Nat.ltb_lt _ _) E2). cbn [andb]. apply IH; try lia.
    intros i s' w' Hi Hs Hw. apply (H4 (Datatypes.S i) s' w'); [lia|exact Hs|exact Hw].
  Qed.

  (** Backward pass. *)
  Lemma mcsd r c (A : mat T) v : mdimb r c A = true -> mdimb r c (mcolscale A v) = true.
  Proof. intros H. unfold mcolscale. rewrite (mdimb_rows _ _ _ H), (mdimb_cols _ _ _ H). apply mbuild_dim. Qed.
  Lemma msd r c (A B : mat T) : mdimb r c A = true -> mdimb r c (msub A B) = true.
  Proof. intros H. unfold msub. rewrite (mdimb_rows _ _ _ H), (mdimb_cols _ _ _ H). apply mbuild_dim. Qed.
  Lemma bw_coeff_total nu ng eps c sl nl s P : buf_ok nx nu ng c -> bars_ok nx nu ng c -> length sl = ng -> length nl = ng -> length s = nx -> mdimb nx nx P = true ->
    exists r, bw_coeff LO pb cf eps c sl nl s P = Some r /\ forall c', r = Some c' -> buf_ok nx nu ng c' /\ bars_ok nx nu ng c' /\ gains_ok nx nu c'.
  Proof.
    intros Hb Hr Ls Ln LS DP. pose proof Hb as (B1 & B2 & B3 & B4 & B5 & B6 & B7 & B8 & B9). pose proof Hr as (R1 & R2 & R3 & R4).
    unfold bw_coeff, dp. cbn zeta. rewrite (mdimb_cols _ _ _ B2), Ls. rewrite B1, B2, B3, B4, B7, B8, B9, DP, !vdimb_true by assumption. cbn [andb].
    set (G := madd (madd (mscale _ (c_Luu c)) _) _). set (H := madd (madd (mscale _ (c_Lxu c)) _) _). set (F := madd (madd (mscale _ (c_Lxx c)) _) _).
    set (rhs := vadd (mvmul (mtr (c_B c)) _) _).
    assert (DG : mdimb nu nu G = true) by (apply madd_dim, madd_dim, mscale_dim; exact B8).
    assert (DH : mdimb nx nu H = true) by (apply madd_dim, madd_dim, mscale_dim; exact B9).
    assert (DF : mdimb nx nx F = true) by (apply madd_dim, madd_dim, mscale_dim; exact B7).
    assert (LR : length rhs = nu) by (unfold rhs; rewrite (proj1 (vlen _ _)); apply (mvl nu nx), mtr_dim; exact B2).
    destruct (WL nu G DG) as (V1 & V2). destruct (V1 rhs LR) as (V3 & V4). destruct (V2 nx (mtr H) (mtr_dim _ _ _ DH)) as (V5 & V6).
    assert (GK : forall k K, length k = nu -> mdimb nu nx K = true -> exists r, (if vdimb nu k && mdimb nu nx K then
        Some (Some {| c_A := c_A c; c_B := c_B c; c_C := c_C c; c_D := c_D c; c_Lx := c_Lx c; c_Lu := c_Lu c; c_Lxx := c_Lxx c; c_Luu := c_Luu c;
                     c_Lxu := c_Lxu c; c_xbar := c_xbar c; c_gbar := c_gbar c; c_Lxbar := c_Lxbar c; c_Lubar := c_Lubar c;
                     c_k := k; c_K := K; c_s := vsub (vsub (mvmul (mtr (c_A c)) (vsub s (mvmul P (c_xbar c))))
                       (vadd (c_Lxbar c) (mvmul (mtr (c_C c)) (vadd (vsub (vmul (vdiv nl sl) (c_gbar c)) nl) (vscale eps (vinv sl)))))) (mvmul H k);
                     c_P := mscale nhalf (madd (msub F (mmul (mmul (mtr K) G) K)) (mtr (msub F (mmul (mmul (mtr K) G) K)))) |}) else None) = Some r /\
        forall c', r = Some c' -> buf_ok nx nu ng c' /\ bars_ok nx nu ng c' /\ gains_ok nx nu c').
    { intros k K Hk HK. rewrite (vdimb_true _ _ Hk), HK. cbn [andb]. eexists. split; [reflexivity|]. intros c' E. injection E as <-.
      split; [exact Hb|]. split; [exact Hr|]. unfold gains_ok. cbn [c_k c_K c_s c_P]. split; [exact Hk|]. split; [exact HK|]. split.
      - rewrite !(proj1 (proj2 (vlen _ _))). apply (mvl nx nx), mtr_dim. exact B1.
      - apply mscale_dim, madd_dim, msd. exact DF. }
    assert (LS' : forall x, length x = nu -> length (vscale (@mone T N) x) = nu) by (intros x Hx; rewrite (proj1 (proj2 (proj2 (vlen x x)))); exact Hx).
    destruct (Nat.ltb 0 nu) eqn:Enu.
    - destruct (ld_ok LO G); [apply GK; [apply LS'; exact V3|apply mscale_dim; exact V5]|].
      destruct (fc_break cf); [eexists; split; [reflexivity|discriminate]|]. apply GK; [apply LS'; exact V4|apply mscale_dim; exact V6].
    - apply Nat.ltb_ge in Enu. assert (nu = 0) by lia. apply GK; [cbn; lia|]. replace nu with 0 by lia. apply mzero_dim.
  Qed.
  Lemma bw_coeffs_total eps cl (v : var T) n : forall e acc, coeffs_full cl -> var_ok v -> n <= Nf -> length (c_s e) = nx -> mdimb nx nx (c_P e) = true ->
    length (e :: acc) = Nf + 1 - n ->
    (forall i c, n <= i -> i < Nf -> nth_error (e :: acc) (i - n) = Some c -> buf_ok nx (nui i) (ngi i) c /\ bars_ok nx (nui i) (ngi i) c /\ gains_ok nx (nui i) c) ->
    (forall c, nth_error (e :: acc) (Nf - n) = Some c -> end_ok pb c /\ length (c_s c) = nx /\ mdimb nx nx (c_P c) = true) ->
    exists b cl', bw_coeffs LO pb cf eps cl (v_s v) (v_n v) n (c_s e) (c_P e) (e :: acc) = Some (b, cl') /\ coeffs_ok cl' /\
      (b = true -> (forall i c, i < Nf -> nth_error cl' i = Some c -> bars_ok nx (nui i) (ngi i) c /\ gains_ok nx (nui i) c) /\
         forall c, nth_error cl' Nf = Some c -> length (c_s c) = nx /\ mdimb nx nx (c_P c) = true).
  Proof.
    induction n as [|n IH]; intros e acc Hc Hv Hn Ls DP La Hacc Hend.
    - cbn [bw_coeffs]. exists true, (e :: acc). split; [reflexivity|]. rewrite Nat.sub_0_r in *. split.
      + split; [exact La|]. split; [intros i c Hi E; apply (Hacc i c); [lia|exact Hi|rewrite Nat.sub_0_r; exact E]|]. intros c E. apply (Hend c E).
      + intros _. split; [intros i c Hi E; apply (Hacc i c); [lia|exact Hi|rewrite Nat.sub_0_r; exact E]|]. intros c E. apply (Hend c E).
    - cbn [bw_coeffs]. destruct Hc as ((Lc & Hb & He) & Hr & HrN). destruct (get_some cl n ltac:(lia)) as (c & Ec). rewrite Ec.
      destruct (stage_at v n Hv ltac:(lia)) as (x & u & l & s & w & x' & l' & (_ & _ & _ & S4 & S5 & _) & _ & Lu & _ & Lsl & Lw & _). rewrite S4, S5.
      destruct (bw_coeff_total (nui n) (ngi n) eps c s w (c_s e) (c_P e) (Hb n c ltac:(lia) Ec) (Hr n c ltac:(lia) Ec) Lsl Lw Ls DP) as (r & Er & Hr').
      rewrite Er. destruct r as [c'|].
      + destruct (Hr' c' eq_refl) as (P1 & P2 & P3). pose proof P3 as (_ & _ & P4 & P5). apply IH; try assumption.
        * split; [split; [exact Lc|split; assumption]|split; assumption].
        * lia.
        * cbn [length] in *. lia.
        * intros i d Hi1 Hi2 E. destruct (Nat.eq_dec i n) as [->|Hne].
          -- rewrite Nat.sub_diag in E. cbn in E. injection E as <-. auto.
          -- apply (Hacc i d); [lia|lia|]. replace (i - n) with (Datatypes.S (i - Datatypes.S n)) in E by lia. exact E.
        * intros d E. apply Hend. replace (Nf - n) with (Datatypes.S (Nf - Datatypes.S n)) in E by lia. exact E.
      + exists false, (firstn (Datatypes.S n) cl ++ e :: acc). split; [reflexivity|]. split; [|discriminate].
        assert (Lf : length (firstn (Datatypes.S n) cl) = Datatypes.S n) by (apply firstn_length_le; lia).
        split; [rewrite app_length, Lf; cbn [length] in *; lia|]. split.
        * intros i d Hi E. destruct (Nat.lt_ge_cases i (Datatypes.S n)) as [Hl|Hl].
          -- rewrite nth_error_app1 in E by lia. apply (Hb i d Hi).
             rewrite <- (firstn_skipn (Datatypes.S n) cl), nth_error_app1 by lia. exact E.
          -- rewrite nth_error_app2 in E by lia. rewrite Lf in E. apply (Hacc i d Hl Hi E).
        * intros d E. rewrite nth_error_app2, Lf in E by lia. apply (Hend d E).
  Qed.
  Lemma backward_total s : var_ok (f_var s) -> coeffs_full (f_coeff s) -> exists b cl, backward_pass LO pb cf s = Ok b (set_fcoeff cl s) /\ coeffs_ok cl /\
    (b = true -> (forall i c, i < Nf -> nth_error cl i = Some c -> bars_ok nx (nui i) (ngi i) c /\ gains_ok nx (nui i) c) /\
         forall c, nth_error cl Nf = Some c -> length (c_s c) = nx /\ mdimb nx nx (c_P c) = true).
  Proof.
    intros Hv Hc. pose proof Hc as ((Lc & Hb & He) & Hr & HrN). unfold backward_pass. destruct (get_some (f_coeff s) Nf ltac:(lia)) as (c & Ec). rewrite Ec.
    unfold overwrite. cbn [app length]. destruct (He c Ec) as (E1 & E2 & E2'). pose proof (HrN c Ec) as E3.
    assert (Sk : skipn 1 (skipn Nf (f_coeff s)) = []).
    { apply length_zero_iff_nil. rewrite !skipn_length. lia. }
    rewrite Sk.
    assert (Ls : length (c_s (bw_end c)) = nx) by (cbn [bw_end c_s]; rewrite (proj1 (proj2 (proj2 (vlen (c_Lxbar c) [])))); exact E3).
    destruct (bw_coeffs_total (f_eps s) (f_coeff s) (f_var s) Nf (bw_end c) [] Hc Hv ltac:(lia) Ls E2) as (b & cl & Eb & Ho & Hg).
    - cbn [length]. lia.
    - intros i d H1 H2. lia.
    - intros d E. rewrite Nat.sub_diag in E. cbn [nth_error] in E. injection E as <-. split; [split; [exact E1|split; [exact E2|exact E2']]|]. split; [exact Ls|exact E2].
    - rewrite Eb. exists (b && negb (fc_check_nan cf && existsb coeff_nan cl)), cl. split; [reflexivity|]. split; [exact Ho|].
      intros Hb'. apply Hg. apply andb_true_iff in Hb' as [-> _]. reflexivity.
  Qed.

  (** Forward pass. *)
  Definition full_from (i0 n : nat) (cl : list (coeff T)) : Prop :=
    n + 1 <= length cl /\ (forall i c, i < n -> nth_error cl i = Some c -> buf_ok nx (nui (i0 + i)) (ngi (i0 + i)) c /\ bars_ok nx (nui (i0 + i)) (ngi (i0 + i)) c /\ gains_ok nx (nui (i0 + i)) c) /\
    (forall c, nth_error cl n = Some c -> length (c_s c) = nx /\ mdimb nx nx (c_P c) = true).
  Lemma fw_lists_total n : forall i0 cl dx, full_from i0 n cl -> length dx = nx -> exists xs ls us, fw_lists pb cl n dx = Some (xs, ls, us) /\
    length xs = n + 1 /\ length ls = n + 1 /\ length us = n /\
    (forall i w, nth_error xs i = Some w -> length w = nx) /\ (forall i w, nth_error ls i = Some w -> length w = nx) /\
    (forall i w, nth_error us i = Some w -> length w = nui (i0 + i)).
  Proof.
    induction n as [|n IH]; intros i0 cl dx (L & Hf & He) Hd; destruct cl as [|c cl]; cbn [length] in L; try lia; cbn [fw_lists]; cbn zeta; unfold dp.
    - destruct (He c eq_refl) as (E1 & E2). rewrite !vdimb_true, E2 by assumption. cbn [andb].
      do 3 eexists. split; [reflexivity|]. repeat (split; [reflexivity|]). split; [|split].
      + intros [|[|i]] w E; cbn in E; try discriminate. injection E as <-. exact Hd.
      + intros [|[|i]] w E; cbn in E; try discriminate. injection E as <-. rewrite (proj1 (proj2 (vlen _ _))). apply (mvl nx nx). exact E2.
      + intros [|i] w E; discriminate.
    - destruct (Hf 0 c ltac:(lia) eq_refl) as (C1 & C2 & C3). rewrite Nat.add_0_r in *. destruct C1 as (B1 & B2 & _). destruct C2 as (R1 & _). destruct C3 as (G1 & G2 & G3 & G4).
      rewrite !vdimb_true, G4 by assumption. cbn [andb]. rewrite (mdimb_cols _ _ _ B2). rewrite G2, B1, B2, !vdimb_true by assumption. cbn [andb].
      edestruct (IH (Datatypes.S i0) cl (vadd (vadd (mvmul (c_A c) dx) (mvmul (c_B c) (vadd (mvmul (c_K c) dx) (c_k c)))) (c_xbar c))) as (xs & ls & us & E & L1 & L2 & L3 & P1 & P2 & P3).
      { split; [lia|]. split.
        - intros i d Hi E. specialize (Hf (Datatypes.S i) d ltac:(lia) E). rewrite Nat.add_succ_comm. exact Hf.
        - intros d E. apply (He d E). }
      { rewrite !(proj1 (vlen _ _)). apply (mvl nx nx). exact B1. }
      rewrite E. do 3 eexists. split; [reflexivity|]. cbn [length]. repeat (split; [lia|]). split; [|split].
      + intros [|i] w E'; cbn [nth_error] in E'; [injection E' as <-; exact Hd|apply (P1 i w E')].
      + intros [|i] w E'; cbn [nth_error] in E'; [|apply (P2 i w E')]. injection E' as <-. rewrite (proj1 (proj2 (vlen _ _))). apply (mvl nx nx). exact G4.
      + intros [|i] w E'; cbn [nth_error] in E'; [|rewrite <- Nat.add_succ_comm; apply (P3 i w E')]. injection E' as <-. rewrite (proj1 (vlen _ _)), Nat.add_0_r. apply (mvl (nui i0) nx). exact G2.
  Qed.
  Lemma delta_total s : var_ok (f_var s) -> length (f_x s) = nx -> delta_len (f_delta s) -> coeffs_ok (f_coeff s) ->
    (forall i c, i < Nf -> nth_error (f_coeff s) i = Some c -> bars_ok nx (nui i) (ngi i) c /\ gains_ok nx (nui i) c) ->
    (forall c, nth_error (f_coeff s) Nf = Some c -> length (c_s c) = nx /\ mdimb nx nx (c_P c) = true) ->
    exists d, delta_of pb cf s = Some d /\ var_ok d /\ v_hor d = v_hor (f_delta s).
  Proof.
    intros Hv Lx (D1 & D2 & D3 & D4 & D5) (Lc & Hb & He) Hg Hgn. unfold delta_of. cbn zeta.
    destruct Hv as [(L1 & L2 & L3 & L4 & L5) Vx Vl Vu Vs Vn] eqn:EV. clear EV.
    destruct (get_some (v_x (f_var s)) 0 ltac:(lia)) as (x & Ex). rewrite Ex. rewrite vdimb_true by (rewrite Lx; eapply Vx; eauto).
    destruct (fw_lists_total Nf 0 (f_coeff s) (vsub (f_x s) x)) as (xs & ls & us & E & X1 & X2 & X3 & P1 & P2 & P3).
    { split; [lia|]. split; [intros i c Hi E; cbn [Nat.add]; split; [apply (Hb i c Hi E)|apply (Hg i c Hi E)]|exact Hgn]. }
    { rewrite (proj1 (proj2 (vlen _ _))). exact Lx. }
    rewrite E. cbn [Nat.add] in P3.
    assert (SN : forall i, i < Nf -> exists a b, fw_sn (f_eps s) (f_coeff s) (f_var s) xs us i = Some (a, b) /\ length a = ngi i /\ length b = ngi i).
    { intros i Hi. unfold fw_sn. destruct (get_some (f_coeff s) i ltac:(lia)) as (c & Ec). destruct (get_some xs i ltac:(lia)) as (dx & Edx). destruct (get_some us i ltac:(lia)) as (du & Edu).
      destruct (get_some (v_s (f_var s)) i ltac:(lia)) as (sl & Esl). destruct (get_some (v_n (f_var s)) i ltac:(lia)) as (nl & Enl). rewrite Ec, Edx, Edu, Esl, Enl. cbn zeta.
      pose proof (Hb i c Hi Ec) as (_ & _ & C3 & C4 & _). destruct (Hg i c Hi Ec) as ((_ & R2 & _) & _).
      rewrite (Vs _ _ Esl), (P1 _ _ Edx), (P3 _ _ Edu), C3, C4, !vdimb_true by eauto. cbn [andb]. do 2 eexists. split; [reflexivity|].
      unfold fw_s, fw_n. split; [|rewrite vbuild_length; eauto]. match goal with |- length (vscale _ ?y) = _ => rewrite (proj1 (proj2 (proj2 (vlen y y)))) end.
      rewrite !(proj1 (vlen _ _)). apply (mvl (ngi i) nx). exact C3. }
    destruct (tabo_some Nf (fw_sn (f_eps s) (f_coeff s) (f_var s) xs us)) as (sn & Esn).
    { intros i Hi. destruct (SN i Hi) as (a & b & -> & _). discriminate. }
    rewrite Esn, D1, D2, D3, D4, D5, !Nat.leb_refl. cbn [andb]. eexists. split; [reflexivity|]. split; [|reflexivity]. pose proof (tabo_length _ _ _ Esn) as Ls.
    rewrite !overwrite_same by (rewrite ?map_length; lia).
    assert (HSN : forall i w, nth_error sn i = Some w -> length (fst w) = ngi i /\ length (snd w) = ngi i).
    { intros i w Ew. assert (Hi : i < Nf) by (rewrite <- Ls; apply nth_error_Some; congruence).
      destruct (tabo_nth _ _ _ _ Esn Hi) as (E1 & _). destruct (SN i Hi) as (a & b & E2 & Q). rewrite E1, E2 in Ew. injection Ew as <-. exact Q. }
    constructor; cbn [v_x v_u v_l v_s v_n]; rewrite ?map_length; auto.
    - intros i w Ew. rewrite nth_error_map in Ew. destruct (nth_error sn i) eqn:Ei; [|discriminate]. injection Ew as <-. apply (HSN i _ Ei).
    - intros i w Ew. rewrite nth_error_map in Ew. destruct (nth_error sn i) eqn:Ei; [|discriminate]. injection Ew as <-. apply (HSN i _ Ei).
  Qed.

  (** updateVariables. *)
  Lemma step_list_total n a (vs ds : list (vec T)) : n <= length vs -> n <= length ds ->
    (forall i v d, i < n -> nth_error vs i = Some v -> nth_error ds i = Some d -> length d = length v) -> exists l, step_list n a vs ds = Some l.
  Proof.
    intros H1 H2 H3. unfold step_list.
    destruct (tabo_some n (fun i => match nth_error vs i with Some v => match nth_error ds i with Some d => if vdimb (length v) d then Some (vadd v (vscale a d)) else None | None => None end | None => None end)) as (l & E).
    { intros i Hi. destruct (get_some vs i ltac:(lia)) as (v & Ev). destruct (get_some ds i ltac:(lia)) as (d & Ed). rewrite Ev, Ed.
      rewrite vdimb_true by (eapply H3; eauto). discriminate. }
    rewrite E. eauto.
  Qed.
  Lemma step_list_sizes n a (vs ds l : list (vec T)) (sz : nat -> nat) : step_list n a vs ds = Some l ->
    (forall i w, nth_error vs i = Some w -> length w = sz i) -> forall i w, nth_error l i = Some w -> length w = sz i.
  Proof.
    intros H Hs i w Hw. apply step_list_spec in H as (_ & _ & H1 & H2). destruct (Nat.lt_ge_cases i n) as [Hi|Hi].
    - destruct (H1 i Hi) as (v & d & E1 & _ & _ & E2). rewrite Hw in E2. injection E2 as ->. rewrite (proj1 (vlen _ _)). apply Hs. exact E1.
    - rewrite H2 in Hw by exact Hi. apply Hs. exact Hw.
  Qed.
  Lemma frac_total (ss ds : list (vec T)) : Nf <= length ss -> Nf <= length ds ->
    (forall i v d, i < Nf -> nth_error ss i = Some v -> nth_error ds i = Some d -> length d = length v) -> exists a, frac cf ss ds = Some a.
  Proof.
    intros H1 H2 H3. unfold frac.
    destruct (tabo_some Nf (fun i => match nth_error ss i with Some v => match nth_error ds i with Some d => if vdimb (length v) d then Some (combine v d) else None | None => None end | None => None end)) as (l & E).
    { intros i Hi. destruct (get_some ss i ltac:(lia)) as (v & Ev). destruct (get_some ds i ltac:(lia)) as (d & Ed). rewrite Ev, Ed.
      rewrite vdimb_true by (eapply H3; eauto). discriminate. }
    rewrite E. eauto.
  Qed.
  Lemma merit_parts_total x0 eps v : var_ok v -> length x0 = nx -> exists p, merit_parts pb cf t0 x0 eps v = Some p.
  Proof.
    intros Hv Lx0. pose proof Hv as [(L1 & L2 & L3 & L4 & L5) Vx Vl Vu Vs Vn]. unfold merit_parts.
    destruct (get_some (v_x v) 0 ltac:(lia)) as (x & Ex). destruct (get_some (v_x v) Nf ltac:(lia)) as (xN & ExN). rewrite Ex, ExN.
    rewrite vdimb_true by (rewrite Lx0; eauto).
    destruct (tabo_some Nf (merit_terms pb t0 eps v)) as (l & El); [|rewrite El; eauto].
    intros i Hi. destruct (stage_at v i Hv Hi) as (y & u & m & s & n & y' & m' & (S1 & S2 & S3 & S4 & S5 & S6 & S7) & Ly & Lu & Ll & Ls & Ln & Ly' & Ll').
    unfold merit_terms. rewrite S1, S2, S4, S6. cbn zeta. unfold dp.
    rewrite (wd_state _ (wf_dp _ WF) _ _ _ Ly Lu), (wf_g _ WF _ _ _ Ly Lu), !vdimb_true by assumption. discriminate.
  Qed.
  Lemma l1_total (f : vec T) J d : mdimb (length f) (length d) J = true -> exists a, l1_deriv_chk f J d = Some a.
  Proof. intros H. unfold l1_deriv_chk. rewrite H. eauto. Qed.
  Lemma deriv_parts_total x0 eps v d cl : var_ok v -> var_ok d -> length x0 = nx -> coeffs_ok cl -> exists p, deriv_parts pb cf t0 x0 eps v d cl = Some p.
  Proof.
    intros Hv Hd Lx0 (Lc & Hb & He). pose proof Hv as [(L1 & L2 & L3 & L4 & L5) Vx _ _ _ _]. pose proof Hd as [(M1 & M2 & M3 & M4 & M5) Dx _ _ _ _]. unfold deriv_parts.
    destruct (get_some (v_x v) 0 ltac:(lia)) as (x & Ex). destruct (get_some (v_x d) 0 ltac:(lia)) as (dx & Edx). destruct (get_some (v_x d) Nf ltac:(lia)) as (dxN & EdxN).
    destruct (get_some cl Nf ltac:(lia)) as (cN & EcN). rewrite Ex, Edx, EdxN, EcN. destruct (He _ EcN) as (E1 & _).
    rewrite !vdimb_true by (rewrite ?Lx0, ?E1; eauto). cbn [andb].
    assert (MI : forall n, mdimb n n (@mid T N n) = true) by (intros; apply mbuild_dim).
    destruct (l1_total (vsub x0 x) (mscale mone (mid (length x0))) dx) as (a0 & Ea0).
    { rewrite (proj1 (proj2 (vlen _ _))), (Dx _ _ Edx), Lx0. apply mscale_dim, MI. }
    rewrite Ea0. destruct (tabo_some Nf (deriv_terms pb t0 eps v d cl)) as (l & El); [|rewrite El; eauto].
    intros i Hi. destruct (stage_at v i Hv Hi) as (y & u & m & s & n & y' & m' & (S1 & S2 & S3 & S4 & S5 & S6 & S7) & Ly & Lu & Ll & Ls & Ln & Ly' & Ll').
    destruct (stage_at d i Hd Hi) as (dy & du & dm & ds & dn & dy' & dm' & (T1 & T2 & T3 & T4 & T5 & T6 & T7) & Ldy & Ldu & Ldl & Lds & Ldn & Ldy' & Ldl').
    destruct (get_some cl i ltac:(lia)) as (c & Ec). destruct (Hb i c Hi Ec) as (B1 & B2 & B3 & B4 & B5 & B6 & _).
    unfold deriv_terms. rewrite S1, S2, S4, S6, T1, T2, T4, T6, Ec. cbn zeta. unfold dp.
    pose proof (wd_state _ (wf_dp _ WF) _ _ _ Ly Lu) as Wf. pose proof (wf_g _ WF _ _ _ Ly Lu) as Wg.
    rewrite Wf, Wg, !vdimb_true by (first [assumption|rewrite ?B5, ?B6, ?Ls; assumption]). cbn [andb].
    assert (Lcx : length (vsub (pb_stateEq (fp_dp pb) (ft pb t0 i) y u) y') = nx) by (rewrite (proj1 (proj2 (vlen _ _))); exact Wf).
    assert (Lcg : length (vadd (fp_g pb (ft pb t0 i) y u) s) = ngi i) by (rewrite (proj1 (vlen _ _)); exact Wg).
    assert (Q1 := l1_total (vsub (pb_stateEq (fp_dp pb) (ft pb t0 i) y u) y') (c_A c) dy ltac:(rewrite Lcx, Ldy; exact B1)).
    assert (Q2 := l1_total (vsub (pb_stateEq (fp_dp pb) (ft pb t0 i) y u) y') (c_B c) du ltac:(rewrite Lcx, Ldu; exact B2)).
    assert (Q3 := l1_total (vsub (pb_stateEq (fp_dp pb) (ft pb t0 i) y u) y') (mscale mone (mid nx)) dy' ltac:(rewrite Lcx, Ldy'; apply mscale_dim, MI)).
    assert (Q4 := l1_total (vadd (fp_g pb (ft pb t0 i) y u) s) (c_C c) dy ltac:(rewrite Lcg, Ldy; exact B3)).
    assert (Q5 := l1_total (vadd (fp_g pb (ft pb t0 i) y u) s) (c_D c) du ltac:(rewrite Lcg, Ldu; exact B4)).
    assert (Q6 := l1_total (vadd (fp_g pb (ft pb t0 i) y u) s) (mid (ngi i)) ds ltac:(rewrite Lcg, Lds; apply MI)).
    destruct Q1 as (? & ->), Q2 as (? & ->), Q3 as (? & ->), Q4 as (? & ->), Q5 as (? & ->), Q6 as (? & ->). cbn. discriminate.
  Qed.
  Lemma lagr_total n : forall (ls ns : list (vec T)) acc, n + 1 <= length ls -> n <= length ns -> (forall i w, nth_error ls i = Some w -> w <> []) ->
    (forall i w, nth_error ns i = Some w -> w <> []) -> exists a, lagr_scale ls ns n acc = Some a.
  Proof.
    induction n as [|n IH]; intros ls ns acc H1 H2 H3 H4; destruct ls as [|l ls]; cbn [length] in H1; try lia; cbn [lagr_scale].
    - specialize (H3 0 l eq_refl). destruct l; [contradiction|]. cbn [vmaxabs]. eauto.
    - pose proof (H3 0 l eq_refl). destruct l; [contradiction|]. destruct ns as [|w ns]; cbn [length] in H2; [lia|].
      pose proof (H4 0 w eq_refl). destruct w; [contradiction|]. cbn [vmaxabs]. apply IH; try lia.
      + intros i z Hz. apply (H3 (Datatypes.S i) z Hz).
      + intros i z Hz. apply (H4 (Datatypes.S i) z Hz).
  Qed.
  (** merit_const_scale_ from the multipliers takes the maximum of every lambda and nu. *)
  Hypothesis Hlagr : fc_ls cf = true -> fc_lagr cf = true -> 0 < nx /\ forall i, i < Nf -> 0 < ngi i.
  (** update_barrier_eps takes the minimum of every s .* nu. *)
  Hypothesis Heps : fc_update_eps cf = true -> forall i, i < Nf -> 0 < ngi i.

  Lemma setup_merit_total s : f_t s = t0 -> var_ok (f_var s) -> var_ok (f_delta s) -> length (f_x s) = nx -> coeffs_ok (f_coeff s) -> fc_ls cf = true ->
    exists a b c, setup_merit pb cf s = Ok tt (set_fmerit a b c s).
  Proof.
    intros Ht Hv Hd Lx Hc Hls. unfold setup_merit. rewrite Ht.
    destruct (merit_parts_total (f_x s) (f_eps s) (f_var s) Hv Lx) as (p & ->). destruct (deriv_parts_total (f_x s) (f_eps s) _ _ _ Hv Hd Lx Hc) as (q & ->).
    assert (Q : exists sc, merit_scale cf (f_var s) (fst q) (snd p) = Some sc).
    { unfold merit_scale. cbn zeta. destruct (fc_lagr cf) eqn:El in |- *; [|eauto]. destruct (Hlagr Hls El) as (P1 & P2).
      destruct Hv as [(L1 & L2 & L3 & L4 & L5) Vx Vl Vu Vs Vn]. apply lagr_total; try lia.
      - intros i w Hw ->. apply Vl in Hw. cbn in Hw. lia.
      - intros i w Hw ->. assert (i < Nf) by (rewrite <- L5; apply nth_error_Some; congruence). apply Vn in Hw. cbn in Hw. specialize (P2 i ltac:(lia)). lia. }
    destruct Q as (sc & ->). eauto.
  Qed.
  Lemma ls_var_total a v d : var_ok v -> var_ok d -> exists w, ls_var cf a v d = Some w /\ var_ok w.
  Proof.
    intros [(L1 & L2 & L3 & L4 & L5) Vx Vl Vu Vs Vn] [(M1 & M2 & M3 & M4 & M5) Dx Dl Du Ds Dn]. unfold ls_var.
    destruct (step_list_total (Nf + 1) a (v_x v) (v_x d)) as (xs & E1); try lia. { intros i p q _ Hp Hq. rewrite (Vx _ _ Hp), (Dx _ _ Hq). reflexivity. }
    destruct (step_list_total Nf a (v_u v) (v_u d)) as (us & E2); try lia. { intros i p q _ Hp Hq. rewrite (Vu _ _ Hp), (Du _ _ Hq). reflexivity. }
    destruct (step_list_total Nf a (v_s v) (v_s d)) as (ss & E3); try lia. { intros i p q _ Hp Hq. rewrite (Vs _ _ Hp), (Ds _ _ Hq). reflexivity. }
    rewrite E1, E2, E3. eexists. split; [reflexivity|].
    pose proof (step_list_spec _ _ _ _ _ E1) as (_ & K1 & _). pose proof (step_list_spec _ _ _ _ _ E2) as (_ & K2 & _). pose proof (step_list_spec _ _ _ _ _ E3) as (_ & K3 & _).
    constructor; cbn [v_x v_u v_l v_s v_n]; auto.
    - rewrite K1, K2, K3. auto.
    - apply (step_list_sizes _ _ _ _ _ (fun _ => nx) E1 Vx).
    - apply (step_list_sizes _ _ _ _ _ (fun i => nui i) E2 Vu).
    - apply (step_list_sizes _ _ _ _ _ (fun i => ngi i) E3 Vs).
  Qed.
  Lemma step_var_total a b v d : var_ok v -> var_ok d -> exists w, step_var cf a b v d = Some w /\ var_ok w.
  Proof.
    intros [(L1 & L2 & L3 & L4 & L5) Vx Vl Vu Vs Vn] [(M1 & M2 & M3 & M4 & M5) Dx Dl Du Ds Dn]. unfold step_var.
    destruct (step_list_total (Nf + 1) a (v_x v) (v_x d)) as (xs & E1); try lia. { intros i p q _ Hp Hq. rewrite (Vx _ _ Hp), (Dx _ _ Hq). reflexivity. }
    destruct (step_list_total (Nf + 1) b (v_l v) (v_l d)) as (ls & E4); try lia. { intros i p q _ Hp Hq. rewrite (Vl _ _ Hp), (Dl _ _ Hq). reflexivity. }
    destruct (step_list_total Nf a (v_u v) (v_u d)) as (us & E2); try lia. { intros i p q _ Hp Hq. rewrite (Vu _ _ Hp), (Du _ _ Hq). reflexivity. }
    destruct (step_list_total Nf a (v_s v) (v_s d)) as (ss & E3); try lia. { intros i p q _ Hp Hq. rewrite (Vs _ _ Hp), (Ds _ _ Hq). reflexivity. }
    destruct (step_list_total Nf b (v_n v) (v_n d)) as (ns & E5); try lia. { intros i p q _ Hp Hq. rewrite (Vn _ _ Hp), (Dn _ _ Hq). reflexivity. }
    rewrite E1, E2, E3, E4, E5. eexists. split; [reflexivity|].
    pose proof (step_list_spec _ _ _ _ _ E1) as (_ & K1 & _). pose proof (step_list_spec _ _ _ _ _ E2) as (_ & K2 & _). pose proof (step_list_spec _ _ _ _ _ E3) as (_ & K3 & _).
    pose proof (step_list_spec _ _ _ _ _ E4) as (_ & K4 & _). pose proof (step_list_spec _ _ _ _ _ E5) as (_ & K5 & _).
    assert (Cl : forall (l : list (vec T)), length l = Nf -> overwrite (map clip_low (firstn Nf l)) l = map clip_low l).
    { intros l Hl. rewrite (firstn_full Nf l Hl). apply overwrite_same. apply map_length. }
    assert (Cs : forall (l : list (vec T)) (sz : nat -> nat), (forall i w, nth_error l i = Some w -> length w = sz i) -> forall i w, nth_error (map clip_low l) i = Some w -> length w = sz i).
    { intros l sz H i w Hw. rewrite nth_error_map in Hw. destruct (nth_error l i) as [z|] eqn:Ez; [|discriminate]. injection Hw as <-.
      unfold clip_low. destruct (vnegb z); [unfold vmaxc; rewrite vbuild_length|]; apply H; exact Ez. }
    constructor; cbn [v_x v_u v_l v_s v_n]; rewrite ?Cl by lia.
    - rewrite !map_length. rewrite K1, K2, K3, K4, K5. auto.
    - apply (step_list_sizes _ _ _ _ _ (fun _ => nx) E1 Vx).
    - apply (step_list_sizes _ _ _ _ _ (fun _ => nx) E4 Vl).
    - apply (step_list_sizes _ _ _ _ _ (fun i => nui i) E2 Vu).
    - apply Cs. apply (step_list_sizes _ _ _ _ _ (fun i => ngi i) E3 Vs).
    - apply Cs. apply (step_list_sizes _ _ _ _ _ (fun i => ngi i) E5 Vn).
  Qed.
  Lemma ls_loop_safe s : f_t s = t0 -> var_ok (f_var s) -> var_ok (f_delta s) -> length (f_x s) = nx -> forall fuel a, ls_loop pb cf fuel a s <> UB.
  Proof.
    intros Ht Hv Hd Lx. induction fuel as [|fuel IH]; intros a; cbn [ls_loop]; [discriminate|]. destruct (nltb a _); [discriminate|].
    destruct (ls_var_total a _ _ Hv Hd) as (w & -> & Hw). rewrite Ht. unfold merit. destruct (merit_parts_total (f_x s) (f_eps s) w Hw Lx) as ([o c] & ->).
    destruct (nltb _ _); [discriminate|apply IH].
  Qed.

  (** What holds at the start of every iteration. *)
  Record state_ok (s : fsolver T) : Prop := {
    so_t : f_t s = t0; so_x : length (f_x s) = nx; so_v : var_ok (f_var s); so_d : delta_len (f_delta s); so_c : coeffs_ok (f_coeff s)
  }.
  Lemma var_len v : var_ok v -> delta_len v.
  Proof. intros [H _ _ _ _ _]. exact H. Qed.
  Lemma update_safe fuel s : state_ok s -> var_ok (f_delta s) ->
    match update_variables pb cf fuel s with UB => False | Throw _ _ => False | OutOfFuel => True | Ok _ s' => state_ok s' /\ v_hor (f_delta s') = v_hor (f_delta s) /\ var_ok (f_delta s') end.
  Proof.
    intros [Ht Hx Hv _ Hc] Hd. pose proof Hv as [(L1 & L2 & L3 & L4 & L5) Vx Vl Vu Vs Vn]. pose proof Hd as [(M1 & M2 & M3 & M4 & M5) Dx Dl Du Ds Dn].
    unfold update_variables, bind at 1, get. unfold bind at 1.
    destruct (frac_total (v_s (f_var s)) (v_s (f_delta s))) as (a & Ea); try lia. { intros i p q _ Hp Hq. rewrite (Vs _ _ Hp), (Ds _ _ Hq). reflexivity. }
    destruct (frac_total (v_n (f_var s)) (v_n (f_delta s))) as (b & Eb); try lia. { intros i p q _ Hp Hq. rewrite (Vn _ _ Hp), (Dn _ _ Hq). reflexivity. }
    rewrite Ea. cbn [must ret]. unfold bind at 1. rewrite Eb. cbn [must ret].
    destruct (negb _); [cbn; split; [constructor; auto using var_len|auto]|].
    unfold bind at 1.
    assert (Q : forall s2 a', f_t s2 = f_t s -> f_x s2 = f_x s -> f_var s2 = f_var s -> f_delta s2 = f_delta s -> f_coeff s2 = f_coeff s ->
      match bind (must (step_var cf a' b (f_var s) (f_delta s))) (fun v => bind (modify (set_fvar v)) (fun _ => ret true)) s2 with
      | UB => False | Throw _ _ => False | OutOfFuel => True | Ok _ s' => state_ok s' /\ v_hor (f_delta s') = v_hor (f_delta s) /\ var_ok (f_delta s') end).
    { intros s2 a' E1 E2 E3 E4 E5. destruct (step_var_total a' b _ _ Hv Hd) as (w & Ew & Hw). unfold bind at 1. rewrite Ew. cbn [must ret]. unfold bind, modify. cbn.
      split; [constructor; cbn; rewrite ?E1, ?E2, ?E4, ?E5; auto using var_len|]. rewrite E4. auto. }
    destruct (fc_ls cf) eqn:Els in |- *.
    - unfold bind at 1. destruct (setup_merit_total s Ht Hv Hd Hx Hc Els) as (m1 & m2 & m3 & ->).
      pose proof (ls_loop_safe (set_fmerit m1 m2 m3 s) Ht Hv Hd Hx fuel a) as Hns.
      destruct (ls_loop_state pb cf fuel a (set_fmerit m1 m2 m3 s)) as [(a' & ->)|[E|E]]; [|contradiction|rewrite E; exact I].
      apply Q; reflexivity.
    - cbn [ret]. apply Q; reflexivity.
  Qed.
  Lemma proc_safe fuel it s : state_ok s ->
    match proc_once LO pb cf fuel it s with UB => False | Throw _ _ => False | OutOfFuel => True | Ok _ s' => state_ok s' /\ v_hor (f_delta s') = v_hor (f_delta s) end.
  Proof.
    intros [Ht Hx Hv Hd Hc].
    destruct (coeffs_total (f_var s) (f_coeff s) Hv Hc) as (cl & Ecl & Hcl).
    assert (Heps' : exists eps, (if fc_update_eps cf then (st <- get;; '(sum, dim) <- must (eps_sum (v_s (f_var st)) (v_n (f_var st)) Nf nzero 0);;
          put (set_feps (eps_of sum dim) st))%monad else ret tt) (set_ftrace (f_trace s ++ [(it, nzero)]) s) = Ok tt (set_feps eps (set_ftrace (f_trace s ++ [(it, nzero)]) s))).
    { destruct (fc_update_eps cf) eqn:Eu in |- *; [|exists (f_eps s); destruct s; reflexivity].
      destruct Hv as [(L1 & L2 & L3 & L4 & L5) Vx Vl Vu Vs Vn].
      destruct (eps_sum_total Nf (v_s (f_var s)) (v_n (f_var s)) nzero 0) as ([sum dim] & Es); try lia.
      - intros i p q Hi Hp Hq. rewrite (Vs _ _ Hp), (Vn _ _ Hq). split; [reflexivity|]. apply Heps; auto.
      - exists (eps_of sum dim). unfold bind at 1, get at 1. cbn [set_ftrace f_var]. unfold bind. rewrite Es. reflexivity. }
    unfold proc_once. unfold bind at 1, modify at 1. unfold bind at 1. destruct Heps' as (eps & ->).
    unfold bind at 1, get at 1. unfold bind at 1. cbn [set_feps set_ftrace f_t f_var f_coeff]. rewrite Ht, Ecl. cbn [must ret]. unfold bind at 1, put at 1. unfold bind at 1, get at 1. unfold bind at 1.
    match goal with |- context [kkt_error cf nzero ?st] => destruct (kkt_error_total st Hv) as (e & ->) end.
    { cbn. apply Hcl. } { exact Hx. }
    cbn [must ret]. unfold bind at 1, put at 1.
    match goal with |- context [(if nleb e (fc_kkt cf) then _ else _) ?st] => set (st1 := st) end.
    assert (S1 : state_ok st1) by (constructor; cbn; auto; apply Hcl).
    destruct (nleb e (fc_kkt cf)); [cbn; auto|]. unfold bind at 1.
    destruct (backward_total st1 Hv Hcl) as (b & cl' & Ebw & Ho & Hg). rewrite Ebw. destruct b; cbn [negb].
    2:{ cbn. split; [constructor; cbn; auto|reflexivity]. }
    destruct (Hg eq_refl) as (Hg1 & Hg2). unfold bind at 1.
    destruct (delta_total (set_fcoeff cl' st1) Hv Hx Hd Ho Hg1 Hg2) as (d & Ed & Hdv & Hh). unfold forward_pass. rewrite Ed.
    assert (S2 : state_ok (set_fdelta d (set_fcoeff cl' st1))) by (constructor; cbn; auto using var_len).
    destruct (negb (fc_check_nan cf && var_nan d)); cbn [negb]; [|cbn; auto]. unfold bind at 1.
    pose proof (update_safe fuel _ S2 Hdv) as U. destruct (update_variables pb cf fuel (set_fdelta d (set_fcoeff cl' st1))) as [b2 s2| | |]; try contradiction; auto.
    destruct U as (U1 & U2 & _). cbn in U2. destruct b2; cbn; rewrite U2, Hh; auto.
  Qed.
  Lemma loop_safe fuel n : forall it st s, state_ok s ->
    match fopt_loop LO pb cf fuel n it st s with UB => False | Throw _ _ => False | OutOfFuel => True | Ok _ s' => state_ok s' /\ v_hor (f_delta s') = v_hor (f_delta s) end.
  Proof.
    induction n as [|n IH]; intros it st s Hs; cbn [fopt_loop]; [cbn; auto|]. unfold bind.
    pose proof (proc_safe fuel it s Hs) as P. destruct (proc_once LO pb cf fuel it s) as [r s'| | |]; try contradiction; auto. destruct P as (P1 & P2).
    destruct r; try (cbn; auto). specialize (IH (it + 1)%Z IterationContinued s' P1). destruct (fopt_loop _ _ _ _ _ _ _ _); auto. rewrite P2 in IH. exact IH.
  Qed.

  (** *** solve *)
  (** The argument as its type permits: compile-time dimensions hold. *)
  Record typed_var (v : var T) : Prop := {
    ty_x : forall w, In w (v_x v) -> length w = nx;
    ty_l : forall w, In w (v_l v) -> length w = nx;
    ty_u : forall n w, pb_fixed_nu (fp_dp pb) = Some n -> In w (v_u v) -> length w = n;
    ty_s : forall n w, fp_fixed_ng pb = Some n -> In w (v_s v) \/ In w (v_n v) -> length w = n
  }.
  (** The members as the constructors and earlier calls leave them. *)
  Definition object_ok (s : fsolver T) : Prop :=
    ((0 <= v_hor (f_delta s))%Z /\
     let h := Z.to_nat (v_hor (f_delta s)) in let d := f_delta s in
     length (v_x d) = h + 1 /\ length (v_u d) = h /\ length (v_l d) = h + 1 /\ length (v_s d) = h /\ length (v_n d) = h) /\
    (forall nu ng, pb_fixed_nu (fp_dp pb) = Some nu -> fp_fixed_ng pb = Some ng -> forall c, In c (f_coeff s) -> buf_ok nx nu ng c).
  (** New storage has the size asked for. *)
  Definition junk_ok : Prop := (forall nu ng, buf_ok nx nu ng (fj_coeff jk nx nu ng)) /\ end_ok pb (fj_term jk).

  Lemma inited_ok v0 eps0 v eps : typed_var v0 -> inited pb cf t0 v0 eps0 = Some (v, eps) -> bad_length cf v = false ->
    existsb (bad_dim pb t0 v) (seq 0 Nf) = false -> var_ok v.
  Proof using WF. clear Hlagr Heps WL.
    intros [Tx Tl Tu Ts] Hi Hb Hd. apply bad_length_spec in Hb. pose proof (right_nat _ _ Hb) as (L1 & L2 & L3 & L4 & L5 & _).
    apply (bad_dim_spec _ _ _ _ Hb) in Hd as (Hd1 & Hd2). unfold stage_time in *.
    assert (Hxu : v_x v = v_x v0 /\ v_u v = v_u v0 /\ v_l v = v_l v0).
    { unfold inited in Hi. destruct (fc_init cf); [|injection Hi as -> _; auto].
      destruct (init_var pb cf t0 (nlit 1 10000) v0) as [v1|] eqn:Ev; [|discriminate]. injection Hi as <- _.
      apply init_var_some in Ev. destruct Ev as (_ & _ & _ & _ & _ & -> & -> & -> & _). auto. }
    destruct Hxu as (Ex & Eu & El).
    assert (Vx : forall i w, nth_error (v_x v) i = Some w -> length w = nx) by (intros i w Hw; apply Tx; rewrite <- Ex; eapply nth_error_In; eauto).
    assert (Vu : forall i w, nth_error (v_u v) i = Some w -> length w = nui i).
    { intros i w Hw. pose proof (wf_nu _ WF (ft pb t0 i)) as En. unfold nu_of in *. destruct (pb_fixed_nu (fp_dp pb)) as [n|] eqn:Ef.
      - apply (Tu n); [reflexivity|]. rewrite <- Eu. eapply nth_error_In; eauto.
      - pose proof (Hd1 eq_refl i w Hw) as E. unfold ft, dp in En |- *. lia. }
    assert (SN : (forall i w, nth_error (v_s v) i = Some w -> length w = ngi i) /\ (forall i w, nth_error (v_n v) i = Some w -> length w = ngi i)).
    { destruct (fp_fixed_ng pb) as [n|] eqn:Ef.
      - unfold inited in Hi. destruct (fc_init cf).
        + destruct (init_var pb cf t0 (nlit 1 10000) v0) as [v1|] eqn:Ev; [|discriminate]. injection Hi as <- _.
          unfold init_var in Ev. destruct (tabo Nf _) as [ss|] eqn:Et; [|discriminate]. injection Ev as <-. cbn [v_x v_u v_l v_s v_n] in *.
          pose proof (tabo_length _ _ _ Et) as Lss.
          assert (Hov : forall a b : list (vec T), length a = Nf -> length (overwrite a b) = Nf -> overwrite a b = a).
          { intros a b H1 H2. unfold overwrite in *. rewrite app_length, skipn_length in H2. rewrite skipn_all2 by lia. apply app_nil_r. }
          rewrite (Hov _ _ Lss L4), (Hov _ _ (eq_trans (map_length _ _) Lss) L5).
          assert (Q : forall i w, nth_error ss i = Some w -> length w = ngi i).
          { intros i w Hw. assert (Hi : i < Nf) by (rewrite <- Lss; apply nth_error_Some; congruence).
            destruct (tabo_nth _ _ _ _ Et Hi) as (E1 & _). rewrite Hw in E1. cbn beta in E1.
            destruct (nth_error (v_x v0) i) as [x|] eqn:Exi; [|discriminate]. destruct (nth_error (v_u v0) i) as [u|] eqn:Eui; [|discriminate].
            destruct (_ && _); [|discriminate]. apply some_inj' in E1. subst w. unfold init_s, vmaxc, vscale. rewrite !vbuild_length.
            apply (wf_g _ WF); eauto. }
          split; [exact Q|]. intros i w Hw. rewrite nth_error_map in Hw. destruct (nth_error ss i) as [z|] eqn:Ez; [|discriminate]. apply some_inj' in Hw. subst w.
          unfold init_n, vmaxc, vscale, vinv. rewrite !vbuild_length. apply Q. exact Ez.
        + injection Hi as -> _. unfold ng_of. rewrite Ef. split; intros i w Hw; apply (Ts n); auto; [left|right]; eapply nth_error_In; eauto.
      - split; intros i w Hw; pose proof (wf_ng _ WF (ft pb t0 i)) as En.
        + pose proof (Hd2 eq_refl i w (or_introl Hw)) as E. unfold ft, dp in En |- *. lia.
        + pose proof (Hd2 eq_refl i w (or_intror Hw)) as E. unfold ft, dp in En |- *. lia. }
    destruct SN as (Vs & Vn). constructor; auto. intros i w Hw. apply Tl. rewrite <- El. eapply nth_error_In; eauto.
  Qed.
  Lemma setup_coeff_ok s : (0 <= fc_hor cf)%Z -> object_ok s -> junk_ok -> exists cl, setup_coeff pb cf jk t0 (f_coeff s) = Some cl /\ coeffs_ok cl.
  Proof using WF. clear Hlagr Heps WL.
    intros Hh (_ & Ho) (J1 & J2). unfold setup_coeff. cbn zeta. unfold dp.
    assert (Q : exists cs, match pb_fixed_nu (fp_dp pb), fp_fixed_ng pb with
           | Some nu, Some ng => Some (resize Nf (fj_coeff jk nx nu ng) (f_coeff s))
           | _, _ => tabo Nf (fun i => if Z.leb 0 (pb_inputDim (fp_dp pb) (ft pb t0 i)) && Z.leb 0 (fp_ineqDim pb (ft pb t0 i)) then
               Some (fj_coeff jk nx (Z.to_nat (pb_inputDim (fp_dp pb) (ft pb t0 i))) (Z.to_nat (fp_ineqDim pb (ft pb t0 i)))) else None)
           end = Some cs /\ length cs = Nf /\ forall i c, nth_error cs i = Some c -> buf_ok nx (nui i) (ngi i) c).
    { assert (D : exists cs, tabo Nf (fun i => if Z.leb 0 (pb_inputDim (fp_dp pb) (ft pb t0 i)) && Z.leb 0 (fp_ineqDim pb (ft pb t0 i)) then
               Some (fj_coeff jk nx (Z.to_nat (pb_inputDim (fp_dp pb) (ft pb t0 i))) (Z.to_nat (fp_ineqDim pb (ft pb t0 i)))) else None) = Some cs /\
             length cs = Nf /\ forall i c, nth_error cs i = Some c -> buf_ok nx (nui i) (ngi i) c).
      { assert (E : forall i, Z.leb 0 (pb_inputDim (fp_dp pb) (ft pb t0 i)) && Z.leb 0 (fp_ineqDim pb (ft pb t0 i)) = true).
        { intros i. rewrite (wf_nu _ WF), (wf_ng _ WF). apply andb_true_iff; split; apply Z.leb_le; lia. }
        match goal with |- context [tabo Nf ?f] => destruct (tabo_some Nf f) as (cs & Ecs) end.
        { intros i _. rewrite E. discriminate. }
        exists cs. split; [exact Ecs|]. pose proof (tabo_length _ _ _ Ecs) as L. split; [exact L|]. intros i c Hc.
        assert (Hi : i < Nf) by (rewrite <- L; apply nth_error_Some; congruence).
        destruct (tabo_nth _ _ _ _ Ecs Hi) as (E1 & _). rewrite Hc, E in E1. apply some_inj' in E1. subst c.
        rewrite (wf_nu _ WF), (wf_ng _ WF), !Nat2Z.id. apply J1. }
      destruct (pb_fixed_nu (fp_dp pb)) as [nu|] eqn:Ef1; [|exact D]. destruct (fp_fixed_ng pb) as [ng|] eqn:Ef2; [|exact D].
      eexists. split; [reflexivity|]. split; [apply resize_length|]. intros i c Hc. unfold nu_of, ng_of. rewrite Ef1, Ef2.
      apply nth_error_In in Hc. unfold resize in Hc. apply in_app_or in Hc as [Hc|Hc].
      - apply (Ho nu ng eq_refl eq_refl). eapply in_firstn; eauto.
      - apply repeat_spec in Hc. subst c. apply J1. }
    destruct Q as (cs & Ecs & Lcs & Hcs). rewrite Ecs. eexists. split; [reflexivity|].
    split; [rewrite app_length, Lcs; reflexivity|]. split.
    - intros i c Hi Hc. rewrite nth_error_app1 in Hc by lia. apply Hcs. exact Hc.
    - intros c Hc. rewrite nth_error_app2, Lcs, Nat.sub_diag in Hc by lia. cbn in Hc. injection Hc as <-. exact J2.
  Qed.
  Lemma state_object s : state_ok s -> v_hor (f_delta s) = fc_hor cf -> (0 <= fc_hor cf)%Z -> object_ok s.
  Proof using WF. clear Hlagr Heps WL.
    intros [Ht Hx Hv Hd Hc] Hh Hp. split.
    - split; [lia|]. cbn zeta. rewrite Hh. exact Hd.
    - intros nu ng E1 E2 c Hin. apply In_nth_error in Hin as (i & Hi). destruct Hc as (Lc & Hb & He).
      assert (Hl : i < Nf + 1) by (rewrite <- Lc; apply nth_error_Some; congruence). destruct (Nat.eq_dec i Nf) as [->|Hne].
      + apply (He _ Hi); auto.
      + specialize (Hb i c ltac:(lia) Hi). unfold nu_of, ng_of in Hb. rewrite E1, E2 in Hb. exact Hb.
  Qed.
  Theorem solve_safe fuel x0 v0 s : length x0 = nx -> typed_var v0 -> junk_ok -> object_ok s ->
    (fc_init cf = true -> Nf <= length (v_x v0) /\ Nf <= length (v_u v0) /\ Nf <= length (v_s v0) /\ Nf <= length (v_n v0)) ->
    ((3 <= fc_print cf)%Z -> (1 <= fc_max_iter cf)%Z) ->
    match fmpc_solve LO pb cf jk fuel t0 x0 v0 s with UB => False | OutOfFuel => True | Throw _ s' => object_ok s' | Ok _ s' => object_ok s' end.
  Proof.
    intros Lx Tv Jk Ho Hin Hpr. rewrite solve_form_eq. unfold solve_form.
    destruct (inited pb cf t0 v0 (f_eps s)) as [[v eps]|] eqn:Ei.
    2:{ unfold inited in Ei. destruct (fc_init cf); [|discriminate]. destruct (Hin eq_refl) as (I1 & I2 & I3 & I4).
        destruct (init_var pb cf t0 (nlit 1 10000) v0) as [|] eqn:Ev; [discriminate|]. unfold init_var in Ev.
        match type of Ev with context [tabo Nf ?f] => destruct (tabo_some Nf f) as (l & El) end; [|rewrite El in Ev; discriminate].
        intros i Hi. destruct (get_some (v_x v0) i ltac:(lia)) as (x & ->). destruct (get_some (v_u v0) i ltac:(lia)) as (u & ->).
        rewrite !(proj2 (Nat.ltb_lt _ _)) by lia. discriminate. }
    assert (Hs : object_ok (start t0 x0 v eps s)) by exact Ho.
    destruct (bad_length cf v) eqn:Eb; [exact Hs|]. destruct (existsb (bad_dim pb t0 v) (seq 0 Nf)) eqn:Ed; [exact Hs|].
    destruct (existsb (bad_sign v) (seq 0 Nf)); [exact Hs|].
    pose proof (inited_ok v0 _ v eps Tv Ei Eb Ed) as Hv. apply bad_length_spec in Eb. pose proof (right_nat _ _ Eb) as (_ & _ & _ & _ & _ & Hh).
    destruct (setup_coeff_ok s Hh Ho Jk) as (cl & Ecl & Hcl). rewrite Ecl.
    assert (Hr : state_ok (ready cf jk t0 x0 v eps cl s) /\ v_hor (setup_delta cf jk (f_delta s)) = fc_hor cf).
    { destruct Ho as ((O1 & O2) & _). unfold setup_delta. destruct (Z.eqb_spec (v_hor (f_delta s)) (fc_hor cf)) as [E|E].
      - split; [|exact E]. constructor; cbn [ready f_t f_x f_var f_delta f_coeff]; auto. unfold setup_delta. rewrite (proj2 (Z.eqb_eq _ _) E).
        cbn zeta in O2. rewrite E in O2. exact O2.
      - split; [|cbn; unfold Nf; lia]. constructor; cbn [ready f_t f_x f_var f_delta f_coeff]; auto. unfold setup_delta.
        rewrite (proj2 (Z.eqb_neq _ _) E). unfold delta_len. cbn [var_ctor v_x v_u v_l v_s v_n]. rewrite !repeat_length. auto. }
    destruct Hr as (Hr & Hd).
    pose proof (loop_safe fuel (Z.to_nat (fc_max_iter cf)) 1 Uninitialized _ Hr) as L.
    destruct (fopt_loop LO pb cf fuel (Z.to_nat (fc_max_iter cf)) 1 Uninitialized (ready cf jk t0 x0 v eps cl s)) as [r s'| | |] eqn:El; try contradiction; auto.
    destruct L as (L1 & L2). cbn [ready f_delta] in L2. rewrite Hd in L2.
    destruct (negb (3 <=? fc_print cf)%Z || negb (Nat.eqb (length (f_trace s')) 0)) eqn:G; [apply state_object; auto|].
    apply orb_false_iff in G as [G1 G2]. apply negb_false_iff, Z.leb_le in G1. apply negb_false_iff, Nat.eqb_eq in G2.
    apply fopt_loop_post in El. destruct El as (es & Htr & _ & _ & _ & _ & Hlen & Hne & _). cbn [ready f_trace app] in Htr. rewrite Htr in G2.
    assert (r = IterationContinued \/ r <> IterationContinued) as [Er|Er] by (destruct r; auto; right; discriminate).
    - specialize (Hlen (or_introl Er)). lia.
    - apply (Hne Er); [lia|]. apply length_zero_iff_nil. exact G2.
  Qed.
End Safe.
