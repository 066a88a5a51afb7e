(** Exact KKT points, and the full Newton step on linear-quadratic problems. *)
From Coq Require Import Reals Lra Psatz FunctionalExtensionality.
From Verif Require Import Prelude Scalar LinAlg RLin DDP Fmpc FmpcProofs FmpcStep FmpcSpec FmpcReal FmpcNewton FmpcAffine.
Local Open Scope R_scope.

Lemma sqnorm_zero (w : vec R) : (forall j, (j < length w)%nat -> vget w j = 0) -> sqnorm w = 0.
Proof. intros H. rewrite sqnorm_R. unfold fdot. rewrite (Rsum_ext _ _ (fun _ => 0)); [apply Rsum_0|]. intros j Hj. rewrite H by exact Hj. ring. Qed.
Lemma Rabs_0 a : Rabs a <= 0 -> a = 0.
Proof. unfold Rabs. destruct (Rcase_abs a); lra. Qed.

Section Zero.
  Variables (pb : fproblem R) (cf : fconfig R) (D : derivs R).
  Notation nx := (pb_nx (fp_dp pb)).
  Notation Nf := (Nf cf).
  Lemma kkt_sum_0 eps n : forall cl ss ns acc e, kkt_sum eps cl ss ns n acc = Some e -> acc = 0 ->
    (forall c, nth_error cl n = Some c -> sqnorm (c_Lxbar c) = 0) ->
    (forall i c s w, (i < n)%nat -> nth_error cl i = Some c -> nth_error ss i = Some s -> nth_error ns i = Some w ->
       sqnorm (c_xbar c) = 0 /\ sqnorm (c_gbar c) = 0 /\ sqnorm (c_Lxbar c) = 0 /\ sqnorm (c_Lubar c) = 0 /\ sqnorm (kkt_comp eps s w) = 0) ->
    e = 0.
  Proof.
    induction n as [|n IH]; intros cl ss ns acc e H Ha He Hi; cbn [kkt_sum] in H.
    - destruct cl as [|c cl]; [discriminate|]. apply some_inj in H; subst e. rewrite (He c eq_refl). opsR. lra.
    - destruct cl as [|c cl]; [discriminate|]. destruct ss as [|s ss]; [discriminate|]. destruct ns as [|w ns]; [discriminate|].
      cbn [kkt_sum] in H. opt1 H.
      destruct (Hi 0%nat c s w ltac:(lia) eq_refl eq_refl eq_refl) as (Z1 & Z2 & Z3 & Z4 & Z5).
      apply IH in H; [exact H|opsR; lra|exact He|]. intros i c1 s1 w1 Hlt. apply (Hi (Datatypes.S i)). lia.
  Qed.
  (** At a point that satisfies the KKT conditions exactly the error is zero. *)
  Lemma kkt_zero st cl e : computes pb D -> coeffs pb cf (f_t st) (f_var st) cl = Some (f_coeff st) ->
    kkt_error cf nzero st = Some e -> approx_kkt pb D (f_t st) (f_x st) (f_var st) Nf 0 -> e = 0.
  Proof.
    intros CM Hc Hk [K1 K2 K3]. apply coeffs_spec in Hc as (Lc & Hc & (ce & Ece & Hce)).
    unfold kkt_error in Hk. do 3 opt1 Hk. apply some_inj in Hk; subst e. rename r into ee. unfold vdimb in B. apply Nat.eqb_eq in B.
    enough (ee = 0) as -> by (opsR; apply sqrt_0). destruct (K1 _ ltac:(first [exact E|reflexivity])) as (_ & K1').
    apply kkt_sum_0 in E0; [exact E0| | |].
    - rewrite sqnorm_zero; [opsR; lra|]. intros j Hj. rewrite vlen_sub in Hj. rewrite vsub_get by exact Hj. apply Rabs_0, K1'. lia.
    - intros c Ec. rewrite Ece in Ec. injection Ec as <-.
      destruct (coeff_end_spec pb cf D _ _ _ _ CM Hce) as (xN & lN & _ & ExN & ElN & _ & LT & LlN & ELx & ELxx & ELxb).
      apply sqnorm_zero. intros j Hj. rewrite ELxb, vlen_sub, ELx in Hj. rewrite ELxb, vsub_get by (rewrite ELx; lia). rewrite ELx, ft_R.
      apply Rabs_0, (K3 xN lN ExN ElN). lia.
    - intros i c s w Hi Ec Es Ew. destruct (Hc i Hi) as (c1 & Ec1 & Hat). rewrite Ec in Ec1. injection Ec1 as <-.
      destruct (coeff_at_spec pb D _ _ _ _ _ CM Hat) as (x & u & l & s1 & n & x' & l' & cj & St & _ & S). cbn zeta in S.
      destruct S as (D1 & D2 & D3 & D4 & D5 & D6 & MA & MB & MC & MD & D7 & D8 & EA & EB & EC & ED & ELx0 & ELu & ELxx0 & ELuu & ELxu & Xb & Gb & Lxb & Lub & _).
      pose proof St as (S1 & S2 & S3 & S4 & S5 & S6 & S7). rewrite S4 in Es. injection Es as <-. rewrite S5 in Ew. injection Ew as <-.
      destruct (K2 i x u l s1 n x' l' Hi St) as (R1 & R2 & R3 & R4 & R5). rewrite <- !ft_R in *.
      split; [|split; [|split; [|split]]]; apply sqnorm_zero; intros j Hj.
      + rewrite Xb, vlen_sub in Hj. rewrite Xb, vsub_get by exact Hj. apply Rabs_0, R1. lia.
      + rewrite Gb, vlen_add in Hj. rewrite Gb, vadd_get by exact Hj. apply Rabs_0, R2. lia.
      + rewrite Lxb, !vlen_add, vlen_scale in Hj. specialize (R3 j ltac:(lia)). apply Rabs_0 in R3.
        rewrite Lxb. rewrite !vadd_get by (rewrite ?vlen_add, ?vlen_scale; lia). rewrite !vscale_get by (rewrite ?ELx0; lia).
        rewrite EA, EC, ELx0, (mtr_mv_get _ _ _ _ _ MA), (mtr_mv_get _ _ _ _ _ MC), mone_R. lra.
      + rewrite Lub, !vlen_add, vlen_scale, ELu in Hj. specialize (R4 j ltac:(lia)). apply Rabs_0 in R4.
        rewrite Lub. rewrite !vadd_get by (rewrite ?vlen_add, ?vlen_scale, ?ELu; lia). rewrite !vscale_get by (rewrite ?ELu; lia).
        rewrite EB, ED, ELu, (mtr_mv_get _ _ _ _ _ MB), (mtr_mv_get _ _ _ _ _ MD). lra.
      + unfold kkt_comp in *. rewrite vbuild_length in Hj. rewrite vbuild_get by exact Hj. destruct (R5 j Hj) as (P1 & P2 & P3).
        rewrite nmax_R. opsR. unfold Rmax. destruct (Rle_dec _ _); [reflexivity|]. change (nzero (T := R)) with 0 in *. lra.
  Qed.

  (** The full Newton step reaches an exact KKT point of a linear-quadratic problem. *)
  Lemma lq_full_step t0 x0 eps v d v' : lq_problem pb D -> newton_step pb D t0 x0 eps Nf v d ->
    (exists x, nth_error (v_x v) 0 = Some x /\ nth_error (v_x d) 0 = Some (vsub x0 x) /\ length x = length x0 /\ length x = nx) ->
    (forall i, (i < Nf)%nat -> primal_stage pb D t0 v d i) ->
    moved (Nf + 1) 1 (v_x v) (v_x d) (v_x v') -> moved Nf 1 (v_u v) (v_u d) (v_u v') -> moved (Nf + 1) 1 (v_l v) (v_l d) (v_l v') ->
    moved Nf 1 (v_s v) (v_s d) (v_s v') -> moved Nf 1 (v_n v) (v_n d) (v_n v') ->
    (forall i l, nth_error (v_l v) i = Some l -> (i <= Nf)%nat -> length l = nx) ->
    approx_kkt pb D t0 x0 v' Nf 0.
  Proof.
    intros [AF LC LX LU LT LF] [N1 N2 N3] (xi & Exi & Edi & Li & Lxi) PS MX MU (_ & Ml & _) MS (_ & Mn & _) Ll.
    pose proof MX as (_ & Mx & _). pose proof MS as (_ & Ms & _). pose proof MU as (_ & Mu & _).
    pose proof (affine_step pb cf D t0 x0 v d v' 1 AF (ex_intro _ xi (conj Exi (conj Edi (conj Li Lxi)))) PS MX MU MS) as SC.
    assert (LXs : forall i x, (i <= Nf)%nat -> nth_error (v_x v) i = Some x -> length x = nx).
    { intros [|i] x Hi Hx; [rewrite Exi in Hx; injection Hx as <-; exact Lxi|].
      destruct (PS i ltac:(lia)) as (x1 & u & l & s & n & x' & l' & dx & du & dl & ds & dn & dx' & dl' & St & _ & D1 & _).
      destruct St as (_ & _ & _ & _ & _ & S6 & _). rewrite Nat.add_1_r in S6. rewrite S6 in Hx. injection Hx as <-. exact D1. }
    constructor.
    - intros y Hy. destruct (Mx 0%nat ltac:(lia)) as (a1 & a2 & y1 & U1 & U2 & U3 & U4 & U5 & U6). rewrite Exi in U1. injection U1 as <-. rewrite Edi in U2. injection U2 as <-.
      rewrite Hy in U3. injection U3 as <-. split; [lia|]. intros j Hj. rewrite U6 by lia. rewrite vsub_get by exact Hj.
      replace (_ - _) with 0 by ring. rewrite Rabs_R0. lra.
    - intros i y w l2 s2 n2 y' l2' Hi St2. cbn zeta. rewrite <- ft_R.
      destruct (N2 i Hi) as (x & u & l & s & n & x' & l' & dx & du & dl & ds & dn & dx' & dl' & St & Sd & Q1 & Q2 & Q3 & Q). cbn zeta in Q. rewrite <- ft_R in Q.
      destruct Q as (E1 & E2 & _ & E4 & E5).
      destruct (PS i Hi) as (x9 & u9 & l9 & s9 & n9 & x9' & l9' & dx9 & du9 & dl9 & ds9 & dn9 & dx9' & dl9' & St9 & Sd9 & D1 & D2 & D3 & D4 & D5 & D6 & _).
      destruct (stage_fun _ _ _ _ _ _ _ _ _ _ _ _ _ _ _ _ St St9) as (-> & -> & -> & -> & -> & -> & ->).
      destruct (stage_fun _ _ _ _ _ _ _ _ _ _ _ _ _ _ _ _ Sd Sd9) as (-> & -> & -> & -> & -> & -> & ->).
      rewrite LF in D6. cbn in D6.
      destruct St as (S1 & S2 & S3 & S4 & S5 & S6 & S7). destruct Sd as (T1 & T2 & T3 & T4 & T5 & T6 & T7). destruct St2 as (Y1 & Y2 & Y3 & Y4 & Y5 & Y6 & Y7).
      destruct (Mx i ltac:(lia)) as (a1 & a2 & a3 & U1 & U2 & U3 & U4 & U5 & U6). rewrite S1 in U1. injection U1 as <-. rewrite T1 in U2. injection U2 as <-. rewrite Y1 in U3. injection U3 as <-.
      destruct (Mx (i + 1)%nat ltac:(lia)) as (b1 & b2 & b3 & V1 & V2 & V3 & V4 & V5 & V6). rewrite S6 in V1. injection V1 as <-. rewrite T6 in V2. injection V2 as <-. rewrite Y6 in V3. injection V3 as <-.
      destruct (Mu i Hi) as (c1 & c2 & c3 & W1 & W2 & W3 & W4 & W5 & W6). rewrite S2 in W1. injection W1 as <-. rewrite T2 in W2. injection W2 as <-. rewrite Y2 in W3. injection W3 as <-.
      destruct (Ml i ltac:(lia)) as (e1 & e2 & e3 & X1 & X2 & X3 & X4 & X5 & X6). rewrite S3 in X1. injection X1 as <-. rewrite T3 in X2. injection X2 as <-. rewrite Y3 in X3. injection X3 as <-.
      destruct (Ml (i + 1)%nat ltac:(lia)) as (f1 & f2 & f3 & Z1 & Z2 & Z3 & Z4 & Z5 & Z6). rewrite S7 in Z1. injection Z1 as <-. rewrite T7 in Z2. injection Z2 as <-. rewrite Y7 in Z3. injection Z3 as <-.
      destruct (Ms i Hi) as (g1 & g2 & g3 & H1 & H2 & H3 & H4 & H5 & H6). rewrite S4 in H1. injection H1 as <-. rewrite Y4 in H3. injection H3 as <-.
      pose proof (LXs i x ltac:(lia) S1) as Lx. pose proof (Ll i l S3 ltac:(lia)) as Lll. pose proof (Ll (i + 1)%nat l' S7 ltac:(lia)) as Lll'.
      destruct (LC (ft pb t0 i) x u y w Lx U5 W5) as (CA & CB). rewrite CA, CB. replace (length s2) with 0%nat by lia. rewrite <- D6 in *. cbn [Rsum] in *. rewrite W5.
      split; [|split; [|split; [|split]]]; try (intros; lia).
      + intros j Hj. pose proof (sc_dyn _ _ _ _ _ _ _ SC i j Hi Hj) as Ed. unfold dyn_res in Ed at 1. rewrite <- ft_R in Ed.
        rewrite (nth_some _ _ _ _ Y1), (nth_some _ _ _ _ Y2), (nth_some _ _ _ _ Y6) in Ed. rewrite Ed. replace (_ * _) with 0 by ring. rewrite Rabs_R0. lra.
      + intros j Hj. specialize (E4 j Hj). rewrite (LX (ft pb t0 i) x u y w Lx U5 W5 j ltac:(lia)). rewrite X6 by lia.
        rewrite (Rsum_ext (length x) (fun k => mget (d_Lxx D (ft pb t0 i) x u) j k * (vget y k - vget x k)) (fun k => mget (d_Lxx D (ft pb t0 i) x u) j k * vget dx k)) by (intros k Hk; rewrite U6 by exact Hk; ring).
        rewrite (Rsum_ext (length u) (fun k => mget (d_Lxu D (ft pb t0 i) x u) j k * (vget w k - vget u k)) (fun k => mget (d_Lxu D (ft pb t0 i) x u) j k * vget du k)) by (intros k Hk; rewrite W6 by exact Hk; ring).
        rewrite (Rsum_ext nx (fun k => mget (d_A D (ft pb t0 i) x u) k j * vget l2' k) (fun k => mget (d_A D (ft pb t0 i) x u) k j * (vget l' k + vget dl' k))) by (intros k Hk; rewrite Z6 by lia; ring).
        rewrite Lx in *. match goal with |- Rabs ?a <= 0 => replace a with 0 by lra end. rewrite Rabs_R0. lra.
      + intros j Hj. specialize (E5 j Hj). rewrite (LU (ft pb t0 i) x u y w Lx U5 W5 j ltac:(lia)).
        rewrite (Rsum_ext (length x) (fun k => mget (d_Lxu D (ft pb t0 i) x u) k j * (vget y k - vget x k)) (fun k => mget (d_Lxu D (ft pb t0 i) x u) k j * vget dx k)) by (intros k Hk; rewrite U6 by exact Hk; ring).
        rewrite (Rsum_ext (length u) (fun k => mget (d_Luu D (ft pb t0 i) x u) j k * (vget w k - vget u k)) (fun k => mget (d_Luu D (ft pb t0 i) x u) j k * vget du k)) by (intros k Hk; rewrite W6 by exact Hk; ring).
        rewrite (Rsum_ext nx (fun k => mget (d_B D (ft pb t0 i) x u) k j * vget l2' k) (fun k => mget (d_B D (ft pb t0 i) x u) k j * (vget l' k + vget dl' k))) by (intros k Hk; rewrite Z6 by lia; ring).
        rewrite Lx in *. match goal with |- Rabs ?a <= 0 => replace a with 0 by lra end. rewrite Rabs_R0. lra.
    - intros y l2 Hy Hl2 j Hj. destruct N3 as (x & l & dx & dl & S1 & S2 & S3 & S4 & E). cbn zeta in E. specialize (E j Hj).
      destruct (Mx Nf ltac:(lia)) as (a1 & a2 & a3 & U1 & U2 & U3 & U4 & U5 & U6). rewrite S1 in U1. injection U1 as <-. rewrite S3 in U2. injection U2 as <-. rewrite Hy in U3. injection U3 as <-.
      destruct (Ml Nf ltac:(lia)) as (e1 & e2 & e3 & X1 & X2 & X3 & X4 & X5 & X6). rewrite S2 in X1. injection X1 as <-. rewrite S4 in X2. injection X2 as <-. rewrite Hl2 in X3. injection X3 as <-.
      pose proof (LXs Nf x ltac:(lia) S1) as Lx. pose proof (Ll Nf l S2 ltac:(lia)) as Lll.
      rewrite (LT _ x y Lx U5 j ltac:(lia)), X6 by lia.
      rewrite (Rsum_ext (length x) _ (fun k => mget (d_Txx D (t0 + INR Nf * pb_dt (fp_dp pb)) x) j k * vget dx k)) by (intros k Hk; rewrite U6 by exact Hk; ring).
      rewrite Lx in *. match goal with |- Rabs ?a <= 0 => replace a with 0 by lra end. rewrite Rabs_R0. lra.
  Qed.
End Zero.
