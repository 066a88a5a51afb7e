(** The primal part of the FMPC step, for every linear solver, and its effect on affine problems. *)
From Coq Require Import Reals Lra Psatz FunctionalExtensionality.
From Verif Require Import Prelude Scalar LinAlg RLin DDP Fmpc FmpcProofs FmpcStep FmpcSpec FmpcReal FmpcNewton.
Local Open Scope R_scope.

Section Primal.
  Variables (LO : linops R) (pb : fproblem R) (cf : fconfig R) (D : derivs R).
  Notation nx := (pb_nx (fp_dp pb)).
  Notation Nf := (Nf cf).
  (** The step at stage i solves the linearised dynamics and inequality. *)
  Definition primal_stage (t0 : R) (v d : var R) (i : nat) : Prop :=
    exists x u l s n x' l' dx du dl ds dn dx' dl',
      stage v i x u l s n x' l' /\ stage d i dx du dl ds dn dx' dl' /\
      let t := ft pb t0 i in
      length x' = nx /\ length dx = nx /\ length dx' = nx /\ length du = length u /\ length ds = length s /\ length (fp_g pb t x u) = length s /\
      (forall j, (j < nx)%nat -> vget x' j + vget dx' j = vget (pb_stateEq (fp_dp pb) t x u) j
         + Rsum nx (fun k => mget (d_A D t x u) j k * vget dx k) + Rsum (length u) (fun k => mget (d_B D t x u) j k * vget du k)) /\
      (forall j, (j < length s)%nat -> vget (fp_g pb t x u) j + Rsum nx (fun k => mget (d_C D t x u) j k * vget dx k)
         + Rsum (length u) (fun k => mget (d_D D t x u) j k * vget du k) + (vget s j + vget ds j) = 0).
  Lemma bw_keep eps c sl nl s P c' : bw_coeff LO pb cf eps c sl nl s P = Some (Some c') ->
    (c_A c' = c_A c /\ c_B c' = c_B c /\ c_C c' = c_C c /\ c_D c' = c_D c /\ c_xbar c' = c_xbar c /\ c_gbar c' = c_gbar c) /\
    let nu := mcols (c_B c) in let ng := length sl in
    mdimb nx nx (c_A c) = true /\ mdimb nx nu (c_B c) = true /\ mdimb ng nx (c_C c) = true /\ mdimb ng nu (c_D c) = true /\
    length (c_xbar c) = nx /\ length (c_gbar c) = ng /\ mdimb nu nx (c_K c') = true /\ length (c_k c') = nu.
  Proof.
    intros H. unfold bw_coeff in H. cbn zeta in H. opt1 H. unfold vdimb, dp in B. rewrite !andb_true_iff, !Nat.eqb_eq in B.
    destruct B as (((((((((((((B1 & B2) & B3) & B4) & B5) & B6) & B7) & B8) & B9) & B10) & B11) & B12) & B13) & B14).
    match type of H with match ?g with _ => _ end = _ => destruct g as [[k K]|]; [|discriminate] end.
    opt1 H. unfold vdimb, dp in B. rewrite !andb_true_iff, !Nat.eqb_eq in B. destruct B as (C1 & C2).
    apply some_inj, some_inj in H. subst c'. cbn zeta. cbn [c_A c_B c_C c_D c_xbar c_gbar c_k c_K]. auto 20.
  Qed.
  Lemma passes_primal st cl0 cl d : computes pb D ->
    coeffs pb cf (f_t st) (f_var st) cl0 = Some (f_coeff st) ->
    backward_pass LO pb cf st = Ok true (set_fcoeff cl st) -> delta_of pb cf (set_fcoeff cl st) = Some d ->
    (exists x, nth_error (v_x (f_var st)) 0 = Some x /\ nth_error (v_x d) 0 = Some (vsub (f_x st) x) /\ length x = length (f_x st) /\ length x = nx) /\
    forall i, (i < Nf)%nat -> primal_stage (f_t st) (f_var st) d i.
  Proof.
    intros CM Hc Hb Hd.
    destruct (backward_lists _ _ _ _ _ Hb) as (ce & acc & Ece & Hbw). apply bw_coeffs_spec in Hbw as (Bend & Bst).
    apply coeffs_spec in Hc as (_ & Hc & _).
    unfold delta_of in Hd. cbn [set_fcoeff f_delta f_var f_x f_coeff f_eps] in Hd. do 2 opt1 Hd. opt1 Hd. destruct p as [[xs ls] us]. do 2 opt1 Hd.
    rename E1 into Esn, l into sns, v into xi, E into Exi. apply some_inj in Hd; subst d. rewrite !andb_true_iff, !Nat.leb_le in B0.
    destruct B0 as ((((G1 & G2) & G3) & G4) & G5). unfold vdimb in B. apply Nat.eqb_eq in B.
    apply fw_lists_spec in E0 as (Lxs & Lls & Lus & Hx0 & Hfl & Hfu).
    pose proof (tabo_length _ _ _ Esn) as Lsn.
    assert (NX : forall i, (i <= Nf)%nat -> nth_error (overwrite xs (v_x (f_delta st))) i = nth_error xs i) by (intros; apply overwrite_nth; lia).
    assert (NL : forall i, (i <= Nf)%nat -> nth_error (overwrite ls (v_l (f_delta st))) i = nth_error ls i) by (intros; apply overwrite_nth; lia).
    split.
    { exists xi. cbn [v_x]. rewrite NX, Hx0 by lia. split; [first [exact Exi|reflexivity]|]. split; [reflexivity|]. split; [exact B|].
      destruct (Hfl 0%nat ltac:(lia)) as (c1 & dx & dl & _ & F2 & _ & Ldx & _). rewrite Hx0 in F2. injection F2 as <-. rewrite vlen_sub in Ldx. congruence. }
    intros i Hi.
    destruct (Bst i Hi) as (c & sl & nl & c' & cn & E1 & E2 & E3 & Ec' & Ecn & Hbc).
    destruct (Hc i Hi) as (c0 & E7 & Hat). rewrite E1 in E7. injection E7 as <-.
    destruct (coeff_at_spec pb D _ _ _ _ _ CM Hat) as (x & u & l & s & n & x' & l' & cj & St & _ & S). cbn zeta in S.
    destruct S as (D1 & D2 & D3 & D4 & D5 & D6 & MA & MB & MC & MD & D7 & D8 & EA & EB & EC & ED & ELx0 & ELu & ELxx0 & ELuu & ELxu & Xb & Gb & _).
    pose proof St as (S1 & S2 & S3 & S4 & S5 & S6 & S7). rewrite S4 in E2. injection E2 as <-. rewrite S5 in E3. injection E3 as <-.
    assert (Enu : mcols (c_B c) = length u) by (rewrite EB; apply (mdimb_cols _ _ _ MB)).
    apply bw_keep in Hbc as ((BA & BB & BC & BD & Bx & Bg) & Q). cbn zeta in Q. rewrite Enu in Q. destruct Q as (Q3 & Q4 & Q5 & Q6 & Q10 & Q11 & O2 & O1).
    destruct (Hfu i Hi) as (c1 & dx & du & dx' & F1 & F2 & F3 & F4 & FF). rewrite Ec' in F1. injection F1 as <-. cbn zeta in FF.
    destruct (Hfl i ltac:(lia)) as (c1 & dx1 & dl & F5 & F6 & F7 & Ldx & _). rewrite F2 in F6. injection F6 as <-.
    destruct (Hfl (i + 1)%nat ltac:(lia)) as (c2 & dx1 & dl' & F8 & F9 & F10 & Ldx' & _). rewrite F4 in F9. injection F9 as <-.
    destruct (tabo_nth _ _ _ _ Esn Hi) as (T1 & T2).
    rewrite BA, BB, Bx, Enu in FF. destruct FF as (_ & _ & _ & _ & _ & Edu & Edx').
    assert (Ldu : length du = length u) by (rewrite Edu, vlen_add; apply (vlen_mv _ _ _ _ O2)).
    assert (Etab : fw_sn (f_eps st) cl (f_var st) xs us i = Some (fw_s c' dx du, fw_n (f_eps st) s n (fw_s c' dx du))).
    { unfold fw_sn in *. rewrite Ec', F2, F3, S4, S5 in *. match goal with |- (if ?b then _ else _) = _ => destruct b; [reflexivity|contradiction] end. }
    rewrite Etab in T1.
    assert (Lds : length (fw_s c' dx du) = length s).
    { unfold fw_s. rewrite vlen_scale, !vlen_add, BC. apply (vlen_mv _ _ _ _ Q5). }
    exists x, u, l, s, n, x', l', dx, du, dl, (fw_s c' dx du), (fw_n (f_eps st) s n (fw_s c' dx du)), dx', dl'.
    split; [exact St|]. split.
    { unfold stage. cbn [v_x v_u v_l v_s v_n]. rewrite !NX, !NL by lia. rewrite !overwrite_nth by (rewrite ?map_length; lia).
      pose proof (map_nth_error fst _ _ T1) as Tf. pose proof (map_nth_error snd _ _ T1) as Ts. repeat split; assumption. }
    cbn zeta. do 6 (split; [assumption|]). rewrite <- EA, <- EB, <- EC, <- ED.
    assert (Vdx' : vget dx' = fadd (fadd (fmv nx (mget (c_A c)) (vget dx)) (fmv (length u) (mget (c_B c)) (vget du))) (vget (c_xbar c))).
    { rewrite Edx'. rewrite vadd_f by (rewrite vlen_add, (vlen_mv _ _ _ _ Q3); lia).
      rewrite vadd_f by (rewrite (vlen_mv _ _ _ _ Q3), (vlen_mv _ _ _ _ Q4); lia). rewrite (mvmul_f _ _ _ _ Q3), (mvmul_f _ _ _ _ Q4). reflexivity. }
    assert (Vds : vget (fw_s c' dx du) = fscal (-1) (fadd (fadd (fmv nx (mget (c_C c)) (vget dx)) (fmv (length u) (mget (c_D c)) (vget du))) (vget (c_gbar c)))).
    { unfold fw_s. rewrite BC, BD, Bg, mone_R, vscale_f. f_equal. rewrite vadd_f by (rewrite vlen_add, (vlen_mv _ _ _ _ Q5); lia).
      rewrite vadd_f by (rewrite (vlen_mv _ _ _ _ Q5), (vlen_mv _ _ _ _ Q6); lia). rewrite (mvmul_f _ _ _ _ Q5), (mvmul_f _ _ _ _ Q6). reflexivity. }
    split.
    - intros j Hj. rewrite Vdx'. unfold fadd, fmv. rewrite Xb, vsub_get by lia. lra.
    - intros j Hj. rewrite Vds. unfold fscal, fadd, fmv. rewrite Gb, vadd_get by lia. lra.
  Qed.

  Lemma nth_some {A} (l : list A) i a d : nth_error l i = Some a -> nth i l d = a.
  Proof. intros H. apply nth_error_nth with (1 := H). Qed.
  (** One step on an affine problem. *)
  Lemma affine_step t0 x0 v d v' a : affine_primal pb D ->
    (exists x, nth_error (v_x v) 0 = Some x /\ nth_error (v_x d) 0 = Some (vsub x0 x) /\ length x = length x0 /\ length x = nx) ->
    (forall i, (i < Nf)%nat -> primal_stage t0 v d i) ->
    moved (Nf + 1) a (v_x v) (v_x d) (v_x v') -> moved Nf a (v_u v) (v_u d) (v_u v') -> moved Nf a (v_s v) (v_s d) (v_s v') ->
    scaled pb t0 x0 Nf (1 - a) v v'.
  Proof.
    intros AF (xi & Exi & Edi & Li & Lxi) PS (_ & Mx & _) (_ & Mu & _) (_ & Ms & _).
    assert (LX : forall i x, (i <= Nf)%nat -> nth_error (v_x v) i = Some x -> length x = nx).
    { intros [|i] x Hi Hx; [rewrite Exi in Hx; injection Hx as <-; exact Lxi|].
      destruct (PS i ltac:(lia)) as (x1 & u & l & s & n & x' & l' & dx & du & dl & ds & dn & dx' & dl' & St & _ & D1 & _).
      destruct St as (_ & _ & _ & _ & _ & S6 & _). rewrite Nat.add_1_r in S6. rewrite S6 in Hx. injection Hx as <-. exact D1. }
    assert (Go : forall i, (i < Nf)%nat -> exists x u s x' dx du ds dx' y w r y', 
       nth_error (v_x v) i = Some x /\ nth_error (v_u v) i = Some u /\ nth_error (v_s v) i = Some s /\ nth_error (v_x v) (i + 1) = Some x' /\
       nth_error (v_x v') i = Some y /\ nth_error (v_u v') i = Some w /\ nth_error (v_s v') i = Some r /\ nth_error (v_x v') (i + 1) = Some y' /\
       length y = length x /\ length w = length u /\ length r = length s /\ length y' = length x' /\ length x = nx /\ length x' = nx /\
       length (fp_g pb (ft pb t0 i) x u) = length s /\
       (forall j, (j < length x)%nat -> vget y j = vget x j + a * vget dx j) /\ (forall j, (j < length u)%nat -> vget w j = vget u j + a * vget du j) /\
       (forall j, (j < length s)%nat -> vget r j = vget s j + a * vget ds j) /\ (forall j, (j < length x')%nat -> vget y' j = vget x' j + a * vget dx' j) /\
       (forall j, (j < nx)%nat -> vget x' j + vget dx' j = vget (pb_stateEq (fp_dp pb) (ft pb t0 i) x u) j
         + Rsum nx (fun k => mget (d_A D (ft pb t0 i) x u) j k * vget dx k) + Rsum (length u) (fun k => mget (d_B D (ft pb t0 i) x u) j k * vget du k)) /\
       (forall j, (j < length s)%nat -> vget (fp_g pb (ft pb t0 i) x u) j + Rsum nx (fun k => mget (d_C D (ft pb t0 i) x u) j k * vget dx k)
         + Rsum (length u) (fun k => mget (d_D D (ft pb t0 i) x u) j k * vget du k) + (vget s j + vget ds j) = 0)).
    { intros i Hi. destruct (PS i Hi) as (x & u & l & s & n & x' & l' & dx & du & dl & ds & dn & dx' & dl' & St & Sd & Q). cbn zeta in Q.
      destruct St as (S1 & S2 & _ & S4 & _ & S6 & _). destruct Sd as (T1 & T2 & _ & T4 & _ & T6 & _). destruct Q as (D1 & D2 & D3 & D4 & D5 & D6 & E1 & E2).
      destruct (Mx i ltac:(lia)) as (a1 & a2 & y & U1 & U2 & U3 & U4 & U5 & U6). rewrite S1 in U1. injection U1 as <-. rewrite T1 in U2. injection U2 as <-.
      destruct (Mx (i + 1)%nat ltac:(lia)) as (b1 & b2 & y' & V1 & V2 & V3 & V4 & V5 & V6). rewrite S6 in V1. injection V1 as <-. rewrite T6 in V2. injection V2 as <-.
      destruct (Mu i Hi) as (c1 & c2 & w & W1 & W2 & W3 & W4 & W5 & W6). rewrite S2 in W1. injection W1 as <-. rewrite T2 in W2. injection W2 as <-.
      destruct (Ms i Hi) as (e1 & e2 & r & X1 & X2 & X3 & X4 & X5 & X6). rewrite S4 in X1. injection X1 as <-. rewrite T4 in X2. injection X2 as <-.
      exists x, u, s, x', dx, du, ds, dx', y, w, r, y'. repeat (split; [assumption|]).
      split; [apply (LX i); [lia|assumption]|]. repeat (split; [assumption|]). assumption. }
    constructor.
    - intros j Hj. destruct (Mx 0%nat ltac:(lia)) as (a1 & a2 & y & U1 & U2 & U3 & U4 & U5 & U6). rewrite Exi in U1. injection U1 as <-. rewrite Edi in U2. injection U2 as <-.
      unfold init_res. rewrite (nth_some _ _ _ _ Exi), (nth_some _ _ _ _ U3), U6 by lia. rewrite vsub_get by exact Hj. ring.
    - intros i j Hi Hj. destruct (Go i Hi) as (x & u & s & x' & dx & du & ds & dx' & y & w & r & y' & A1 & A2 & A3 & A4 & A5 & A6 & A7 & A8 & L1 & L2 & L3 & L4 & L5 & L6 & L7 & V1 & V2 & V3 & V4 & E1 & E2).
      unfold dyn_res. rewrite <- ft_R, (nth_some _ _ _ _ A1), (nth_some _ _ _ _ A2), (nth_some _ _ _ _ A4), (nth_some _ _ _ _ A5), (nth_some _ _ _ _ A6), (nth_some _ _ _ _ A8).
      destruct (AF (ft pb t0 i) x u y w L5 L1 L2) as (Af & _). rewrite (Af j Hj), V4 by lia. specialize (E1 j Hj).
      rewrite (Rsum_ext (length x) _ (fun k => a * (mget (d_A D (ft pb t0 i) x u) j k * vget dx k))) by (intros k Hk; rewrite V1 by exact Hk; ring).
      rewrite (Rsum_ext (length u) (fun k => mget (d_B D (ft pb t0 i) x u) j k * (vget w k - vget u k)) (fun k => a * (mget (d_B D (ft pb t0 i) x u) j k * vget du k))) by (intros k Hk; rewrite V2 by exact Hk; ring).
      rewrite !Rsum_scal, L5. replace (vget dx' j) with (vget (pb_stateEq (fp_dp pb) (ft pb t0 i) x u) j
         + Rsum nx (fun k => mget (d_A D (ft pb t0 i) x u) j k * vget dx k) + Rsum (length u) (fun k => mget (d_B D (ft pb t0 i) x u) j k * vget du k) - vget x' j) by lra. ring.
    - intros i Hi. destruct (Go i Hi) as (x & u & s & x' & dx & du & ds & dx' & y & w & r & y' & A1 & A2 & A3 & A4 & A5 & A6 & A7 & A8 & L1 & L2 & L3 & _).
      rewrite (nth_some _ _ _ _ A3), (nth_some _ _ _ _ A7). exact L3.
    - intros i j Hi Hj. destruct (Go i Hi) as (x & u & s & x' & dx & du & ds & dx' & y & w & r & y' & A1 & A2 & A3 & A4 & A5 & A6 & A7 & A8 & L1 & L2 & L3 & L4 & L5 & L6 & L7 & V1 & V2 & V3 & V4 & E1 & E2).
      unfold ineq_res. rewrite <- ft_R. rewrite (nth_some _ _ _ _ A3) in *. rewrite (nth_some _ _ _ _ A1), (nth_some _ _ _ _ A2), (nth_some _ _ _ _ A5), (nth_some _ _ _ _ A6), (nth_some _ _ _ _ A7).
      destruct (AF (ft pb t0 i) x u y w L5 L1 L2) as (_ & Ag). rewrite (Ag j ltac:(lia)), V3 by lia. specialize (E2 j Hj).
      rewrite (Rsum_ext (length x) _ (fun k => a * (mget (d_C D (ft pb t0 i) x u) j k * vget dx k))) by (intros k Hk; rewrite V1 by exact Hk; ring).
      rewrite (Rsum_ext (length u) (fun k => mget (d_D D (ft pb t0 i) x u) j k * (vget w k - vget u k)) (fun k => a * (mget (d_D D (ft pb t0 i) x u) j k * vget du k))) by (intros k Hk; rewrite V2 by exact Hk; ring).
      rewrite !Rsum_scal, L5. replace (vget ds j) with (- (vget (fp_g pb (ft pb t0 i) x u) j
         + Rsum nx (fun k => mget (d_C D (ft pb t0 i) x u) j k * vget dx k) + Rsum (length u) (fun k => mget (d_D D (ft pb t0 i) x u) j k * vget du k) + vget s j)) by lra. ring.
  Qed.
  Lemma scaled_refl t0 x0 N v : scaled pb t0 x0 N 1 v v.
  Proof. constructor; intros; lra || reflexivity. Qed.
  Lemma scaled_trans t0 x0 N a b v1 v2 v3 : scaled pb t0 x0 N a v1 v2 -> scaled pb t0 x0 N b v2 v3 -> scaled pb t0 x0 N (a * b) v1 v3.
  Proof.
    intros [A1 A2 A3 A4] [B1 B2 B3 B4]. constructor.
    - intros j Hj. rewrite B1, A1 by exact Hj. ring.
    - intros i j Hi Hj. rewrite B2, A2 by assumption. ring.
    - intros i Hi. rewrite B3, A3 by exact Hi. reflexivity.
    - intros i j Hi Hj. rewrite B4, A4 by (rewrite ?A3; assumption). ring.
  Qed.
End Primal.
