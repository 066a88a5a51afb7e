(** updateVariables of the FMPC solver in binary64 arithmetic: slacks and multipliers that are neither tiny nor huge stay positive. *)
From Coq Require Import Reals Lra Psatz.
From Flocq Require Import Core BinarySingleNaN.
From Verif Require Import Prelude Scalar LinAlg RLin DDP Fmpc FmpcProofs FmpcStep FmpcSpec B64 FmpcF64.
Local Open Scope R_scope.

Definition lo500 : R := bpow radix2 (-500).
Definition hi500 : R := bpow radix2 500.
(** Entries between 2^-500 and 2^500, and entries of magnitude at most 2^500. *)
Definition in_range64 (l : list (vec b64)) : Prop := forall w a, In w l -> In a w -> fin a /\ lo500 <= val a <= hi500.
Definition bounded64 (l : list (vec b64)) : Prop := forall w a, In w l -> In a w -> fin a /\ Rabs (val a) <= hi500.
(** Every entry of the new list is finite and at least [c] times the old one. *)
Definition keeps64 (gt : vec b64 -> nat -> b64) (c : R) (old new : list (vec b64)) : Prop :=
  length new = length old /\ forall i v w, nth_error old i = Some v -> nth_error new i = Some w ->
    length w = length v /\ forall j, (j < length v)%nat -> fin (gt w j) /\ c * val (gt v j) <= val (gt w j).

Lemma lo_hi : 0 < lo500 /\ 0 < hi500 /\ lo500 * hi500 = 1 /\ lo500 <= / 1024.
Proof.
  split; [apply bpow_gt_0|]. split; [apply bpow_gt_0|]. split; [unfold lo500, hi500; rewrite <- bpow_plus; reflexivity|].
  replace (/ 1024) with (bpow radix2 (-10)) by (cbn; lra). apply bpow_le. lia.
Qed.
Lemma neg_sign (x : b64) : val x < 0 -> fin x /\ Bsign x = true.
Proof.
  intros H. unfold val in H. destruct x as [s|s| |s m e B]; cbn in H; try lra. split; [reflexivity|]. destruct s; [reflexivity|].
  cbn in H. assert (0 < F2R (Float radix2 (Zpos m) e)) by (apply F2R_gt_0; reflexivity). cbn in *. lra.
Qed.
Lemma pos_fin (x : b64) : val x <> 0 -> fin x.
Proof. intros H. unfold val in H. destruct x; cbn in H; try lra; reflexivity. Qed.

Section Step64.
  Variables (ex lg : b64 -> b64) (sm : list b64 -> b64).
  Local Instance Ns : Num b64 := B64Num ex lg sm.


  Definition c995 : b64 := nmul (Num := Ns) (mone (N := Ns)) (nlit (Num := Ns) 995 1000).
  Lemma c995_val : exists c, 994 / 1000 <= c <= 9951 / 10000 /\ val c995 = - c /\ fin c995.
  Proof.
    assert (E : sf c995 = SpecFloat.S754_finite true 8962163258467287 (-53)).
    { unfold c995, mone, nofZ. cbn [nmul nlit Ns B64Num]. rewrite sf_mul. unfold b64_lit. rewrite !sf_div, !sf_ofZ. vm_compute. reflexivity. }
    exists (8962163258467287 * bpow radix2 (-53)). unfold sf in E.
    assert (V : val c995 = - (8962163258467287 * bpow radix2 (-53))).
    { unfold val. rewrite <- SF2R_B2SF, E. cbn. unfold F2R. cbn. lra. }
    split; [|split; [exact V|]].
    - cbn. lra.
    - unfold fin. rewrite <- is_finite_SF_B2SF, E. reflexivity.
  Qed.
  Definition quot (s d : b64) : b64 := ndiv (Num := Ns) (nmul (Num := Ns) c995 s) d.

  (** The candidate step length of one entry: positive, either +infinity or small enough. *)
  Lemma quot_spec s d : fin s -> lo500 <= val s <= hi500 -> fin d -> Rabs (val d) <= hi500 -> val d < 0 ->
    (quot s d = B754_infinity false /\ - val d <= lo500 * val s) \/
    (fin (quot s d) /\ 0 < val (quot s d) /\ val (quot s d) * (- val d) <= 9952 / 10000 * val s).
  Proof.
    intros Fs [Ls Hs] Fd Hd Nd. destruct lo_hi as (P1 & P2 & P3 & P4). destruct c995_val as (c & [C1 C2] & Vc & Fc).
    pose proof u53_pos as U. pose proof u53_small as U'.
    assert (B1 : Rabs (val c995 * val s) <= bpow radix2 1023).
    { rewrite Vc. rewrite <- Ropp_mult_distr_l, Rabs_Ropp, Rabs_pos_eq by nra.
      apply Rle_trans with hi500; [nra|]. apply bpow_le. lia. }
    destruct (mul_ok c995 s Fc Fs B1) as [Fp Vp]. rewrite Vc in Vp.
    replace (- c * val s) with (- (c * val s)) in Vp by ring. rewrite fl_opp in Vp.
    assert (N1 : bpow radix2 (-1022) <= Rabs (c * val s)).
    { rewrite Rabs_pos_eq by nra. apply Rle_trans with (bpow radix2 (-501)); [apply bpow_le; lia|].
      replace (bpow radix2 (-501)) with (lo500 / 2) by (unfold lo500; change (-500)%Z with (-501 + 1)%Z; rewrite bpow_plus; change (bpow radix2 1) with 2; field). nra. }
    pose proof (fl_rel _ N1) as E1. rewrite (Rabs_pos_eq (c * val s)) in E1 by nra. apply Rabs_le_inv in E1.
    set (p := Bmult mode_NE c995 s) in *. change (nmul (Num := Ns) c995 s) with p in *.
    assert (Pl : 99 / 100 * val s <= - val p) by (rewrite Vp; nra).
    assert (Pu : - val p <= 99511 / 100000 * val s).
    { rewrite Vp. assert (u53 <= / 1000000) by (unfold u53; apply Rle_trans with (bpow radix2 (-20)); [apply bpow_le; lia|cbn; lra]). nra. }
    set (q := - val p / - val d).
    assert (Eq : val p / val d = q) by (unfold q; field; lra).
    assert (Hq0 : q * (- val d) = - val p) by (unfold q; field; lra).
    assert (Hd' : - val d <= hi500) by (rewrite <- Rabs_left by exact Nd; exact Hd).
    assert (Lq : bpow radix2 (-1022) <= q).
    { apply Rmult_le_reg_r with (- val d); [lra|]. rewrite Hq0.
      apply Rle_trans with (bpow radix2 (-1022) * hi500); [apply Rmult_le_compat_l; [apply bpow_ge_0|exact Hd']|].
      apply Rle_trans with (lo500 / 1000 * 2); [|nra].
      unfold hi500. rewrite <- bpow_plus. apply Rle_trans with (bpow radix2 (-510)); [apply bpow_le; lia|].
      unfold lo500. change (-500)%Z with (-510 + 10)%Z. rewrite bpow_plus. pose proof (bpow_gt_0 radix2 (-510)).
      replace (bpow radix2 10) with 1024 by (cbn; lra). lra. }
    assert (Pq : 0 < q) by (eapply Rlt_le_trans; [apply (bpow_gt_0 radix2 (-1022))|exact Lq]).
    unfold quot. cbn [ndiv Ns B64Num]. change (nmul (Num := Ns) c995 s) with p.
    pose proof (Bdiv_correct 53 1024 _ _ mode_NE p d ltac:(change (val d <> 0); lra)) as C. change (B2R p / B2R d) with (val p / val d) in C. rewrite Eq in C.
    change (round radix2 (SpecFloat.fexp 53 1024) (round_mode mode_NE) q) with (fl q) in C.
    destruct (Rlt_bool_spec (Rabs (fl q)) (bpow radix2 1024)) as [R|R].
    - right. destruct C as (C1' & C2' & _). split; [unfold fin; rewrite C2'; exact Fp|].
      change (B2R (Bdiv mode_NE p d)) with (val (Bdiv mode_NE p d)) in C1'. rewrite C1'.
      pose proof (fl_rel q ltac:(rewrite Rabs_pos_eq by lra; exact Lq)) as E2. rewrite (Rabs_pos_eq q) in E2 by lra. apply Rabs_le_inv in E2.
      assert (U6 : u53 <= / 1000000) by (unfold u53; apply Rle_trans with (bpow radix2 (-20)); [apply bpow_le; lia|cbn; lra]).
      split; [nra|]. apply Rle_trans with (q * (1 + u53) * - val d); [nra|].
      replace (q * (1 + u53) * - val d) with ((q * - val d) * (1 + u53)) by ring. rewrite Hq0. nra.
    - left. destruct (neg_sign p ltac:(nra)) as [_ S1]. destruct (neg_sign d Nd) as [_ S2]. rewrite S1, S2 in C.
      split; [revert C; generalize (Bdiv mode_NE p d); intros z C; destruct z as [|[]| |]; try discriminate C; reflexivity|].
      assert (Q1 : bpow radix2 1023 <= q).
      { apply Rnot_lt_le. intros L. assert (Rabs (fl q) < bpow radix2 1024) by (apply in_range; rewrite Rabs_pos_eq; lra). lra. }
      apply Rmult_le_reg_l with q; [exact Pq|]. rewrite Hq0. apply Rle_trans with (val s); [nra|].
      apply Rle_trans with (bpow radix2 1023 * (lo500 * val s)); [|apply Rmult_le_compat_r; [nra|exact Q1]].
      assert (1 <= bpow radix2 1023 * lo500) by (unfold lo500; rewrite <- bpow_plus; change 1 with (bpow radix2 0); apply bpow_le; lia). nra.
  Qed.

  (** The fold over all entries. *)
  Lemma frac_fold64 (ps : list (b64 * b64)) : 
    (forall p, In p ps -> fin (fst p) /\ lo500 <= val (fst p) <= hi500 /\ fin (snd p) /\ Rabs (val (snd p)) <= hi500) ->
    forall a0, fin a0 -> 0 < val a0 -> let a := fold_left (frac1 (N := Ns)) ps a0 in
    fin a /\ 0 < val a <= val a0 /\
    forall p, In p ps -> val (snd p) < 0 -> val a <= 1 -> val a * (- val (snd p)) <= 9952 / 10000 * val (fst p).
  Proof.
    induction ps as [|p ps IH]; intros Hp a0 F0 P0; cbn -[frac1].
    - split; [exact F0|]. split; [lra|]. intros p [].
    - destruct (Hp p (or_introl eq_refl)) as (Fs & Rs & Fd & Rd).
      assert (Z : fin (B754_zero false : b64)) by reflexivity.
      assert (X : fin (frac1 (N := Ns) a0 p) /\ 0 < val (frac1 (N := Ns) a0 p) <= val a0 /\
        (val (snd p) < 0 -> forall a, 0 < a <= val (frac1 (N := Ns) a0 p) -> a <= 1 -> a * (- val (snd p)) <= 9952 / 10000 * val (fst p))).
      { unfold frac1. cbn [nltb nzero Ns B64Num]. rewrite (ltb_fin _ _ Fd Z). destruct (Rlt_bool_spec (val (snd p)) (val (B754_zero false))) as [L|L].
        - change (val (B754_zero false)) with 0 in L. fold c995. change (ndiv _ (snd p)) with (quot (fst p) (snd p)).
          destruct (quot_spec (fst p) (snd p) Fs Rs Fd Rd L) as [[E B]|(Fq & Pq & Bq)].
          + rewrite E. unfold nmin. cbn [nltb Ns B64Num].
            replace (Bltb (B754_infinity false) a0) with false by (destruct a0 as [| | |[]]; try discriminate F0; reflexivity).
            split; [exact F0|]. split; [lra|]. intros _ a Ha A1. destruct lo_hi as (P1 & _ & _ & P4). nra.
          + unfold nmin. cbn [nltb Ns B64Num]. rewrite (ltb_fin _ _ Fq F0). destruct (Rlt_bool_spec (val (quot (fst p) (snd p))) (val a0)) as [L2|L2].
            * split; [exact Fq|]. split; [lra|]. intros _ a Ha A1. nra.
            * split; [exact F0|]. split; [lra|]. intros _ a Ha A1. nra.
        - change (val (B754_zero false)) with 0 in L. split; [exact F0|]. split; [lra|]. intros; lra. }
      destruct X as (X1 & X2 & X3). 
      destruct (IH (fun q Hq => Hp q (or_intror Hq)) (frac1 (N := Ns) a0 p) X1 ltac:(lra)) as (I1 & I2 & I3). cbn zeta in *.
      split; [exact I1|]. split; [lra|]. intros q [<-|Hq] Nq A1; [apply (X3 Nq); [lra|exact A1]|apply I3; assumption].
  Qed.

  (** One entry moved by a step length that respects the limit. *)
  Lemma move64 s d a : fin s -> lo500 <= val s <= hi500 -> fin d -> Rabs (val d) <= hi500 -> fin a -> 0 <= val a <= 1 ->
    (val d < 0 -> val a * (- val d) <= 9952 / 10000 * val s) ->
    fin (nadd (Num := Ns) s (nmul (Num := Ns) a d)) /\ 4 / 1000 * val s <= val (nadd (Num := Ns) s (nmul (Num := Ns) a d)).
  Proof.
    intros Fs [Ls Hs] Fd Hd Fa [A0 A1] Hn. cbn [nadd nmul Ns B64Num]. destruct lo_hi as (P1 & P2 & P3 & P4).
    pose proof u53_pos as U.
    assert (U6 : u53 <= / 1000000) by (unfold u53; apply Rle_trans with (bpow radix2 (-20)); [apply bpow_le; lia|cbn; lra]).
    assert (Pad : Rabs (val a * val d) <= hi500) by (rewrite Rabs_mult, (Rabs_pos_eq (val a)) by exact A0; pose proof (Rabs_pos (val d)); nra).
    assert (H501 : 2 * hi500 <= bpow radix2 501) by (unfold hi500; change 501%Z with (500 + 1)%Z; rewrite bpow_plus; change (bpow radix2 1) with 2; lra).
    assert (H1023 : bpow radix2 501 <= bpow radix2 1023) by (apply bpow_le; lia).
    destruct (mul_ok a d Fa Fd ltac:(lra)) as [Fm Vm]. set (m := Bmult mode_NE a d) in *.
    assert (Vhi : Rabs (val m) <= hi500).
    { rewrite Vm. apply abs_round_le_generic; try typeclasses eauto; [|exact Pad].
      rewrite fexp64_eq. apply generic_format_FLT_bpow; [exact Hprec64|lia]. }
    assert (Rg : Rabs (val s + val m) <= bpow radix2 1023).
    { eapply Rle_trans; [apply Rabs_triang|]. rewrite (Rabs_pos_eq (val s)) by lra. lra. }
    destruct (add_ok s m Fs Fm Rg) as [Fr Vr]. split; [exact Fr|]. rewrite Vr.
    destruct (Rle_lt_dec 0 (val d)) as [Pd|Nd].
    - assert (0 <= val m) by (rewrite Vm, <- fl_0; apply fl_le; nra).
      apply Rle_trans with (val s); [lra|]. apply fl_ge. lra.
    - specialize (Hn Nd). pose proof (fl_err (val a * val d)) as Er.
      assert (Na : Rabs (val a * val d) = val a * - val d) by (rewrite Rabs_left1; [ring|nra]).
      rewrite Na, <- Vm in Er. apply Rabs_le_inv in Er.
      assert (T : bpow radix2 (-1075) <= / 1000000 * val s).
      { apply Rle_trans with (/ 1000000 * lo500); [|nra]. apply Rle_trans with (bpow radix2 (-20) * lo500).
        - unfold lo500. rewrite <- bpow_plus. apply bpow_le. lia.
        - apply Rmult_le_compat_r; [lra|cbn; lra]. }
      assert (Lm : - (9953 / 10000 * val s) <= val m) by nra.
      destruct (add_rel s m) as (e & He & ->). apply Rabs_le_inv in He. nra.
  Qed.
  Lemma nofZ1_val : val (nofZ (N := Ns) 1) = 1 /\ fin (nofZ (N := Ns) 1).
  Proof.
    assert (E : sf (nofZ (N := Ns) 1) = SpecFloat.S754_finite false 4503599627370496 (-52)).
    { unfold nofZ. cbn [nlit Ns B64Num]. unfold b64_lit. rewrite !sf_div, !sf_ofZ. vm_compute. reflexivity. }
    unfold sf in E. split.
    - unfold val. rewrite <- SF2R_B2SF, E. cbn. unfold F2R. cbn. lra.
    - unfold fin. rewrite <- is_finite_SF_B2SF, E. reflexivity.
  Qed.
  Lemma nhalf_val : val (nhalf (N := Ns)) = / 2 /\ fin (nhalf (N := Ns)).
  Proof.
    assert (E : sf (nhalf (N := Ns)) = SpecFloat.S754_finite false 4503599627370496 (-53)).
    { unfold nhalf. cbn [nlit Ns B64Num]. unfold b64_lit. rewrite !sf_div, !sf_ofZ. vm_compute. reflexivity. }
    unfold sf in E. split.
    - unfold val. rewrite <- SF2R_B2SF, E. cbn. unfold F2R. cbn. lra.
    - unfold fin. rewrite <- is_finite_SF_B2SF, E. reflexivity.
  Qed.
  Lemma halved64 k : forall a, fin a -> 0 <= val a <= 1 -> fin (halved (N := Ns) a k) /\ 0 <= val (halved (N := Ns) a k) <= val a.
  Proof.
    destruct nhalf_val as [Vh Fh]. induction k as [|k IH]; intros a Fa Ha; cbn [halved]; [split; [exact Fa|lra]|].
    assert (M : fin (nmul (Num := Ns) a nhalf) /\ val (nmul (Num := Ns) a nhalf) = fl (val a * val (nhalf (N := Ns)))).
    { apply (mul_ok a (nhalf (N := Ns)) Fa Fh). rewrite Vh, Rabs_pos_eq by lra. apply Rle_trans with (bpow radix2 0); [cbn; lra|apply bpow_le; lia]. }
    destruct M as [Fm Vm]. rewrite Vh in Vm.
    assert (0 <= val (nmul (Num := Ns) a nhalf) <= val a) by (rewrite Vm; split; [rewrite <- fl_0; apply fl_le; lra|apply fl_le_val; lra]).
    destruct (IH _ Fm ltac:(lra)) as [I1 I2]. split; [exact I1|lra].
  Qed.

  Variables (pb : fproblem b64) (cf : fconfig b64).
  Notation Nf := (Nf cf).
  Definition respects (a : R) (ss ds : list (vec b64)) : Prop := forall i v dv j, (i < Nf)%nat -> nth_error ss i = Some v -> nth_error ds i = Some dv ->
    (j < length v)%nat -> val (vget dv j) < 0 -> a * (- val (vget dv j)) <= 9952 / 10000 * val (vget v j).
  Lemma frac64 ss ds a : frac cf ss ds = Some a -> in_range64 ss -> bounded64 ds -> fin a /\ 0 < val a <= 1 /\ respects (val a) ss ds.
  Proof.
    intros H Hs Hd. apply frac_spec in H as (Hl & ps & -> & Hps). destruct nofZ1_val as [V1 F1].
    destruct (frac_fold64 ps) with (a0 := nofZ (N := Ns) 1) as (G1 & G2 & G3); [|exact F1|lra|].
    - intros p Hp. apply Hps in Hp as (i & s & d & j & Hi & Es & Ed & Hj & ->). destruct (Hl i Hi) as (s' & d' & Es' & Ed' & L).
      rewrite Es in Es'; injection Es' as <-. rewrite Ed in Ed'; injection Ed' as <-. cbn.
      destruct (Hs s (vget s j)) as [A B]; [eapply nth_error_In; eauto|apply nth_In; exact Hj|].
      destruct (Hd d (vget d j)) as [C D]; [eapply nth_error_In; eauto|apply nth_In; lia|]. auto.
    - cbn zeta in *. rewrite V1 in G2. split; [exact G1|]. split; [exact G2|]. intros i v dv j Hi Hv Hdv Hj Nd.
      apply (G3 (vget v j, vget dv j)); [|exact Nd|lra]. apply Hps. exists i, v, dv, j. auto.
  Qed.
  Lemma respects_le a b ss ds : 0 <= a <= b -> respects b ss ds -> in_range64 ss -> respects a ss ds.
  Proof. intros Hab Hr Hs i v dv j Hi Hv Hdv Hj Nd. specialize (Hr i v dv j Hi Hv Hdv Hj Nd). nra. Qed.
  Lemma step_list64 a ss ds l : step_list (N := Ns) Nf a ss ds = Some l -> in_range64 ss -> bounded64 ds -> fin a -> 0 <= val a <= 1 ->
    respects (val a) ss ds -> keeps64 vget (4 / 1000) ss l.
  Proof.
    intros H Hs Hd Fa Ha Hr. apply step_list_spec in H as (H1 & H2 & H3 & H4). split; [exact H2|]. intros i v w Hv Hw.
    destruct (Nat.lt_ge_cases i Nf) as [Hi|Hi].
    - destruct (H3 i Hi) as (v' & d & A & B & C & E). rewrite Hv in A; injection A as <-. rewrite Hw in E; injection E as ->.
      split; [unfold vadd; apply vbuild_length|]. intros j Hj. unfold vadd, vscale. rewrite !vbuild_get by (rewrite ?C; exact Hj).
      destruct (Hs v (vget v j)) as [F1 R1]; [eapply nth_error_In; eauto|apply nth_In; exact Hj|].
      destruct (Hd d (vget d j)) as [F2 R2]; [eapply nth_error_In; eauto|apply nth_In; lia|].
      apply move64; try assumption. intros Nd. apply (Hr i v d j); assumption.
    - rewrite H4 in Hw by exact Hi. rewrite Hv in Hw. injection Hw as <-. split; [reflexivity|]. intros j Hj.
      destruct (Hs v (vget v j)) as [F1 R1]; [eapply nth_error_In; eauto|apply nth_In; exact Hj|]. split; [exact F1|].
      destruct lo_hi as (P1 & _). lra.
  Qed.
  Lemma clip64 (l ss : list (vec b64)) n : keeps64 vget (4 / 1000) ss l -> in_range64 ss -> (n <= length l)%nat ->
    overwrite (map (clip_low (N := Ns)) (firstn n l)) l = l.
  Proof.
    intros [HL HK] Hs Hn. assert (E : map (clip_low (N := Ns)) (firstn n l) = firstn n l).
    { rewrite <- (map_id (firstn n l)) at 2. apply map_ext_in. intros w Hw. unfold clip_low.
      assert (In w l) by (rewrite <- (firstn_skipn n l); apply in_or_app; left; exact Hw).
      apply In_nth_error in H as [i Hi]. assert (Li : (i < length ss)%nat) by (rewrite <- HL; apply nth_error_Some; congruence).
      destruct (nth_error ss i) as [v|] eqn:Ev; [|apply nth_error_None in Ev; lia]. destruct (HK i v w Ev Hi) as [Lw Kw].
      replace (vnegb (N := Ns) w) with false; [reflexivity|]. symmetry. unfold vnegb. apply not_true_iff_false. rewrite existsb_exists.
      intros (a & Ha & B). apply (In_nth _ _ (nzero (Num := Ns))) in Ha as (j & Hj & <-). rewrite Lw in Hj.
      destruct (Kw j Hj) as [F1 G1]. destruct (Hs v (vget v j)) as [F2 R2]; [eapply nth_error_In; eauto|apply nth_In; exact Hj|].
      cbn [nltb nzero Ns B64Num] in B. change (nth j w (B754_zero false)) with (vget (N := Ns) w j) in B.
      rewrite (ltb_fin _ (B754_zero false) F1 eq_refl) in B. rewrite Rlt_bool_false in B; [discriminate|]. change (val (B754_zero false)) with 0.
      destruct lo_hi as (P1 & _). lra. }
    rewrite E. unfold overwrite. rewrite firstn_length_le by exact Hn. apply firstn_skipn.
  Qed.

  Lemma update64 fuel st st' : update_variables pb cf fuel st = Ok true st' ->
    in_range64 (v_s (f_var st)) -> in_range64 (v_n (f_var st)) -> bounded64 (v_s (f_delta st)) -> bounded64 (v_n (f_delta st)) ->
    keeps64 vget (4 / 1000) (v_s (f_var st)) (v_s (f_var st')) /\ keeps64 vget (4 / 1000) (v_n (f_var st)) (v_n (f_var st')).
  Proof.
    intros E Rs Rn Bs Bn. pose proof (update_variables_case pb cf fuel st) as H. rewrite E in H.
    destruct H as [H|[H|(a_max & a_n & Fs & Fn & [[_ H]|(Ha & s2 & a & v & Hu & Hv & H)])]]; try discriminate.
    injection H as ->. cbn [set_fvar f_var].
    destruct (frac64 _ _ _ Fs Rs Bs) as (A1 & A2 & A3). destruct (frac64 _ _ _ Fn Rn Bn) as (B1 & B2 & B3).
    assert (Has : fin a /\ 0 <= val a <= val a_max).
    { unfold alpha_used in Hu. destruct (fc_ls cf).
      - destruct Hu as [_ Hl]. apply ls_loop_spec in Hl as (_ & k & -> & _). apply halved64; [exact A1|lra].
      - destruct Hu as [_ ->]. split; [exact A1|lra]. }
    destruct Has as [Fa Va].
    apply step_var_spec in Hv as (V0 & V1 & V2 & V3 & ss & ns & V4 & V5 & V6 & V7).
    pose proof (step_list64 a _ _ _ V4 Rs Bs Fa ltac:(lra) (respects_le _ _ _ _ Va A3 Rs)) as K4.
    pose proof (step_list64 a_n _ _ _ V5 Rn Bn B1 ltac:(lra) B3) as K5.
    rewrite (clip64 ss _ _ K4 Rs) in V6 by (apply step_list_spec in V4; lia).
    rewrite (clip64 ns _ _ K5 Rn) in V7 by (apply step_list_spec in V5; lia).
    rewrite V6, V7. split; assumption.
  Qed.
End Step64.

(** ** The initial slacks and multipliers *)
Section Init64.
  Variables (ex lg : b64 -> b64) (sm : list b64 -> b64).
  Local Instance Ni : Num b64 := B64Num ex lg sm.
  Lemma margin_val : 101 / 100 - / 1000000 <= val (one_margin (N := Ni)) <= 101 / 100 + / 1000000 /\ fin (one_margin (N := Ni)).
  Proof.
    assert (E : sf (one_margin (N := Ni)) = SpecFloat.S754_finite false 4548635623644201 (-52)).
    { unfold one_margin, nofZ. cbn [nadd nlit Ni B64Num]. rewrite sf_add. unfold b64_lit. rewrite !sf_div, !sf_ofZ. vm_compute. reflexivity. }
    unfold sf in E. split.
    - unfold val. rewrite <- SF2R_B2SF, E. cbn. unfold F2R. cbn. lra.
    - unfold fin. rewrite <- is_finite_SF_B2SF, E. reflexivity.
  Qed.
  Lemma c01_val : / 128 <= val (nlit (Num := Ni) 1 100) <= 1 /\ fin (nlit (Num := Ni) 1 100).
  Proof.
    assert (E : sf (nlit (Num := Ni) 1 100) = SpecFloat.S754_finite false 5764607523034235 (-59)).
    { cbn [nlit Ni B64Num]. unfold b64_lit. rewrite !sf_div, !sf_ofZ. vm_compute. reflexivity. }
    unfold sf in E. split.
    - unfold val. rewrite <- SF2R_B2SF, E. cbn. unfold F2R. cbn. lra.
    - unfold fin. rewrite <- is_finite_SF_B2SF, E. reflexivity.
  Qed.
  (** 1.01 max(b, 0.01) *)
  Lemma margin_max b : fin b -> val b <= bpow radix2 499 ->
    fin (nmul one_margin (nmax b (nlit 1 100))) /\ / 128 <= val (nmul one_margin (nmax b (nlit 1 100))) <= 2 * Rmax (val b) 1 /\
    val (nmul one_margin (nmax b (nlit 1 100))) <= hi500.
  Proof.
    intros Fb Hb. destruct margin_val as [Vm Fm]. destruct c01_val as [Vc Fc].
    assert (E : fin (nmax b (nlit 1 100)) /\ / 128 <= val (nmax b (nlit 1 100)) <= Rmax (val b) 1).
    { unfold nmax. cbn [nltb Ni B64Num]. change (@nltb b64 Ni b (nlit 1 100)) with (Bltb b (nlit (Num := Ni) 1 100)).
      rewrite (ltb_fin b (nlit (Num := Ni) 1 100) Fb Fc). destruct (Rlt_bool_spec (val b) (val (nlit (Num := Ni) 1 100))).
      - split; [exact Fc|]. split; [lra|]. eapply Rle_trans; [|apply Rmax_r]. lra.
      - split; [exact Fb|]. split; [lra|]. apply Rmax_l. }
    destruct E as (Fx & Lx & Ux). set (x := nmax b (nlit 1 100)) in *. set (o := one_margin) in *.
    assert (B1 : 1 <= bpow radix2 499) by (change 1 with (bpow radix2 0); apply bpow_le; lia).
    assert (Ux' : val x <= bpow radix2 499) by (eapply Rle_trans; [exact Ux|]; apply Rmax_lub; [exact Hb|exact B1]).
    assert (Up : val o * val x <= hi500).
    { unfold hi500. change 500%Z with (1 + 499)%Z. rewrite bpow_plus. change (bpow radix2 1) with 2. nra. }
    assert (H500 : hi500 <= bpow radix2 1023) by (apply bpow_le; lia).
    destruct (mul_ok o x Fm Fx) as [F V]. { rewrite Rabs_pos_eq by nra. lra. }
    change (nmul o x) with (Bmult mode_NE o x). split; [exact F|]. rewrite V. split; [split|].
    - change (/ 128) with (bpow radix2 (-7)) at 1. rewrite <- (fl_pow (-7)) by lia. apply fl_le. change (bpow radix2 (-7)) with (/ 128). nra.
    - assert (R : Rabs (fl (val o * val x) - val o * val x) <= u53 * Rabs (val o * val x)).
      { apply fl_rel. rewrite Rabs_pos_eq by nra. apply Rle_trans with (bpow radix2 (-7)); [apply bpow_le; lia|]. change (bpow radix2 (-7)) with (/ 128). nra. }
      apply Rabs_le_inv in R. rewrite Rabs_pos_eq in R by nra. pose proof u53_small. pose proof u53_pos. nra.
    - unfold hi500. rewrite <- (fl_pow 500) by lia. apply fl_le. exact Up.
  Qed.
  Definition start64 (w : vec b64) : Prop := forall a, In a w -> fin a /\ / 128 <= val a <= hi500.
  Lemma In_vbuild n (f : nat -> b64) a : In a (vbuild n f) -> exists i, (i < n)%nat /\ a = f i.
  Proof. unfold vbuild. intros H. apply in_map_iff in H as (i & <- & Hi). apply in_seq in Hi. exists i. split; [lia|reflexivity]. Qed.
  Lemma vget_In (w : vec b64) i : (i < length w)%nat -> In (vget w i) w.
  Proof. intros H. unfold vget. apply nth_In. exact H. Qed.
  Lemma init_s64 g : (forall a, In a g -> fin a /\ Rabs (val a) <= bpow radix2 499) -> start64 (init_s g).
  Proof.
    intros Hg a Ha. unfold init_s, vscale at 1 in Ha. apply In_vbuild in Ha as (i & Hi & ->).
    unfold vmaxc in *. rewrite vbuild_length in Hi. rewrite vbuild_get by exact Hi. unfold vscale in *. rewrite vbuild_length in Hi. rewrite vbuild_get by exact Hi.
    destruct (Hg (vget g i)) as [Fg Bg]; [apply vget_In; exact Hi|].
    assert (H499 : bpow radix2 499 <= bpow radix2 1023) by (apply bpow_le; lia).
    assert (M := mone_val ex lg sm). change (Nb ex lg sm) with Ni in M. destruct M as [Vm Fm].
    destruct (mul_ok (mone (N := Ni)) (vget g i) Fm Fg) as [F V].
    { rewrite Vm, Rabs_mult. replace (Rabs (-1)) with 1 by (rewrite Rabs_left; lra). lra. }
    change (nmul mone (vget g i)) with (Bmult mode_NE (mone (N := Ni)) (vget g i)).
    destruct (margin_max _ F) as (F2 & L2 & U2).
    { rewrite V, Vm. rewrite <- (fl_pow 499) by lia. apply fl_le. apply Rabs_le_inv in Bg. lra. }
    split; [exact F2|lra].
  Qed.
  Lemma init_n64 eps s : fin eps -> 0 <= val eps <= 1 -> start64 s -> start64 (init_n eps s).
  Proof.
    intros Fe He Hs a Ha. unfold init_n, vscale at 1 in Ha. apply In_vbuild in Ha as (i & Hi & ->).
    unfold vmaxc in *. rewrite vbuild_length in Hi. rewrite vbuild_get by exact Hi. unfold vscale in *. rewrite vbuild_length in Hi. rewrite vbuild_get by exact Hi.
    unfold vinv in *. rewrite vbuild_length in Hi. rewrite vbuild_get by exact Hi.
    destruct (Hs (vget s i)) as (Fs & Ls & Us); [apply vget_In; exact Hi|].
    assert (F1 : fin (none (Num := Ni)) /\ val (none (Num := Ni)) = 1).
    { assert (E : sf (none (Num := Ni)) = SpecFloat.S754_finite false 4503599627370496 (-52)).
      { cbn [none Ni B64Num]. rewrite ?sf_ofZ. vm_compute. reflexivity. }
      unfold sf in E. split.
      - unfold fin. rewrite <- is_finite_SF_B2SF, E. reflexivity.
      - unfold val. rewrite <- SF2R_B2SF, E. cbn. unfold F2R. cbn. lra. }
    destruct F1 as [F1 V1].
    assert (H7 : bpow radix2 7 <= bpow radix2 1023) by (apply bpow_le; lia). change (bpow radix2 7) with 128 in H7.
    assert (I : 0 <= 1 / val (vget s i) <= 128).
    { unfold Rdiv. split; [apply Rmult_le_pos; [lra|]; left; apply Rinv_0_lt_compat; lra|]. apply (Rmult_le_reg_r (val (vget s i))); [lra|]. rewrite Rmult_assoc, Rinv_l; lra. }
    destruct (div_ok (none (Num := Ni)) (vget s i) F1) as [Fd Vd]; [lra|rewrite V1, Rabs_pos_eq by lra; lra|].
    change (ndiv none (vget s i)) with (Bdiv mode_NE (none (Num := Ni)) (vget s i)).
    set (d := Bdiv mode_NE (none (Num := Ni)) (vget s i)) in *.
    assert (Bd : 0 <= val d <= 128).
    { rewrite Vd, V1. split; [rewrite <- fl_0; apply fl_le; lra|]. change 128 with (bpow radix2 7). rewrite <- (fl_pow 7) by lia. apply fl_le. cbn. lra. }
    destruct (mul_ok eps d Fe Fd) as [Fp Vp]. { rewrite Rabs_pos_eq by nra. nra. }
    change (nmul eps d) with (Bmult mode_NE eps d).
    destruct (margin_max _ Fp) as (F2 & L2 & U2).
    { rewrite Vp. apply Rle_trans with (bpow radix2 7); [|apply bpow_le; lia]. rewrite <- (fl_pow 7) by lia. apply fl_le. change (bpow radix2 7) with 128. nra. }
    split; [exact F2|lra].
  Qed.
  Lemma init64 (pb : fproblem b64) cf t0 eps v v' : init_var pb cf t0 eps v = Some v' -> fin eps -> 0 <= val eps <= 1 ->
    (forall i x u a, (i < Nf cf)%nat -> nth_error (v_x v) i = Some x -> nth_error (v_u v) i = Some u ->
       In a (fp_g pb (nadd t0 (nmul (nofnat i) (pb_dt (fp_dp pb)))) x u) -> fin a /\ Rabs (val a) <= bpow radix2 499) ->
    forall i w, (i < Nf cf)%nat -> nth_error (v_s v') i = Some w \/ nth_error (v_n v') i = Some w -> start64 w.
  Proof.
    intros H Fe He Hg i w Hi Hw. unfold init_var in H.
    destruct (tabo (Nf cf) _) as [ss|] eqn:Et; [|discriminate]. injection H as <-. cbn [v_s v_n] in Hw.
    pose proof (tabo_length _ _ _ Et) as Ls. destruct (tabo_nth _ _ _ i Et Hi) as [Ei Ni0].
    destruct (nth_error (v_x v) i) as [x|] eqn:Ex; [|congruence]. destruct (nth_error (v_u v) i) as [u|] eqn:Eu; [|congruence].
    destruct (Nat.ltb i (length (v_s v)) && Nat.ltb i (length (v_n v))); [|congruence].
    assert (S0 : start64 (init_s (fp_g pb (ft pb t0 i) x u))) by (apply init_s64; intros a Ha; apply (Hg i x u a Hi Ex Eu Ha)).
    destruct Hw as [Hw|Hw]; rewrite overwrite_nth in Hw by (rewrite ?map_length; lia).
    - rewrite Ei in Hw. injection Hw as <-. exact S0.
    - rewrite nth_error_map, Ei in Hw. injection Hw as <-. apply init_n64; assumption.
  Qed.
End Init64.
