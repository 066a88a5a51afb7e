(** Input limits in binary64: the first input exceeds its limits by no more than the rounding of one subtraction and one addition. *)
From Coq Require Import Reals Lra Psatz Permutation.
From Flocq Require Import Core BinarySingleNaN.
From Verif Require Import Prelude Scalar LinAlg BoxQP BoxQPProofs QPCor DDP DDPSpec DDPProofs DDPCor DDPLimits RLin B64.
Local Open Scope R_scope.

(** ** Steps taken by a run, for every scalar type *)
Section Any.
  Context {T : Type} {N : Num T}.
  Variables (pb : problem T) (cf : config T) (t0 : T) (x0 : vec T) (n : nat).
  Variables (LL : lltops T) (limits : option (T -> vec T * vec T)) (qfuel : nat).
  Definition step_taken (c c' : cdata T) : Prop :=
    exists lambda g a, backward pb cf t0 n LL limits qfuel c lambda (Some g) /\ In a (cf_alpha_list cf) /\ is_candidate pb t0 x0 n c g a c'.
  Inductive steps_taken : cdata T -> cdata T -> Prop :=
  | st_refl c : steps_taken c c
  | st_step c c1 c2 : step_taken c c1 -> steps_taken c1 c2 -> steps_taken c c2.
  Lemma retry_taken c g p q : retry pb cf t0 n LL limits qfuel c (Some g) p q -> backward pb cf t0 n LL limits qfuel c (fst q) (Some g).
  Proof. intros H. remember (Some g) as o eqn:E. induction H; [injection E as ->; assumption|discriminate|auto]. Qed.
  Lemma search_taken c g l o al ac ex ra c' : search pb cf t0 x0 n c g l o al ac ex ra -> o = Some c' ->
    exists a, In a l /\ is_candidate pb t0 x0 n c g a c'.
  Proof.
    induction 1 as [|a rest c1 [H _]|a c1 H|a b rest c1 o al ac ex ra Ht Hs IH]; intros E; try discriminate.
    - injection E as <-. exists a. split; [left; reflexivity|exact H].
    - destruct (IH E) as (a' & Hin & Hc). exists a'. split; [right; exact Hin|exact Hc].
  Qed.
  Lemma iteration_taken it s r e s' : iteration pb cf t0 x0 n LL limits qfuel it s r e s' -> mc s' = mc s \/ step_taken (mc s) (mc s').
  Proof.
    destruct 1 as [c p q g0 g H|c p q g0 g krn H Hk Hkr H1 H2|c p q g0 g krn c' al ac ex ra H Hk Hkr H1 H2|c p q g0 g krn al ac ex ra H Hk Hkr H1 H2];
      cbn [mc fst snd]; auto.
    right. apply retry_taken in H. destruct (search_taken _ _ _ _ _ _ _ _ _ H2 eq_refl) as (a & Ha & Hc).
    exists (fst q), g, a. auto.
  Qed.
  Lemma iterations_taken m it s r es s' : iterations pb cf t0 x0 n LL limits qfuel m it s r es s' -> steps_taken (mc s) (mc s').
  Proof.
    induction 1 as [it s|m it s r e s' Hi Hr|m it s e s1 r es s' Hi Hits IH].
    - constructor.
    - destruct (iteration_taken _ _ _ _ _ Hi) as [->|Ha]; [constructor|econstructor; [exact Ha|constructor]].
    - destruct (iteration_taken _ _ _ _ _ Hi) as [<-|Ha]; [exact IH|econstructor; [exact Ha|exact IH]].
  Qed.
End Any.

(** ** One component *)
(** Rounded arithmetic towards the upper limit: max(u, fl(u + fl(h - u))) is an upper bound of fl(u + fl(a k)). *)
Lemma towards_hi (u h k a z : b64) : fin u -> fin h -> fin k -> fin a -> 0 <= val a <= 1 ->
  val k <= fl (val h - val u) -> val z = fl (val u + fl (val a * val k)) -> val z <= Rmax (val u) (fl (val u + fl (val h - val u))).
Proof.
  intros Fu Fh Fk Fa Ha Hk ->. destruct (Rle_dec (val k) 0) as [N|N].
  - eapply Rle_trans; [|apply Rmax_l]. apply fl_le_val. assert (fl (val a * val k) <= 0) by (rewrite <- fl_0; apply fl_le; nra). lra.
  - eapply Rle_trans; [|apply Rmax_r]. apply fl_le. apply Rplus_le_compat_l. eapply Rle_trans; [|exact Hk]. apply fl_le_val. nra.
Qed.
Lemma towards_lo (u l k a z : b64) : fin u -> fin l -> fin k -> fin a -> 0 <= val a <= 1 ->
  fl (val l - val u) <= val k -> val z = fl (val u + fl (val a * val k)) -> Rmin (val u) (fl (val u + fl (val l - val u))) <= val z.
Proof.
  intros Fu Fh Fk Fa Ha Hk ->. destruct (Rle_dec 0 (val k)) as [N|N].
  - eapply Rle_trans; [apply Rmin_l|]. apply fl_ge. assert (0 <= fl (val a * val k)) by (rewrite <- fl_0; apply fl_le; nra). lra.
  - eapply Rle_trans; [apply Rmin_r|]. apply fl_le. apply Rplus_le_compat_l. eapply Rle_trans; [exact Hk|]. apply fl_ge. nra.
Qed.
(** fl(u + fl(h - u)) is h up to 2^-51 times the size of the box. *)
Definition slip : R := bpow radix2 (-51).
Lemma slip_u : slip = 4 * u53 /\ 0 < slip <= / 256.
Proof.
  assert (E : slip = 4 * u53). { unfold slip, u53. change (-51)%Z with (2 + -53)%Z. rewrite bpow_plus. reflexivity. }
  split; [exact E|]. pose proof u53_pos. pose proof u53_small. lra.
Qed.
Lemma there_and_back (u h d : b64) M : val d = fl (val h - val u) -> Rabs (val h) <= M -> Rabs (val u) <= M * (1 + slip) ->
  Rabs (fl (val u + fl (val h - val u)) - val h) <= slip * M.
Proof.
  intros Ed Hh Hu. destruct slip_u as [Es [S1 S2]]. pose proof u53_pos as U0. pose proof u53_small as U1.
  destruct (sub_rel h u) as (d1 & D1 & E1). rewrite <- Ed in *. destruct (add_rel u d) as (d2 & D2 & E2). rewrite E2, E1.
  replace ((val u + (val h - val u) * (1 + d1)) * (1 + d2) - val h) with (d2 * val h + d1 * (val h - val u) * (1 + d2)) by ring.
  assert (M0 : 0 <= M) by (pose proof (Rabs_pos (val h)); lra).
  eapply Rle_trans; [apply Rabs_triang|]. rewrite !Rabs_mult.
  assert (A : Rabs (val h - val u) <= M * (2 + slip)).
  { unfold Rminus. eapply Rle_trans; [apply Rabs_triang|]. rewrite Rabs_Ropp. lra. }
  assert (B : Rabs (1 + d2) <= 1 + u53). { eapply Rle_trans; [apply Rabs_triang|]. rewrite (Rabs_pos_eq 1) by lra. lra. }
  assert (C : Rabs d2 * Rabs (val h) <= u53 * M) by (apply Rmult_le_compat; try apply Rabs_pos; assumption).
  assert (D : Rabs d1 * Rabs (val h - val u) <= u53 * (M * (2 + slip))) by (apply Rmult_le_compat; try apply Rabs_pos; assumption).
  assert (E : Rabs d1 * Rabs (val h - val u) * Rabs (1 + d2) <= u53 * (M * (2 + slip)) * (1 + u53)).
  { apply Rmult_le_compat; try assumption; try apply Rabs_pos. apply Rmult_le_pos; apply Rabs_pos. }
  assert (F : u53 * M + u53 * (M * (2 + slip)) * (1 + u53) <= 4 * u53 * M).
  { replace (u53 * M + u53 * (M * (2 + slip)) * (1 + u53)) with (u53 * M * (1 + (2 + slip) * (1 + u53))) by ring.
    replace (4 * u53 * M) with (u53 * M * 4) by ring. apply Rmult_le_compat_l; [apply Rmult_le_pos; lra|]. nra. }
  rewrite Es. lra.
Qed.

Definition at64 (u : vec b64) (j : nat) : b64 := nth j u (B754_zero false).
(** Every finite component of [u] exceeds [l, h] by at most 2^-51 M. *)
Definition within64 (M : R) (l h u : vec b64) : Prop :=
  forall j, (j < length u)%nat -> fin (at64 u j) -> val (at64 l j) - slip * M <= val (at64 u j) <= val (at64 h j) + slip * M.
(** Limits that are finite, in order and at most [M] in magnitude. *)
Definition box64 (M : R) (f : b64 -> vec b64 * vec b64) : Prop := forall t j,
  fin (at64 (fst (f t)) j) /\ fin (at64 (snd (f t)) j) /\ val (at64 (fst (f t)) j) <= val (at64 (snd (f t)) j) /\
  Rabs (val (at64 (fst (f t)) j)) <= M /\ Rabs (val (at64 (snd (f t)) j)) <= M.

Lemma zeros_sum l z : tree_sum l z -> (forall x, In x l -> fin x -> val x = 0) -> fin z -> val z = 0.
Proof.
  induction 1 as [|a|l1 l2 l a b H1 IH1 H2 IH2 Hp]; intros Hz Fz.
  - reflexivity.
  - apply Hz; [left; reflexivity|exact Fz].
  - apply add_fin in Fz as (Fa & Fb & ->). rewrite IH1, IH2, Rplus_0_r, fl_0; try assumption; [reflexivity| |];
      intros x Hx; apply Hz, (Permutation_in _ Hp), in_or_app; auto.
Qed.

Section Limits64.
  Variables (ex lg : b64 -> b64) (sm : list b64 -> b64).
  Hypothesis Hsm : some_order sm.
  Local Instance Nl : Num b64 := B64Num ex lg sm.
  Variables (pb : problem b64) (cf : config b64) (t0 : b64) (x0 : vec b64) (n : nat).
  Variables (LL : lltops b64) (f : b64 -> vec b64 * vec b64) (qfuel : nat) (M : R).
  Notation limits := (Some f).
  Notation tm i := (nadd t0 (nmul (nofnat i) (pb_dt pb))).
  Notation lo i := (fst (f (tm i))).
  Notation hi i := (snd (f (tm i))).
  Hypothesis Hcon : cf_constraint cf = true.
  Hypothesis Hbox : box64 M f.
  Hypothesis HM : M <= bpow radix2 1020.
  Hypothesis Halpha : forall a, In a (cf_alpha_list cf) -> fin a /\ 0 <= val a <= 1.

  Lemma at_vget (u : vec b64) j : at64 u j = vget u j. Proof. reflexivity. Qed.
  (** The feedback term of the first step vanishes: the state there is the given one before and after. *)
  Lemma no_feedback64 K m j : mdimb m (length x0) K = true -> (j < m)%nat -> fin (vget (mvmul K (vsub x0 x0)) j) -> val (vget (mvmul K (vsub x0 x0)) j) = 0.
  Proof.
    intros HK Hj. unfold mvmul. rewrite vbuild_get by (rewrite (mdimb_rows _ _ _ HK); exact Hj). intros F.
    refine (zeros_sum _ _ (Hsm _) _ F). intros y Hy Fy. unfold vbuild in Hy. apply in_map_iff in Hy as (l & <- & Hl). apply in_seq in Hl.
    rewrite (mdimb_cols _ _ _ HK) in Hl. unfold vsub in *. rewrite vbuild_get in Fy by lia. rewrite vbuild_get by lia. cbn [nmul nsub Nl B64Num] in *.
    apply mul_fin in Fy as (_ & F2 & ->). apply sub_fin in F2 as (_ & _ & ->).
    replace (val (vget x0 l) - val (vget x0 l)) with 0 by ring. rewrite fl_0, Rmult_0_r. apply fl_0.
  Qed.

  Lemma taken_first c c' : (0 < n)%nat -> is_rollout pb t0 x0 n c -> step_taken pb cf t0 x0 n LL limits qfuel c c' ->
    (forall u, nth_error (cd_u c) 0 = Some u -> within64 M (lo 0%nat) (hi 0%nat) u) ->
    is_rollout pb t0 x0 n c' /\ (forall u, nth_error (cd_u c') 0 = Some u -> within64 M (lo 0%nat) (hi 0%nat) u).
  Proof.
    intros Hn Hro (lambda & g & a & Hb & Ha & [Hro' Hc]) Hin. split; [exact Hro'|].
    destruct (Hc 0%nat Hn) as (x & u & x' & k & K & Hx & Hu & Hx' & Hk & HK & Lk & LK & Lx & Hu').
    pose proof (ro_x0 _ _ _ _ _ Hro) as E1. pose proof (ro_x0 _ _ _ _ _ Hro') as E2.
    rewrite E1 in Hx. rewrite E2 in Hx'. injection Hx as <-. injection Hx' as <-. rewrite Hu'.
    intros u' Eu' j Hj Fz. injection Eu' as <-. specialize (Hin u Hu j).
    rewrite !vadd_len in Hj. specialize (Hin Hj). change at64 with (vget (N := Nl)) in *.
    (* the sum *)
    assert (G0 : forall (v w : vec b64), (j < length v)%nat -> vget (vadd v w) j = Bplus mode_NE (vget v j) (vget w j)).
    { intros v w Hv. unfold vadd. rewrite vbuild_get by exact Hv. reflexivity. }
    assert (G3 : vget (vscale a k) j = Bmult mode_NE a (vget k j)) by (unfold vscale; rewrite vbuild_get by lia; reflexivity).
    rewrite G0 in Fz by (rewrite vadd_len; exact Hj). rewrite G0 by (rewrite vadd_len; exact Hj).
    apply add_fin in Fz as (Fz & Fe & Ez). rewrite Ez. rewrite (no_feedback64 _ _ _ LK Hj Fe), Rplus_0_r, fl_val. clear Ez Fe.
    rewrite G0 in Fz by exact Hj. rewrite G0 by exact Hj. rewrite G3 in *.
    apply add_fin in Fz as (Fu & Fp & Ez). apply mul_fin in Fp as (Fa & Fk & Ep). rewrite Ep in Ez.
    set (z := Bplus mode_NE (vget u j) (Bmult mode_NE a (vget k j))) in *.
    specialize (Hin Fu). destruct (Halpha a Ha) as [_ Va].
    (* the gain *)
    destruct Hb as (ds & xN & old & Lds & Hds & HxN & Hb).
    destruct (backward_gains _ _ _ _ _ _ _ _ _ _ _ _ _ _ Hb _ eq_refl) as (ks & Ks & G1 & G2 & L1 & L2 & Hst).
    cbn [p_k p_K] in *. rewrite app_nil_r in *. destruct (Hst 0%nat Hn) as (u1 & d & q & k1 & K1 & A1 & A2 & A3 & A4 & A5 & A6).
    rewrite G1, A3 in Hk. injection Hk as ->. rewrite A1 in Hu. injection Hu as ->.
    destruct (Hbox (tm 0%nat) j) as (Fl & Fh & Olh & Bl & Bh). change at64 with (vget (N := Nl)) in *.
    set (l := vget (lo 0%nat) j) in *. set (h := vget (hi 0%nat) j) in *.
    assert (M0 : 0 <= M) by (pose proof (Rabs_pos (val l)); lra). destruct slip_u as [_ [S1 S2]].
    assert (Bu : Rabs (val (vget u j)) <= M * (1 + slip)). { clear - Hin Bl Bh S1 M0. apply Rabs_le_inv in Bl, Bh; apply Rabs_le; nra. }
    assert (B1023 : 4 * bpow radix2 1020 <= bpow radix2 1023).
    { change 1023%Z with (3 + 1020)%Z. rewrite bpow_plus. change (bpow radix2 3) with 8. pose proof (bpow_ge_0 radix2 1020). lra. }
    assert (Rg : forall w, fin w -> Rabs (val w) <= M -> fin (Bminus mode_NE w (vget u j)) /\ val (Bminus mode_NE w (vget u j)) = fl (val w - val (vget u j))).
    { intros w Fw Bw. apply sub_ok; [exact Fw|exact Fu|]. unfold Rminus. eapply Rle_trans; [apply Rabs_triang|]. rewrite Rabs_Ropp. nra. }
    assert (Kb : fl (val l - val (vget u j)) <= val (vget k j) <= fl (val h - val (vget u j))).
    { clear - A6 A5 Hcon Lk Hj Rg Fl Fh Bl Bh Olh Fk. remember (Some (k, K1)) as o eqn:Eo.
      destruct A6 as [H0| |Hpos Hc| |f' ik out K' Hpos Hc Hbx Hrv HK0 HK]; [|discriminate|congruence|discriminate|].
      - injection Eo as <- <-. cbn in Lk. lia.
      - destruct Hbx as (Hf & Hl & Hh & Hik & Hqp). injection Hf as <-. injection Eo as <- <-.
        destruct (Rg l Fl Bl) as [Fl2 El2]. destruct (Rg h Fh Bh) as [Fh2 Eh2].
        assert (Gl : vget (vsub (lo 0%nat) u) j = Bminus mode_NE l (vget u j)) by (unfold vsub; rewrite vbuild_get by lia; reflexivity).
        assert (Gh : vget (vsub (hi 0%nat) u) j = Bminus mode_NE h (vget u j)) by (unfold vsub; rewrite vbuild_get by lia; reflexivity).
        pose proof (qp_length _ _ _ _ _ _ _ _ _ _ _ _ _ _ Hqp) as Hlen.
        assert (NR : forall w : b64, fin w -> nltb w w = false) by (intros w Fw; cbn [nltb Nl B64Num]; rewrite ltb_fin by assumption; apply Rlt_bool_false; lra).
        assert (Hjn : (j < mcols (qQuu_F q))%nat) by lia.
        destruct (qp_feasible _ _ _ _ _ _ _ _ _ _ _ _ _ _ j Hqp Hjn) as [Q1 Q2].
        + rewrite Gl. apply NR, Fl2.
        + rewrite Gh. apply NR, Fh2.
        + rewrite Gl, Gh. cbn [nltb Nl B64Num]. rewrite ltb_fin by assumption. apply Rlt_bool_false. rewrite El2, Eh2. apply fl_le. lra.
        + rewrite Gl in Q1. rewrite Gh in Q2. cbn [nltb Nl B64Num] in Q1, Q2. rewrite ltb_fin in Q1, Q2 by assumption.
          rewrite El2 in Q1. rewrite Eh2 in Q2.
          destruct (Rlt_bool_spec (val (vget (qo_x out) j)) (fl (val l - val (vget u j)))); [discriminate|].
          destruct (Rlt_bool_spec (fl (val h - val (vget u j))) (val (vget (qo_x out) j))); [discriminate|]. lra. }
    pose proof (towards_hi (vget u j) h (vget k j) a z Fu Fh Fk Fa Va (proj2 Kb) Ez) as Uz.
    pose proof (towards_lo (vget u j) l (vget k j) a z Fu Fl Fk Fa Va (proj1 Kb) Ez) as Lz.
    pose proof (there_and_back (vget u j) h _ M (proj2 (Rg h Fh Bh)) Bh Bu) as Th. pose proof (there_and_back (vget u j) l _ M (proj2 (Rg l Fl Bl)) Bl Bu) as Tl.
    apply Rabs_le_inv in Th, Tl. split.
    - eapply Rle_trans; [|exact Lz]. apply Rmin_glb; lra.
    - eapply Rle_trans; [exact Uz|]. apply Rmax_lub; lra.
  Qed.
  Lemma takens_first c c' : steps_taken pb cf t0 x0 n LL limits qfuel c c' -> (0 < n)%nat -> is_rollout pb t0 x0 n c ->
    (forall u, nth_error (cd_u c) 0 = Some u -> within64 M (lo 0%nat) (hi 0%nat) u) ->
    forall u, nth_error (cd_u c') 0 = Some u -> within64 M (lo 0%nat) (hi 0%nat) u.
  Proof.
    induction 1 as [c|c c1 c2 Ha Hs IH]; auto. intros Hn Hro Hf. destruct (taken_first _ _ Hn Hro Ha Hf). auto.
  Qed.
End Limits64.
