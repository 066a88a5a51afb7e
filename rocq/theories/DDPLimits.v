(** Input limits over the reals: the feed-forward part of every trial obeys them, the feedback part need not. *)
From Verif Require Import Prelude Scalar LinAlg BoxQP BoxQPProofs QPCor QPClamp DDP DDPSpec DDPProofs DDPCor RLin.
From Coq Require Import Reals Lra.
Open Scope R_scope.

(** All components of [u] between those of [l] and [h]. *)
Definition within (l h u : vec R) : Prop := forall j, (j < length u)%nat -> vget l j <= vget u j <= vget h j.

(** How far component [j] of [u] is outside [l, h]. *)
Definition excess (l h u : vec R) (j : nat) : R := Rmax 0 (Rmax (vget l j - vget u j) (vget u j - vget h j)).

Lemma vadd_len {T} {N : Num T} (x y : vec T) : length (vadd x y) = length x.
Proof. apply vbuild_length. Qed.
Lemma vscale_len {T} {N : Num T} a (x : vec T) : length (vscale a x) = length x.
Proof. apply vbuild_length. Qed.

Section Gains.
  Context {T : Type} {N : Num T}.
  Variables (pb : problem T) (cf : config T) (t0 : T) (LL : lltops T) (limits : option (T -> vec T * vec T)) (qfuel : nat).

  (** Every step of a successful pass has gains computed by [step_gains]. *)
  Lemma backward_gains us ds lambda i Vx Vxx g0 o :
    backward_from pb cf t0 LL limits qfuel us ds lambda i Vx Vxx g0 o -> forall g, o = Some g ->
    exists ks Ks, p_k g = ks ++ p_k g0 /\ p_K g = Ks ++ p_K g0 /\ length ks = i /\ length Ks = i /\
      forall j, (j < i)%nat -> exists u d q k K, nth_error us j = Some u /\ nth_error ds j = Some d /\
        nth_error ks j = Some k /\ nth_error Ks j = Some K /\ mcols (dFu d) = length k /\
        step_gains pb cf t0 LL limits qfuel j u d q (skipn (S j) ks ++ p_k g0) (Some (k, K)).
  Proof.
    induction 1 as [Vx Vxx g0|i u d Vx Vxx g0|i u d Vx Vxx g0 k K Vx' Vxx' o Hc Hu Hd Hdim q Hst Hk HK Hv Hb IH];
      intros g Eg; [injection Eg as <-|discriminate|].
    - exists [], []. repeat split; auto. intros j Hj; lia.
    - destruct (IH g Eg) as (ks & Ks & E1 & E2 & L1 & L2 & Hj). cbn [p_k p_K] in *.
      exists (ks ++ [k]), (Ks ++ [K]). rewrite <- !app_assoc. cbn [app].
      split; [exact E1|]. split; [exact E2|]. split; [rewrite app_length; cbn; lia|]. split; [rewrite app_length; cbn; lia|].
      intros j Hji. destruct (Nat.eq_dec j i) as [->|Hne].
      + exists u, d, q, k, K. split; [exact Hu|]. split; [exact Hd|].
        split; [rewrite nth_error_app2 by lia; rewrite L1, Nat.sub_diag; reflexivity|].
        split; [rewrite nth_error_app2 by lia; rewrite L2, Nat.sub_diag; reflexivity|]. split; [auto|].
        rewrite skipn_all2 by (rewrite app_length; cbn; lia). exact Hst.
      + destruct (Hj j) as (u1 & d1 & q1 & k1 & K1 & A1 & A2 & A3 & A4 & A5 & A6); [lia|].
        exists u1, d1, q1, k1, K1. split; [exact A1|]. split; [exact A2|].
        split; [rewrite nth_error_app1 by lia; exact A3|]. split; [rewrite nth_error_app1 by lia; exact A4|].
        split; [exact A5|].
        replace (skipn (S j) (ks ++ [k]) ++ p_k g0)%list with (skipn (S j) ks ++ k :: p_k g0)%list; [exact A6|].
        rewrite skipn_app. replace (S j - length ks)%nat with 0%nat by lia. cbn [skipn]. rewrite <- app_assoc. reflexivity.
  Qed.
End Gains.

Section Limits.
  Variables (pb : problem R) (cf : config R) (t0 : R) (x0 : vec R) (n : nat).
  Variables (LL : lltops R) (f : R -> vec R * vec R) (qfuel : nat).
  Notation limits := (Some f).
  Notation tm i := (t0 + INR i * pb_dt pb).
  Notation lo i := (fst (f (tm i))).
  Notation hi i := (snd (f (tm i))).
  Hypothesis Hcon : cf_constraint cf = true.
  Hypothesis Hlh : forall t j, vget (fst (f t)) j <= vget (snd (f t)) j.
  Notation backward := (backward pb cf t0 n LL limits qfuel).
  Notation step_gains := (step_gains pb cf t0 LL limits qfuel).

  Lemma tm_nofnat i : (t0 + nofnat i * pb_dt pb)%num = tm i.
  Proof. unfold nofnat, nofZ. numR. rewrite <- INR_IZR_INZ. unfold Rdiv. rewrite Rinv_1, Rmult_1_r. reflexivity. Qed.

  (** Full step to the box QP solution lands within the limits; a component outside the free
      set of the box QP lands on a limit and gets no feedback. *)
  Definition no_feedback (K : mat R) (j : nat) : Prop := forall l, (l < mcols K)%nat -> mget K j l = 0.
  Definition free_of (i : nat) (u k : vec R) (free : list nat) : Prop :=
    u = [] \/ exists d q ks ik out, box pb t0 LL limits qfuel i u d q ks f ik out /\ qo_x out = k /\ qo_free out = free.
  Lemma step_gains_box i u d q ks k K : step_gains i u d q ks (Some (k, K)) -> length k = length u -> mcols (dFu d) = length k ->
    exists free, free_of i u k free /\ forall j, (j < length u)%nat ->
      vget (lo i) j <= vget u j + vget k j <= vget (hi i) j /\
      (~ In j free -> (vget u j + vget k j = vget (lo i) j \/ vget u j + vget k j = vget (hi i) j) /\ no_feedback K j).
  Proof.
    intros H Hk Hnu. remember (Some (k, K)) as o eqn:Eo.
    destruct H as [H0| |Hpos Hc| |f' ik out K' Hpos Hc Hbx Hrv HK0 HK]; [|discriminate|congruence|discriminate|].
    - injection Eo as <- <-. exists []. split; [left; destruct u; [reflexivity|discriminate]|]. cbn in *. lia.
    - pose proof Hbx as Hbx'. destruct Hbx as (Hf & Hl & Hh & Hik & Hqp). injection Hf as <-. injection Eo as <- <-. exists (qo_free out).
      rewrite tm_nofnat in *.
      pose proof (qp_length _ _ _ _ _ _ _ _ _ _ _ _ _ _ Hqp) as Hlen.
      assert (Hb : forall j, vget (vsub (fst (f (tm i))) u) j <= vget (vsub (snd (f (tm i))) u) j).
      { intros j. rewrite !vsub_f by assumption. unfold fsubv. specialize (Hlh (tm i) j). lra. }
      split; [right; exists d, q, ks, ik, out; split; [exact Hbx'|split; reflexivity]|].
      intros j Hj. split.
      + apply (qp_feasible_R _ _ _ _ _ _ _ _ _ _ _ _ _ _ j) in Hqp; [|lia|apply Hb].
        rewrite !vsub_f in Hqp by assumption. unfold fsubv in Hqp. lra.
      + intros Hn. split.
        * apply qp_on_limit with (i := j) in Hqp; [|intros; apply Hb|lia|exact Hn].
          unfold on_limit in Hqp. rewrite !vsub_f in Hqp by assumption. unfold fsubv in Hqp. destruct Hqp; [left|right]; lra.
        * intros l Hll. destruct (list_eq_dec Nat.eq_dec (qo_free out) []) as [E|E].
          -- rewrite (HK0 E) in *. unfold mzero in *. cbn [mbuild mcols] in Hll. rewrite mbuild_get by lia. reflexivity.
          -- destruct (HK E) as (Hf' & _ & Hd & HG). apply mdimb_cols in Hd. apply (HG j l); [lia|lia|exact Hn].
  Qed.

  (** A trial around [c]: every new input is a point of the segment from the old input towards an admissible
      one, plus a feedback term. *)
  Lemma trial_segment c g lambda alpha c' : backward c lambda (Some g) -> is_candidate pb t0 x0 n c g alpha c' ->
    forall i, (i < n)%nat -> exists x u x' k K u',
      nth_error (cd_x c) i = Some x /\ nth_error (cd_u c) i = Some u /\ nth_error (cd_x c') i = Some x' /\
      nth_error (p_k g) i = Some k /\ nth_error (p_K g) i = Some K /\ mcols K = length x /\ nth_error (cd_u c') i = Some u' /\ length u' = length u /\ exists free, free_of i u k free /\
      forall j, (j < length u)%nat ->
        vget (lo i) j <= vget u j + vget k j <= vget (hi i) j /\
        (~ In j free -> (vget u j + vget k j = vget (lo i) j \/ vget u j + vget k j = vget (hi i) j) /\ no_feedback K j) /\
        vget u' j = vget u j + alpha * vget k j + fmv (length x) (mget K) (fsubv (vget x') (vget x)) j.
  Proof.
    intros (ds & xN & old & Lds & Hds & HxN & Hb) [Hro Hc] i Hi.
    destruct (Hc i Hi) as (x & u & x' & k & K & Hx & Hu & Hx' & Hk & HK & Lk & LK & Lx & Hu').
    exists x, u, x', k, K, (vadd (vadd u (vscale alpha k)) (mvmul K (vsub x' x))).
    do 5 (split; [assumption|]). split; [exact (mdimb_cols _ _ _ LK)|]. split; [assumption|].
    split; [rewrite !vadd_len; reflexivity|].
    destruct (backward_gains _ _ _ _ _ _ _ _ _ _ _ _ _ _ Hb _ eq_refl) as (ks & Ks & E1 & E2 & L1 & L2 & Hst).
    cbn [p_k p_K] in *. rewrite app_nil_r in *. destruct (Hst i Hi) as (u1 & d & q & k1 & K1 & A1 & A2 & A3 & A4 & A5 & A6).
    rewrite E1, A3 in Hk. injection Hk as ->. rewrite E2, A4 in HK. injection HK as ->. rewrite A1 in Hu. injection Hu as ->.
    destruct (step_gains_box _ _ _ _ _ _ _ A6 Lk A5) as (free & Hfo & Hfr). exists free. split; [exact Hfo|]. intros j Hj. destruct (Hfr j Hj) as [F1 F2].
    split; [exact F1|]. split; [exact F2|].
    pose proof (mdimb_rows _ _ _ LK) as HrK.
    rewrite vadd_f by (rewrite vadd_len, mvmul_length; auto).
    rewrite vadd_f by (rewrite vscale_len; auto).
    rewrite vscale_f, (mvmul_f _ _ _ _ LK), vsub_f by assumption. unfold fadd, fscal. reflexivity.
  Qed.

  Lemma seg_in a l u k h : 0 <= a <= 1 -> l <= u <= h -> l <= u + k <= h -> l <= u + a * k <= h.
  Proof. intros [A1 A2] [B1 B2] [C1 C2]. split; nra. Qed.

  Lemma seg_excess a l u k h e : 0 <= a <= 1 -> l <= u + k <= h ->
    Rmax 0 (Rmax (l - (u + a * k + e)) (u + a * k + e - h)) <= (1 - a) * Rmax 0 (Rmax (l - u) (u - h)) + Rabs e.
  Proof.
    intros [A1 A2] [B1 B2].
    pose proof (Rmax_l 0 (Rmax (l - u) (u - h))) as M0. pose proof (Rmax_r 0 (Rmax (l - u) (u - h))) as M1.
    pose proof (Rmax_l (l - u) (u - h)) as M2. pose proof (Rmax_r (l - u) (u - h)) as M3.
    set (m := Rmax 0 (Rmax (l - u) (u - h))) in *. set (m' := Rmax (l - u) (u - h)) in *.
    pose proof (Rle_abs e) as E1. pose proof (Rle_abs (- e)) as E2. rewrite Rabs_Ropp in E2.
    pose proof (Rabs_pos e). repeat apply Rmax_lub; nra.
  Qed.

  Lemma retry_backward c g p q : retry pb cf t0 n LL limits qfuel c (Some g) p q -> backward c (fst q) (Some g).
  Proof. intros H. remember (Some g) as o eqn:E. induction H; [injection E as ->; assumption|discriminate|auto]. Qed.

  Lemma search_candidate c g l o al ac ex ra c' : search pb cf t0 x0 n c g l o al ac ex ra -> o = Some c' ->
    exists a, In a l /\ is_candidate pb t0 x0 n c g a c'.
  Proof.
    induction 1 as [|a rest c1 [H _]|a c1 H|a b rest c1 o al ac ex ra Ht Hs IH]; intros E; try discriminate.
    - injection E as <-. exists a. split; [left; reflexivity|exact H].
    - destruct (IH E) as (a' & Hin & Hc). exists a'. split; [right; exact Hin|exact Hc].
  Qed.

  (** [c'] was obtained from [c] by one accepted step with a factor from the list. *)
  Definition accepted (c c' : cdata R) : Prop :=
    exists lambda g a, backward c lambda (Some g) /\ In a (cf_alpha_list cf) /\ is_candidate pb t0 x0 n c g a c'.
  Inductive accepts : cdata R -> cdata R -> Prop :=
  | acc_refl c : accepts c c
  | acc_step c c1 c2 : accepted c c1 -> accepts c1 c2 -> accepts c c2.

  Lemma iteration_accepted it s r e s' : iteration pb cf t0 x0 n LL limits qfuel it s r e s' ->
    mc s' = mc s \/ accepted (mc s) (mc s').
  Proof.
    destruct 1 as [c p q g0 g H|c p q g0 g krn H Hk Hkr H1 H2|c p q g0 g krn c' al ac ex ra H Hk Hkr H1 H2|c p q g0 g krn al ac ex ra H Hk Hkr H1 H2];
      cbn [mc fst snd]; auto.
    right. apply retry_backward in H. destruct (search_candidate _ _ _ _ _ _ _ _ _ H2 eq_refl) as (a & Ha & Hc).
    exists (fst q), g, a. auto.
  Qed.
  Lemma iterations_accepts m it s r es s' : iterations pb cf t0 x0 n LL limits qfuel m it s r es s' ->
    accepts (mc s) (mc s').
  Proof.
    induction 1 as [it s|m it s r e s' Hi Hr|m it s e s1 r es s' Hi Hits IH].
    - constructor.
    - destruct (iteration_accepted _ _ _ _ _ Hi) as [->|Ha]; [constructor|econstructor; [exact Ha|constructor]].
    - destruct (iteration_accepted _ _ _ _ _ Hi) as [<-|Ha]; [exact IH|econstructor; [exact Ha|exact IH]].
  Qed.

  Hypothesis Halpha : forall a, In a (cf_alpha_list cf) -> 0 <= a <= 1.

  (** First input of a trajectory within the limits of time t0. *)
  Definition first_ok (c : cdata R) : Prop := forall u, nth_error (cd_u c) 0 = Some u -> within (lo 0) (hi 0) u.

  Lemma accepted_first c c' : (0 < n)%nat -> is_rollout pb t0 x0 n c -> first_ok c -> accepted c c' ->
    is_rollout pb t0 x0 n c' /\ first_ok c'.
  Proof.
    intros Hn Hro Hf (lambda & g & a & Hb & Ha & Hc). split; [apply Hc|].
    intros u1 Hu1 j Hj. destruct (trial_segment _ _ _ _ _ Hb Hc 0%nat Hn) as (x & u & x' & k & K & u' & Hx & Hu & Hx' & Hkk & HK & LKc & Hu' & Lu & free & Hfo & Hs).
    rewrite Hu' in Hu1. injection Hu1 as <-. rewrite Lu in Hj. destruct (Hs j Hj) as (H1 & _ & H2).
    specialize (Hf u Hu j Hj). rewrite H2.
    destruct Hc as [Hro' _]. pose proof (ro_x0 _ _ _ _ _ Hro) as E1. pose proof (ro_x0 _ _ _ _ _ Hro') as E2.
    rewrite E1 in Hx. rewrite E2 in Hx'. injection Hx as <-. injection Hx' as <-.
    replace (fmv (length x0) (mget K) (fsubv (vget x0) (vget x0)) j) with 0.
    - rewrite Rplus_0_r. apply seg_in; auto.
    - unfold fmv, fsubv. symmetry. apply Rsum_zero. intros; ring.
  Qed.
  Lemma accepts_first c c' : accepts c c' -> (0 < n)%nat -> is_rollout pb t0 x0 n c -> first_ok c -> first_ok c'.
  Proof.
    induction 1 as [c|c c1 c2 Ha Hs IH]; auto. intros Hn Hro Hf.
    destruct (accepted_first _ _ Hn Hro Hf Ha). auto.
  Qed.

  (** One accepted step with factor [a] and gains [k], [K]: each component of each input is outside its limits by at most
      (1 - a) times what it was before, plus the feedback term.  A component outside the free set of the step's box QP
      moves by the fraction [a] towards one of its limits, without feedback. *)
  Definition excess_step (c c' : cdata R) : Prop :=
    exists lambda g a, backward c lambda (Some g) /\ In a (cf_alpha_list cf) /\
    forall i, (i < n)%nat -> exists x u x' k K u' free,
      nth_error (cd_x c) i = Some x /\ nth_error (cd_u c) i = Some u /\ nth_error (cd_x c') i = Some x' /\
      nth_error (p_k g) i = Some k /\ nth_error (p_K g) i = Some K /\ nth_error (cd_u c') i = Some u' /\ length u' = length u /\ free_of i u k free /\
      forall j, (j < length u)%nat ->
        excess (lo i) (hi i) u' j <= (1 - a) * excess (lo i) (hi i) u j + Rabs (fmv (length x) (mget K) (fsubv (vget x') (vget x)) j) /\
        (~ In j free -> vget u' j = (1 - a) * vget u j + a * vget (lo i) j \/ vget u' j = (1 - a) * vget u j + a * vget (hi i) j).
  Inductive excess_steps : cdata R -> cdata R -> Prop :=
  | es_refl c : excess_steps c c
  | es_step c c1 c2 : excess_step c c1 -> excess_steps c1 c2 -> excess_steps c c2.

  Lemma accepted_excess c c' : accepted c c' -> excess_step c c'.
  Proof.
    intros (lambda & g & a & Hb & Ha & Hc). exists lambda, g, a. split; [exact Hb|]. split; [exact Ha|].
    intros i Hi. destruct (trial_segment _ _ _ _ _ Hb Hc i Hi) as (x & u & x' & k & K & u' & Hx & Hu & Hx' & Hk & HK & LK & Hu' & Lu & free & Hfo & Hs).
    exists x, u, x', k, K, u', free. repeat (split; [assumption|]). intros j Hj. destruct (Hs j Hj) as (H1 & H3 & H2). split.
    - unfold excess. rewrite H2. apply seg_excess; auto.
    - intros Hn. destruct (H3 Hn) as [H4 H5]. rewrite H2.
      replace (fmv (length x) (mget K) (fsubv (vget x') (vget x)) j) with 0.
      + destruct H4 as [<-|<-]; [left|right]; ring.
      + symmetry. unfold fmv. apply Rsum_zero. intros l Hl. rewrite (H5 l) by lia. ring.
  Qed.
  Lemma accepts_excess c c' : accepts c c' -> excess_steps c c'.
  Proof. induction 1; econstructor; eauto using accepted_excess. Qed.
End Limits.
