(** The adjoint recursion of the Euler sweeps is the gradient of the discretised cost. *)
From Coq Require Import Reals Lra.
From Verif Require Import Prelude Scalar LinAlg RLin GmresSpec GmresCor Cgmres CgmresProofs P_Ode.
Local Open Scope R_scope.

(** ** Specification: gradients and the discretised optimal control problem, on plain lists of reals. *)

(** Derivative of each component of a curve of R^d at 0. *)
Definition curve (d : nat) (W : R -> list R) (dW : list R) : Prop :=
  (forall s, length (W s) = d) /\ length dW = d /\ forall i, (i < d)%nat -> derivable_pt_lim (fun s => nth i (W s) 0) 0 (nth i dW 0).
(** g is the gradient of F at v: the derivative of F along every curve through v is the product of g and the velocity. *)
Definition gradient (d : nat) (F : list R -> R) (v g : list R) : Prop :=
  length g = d /\ forall W dW, curve d W dW -> W 0 = v -> derivable_pt_lim (fun s => F (W s)) 0 (ldot g dW).

(** Cost of an input list for x_{i+1} = x_i + h f(x_i, u_i), running cost L and terminal cost phi. *)
Fixpoint horizon_cost (f : list R -> list R -> list R) (L : list R -> list R -> R) (phi : list R -> R) (h : R) (x : list R) (us : list (list R)) : R :=
  match us with
  | [] => phi x
  | u :: us' => h * L x u + horizon_cost f L phi h (ladd x (lscal h (f x u))) us'
  end.
(** H(x, u, l) = L(x, u) + l . f(x, u) as a function of the stacked vector. *)
Definition hamiltonian (n : nat) (f : list R -> list R -> list R) (L : list R -> list R -> R) (l xu : list R) : R :=
  L (firstn n xu) (skipn n xu) + ldot l (f (firstn n xu) (skipn n xu)).
(** Columns of length m of a stacked vector. *)
Definition columns (m N : nat) (U : list R) : list (list R) := map (fun i => firstn m (skipn (i * m) U)) (seq 0 N).

(** The callbacks do not depend on time and are the derivatives of the Hamiltonian and of the terminal cost. *)
Definition true_callbacks (pb : cg_problem R) f L phi : Prop :=
  let n := cp_dim_x pb in let m := cp_dim_uc pb in
  (forall x u, length x = n -> length u = m -> length (f x u) = n) /\
  (forall t x u, length x = n -> length u = m -> cp_f pb t x u = f x u) /\
  (forall t x, length x = n -> cp_dphi pb t x = cp_dphi pb 0 x /\ gradient n phi x (cp_dphi pb t x)) /\
  (forall t x u l, length x = n -> length u = m -> length l = n ->
     cp_costate pb t l (x ++ u) = cp_costate pb 0 l (x ++ u) /\ cp_dhdu pb t x u l = cp_dhdu pb 0 x u l /\
     length (cp_costate pb t l (x ++ u)) = n /\ length (cp_dhdu pb t x u l) = m /\
     gradient (n + m) (hamiltonian n f L l) (x ++ u) (lscal (-1) (cp_costate pb t l (x ++ u)) ++ cp_dhdu pb t x u l)).

(** ** Proofs *)
Lemma ldot_app a b c d : length a = length c -> ldot (a ++ b) (c ++ d) = ldot a c + ldot b d.
Proof.
  revert c. induction a as [|x a IH]; intros [|y c] H; try discriminate; [unfold ldot; cbn; ring|]. injection H as H.
  unfold ldot in *. cbn. rewrite IH by exact H. ring.
Qed.
Lemma ldot_lscal_l c a b : ldot (lscal c a) b = c * ldot a b.
Proof.
  revert b. induction a as [|x a IH]; intros [|y b]; try (unfold ldot; cbn; ring). unfold ldot, lscal in *. cbn. rewrite IH. ring.
Qed.
Lemma ldot_lscal_r c a b : ldot a (lscal c b) = c * ldot a b.
Proof.
  revert b. induction a as [|x a IH]; intros [|y b]; try (unfold ldot; cbn; ring). unfold ldot, lscal in *. cbn. rewrite IH. ring.
Qed.
Lemma ldot_ladd_l a b c : length a = length b -> ldot (ladd a b) c = ldot a c + ldot b c.
Proof.
  revert b c. induction a as [|x a IH]; intros [|y b] [|z c] H; try discriminate; try (unfold ldot, ladd; cbn; ring). injection H as H.
  unfold ldot, ladd in *. cbn. rewrite IH by exact H. ring.
Qed.
Lemma ldot_ladd_r a b c : length b = length c -> ldot a (ladd b c) = ldot a b + ldot a c.
Proof.
  revert b c. induction a as [|x a IH]; intros [|y b] [|z c] H; try discriminate; try (unfold ldot, ladd; cbn; ring). injection H as H.
  unfold ldot, ladd in *. cbn. rewrite IH by exact H. ring.
Qed.
Lemma nth_ladd a b i : length a = length b -> nth i (ladd a b) 0 = nth i a 0 + nth i b 0.
Proof. intros H. exact (f_equal (fun g => g i) (vget_ladd a b H)). Qed.
Lemma nth_lscal c a i : nth i (lscal c a) 0 = c * nth i a 0.
Proof. exact (f_equal (fun g => g i) (vget_lscal c a)). Qed.

(** The product of a constant vector and a curve. *)
Lemma curve_ldot d W dW l : curve d W dW -> length l = d -> derivable_pt_lim (fun s => ldot l (W s)) 0 (ldot l dW).
Proof.
  intros (L1 & L2 & D) Ll. rewrite ldot_R by congruence.
  apply (derivable_pt_lim_ext (fun s => Rsum d (fun i => vget l i * vget (W s) i))).
  - intros s. rewrite ldot_R by (rewrite L1; exact Ll). unfold fdot. rewrite Ll. reflexivity.
  - unfold fdot. rewrite Ll. clear -D. induction d as [|d IH]; [apply derivable_pt_lim_const|]. cbn [Rsum].
    apply (derivable_pt_lim_plus (fun s => Rsum d (fun i => vget l i * vget (W s) i))).
    + apply IH. intros i Hi. apply D. lia.
    + apply (derivable_pt_lim_scal (fun r => vget (W r) d)). apply D. lia.
Qed.
Lemma curve_app n m X dX U dU : curve n X dX -> curve m U dU -> curve (n + m) (fun s => X s ++ U s) (dX ++ dU).
Proof.
  intros (L1 & L2 & D) (L3 & L4 & D'). split; [intros s; rewrite app_length, L1, L3; reflexivity|]. split; [rewrite app_length; congruence|].
  intros i Hi. destruct (Nat.lt_ge_cases i n) as [H|H].
  - rewrite app_nth1 by (rewrite L2; exact H). apply (derivable_pt_lim_ext (fun s => nth i (X s) 0)); [|apply D; exact H].
    intros s. rewrite app_nth1 by (rewrite L1; exact H). reflexivity.
  - rewrite app_nth2 by (rewrite L2; exact H). rewrite L2. apply (derivable_pt_lim_ext (fun s => nth (i - n) (U s) 0)); [|apply D'; lia].
    intros s. rewrite app_nth2 by (rewrite L1; exact H). rewrite L1. reflexivity.
Qed.

Section Grad.
  Variables (pb : cg_problem R) (f : list R -> list R -> list R) (L : list R -> list R -> R) (phi : list R -> R) (h : R).
  Hypothesis HT : true_callbacks pb f L phi.
  Notation n := (cp_dim_x pb).
  Notation m := (cp_dim_uc pb).
  Notation next x u := (ladd x (lscal h (f x u))).

  (** Costate at the first step and the list of DhDu. *)
  Fixpoint lam (x : list R) (us : list (list R)) : list R :=
    match us with
    | [] => cp_dphi pb 0 x
    | u :: us' => let l := lam (next x u) us' in ladd l (lscal (- h) (cp_costate pb 0 l (x ++ u)))
    end.
  Fixpoint grads (x : list R) (us : list (list R)) : list (list R) :=
    match us with [] => [] | u :: us' => cp_dhdu pb 0 x u (lam (next x u) us') :: grads (next x u) us' end.

  Lemma next_len x u : length x = n -> length u = m -> length (next x u) = n.
  Proof. intros Hx Hu. apply ladd_len; [exact Hx|]. rewrite lscal_len. apply HT; assumption. Qed.
  Lemma lam_len us : forall x, length x = n -> (forall u, In u us -> length u = m) -> length (lam x us) = n.
  Proof.
    destruct HT as (H1 & H2 & H3 & H4). induction us as [|u us IH]; intros x Hx Hu; [apply (H3 0 x Hx)|].
    cbn [lam]. assert (Ll : length (lam (next x u) us) = n) by (apply IH; [apply next_len; auto; apply Hu; left; reflexivity|intros; apply Hu; right; assumption]).
    apply ladd_len; [exact Ll|]. rewrite lscal_len. apply H4; auto. apply Hu. left. reflexivity.
  Qed.

  Lemma ham_curve l X dX U dU : length l = n -> curve n X dX -> curve m U dU ->
    derivable_pt_lim (fun s => L (X s) (U s) + ldot l (f (X s) (U s))) 0
      (ldot (lscal (-1) (cp_costate pb 0 l (X 0 ++ U 0))) dX + ldot (cp_dhdu pb 0 (X 0) (U 0) l) dU).
  Proof.
    intros Ll CX CU. destruct HT as (H1 & H2 & H3 & H4).
    destruct (H4 0 (X 0) (U 0) l (proj1 CX 0) (proj1 CU 0) Ll) as (_ & _ & La & Lb & Lg & G).
    rewrite <- ldot_app by (rewrite lscal_len, La; symmetry; apply CX).
    apply (derivable_pt_lim_ext (fun s => hamiltonian n f L l (X s ++ U s))).
    - intros s. unfold hamiltonian. rewrite firstn_app, skipn_app, (proj1 CX s), Nat.sub_diag, firstn_O, skipn_O, app_nil_r.
      rewrite firstn_all2, skipn_all2 by (rewrite (proj1 CX s); lia). reflexivity.
    - apply G; [apply curve_app; assumption|reflexivity].
  Qed.

  Definition unit_l (j : nat) : list R := vbuild n (fun i => if Nat.eqb i j then 1 else 0).
  Lemma ldot_unit j v : length v = n -> (j < n)%nat -> ldot (unit_l j) v = nth j v 0.
  Proof.
    intros Hv Hj. unfold unit_l. rewrite ldot_R by (rewrite vbuild_length; congruence). rewrite vbuild_length. unfold fdot. rewrite (Rsum_single _ _ j).
    - rewrite vbuild_get by exact Hj. rewrite Nat.eqb_refl. unfold vget. numR. ring.
    - exact Hj.
    - intros i Hi Hne. rewrite vbuild_get by exact Hi. rewrite (proj2 (Nat.eqb_neq i j)) by exact Hne. ring.
  Qed.
  Lemma ldot_zero k v : ldot (repeat 0 k) v = 0.
  Proof. revert v. induction k as [|k IH]; intros [|b v]; try reflexivity. unfold ldot in *. cbn. rewrite IH. ring. Qed.

  (** The image of a curve under f is a curve. *)
  Lemma f_curve X dX U dU : curve n X dX -> curve m U dU ->
    exists df dL, curve n (fun s => f (X s) (U s)) df /\ derivable_pt_lim (fun s => L (X s) (U s)) 0 dL /\
      forall l, length l = n -> dL + ldot l df =
        ldot (lscal (-1) (cp_costate pb 0 l (X 0 ++ U 0))) dX + ldot (cp_dhdu pb 0 (X 0) (U 0) l) dU.
  Proof.
    intros CX CU. set (D l := ldot (lscal (-1) (cp_costate pb 0 l (X 0 ++ U 0))) dX + ldot (cp_dhdu pb 0 (X 0) (U 0) l) dU).
    set (dL := D (repeat 0 n)). set (df := vbuild n (fun j => D (unit_l j) - dL)).
    assert (HL : derivable_pt_lim (fun s => L (X s) (U s)) 0 dL).
    { pose proof (ham_curve (repeat 0 n) X dX U dU (repeat_length _ _) CX CU) as E. eapply derivable_pt_lim_ext; [|exact E].
      intros s. cbv beta. rewrite ldot_zero. ring. }
    assert (Lf : forall s, length (f (X s) (U s)) = n) by (intros s; apply HT; [apply CX|apply CU]).
    assert (CF : curve n (fun s => f (X s) (U s)) df).
    { split; [exact Lf|]. split; [apply vbuild_length|]. intros j Hj.
      pose proof (ham_curve (unit_l j) X dX U dU (vbuild_length _ _) CX CU) as E.
      change (nth j df 0) with (vget df j). unfold df. rewrite vbuild_get by exact Hj.
      eapply derivable_pt_lim_ext; [|exact (derivable_pt_lim_minus _ _ _ _ _ E HL)]. intros s. unfold minus_fct.
      rewrite ldot_unit by auto. ring. }
    exists df, dL. split; [exact CF|]. split; [exact HL|]. intros l Ll.
    apply (uniqueness_limite (fun s => L (X s) (U s) + ldot l (f (X s) (U s))) 0).
    - apply (derivable_pt_lim_plus (fun s => L (X s) (U s))); [exact HL|]. apply (curve_ldot n _ df l CF Ll).
    - apply ham_curve; assumption.
  Qed.

  Lemma cost_curve : forall (Us : list (R -> list R)) (dUs : list (list R)) X dX, curve n X dX -> Forall2 (curve m) Us dUs ->
    derivable_pt_lim (fun s => horizon_cost f L phi h (X s) (map (fun U => U s) Us)) 0
      (ldot (lam (X 0) (map (fun U => U 0) Us)) dX + h * ldot (concat (grads (X 0) (map (fun U => U 0) Us))) (concat dUs)).
  Proof.
    induction Us as [|U Us IH]; intros dUs X dX CX F2; inversion F2 as [|? dU ? dUs' CU F2' E1 E2]; subst; cbn [map horizon_cost lam grads concat].
    - replace (ldot [] []) with 0 by reflexivity. rewrite Rmult_0_r, Rplus_0_r. apply HT; [apply CX|exact CX|reflexivity].
    - cbv zeta. destruct (f_curve X dX U dU CX CU) as (df & dL & CF & HL & HD).
      assert (CN : curve n (fun s => next (X s) (U s)) (ladd dX (lscal h df))).
      { split; [intros s; apply next_len; [apply CX|apply CU]|]. split; [apply ladd_len; [apply CX|rewrite lscal_len; apply CF]|].
        intros i Hi. rewrite nth_ladd by (rewrite lscal_len; transitivity (cp_dim_x pb); [apply CX|symmetry; apply CF]). rewrite nth_lscal.
        apply (derivable_pt_lim_ext (fun s => nth i (X s) 0 + h * nth i (f (X s) (U s)) 0)).
        - intros s. rewrite nth_ladd by (rewrite lscal_len; transitivity (cp_dim_x pb); [apply CX|symmetry; apply CF]). rewrite nth_lscal. reflexivity.
        - apply (derivable_pt_lim_plus (fun s => nth i (X s) 0)); [apply CX; exact Hi|].
          apply (derivable_pt_lim_scal (fun s => nth i (f (X s) (U s)) 0)). apply CF. exact Hi. }
      set (l := lam (next (X 0) (U 0)) (map (fun U => U 0) Us)).
      assert (Hus : forall u, In u (map (fun U : R -> list R => U 0) Us) -> length u = m).
      { intros u Hu. apply in_map_iff in Hu as (V & <- & HV). clear -F2' HV. induction F2' as [|V' dV Vs dVs C F IH]; [destruct HV|].
        destruct HV as [->|HV]; [apply C|apply IH; exact HV]. }
      assert (Ll : length l = n) by (apply lam_len; [apply (proj1 CN 0)|exact Hus]).
      destruct HT as (H1 & H2 & H3 & H4). destruct (H4 0 (X 0) (U 0) l (proj1 CX 0) (proj1 CU 0) Ll) as (_ & _ & La & Lb & _).
      rewrite ldot_app by (rewrite Lb; symmetry; apply CU).
      rewrite ldot_ladd_l by (rewrite lscal_len, La; exact Ll). rewrite ldot_lscal_l.
      pose proof (IH dUs' _ _ CN F2') as E. cbv beta in E. fold l in E.
      rewrite ldot_ladd_r in E by (rewrite lscal_len; transitivity (cp_dim_x pb); [apply CX|symmetry; apply CF]). rewrite ldot_lscal_r in E.
      pose proof (derivable_pt_lim_plus _ _ _ _ _ (derivable_pt_lim_scal _ h _ _ HL) E) as E'.
      specialize (HD l Ll). rewrite ldot_lscal_l in HD. eapply derivable_pt_lim_ext.
      2:{ match goal with |- derivable_pt_lim _ _ ?a => match type of E' with derivable_pt_lim _ _ ?b => replace a with b; [exact E'|] end end.
          replace (ldot l df) with (-1 * ldot (cp_costate pb 0 l (X 0 ++ U 0)) dX + ldot (cp_dhdu pb 0 (X 0) (U 0) l) dU - dL) by lra. ring. }
      intros s. reflexivity.
  Qed.

  (** The equations of the sweeps determine [lam] and [grads]. *)
  Lemma adjoint_unique : forall us xs ls ds t x, length x = n -> (forall u, In u us -> length u = m) ->
    length ls = (length us + 1)%nat -> length ds = length us ->
    nth 0 xs [] = x ->
    (forall i, (i < length us)%nat -> nth (i + 1) xs [] = euler (cp_f pb) (t + INR i * h) (nth i xs []) (nth i us []) h) ->
    nth (length us) ls [] = cp_dphi pb (t + INR (length us) * h) (nth (length us) xs []) ->
    (forall i, (i < length us)%nat -> nth i ls [] = euler (cp_costate pb) (t + INR (i + 1) * h) (nth (i + 1) ls []) (nth i xs [] ++ nth i us []) (- h)) ->
    (forall i, (i < length us)%nat -> nth i ds [] = cp_dhdu pb (t + INR i * h) (nth i xs []) (nth i us []) (nth (i + 1) ls [])) ->
    nth 0 ls [] = lam x us /\ ds = grads x us.
  Proof.
    pose proof HT as (H1 & H2 & H3 & H4).
    induction us as [|u us IH]; intros xs ls ds t x Hx Hu Ll Ld H0 Hxs Ht Hls Hds.
    - cbn [length nth] in *. rewrite Ht, H0. cbn [lam grads]. split; [apply H3; exact Hx|]. destruct ds; [reflexivity|discriminate].
    - destruct ls as [|l ls]; [discriminate|]. destruct ds as [|d ds]; [discriminate|]. cbn [length] in *.
      assert (Hm : length u = m) by (apply Hu; left; reflexivity).
      assert (X1 : nth 1 xs [] = next x u).
      { etransitivity; [exact (Hxs 0%nat ltac:(lia))|]. rewrite H0. cbn [nth]. unfold euler. cbv zeta. rewrite H2 by assumption.
        apply vec_ext; [unfold vadd; rewrite vbuild_length, Hx; symmetry; apply next_len; assumption|]. intros i _.
        assert (Lf : length (f x u) = n) by auto.
        rewrite vadd_f, vscale_f by (unfold vscale; rewrite vbuild_length; congruence).
        rewrite vget_ladd, vget_lscal by (rewrite lscal_len; congruence). reflexivity. }
      assert (SH : forall i k, t + INR (i + S k) * h = t + h + INR (i + k) * h).
      { intros i k. rewrite Nat.add_succ_r, S_INR. ring. }
      assert (SH0 : forall i, t + INR (S i) * h = t + h + INR i * h) by (intros i; rewrite S_INR; ring).
      destruct (IH (tl xs) ls ds (t + h) (next x u)) as [E1 E2].
      + apply next_len; assumption.
      + intros; apply Hu; right; assumption.
      + lia.
      + lia.
      + destruct xs as [|x' xs]; [cbn in *; rewrite <- X1; reflexivity|exact X1].
      + intros i Hi. rewrite <- SH0. pose proof (Hxs (S i) ltac:(lia)) as E. destruct xs as [|x' xs]; cbn [tl nth plus] in *; [destruct i|]; exact E.
      + rewrite <- SH0. cbn [nth] in Ht. rewrite Ht. f_equal. destruct xs as [|x' xs]; [destruct (length us)|]; reflexivity.
      + intros i Hi. pose proof (Hls (S i) ltac:(lia)) as E. cbn [nth plus] in E. rewrite SH0 in E. rewrite E at 1. f_equal.
        destruct xs as [|x' xs]; [destruct i|]; reflexivity.
      + intros i Hi. pose proof (Hds (S i) ltac:(lia)) as E. cbn [nth plus] in E. rewrite SH0 in E. rewrite E at 1. f_equal.
        destruct xs as [|x' xs]; [destruct i|]; reflexivity.
      + set (l1 := nth 0 ls []) in *.
        assert (Ll1 : length l1 = n). { rewrite E1. apply lam_len; [apply next_len; assumption|]. intros; apply Hu; right; assumption. }
        cbn [lam grads]. rewrite <- E1. split.
        * pose proof (Hls 0%nat ltac:(lia)) as E. cbn [nth plus] in E |- *. fold l1 in E. rewrite H0 in E. rewrite E. unfold euler. cbv zeta.
          destruct (H4 (t + INR 1 * h) x u l1 Hx Hm Ll1) as (Ec & _ & Lc & _). 
          rewrite Ec. rewrite Ec in Lc. clear E.
          apply vec_ext; [unfold vadd; rewrite vbuild_length; symmetry; transitivity (cp_dim_x pb); [apply ladd_len; [exact Ll1|rewrite lscal_len; exact Lc]|congruence]|].
          intros i _. rewrite vadd_f, vscale_f by (unfold vscale; rewrite vbuild_length; congruence).
          rewrite vget_ladd, vget_lscal by (rewrite lscal_len; congruence). reflexivity.
        * pose proof (Hds 0%nat ltac:(lia)) as E. cbn [nth plus] in E. fold l1 in E. rewrite H0 in E. rewrite E.
          destruct (H4 (t + INR 0 * h) x u l1 Hx Hm Ll1) as (_ & Ec & _). rewrite Ec, E2. reflexivity.
  Qed.
End Grad.
