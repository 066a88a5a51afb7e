(** Properties C38-C42 and C51-C52 of Gmres::solve. *)
From Verif Require Import Prelude Scalar LinAlg RLin Gmres GmresReal3 GmresSpec GmresCor GmresCor2.
Open Scope R_scope.

(** An admissible call: f linear on R^n, sizes matching, k_max and eps not negative, f injective on the
    Krylov spaces of the initial residual (true for nonsingular f), and, when make_triangular_ is false,
    householderQr().solve returning least-squares solutions. *)
Definition call_ok (n : nat) (f : list R -> list R) (b x : list R) (k_max : Z) (eps : R)
  (cfg : gm_config) (lsq : list (list R) -> list R -> list R) : Prop :=
  linear n f /\ length b = n /\ length x = n /\ (0 <= k_max)%Z /\ 0 <= eps /\
  injective_on_krylov n f (lsub b (f x)) /\ (gm_tri cfg = true \/ least_squares lsq).
Definition gmres {S} cfg (lsq : list (list R) -> list R -> list R) f b x k_max eps : M S (gm_out R) :=
  gm_solve cfg (fun A c => lsq (mdat A) c) f b x k_max eps.
(** Number of iterations done: one error is recorded before the loop and one per iteration. *)
Definition iterations (out : gm_out R) : nat := (length (go_err out) - 1)%nat.

Lemma nonsingular_ok n f b x k_max eps cfg lsq : linear n f -> nonsingular n f -> length b = n -> length x = n -> (0 <= k_max)%Z ->
  0 <= eps -> gm_tri cfg = true \/ least_squares lsq -> call_ok n f b x k_max eps cfg lsq.
Proof.
  intros Hf Hn Hb Hx Hk He Hl. repeat split; auto; try apply Hf. apply nonsing_krylov; auto.
  apply lsub_len; [exact Hb|apply Hf; exact Hx].
Qed.

Lemma run_ok n f b x k_max eps cfg lsq {S} (s : S) : call_ok n f b x k_max eps cfg lsq ->
  exists out, gmres cfg lsq f b x k_max eps s = Ok out s /\ length (go_x out) = n /\
    vget (go_x out) = fadd (vget x) (GmresLin.comb (ksol n f b x k_max eps) (vget (ysol n f b x k_max eps))
                                       (fun j => vget (bget (bass n f b x k_max eps) j))) /\
    go_err out = map (rhos n f b x) (seq 0 (Datatypes.S (ksol n f b x k_max eps))) /\ go_basis out = bass n f b x k_max eps.
Proof.
  intros (Hf & Hb & Hx & Hk & He & Hi & Hl). apply run; auto.
  intros Ht. destruct Hl as [Hl|Hl]; [congruence|]. apply (least_squares_exact lsq Hl).
Qed.
Lemma iterations_eq n f b x k_max eps (out : gm_out R) :
  go_err out = map (rhos n f b x) (seq 0 (Datatypes.S (ksol n f b x k_max eps))) -> iterations out = ksol n f b x k_max eps.
Proof. intros E. unfold iterations. rewrite E, map_length, seq_length. lia. Qed.
Lemma nth_rhos h k i : (i <= k)%nat -> nth i (map h (seq 0 (S k))) 0 = h i.
Proof.
  intros Hi. rewrite nth_indep with (d' := h 0%nat) by (rewrite map_length, seq_length; lia). rewrite (map_nth h), seq_nth by lia. reflexivity.
Qed.
Lemma last_rhos (h : nat -> R) k : last (map h (seq 0 (S k))) 0 = h k.
Proof. rewrite seq_S, map_app. apply last_last. Qed.

(** C38: the last recorded error is the residual norm of the returned x. *)
Theorem C38_true_residual n f b x k_max eps cfg lsq {S} (s : S) : call_ok n f b x k_max eps cfg lsq ->
  exists out, gmres cfg lsq f b x k_max eps s = Ok out s /\ length (go_x out) = n /\
    last (go_err out) 0 = nrm (lsub b (f (go_x out))).
Proof.
  intros H. destruct (run_ok n f b x k_max eps cfg lsq s H) as (out & E & L & X & Er & _).
  exists out. split; [exact E|]. split; [exact L|]. destruct H as (Hf & Hb & Hx & Hk & He & Hi & _).
  rewrite Er, last_rhos. symmetry. apply (x_residual n f b x k_max eps); assumption.
Qed.
Print Assumptions C38_true_residual.

(** C39: the correction lies in the Krylov space and no other correction from it has a smaller residual. *)
Theorem C39_minimal_residual n f b x k_max eps cfg lsq {S} (s : S) : call_ok n f b x k_max eps cfg lsq ->
  exists out, gmres cfg lsq f b x k_max eps s = Ok out s /\
    (exists z, in_span n (krylov f (lsub b (f x)) (iterations out)) z /\ go_x out = ladd x z) /\
    forall z, in_span n (krylov f (lsub b (f x)) (iterations out)) z ->
      nrm (lsub b (f (go_x out))) <= nrm (lsub b (f (ladd x z))).
Proof.
  intros H. destruct (run_ok n f b x k_max eps cfg lsq s H) as (out & E & L & X & Er & _).
  exists out. split; [exact E|]. destruct H as (Hf & Hb & Hx & Hk & He & Hi & _). rewrite (iterations_eq _ _ _ _ _ _ out Er). split.
  - destruct (x_form n f b x k_max eps Hf Hb Hx He Hi out L X) as (Lz & Ez & Ex).
    eexists. split; [|exact Ex]. apply (in_span_comb n f Hf); [apply (Lr n f b x Hf Hb Hx)|exact Lz|]. rewrite Ez.
    apply GmresReal2.span_comb. intros j Hj. apply (GmresReal2.span_mono (Datatypes.S j)); [lia|].
    apply (bas_kry n f b x k_max eps Hf Hb Hx He Hi j Hj).
  - intros z Hz. rewrite (x_residual n f b x k_max eps Hf Hb Hx He Hi out L X).
    apply (minimal n f b x k_max eps Hf Hb Hx He Hi z Hz).
Qed.
Print Assumptions C39_minimal_residual.

(** C40: the recorded errors. *)
Theorem C40_error_history n f b x k_max eps cfg lsq {S} (s : S) : call_ok n f b x k_max eps cfg lsq ->
  exists out, gmres cfg lsq f b x k_max eps s = Ok out s /\
    let err i := nth i (go_err out) 0 in
    let k := iterations out in
    length (go_err out) = (k + 1)%nat /\ (Z.of_nat k <= Z.min k_max (Z.of_nat n))%Z /\
    err 0%nat = nrm (lsub b (f x)) /\
    (forall i, (i < k)%nat -> err (i + 1)%nat <= err i) /\
    (forall i, (i < k)%nat -> eps * nrm b < err i) /\
    (err k <= eps * nrm b \/ Z.of_nat k = Z.min k_max (Z.of_nat n)).
Proof.
  intros H. destruct (run_ok n f b x k_max eps cfg lsq s H) as (out & E & L & X & Er & _).
  exists out. split; [exact E|]. destruct H as (Hf & Hb & Hx & Hk & He & Hi & _). cbv zeta. rewrite (iterations_eq _ _ _ _ _ _ out Er), Er.
  pose proof (ksol_le n f b x k_max eps Hb Hx) as HL.
  split; [rewrite map_length, seq_length; lia|]. split; [lia|]. split; [rewrite nth_rhos by lia; apply rhos_0|].
  split; [|split].
  - intros i Hik. rewrite !nth_rhos by lia. replace (i + 1)%nat with (Datatypes.S i) by lia.
    apply (rhos_mono n f b x k_max eps Hf Hb Hx He Hi i Hik).
  - intros i Hik. rewrite nth_rhos by lia. apply (ksol_before n f b x k_max eps Hb Hx i Hik).
  - rewrite nth_rhos by lia. destruct (ksol_stop n f b x k_max eps) as [G|G]; [left; exact G|right]. rewrite G. lia.
Qed.
Print Assumptions C40_error_history.

(** C41: exact solution in at most n iterations. *)
Theorem C41_exact_after_n n f b x k_max cfg lsq {S} (s : S) : linear n f -> nonsingular n f -> length b = n -> length x = n ->
  (Z.of_nat n <= k_max)%Z -> gm_tri cfg = true \/ least_squares lsq ->
  exists out, gmres cfg lsq f b x k_max 0 s = Ok out s /\ f (go_x out) = b /\ (iterations out <= n)%nat.
Proof.
  intros Hf Hn Hb Hx Hk Hl. assert (H : call_ok n f b x k_max 0 cfg lsq) by (apply nonsingular_ok; auto; [lia|lra]).
  destruct (run_ok n f b x k_max 0 cfg lsq s H) as (out & E & L & X & Er & _). exists out. split; [exact E|].
  destruct H as (_ & _ & _ & Hk0 & He & Hi & _). split.
  - pose proof (x_residual n f b x k_max 0 Hf Hb Hx He Hi out L X) as R.
    rewrite (rhos_full n f b x k_max 0 Hf Hb Hx He Hi Hk eq_refl) in R.
    assert (Lf : length (f (go_x out)) = n) by (apply Hf; exact L).
    rewrite nrm_vnorm in R. apply GmresReal.vnorm_0 in R. rewrite vget_lsub in R by lia. apply vec_ext; [lia|].
    intros i Hin. apply (f_equal (fun g => g i)) in R. unfold fsubv, fzero in R. lra.
  - rewrite (iterations_eq _ _ _ _ _ _ out Er). pose proof (ksol_le n f b x k_max 0 Hb Hx). lia.
Qed.
Print Assumptions C41_exact_after_n.

(** C41, any tolerance: with k_max at least n the tolerance is met. *)
Theorem C41_tolerance_met n f b x k_max eps cfg lsq {S} (s : S) : linear n f -> nonsingular n f -> length b = n -> length x = n ->
  (Z.of_nat n <= k_max)%Z -> 0 <= eps -> gm_tri cfg = true \/ least_squares lsq ->
  exists out, gmres cfg lsq f b x k_max eps s = Ok out s /\ length (go_x out) = n /\ nrm (lsub b (f (go_x out))) <= eps * nrm b.
Proof.
  intros Hf Hn Hb Hx Hk He Hl. assert (H : call_ok n f b x k_max eps cfg lsq) by (apply nonsingular_ok; auto; lia).
  destruct (run_ok n f b x k_max eps cfg lsq s H) as (out & E & L & X & Er & _). exists out. split; [exact E|]. split; [exact L|].
  destruct H as (_ & _ & _ & Hk0 & _ & Hi & _). rewrite (x_residual n f b x k_max eps Hf Hb Hx He Hi out L X).
  apply (rhos_small n f b x k_max eps Hf Hb Hx He Hi Hk).
Qed.
Print Assumptions C41_tolerance_met.

(** C42: the options make no difference. *)
Theorem C42_options_agree n f b x k_max eps cfg1 lsq1 cfg2 lsq2 {S} (s : S) :
  call_ok n f b x k_max eps cfg1 lsq1 -> call_ok n f b x k_max eps cfg2 lsq2 ->
  exists out1 out2, gmres cfg1 lsq1 f b x k_max eps s = Ok out1 s /\ gmres cfg2 lsq2 f b x k_max eps s = Ok out2 s /\
    go_x out1 = go_x out2 /\ go_err out1 = go_err out2 /\ go_basis out1 = go_basis out2.
Proof.
  intros H1 H2. destruct (run_ok n f b x k_max eps cfg1 lsq1 s H1) as (o1 & E1 & L1 & X1 & Er1 & B1).
  destruct (run_ok n f b x k_max eps cfg2 lsq2 s H2) as (o2 & E2 & L2 & X2 & Er2 & B2).
  exists o1, o2. repeat split; auto; [|congruence|congruence]. apply GmresReal2.vec_eq; congruence.
Qed.
Print Assumptions C42_options_agree.

(** C51: the stored basis. *)
Theorem C51_orthonormal_basis n f b x k_max eps cfg lsq {S} (s : S) : call_ok n f b x k_max eps cfg lsq ->
  exists out, gmres cfg lsq f b x k_max eps s = Ok out s /\
    let k := iterations out in
    let v j := nth j (go_basis out) [] in
    length (go_basis out) = (k + 1)%nat /\
    (forall i j, (i < k)%nat -> (j < k)%nat -> ldot (v i) (v j) = if Nat.eqb i j then 1 else 0) /\
    (forall j, (j < k)%nat -> in_span n (krylov f (lsub b (f x)) (j + 1)) (v j)) /\
    (forall j, (j < k)%nat -> ldot (v k) (v j) = 0) /\
    (last (go_err out) 0 <> 0 -> ldot (v k) (v k) = 1).
Proof.
  intros H. destruct (run_ok n f b x k_max eps cfg lsq s H) as (out & E & L & X & Er & B).
  exists out. split; [exact E|]. destruct H as (Hf & Hb & Hx & Hk & He & Hi & _). cbv zeta.
  rewrite (iterations_eq _ _ _ _ _ _ out Er), B, Er, last_rhos. set (k := ksol n f b x k_max eps).
  destruct (bas_last n f b x k_max eps Hf Hb Hx He Hi) as (B1 & B2 & B3).
  split; [etransitivity; [apply (bas_count n f b x k_max eps Hf Hb Hx He Hi)|fold k; lia]|].
  split; [intros i j Hik Hj; apply (bas_orth n f b x k_max eps Hf Hb Hx He Hi i j Hik Hj)|].
  split; [|split; [exact B3|exact B2]].
  intros j Hj. apply (in_span_comb n f Hf).
  - apply (Lr n f b x Hf Hb Hx).
  - apply (bas_len n f b x k_max eps Hf Hb Hx He Hi j Hj).
  - replace (j + 1)%nat with (Datatypes.S j) by lia. apply (bas_kry n f b x k_max eps Hf Hb Hx He Hi j Hj).
Qed.
Print Assumptions C51_orthonormal_basis.

(** ** Concrete calls *)
Definition swap (v : list R) : list R := [vget v 1; vget v 0].
Lemma swap_linear : linear 2 swap.
Proof.
  split; [reflexivity|]. split.
  - intros [|a [|b [|]]] [|c [|d [|]]]; try discriminate. reflexivity.
  - intros a [|c [|d [|]]]; try discriminate. reflexivity.
Qed.
Lemma swap_nonsingular : nonsingular 2 swap.
Proof. intros [|a [|b [|]]]; try discriminate. intros _ E. unfold swap, vget in E. cbn in E. injection E as -> ->. reflexivity. Qed.
Definition tri_cfg : gm_config := {| gm_tri := true; gm_reorth := true |}.
Definition full_cfg : gm_config := {| gm_tri := false; gm_reorth := false |}.
Example call_nonvacuous : call_ok 2 swap [1; 0] [0; 0] 1 (1/10) full_cfg normal_lsq /\ call_ok 2 swap [1; 0] [0; 0] 1 (1/10) tri_cfg normal_lsq.
Proof.
  split; (apply nonsingular_ok; [exact swap_linear|exact swap_nonsingular|reflexivity|reflexivity|lia|lra|]).
  - right. exact normal_least_squares.
  - left. reflexivity.
Qed.
(** After two iterations the system v1 = 1, v0 = 0 is solved. *)
Example C41_nonvacuous : exists out, gmres tri_cfg normal_lsq swap [1; 0] [0; 0] 2 0 tt = Ok out tt /\ go_x out = [0; 1] /\ (iterations out <= 2)%nat.
Proof.
  destruct (C41_exact_after_n 2 swap [1; 0] [0; 0] 2 tri_cfg normal_lsq tt swap_linear swap_nonsingular eq_refl eq_refl ltac:(lia) (or_introl eq_refl))
    as (out & E & Ef & Hi).
  destruct (C38_true_residual 2 swap [1; 0] [0; 0] 2 0 tri_cfg normal_lsq tt) as (out' & E' & L & _).
  { apply nonsingular_ok; [exact swap_linear|exact swap_nonsingular|reflexivity|reflexivity|lia|lra|left; reflexivity]. }
  rewrite E in E'. injection E' as <-. exists out. split; [exact E|]. split; [|exact Hi].
  destruct (go_x out) as [|a [|b [|]]]; try discriminate. unfold swap, vget in Ef. cbn in Ef. injection Ef as -> ->. reflexivity.
Qed.
(** A singular operator that is injective on the Krylov spaces it meets. *)
Definition proj (v : list R) : list R := [vget v 0; 0].
Example singular_nonvacuous : call_ok 2 proj [3; 0] [1; 5] 2 0 tri_cfg normal_lsq /\ ~ nonsingular 2 proj.
Proof.
  split.
  - split; [|split; [reflexivity|split; [reflexivity|split; [lia|split; [lra|split; [|left; reflexivity]]]]]].
    + split; [reflexivity|]. split.
      * intros [|a [|b [|]]] [|c [|d [|]]]; try discriminate. intros _ _. unfold proj, ladd. cbn. do 2 f_equal. ring.
      * intros a [|c [|d [|]]]; try discriminate. intros _. unfold proj, lscal. cbn. do 2 f_equal. ring.
    + intros k v (cs & Hc & ->) E.
      assert (Hr : forall j, Nat.iter j proj (lsub [3; 0] (proj [1; 5])) = [2; 0]).
      { induction j; cbn [Nat.iter nat_rect]; [unfold lsub, proj; cbn; f_equal; [ring|f_equal; ring]|].
        change (nat_rect _ _ _ j) with (Nat.iter j proj (lsub [3; 0] (proj [1; 5]))). rewrite IHj. reflexivity. }
      assert (Hv : forall cs vs, (forall v, In v vs -> v = [2; 0]) -> exists a, lincomb 2 cs vs = [a; 0]).
      { clear. induction cs as [|c cs IH]; intros [|v vs] H; try (exists 0; reflexivity). destruct (IH vs) as [a Ea]; [intros; apply H; right; assumption|].
        cbn [lincomb]. rewrite Ea, (H v (or_introl eq_refl)). unfold ladd, lscal. cbn. exists (c * 2 + a). do 2 f_equal. ring. }
      destruct (Hv cs (krylov proj (lsub [3; 0] (proj [1; 5])) k)) as [a Ea].
      { intros v Hv'. apply in_map_iff in Hv' as (j & <- & _). apply Hr. }
      rewrite Ea in E |- *. unfold proj, vget in E. cbn in E. injection E as ->. reflexivity.
  - intros H. specialize (H [0; 1] eq_refl eq_refl). injection H. lra.
Qed.

(** ** Doubles: a singular matrix makes the returned x a NaN (0/0 in lines 153-154), and no error is reported. *)
Definition zero_call (cfg : gm_config) : outcome unit (gm_out f64) :=
  gm_solve cfg (fun _ _ => [nzero]) (fun v => map (fun _ => nzero) v) [none] [nzero] 1 nzero tt.
Theorem C38_refuted : exists out, zero_call tri_cfg = Ok out tt /\
  forallb nfin (go_x out) = false /\ neqb (vget (go_x out) 0) (vget (go_x out) 0) = false.
Proof. eexists. split; [vm_compute; reflexivity|]. split; vm_compute; reflexivity. Qed.
Print Assumptions C38_refuted.
