(** C29 (the step solves the linearised KKT system), C55 (no undefined behaviour) and C56 (no error status in exact arithmetic). *)
From Coq Require Import Reals Lra QArith.
From Verif Require Import Prelude Scalar LinAlg RLin RQ ExQPR DDP DDPSafe ExDDP Fmpc FmpcProofs FmpcStep FmpcSpec FmpcReal FmpcNewton FmpcSafe ExFmpc P_FmpcRun P_FmpcReal.
From Verif Require Import Chol CholProofs P_Chol.
Local Open Scope R_scope.

(** ** C29 *)
Section Newton.
  Variables (LO : linops R) (pb : fproblem R) (cf : fconfig R) (D : derivs R).
  Theorem C29_newton fuel it s s' : proc_once LO pb cf fuel it s = Ok IterationContinued s' ->
    computes pb D -> sym_hessians pb D ->
    (forall i w j, nth_error (v_s (f_var s)) i = Some w -> (j < length w)%nat -> vget w j <> 0) ->
    (forall i u, nth_error (v_u (f_var s)) i = Some u -> exact_at LO (length u)) ->
    (forall i x u l w n x' l' c, (i < Nf cf)%nat -> stage (f_var s) i x u l w n x' l' -> nth_error (f_coeff s') (i + 1) = Some c ->
       nonsing (length u) (condensed pb D (f_t s + INR i * pb_dt (fp_dp pb)) x u w n (c_P c))) ->
    newton_step pb D (f_t s) (f_x s) (f_eps s') (Nf cf) (f_var s) (f_delta s').
  Proof.
    intros H CM SY Hs HX HN. apply proc_cont in H as (eps & cl & e & cl' & d & _ & Hc & Hb & Hd & _ & Ec & Ed & Ee & _ & _).
    rewrite Ec in HN. rewrite Ed, Ee.
    exact (passes_newton LO pb cf D (checked s it eps cl e) (f_coeff s) cl' d CM SY Hc Hb Hd Hs HX HN).
  Qed.
  (** Convex cost, positive slacks and nonnegative multipliers: no matrix of the backward pass is singular. *)
  Theorem C29_convex fuel it s s' : proc_once LO pb cf fuel it s = Ok IterationContinued s' ->
    computes pb D -> sym_hessians pb D -> convex_cost pb D (f_t s) (Nf cf) (f_var s) -> all_pos (v_s (f_var s)) -> all_ge 0 (v_n (f_var s)) ->
    (forall i u, nth_error (v_u (f_var s)) i = Some u -> exact_at LO (length u)) ->
    newton_step pb D (f_t s) (f_x s) (f_eps s') (Nf cf) (f_var s) (f_delta s').
  Proof.
    intros H CM SY CV Ps Pn HX. pose proof H as H0. apply proc_cont in H0 as (eps & cl & e & cl' & d & _ & Hc & Hb & Hd & _ & Ec & _).
    apply (C29_newton fuel it); auto.
    - intros i w j Hw Hj. assert (0 < vget w j); [|lra]. apply (Ps w); [eapply nth_error_In; eauto|apply nth_In; exact Hj].
    - intros i x u l w n x' l' c Hi Hst Ec'. rewrite Ec in Ec'. apply posdef_nonsing.
      exact (convex_condensed LO pb cf D (checked s it eps cl e) (f_coeff s) cl' CM SY CV Hc Hb HX Ps Pn i x u l w n x' l' c Hi Hst Ec').
  Qed.
End Newton.
Print Assumptions C29_newton.
Print Assumptions C29_convex.

(** ** C55 *)
Theorem C55_no_ub {T} {NT : Num T} (LO : linops T) (pb : fproblem T) (cf : fconfig T) (jk : fjunk T) fuel t0 x0 v0 s :
  well_dimensioned_f pb -> lin_dims LO -> junk_ok pb jk -> object_ok pb s ->
  length x0 = pb_nx (fp_dp pb) -> typed_var pb v0 ->
  (* preconditions that solve does not check *)
  (fc_init cf = true -> (Nf cf <= length (v_x v0) /\ Nf cf <= length (v_u v0) /\ Nf cf <= length (v_s v0) /\ Nf cf <= length (v_n v0))%nat) ->
  (fc_update_eps cf = true -> forall i, (i < Nf cf)%nat -> (0 < ng_of pb (ft pb t0 i))%nat) ->
  (fc_ls cf = true -> fc_lagr cf = true -> (0 < pb_nx (fp_dp pb) /\ forall i, i < Nf cf -> 0 < ng_of pb (ft pb t0 i))%nat) ->
  ((3 <= fc_print cf)%Z -> (1 <= fc_max_iter cf)%Z) ->
  match fmpc_solve LO pb cf jk fuel t0 x0 v0 s with
  | UB => False
  | OutOfFuel => True
  | Throw _ s' => object_ok pb s'
  | Ok _ s' => object_ok pb s'
  end.
Proof. intros. apply solve_safe; auto. Qed.
Print Assumptions C55_no_ub.

(** ** C56 *)
Section NoError.
  Variables (LO : linops R) (pb : fproblem R) (cf : fconfig R) (jk : fjunk R).
  (** The linear solve of the backward pass is not given up. *)
  Definition keeps_going : Prop := fc_break cf = false \/ forall G, ld_ok LO G = true.
  Lemma fin_R : (forall v : vec R, vfinb v = true) /\ (forall A : mat R, mfinb A = true).
  Proof.
    assert (V : forall v : vec R, vfinb v = true) by (intros v; apply forallb_forall; reflexivity).
    split; [exact V|]. intros A. apply forallb_forall. intros r _. apply V.
  Qed.
  Lemma bw_coeff_go eps c sl nl s P r : keeps_going -> bw_coeff LO pb cf eps c sl nl s P = Some r -> r <> None.
  Proof.
    intros K H ->. unfold bw_coeff in H. cbn zeta in H. opt1 H.
    match type of H with match ?g with _ => _ end = _ => destruct g as [[k K']|] eqn:Eg end.
    - match type of H with (if ?b then _ else _) = _ => destruct b; discriminate end.
    - match type of Eg with (if ?b then _ else _) = _ => destruct b; [|discriminate] end.
      match type of Eg with (if ?b then _ else _) = _ => destruct b eqn:El; [discriminate|] end. destruct (fc_break cf) eqn:Ef; [|discriminate].
      destruct K as [K|K]; rewrite K in *; discriminate.
  Qed.
  Lemma bw_coeffs_go eps cl ss ns n : keeps_going -> forall s P acc b cl', bw_coeffs LO pb cf eps cl ss ns n s P acc = Some (b, cl') -> b = true.
  Proof.
    intros K. induction n as [|n IH]; intros s P acc b cl' H; cbn [bw_coeffs] in H; [congruence|].
    destruct (nth_error cl n) as [c|]; [|discriminate]. destruct (nth_error ss n) as [sl|]; [|discriminate]. destruct (nth_error ns n) as [nl|]; [|discriminate].
    destruct (bw_coeff LO pb cf eps c sl nl s P) as [r|] eqn:E; [|discriminate]. apply bw_coeff_go in E; [|exact K]. destruct r as [c'|]; [|contradiction].
    apply IH in H. exact H.
  Qed.
  Lemma proc_status fuel it s r s' : keeps_going -> pos_var (f_var s) -> proc_once LO pb cf fuel it s = Ok r s' ->
    r = Succeeded \/ r = IterationContinued.
  Proof.
    intros K [P1 P2] H. destruct (proc_once_case LO pb cf fuel it s) as [P|(eps & cl & e & He & Hc & Hk & P)]; rewrite H in P; [discriminate|].
    destruct (nleb e (fc_kkt cf)); [injection P as -> _; auto|]. symmetry in P. set (sc := checked s it eps cl e) in *.
    pose proof (rest_cases LO pb cf fuel sc) as Q. rewrite P in Q.
    destruct Q as [Q|[Q|(b & cl' & Hb & [[Eb Q]|(_ & d & Hd & [[En Q]|(_ & b2 & s2 & Hu & Q)])])]]; try discriminate.
    - exfalso. destruct (backward_case LO pb cf sc) as [B|(c & b' & cl2 & _ & B1 & B2)]; [rewrite B in Hb; discriminate|].
      apply bw_coeffs_go in B1; [|exact K]. rewrite B2 in Hb. injection Hb as Eb' _. rewrite B1, Eb in Eb'. cbn [andb] in Eb'. apply negb_false_iff, andb_true_iff in Eb' as [_ Eb'].
      apply existsb_exists in Eb' as (c' & _ & Hc'). unfold coeff_nan in Hc'. destruct fin_R as [F1 F2]. rewrite !F1, !F2 in Hc'. discriminate.
    - exfalso. apply andb_true_iff in En as [_ En]. unfold var_nan in En.
      assert (F : forall l : list (vec R), existsb (fun w => negb (vfinb w)) l = false).
      { intros l. rewrite <- not_true_iff_false, existsb_exists. intros (w & _ & Hw). rewrite (proj1 fin_R) in Hw. discriminate. }
      rewrite !F in En. discriminate.
    - injection Q as -> _. destruct b2; [auto|]. exfalso.
      pose proof (update_variables_case pb cf fuel (set_fdelta d (set_fcoeff cl' sc))) as U. rewrite Hu in U.
      destruct U as [U|[U|(a_s & a_n & Fs & Fn & [[A U]|(_ & s3 & a & v & _ & _ & U)])]]; try discriminate.
      apply frac_R in Fs as (Fs1 & _ & _ & Fs2). apply frac_R in Fn as (Fn1 & _ & _ & Fn2). cbn in Fs2, Fn2. specialize (Fs2 P1). specialize (Fn2 P2).
      assert (A' : alpha_ok a_s a_n = true); [|congruence]. unfold alpha_ok.
      change (Rltb 0 a_s && Rleb a_s (1 / 1) && Rltb 0 a_n && Rleb a_n (1 / 1) = true). rewrite !andb_true_iff, !Rltb_true, !Rleb_true. lra.
  Qed.
  Lemma loop_status fuel n : keeps_going -> forall it st s r s', pos_var (f_var s) -> fopt_loop LO pb cf fuel n it st s = Ok r s' ->
    r = Succeeded \/ r = IterationContinued \/ (n = 0%nat /\ r = st).
  Proof.
    intros K. induction n as [|n IH]; intros it st s r s' P H; cbn [fopt_loop] in H; [injection H as <- _; auto|]. unfold bind in H.
    destruct (proc_once LO pb cf fuel it s) as [r1 s1| | |] eqn:E; try discriminate.
    destruct (proc_status _ _ _ _ _ K P E) as [->| ->]; [injection H as <- _; auto|].
    apply IH in H as [H|[H|[_ H]]]; auto. apply (proc_once_var LO pb cf pos_var) with (2 := E); [|exact P].
    intros fl st0 st' U Q. apply (C30_update pb cf fl st0 st' U); [|exact Q]. split; apply pos_nonneg; apply Q.
  Qed.
  (** No call ends with an error status. *)
  Theorem C56_status fuel t0 x0 v0 s r s' : keeps_going -> fc_init cf = true \/ pos_var v0 ->
    fmpc_solve LO pb cf jk fuel t0 x0 v0 s = Ok r s' -> (1 <= fc_max_iter cf)%Z -> r = Succeeded \/ r = MaxIterationReached.
  Proof.
    intros K Hp H Hm. rewrite solve_form_eq in H. unfold solve_form in H.
    destruct (inited pb cf t0 v0 (f_eps s)) as [[v eps]|] eqn:Ei; [|discriminate].
    destruct (bad_length cf v) eqn:Hb; [discriminate|]. destruct (existsb _ _); [discriminate|]. destruct (existsb _ _); [discriminate|].
    destruct (setup_coeff pb cf jk t0 (f_coeff s)) as [cl|]; [|discriminate].
    destruct (fopt_loop _ _ _ _ _ _ _ _) as [r1 s1| | |] eqn:E; try discriminate.
    destruct (_ || _); [|discriminate]. injection H as <- <-. apply loop_status in E; [|exact K|].
    - destruct E as [->|[->|[E _]]]; cbn; auto. lia.
    - cbn [ready f_var]. destruct Hp as [Hp|Hp].
      + destruct (inited_pos pb cf t0 v0 (f_eps s) v eps Hp Ei Hb) as [Q1 Q2]. split; intros w a Hw Ha; [specialize (Q1 w a Hw Ha)|specialize (Q2 w a Hw Ha)]; lra.
      + unfold inited in Ei. destruct (fc_init cf) eqn:Ef.
        * destruct (inited_pos pb cf t0 v0 (f_eps s) v eps Ef) as [Q1 Q2]; auto. { unfold inited. rewrite Ef. exact Ei. }
          split; intros w a Hw Ha; [specialize (Q1 w a Hw Ha)|specialize (Q2 w a Hw Ha)]; lra.
        * injection Ei as <- _. exact Hp.
  Qed.
  (** Together with C55, C31 and C28: every admissible call ends with Succeeded or MaxIterationReached. *)
  Theorem C56_total fuel t0 x0 v0 s : well_dimensioned_f pb -> lin_dims LO -> junk_ok pb jk -> object_ok pb s ->
    length x0 = pb_nx (fp_dp pb) -> typed_var pb v0 -> right_lengths cf v0 -> right_dims pb t0 v0 ->
    keeps_going -> fc_init cf = true \/ pos_var v0 ->
    (fc_update_eps cf = true -> forall i, (i < Nf cf)%nat -> (0 < ng_of pb (ft pb t0 i))%nat) ->
    (fc_ls cf = true -> fc_lagr cf = true -> (0 < pb_nx (fp_dp pb) /\ forall i, i < Nf cf -> 0 < ng_of pb (ft pb t0 i))%nat) ->
    (1 <= fc_max_iter cf)%Z -> (35 <= fuel)%nat ->
    exists r s', fmpc_solve LO pb cf jk fuel t0 x0 v0 s = Ok r s' /\ (r = Succeeded \/ r = MaxIterationReached) /\ object_ok pb s'.
  Proof.
    intros WF WL Jk Ho Lx Tv RL RD K Hp He Hl Hm Hf.
    pose proof (right_nat _ _ RL) as (L1 & L2 & L3 & L4 & L5 & _).
    assert (Hin : fc_init cf = true -> (Nf cf <= length (v_x v0) /\ Nf cf <= length (v_u v0) /\ Nf cf <= length (v_s v0) /\ Nf cf <= length (v_n v0))%nat) by lia.
    pose proof (C55_no_ub LO pb cf jk fuel t0 x0 v0 s WF WL Jk Ho Lx Tv Hin He Hl (fun _ => Hm)) as S.
    pose proof (C31_terminates LO pb cf jk fuel t0 x0 v0 s Hf) as F.
    destruct (fmpc_solve LO pb cf jk fuel t0 x0 v0 s) as [r s'|e s'| |] eqn:E; try contradiction.
    - exists r, s'. split; [reflexivity|]. split; [|exact S]. eapply C56_status; eauto.
    - exfalso. destruct (fc_init cf) eqn:Ei.
      + revert E. apply C33_accepted; auto.
        * intros Hn i u Hu. apply RD; auto.
        * intros Hn i x u Hx Hu. change (stage_time pb t0 i) with (ft pb t0 i). rewrite (wf_ng _ WF). f_equal. apply (wf_g _ WF).
          -- apply (ty_x _ _ Tv). eapply nth_error_In; eauto.
          -- unfold nu_of. destruct (pb_fixed_nu (fp_dp pb)) as [n|] eqn:Ef; [apply (ty_u _ _ Tv); [exact Ef|eapply nth_error_In; eauto]|].
             pose proof (proj1 RD Ef i u Hu) as E1. pose proof (wf_nu _ WF (ft pb t0 i)) as E2. change (stage_time pb t0 i) with (ft pb t0 i) in E1.
             unfold nu_of in E2. rewrite Ef in E2. lia.
      + rewrite solve_form_eq in E. unfold solve_form in E. unfold inited in E. rewrite Ei in E.
        rewrite (proj2 (bad_length_spec cf v0) RL), (proj2 (bad_dim_spec pb cf t0 v0 RL) RD) in E.
        destruct Hp as [Hp|[P1 P2]]; [discriminate|].
        assert (NN : no_negative v0). { intros w a [Hw|Hw] Ha; numR; apply Rltb_false; [specialize (P1 w a Hw Ha)|specialize (P2 w a Hw Ha)]; lra. }
        rewrite (proj2 (bad_sign_spec cf v0 RL) NN) in E.
        destruct (setup_coeff pb cf jk t0 (f_coeff s)) as [cl|]; [|discriminate].
        destruct (fopt_loop _ _ _ _ _ _ _ _) as [r1 s1|e1 s1| |] eqn:E1; try discriminate.
        * destruct (_ || _); discriminate.
        * exact (fopt_loop_nothrow _ _ _ _ _ _ _ _ _ _ E1).
  Qed.
End NoError.
Print Assumptions C56_status.
Print Assumptions C56_total.

(** ** Concrete cases *)
(** Linear solves through the normal equations: exact for every nonsingular matrix. *)
Definition normal_lin : linops R := {|
  ld_ok := fun _ => true;
  ld_vec := fun G b => llt_solve chol_llt (mmul (mtr G) G) (mvmul (mtr G) b);
  ld_mat := fun G B => llt_solve_mat chol_llt (mmul (mtr G) G) (mmul (mtr G) B);
  lu_vec := fun G b => llt_solve chol_llt (mmul (mtr G) G) (mvmul (mtr G) b);
  lu_mat := fun G B => llt_solve_mat chol_llt (mmul (mtr G) G) (mmul (mtr G) B) |}.
Lemma normal_posdef n (G : mat R) : mdimb n n G = true -> nonsing n (mget G) ->
  fsym n (mget (mmul (mtr G) G)) /\ llt_issue (chol_llt (T := R)) (mmul (mtr G) G) = false.
Proof.
  intros HG HN. assert (HT : mdimb n n (mtr G) = true) by (apply mtr_dim; exact HG).
  assert (E : mget (mmul (mtr G) G) = fmm n (ftr (mget G)) (mget G)) by (rewrite (mmul_f n n n) by assumption; rewrite (mtr_f n n) by exact HG; reflexivity).
  assert (Sy : fsym n (mget (mmul (mtr G) G))) by (rewrite E; intros i j _ _; unfold fmm, ftr; apply Rsum_ext; intros; ring).
  split; [exact Sy|]. apply (el_issue _ chol_exact (mmul (mtr G) G) n); [apply mmul_dim with n; assumption|exact Sy|].
  intros y (i & Hi & Hy). rewrite E, fmv_mm, fdot_mv, ftr_tr.
  destruct (fdot_self_nonneg n (fmv n (mget G) y)) as [P|P]; [exact P|exfalso]. apply Hy. apply HN; [|exact Hi].
  intros k Hk. exact (fdot_self_0 n _ (eq_sym P) k Hk).
Qed.
Lemma normal_exact n : exact_at normal_lin n.
Proof.
  intros G HG Sy HN. destruct (normal_posdef n G HG HN) as (SN & Is). assert (HT : mdimb n n (mtr G) = true) by (apply mtr_dim; exact HG).
  assert (HM : mdimb n n (mmul (mtr G) G) = true) by (apply mmul_dim with n; assumption).
  assert (E : mget (mmul (mtr G) G) = fmm n (ftr (mget G)) (mget G)) by (rewrite (mmul_f n n n) by assumption; rewrite (mtr_f n n) by exact HG; reflexivity).
  assert (ET : ftr (mget G) = mget G) by (apply (ftr_sym _ _ HG Sy)).
  (* G (G y) = G b gives G y = b *)
  assert (Can : forall y b : fvec, (forall i, (i < n)%nat -> fmv n (mget G) (fmv n (mget G) y) i = fmv n (mget G) b i) ->
     forall i, (i < n)%nat -> fmv n (mget G) y i = b i).
  { intros y b H i Hi. enough (fsubv (fmv n (mget G) y) b i = 0) by (unfold fsubv in *; lra). apply HN; [|exact Hi].
    intros k Hk. change (fmv n (mget G) (fsubv (fmv n (mget G) y) b) k = 0). rewrite fmv_sub. unfold fsubv. rewrite (H k Hk). lra. }
  assert (Q : solves n G (ld_vec normal_lin G) (ld_mat normal_lin G)).
  { split.
    - intros b Lb. cbn [normal_lin ld_vec]. assert (Lw : length (mvmul (mtr G) b) = n) by (apply (vlen_mv _ _ _ _ HT)).
      pose proof (C50_solve _ n _ HM SN Is Lw) as (L1 & L2). split; [exact L1|].
      apply (Can (vget (llt_solve chol_llt (mmul (mtr G) G) (mvmul (mtr G) b))) (vget b)). intros i Hi.
      specialize (L2 i Hi). rewrite (mvmul_f _ _ _ _ HT), (mtr_f n n) in L2 by exact HG. rewrite ET, E in L2. rewrite ET in L2.
      rewrite <- fmv_mm. exact L2.
    - intros m B HB. cbn [normal_lin ld_mat]. assert (HW : mdimb n m (mmul (mtr G) B) = true) by (apply mmul_dim with n; assumption).
      pose proof (C50_solve_mat _ n m _ HM SN Is HW) as (L1 & L2). split; [exact L1|]. intros i j Hi Hj.
      apply (Can (fun k => mget (llt_solve_mat chol_llt (mmul (mtr G) G) (mmul (mtr G) B)) k j) (fun k => mget B k j)); [|exact Hi].
      intros k Hk. specialize (L2 k j Hk Hj). rewrite (mmul_f n m n (mtr G) B) in L2 by assumption. rewrite E, (mtr_f n n), ET in L2 by exact HG.
      rewrite <- fmv_mm. exact L2. }
  split; intros _; exact Q.
Qed.
Lemma normal_dims : lin_dims normal_lin.
Proof.
  intros n G HG. assert (HT : mdimb n n (mtr G) = true) by (apply mtr_dim; exact HG).
  assert (HM : mdimb n n (mmul (mtr G) G) = true) by (apply mmul_dim with n; assumption). split.
  - intros b Lb. cbn. pose proof (el_len _ chol_exact (mmul (mtr G) G) n (mvmul (mtr G) b) HM (vlen_mv _ _ _ _ HT)). auto.
  - intros m B HB. cbn. assert (HW : mdimb n m (mmul (mtr G) B) = true) by (apply mmul_dim with n; assumption).
    pose proof (el_mdim _ chol_exact (mmul (mtr G) G) n m (mmul (mtr G) B) HM HW). auto.
Qed.


(** New storage of the size asked for, filled with [a]. *)
Definition sized_coeff {T} {NT : Num T} (a : T) nx nu ng : coeff T := {|
  c_A := mbuild nx nx (fun _ _ => a); c_B := mbuild nx nu (fun _ _ => a); c_C := mbuild ng nx (fun _ _ => a); c_D := mbuild ng nu (fun _ _ => a); c_Lx := repeat a nx; c_Lu := repeat a nu;
  c_Lxx := mbuild nx nx (fun _ _ => a); c_Luu := mbuild nu nu (fun _ _ => a); c_Lxu := mbuild nx nu (fun _ _ => a);
  c_xbar := repeat a nx; c_gbar := repeat a ng; c_Lxbar := repeat a nx; c_Lubar := repeat a nu;
  c_k := repeat a nu; c_K := mbuild nu nx (fun _ _ => a); c_s := repeat a nx; c_P := mbuild nx nx (fun _ _ => a) |}.
Definition sized_junk {T} {NT : Num T} (a : T) (nx nu ng : nat) : fjunk T :=
  {| fj_x := repeat a nx; fj_u := repeat a nu; fj_g := repeat a ng; fj_coeff := sized_coeff a; fj_term := sized_coeff a nx nu ng |}.
Lemma sized_ok {T} {NT : Num T} (a : T) nx nu ng : buf_ok nx nu ng (sized_coeff a nx nu ng).
Proof. repeat split; first [apply mbuild_dim|apply repeat_length]. Qed.
Lemma ex_junk_ok {T} {NT : Num T} (a : T) : junk_ok ex_fp (sized_junk a 1 1 1) /\ junk_ok ex_fp_dyn (sized_junk a 1 1 1).
Proof.
  assert (Q : buf_ok 1 1 1 (sized_coeff a 1 1 1)) by apply sized_ok.
  split; (split; [intros nu ng; apply sized_ok|]); (split; [apply repeat_length|]; split; [apply mbuild_dim|]).
  - intros nu ng E1 E2. injection E1 as <-. injection E2 as <-. exact Q.
  - intros nu ng E1. discriminate.
Qed.
Lemma lq_well {T} {NT : Num T} : well_dimensioned (T := T) lq_pb /\ well_dimensioned (T := T) lq_pb_dyn.
Proof.
  split; constructor; intros; try reflexivity; repeat split; try reflexivity; assumption.
Qed.
Lemma ex_well {T} {NT : Num T} : well_dimensioned_f (T := T) ex_fp /\ well_dimensioned_f (T := T) ex_fp_dyn.
Proof.
  split; constructor; try apply lq_well; intros; repeat split; reflexivity.
Qed.
Lemma ex_typed n (x u l s w : R) : typed_var ex_fp (ex_fvar n x u l s w) /\ typed_var ex_fp_dyn (ex_fvar n x u l s w).
Proof.
  assert (Q : forall (a : R) m (y : vec R), In y (map (fun r : vec R => vconst (length r) a) (repeat [0] m)) -> length y = 1%nat).
  { intros a m y H. apply in_map_iff in H as (z & <- & Hz). apply repeat_spec in Hz as ->. reflexivity. }
  split; constructor; cbn [ex_fvar var_reset var_ctor v_x v_u v_l v_s v_n]; try discriminate.
  - intros y. apply Q.
  - intros y. apply Q.
  - intros k y E. injection E as <-. apply Q.
  - intros k y E [H|H]; injection E as <-; revert H; apply Q.
  - intros y. apply Q.
  - intros y. apply Q.
Qed.
(** Any horizon >= 1: all hypotheses of C56_total (hence those of C55_no_ub) hold, with run-time dimensions, the default flags and the
    real-number linear solves above. *)
Example C56_nonvacuous n : (1 <= n)%nat ->
  exists r s', fmpc_solve normal_lin ex_fp_dyn (ex_fcf (Z.of_nat n) 10 true true true) (sized_junk 7 1 1 1) 35 0 [5] (ex_fvar n 0 0 0 1 1) ex_fs0 = Ok r s' /\
    (r = Succeeded \/ r = MaxIterationReached).
Proof.
  intros Hn. destruct (C56_total normal_lin ex_fp_dyn (ex_fcf (Z.of_nat n) 10 true true true) (sized_junk 7 1 1 1) 35 0 [5] (ex_fvar n 0 0 0 1 1) ex_fs0) as (r & s' & H & Hr & _).
  - apply ex_well.
  - apply normal_dims.
  - apply ex_junk_ok.
  - split; [|intros nu ng E; discriminate]. cbn. repeat split; lia.
  - reflexivity.
  - apply ex_typed.
  - unfold right_lengths. cbn. rewrite !map_length, !repeat_length. lia.
  - split; intros _ i w Hw; cbn in Hw; [|assert (Hw' := match Hw with or_introl h => h | or_intror h => h end); clear Hw; rename Hw' into Hw]; apply nth_error_In in Hw; apply in_map_iff in Hw as (z & <- & Hz); apply repeat_spec in Hz as ->; reflexivity.
  - left. reflexivity.
  - left. reflexivity.
  - intros _ i _. cbn. lia.
  - intros _ E. discriminate.
  - cbn. lia.
  - lia.
  - eauto.
Qed.

(** One iteration from x = u = 0, s = nu = 1 towards x0 = 5: it continues, and all hypotheses of C29_convex hold. *)
Definition ex_newton_cf : fconfig R := ex_fcf 1 10 false true false.
Definition ex_newton_st : fsolver R := exr_state ex_fp 5 (ex_fvar 1 0 0 0 1 1) (var_ctor [0] [0] [0] 1).
Lemma ex_newton_convex : convex_cost ex_fp exr_D 0 1 (f_var ex_newton_st).
Proof.
  split; [cbn; lra|]. split.
  - intros i x u Hi Hx Hu. replace i with 0%nat in * by lia. injection Hx as <-. injection Hu as <-. split.
    + intros y (j & Hj & Hy). cbn in Hj. replace j with 0%nat in * by lia. unfold fdot, fmv. cbn. nra.
    + intros y w. cbn. nra.
  - intros x Hx. injection Hx as <-. intros y. unfold fdot, fmv. cbn. nra.
Qed.
Lemma ex_newton_continues : exists s', proc_once normal_lin ex_fp ex_newton_cf 35 1 ex_newton_st = Ok IterationContinued s'.
Proof.
  assert (So : state_ok ex_fp ex_newton_cf 0 ex_newton_st).
  { constructor; try reflexivity.
    - constructor; [repeat split; reflexivity| | | | |]; cbn; intros [|[|[|i]]] w E; try discriminate; injection E as <-; reflexivity.
    - repeat split; reflexivity.
    - split; [reflexivity|]. split.
      + intros [|i] c Hi E; [|cbn in Hi; lia]. injection E as <-. repeat split; reflexivity.
      + intros c E. injection E as <-. split; [reflexivity|]. split; [reflexivity|]. intros nu ng E1 E2. injection E1 as <-. injection E2 as <-. repeat split; reflexivity. }
  pose proof (proc_safe normal_lin ex_fp ex_newton_cf 0 (proj1 ex_well) normal_dims) as S. specialize (S ltac:(discriminate)).
  specialize (S ltac:(intros _ i _; cbn; lia) 35%nat 1%Z ex_newton_st So).
  pose proof (proc_fuel normal_lin ex_fp ex_newton_cf 35 1 ex_newton_st (fun st => update_fuel ex_fp ex_newton_cf 35 st ltac:(lia))) as F.
  destruct (proc_once normal_lin ex_fp ex_newton_cf 35 1 ex_newton_st) as [r s'| | |] eqn:E; try contradiction.
  assert (Pv : pos_var (f_var ex_newton_st)).
  { split; intros w a Hw Ha; cbn in Hw; destruct Hw as [<-|[]]; cbn in Ha; destruct Ha as [<-|[]]; lra. }
  destruct (proc_status normal_lin ex_fp ex_newton_cf 35 1 ex_newton_st r s' ltac:(left; reflexivity) Pv E) as [->| ->]; [exfalso|eauto].
  destruct (proc_succ_state _ _ _ _ _ _ _ E) as (Ev & Et & Ex).
  apply proc_once_succ in E as (cl & e & Hc & Hk & He).
  pose proof (kkt_bound ex_fp ex_newton_cf exr_D s' cl e) as B. rewrite Ev in B.
  destruct B as [B _ _].
  - constructor; intros; reflexivity.
  - rewrite Ev in Hc. exact Hc.
  - exact Hk.
  - intros w a Hw Ha. left. apply (proj1 Pv w a Hw Ha).
  - intros w a Hw Ha. left. apply (proj2 Pv w a Hw Ha).
  - rewrite Ex in B. destruct (B [0] eq_refl) as (_ & B0). specialize (B0 0%nat ltac:(cbn; lia)). cbn in B0.
    apply Rleb_true in He. cbn in He. unfold Rabs in B0. destruct (Rcase_abs (5 - 0)) in B0; lra.
Qed.
Example C29_nonvacuous : exists s', proc_once normal_lin ex_fp ex_newton_cf 35 1 ex_newton_st = Ok IterationContinued s' /\
  newton_step ex_fp exr_D 0 [5] (f_eps s') 1 (f_var ex_newton_st) (f_delta s').
Proof.
  destruct ex_newton_continues as (s' & H). exists s'. split; [exact H|].
  apply (C29_convex normal_lin ex_fp ex_newton_cf exr_D _ _ _ _ H).
  - constructor; intros; reflexivity.
  - split; [intros t x u; split|intros t x]; intros [|i] [|j] _ _; try reflexivity; cbn; try (destruct i; reflexivity); try (destruct j; reflexivity); destruct i, j; reflexivity.
  - exact ex_newton_convex.
  - intros w a Hw Ha; cbn in Hw; destruct Hw as [<-|[]]; cbn in Ha; destruct Ha as [<-|[]]; lra.
  - intros w a Hw Ha; cbn in Hw; destruct Hw as [<-|[]]; cbn in Ha; destruct Ha as [<-|[]]; lra.
  - intros i u _. apply normal_exact.
Qed.
