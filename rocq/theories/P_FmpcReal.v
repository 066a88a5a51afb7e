(** Properties C26, C30, C31, C32, C33 of the FMPC solver in exact arithmetic. *)
From Coq Require Import Reals Lra Psatz.
From Verif Require Import Prelude Scalar LinAlg RLin DDP Fmpc FmpcProofs FmpcStep FmpcSpec FmpcReal P_FmpcRun ExDDP ExFmpc RQ ExQPR.
Local Open Scope R_scope.

Section Init.
  Variables (pb : fproblem R) (cf : fconfig R).

  (** The formulas of the initialisation. *)
  Lemma init_s_R (g : vec R) : length (init_s g) = length g /\
    forall j, (j < length g)%nat -> vget (init_s g) j = 101 / 100 * Rmax (- vget g j) (1 / 100).
  Proof.
    unfold init_s, vscale, vmaxc. rewrite !vbuild_length. split; [reflexivity|]. intros j Hj.
    rewrite !vbuild_get by (rewrite ?vbuild_length; exact Hj). rewrite nmax_R. unfold one_margin, mone. numR.
    f_equal; [lra|]. f_equal. lra.
  Qed.
  Lemma init_n_R eps (s : vec R) : length (init_n eps s) = length s /\
    forall j, (j < length s)%nat -> vget (init_n eps s) j = 101 / 100 * Rmax (eps * (1 / vget s j)) (1 / 100).
  Proof.
    unfold init_n, vscale, vmaxc, vinv. rewrite !vbuild_length. split; [reflexivity|]. intros j Hj.
    rewrite !vbuild_get by (rewrite ?vbuild_length; exact Hj). rewrite nmax_R. unfold one_margin. numR.
    f_equal; lra.
  Qed.
  Lemma all_in (l : list (vec R)) (P : R -> Prop) n : length l = n ->
    (forall i w j, nth_error l i = Some w -> (j < length w)%nat -> P (vget w j)) -> forall w a, In w l -> In a w -> P a.
  Proof.
    intros _ H w a Hw Ha. apply In_nth_error in Hw as [i Hw]. apply (In_nth _ _ 0) in Ha as (j & Hj & <-). apply (H i w j Hw Hj).
  Qed.
  Lemma inited_pos t0 v0 eps0 v eps : fc_init cf = true -> inited pb cf t0 v0 eps0 = Some (v, eps) -> bad_length cf v = false ->
    (forall w a, In w (v_s v) -> In a w -> 101 / 10000 <= a) /\ (forall w a, In w (v_n v) -> In a w -> 101 / 10000 <= a).
  Proof.
    intros Hi Hv Hb. unfold inited in Hv. rewrite Hi in Hv.
    destruct (init_var pb cf t0 (nlit 1 10000) v0) as [v1|] eqn:E; [|discriminate]. injection Hv as <- <-.
    apply bad_length_spec, right_nat in Hb as (_ & _ & _ & Ls & Ln & _).
    apply init_var_some in E as (_ & _ & _ & _ & _ & _ & _ & _ & _ & _ & E).
    split; eapply all_in; try reflexivity; intros i w j Hw Hj.
    - assert (Hi' : (i < Nf cf)%nat) by (rewrite <- Ls; apply nth_error_Some; congruence).
      destruct (E i Hi') as (x & u & _ & _ & Es & _). rewrite Hw in Es. apply some_inj in Es; subst w.
      destruct (init_s_R (fp_g pb (ft pb t0 i) x u)) as [L G]. rewrite L in Hj. rewrite (G j Hj).
      pose proof (Rmax_r (- vget (fp_g pb (ft pb t0 i) x u) j) (1 / 100)). lra.
    - assert (Hi' : (i < Nf cf)%nat) by (rewrite <- Ln; apply nth_error_Some; congruence).
      destruct (E i Hi') as (x & u & _ & _ & _ & Es). rewrite Hw in Es. apply some_inj in Es; subst w.
      set (s := init_s _) in *. destruct (init_n_R (nlit 1 10000) s) as [L G]. rewrite L in Hj. rewrite (G j Hj).
      pose proof (Rmax_r (nlit 1 10000 * (1 / vget s j)) (1 / 100)). lra.
  Qed.
End Init.

Section Run.
  Variables (LO : linops R) (pb : fproblem R) (cf : fconfig R) (jk : fjunk R) (fuel : nat).
  Variables (t0 : R) (x0 : vec R) (v0 : var R) (s : fsolver R).
  Notation solve := (fmpc_solve LO pb cf jk fuel t0 x0 v0 s).
  Notation N := (Nf cf).

  Definition nonneg_var (v : var R) : Prop := all_ge 0 (v_s v) /\ all_ge 0 (v_n v).
  Definition pos_var (v : var R) : Prop := all_pos (v_s v) /\ all_pos (v_n v).

  Lemma pos_nonneg l : all_pos l -> all_ge 0 l.
  Proof. intros H w a Hw Ha. specialize (H w a Hw Ha). lra. Qed.
  Lemma checked_nonneg v : bad_length cf v = false -> existsb (bad_sign v) (seq 0 N) = false -> nonneg_var v.
  Proof.
    intros Hb Hs. apply (bad_sign_spec cf) in Hs; [|apply bad_length_spec; exact Hb].
    assert (H : forall w a, In w (v_s v) \/ In w (v_n v) -> In a w -> 0 <= a).
    { intros w a Hw Ha. specialize (Hs w a Hw Ha). numR. apply Rltb_false in Hs. exact Hs. }
    split; intros w a Hw Ha; apply (H w a); auto.
  Qed.

  (** ** C30 *)
  (** One update: every slack and multiplier keeps at least 0.5 % of its value, line search or not. *)
  Theorem C30_update fl st st' : update_variables pb cf fl st = Ok true st' -> nonneg_var (f_var st) ->
    keeps (5 / 1000) (v_s (f_var st)) (v_s (f_var st')) /\ keeps (5 / 1000) (v_n (f_var st)) (v_n (f_var st')) /\
    nonneg_var (f_var st') /\ (pos_var (f_var st) -> pos_var (f_var st')).
  Proof.
    intros E [Ps Pn]. apply update_R in E; [|exact Ps|exact Pn].
    destruct E as (a_max & a_n & a_s & s2 & _ & _ & _ & _ & _ & _ & _ & _ & _ & _ & _ & _ & _ & _ & _ & _ & _ & K1 & K2).
    split; [exact K1|]. split; [exact K2|]. split.
    - split; [apply (keeps_nonneg _ _ K1 Ps)|apply (keeps_nonneg _ _ K2 Pn)].
    - intros [Q1 Q2]. split; [apply (keeps_pos _ _ K1 Q1)|apply (keeps_pos _ _ K2 Q2)].
  Qed.
  (** A whole run, whatever its status. *)
  Theorem C30_run r s' : solve = Ok r s' ->
    nonneg_var (f_var s') /\ (fc_init cf = true \/ pos_var v0 -> pos_var (f_var s')).
  Proof.
    intros H. destruct (solve_checked _ _ _ _ _ _ _ _ _ _ _ H) as (v & eps & Hi & Hb & _ & Hs).
    pose proof (checked_nonneg _ Hb Hs) as Hn. split.
    - apply (solve_var LO pb cf jk nonneg_var) with (2 := H) (3 := Hi); [|exact Hn].
      intros fl st st' E P. apply (C30_update fl st st' E P).
    - intros Hp. apply (solve_var LO pb cf jk pos_var) with (2 := H) (3 := Hi).
      + intros fl st st' E P. apply (C30_update fl st st' E); [|exact P]. split; apply pos_nonneg; apply P.
      + destruct Hp as [Hp|Hp].
        * destruct (inited_pos _ _ _ _ _ _ _ Hp Hi Hb) as [A B]. split; intros w a Hw Ha; [specialize (A w a Hw Ha)|specialize (B w a Hw Ha)]; lra.
        * unfold inited in Hi. destruct (fc_init cf) eqn:Ef; [|injection Hi as <- _; exact Hp].
          destruct (inited_pos pb cf t0 v0 (f_eps s) v eps Ef) as [A B]; [unfold inited; rewrite Ef; exact Hi|exact Hb|].
          split; intros w a Hw Ha; [specialize (A w a Hw Ha)|specialize (B w a Hw Ha)]; lra.
  Qed.

  (** ** C26 *)
  Theorem C26_success D s' : computes pb D -> solve = Ok Succeeded s' ->
    (length (v_x (f_var s')) = N + 1 /\ length (v_u (f_var s')) = N /\ length (v_l (f_var s')) = N + 1 /\
     length (v_s (f_var s')) = N /\ length (v_n (f_var s')) = N)%nat /\
    approx_kkt pb D t0 x0 (f_var s') N (fc_kkt cf).
  Proof.
    intros CM H. pose proof (solve_lens _ _ _ _ _ _ _ _ _ _ _ H) as HL. split.
    { unfold lens in HL. injection HL as -> -> -> -> ->. auto. }
    destruct (C30_run _ _ H) as [[Ps Pn] _].
    apply solve_succ in H as (Ht & Hx & cl & e & Hc & Hk & He).
    rewrite <- Ht in Hc. pose proof (kkt_bound pb cf D s' cl e CM Hc Hk Ps Pn) as A. rewrite Ht, Hx in A.
    numR. apply Rleb_true in He.
    destruct A as [A1 A2 A3]. constructor.
    - intros x Hxx. destruct (A1 x Hxx) as [L B]. split; [exact L|]. intros j Hj. specialize (B j Hj). lra.
    - intros i x u l w n x' l' Hi Hst. destruct (A2 i x u l w n x' l' Hi Hst) as (B1 & B2 & B3 & B4 & B5). cbn zeta in *.
      split; [intros j Hj; specialize (B1 j Hj); lra|]. split; [intros j Hj; specialize (B2 j Hj); lra|].
      split; [intros j Hj; specialize (B3 j Hj); lra|]. split; [intros j Hj; specialize (B4 j Hj); lra|].
      intros j Hj; specialize (B5 j Hj); lra.
    - intros x l Hxx Hl j Hj. specialize (A3 x l Hxx Hl j Hj). lra.
  Qed.

  (** ** C31 *)
  Theorem C31_step fl st st' : update_variables pb cf fl st = Ok true st' -> nonneg_var (f_var st) ->
    let v := f_var st in let d := f_delta st in let v' := f_var st' in
    exists a_max a_s a_n,
      0 < a_max <= 1 /\ 0 < a_s <= a_max /\ 0 < a_n <= 1 /\
      (* the fraction-to-boundary limits are respected, and a_max and a_n are the largest such lengths *)
      within_boundary N a_max (v_s v) (v_s d) /\ (a_max = 1 \/ at_boundary N a_max (v_s v) (v_s d)) /\
      within_boundary N a_n (v_n v) (v_n d) /\ (a_n = 1 \/ at_boundary N a_n (v_n v) (v_n d)) /\
      within_boundary N a_s (v_s v) (v_s d) /\
      (* what is stored *)
      moved (N + 1) a_s (v_x v) (v_x d) (v_x v') /\ moved N a_s (v_u v) (v_u d) (v_u v') /\ moved N a_s (v_s v) (v_s d) (v_s v') /\
      moved (N + 1) a_n (v_l v) (v_l d) (v_l v') /\ moved N a_n (v_n v) (v_n d) (v_n v') /\
      (* without line search the limit is used; with it the first of a_max, a_max/2, ... that is below 1e-10 or satisfies the
         sufficient decrease condition *)
      (fc_ls cf = false -> a_s = a_max) /\
      (fc_ls cf = true ->
         let merit := phi pb (f_t st) (f_x st) (f_eps st) (f_mscale st') N in
         let decrease a := exists w, primal_at N a v d w /\ merit w < merit v + 1 / 1000 * a * f_mderiv st' in
         exists k, a_s = a_max * (1 / 2) ^ k /\
           (forall j, (j < k)%nat -> / 10000000000 <= a_max * (1 / 2) ^ j /\
              exists w, primal_at N (a_max * (1 / 2) ^ j) v d w /\ merit v + 1 / 1000 * (a_max * (1 / 2) ^ j) * f_mderiv st' <= merit w) /\
           (a_s < / 10000000000 \/ decrease a_s)).
  Proof.
    intros E [Ps Pn]. cbn zeta. apply update_R in E; [|exact Ps|exact Pn].
    destruct E as (a_max & a_n & a_s & s2 & Hu & Hst & _ & P1 & P2 & P3 & W1 & W2 & W3 & B1 & B2 & _ & M1 & M2 & M3 & M4 & M5 & _ & _).
    exists a_max, a_s, a_n. do 13 (split; [assumption|]). split.
    { intros Hf. unfold alpha_used in Hu. rewrite Hf in Hu. apply Hu. }
    intros Hf. unfold alpha_used in Hu. rewrite Hf in Hu. destruct Hu as [Hm Hl].
    apply setup_merit_R in Hm as (sc & dd & ->).
    apply ls_loop_spec in Hl as (_ & k & Hk & Hfail & Hend). rewrite halved_R in Hk.
    assert (HC : forall a m, candidate_merit pb cf (set_fmerit sc (phi pb (f_t st) (f_x st) (f_eps st) sc N (f_var st)) dd st) a = Some m ->
      exists w, primal_at N a (f_var st) (f_delta st) w /\ m = phi pb (f_t st) (f_x st) (f_eps st) sc N w).
    { intros a m Hm. unfold candidate_merit in Hm. cbn [set_fmerit f_t f_x f_eps f_mscale f_var f_delta] in Hm.
      destruct (ls_var cf a (f_var st) (f_delta st)) as [w|] eqn:Ew; [|discriminate]. apply merit_R in Hm.
      exists w. split; [apply ls_var_R; exact Ew|exact Hm]. }
    assert (Hs : f_mscale st' = sc) by (rewrite Hst; reflexivity). assert (Hd : f_mderiv st' = dd) by (rewrite Hst; reflexivity).
    rewrite Hs, Hd. exists k. split; [exact Hk|]. split.
    - intros j Hj. destruct (Hfail j Hj) as (F1 & m & F2 & F3). rewrite halved_R in F1, F2, F3.
      unfold too_short in F1. numR. apply Rltb_false in F1. split; [lra|].
      destruct (HC _ _ F2) as (w & Hw & ->). exists w. split; [exact Hw|].
      unfold armijo in F3. cbn [set_fmerit f_mfunc f_mderiv] in F3. numR. apply Rltb_false in F3. lra.
    - destruct Hend as [Hend|(m & F2 & F3)].
      + left. unfold too_short in Hend. numR. apply Rltb_true in Hend. lra.
      + right. destruct (HC _ _ F2) as (w & Hw & ->). exists w. split; [exact Hw|].
        unfold armijo in F3. cbn [set_fmerit f_mfunc f_mderiv] in F3. numR. apply Rltb_true in F3. lra.
  Qed.

  (** The line search ends: 35 rounds are always enough. *)
  Lemma update_fuel fl st : (35 <= fl)%nat -> update_variables pb cf fl st <> OutOfFuel.
  Proof.
    intros Hf. unfold update_variables, bind at 1, get. unfold bind at 1.
    destruct (frac cf (v_s (f_var st)) (v_s (f_delta st))) as [a_s|] eqn:Es; [|discriminate].
    cbn [must ret]. unfold bind at 1.
    destruct (frac cf (v_n (f_var st)) (v_n (f_delta st))) as [a_n|] eqn:En; [|discriminate].
    cbn [must ret]. destruct (negb _) eqn:Ea; [discriminate|].
    apply negb_false_iff in Ea. rewrite !andb_true_iff in Ea. destruct Ea as (((A1 & A2) & _) & _).
    assert (H2 : a_s <= 1). { change (Rleb a_s (1 / 1) = true) in A2. apply Rleb_true in A2. lra. }
    assert (H1 : 0 < a_s). { change (Rltb 0 a_s = true) in A1. apply Rltb_true in A1. exact A1. }
    unfold bind at 1.
    assert (L : forall st', ls_loop pb cf fl a_s st' <> OutOfFuel).
    { intros st'. apply (ls_loop_fuel pb cf 34); [lia|]. rewrite halved_R. unfold too_short. numR. apply Rltb_true. lra. }
    destruct (fc_ls cf).
    - unfold bind at 1. destruct (setup_merit_case pb cf st) as [->|(m1 & m2 & m3 & ->)]; [discriminate|].
      specialize (L (set_fmerit m1 m2 m3 st)).
      destruct (ls_loop pb cf fl a_s (set_fmerit m1 m2 m3 st)) as [a s1| | |]; try discriminate; [|congruence].
      unfold bind. destruct (step_var cf a a_n (f_var st) (f_delta st)); discriminate.
    - cbn [ret]. unfold bind. destruct (step_var cf a_s a_n (f_var st) (f_delta st)); discriminate.
  Qed.
End Run.

Section Term.
  Context {T : Type} {NT : Num T}.
  Variables (LO : linops T) (pb : fproblem T) (cf : fconfig T) (jk : fjunk T) (fuel : nat).
  Lemma proc_fuel it s1 : (forall st, update_variables pb cf fuel st <> OutOfFuel) -> proc_once LO pb cf fuel it s1 <> OutOfFuel.
  Proof.
    intros Hu. revert s1.
    assert (HR : forall s1, rest LO pb cf fuel s1 <> OutOfFuel).
    { intros s1. unfold rest, bind at 1. destruct (backward_case LO pb cf s1) as [->|(c & b & cl' & _ & _ & ->)]; [discriminate|].
      destruct (negb _); [discriminate|]. unfold bind at 1.
      destruct (forward_case pb cf (set_fcoeff cl' s1)) as [->|(d & _ & ->)]; [discriminate|].
      destruct (negb _); [discriminate|]. unfold bind at 1. specialize (Hu (set_fdelta d (set_fcoeff cl' s1))).
      destruct (update_variables pb cf fuel _) as [b2 s2| | |]; try discriminate; [|congruence]. destruct b2; discriminate. }
    intros s1. destruct (proc_once_case LO pb cf fuel it s1) as [->|(e1 & cl1 & e & _ & _ & _ & ->)]; [discriminate|].
    destruct (nleb e (fc_kkt cf)); [discriminate|apply HR].
  Qed.
  Lemma solve_fuel t0 x0 v0 s :
    (forall st, update_variables pb cf fuel st <> OutOfFuel) -> fmpc_solve LO pb cf jk fuel t0 x0 v0 s <> OutOfFuel.
  Proof.
    intros Hu. rewrite solve_form_eq. unfold solve_form.
    destruct (inited pb cf t0 v0 (f_eps s)) as [[v eps]|]; [|discriminate].
    destruct (bad_length cf v); [discriminate|]. destruct (existsb _ _); [discriminate|]. destruct (existsb _ _); [discriminate|].
    destruct (setup_coeff pb cf jk t0 (f_coeff s)) as [cl|]; [|discriminate].
    assert (HP : forall it s1, proc_once LO pb cf fuel it s1 <> OutOfFuel) by (intros; apply proc_fuel; exact Hu).
    assert (HL : forall n it st s1, fopt_loop LO pb cf fuel n it st s1 <> OutOfFuel).
    { induction n as [|n IH]; intros it st s1; cbn [fopt_loop]; [discriminate|]. unfold bind. specialize (HP it s1).
      destruct (proc_once LO pb cf fuel it s1) as [r1 s2| | |]; try discriminate; [|congruence].
      destruct r1; try discriminate. apply IH. }
    specialize (HL (Z.to_nat (fc_max_iter cf)) 1%Z Uninitialized (ready cf jk t0 x0 v eps cl s)).
    destruct (fopt_loop _ _ _ _ _ _ _ _) as [r1 s1| | |]; try discriminate; [|congruence]. destruct (_ || _); discriminate.
  Qed.
End Term.
(** solve always ends, in exact arithmetic, for every merit function. *)
Theorem C31_terminates (LO : linops R) (pb : fproblem R) (cf : fconfig R) (jk : fjunk R) fuel t0 x0 v0 s :
  (35 <= fuel)%nat -> fmpc_solve LO pb cf jk fuel t0 x0 v0 s <> OutOfFuel.
Proof. intros Hf. apply solve_fuel. intros st. apply update_fuel. exact Hf. Qed.

(** ** C32: barrier parameter *)
Section Eps.
  Context {T : Type} {NT : Num T}.
  Variables (LO : linops T) (pb : fproblem T) (cf : fconfig T) (jk : fjunk T).
  Lemma update_eps_same fuel st b st' : update_variables pb cf fuel st = Ok b st' -> f_eps st' = f_eps st.
  Proof.
    intros E. pose proof (update_variables_case pb cf fuel st) as H. rewrite E in H.
    destruct H as [H|[H|(a_max & a_n & Fs & Fn & [[_ H]|(Ha & s2 & a & v & Hu & Hv & H)])]]; try discriminate.
    - injection H as -> ->. reflexivity.
    - injection H as -> ->. apply alpha_used_state in Hu as ((_ & _ & _ & A) & _). exact A.
  Qed.
  Lemma proc_once_eps fuel it s r s' : proc_once LO pb cf fuel it s = Ok r s' -> new_eps cf s (f_eps s').
  Proof.
    intros E. destruct (proc_once_case LO pb cf fuel it s) as [H|(eps & cl & e & He & Hc & Hk & H)]; rewrite E in H; [discriminate|].
    destruct (nleb e (fc_kkt cf)) eqn:Ek; [injection H as -> ->; exact He|].
    symmetry in H. pose proof (rest_cases LO pb cf fuel (checked s it eps cl e)) as Hr. rewrite H in Hr.
    destruct Hr as [Hr|[Hr|(b & cl' & Hb & [[_ Hr]|(_ & d & Hd & [[_ Hr]|(_ & b2 & s2 & Hu & Hr)])])]]; try discriminate;
      injection Hr as -> ->; try exact He.
    apply update_eps_same in Hu. rewrite Hu. exact He.
  Qed.
  Lemma fopt_loop_eps (J : T -> Prop) fuel n : fc_update_eps cf = true ->
    (forall s sum dim, eps_sum (v_s (f_var s)) (v_n (f_var s)) (Nf cf) nzero 0 = Some (sum, dim) -> J (eps_of sum dim)) ->
    forall it st s r s', fopt_loop LO pb cf fuel n it st s = Ok r s' -> n <> 0%nat -> J (f_eps s').
  Proof.
    intros Hf HJ. induction n as [|n IH]; intros it st s r s' E Hn; [contradiction|]. cbn [fopt_loop] in E.
    unfold bind in E. destruct (proc_once LO pb cf fuel it s) as [r1 s1|e1 s1| |] eqn:E1; try discriminate.
    apply proc_once_eps in E1. unfold new_eps in E1. rewrite Hf in E1. destruct E1 as (sum & dim & E1 & E2).
    assert (H1 : J (f_eps s1)) by (rewrite E2; eapply HJ; eauto).
    destruct r1; try (unfold ret in E; injection E as E E'; subst; exact H1).
    destruct n as [|n]; [cbn in E; injection E as E E'; subst; exact H1|]. apply IH in E; auto.
  Qed.
  Lemma solve_eps (J : T -> Prop) fuel t0 x0 v0 s r s' : fc_update_eps cf = true -> (1 <= fc_max_iter cf)%Z ->
    (forall s sum dim, eps_sum (v_s (f_var s)) (v_n (f_var s)) (Nf cf) nzero 0 = Some (sum, dim) -> J (eps_of sum dim)) ->
    fmpc_solve LO pb cf jk fuel t0 x0 v0 s = Ok r s' -> J (f_eps s').
  Proof.
    intros Hf Hm HJ. rewrite solve_form_eq. unfold solve_form. intros H.
    destruct (inited pb cf t0 v0 (f_eps s)) as [[v eps]|] eqn:Ei; [|discriminate].
    destruct (bad_length cf v); [discriminate|]. destruct (existsb _ _); [discriminate|]. destruct (existsb _ _); [discriminate|].
    destruct (setup_coeff pb cf jk t0 (f_coeff s)) as [cl|]; [|discriminate].
    destruct (fopt_loop _ _ _ _ _ _ _ _) as [r1 s1| | |] eqn:E; try discriminate.
    destruct (_ || _); [|discriminate]. injection H as <- <-. apply (fopt_loop_eps J) in E; auto. lia.
  Qed.
  (** With at least one step and no inequality constraint, minCoeff() of an empty vector. *)
  Lemma eps_empty_UB fuel it s w : fc_update_eps cf = true -> (1 <= fc_hor cf)%Z ->
    nth_error (v_s (f_var s)) 0 = Some w -> length w = 0%nat -> proc_once LO pb cf fuel it s = UB.
  Proof.
    intros Hf Hh Hw Hl. destruct (proc_once_case LO pb cf fuel it s) as [H|(eps & cl & e & He & _)]; [exact H|].
    exfalso. unfold new_eps in He. rewrite Hf in He. destruct He as (sum & dim & He & _).
    destruct (v_s (f_var s)) as [|w0 ss]; [discriminate|]. injection Hw as ->.
    unfold Nf in He. destruct (Z.to_nat (fc_hor cf)) eqn:En; [lia|]. cbn [eps_sum] in He.
    destruct (v_n (f_var s)) as [|w1 ns]; [discriminate|]. rewrite Hl in He. rewrite andb_false_r in He. discriminate.
  Qed.
  (** C32, refuted part: with update_barrier_eps and an IneqDim of zero no run with an iteration ends normally. *)
  Theorem C32_unconstrained_refuted fuel t0 x0 v0 s : fc_update_eps cf = true -> (1 <= fc_hor cf)%Z -> (1 <= fc_max_iter cf)%Z ->
    (forall w, In w (v_s v0) -> length w = 0%nat) -> (forall t x u, length (fp_g pb t x u) = 0%nat) ->
    forall r s', fmpc_solve LO pb cf jk fuel t0 x0 v0 s <> Ok r s'.
  Proof.
    intros Hf Hh Hm Hs Hg r s'. rewrite solve_form_eq. unfold solve_form.
    destruct (inited pb cf t0 v0 (f_eps s)) as [[v eps]|] eqn:Ei; [|discriminate].
    destruct (bad_length cf v) eqn:Hb; [discriminate|]. destruct (existsb _ _); [discriminate|]. destruct (existsb _ _); [discriminate|].
    destruct (setup_coeff pb cf jk t0 (f_coeff s)) as [cl|]; [|discriminate].
    apply bad_length_spec in Hb. assert (L0 : (0 < Nf cf)%nat) by (unfold Nf; lia).
    assert (Hw : exists w, nth_error (v_s v) 0 = Some w /\ length w = 0%nat).
    { unfold inited in Ei. destruct (fc_init cf).
      - destruct (init_var pb cf t0 (nlit 1 10000) v0) as [v1|] eqn:Ev; [|discriminate]. injection Ei as <- <-.
        apply init_var_some in Ev as (_ & _ & _ & _ & _ & _ & _ & _ & _ & _ & Ev). destruct (Ev 0%nat L0) as (x & u & _ & _ & Es & _).
        eexists. split; [exact Es|]. unfold init_s, vscale, vmaxc. rewrite !vbuild_length. apply Hg.
      - injection Ei as <- <-. apply right_nat in Hb as (_ & _ & _ & Ls & _).
        destruct (nth_error (v_s v0) 0) as [w|] eqn:E; [|apply nth_error_None in E; lia].
        exists w. split; [reflexivity|]. apply Hs. eapply nth_error_In; eauto. }
    destruct Hw as (w & Hw & Hl).
    destruct (Z.to_nat (fc_max_iter cf)) eqn:En; [lia|]. cbn [fopt_loop]. unfold bind.
    rewrite (eps_empty_UB _ _ _ w Hf Hh); [discriminate|exact Hw|exact Hl].
  Qed.
End Eps.

Section EpsR.
  Local Open Scope R_scope.
  (** Sum of all products s * nu and their number. *)
  Definition sn_total (ss ns : list (vec R)) (N : nat) : R :=
    Rsum N (fun i => Rsum (length (nth i ss [])) (fun j => vget (nth i ss []) j * vget (nth i ns []) j)).
  Definition sn_count (ss : list (vec R)) (N : nat) : R := Rsum N (fun i => INR (length (nth i ss []))).
  Lemma eps_sum_R n : forall (ss ns : list (vec R)) acc dim sum d, eps_sum ss ns n acc dim = Some (sum, d) ->
    sum = acc + sn_total ss ns n /\ INR d = INR dim + sn_count ss n /\ (n <> 0%nat -> (0 < d)%nat).
  Proof.
    unfold sn_total, sn_count. induction n as [|n IH]; intros ss ns acc dim sum d H; cbn [eps_sum] in H.
    - assert (HH : (sum, d) = (acc, dim)) by (destruct ss; cbn [eps_sum] in H; congruence). injection HH as -> ->. cbn [Rsum]. split; [lra|]. split; [lra|]. intros X; contradiction.
    - destruct ss as [|s ss]; [discriminate|]. destruct ns as [|w ns]; [discriminate|]. cbn [eps_sum] in H. opt1 H. apply IH in H as (-> & H2 & H3).
      rewrite !Rsum_S_l. cbn [nth]. rewrite H2, plus_INR, dot_R. unfold fdot. opsR.
      rewrite andb_true_iff in B. destruct B as [_ B]. apply Nat.ltb_lt in B.
      split; [lra|]. split; [lra|]. intros _. destruct n as [|n]; [|apply H3; lia].
      cbn in H2. apply INR_lt. rewrite H2, plus_INR. apply lt_INR in B. cbn in B. pose proof (pos_INR dim). cbn. lra.
  Qed.
  Lemma eps_of_R sum dim : eps_of sum dim = Rmin (Rmax (1 / 2 * (sum / INR dim)) (1 / 100000000)) 1000000.
  Proof.
    unfold eps_of, nclamp, nhalf, nofnat, nofZ. numR. rewrite <- INR_IZR_INZ. replace (INR dim / 1) with (INR dim) by lra.
    set (q := 1 / 2 * (sum / INR dim)). unfold Rmin, Rmax.
    destruct (Rltb _ (1 / 100000000)) eqn:E1.
    - apply Rltb_true in E1. destruct (Rle_dec q (1 / 100000000)); [|lra].
      destruct (Rle_dec (1 / 100000000) 1000000); lra.
    - apply Rltb_false in E1. destruct (Rltb (1000000 / 1) _) eqn:E2.
      + apply Rltb_true in E2. destruct (Rle_dec q (1 / 100000000)); destruct (Rle_dec _ 1000000); lra.
      + apply Rltb_false in E2. destruct (Rle_dec q (1 / 100000000)); destruct (Rle_dec _ 1000000); lra.
  Qed.
  Variables (LO : linops R) (pb : fproblem R) (cf : fconfig R) (jk : fjunk R) (fuel : nat).
  (** The barrier parameter of an iteration: half the average complementarity, clamped. *)
  Theorem C32_value it s r s' : proc_once LO pb cf fuel it s = Ok r s' ->
    let v := f_var s in let N := Nf cf in
    f_eps s' = if fc_update_eps cf
               then Rmin (Rmax (1 / 2 * (sn_total (v_s v) (v_n v) N / sn_count (v_s v) N)) (1 / 100000000)) 1000000
               else f_eps s.
  Proof.
    intros E. apply proc_once_eps in E. unfold new_eps in E. cbn zeta. destruct (fc_update_eps cf); [|exact E].
    destruct E as (sum & dim & E & ->). apply eps_sum_R in E as (E1 & E2 & _). rewrite eps_of_R, E1, E2. opsR. cbn [INR].
    rewrite !Rplus_0_l. reflexivity.
  Qed.
  Theorem C32_range t0 x0 v0 s r s' : fmpc_solve LO pb cf jk fuel t0 x0 v0 s = Ok r s' ->
    fc_update_eps cf = true -> (1 <= fc_max_iter cf)%Z -> / 100000000 <= f_eps s' <= 1000000.
  Proof.
    intros H Hf Hm. apply (solve_eps LO pb cf jk (fun e => / 100000000 <= e <= 1000000)) in H; auto.
    intros s1 sum dim _. rewrite eps_of_R. split; [apply Rmin_glb; [eapply Rle_trans; [|apply Rmax_r]|]; lra|apply Rmin_r].
  Qed.
End EpsR.

(** ** C33: initialisation *)
Section InitRun.
  Variables (LO : linops R) (pb : fproblem R) (cf : fconfig R) (jk : fjunk R) (fuel : nat).
  Variables (t0 : R) (x0 : vec R) (v0 : var R) (s : fsolver R).
  Notation solve := (fmpc_solve LO pb cf jk fuel t0 x0 v0 s).
  (** Without iterations the initialised variable is what solve leaves behind. *)
  Theorem C33_values r s' : fc_init cf = true -> (fc_max_iter cf <= 0)%Z -> solve = Ok r s' ->
    forall i w n, nth_error (v_s (f_var s')) i = Some w -> nth_error (v_n (f_var s')) i = Some n ->
      exists x u, nth_error (v_x v0) i = Some x /\ nth_error (v_u v0) i = Some u /\
        let g := fp_g pb (t0 + INR i * pb_dt (fp_dp pb)) x u in
        length w = length g /\ length n = length g /\
        forall j, (j < length g)%nat ->
          vget w j = 101 / 100 * Rmax (- vget g j) (1 / 100) /\
          vget n j = 101 / 100 * Rmax (/ 10000 / vget w j) (1 / 100) /\
          101 / 10000 <= vget w j /\ 101 / 10000 <= vget n j /\ 0 <= vget g j + vget w j /\ 101 / 1000000 <= vget w j * vget n j.
  Proof.
    intros Hi Hm H i w n Hw Hn.
    pose proof H as HL. apply solve_lens in HL. unfold lens in HL. injection HL as _ _ _ Ls _.
    assert (HiN : (i < Nf cf)%nat) by (rewrite <- Ls; apply nth_error_Some; congruence). clear Ls.
    rewrite solve_form_eq in H. unfold solve_form, inited in H. rewrite Hi in H.
    destruct (init_var pb cf t0 (nlit 1 10000) v0) as [v|] eqn:Ev; [|discriminate].
    destruct (bad_length cf v); [discriminate|]. destruct (existsb _ _); [discriminate|]. destruct (existsb _ _); [discriminate|].
    destruct (setup_coeff pb cf jk t0 (f_coeff s)) as [cl|]; [|discriminate].
    replace (Z.to_nat (fc_max_iter cf)) with 0%nat in H by lia. cbn [fopt_loop ret] in H.
    destruct (_ || _); [|discriminate]. injection H as _ <-. cbn [ready f_var] in Hw, Hn.
    apply init_var_some in Ev as (_ & _ & _ & _ & _ & _ & _ & _ & _ & _ & Ev).
    destruct (Ev i HiN) as (x & u & Ex & Eu & Es & En). exists x, u. split; [exact Ex|]. split; [exact Eu|]. cbn zeta.
    rewrite ft_R in Es, En. set (g := fp_g pb _ x u) in *.
    rewrite Hw in Es. apply some_inj in Es. rewrite Hn in En. apply some_inj in En. rewrite <- Es in En.
    destruct (init_s_R g) as [L1 G1]. destruct (init_n_R (nlit 1 10000) w) as [L2 G2]. rewrite <- Es in L1, G1. rewrite <- En in L2, G2.
    split; [exact L1|]. split; [congruence|]. intros j Hj. specialize (G1 j Hj). rewrite L1 in G2. specialize (G2 j Hj).
    pose proof (Rmax_l (- vget g j) (1 / 100)). pose proof (Rmax_r (- vget g j) (1 / 100)).
    assert (0 < vget w j) by lra.
    replace (nlit 1 10000 * (1 / vget w j)) with (/ 10000 / vget w j) in G2 by (numR; field; lra).
    pose proof (Rmax_l (/ 10000 / vget w j) (1 / 100)). pose proof (Rmax_r (/ 10000 / vget w j) (1 / 100)).
    split; [exact G1|]. split; [exact G2|]. split; [lra|]. split; [lra|]. split; [lra|].
    assert (vget w j * (/ 10000 / vget w j) = / 10000) by (field; lra). nra.
  Qed.
  (** The initialised variable passes the sign check: only wrong sizes are refused. *)
  Theorem C33_accepted e s' : fc_init cf = true -> right_lengths cf v0 ->
    (pb_fixed_nu (fp_dp pb) = None -> forall i u, nth_error (v_u v0) i = Some u -> Z.of_nat (length u) = pb_inputDim (fp_dp pb) (stage_time pb t0 i)) ->
    (fp_fixed_ng pb = None -> forall i x u, nth_error (v_x v0) i = Some x -> nth_error (v_u v0) i = Some u ->
       Z.of_nat (length (fp_g pb (stage_time pb t0 i) x u)) = fp_ineqDim pb (stage_time pb t0 i)) ->
    solve <> Throw e s'.
  Proof.
    intros Hi Hr Hu Hg. rewrite solve_form_eq. unfold solve_form.
    destruct (inited pb cf t0 v0 (f_eps s)) as [[v eps]|] eqn:Ei; [|discriminate].
    pose proof Ei as Ei'. unfold inited in Ei'. rewrite Hi in Ei'.
    destruct (init_var pb cf t0 (nlit 1 10000) v0) as [v1|] eqn:Ev; [|discriminate]. injection Ei' as -> _.
    pose proof Ev as Ev'. apply init_var_some in Ev' as (_ & _ & _ & _ & _ & A & B & C & D & E & F).
    assert (Hr' : right_lengths cf v). { unfold right_lengths in *. rewrite A, B, C, D, E. exact Hr. }
    rewrite (proj2 (bad_length_spec cf v) Hr').
    assert (Hd : right_dims pb t0 v).
    { split; [rewrite B; exact Hu|]. intros Hng i w Hw.
      apply right_nat in Hr' as (_ & _ & _ & Ls & Ln & _).
      assert (HiN : (i < Nf cf)%nat). { destruct Hw as [Hw|Hw]; [rewrite <- Ls|rewrite <- Ln]; apply nth_error_Some; congruence. }
      destruct (F i HiN) as (x & u & Fx & Fu & Es & En). set (g := fp_g pb (ft pb t0 i) x u) in *.
      assert (length w = length g).
      { destruct (init_s_R g) as [L1 _]. destruct (init_n_R (nlit 1 10000) (init_s g)) as [L2 _]. rewrite Es, En in Hw.
        destruct Hw as [Hw|Hw]; apply some_inj in Hw; subst w; [exact L1|congruence]. }
      rewrite H. apply (Hg Hng i x u Fx Fu). }
    rewrite (proj2 (bad_dim_spec pb cf t0 v Hr') Hd).
    destruct (inited_pos pb cf t0 v0 (f_eps s) v _ Hi Ei (proj2 (bad_length_spec cf v) Hr')) as [P1 P2].
    assert (Hs : no_negative v).
    { intros w a [Hw|Hw] Ha; numR; apply Rltb_false; [specialize (P1 w a Hw Ha)|specialize (P2 w a Hw Ha)]; lra. }
    rewrite (proj2 (bad_sign_spec cf v Hr') Hs).
    destruct (setup_coeff pb cf jk t0 (f_coeff s)) as [cl|]; [|discriminate].
    destruct (fopt_loop _ _ _ _ _ _ _ _) as [r1 s1|e1 s1| |] eqn:E1; try discriminate.
    - destruct (_ || _); discriminate.
    - exfalso. exact (fopt_loop_nothrow _ _ _ _ _ _ _ _ _ _ E1).
  Qed.
End InitRun.

(** ** Concrete cases *)
Lemma proc_once_ends {T} {NT : Num T} LO (pb : fproblem T) cf fuel it s cl e :
  (fc_update_eps cf = true -> eps_sum (v_s (f_var s)) (v_n (f_var s)) (Nf cf) nzero 0 <> None) ->
  coeffs pb cf (f_t s) (f_var s) (f_coeff s) = Some cl -> kkt_error cf nzero (set_fcoeff cl s) = Some e -> nleb e (fc_kkt cf) = true ->
  exists s', proc_once LO pb cf fuel it s = Ok Succeeded s' /\ f_var s' = f_var s.
Proof.
  intros H1 H2 H3 H4. destruct (proc_once_case LO pb cf fuel it s) as [H|(e1 & cl1 & e' & He & Hc & Hk & H)].
  - exfalso. unfold proc_once, bind, modify in H. destruct (fc_update_eps cf).
    + specialize (H1 eq_refl). cbn [ret get put must set_ftrace f_t f_var f_coeff] in H.
      destruct (eps_sum _ _ _ _ _) as [[sum dim]|]; [|apply H1; reflexivity]. cbn [ret get put must set_feps set_ftrace f_t f_var f_coeff] in H.
      rewrite H2 in H. cbn [ret get put must set_ftrace f_t f_var f_coeff] in H.
      rewrite (kkt_error_state cf nzero _ (set_fcoeff cl s)) in H by reflexivity.
      rewrite H3 in H. cbn [must ret put] in H. rewrite H4 in H. discriminate.
    + cbn [ret get put must set_ftrace f_t f_var f_coeff] in H.
      rewrite H2 in H. cbn [ret get put must set_ftrace f_t f_var f_coeff] in H.
      rewrite (kkt_error_state cf nzero _ (set_fcoeff cl s)) in H by reflexivity.
      rewrite H3 in H. cbn [must ret put] in H. rewrite H4 in H. discriminate.
  - rewrite H2 in Hc. apply some_inj in Hc; subst cl1.
    rewrite (kkt_error_state cf nzero _ (set_fcoeff cl s)) in Hk by reflexivity. rewrite H3 in Hk. apply some_inj in Hk; subst e'. rewrite H4 in H.
    eexists. split; [exact H|reflexivity].
Qed.
(** Two steps of x' = x + u with u <= 1: the origin is optimal, and the measured state is 1e-5 away from it. *)
Definition exr_var : var R := ex_fvar 2 0 0 0 1 0.
Definition exr_cf : fconfig R := ex_fcf 2 1 false false false.
Definition exr_run := fmpc_solve div_lin ex_fp exr_cf (ex_fjunk 7) 40 0 [1 / 100000] exr_var ex_fs0.
Lemma exr_run_ok : exists s', exr_run = Ok Succeeded s' /\ f_var s' = exr_var.
Proof.
  unfold exr_run. rewrite solve_form_eq. unfold solve_form.
  replace (inited ex_fp exr_cf 0 exr_var (f_eps ex_fs0)) with (Some (exr_var, f_eps (T := R) ex_fs0)) by reflexivity.
  replace (bad_length exr_cf exr_var) with false by reflexivity.
  replace (existsb (bad_dim ex_fp 0 exr_var) (seq 0 (Nf exr_cf))) with false by reflexivity.
  replace (existsb (bad_sign exr_var) (seq 0 (Nf exr_cf))) with false by (symmetry; rcbv; rq; reflexivity).
  replace (setup_coeff ex_fp exr_cf (ex_fjunk 7) 0 (f_coeff ex_fs0)) with
    (Some [ex_fcoeff (T := R) 7; ex_fcoeff 7; ex_fcoeff 7]) by reflexivity.
  change (Z.to_nat (fc_max_iter exr_cf)) with 1%nat. cbn [fopt_loop]. unfold bind.
  edestruct (proc_once_ends div_lin ex_fp exr_cf 40 1) as (s' & -> & Hv).
  - discriminate.
  - reflexivity.
  - rcbv. rq. reflexivity.
  - rcbv; rq; reflexivity.
  - exists s'. split; [reflexivity|exact Hv].
Qed.
Definition exr_D : derivs R := {|
  d_A := fun _ _ _ => m11 1; d_B := fun _ _ _ => m11 1; d_C := fun _ _ _ => m11 0; d_D := fun _ _ _ => m11 1;
  d_Lx := fun _ x _ => [vget x 0]; d_Lu := fun _ _ u => [vget u 0]; d_Lxx := fun _ _ _ => m11 1; d_Luu := fun _ _ _ => m11 1; d_Lxu := fun _ _ _ => m11 0;
  d_Tx := fun _ x => [vget x 0]; d_Txx := fun _ _ => m11 1 |}.
Example C26_nonvacuous : computes ex_fp exr_D /\ exists s', exr_run = Ok Succeeded s'.
Proof.
  split; [|destruct exr_run_ok as (s' & H & _); eauto].
  constructor; intros; reflexivity.
Qed.
Example C30_run_nonvacuous : exists s', exr_run = Ok Succeeded s' /\ nonneg_var (f_var s').
Proof. destruct exr_run_ok as (s' & H & _). exists s'. split; [exact H|]. unfold exr_run in H. eapply C30_run; exact H. Qed.

(** One update from s = nu = 1 with a direction that would take the slack to -1: the primal step is 0.4975. *)
Definition exr_state (pb : fproblem R) (x0 : R) (v d : var R) : fsolver R := {|
  f_t := 0; f_x := [x0]; f_var := v; f_delta := d; f_coeff := [ex_fcoeff 0; ex_fcoeff 0]; f_trace := []; f_eps := 1 / 10000;
  f_mscale := 0; f_mfunc := 0; f_mderiv := 0 |}.
Definition exr_st1 := exr_state ex_fp 0 (ex_fvar 1 0 0 0 1 1) (ex_fvar 1 1 2 3 (-2) 1).
Definition exr_cf1 : fconfig R := ex_fcf 1 1 false false false.
Lemma update_plain (pb : fproblem R) cf fuel st a_s a_n v : fc_ls cf = false ->
  frac cf (v_s (f_var st)) (v_s (f_delta st)) = Some a_s -> frac cf (v_n (f_var st)) (v_n (f_delta st)) = Some a_n ->
  0 < a_s <= 1 -> 0 < a_n <= 1 -> step_var cf a_s a_n (f_var st) (f_delta st) = Some v ->
  update_variables pb cf fuel st = Ok true (set_fvar v st).
Proof.
  intros Hl Hs Hn P1 P2 Hv. unfold update_variables, bind, get. rewrite Hs. cbn [must ret]. rewrite Hn. cbn [must ret].
  replace (negb _) with false.
  - rewrite Hl. cbn [ret]. rewrite Hv. reflexivity.
  - symmetry. rewrite negb_false_iff, !andb_true_iff. change (((Rltb 0 a_s = true /\ Rleb a_s (1 / 1) = true) /\ Rltb 0 a_n = true) /\ Rleb a_n (1 / 1) = true).
    rewrite !Rltb_true, !Rleb_true. lra.
Qed.
Lemma exr_update1 : exists st', update_variables ex_fp exr_cf1 40 exr_st1 = Ok true st' /\
  v_s (f_var st') = [[Q2R (QArith_base.Qmake 1 200)]] /\ v_n (f_var st') = [[Q2R (QArith_base.Qmake 2 1)]] /\ v_u (f_var st') = [[Q2R (QArith_base.Qmake 199 200)]].
Proof.
  eexists. split.
  - eapply (update_plain ex_fp exr_cf1 40 exr_st1 (Q2R (QArith_base.Qmake 199 400)) (Q2R (QArith_base.Qmake 1 1))).
    + reflexivity.
    + rcbv. rq. reflexivity.
    + rcbv. rq. reflexivity.
    + unfold Q2R; cbn; lra.
    + unfold Q2R; cbn; lra.
    + rcbv. rq. reflexivity.
  - repeat split.
Qed.
Lemma exr_st1_pos : pos_var (f_var exr_st1).
Proof.
  split; intros w a [<-|[]] [<-|[]]; unfold vconst; cbn; lra.
Qed.
Example C30_update_nonvacuous : exists st', update_variables ex_fp exr_cf1 40 exr_st1 = Ok true st' /\ pos_var (f_var exr_st1) /\ pos_var (f_var st').
Proof.
  destruct exr_update1 as (st' & H & _). exists st'. split; [exact H|]. split; [apply exr_st1_pos|].
  apply (C30_update ex_fp exr_cf1 40 exr_st1 st' H); [|apply exr_st1_pos].
  split; apply pos_nonneg; apply exr_st1_pos.
Qed.
Example C31_step_nonvacuous : exists st', update_variables ex_fp exr_cf1 40 exr_st1 = Ok true st' /\ nonneg_var (f_var exr_st1).
Proof.
  destruct exr_update1 as (st' & H & _). exists st'. split; [exact H|]. split; apply pos_nonneg; apply exr_st1_pos.
Qed.
(** With line search, from x = (1, 1): the full step raises the merit function, half of it does not. *)
Definition exr_cf2 : fconfig R := {| fc_print := 1; fc_hor := 1; fc_max_iter := 1; fc_kkt := 1 / 10000; fc_check_nan := true; fc_init := false;
  fc_update_eps := false; fc_break := false; fc_ls := true; fc_lagr := false |}.
Definition exr_coeff : coeff R := {|
    c_A := m11 1; c_B := m11 1; c_C := mzero 0 1; c_D := mzero 0 1; c_Lx := [1]; c_Lu := [0]; c_Lxx := m11 1; c_Luu := m11 1; c_Lxu := m11 0;
    c_xbar := [0]; c_gbar := []; c_Lxbar := [0]; c_Lubar := [0]; c_k := [0]; c_K := m11 0; c_s := [0]; c_P := m11 0 |}.
Definition exr_free (x u l : R) : var R := {| v_hor := 1; v_x := [[x]; [x]]; v_u := [[u]]; v_l := [[l]; [l]]; v_s := [[]]; v_n := [[]] |}.
Definition exr_st2 : fsolver R := {|
  f_t := 0; f_x := [2]; f_var := exr_free 1 0 0; f_delta := exr_free 2 0 0; f_coeff := [exr_coeff; exr_coeff]; f_trace := [];
  f_eps := 1 / 10000; f_mscale := 0; f_mfunc := 0; f_mderiv := 0 |}.
Lemma exr_update2 : exists st', update_variables ex_fp_free exr_cf2 40 exr_st2 = Ok true st' /\ v_x (f_var st') = [[Q2R (QArith_base.Qmake 2 1)]; [Q2R (QArith_base.Qmake 2 1)]].
Proof.
  unfold update_variables, bind, get.
  replace (frac exr_cf2 (v_s (f_var exr_st2)) (v_s (f_delta exr_st2))) with (Some (nofZ (T := R) 1)) by reflexivity.
  replace (frac exr_cf2 (v_n (f_var exr_st2)) (v_n (f_delta exr_st2))) with (Some (nofZ (T := R) 1)) by reflexivity.
  cbn [must ret]. match goal with |- context [if negb ?b then _ else _] => replace b with true by (symmetry; rcbv; rq; reflexivity) end.
  cbn [negb exr_cf2 fc_ls].
  assert (Hm : setup_merit ex_fp_free exr_cf2 exr_st2 = Ok tt (set_fmerit (Q2R (QArith_base.Qmake 22 5)) (Q2R (QArith_base.Qmake 99 20)) (Q2R (QArith_base.Qmake 11 1)) exr_st2)).
  { rcbv. rq. reflexivity. }
  rewrite Hm.
  assert (Hl : forall st, st = set_fmerit (Q2R (QArith_base.Qmake 22 5)) (Q2R (QArith_base.Qmake 99 20)) (Q2R (QArith_base.Qmake 11 1)) exr_st2 ->
    ls_loop ex_fp_free exr_cf2 40 (nofZ 1) st = Ok (Q2R (QArith_base.Qmake 1 2)) st).
  { intros st ->. cbn [ls_loop]. replace (nltb (nofZ 1) (nlit 1 10000000000)) with false by (symmetry; rcbv; rq; reflexivity).
    match goal with |- (match ?X with Some _ => _ | None => _ end) = _ => replace X with (Some (Q2R (QArith_base.Qmake 187 20))) by (symmetry; rcbv; rq; reflexivity) end.
    cbv beta. match goal with |- (if ?b then _ else _) = _ => replace b with false by (symmetry; rcbv; rq; reflexivity) end.
    replace (nmul (nofZ 1) nhalf) with (Q2R (QArith_base.Qmake 1 2)) by (symmetry; rcbv; rq; reflexivity).
    replace (nltb (Q2R (QArith_base.Qmake 1 2)) (nlit 1 10000000000)) with false by (symmetry; rcbv; rq; reflexivity).
    match goal with |- (match ?X with Some _ => _ | None => _ end) = _ => replace X with (Some (Q2R (QArith_base.Qmake 11 5))) by (symmetry; rcbv; rq; reflexivity) end.
    match goal with |- (if ?b then _ else _) = _ => replace b with true by (symmetry; rcbv; rq; reflexivity) end. reflexivity. }
  rewrite (Hl _ eq_refl).
  assert (Hv : exists v, step_var exr_cf2 (Q2R (QArith_base.Qmake 1 2)) (nofZ 1) (f_var exr_st2) (f_delta exr_st2) = Some v /\ v_x v = [[Q2R (QArith_base.Qmake 2 1)]; [Q2R (QArith_base.Qmake 2 1)]]).
  { eexists. split; [rcbv; rq; reflexivity|reflexivity]. }
  destruct Hv as (v & -> & Hv). cbn [must ret modify]. eexists. split; [reflexivity|exact Hv].
Qed.
Example C31_line_search_nonvacuous : exists st', update_variables ex_fp_free exr_cf2 40 exr_st2 = Ok true st' /\ nonneg_var (f_var exr_st2).
Proof.
  destruct exr_update2 as (st' & H & _). exists st'. split; [exact H|]. split; intros w a [<-|[]] [].
Qed.
(** A first iteration that updates the barrier parameter: s = 1, nu = 1/2. *)
Definition exr_cf3 : fconfig R := {| fc_print := 1; fc_hor := 2; fc_max_iter := 1; fc_kkt := 10; fc_check_nan := true; fc_init := false;
  fc_update_eps := true; fc_break := false; fc_ls := false; fc_lagr := false |}.
Definition exr_var3 : var R := ex_fvar 2 0 0 0 1 (1 / 2).
Lemma exr_run3 : exists s', fmpc_solve div_lin ex_fp exr_cf3 (ex_fjunk 7) 40 0 [0] exr_var3 ex_fs0 = Ok Succeeded s'.
Proof.
  rewrite solve_form_eq. unfold solve_form.
  replace (inited ex_fp exr_cf3 0 exr_var3 (f_eps ex_fs0)) with (Some (exr_var3, f_eps (T := R) ex_fs0)) by reflexivity.
  replace (bad_length exr_cf3 exr_var3) with false by reflexivity.
  replace (existsb (bad_dim ex_fp 0 exr_var3) (seq 0 (Nf exr_cf3))) with false by reflexivity.
  replace (existsb (bad_sign exr_var3) (seq 0 (Nf exr_cf3))) with false by (symmetry; rcbv; rq; reflexivity).
  replace (setup_coeff ex_fp exr_cf3 (ex_fjunk 7) 0 (f_coeff ex_fs0)) with
    (Some [ex_fcoeff (T := R) 7; ex_fcoeff 7; ex_fcoeff 7]) by reflexivity.
  change (Z.to_nat (fc_max_iter exr_cf3)) with 1%nat. cbn [fopt_loop]. unfold bind.
  edestruct (proc_once_ends div_lin ex_fp exr_cf3 40 1) as (s' & -> & Hv).
  - discriminate.
  - reflexivity.
  - rcbv. rq. reflexivity.
  - rcbv; rq; reflexivity.
  - exists s'. reflexivity.
Qed.
Example C32_nonvacuous : exists s', fmpc_solve div_lin ex_fp exr_cf3 (ex_fjunk 7) 40 0 [0] exr_var3 ex_fs0 = Ok Succeeded s' /\
  fc_update_eps exr_cf3 = true /\ (1 <= fc_max_iter exr_cf3)%Z.
Proof. destruct exr_run3 as (s' & H). exists s'. repeat split; try exact H; cbn; lia. Qed.
Example C32_value_nonvacuous : exists s', proc_once div_lin ex_fp exr_cf3 40 1 (ready exr_cf3 (ex_fjunk 7) 0 [0] exr_var3 0 [ex_fcoeff 7; ex_fcoeff 7; ex_fcoeff 7] ex_fs0) = Ok Succeeded s' /\
  f_eps s' = 1 / 4.
Proof.
  edestruct (proc_once_ends div_lin ex_fp exr_cf3 40 1 (ready exr_cf3 (ex_fjunk 7) 0 [0] exr_var3 0 [ex_fcoeff 7; ex_fcoeff 7; ex_fcoeff 7] ex_fs0)) as (s' & E & Hv).
  - discriminate.
  - reflexivity.
  - rcbv. rq. reflexivity.
  - rcbv; rq; reflexivity.
  - exists s'. split; [exact E|]. apply C32_value in E. rewrite E.
    replace (sn_total _ _ _) with 1 by (symmetry; rcbv; rq; unfold Q2R; cbn; lra).
    replace (sn_count _ _) with 2 by (symmetry; rcbv; rq; unfold Q2R; cbn; lra).
    cbn [exr_cf3 fc_update_eps]. unfold Rmin, Rmax. repeat destruct (Rle_dec _ _); lra.
Qed.
Example C32_unconstrained_nonvacuous : (forall w, In w (v_s (exr_free 0 0 0)) -> length w = 0%nat) /\
  (forall t x u, length (fp_g (T := R) ex_fp_free t x u) = 0%nat) /\
  forall r s', fmpc_solve div_lin ex_fp_free (ex_fcf 1 1 false true false) (ex_fjunk 7) 40 0 [0] (exr_free 0 0 0) ex_fs0 <> Ok r s'.
Proof.
  assert (H1 : forall w, In w (v_s (exr_free 0 0 0)) -> length w = 0%nat) by (intros w [<-|[]]; reflexivity).
  split; [exact H1|]. split; [reflexivity|]. apply C32_unconstrained_refuted; try exact H1; try reflexivity; cbn; lia.
Qed.
(** Initialisation at u = 0, where the constraint u <= 1 has value -1, and at u = 3, where it is violated. *)
Definition exr_var4 : var R := {| v_hor := 2; v_x := [[0]; [0]; [0]]; v_u := [[0]; [3]]; v_l := [[0]; [0]; [0]]; v_s := [[0]; [0]]; v_n := [[0]; [0]] |}.
Lemma exr_run4 : exists s', fmpc_solve div_lin ex_fp (ex_fcf 2 0 true true false) (ex_fjunk 7) 40 0 [0] exr_var4 ex_fs0 = Ok Uninitialized s'.
Proof.
  rewrite solve_form_eq. unfold solve_form.
  assert (Hi : exists v eps, inited ex_fp (ex_fcf 2 0 true true false) 0 exr_var4 (f_eps ex_fs0) = Some (v, eps) /\ right_lengths (T := R) (ex_fcf 2 0 true true false) v /\
     right_dims ex_fp 0 v /\ existsb (bad_sign v) (seq 0 2) = false).
  { eexists _, _. split; [reflexivity|]. split; [cbn; repeat split|]. split; [split; discriminate|]. rcbv. rq. reflexivity. }
  destruct Hi as (v & eps & -> & H1 & H2 & H3).
  rewrite (proj2 (bad_length_spec _ v) H1), (proj2 (bad_dim_spec _ _ _ v H1) H2).
  change (Nf (T := R) (ex_fcf 2 0 true true false)) with 2%nat. rewrite H3.
  eexists. reflexivity.
Qed.
Example C33_nonvacuous : exists s', fmpc_solve div_lin ex_fp (ex_fcf 2 0 true true false) (ex_fjunk 7) 40 0 [0] exr_var4 ex_fs0 = Ok Uninitialized s' /\
  right_lengths (T := R) (ex_fcf 2 0 true true false) exr_var4.
Proof. destruct exr_run4 as (s' & H). exists s'. split; [exact H|]. repeat split. Qed.
Print Assumptions C26_success.
Print Assumptions C30_update.
Print Assumptions C30_run.
Print Assumptions C31_step.
Print Assumptions C31_terminates.
Print Assumptions C32_value.
Print Assumptions C32_range.
Print Assumptions C32_unconstrained_refuted.
Print Assumptions C33_values.
Print Assumptions C33_accepted.
