(** C46 - C48: the control update, the simulation loop and its log. *)
From Coq Require Import Reals Lra.
From Verif Require Import Prelude Scalar LinAlg RLin Gmres GmresReal3 P_GmresSafe Cgmres CgmresRun.

Section Loop.
  Context {T : Type} {NT : Num T}.
  Variables (pb : cg_problem T) (cf : cg_conf T) (od sim_od : ode T).
  Notation n := (cp_dim_x pb).
  Notation m := (cp_dim_uc pb).
  Notation time := (time cf).
  Notation F := (F pb cf od).

  (** One pass of the loop at step k takes the members s to s'. *)
  Definition pass (N k : nat) (s s' : cg_st T) : Prop :=
    let t := time k in
    cs_x s' = sim_od (cp_f pb) t (cs_x s) (cs_u s) (cc_dt cf) /\
    calc_control pb cf od t (cs_x s) (cs_x s') s = Ok (cs_u s')
       {| cs_x := cs_x s; cs_u := cs_u s; cs_t_delta := cs_t_delta s'; cs_x_delta := cs_x_delta s'; cs_u_list := cs_u_list s'; cs_dhdu := cs_dhdu s';
          cs_dhdu_delta := cs_dhdu_delta s'; cs_delta_u := cs_delta_u s'; cs_log := cs_log s |} /\
    cs_log s' = cs_log s ++
      (if Z.eqb (Z.rem (Z.of_nat k) (cc_dump cf)) 0
       then [{| cr_t := t; cr_x := cs_x s'; cr_u := cs_u s'; cr_err := vnorm (concat (calc_dhdu pb cf od t (cs_x s) (cs_u_list s))) |}] else []).

  Hypothesis HW : cp_wf pb.
  Hypothesis HO : ode_wf od.
  Hypothesis HS : ode_wf sim_od.
  Variable N : nat.
  Hypothesis HN : cc_num cf = Z.of_nat N.
  Hypothesis HN1 : (1 <= N)%nat.
  Hypothesis Hk : (0 <= cc_kmax cf)%Z.

  Lemma step_pass k st : sized pb N st -> cc_dump cf <> 0%Z -> (Z.of_nat k < 2147483647)%Z ->
    exists st', run_step pb cf od sim_od (time k) (Z.of_nat k) st = Ok tt st' /\ sized pb N st' /\ pass N k st st'.
  Proof using HW HO HS HN HN1 Hk.
    intros Hs Hd Hi. assert (Hx : length (cs_x st) = n) by apply Hs.
    set (next := sim_od (cp_f pb) (time k) (cs_x st) (cs_u st) (cc_dt cf)).
    assert (Hnx : length next = n) by (unfold next; rewrite HS; exact Hx).
    destruct (calc_control_ok pb cf od HW HO N (time k) (cs_x st) next st Hs Hx Hnx HN HN1 Hk) as (out & us & st1 & _ & Eus & E & Lo & Est).
    pose proof (calc_control_sized pb cf od HW HO N _ _ _ _ _ _ Hs Hx Hnx HN HN1 Hk E) as [Sz1 Lu]. subst st1.
    eexists. split; [|split].
    { unfold run_step. rewrite (bind_ok get _ st st st eq_refl). cbv zeta. change (sim_od (cp_f pb) (time k) (cs_x st) (cs_u st) (cc_dt cf)) with next.
      rewrite (bind_ok _ _ _ _ _ E). rewrite (bind_ok get _ _ _ _ eq_refl).
      match goal with |- bind (put ?s) _ ?s0 = _ => rewrite (bind_ok (put s) _ s0 s tt eq_refl) end.
      rewrite bind_guard by (rewrite (proj2 (Z.eqb_neq (cc_dump cf) 0)) by exact Hd; reflexivity).
      match goal with |- bind (if ?c then modify ?g else _) _ ?s = Ok tt _ => transitivity (Ok (S := cg_st T) tt (if c then g s else s)) end; [|reflexivity].
      destruct (Z.eqb _ 0); unfold bind, modify, ret, guard; rewrite (proj2 (Z.ltb_lt _ _) Hi); reflexivity. }
    all: destruct Sz1 as (P1 & P2 & P3 & P4 & P5); cbn [cs_x cs_u cs_u_list cs_delta_u] in *.
    - destruct (Z.eqb _ 0); repeat split; auto.
    - unfold pass. cbv zeta. destruct (Z.eqb _ 0); cbn [cs_x cs_u cs_u_list cs_delta_u cs_t_delta cs_x_delta cs_dhdu cs_dhdu_delta cs_log].
      + split; [reflexivity|]. split; [exact E|reflexivity].
      + split; [reflexivity|]. split; [exact E|]. symmetry. apply app_nil_r.
  Qed.

  Lemma loop_pass : cc_dump cf <> 0%Z -> forall j k fuel st, sized pb N st -> (Z.of_nat (k + j) <= 2147483647)%Z ->
    (forall i, (k <= i < k + j)%nat -> nleb (time i) (cc_sim cf) = true) -> nleb (time (k + j)) (cc_sim cf) = false -> (j < fuel)%nat ->
    exists S : nat -> cg_st T, run_loop pb cf od sim_od fuel (time k) (Z.of_nat k) st = Ok tt (S (k + j)%nat) /\ S k = st /\
      forall i, (k <= i < k + j)%nat -> sized pb N (S i) /\ pass N i (S i) (S (i + 1)%nat).
  Proof using HW HO HS HN HN1 Hk.
    intros Hd. induction j as [|j IH]; intros k fuel st Hs Hi Ht Hf Hfu; (destruct fuel as [|fuel]; [lia|]); cbn [run_loop].
    - rewrite Nat.add_0_r in Hf. rewrite Hf. exists (fun _ => st). split; [reflexivity|]. split; [reflexivity|]. intros; lia.
    - rewrite (Ht k) by lia. destruct (step_pass k st Hs Hd ltac:(lia)) as (st1 & E & S1 & P1).
      rewrite (bind_ok _ _ _ _ _ E). replace (Z.of_nat k + 1)%Z with (Z.of_nat (Datatypes.S k)) by lia. change (nadd (time k) (cc_dt cf)) with (time (Datatypes.S k)).
      destruct (IH (Datatypes.S k) fuel st1 S1 ltac:(lia)) as (S & E' & E0 & H).
      + intros i Hi'. apply Ht. lia.
      + rewrite <- Hf. f_equal. f_equal. lia.
      + lia.
      + exists (fun i => if Nat.eqb i k then st else S i). rewrite Nat.eqb_refl.
        replace (Nat.eqb (k + Datatypes.S j) k) with false by (symmetry; apply Nat.eqb_neq; lia).
        replace (k + Datatypes.S j)%nat with (Datatypes.S k + j)%nat by lia. split; [exact E'|]. split; [reflexivity|].
        intros i Hi'. rewrite (proj2 (Nat.eqb_neq (i + 1) k)) by lia. destruct (Nat.eqb_spec i k) as [->|Hne].
        * split; [exact Hs|]. replace (k + 1)%nat with (Datatypes.S k) by lia. rewrite E0. exact P1.
        * apply H. lia.
  Qed.
End Loop.

(** C46: with positive horizon division, nonnegative k_max and members of the right sizes, calcControlInput returns. It stores the GMRES
    solution, from the previous one, of the finite-difference continuation equation
      (F(t+delta, xd, U + delta v) - F(t+delta, xd, U)) / delta = ((1 - zeta delta) F(t, x, U) - F(t+delta, xd, U)) / delta
    (F the stacked DhDu, xd between x and next_x), adds dt times it to every input column, returns the first column, and keeps all sizes
    and the other members. *)
Theorem C46_control_update {T} {NT : Num T} pb (cf : cg_conf T) od N t x next_x st : cp_wf pb -> ode_wf od ->
  cc_num cf = Z.of_nat N -> (1 <= N)%nat -> (0 <= cc_kmax cf)%Z -> sized pb N st -> length x = cp_dim_x pb -> length next_x = cp_dim_x pb ->
  let m := cp_dim_uc pb in let d := cc_delta cf in
  let xd := vadd (vscale (nsub none (ndiv d (cc_dt cf))) x) (vscale (ndiv d (cc_dt cf)) next_x) in
  let FF t x us := concat (calc_dhdu pb cf od t x us) in
  let U := cs_u_list st in
  exists u st', calc_control pb cf od t x next_x st = Ok u st' /\ sized pb N st' /\
    (exists A b out, gm_solve gm_default no_lsq A b (cs_delta_u st) (cc_kmax cf) (nlit 1 10000000000) st = Ok out st /\ cs_delta_u st' = go_x out /\
       (forall i, (i < N * m)%nat -> vget b i = ndiv (nsub (nmul (nsub none (nmul (cc_zeta cf) d)) (vget (FF t x U) i)) (vget (FF (nadd t d) xd U) i)) d) /\
       (forall v, exists us, length us = N /\ (forall k, (k < N)%nat -> length (nth k us []) = m /\
            forall j, (j < m)%nat -> vget (nth k us []) j = nadd (vget (nth k U []) j) (nmul d (vget v (k * m + j)))) /\
          forall i, (i < N * m)%nat -> vget (A v) i = ndiv (nsub (vget (FF (nadd t d) xd us) i) (vget (FF (nadd t d) xd U) i)) d)) /\
    (forall k, (k < N)%nat -> forall j, (j < m)%nat ->
       vget (nth k (cs_u_list st') []) j = nadd (vget (nth k U []) j) (nmul (cc_dt cf) (vget (cs_delta_u st') (k * m + j)))) /\
    u = nth 0 (cs_u_list st') [] /\ length u = m /\
    cs_x st' = cs_x st /\ cs_u st' = cs_u st /\ cs_log st' = cs_log st.
Proof.
  intros HW HO HN HN1 Hk Hs Hx Hnx m d xd FF U. pose proof Hs as (S1 & S2 & S3 & S4 & S5).
  destruct (calc_control_ok pb cf od HW HO N t x next_x st Hs Hx Hnx HN HN1 Hk) as (out & us & st1 & Eg & Eus & E & Lo & Est).
  pose proof (calc_control_sized pb cf od HW HO N _ _ _ _ _ _ Hs Hx Hnx HN HN1 Hk E) as [Sz1 Lu].
  assert (Hc : forall c v k, (k < N)%nat -> length (nth k (add_cols pb c v U) []) = m /\ forall j, (j < m)%nat ->
     vget (nth k (add_cols pb c v U) []) j = nadd (vget (nth k U []) j) (nmul c (vget v (k * m + j)))).
  { intros c v k Hk'. assert (Lk : length (nth k U []) = m) by (apply S4, nth_In; rewrite S3; exact Hk').
    rewrite add_cols_nth by (unfold U; rewrite S3; exact Hk'). split; [unfold vadd; rewrite vbuild_length; exact Lk|]. intros j Hj.
    unfold vadd. rewrite vbuild_get by (rewrite Lk; exact Hj). f_equal. unfold vscale. rewrite vbuild_get by (unfold seg; rewrite vbuild_length; exact Hj).
    f_equal. unfold seg. rewrite vbuild_get by exact Hj. reflexivity. }
  exists (nth 0 us []), st1. split; [exact E|]. split; [exact Sz1|]. subst st1. cbn [cs_x cs_u cs_u_list cs_delta_u cs_log].
  split; [|split; [|repeat split; exact Lu]].
  - eexists _, _, out. split; [exact Eg|]. split; [reflexivity|]. split.
    + intros i Hi. unfold rhs. rewrite vbuild_get by (rewrite (F_len pb cf od HW HO), S3 by auto; exact Hi). reflexivity.
    + intros v. exists (add_cols pb d v U). split; [rewrite add_cols_len; exact S3|]. split; [intros k Hk'; apply Hc; exact Hk'|].
      intros i Hi. unfold eq_amul. cbv zeta. rewrite vbuild_get; [reflexivity|].
      change (concat (calc_dhdu pb cf od ?a ?b ?c)) with (F pb cf od a b c). rewrite (F_len pb cf od HW HO).
      * rewrite add_cols_len, S3. exact Hi.
      * apply xdelta_len. exact Hx.
      * apply add_cols_ok. exact S4.
  - intros k Hk' j Hj. subst us. apply Hc; assumption.
Qed.
Print Assumptions C46_control_update.

(** C47, C48 for every scalar type: the run consists of the first K passes, K the first step whose time exceeds the duration; the row
    written at time t_k holds the state after the step from t_k, and the error of the inputs before it. *)
Theorem C47_run {T} {NT : Num T} pb (cf : cg_conf T) od sim_od N K fuel st : cp_wf pb -> ode_wf od -> ode_wf sim_od ->
  cc_num cf = Z.of_nat N -> (1 <= N)%nat -> (0 <= cc_kmax cf)%Z -> cc_dump cf <> 0%Z ->
  (forall k, (k < K)%nat -> nleb (time cf k) (cc_sim cf) = true) -> nleb (time cf K) (cc_sim cf) = false ->
  (Z.of_nat K <= 2147483647)%Z -> (K < fuel)%nat ->
  exists S : nat -> cg_st T, cg_run pb cf od sim_od fuel st = Ok tt (S K) /\
    cs_x (S 0%nat) = cp_x0 pb /\ cs_u_list (S 0%nat) = repeat (cs_u (S 0%nat)) N /\ cs_log (S 0%nat) = [] /\
    forall k, (k < K)%nat -> sized pb N (S k) /\ pass pb cf od sim_od N k (S k) (S (k + 1)%nat).
Proof.
  intros HW HO HS HN HN1 Hk Hd Ht Hf HK Hfu. unfold cg_run.
  match goal with |- context [bind (modify ?g) _ st] => rewrite (bind_ok (modify g) _ st (g st) tt eq_refl); set (st0 := g st) end.
  destruct (setup_ok pb cf HW N st0 HN) as (u & dh & st1 & _ & E & Sz & Es). rewrite (bind_ok _ _ _ _ _ E).
  destruct (loop_pass pb cf od sim_od HW HO HS N HN HN1 Hk Hd K 0 fuel st1 Sz ltac:(lia) (fun i Hi => Ht i (proj2 Hi)) Hf Hfu) as (S & E' & E0 & H).
  exists S. split; [exact E'|]. rewrite E0, Es. cbn [cs_x cs_u cs_u_list cs_log]. split; [reflexivity|]. split; [reflexivity|]. split; [reflexivity|].
  intros k Hk'. apply H. lia.
Qed.
Print Assumptions C47_run.

(** The counter is an int: a run longer than 2^31 - 1 passes does not return normally. *)
Theorem C48_counter_overflow {T} {NT : Num T} pb (cf : cg_conf T) od sim_od : 
  (forall k, (Z.of_nat k <= 2147483647)%Z -> nleb (time cf k) (cc_sim cf) = true) ->
  forall fuel st st', cg_run pb cf od sim_od fuel st <> Ok tt st'.
Proof.
  intros Ht fuel st st'. unfold cg_run, bind at 1, modify at 1. unfold bind at 1. destruct (setup pb cf _) as [[] s1| | |]; try discriminate.
  assert (H : forall fuel k s, (Z.of_nat k <= 2147483647)%Z -> run_loop pb cf od sim_od fuel (time cf k) (Z.of_nat k) s <> Ok tt st').
  { clear fuel s1 st. induction fuel as [|fuel IH]; intros k s Hk; cbn [run_loop]; [discriminate|]. rewrite (Ht k Hk). unfold bind at 1.
    destruct (run_step pb cf od sim_od (time cf k) (Z.of_nat k) s) as [[] s1| | |] eqn:E; try discriminate.
    assert (Hl : (Z.of_nat k < 2147483647)%Z).
    { unfold run_step, bind, get, put, modify in E. destruct (calc_control _ _ _ _ _ _ s); try discriminate.
      unfold guard at 1 in E. destruct (negb _); try discriminate. cbv beta iota delta [ret] in E.
      destruct (Z.eqb _ 0); unfold guard in E; (destruct (Z.ltb_spec (Z.of_nat k) 2147483647); [assumption|discriminate]). }
    replace (Z.of_nat k + 1)%Z with (Z.of_nat (S k)) by lia. change (nadd (time cf k) (cc_dt cf)) with (time cf (S k)). apply IH. lia. }
  apply (H fuel 0%nat). lia.
Qed.
Print Assumptions C48_counter_overflow.

(** dump_step 0: i % 0 at the first pass. *)
Theorem C48_dump_zero {T} {NT : Num T} pb (cf : cg_conf T) od sim_od fuel st st' : cc_dump cf = 0%Z -> nleb nzero (cc_sim cf) = true ->
  cg_run pb cf od sim_od fuel st <> Ok tt st'.
Proof.
  intros Hd H0. unfold cg_run, bind at 1, modify at 1. unfold bind at 1. destruct (setup pb cf _) as [[] s1| | |]; try discriminate.
  destruct fuel as [|fuel]; [discriminate|]. cbn [run_loop]. rewrite H0. unfold run_step, bind, get, put, modify.
  destruct (calc_control _ _ _ _ _ _ s1); try discriminate. unfold guard at 1. rewrite Hd. discriminate.
Qed.
Print Assumptions C48_dump_zero.

Local Open Scope R_scope.
Lemma time_R (cf : cg_conf R) k : time cf k = INR k * cc_dt cf.
Proof. induction k as [|k IH]; [cbn; ring|]. rewrite S_INR. change (time cf (S k)) with (time cf k + cc_dt cf). rewrite IH. ring. Qed.
Lemma rem_abs a d : (0 <= a)%Z -> d <> 0%Z -> Z.eqb (Z.rem a d) 0 = Z.eqb (a mod Z.abs d) 0.
Proof. intros Ha Hd. rewrite <- Z.rem_abs_r by exact Hd. rewrite Z.rem_mod_nonneg by lia. reflexivity. Qed.

(** C48 over the reals: K = floor(sim_duration / dt) + 1 passes, one row for every dump_step-th. *)
Theorem C48_run_length pb cf od sim_od N fuel st : cp_wf pb -> ode_wf od -> ode_wf sim_od ->
  cc_num cf = Z.of_nat N -> (1 <= N)%nat -> (0 <= cc_kmax cf)%Z -> cc_dump cf <> 0%Z -> 0 < cc_dt cf -> 0 <= cc_sim cf ->
  let K := Z.to_nat (Int_part (cc_sim cf / cc_dt cf) + 1) in
  (Z.of_nat K <= 2147483647)%Z -> (K < fuel)%nat ->
  exists S : nat -> cg_st R, cg_run pb cf od sim_od fuel st = Ok tt (S K) /\ cs_x (S 0%nat) = cp_x0 pb /\
    (forall k, (k < K)%nat -> length (cs_u (S k)) = cp_dim_uc pb /\ cs_x (S (k + 1)%nat) = sim_od (cp_f pb) (INR k * cc_dt cf) (cs_x (S k)) (cs_u (S k)) (cc_dt cf)) /\
    Z.of_nat (length (cs_log (S K))) = ((Z.of_nat K + Z.abs (cc_dump cf) - 1) / Z.abs (cc_dump cf))%Z /\
    (forall r, In r (cs_log (S K)) <-> exists k, (k < K)%nat /\ (Z.of_nat k mod Z.abs (cc_dump cf))%Z = 0%Z /\
       cr_t r = INR k * cc_dt cf /\ cr_x r = cs_x (S (k + 1)%nat) /\ cr_u r = cs_u (S (k + 1)%nat) /\
       cr_err r = vnorm (concat (calc_dhdu pb cf od (INR k * cc_dt cf) (cs_x (S k)) (cs_u_list (S k))))).
Proof.
  intros HW HO HS HN HN1 Hk Hd Hdt Hsim K HK Hfu.
  assert (HI : (0 <= Int_part (cc_sim cf / cc_dt cf))%Z /\ IZR (Int_part (cc_sim cf / cc_dt cf)) <= cc_sim cf / cc_dt cf < IZR (Int_part (cc_sim cf / cc_dt cf)) + 1).
  { destruct (base_Int_part (cc_sim cf / cc_dt cf)) as [B1 B2]. assert (0 <= cc_sim cf / cc_dt cf) by (apply Rmult_le_pos; [lra|apply Rlt_le, Rinv_0_lt_compat; lra]).
    split; [|lra]. apply Z.lt_succ_r, Z.lt_pred_lt_succ. apply lt_IZR. unfold Z.pred. rewrite plus_IZR. lra. }
  destruct HI as [HI0 [HI1 HI2]]. assert (EK : INR K = IZR (Int_part (cc_sim cf / cc_dt cf)) + 1).
  { unfold K. rewrite INR_IZR_INZ, Z2Nat.id by lia. rewrite plus_IZR. reflexivity. }
  assert (Esim : cc_sim cf = cc_sim cf / cc_dt cf * cc_dt cf) by (field; lra).
  destruct (C47_run pb cf od sim_od N K fuel st HW HO HS HN HN1 Hk Hd) as (S & E & X0 & _ & L0 & HP); auto.
  - intros k Hk'. apply Rleb_true. rewrite time_R. rewrite Esim. apply Rmult_le_compat_r; [lra|].
    assert (INR k + 1 <= INR K) by (rewrite <- S_INR; apply le_INR; lia). lra.
  - apply Rleb_false. rewrite time_R. rewrite Esim at 1. apply Rmult_lt_compat_r; lra.
  - exists S. split; [exact E|]. split; [exact X0|].
    assert (HP' : forall k, (k < K)%nat -> cs_x (S (k + 1)%nat) = sim_od (cp_f pb) (INR k * cc_dt cf) (cs_x (S k)) (cs_u (S k)) (cc_dt cf) /\
      cs_log (S (k + 1)%nat) = cs_log (S k) ++ (if Z.eqb (Z.of_nat k mod Z.abs (cc_dump cf)) 0
       then [{| cr_t := INR k * cc_dt cf; cr_x := cs_x (S (k + 1)%nat); cr_u := cs_u (S (k + 1)%nat);
                cr_err := vnorm (concat (calc_dhdu pb cf od (INR k * cc_dt cf) (cs_x (S k)) (cs_u_list (S k)))) |}] else [])).
    { intros k Hk'. destruct (HP k Hk') as (_ & P1 & _ & P3). rewrite time_R in P1, P3. rewrite rem_abs in P3 by lia. split; assumption. }
    split; [intros k Hk'; split; [destruct (HP k Hk') as [(_ & Lu & _) _]; exact Lu|apply HP'; exact Hk']|]. clear HP.
    set (d := Z.abs (cc_dump cf)) in *. assert (Hdp : (0 < d)%Z) by (unfold d; lia).
    assert (G : forall j, (j <= K)%nat -> Z.of_nat (length (cs_log (S j))) = ((Z.of_nat j + d - 1) / d)%Z /\
      forall r, In r (cs_log (S j)) <-> exists k, (k < j)%nat /\ (Z.of_nat k mod d)%Z = 0%Z /\
       cr_t r = INR k * cc_dt cf /\ cr_x r = cs_x (S (k + 1)%nat) /\ cr_u r = cs_u (S (k + 1)%nat) /\
       cr_err r = vnorm (concat (calc_dhdu pb cf od (INR k * cc_dt cf) (cs_x (S k)) (cs_u_list (S k))))).
    { induction j as [|j IH]; intros Hj.
      - rewrite L0. split; [symmetry; apply Z.div_small; cbn; lia|]. intros r. split; [intros []|intros (k & Hk' & _); lia].
      - destruct (IH ltac:(lia)) as [G1 G2]. destruct (HP' j ltac:(lia)) as [_ PL]. rewrite Nat.add_1_r in PL. rewrite PL. split.
        + rewrite app_length, Nat2Z.inj_add, G1. rewrite Nat2Z.inj_succ.
          pose proof (Z.div_mod (Z.of_nat j) d ltac:(lia)) as DM. pose proof (Z.mod_pos_bound (Z.of_nat j) d Hdp) as MB.
          set (q := (Z.of_nat j / d)%Z) in *. set (e := (Z.of_nat j mod d)%Z) in *. rewrite DM. destruct (Z.eqb_spec e 0) as [He|He]; cbn [length].
          * rewrite He. replace (d * q + 0 + d - 1)%Z with (d - 1 + q * d)%Z by ring. replace (Z.succ (d * q + 0) + d - 1)%Z with (0 + (q + 1) * d)%Z by ring.
            rewrite !Z.div_add by lia. rewrite (Z.div_small (d - 1)) by lia. cbn. lia.
          * replace (d * q + e + d - 1)%Z with (e - 1 + (q + 1) * d)%Z by ring. replace (Z.succ (d * q + e) + d - 1)%Z with (e + (q + 1) * d)%Z by ring.
            rewrite !Z.div_add by lia. rewrite !Z.div_small by lia. cbn. lia.
        + intros r. rewrite in_app_iff, G2. split.
          * intros [(k & Hk' & H)|H]; [exists k; split; [lia|exact H]|]. destruct (Z.eqb_spec (Z.of_nat j mod d) 0) as [He|He]; [|destruct H].
            destruct H as [<-|[]]. exists j. split; [lia|]. split; [exact He|]. rewrite Nat.add_1_r. repeat split.
          * intros (k & Hk' & He & H). destruct (Nat.eq_dec k j) as [->|Hne]; [|left; exists k; split; [lia|split; [exact He|exact H]]].
            right. rewrite He. cbn [Z.eqb]. left. rewrite Nat.add_1_r in H. destruct r as [rt rx ru re]. cbn in H. destruct H as (-> & -> & -> & ->). reflexivity. }
    apply (G K). lia.
Qed.
Print Assumptions C48_run_length.

(** A negative duration runs no step. *)
Theorem C48_negative_duration pb cf od sim_od N fuel st : cp_wf pb -> cc_num cf = Z.of_nat N -> cc_sim cf < 0 ->
  exists st', cg_run pb cf od sim_od (S fuel) st = Ok tt st' /\ cs_log st' = [] /\ cs_x st' = cp_x0 pb.
Proof.
  intros HW HN Hs. unfold cg_run.
  match goal with |- context [bind (modify ?g) _ st] => rewrite (bind_ok (modify g) _ st (g st) tt eq_refl); set (st0 := g st) end.
  destruct (setup_ok pb cf HW N st0 HN) as (u & dh & st1 & _ & E & Sz & Es). rewrite (bind_ok _ _ _ _ _ E). exists st1.
  cbn [run_loop]. replace (nleb nzero (cc_sim cf)) with false by (symmetry; apply Rleb_false; exact Hs). split; [reflexivity|]. rewrite Es. split; reflexivity.
Qed.
Print Assumptions C48_negative_duration.

(** With dt <= 0 and a nonnegative duration the loop never ends. *)
Theorem C48_nonpositive_dt pb cf od sim_od fuel st st' : cc_dt cf <= 0 -> 0 <= cc_sim cf -> cg_run pb cf od sim_od fuel st <> Ok tt st'.
Proof.
  intros Hd Hs. apply C48_counter_overflow. intros k _. apply Rleb_true. rewrite time_R. pose proof (pos_INR k). nra.
Qed.
Print Assumptions C48_nonpositive_dt.

(** C47: the row at time 0 need not hold the state at time 0. *)
Definition drift : cg_problem R := {| cp_dim_x := 1; cp_dim_uc := 1; cp_f := fun _ _ _ => [1]; cp_costate := fun _ _ _ => [0]; cp_dphi := fun _ _ => [0];
  cp_dhdu := fun _ _ u _ => u; cp_x0 := [0]; cp_u0 := [0] |}.
Definition drift_conf : cg_conf R := {| cc_sim := 1; cc_horizon := 1; cc_num := 1; cc_ratio := 1; cc_dt := 1; cc_zeta := 1; cc_kmax := 1; cc_delta := 1; cc_dump := 1 |}.
Definition no_members : cg_st R := {| cs_x := []; cs_u := []; cs_t_delta := 0; cs_x_delta := []; cs_u_list := []; cs_dhdu := []; cs_dhdu_delta := []; cs_delta_u := []; cs_log := [] |}.
Lemma drift_wf : cp_wf drift.
Proof. repeat split; auto. Qed.
Lemma drift_K : Z.to_nat (Int_part (cc_sim drift_conf / cc_dt drift_conf) + 1) = 2%nat.
Proof. replace (cc_sim drift_conf / cc_dt drift_conf) with (INR 1) by (cbn; field). rewrite Int_part_INR. reflexivity. Qed.
Theorem C47_refuted : exists pb cf st st' r, cp_wf pb /\ cg_run pb cf euler euler 3 st = Ok tt st' /\ In r (cs_log st') /\
  cr_t r = 0 /\ cr_x r <> cp_x0 pb.
Proof.
  exists drift, drift_conf, no_members.
  pose proof (C48_run_length drift drift_conf euler euler 1 3 no_members drift_wf euler_wf euler_wf eq_refl ltac:(lia) ltac:(cbn; lia) ltac:(cbn; lia) ltac:(cbn; lra) ltac:(cbn; lra)) as H.
  rewrite drift_K in H. cbv zeta in H. destruct (H ltac:(lia) ltac:(lia)) as (S & E & X0 & HX & HL & HR).
  exists (S 2%nat), {| cr_t := INR 0 * 1; cr_x := cs_x (S 1%nat); cr_u := cs_u (S 1%nat); cr_err := vnorm (concat (calc_dhdu drift drift_conf euler (INR 0 * 1) (cs_x (S 0%nat)) (cs_u_list (S 0%nat)))) |}.
  split; [exact drift_wf|]. split; [exact E|]. split; [apply HR; exists 0%nat; repeat split; lia|]. split; [cbn; ring|].
  cbn [cr_x]. change (S 1%nat) with (S (0 + 1)%nat). rewrite (proj2 (HX 0%nat ltac:(lia))). rewrite X0. unfold euler, vadd, vscale, vbuild, vget. cbn. intros Eq. injection Eq as Eq. lra.
Qed.
Print Assumptions C47_refuted.

(** Floating point: with dt = 0.1 and duration 0.3 the fourth step is lost, the accumulated time exceeding 0.3. *)
Definition tenth : f64 := nlit 1 10.
Definition fconf : cg_conf f64 := {| cc_sim := nlit 3 10; cc_horizon := none; cc_num := 1; cc_ratio := none; cc_dt := tenth; cc_zeta := none; cc_kmax := 1; cc_delta := none; cc_dump := 1 |}.
Theorem C48_double_refuted : nleb (time fconf 3) (cc_sim fconf) = false /\ nleb (time fconf 2) (cc_sim fconf) = true.
Proof. split; vm_compute; reflexivity. Qed.
Print Assumptions C48_double_refuted.

(** The hypotheses of C46 are met: the drift problem with its members set up. *)
Example C46_nonvacuous : cp_wf drift /\ ode_wf (@euler R RNum) /\ sized drift 1
  {| cs_x := [0]; cs_u := [0]; cs_t_delta := 0; cs_x_delta := [0]; cs_u_list := [[5]]; cs_dhdu := []; cs_dhdu_delta := []; cs_delta_u := [2]; cs_log := [] |}.
Proof. split; [exact drift_wf|]. split; [exact euler_wf|]. repeat split. intros u [<-|[]]. reflexivity. Qed.
