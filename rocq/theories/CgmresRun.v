(** Sizes and outcomes of calcControlInput, setup and run, for every scalar type. *)
From Verif Require Import Prelude Scalar LinAlg RLin Gmres GmresReal GmresReal3 P_GmresSafe Cgmres.

(** What the callbacks and the integrators guarantee in C++ by the size of the Eigen::Ref they write. *)
Definition cp_wf {T} (pb : cg_problem T) : Prop :=
  let n := cp_dim_x pb in let m := cp_dim_uc pb in
  (forall t x u, length x = n -> length u = m -> length (cp_f pb t x u) = n) /\
  (forall t x, length x = n -> length (cp_dphi pb t x) = n) /\
  (forall t l xu, length l = n -> length xu = (n + m)%nat -> length (cp_costate pb t l xu) = n) /\
  (forall t x u l, length x = n -> length u = m -> length l = n -> length (cp_dhdu pb t x u l) = m) /\
  length (cp_x0 pb) = n /\ length (cp_u0 pb) = m.
Definition ode_wf {T} (od : ode T) : Prop := forall f t x u dt, length (od f t x u dt) = length x.
Definition cols_ok {T} (m : nat) (us : list (vec T)) : Prop := forall u, In u us -> length u = m.

Section Run.
  Context {T : Type} {NT : Num T}.
  Variables (pb : cg_problem T) (cf : cg_conf T) (od sim_od : ode T).
  Hypothesis HW : cp_wf pb.
  Hypothesis HO : ode_wf od.
  Hypothesis HS : ode_wf sim_od.
  Notation n := (cp_dim_x pb).
  Notation m := (cp_dim_uc pb).

  Lemma euler_wf : ode_wf (@euler T NT).
  Proof using Type. intros f t x u dt. unfold euler, vadd. apply vbuild_length. Qed.
  Lemma rk4_wf : ode_wf (@rk4 T NT).
  Proof using Type. intros f t x u dt. unfold rk4, vadd at 1. apply vbuild_length. Qed.

  Lemma forward_len h : forall us tau x, length x = n -> cols_ok m us ->
    let xs := fst (forward pb od h tau x us) in length xs = S (length us) /\ forall y, In y xs -> length y = n.
  Proof using HO.
    induction us as [|u us IH]; intros tau x Hx Hu; cbn [forward]; [split; [reflexivity|]; intros y [<-|[]]; exact Hx|].
    specialize (IH (nadd tau h) (od (cp_f pb) tau x u h)). destruct (forward pb od h _ _ us) as [xs tau']. cbn [fst] in *.
    destruct IH as [L I]; [rewrite HO; exact Hx|intros v Hv; apply Hu; right; exact Hv|]. split; [cbn; f_equal; exact L|].
    intros y [<-|Hy]; [exact Hx|apply I; exact Hy].
  Qed.
  Lemma backward_len h : forall rv tau l ls ds, length l = n -> (forall p, In p rv -> length (fst p) = n /\ length (snd p) = m) -> cols_ok m ds ->
    let ds' := snd (backward pb od h tau l rv ls ds) in length ds' = (length rv + length ds)%nat /\ cols_ok m ds'.
  Proof using HW HO.
    induction rv as [|[x u] rv IH]; intros tau l ls ds Hl Hp Hd; cbn [backward]; [split; [reflexivity|exact Hd]|]. cbv zeta.
    destruct (Hp _ (or_introl eq_refl)) as [Hx Hu]. cbn [fst snd] in Hx, Hu.
    match goal with |- context [backward pb od h ?t' ?l' rv ?ls' ?ds'] => destruct (IH t' l' ls' ds') as [L C] end.
    - rewrite HO. exact Hl.
    - intros p Hin. apply Hp. right. exact Hin.
    - intros v [<-|Hv]; [apply HW; assumption|apply Hd; exact Hv].
    - split; [|exact C]. etransitivity; [exact L|]. cbn [length]. lia.
  Qed.
  Lemma in_combine {A B} (l : list A) (k : list B) p : In p (combine l k) -> In (fst p) l /\ In (snd p) k.
  Proof using Type. destruct p as [a b]. intros H. split; [eapply in_combine_l|eapply in_combine_r]; exact H. Qed.
  Lemma removelast_in {A} (l : list A) a : In a (removelast l) -> In a l.
  Proof using Type.
    induction l as [|b [|c l] IH]; intros H; [exact H|destruct H|]. change (removelast (b :: c :: l)) with (b :: removelast (c :: l)) in H.
    destruct H as [->|H]; [left; reflexivity|right; apply IH; exact H].
  Qed.
  Lemma removelast_length {A} (l : list A) : length (removelast l) = (length l - 1)%nat.
  Proof using Type. induction l as [|a [|b l] IH]; [reflexivity|reflexivity|]. change (removelast (a :: b :: l)) with (a :: removelast (b :: l)). cbn [length] in *. lia. Qed.
  Lemma last_in {A} (d : A) (l : list A) : l <> [] -> In (last l d) l.
  Proof using Type.
    induction l as [|a [|b l] IH]; intros H; [congruence|left; reflexivity|]. right. apply IH. discriminate.
  Qed.

  Lemma calc_dhdu_len t x us : length x = n -> cols_ok m us ->
    length (calc_dhdu pb cf od t x us) = length us /\ cols_ok m (calc_dhdu pb cf od t x us).
  Proof using HW HO.
    intros Hx Hu. unfold calc_dhdu, calc_all. pose proof (forward_len (horizon_step cf t) us t x Hx Hu) as HF.
    destruct (forward pb od _ t x us) as [xs tau]. cbn [fst] in HF. destruct HF as [Lx Ix].
    assert (Ll : length (cp_dphi pb tau (last xs [])) = n). { apply HW, Ix, last_in. intros ->. discriminate Lx. }
    destruct (backward_len (horizon_step cf t) (rev (combine (removelast xs) us)) tau _ [cp_dphi pb tau (last xs [])] [] Ll) as [L C].
    - intros p Hp. apply in_rev in Hp. apply in_combine in Hp as [H1 H2]. split; [apply Ix, removelast_in, H1|apply Hu, H2].
    - intros v [].
    - destruct (backward _ _ _ _ _ _ _ _) as [ls ds]. cbn [snd] in *. split; [|exact C]. etransitivity; [exact L|].
      rewrite rev_length, combine_length, removelast_length. cbn [length]. 
      replace (length xs - 1)%nat with (length us) by (rewrite Lx; lia). lia.
  Qed.
  Lemma concat_len (us : list (vec T)) : cols_ok m us -> length (concat us) = (length us * m)%nat.
  Proof using Type.
    induction us as [|u us IH]; intros H; [reflexivity|]. cbn [concat length]. rewrite app_length, IH by (intros v Hv; apply H; right; exact Hv).
    rewrite (H u (or_introl eq_refl)). lia.
  Qed.

  Lemma add_cols_len (c : T) v us : length (add_cols pb c v us) = length us.
  Proof using Type. unfold add_cols. rewrite map_length, combine_length, seq_length. lia. Qed.
  Lemma add_cols_nth c v us i : (i < length us)%nat -> nth i (add_cols pb c v us) [] = vadd (nth i us []) (vscale c (seg pb v i)).
  Proof using Type.
    intros Hi. unfold add_cols.
    rewrite nth_indep with (d' := (fun iu => vadd (snd iu) (vscale c (seg pb v (fst iu)))) (0%nat, [])).
    2:{ rewrite map_length, combine_length, seq_length. lia. }
    rewrite (map_nth (fun iu => vadd (snd iu) (vscale c (seg pb v (fst iu))))). rewrite combine_nth by apply seq_length. rewrite seq_nth by exact Hi. reflexivity.
  Qed.
  Lemma add_cols_ok c v us : cols_ok m us -> cols_ok m (add_cols pb c v us).
  Proof using Type.
    intros H u Hu. unfold add_cols in Hu. apply in_map_iff in Hu as ([i w] & <- & Hin). cbn [fst snd]. unfold vadd. rewrite vbuild_length.
    apply in_combine in Hin as [_ Hin]. apply H. exact Hin.
  Qed.

  (** Sizes of the members between two control steps. *)
  Definition sized (N : nat) (st : cg_st T) : Prop :=
    length (cs_x st) = n /\ length (cs_u st) = m /\ length (cs_u_list st) = N /\ cols_ok m (cs_u_list st) /\ length (cs_delta_u st) = (N * m)%nat.

  Definition xdelta (x next_x : vec T) : vec T :=
    vadd (vscale (nsub none (ndiv (cc_delta cf) (cc_dt cf))) x) (vscale (ndiv (cc_delta cf) (cc_dt cf)) next_x).
  (** F(t, x, U): the stacked DhDu. *)
  Definition F t x us : vec T := concat (calc_dhdu pb cf od t x us).
  Definition rhs t x next_x us : vec T :=
    vbuild (length (F t x us)) (fun i => ndiv (nsub (nmul (nsub none (nmul (cc_zeta cf) (cc_delta cf))) (vget (F t x us) i))
       (vget (F (nadd t (cc_delta cf)) (xdelta x next_x) us) i)) (cc_delta cf)).

  Lemma F_len t x us : length x = n -> cols_ok m us -> length (F t x us) = (length us * m)%nat.
  Proof using HW HO. intros Hx Hu. unfold F. destruct (calc_dhdu_len t x us Hx Hu) as [L C]. rewrite concat_len, L by exact C. reflexivity. Qed.
  Lemma xdelta_len x nx : length x = n -> length (xdelta x nx) = n.
  Proof using Type. intros H. unfold xdelta, vadd, vscale. rewrite !vbuild_length. exact H. Qed.
  Lemma amul_len td xd us dd v : length xd = n -> cols_ok m us -> length (eq_amul pb cf od td xd us dd v) = (length us * m)%nat.
  Proof using HW HO.
    intros Hx Hu. unfold eq_amul. cbv zeta. rewrite vbuild_length. change (concat (calc_dhdu pb cf od td xd ?a)) with (F td xd a).
    rewrite F_len by (auto; apply add_cols_ok; exact Hu). rewrite add_cols_len. reflexivity.
  Qed.

  (** calcControlInput returns; its effect on the members. *)
  Lemma calc_control_ok N t x next_x st : sized N st -> length x = n -> length next_x = n -> cc_num cf = Z.of_nat N -> (1 <= N)%nat -> (0 <= cc_kmax cf)%Z ->
    exists out us st', gm_solve gm_default no_lsq (eq_amul pb cf od (nadd t (cc_delta cf)) (xdelta x next_x) (cs_u_list st)
         (F (nadd t (cc_delta cf)) (xdelta x next_x) (cs_u_list st))) (rhs t x next_x (cs_u_list st)) (cs_delta_u st) (cc_kmax cf) (nlit 1 10000000000) st = Ok out st /\
      us = add_cols pb (cc_dt cf) (go_x out) (cs_u_list st) /\
      calc_control pb cf od t x next_x st = Ok (nth 0 us []) st' /\ length (go_x out) = (N * m)%nat /\
      st' = {| cs_x := cs_x st; cs_u := cs_u st; cs_t_delta := nadd t (cc_delta cf); cs_x_delta := xdelta x next_x; cs_u_list := us;
           cs_dhdu := calc_dhdu pb cf od t x (cs_u_list st); cs_dhdu_delta := calc_dhdu pb cf od (nadd t (cc_delta cf)) (xdelta x next_x) (cs_u_list st);
           cs_delta_u := go_x out; cs_log := cs_log st |}.
  Proof using HW HO.
    intros (S1 & S2 & S3 & S4 & S5) Hx Hnx HN HN1 Hk.
    destruct (C52_safe gm_default no_lsq (eq_amul pb cf od (nadd t (cc_delta cf)) (xdelta x next_x) (cs_u_list st)
         (F (nadd t (cc_delta cf)) (xdelta x next_x) (cs_u_list st))) (rhs t x next_x (cs_u_list st)) (cs_delta_u st) (N * m) (cc_kmax cf) (nlit 1 10000000000) st)
      as (out & E & L & _).
    - intros v Hv. rewrite amul_len by (auto; apply xdelta_len; exact Hx). rewrite S3. reflexivity.
    - discriminate.
    - unfold rhs. rewrite vbuild_length, F_len, S3 by auto. reflexivity.
    - exact S5.
    - exact Hk.
    - exists out, (add_cols pb (cc_dt cf) (go_x out) (cs_u_list st)). eexists. split; [exact E|]. split; [reflexivity|].
      split; [|split; [exact L|reflexivity]].
      unfold calc_control. rewrite (bind_ok get _ st st st eq_refl). cbv zeta.
      rewrite bind_guard.
      2:{ rewrite S3, HN, Z.eqb_refl. unfold vdimb. rewrite Hx, Hnx, !Nat.eqb_refl. reflexivity. }
      rewrite bind_guard by (unfold vdimb; rewrite S3, S5; apply Nat.eqb_refl).
      etransitivity; [exact (bind_ok _ _ st st out E)|].
      match goal with |- bind (put ?s) _ _ = _ => rewrite (bind_ok (put s) _ st s tt eq_refl) end.
      pose proof (add_cols_len (cc_dt cf) (go_x out) (cs_u_list st)) as La. rewrite S3 in La.
      destruct (add_cols pb (cc_dt cf) (go_x out) (cs_u_list st)) as [|u us]; [cbn in La; lia|]. reflexivity.
  Qed.

  Lemma calc_control_sized N t x next_x st u st' : sized N st -> length x = n -> length next_x = n -> cc_num cf = Z.of_nat N -> (1 <= N)%nat -> (0 <= cc_kmax cf)%Z ->
    calc_control pb cf od t x next_x st = Ok u st' -> sized N st' /\ length u = m.
  Proof using HW HO.
    intros HSz Hx Hnx HN HN1 Hk E. destruct (calc_control_ok N t x next_x st HSz Hx Hnx HN HN1 Hk) as (out & us & st1 & _ & Eus & E' & Lo & Es).
    rewrite E in E'. injection E' as -> ->. subst st1. destruct HSz as (S1 & S2 & S3 & S4 & S5).
    assert (Lu : length us = N) by (subst us; rewrite add_cols_len; exact S3). assert (Cu : cols_ok m us) by (subst us; apply add_cols_ok; exact S4).
    split; [split; [exact S1|split; [exact S2|split; [exact Lu|split; [exact Cu|exact Lo]]]]|].
    apply Cu. apply nth_In. rewrite Lu. lia.
  Qed.

  (** setup returns. *)
  Lemma newton_ok {S} x lmd (s : S) : length x = n -> length lmd = n -> forall k u du dh, length u = m -> length du = m -> length dh = m ->
    exists u' dh', newton pb cf k x lmd u du dh s = Ok (u', dh') s /\ length u' = m /\ length dh' = m.
  Proof using HW.
    intros Hx Hl. induction k as [|k IH]; intros u du dh Hu Hd Hh; [exists u, dh; repeat split; assumption|]. cbn [newton]. cbv zeta.
    assert (Ld : length (cp_dhdu pb nzero x u lmd) = m) by (apply HW; assumption).
    destruct (_ <=? _)%num; [eexists _, _; split; [reflexivity|split; assumption]|].
    rewrite bind_guard by (unfold vdimb; rewrite Hu; apply Nat.eqb_refl).
    destruct (C52_safe gm_default no_lsq (su_amul pb cf x lmd u (cp_dhdu pb nzero x u lmd)) (vopp (cp_dhdu pb nzero x u lmd)) du m (Z.of_nat m) (nlit 1 10000000000) s)
      as (out & E & L & _).
    - intros v Hv. unfold su_amul. cbv zeta. rewrite vbuild_length. apply HW; auto. unfold vadd. rewrite vbuild_length. exact Hu.
    - discriminate.
    - unfold vopp. rewrite vbuild_length. exact Ld.
    - exact Hd.
    - lia.
    - rewrite (bind_ok _ _ s s out E). apply IH; auto. unfold vadd. rewrite vbuild_length. exact Hu.
  Qed.
  Lemma setup_ok N st : cc_num cf = Z.of_nat N ->
    exists u dh st', newton pb cf 100 (cp_x0 pb) (cp_dphi pb nzero (cp_x0 pb)) (cp_u0 pb) (vzero m) (vzero m) st = Ok (u, dh) st /\
      setup pb cf st = Ok tt st' /\ sized N st' /\
      st' = {| cs_x := cp_x0 pb; cs_u := u; cs_t_delta := cs_t_delta st; cs_x_delta := vzero n; cs_u_list := repeat u N;
           cs_dhdu := repeat dh N; cs_dhdu_delta := repeat (vzero m) N; cs_delta_u := vzero (N * m)%nat; cs_log := cs_log st |}.
  Proof using HW.
    intros HN. pose proof HW as (_ & W2 & _ & _ & W5 & W6).
    destruct (newton_ok (cp_x0 pb) (cp_dphi pb nzero (cp_x0 pb)) st W5 (W2 _ _ W5) 100 (cp_u0 pb) (vzero m) (vzero m) W6 (vbuild_length _ _) (vbuild_length _ _))
      as (u & dh & E & Lu & Ld).
    exists u, dh. eexists. split; [exact E|]. split; [|split; [|reflexivity]].
    - unfold setup. rewrite (bind_ok get _ st st st eq_refl). cbv zeta.
      etransitivity; [exact (bind_ok _ _ st st (u, dh) E)|]. cbn [fst snd]. 
      rewrite bind_guard by (rewrite HN; apply Z.leb_le; lia). rewrite HN, Nat2Z.id.
      rewrite bind_guard by (unfold vdimb; rewrite Lu, Nat.eqb_refl; apply orb_true_r). reflexivity.
    - repeat split; cbn [cs_x cs_u cs_u_list cs_delta_u]; auto; [apply repeat_length| |apply vbuild_length].
      intros v Hv. apply repeat_spec in Hv. subst v. exact Lu.
  Qed.

  (** ** run *)
  (** The times of the loop. *)
  Definition time (k : nat) : T := Nat.iter k (fun t => nadd t (cc_dt cf)) nzero.
End Run.
