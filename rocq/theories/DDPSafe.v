(** Absence of undefined behaviour in DDPSolver::solve, for every scalar type. *)
From Verif Require Import Prelude Scalar LinAlg BoxQP BoxQPProofs DDP DDPSpec DDPProofs.

Lemma wp_conj2 {S A} U1 U2 (m : M S A) (Q1 Q2 : A -> S -> Prop) (E1 E2 : exn -> S -> Prop) s :
  wp U1 m Q1 E1 s -> wp U2 m Q2 E2 s ->
  wp (U1 /\ U2) m (fun a s' => Q1 a s' /\ Q2 a s') (fun e s' => E1 e s' /\ E2 e s') s.
Proof. unfold wp; destruct (m s); auto. Qed.
Lemma wp_safe {S A} (m : M S A) (Q1 Q2 : A -> S -> Prop) (E1 E2 : exn -> S -> Prop) s :
  wp True m Q1 E1 s -> wp False m Q2 E2 s ->
  wp False m (fun a s' => Q1 a s' /\ Q2 a s') (fun e s' => E1 e s' /\ E2 e s') s.
Proof. unfold wp; destruct (m s); auto. Qed.

(** Discharges "index in range" side conditions. *)
Ltac inb :=
  intros Einb; exfalso;
  repeat match goal with
  | H : cd_setx _ _ _ = Some _ |- _ => apply cd_setx_inv in H as (? & ? & ->)
  | H : cd_setu _ _ _ = Some _ |- _ => apply cd_setu_inv in H as (? & ? & ->)
  | H : cd_setc _ _ _ = Some _ |- _ => apply cd_setc_inv in H as (? & ? & ->)
  end;
  repeat match goal with H : upd _ _ _ = Some _ |- _ => apply upd_length in H end;
  unfold cd_setx, cd_setu, cd_setc in Einb; cbn -[nth_error upd resize] in *;
  repeat match goal with H : context [length (resize _ _ _)] |- _ => rewrite resize_length in H end;
  match type of Einb with
  | option_map _ (upd ?l ?i ?v) = None => destruct (upd_some l i v) as [l' E']; [rewrite ?resize_length; lia|rewrite E' in Einb; discriminate]
  | upd ?l ?i ?v = None => destruct (upd_some l i v) as [l' E']; [lia|rewrite E' in Einb; discriminate]
  | nth_error _ _ = None => apply nth_error_None in Einb; rewrite ?resize_length in Einb; lia
  end.

Section Dims.
  Context {T : Type} {N : Num T}.

  (** Sizes of the outputs of the derivative callbacks (Derivative(state_dim, input_dim), DDPSolver.h:126-176). *)
  Definition deriv_ok (nx nu : nat) (d : deriv T) : Prop :=
    mdimb nx nx (dFx d) = true /\ mdimb nx nu (dFu d) = true /\ length (dLx d) = nx /\ length (dLu d) = nu /\
    mdimb nx nx (dLxx d) = true /\ mdimb nu nu (dLuu d) = true /\ mdimb nx nu (dLxu d) = true.

  (** Input dimension at time [t]. *)
  Definition nu_of (pb : problem T) (t : T) : nat :=
    match pb_fixed_nu pb with Some nu => nu | None => Z.to_nat (pb_inputDim pb t) end.

  (** Callbacks return values of the right size when given arguments of the right size. *)
  Record well_dimensioned (pb : problem T) : Prop := {
    wd_state : forall t x u, length x = pb_nx pb -> length u = nu_of pb t -> length (pb_stateEq pb t x u) = pb_nx pb;
    wd_sd : forall t x u A B, length x = pb_nx pb -> length u = nu_of pb t ->
      mdimb (pb_nx pb) (pb_nx pb) A = true -> mdimb (pb_nx pb) (nu_of pb t) B = true ->
      let r := pb_stateEqDeriv pb t x u (A, B) in
      mdimb (pb_nx pb) (pb_nx pb) (fst r) = true /\ mdimb (pb_nx pb) (nu_of pb t) (snd r) = true;
    wd_sd2 : forall t x u A B, length x = pb_nx pb -> length u = nu_of pb t ->
      mdimb (pb_nx pb) (pb_nx pb) A = true -> mdimb (pb_nx pb) (nu_of pb t) B = true ->
      let r := pb_stateEqDeriv2 pb t x u (A, B) in
      mdimb (pb_nx pb) (pb_nx pb) (fst r) = true /\ mdimb (pb_nx pb) (nu_of pb t) (snd r) = true;
    wd_cd : forall t x u d A B, length x = pb_nx pb -> length u = nu_of pb t -> deriv_ok (pb_nx pb) (nu_of pb t) d ->
      mdimb (pb_nx pb) (pb_nx pb) A = true -> mdimb (pb_nx pb) (nu_of pb t) B = true ->
      let '(Lx, Lu, Lxx, Luu, Lxu) := pb_runningCostDeriv pb t x u (dLx d, dLu d, dLxx d, dLuu d, dLxu d) in
      deriv_ok (pb_nx pb) (nu_of pb t)
        {| dFx := A; dFu := B; dLx := Lx; dLu := Lu; dLxx := Lxx; dLuu := Luu; dLxu := Lxu |};
    wd_td : forall t x v A, length x = pb_nx pb -> length v = pb_nx pb -> mdimb (pb_nx pb) (pb_nx pb) A = true ->
      let r := pb_terminalCostDeriv pb t x (v, A) in
      length (fst r) = pb_nx pb /\ mdimb (pb_nx pb) (pb_nx pb) (snd r) = true
  }.

  (** Results of a factorisation have the size of the right-hand side. *)
  Record llt_dims (LL : lltops T) : Prop := {
    ld_vec : forall A n b, mdimb n n A = true -> length b = n -> length (llt_solve LL A b) = n;
    ld_mat : forall A n m B, mdimb n n A = true -> mdimb n m B = true -> mdimb n m (llt_solve_mat LL A B) = true
  }.
  Lemma mdimb_r r c (A : mat T) : mdimb r c A = true -> mrows A = r.
  Proof. intros H. apply mdimb_spec in H. apply H. Qed.
  Lemma mdimb_c r c (A : mat T) : mdimb r c A = true -> mcols A = c.
  Proof. intros H. apply mdimb_spec in H. apply H. Qed.
End Dims.

Section Safe.
  Context {T : Type} {N : Num T} (LL : lltops T).
  Variables (pb : problem T) (cf : config T) (limits : option (T -> vec T * vec T)) (jk : junk T).
  Variables (t0 : T) (x0 : vec T).
  Notation nx := (pb_nx pb).
  Notation Nn := (N_ cf).
  Notation nuat i := (nu_of pb (tm pb t0 i)).
  Hypothesis WD : well_dimensioned pb.
  Hypothesis LD : llt_dims LL.
  (** A limits function is set and returns vectors of the right size when constraints are on. *)
  Definition limits_ok : Prop := cf_constraint cf = true ->
    exists f, limits = Some f /\ forall t, length (fst (f t)) = nu_of pb t /\ length (snd (f t)) = nu_of pb t.
  Hypothesis LO : limits_ok.

  Definition cd_ok (c : cdata T) : Prop :=
    length (cd_x c) = Nn + 1 /\ (forall i x, nth_error (cd_x c) i = Some x -> length x = nx) /\
    length (cd_u c) = Nn /\ (forall i u, nth_error (cd_u c) i = Some u -> length u = nuat i) /\
    length (cd_cost c) = Nn + 1.

  Lemma rollout_dims c : is_rollout pb t0 x0 Nn c -> length x0 = nx ->
    (forall i u, nth_error (cd_u c) i = Some u -> length u = nuat i) -> cd_ok c.
  Proof.
    intros [Lx Lu Lc X0 St En] H0 Hu. split; [auto|]. split; [|split; [auto|split; [exact Hu|auto]]].
    induction i as [|i IH]; intros x Hx.
    - rewrite X0 in Hx. injection Hx as <-. exact H0.
    - assert (Hi : S i < Nn + 1) by (rewrite <- Lx; apply nth_error_Some; congruence).
      destruct (St i) as (y & u & H1 & H2 & H3 & H4); [lia|].
      replace (i + 1) with (S i) in H3 by lia. rewrite Hx in H3. injection H3 as ->.
      apply (wd_state pb WD); [apply IH; exact H1|apply (Hu i); exact H2].
  Qed.

  Record sinv (s : ddp T) : Prop := {
    si_t : s_t s = t0;
    si_cd : cd_ok (s_cd s);
    si_cand : cand_lens cf (s_cand s);
    si_k : length (s_k s) = Nn;
    si_K : length (s_K s) = Nn;
    si_ld : length (s_deriv s) = Nn;
    si_d : forall i d, nth_error (s_deriv s) i = Some d -> deriv_ok nx (nuat i) d;
    si_Vx : length (s_Vx s) = nx;
    si_Vxx : mdimb nx nx (s_Vxx s) = true
  }.
  (** The gains from step [i] on have the right size. *)
  Definition gains_from (i : nat) (s : ddp T) : Prop :=
    forall j, i <= j < Nn -> exists k K, nth_error (s_k s) j = Some k /\ nth_error (s_K s) j = Some K /\
      length k = nuat j /\ mdimb (nuat j) nx K = true.

  Lemma some_nth {A} (l : list A) i : i < length l -> exists a, nth_error l i = Some a.
  Proof. intros H. destruct (nth_error l i) eqn:E; eauto. apply nth_error_None in E. lia. Qed.

  (** *** Forward pass *)
  Lemma forwardPass_safe alpha s : sinv s -> gains_from 0 s ->
    wp False (forwardPass pb cf alpha) (fun _ _ => True) (fun _ _ => False) s.
  Proof.
    intros [Ht (Lx & Hx & Lu & Hu & Lc) (Cx & Cu & Cc) Lk LK Ld Hd HV HVV] Hg. unfold forwardPass.
    wp1. wp1. wp1. wp1. wp1.
    2:inb.
    rename v into y0. wp1. wp1.
    2:inb.
    apply cd_setx_inv in Hm0 as (l & Ul & ->).
    repeat wp1.
    eapply wp_conseq.
    - apply (wp_for_up False (fun i s' => exists c, s' = set_cand c s /\ cand_lens cf c /\
                          forall j x, j <= i -> nth_error (cd_x c) j = Some x -> length x = nx)).
      + intros i s' Hi (c & -> & (Kx & Ku & Kc) & Hxc). unfold fw_body.
        destruct (some_nth (cd_u (s_cd s)) i) as [u Eu]; [lia|].
        destruct (some_nth (cd_x (s_cd s)) i) as [x Ex]; [lia|].
        destruct (some_nth (cd_x c) i) as [xc Exc]; [lia|].
        destruct (Hg i) as (k & K & Ek & EK & Dk & DK); [lia|].
        wp1. wp1. cbn [set_cand s_cd s_cand s_k s_K s_t]. rewrite Eu, Ek, EK, Exc, Ex. cbn [must].
        repeat wp1; [|try inb..].
        2:{ intros E. apply not_true_iff_false in E. apply E.
            unfold vdimb. rewrite (Hu i u Eu), (Hx i x Ex), Dk, DK, (Hxc i xc (le_n i) Exc).
            rewrite !Nat.eqb_refl. reflexivity. }
        match goal with H : cd_setu _ _ _ = Some _ |- _ => apply cd_setu_inv in H as (lu & Uu & ->) end.
        match goal with H : cd_setx _ _ _ = Some _ |- _ => apply cd_setx_inv in H as (lx & Ux & ->) end.
        match goal with H : cd_setc _ _ _ = Some _ |- _ => apply cd_setc_inv in H as (lc & Uc & ->) end.
        cbn -[nth_error upd] in *.
        eexists; split; [reflexivity|]. split.
        * unfold cand_lens; cbn. rewrite (upd_length _ _ _ _ Uu), (upd_length _ _ _ _ Ux), (upd_length _ _ _ _ Uc). auto.
        * cbn. intros j y Hj Hy. rewrite (upd_nth _ _ _ _ j Ux) in Hy. destruct (Nat.eqb j (i + 1)) eqn:Ej.
          { injection Hy as <-. rewrite Ht. apply (wd_state pb WD); [apply (Hxc i xc (le_n i) Exc)|].
            unfold vadd. rewrite !vbuild_length. apply (Hu i u Eu). }
          { apply Nat.eqb_neq in Ej. apply (Hxc j); [lia|exact Hy]. }
      + eexists; split; [reflexivity|]. split.
        * unfold cand_lens; cbn. rewrite (upd_length _ _ _ _ Ul). auto.
        * cbn. intros j x Hj Hxj. replace j with 0 in Hxj by lia. rewrite (nth_upd_eq _ _ _ _ Ul) in Hxj.
          injection Hxj as <-. apply (Hx 0). exact Hm.
    - intros _ s' (c & -> & (Kx & Ku & Kc) & Hxc). repeat wp1; [exact I|inb..].
    - intros e s' He; exact He.
  Qed.

  (** *** Gains *)
  Lemma qterms_dims d Vx Vxx l nu : deriv_ok nx nu d -> length Vx = nx -> mdimb nx nx Vxx = true ->
    let q := q_of cf d Vx Vxx l in
    length (qQu q) = nu /\ length (qQx q) = nx /\ mdimb nu nx (qQux q) = true /\ mdimb nu nu (qQuu q) = true /\
    mdimb nx nx (qQxx q) = true /\ mdimb nu nx (qQux_reg q) = true /\ mdimb nu nu (qQuu_F q) = true.
  Proof.
    intros (H1 & H2 & H3 & H4 & H5 & H6 & H7) HV HVV. cbn.
    unfold vadd, madd, mtr. rewrite !vbuild_length. cbn [mrows mcols mbuild].
    rewrite (mdimb_r _ _ _ H6), (mdimb_c _ _ _ H6), (mdimb_r _ _ _ H5), (mdimb_c _ _ _ H5), (mdimb_r _ _ _ H7), (mdimb_c _ _ _ H7).
    repeat split; auto; try apply mbuild_dim.
    destruct (cf_reg_type cf =? 1)%Z; [unfold mdiagadd; cbn [mrows mcols mbuild]|]; apply mbuild_dim.
  Qed.

  Lemma gains_safe fuel i d q s nu :
    sinv s -> i < Nn -> nu = nuat i -> deriv_ok nx nu d ->
    length (qQu q) = nu -> mdimb nu nx (qQux_reg q) = true -> mdimb nu nu (qQuu_F q) = true ->
    wp False (gains LL pb cf limits fuel i (tm pb t0 i) d q)
       (fun r s' => s' = s /\ forall k K, r = Some (k, K) -> length k = nu /\ mdimb nu nx K = true) (fun _ _ => False) s.
  Proof.
    intros [Ht (Lx & Hx & Lu & Hu & Lc) (Cx & Cu & Cc) Lk LK Ld Hd HV HVV] Hi -> Hdd Hq1 Hq2 Hq3. unfold gains.
    destruct Hdd as (_ & HFu & _).
    rewrite (mdimb_c _ _ _ HFu).
    destruct (Nat.ltb 0 (nuat i)) eqn:Enu.
    2:{ apply Nat.ltb_ge in Enu. wp1. split; [reflexivity|]. intros k K E. injection E as <- <-.
        replace (nuat i) with 0 by lia. split; [reflexivity|]. apply mbuild_dim. }
    apply Nat.ltb_lt in Enu.
    destruct (cf_constraint cf) eqn:Ec.
    - wp1. wp1. wp1.
      eapply (wp_conseq _ _ (fun ik s' => s' = s /\ length ik = nuat i) _ (fun _ _ => False)).
      { destruct (Nat.eqb (i + 1) Nn) eqn:E; [wp1; split; [reflexivity|apply vbuild_length]|].
        apply Nat.eqb_neq in E. wp1. wp1.
        2:{ intros E'. apply nth_error_None in E'. lia. }
        wp1. split; [reflexivity|]. destruct (Nat.eqb (length v) (nuat i)) eqn:E'; [apply Nat.eqb_eq; exact E'|apply vbuild_length]. }
      2: intros e s' [].
      intros ik s' [-> Hik]. wp1.
      rewrite (mdimb_c _ _ _ Hq3). unfold qp_ctor.
      replace (Z.of_nat (nuat i) <=? 0)%Z with false by (symmetry; apply Z.leb_gt; lia).
      wp1. rewrite Nat2Z.id. wp1.
      destruct (LO Ec) as (f & Hf & Hfl). rewrite Hf. wp1.
      destruct (some_nth (cd_u (s_cd s)) i) as [u Eu]; [lia|]. rewrite Eu. cbn [must]. wp1. wp1. wp1.
      destruct (Hfl (tm pb t0 i)) as [F1 F2]. pose proof (Hu i u Eu) as Hul.
      wp1.
      2:{ intros E. apply not_true_iff_false in E. apply E. unfold vdimb. rewrite F1, F2, Hul, !Nat.eqb_refl. reflexivity. }
      wp1.
      eapply wp_conseq; [apply (qp_solve_spec LL _ _ _ _ _ _ False (fun _ _ => False))| |intros e s' []].
      { intros E. apply not_true_iff_false in E. apply E. unfold vdimb. unfold vsub.
        rewrite !vbuild_length, F1, F2, Hq1, Hq3, Hik, !Nat.eqb_refl. reflexivity. }
      intros out s' (-> & [Rx Rr Rs Rg Rl Rok _ _ _] & _).
      destruct Rx as (v & Hv & Ev).
      destruct (qo_retval out <? 0)%Z eqn:Er.
      + replace (existsb (Z.eqb (qo_retval out)) qp_retstr_keys) with true.
        2:{ symmetry. apply existsb_exists. exists (qo_retval out). split; [|apply Z.eqb_refl]. cbn in *; intuition. }
        rewrite andb_false_r. wp1. split; [reflexivity|discriminate].
      + destruct (Nat.ltb 0 (length (qo_free out))) eqn:Ef.
        * apply Nat.ltb_lt in Ef. destruct Rl as [Rl|Rl]; [rewrite Rl in Ef; cbn in Ef; lia|].
          rewrite Rl. cbn [must]. wp1. wp1. wp1. wp1.
          2:{ intros E. apply not_true_iff_false in E. apply E. cbn [mgather mrows]. rewrite Nat.eqb_refl. cbn [andb].
              apply forallb_forall. intros j Hj. rewrite Forall_forall in Rg. apply Nat.ltb_lt. apply Rg; exact Hj. }
          wp1. split; [reflexivity|]. intros k K E. injection E as <- <-. split.
          { rewrite Ev, qp_clip_length. exact Hv. }
          { unfold constrained_K. apply mbuild_dim. }
        * wp1. split; [reflexivity|]. intros k K E. injection E as <- <-. split.
          { rewrite Ev, qp_clip_length. exact Hv. }
          { apply mbuild_dim. }
    - destruct (llt_issue LL (qQuu_F q)); wp1; (split; [reflexivity|]); [discriminate|].
      intros k K E. injection E as <- <-. unfold vscale, mscale. rewrite vbuild_length. split.
      + apply (ld_vec LL LD); auto.
      + pose proof (ld_mat LL LD _ _ _ _ Hq3 Hq2) as H. rewrite (mdimb_r _ _ _ H), (mdimb_c _ _ _ H). apply mbuild_dim.
  Qed.

  Lemma sinv_frame s s' : bw_frame s s' -> sinv s -> sinv s'.
  Proof.
    intros (ks & Ks & a & b & -> & H1 & H2) [A B C D E F G H I]. split; cbn; auto; lia.
  Qed.

  Lemma bw_step_safe fuel i Vx Vxx s : sinv s -> i < Nn -> gains_from (S i) s -> length Vx = nx -> mdimb nx nx Vxx = true ->
    wp False (bw_step LL pb cf limits fuel i Vx Vxx)
       (fun r s' => sinv s' /\ forall Vx' Vxx', r = Some (Vx', Vxx') -> gains_from i s' /\ length Vx' = nx /\ mdimb nx nx Vxx' = true)
       (fun e s' => e = RuntimeError /\ cf_second cf = true /\ sinv s') s.
  Proof.
    intros Hs Hi Hg HV HVV. pose proof Hs as Hs0. destruct Hs as [Ht _ _ Lk LK Ld Hd _ _]. unfold bw_step.
    wp1. wp1. wp1.
    destruct (some_nth (s_deriv s) i) as [d Ed]; [lia|]. rewrite Ed. cbn [must]. wp1.
    pose proof (Hd i d Ed) as Hdd.
    pose proof Hdd as (H1 & H2 & H3 & H4 & H5 & H6 & H7).
    wp1. wp1.
    2:{ intros E. apply not_true_iff_false in E. apply E. unfold deriv_dims, vdimb. rewrite (mdimb_c _ _ _ H2).
        rewrite HVV, H1, H2, H5, H6, H7, HV, H3, H4, !Nat.eqb_refl. reflexivity. }
    destruct (cf_second cf) eqn:Es; [wp1; auto|].
    rewrite Ht. destruct (qterms_dims d Vx Vxx (s_lambda s) (nuat i) Hdd HV HVV) as (D1 & D2 & D3 & D4 & D5 & D6 & D7).
    wp1. eapply wp_conseq; [apply (gains_safe fuel i d (q_of cf d Vx Vxx (s_lambda s)) s (nuat i)); auto| |intros e s' []].
    intros r s' [-> Hr]. destruct r as [[k K]|].
    2:{ wp1. split; [exact Hs0|discriminate]. }
    destruct (Hr k K eq_refl) as [Dk DK].
    wp1. wp1.
    2:{ intros E. apply not_true_iff_false in E. apply E. rewrite (mdimb_c _ _ _ H2). unfold vdimb. rewrite Dk, DK, Nat.eqb_refl. reflexivity. }
    wp1. wp1. destruct (v_update _ _ _) as [Vx' Vxx'] eqn:Ev.
    wp1. wp1.
    2:{ destruct (upd_some (s_k s) i k) as [l' E]; [lia|]. rewrite E; discriminate. }
    wp1. wp1.
    2:{ destruct (upd_some (s_K s) i K) as [l' E]; [lia|]. rewrite E; discriminate. }
    repeat wp1. split.
    - eapply sinv_frame; [|exact Hs0]. eexists _, _, _, _. split; [reflexivity|].
      split; [apply (upd_length _ _ _ _ Hm)|apply (upd_length _ _ _ _ Hm0)].
    - intros Wx Wxx E. injection E as <- <-. split.
      + intros j Hj. cbn. destruct (Nat.eq_dec j i) as [->|Hji].
        * exists k, K. rewrite (nth_upd_eq _ _ _ _ Hm), (nth_upd_eq _ _ _ _ Hm0). auto.
        * rewrite (nth_upd_ne _ _ _ _ _ Hm), (nth_upd_ne _ _ _ _ _ Hm0) by lia. apply Hg. lia.
      + unfold v_update in Ev. injection Ev as <- <-. unfold vadd, mscale, madd. rewrite !vbuild_length. split; [exact H3|].
        cbn [mrows mcols mbuild mtr]. rewrite ?(mdimb_r _ _ _ H5), ?(mdimb_c _ _ _ H5). apply mbuild_dim.
  Qed.

  Lemma bw_loop_safe fuel n : forall Vx Vxx s, n <= Nn -> sinv s -> gains_from n s -> length Vx = nx -> mdimb nx nx Vxx = true ->
    wp False (bw_loop LL pb cf limits fuel n Vx Vxx)
       (fun b s' => sinv s' /\ (b = true -> gains_from 0 s'))
       (fun e s' => e = RuntimeError /\ cf_second cf = true /\ sinv s') s.
  Proof.
    induction n as [|i IH]; intros Vx Vxx s Hn Hs Hg HV HVV; cbn [bw_loop]; [wp1; auto|].
    wp1. eapply wp_conseq; [apply bw_step_safe; auto; lia| |auto].
    intros [[Vx' Vxx']|] s' (Hs' & Hr); [|wp1; split; [exact Hs'|discriminate]].
    destruct (Hr _ _ eq_refl) as (Hg' & HV' & HVV'). apply IH; auto; lia.
  Qed.

  Lemma backwardPass_safe fuel s : sinv s ->
    wp False (backwardPass LL pb cf limits fuel) (fun b s' => sinv s' /\ (b = true -> gains_from 0 s'))
       (fun e s' => e = RuntimeError /\ cf_second cf = true /\ sinv s') s.
  Proof.
    intros Hs. unfold backwardPass. repeat wp1.
    apply bw_loop_safe; auto; try apply Hs.
    - destruct Hs; split; cbn; auto.
    - intros j Hj; lia.
  Qed.

  Lemma bw_retry_safe fuel qfuel : forall s, sinv s ->
    wp False (bw_retry LL pb cf limits fuel qfuel) (fun b s' => sinv s' /\ (b = true -> gains_from 0 s'))
       (fun e s' => e = RuntimeError /\ cf_second cf = true /\ sinv s') s.
  Proof.
    induction fuel as [|f IH]; intros s Hs; cbn [bw_retry]; [exact I|].
    wp1. eapply wp_conseq; [apply backwardPass_safe; exact Hs| |auto].
    intros b s' [Hs' Hb]. destruct b; [wp1; auto|].
    repeat wp1.
    assert (Hi : sinv (inc_lambda cf s')) by (destruct Hs'; split; cbn; auto).
    match goal with |- wp _ (if ?c then _ else _) _ _ _ => destruct c end.
    - wp1. split; [exact Hi|discriminate].
    - apply IH. exact Hi.
  Qed.

  (** *** Line search and iteration *)
  Lemma candidate_ok s c alpha : sinv s -> length x0 = nx -> is_candidate pb t0 x0 Nn (s_cd s) (gpass s) alpha c -> cd_ok c.
  Proof.
    intros Hs H0 [Hr Hc]. apply rollout_dims; auto. intros i u Hu.
    assert (Hi : i < Nn) by (rewrite <- (ro_lu _ _ _ _ _ Hr); apply nth_error_Some; congruence).
    destruct (Hc i Hi) as (x & v & x' & k & K & A1 & A2 & A3 & A4 & A5 & A7 & A8 & A9 & A6). rewrite Hu in A6. injection A6 as ->.
    unfold vadd. rewrite !vbuild_length. apply (si_cd _ Hs). exact A2.
  Qed.

  Lemma line_search_safe alphas : forall al ac ex ra s,
    sinv s -> is_rollout pb t0 x0 Nn (s_cd s) -> length x0 = nx -> gains_from 0 s ->
    wp False (line_search pb cf alphas al ac ex ra)
       (fun r s' => sinv s' /\ (fst (fst (fst (fst r))) = true -> cd_ok (s_cand s')))
       (fun _ _ => False) s.
  Proof.
    induction alphas as [|a rest IH]; intros al ac ex ra s Hs Hro H0 Hg; cbn [line_search].
    - wp1. split; [exact Hs|discriminate].
    - wp1. eapply wp_conseq;
        [apply wp_safe; [apply (forwardPass_spec pb cf a t0 x0 s (si_t _ Hs) Hro (si_cand _ Hs))|apply (forwardPass_safe a s Hs Hg)]| |intros e s' [[] _]].
      intros _ s' ((c & -> & Hr) & _). repeat wp1. cbv zeta.
      pose proof (candidate_ok _ _ _ Hs H0 Hr) as Hc.
      assert (Hs' : sinv (set_cand c s)).
      { destruct Hs; split; cbn; auto. apply (rollout_lens pb cf t0 x0). apply Hr. }
      match goal with |- wp _ (if ?c then _ else _) _ _ _ => destruct c end.
      + wp1. split; [exact Hs'|]. intros _; exact Hc.
      + apply IH; auto.
  Qed.

  Lemma deriv_loop_safe s : sinv s ->
    wp False (for_up Nn (deriv_body pb cf)) (fun _ s' => sinv s') (fun _ _ => False) s.
  Proof.
    intros Hs. apply (wp_for_up False (fun _ s' => sinv s')); [|exact Hs]. clear s Hs.
    intros i s Hi Hs. pose proof Hs as [Ht (Lx & Hx & Lu & Hu & Lc) _ _ _ Ld Hd _ _]. unfold deriv_body.
    destruct (some_nth (cd_u (s_cd s)) i) as [u Eu]; [lia|].
    destruct (some_nth (cd_x (s_cd s)) i) as [x Ex]; [lia|].
    destruct (some_nth (s_deriv s) i) as [d Ed]; [lia|].
    wp1. wp1. rewrite Ed, Ex, Eu, Ht. cbn [must]. wp1. wp1. wp1. wp1. wp1. wp1.
    pose proof (Hd i d Ed) as Hdd. pose proof Hdd as (H1 & H2 & _).
    set (r := if cf_second cf then _ else _).
    assert (Hr : mdimb nx nx (fst r) = true /\ mdimb nx (nuat i) (snd r) = true).
    { unfold r. destruct (cf_second cf); [apply (wd_sd2 pb WD)|apply (wd_sd pb WD)]; auto; try (apply (Hx i); exact Ex); apply (Hu i); exact Eu. }
    destruct r as [Fx Fu]. cbn in Hr. destruct Hr as [R1 R2].
    pose proof (wd_cd pb WD (tm pb t0 i) x u d Fx Fu (Hx i x Ex) (Hu i u Eu) Hdd R1 R2) as Hc.
    destruct (pb_runningCostDeriv _ _ _ _ _) as [[[[Lx' Lu'] Lxx'] Luu'] Lxu'].
    wp1. wp1.
    2:{ intros E. match type of E with upd ?l ?i ?v = None => destruct (upd_some l i v) as [l' E']; [lia|] end. congruence. }
    wp1. destruct Hs; split; cbn; auto.
    - rewrite (upd_length _ _ _ _ Hm). exact Ld.
    - intros j e He. rewrite (upd_nth _ _ _ _ j Hm) in He. destruct (Nat.eqb j i) eqn:Ej; [|apply Hd; exact He].
      apply Nat.eqb_eq in Ej. subst j. injection He as <-. exact Hc.
  Qed.

  Lemma procOnce_safe fuel qfuel it s : sinv s -> is_rollout pb t0 x0 Nn (s_cd s) -> length x0 = nx ->
    wp False (procOnce LL pb cf limits fuel qfuel it) (fun _ s' => sinv s')
       (fun e s' => e = RuntimeError /\ cf_second cf = true /\ sinv s') s.
  Proof.
    intros Hs Hro H0. unfold procOnce. wp1. wp1.
    assert (Hs1 : sinv (set_trace (s_trace s ++ [trace0 it]) s)) by (destruct Hs; split; cbn; auto).
    wp1. eapply wp_conseq; [apply wp_safe; [apply deriv_loop_frame|apply deriv_loop_safe; exact Hs1]| |intros e s' [[] _]].
    intros _ s1 [(ds & -> & _) Hs2]. wp1. wp1. wp1.
    destruct (si_cd _ Hs2) as (Lx & Hx & _). 
    destruct (some_nth (cd_x (s_cd (set_deriv ds (set_trace (s_trace s ++ [trace0 it]) s)))) Nn) as [xN ExN]; [lia|].
    rewrite ExN. cbn [must]. wp1.
    pose proof (wd_td pb WD (tm pb (s_t (set_deriv ds (set_trace (s_trace s ++ [trace0 it]) s))) Nn) xN _ _ (Hx _ _ ExN) (si_Vx _ Hs2) (si_Vxx _ Hs2)) as Htd.
    destruct (pb_terminalCostDeriv _ _ _ _) as [Vx Vxx]. cbn in Htd. destruct Htd as [T1 T2].
    wp1. wp1. wp1.
    set (s2 := set_lastV Vx Vxx _).
    assert (Hs3 : sinv s2) by (destruct Hs2; split; cbn; auto).
    eapply wp_conseq; [apply wp_safe; [apply bw_retry_frame|apply bw_retry_safe; exact Hs3]| |intros e s' [_ He]; exact He].
    intros b s3 [(ks & Ks & a & b' & l & dl & -> & _) [Hs4 Hb]].
    destruct b; cbn [negb]; [|wp1; exact Hs4]. specialize (Hb eq_refl).
    wp1. wp1. wp1.
    match goal with |- wp _ (must (k_rel_norm_from _ _ _ ?st)) _ _ _ => set (s4 := st) in * end.
    wp1.
    2:{ intros E. assert (G : forall n i acc, i + n <= Nn -> k_rel_norm_from i n acc s4 <> None).
        { induction n as [|n IH]; intros i acc Hin; cbn [k_rel_norm_from]; [discriminate|].
          destruct (some_nth (s_k s4) i) as [k Ek]; [rewrite (si_k _ Hs4); lia|].
          destruct (some_nth (cd_u (s_cd s4)) i) as [u Eu]; [destruct (si_cd _ Hs4) as (_ & _ & Lu & _); lia|].
          rewrite Ek, Eu. apply IH. lia. }
        apply (G Nn 0 nzero); [lia|exact E]. }
    rename v into krn. wp1. wp1.
    assert (Hs5 : sinv (set_trace (upd_last (tr_set_krel krn) (s_trace s4)) s4)) by (destruct Hs4; split; cbn; auto).
    match goal with |- wp _ (if ?c then _ else _) _ _ _ => destruct c end; [wp1; exact Hs5|].
    wp1. eapply wp_conseq; [apply (line_search_safe _ _ _ _ _ _ Hs5)| |intros e s' []].
    - exact Hro.
    - exact H0.
    - exact Hb.
    - intros [[[[succ al'] ac'] ex'] ra'] s' [Hs' Hc]. cbn in Hc. repeat wp1.
      match goal with |- wp _ _ _ _ ?st => assert (Hs6 : sinv st) by (destruct Hs'; split; cbn; auto) end.
      unfold accept. destruct succ.
      + repeat wp1. specialize (Hc eq_refl). destruct Hs6; split; cbn; auto.
      + repeat wp1. destruct Hs6; split; cbn; auto.
  Qed.

  Lemma opt_loop_safe fuel qfuel n : forall it s, sinv s -> inv pb cf t0 x0 s -> length x0 = nx ->
    wp False (opt_loop LL pb cf limits fuel qfuel n it) (fun _ s' => sinv s')
       (fun e s' => e = RuntimeError /\ cf_second cf = true /\ sinv s') s.
  Proof.
    induction n as [|n IH]; intros it s Hs Hi H0; cbn [opt_loop]; [wp1; auto|].
    wp1. eapply wp_conseq;
      [apply wp_safe; [apply (procOnce_spec LL pb cf limits t0 qfuel x0); exact Hi|apply procOnce_safe; auto; apply Hi]| |intros e s' [_ He]; exact He].
    intros r s' [[Hi' _] Hs']. match goal with |- wp _ (if ?c then _ else _) _ _ _ => destruct c end.
    - apply IH; auto.
    - wp1; auto.
  Qed.
End Safe.

Section Solve.
  Context {T : Type} {N : Num T} (LL : lltops T).
  Variables (pb : problem T) (cf : config T) (limits : option (T -> vec T * vec T)) (jk : junk T).
  Notation nx := (pb_nx pb).
  Notation Nn := (N_ cf).

  (** What the C++ types guarantee about an object and freshly allocated storage: fixed-size members have
      their template size, and Derivative(state_dim, input_dim) allocates the given sizes. *)
  Definition object_ok (s : ddp T) : Prop :=
    length (s_Vx s) = nx /\ mdimb nx nx (s_Vxx s) = true /\
    (forall nu, pb_fixed_nu pb = Some nu -> Forall (deriv_ok nx nu) (s_deriv s)).
  Definition junk_ok : Prop := forall nu, deriv_ok nx nu (jk_deriv jk nx nu).
  (** What the C++ argument types guarantee. *)
  Definition args_typed (x0 : vec T) (us : list (vec T)) : Prop :=
    length x0 = nx /\ forall nu, pb_fixed_nu pb = Some nu -> Forall (fun u => length u = nu) us.

  Lemma ddp_solve_safe fuel qfuel t0 x0 us s :
    well_dimensioned pb -> llt_dims LL -> limits_ok pb cf limits -> junk_ok -> object_ok s -> args_typed x0 us ->
    wp False (ddp_solve LL pb cf limits jk fuel qfuel t0 x0 us)
       (fun _ s' => object_ok s')
       (fun e s' => object_ok s' /\ (e = InvalidArgument /\ Z.of_nat (length us) <> cf_horizon cf \/
                    e = RuntimeError /\ Z.of_nat (length us) = cf_horizon cf /\ ~ valid_args pb cf t0 us \/
                    e = RuntimeError /\ cf_second cf = true)) s.
  Proof.
    intros WD LD LO JO (OV & OVV & OD) (AX & AU).
    assert (Hobj : forall s', sinv pb cf t0 s' -> object_ok s').
    { intros s' [A B C D E F G H I]. split; [exact H|]. split; [exact I|].
      intros nu Hnu. apply Forall_forall. intros d Hd. apply In_nth_error in Hd as [i Hi].
      specialize (G i d Hi). unfold nu_of in G. rewrite Hnu in G. exact G. }
    assert (Hos : forall a b s, object_ok s -> object_ok (set_lambda a b (set_t t0 s))).
    { intros a b s1 (A & B & C). split; [exact A|]. split; [exact B|exact C]. }
    assert (HO : object_ok s) by (split; [auto|split; auto]).
    unfold ddp_solve. repeat wp1.
    destruct (Z.of_nat (length us) =? cf_horizon cf)%Z eqn:El; cbn [negb].
    2:{ wp1. apply Z.eqb_neq in El. split; [apply Hos; exact HO|]. auto. }
    apply Z.eqb_eq in El.
    assert (HN : length us = Nn) by (unfold N_; lia).
    match goal with |- wp _ (if ?c then _ else _) _ _ _ => destruct c eqn:Ed end.
    { wp1. split; [apply Hos; exact HO|]. right; left. split; [reflexivity|]. split; [exact El|]. intros [_ Hv].
      destruct (pb_fixed_nu pb); [discriminate|]. apply negb_true_iff in Ed.
      rewrite <- not_true_iff_false in Ed. apply Ed. apply check_u_spec. intros j u Hj.
      apply (Hv eq_refl j u Hj). }
    assert (Hud : forall i u, nth_error us i = Some u -> length u = nu_of pb (tm pb t0 i)).
    { intros i u Hi. unfold nu_of. destruct (pb_fixed_nu pb) as [nu|] eqn:En.
      - specialize (AU nu eq_refl). rewrite Forall_forall in AU. apply AU. eapply nth_error_In; exact Hi.
      - apply negb_false_iff in Ed. pose proof (proj1 (check_u_spec pb t0 us 0) Ed i u Hi) as Hz. cbn in Hz. lia. }
    assert (Hres : forall (l : list T), length (cost_resize jk (Nn + 1) l) = Nn + 1).
    { intros l. unfold cost_resize. destruct (Nat.eqb _ _) eqn:E; [apply Nat.eqb_eq in E; auto|]. rewrite map_length, seq_length; auto. }
    repeat wp1.
    2:inb.
    apply cd_setx_inv in Hm as (lx & Ux & ->). cbn in Ux.
    set (s1 := set_cd _ _).
    eapply wp_conseq.
    - apply (wp_for_up False (fun i s' => exists c, s' = set_cd c s1 /\ prefix_rollout pb cf t0 x0 i c /\ cd_u c = us)
               (fun _ _ => False)).
      + intros i s' Hi (c & -> & P & Hu). unfold rollout_body.
        pose proof (pr_lx _ _ _ _ _ _ P) as Lx. pose proof (pr_lu _ _ _ _ _ _ P) as Lu. pose proof (pr_lc _ _ _ _ _ _ P) as Lc.
        repeat wp1.
        2-5:inb.
        apply cd_setx_inv in Hm1 as (lx' & Ux' & ->). cbn in Ux'.
        apply cd_setc_inv in Hm2 as (lc & Uc & ->). cbn in Uc.
        eexists; split; [reflexivity|]. cbn in *. split; [|exact Hu].
        eapply prefix_extend; eauto.
      + eexists; split; [unfold s1; destruct s; reflexivity|]. split; [|reflexivity].
        split; cbn [cd_x cd_u cd_cost]; auto.
        * rewrite (upd_length _ _ _ _ Ux), resize_length; reflexivity.
        * apply (nth_upd_eq _ _ _ _ Ux).
        * intros i Hi; lia.
    - intros _ s' (c & -> & P & Hu).
      pose proof (pr_lx _ _ _ _ _ _ P) as Lx. pose proof (pr_lu _ _ _ _ _ _ P) as Lu. pose proof (pr_lc _ _ _ _ _ _ P) as Lc.
      repeat wp1.
      2-3:inb.
      apply cd_setc_inv in Hm0 as (lc & Uc & ->). cbn in Hm, Uc.
      assert (Hro : is_rollout pb t0 x0 Nn {| cd_x := cd_x c; cd_u := cd_u c; cd_cost := lc |}).
      { eapply prefix_finish; eauto. }
      eapply wp_conseq; [apply (opt_loop_safe LL pb cf limits t0 x0 WD LD LO)| |].
      + split; cbn; auto; try (rewrite resize_length; reflexivity).
        * apply (rollout_dims pb cf t0 x0 WD); auto. cbn. rewrite Hu. exact Hud.
        * unfold cand_lens; cbn. rewrite !resize_length. auto.
        * destruct (pb_fixed_nu pb); [apply resize_length|rewrite map_length, seq_length; reflexivity].
        * intros i d Hd. unfold nu_of. destruct (pb_fixed_nu pb) as [nu|].
          { apply nth_error_In in Hd. unfold resize in Hd. apply in_app_or in Hd as [Hd|Hd].
            - specialize (OD nu eq_refl). rewrite Forall_forall in OD. apply OD.
              rewrite <- (firstn_skipn Nn (s_deriv s)). apply in_or_app; left. exact Hd.
            - apply repeat_spec in Hd. subst d. apply JO. }
          { assert (Hi : i < Nn). { apply nth_error_Some_lt in Hd || (assert (Hl : i < length (map (fun i : nat => jk_deriv jk nx (Z.to_nat (pb_inputDim pb (tm pb t0 i)))) (seq 0 Nn))) by (apply nth_error_Some; congruence); rewrite map_length, seq_length in Hl; exact Hl). }
            rewrite (map_nth_error (fun i : nat => jk_deriv jk nx (Z.to_nat (pb_inputDim pb (tm pb t0 i)))) i (seq 0 Nn) (d := i)) in Hd.
            - injection Hd as <-. apply JO.
            - rewrite (nth_error_nth' _ 0) by (rewrite seq_length; exact Hi). rewrite seq_nth by exact Hi. reflexivity. }
      + split; cbn; auto; try (rewrite resize_length; reflexivity).
        * unfold cand_lens; cbn. rewrite !resize_length. auto.
        * destruct (pb_fixed_nu pb); [apply resize_length|rewrite map_length, seq_length; reflexivity].
      + exact AX.
      + intros r s' Hs'. wp1. apply Hobj; exact Hs'.
      + intros e s' (He & Hsec & Hs'). split; [apply Hobj; exact Hs'|]. auto.
    - intros e s' [].
  Qed.
End Solve.

(** *** use_state_eq_second_derivative *)
Section Second.
  (** The computation ends in an exception or undefined behaviour. *)
  Definition stuck {S A} (m : M S A) (s : S) : Prop := match m s with Throw _ _ | UB => True | _ => False end.
  Lemma stuck_l {S A B} (m : M S A) (k : A -> M S B) s : stuck m s -> stuck (bind m k) s.
  Proof. unfold stuck, bind. destruct (m s); auto. contradiction. Qed.
  Lemma stuck_r {S A B} (m : M S A) (k : A -> M S B) s : nofuel m s -> (forall a s', m s = Ok a s' -> stuck (k a) s') -> stuck (bind m k) s.
  Proof. unfold stuck, bind, nofuel. destruct (m s) as [a s0| | |]; intros H1 H2; try exact I; [exact (H2 a s0 eq_refl)|congruence]. Qed.

  Context {T : Type} {N : Num T} (LL : lltops T).
  Variables (pb : problem T) (cf : config T) (limits : option (T -> vec T * vec T)) (jk : junk T).
  Hypothesis Hs : cf_second cf = true.
  Hypothesis HN : 0 < N_ cf.

  Lemma bw_step_stuck fuel i Vx Vxx s : stuck (bw_step LL pb cf limits fuel i Vx Vxx) s.
  Proof.
    unfold bw_step. rewrite Hs. apply stuck_r; [discriminate|]. intros s0 s' E. apply stuck_r; [apply nofuel_must|].
    intros d s2 _. apply stuck_r; [apply nofuel_guard|]. intros _ s3 _. exact I.
  Qed.
  Lemma procOnce_stuck fuel qfuel it s : stuck (procOnce LL pb cf limits (S fuel) qfuel it) s.
  Proof.
    unfold procOnce. apply stuck_r; [discriminate|]. intros _ s1 _.
    apply stuck_r.
    { unfold deriv_body. repeat nf1. }
    intros _ s2 _. apply stuck_r; [discriminate|]. intros s3 s3' _. apply stuck_r; [apply nofuel_must|]. intros xN s4 _.
    destruct (pb_terminalCostDeriv _ _ _ _) as [Vx Vxx]. apply stuck_r; [discriminate|]. intros _ s5 _.
    apply stuck_l. cbn [bw_retry]. apply stuck_l. unfold backwardPass.
    apply stuck_r; [discriminate|]. intros s6 s6' _. apply stuck_r; [discriminate|]. intros _ s7 _.
    destruct (N_ cf); [lia|]. cbn [bw_loop]. apply stuck_l. apply bw_step_stuck.
  Qed.
  Lemma ddp_solve_stuck fuel qfuel t0 x0 us s : (1 <= cf_max_iter cf)%Z ->
    stuck (ddp_solve LL pb cf limits jk (S fuel) qfuel t0 x0 us) s.
  Proof.
    intros Hm. unfold ddp_solve. apply stuck_r; [discriminate|]. intros _ s1 _.
    destruct (negb _); [exact I|]. match goal with |- stuck (if ?c then _ else _) _ => destruct c end; [exact I|].
    apply stuck_r; [discriminate|]. intros _ s2 _. apply stuck_r; [discriminate|]. intros s3 s3' _.
    apply stuck_r; [apply nofuel_must|]. intros c s4 _. apply stuck_r; [discriminate|]. intros _ s5 _.
    apply stuck_r.
    { unfold rollout_body. repeat nf1. }
    intros _ s6 _. apply stuck_r; [discriminate|]. intros s7 s7' _. apply stuck_r; [apply nofuel_must|]. intros xN s8 _.
    apply stuck_r; [apply nofuel_must|]. intros c2 s9 _. apply stuck_r; [discriminate|]. intros _ s10 _.
    apply stuck_r; [discriminate|]. intros _ s11 _. apply stuck_l.
    destruct (Z.to_nat (cf_max_iter cf)) eqn:E; [lia|]. cbn [opt_loop]. apply stuck_l. apply procOnce_stuck.
  Qed.
End Second.

(** The factorisation of Chol.v returns results of the right size for every scalar type. *)
From Verif Require Import Chol.
Section CholDims.
  Context {T : Type} {N : Num T}.
  Lemma chol_dims : llt_dims (chol_llt (T := T)).
  Proof.
    assert (HB : forall L (y : vec T) n m, length (bsub L y n m) = m).
    { intros L y n m; induction m as [|m IH]; cbn [bsub length]; [reflexivity|]. rewrite IH; reflexivity. }
    split.
    - intros A n b HA Hb. cbn. unfold chol_solve. rewrite (mdimb_r _ _ _ HA).
      destruct (chol_rows A n); [apply HB|apply vbuild_length].
    - intros A n m B HA HBm. cbn. rewrite (mdimb_r _ _ _ HA), (mdimb_c _ _ _ HBm). apply mbuild_dim.
  Qed.
End CholDims.
