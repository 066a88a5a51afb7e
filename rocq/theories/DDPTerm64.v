(** Regularisation and termination of DDPSolver in binary64. *)
From Coq Require Import Reals Lra Psatz.
From Flocq Require Import Core BinarySingleNaN.
From Verif Require Import Prelude Scalar LinAlg BoxQP BoxQPProofs BoxQPTerm DDP DDPSpec DDPProofs DDPCor DDPReal B64.
Local Open Scope R_scope.

(** ** Runs that keep a condition on the regularisation, for every scalar type *)
(** The call does not run out of fuel, and its result meets [Q] if it returns. *)
Definition ends {S A} (m : M S A) (Q : A -> S -> Prop) (s : S) : Prop :=
  match m s with Ok a s' => Q a s' | OutOfFuel => False | _ => True end.
Lemma ends_nofuel {S A} (m : M S A) Q s : ends m Q s -> nofuel m s.
Proof. unfold ends, nofuel. destruct (m s); intros; try discriminate; contradiction. Qed.
Lemma ends_of {S A} U (m : M S A) Q E s : nofuel m s -> wp U m Q E s -> ends m Q s.
Proof. unfold ends, nofuel, wp. destruct (m s); intros; auto; congruence. Qed.
Lemma ends_bind {S A B} (m : M S A) (k : A -> M S B) Q s : ends m (fun a s' => ends (k a) Q s') s -> ends (bind m k) Q s.
Proof. unfold ends, bind. destruct (m s); auto. Qed.
Lemma ends_conseq {S A} (m : M S A) (Q Q' : A -> S -> Prop) s : ends m Q s -> (forall a s', Q a s' -> Q' a s') -> ends m Q' s.
Proof. unfold ends. destruct (m s); auto. Qed.
Lemma ends_must {S A} (o : option A) (Q : A -> S -> Prop) (s : S) : (forall a, o = Some a -> Q a s) -> ends (must o) Q s.
Proof. unfold ends, must. destruct o; cbn; auto. Qed.
Lemma ends_guard {S} (c : bool) (Q : unit -> S -> Prop) (s : S) : (c = true -> Q tt s) -> ends (guard c) Q s.
Proof. unfold ends, guard. destruct c; cbn; auto. Qed.
Lemma ends_ret {S A} (a : A) (Q : A -> S -> Prop) s : Q a s -> ends (ret a) Q s.
Proof. auto. Qed.
Lemma ends_get {S} (Q : S -> S -> Prop) s : Q s s -> ends get Q s.
Proof. auto. Qed.
Lemma ends_put {S} (s1 : S) (Q : unit -> S -> Prop) s : Q tt s1 -> ends (put s1) Q s.
Proof. auto. Qed.
Lemma ends_modify {S} (f : S -> S) (Q : unit -> S -> Prop) s : Q tt (f s) -> ends (modify f) Q s.
Proof. auto. Qed.
Ltac e1 :=
  match goal with
  | |- ends (bind _ _) _ _ => apply ends_bind
  | |- ends (must _) _ _ => apply ends_must; let a := fresh "v" in let H := fresh "Hm" in intros a H
  | |- ends (guard _) _ _ => apply ends_guard; let H := fresh "Hg" in intros H
  | |- ends (ret _) _ _ => apply ends_ret
  | |- ends get _ _ => apply ends_get
  | |- ends (put _) _ _ => apply ends_put
  | |- ends (modify _) _ _ => apply ends_modify
  | |- ends (throw _) _ _ => exact I
  | |- ends (match ?p with (_, _) => _ end) _ _ => destruct p
  | |- ends ((fun _ => _) _) _ _ => cbv beta
  end.

Section AnyScalar.
  Context {T : Type} {N : Num T} (LL : lltops T).
  Variables (pb : problem T) (cf : config T) (limits : option (T -> vec T * vec T)) (jk : junk T).
  Variables (qfuel : nat).
  Hypothesis Hq : (500 <= qfuel)%nat.
  Hypothesis Hq2 : nltb (qp_step (qp_default_config (T := T)) 100) (qp_min_step qp_default_config) = true.
  Variables (J : T * T -> Prop) (K : nat).
  Hypothesis Hup : forall p, J p -> too_large cf (reg_up cf p) = false -> J (reg_up cf p).
  Hypothesis Hdown : forall p, J p -> J (reg_down cf p).
  Hypothesis HK : forall p, J p -> raises cf K p.

  Lemma retry_keeps fuel : forall s, J (regs s) ->
    wp True (bw_retry LL pb cf limits fuel qfuel) (fun b s' => b = true -> J (regs s')) (fun _ _ => True) s.
  Proof.
    induction fuel as [|f IH]; intros s Hs; cbn [bw_retry]; [exact I|]. wp1.
    eapply wp_conseq; [apply backwardPass_frame| |intros; exact I]. intros b s' Hf. apply bw_regs in Hf.
    destruct b; [wp1; intros _; rewrite Hf; exact Hs|]. repeat wp1.
    assert (Hi : regs (inc_lambda cf s') = reg_up cf (regs s)) by (rewrite <- Hf; reflexivity).
    destruct (s_lambda (inc_lambda cf s') >? cf_lambda_max cf)%num eqn:El; [wp1; discriminate|].
    apply IH. rewrite Hi. apply Hup; [exact Hs|]. rewrite <- Hi. exact El.
  Qed.
  Lemma forward_regs a s : wp True (forwardPass pb cf a) (fun _ s' => regs s' = regs s) (fun _ _ => True) s.
  Proof.
    unfold forwardPass. repeat wp1.
    eapply wp_conseq; [apply (wp_for_up True (fun _ s' => regs s' = regs s) (fun _ _ => True))| |intros; exact I].
    - intros i s' Hi Hs'. unfold fw_body. repeat wp1. exact Hs'.
    - reflexivity.
    - intros ? s' Hs'. cbv beta in Hs'. repeat wp1. exact Hs'.
  Qed.
  Lemma search_regs l : forall a b c d s, wp True (line_search pb cf l a b c d) (fun _ s' => regs s' = regs s) (fun _ _ => True) s.
  Proof.
    induction l as [|x l IH]; intros; cbn [line_search]; [reflexivity|]. wp1.
    eapply wp_conseq; [apply forward_regs| |intros; exact I]. intros ? s' Hs'. cbv beta in Hs'. repeat wp1. cbv zeta.
    match goal with |- wp _ (if ?c then _ else _) _ _ _ => destruct c end; [wp1; exact Hs'|].
    eapply wp_conseq; [apply IH| |intros; exact I]. intros ? s'' E. cbv beta in E. rewrite E. exact Hs'.
  Qed.
  Lemma procOnce_ends it s : J (regs s) -> ends (procOnce LL pb cf limits K qfuel it) (fun r s' => r = 0%Z -> J (regs s')) s.
  Proof.
    intros Hs. unfold procOnce. do 3 e1.
    eapply ends_conseq; [eapply ends_of; [|apply (deriv_loop_frame pb cf)]|].
    { repeat nf1. unfold deriv_body. repeat nf1. }
    intros ? s1 (ds & -> & _). cbv beta. repeat e1. cbn [set_deriv set_trace s_cd] in *.
    match goal with |- ends _ _ ?s0 => assert (Hs0 : regs s0 = regs s) by reflexivity end.
    eapply ends_conseq; [eapply ends_of; [apply bw_retry_nofuel|apply retry_keeps]|]; try assumption; try (rewrite Hs0; auto).
    intros b s2 Hb. cbv beta in Hb |- *. destruct b; cbn [negb]; [|e1; discriminate]. specialize (Hb eq_refl). repeat e1.
    match goal with |- ends (if ?c then _ else _) _ _ => destruct c end; [e1; discriminate|]. e1.
    eapply ends_conseq; [eapply ends_of; [apply line_search_nofuel|apply search_regs]|].
    intros [[[[ok al] ac] ee] ra] s3 Hr. cbv beta in Hr |- *. repeat e1. unfold accept. destruct ok.
    - repeat e1. intros _. change (J (reg_down cf (regs s3))). rewrite Hr. apply Hdown. exact Hb.
    - repeat e1. cbv beta. destruct (s_lambda _ >? _)%num eqn:El; [discriminate|]. intros _.
      change (J (reg_up cf (regs s3))). rewrite Hr. apply Hup; [exact Hb|]. change (too_large cf (reg_up cf (regs s2)) = false).
      change (too_large cf (reg_up cf (regs s3)) = false) in El. rewrite Hr in El. exact El.
  Qed.
  Lemma opt_loop_ends n : forall it s, J (regs s) -> nofuel (opt_loop LL pb cf limits K qfuel n it) s.
  Proof.
    induction n as [|n IH]; intros it s Hs; cbn [opt_loop]; [discriminate|].
    pose proof (procOnce_ends it s Hs) as H. apply nofuel_bind; [apply (ends_nofuel _ _ _ H)|].
    intros r s' E. unfold ends in H. rewrite E in H. destruct (r =? 0)%Z eqn:Er; [|discriminate].
    apply IH. apply H. apply Z.eqb_eq. exact Er.
  Qed.
  Lemma rollout_regs n s : wp True (for_up n (rollout_body pb)) (fun _ s' => regs s' = regs s) (fun _ _ => True) s.
  Proof.
    apply (wp_for_up True (fun _ s' => regs s' = regs s) (fun _ _ => True)); [|reflexivity].
    intros i s' Hi Hs'. unfold rollout_body. repeat wp1. exact Hs'.
  Qed.
  Lemma solve_ends t0 x0 us s : J (cf_initial_lambda cf, cf_initial_dlambda cf) ->
    ddp_solve LL pb cf limits jk K qfuel t0 x0 us s <> OutOfFuel.
  Proof.
    intros H0. apply (ends_nofuel (ddp_solve LL pb cf limits jk K qfuel t0 x0 us) (fun _ _ => True)).
    unfold ddp_solve. repeat e1.
    match goal with |- ends (if ?c then _ else _) _ _ => destruct c end; [exact I|].
    match goal with |- ends (if ?c then _ else _) _ _ => destruct c end; [exact I|].
    repeat e1. eapply ends_conseq; [eapply ends_of; [|apply rollout_regs]|].
    { repeat nf1. unfold rollout_body. repeat nf1. }
    intros ? s1 Hr. cbv beta in Hr |- *. repeat e1.
    eapply ends_conseq with (Q := fun _ _ => True); [|intros; exact I].
    eapply (ends_of True _ _ (fun _ _ => True)).
    - apply opt_loop_ends. change (J (regs s1)). rewrite Hr. exact H0.
    - unfold wp. destruct (opt_loop _ _ _ _ _ _ _ _); exact I.
  Qed.
End AnyScalar.

(** ** Products and quotients of non-negative numbers *)
Lemma pos_sign (x : b64) : 0 < val x -> Bsign x = false.
Proof.
  intros H. unfold val in H. destruct x as [s|s| |s m e B]; cbn in H; try lra. destruct s; [|reflexivity].
  assert (F2R (Float radix2 (Zneg m) e) < 0) by (apply F2R_lt_0; reflexivity). cbn in *. lra.
Qed.
Lemma mul_pos_cases x y : fin x -> fin y -> 0 <= val x -> 0 <= val y ->
  fin (Bmult mode_NE x y) /\ val (Bmult mode_NE x y) = fl (val x * val y) \/ Bmult mode_NE x y = inf64 false.
Proof.
  intros Fx Fy Px Py. pose proof (Bmult_correct 53 1024 _ _ mode_NE x y) as C. destruct (Rlt_bool_spec (Rabs (fl (val x * val y))) (bpow radix2 1024)) as [H|H].
  - unfold fl, val in H. rewrite Rlt_bool_true in C by exact H. destruct C as (C1 & C2 & _). left. split; [|exact C1].
    unfold fin in *. rewrite C2, Fx, Fy. reflexivity.
  - right. assert (Hn : val x * val y <> 0) by (intros E; rewrite E, fl_0, Rabs_R0 in H; pose proof (bpow_gt_0 radix2 1024); lra).
    assert (0 < val x) by (destruct Px as [|E]; [assumption|exfalso; apply Hn; rewrite <- E; ring]).
    assert (0 < val y) by (destruct Py as [|E]; [assumption|exfalso; apply Hn; rewrite <- E; ring]).
    unfold fl, val in H. rewrite Rlt_bool_false in C by exact H. rewrite !pos_sign in C by assumption. cbn in C.
    destruct (Bmult mode_NE x y); cbn in C; try discriminate. unfold inf64. congruence.
Qed.
Lemma mul_down x y : fin x -> fin y -> 0 <= val x -> 0 <= val y <= 1 ->
  fin (Bmult mode_NE x y) /\ 0 <= val (Bmult mode_NE x y) <= val x.
Proof.
  intros Fx Fy Px Py. assert (B : 0 <= fl (val x * val y) <= val x).
  { split; [rewrite <- fl_0; apply fl_le|apply fl_le_val]; nra. }
  destruct (mul_pos_cases x y Fx Fy Px ltac:(lra)) as [[F ->]|E]; [auto|exfalso].
  pose proof (Bmult_correct 53 1024 _ _ mode_NE x y) as C. rewrite Rlt_bool_true in C.
  - destruct C as (_ & C & _). unfold fin in *. rewrite E, Fx, Fy in C. discriminate C.
  - apply Rle_lt_trans with (Rabs (val x)); [|apply abs_B2R_lt_emax]. change (Rabs (fl (val x * val y)) <= Rabs (val x)). rewrite !Rabs_pos_eq; lra.
Qed.
Lemma div_down x y : fin x -> 0 <= val x -> 1 <= val y ->
  fin (Bdiv mode_NE x y) /\ val (Bdiv mode_NE x y) = fl (val x / val y) /\ 0 <= val (Bdiv mode_NE x y) <= val x.
Proof.
  intros Fx Px Py. assert (Q : 0 <= val x / val y <= val x).
  { assert (0 < / val y <= 1). { split; [apply Rinv_0_lt_compat; lra|]. rewrite <- Rinv_1. apply Rinv_le; lra. } unfold Rdiv. nra. }
  assert (B : 0 <= fl (val x / val y) <= val x).
  { split; [rewrite <- fl_0; apply fl_le|apply fl_le_val]; lra. }
  pose proof (Bdiv_correct 53 1024 _ _ mode_NE x y ltac:(unfold val in Py; lra)) as C. rewrite Rlt_bool_true in C.
  - destruct C as (C1 & C2 & _). change (val (Bdiv mode_NE x y) = fl (val x / val y)) in C1. unfold fin in *. rewrite C1, C2. auto.
  - apply Rle_lt_trans with (Rabs (val x)); [|apply abs_B2R_lt_emax]. change (Rabs (fl (val x / val y)) <= Rabs (val x)). rewrite !Rabs_pos_eq; lra.
Qed.
Lemma lt_true x y : fin x -> fin y -> Bltb x y = true -> val x < val y.
Proof. intros Fx Fy H. rewrite ltb_fin in H by assumption. destruct (Rlt_bool_spec (val x) (val y)); [assumption|discriminate]. Qed.
Lemma lt_false x y : fin x -> fin y -> Bltb x y = false -> val y <= val x.
Proof. intros Fx Fy H. rewrite ltb_fin in H by assumption. destruct (Rlt_bool_spec (val x) (val y)); [discriminate|assumption]. Qed.
Lemma lt_inf x : fin x -> Bltb x (inf64 false) = true.
Proof. destruct x as [[]|[]| |[]]; intros F; try discriminate; reflexivity. Qed.
Lemma inf_lt x : Bltb (inf64 false) x = false.
Proof. destruct x as [[]|[]| |[]]; reflexivity. Qed.

Section Reg64.
  Variables (ex lg : b64 -> b64) (sm : list b64 -> b64).
  Local Instance Nr : Num b64 := B64Num ex lg sm.
  Variables (cf : config b64).
  Notation f := (cf_lambda_factor cf).
  Notation lmin := (cf_lambda_min cf).
  Notation lmax := (cf_lambda_max cf).
  (** Settings that rounding leaves meaningful. *)
  Record reg_cfg64 : Prop := {
    rc_f : fin f /\ 1 < val f <= bpow radix2 500;
    rc_min : fin lmin /\ bpow radix2 (-1000) <= val lmin;
    rc_max : fin lmax;
    rc_l0 : fin (cf_initial_lambda cf) /\ 0 <= val (cf_initial_lambda cf);
    rc_d0 : fin (cf_initial_dlambda cf) /\ 0 <= val (cf_initial_dlambda cf) <= bpow radix2 500 }.
  Hypothesis C : reg_cfg64.
  Notation top := (Rmax (val (cf_initial_lambda cf)) (val lmax)).
  (** lambda and dlambda are finite and not negative, lambda at most [top]; and lambda is at least lambda_min or dlambda not huge. *)
  Definition reg_ok (p : b64 * b64) : Prop :=
    fin (fst p) /\ 0 <= val (fst p) <= top /\ fin (snd p) /\ 0 <= val (snd p) /\ (val lmin <= val (fst p) \/ val (snd p) <= bpow radix2 500).

  Lemma reg_start : reg_ok (cf_initial_lambda cf, cf_initial_dlambda cf).
  Proof.
    destruct C as [_ _ _ [H1 H2] [H3 H4]]. unfold reg_ok; cbn [fst snd]. split; [exact H1|]. split; [split; [exact H2|apply Rmax_l]|].
    split; [exact H3|]. split; [lra|]. right; lra.
  Qed.
  Lemma f_gt1 : 1 < val f * (1 - u53).
  Proof.
    destruct C as [(_ & H & _) _ _ _ _]. assert (G : 1 + 2 * u53 <= val f).
    { replace (1 + 2 * u53) with (succ radix2 (SpecFloat.fexp 53 1024) 1).
      - apply succ_le_lt; [typeclasses eauto| |apply generic_format_B2R|exact H].
        change 1 with (bpow radix2 0). rewrite fexp64_eq. apply generic_format_FLT_bpow; [exact Hprec64|lia].
      - rewrite succ_eq_pos by lra. change 1 with (bpow radix2 0) at 1 2. rewrite ulp_bpow. unfold u53.
        replace (SpecFloat.fexp 53 1024 (0 + 1)) with (1 + -53)%Z by reflexivity. rewrite bpow_plus. reflexivity. }
    pose proof u53_pos. pose proof u53_small. nra.
  Qed.
  (** One raise: the new values are numbers; either lambda is beyond lambda_max, or everything is finite and lambda has grown. *)
  Lemma up_cases p : reg_ok p ->
    let q := reg_up cf p in
    is_nan (fst q) = false /\ is_nan (snd q) = false /\
    (too_large cf q = true \/
     too_large cf q = false /\ reg_ok q /\ val lmin <= val (fst q) <= val lmax /\ (val lmin <= val (fst p) -> val (fst p) * (val f * (1 - u53)) <= val (fst q))).
  Proof.
    destruct C as [(Ff & Hf1 & Hf5) (Fm & Hm) FM _ _]. pose proof f_gt1 as Hf. pose proof (bpow_gt_0 radix2 (-1000)) as B1000.
    intros (Fl & Hl & Fd & Hd & Hor). destruct p as [l d]. cbn [fst snd] in *. unfold reg_up, too_large, nmax. cbn [fst snd]. cbn [nmul nltb Nr B64Num].
    assert (Fin_nan : forall x : b64, fin x -> is_nan x = false) by (intros []; intros; try reflexivity; discriminate).
    set (d1 := if Bltb (Bmult mode_NE d f) f then f else Bmult mode_NE d f).
    assert (D : (fin d1 /\ val f <= val d1) \/ (d1 = inf64 false /\ val lmin <= val l)).
    { unfold d1. destruct (mul_pos_cases d f Fd Ff Hd ltac:(lra)) as [[F E]|E].
      - left. destruct (Bltb _ f) eqn:El; [split; [exact Ff|lra]|]. split; [exact F|]. apply lt_false in El; assumption.
      - right. rewrite E, inf_lt. split; [reflexivity|]. destruct Hor as [|Hd5]; [assumption|exfalso].
        destruct (mul_ok d f Fd Ff) as [F _].
        { rewrite Rabs_pos_eq by nra. apply Rle_trans with (bpow radix2 500 * bpow radix2 500); [nra|].
          rewrite <- bpow_plus. apply bpow_le. lia. }
        rewrite E in F. discriminate F. }
    clearbody d1. destruct D as [[Fd1 Hd1]|[-> Hll]].
    - set (w := Bmult mode_NE l d1). destruct (mul_pos_cases l d1 Fl Fd1 ltac:(lra) ltac:(lra)) as [[Fw Ew]|Ew]; fold w in Ew; try fold w in Fw.
      + set (l1 := if Bltb w lmin then lmin else w).
        assert (L : fin l1 /\ val lmin <= val l1 /\ val w <= val l1).
        { unfold l1. destruct (Bltb w lmin) eqn:El; [apply lt_true in El; try assumption; split; [exact Fm|lra]|].
          apply lt_false in El; try assumption. split; [exact Fw|lra]. }
        destruct L as (Fl1 & Hl1 & Hw1). split; [auto|]. split; [auto|].
        destruct (Bltb lmax l1) eqn:Et; [left; reflexivity|right]. split; [reflexivity|]. apply lt_false in Et; try assumption.
        split.
        { unfold reg_ok; cbn [fst snd]. split; [exact Fl1|]. split; [split; [lra|]|].
          - eapply Rle_trans; [exact Et|apply Rmax_r].
          - split; [exact Fd1|]. split; [lra|]. left; exact Hl1. }
        split; [lra|]. intros Hlm. eapply Rle_trans; [|exact Hw1]. rewrite Ew.
        eapply Rle_trans; [|apply fl_le, Rmult_le_compat_l; [lra|exact Hd1]].
        assert (P : bpow radix2 (-1022) <= Rabs (val l * val f)).
        { rewrite Rabs_pos_eq by nra. apply Rle_trans with (bpow radix2 (-1000)); [apply bpow_le; lia|]. nra. }
        pose proof (fl_rel _ P) as R. rewrite (Rabs_pos_eq (val l * val f)) in R by nra. apply Rabs_le_inv in R. nra.
      + rewrite Ew, inf_lt. split; [reflexivity|]. split; [auto|]. left. apply lt_inf; exact FM.
    - assert (Ew : Bmult mode_NE l (inf64 false) = inf64 false).
      { assert (Pl : 0 < val l) by lra. assert (S := pos_sign l Pl). clear -Pl S Fl.
        destruct l as [s|s| |s m e B]; try discriminate Fl; [destruct (Rlt_irrefl 0 Pl)|]. cbn in S. subst s. reflexivity. }
      rewrite Ew, inf_lt. split; [reflexivity|]. split; [reflexivity|]. left. apply lt_inf; exact FM.
  Qed.
  Lemma reg_down_ok p : reg_ok p -> reg_ok (reg_down cf p).
  Proof.
    destruct C as [(Ff & Hf1 & Hf5) (Fm & Hm) FM _ _]. pose proof f_gt1 as Hf.
    intros (Fl & Hl & Fd & Hd & Hor). destruct p as [l d]. cbn [fst snd] in *. unfold reg_down, nmin, nofZ. cbn [fst snd]. cbn [nmul nltb ndiv nlit nleb nzero Nr B64Num].
    assert (V1 : fin (b64_lit 1 1) /\ val (b64_lit 1 1) = 1).
    { split; [vm_compute; reflexivity|]. unfold val. rewrite <- SF2R_B2SF.
      replace (B2SF (b64_lit 1 1)) with (SpecFloat.S754_finite false 4503599627370496 (-52)) by (vm_compute; reflexivity).
      unfold SF2R, F2R. cbn. lra. }
    destruct V1 as [F1 V1].
    destruct (div_down d f Fd Hd ltac:(lra)) as (Fq & _ & Hq). destruct (div_down (b64_lit 1 1) f F1 ltac:(lra) ltac:(lra)) as (Fr & _ & Hr).
    set (d1 := if Bltb _ _ then _ else _).
    assert (D : fin d1 /\ 0 <= val d1 <= 1).
    { unfold d1. destruct (Bltb _ _) eqn:El; [split; [exact Fr|lra]|]. apply lt_false in El; try assumption. split; [exact Fq|lra]. }
    clearbody d1. destruct D as [Fd1 Hd1].
    assert (B : val d1 <= bpow radix2 500). { apply Rle_trans with 1; [lra|]. apply (bpow_le radix2 0). lia. }
    destruct (Bleb lmin l).
    - destruct (mul_down l d1 Fl Fd1 ltac:(lra) Hd1) as [Fw Hw]. unfold reg_ok; cbn [fst snd].
      split; [exact Fw|]. split; [lra|]. split; [exact Fd1|]. split; [lra|]. right; exact B.
    - unfold reg_ok; cbn [fst snd]. split; [reflexivity|]. change (val (B754_zero false)) with 0. split; [lra|]. split; [exact Fd1|]. split; [lra|]. right; exact B.
  Qed.
  Lemma reg_up_ok p : reg_ok p -> too_large cf (reg_up cf p) = false -> reg_ok (reg_up cf p).
  Proof. intros H E. destruct (up_cases p H) as (_ & _ & [E'|(_ & H' & _)]); [congruence|exact H']. Qed.

  Lemma raises_from k : forall p m, reg_ok p -> too_large cf p = false -> val lmin <= m <= val (fst p) -> val lmax < m * (val f * (1 - u53)) ^ k ->
    exists j, (0 < j <= k)%nat /\ too_large cf (ups cf j p) = true.
  Proof.
    destruct C as [(Ff & Hf1 & Hf5) (Fm & Hm) FM _ _]. pose proof f_gt1 as Hf. pose proof (bpow_gt_0 radix2 (-1000)) as B1000.
    induction k as [|k IH]; intros p m Hp Ht Hmm HK.
    - exfalso. cbn in HK. unfold too_large in Ht. apply lt_false in Ht; [lra|exact FM|apply Hp].
    - destruct (up_cases p Hp) as (_ & _ & [E|(E & Hq & Hq1 & Hg)]).
      + exists 1%nat. split; [lia|exact E].
      + destruct (IH (reg_up cf p) (m * (val f * (1 - u53))) Hq E) as (j & Hj & Ej).
        * specialize (Hg ltac:(lra)). split; nra.
        * cbn [pow] in HK. rewrite <- Rmult_assoc in HK. exact HK.
        * exists (S j). split; [lia|exact Ej].
  Qed.
  Lemma raises_64 K p : reg_ok p -> val lmax < val lmin * (val f * (1 - u53)) ^ K -> raises cf (S K) p.
  Proof.
    intros Hp HK. destruct (up_cases p Hp) as (_ & _ & [E|(E & Hq & Hq1 & _)]).
    - exists 1%nat. split; [lia|exact E].
    - destruct (raises_from K (reg_up cf p) (val lmin) Hq E ltac:(lra) HK) as (j & Hj & Ej). exists (S j). split; [lia|exact Ej].
  Qed.

  (** *** Along a run *)
  Variables (pb : problem b64) (t0 : b64) (x0 : vec b64) (n : nat).
  Variables (LL : lltops b64) (limits : option (b64 -> vec b64 * vec b64)) (qfuel : nat).
  Definition over (p : b64 * b64) : Prop := is_nan (fst p) = false /\ is_nan (snd p) = false /\ Bltb lmax (fst p) = true.
  Lemma up_over p : reg_ok p -> too_large cf (reg_up cf p) = true -> over (reg_up cf p).
  Proof. intros H E. destruct (up_cases p H) as (H1 & H2 & _). split; [exact H1|]. split; [exact H2|exact E]. Qed.
  Lemma retry_ok64 c b p q : retry pb cf t0 n LL limits qfuel c b p q -> reg_ok p -> match b with Some _ => reg_ok q | None => over q end.
  Proof.
    induction 1 as [p g Hb0|p Hb0 H|b p q Hb0 H Hr IH]; intros Hp; [exact Hp|apply up_over; assumption|].
    apply IH, reg_up_ok; assumption.
  Qed.
  Definition entry64 (e : trace b64) : Prop := reg_ok (tr_lambda e, tr_dlambda e) \/ over (tr_lambda e, tr_dlambda e).
  Lemma zero_ok : reg_ok (B754_zero false, B754_zero false).
  Proof.
    destruct C as [_ _ _ [H1 H2] _]. unfold reg_ok. cbn [fst snd]. change (val (B754_zero false)) with 0. split; [reflexivity|].
    split; [split; [lra|eapply Rle_trans; [exact H2|apply Rmax_l]]|]. split; [reflexivity|]. split; [lra|]. right. left. apply bpow_gt_0.
  Qed.
  Lemma iteration_ok64 it s r e s' : iteration pb cf t0 x0 n LL limits qfuel it s r e s' -> reg_ok (mreg s) ->
    entry64 e /\ (r <> (-1)%Z -> reg_ok (tr_lambda e, tr_dlambda e)) /\ (r <> (-1)%Z -> reg_ok (mreg s')) /\ (r = (-1)%Z -> over (mreg s')).
  Proof.
    destruct 1 as [c p q g0 g H|c p q g0 g krn H Hk Hkr H1 H2|c p q g0 g krn c' al ac xx ra H Hk Hkr H1 H2|c p q g0 g krn al ac xx ra H Hk Hkr H1 H2];
      cbn [mreg fst snd]; intros Hp; pose proof (retry_ok64 _ _ _ _ H Hp) as Hq; cbn in Hq.
    - split; [left; exact zero_ok|]. split; [congruence|]. split; [congruence|auto].
    - split; [left; exact zero_ok|]. split; [intros _; exact zero_ok|]. split; [auto|discriminate].
    - apply reg_down_ok in Hq. split; [left; exact Hq|]. split; [intros _; exact Hq|]. split; [auto|]. match goal with |- (if ?c then _ else _) = _ -> _ => destruct c end; discriminate.
    - unfold entry64. cbn [tr_lambda tr_dlambda]. destruct (reg_up cf q) as [l d] eqn:E. cbn [fst snd].
      destruct (too_large cf (l, d)) eqn:Et; rewrite <- E in *.
      + apply up_over in Et; [|exact Hq]. split; [right; exact Et|]. split; [congruence|]. split; [congruence|auto].
      + apply reg_up_ok in Et; [|exact Hq]. split; [left; exact Et|]. split; [auto|]. split; [auto|discriminate].
  Qed.
  Lemma iterations_ok64 m it s r es s' : iterations pb cf t0 x0 n LL limits qfuel m it s r es s' -> reg_ok (mreg s) ->
    Forall entry64 es /\ Forall (fun e => reg_ok (tr_lambda e, tr_dlambda e)) (removelast es) /\
    (r <> (-1)%Z -> reg_ok (mreg s')) /\ (r = (-1)%Z -> over (mreg s')).
  Proof.
    induction 1 as [it s|m it s r e s' Hi Hr|m it s e s1 r es s' Hi Hits IH]; intros Hg.
    - split; [constructor|]. split; [constructor|]. split; [auto|discriminate].
    - destruct (iteration_ok64 _ _ _ _ _ Hi Hg) as (E & H0 & H1 & H2). split; [auto|]. split; [constructor|]. auto.
    - destruct (iteration_ok64 _ _ _ _ _ Hi Hg) as (E & H0 & H1 & H2). destruct IH as (E' & F' & H'); [apply H1; discriminate|].
      split; [auto|]. split; [|exact H']. cbn [removelast]. destruct es; [constructor|]. constructor; [apply H0; discriminate|exact F'].
  Qed.
End Reg64.
