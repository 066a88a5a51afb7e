(** Property C87: what check_nan of FmpcSolver guarantees about the variable in binary64 arithmetic. An iteration that goes on started from finite states,
    costates, slacks and multipliers, and a run from a variable without NaN returns a variable without NaN, whatever the problem functions and the linear solver
    return. For every exp and log and every sum (even one that is not a sum). *)
From Coq Require Import Reals Lra Psatz.
From Flocq Require Import Core BinarySingleNaN.
From Verif Require Import Prelude Scalar LinAlg RLin DDP Fmpc FmpcProofs FmpcStep FmpcNewton B64 FmpcF64 FmpcStep64 DDPCost64 P_FmpcRun P_FmpcTerm64 ExDDP ExFmpc.
Local Open Scope R_scope.

(** ** Operations *)
Lemma overflow_not_nan (z : b64) s : B2SF z = binary_overflow 53 1024 mode_NE s -> not_nan z.
Proof. intros E. unfold not_nan. destruct z; cbn in E; try discriminate; reflexivity. Qed.
Lemma fin_not_nan (x : b64) : fin x -> not_nan x.
Proof. unfold fin, not_nan. destruct x; try discriminate; reflexivity. Qed.
Lemma unit_mul (a d : b64) : fin a -> 0 < val a <= 1 -> fin d -> fin (Bmult mode_NE a d).
Proof.
  intros Fa Ha Fd. pose proof (Bmult_correct 53 1024 _ _ mode_NE a d) as C.
  rewrite Rlt_bool_true in C.
  - destruct C as (_ & C & _). unfold fin in *. rewrite C, Fa, Fd. reflexivity.
  - apply Rle_lt_trans with (Rabs (val d)); [|apply abs_B2R_lt_emax].
    apply abs_round_le_generic; try typeclasses eauto; [apply generic_format_abs, generic_format_B2R|].
    rewrite Rabs_mult. change (B2R a) with (val a). change (B2R d) with (val d). rewrite (Rabs_pos_eq (val a)) by lra. pose proof (Rabs_pos (val d)). nra.
Qed.
Lemma add_keeps (x y : b64) : not_nan x -> fin y -> not_nan (Bplus mode_NE x y).
Proof.
  intros Nx Fy. destruct (is_finite x) eqn:Fx.
  - pose proof (Bplus_correct 53 1024 _ _ mode_NE x y Fx Fy) as C. destruct (Rlt_bool _ _).
    + apply fin_not_nan. apply C.
    + destruct C as [C _]. apply (overflow_not_nan _ _ C).
  - unfold not_nan in *. destruct x as [?|s| |? ? ? ?]; try discriminate. destruct y as [?|?| |? ? ? ?]; try discriminate; reflexivity.
Qed.
Lemma mul_keeps (x y : b64) : fin x -> val x <> 0 -> not_nan y -> not_nan (Bmult mode_NE x y).
Proof.
  intros Fx Zx Ny. destruct (is_finite y) eqn:Fy.
  - pose proof (Bmult_correct 53 1024 _ _ mode_NE x y) as C. destruct (Rlt_bool _ _).
    + destruct C as (_ & C & _). apply fin_not_nan. unfold fin in *. rewrite C, Fx, Fy. reflexivity.
    + apply (overflow_not_nan _ _ C).
  - unfold not_nan in *. destruct y as [?|s| |? ? ? ?]; try discriminate. destruct x as [?|?| |? ? ? ?]; try discriminate; [|reflexivity].
    exfalso. apply Zx. reflexivity.
Qed.
Lemma div_keeps (x y : b64) : fin x -> val x <> 0 -> not_nan y -> not_nan (Bdiv mode_NE x y).
Proof.
  intros Fx Zx Ny. destruct y as [s|s| |s m e B] eqn:Ey; [| |discriminate|].
  - destruct x as [?|?| |? ? ? ?]; try discriminate; [exfalso; apply Zx|]; reflexivity.
  - destruct x as [?|?| |? ? ? ?]; try discriminate; reflexivity.
  - rewrite <- Ey in *. assert (Z : B2R y <> 0).
    { rewrite Ey. cbn. intros E. apply eq_0_F2R in E. cbn in E. destruct s; discriminate. }
    pose proof (Bdiv_correct 53 1024 _ _ mode_NE x y Z) as C. destruct (Rlt_bool _ _).
    + destruct C as (_ & C & _). apply fin_not_nan. unfold fin in *. rewrite C. exact Fx.
    + apply (overflow_not_nan _ _ C).
Qed.
Lemma div_num_fin (x y : b64) : fin (Bdiv mode_NE x y) -> fin y -> fin x.
Proof. unfold fin. destruct x as [?|?| |? ? ? ?], y as [?|?| |? ? ? ?]; try discriminate; reflexivity. Qed.

(** ** Vectors and lists of vectors *)
Definition no_nan (w : list b64) : Prop := forall a, In a w -> not_nan a.
Definition finite_vec (w : list b64) : Prop := forall a, In a w -> fin a.
Lemma in_nth (w : list b64) a d : In a w -> exists j, (j < length w)%nat /\ nth j w d = a.
Proof. intros H. destruct (In_nth w a d H) as (j & A & B). eauto. Qed.

Section Nan.
  Variables (ex lg : b64 -> b64) (sm : list b64 -> b64).
  Local Instance Nw : Num b64 := B64Num ex lg sm.
  Lemma in_build n (f : nat -> b64) a : In a (vbuild n f) -> exists j, (j < n)%nat /\ a = f j.
  Proof. unfold vbuild. intros H. apply in_map_iff in H as (j & <- & Hj). apply in_seq in Hj. exists j. split; [lia|reflexivity]. Qed.
  Lemma build_in n (f : nat -> b64) j : (j < n)%nat -> In (f j) (vbuild n f).
  Proof. intros H. unfold vbuild. apply in_map. apply in_seq. lia. Qed.
  Lemma get_in (w : vec b64) j : (j < length w)%nat -> In (vget w j) w.
  Proof. intros H. apply nth_In. exact H. Qed.

  Lemma step_no_nan (a : b64) (v d : vec b64) : fin a -> 0 < val a <= 1 -> length d = length v -> no_nan v -> finite_vec d ->
    no_nan (vadd v (vscale a d)).
  Proof.
    intros Fa Ha L Hv Hd b Hb. unfold vadd in Hb. apply in_build in Hb as (j & Hj & ->).
    unfold vscale. rewrite vbuild_get by lia. cbn [nadd nmul Nw B64Num]. apply add_keeps; [apply Hv, get_in, Hj|].
    apply unit_mul; auto. apply Hd, get_in. lia.
  Qed.
  Lemma list_no_nan n (a : b64) (vs ds l : list (vec b64)) : fin a -> 0 < val a <= 1 -> step_list n a vs ds = Some l ->
    (forall w, In w vs -> no_nan w) -> (forall w, In w ds -> finite_vec w) -> forall w, In w l -> no_nan w.
  Proof.
    intros Fa Ha H Hv Hd w Hw. apply step_list_spec in H as (_ & _ & H1 & H2). apply In_nth_error in Hw as (i & Hi).
    destruct (Nat.lt_ge_cases i n) as [Hn|Hn].
    - destruct (H1 i Hn) as (v & d & A & B & C & D). rewrite D in Hi. injection Hi as <-.
      apply step_no_nan; auto; [apply Hv|apply Hd]; eapply nth_error_In; eauto.
    - rewrite (H2 i Hn) in Hi. apply Hv. eapply nth_error_In; eauto.
  Qed.
  Lemma max_not_nan (a b : b64) : not_nan a -> not_nan b -> not_nan (nmax (N := Nw) a b).
  Proof. intros A B. unfold nmax. destruct (nltb a b); assumption. Qed.
  Lemma lowest_not_nan : not_nan (lowest (N := Nw)).
  Proof.
    unfold not_nan. rewrite <- is_nan_SF_B2SF. change (is_nan_SF (sf (lowest (N := Nw))) = false). unfold lowest, nofZ. cbn [nlit Nw B64Num]. unfold b64_lit.
    rewrite !sf_div, !sf_ofZ. vm_compute. reflexivity.
  Qed.
  Lemma clip_no_nan (w : vec b64) : no_nan w -> no_nan (clip_low (N := Nw) w).
  Proof.
    intros H. unfold clip_low. destruct (vnegb w); [|exact H]. intros b Hb. unfold vmaxc in Hb. apply in_build in Hb as (j & Hj & ->).
    apply max_not_nan; [apply H, get_in, Hj|apply lowest_not_nan].
  Qed.
  Lemma overwrite_in {A} (new old : list A) w : In w (overwrite new old) -> In w new \/ In w old.
  Proof.
    unfold overwrite. intros H. apply in_app_or in H as [H|H]; [auto|right]. rewrite <- (firstn_skipn (length new) old). apply in_or_app. auto.
  Qed.
  Lemma clipped_no_nan n (ss : list (vec b64)) : (forall w, In w ss -> no_nan w) -> forall w, In w (overwrite (map (clip_low (N := Nw)) (firstn n ss)) ss) -> no_nan w.
  Proof.
    intros H w Hw. apply overwrite_in in Hw as [Hw|Hw]; [|auto]. apply in_map_iff in Hw as (y & <- & Hy). apply clip_no_nan, H.
    rewrite <- (firstn_skipn n ss). apply in_or_app. auto.
  Qed.

  (** No entry of the variable is NaN. *)
  Definition var_no_nan (v : var b64) : Prop := forall a, in_var a v -> is_nan a = false.
  Lemma update_no_nan (pb : fproblem b64) cf fl st st' : update_variables pb cf fl st = Ok true st' ->
    (forall a, in_var a (f_delta st) -> nfin a = true) -> var_no_nan (f_var st) -> var_no_nan (f_var st').
  Proof.
    intros E Hd Hv. pose proof (C79_step ex lg sm pb cf fl st st' E) as (am & a_s & a_n & F1 & V1 & F2 & V2 & F3 & V3 & _).
    pose proof (update_variables_case pb cf fl st) as H. rewrite E in H.
    destruct H as [H|[H|(b_s & b_n & Es & En & [[_ H]|(Ha & s2 & a & v & Hu & Hs & H)])]]; try discriminate.
    injection H as ->. clear am a_s a_n F1 V1 F2 V2 F3 V3. destruct (alpha_ok_val ex lg sm _ _ Ha) as [[F1 V1] [F2 V2]].
    assert (Q : fin a /\ 0 < val a <= 1).
    { unfold alpha_used in Hu. destruct (fc_ls cf).
      - destruct Hu as [_ Hl]. apply ls_loop_spec in Hl as (_ & k & -> & Hk & _).
        destruct (halved_val ex lg sm k b_s F1 V1) as (F3 & V3 & _); [intros j Hj; apply (Hk j Hj)|]. pose proof (half_pow k).
        split; [exact F3|].
        change (halved (N := Nw) b_s k) with (halved (N := Nt ex lg sm) b_s k). rewrite V3. nra.
      - destruct Hu as [-> ->]. auto. }
    destruct Q as [F3 V3]. apply step_var_spec in Hs as (_ & S1 & S2 & S3 & ss & ns & S4 & S5 & S6 & S7).
    cbn [set_fvar f_var]. intros b (w & Hw & Hb). revert b Hb. change (no_nan w).
    assert (Dv : forall (P : var b64 -> list (vec b64)), (forall y, In y (P (f_var st)) -> In y (v_x (f_var st)) \/ In y (v_u (f_var st)) \/
        In y (v_l (f_var st)) \/ In y (v_s (f_var st)) \/ In y (v_n (f_var st))) -> forall y, In y (P (f_var st)) -> no_nan y).
    { intros P HP y Hy b Hb. apply Hv. exists y. split; [apply HP, Hy|exact Hb]. }
    assert (Dd : forall (P : var b64 -> list (vec b64)), (forall y, In y (P (f_delta st)) -> In y (v_x (f_delta st)) \/ In y (v_u (f_delta st)) \/
        In y (v_l (f_delta st)) \/ In y (v_s (f_delta st)) \/ In y (v_n (f_delta st))) -> forall y, In y (P (f_delta st)) -> finite_vec y).
    { intros P HP y Hy b Hb. apply Hd. exists y. split; [apply HP, Hy|exact Hb]. }
    destruct Hw as [Hw|[Hw|[Hw|[Hw|Hw]]]].
    - apply (list_no_nan _ _ _ _ _ F3 V3 S1) with (3 := Hw); [apply (Dv v_x)|apply (Dd v_x)]; auto.
    - apply (list_no_nan _ _ _ _ _ F3 V3 S3) with (3 := Hw); [apply (Dv v_u)|apply (Dd v_u)]; auto.
    - apply (list_no_nan _ _ _ _ _ F2 V2 S2) with (3 := Hw); [apply (Dv v_l)|apply (Dd v_l)]; auto.
    - rewrite S6 in Hw. apply clipped_no_nan in Hw; [exact Hw|]. apply (list_no_nan _ _ _ _ _ F3 V3 S4); [apply (Dv v_s)|apply (Dd v_s)]; auto.
    - rewrite S7 in Hw. apply clipped_no_nan in Hw; [exact Hw|]. apply (list_no_nan _ _ _ _ _ F2 V2 S5); [apply (Dv v_n)|apply (Dd v_n)]; auto 6.
  Qed.

  (** ** One iteration *)
  Variables (LO : linops b64) (pb : fproblem b64) (cf : fconfig b64).
  Theorem C87_iteration fuel it s r s' : fc_check_nan cf = true -> proc_once LO pb cf fuel it s = Ok r s' ->
    var_no_nan (f_var s) -> var_no_nan (f_var s').
  Proof.
    intros Hn H Hv. destruct (proc_once_case LO pb cf fuel it s) as [P|(eps & cl & e & He & Hc & _ & P)]; rewrite H in P; [discriminate|].
    destruct (nleb e (fc_kkt cf)); [injection P as -> ->; exact Hv|].
    pose proof (rest_cases LO pb cf fuel (checked s it eps cl e)) as Q. rewrite <- P in Q.
    destruct Q as [Q|[Q|(b & cl' & Hb & [[_ Q]|(-> & d & Hd & [[_ Q]|(Hf & b2 & s2 & Hu & Q)])])]]; try discriminate; injection Q as -> ->; try exact Hv.
    destruct b2.
    - apply (update_no_nan _ _ _ _ _ Hu); [|exact Hv]. cbn [set_fdelta f_delta]. intros x Hx.
      rewrite Hn in Hf. cbn [andb] in Hf. destruct (nfin x) eqn:Hx'; [reflexivity|]. exfalso.
      assert (X : var_nan d = true) by (apply C37_containsNaN; destruct Hx as (w & Hw & Hx); exists w, x; auto). congruence.
    - pose proof (update_variables_case pb cf fuel (set_fdelta d (set_fcoeff cl' (checked s it eps cl e)))) as U. rewrite Hu in U.
      destruct U as [U|[U|(a_s & a_n & _ & _ & [[_ U]|(_ & s3 & a & v & Ha & _ & U)])]]; try discriminate. injection U as ->. exact Hv.
  Qed.

  (** ** A whole run *)
  Lemma loop_no_nan fuel n : fc_check_nan cf = true -> forall it st s r s', fopt_loop LO pb cf fuel n it st s = Ok r s' -> var_no_nan (f_var s) -> var_no_nan (f_var s').
  Proof.
    intros Hn. induction n as [|n IH]; intros it st s r s' E HI; cbn [fopt_loop] in E; [injection E as -> ->; exact HI|].
    unfold bind in E. destruct (proc_once LO pb cf fuel it s) as [r1 s1|e1 s1| |] eqn:E1; try discriminate.
    apply C87_iteration in E1; [|exact Hn|exact HI].
    destruct r1; try (unfold ret in E; injection E as E E'; subst; exact E1). apply IH in E; auto.
  Qed.
  (** The constants of the initialisation. *)
  Lemma const_fin (p : Z) (q : positive) : (p, q) = (1%Z, 100%positive) \/ (p, q) = (1%Z, 10000%positive) \/ (p, q) = ((-1)%Z, 1%positive) \/ (p, q) = (1%Z, 1%positive) ->
    fin (nlit (Num := Nw) p q) /\ val (nlit (Num := Nw) p q) <> 0.
  Proof.
    assert (G : forall x : b64, match sf x with SpecFloat.S754_finite _ _ _ => true | _ => false end = true -> fin x /\ val x <> 0).
    { intros x Hx. unfold sf in Hx. destruct x as [?|?| |s m e B]; try discriminate. split; [reflexivity|].
      unfold val. cbn. intros E. apply eq_0_F2R in E. cbn in E. destruct s; discriminate. }
    intros H. apply G. cbn [nlit Nw B64Num]. unfold b64_lit. rewrite sf_div, !sf_ofZ.
    destruct H as [H|[H|[H|H]]]; injection H as -> ->; vm_compute; reflexivity.
  Qed.
  Lemma margin_fin : fin (one_margin (N := Nw)) /\ val (one_margin (N := Nw)) <> 0.
  Proof.
    assert (G : forall x : b64, match sf x with SpecFloat.S754_finite _ _ _ => true | _ => false end = true -> fin x /\ val x <> 0).
    { intros x Hx. unfold sf in Hx. destruct x as [?|?| |s m e B]; try discriminate. split; [reflexivity|].
      unfold val. cbn. intros E. apply eq_0_F2R in E. cbn in E. destruct s; discriminate. }
    apply G. unfold one_margin, nofZ. cbn [nadd nlit Nw B64Num]. rewrite sf_add. unfold b64_lit. rewrite !sf_div, !sf_ofZ. vm_compute. reflexivity.
  Qed.
  Lemma scale_no_nan (c : b64) (w : vec b64) : fin c -> val c <> 0 -> no_nan w -> no_nan (vscale (N := Nw) c w).
  Proof.
    intros Fc Zc H b Hb. unfold vscale in Hb. apply in_build in Hb as (j & Hj & ->). cbn [nmul Nw B64Num]. apply mul_keeps; auto. apply H, get_in, Hj.
  Qed.
  Lemma maxc_no_nan (c : b64) (w : vec b64) : fin c -> no_nan w -> no_nan (vmaxc (N := Nw) w c).
  Proof.
    intros Fc H b Hb. unfold vmaxc in Hb. apply in_build in Hb as (j & Hj & ->). apply max_not_nan; [apply H, get_in, Hj|apply fin_not_nan, Fc].
  Qed.
  Lemma init_s_no_nan (g : vec b64) : no_nan g -> no_nan (init_s (N := Nw) g).
  Proof.
    intros H. destruct margin_fin as [F1 Z1]. destruct (const_fin (-1) 1) as [F2 Z2]; [auto|]. destruct (const_fin 1 100) as [F3 _]; [auto|].
    apply scale_no_nan; auto. apply maxc_no_nan; auto. apply scale_no_nan; auto.
  Qed.
  Lemma init_n_no_nan (s : vec b64) : no_nan s -> no_nan (init_n (N := Nw) (nlit 1 10000) s).
  Proof.
    intros H. destruct margin_fin as [F1 Z1]. destruct (const_fin 1 10000) as [F2 Z2]; [auto|]. destruct (const_fin 1 100) as [F3 _]; [auto|].
    apply scale_no_nan; auto. apply maxc_no_nan; auto. apply scale_no_nan; auto. intros b Hb. unfold vinv in Hb. apply in_build in Hb as (j & Hj & ->).
    cbn [ndiv Nw B64Num]. apply div_keeps; [| |apply H, get_in, Hj]; apply (const_fin 1 1); auto.
  Qed.
  Theorem C87_run jk fuel t0 x0 v0 s r s' : fc_check_nan cf = true -> fmpc_solve LO pb cf jk fuel t0 x0 v0 s = Ok r s' ->
    var_no_nan v0 -> (fc_init cf = true -> forall i x u a, nth_error (v_x v0) i = Some x -> nth_error (v_u v0) i = Some u ->
      In a (fp_g pb (ft pb t0 i) x u) -> is_nan a = false) ->
    var_no_nan (f_var s').
  Proof.
    intros Hn H Hv Hg. rewrite solve_form_eq in H. unfold solve_form in H.
    destruct (inited pb cf t0 v0 (f_eps s)) as [[v eps]|] eqn:Ei; [|discriminate].
    destruct (bad_length cf v); [discriminate|]. destruct (existsb _ _); [discriminate|]. destruct (existsb _ _); [discriminate|].
    destruct (setup_coeff pb cf jk t0 (f_coeff s)) as [cl|]; [|discriminate].
    destruct (fopt_loop _ _ _ _ _ _ _ _) as [r1 s1| | |] eqn:E; try discriminate.
    destruct (_ || _); [|discriminate]. injection H as <- <-. apply loop_no_nan in E; auto. cbn [ready f_var].
    unfold inited in Ei. destruct (fc_init cf); [|injection Ei as <- _; exact Hv]. specialize (Hg eq_refl).
    destruct (init_var pb cf t0 (nlit 1 10000) v0) as [v1|] eqn:Ev; [|discriminate]. injection Ei as <- _.
    unfold init_var in Ev. opt1 Ev. injection Ev as <-.
    assert (Hs : forall w, In w l -> no_nan w).
    { intros w Hw. apply In_nth_error in Hw as (i & Hi). assert (Li : (i < Nf cf)%nat) by (rewrite <- (tabo_length _ _ _ E0); apply nth_error_Some; congruence).
      destruct (tabo_nth _ _ _ _ E0 Li) as [E1 _]. rewrite Hi in E1. symmetry in E1. do 3 opt1 E1. injection E1 as <-.
      apply init_s_no_nan. intros b Hb. apply (Hg i v v1 b); assumption. }
    intros b (w & Hw & Hb). cbn [v_x v_u v_l v_s v_n] in Hw. destruct Hw as [Hw|[Hw|[Hw|[Hw|Hw]]]].
    - apply Hv. exists w. auto 10.
    - apply Hv. exists w. auto 10.
    - apply Hv. exists w. auto 10.
    - apply overwrite_in in Hw as [Hw|Hw]; [apply (Hs w Hw b Hb)|apply Hv; exists w; auto 10].
    - apply overwrite_in in Hw as [Hw|Hw]; [|apply Hv; exists w; auto 10]. apply in_map_iff in Hw as (y & <- & Hy). apply (init_n_no_nan y (Hs y Hy) b Hb).
  Qed.

  (** ** Where an iteration that goes on started *)
  Definition finite_upto (n : nat) (l : list (vec b64)) : Prop := forall i w a, (i < n)%nat -> nth_error l i = Some w -> In a w -> is_finite a = true.
  Lemma sub_r_fin (x y : vec b64) : length x = length y -> finite_vec (vsub (N := Nw) x y) -> finite_vec y.
  Proof.
    intros L H b Hb. apply (in_nth y b nzero) in Hb as (j & Hj & <-). apply (sub_fin (vget x j)).
    apply H. unfold vsub. refine (build_in _ (fun i => nsub (vget x i) (vget y i)) j _). lia.
  Qed.
  Lemma add_fin_l (x y : vec b64) : finite_vec (vadd (N := Nw) x y) -> finite_vec x.
  Proof.
    intros H b Hb. apply (in_nth x b nzero) in Hb as (j & Hj & <-). apply (add_fin _ (vget y j)).
    apply H. unfold vadd. refine (build_in _ (fun i => nadd (vget x i) (vget y i)) j _). lia.
  Qed.
  Lemma add_fin_r (x y : vec b64) : length x = length y -> finite_vec (vadd (N := Nw) x y) -> finite_vec y.
  Proof.
    intros L H b Hb. apply (in_nth y b nzero) in Hb as (j & Hj & <-). apply (add_fin (vget x j)).
    apply H. unfold vadd. refine (build_in _ (fun i => nadd (vget x i) (vget y i)) j _). lia.
  Qed.
  Lemma scale_fin (c : b64) (x : vec b64) : finite_vec (vscale (N := Nw) c x) -> finite_vec x.
  Proof.
    intros H b Hb. apply (in_nth x b nzero) in Hb as (j & Hj & <-). apply (mul_fin c).
    apply H. unfold vscale. refine (build_in _ (fun i => nmul c (vget x i)) j _). lia.
  Qed.
  Lemma bw_keeps eps c sl nl s P c' : bw_coeff LO pb cf eps c sl nl s P = Some (Some c') ->
    c_xbar c' = c_xbar c /\ c_gbar c' = c_gbar c /\ c_Lxbar c' = c_Lxbar c.
  Proof.
    unfold bw_coeff. cbn zeta. intros H. opt1 H.
    match type of H with match ?g with _ => _ end = _ => destruct g as [[k K]|]; [|discriminate H] end.
    opt1 H. injection H as <-. auto.
  Qed.
  Theorem C87_start fuel it s s' : fc_check_nan cf = true -> proc_once LO pb cf fuel it s = Ok IterationContinued s' ->
    finite_upto (Nf cf + 1) (v_x (f_var s)) /\ finite_upto (Nf cf + 1) (v_l (f_var s)) /\
    finite_upto (Nf cf) (v_s (f_var s)) /\ finite_upto (Nf cf) (v_n (f_var s)).
  Proof.
    intros Hn H. destruct (C37_checked LO pb cf fuel it s s' Hn H) as [Fc Fd].
    apply proc_cont in H as (eps & cl & e & cl' & d & H). cbn zeta in H. destruct H as (_ & Hc & Hb & Hd & _ & Ec & Ed & _).
    rewrite Ec in Fc. rewrite Ed in Fd. apply backward_lists in Hb as (ce & acc & Hce & Hb). cbn [checked f_coeff f_var f_eps] in Hce, Hb.
    apply bw_coeffs_spec in Hb as [B1 B2]. apply coeffs_spec64 in Hc as (Lc & C1 & c_end & C2 & C3).
    assert (Ee : c_end = ce) by congruence. subst c_end.
    assert (G : forall i c, (i < Nf cf)%nat -> nth_error cl i = Some c -> finite_vec (c_xbar c) /\ finite_vec (c_gbar c) /\ finite_vec (c_Lxbar c)).
    { intros i c Hi Hc. destruct (B2 i Hi) as (c1 & sl & nl & c' & cn & E1 & _ & _ & E2 & _ & E3). assert (c1 = c) by congruence. subst c1.
      apply bw_keeps in E3 as (K1 & K2 & K3). rewrite <- K1, <- K2, <- K3. apply nth_error_In in E2.
      repeat split; intros a Ha; apply (Fc c' a E2); left; eexists; (split; [|exact Ha]); unfold coeff_vecs; cbn [In]; auto 10. }
    assert (Ge : finite_vec (c_Lxbar ce)).
    { specialize (B1 0%nat). rewrite Nat.add_0_r in B1. cbn [nth_error] in B1. apply nth_error_In in B1. intros a Ha.
      apply (Fc (bw_end ce) a B1). left. exists (c_Lxbar ce). split; [|exact Ha]. unfold coeff_vecs. do 4 right. left. reflexivity. }
    assert (S : finite_upto (Nf cf) (v_s (f_var s)) /\ (forall i w a, (i < Nf cf)%nat -> nth_error (v_x (f_var s)) (i + 1) = Some w -> In a w -> fin a) /\
      finite_upto (Nf cf) (v_l (f_var s))).
    { assert (Q : forall i, (i < Nf cf)%nat -> (forall w, nth_error (v_s (f_var s)) i = Some w -> finite_vec w) /\
        (forall w, nth_error (v_x (f_var s)) (i + 1) = Some w -> finite_vec w) /\ (forall w, nth_error (v_l (f_var s)) i = Some w -> finite_vec w)).
      { intros i Hi. destruct (C1 i Hi) as (c & E1 & E2). destruct (G i c Hi E1) as (G1 & G2 & G3).
        unfold coeff_at in E2. do 8 opt1 E2. cbn zeta in E2.
        destruct (pb_stateEqDeriv _ _ _ _ _) as [A B] in E2. destruct (fp_gDeriv _ _ _ _ _) as [C D] in E2.
        destruct (pb_runningCostDeriv _ _ _ _ _) as [[[[Lx Lu] Lxx] Luu] Lxu] in E2. opt1 E2. injection E2 as <-. cbn [c_xbar c_gbar c_Lxbar] in *.
        unfold vdimb in *. rewrite !andb_true_iff, !Nat.eqb_eq in *. repeat match goal with H : _ /\ _ |- _ => destruct H end.
        split; [|split]; intros w Hw.
        - assert (w = v4) by congruence. subst w. apply add_fin_r in G2; [exact G2|assumption].
        - assert (w = v0) by congruence. subst w. apply sub_r_fin in G1; [exact G1|etransitivity; [eassumption|symmetry; assumption]].
        - assert (w = v2) by congruence. subst w. do 3 apply add_fin_l in G3. apply scale_fin in G3. exact G3. }
      split; [|split]; intros i w a Hi Hw Ha; destruct (Q i Hi) as (Q1 & Q2 & Q3); [apply (Q1 w Hw a Ha)|apply (Q2 w Hw a Ha)|apply (Q3 w Hw a Ha)]. }
    destruct S as (S1 & S2 & S3).
    assert (Se : forall w, nth_error (v_l (f_var s)) (Nf cf) = Some w -> finite_vec w).
    { intros w Hw. unfold coeff_end in C3. do 3 opt1 C3. destruct (pb_terminalCostDeriv _ _ _ _) as [Lx Lxx]. opt1 C3. injection C3 as <-. cbn [c_Lxbar] in Ge.
      unfold vdimb in B. rewrite andb_true_iff, !Nat.eqb_eq in B. destruct B as [D1 D2].
      assert (w = v0) by congruence. subst w. apply sub_r_fin in Ge; [exact Ge|congruence]. }
    unfold delta_of in Hd. cbn [set_fcoeff checked f_delta f_var f_x f_coeff f_eps] in Hd. opt1 Hd. opt1 Hd. opt1 Hd. destruct p as [[xs ls] us]. opt1 Hd. opt1 Hd. injection Hd as <-.
    unfold vdimb in B. apply Nat.eqb_eq in B. apply fw_lists_spec in E0 as (L1 & L2 & L3 & X0 & _).
    assert (S0 : finite_vec v).
    { apply (sub_r_fin (f_x s)); [congruence|]. intros a Ha. apply Fd. exists (vsub (f_x s) v). split; [|exact Ha]. left. cbn [v_x].
      unfold overwrite. apply in_or_app. left. eapply nth_error_In; eauto. }
    split; [|split; [|split]].
    - intros i w a Hi Hw Ha. destruct i as [|i]; [|replace (Datatypes.S i) with (i + 1)%nat in Hw by lia; apply (S2 i w a); [lia|exact Hw|exact Ha]].
      assert (w = v) by congruence. subst w. apply S0, Ha.
    - intros i w a Hi Hw Ha. destruct (Nat.eq_dec i (Nf cf)) as [->|Hne]; [apply (Se w Hw a Ha)|apply (S3 i w a); [lia|exact Hw|exact Ha]].
    - exact S1.
    - intros i w a Hi Hw Ha. destruct (tabo_nth _ _ _ _ E1 Hi) as [T1 T2].
      destruct (nth_error l i) as [[ds dn]|] eqn:El; [|symmetry in T1; contradiction].
      symmetry in T1. unfold fw_sn in T1. do 6 opt1 T1. injection T1 as <- <-.
      assert (w = v3) by congruence. subst w. unfold vdimb in B3. rewrite !andb_true_iff, !Nat.eqb_eq in B3. destruct B3 as [_ Ln].
      apply (in_nth v3 a nzero) in Ha as (j & Hj & <-). rewrite Ln in Hj.
      set (ds := fw_s c v0 v1) in *.
      assert (Fe : is_finite (vget (fw_n eps v2 v3 ds) j) = true).
      { apply Fd. exists (fw_n eps v2 v3 ds). split; [|apply get_in; unfold fw_n; rewrite vbuild_length; exact Hj].
        right; right; right; right. cbn [v_n]. unfold overwrite. apply in_or_app. left. apply in_map_iff. exists (ds, fw_n eps v2 v3 ds).
        split; [reflexivity|eapply nth_error_In; eauto]. }
      unfold fw_n in Fe. rewrite vbuild_get in Fe by exact Hj. cbn [ndiv nmul nsub nadd Nw B64Num] in Fe.
      assert (Fs : fin (vget v2 j)) by (apply (S1 i v2 _ Hi); [assumption|apply get_in, Hj]).
      pose proof (div_num_fin _ _ Fe Fs) as Fe1. pose proof (proj1 (proj2 (mul_fin _ _ Fe1))) as Fe2.
      pose proof (proj1 (sub_fin _ _ Fe2)) as Fe3. exact (proj1 (mul_fin _ _ Fe3)).
  Qed.
End Nan.
Print Assumptions C87_iteration.
Print Assumptions C87_run.
Print Assumptions C87_start.

(** ** Concrete cases: the number type with log = 0 and sums from left to right *)
Local Instance N2 : Num b64 := B64Num zero_fun zero_fun seq_sum.
Definition nan_cf (check : bool) (max_iter : Z) : fconfig b64 := let d := ex_fcf 2 max_iter true true true in {|
  fc_print := fc_print d; fc_hor := fc_hor d; fc_max_iter := fc_max_iter d; fc_kkt := fc_kkt d; fc_check_nan := check; fc_init := fc_init d;
  fc_update_eps := fc_update_eps d; fc_break := fc_break d; fc_ls := false; fc_lagr := fc_lagr d |}.
Notation nan_run pb check max_iter x := (fmpc_solve div_lin pb (nan_cf check max_iter) (ex_fjunk z0) 35 z0 [x] (ex_fvar 2 z0 z0 z0 none none) ex_fs0).
Definition status_is (p : fstatus -> bool) (q : var b64 -> bool) (o : outcome (fsolver b64) fstatus) : bool := match o with Ok r s => p r && q (f_var s) | _ => false end.
Lemma status_is_inv p q o : status_is p q o = true -> exists r s, o = Ok r s /\ p r = true /\ q (f_var s) = true.
Proof. destruct o as [r s| | |]; try discriminate. cbn. intros H. apply andb_true_iff in H. exists r, s. tauto. Qed.
Definition entries (v : var b64) : list b64 := concat (v_x v ++ v_u v ++ v_l v ++ v_s v ++ v_n v).
Lemma start_no_nan : var_no_nan (ex_fvar 2 z0 z0 z0 none none).
Proof.
  assert (H : forallb (fun a => negb (is_nan a)) (entries (ex_fvar 2 z0 z0 z0 none none)) = true) by (vm_compute; reflexivity).
  rewrite forallb_forall in H. intros a (w & Hw & Ha). apply negb_true_iff, H. unfold entries. apply in_concat. exists w. split; [|exact Ha].
  rewrite !in_app_iff. exact Hw.
Qed.
(** The default check_nan is true. A run that stops after one iteration and one that succeeds meet the hypotheses of C87_run; the first has an iteration
    that goes on (C87_start). *)
Example C87_nonvacuous : fc_check_nan (fmpc_default_config (T := b64)) = true /\ var_no_nan (ex_fvar 2 z0 z0 z0 none none) /\
  (exists s', nan_run ex_fp true 1%Z (b64_ofZ 5) = Ok MaxIterationReached s' /\ (forall w a, In w (v_x (f_var s')) -> In a w -> fin a)) /\
  (exists s', nan_run ex_fp true 30%Z (b64_ofZ 5) = Ok Succeeded s').
Proof.
  split; [reflexivity|]. split; [apply start_no_nan|]. split.
  - assert (H : status_is (fun r => match r with MaxIterationReached => true | _ => false end) (fun v => forallb (forallb is_finite) (v_x v)) (nan_run ex_fp true 1%Z (b64_ofZ 5)) = true) by (vm_compute; reflexivity).
    apply status_is_inv in H as (r & s' & E & Hr & Hq). destruct r; try discriminate Hr. exists s'. split; [exact E|]. intros w a Hw Ha.
    rewrite forallb_forall in Hq. specialize (Hq w Hw). rewrite forallb_forall in Hq. apply Hq, Ha.
  - assert (H : status_is (fun r => match r with Succeeded => true | _ => false end) (fun _ => true) (nan_run ex_fp true 30%Z (b64_ofZ 5)) = true) by (vm_compute; reflexivity).
    apply status_is_inv in H as (r & s' & E & Hr & _). destruct r; try discriminate Hr. eauto.
Qed.
(** Without check_nan a NaN initial state ends up in the returned variable and the status is MaxIterationReached; with it the run stops before the update. *)
Example C87_unchecked : (exists s', nan_run ex_fp false 3%Z B754_nan = Ok MaxIterationReached s' /\ ~ var_no_nan (f_var s')) /\
  exists s', nan_run ex_fp true 3%Z B754_nan = Ok ErrorInForward s' /\ var_no_nan (f_var s').
Proof.
  split.
  - assert (H : status_is (fun r => match r with MaxIterationReached => true | _ => false end) (fun v => existsb (existsb is_nan) (v_x v)) (nan_run ex_fp false 3%Z B754_nan) = true) by (vm_compute; reflexivity).
    apply status_is_inv in H as (r & s' & E & Hr & Hq). destruct r; try discriminate Hr. exists s'. split; [exact E|]. intros K.
    apply existsb_exists in Hq as (w & Hw & Hq). apply existsb_exists in Hq as (a & Ha & Hq). rewrite K in Hq; [discriminate|]. exists w. auto.
  - assert (H : status_is (fun r => match r with ErrorInForward => true | _ => false end) (fun v => forallb (fun a => negb (is_nan a)) (entries v)) (nan_run ex_fp true 3%Z B754_nan) = true) by (vm_compute; reflexivity).
    apply status_is_inv in H as (r & s' & E & Hr & Hq). destruct r; try discriminate Hr. exists s'. split; [exact E|].
    rewrite forallb_forall in Hq. intros a (w & Hw & Ha). apply negb_true_iff, Hq. unfold entries. apply in_concat. exists w. split; [|exact Ha].
    rewrite !in_app_iff. exact Hw.
Qed.
Print Assumptions C87_nonvacuous.
Print Assumptions C87_unchecked.
