(** DDPSolver::solve follows the abstract machine of DDPSpec, for every scalar type and every LLT. *)
From Verif Require Import Prelude Scalar LinAlg BoxQP BoxQPProofs DDP DDPSpec.

Section AnyScalar.
  Context {T : Type} {N : Num T} (LL : lltops T).
  Local Open Scope monad_scope.
  Variables (pb : problem T) (cf : config T) (limits : option (T -> vec T * vec T)) (jk : junk T).

  Notation Nn := (N_ cf).

  (** ** Rollouts *)
  Record prefix_rollout (t0 : T) (x0 : vec T) (k : nat) (c : cdata T) : Prop := {
    pr_lx : length (cd_x c) = Nn + 1;
    pr_lu : length (cd_u c) = Nn;
    pr_lc : length (cd_cost c) = Nn + 1;
    pr_x0 : nth_error (cd_x c) 0 = Some x0;
    pr_step : forall i, i < k -> exists x u,
      nth_error (cd_x c) i = Some x /\ nth_error (cd_u c) i = Some u /\
      nth_error (cd_x c) (i + 1)%nat = Some (pb_stateEq pb (tm pb t0 i) x u) /\
      nth_error (cd_cost c) i = Some (pb_runningCost pb (tm pb t0 i) x u)
  }.

  Lemma cd_setx_inv i v (c : cdata T) c' : cd_setx i v c = Some c' ->
    exists l, upd (cd_x c) i v = Some l /\ c' = {| cd_x := l; cd_u := cd_u c; cd_cost := cd_cost c |}.
  Proof.
    unfold cd_setx; destruct (upd (cd_x c) i v) as [l|]; cbn; [|discriminate].
    intros E; injection E as <-; eauto.
  Qed.
  Lemma cd_setu_inv i v (c : cdata T) c' : cd_setu i v c = Some c' ->
    exists l, upd (cd_u c) i v = Some l /\ c' = {| cd_x := cd_x c; cd_u := l; cd_cost := cd_cost c |}.
  Proof.
    unfold cd_setu; destruct (upd (cd_u c) i v) as [l|]; cbn; [|discriminate].
    intros E; injection E as <-; eauto.
  Qed.
  Lemma cd_setc_inv i (v : T) c c' : cd_setc i v c = Some c' ->
    exists l, upd (cd_cost c) i v = Some l /\ c' = {| cd_x := cd_x c; cd_u := cd_u c; cd_cost := l |}.
  Proof.
    unfold cd_setc; destruct (upd (cd_cost c) i v) as [l|]; cbn; [|discriminate].
    intros E; injection E as <-; eauto.
  Qed.

  Lemma nth_upd_eq {A} (l l' : list A) i v : upd l i v = Some l' -> nth_error l' i = Some v.
  Proof. intros H; rewrite (upd_nth _ _ _ _ i H), Nat.eqb_refl; reflexivity. Qed.
  Lemma nth_upd_ne {A} (l l' : list A) i j v : upd l i v = Some l' -> j <> i -> nth_error l' j = nth_error l j.
  Proof.
    intros H Hj; rewrite (upd_nth _ _ _ _ j H). apply Nat.eqb_neq in Hj; rewrite Hj; reflexivity.
  Qed.

  (** Extending a rollout prefix by one step (the two loops that do so differ only in how u is found). *)
  Lemma prefix_extend t0 x0 i c x u lx lc :
    i < Nn -> prefix_rollout t0 x0 i c ->
    nth_error (cd_x c) i = Some x -> nth_error (cd_u c) i = Some u ->
    upd (cd_x c) (i + 1) (pb_stateEq pb (tm pb t0 i) x u) = Some lx ->
    upd (cd_cost c) i (pb_runningCost pb (tm pb t0 i) x u) = Some lc ->
    prefix_rollout t0 x0 (S i) {| cd_x := lx; cd_u := cd_u c; cd_cost := lc |}.
  Proof.
    intros Hi P Hx Hu Ux Uc. destruct P as [Lx Lu Lc X0 St]. split; cbn [cd_x cd_u cd_cost].
    - rewrite (upd_length _ _ _ _ Ux); exact Lx.
    - exact Lu.
    - rewrite (upd_length _ _ _ _ Uc); exact Lc.
    - rewrite (nth_upd_ne _ _ _ _ _ Ux) by lia; exact X0.
    - intros j Hj. destruct (Nat.eq_dec j i) as [->|Hji].
      + exists x, u. rewrite (nth_upd_ne _ _ _ _ _ Ux) by lia. rewrite (nth_upd_eq _ _ _ _ Ux).
        rewrite (nth_upd_eq _ _ _ _ Uc). auto.
      + destruct (St j) as (xj & uj & H1 & H2 & H3 & H4); [lia|]. exists xj, uj.
        rewrite !(nth_upd_ne _ _ _ _ _ Ux), (nth_upd_ne _ _ _ _ _ Uc) by lia. auto.
  Qed.

  Lemma prefix_finish t0 x0 c xN l :
    prefix_rollout t0 x0 Nn c -> nth_error (cd_x c) Nn = Some xN ->
    upd (cd_cost c) Nn (pb_terminalCost pb (tm pb t0 Nn) xN) = Some l ->
    is_rollout pb t0 x0 Nn {| cd_x := cd_x c; cd_u := cd_u c; cd_cost := l |}.
  Proof.
    intros [Lx Lu Lc X0 St] Hx U. split; cbn [cd_x cd_u cd_cost]; auto.
    - rewrite (upd_length _ _ _ _ U); exact Lc.
    - intros i Hi. destruct (St i Hi) as (x & u & H1 & H2 & H3 & H4). exists x, u.
      rewrite (nth_upd_ne _ _ _ _ _ U) by lia. auto.
    - exists xN; split; auto. rewrite (nth_upd_eq _ _ _ _ U); reflexivity.
  Qed.

  (** ** Forward pass *)
  Definition cand_lens (c : cdata T) : Prop :=
    length (cd_x c) = Nn + 1 /\ length (cd_u c) = Nn /\ length (cd_cost c) = Nn + 1.

  Lemma rollout_lens t0 x0 c : is_rollout pb t0 x0 Nn c -> cand_lens c.
  Proof. intros [A B C _ _ _]; repeat split; auto. Qed.

  Definition gpass (s : ddp T) : pass T := {| p_k := s_k s; p_K := s_K s; p_d0 := s_dV0 s; p_d1 := s_dV1 s |}.

  Lemma forwardPass_spec alpha t0 x0 s :
    s_t s = t0 -> is_rollout pb t0 x0 Nn (s_cd s) -> cand_lens (s_cand s) ->
    wp True (forwardPass pb cf alpha)
       (fun _ s' => exists c, s' = set_cand c s /\ is_candidate pb t0 x0 Nn (s_cd s) (gpass s) alpha c)
       (fun _ _ => False) s.
  Proof.
    intros Ht Hro (Lx & Lu & Lc). unfold forwardPass.
    repeat wp1. rewrite (ro_x0 _ _ _ _ _ Hro) in Hm. injection Hm as <-.
    apply cd_setx_inv in Hm0 as (l & Ul & ->).
    set (fb := fun (c : cdata T) i => exists x u x' k K,
      nth_error (cd_x (s_cd s)) i = Some x /\ nth_error (cd_u (s_cd s)) i = Some u /\
      nth_error (cd_x c) i = Some x' /\
      nth_error (s_k s) i = Some k /\ nth_error (s_K s) i = Some K /\
      length k = length u /\ mdimb (length u) (length x) K = true /\ length x' = length x /\
      nth_error (cd_u c) i = Some (vadd (vadd u (vscale alpha k)) (mvmul K (vsub x' x)))).
    eapply wp_conseq.
    - apply (wp_for_up True (fun i s' => exists c, s' = set_cand c s /\ prefix_rollout t0 x0 i c /\
                                          forall j, j < i -> fb c j)
               (fun _ _ => False)).
      + intros i s' Hi (c & -> & P & F). unfold fw_body. repeat wp1.
        apply cd_setu_inv in Hm4 as (lu & Uu & ->). cbn in Uu.
        apply cd_setx_inv in Hm5 as (lx & Ux & ->). cbn in Ux.
        apply cd_setc_inv in Hm6 as (lc & Uc & ->). cbn in Uc.
        cbn in *. eexists; split; [reflexivity|].
        set (uc := vadd _ _) in *.
        assert (P' : prefix_rollout t0 x0 i {| cd_x := cd_x c; cd_u := lu; cd_cost := cd_cost c |}).
        { destruct P as [Lx' Lu' Lc' X0 St]. split; cbn [cd_x cd_u cd_cost]; auto.
          - rewrite (upd_length _ _ _ _ Uu); exact Lu'.
          - intros j Hj. destruct (St j Hj) as (xj & uj & H1 & H2 & H3 & H4). exists xj, uj.
            rewrite (nth_upd_ne _ _ _ _ _ Uu) by lia. auto. }
        rewrite Ht in *. split.
        * eapply (prefix_extend t0 x0 i _ _ uc lx lc Hi P'); cbn; eauto.
          apply (nth_upd_eq _ _ _ _ Uu).
        * intros j Hj. destruct (Nat.eq_dec j i) as [->|Hji].
          { exists v3, v, v2, v0, v1. cbn. rewrite (nth_upd_ne _ _ _ _ _ Ux) by lia.
            rewrite (nth_upd_eq _ _ _ _ Uu).
            match goal with H : vdimb _ _ && mdimb _ _ _ && vdimb _ _ = true |- _ =>
              apply andb_true_iff in H as [H Hd3]; apply andb_true_iff in H as [Hd1 Hd2] end.
            apply Nat.eqb_eq in Hd1, Hd3. auto 12. }
          { destruct (F j) as (x & u & x' & k & K & H1 & H2 & H3 & H4 & H5 & H6 & H7 & H8 & H9); [lia|].
            exists x, u, x', k, K. cbn. rewrite (nth_upd_ne _ _ _ _ _ Ux), (nth_upd_ne _ _ _ _ _ Uu) by lia.
            repeat split; auto. }
      + eexists; split; [reflexivity|]. split; [|intros j Hj; lia]. split; cbn [cd_x cd_u cd_cost]; auto.
        * rewrite (upd_length _ _ _ _ Ul); exact Lx.
        * apply (nth_upd_eq _ _ _ _ Ul).
        * intros i Hi; lia.
    - intros _ s' (c & -> & P & F). repeat wp1.
      apply cd_setc_inv in Hm0 as (lc & Uc & ->). cbn in *. rewrite Ht in *.
      eexists; split; [reflexivity|]. split; [eapply prefix_finish; eauto|]. exact F.
    - auto.
  Qed.

  (** ** Backward pass: only gains and dV change *)
  Definition bw_frame (s s' : ddp T) : Prop :=
    exists ks Ks a b, s' = set_gains ks Ks (set_dV a b s) /\
      length ks = length (s_k s) /\ length Ks = length (s_K s).

  Lemma bw_frame_refl s : bw_frame s s.
  Proof. exists (s_k s), (s_K s), (s_dV0 s), (s_dV1 s); destruct s; cbn; auto. Qed.
  Lemma bw_frame_trans s1 s2 s3 : bw_frame s1 s2 -> bw_frame s2 s3 -> bw_frame s1 s3.
  Proof.
    intros (ks & Ks & a & b & -> & H1 & H2) (ks' & Ks' & a' & b' & -> & H3 & H4).
    exists ks', Ks', a', b'; cbn in *; repeat split; congruence.
  Qed.

  Lemma gains_frame fuel i t d q s :
    wp True (gains LL pb cf limits fuel i t d q) (fun _ s' => s' = s)
       (fun e s' => s' = s /\ e <> InvalidArgument) s.
  Proof.
    unfold gains. destruct (Nat.ltb 0 _); [|repeat wp1; auto ; try (split; [reflexivity|discriminate])].
    destruct (cf_constraint cf); [|destruct (llt_issue _ _); repeat wp1; auto ; try (split; [reflexivity|discriminate])].
    wp1. wp1. wp1.
    eapply (wp_conseq _ _ (fun _ s' => s' = s) _ (fun e s' => s' = s /\ e <> InvalidArgument)).
    { destruct (Nat.eqb _ _); repeat wp1; auto ; try (split; [reflexivity|discriminate]). }
    2: auto.
    intros ik s' ->. wp1.
    eapply (wp_conseq _ _ (fun _ s' => s' = s) _ (fun e s' => s' = s /\ e <> InvalidArgument)).
    { unfold qp_ctor. destruct (_ <=? _)%Z; repeat wp1; auto ; try (split; [reflexivity|discriminate]). }
    2: auto.
    intros n s' ->. wp1.
    eapply (wp_conseq _ _ (fun _ s' => s' = s) _ (fun e s' => s' = s /\ e <> InvalidArgument)).
    { destruct limits; repeat wp1; auto ; try (split; [reflexivity|discriminate]). }
    2: auto.
    intros lim s' ->. repeat wp1.
    eapply wp_conseq; [apply (qp_solve_spec LL _ _ _ _ _ _ True (fun e s' => s' = s /\ e <> InvalidArgument)); auto| |auto].
    intros out s' (-> & Hr & _).
    destruct (qo_retval out <? 0)%Z.
    { match goal with |- wp _ (if ?c then _ else _) _ _ _ => destruct c end; repeat wp1; auto ; try (split; [reflexivity|discriminate]). }
    destruct (Nat.ltb 0 _); repeat wp1; auto ; try (split; [reflexivity|discriminate]).
  Qed.

  Lemma bw_step_frame fuel i Vx Vxx s :
    wp True (bw_step LL pb cf limits fuel i Vx Vxx) (fun _ s' => bw_frame s s')
       (fun e s' => bw_frame s s' /\ e <> InvalidArgument) s.
  Proof.
    unfold bw_step. repeat wp1. destruct (cf_second cf); [wp1; split; [apply bw_frame_refl|discriminate]|].
    repeat wp1. eapply wp_conseq; [apply gains_frame| |intros e s' [-> He]; split; [apply bw_frame_refl|exact He]].
    intros r s' ->. destruct r as [[k K]|]; [|wp1; apply bw_frame_refl].
    repeat wp1. destruct (v_update _ _ _) as [Vx' Vxx'] eqn:Ev.
    repeat wp1. eexists _, _, _, _. split; [reflexivity|].
    split; [apply (upd_length _ _ _ _ Hm0)|apply (upd_length _ _ _ _ Hm1)].
  Qed.

  Lemma bw_loop_frame fuel n : forall Vx Vxx s,
    wp True (bw_loop LL pb cf limits fuel n Vx Vxx) (fun _ s' => bw_frame s s')
       (fun e s' => bw_frame s s' /\ e <> InvalidArgument) s.
  Proof.
    induction n as [|i IH]; intros Vx Vxx s; cbn [bw_loop]; [wp1; apply bw_frame_refl|].
    wp1. eapply wp_conseq; [apply bw_step_frame| |auto].
    intros [[Vx' Vxx']|] s' Hf; [|wp1; exact Hf].
    eapply wp_conseq; [apply IH| |]; [intros; eapply bw_frame_trans; eauto|].
    intros e s'' [H He]; split; [eapply bw_frame_trans; eauto|exact He].
  Qed.

  Lemma backwardPass_frame fuel s :
    wp True (backwardPass LL pb cf limits fuel) (fun _ s' => bw_frame s s')
       (fun e s' => bw_frame s s' /\ e <> InvalidArgument) s.
  Proof.
    unfold backwardPass. repeat wp1.
    assert (H0 : bw_frame s (set_dV nzero nzero s)).
    { exists (s_k s), (s_K s), nzero, nzero; destruct s; cbn; auto. }
    eapply wp_conseq; [apply bw_loop_frame| |].
    - intros a s' H. eapply bw_frame_trans; [exact H0|exact H].
    - intros e s'' [H He]. split; [eapply bw_frame_trans; [exact H0|exact H]|exact He].
  Qed.

  Variables (t0 : T) (qfuel : nat).
  Notation step_gains := (step_gains pb cf t0 LL limits qfuel).
  Notation backward_from := (backward_from pb cf t0 LL limits qfuel).
  Notation backward := (backward pb cf t0 Nn LL limits qfuel).

  Lemma wp_nat {S A} (m : M S A) mu (Q : A -> S -> Prop) (E : exn -> S -> Prop) s :
    st_nat m mu -> (forall a, mu tt = Ok a tt -> Q a s) -> (forall e, mu tt = Throw e tt -> E e s) -> wp True m Q E s.
  Proof. intros H H1 H2. unfold wp. rewrite H. destruct (mu tt) as [a []|e []| |]; cbn; auto. Qed.
  Lemma skipn_nth {A} (l : list A) j a : nth_error l j = Some a -> skipn j l = a :: skipn (S j) l.
  Proof.
    revert j; induction l as [|b l IH]; intros [|j] Ha; cbn in *; try discriminate.
    - injection Ha as ->; reflexivity.
    - apply IH; exact Ha.
  Qed.
  Lemma skipn_upd {A} (l l' : list A) i v : upd l i v = Some l' -> skipn i l' = v :: skipn (S i) l.
  Proof.
    revert i l'; induction l as [|b l IH]; intros [|i] l' E; cbn in *; try discriminate.
    - injection E as <-; reflexivity.
    - destruct (upd l i v) eqn:E'; [|discriminate]. injection E as <-. cbn. rewrite (IH _ _ E'). destruct l; reflexivity.
  Qed.

  Lemma find_idx_spec i l : match find_idx i l with Some p => nth_error l p = Some i | None => ~ In i l end.
  Proof.
    induction l as [|a l IH]; cbn; [auto|]. destruct (Nat.eqb_spec a i) as [->|Hne]; [reflexivity|].
    destruct (find_idx i l); cbn; [exact IH|]. intros [H|H]; auto.
  Qed.
  Lemma constrained_K_spec nu nx free Hf Qux : free_gain LL nu nx free Hf Qux (constrained_K LL nu nx free Hf Qux).
  Proof.
    unfold constrained_K. split; [apply mbuild_dim|]. intros i j Hi Hj. rewrite mbuild_get by assumption.
    pose proof (find_idx_spec i free) as Hx. destruct (find_idx i free) as [p|].
    - split; [intros H; destruct H; eapply nth_error_In; eauto|]. intros _. exists p. split; [exact Hx|reflexivity].
    - split; [reflexivity|contradiction].
  Qed.

  Lemma gains_spec i d q s : i < Nn -> length (s_k s) = Nn ->
    wp True (gains LL pb cf limits qfuel i (tm pb t0 i) d q)
       (fun r s' => s' = s /\ forall u, nth_error (cd_u (s_cd s)) i = Some u ->
                      step_gains i u d q (skipn (S i) (s_k s)) r)
       (fun e s' => s' = s /\ e <> InvalidArgument) s.
  Proof.
    intros Hi Lk. unfold gains. destruct (Nat.ltb 0 _) eqn:Enu.
    2:{ wp1. split; [reflexivity|]. intros u Hu. apply sg_empty. apply Nat.ltb_ge in Enu. lia. }
    apply Nat.ltb_lt in Enu.
    destruct (cf_constraint cf) eqn:Ec.
    2:{ destruct (llt_issue LL (qQuu_F q)) eqn:Ei; wp1; (split; [reflexivity|]); intros u Hu; constructor; auto. }
    wp1. wp1. wp1.
    eapply (wp_conseq _ _ (fun ik s' => s' = s /\ ik = match skipn (S i) (s_k s) with
              | k1 :: _ => if Nat.eqb (length k1) (mcols (dFu d)) then k1 else vzero (mcols (dFu d))
              | [] => vzero (mcols (dFu d)) end) _ (fun e s' => s' = s /\ e <> InvalidArgument)).
    { destruct (Nat.eqb (i + 1) Nn) eqn:E.
      - apply Nat.eqb_eq in E. wp1. split; [reflexivity|]. rewrite skipn_all2 by lia. reflexivity.
      - wp1. wp1. wp1. split; [reflexivity|]. replace (i + 1) with (S i) in Hm by lia.
        rewrite (skipn_nth _ _ _ Hm). reflexivity. }
    2: auto.
    intros ik s' [-> Hik]. wp1.
    unfold qp_ctor. destruct (_ <=? _)%Z; [wp1; split; [reflexivity|discriminate]|].
    wp1. rewrite Nat2Z.id. wp1.
    destruct limits as [f|] eqn:El; [|wp1; split; [reflexivity|discriminate]].
    wp1. wp1. wp1. wp1. wp1. wp1.
    match goal with H : _ && _ = true |- _ => apply andb_true_iff in H as [Hl1 Hl2] end.
    apply Nat.eqb_eq in Hl1, Hl2.
    eapply wp_nat; [apply qp_solve_state| |].
    2:{ intros e Eq. split; [reflexivity|]. pose proof (qp_solve_spec LL qp_default_config (mcols (qQuu_F q)) (qQuu_F q) (qQu q) (vsub (fst (f (tm pb t0 i))) v)
                  (vsub (snd (f (tm pb t0 i))) v) True (fun e (_ : unit) => e <> InvalidArgument) qfuel qfuel None ik tt) as Hw.
        unfold wp in Hw. rewrite Eq in Hw. apply Hw. exact (fun _ => I). }
    intros out Eq.
    assert (Hb : forall u, nth_error (cd_u (s_cd s)) i = Some u -> box pb t0 LL (Some f) qfuel i u d q (skipn (S i) (s_k s)) f ik out).
    { intros u Hu. rewrite Hm in Hu. injection Hu as <-. repeat split; auto. }
    clear Eq. destruct (qo_retval out <? 0)%Z eqn:Er; [apply Z.ltb_lt in Er|apply Z.ltb_ge in Er].
    { match goal with |- wp _ (if ?c then _ else _) _ _ _ => destruct c end; wp1; (split; [reflexivity|]); [discriminate|].
      intros u Hu. eapply sg_box_none; eauto. }
    destruct (qo_free out) as [|f0 fr] eqn:Ef; cbn [length Nat.ltb Nat.leb].
    { wp1. split; [reflexivity|]. intros u Hu. eapply sg_box; eauto. intros Hn. congruence. }
    repeat wp1. split; [reflexivity|]. intros u Hu. eapply sg_box; eauto; [congruence|]. rewrite Ef. intros _.
    eexists. split; [exact Hm0|]. apply constrained_K_spec.
  Qed.

  (** Results of the steps from [i] on. *)
  Definition part (i : nat) (s : ddp T) : pass T :=
    {| p_k := skipn i (s_k s); p_K := skipn i (s_K s); p_d0 := s_dV0 s; p_d1 := s_dV1 s |}.

  Lemma bw_step_spec i Vx Vxx s :
    s_t s = t0 -> i < Nn -> length (s_k s) = Nn -> length (s_K s) = Nn -> length (cd_u (s_cd s)) = Nn ->
    wp True (bw_step LL pb cf limits qfuel i Vx Vxx)
       (fun r s' => bw_frame s s' /\ cf_second cf = false /\ exists u d, nth_error (cd_u (s_cd s)) i = Some u /\ nth_error (s_deriv s) i = Some d /\
          deriv_dims pb d Vx Vxx = true /\ let q := q_of cf d Vx Vxx (s_lambda s) in
          match r with
          | None => step_gains i u d q (p_k (part (S i) s)) None
          | Some V' => exists k K, step_gains i u d q (p_k (part (S i) s)) (Some (k, K)) /\
              length k = mcols (dFu d) /\ mdimb (mcols (dFu d)) (pb_nx pb) K = true /\ v_update q k K = V' /\
              part i s' = {| p_k := k :: p_k (part (S i) s); p_K := K :: p_K (part (S i) s);
                             p_d0 := (p_d0 (part (S i) s) + dot k (qQu q))%num;
                             p_d1 := (p_d1 (part (S i) s) + nhalf * dot k (mvmul (qQuu q) k))%num |}
          end)
       (fun e s' => bw_frame s s' /\ e <> InvalidArgument) s.
  Proof.
    intros Ht Hi Lk LK Lu.
    assert (Eu : exists u, nth_error (cd_u (s_cd s)) i = Some u).
    { destruct (nth_error (cd_u (s_cd s)) i) eqn:E; eauto. apply nth_error_None in E. lia. }
    destruct Eu as [u Eu].
    unfold bw_step. repeat wp1. destruct (cf_second cf) eqn:Es; [wp1; split; [apply bw_frame_refl|discriminate]|].
    repeat wp1. rewrite Ht. eapply wp_conseq; [apply gains_spec; auto| |intros e s' [-> He]; split; [apply bw_frame_refl|exact He]].
    intros r s' [-> Hsg]. specialize (Hsg u Eu). destruct r as [[k K]|].
    2:{ wp1. split; [apply bw_frame_refl|]. split; [reflexivity|]. exists u, v. auto. }
    repeat wp1. destruct (v_update _ _ _) as [Vx' Vxx'] eqn:Ev.
    repeat wp1. 
    match goal with H : vdimb _ _ && mdimb _ _ _ = true |- _ => apply andb_true_iff in H as [D1 D2] end. apply Nat.eqb_eq in D1.
    split.
    { eexists _, _, _, _. split; [reflexivity|]. split; [apply (upd_length _ _ _ _ Hm0)|apply (upd_length _ _ _ _ Hm1)]. }
    split; [reflexivity|]. exists u, v. split; [exact Eu|]. split; [exact Hm|]. split; [assumption|]. cbn zeta.
    exists k, K. split; [exact Hsg|]. split; [exact D1|]. split; [exact D2|]. split; [congruence|].
    unfold part; cbn [s_k s_K s_dV0 s_dV1 set_gains set_dV p_k p_K p_d0 p_d1]. rewrite (skipn_upd _ _ _ _ Hm0), (skipn_upd _ _ _ _ Hm1). reflexivity.
  Qed.

  Lemma bw_loop_spec n : forall Vx Vxx s,
    s_t s = t0 -> n <= Nn -> length (s_k s) = Nn -> length (s_K s) = Nn -> length (cd_u (s_cd s)) = Nn ->
    wp True (bw_loop LL pb cf limits qfuel n Vx Vxx)
       (fun b s' => bw_frame s s' /\ backward_from (cd_u (s_cd s)) (s_deriv s) (s_lambda s) n Vx Vxx (part n s)
                                      (if b : bool then Some (gpass s') else None))
       (fun e s' => bw_frame s s' /\ e <> InvalidArgument) s.
  Proof.
    induction n as [|i IH]; intros Vx Vxx s Ht Hi Lk LK Lu; cbn [bw_loop].
    { wp1. split; [apply bw_frame_refl|]. apply bf_end. }
    wp1. eapply wp_conseq; [apply bw_step_spec; auto; lia| |auto].
    intros r s' (Hf & Hsec & u & d & Eu & Ed & Dd & Hr). destruct r as [[Vx' Vxx']|].
    - destruct Hr as (k & K & Hg & D1 & D2 & Hv & Hp).
      pose proof Hf as (ks & Ks & a & b & E & E1 & E2).
      assert (Hs' : s_t s' = t0 /\ length (s_k s') = Nn /\ length (s_K s') = Nn /\ s_cd s' = s_cd s /\ s_deriv s' = s_deriv s /\ s_lambda s' = s_lambda s).
      { subst s'; cbn. repeat split; congruence. }
      destruct Hs' as (S1 & S2 & S3 & S4 & S5 & S6).
      eapply wp_conseq; [apply IH; auto; [lia|congruence]| |].
      + intros b' s'' [Hf' Hb]. split; [eapply bw_frame_trans; eauto|].
        rewrite S4, S5, S6, Hp in Hb. eapply bf_step; eauto.
      + intros e s'' [H He]; split; [eapply bw_frame_trans; eauto|exact He].
    - wp1. split; [exact Hf|]. eapply bf_fail; eauto.
  Qed.

  (** The state is ready for a backward pass around [c]. *)
  Definition ready (c : cdata T) (s : ddp T) : Prop :=
    s_t s = t0 /\ s_cd s = c /\ length (s_k s) = Nn /\ length (s_K s) = Nn /\ length (cd_u c) = Nn /\
    length (s_deriv s) = Nn /\
    (forall i, i < Nn -> exists x u old d, nth_error (cd_x c) i = Some x /\ nth_error (cd_u c) i = Some u /\
         nth_error (s_deriv s) i = Some d /\ derivs_at pb cf (tm pb t0 i) x u old d) /\
    exists xN old, nth_error (cd_x c) Nn = Some xN /\ (s_Vx s, s_Vxx s) = pb_terminalCostDeriv pb (tm pb t0 Nn) xN old.

  Lemma backwardPass_spec c s : ready c s ->
    wp True (backwardPass LL pb cf limits qfuel)
       (fun b s' => bw_frame s s' /\ backward c (s_lambda s) (if b : bool then Some (gpass s') else None))
       (fun e s' => bw_frame s s' /\ e <> InvalidArgument) s.
  Proof.
    intros (Ht & Hc & Lk & LK & Lu & Ld & Hds & xN & old & HxN & HV). unfold backwardPass. repeat wp1.
    assert (H0 : bw_frame s (set_dV nzero nzero s)).
    { exists (s_k s), (s_K s), nzero, nzero; destruct s; cbn; auto. }
    eapply wp_conseq; [apply bw_loop_spec; cbn; auto; congruence| |].
    - intros b s' [H Hb]. split; [eapply bw_frame_trans; [exact H0|exact H]|].
      exists (s_deriv s), xN, old. split; [exact Ld|]. split; [exact Hds|]. split; [exact HxN|]. cbn zeta.
      change (t0 + nofnat Nn * pb_dt pb)%num with (tm pb t0 Nn). rewrite <- HV. cbn [fst snd].
      cbn in Hb. rewrite Hc in Hb. unfold part in Hb; cbn in Hb.
      rewrite !skipn_all2 in Hb by lia. exact Hb.
    - intros e s'' [H He]. split; [eapply bw_frame_trans; [exact H0|exact H]|exact He].
  Qed.

  (** ** Retry loop *)
  Definition regs (s : ddp T) : reg := (s_lambda s, s_dlambda s).
  (** gains, dV and lambda may change *)
  Definition rt_frame (s s' : ddp T) : Prop :=
    exists ks Ks a b l d, s' = set_lambda l d (set_gains ks Ks (set_dV a b s)) /\
      length ks = length (s_k s) /\ length Ks = length (s_K s).
  Lemma bw_rt s s' : bw_frame s s' -> rt_frame s s'.
  Proof.
    intros (ks & Ks & a & b & -> & H1 & H2). exists ks, Ks, a, b, (s_lambda s), (s_dlambda s); destruct s; cbn; auto.
  Qed.
  Lemma rt_frame_trans s1 s2 s3 : rt_frame s1 s2 -> rt_frame s2 s3 -> rt_frame s1 s3.
  Proof.
    intros (ks & Ks & a & b & l & d & -> & H1 & H2) (ks' & Ks' & a' & b' & l' & d' & -> & H3 & H4).
    exists ks', Ks', a', b', l', d'; cbn in *; repeat split; congruence.
  Qed.
  Lemma inc_frame s : rt_frame s (inc_lambda cf s).
  Proof.
    exists (s_k s), (s_K s), (s_dV0 s), (s_dV1 s), (s_lambda (inc_lambda cf s)), (s_dlambda (inc_lambda cf s)).
    destruct s; cbn; auto.
  Qed.
  Lemma bw_regs s s' : bw_frame s s' -> regs s' = regs s.
  Proof. intros (ks & Ks & a & b & -> & _); reflexivity. Qed.

  Lemma bw_retry_frame fuel : forall s,
    wp True (bw_retry LL pb cf limits fuel qfuel) (fun b s' => rt_frame s s')
       (fun e s' => rt_frame s s' /\ e <> InvalidArgument) s.
  Proof.
    induction fuel as [|f IH]; intros s; cbn [bw_retry]; [exact I|].
    wp1. eapply wp_conseq; [apply backwardPass_frame| |intros e s' [H He]; split; [apply bw_rt; exact H|exact He]].
    intros b s' Hf. apply bw_rt in Hf. destruct b; [wp1; exact Hf|]. repeat wp1.
    pose proof (rt_frame_trans _ _ _ Hf (inc_frame s')) as Hf'.
    match goal with |- wp _ (if ?c then _ else _) _ _ _ => destruct c end; [wp1; exact Hf'|].
    eapply wp_conseq; [apply IH| |].
    - intros b s'' H. eapply rt_frame_trans; eauto.
    - intros e s'' [H He]. split; [eapply rt_frame_trans; eauto|exact He].
  Qed.

  Lemma ready_frame c s s' : rt_frame s s' -> ready c s -> ready c s'.
  Proof.
    intros (ks & Ks & a & b & l & d & -> & H1 & H2) (Ht & Hc & Lk & LK & Lu & Ld & Hds & HV).
    repeat split; cbn; auto; congruence.
  Qed.

  Lemma bw_retry_spec fuel c : forall s, ready c s ->
    wp True (bw_retry LL pb cf limits fuel qfuel)
       (fun b s' => rt_frame s s' /\ retry pb cf t0 Nn LL limits qfuel c (if b : bool then Some (gpass s') else None) (regs s) (regs s'))
       (fun e s' => rt_frame s s' /\ e <> InvalidArgument) s.
  Proof.
    induction fuel as [|f IH]; intros s Hrd; cbn [bw_retry]; [exact I|].
    wp1. eapply wp_conseq; [apply (backwardPass_spec c); exact Hrd| |intros e s' [H He]; split; [apply bw_rt; exact H|exact He]].
    intros b s' [Hf Hb]. pose proof (bw_regs _ _ Hf) as Hr. apply bw_rt in Hf.
    destruct b.
    - wp1. split; auto. rewrite Hr. constructor. exact Hb.
    - repeat wp1.
      assert (Hi : regs (inc_lambda cf s') = reg_up cf (regs s)).
      { rewrite <- Hr. reflexivity. }
      destruct (s_lambda (inc_lambda cf s') >? cf_lambda_max cf)%num eqn:El.
      + wp1. split; [eapply rt_frame_trans; [exact Hf|apply inc_frame]|].
        rewrite Hi. apply retry_fail; [exact Hb|]. rewrite <- Hi. exact El.
      + eapply wp_conseq; [apply IH| |].
        * eapply ready_frame; [|exact Hrd]. eapply rt_frame_trans; [exact Hf|apply inc_frame].
        * intros b s'' [H1 H2]. split.
          { eapply rt_frame_trans; [exact Hf|]. eapply rt_frame_trans; [apply inc_frame|exact H1]. }
          rewrite Hi in H2. apply retry_again; auto. rewrite <- Hi. exact El.
        * intros e s'' [H1 He]. split; [|exact He]. eapply rt_frame_trans; [exact Hf|]. eapply rt_frame_trans; [apply inc_frame|exact H1].
  Qed.

  (** ** Derivatives *)
  Lemma deriv_loop_frame s :
    wp True (for_up Nn (deriv_body pb cf))
       (fun _ s' => exists ds, s' = set_deriv ds s /\ length ds = length (s_deriv s) /\
          forall i, i < Nn -> exists x u old d, nth_error (cd_x (s_cd s)) i = Some x /\ nth_error (cd_u (s_cd s)) i = Some u /\
             nth_error ds i = Some d /\ derivs_at pb cf (tm pb (s_t s) i) x u old d) (fun _ _ => False) s.
  Proof.
    apply (wp_for_up True (fun i s' => exists ds, s' = set_deriv ds s /\ length ds = length (s_deriv s) /\
       forall j, j < i -> exists x u old d, nth_error (cd_x (s_cd s)) j = Some x /\ nth_error (cd_u (s_cd s)) j = Some u /\
             nth_error ds j = Some d /\ derivs_at pb cf (tm pb (s_t s) j) x u old d)).
    - intros i s' Hi (ds & -> & Hl & Hj). unfold deriv_body.
      wp1. wp1. wp1. wp1. wp1. wp1. wp1. wp1. cbn [set_deriv s_t] in *.
      destruct (if cf_second cf then _ else _) as [Fx Fu] eqn:EF.
      destruct (pb_runningCostDeriv _ _ _ _ _) as [[[[Lx Lu] Lxx] Luu] Lxu] eqn:EL.
      repeat wp1. cbn in Hm0, Hm1, Hm2.
      eexists; split; [reflexivity|]. split; [rewrite (upd_length _ _ _ _ Hm2); exact Hl|].
      intros j Hji. destruct (Nat.eq_dec j i) as [->|Hne].
      + exists v0, v1, v. eexists. split; [exact Hm0|]. split; [exact Hm1|]. split; [apply (nth_upd_eq _ _ _ _ Hm2)|].
        split; cbn; [exact (eq_sym EF)|exact (eq_sym EL)].
      + destruct (Hj j) as (x & u & old & d & H1 & H2 & H3 & H4); [lia|]. exists x, u, old, d.
        rewrite (nth_upd_ne _ _ _ _ _ Hm2) by lia. auto.
    - exists (s_deriv s); destruct s; cbn; split; [auto|]. split; [auto|]. intros j Hj; lia.
  Qed.

  Lemma k_rel_norm_spec n : forall i acc (s : ddp T) v,
    k_rel_norm_from i n acc s = Some v -> length (cd_u (s_cd s)) = i + n -> length (s_k s) = i + n ->
    v = rel_norm (skipn i (s_k s)) (skipn i (cd_u (s_cd s))) acc.
  Proof.
    induction n as [|n IH]; intros i acc s v E Hu Hk; cbn [k_rel_norm_from] in E.
    - rewrite !skipn_all2 by lia. injection E as <-. reflexivity.
    - destruct (nth_error (s_k s) i) as [k|] eqn:Ek; [|discriminate].
      destruct (nth_error (cd_u (s_cd s)) i) as [u|] eqn:Eu; [|discriminate].
      apply IH in E; [|lia|lia].
      rewrite E.
      assert (Hs : forall A (l : list A) j a, nth_error l j = Some a -> skipn j l = a :: skipn (j + 1) l).
      { induction l as [|b l IHl]; intros [|j] a Ha; cbn in *; try discriminate.
        - injection Ha as ->; reflexivity.
        - apply IHl; exact Ha. }
      rewrite (Hs _ _ _ _ Ek), (Hs _ _ _ _ Eu). reflexivity.
  Qed.

  (** ** Line search *)
  Lemma line_search_spec x0 alphas : forall al ac ex ra s,
    s_t s = t0 -> is_rollout pb t0 x0 Nn (s_cd s) -> cand_lens (s_cand s) ->
    wp True (line_search pb cf alphas al ac ex ra)
       (fun r s' => let '(succ, al', ac', ex', ra') := r in
          exists c, s' = set_cand c s /\ cand_lens c /\ (succ = true -> is_rollout pb t0 x0 Nn c) /\
          if alphas then succ = false /\ al' = al /\ ac' = ac /\ ex' = ex /\ ra' = ra
          else search pb cf t0 x0 Nn (s_cd s) (gpass s) alphas (if succ : bool then Some c else None) al' ac' ex' ra')
       (fun _ _ => False) s.
  Proof.
    induction alphas as [|a rest IH]; intros al ac ex ra s Ht Hro Hc; cbn [line_search].
    - wp1. exists (s_cand s). split; [destruct s; reflexivity|]. split; [exact Hc|]. split; [discriminate|].
      repeat split; reflexivity.
    - wp1. eapply wp_conseq; [apply (forwardPass_spec a t0 x0 s Ht Hro Hc)| |auto].
      intros _ s' (c & -> & Hr). repeat wp1. cbv zeta.
      match goal with |- wp _ (if ?c then _ else _) _ _ _ => destruct c eqn:Er end.
      + wp1. exists c; split; [reflexivity|]. split; [apply (rollout_lens _ _ _ (proj1 Hr))|].
        split; [intros _; apply Hr|]. apply se_accept. split; auto.
      + assert (Htr : trial pb cf t0 x0 Nn (s_cd s) (gpass s) a c false) by (split; auto).
        eapply wp_conseq; [apply (IH _ _ _ _ (set_cand c s)); auto| |auto].
        { cbn; apply (rollout_lens _ _ _ (proj1 Hr)). }
        intros [[[[succ al'] ac'] ex'] ra'] s' (c' & -> & Hl & Hs & Hx).
        exists c'; split; [destruct s; reflexivity|]. split; auto. split; auto.
        destruct rest as [|b rest].
        * destruct Hx as (-> & -> & -> & -> & ->). apply se_last. exact Htr.
        * eapply se_skip; eauto.
  Qed.

  (** ** One iteration *)
  Record inv (x0 : vec T) (s : ddp T) : Prop := {
    iv_t : s_t s = t0;
    iv_ro : is_rollout pb t0 x0 Nn (s_cd s);
    iv_cand : cand_lens (s_cand s);
    iv_k : length (s_k s) = Nn;
    iv_K : length (s_K s) = Nn;
    iv_d : length (s_deriv s) = Nn
  }.

  Lemma search_roll x0 c g l o al ac ex ra c' :
    search pb cf t0 x0 Nn c g l o al ac ex ra -> o = Some c' -> is_rollout pb t0 x0 Nn c'.
  Proof. induction 1; intros E; try discriminate; auto. injection E as <-. apply H. Qed.

  Definition mst_of (s : ddp T) : mst (T := T) := (s_cd s, regs s, gpass s).

  Lemma procOnce_spec x0 fuel it s :
    inv x0 s ->
    wp True (procOnce LL pb cf limits fuel qfuel it)
       (fun r s' => inv x0 s' /\ exists e, s_trace s' = s_trace s ++ [e] /\
          iteration pb cf t0 x0 Nn LL limits qfuel it (mst_of s) r e (mst_of s'))
       (fun e s' => s_cd s' = s_cd s /\ e <> InvalidArgument) s.
  Proof.
    intros [Ht Hro Hc Hk HK Hd]. unfold procOnce. repeat wp1.
    eapply wp_conseq; [apply deriv_loop_frame| |intros e s' []].
    intros _ s1 (ds & -> & Hds & Hdv). cbn in Hds, Hdv. wp1. wp1. wp1. wp1.
    destruct (pb_terminalCostDeriv _ _ _ _) as [Vx Vxx] eqn:EV. wp1. wp1. wp1.
    eapply wp_conseq; [apply (bw_retry_spec _ (s_cd s))| |].
    { split; [exact Ht|]. split; [reflexivity|]. split; [exact Hk|]. split; [exact HK|].
      split; [apply (ro_lu _ _ _ _ _ Hro)|]. split; [cbn; congruence|]. split; [rewrite <- Ht; exact Hdv|].
      cbn in Hm, EV. exists v, (s_Vx s, s_Vxx s). split; [exact Hm|]. cbn. rewrite <- Ht. symmetry; exact EV. }
    2:{ intros e s' [(ks & Ks & a & b & l & d & -> & _) He]; split; [reflexivity|exact He]. }
    intros b s' [Hf Hr].
    destruct Hf as (ks & Ks & a & b' & l & d & -> & Hks & HKs). cbn in Hr, Hks, HKs.
    destruct b; cbn [negb].
    2:{ (repeat wp1). split; [split; cbn; auto; lia|]. exists (trace0 it). split; [reflexivity|].
        cbn. apply it_fail. exact Hr. }
    repeat wp1.
    match goal with H : k_rel_norm_from _ _ _ _ = Some ?v |- _ => rename H into Hkrn; rename v into krn end.
    apply k_rel_norm_spec in Hkrn; cbn; [|cbn; rewrite (ro_lu _ _ _ _ _ Hro); lia|cbn; lia].
    cbn in Hkrn.
    repeat wp1.
    match goal with |- wp _ (if ?c then _ else _) _ _ _ => destruct c eqn:Eg end.
    - (repeat wp1). split; [split; cbn; auto; lia|].
      exists (tr_set_krel krn (trace0 it)). split; [cbn; rewrite upd_last_app; reflexivity|].
      apply andb_true_iff in Eg as [E1 E2]. cbn in E2.
      apply it_small_gradient; auto. cbn; lia.
    - (repeat wp1). eapply wp_conseq; [apply (line_search_spec x0); cbn; auto| |intros e s' []].
      intros [[[[succ al'] ac'] ex'] ra'] s' (c' & -> & Hl & Hs & Hx).
      assert (Hse : search pb cf t0 x0 Nn (s_cd s) {| p_k := ks; p_K := Ks; p_d0 := a; p_d1 := b' |}
                      (cf_alpha_list cf) (if succ then Some c' else None) al' ac' ex' ra').
      { destruct (cf_alpha_list cf); [|exact Hx]. destruct Hx as (-> & -> & -> & -> & ->). constructor. }
      clear Hx.
      repeat wp1. cbn [set_cand s_dV0 s_dV1 s_cd set_trace set_lambda set_gains set_dV] in *.
      (repeat wp1). unfold accept. destruct succ.
      + repeat wp1. cbn. split; [split; cbn; auto; lia|].
        eexists; split; [rewrite !upd_last_app; reflexivity|].
        apply (it_accept pb cf t0 x0 Nn LL limits qfuel it (s_cd s) (regs s) (l, d) (gpass s) {| p_k := ks; p_K := Ks; p_d0 := a; p_d1 := b' |} krn c' al' ac' ex' ra'); auto; cbn; lia.
      + repeat wp1. cbn. split; [split; cbn; auto; lia|].
        eexists; split; [rewrite !upd_last_app; reflexivity|].
        apply (it_reject pb cf t0 x0 Nn LL limits qfuel it (s_cd s) (regs s) (l, d) (gpass s) {| p_k := ks; p_K := Ks; p_d0 := a; p_d1 := b' |} krn); auto; cbn; lia.
  Qed.

  Lemma opt_loop_spec x0 fuel n : forall it s,
    inv x0 s ->
    wp True (opt_loop LL pb cf limits fuel qfuel n it)
       (fun r s' => inv x0 s' /\ exists es, s_trace s' = s_trace s ++ es /\
          iterations pb cf t0 x0 Nn LL limits qfuel n it (mst_of s) r es (mst_of s'))
       (fun e s' => is_rollout pb t0 x0 Nn (s_cd s') /\ e <> InvalidArgument) s.
  Proof.
    induction n as [|n IH]; intros it s Hi; cbn [opt_loop].
    - wp1. split; auto. exists []. rewrite app_nil_r. split; auto. constructor.
    - wp1. eapply wp_conseq; [apply (procOnce_spec x0); auto| |].
      2:{ intros e s' [-> He]. split; [apply Hi|exact He]. }
      intros r s' (Hi' & e & Htr & Hit).
      destruct (r =? 0)%Z eqn:Er.
      + apply Z.eqb_eq in Er; subst r.
        eapply wp_conseq; [apply IH; auto| |auto].
        intros r s'' (Hi'' & es & Htr' & Hits). split; auto. exists (e :: es).
        split; [rewrite Htr', Htr, <- app_assoc; reflexivity|]. econstructor; eauto.
      + wp1. split; auto. exists [e]. split; auto. apply its_stop; auto. apply Z.eqb_neq; exact Er.
  Qed.

  (** ** solve *)
  Lemma check_u_spec us : forall i,
    check_u_from pb i t0 us = true <->
    forall j u, nth_error us j = Some u -> Z.of_nat (length u) = pb_inputDim pb (tm pb t0 (i + j)).
  Proof.
    induction us as [|u us IH]; intros i; cbn [check_u_from].
    - split; auto. intros _ [|j] u H; discriminate.
    - rewrite andb_true_iff, Z.eqb_eq, IH. split.
      + intros [H1 H2] [|j] v Hv; cbn in Hv.
        * injection Hv as <-. rewrite Nat.add_0_r. exact H1.
        * rewrite (H2 j v Hv). f_equal. f_equal. lia.
      + intros Hall. split.
        * rewrite (Hall 0 u eq_refl). f_equal. f_equal. lia.
        * intros j v Hv. rewrite (Hall (S j) v Hv). f_equal. f_equal. lia.
  Qed.

  Theorem ddp_solve_spec fuel x0 us s :
    wp True (ddp_solve LL pb cf limits jk fuel qfuel t0 x0 us)
       (fun b s' => valid_args pb cf t0 us /\ is_rollout pb t0 x0 Nn (s_cd s') /\
          exists c r es, run pb cf t0 x0 Nn LL limits qfuel us c r es (mst_of s') /\
            b = (r =? 1)%Z /\ s_trace s' = trace_start cf c :: es)
       (fun e s' => (e = InvalidArgument /\ Z.of_nat (length us) <> cf_horizon cf /\
                       s_cd s' = s_cd s /\ s_trace s' = s_trace s) \/
                    (e = RuntimeError /\ Z.of_nat (length us) = cf_horizon cf /\ ~ valid_args pb cf t0 us /\
                       s_cd s' = s_cd s /\ s_trace s' = s_trace s) \/
                    (valid_args pb cf t0 us /\ is_rollout pb t0 x0 Nn (s_cd s') /\ e <> InvalidArgument)) s.
  Proof.
    unfold ddp_solve. repeat wp1.
    destruct (Z.of_nat (length us) =? cf_horizon cf)%Z eqn:El; cbn [negb].
    2:{ wp1. left. apply Z.eqb_neq in El. auto. }
    apply Z.eqb_eq in El.
    assert (HN : length us = Nn) by (unfold N_; lia).
    match goal with |- wp _ (if ?c then _ else _) _ _ _ => destruct c eqn:Ed end.
    { wp1. right; left. repeat split; auto. intros [_ Hv].
      destruct (pb_fixed_nu pb); [discriminate|]. apply negb_true_iff in Ed.
      rewrite <- not_true_iff_false in Ed. apply Ed. apply check_u_spec. intros j u Hj.
      apply (Hv eq_refl j u Hj). }
    assert (Hv : valid_args pb cf t0 us).
    { split; auto. intros Hn i u Hi. rewrite Hn in Ed. apply negb_false_iff in Ed.
      pose proof (proj1 (check_u_spec us 0) Ed) as Hall. apply Hall. exact Hi. }
    repeat wp1. apply cd_setx_inv in Hm as (lx & Ux & ->). cbn in Ux.
    set (s1 := set_cd _ _).
    assert (Hc0 : cand_lens (s_cand s1)).
    { unfold s1; cbn. unfold cand_lens; cbn. rewrite !resize_length. unfold cost_resize.
      destruct (Nat.eqb _ _) eqn:E; [apply Nat.eqb_eq in E; auto|].
      rewrite map_length, seq_length; auto. }
    eapply wp_conseq.
    - apply (wp_for_up True (fun i s' => exists c, s' = set_cd c s1 /\ prefix_rollout t0 x0 i c /\ cd_u c = us)
               (fun _ _ => False)).
      + intros i s' Hi (c & -> & P & Hu). unfold rollout_body. repeat wp1.
        apply cd_setx_inv in Hm1 as (lx' & Ux' & ->). cbn in Ux'.
        apply cd_setc_inv in Hm2 as (lc & Uc & ->). cbn in Uc.
        eexists; split; [reflexivity|]. cbn in *. split; [|exact Hu].
        eapply prefix_extend; eauto.
      + eexists; split; [unfold s1; destruct s; reflexivity|]. split; [|reflexivity].
        split; cbn [cd_x cd_u cd_cost]; auto.
        * rewrite (upd_length _ _ _ _ Ux), resize_length; reflexivity.
        * unfold cost_resize. destruct (Nat.eqb _ _) eqn:E; [apply Nat.eqb_eq in E; auto|].
          rewrite map_length, seq_length; reflexivity.
        * apply (nth_upd_eq _ _ _ _ Ux).
        * intros i Hi; lia.
    - intros _ s' (c & -> & P & Hu). repeat wp1.
      apply cd_setc_inv in Hm0 as (lc & Uc & ->). cbn in Hm, Uc.
      assert (Hro : is_rollout pb t0 x0 Nn {| cd_x := cd_x c; cd_u := cd_u c; cd_cost := lc |}).
      { eapply prefix_finish; eauto. }
      eapply wp_conseq; [apply (opt_loop_spec x0)| |].
      + split; cbn; auto; try (rewrite resize_length; reflexivity).
        destruct (pb_fixed_nu pb); [apply resize_length|rewrite map_length, seq_length; reflexivity].
      + intros r s' (Hi & es & Htr & Hits). wp1.
        split; [exact Hv|]. split; [apply Hi|].
        exists {| cd_x := cd_x c; cd_u := cd_u c; cd_cost := lc |}, r, es.
        split; [|split; [reflexivity|exact Htr]].
        split; [exact Hro|]. split; [exact Hu|]. eexists; exact Hits.
      + intros e s' Hr. right; right; auto.
    - intros e s' [].
  Qed.
End AnyScalar.
