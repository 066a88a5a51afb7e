(** Two FmpcSolver objects with different histories, and different contents of fresh memory, compared (for C34). *)
From Verif Require Import Prelude Scalar LinAlg DDP DDPHist Fmpc FmpcProofs FmpcStep.

Lemma last_split {A} (l : list A) n : length l = n + 1 -> exists f e, l = f ++ [e] /\ length f = n.
Proof.
  intros H. destruct l as [|a l] using rev_ind; [cbn in H; lia|]. exists l, a. rewrite app_length in H; cbn in H. split; [reflexivity|lia].
Qed.
Lemma nth_error_last {A} (f : list A) e n : length f = n -> nth_error (f ++ [e]) n = Some e.
Proof. intros <-. rewrite nth_error_app2, Nat.sub_diag by lia. reflexivity. Qed.
Lemma Forall2_nth {A} (R : A -> A -> Prop) l1 l2 n : length l1 = n -> length l2 = n ->
  (forall i a b, i < n -> nth_error l1 i = Some a -> nth_error l2 i = Some b -> R a b) -> Forall2 R l1 l2.
Proof.
  revert l2 n; induction l1 as [|a l1 IH]; intros [|b l2] n H1 H2 H; cbn in *; try lia; constructor.
  - apply (H 0); auto; lia.
  - apply (IH l2 (n - 1)); try lia. intros i x y Hi X Y. apply (H (S i)); auto; lia.
Qed.
Lemma Forall2_at {A} (R : A -> A -> Prop) l1 l2 i a b : Forall2 R l1 l2 -> nth_error l1 i = Some a -> nth_error l2 i = Some b -> R a b.
Proof. intros H; revert i; induction H; intros [|i] X Y; cbn in *; try discriminate; [congruence|eauto]. Qed.
(** Both defined or both undefined. *)
Definition both {A} (R : A -> A -> Prop) (o1 o2 : option A) : Prop :=
  match o1, o2 with Some a, Some b => R a b | None, None => True | _, _ => False end.
Lemma tabo_both {A} (R : A -> A -> Prop) n f g : (forall i, i < n -> both R (f i) (g i)) -> both (Forall2 R) (tabo n f) (tabo n g).
Proof.
  induction n as [|n IH]; intros H; cbn; [constructor|].
  assert (I := IH ltac:(intros; apply H; lia)). specialize (H n ltac:(lia)).
  destruct (tabo n f), (tabo n g); cbn in I; try contradiction; [|exact Logic.I].
  destruct (f n), (g n); cbn in H |- *; try contradiction; [|exact Logic.I].
  apply Forall2_app; [exact I|constructor; [exact H|constructor]].
Qed.

Section Hist.
  Context {T : Type} {N : Num T}.
  Variables (LO : linops T) (pb : fproblem T) (cf : fconfig T).
  Notation Nf := (Nf cf).

  (** Derivative callbacks write every entry of their outputs. *)
  Record overwrites_f : Prop := {
    of_sd : forall t x u o o', pb_stateEqDeriv (fp_dp pb) t x u o = pb_stateEqDeriv (fp_dp pb) t x u o';
    of_gd : forall t x u o o', fp_gDeriv pb t x u o = fp_gDeriv pb t x u o';
    of_cd : forall t x u o o', pb_runningCostDeriv (fp_dp pb) t x u o = pb_runningCostDeriv (fp_dp pb) t x u o';
    of_td : forall t x o o', pb_terminalCostDeriv (fp_dp pb) t x o = pb_terminalCostDeriv (fp_dp pb) t x o'
  }.
  Hypothesis OW : overwrites_f.

  (** The entries of the terminal coefficient that nothing writes are finite. *)
  Definition idle_fin (c : coeff T) : Prop :=
    mfinb (c_A c) && mfinb (c_B c) && mfinb (c_C c) && mfinb (c_D c) && vfinb (c_Lu c) && mfinb (c_Luu c) && mfinb (c_Lxu c)
      && vfinb (c_xbar c) && vfinb (c_gbar c) && vfinb (c_Lubar c) && vfinb (c_k c) && mfinb (c_K c) = true.
  Definition idle_ok (c : coeff T) : Prop := fc_check_nan cf = false \/ idle_fin c.

  (** Everything but the gains. *)
  Definition same_lin (c d : coeff T) : Prop :=
    c_A c = c_A d /\ c_B c = c_B d /\ c_C c = c_C d /\ c_D c = c_D d /\ c_Lx c = c_Lx d /\ c_Lu c = c_Lu d /\ c_Lxx c = c_Lxx d /\
    c_Luu c = c_Luu d /\ c_Lxu c = c_Lxu d /\ c_xbar c = c_xbar d /\ c_gbar c = c_gbar d /\ c_Lxbar c = c_Lxbar d /\ c_Lubar c = c_Lubar d.
  Definition same_end (c d : coeff T) : Prop := c_Lx c = c_Lx d /\ c_Lxx c = c_Lxx d /\ c_Lxbar c = c_Lxbar d /\ idle_ok c /\ idle_ok d.
  Definition lin_lists (l1 l2 : list (coeff T)) : Prop :=
    exists f1 f2 e1 e2, l1 = f1 ++ [e1] /\ l2 = f2 ++ [e2] /\ length f1 = Nf /\ length f2 = Nf /\ Forall2 same_lin f1 f2 /\ same_end e1 e2.
  Definition raw_list (l : list (coeff T)) : Prop := exists f e, l = f ++ [e] /\ length f = Nf /\ idle_ok e.

  Lemma coeff_at_both t0 v l1 l2 i : length l1 = Nf + 1 -> length l2 = Nf + 1 -> i < Nf ->
    both same_lin (coeff_at pb t0 v l1 i) (coeff_at pb t0 v l2 i).
  Proof.
    intros H1 H2 Hi. unfold coeff_at.
    destruct (nth_error l1 i) as [c|] eqn:E1; [|apply nth_error_None in E1; lia].
    destruct (nth_error l2 i) as [d|] eqn:E2; [|apply nth_error_None in E2; lia].
    destruct (nth_error (v_x v) i) as [x|]; [|exact I]. destruct (nth_error (v_x v) (i + 1)) as [x'|]; [|exact I].
    destruct (nth_error (v_u v) i) as [u|]; [|exact I]. destruct (nth_error (v_l v) i) as [l|]; [|exact I].
    destruct (nth_error (v_l v) (i + 1)) as [l'|]; [|exact I]. destruct (nth_error (v_s v) i) as [s|]; [|exact I].
    destruct (nth_error (v_n v) i) as [n|]; [|exact I]. unfold dp.
    rewrite (of_sd OW _ _ _ (c_A d, c_B d) (c_A c, c_B c)), (of_gd OW _ _ _ (c_C d, c_D d) (c_C c, c_D c)),
      (of_cd OW _ _ _ (c_Lx d, c_Lu d, c_Lxx d, c_Luu d, c_Lxu d) (c_Lx c, c_Lu c, c_Lxx c, c_Luu c, c_Lxu c)).
    destruct (pb_stateEqDeriv _ _ _ _ _) as [A B]. destruct (fp_gDeriv _ _ _ _ _) as [C D].
    destruct (pb_runningCostDeriv _ _ _ _ _) as [[[[Lx Lu] Lxx] Luu] Lxu].
    match goal with |- both _ (if ?b then _ else _) _ => destruct b end; [|exact I]. cbn. repeat split.
  Qed.
  Lemma coeff_end_both t0 v l1 l2 : raw_list l1 -> raw_list l2 -> both same_end (coeff_end pb cf t0 v l1) (coeff_end pb cf t0 v l2).
  Proof.
    intros (f1 & e1 & -> & L1 & I1) (f2 & e2 & -> & L2 & I2). unfold coeff_end. rewrite !nth_error_last by assumption.
    destruct (nth_error (v_x v) Nf) as [x|]; [|exact I]. destruct (nth_error (v_l v) Nf) as [l|]; [|exact I]. unfold dp.
    rewrite (of_td OW _ _ (c_Lx e2, c_Lxx e2) (c_Lx e1, c_Lxx e1)). destruct (pb_terminalCostDeriv _ _ _ _) as [Lx Lxx].
    match goal with |- both _ (if ?b then _ else _) _ => destruct b end; [|exact I]. cbn. repeat split; [exact I1|exact I2].
  Qed.
  Lemma raw_length l : raw_list l -> length l = Nf + 1.
  Proof. intros (f & e & -> & L & _). rewrite app_length. cbn. lia. Qed.
  Lemma coeffs_both t0 v l1 l2 : raw_list l1 -> raw_list l2 -> both lin_lists (coeffs pb cf t0 v l1) (coeffs pb cf t0 v l2).
  Proof.
    intros R1 R2. unfold coeffs.
    assert (B := tabo_both same_lin Nf (coeff_at pb t0 v l1) (coeff_at pb t0 v l2)
       ltac:(intros; apply coeff_at_both; auto using raw_length)).
    destruct (tabo Nf (coeff_at pb t0 v l1)) as [f1|] eqn:E1, (tabo Nf (coeff_at pb t0 v l2)) as [f2|] eqn:E2; cbn in B; try contradiction; [|exact I].
    assert (C := coeff_end_both t0 v l1 l2 R1 R2).
    destruct (coeff_end pb cf t0 v l1) as [e1|], (coeff_end pb cf t0 v l2) as [e2|]; cbn in C; try contradiction; [|exact I].
    exists f1, f2, e1, e2. repeat split; try apply (tabo_length _ _ _ E1); try apply (tabo_length _ _ _ E2); auto; apply C.
  Qed.
  Lemma kkt_sum_both eps f1 f2 e1 e2 : Forall2 same_lin f1 f2 -> same_end e1 e2 -> forall ss ns acc,
    kkt_sum eps (f1 ++ [e1]) ss ns (length f1) acc = kkt_sum eps (f2 ++ [e2]) ss ns (length f2) acc.
  Proof.
    intros F E. induction F as [|c d f1 f2 H F IH]; intros ss ns acc; cbn.
    - destruct E as (_ & _ & -> & _). reflexivity.
    - destruct ss as [|s ss]; [reflexivity|]. destruct ns as [|w ns]; [reflexivity|].
      destruct H as (_ & _ & _ & _ & _ & _ & _ & _ & _ & -> & -> & -> & ->). destruct (vdimb (length s) w); [apply IH|reflexivity].
  Qed.
  Lemma bw_coeff_both eps c d sl nl s P : same_lin c d -> bw_coeff LO pb cf eps c sl nl s P = bw_coeff LO pb cf eps d sl nl s P.
  Proof.
    intros (E1 & E2 & E3 & E4 & E5 & E6 & E7 & E8 & E9 & E10 & E11 & E12 & E13). unfold bw_coeff.
    rewrite E1, E2, E3, E4, E5, E6, E7, E8, E9, E10, E11, E12, E13. reflexivity.
  Qed.
  (** After the backward pass: equal but for what is idle at the end. *)
  Definition gain_end (c d : coeff T) : Prop := same_end c d /\ c_s c = c_s d /\ c_P c = c_P d.
  Definition full_lists (l1 l2 : list (coeff T)) : Prop := exists f e1 e2, l1 = f ++ [e1] /\ l2 = f ++ [e2] /\ length f = Nf /\ gain_end e1 e2.
  Lemma bw_coeffs_both eps l1 l2 f1 f2 (ss ns : list (vec T)) : Forall2 same_lin f1 f2 -> forall e1 e2 n, 
    l1 = f1 ++ [e1] -> l2 = f2 ++ [e2] -> length f1 = Nf -> length f2 = Nf -> n <= Nf -> forall s P g x1 x2, length g = Nf - n -> gain_end x1 x2 ->
    both (fun p q => fst p = fst q /\ length (snd p) = Nf + 1 /\ length (snd q) = Nf + 1 /\ (fst p = true -> full_lists (snd p) (snd q)) /\
            (exists f, snd p = f ++ [x1] /\ length f = Nf) /\ (exists f, snd q = f ++ [x2] /\ length f = Nf))
      (bw_coeffs LO pb cf eps l1 ss ns n s P (g ++ [x1])) (bw_coeffs LO pb cf eps l2 ss ns n s P (g ++ [x2])).
  Proof.
    intros F e1 e2 n -> -> L1 L2. induction n as [|n IH]; intros Hn s P g x1 x2 Lg G; cbn [bw_coeffs].
    - cbn. rewrite !app_length. cbn. split; [reflexivity|]. split; [lia|]. split; [lia|].
      split; [intros _; exists g, x1, x2; repeat split; try apply G; lia|]. split; exists g; split; auto; lia.
    - rewrite !nth_error_app1 by lia.
      destruct (nth_error f1 n) as [c|] eqn:E1; [|apply nth_error_None in E1; lia].
      destruct (nth_error f2 n) as [d|] eqn:E2; [|apply nth_error_None in E2; lia].
      destruct (nth_error ss n) as [sl|]; [|exact I]. destruct (nth_error ns n) as [nl|]; [|exact I].
      rewrite (bw_coeff_both eps c d) by (apply (Forall2_at same_lin f1 f2 n); auto).
      destruct (bw_coeff LO pb cf eps d sl nl s P) as [[c'|]|]; [| |exact I].
      + apply (IH ltac:(lia) (c_s c') (c_P c') (c' :: g) x1 x2); [cbn; lia|exact G].
      + cbn [both fst snd]. split; [reflexivity|].
        assert (Q : forall (f : list (coeff T)) e x, length f = Nf -> exists h, firstn (S n) (f ++ [e]) ++ g ++ [x] = h ++ [x] /\ length h = Nf).
        { intros f e x Lf. exists (firstn (S n) (f ++ [e]) ++ g). rewrite app_assoc, app_length, firstn_length, app_length. split; [reflexivity|cbn [length]; lia]. }
        destruct (Q f1 e1 x1 L1) as (h1 & -> & M1). destruct (Q f2 e2 x2 L2) as (h2 & -> & M2). rewrite !app_length; cbn.
        split; [lia|]. split; [lia|]. split; [discriminate|]. split; eauto.
  Qed.
  Lemma end_nan c d : fc_check_nan cf = true -> gain_end c d -> coeff_nan c = coeff_nan d.
  Proof.
    intros Hn ((E1 & E2 & E3 & [I1|I1] & [I2|I2]) & E4 & E5); try congruence. unfold coeff_nan. rewrite E1, E2, E3, E4, E5. f_equal.
    unfold idle_fin in *. repeat rewrite Bool.andb_true_iff in I1, I2.
    repeat match goal with H : _ /\ _ |- _ => destruct H end.
    repeat match goal with H : _ = true |- _ => rewrite H; clear H end. reflexivity.
  Qed.

  (** *** One iteration *)
  Definition dlen (d : var T) : Prop := v_hor d = fc_hor cf /\ length (v_x d) = Nf + 1 /\ length (v_l d) = Nf + 1 /\
    length (v_u d) = Nf /\ length (v_s d) = Nf /\ length (v_n d) = Nf.
  Record alike (s1 s2 : fsolver T) : Prop := {
    al_t : f_t s1 = f_t s2; al_x : f_x s1 = f_x s2; al_v : f_var s1 = f_var s2; al_tr : f_trace s1 = f_trace s2;
    al_e : fc_update_eps cf = true \/ f_eps s1 = f_eps s2;
    al_d1 : dlen (f_delta s1); al_d2 : dlen (f_delta s2);
    al_c1 : raw_list (f_coeff s1); al_c2 : raw_list (f_coeff s2)
  }.
  Definition always (s1 s2 : fsolver T) : Prop := True.

  Lemma backward_both s1 s2 : f_eps s1 = f_eps s2 -> f_var s1 = f_var s2 -> lin_lists (f_coeff s1) (f_coeff s2) ->
    rel always (fun b s1' s2' => exists l1 l2, s1' = set_fcoeff l1 s1 /\ s2' = set_fcoeff l2 s2 /\ raw_list l1 /\ raw_list l2 /\ (b = true -> full_lists l1 l2))
      (backward_pass LO pb cf s1) (backward_pass LO pb cf s2).
  Proof.
    intros Ee Ev (f1 & f2 & e1 & e2 & E1 & E2 & L1 & L2 & F & En). unfold backward_pass. rewrite E1, E2, !nth_error_last by assumption.
    assert (Q : forall (f : list (coeff T)) e x, length f = Nf -> overwrite [x] (skipn Nf (f ++ [e])) = [x]).
    { intros f e x Lf. rewrite <- Lf, skipn_app, skipn_all, Nat.sub_diag. reflexivity. }
    rewrite (Q f1), (Q f2) by assumption.
    assert (G : gain_end (bw_end e1) (bw_end e2)).
    { destruct En as (A & B & C & D & D'). repeat split; cbn; try congruence; [exact D|exact D']. }
    destruct G as (G1 & G2 & G3). rewrite Ee, Ev, G2, G3.
    assert (B := bw_coeffs_both (f_eps s2) _ _ f1 f2 (v_s (f_var s2)) (v_n (f_var s2)) F e1 e2 Nf eq_refl eq_refl L1 L2 (le_n _)
                   (c_s (bw_end e2)) (c_P (bw_end e2)) [] (bw_end e1) (bw_end e2) ltac:(cbn; lia) ltac:(repeat split; try apply G1; auto)).
    cbn [app] in B.
    destruct (bw_coeffs LO pb cf (f_eps s2) (f1 ++ [e1]) _ _ _ _ _ _) as [[b1 l1]|], (bw_coeffs LO pb cf (f_eps s2) (f2 ++ [e2]) _ _ _ _ _ _) as [[b2 l2]|];
      cbn in B; try contradiction; [|exact I].
    destruct B as (<- & _ & _ & B & (h1 & -> & M1) & (h2 & -> & M2)). cbn.
    assert (R : forall h (x : coeff T), length h = Nf -> idle_ok x -> raw_list (h ++ [x])) by (intros h x Lh Hx; exists h, x; auto).
    destruct G1 as (_ & _ & _ & I1 & I2).
    split; [|exists (h1 ++ [bw_end e1]), (h2 ++ [bw_end e2]); repeat split; auto; intros Hb; apply B; destruct b1; [reflexivity|discriminate]].
    destruct b1; [|reflexivity]. cbn. destruct (fc_check_nan cf) eqn:Hc; [|reflexivity]. cbn. f_equal.
    destruct (B eq_refl) as (f & x1 & x2 & X1 & X2 & Lf & G). rewrite X1, X2, !existsb_app. cbn. rewrite (end_nan x1 x2 Hc G). reflexivity.
  Qed.

  Lemma fw_lists_both f e1 e2 : gain_end e1 e2 -> forall dx, fw_lists pb (f ++ [e1]) (length f) dx = fw_lists pb (f ++ [e2]) (length f) dx.
  Proof.
    intros (_ & G1 & G2). induction f as [|c f IH]; intros dx; cbn.
    - rewrite G1, G2. reflexivity.
    - destruct (_ && _); [|reflexivity]. destruct (_ && _); [|reflexivity]. rewrite IH. reflexivity.
  Qed.
  Lemma fw_lists_length : forall cl n dx xs ls us, fw_lists pb cl n dx = Some (xs, ls, us) -> length xs = n + 1 /\ length ls = n + 1 /\ length us = n.
  Proof.
    clear OW. induction cl as [|c cl IH]; intros n dx xs ls us H; cbn in H; [discriminate|]. destruct (_ && _); [|discriminate].
    destruct n as [|n]; [injection H as <- <- <-; cbn; lia|]. destruct (_ && _); [|discriminate].
    destruct (fw_lists pb cl n _) as [[[xs' ls'] us']|] eqn:E; [|discriminate]. injection H as <- <- <-. apply IH in E. cbn. lia.
  Qed.
  Lemma full_nth l1 l2 i : full_lists l1 l2 -> i < Nf -> nth_error l1 i = nth_error l2 i.
  Proof. intros (f & e1 & e2 & -> & -> & L & _) Hi. rewrite !nth_error_app1 by lia. reflexivity. Qed.
  Lemma delta_both s1 s2 : f_eps s1 = f_eps s2 -> f_var s1 = f_var s2 -> f_x s1 = f_x s2 -> full_lists (f_coeff s1) (f_coeff s2) ->
    dlen (f_delta s1) -> dlen (f_delta s2) -> both (fun d1 d2 => d1 = d2 /\ dlen d1) (delta_of pb cf s1) (delta_of pb cf s2).
  Proof.
    intros Ee Ev Ex Fl (H1 & A1 & B1 & C1 & D1 & E1) (H2 & A2 & B2 & C2 & D2 & E2). unfold delta_of. rewrite Ev, Ex, Ee.
    destruct (nth_error (v_x (f_var s2)) 0) as [x0|]; [|exact I]. destruct (vdimb _ x0); [|exact I].
    assert (Ef : fw_lists pb (f_coeff s1) Nf (vsub (f_x s2) x0) = fw_lists pb (f_coeff s2) Nf (vsub (f_x s2) x0)).
    { destruct Fl as (f & e1 & e2 & -> & -> & <- & G). apply fw_lists_both; exact G. }
    rewrite Ef. destruct (fw_lists pb (f_coeff s2) Nf (vsub (f_x s2) x0)) as [[[xs ls] us]|] eqn:Efw; [|exact I].
    rewrite (tabo_ext Nf (fw_sn (f_eps s2) (f_coeff s1) (f_var s2) xs us) (fw_sn (f_eps s2) (f_coeff s2) (f_var s2) xs us)).
    2:{ intros i Hi. unfold fw_sn. rewrite (full_nth _ _ i Fl Hi). reflexivity. }
    destruct (tabo Nf (fw_sn (f_eps s2) (f_coeff s2) (f_var s2) xs us)) as [sn|] eqn:Es; [|exact I].
    rewrite A1, B1, C1, D1, E1, A2, B2, C2, D2, E2, !Nat.leb_refl. cbn [andb both].
    apply fw_lists_length in Efw as (X1 & X2 & X3). pose proof (tabo_length _ _ _ Es) as X4.
    rewrite !overwrite_same by (rewrite ?map_length; lia). split; [congruence|]. unfold dlen. cbn. rewrite !map_length. repeat split; auto.
  Qed.
  Lemma deriv_both t0 x0 eps v d l1 l2 : full_lists l1 l2 -> deriv_parts pb cf t0 x0 eps v d l1 = deriv_parts pb cf t0 x0 eps v d l2.
  Proof.
    intros Fl. unfold deriv_parts.
    rewrite (tabo_ext Nf (deriv_terms pb t0 eps v d l1) (deriv_terms pb t0 eps v d l2)).
    2:{ intros i Hi. unfold deriv_terms. rewrite (full_nth _ _ i Fl Hi). reflexivity. }
    destruct Fl as (f & e1 & e2 & -> & -> & L & ((E & _) & _)). rewrite !nth_error_last by exact L. rewrite E. reflexivity.
  Qed.
  Lemma ls_both fuel s1 s2 : f_t s1 = f_t s2 -> f_x s1 = f_x s2 -> f_var s1 = f_var s2 -> f_delta s1 = f_delta s2 -> f_eps s1 = f_eps s2 ->
    f_mscale s1 = f_mscale s2 -> f_mfunc s1 = f_mfunc s2 -> f_mderiv s1 = f_mderiv s2 -> forall a,
    rel always (fun _ s1' s2' => s1' = s1 /\ s2' = s2) (ls_loop pb cf fuel a s1) (ls_loop pb cf fuel a s2).
  Proof.
    intros E1 E2 E3 E4 E5 E6 E7 E8. induction fuel as [|fuel IH]; intros a; cbn [ls_loop]; [exact I|].
    destruct (nltb a _); [cbn; auto|]. rewrite E1, E2, E3, E4, E5, E6, E7, E8.
    match goal with |- rel _ _ (match ?o with _ => _ end) _ => destruct o as [m|] end; [|exact I].
    destruct (nltb m _); [cbn; auto|]. apply IH.
  Qed.
  Lemma update_both fuel s1 s2 : f_t s1 = f_t s2 -> f_x s1 = f_x s2 -> f_var s1 = f_var s2 -> f_delta s1 = f_delta s2 -> f_eps s1 = f_eps s2 ->
    full_lists (f_coeff s1) (f_coeff s2) ->
    rel always (fun _ s1' s2' => f_var s1' = f_var s2' /\ (f_t s1' = f_t s1 /\ f_x s1' = f_x s1 /\ f_trace s1' = f_trace s1 /\ f_eps s1' = f_eps s1 /\ f_delta s1' = f_delta s1 /\ f_coeff s1' = f_coeff s1) /\
       (f_t s2' = f_t s2 /\ f_x s2' = f_x s2 /\ f_trace s2' = f_trace s2 /\ f_eps s2' = f_eps s2 /\ f_delta s2' = f_delta s2 /\ f_coeff s2' = f_coeff s2))
      (update_variables pb cf fuel s1) (update_variables pb cf fuel s2).
  Proof.
    intros E1 E2 E3 E4 E5 Fl. unfold update_variables. apply rel_get.
    apply rel_must; [rewrite E3, E4; reflexivity|]. intros a_s _. apply rel_must; [rewrite E3, E4; reflexivity|]. intros a_n _.
    match goal with |- rel _ _ ((if ?b then _ else _) _) _ => destruct b end; [cbn; repeat split; auto|].
    eapply rel_bind with (Rv := fun _ x1 x2 => (exists p q r, x1 = set_fmerit p q r s1) /\ (exists p q r, x2 = set_fmerit p q r s2)).
    - destruct (fc_ls cf).
      + unfold bind, setup_merit. rewrite E1, E2, E3, E4, E5, (deriv_both _ _ _ _ _ _ _ Fl).
        match goal with |- rel _ _ (match (match ?o with _ => _ end) with _ => _ end) _ => destruct o as [[[p d] sc]|] end; [|exact I].
        eapply rel_conseq; [apply ls_both; try assumption; reflexivity| |auto]. intros _ x y [-> ->]. split; do 3 eexists; reflexivity.
      + cbn. split; [reflexivity|]. split; [exists (f_mscale s1), (f_mfunc s1), (f_mderiv s1); destruct s1; reflexivity|exists (f_mscale s2), (f_mfunc s2), (f_mderiv s2); destruct s2; reflexivity].
    - intros a x1 x2 [(p & q & r & ->) (p' & q' & r' & ->)]. apply rel_must; [rewrite E3, E4; reflexivity|].
      intros v _. cbn. repeat split.
  Qed.
  Lemma eps_both s1 s2 : f_var s1 = f_var s2 -> fc_update_eps cf = true \/ f_eps s1 = f_eps s2 -> 
    rel always (fun _ s1' s2' => exists e, s1' = set_feps e s1 /\ s2' = set_feps e s2)
      ((if fc_update_eps cf then (st <- get;; '(sum, dim) <- must (eps_sum (v_s (f_var st)) (v_n (f_var st)) Nf nzero 0);;
          put (set_feps (eps_of sum dim) st))%monad else ret tt) s1)
      ((if fc_update_eps cf then (st <- get;; '(sum, dim) <- must (eps_sum (v_s (f_var st)) (v_n (f_var st)) Nf nzero 0);;
          put (set_feps (eps_of sum dim) st))%monad else ret tt) s2).
  Proof.
    intros Ev Ee. destruct (fc_update_eps cf).
    - unfold bind, get. rewrite Ev. destruct (eps_sum _ _ _ _ _) as [[sum dim]|]; [|exact I]. cbn. eauto.
    - destruct Ee as [Ee|Ee]; [discriminate|]. cbn. split; [reflexivity|]. exists (f_eps s1). destruct s1, s2; cbn in *; subst; auto.
  Qed.
  Lemma proc_both fuel it s1 s2 : alike s1 s2 -> rel always (fun _ => alike) (proc_once LO pb cf fuel it s1) (proc_once LO pb cf fuel it s2).
  Proof.
    intros [H1 H2 H3 H4 H5 D1 D2 C1 C2]. unfold proc_once. apply rel_modify.
    set (a1 := set_ftrace _ s1). set (a2 := set_ftrace _ s2).
    eapply rel_bind; [apply eps_both; [exact H3|exact H5]|].
    intros _ b1 b2 (e & -> & ->). apply rel_get.
    cbn [set_feps a1 a2 set_ftrace f_t f_var f_coeff]. rewrite H1, H3.
    assert (CB := coeffs_both (f_t s2) (f_var s2) _ _ C1 C2).
    destruct (coeffs pb cf (f_t s2) (f_var s2) (f_coeff s1)) as [l1|], (coeffs pb cf (f_t s2) (f_var s2) (f_coeff s2)) as [l2|]; cbn in CB; try contradiction; [|exact I].
    apply rel_must2; [split; discriminate|]. intros k1 k2 Ek1 Ek2. injection Ek1 as <-. injection Ek2 as <-. apply rel_put. apply rel_get.
    set (c1 := set_fcoeff l1 (set_feps e a1)). set (c2 := set_fcoeff l2 (set_feps e a2)).
    assert (K : kkt_error cf nzero c1 = kkt_error cf nzero c2).
    { unfold kkt_error. cbn [c1 c2 set_fcoeff set_feps a1 a2 set_ftrace f_x f_var f_coeff]. rewrite H2, H3.
      destruct (nth_error (v_x (f_var s2)) 0) as [x0|]; [|reflexivity]. destruct (vdimb _ x0); [|reflexivity].
      destruct CB as (f1 & f2 & e1 & e2 & -> & -> & L1 & L2 & F & En).
      pose proof (kkt_sum_both nzero f1 f2 e1 e2 F En (v_s (f_var s2)) (v_n (f_var s2))) as X. rewrite L1, L2 in X. rewrite X. reflexivity. }
    apply rel_must; [exact K|]. intros err _. apply rel_put.
    assert (Tr : f_trace c1 = f_trace c2) by (cbn; congruence). rewrite Tr.
    set (g1 := set_ftrace _ c1). set (g2 := set_ftrace _ c2).
    assert (R1 : raw_list l1 /\ raw_list l2).
    { destruct CB as (f1 & f2 & e1 & e2 & -> & -> & L1 & L2 & _ & En). split; eexists _, _; split; try reflexivity; split; try assumption; apply En. }
    destruct (nleb err (fc_kkt cf)).
    { cbn. split; [reflexivity|]. constructor; cbn; auto; try apply R1. }
    eapply rel_bind; [apply backward_both; [reflexivity|exact H3|exact CB]|].
    intros b x1 x2 (m1 & m2 & -> & -> & M1 & M2 & Fl). destruct b; cbn [negb].
    2:{ cbn. split; [reflexivity|]. constructor; cbn; auto. }
    specialize (Fl eq_refl). unfold forward_pass at 1 2. unfold bind at 1. unfold bind at 2.
    assert (DB := delta_both (set_fcoeff m1 g1) (set_fcoeff m2 g2) eq_refl H3 H2 Fl D1 D2).
    destruct (delta_of pb cf (set_fcoeff m1 g1)) as [d|], (delta_of pb cf (set_fcoeff m2 g2)) as [d'|]; cbn in DB; try contradiction; [|exact I].
    destruct DB as (<- & Dd). destruct (negb (fc_check_nan cf && var_nan d)); cbn [negb].
    2:{ cbn. split; [reflexivity|]. constructor; cbn; auto. }
    eapply rel_bind; [apply update_both; try reflexivity; cbn; auto|].
    intros b x1 x2 (U1 & (U2 & U3 & U4 & U5 & U6 & U7) & (V2 & V3 & V4 & V5 & V6 & V7)).
    assert (A : alike x1 x2).
    { constructor; rewrite ?U2, ?U3, ?U4, ?U5, ?U6, ?U7, ?V2, ?V3, ?V4, ?V5, ?V6, ?V7; cbn; auto. }
    destruct b; cbn; auto.
  Qed.
  Lemma loop_both fuel n : forall it st s1 s2, alike s1 s2 -> rel always (fun _ => alike) (fopt_loop LO pb cf fuel n it st s1) (fopt_loop LO pb cf fuel n it st s2).
  Proof.
    induction n as [|n IH]; intros it st s1 s2 A; cbn [fopt_loop]; [cbn; auto|].
    eapply rel_bind; [apply proc_both; exact A|]. intros r x1 x2 B. destruct r; cbn; auto.
  Qed.
End Hist.

(** The lists of delta_variable_ have the lengths its horizon says. *)
Section Sized.
  Context {T : Type} {N : Num T}.
  Variables (LO : linops T) (pb : fproblem T) (cf : fconfig T) (jk : fjunk T).
  Notation Nf := (Nf cf).
  Definition var_sized (d : var T) : Prop := (0 <= v_hor d)%Z /\
    let n := Z.to_nat (v_hor d) in length (v_x d) = n + 1 /\ length (v_l d) = n + 1 /\ length (v_u d) = n /\ length (v_s d) = n /\ length (v_n d) = n.
  Lemma delta_of_sized s d : delta_of pb cf s = Some d -> var_sized (f_delta s) -> var_sized d.
  Proof.
    intros H (H0 & H1 & H2 & H3 & H4 & H5). unfold delta_of in H. destruct (nth_error (v_x (f_var s)) 0) as [x0|]; [|discriminate].
    destruct (vdimb _ x0); [|discriminate]. destruct (fw_lists pb (f_coeff s) Nf _) as [[[xs ls] us]|] eqn:E; [|discriminate].
    destruct (tabo Nf _) as [sn|] eqn:Es; [|discriminate]. match type of H with (if ?b then _ else _) = _ => destruct b eqn:B end; [|discriminate].
    injection H as <-. apply fw_lists_length in E as (X1 & X2 & X3). pose proof (tabo_length _ _ _ Es) as X4.
    repeat rewrite Bool.andb_true_iff in B. rewrite !Nat.leb_le in B. unfold var_sized. cbn [v_hor v_x v_u v_l v_s v_n].
    rewrite !overwrite_length by (rewrite ?map_length; lia). repeat split; assumption.
  Qed.
  Lemma update_delta fuel s b s' : update_variables pb cf fuel s = Ok b s' -> f_delta s' = f_delta s.
  Proof.
    intros H. pose proof (update_variables_case pb cf fuel s) as C. rewrite H in C.
    destruct C as [C|[C|(a_s & a_n & _ & _ & [(_ & C)|(_ & s2 & a & v & Hu & _ & C)])]]; try discriminate; injection C as -> ->; [reflexivity|].
    apply alpha_used_state in Hu as (_ & _ & Hd & _). exact Hd.
  Qed.
  Lemma proc_sized fuel it s r s' : proc_once LO pb cf fuel it s = Ok r s' -> var_sized (f_delta s) -> var_sized (f_delta s').
  Proof.
    intros H D. destruct (proc_once_case LO pb cf fuel it s) as [P|(eps & cl & e & _ & _ & _ & P)]; rewrite H in P; [discriminate|].
    destruct (nleb e (fc_kkt cf)); [injection P as -> ->; exact D|]. symmetry in P.
    pose proof (rest_cases LO pb cf fuel (checked s it eps cl e)) as C. rewrite P in C.
    destruct C as [C|[C|(b & cl' & _ & [(_ & C)|(_ & d & Hd & [(_ & C)|(_ & b2 & s2 & Hu & C)])])]]; try discriminate; injection C as -> ->.
    - exact D.
    - apply (delta_of_sized _ _ Hd). exact D.
    - apply update_delta in Hu. rewrite Hu. apply (delta_of_sized _ _ Hd). exact D.
  Qed.
  Lemma loop_sized fuel n : forall it st s r s', fopt_loop LO pb cf fuel n it st s = Ok r s' -> var_sized (f_delta s) -> var_sized (f_delta s').
  Proof.
    induction n as [|n IH]; intros it st s r s' H D; cbn [fopt_loop] in H; [injection H as _ <-; exact D|].
    unfold bind in H. destruct (proc_once LO pb cf fuel it s) as [r1 s1| | |] eqn:E; try discriminate. apply proc_sized in E; [|exact D].
    destruct r1; try (injection H as _ <-; exact E). apply (IH _ _ _ _ _ H E).
  Qed.
  Lemma ctor_sized (jx ju jg : vec T) n : var_sized (var_ctor jx ju jg n).
  Proof. split; cbn; [lia|]. rewrite Nat2Z.id, !repeat_length. auto. Qed.
  Lemma solve_sized fuel t0 x0 v0 s r s' : fmpc_solve LO pb cf jk fuel t0 x0 v0 s = Ok r s' -> var_sized (f_delta s) -> var_sized (f_delta s').
  Proof.
    rewrite solve_form_eq. unfold solve_form. intros H D. destruct (inited pb cf t0 v0 (f_eps s)) as [[v eps]|]; [|discriminate].
    destruct (bad_length cf v); [discriminate|]. destruct (existsb _ _); [discriminate|]. destruct (existsb _ _); [discriminate|].
    destruct (setup_coeff pb cf jk t0 (f_coeff s)) as [cl|]; [|discriminate].
    destruct (fopt_loop _ _ _ _ _ _ _ _) as [r1 s1| | |] eqn:E; try discriminate. destruct (_ || _); [|discriminate]. injection H as _ <-.
    apply (loop_sized _ _ _ _ _ _ _ E). cbn. unfold setup_delta. destruct (Z.eqb _ _); [exact D|apply ctor_sized].
  Qed.
  Lemma loop_nothrow fuel n : forall it st s e s', fopt_loop LO pb cf fuel n it st s <> Throw e s'.
  Proof.
    induction n as [|n IH]; intros it st s e s'; cbn [fopt_loop]; [discriminate|]. unfold bind.
    destruct (proc_once LO pb cf fuel it s) as [r1 s1| | |] eqn:E; try discriminate; [|apply proc_once_nothrow in E; contradiction].
    destruct r1; try discriminate. apply IH.
  Qed.
  Lemma throw_sized fuel t0 x0 v0 s e s' : fmpc_solve LO pb cf jk fuel t0 x0 v0 s = Throw e s' -> f_delta s' = f_delta s.
  Proof.
    rewrite solve_form_eq. unfold solve_form. intros H. destruct (inited pb cf t0 v0 (f_eps s)) as [[v eps]|]; [|discriminate].
    destruct (bad_length cf v); [injection H as _ <-; reflexivity|]. destruct (existsb _ _); [injection H as _ <-; reflexivity|].
    destruct (existsb _ _); [injection H as _ <-; reflexivity|].
    destruct (setup_coeff pb cf jk t0 (f_coeff s)) as [cl|]; [|discriminate].
    destruct (fopt_loop _ _ _ _ _ _ _ _) as [r1 s1| | |] eqn:E; try discriminate; [destruct (_ || _); discriminate|]. apply loop_nothrow in E. contradiction.
  Qed.
End Sized.
