(** Termination of the BoxQP model. *)
From Verif Require Import Prelude Scalar LinAlg BoxQP BoxQPProofs.
From Coq Require Import Reals Lra.

Section AnyScalar.
  Context {T : Type} {N : Num T} (LL : lltops T).
  Local Open Scope num_scope.
  Variables (cfg : qp_config T) (n : nat) (H : mat T) (g lower upper : vec T).

  (** Step length after [k] reductions; it does not depend on the data of the problem. *)
  Fixpoint qp_step (k : nat) : T :=
    match k with O => nofZ 1 | S k' => qp_step k' * qp_step_factor cfg end.

  Lemma qp_armijo_fuel {S} K (s : S) x dir oo sdg :
    qp_step K <? qp_min_step cfg = true ->
    forall fuel j snum xc oc rv, j < K -> K <= j + fuel ->
    qp_armijo cfg H g lower upper fuel x dir oo sdg (qp_step j) snum xc oc rv s <> OutOfFuel.
  Proof.
    intros HK; induction fuel as [|f IH]; intros j snum xc oc rv Hj Hf; cbn [qp_armijo]; [lia|].
    destruct (_ <? qp_armijo_param cfg); [|discriminate].
    destruct (qp_step j * qp_step_factor cfg <? qp_min_step cfg) eqn:E; [discriminate|].
    change (qp_step j * qp_step_factor cfg) with (qp_step (Datatypes.S j)).
    assert (Datatypes.S j <> K).
    { intros <-. cbn [qp_step] in HK. congruence. }
    apply IH; lia.
  Qed.

  Lemma qp_iter_fuel {S} K fuel it st (s : S) :
    qp_step K <? qp_min_step cfg = true -> 0 < K <= fuel ->
    qp_iter LL cfg n H g lower upper fuel it st s <> OutOfFuel.
  Proof.
    intros HK Hf. unfold qp_iter; cbv zeta.
    do 4 (match goal with |- (if ?c then _ else _) _ <> _ => destruct c end; [unfold ret; discriminate|]).
    unfold bind, must, guard, ret, ub.
    match goal with |- context [match (match ?o with Some _ => _ | None => _ end) _ with _ => _ end] => destruct o end;
      [|discriminate].
    match goal with |- context [if Nat.eqb ?a ?b then _ else _] => destruct (Nat.eqb a b) end; [|discriminate].
    match goal with |- (if ?c then _ else _) _ <> _ => destruct c end; [discriminate|].
    intros E.
    match type of E with match ?a with _ => _ end = _ => destruct a as [[[[[? ?] ?] ?] ?] ?| | |] eqn:Ea end;
      try discriminate.
    revert Ea. apply (qp_armijo_fuel K s _ _ _ _ HK fuel 0); lia.
  Qed.

  Lemma qp_loop_fuel {S} K afuel (s : S) :
    qp_step K <? qp_min_step cfg = true -> 0 < K <= afuel ->
    forall fuel it st, (1 <= it <= qp_max_iter cfg)%Z -> (qp_max_iter cfg < it + Z.of_nat fuel)%Z ->
    qp_loop LL cfg n H g lower upper fuel afuel it st s <> OutOfFuel.
  Proof.
    intros HK Ha; induction fuel as [|f IH]; intros it st Hit Hf; [lia|]. cbn [qp_loop].
    pose proof (qp_iter_fuel K afuel it st s HK Ha) as H1.
    pose proof (@qp_iter_state _ _ LL cfg n H g lower upper S afuel it st s) as H2.
    unfold bind. destruct (qp_iter LL cfg n H g lower upper afuel it st s) as [[st' brk] s'| | |] eqn:E;
      try discriminate; try contradiction.
    destruct brk eqn:Eb; [discriminate|].
    assert (s' = s).
    { destruct (qp_iter _ _ _ _ _ _ _ _ _ _ tt); cbn in H2; congruence. }
    subst s'. apply IH; [|lia].
    assert (it <> qp_max_iter cfg); [|lia]. intros Hm.
    (* the pass with it = max_iter always breaks *)
    clear IH H1 H2. revert E. unfold qp_iter; cbv zeta.
    do 4 (match goal with |- (if ?c then _ else _) _ = _ -> _ => destruct c end; [unfold ret; discriminate|]).
    unfold bind, must, guard, ret, ub.
    match goal with |- context [match (match ?o with Some _ => _ | None => _ end) _ with _ => _ end] => destruct o end;
      [|discriminate].
    match goal with |- context [if Nat.eqb ?a ?b then _ else _] => destruct (Nat.eqb a b) end; [|discriminate].
    match goal with |- (if ?c then _ else _) _ = _ -> _ => destruct c end; [discriminate|].
    destruct (qp_armijo _ _ _ _ _ _ _ _ _ _ _ _ _ _ _ s) as [[[[[? ?] ?] ?] ?] ?| | |]; try discriminate.
    rewrite Hm, Z.eqb_refl. discriminate.
  Qed.

  (** With max_iter >= 1 and a step length that eventually drops below min_step, [fuel] = max_iter passes
      and [K] line-search trials per pass are enough, whatever the data are. *)
  Theorem qp_solve_terminates_any {S} K fuel afuel ol ix (s : S) :
    qp_step K <? qp_min_step cfg = true -> 0 < K <= afuel ->
    (1 <= qp_max_iter cfg <= Z.of_nat fuel)%Z ->
    qp_solve LL cfg n H g lower upper fuel afuel ol ix s <> OutOfFuel.
  Proof.
    intros HK Ha Hf. unfold qp_solve; cbv zeta. unfold bind, guard, ret, ub.
    match goal with |- context [(if ?c then _ else _) s] => destruct c end; [|discriminate].
    intros E.
    match type of E with match ?a with _ => _ end = _ => destruct a as [st' s'| | |] eqn:El end; try discriminate.
    - match type of E with context [(if ?c then _ else _) s'] => destruct c end; discriminate.
    - revert El. apply (qp_loop_fuel K); auto; lia.
  Qed.
End AnyScalar.

Lemma qp_step_R cfg k : @qp_step R RNum cfg k = (qp_step_factor cfg ^ k)%R.
Proof.
  induction k as [|k IH]; cbn [qp_step]; numR.
  - cbn. lra.
  - rewrite IH. cbn. lra.
Qed.

(** Over the reals such a [K] exists for every admissible configuration. *)
Lemma qp_step_exists (cfg : qp_config R) :
  (0 < qp_step_factor cfg < 1)%R -> (0 < qp_min_step cfg)%R ->
  exists K, 0 < K /\ nltb (qp_step cfg K) (qp_min_step cfg) = true.
Proof.
  intros Hf Hm.
  destruct (pow_lt_1_zero (qp_step_factor cfg)) with (y := qp_min_step cfg) as [K HK]; auto.
  - rewrite Rabs_pos_eq; lra.
  - exists (S K). split; [lia|]. numR. apply Rltb_true. rewrite qp_step_R.
    specialize (HK (S K) ltac:(lia)). rewrite Rabs_pos_eq in HK; auto. apply pow_le; lra.
Qed.

(** On IEEE doubles with the default configuration 100 trials are enough. *)
Lemma qp_step_f64_default : nltb (qp_step (qp_default_config (T := f64)) 100) (qp_min_step qp_default_config) = true.
Proof. vm_compute. reflexivity. Qed.
