(** Outcomes, state-transformer methods, loops and list updates.
    None of this is code of /repo: it is the execution model used to transcribe it. *)
From Coq Require Export List ZArith Lia Bool Arith.
Export ListNotations.

(** C++ exceptions that the modelled code can raise. *)
Inductive exn : Type :=
| InvalidArgument      (* std::invalid_argument *)
| RuntimeError         (* std::runtime_error *)
| BadFunctionCall      (* std::bad_function_call: calling an empty std::function *)
| OutOfRange.          (* std::out_of_range: unordered_map::at on a missing key *)

(** Result of running a method on an object with members [S].
    [UB] stands for undefined behaviour or a failed Eigen assertion: index out of range,
    operand sizes that disagree, null dereference, integer division by zero.
    [OutOfFuel] only says that the bound given to an unbounded C++ loop was too small. *)
Inductive outcome (S A : Type) : Type :=
| Ok (a : A) (s : S)
| Throw (e : exn) (s : S)
| UB
| OutOfFuel.
Arguments Ok {S A} a s.
Arguments Throw {S A} e s.
Arguments UB {S A}.
Arguments OutOfFuel {S A}.

Definition M (S A : Type) : Type := S -> outcome S A.

Definition ret {S A} (a : A) : M S A := fun s => Ok a s.
Definition bind {S A B} (m : M S A) (k : A -> M S B) : M S B :=
  fun s => match m s with
           | Ok a s' => k a s'
           | Throw e s' => Throw e s'
           | UB => UB
           | OutOfFuel => OutOfFuel
           end.
Definition throw {S A} (e : exn) : M S A := fun s => Throw e s.
Definition ub {S A} : M S A := fun _ => UB.
Definition get {S} : M S S := fun s => Ok s s.
Definition put {S} (s : S) : M S unit := fun _ => Ok tt s.
Definition modify {S} (f : S -> S) : M S unit := fun s => Ok tt (f s).
Definition guard {S} (b : bool) : M S unit := if b then ret tt else ub.
(** Access that is undefined behaviour when the element does not exist. *)
Definition must {S A} (o : option A) : M S A :=
  match o with Some a => ret a | None => ub end.

Declare Scope monad_scope.
Delimit Scope monad_scope with monad.
Notation "x <- m ;; k" := (bind m (fun x => k))
  (at level 61, m at next level, right associativity) : monad_scope.
Notation "' p <- m ;; k" := (bind m (fun p => k))
  (at level 61, p pattern, m at next level, right associativity) : monad_scope.
Notation "m ;;; k" := (bind m (fun _ => k))
  (at level 61, right associativity) : monad_scope.

(** [for (i = i0; i < i0 + n; i++) body(i)]. *)
Fixpoint for_from {S} (i0 n : nat) (body : nat -> M S unit) : M S unit :=
  match n with
  | O => ret tt
  | Datatypes.S n' => bind (body i0) (fun _ => for_from (Datatypes.S i0) n' body)
  end.
Definition for_up {S} (n : nat) (body : nat -> M S unit) : M S unit := for_from 0 n body.

(** [l[i] = v]; [None] when [i] is out of range. *)
Fixpoint upd {A} (l : list A) (i : nat) (v : A) : option (list A) :=
  match l, i with
  | [], _ => None
  | _ :: r, O => Some (v :: r)
  | a :: r, Datatypes.S i' => match upd r i' v with Some r' => Some (a :: r') | None => None end
  end.

(** std::vector::resize(n, d). *)
Definition resize {A} (n : nat) (d : A) (l : list A) : list A :=
  firstn n l ++ repeat d (n - length l).

(** Modify the last element of a list ([v.back()] of a non-empty vector). *)
Fixpoint upd_last {A} (f : A -> A) (l : list A) : list A :=
  match l with
  | [] => []
  | [a] => [f a]
  | a :: r => a :: upd_last f r
  end.

(** ** Lemmas on updates *)
Lemma upd_length {A} (l l' : list A) i v : upd l i v = Some l' -> length l' = length l.
Proof.
  revert i l'; induction l as [|a r IH]; intros [|i] l'; cbn; try discriminate.
  - intros E; injection E as <-; reflexivity.
  - destruct (upd r i v) as [r'|] eqn:U; [|discriminate].
    intros E; injection E as <-; cbn; f_equal; eauto.
Qed.

Lemma upd_some {A} (l : list A) i v : i < length l -> exists l', upd l i v = Some l'.
Proof.
  revert i; induction l as [|a r IH]; intros [|i] H; cbn in *; try lia; eauto.
  destruct (IH i) as [r' E]; [lia|]; rewrite E; eauto.
Qed.

Lemma upd_none {A} (l : list A) i v : length l <= i -> upd l i v = None.
Proof.
  revert i; induction l as [|a r IH]; intros [|i] H; cbn in *; try lia; auto.
  rewrite IH by lia; reflexivity.
Qed.

Lemma upd_lt {A} (l l' : list A) i v : upd l i v = Some l' -> i < length l.
Proof.
  intros E; destruct (Nat.lt_ge_cases i (length l)) as [H|H]; auto.
  rewrite upd_none in E by auto; discriminate.
Qed.

Lemma upd_nth {A} (l l' : list A) i v j :
  upd l i v = Some l' ->
  nth_error l' j = if Nat.eqb j i then Some v else nth_error l j.
Proof.
  revert i j l'; induction l as [|a r IH]; intros [|i] j l'; cbn; try discriminate.
  - intros E; injection E as <-; destruct j; reflexivity.
  - destruct (upd r i v) as [r'|] eqn:U; [|discriminate].
    intros E; injection E as <-; destruct j; cbn; [reflexivity|eauto].
Qed.

Lemma resize_length {A} n (d : A) l : length (resize n d l) = n.
Proof.
  unfold resize; rewrite app_length, firstn_length, repeat_length; lia.
Qed.

Lemma upd_last_app {A} (f : A -> A) l a : upd_last f (l ++ [a]) = l ++ [f a].
Proof.
  induction l as [|b r IH]; [reflexivity|].
  cbn [app upd_last]. rewrite IH.
  destruct (r ++ [a]) eqn:E; [destruct r; discriminate|reflexivity].
Qed.

(** ** Weakest preconditions (partial correctness; [U] is required on undefined behaviour) *)
Definition wp {S A} (U : Prop) (m : M S A) (Q : A -> S -> Prop) (E : exn -> S -> Prop) (s : S) : Prop :=
  match m s with
  | Ok a s' => Q a s'
  | Throw e s' => E e s'
  | UB => U
  | OutOfFuel => True
  end.

Lemma wp_ret {S A} U (a : A) (Q : A -> S -> Prop) (E : exn -> S -> Prop) (s : S) : Q a s -> wp U (ret a) Q E s.
Proof. exact (fun H => H). Qed.

Lemma wp_bind {S A B} U (m : M S A) (k : A -> M S B) (Q : B -> S -> Prop) (E : exn -> S -> Prop) s :
  wp U m (fun a s' => wp U (k a) Q E s') E s -> wp U (bind m k) Q E s.
Proof. unfold wp, bind; destruct (m s); auto. Qed.

Lemma wp_bind_inv {S A B} U (m : M S A) (k : A -> M S B) (Q : B -> S -> Prop) (E : exn -> S -> Prop) s :
  wp U (bind m k) Q E s -> wp U m (fun a s' => wp U (k a) Q E s') E s.
Proof. unfold wp, bind; destruct (m s); auto. Qed.

Lemma wp_conseq {S A} U (m : M S A) (Q Q' : A -> S -> Prop) (E E' : exn -> S -> Prop) s :
  wp U m Q E s -> (forall a s', Q a s' -> Q' a s') -> (forall e s', E e s' -> E' e s') ->
  wp U m Q' E' s.
Proof. unfold wp; destruct (m s); auto. Qed.

Lemma wp_for_from {S} U (I : nat -> S -> Prop) E (body : nat -> M S unit) n :
  forall i0 s,
  (forall i s, i0 <= i < i0 + n -> I i s -> wp U (body i) (fun _ s' => I (Datatypes.S i) s') E s) ->
  I i0 s -> wp U (for_from i0 n body) (fun _ s' => I (i0 + n) s') E s.
Proof.
  induction n as [|n IH]; intros i0 s Hb H0; cbn [for_from].
  - apply wp_ret; replace (i0 + 0) with i0 by lia; exact H0.
  - apply wp_bind. eapply wp_conseq; [apply Hb; [lia|exact H0]| |auto].
    intros [] s' H1; cbn.
    replace (i0 + Datatypes.S n) with (Datatypes.S i0 + n) by lia.
    apply IH; [|exact H1]. intros i s'' Hi; apply Hb; lia.
Qed.

Lemma wp_for_up {S} U (I : nat -> S -> Prop) E (body : nat -> M S unit) n s :
  (forall i s, i < n -> I i s -> wp U (body i) (fun _ s' => I (Datatypes.S i) s') E s) ->
  I 0 s -> wp U (for_up n body) (fun _ s' => I n s') E s.
Proof.
  intros Hb H0; unfold for_up. apply (wp_for_from U I E body n 0 s); auto.
  intros i s' Hi; apply Hb; lia.
Qed.

(** ** Two runs compared: same kind of outcome, equal values, related states.
    Used for statements that compare two histories of an object. *)
Definition rel {S A} (Rs : S -> S -> Prop) (Rv : A -> S -> S -> Prop) (o1 o2 : outcome S A) : Prop :=
  match o1, o2 with
  | Ok a1 s1, Ok a2 s2 => a1 = a2 /\ Rv a1 s1 s2
  | Throw e1 s1, Throw e2 s2 => e1 = e2 /\ Rs s1 s2
  | UB, UB => True
  | OutOfFuel, OutOfFuel => True
  | _, _ => False
  end.

Lemma rel_bind {S A B} Rs Rv Rv' (m1 m2 : M S A) (k1 k2 : A -> M S B) s1 s2 :
  rel Rs Rv (m1 s1) (m2 s2) ->
  (forall a s1' s2', Rv a s1' s2' -> rel Rs Rv' (k1 a s1') (k2 a s2')) ->
  rel Rs Rv' (bind m1 k1 s1) (bind m2 k2 s2).
Proof.
  unfold rel, bind; destruct (m1 s1), (m2 s2); try contradiction; auto.
  intros [<- H] Hk; apply Hk; exact H.
Qed.

Lemma rel_conseq {S A} (Rs Rs' : S -> S -> Prop) (Rv Rv' : A -> S -> S -> Prop) o1 o2 :
  rel Rs Rv o1 o2 -> (forall a x y, Rv a x y -> Rv' a x y) -> (forall x y, Rs x y -> Rs' x y) ->
  rel Rs' Rv' o1 o2.
Proof.
  unfold rel; destruct o1, o2; try contradiction; auto; intros [<- H] H1 H2; split; auto.
Qed.

Lemma rel_for_from {S} Rs (I : nat -> S -> S -> Prop) (b1 b2 : nat -> M S unit) n :
  forall i0 s1 s2,
  (forall i s1 s2, i0 <= i < i0 + n -> I i s1 s2 ->
     rel Rs (fun _ => I (Datatypes.S i)) (b1 i s1) (b2 i s2)) ->
  I i0 s1 s2 ->
  rel Rs (fun _ => I (i0 + n)) (for_from i0 n b1 s1) (for_from i0 n b2 s2).
Proof.
  induction n as [|n IH]; intros i0 s1 s2 Hb H0; cbn [for_from].
  - cbn; split; auto. replace (i0 + 0) with i0 by lia; exact H0.
  - eapply rel_bind; [apply Hb; [lia|exact H0]|].
    intros [] s1' s2' H1.
    replace (i0 + Datatypes.S n) with (Datatypes.S i0 + n) by lia.
    apply IH; [|exact H1]. intros i s1'' s2'' Hi; apply Hb; lia.
Qed.

Lemma rel_for_up {S} Rs (I : nat -> S -> S -> Prop) (b1 b2 : nat -> M S unit) n s1 s2 :
  (forall i s1 s2, i < n -> I i s1 s2 -> rel Rs (fun _ => I (Datatypes.S i)) (b1 i s1) (b2 i s2)) ->
  I 0 s1 s2 ->
  rel Rs (fun _ => I n) (for_up n b1 s1) (for_up n b2 s2).
Proof.
  intros Hb H0; unfold for_up. apply (rel_for_from Rs I b1 b2 n 0); auto.
  intros i s1' s2' Hi; apply Hb; lia.
Qed.

Lemma wp_get {S} U (Q : S -> S -> Prop) (E : exn -> S -> Prop) (s : S) : Q s s -> wp U get Q E s.
Proof. exact (fun H => H). Qed.
Lemma wp_put {S} U (Q : unit -> S -> Prop) E (s s' : S) : Q tt s' -> wp U (put s') Q E s.
Proof. exact (fun H => H). Qed.
Lemma wp_modify {S} U (Q : unit -> S -> Prop) E f (s : S) : Q tt (f s) -> wp U (modify f) Q E s.
Proof. exact (fun H => H). Qed.
Lemma wp_throw {S A} U (Q : A -> S -> Prop) (E : exn -> S -> Prop) e (s : S) : E e s -> wp U (throw e) Q E s.
Proof. exact (fun H => H). Qed.
Lemma wp_guard {S} (U : Prop) b (Q : unit -> S -> Prop) E (s : S) :
  (b = true -> Q tt s) -> (b = false -> U) -> wp U (guard b) Q E s.
Proof. destruct b; unfold wp, guard, ret, ub; auto. Qed.
Lemma wp_must {S A} (U : Prop) (o : option A) (Q : A -> S -> Prop) E (s : S) :
  (forall a, o = Some a -> Q a s) -> (o = None -> U) -> wp U (must o) Q E s.
Proof. destruct o; unfold wp, must, ret, ub; auto. Qed.

(** A computation that neither reads nor writes the object. *)
Definition outc_map {S A} (s : S) (o : outcome unit A) : outcome S A :=
  match o with Ok a _ => Ok a s | Throw e _ => Throw e s | UB => UB | OutOfFuel => OutOfFuel end.

(** One mechanical step of a weakest-precondition proof. *)
Ltac wp1 :=
  match goal with
  | |- wp _ (bind _ _) _ _ _ => apply wp_bind
  | |- wp _ (ret _) _ _ _ => apply wp_ret
  | |- wp _ get _ _ _ => apply wp_get
  | |- wp _ (put _) _ _ _ => apply wp_put
  | |- wp _ (modify _) _ _ _ => apply wp_modify
  | |- wp _ (throw _) _ _ _ => apply wp_throw
  | |- wp _ (guard _) _ _ _ => apply wp_guard; [let H := fresh "Hg" in intros H|try (intros; exact I)]
  | |- wp _ (must _) _ _ _ => apply wp_must; [let a := fresh "v" in let H := fresh "Hm" in intros a H|try (intros; exact I)]
  | |- wp _ (match ?p with (_, _) => _ end) _ _ _ => let H := fresh "Ep" in destruct p eqn:H
  | |- wp _ ((fun _ => _) _) _ _ _ => cbv beta
  end.

Definition st_nat {S A} (m : M S A) (mu : M unit A) : Prop := forall s, m s = outc_map s (mu tt).
Lemma st_nat_bind {S A B} (m : M S A) mu (k : A -> M S B) ku :
  st_nat m mu -> (forall a, st_nat (k a) (ku a)) -> st_nat (bind m k) (bind mu ku).
Proof.
  intros H1 H2 s; unfold bind; rewrite H1.
  destruct (mu tt) as [a []| | |]; cbn; auto. apply H2.
Qed.
Lemma st_nat_ret {S A} (a : A) : st_nat (@ret S A a) (ret a).
Proof. intros s; reflexivity. Qed.
Lemma st_nat_throw {S A} e : st_nat (@throw S A e) (throw e).
Proof. intros s; reflexivity. Qed.
Lemma st_nat_guard {S} b : st_nat (@guard S b) (guard b).
Proof. intros s; destruct b; reflexivity. Qed.
Lemma st_nat_must {S A} (o : option A) : st_nat (@must S A o) (must o).
Proof. intros s; destruct o; reflexivity. Qed.

Lemma wp_conj {S A} U (m : M S A) (Q1 Q2 : A -> S -> Prop) (E1 E2 : exn -> S -> Prop) s :
  wp U m Q1 E1 s -> wp U m Q2 E2 s ->
  wp U m (fun a s' => Q1 a s' /\ Q2 a s') (fun e s' => E1 e s' /\ E2 e s') s.
Proof. unfold wp; destruct (m s); auto. Qed.

(** ** Runs that do not exhaust their fuel *)
Definition nofuel {S A} (m : M S A) (s : S) : Prop := m s <> OutOfFuel.
Lemma nofuel_bind {S A B} (m : M S A) (k : A -> M S B) s :
  nofuel m s -> (forall a s', m s = Ok a s' -> nofuel (k a) s') -> nofuel (bind m k) s.
Proof. unfold nofuel, bind; destruct (m s) eqn:E; intros H1 H2; try discriminate; auto. Qed.
Lemma nofuel_for_from {S} (b : nat -> M S unit) n : forall i0 s,
  (forall i s, nofuel (b i) s) -> nofuel (for_from i0 n b) s.
Proof.
  induction n as [|n IH]; intros i0 s H; cbn [for_from]; [discriminate|].
  apply nofuel_bind; [apply H|]. intros; apply IH; exact H.
Qed.
Lemma nofuel_must {S A} (o : option A) (s : S) : nofuel (must o) s.
Proof. destruct o; discriminate. Qed.
Lemma nofuel_guard {S} b (s : S) : nofuel (guard b) s.
Proof. destruct b; discriminate. Qed.
Ltac nf1 :=
  match goal with
  | |- nofuel (bind _ _) _ => apply nofuel_bind; [|intros]
  | |- nofuel (must _) _ => apply nofuel_must
  | |- nofuel (guard _) _ => apply nofuel_guard
  | |- nofuel (ret _) _ => discriminate
  | |- nofuel (throw _) _ => discriminate
  | |- nofuel get _ => discriminate
  | |- nofuel (put _) _ => discriminate
  | |- nofuel (modify _) _ => discriminate
  | |- nofuel (for_up _ _) _ => apply nofuel_for_from; intros
  | |- nofuel (match ?p with (_, _) => _ end) _ => destruct p
  | |- nofuel (if ?c then _ else _) _ => destruct c
  | |- nofuel ((fun _ => _) _) _ => cbv beta
  end.
