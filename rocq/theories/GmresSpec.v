(** Specification vocabulary for linear solves: plain lists of reals, no reference to the model. *)
From Coq Require Import Reals List.
Import ListNotations.
Open Scope R_scope.

Definition ladd (u v : list R) : list R := map (fun p => fst p + snd p) (combine u v).
Definition lsub (u v : list R) : list R := map (fun p => fst p - snd p) (combine u v).
Definition lscal (a : R) (v : list R) : list R := map (Rmult a) v.
Definition ldot (u v : list R) : R := fold_right (fun p s => fst p * snd p + s) 0 (combine u v).
(** Euclidean norm. *)
Definition nrm (v : list R) : R := sqrt (fold_right (fun a s => a * a + s) 0 v).

(** A linear map of R^n. *)
Definition linear (n : nat) (f : list R -> list R) : Prop :=
  (forall v, length v = n -> length (f v) = n) /\
  (forall u v, length u = n -> length v = n -> f (ladd u v) = ladd (f u) (f v)) /\
  (forall a v, length v = n -> f (lscal a v) = lscal a (f v)).
Definition nonsingular (n : nat) (f : list R -> list R) : Prop :=
  forall v, length v = n -> f v = repeat 0 n -> v = repeat 0 n.

(** r, f r, ..., f^(k-1) r and linear combinations of vectors. *)
Definition krylov (f : list R -> list R) (r : list R) (k : nat) : list (list R) := map (fun j => Nat.iter j f r) (seq 0 k).
Fixpoint lincomb (n : nat) (cs : list R) (vs : list (list R)) : list R :=
  match cs, vs with
  | c :: cs', v :: vs' => ladd (lscal c v) (lincomb n cs' vs')
  | _, _ => repeat 0 n
  end.
Definition in_span (n : nat) (vs : list (list R)) (v : list R) : Prop :=
  exists cs, length cs = length vs /\ v = lincomb n cs vs.
(** f maps no nonzero vector of the Krylov spaces of r to zero. *)
Definition injective_on_krylov (n : nat) (f : list R -> list R) (r : list R) : Prop :=
  forall k v, in_span n (krylov f r k) v -> f v = repeat 0 n -> v = repeat 0 n.

(** What is assumed of a least-squares routine for a matrix given by its rows:
    for independent columns it returns a minimiser of |b - A y|. *)
Definition rows_mul (A : list (list R)) (y : list R) : list R := map (fun row => ldot row y) A.
Definition least_squares (lsq : list (list R) -> list R -> list R) : Prop :=
  forall r c A b, length A = r -> (forall row, In row A -> length row = c) -> length b = r ->
    (forall y, length y = c -> rows_mul A y = repeat 0 r -> y = repeat 0 c) ->
    length (lsq A b) = c /\
    forall z, length z = c -> nrm (lsub b (rows_mul A (lsq A b))) <= nrm (lsub b (rows_mul A z)).
