(** Scalars: one record of operations, instantiated with exact reals and with IEEE binary64.
    Models the type [double] of /repo together with the <cmath>/<algorithm> functions it uses. *)
From Verif Require Import Prelude.
From Coq Require Import Reals Lra.
From Coq Require Import Floats.SpecFloat.

Class Num (T : Type) := {
  nzero : T; none : T;
  nadd : T -> T -> T; nsub : T -> T -> T; nmul : T -> T -> T; ndiv : T -> T -> T;
  nopp : T -> T; nabs : T -> T; nsqrt : T -> T; nexp : T -> T; nlog : T -> T;
  nltb : T -> T -> bool;    (* operator<  *)
  nleb : T -> T -> bool;    (* operator<= *)
  neqb : T -> T -> bool;    (* operator== *)
  nfin : T -> bool;         (* std::isfinite *)
  nlit : Z -> positive -> T;  (* decimal literal p/q, and conversion from int with q = 1 *)
  nsum : list T -> T        (* the reduction of Eigen's sum(), dot(), norm(); order not fixed *)
}.

Declare Scope num_scope.
Delimit Scope num_scope with num.
Infix "+" := nadd : num_scope.
Infix "-" := nsub : num_scope.
Infix "*" := nmul : num_scope.
Infix "/" := ndiv : num_scope.
Infix "<?" := nltb : num_scope.
Infix "<=?" := nleb : num_scope.
Infix "=?" := neqb : num_scope.
Notation "a >? b" := (nltb b a) : num_scope.
Notation "a >=? b" := (nleb b a) : num_scope.

Section Derived.
  Context {T : Type} {N : Num T}.
  Local Open Scope num_scope.
  (** std::max(a,b): (a < b) ? b : a *)
  Definition nmax (a b : T) : T := if a <? b then b else a.
  (** std::min(a,b): (b < a) ? b : a *)
  Definition nmin (a b : T) : T := if b <? a then b else a.
  (** std::clamp(v,lo,hi): (v < lo) ? lo : (hi < v) ? hi : v *)
  Definition nclamp (v lo hi : T) : T := if v <? lo then lo else if hi <? v then hi else v.
  Definition nofZ (z : Z) : T := nlit z 1.
  Definition nofnat (n : nat) : T := nlit (Z.of_nat n) 1.
  Definition nhalf : T := nlit 1 2.
End Derived.

(** ** Exact reals *)
Definition Rltb (x y : R) : bool := if Rlt_dec x y then true else false.
Definition Rleb (x y : R) : bool := if Rle_dec x y then true else false.
Definition Reqb (x y : R) : bool := if Req_EM_T x y then true else false.

Global Instance RNum : Num R := {|
  nzero := 0%R; none := 1%R;
  nadd := Rplus; nsub := Rminus; nmul := Rmult; ndiv := Rdiv;
  nopp := Ropp; nabs := Rabs; nsqrt := R_sqrt.sqrt; nexp := Rtrigo_def.exp; nlog := Rpower.ln;
  nltb := Rltb; nleb := Rleb; neqb := Reqb;
  nfin := fun _ => true;
  nlit := fun p q => (IZR p / IZR (Zpos q))%R;
  nsum := fun l => fold_right Rplus 0%R l
|}.

Lemma Rltb_true x y : Rltb x y = true <-> (x < y)%R.
Proof. unfold Rltb; destruct (Rlt_dec x y); split; intros; auto; discriminate. Qed.
Lemma Rltb_false x y : Rltb x y = false <-> (y <= x)%R.
Proof. unfold Rltb; destruct (Rlt_dec x y); split; intros; auto; try discriminate; lra. Qed.
Lemma Rleb_true x y : Rleb x y = true <-> (x <= y)%R.
Proof. unfold Rleb; destruct (Rle_dec x y); split; intros; auto; discriminate. Qed.
Lemma Rleb_false x y : Rleb x y = false <-> (y < x)%R.
Proof. unfold Rleb; destruct (Rle_dec x y); split; intros; auto; try discriminate; lra. Qed.
Lemma Reqb_true x y : Reqb x y = true <-> x = y.
Proof. unfold Reqb; destruct (Req_EM_T x y); split; intros; auto; discriminate. Qed.
Lemma Reqb_false x y : Reqb x y = false <-> x <> y.
Proof. unfold Reqb; destruct (Req_EM_T x y); split; intros; auto; try discriminate; contradiction. Qed.

(** Expose the real operations behind the class. *)
Ltac numR := unfold nofZ, nofnat, nhalf in *;
  cbn [nzero none nadd nsub nmul ndiv nopp nabs nsqrt nexp nlog nltb nleb neqb nfin nlit nsum RNum] in *.

Lemma nmax_R a b : @nmax R RNum a b = Rmax a b.
Proof.
  unfold nmax; numR. unfold Rmax. destruct (Rltb a b) eqn:E.
  - apply Rltb_true in E. destruct (Rle_dec a b); lra.
  - apply Rltb_false in E. destruct (Rle_dec a b); lra.
Qed.
Lemma nmin_R a b : @nmin R RNum a b = Rmin a b.
Proof.
  unfold nmin; numR. unfold Rmin. destruct (Rltb b a) eqn:E.
  - apply Rltb_true in E. destruct (Rle_dec a b); lra.
  - apply Rltb_false in E. destruct (Rle_dec a b); lra.
Qed.

(** ** IEEE 754 binary64, round to nearest even (stdlib SpecFloat, no axioms) *)
Definition f64 := spec_float.
Definition f64_prec : Z := 53.
Definition f64_emax : Z := 1024.
Definition f64_ofZ (z : Z) : f64 := binary_normalize f64_prec f64_emax z 0 false.

Global Instance F64Num : Num f64 := {|
  nzero := S754_zero false; none := f64_ofZ 1;
  nadd := SFadd f64_prec f64_emax; nsub := SFsub f64_prec f64_emax;
  nmul := SFmul f64_prec f64_emax; ndiv := SFdiv f64_prec f64_emax;
  nopp := SFopp; nabs := SFabs; nsqrt := SFsqrt f64_prec f64_emax;
  nexp := fun _ => S754_nan; nlog := fun _ => S754_nan;    (* not available on this instance; no binary64 statement uses them *)
  nltb := SFltb; nleb := SFleb; neqb := SFeqb;
  nfin := fun x => match x with S754_zero _ | S754_finite _ _ _ => true | _ => false end;
  nlit := fun p q => SFdiv f64_prec f64_emax (f64_ofZ p) (f64_ofZ (Zpos q));
  nsum := fun l => match l with [] => S754_zero false | a :: r => fold_left (SFadd f64_prec f64_emax) r a end
|}.

Definition f64_nan : f64 := S754_nan.
Definition f64_inf : f64 := S754_infinity false.
