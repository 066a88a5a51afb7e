(** Vectors and matrices: the part of Eigen used by /repo (Eigen itself is not in /repo).
    A matrix carries its run-time dimensions.  The operations below are total; the callers guard each
    use with the size checks that Eigen asserts ([vdimb], [mdimb], [idxb]), so a size mismatch becomes
    the outcome [UB]. Products are written as "reduction of the list of products"; the reduction [nsum]
    is a parameter of the scalar type, so Eigen's evaluation order is not fixed here. *)
From Verif Require Import Prelude Scalar.

Section LA.
  Context {T : Type} {N : Num T}.
  Local Open Scope num_scope.

  Definition vec := list T.
  Record mat := mkmat { mrows : nat; mcols : nat; mdat : list (list T) }.

  Definition vget (v : vec) (i : nat) : T := nth i v nzero.
  Definition mget (A : mat) (i j : nat) : T := nth j (nth i (mdat A) []) nzero.
  Definition vbuild (n : nat) (f : nat -> T) : vec := map f (seq 0 n).
  Definition mbuild (r c : nat) (f : nat -> nat -> T) : mat :=
    mkmat r c (map (fun i => vbuild c (f i)) (seq 0 r)).

  (** Size checks (Eigen assertions). *)
  Definition vdimb (n : nat) (v : vec) : bool := Nat.eqb (length v) n.
  Definition mdimb (r c : nat) (A : mat) : bool :=
    Nat.eqb (mrows A) r && Nat.eqb (mcols A) c && Nat.eqb (length (mdat A)) r
    && forallb (fun row => Nat.eqb (length row) c) (mdat A).

  Definition vzero (n : nat) : vec := vbuild n (fun _ => nzero).
  Definition mzero (r c : nat) : mat := mbuild r c (fun _ _ => nzero).
  Definition vconst (n : nat) (c : T) : vec := vbuild n (fun _ => c).

  Definition vadd (x y : vec) : vec := vbuild (length x) (fun i => vget x i + vget y i).
  Definition vsub (x y : vec) : vec := vbuild (length x) (fun i => vget x i - vget y i).
  Definition vscale (c : T) (x : vec) : vec := vbuild (length x) (fun i => c * vget x i).
  Definition vopp (x : vec) : vec := vbuild (length x) (fun i => nopp (vget x i)).
  (** cwiseMin / cwiseMax: std::min(x_i, y_i), std::max(x_i, y_i) *)
  Definition vmin (x y : vec) : vec := vbuild (length x) (fun i => nmin (vget x i) (vget y i)).
  Definition vmax (x y : vec) : vec := vbuild (length x) (fun i => nmax (vget x i) (vget y i)).
  Definition dot (x y : vec) : T := nsum (vbuild (length x) (fun i => vget x i * vget y i)).
  Definition sqnorm (x : vec) : T := dot x x.
  Definition vnorm (x : vec) : T := nsqrt (sqnorm x).
  Definition vfinb (x : vec) : bool := forallb nfin x.   (* allFinite() *)

  Definition mvmul (A : mat) (x : vec) : vec :=
    vbuild (mrows A) (fun i => nsum (vbuild (mcols A) (fun j => mget A i j * vget x j))).
  Definition mmul (A B : mat) : mat :=
    mbuild (mrows A) (mcols B) (fun i j => nsum (vbuild (mcols A) (fun k => mget A i k * mget B k j))).
  Definition mtr (A : mat) : mat := mbuild (mcols A) (mrows A) (fun i j => mget A j i).
  Definition madd (A B : mat) : mat :=
    mbuild (mrows A) (mcols A) (fun i j => mget A i j + mget B i j).
  Definition msub (A B : mat) : mat :=
    mbuild (mrows A) (mcols A) (fun i j => mget A i j - mget B i j).
  Definition mscale (c : T) (A : mat) : mat :=
    mbuild (mrows A) (mcols A) (fun i j => c * mget A i j).
  (** A.diagonal().array() += c *)
  Definition mdiagadd (A : mat) (c : T) : mat :=
    mbuild (mrows A) (mcols A) (fun i j => if Nat.eqb i j then mget A i j + c else mget A i j).
  Definition mrow (A : mat) (i : nat) : vec := vbuild (mcols A) (fun j => mget A i j).
  Definition mcol (A : mat) (j : nat) : vec := vbuild (mrows A) (fun i => mget A i j).
  Definition mfinb (A : mat) : bool := forallb (forallb nfin) (mdat A).
  Definition mid (n : nat) : mat := mbuild n n (fun i j => if Nat.eqb i j then none else nzero).
  (** v.asDiagonal() *)
  Definition mdiag (v : vec) : mat :=
    mbuild (length v) (length v) (fun i j => if Nat.eqb i j then vget v i else nzero).

  (** Gathering by index lists, as the loops with [free_idxs_] do. *)
  Definition vgather (v : vec) (idx : list nat) : vec := map (vget v) idx.
  Definition mgather (A : mat) (ri ci : list nat) : mat :=
    mkmat (length ri) (length ci) (map (fun i => map (fun j => mget A i j) ci) ri).

  (** Eigen::LLT. [llt_issue A] is [info() == NumericalIssue] after factorising A,
      [llt_solve A b] is [LLT(A).solve(b)]. The factorisation object is represented by the matrix it was
      computed from (the factorisation is a deterministic function of it). *)
  Record lltops := {
    llt_issue : mat -> bool;
    llt_solve : mat -> vec -> vec;
    llt_solve_mat : mat -> mat -> mat
  }.
End LA.
Arguments vec T : clear implicits.
Arguments mat T : clear implicits.
Arguments lltops T : clear implicits.

(** Position of [i] in a list of indices (scatter loops [K.row(free_idxs[j]) = ...]). *)
Fixpoint find_idx (i : nat) (l : list nat) : option nat :=
  match l with
  | [] => None
  | a :: r => if Nat.eqb a i then Some 0 else option_map S (find_idx i r)
  end.

Section Generic.
  Context {T : Type} {N : Num T}.
  Lemma vbuild_length n (f : nat -> T) : length (vbuild n f) = n.
  Proof. unfold vbuild; rewrite map_length, seq_length; reflexivity. Qed.
  Lemma vbuild_get n (f : nat -> T) i : i < n -> vget (vbuild n f) i = f i.
  Proof.
    intros H; unfold vget, vbuild.
    rewrite nth_indep with (d' := f 0) by (rewrite map_length, seq_length; exact H).
    rewrite (map_nth f), seq_nth by exact H; reflexivity.
  Qed.
  Lemma vget_ge (v : vec T) i : length v <= i -> vget v i = nzero.
  Proof. apply nth_overflow. Qed.
  Lemma vec_ext (v w : vec T) :
    length v = length w -> (forall i, i < length v -> vget v i = vget w i) -> v = w.
  Proof.
    intros H1 H2. apply (nth_ext v w nzero nzero H1). intros n Hn; apply (H2 n Hn).
  Qed.
  Lemma vbuild_ext n (f g : nat -> T) : (forall i, i < n -> f i = g i) -> vbuild n f = vbuild n g.
  Proof.
    intros H; unfold vbuild; apply map_ext_in; intros i Hi; apply in_seq in Hi; apply H; lia.
  Qed.
  Lemma vbuild_vget (v : vec T) : vbuild (length v) (vget v) = v.
  Proof.
    apply vec_ext; rewrite vbuild_length; [reflexivity|].
    intros i Hi; rewrite vbuild_get by exact Hi; reflexivity.
  Qed.

  Lemma mbuild_get r c (f : nat -> nat -> T) i j :
    i < r -> j < c -> mget (mbuild r c f) i j = f i j.
  Proof.
    intros Hi Hj; unfold mget, mbuild; cbn [mdat].
    rewrite nth_indep with (d' := vbuild c (f 0)) by (rewrite map_length, seq_length; exact Hi).
    rewrite (map_nth (fun i => vbuild c (f i))), seq_nth by exact Hi.
    apply vbuild_get; exact Hj.
  Qed.

  Lemma mdimb_spec r c (A : mat T) :
    mdimb r c A = true <->
    mrows A = r /\ mcols A = c /\ length (mdat A) = r /\ Forall (fun row => length row = c) (mdat A).
  Proof.
    unfold mdimb; rewrite !andb_true_iff, !Nat.eqb_eq, forallb_forall, Forall_forall.
    split.
    - intros (((H1 & H2) & H3) & H4); repeat split; auto. intros x Hx; apply Nat.eqb_eq; auto.
    - intros (H1 & H2 & H3 & H4); repeat split; auto. intros x Hx; apply Nat.eqb_eq; auto.
  Qed.
  Lemma mbuild_dim r c (f : nat -> nat -> T) : mdimb r c (mbuild r c f) = true.
  Proof.
    apply mdimb_spec; cbn; rewrite map_length, seq_length; repeat split.
    apply Forall_forall; intros x Hx; apply in_map_iff in Hx as (i & <- & _); apply vbuild_length.
  Qed.
  Lemma mat_ext r c (A B : mat T) :
    mdimb r c A = true -> mdimb r c B = true ->
    (forall i j, i < r -> j < c -> mget A i j = mget B i j) -> A = B.
  Proof.
    rewrite !mdimb_spec.
    destruct A as [ra ca da], B as [rb cb db]; cbn.
    intros (-> & -> & La & Fa) (-> & -> & Lb & Fb) H. f_equal.
    apply (nth_ext da db [] []); [congruence|].
    intros i Hi. rewrite La in Hi.
    assert (Ha : length (nth i da []) = c).
    { rewrite Forall_forall in Fa; apply Fa, nth_In; lia. }
    assert (Hb : length (nth i db []) = c).
    { rewrite Forall_forall in Fb; apply Fb, nth_In; lia. }
    apply (nth_ext _ _ nzero nzero); [congruence|].
    intros j Hj. apply (H i j); lia.
  Qed.
  Lemma mget_out r c (A : mat T) i j :
    mdimb r c A = true -> r <= i \/ c <= j -> mget A i j = nzero.
  Proof.
    rewrite mdimb_spec; intros (_ & _ & L & F) H; unfold mget.
    destruct (Nat.lt_ge_cases i r) as [Hi|Hi].
    - apply nth_overflow. rewrite Forall_forall in F.
      rewrite (F (nth i (mdat A) [])); [lia|]. apply nth_In; lia.
    - rewrite (nth_overflow (mdat A)) by lia. destruct j; reflexivity.
  Qed.
  Lemma mgather_get (A : mat T) ri ci i j :
    i < length ri -> j < length ci ->
    mget (mgather A ri ci) i j = mget A (nth i ri 0) (nth j ci 0).
  Proof.
    intros Hi Hj; unfold mget at 1, mgather; cbn [mdat].
    rewrite nth_indep with (d' := map (fun j => mget A 0 j) ci) by (rewrite map_length; exact Hi).
    rewrite (map_nth (fun i => map (fun j => mget A i j) ci)).
    rewrite nth_indep with (d' := mget A (nth i ri 0) 0) by (rewrite map_length; exact Hj).
    rewrite (map_nth (fun j => mget A (nth i ri 0) j)); reflexivity.
  Qed.
  Lemma mgather_dim (A : mat T) ri ci : mdimb (length ri) (length ci) (mgather A ri ci) = true.
  Proof.
    apply mdimb_spec; cbn; rewrite map_length; repeat split.
    apply Forall_forall; intros x Hx; apply in_map_iff in Hx as (i & <- & _); apply map_length.
  Qed.
  Lemma vgather_length (v : vec T) idx : length (vgather v idx) = length idx.
  Proof. apply map_length. Qed.
  Lemma vgather_get (v : vec T) idx i : i < length idx -> vget (vgather v idx) i = vget v (nth i idx 0).
  Proof.
    intros H; unfold vget at 1, vgather.
    rewrite nth_indep with (d' := vget v 0) by (rewrite map_length; exact H).
    apply (map_nth (vget v)).
  Qed.
End Generic.
