(** One row of the inequality constraint that is affine, on a problem that need not be: effect of the FMPC step, for every linear solver. *)
From Coq Require Import Reals Lra Psatz.
From Verif Require Import Prelude Scalar LinAlg RLin DDP Fmpc FmpcProofs FmpcStep FmpcSpec FmpcReal FmpcNewton FmpcAffine.
Local Open Scope R_scope.

(** ** Specification *)
(** Row [j] of the inequality function is affine in (x, u), with the slopes returned by calcIneqConstDeriv. *)
Definition affine_row (pb : fproblem R) (D : derivs R) (j : nat) : Prop :=
  forall t x u y w, length x = pb_nx (fp_dp pb) -> length y = length x -> length w = length u -> (j < length (fp_g pb t x u))%nat ->
    vget (fp_g pb t y w) j = vget (fp_g pb t x u) j
      + Rsum (length x) (fun k => mget (d_C D t x u) j k * (vget y k - vget x k)) + Rsum (length u) (fun k => mget (d_D D t x u) j k * (vget w k - vget u k)).
(** From [v] to [v'] the residual of the initial state and those of the rows [J] are multiplied by [c]; slacks keep their sizes. *)
Record rows_scaled (pb : fproblem R) (J : nat -> Prop) (t0 : R) (x0 : vec R) (N : nat) (c : R) (v v' : var R) : Prop := {
  rs_init : forall j, (j < length x0)%nat -> init_res x0 v' j = c * init_res x0 v j;
  rs_size : forall i, (i < N)%nat -> length (nth i (v_s v') []) = length (nth i (v_s v) []);
  rs_row : forall i j, (i < N)%nat -> J j -> (j < length (nth i (v_s v) []))%nat -> ineq_res pb t0 v' i j = c * ineq_res pb t0 v i j
}.

Section Rows.
  Variables (pb : fproblem R) (cf : fconfig R) (D : derivs R).
  Notation nx := (pb_nx (fp_dp pb)).
  Notation Nf := (Nf cf).
  Lemma row_step (J : nat -> Prop) t0 x0 v d v' a : (forall j, J j -> affine_row pb D j) ->
    (exists x, nth_error (v_x v) 0 = Some x /\ nth_error (v_x d) 0 = Some (vsub x0 x) /\ length x = length x0 /\ length x = nx) ->
    (forall i, (i < Nf)%nat -> primal_stage pb D t0 v d i) ->
    moved (Nf + 1) a (v_x v) (v_x d) (v_x v') -> moved Nf a (v_u v) (v_u d) (v_u v') -> moved Nf a (v_s v) (v_s d) (v_s v') ->
    rows_scaled pb J t0 x0 Nf (1 - a) v v'.
  Proof.
    intros AF (xi & Exi & Edi & Li & Lxi) PS (_ & Mx & _) (_ & Mu & _) (_ & Ms & _).
    assert (LX : forall i x, (i <= Nf)%nat -> nth_error (v_x v) i = Some x -> length x = nx).
    { intros [|i] x Hi Hx; [rewrite Exi in Hx; injection Hx as <-; exact Lxi|].
      destruct (PS i ltac:(lia)) as (x1 & u & l & s & n & x' & l' & dx & du & dl & ds & dn & dx' & dl' & St & _ & D1 & _).
      destruct St as (_ & _ & _ & _ & _ & S6 & _). rewrite Nat.add_1_r in S6. rewrite S6 in Hx. injection Hx as <-. exact D1. }
    constructor.
    - intros j Hj. destruct (Mx 0%nat ltac:(lia)) as (a1 & a2 & y & U1 & U2 & U3 & U4 & U5 & U6). rewrite Exi in U1. injection U1 as <-. rewrite Edi in U2. injection U2 as <-.
      unfold init_res. rewrite (nth_some _ _ _ _ Exi), (nth_some _ _ _ _ U3), U6 by lia. rewrite vsub_get by exact Hj. ring.
    - intros i Hi. destruct (Ms i Hi) as (e1 & e2 & r & X1 & X2 & X3 & X4 & X5 & X6). rewrite (nth_some _ _ _ _ X1), (nth_some _ _ _ _ X3). exact X5.
    - intros i j Hi HJ Hj. destruct (PS i Hi) as (x & u & l & s & n & x' & l' & dx & du & dl & ds & dn & dx' & dl' & St & Sd & Q). cbn zeta in Q.
      destruct St as (S1 & S2 & _ & S4 & _ & S6 & _). destruct Sd as (T1 & T2 & _ & T4 & _ & T6 & _). destruct Q as (D1 & D2 & D3 & D4 & D5 & D6 & _ & E2).
      destruct (Mx i ltac:(lia)) as (a1 & a2 & y & U1 & U2 & U3 & U4 & U5 & U6). rewrite S1 in U1. injection U1 as <-. rewrite T1 in U2. injection U2 as <-.
      destruct (Mu i Hi) as (c1 & c2 & w & W1 & W2 & W3 & W4 & W5 & W6). rewrite S2 in W1. injection W1 as <-. rewrite T2 in W2. injection W2 as <-.
      destruct (Ms i Hi) as (e1 & e2 & r & X1 & X2 & X3 & X4 & X5 & X6). rewrite S4 in X1. injection X1 as <-. rewrite T4 in X2. injection X2 as <-.
      pose proof (LX i x ltac:(lia) S1) as Lx.
      unfold ineq_res. rewrite <- ft_R. rewrite (nth_some _ _ _ _ S4) in *. rewrite (nth_some _ _ _ _ S1), (nth_some _ _ _ _ S2), (nth_some _ _ _ _ U3), (nth_some _ _ _ _ W3), (nth_some _ _ _ _ X3).
      rewrite (AF j HJ (ft pb t0 i) x u y w Lx U5 W5 ltac:(lia)), X6 by lia. specialize (E2 j Hj).
      rewrite (Rsum_ext (length x) _ (fun k => a * (mget (d_C D (ft pb t0 i) x u) j k * vget dx k))) by (intros k Hk; rewrite U6 by exact Hk; ring).
      rewrite (Rsum_ext (length u) (fun k => mget (d_D D (ft pb t0 i) x u) j k * (vget w k - vget u k)) (fun k => a * (mget (d_D D (ft pb t0 i) x u) j k * vget du k))) by (intros k Hk; rewrite W6 by exact Hk; ring).
      rewrite !Rsum_scal, Lx. replace (vget ds j) with (- (vget (fp_g pb (ft pb t0 i) x u) j
         + Rsum nx (fun k => mget (d_C D (ft pb t0 i) x u) j k * vget dx k) + Rsum (length u) (fun k => mget (d_D D (ft pb t0 i) x u) j k * vget du k) + vget s j)) by lra. ring.
  Qed.
  Lemma rows_refl J t0 x0 N v : rows_scaled pb J t0 x0 N 1 v v.
  Proof. constructor; intros; lra || reflexivity. Qed.
  Lemma rows_trans J t0 x0 N a b v1 v2 v3 : rows_scaled pb J t0 x0 N a v1 v2 -> rows_scaled pb J t0 x0 N b v2 v3 -> rows_scaled pb J t0 x0 N (a * b) v1 v3.
  Proof.
    intros [A1 A2 A3] [B1 B2 B3]. constructor.
    - intros j Hj. rewrite B1, A1 by exact Hj. ring.
    - intros i Hi. rewrite B2, A2 by exact Hi. reflexivity.
    - intros i j Hi HJ Hj. rewrite B3, A3 by (rewrite ?A2; assumption). ring.
  Qed.
End Rows.
