(** Property C50: the Cholesky routine standing for Eigen::LLT (exact arithmetic). *)
From Verif Require Import Prelude Scalar LinAlg Chol RLin CholProofs.
Open Scope R_scope.

(** Success exactly on positive definite symmetric matrices. *)
Theorem C50_success_iff_posdef A n : mdimb n n A = true -> fsym n (mget A) ->
  (llt_issue (chol_llt (T := R)) A = false <-> posdef n (mget A)).
Proof. exact (el_issue _ chol_exact A n). Qed.
Print Assumptions C50_success_iff_posdef.

(** The rows reproduce the matrix: A = L L', L lower triangular with positive diagonal. *)
Theorem C50_factor (A : mat R) n L : mrows A = n -> fsym n (mget A) -> chol_rows A n = Some L ->
  (forall i j, (i < n)%nat -> (j < n)%nat -> mget A i j = Rsum n (fun k => lget L i k * lget L j k)) /\
  (forall i, (i < n)%nat -> 0 < lget L i i) /\ (forall i j, (i < j)%nat -> lget L i j = 0).
Proof.
  exact (fun Hn Hs E => conj (chol_full A n L (chol_rows_ok A n L E) Hs)
           (conj (co_pos _ _ _ (chol_rows_ok A n L E)) (co_up _ _ _ (chol_rows_ok A n L E)))).
Qed.
Print Assumptions C50_factor.

(** The solves are exact, for vectors and for matrices. *)
Theorem C50_solve (A : mat R) n b : mdimb n n A = true -> fsym n (mget A) ->
  llt_issue (chol_llt (T := R)) A = false -> length b = n ->
  length (llt_solve chol_llt A b) = n /\
  forall i, (i < n)%nat -> Rsum n (fun j => mget A i j * vget (llt_solve chol_llt A b) j) = vget b i.
Proof.
  exact (fun HA Hs Hi Hb => conj (el_len _ chol_exact A n b HA Hb) (el_solve _ chol_exact A n b HA Hs Hi Hb)).
Qed.
Print Assumptions C50_solve.
Theorem C50_solve_mat (A : mat R) n m B : mdimb n n A = true -> fsym n (mget A) ->
  llt_issue (chol_llt (T := R)) A = false -> mdimb n m B = true ->
  mdimb n m (llt_solve_mat chol_llt A B) = true /\
  forall i j, (i < n)%nat -> (j < m)%nat ->
    Rsum n (fun k => mget A i k * mget (llt_solve_mat chol_llt A B) k j) = mget B i j.
Proof.
  exact (fun HA Hs Hi HB => conj (el_mdim _ chol_exact A n m B HA HB) (el_msolve _ chol_exact A n m B HA Hs Hi HB)).
Qed.
Print Assumptions C50_solve_mat.

(** Non-vacuity: [[4,2],[2,3]] is symmetric positive definite. *)
Example C50_nonvacuous : let A : mat R := mkmat 2 2 [[4; 2]; [2; 3]] in
  mdimb 2 2 A = true /\ fsym 2 (mget A) /\ posdef 2 (mget A).
Proof.
  split; [reflexivity|]. split.
  - intros [|[|i]] [|[|j]] Hi Hj; try lia; reflexivity.
  - intros x (i & Hi & Hx). unfold fdot, fmv; cbn.
    assert (H : x 0%nat <> 0 \/ x 1%nat <> 0) by (destruct i as [|[|i]]; auto; lia).
    assert (E : 0 < (2 * x 0%nat + x 1%nat) * (2 * x 0%nat + x 1%nat) + 2 * (x 1%nat * x 1%nat)).
    { destruct H as [H|H].
      - destruct (Req_dec (x 1%nat) 0) as [->|H1].
        + assert (0 < x 0%nat * x 0%nat) by (apply Rsqr_pos_lt; auto). nra.
        + assert (0 < x 1%nat * x 1%nat) by (apply Rsqr_pos_lt; auto). nra.
      - assert (0 < x 1%nat * x 1%nat) by (apply Rsqr_pos_lt; auto). nra. }
    nra.
Qed.
