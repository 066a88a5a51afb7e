(** Correctness of the Cholesky routine over the reals. *)
From Verif Require Import Prelude Scalar LinAlg Chol RLin.
Open Scope R_scope.

Notation rmat := (mat R).

Lemma vget_app_l (l l' : vec R) i : (i < length l)%nat -> vget (l ++ l') i = vget l i.
Proof. intros H; unfold vget; apply app_nth1; exact H. Qed.
Lemma vget_app_r (l l' : vec R) i : vget (l ++ l') (length l + i) = vget l' i.
Proof. unfold vget. rewrite app_nth2 by lia. f_equal; lia. Qed.
Lemma vget_snoc (l : vec R) a n : length l = n -> vget (l ++ [a]) n = a.
Proof. intros <-. rewrite <- (Nat.add_0_r (length l)) at 1. rewrite vget_app_r. reflexivity. Qed.

Lemma lget_app_l (L L' : list (list R)) i j : (i < length L)%nat -> lget (L ++ L') i j = lget L i j.
Proof. intros H; unfold lget; rewrite app_nth1 by exact H; reflexivity. Qed.
Lemma lget_snoc (L : list (list R)) r j : lget (L ++ [r]) (length L) j = vget r j.
Proof. unfold lget. rewrite app_nth2 by lia. rewrite Nat.sub_diag. reflexivity. Qed.

Lemma chol_off_length (A : rmat) L i k : length (chol_off A L i k) = k.
Proof. induction k as [|k IH]; cbn; [reflexivity|]. rewrite app_length, IH; cbn; lia. Qed.

Lemma chol_off_eq (A : rmat) L i k j : (forall m, (m < k)%nat -> lget L m m <> 0) -> (j < k)%nat ->
  Rsum (S j) (fun m => vget (chol_off A L i k) m * lget L j m) = mget A i j.
Proof.
  induction k as [|k IH]; intros Hd Hj; [lia|]. cbn [chol_off].
  set (r := chol_off A L i k) in *. assert (Hr : length r = k) by apply chol_off_length.
  destruct (Nat.eq_dec j k) as [->|Hne].
  - cbn [Rsum]. 
    rewrite (Rsum_ext k _ (fun m => vget r m * lget L k m)).
    2:{ intros m Hm. rewrite vget_app_l by lia. reflexivity. }
    rewrite (vget_snoc r _ k Hr). rewrite nsum_vbuild. numR. unfold Rdiv.
    set (q := Rsum k _). field. apply Hd; lia.
  - rewrite <- IH; [|intros; apply Hd; lia|lia].
    apply Rsum_ext; intros m Hm. rewrite vget_app_l by lia. reflexivity.
Qed.

Record chol_ok (A : rmat) (n : nat) (L : list (list R)) : Prop := {
  co_len : length L = n;
  co_eq : forall i j, (i < n)%nat -> (j <= i)%nat ->
          Rsum (S j) (fun m => lget L i m * lget L j m) = mget A i j;
  co_pos : forall i, (i < n)%nat -> 0 < lget L i i;
  co_up : forall i j, (i < j)%nat -> lget L i j = 0
}.

Lemma chol_rows_ok A n L : chol_rows A n = Some L -> chol_ok A n L.
Proof.
  revert L; induction n as [|n IH]; intros L; cbn [chol_rows].
  - intros E; injection E as <-. split; try reflexivity; try lia. intros [|i] [|j] H; reflexivity || lia.
  - destruct (chol_rows A n) as [L0|]; [|discriminate]. specialize (IH L0 eq_refl).
    destruct IH as [Hl He Hp Hu].
    set (r := chol_off A L0 n n). assert (Hr : length r = n) by apply chol_off_length.
    rewrite nsum_vbuild. numR.
    set (p := mget A n n - _). destruct (Rleb p 0) eqn:Ep; [discriminate|]. apply Rleb_false in Ep.
    intros E; injection E as <-.
    assert (Hn : forall j, lget (L0 ++ [r ++ [R_sqrt.sqrt p]]) n j = vget (r ++ [R_sqrt.sqrt p]) j)
      by (intros j; rewrite <- Hl at 1; apply lget_snoc).
    assert (Ho : forall i j, (i < n)%nat -> lget (L0 ++ [r ++ [R_sqrt.sqrt p]]) i j = lget L0 i j)
      by (intros i j Hi; apply lget_app_l; lia).
    split.
    + rewrite app_length; cbn; lia.
    + intros i j Hi Hj. destruct (Nat.eq_dec i n) as [->|Hin].
      * destruct (Nat.eq_dec j n) as [->|Hjn].
        -- cbn [Rsum]. rewrite !Hn. rewrite (vget_snoc r _ n Hr).
           rewrite R_sqrt.sqrt_sqrt by lra.
           rewrite (Rsum_ext n _ (fun m => vget r m * vget r m)).
           2:{ intros m Hm. rewrite !Hn, vget_app_l by lia. reflexivity. }
           unfold p. lra.
        -- rewrite <- (chol_off_eq A L0 n n j); [|intros m Hm; specialize (Hp m Hm); lra|lia].
           apply Rsum_ext; intros m Hm. rewrite Hn, Ho by lia. rewrite vget_app_l by lia. reflexivity.
      * rewrite <- (He i j) by lia. apply Rsum_ext; intros m Hm. rewrite !Ho by lia. reflexivity.
    + intros i Hi. destruct (Nat.eq_dec i n) as [->|Hin].
      * rewrite Hn, (vget_snoc r _ n Hr). apply R_sqrt.sqrt_lt_R0; lra.
      * rewrite Ho by lia. apply Hp; lia.
    + intros i j Hij. destruct (Nat.lt_trichotomy i n) as [Hi|[->|Hi]].
      * rewrite Ho by lia. apply Hu; lia.
      * rewrite Hn. apply vget_out. rewrite app_length; cbn; lia.
      * unfold lget. rewrite (nth_overflow (L0 ++ _)) by (rewrite app_length; cbn; lia). destruct j; reflexivity.
Qed.

(** A = L L' on the full square, for symmetric A. *)
Lemma chol_full A n L : chol_ok A n L -> fsym n (mget A) ->
  forall i j, (i < n)%nat -> (j < n)%nat -> mget A i j = fmm n (lget L) (ftr (lget L)) i j.
Proof.
  intros [Hl He Hp Hu] Hs.
  assert (Hle : forall i j, (i < n)%nat -> (j <= i)%nat -> mget A i j = fmm n (lget L) (ftr (lget L)) i j).
  { intros i j Hi Hj. rewrite <- (He i j Hi Hj). unfold fmm, ftr. symmetry. apply Rsum_trunc; [lia|].
    intros m Hm. rewrite (Hu j m) by lia. lra. }
  intros i j Hi Hj. destruct (Nat.le_ge_cases j i) as [H|H].
  - apply Hle; auto.
  - rewrite Hs by auto. rewrite Hle by auto. unfold fmm, ftr. apply Rsum_ext; intros; lra.
Qed.

Lemma fsub_length L (b : nat -> R) i : length (fsub L b i) = i.
Proof. induction i as [|i IH]; cbn; [reflexivity|]. rewrite app_length, IH; cbn; lia. Qed.
Lemma fsub_eq L (b : nat -> R) n i : (forall m, (m < n)%nat -> lget L m m <> 0) -> (i < n)%nat ->
  Rsum (S i) (fun m => lget L i m * vget (fsub L b n) m) = b i.
Proof.
  induction n as [|n IH]; intros Hd Hi; [lia|]. cbn [fsub].
  set (y := fsub L b n) in *. assert (Hy : length y = n) by apply fsub_length.
  destruct (Nat.eq_dec i n) as [->|Hne].
  - cbn [Rsum]. rewrite (Rsum_ext n _ (fun m => lget L n m * vget y m)).
    2:{ intros m Hm. rewrite vget_app_l by lia. reflexivity. }
    rewrite (vget_snoc y _ n Hy), nsum_vbuild. numR. field. apply Hd; lia.
  - rewrite <- IH; [|intros; apply Hd; lia|lia].
    apply Rsum_ext; intros m Hm. rewrite vget_app_l by lia. reflexivity.
Qed.

Lemma bsub_length L (y : vec R) n m : length (bsub L y n m) = m.
Proof. induction m as [|m IH]; cbn; [reflexivity|]. rewrite IH; reflexivity. Qed.
Lemma bsub_eq L (y : vec R) n m : (forall i, (i < n)%nat -> lget L i i <> 0) -> (m <= n)%nat ->
  (forall i j, (i < j)%nat -> lget L i j = 0) ->
  forall j, (j < m)%nat ->
  Rsum m (fun k => lget L (n - m + k) (n - m + j) * vget (bsub L y n m) k) = vget y (n - m + j).
Proof.
  intros Hd Hm Hu. induction m as [|m IH]; intros j Hj; [lia|].
  specialize (IH ltac:(lia)). cbn [bsub]. set (x := bsub L y n m) in *.
  assert (Hx : length x = m) by apply bsub_length.
  rewrite Rsum_S_l. replace (n - S m + 0)%nat with (n - S m)%nat by lia.
  destruct j as [|j].
  - replace (n - S m + 0)%nat with (n - S m)%nat by lia.
    rewrite nsum_vbuild. numR. set (q := Rsum m (fun j => lget L (n - S m + 1 + j) (n - S m) * vget x j)).
    match goal with |- _ * vget (?z :: x) 0 + _ = _ =>
      assert (Hq : Rsum m (fun i => lget L (n - S m + S i) (n - S m) * vget (z :: x) (S i)) = q) end.
    { apply Rsum_ext; intros i Hi. replace (n - S m + S i)%nat with (n - S m + 1 + i)%nat by lia. reflexivity. }
    rewrite Hq. unfold vget at 1. cbn [nth]. field. apply Hd; lia.
  - rewrite (Hu (n - S m)%nat) by lia. 
    replace (n - S m + S j)%nat with (n - m + j)%nat by lia. rewrite <- (IH j) by lia.
    rewrite Rmult_0_l, Rplus_0_l. apply Rsum_ext; intros k Hk.
    replace (n - S m + S k)%nat with (n - m + k)%nat by lia. reflexivity.
Qed.

Lemma chol_solve_length A (b : nat -> R) : length (chol_solve A b) = mrows A.
Proof.
  unfold chol_solve. destruct (chol_rows A (mrows A)); [apply bsub_length|apply vbuild_length].
Qed.

Lemma chol_solve_eq A n (b : nat -> R) : mrows A = n -> fsym n (mget A) ->
  llt_issue (chol_llt (T := R)) A = false ->
  forall i, (i < n)%nat -> fmv n (mget A) (vget (chol_solve A b)) i = b i.
Proof.
  intros Hn Hs Hi. unfold chol_llt in Hi; cbn [llt_issue] in Hi. unfold chol_solve. rewrite Hn in *.
  destruct (chol_rows A n) as [L|] eqn:E; [|discriminate].
  apply chol_rows_ok in E. intros i Hin.
  assert (Hd : forall m, (m < n)%nat -> lget L m m <> 0) by (intros m Hm; pose proof (co_pos _ _ _ E m Hm); lra).
  set (y := fsub L b n). set (x := bsub L y n n).
  rewrite (fmv_ext n _ (fmm n (lget L) (ftr (lget L))) _ (vget x)); auto.
  2:{ intros j Hj. apply (chol_full A n L E Hs); auto. }
  rewrite fmv_mm.
  assert (Hy : forall j, (j < n)%nat -> fmv n (ftr (lget L)) (vget x) j = vget y j).
  { intros j Hj. pose proof (bsub_eq L y n n Hd (le_n n) (co_up _ _ _ E) j Hj) as B.
    rewrite Nat.sub_diag in B; cbn [Nat.add] in B. exact B. }
  rewrite (fmv_ext n _ (lget L) _ (vget y)); auto.
  unfold fmv. rewrite (Rsum_trunc (S i) n); [apply fsub_eq; auto|lia|].
  intros m Hm. rewrite (co_up _ _ _ E) by lia. lra.
Qed.

(** L' is injective. *)
Lemma chol_tr_inj A n L x : chol_ok A n L -> (forall j, (j < n)%nat -> fmv n (ftr (lget L)) x j = 0) ->
  forall j, (j < n)%nat -> x j = 0.
Proof.
  intros [Hl He Hp Hu] H.
  assert (G : forall k, (k <= n)%nat -> forall j, (n - k <= j < n)%nat -> x j = 0).
  { induction k as [|k IH]; intros Hk j Hj; [lia|].
    destruct (Nat.eq_dec j (n - S k)) as [->|Hne]; [|apply IH; lia].
    set (i := (n - S k)%nat) in *. specialize (H i ltac:(lia)). unfold fmv, ftr in H.
    rewrite (Rsum_single n _ i) in H; [|lia|].
    - specialize (Hp i ltac:(lia)). nra.
    - intros m Hm Hmi. destruct (Nat.lt_ge_cases m i).
      + rewrite Hu by lia. lra.
      + rewrite IH by lia. lra. }
  intros j Hj. apply (G n); lia.
Qed.

Lemma chol_form A n L x : chol_ok A n L -> fsym n (mget A) ->
  fdot n x (fmv n (mget A) x) = fdot n (fmv n (ftr (lget L)) x) (fmv n (ftr (lget L)) x).
Proof.
  intros E Hs.
  rewrite (fdot_ext n x _ x (fmv n (lget L) (fmv n (ftr (lget L)) x))); auto.
  - rewrite fdot_mv. reflexivity.
  - intros i Hi. rewrite <- fmv_mm. apply fmv_ext; auto. intros j Hj. apply (chol_full A n L E Hs); auto.
Qed.

Lemma chol_posdef A n : mrows A = n -> fsym n (mget A) ->
  llt_issue (chol_llt (T := R)) A = false -> posdef n (mget A).
Proof.
  intros Hn Hs Hi. unfold chol_llt in Hi; cbn [llt_issue] in Hi. rewrite Hn in Hi.
  destruct (chol_rows A n) as [L|] eqn:E; [|discriminate]. apply chol_rows_ok in E.
  intros x (i & Hin & Hx). rewrite (chol_form A n L x E Hs).
  destruct (fdot_self_nonneg n (fmv n (ftr (lget L)) x)) as [H|H]; [exact H|].
  exfalso. apply Hx. apply (chol_tr_inj A n L x E); auto.
  apply fdot_self_0; auto.
Qed.

Lemma posdef_lead n m A : (m <= n)%nat -> posdef n A -> posdef m A.
Proof.
  intros Hm H x (i & Hi & Hx).
  set (z := fun i => if (i <? m)%nat then x i else 0).
  assert (Hz1 : forall i, (i < m)%nat -> z i = x i).
  { intros k Hk; unfold z. replace (k <? m)%nat with true; [reflexivity|]. symmetry; apply Nat.ltb_lt; lia. }
  assert (Hz2 : forall i, (m <= i)%nat -> z i = 0).
  { intros k Hk; unfold z. replace (k <? m)%nat with false; [reflexivity|]. symmetry; apply Nat.ltb_ge; lia. }
  specialize (H z). replace (fdot m x (fmv m A x)) with (fdot n z (fmv n A z)).
  { apply H. exists i; split; [lia|]. rewrite Hz1; auto. }
  unfold fdot. rewrite (Rsum_trunc m n); [|lia|intros k Hk; rewrite Hz2 by lia; lra].
  apply Rsum_ext; intros k Hk. rewrite Hz1 by lia. f_equal. unfold fmv.
  rewrite (Rsum_trunc m n); [|lia|intros j Hj; rewrite Hz2 by lia; lra].
  apply Rsum_ext; intros j Hj. rewrite Hz1 by lia. reflexivity.
Qed.

Lemma chol_succeeds A n : fsym n (mget A) -> posdef n (mget A) -> exists L, chol_rows A n = Some L.
Proof.
  induction n as [|n IH]; intros Hs Hp; [eexists; reflexivity|].
  assert (Hs' : fsym n (mget A)) by (intros i j Hi Hj; apply Hs; lia).
  destruct IH as [L E]; [exact Hs'|apply (posdef_lead (S n)); auto|].
  cbn [chol_rows]. rewrite E. apply chol_rows_ok in E.
  set (r := chol_off A L n n). assert (Hr : length r = n) by apply chol_off_length.
  rewrite nsum_vbuild. numR. set (p := mget A n n - _).
  destruct (Rleb p 0) eqn:Ep; [|eexists; reflexivity]. exfalso. apply Rleb_true in Ep.
  assert (Hd : forall m, (m < n)%nat -> lget L m m <> 0) by (intros m Hm; pose proof (co_pos _ _ _ E m Hm); lra).
  (* x = (- L^-T r, 1) *)
  set (y := bsub L (vopp r) n n).
  assert (Hy : forall j, (j < n)%nat -> fmv n (ftr (lget L)) (vget y) j = - vget r j).
  { intros j Hj. pose proof (bsub_eq L (vopp r) n n Hd (le_n n) (co_up _ _ _ E) j Hj) as B.
    rewrite Nat.sub_diag in B; cbn [Nat.add] in B. rewrite vopp_f in B. exact B. }
  set (x := fun i => if (i =? n)%nat then 1 else vget y i).
  assert (Hx1 : forall i, (i < n)%nat -> x i = vget y i).
  { intros i Hi; unfold x. replace (i =? n)%nat with false; [reflexivity|]. symmetry; apply Nat.eqb_neq; lia. }
  assert (Hx2 : x n = 1) by (unfold x; rewrite Nat.eqb_refl; reflexivity).
  specialize (Hp x ltac:(exists n; split; [lia|lra])).
  assert (Hform : fdot (S n) x (fmv (S n) (mget A) x) =
     fdot n (vget y) (fmv n (mget A) (vget y)) + 2 * fdot n (vget y) (fun i => mget A n i) + mget A n n).
  { unfold fdot at 1. cbn [Rsum]. rewrite Hx2.
    rewrite (Rsum_ext n _ (fun i => vget y i * fmv n (mget A) (vget y) i + vget y i * mget A n i)).
    2:{ intros i Hi. rewrite Hx1 by lia. unfold fmv; cbn [Rsum]. rewrite Hx2.
        rewrite (Rsum_ext n (fun j => mget A i j * x j) (fun j => mget A i j * vget y j)).
        2:{ intros j Hj; rewrite Hx1 by lia; reflexivity. }
        rewrite (Hs i n) by lia. lra. }
    rewrite Rsum_plus. unfold fmv at 2. cbn [Rsum]. rewrite Hx2.
    rewrite (Rsum_ext n (fun j => mget A n j * x j) (fun j => vget y j * mget A n j)).
    2:{ intros j Hj; rewrite Hx1 by lia; lra. }
    unfold fdot. lra. }
  rewrite Hform in Hp. rewrite (chol_form A n L _ E Hs') in Hp.
  rewrite (fdot_ext n _ _ (fopp (vget r)) (fopp (vget r))) in Hp by (intros; apply Hy; auto).
  assert (Hyr : fdot n (vget y) (fun i => mget A n i) = - fdot n (vget r) (vget r)).
  { rewrite (fdot_ext n (vget y) _ (vget y) (fmv n (lget L) (vget r))); auto.
    - rewrite fdot_mv. rewrite (fdot_ext n _ (vget r) (fopp (vget r)) (vget r)); auto. apply fdot_opp_l.
    - intros i Hi. unfold fmv. rewrite <- (chol_off_eq A L n n i); auto. fold r.
      rewrite (Rsum_trunc (S i) n); [apply Rsum_ext; intros; lra|lia|].
      intros m Hm. rewrite (co_up _ _ _ E) by lia. lra. }
  rewrite Hyr, fdot_opp_l, fdot_opp_r in Hp. unfold p in Ep.
  change (Rsum n (fun j => vget r j * vget r j)) with (fdot n (vget r) (vget r)) in Ep. lra.
Qed.

Lemma chol_no_issue A n : mrows A = n -> fsym n (mget A) -> posdef n (mget A) ->
  llt_issue (chol_llt (T := R)) A = false.
Proof.
  intros Hn Hs Hp. cbn [chol_llt llt_issue]. rewrite Hn.
  destruct (chol_succeeds A n Hs Hp) as [L ->]. reflexivity.
Qed.

(** Contract of an exact LLT, as used by the numerical theorems. *)
Record exact_llt (LL : lltops R) : Prop := {
  el_issue : forall A n, mdimb n n A = true -> fsym n (mget A) ->
             (llt_issue LL A = false <-> posdef n (mget A));
  el_len : forall A n b, mdimb n n A = true -> length b = n -> length (llt_solve LL A b) = n;
  el_solve : forall A n b, mdimb n n A = true -> fsym n (mget A) -> llt_issue LL A = false -> length b = n ->
             forall i, (i < n)%nat -> fmv n (mget A) (vget (llt_solve LL A b)) i = vget b i;
  el_mdim : forall A n m B, mdimb n n A = true -> mdimb n m B = true -> mdimb n m (llt_solve_mat LL A B) = true;
  el_msolve : forall A n m B, mdimb n n A = true -> fsym n (mget A) -> llt_issue LL A = false -> mdimb n m B = true ->
             forall i j, (i < n)%nat -> (j < m)%nat -> fmm n (mget A) (mget (llt_solve_mat LL A B)) i j = mget B i j
}.

Lemma chol_exact : exact_llt chol_llt.
Proof.
  split.
  - intros A n HA Hs. apply mdimb_rows in HA. split; intros H.
    + apply (chol_posdef A n); auto.
    + apply (chol_no_issue A n); auto.
  - intros A n b HA Hb. cbn [chol_llt llt_solve]. rewrite chol_solve_length. apply (mdimb_rows _ _ _ HA).
  - intros A n b HA Hs Hi Hb i Hin. cbn [chol_llt llt_solve]. apply chol_solve_eq; auto. apply (mdimb_rows _ _ _ HA).
  - intros A n m B HA HB. cbn [chol_llt llt_solve_mat]. rewrite (mdimb_rows _ _ _ HA), (mdimb_cols _ _ _ HB).
    apply mbuild_dim.
  - intros A n m B HA Hs Hi HB i j Hin Hj. cbn [chol_llt llt_solve_mat].
    pose proof (mdimb_rows _ _ _ HA) as Hr. rewrite Hr, (mdimb_cols _ _ _ HB).
    transitivity (fmv n (mget A) (vget (chol_solve A (fun k => mget B k j))) i).
    + unfold fmm, fmv. apply Rsum_ext; intros k Hk. rewrite mbuild_get by auto. f_equal. f_equal.
      rewrite nth_indep with (d' := chol_solve A (fun i0 => mget B i0 0)) by (rewrite map_length, seq_length; auto).
      rewrite (map_nth (fun j => chol_solve A (fun i0 => mget B i0 j))), seq_nth by auto. reflexivity.
    + exact (chol_solve_eq A n (fun k => mget B k j) Hr Hs Hi i Hin).
Qed.
