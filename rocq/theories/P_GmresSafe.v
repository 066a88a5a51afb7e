(** C52: Gmres::solve for every scalar type: sizes, index ranges and iteration count. *)
From Verif Require Import Prelude Scalar LinAlg RLin Gmres GmresReal GmresReal3.

Section Safe.
  Context {T : Type} {N : Num T}.
  Variables (n : nat) (Amul : vec T -> vec T) (lsq : mat T -> vec T -> vec T) (cfg : gm_config).
  Hypothesis HA : forall v, length v = n -> length (Amul v) = n.
  Hypothesis HL : forall A b, gm_tri cfg = false -> length b = mrows A -> length (lsq A b) = mcols A.

  Definition bas_ok (k : nat) (bs : list (vec T)) : Prop := length bs = S k /\ forall v, In v bs -> length v = n.
  Definition st_ok (km k : nat) (st : gm_st T) : Prop :=
    gs_k st = k /\ bas_ok k (gs_basis st) /\ mdimb (km + 1) km (gs_H st) = true /\ length (gs_g st) = (km + 1)%nat /\
    (gm_tri cfg = true -> length (gs_c st) = k /\ length (gs_s st) = k) /\ length (gs_err st) = S k.

  Lemma bget_len k bs j : bas_ok k bs -> (j <= k)%nat -> length (bget bs j) = n.
  Proof. intros [H1 H2] Hj. apply H2. apply nth_In. lia. Qed.
  Lemma gs_dims k bs js : forall H w r c, mdimb r c H = true -> length w = n ->
    let p := fold_left (gs_step k bs) js (H, w) in mdimb r c (fst p) = true /\ length (snd p) = n.
  Proof.
    induction js as [|j js IH]; intros H w r c HH Hw; [split; assumption|]. cbn [fold_left gs_step]. apply IH; [apply mset_dim; exact HH|].
    unfold vsub. rewrite vbuild_length. exact Hw.
  Qed.
  Lemma re_dims k bs js : forall H w r c, mdimb r c H = true -> length w = n ->
    let p := fold_left (re_step k bs) js (H, w) in mdimb r c (fst p) = true /\ length (snd p) = n.
  Proof.
    induction js as [|j js IH]; intros H w r c HH Hw; [split; assumption|]. cbn [fold_left re_step]. apply IH; [apply mset_dim; exact HH|].
    unfold vsub. rewrite vbuild_length. exact Hw.
  Qed.
  Lemma rot_dims k cl sl js : forall H r c, mdimb r c H = true -> mdimb r c (fold_left (rot_step k cl sl) js H) = true.
  Proof.
    induction js as [|j js IH]; intros H r c HH; [exact HH|]. cbn [fold_left]. apply IH. unfold rot_step. apply mset_dim, mset_dim. exact HH.
  Qed.
  Lemma x_len y bs js : forall x, length (fold_left (x_step y bs) js x) = length x.
  Proof. induction js as [|j js IH]; intros x; [reflexivity|]. cbn [fold_left]. rewrite IH. apply vbuild_length. Qed.

  Lemma iter_ok {S} km k st (s : S) : st_ok km k st -> (k < km)%nat ->
    exists st', gm_iter cfg lsq Amul n st s = Ok st' s /\ st_ok km (Datatypes.S k) st'.
  Proof.
    intros (M1 & M2 & M3 & M4 & M5 & M6) Hk. unfold gm_iter. rewrite M1. cbv zeta. replace (k + 1)%nat with (Datatypes.S k) by lia.
    replace (Datatypes.S k - 1)%nat with k by lia.
    assert (La : length (Amul (bget (gs_basis st) k)) = n) by (apply HA, (bget_len k); [exact M2|lia]).
    rewrite bind_guard.
    2:{ rewrite (proj1 M2), (mdimb_rows _ _ _ M3), (mdimb_cols _ _ _ M3), M4, Nat.eqb_refl.
        rewrite (proj2 (Nat.ltb_lt (Datatypes.S k) (km + 1))) by lia. rewrite (proj2 (Nat.leb_le (Datatypes.S k) km)) by lia. cbn [andb].
        destruct (gm_tri cfg); [|reflexivity]. destruct (M5 eq_refl) as [-> ->]. rewrite Nat.eqb_refl. reflexivity. }
    rewrite bind_guard by (unfold vdimb; rewrite La; apply Nat.eqb_refl).
    destruct (gs_dims (Datatypes.S k) (gs_basis st) (seq 0 (Datatypes.S k)) (gs_H st) (Amul (bget (gs_basis st) k)) _ _ M3 La) as [G1 G2].
    destruct (fold_left (gs_step _ _) _ _) as [H1 nb1]. cbn [fst snd] in G1, G2.
    set (H2 := mset H1 (Datatypes.S k) k (vnorm nb1)). assert (D2 : mdimb (km + 1) km H2 = true) by (apply mset_dim; exact G1).
    match goal with |- context [let '(a, b) := ?e in _] => set (p := e) end.
    assert (P : mdimb (km + 1) km (fst p) = true /\ length (snd p) = n).
    { unfold p. destruct (gm_reorth cfg && _); [|split; assumption]. apply re_dims; assumption. }
    clearbody p. destruct p as [H3 nb3]. cbn [fst snd] in P. destruct P as [P1 P2].
    assert (B : bas_ok (Datatypes.S k) (gs_basis st ++ [normalized nb3])).
    { destruct M2 as [B1 B2]. split; [rewrite app_length, B1; cbn; lia|]. intros v Hv. apply in_app_iff in Hv as [Hv|[<-|[]]]; [apply B2; exact Hv|].
      rewrite normalized_len. exact P2. }
    destruct (gm_tri cfg) eqn:Et.
    - eexists. split; [reflexivity|]. unfold st_ok. cbn [gs_k gs_H gs_g gs_basis gs_c gs_s gs_err].
      split; [reflexivity|]. split; [exact B|]. split; [apply mset_dim, mset_dim, rot_dims; exact P1|].
      split; [rewrite !vset_len; exact M4|]. split; [|rewrite app_length, M6; cbn; lia].
      intros _. rewrite !app_length. destruct (M5 eq_refl) as [-> ->]. cbn. lia.
    - rewrite bind_guard by (unfold vdimb; rewrite HL; [apply Nat.eqb_refl|reflexivity|apply vbuild_length]).
      eexists. split; [reflexivity|]. unfold st_ok. cbn [gs_k gs_H gs_g gs_basis gs_c gs_s gs_err].
      split; [reflexivity|]. split; [exact B|]. split; [exact P1|]. split; [exact M4|]. split; [rewrite Et; discriminate|].
      rewrite app_length, M6. cbn. lia.
  Qed.

  Lemma loop_ok {S} km tol (s : S) : forall m k st, st_ok km k st -> (k + m <= km)%nat ->
    exists k' st', gm_loop cfg lsq Amul n tol m st s = Ok st' s /\ st_ok km k' st' /\ (k' <= k + m)%nat.
  Proof.
    induction m as [|m IH]; intros k st Hs Hk; [exists k, st; split; [reflexivity|split; [exact Hs|lia]]|].
    cbn [gm_loop]. destruct (_ <? _)%num; [|exists k, st; split; [reflexivity|split; [exact Hs|lia]]].
    destruct (iter_ok km k st s Hs ltac:(lia)) as (st1 & E1 & Hs1). rewrite (bind_ok _ _ s s st1 E1).
    destruct (IH (Datatypes.S k) st1 Hs1 ltac:(lia)) as (k' & st' & E & H1 & H2). exists k', st'. split; [exact E|]. split; [exact H1|lia].
  Qed.
End Safe.

(** With a nonnegative k_max, operators and least squares returning vectors of the right sizes, the call
    returns normally and records at most min(k_max, n) + 1 errors and basis vectors. *)
Theorem C52_safe {T} {N : Num T} cfg lsq (Amul : vec T -> vec T) (b x : vec T) n k_max eps {S} (s : S) :
  (forall v, length v = n -> length (Amul v) = n) ->
  (forall A c, gm_tri cfg = false -> length c = mrows A -> length (lsq A c) = mcols A) ->
  length b = n -> length x = n -> (0 <= k_max)%Z ->
  exists out, gm_solve cfg lsq Amul b x k_max eps s = Ok out s /\ length (go_x out) = n /\
    (Z.of_nat (length (go_err out)) <= Z.min k_max (Z.of_nat n) + 1)%Z /\
    length (go_basis out) = length (go_err out) /\ forall v, In v (go_basis out) -> length v = n.
Proof.
  intros HA HL Hb Hx Hk. unfold gm_solve. rewrite Hx, Hb. set (km := Z.to_nat (Z.min k_max (Z.of_nat n))). cbv zeta.
  rewrite bind_guard by (apply Z.leb_le; lia). rewrite bind_guard by (unfold vdimb; rewrite HA by exact Hx; apply Nat.eqb_refl).
  match goal with |- context [gm_loop _ _ _ _ _ _ ?i] => set (st0 := i) end.
  assert (H0 : st_ok n cfg km 0 st0).
  { unfold st_ok, st0. cbn [gs_k gs_H gs_g gs_basis gs_c gs_s gs_err]. split; [reflexivity|]. split; [|split; [apply mbuild_dim|]].
    - split; [reflexivity|]. intros v [<-|[]]. rewrite normalized_len. unfold vsub. rewrite vbuild_length. exact Hb.
    - split; [rewrite vset_len; apply vbuild_length|]. split; [intros _; split; reflexivity|reflexivity]. }
  destruct (loop_ok n Amul lsq cfg HA HL km (nmul eps (vnorm b)) s km 0 st0 H0 ltac:(lia)) as (k & st & E & Hs & Hle).
  rewrite (bind_ok _ _ s s st E). rewrite bind_guard by (unfold vdimb; rewrite Hx, Nat.eqb_refl; apply orb_true_r).
  destruct Hs as (M1 & (B1 & B2) & M3 & M4 & M5 & M6).
  eexists. split; [reflexivity|]. cbn [go_x go_err go_basis]. split; [rewrite x_len; exact Hx|]. rewrite M6. split; [lia|].
  split; [exact B1|exact B2].
Qed.
Print Assumptions C52_safe.

(** A negative k_max asks Eigen for a matrix with a negative number of columns. *)
Theorem C52_negative_refuted {T} {N : Num T} cfg lsq (Amul : vec T -> vec T) (b x : vec T) k_max eps {S} (s : S) :
  (k_max < 0)%Z -> gm_solve cfg lsq Amul b x k_max eps s = UB.
Proof.
  intros Hk. unfold gm_solve, bind at 1, guard at 1. rewrite (proj2 (Z.leb_gt 0 (Z.min k_max (Z.of_nat (length x))))) by lia. reflexivity.
Qed.
Print Assumptions C52_negative_refuted.

Definition dbl (v : vec f64) : vec f64 := map (fun a => nadd a a) v.
Example C52_nonvacuous : exists out, gm_solve {| gm_tri := true; gm_reorth := true |} (fun _ _ => []) dbl [none; none] [nzero; nzero] 5%Z nzero tt = Ok out tt /\
  length (go_err out) = 3%nat.
Proof. eexists. split; vm_compute; reflexivity. Qed.
