(** Proofs about the BoxQP model over the reals. *)
From Verif Require Import Prelude Scalar LinAlg BoxQP BoxQPProofs BoxQPTerm QPCor Chol RLin CholProofs.
Open Scope R_scope.

(** ** Index lists *)
Section Idx.
  Variables (phi : nat -> bool).
  Definition sel (n : nat) : list nat := filter phi (seq 0 n).

  Lemma Rsum_sel n (F : nat -> R) :
    Rsum (length (sel n)) (fun p => F (nth p (sel n) 0%nat)) = Rsum n (fun i => if phi i then F i else 0).
  Proof.
    unfold sel. induction n as [|n IH]; [reflexivity|].
    rewrite seq_S, filter_app. cbn [plus filter Rsum]. destruct (phi n) eqn:E.
    - rewrite app_length, Rsum_app. cbn [length Rsum]. rewrite <- IH.
      f_equal.
      + apply Rsum_ext; intros p Hp. rewrite app_nth1 by exact Hp. reflexivity.
      + rewrite app_nth2 by lia. rewrite Nat.add_0_r, Nat.sub_diag. cbn. lra.
    - rewrite app_nil_r, IH. lra.
  Qed.
  Lemma sel_in n i : In i (sel n) <-> (i < n)%nat /\ phi i = true.
  Proof. unfold sel; rewrite filter_In, in_seq. intuition lia. Qed.
  Lemma sel_nodup n : NoDup (sel n).
  Proof. apply NoDup_filter, seq_NoDup. Qed.
  Lemma sel_nth n p : (p < length (sel n))%nat -> (nth p (sel n) 0 < n)%nat /\ phi (nth p (sel n) 0%nat) = true.
  Proof. intros H. apply sel_in. apply nth_In; exact H. Qed.
End Idx.

Lemma find_idx_none i l : find_idx i l = None <-> ~ In i l.
Proof.
  induction l as [|a l IH]; cbn; [tauto|]. destruct (Nat.eqb_spec a i) as [->|Hne].
  - split; [discriminate|tauto].
  - destruct (find_idx i l) as [q|]; cbn.
    + split; [discriminate|]. intros H. assert (F : Some q = None) by (apply IH; tauto). discriminate F.
    + split; [|reflexivity]. intros _. assert (F : ~ In i l) by (apply IH; reflexivity). tauto.
Qed.
Lemma find_idx_nth l p : NoDup l -> (p < length l)%nat -> find_idx (nth p l 0%nat) l = Some p.
Proof.
  revert p; induction l as [|a l IH]; intros p Hn Hp; [cbn in Hp; lia|].
  inversion Hn as [|? ? Ha Hl]; subst. destruct p as [|p]; cbn.
  - rewrite Nat.eqb_refl. reflexivity.
  - destruct (Nat.eqb_spec a (nth p l 0%nat)) as [->|Hne].
    + exfalso; apply Ha, nth_In. cbn in Hp; lia.
    + rewrite IH; auto. cbn in Hp; lia.
Qed.
Lemma find_idx_some i l p : find_idx i l = Some p -> (p < length l)%nat /\ nth p l 0%nat = i.
Proof.
  revert p; induction l as [|a l IH]; intros p; cbn; [discriminate|].
  destruct (Nat.eqb_spec a i) as [->|Hne].
  - intros E; injection E as <-. split; [lia|reflexivity].
  - destruct (find_idx i l) as [q|]; cbn; [|discriminate]. intros E; injection E as <-.
    destruct (IH q eq_refl). split; [lia|assumption].
Qed.

(** Scatter a vector over the selected positions. *)
Definition scat (l : list nat) (z : fvec) : fvec :=
  fun i => match find_idx i l with Some p => z p | None => 0 end.
Lemma scat_nth l z p : NoDup l -> (p < length l)%nat -> scat l z (nth p l 0%nat) = z p.
Proof. intros H1 H2; unfold scat; rewrite find_idx_nth by auto; reflexivity. Qed.
Lemma scat_out l z i : ~ In i l -> scat l z i = 0.
Proof. intros H; unfold scat. apply find_idx_none in H. rewrite H; reflexivity. Qed.

Lemma scat_dot phi n z w :
  fdot n (scat (sel phi n) z) w = fdot (length (sel phi n)) z (fun p => w (nth p (sel phi n) 0%nat)).
Proof.
  unfold fdot.
  rewrite (Rsum_ext n _ (fun i => if phi i then scat (sel phi n) z i * w i else 0)).
  - rewrite <- (Rsum_sel phi n (fun i => scat (sel phi n) z i * w i)).
    apply Rsum_ext; intros p Hp. rewrite scat_nth by (auto using sel_nodup). reflexivity.
  - intros i Hi. destruct (phi i) eqn:E; [reflexivity|].
    rewrite scat_out; [lra|]. rewrite sel_in. intros [_ H]; congruence.
Qed.
Lemma scat_mv phi n (A : fmat) z i :
  fmv n A (scat (sel phi n) z) i = Rsum (length (sel phi n)) (fun p => A i (nth p (sel phi n) 0%nat) * z p).
Proof.
  unfold fmv. rewrite (Rsum_ext n _ (fun j => scat (sel phi n) z j * A i j)) by (intros; lra).
  change (Rsum n (fun j => scat (sel phi n) z j * A i j)) with (fdot n (scat (sel phi n) z) (A i)).
  rewrite scat_dot. apply Rsum_ext; intros; lra.
Qed.

Lemma mgather_mv (A : mat R) idx z p : (p < length idx)%nat ->
  fmv (length idx) (mget (mgather A idx idx)) z p =
  Rsum (length idx) (fun q => mget A (nth p idx 0%nat) (nth q idx 0%nat) * z q).
Proof. intros Hp. apply Rsum_ext; intros q Hq. rewrite mgather_get by auto. reflexivity. Qed.

Lemma gather_posdef phi n (A : mat R) : posdef n (mget A) ->
  posdef (length (sel phi n)) (mget (mgather A (sel phi n) (sel phi n))).
Proof.
  intros H z (p & Hp & Hz). set (l := sel phi n) in *.
  specialize (H (scat l z)). 
  replace (fdot (length l) z (fmv (length l) (mget (mgather A l l)) z)) with (fdot n (scat l z) (fmv n (mget A) (scat l z))).
  - apply H. exists (nth p l 0%nat). split; [apply (sel_nth phi n p Hp)|].
    rewrite scat_nth by (auto; apply sel_nodup). exact Hz.
  - unfold l at 1. rewrite scat_dot. apply fdot_ext; auto. intros q Hq.
    rewrite mgather_mv by exact Hq. unfold l. rewrite scat_mv. reflexivity.
Qed.
Lemma gather_sym phi n (A : mat R) : fsym n (mget A) ->
  fsym (length (sel phi n)) (mget (mgather A (sel phi n) (sel phi n))).
Proof.
  intros H p q Hp Hq. rewrite !mgather_get by auto. apply H; apply (sel_nth phi n); auto.
Qed.

Lemma idx_of_sel b fl n : length fl = n ->
  idx_of b fl = sel (fun i => Bool.eqb (nth i fl (negb b)) b) n.
Proof. intros <-; reflexivity. Qed.

(** ** The objective *)
Definition fobj (n : nat) (H : fmat) (g x : fvec) : R := fdot n x g + / 2 * fdot n x (fmv n H x).
Definition fgrad (n : nat) (H : fmat) (g x : fvec) : fvec := fadd g (fmv n H x).

Lemma fobj_expand n H g x d : fsym n H ->
  fobj n H g (fadd x d) = fobj n H g x + fdot n (fgrad n H g x) d + / 2 * fdot n d (fmv n H d).
Proof.
  intros Hs. unfold fobj, fgrad. rewrite fmv_add, !fdot_add_l, !fdot_add_r.
  rewrite (fsym_swap n H x d Hs). rewrite (fdot_comm n g d), (fdot_comm n (fmv n H x) d). lra.
Qed.

Lemma fobj_convex n H g x y : fsym n H -> psd n H ->
  fobj n H g x + fdot n (fgrad n H g x) (fsubv y x) <= fobj n H g y.
Proof.
  intros Hs Hp. pose proof (fobj_expand n H g x (fsubv y x) Hs) as E.
  replace (fadd x (fsubv y x)) with y in E.
  - specialize (Hp (fsubv y x)). lra.
  - apply FunctionalExtensionality.functional_extensionality. intros i; unfold fadd, fsubv; lra.
Qed.

Lemma qp_obj_R n H g x : mdimb n n H = true -> length x = n -> qp_obj H g x = fobj n (mget H) (vget g) (vget x).
Proof.
  intros HH Hx. unfold qp_obj, fobj. rewrite !dot_R, Hx, (mvmul_f n n) by exact HH. numR. lra.
Qed.
Lemma qp_grad_R n H g x : mdimb n n H = true -> length g = n -> 
  vget (qp_grad H g x) = fgrad n (mget H) (vget g) (vget x).
Proof.
  intros HH Hg. unfold qp_grad, fgrad. rewrite vadd_f, (mvmul_f n n) by (rewrite ?mvmul_length, ?(mdimb_rows _ _ _ HH); auto).
  reflexivity.
Qed.

(** ** Optimality at the exits 6 and 5 *)
Section Exits.
  Variables (LL : lltops R) (cfg : qp_config R) (n : nat) (H : mat R) (g lower upper : vec R).
  Context {S : Type}.
  Variables (fuel afuel : nat) (ol : option (mat R)) (ix : vec R) (s s' : S) (out : qp_out R).
  Notation solve := (qp_solve LL cfg n H g lower upper fuel afuel ol ix s).
  Notation f := (fobj n (mget H) (vget g)).

  Hypothesis Hsym : fsym n (mget H).
  Hypothesis Hpsd : psd n (mget H).

  Lemma clamped_term i x (y : fvec) : vget lower i <= y i <= vget upper i ->
    qp_clamped_at lower upper x (qp_grad H g x) i = true ->
    0 <= vget (qp_grad H g x) i * (y i - vget x i).
  Proof.
    intros Hy. unfold qp_clamped_at. rewrite orb_true_iff, !andb_true_iff. numR.
    rewrite !Reqb_true, !Rltb_true. intros [[-> Hg]|[-> Hg]]; nra.
  Qed.

  Lemma exit6_optimal (y : fvec) : solve = Ok out s' -> qo_retval out = 6%Z ->
    (forall i, (i < n)%nat -> vget lower i <= y i <= vget upper i) -> f (vget (qo_x out)) <= f y.
  Proof.
    intros E H6 Hy. destruct (qp_ok LL cfg n H g lower upper fuel afuel ol ix s s' out E) as (_ & Rz & HH & Hg & Hl & Hu & Hix).
    destruct (qr_6 _ _ _ _ _ _ _ _ _ Rz H6) as [_ Hc].
    pose proof (fobj_convex n (mget H) (vget g) (vget (qo_x out)) y Hsym Hpsd) as Hcv.
    assert (0 <= fdot n (fgrad n (mget H) (vget g) (vget (qo_x out))) (fsubv y (vget (qo_x out)))); [|lra].
    apply Rsum_nonneg; intros i Hi. rewrite <- (qp_grad_R n H g (qo_x out) HH Hg).
    unfold fsubv. apply clamped_term; auto.
  Qed.

  Lemma grad_norm_R grad free : @qp_grad_norm R RNum grad free =
    Rsum (length free) (fun p => vget grad (nth p free 0%nat) * vget grad (nth p free 0%nat)).
  Proof.
    unfold qp_grad_norm.
    assert (G : forall acc, fold_left (fun acc i => (acc + vget grad i * vget grad i)%num) free acc =
       acc + Rsum (length free) (fun p => vget grad (nth p free 0%nat) * vget grad (nth p free 0%nat))).
    { induction free as [|a l IH]; intros acc; cbn [fold_left length]; [cbn [Rsum]; rewrite Rplus_0_r; reflexivity|].
      rewrite IH, Rsum_S_l. numR. cbn [nth]. rewrite Rplus_assoc. reflexivity. }
    rewrite G. numR. lra.
  Qed.

  Lemma exit5_near_optimal (y : fvec) : solve = Ok out s' -> qo_retval out = 5%Z ->
    (forall i, (i < n)%nat -> vget lower i <= y i <= vget upper i) ->
    f (vget (qo_x out)) - Rabs (qp_grad_thre cfg) * R_sqrt.sqrt (fdot n (fsubv y (vget (qo_x out))) (fsubv y (vget (qo_x out))))
      <= f y.
  Proof.
    intros E H5 Hy. destruct (qp_ok LL cfg n H g lower upper fuel afuel ol ix s s' out E) as (_ & Rz & HH & Hg & Hl & Hu & Hix).
    destruct (qr_5 _ _ _ _ _ _ _ _ _ Rz H5) as [Hfree Hn].
    set (x := qo_x out) in *. set (gr := qp_grad H g x) in *.
    set (d := fsubv y (vget x)).
    set (phi := fun i => Bool.eqb (nth i (qp_clamped n lower upper x gr) true) false).
    assert (Hfs : qo_free out = sel phi n).
    { rewrite Hfree. apply idx_of_sel. unfold qp_clamped; rewrite map_length, seq_length; reflexivity. }
    assert (Hphi : forall i, (i < n)%nat -> phi i = negb (qp_clamped_at lower upper x gr i)).
    { intros i Hi. unfold phi, qp_clamped.
      rewrite nth_indep with (d' := qp_clamped_at lower upper x gr 0) by (rewrite map_length, seq_length; exact Hi).
      rewrite (map_nth (qp_clamped_at lower upper x gr)), seq_nth by exact Hi. cbn.
      destruct (qp_clamped_at lower upper x gr i); reflexivity. }
    rewrite grad_norm_R, Hfs in Hn. rewrite (Rsum_sel phi n (fun i => vget gr i * vget gr i)) in Hn.
    numR. apply Rltb_true in Hn.
    set (gf := fun i => if phi i then vget gr i else 0).
    assert (Hgf : fdot n gf gf < qp_grad_thre cfg * qp_grad_thre cfg).
    { eapply Rle_lt_trans; [|exact Hn]. right. apply Rsum_ext; intros i Hi. unfold gf; destruct (phi i); lra. }
    assert (Hdot : fdot n gf d <= fdot n (fgrad n (mget H) (vget g) (vget x)) d).
    { apply Rsum_le; intros i Hi. rewrite <- (qp_grad_R n H g x HH Hg). fold gr. unfold gf.
      rewrite Hphi by exact Hi. destruct (qp_clamped_at lower upper x gr i) eqn:Ec; cbn [negb]; [|lra].
      pose proof (clamped_term i x y (Hy i Hi) Ec) as Hc. fold gr in Hc. unfold d, fsubv. lra. }
    pose proof (cauchy_schwarz n gf d) as CS.
    assert (HB : - (Rabs (qp_grad_thre cfg) * R_sqrt.sqrt (fdot n d d)) <= fdot n gf d).
    { assert (Hd : 0 <= fdot n d d) by apply fdot_self_nonneg.
      set (a := Rabs (qp_grad_thre cfg)). set (b := R_sqrt.sqrt (fdot n d d)).
      assert (Ha : 0 <= a) by apply Rabs_pos. assert (Hb : 0 <= b) by apply R_sqrt.sqrt_pos.
      assert (Hbb : b * b = fdot n d d) by (apply R_sqrt.sqrt_sqrt; exact Hd).
      assert (Haa : a * a = qp_grad_thre cfg * qp_grad_thre cfg).
      { unfold a. rewrite <- Rabs_mult. apply Rabs_pos_eq. nra. }
      assert (Hsq : fdot n gf d * fdot n gf d <= (a * b) * (a * b)).
      { eapply Rle_trans; [exact CS|]. replace (a * b * (a * b)) with ((a * a) * (b * b)) by ring.
        rewrite Haa, Hbb. apply Rmult_le_compat_r; lra. }
      destruct (Rle_dec 0 (fdot n gf d)) as [Hp|Hnp]; [nra|].
      assert (- fdot n gf d <= a * b); [|lra].
      apply Rsqr_incr_0_var; [unfold Rsqr; nra|nra]. }
    pose proof (fobj_convex n (mget H) (vget g) (vget x) y Hsym Hpsd). fold d in H0. lra.
  Qed.
End Exits.
