(** Box QP in binary64 arithmetic: the computed gradient against the exact one, and what exits 5 and 6 say about the returned point. *)
From Coq Require Import Reals Lra Psatz Permutation.
From Flocq Require Import Core BinarySingleNaN.
From Verif Require Import Prelude Scalar LinAlg RLin BoxQP BoxQPProofs QPCor B64 FmpcF64 DDPTerm64.
Local Open Scope R_scope.

(** ** Sums that do not overflow *)
Lemma rsum_le {A} (f g : A -> R) l : (forall a, In a l -> f a <= g a) -> rsum f l <= rsum g l.
Proof. unfold rsum. induction l as [|a l IH]; intros Hf; cbn; [lra|]. apply Rplus_le_compat; [apply Hf; left; reflexivity|apply IH; intros; apply Hf; right; assumption]. Qed.
Lemma rsum_const {A} (l : list A) c : rsum (fun _ => c) l = INR (length l) * c.
Proof. unfold rsum. induction l as [|a l IH]; cbn [fold_right length]; [cbn; ring|]. rewrite IH, S_INR. ring. Qed.
Lemma tree_ok (B : R) l z : tree_sum l z -> 0 <= B -> (forall x, In x l -> fin x /\ Rabs (val x) <= B) ->
  (1 + gam (length l)) * (INR (length l) * B) <= bpow radix2 1000 -> fin z /\ Rabs (val z) <= (1 + gam (length l)) * (INR (length l) * B).
Proof.
  intros Ht HB. induction Ht as [|a|l1 l2 l a b H1 IH1 H2 IH2 Hp]; intros Hl Hs.
  - split; [reflexivity|]. unfold val. cbn. rewrite Rabs_R0. lra.
  - destruct (Hl a) as [Fa Va]; [left; reflexivity|]. split; [exact Fa|]. cbn [length INR] in *. pose proof (gam_pos 1). nra.
  - pose proof (Permutation_length Hp) as Hn. rewrite app_length in Hn.
    assert (Sub : forall k, (k <= length l)%nat -> (1 + gam k) * (INR k * B) <= (1 + gam (length l)) * (INR k * B)).
    { intros k Hk. pose proof (gam_mono k _ Hk). pose proof (pos_INR k). apply Rmult_le_compat_r; [nra|lra]. }
    assert (Le : forall k, (k <= length l)%nat -> (1 + gam k) * (INR k * B) <= bpow radix2 1000).
    { intros k Hk. eapply Rle_trans; [apply Sub, Hk|]. eapply Rle_trans; [|exact Hs]. pose proof (gam_pos (length l)).
      pose proof (le_INR _ _ Hk). pose proof (pos_INR k). apply Rmult_le_compat_l; [lra|nra]. }
    destruct IH1 as [Fa Va]; [intros x Hx; apply Hl, (Permutation_in _ Hp), in_or_app; left; exact Hx|apply Le; lia|].
    destruct IH2 as [Fb Vb]; [intros x Hx; apply Hl, (Permutation_in _ Hp), in_or_app; right; exact Hx|apply Le; lia|].
    assert (Q : fin (Bplus mode_NE a b)).
    { apply add_ok; [exact Fa|exact Fb|]. eapply Rle_trans; [apply Rabs_triang|].
      pose proof (Le (length l1) ltac:(lia)). pose proof (Le (length l2) ltac:(lia)).
      assert (2 * bpow radix2 1000 <= bpow radix2 1023) by (change 2 with (bpow radix2 1); rewrite <- bpow_plus; apply bpow_le; lia). lra. }
    split; [exact Q|].
    pose proof (acc_tree (fun x => x) (fun x => val x) (fun x => Rabs (val x)) 0 l _ (ts_add l1 l2 l a b H1 H2 Hp) l (eq_sym (map_id l)) (fun x _ => acc_leaf x)) as [A1 A2].
    specialize (A2 Q). cbn [Nat.add] in A2.
    assert (M : rsum (fun x => Rabs (val x)) l <= INR (length l) * B) by (rewrite <- rsum_const; apply rsum_le; intros x Hx; apply Hl, Hx).
    pose proof (gam_pos (length l)). pose proof (Rabs_triang_inv (val (Bplus mode_NE a b)) (rsum (fun x => val x) l)). nra.
Qed.

(** ** No sum of squares is minus infinity *)
Definition notneg (x : b64) : Prop := x <> inf64 true /\ nn x.
Lemma square_notneg x : notneg (Bmult mode_NE x x).
Proof.
  split; [|apply square_nn]. intros E. pose proof (Bmult_correct 53 1024 _ _ mode_NE x x) as C. destruct (Rlt_bool _ _).
  - destruct C as (_ & C & _). rewrite E in C. destruct x as [s|s| |s m e B]; try discriminate. destruct s; discriminate.
  - destruct x as [s|s| |s m e B]; try discriminate; [destruct s; discriminate|]. rewrite E in C. cbn in C. destruct s; discriminate.
Qed.
Lemma add_notneg x y : notneg x -> notneg y -> notneg (Bplus mode_NE x y).
Proof.
  intros [Nx Px] [Ny Py]. split.
  - intros E. destruct (is_finite x) eqn:Fx; [destruct (is_finite y) eqn:Fy|].
    + pose proof (Bplus_correct 53 1024 _ _ mode_NE x y Fx Fy) as C. destruct (Rlt_bool_spec (Rabs (fl (val x + val y))) (bpow radix2 1024)) as [Hb|Hb].
      * unfold fl, val in Hb. rewrite Rlt_bool_true in C by exact Hb. destruct C as (_ & C & _). rewrite E in C. discriminate.
      * pose proof Hb as Hb'. unfold fl, val in Hb. rewrite Rlt_bool_false in C by exact Hb. destruct C as (C & Cs). rewrite E in C. cbn in C.
        specialize (Px Fx). specialize (Py Fy).
        assert (Hn : val x + val y <> 0) by (intros Z; rewrite Z, fl_0, Rabs_R0 in Hb'; pose proof (bpow_gt_0 radix2 1024); lra).
        assert (S : Bsign x = false).
        { destruct Px as [Px|Px]; [apply pos_sign, Px|]. rewrite Cs. apply pos_sign. destruct Py as [Py|Py]; [exact Py|exfalso; apply Hn; lra]. }
        rewrite S in C. discriminate.
    + destruct x as [?|?| |? ? ? ?], y as [?|[]| |? ? ? ?]; try discriminate; apply Ny; reflexivity.
    + destruct x as [?|[]| |? ? ? ?]; try discriminate; try (apply Nx; reflexivity).
      destruct y as [?|[]| |? ? ? ?]; discriminate.
  - intros F. apply add_fin in F as (Fx & Fy & ->). specialize (Px Fx). specialize (Py Fy). rewrite <- fl_0. apply fl_le. lra.
Qed.

Section QP.
  Variables (ex lg : b64 -> b64) (sm : list b64 -> b64).
  Hypothesis Hsm : some_order sm.
  Local Instance Nq : Num b64 := B64Num ex lg sm.
  Variables (LL : lltops b64) (cfg : qp_config b64) (n : nat) (H : mat b64) (g lower upper : vec b64).

  (** The exact gradient at a point of doubles, and the sum of the magnitudes of its terms. *)
  Definition xgrad (x : vec b64) (i : nat) : R := val (vget g i) + Rsum n (fun j => val (mget H i j) * val (vget x j)).
  Definition xmag (x : vec b64) (i : nat) : R := Rabs (val (vget g i)) + Rsum n (fun j => Rabs (val (mget H i j) * val (vget x j)) + tiny).
  Hypothesis HH : mdimb n n H = true.
  Hypothesis Hg : length g = n.

  Lemma row_eq x i : (i < n)%nat -> vget (mvmul H x) i = sm (map (fun j => Bmult mode_NE (mget H i j) (vget x j)) (seq 0 n)).
  Proof.
    intros Hi. unfold mdimb in HH. rewrite !andb_true_iff, !Nat.eqb_eq in HH. destruct HH as (((E1 & E2) & _) & _).
    unfold mvmul. rewrite vbuild_get by lia. cbn [nsum Nq B64Num]. f_equal. rewrite E2. reflexivity.
  Qed.
  Lemma grad_eq x i : (i < n)%nat -> vget (qp_grad H g x) i = Bplus mode_NE (vget g i) (vget (mvmul H x) i).
  Proof. intros Hi. unfold qp_grad, vadd. rewrite vbuild_get by lia. reflexivity. Qed.
  Lemma grad_acc x i : (i < n)%nat -> acc (n + 2) (vget (qp_grad H g x) i) (xgrad x i) (xmag x i).
  Proof.
    intros Hi. rewrite grad_eq by exact Hi. replace (n + 2)%nat with (S (1 + n)) by lia. apply acc_add.
    - eapply acc_mono; [|apply acc_leaf]. lia.
    - rewrite row_eq by exact Hi. rewrite <- !rsum_seq.
      pose proof (acc_tree (fun j => Bmult mode_NE (mget H i j) (vget x j)) (fun j => val (mget H i j) * val (vget x j))
        (fun j => Rabs (val (mget H i j) * val (vget x j)) + tiny) 1 _ _ (Hsm _) (seq 0 n) eq_refl) as A.
      rewrite seq_length in A. apply A. intros a _. apply acc_mul.
  Qed.
  Lemma grad_fin x i : (i < n)%nat -> fin (vget (qp_grad H g x) i) -> forall j, (j < n)%nat -> fin (vget x j).
  Proof.
    intros Hi F j Hj. rewrite grad_eq in F by exact Hi. apply add_fin in F as (_ & F & _). rewrite row_eq in F by exact Hi.
    destruct (mul_fin (mget H i j) (vget x j)) as (_ & F2 & _); [|exact F2].
    apply (FmpcF64.tree_fin _ _ (Hsm _) F). apply in_map_iff. exists j. split; [reflexivity|apply in_seq; lia].
  Qed.

  (** Data and limits that leave room for the sums. *)
  Record qp_data64 : Prop := {
    qd_n : (Z.of_nat n <= 1000000)%Z;
    qd_H : forall i j, (i < n)%nat -> (j < n)%nat -> fin (mget H i j) /\ Rabs (val (mget H i j)) <= bpow radix2 400;
    qd_g : forall i, (i < n)%nat -> fin (vget g i) /\ Rabs (val (vget g i)) <= bpow radix2 900;
    qd_box : forall i, (i < n)%nat -> fin (vget lower i) /\ fin (vget upper i) /\
      - bpow radix2 400 <= val (vget lower i) /\ val (vget lower i) <= val (vget upper i) /\ val (vget upper i) <= bpow radix2 400;
    qd_thr : fin (qp_grad_thre cfg) /\ 0 <= val (qp_grad_thre cfg) <= bpow radix2 500 }.
  Hypothesis D : qp_data64.

  Lemma clip_box (v : vec b64) i : length v = n -> (i < n)%nat -> fin (vget (qp_clip lower upper v) i) ->
    val (vget lower i) <= val (vget (qp_clip lower upper v) i) <= val (vget upper i).
  Proof.
    intros Lv Hi. destruct (qd_box D i Hi) as (Fl & Fu & _ & Hb & _). rewrite qp_clip_get by lia. unfold nmax, nmin. cbn [nltb Nq B64Num].
    destruct (Bltb (vget upper i) (vget v i)) eqn:E1.
    - destruct (Bltb (vget upper i) (vget lower i)) eqn:E2; intros F; [lra|]. lra.
    - destruct (Bltb (vget v i) (vget lower i)) eqn:E2; intros F; [lra|].
      apply lt_false in E1; [|assumption..]. apply lt_false in E2; [|assumption..]. lra.
  Qed.
  Lemma grad_ok x i : (i < n)%nat -> (forall j, (j < n)%nat -> fin (vget x j) /\ Rabs (val (vget x j)) <= bpow radix2 400) -> fin (vget (qp_grad H g x) i).
  Proof.
    intros Hi Hx. rewrite grad_eq by exact Hi. destruct (qd_g D i Hi) as [Fg Vg].
    assert (N : INR n <= bpow radix2 20).
    { rewrite INR_IZR_INZ. apply Rle_trans with (IZR 1000000); [apply IZR_le, (qd_n D)|cbn; lra]. }
    assert (G : gam n <= 1).
    { eapply Rle_trans; [apply gam_le, (qd_n D)|]. assert (u53 <= bpow radix2 (-30)) by (apply bpow_le; lia).
      assert (bpow radix2 20 * bpow radix2 (-30) <= / 2) by (rewrite <- bpow_plus; cbn; lra). pose proof (pos_INR n). pose proof u53_pos.
      assert (INR n * u53 <= bpow radix2 20 * bpow radix2 (-30)) by (apply Rmult_le_compat; lra). lra. }
    set (B := bpow radix2 801).
    assert (B0 : 0 < B) by apply bpow_gt_0.
    destruct (tree_ok B _ _ (Hsm (map (fun j => Bmult mode_NE (mget H i j) (vget x j)) (seq 0 n)))) as [Fr Vr].
    - lra.
    - intros y Hy. apply in_map_iff in Hy as (j & <- & Hj). apply in_seq in Hj. destruct (qd_H D i j Hi ltac:(lia)) as [F1 V1]. destruct (Hx j ltac:(lia)) as [F2 V2].
      assert (P : Rabs (val (mget H i j) * val (vget x j)) <= bpow radix2 800).
      { rewrite Rabs_mult. change 800%Z with (400 + 400)%Z. rewrite bpow_plus. apply Rmult_le_compat; try apply Rabs_pos; assumption. }
      destruct (mul_ok _ _ F1 F2) as [F3 V3]; [eapply Rle_trans; [exact P|apply bpow_le; lia]|]. split; [exact F3|]. rewrite V3.
      apply Rle_trans with (bpow radix2 800); [|apply bpow_le; lia]. apply abs_round_le_generic; try typeclasses eauto; [|exact P].
      rewrite fexp64_eq. apply generic_format_FLT_bpow; [exact Hprec64|lia].
    - rewrite map_length, seq_length. apply Rle_trans with (2 * (bpow radix2 20 * B)).
      + pose proof (gam_pos n). pose proof (pos_INR n). apply Rmult_le_compat; try nra.
      + unfold B. rewrite <- bpow_plus. change 2 with (bpow radix2 1). rewrite <- bpow_plus. apply bpow_le. lia.
    - rewrite <- row_eq in Fr, Vr by exact Hi. rewrite map_length, seq_length in Vr.
      assert (Vs : Rabs (val (vget (mvmul H x) i)) <= bpow radix2 900).
      { eapply Rle_trans; [exact Vr|]. apply Rle_trans with (2 * (bpow radix2 20 * B)).
        - pose proof (gam_pos n). pose proof (pos_INR n). apply Rmult_le_compat; try nra.
        - unfold B. rewrite <- bpow_plus. change 2 with (bpow radix2 1). rewrite <- bpow_plus. apply bpow_le. lia. }
      apply add_ok; [exact Fg|exact Fr|]. eapply Rle_trans; [apply Rabs_triang|].
      assert (2 * bpow radix2 900 <= bpow radix2 1023) by (change 2 with (bpow radix2 1); rewrite <- bpow_plus; apply bpow_le; lia). lra.
  Qed.

  Lemma eqb_val (x y : b64) : fin y -> Beqb x y = true -> fin x /\ val x = val y.
  Proof.
    intros Fy E. assert (Fx : fin x) by (destruct x as [?|s| |? ? ? ?], y as [?|?| |? ? ? ?]; try reflexivity; try discriminate; destruct s; discriminate).
    split; [exact Fx|]. rewrite (Beqb_correct 53 1024 x y Fx Fy) in E. destruct (Req_bool_spec (B2R x) (B2R y)); [assumption|discriminate].
  Qed.
  Lemma gt0_val (x : b64) : fin x -> nltb nzero x = true -> 0 < val x.
  Proof. intros F E. apply lt_true in E; [exact E|reflexivity|exact F]. Qed.
  Lemma lt0_val (x : b64) : fin x -> nltb x nzero = true -> val x < 0.
  Proof. intros F E. apply lt_true in E; [exact E|exact F|reflexivity]. Qed.

  (** A clamped coordinate: on its limit, and the computed gradient points out of the box. *)
  Lemma clamped_fin x i : (i < n)%nat -> qp_clamped_at lower upper x (qp_grad H g x) i = true ->
    fin (vget x i) /\ (val (vget x i) = val (vget lower i) \/ val (vget x i) = val (vget upper i)).
  Proof.
    intros Hi E. unfold qp_clamped_at in E. destruct (qd_box D i Hi) as (Fl & Fu & _). rewrite orb_true_iff, !andb_true_iff in E.
    destruct E as [[E _]|[E _]]; apply eqb_val in E as [F V]; auto.
  Qed.
  Lemma clamped_sign x i : (i < n)%nat -> fin (vget (qp_grad H g x) i) -> qp_clamped_at lower upper x (qp_grad H g x) i = true ->
    val (vget x i) = val (vget lower i) /\ 0 < val (vget (qp_grad H g x) i) \/ val (vget x i) = val (vget upper i) /\ val (vget (qp_grad H g x) i) < 0.
  Proof.
    intros Hi F E. unfold qp_clamped_at in E. destruct (qd_box D i Hi) as (Fl & Fu & _). rewrite orb_true_iff, !andb_true_iff in E.
    destruct E as [[E P]|[E P]]; apply eqb_val in E as [_ V]; auto; [left|right]; (split; [exact V|]); [apply gt0_val|apply lt0_val]; assumption.
  Qed.
  Lemma norm_terms grad free : forall a, notneg a -> let z := fold_left (fun acc i => nadd acc (nmul (vget grad i) (vget grad i))) free a in
    notneg z /\ (fin z -> fin a /\ val a <= val z /\ forall i, In i free -> fin (vget grad i) /\ fl (val (vget grad i) * val (vget grad i)) <= val z).
  Proof.
    cbn zeta. induction free as [|k free IH]; intros a Ha; cbn [fold_left].
    - split; [exact Ha|]. intros F. split; [exact F|]. split; [lra|]. intros i [].
    - cbn [nadd nmul Nq B64Num] in *. pose proof (add_notneg a _ Ha (square_notneg (vget grad k))) as Hs. destruct (IH _ Hs) as [I1 I2].
      split; [exact I1|]. intros F. destruct (I2 F) as (F1 & L1 & I3). apply add_fin in F1 as (Fa & Fs & Vs).
      apply mul_fin in Fs as (Fk & _ & Vk). pose proof (proj2 Ha Fa) as Pa. pose proof (square_nn (vget grad k)) as Pk. unfold nn in Pk.
      assert (Pk' : 0 <= val (Bmult mode_NE (vget grad k) (vget grad k))). { rewrite Vk, <- fl_0. apply fl_le. nra. }
      assert (A1 : val a <= val (Bplus mode_NE a (Bmult mode_NE (vget grad k) (vget grad k)))) by (rewrite Vs; apply fl_ge; lra).
      assert (A2 : val (Bmult mode_NE (vget grad k) (vget grad k)) <= val (Bplus mode_NE a (Bmult mode_NE (vget grad k) (vget grad k)))) by (rewrite Vs; apply fl_ge; lra).
      split; [exact Fa|]. split; [lra|]. intros i [<-|Hi]; [split; [exact Fk|rewrite <- Vk; lra]|apply I3, Hi].
  Qed.

  (** Exits 5 and 6. *)
  Lemma exit64 {S} fuel afuel ol ix (s s' : S) out : qp_solve LL cfg n H g lower upper fuel afuel ol ix s = Ok out s' ->
    qo_retval out = 5%Z \/ qo_retval out = 6%Z -> forall i, (i < n)%nat ->
    let x := qo_x out in let E := gam (n + 2) * xmag x i in
    fin (vget x i) /\ val (vget lower i) <= val (vget x i) <= val (vget upper i) /\
    (val (vget x i) = val (vget lower i) /\ - E <= xgrad x i \/ val (vget x i) = val (vget upper i) /\ xgrad x i <= E \/
     qo_retval out = 5%Z /\ Rabs (xgrad x i) <= val (qp_grad_thre cfg) + E).
  Proof.
    intros Hrun Hrv. destruct (qp_ok LL cfg n H g lower upper fuel afuel ol ix s s' out Hrun) as (_ & Rz & _ & _ & Ll & Lu & _).
    destruct (qr_x _ _ _ _ _ _ _ _ _ Rz) as (v & Lv & Ev). set (x := qo_x out) in *. cbn zeta.
    assert (Key : (forall i, (i < n)%nat -> fin (vget x i)) /\
      forall i, (i < n)%nat -> qp_clamped_at lower upper x (qp_grad H g x) i = true \/ qo_retval out = 5%Z /\ Rabs (val (vget (qp_grad H g x) i)) <= val (qp_grad_thre cfg)).
    { destruct Hrv as [R5|R6].
      - destruct (qr_5 _ _ _ _ _ _ _ _ _ Rz R5) as [Hfree Hn]. fold x in Hfree, Hn. destruct (qd_thr D) as (Ft & Vt).
        unfold qp_grad_norm in Hn. destruct (norm_terms (qp_grad H g x) (qo_free out) nzero) as [N1 N2].
        { split; [discriminate|]. intros _. unfold val. cbn. lra. }
        set (z := fold_left _ _ _) in *. cbn [nltb nmul Nq B64Num] in Hn.
        assert (Fz : fin z). { destruct z as [?|[]| |? ? ? ?]; try reflexivity; [exfalso; apply N1; reflexivity| |discriminate]. rewrite inf_lt in Hn. discriminate. }
        assert (T2 : val (qp_grad_thre cfg) * val (qp_grad_thre cfg) <= bpow radix2 1000).
        { change 1000%Z with (500 + 500)%Z. rewrite bpow_plus. apply Rmult_le_compat; lra. }
        destruct (mul_ok _ _ Ft Ft) as [Ftt Vtt].
        { rewrite Rabs_pos_eq by nra. eapply Rle_trans; [exact T2|apply bpow_le; lia]. }
        apply lt_true in Hn; [|exact Fz|exact Ftt]. rewrite Vtt in Hn. destruct (N2 Fz) as (_ & _ & N3).
        assert (Fr : forall i, (i < n)%nat -> qp_clamped_at lower upper x (qp_grad H g x) i = true \/ In i (qo_free out)).
        { intros i Hi. destruct (qp_clamped_at lower upper x (qp_grad H g x) i) eqn:E; [left; reflexivity|right]. rewrite Hfree. apply filter_In. unfold qp_clamped.
          rewrite map_length, seq_length. split; [apply in_seq; lia|].
          rewrite nth_indep with (d' := qp_clamped_at lower upper x (qp_grad H g x) 0) by (rewrite map_length, seq_length; exact Hi).
          rewrite (map_nth (qp_clamped_at lower upper x (qp_grad H g x))), seq_nth by exact Hi. cbn [Nat.add]. rewrite E. reflexivity. }
        assert (Sm : forall i, In i (qo_free out) -> Rabs (val (vget (qp_grad H g x) i)) <= val (qp_grad_thre cfg)).
        { intros i Hi. destruct (N3 i Hi) as [Fi Li]. set (a := val (vget (qp_grad H g x) i)) in *. apply Rnot_lt_le. intros C.
          assert (val (qp_grad_thre cfg) * val (qp_grad_thre cfg) <= a * a).
          { replace (a * a) with (Rabs a * Rabs a) by (rewrite <- Rabs_mult; apply Rabs_pos_eq; nra). nra. }
          pose proof (fl_le _ _ H0). lra. }
        split.
        + intros i Hi. destruct (Fr i Hi) as [E|E]; [apply (clamped_fin x i Hi E)|].
          destruct (N3 i E) as [Fi _]. apply (grad_fin x i Hi Fi i Hi).
        + intros i Hi. destruct (Fr i Hi) as [E|E]; [left; exact E|right; auto].
      - destruct (qr_6 _ _ _ _ _ _ _ _ _ Rz R6) as [_ Hc]. fold x in Hc. split; [intros i Hi; apply (clamped_fin x i Hi), Hc, Hi|intros i Hi; left; apply Hc, Hi]. }
    destruct Key as [Fx Hk].
    assert (Bx : forall i, (i < n)%nat -> val (vget lower i) <= val (vget x i) <= val (vget upper i)).
    { intros i Hi. specialize (Fx i Hi). unfold x in *. rewrite Ev in *. apply clip_box; assumption. }
    intros i Hi. split; [apply Fx, Hi|]. split; [apply Bx, Hi|].
    assert (Fg : fin (vget (qp_grad H g x) i)).
    { apply grad_ok; [exact Hi|]. intros j Hj. split; [apply Fx, Hj|]. specialize (Bx j Hj). destruct (qd_box D j Hj) as (_ & _ & B1 & B2 & B3). apply Rabs_le. lra. }
    destruct (grad_acc x i Hi) as [_ A]. specialize (A Fg). apply Rabs_le_inv in A.
    destruct (Hk i Hi) as [E|[R5 E]].
    - apply clamped_sign in E as [[V P]|[V P]]; [left|right; left| |]; auto; (split; [exact V|lra]).
    - right; right. split; [exact R5|]. apply Rabs_le_inv in E. apply Rabs_le. lra.
  Qed.
End QP.
