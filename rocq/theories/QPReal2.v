(** Search direction, line search and monotonicity of BoxQP over the reals, for symmetric positive definite H. *)
From Verif Require Import Prelude Scalar LinAlg BoxQP BoxQPProofs BoxQPTerm QPCor Chol RLin CholProofs QPReal.
From Coq Require Import FunctionalExtensionality.
Open Scope R_scope.

Lemma Rsum_split (phi : nat -> bool) n F :
  Rsum n F = Rsum n (fun i => if phi i then F i else 0) + Rsum n (fun i => if phi i then 0 else F i).
Proof. rewrite <- Rsum_plus. apply Rsum_ext; intros i _. destruct (phi i); lra. Qed.

Lemma Rmult_pos_neg a b : 0 < a -> b < 0 -> a * b < 0.
Proof. intros; nra. Qed.

Section Iter.
  Variables (LL : lltops R) (cfg : qp_config R) (n : nat) (H : mat R) (g lower upper : vec R).
  Notation Hf := (mget H).
  Notation f := (fobj n Hf (vget g)).
  Notation gr := (fgrad n Hf (vget g)).
  Hypothesis HLL : exact_llt LL.
  Hypothesis Hdim : mdimb n n H = true.
  Hypothesis Hgl : length g = n.
  Hypothesis Hll : length lower = n.
  Hypothesis Hul : length upper = n.
  Hypothesis Hbox : forall i, (i < n)%nat -> vget lower i <= vget upper i.
  Hypothesis Hsym : fsym n Hf.
  Hypothesis Hpd : posdef n Hf.
  Hypothesis Hthre : qp_grad_thre cfg <> 0.
  Hypothesis Hfac : 0 < qp_step_factor cfg.
  Hypothesis Hparam : 0 <= qp_armijo_param cfg.

  Definition clampf (x : fvec) (i : nat) : R := Rmax (Rmin (x i) (vget upper i)) (vget lower i).
  Lemma qp_clip_R v i : (i < length v)%nat -> vget (qp_clip lower upper v) i = clampf (vget v) i.
  Proof. intros Hi. rewrite qp_clip_get by exact Hi. rewrite nmax_R, nmin_R. reflexivity. Qed.

  Section Dir.
    Variables (x : vec R) (cl : list bool).
    Hypothesis Hx : length x = n.
    Hypothesis Hcl : cl = qp_clamped n lower upper x (qp_grad H g x).
    Definition phi (i : nat) : bool := Bool.eqb (nth i cl true) false.
    Notation free := (idx_of false cl).
    Notation m := (length free).
    Hypothesis Hok : llt_issue LL (mgather H free free) = false.
    Notation dir := (qp_search_dir LL n H g (mgather H free free) x free (idx_of true cl)).

    Lemma cl_len : length cl = n.
    Proof. rewrite Hcl. unfold qp_clamped. rewrite map_length, seq_length; reflexivity. Qed.
    Lemma free_sel : free = sel phi n.
    Proof. apply idx_of_sel. apply cl_len. Qed.
    Lemma clamped_sel : idx_of true cl = sel (fun i => negb (phi i)) n.
    Proof.
      rewrite (idx_of_sel true cl n cl_len). unfold sel. apply filter_ext_in.
      intros i Hi. apply in_seq in Hi. unfold phi. cbn [negb].
      rewrite (nth_indep cl true false) by (rewrite cl_len; lia). destruct (nth i cl false); reflexivity.
    Qed.
    Lemma phi_spec i : (i < n)%nat -> phi i = negb (qp_clamped_at lower upper x (qp_grad H g x) i).
    Proof.
      intros Hi. unfold phi. rewrite Hcl. unfold qp_clamped.
      rewrite nth_indep with (d' := qp_clamped_at lower upper x (qp_grad H g x) 0) by (rewrite map_length, seq_length; exact Hi).
      rewrite (map_nth (qp_clamped_at lower upper x (qp_grad H g x))), seq_nth by exact Hi. cbn.
      destruct (qp_clamped_at _ _ _ _ i); reflexivity.
    Qed.

    Definition sdf : vec R :=
      vsub (vscale (nopp none) (llt_solve LL (mgather H free free)
             (vadd (vgather g free) (mvmul (mgather H free (idx_of true cl)) (vgather x (idx_of true cl))))))
           (vgather x free).
    Lemma dir_length : length dir = n.
    Proof. apply vbuild_length. Qed.
    Lemma dir_scat : vget dir = scat free (vget sdf).
    Proof.
      unfold qp_search_dir. fold sdf. rewrite <- (vbuild_fun n (scat free (vget sdf))); [reflexivity|].
      intros i Hi. apply scat_out. rewrite free_sel, sel_in. lia.
    Qed.

    (** The Newton equation on the free coordinates. *)
    Lemma dir_newton i : (i < n)%nat -> phi i = true -> gr (vget x) i + fmv n Hf (vget dir) i = 0.
    Proof.
      intros Hi Hphi.
      assert (Hin : In i free) by (rewrite free_sel; apply sel_in; auto).
      apply (In_nth _ _ 0%nat) in Hin as (p & Hp & <-).
      set (rhs := vadd (vgather g free) (mvmul (mgather H free (idx_of true cl)) (vgather x (idx_of true cl)))).
      assert (Hrl : length rhs = m) by (unfold rhs, vadd; rewrite vbuild_length; apply vgather_length).
      assert (Hgs : fsym m (mget (mgather H free free))) by (rewrite free_sel; apply gather_sym; auto).
      pose proof (el_solve LL HLL (mgather H free free) m rhs (mgather_dim _ _ _) Hgs Hok Hrl p Hp) as Hs.
      set (sol := llt_solve LL (mgather H free free) rhs) in *.
      rewrite mgather_mv in Hs by exact Hp.
      assert (Hsl : length sol = m) by (apply (el_len LL HLL); auto; apply mgather_dim).
      (* right-hand side *)
      assert (Hr : vget rhs p = vget g (nth p free 0%nat) +
                 Rsum n (fun j => if phi j then 0 else Hf (nth p free 0%nat) j * vget x j)).
      { unfold rhs. rewrite vadd_f by (rewrite vgather_length, mvmul_length; reflexivity).
        unfold fadd. rewrite vgather_get by exact Hp. f_equal.
        rewrite (mvmul_f m (length (idx_of true cl))) by apply mgather_dim.
        unfold fmv. rewrite clamped_sel.
        set (psi := fun i => negb (phi i)).
        transitivity (Rsum (length (sel psi n)) (fun q => Hf (nth p free 0%nat) (nth q (sel psi n) 0%nat) * vget x (nth q (sel psi n) 0%nat))).
        - apply Rsum_ext; intros q Hq. rewrite mgather_get, vgather_get by auto. reflexivity.
        - rewrite (Rsum_sel psi n (fun j => Hf (nth p free 0%nat) j * vget x j)).
          apply Rsum_ext; intros j _. unfold psi. destruct (phi j); reflexivity. }
      (* H dir *)
      rewrite dir_scat. rewrite free_sel at 2. rewrite scat_mv. rewrite <- free_sel.
      unfold fgrad, fadd.
      rewrite (Rsum_ext m _ (fun q => - (Hf (nth p free 0%nat) (nth q free 0%nat) * vget sol q)
             - Hf (nth p free 0%nat) (nth q free 0%nat) * vget x (nth q free 0%nat))).
      2:{ intros q Hq. unfold sdf. fold rhs sol. rewrite vsub_f, vscale_f.
          - unfold fsubv, fscal. rewrite vgather_get by exact Hq. numR. lra.
          - unfold vscale; rewrite vbuild_length, vgather_length. exact Hsl. }
      rewrite Rsum_minus, Rsum_opp, Hs, Hr.
      pose proof (Rsum_sel phi n (fun j => Hf (nth p free 0%nat) j * vget x j)) as HS.
      rewrite <- free_sel in HS. rewrite HS.
      unfold fmv. rewrite (Rsum_split phi n (fun j => Hf (nth p free 0%nat) j * vget x j)). lra.
    Qed.
    Lemma dir_clamped i : (i < n)%nat -> phi i = false -> vget dir i = 0.
    Proof.
      intros Hi Hphi. rewrite dir_scat. apply scat_out. rewrite free_sel, sel_in. intros [_ E]; congruence.
    Qed.
    Lemma dir_sdg : fdot n (vget dir) (gr (vget x)) = - fdot n (vget dir) (fmv n Hf (vget dir)).
    Proof.
      rewrite <- fdot_opp_r. apply Rsum_ext; intros i Hi. unfold fopp. destruct (phi i) eqn:E.
      - pose proof (dir_newton i Hi E). replace (gr (vget x) i) with (- fmv n Hf (vget dir) i) by lra. lra.
      - rewrite dir_clamped by auto. lra.
    Qed.
    Lemma dir_nonzero :
      nltb (qp_grad_norm (qp_grad H g x) free) (qp_grad_thre cfg * qp_grad_thre cfg)%num = false ->
      fdot n (vget dir) (gr (vget x)) < 0.
    Proof.
      intros Hn. rewrite grad_norm_R in Hn. numR. apply Rltb_false in Hn.
      rewrite dir_sdg.
      assert (Hnz : exists i, (i < n)%nat /\ vget dir i <> 0).
      { destruct (Req_dec (fdot n (vget dir) (vget dir)) 0) as [E|E].
        - exfalso. pose proof (fdot_self_0 n _ E) as Hz.
          assert (Hhd : forall i, fmv n Hf (vget dir) i = 0).
          { intros i. apply Rsum_zero; intros j Hj; rewrite Hz by exact Hj; lra. }
          rewrite free_sel in Hn. 
          rewrite (Rsum_sel phi n (fun i => vget (qp_grad H g x) i * vget (qp_grad H g x) i)) in Hn.
          rewrite Rsum_zero in Hn.
          + assert (0 < qp_grad_thre cfg * qp_grad_thre cfg) by (apply Rsqr_pos_lt; auto). lra.
          + intros i Hi. destruct (phi i) eqn:Ep; [|reflexivity].
            pose proof (dir_newton i Hi Ep) as Hnw. rewrite Hhd in Hnw.
            rewrite (qp_grad_R n) by auto. replace (gr (vget x) i) with 0 by lra. lra.
        - clear -E. revert E. generalize (vget dir) as d. intros d E.
          assert (G : forall k, Rsum k (fun i => d i * d i) <> 0 -> exists i, (i < k)%nat /\ d i <> 0).
          { induction k as [|k IH]; cbn [Rsum]; intros Hk; [lra|].
            destruct (Req_dec (d k) 0) as [Hd|Hd].
            - destruct IH as (i & Hi & Hdi); [rewrite Hd in Hk; lra|]. exists i; split; [lia|auto].
            - exists k; split; [lia|auto]. }
          apply G; exact E. }
      specialize (Hpd _ Hnz). lra.
    Qed.

    Hypothesis Hfeas : forall i, (i < n)%nat -> vget lower i <= vget x i <= vget upper i.

    (** On the projected path every coordinate is either free to move for a while or stuck at its bound. *)
    Definition stuck (i : nat) : bool :=
      (Reqb (vget x i) (vget lower i) && Rltb (vget dir i) 0)
      || (Reqb (vget x i) (vget upper i) && Rltb 0 (vget dir i)).
    Definition pdir : fvec := fun i => if stuck i then 0 else vget dir i.

    Lemma path_local i : (i < n)%nat -> exists dl, 0 < dl /\
      forall a, 0 < a <= dl -> clampf (fadd (vget x) (fscal a (vget dir))) i = vget x i + a * pdir i.
    Proof.
      intros Hi. specialize (Hfeas i Hi) as Hxi. specialize (Hbox i Hi) as Hb. unfold clampf, fadd, fscal, pdir.
      set (d := vget dir i). set (xi := vget x i) in *. set (l := vget lower i) in *. set (u := vget upper i) in *.
      destruct (stuck i) eqn:Es; unfold stuck in Es; fold d xi l u in Es.
      - exists 1. split; [lra|]. intros a Ha. apply orb_true_iff in Es.
        rewrite !andb_true_iff, !Reqb_true, !Rltb_true in Es.
        destruct Es as [[E Hd]|[E Hd]].
        + rewrite Rmin_left by nra. rewrite Rmax_right by nra. nra.
        + rewrite Rmin_right by nra. rewrite Rmax_left by nra. nra.
      - apply orb_false_iff in Es. rewrite !andb_false_iff, !Reqb_false, !Rltb_false in Es.
        destruct Es as [E1 E2].
        destruct (Rtotal_order d 0) as [Hd|[Hd|Hd]].
        + assert (Hlt : l < xi) by (destruct E1; lra).
          exists ((xi - l) / (- d)). split; [apply Rdiv_lt_0_compat; lra|].
          intros a [Ha1 Ha2]. assert (a * (- d) <= xi - l).
          { apply Rmult_le_reg_r with (/ (- d)); [apply Rinv_0_lt_compat; lra|].
            rewrite Rmult_assoc, Rinv_r by lra. unfold Rdiv in Ha2. lra. }
          rewrite Rmin_left by nra. rewrite Rmax_left by nra. reflexivity.
        + exists 1. split; [lra|]. intros a Ha. rewrite Hd, Rmult_0_r, Rplus_0_r.
          rewrite Rmin_left by lra. rewrite Rmax_left by lra. reflexivity.
        + assert (Hlt : xi < u) by (destruct E2; lra).
          exists ((u - xi) / d). split; [apply Rdiv_lt_0_compat; lra|].
          intros a [Ha1 Ha2]. assert (a * d <= u - xi).
          { apply Rmult_le_reg_r with (/ d); [apply Rinv_0_lt_compat; lra|].
            rewrite Rmult_assoc, Rinv_r by lra. unfold Rdiv in Ha2. lra. }
          rewrite Rmin_left by nra. rewrite Rmax_left by nra. reflexivity.
    Qed.

    Lemma path_all k : (k <= n)%nat -> exists dl, 0 < dl /\ forall a i, 0 < a <= dl -> (i < k)%nat ->
      clampf (fadd (vget x) (fscal a (vget dir))) i = vget x i + a * pdir i.
    Proof.
      induction k as [|k IH]; intros Hk; [exists 1; split; [lra|intros; lia]|].
      destruct IH as (d1 & Hd1 & H1); [lia|]. destruct (path_local k) as (d2 & Hd2 & H2); [lia|].
      exists (Rmin d1 d2). split; [apply Rmin_glb_lt; auto|].
      intros a i Ha Hi. pose proof (Rmin_l d1 d2). pose proof (Rmin_r d1 d2).
      destruct (Nat.eq_dec i k) as [->|Hne]; [apply H2; lra|apply H1; [lra|lia]].
    Qed.

    Lemma pdir_grad : fdot n (gr (vget x)) pdir <= fdot n (vget dir) (gr (vget x)).
    Proof.
      rewrite fdot_comm. apply Rsum_le; intros i Hi. unfold pdir. destruct (stuck i) eqn:Es; [|lra].
      assert (0 <= vget dir i * gr (vget x) i); [|lra].
      destruct (phi i) eqn:Ep; [|rewrite dir_clamped by auto; lra].
      rewrite phi_spec in Ep by exact Hi. apply negb_true_iff in Ep. unfold qp_clamped_at in Ep.
      apply orb_false_iff in Ep as [Ea Eb]. rewrite (qp_grad_R n) in Ea, Eb by auto. numR.
      rewrite andb_false_iff, Reqb_false, Rltb_false in Ea, Eb.
      unfold stuck in Es. apply orb_true_iff in Es. rewrite !andb_true_iff, !Reqb_true, !Rltb_true in Es.
      destruct Es as [[E Hd]|[E Hd]].
      - destruct Ea as [Ea|Ea]; [contradiction|]. nra.
      - destruct Eb as [Eb|Eb]; [contradiction|]. nra.
    Qed.

    (** Small enough steps meet the Armijo test. *)
    Lemma armijo_small : fdot n (vget dir) (gr (vget x)) < 0 -> qp_armijo_param cfg < 1 ->
      exists dl, 0 < dl /\ forall a, 0 < a <= dl ->
        f (clampf (fadd (vget x) (fscal a (vget dir)))) - f (vget x)
          <= qp_armijo_param cfg * (a * fdot n (vget dir) (gr (vget x))).
    Proof.
      intros Hneg Hp1. set (sdg := fdot n (vget dir) (gr (vget x))) in *.
      destruct (path_all n (le_n n)) as (d1 & Hd1 & H1).
      set (q := fdot n pdir (fmv n Hf pdir)).
      assert (Hq : 0 <= q) by (apply posdef_psd; auto).
      set (d2 := 2 * (1 - qp_armijo_param cfg) * (- sdg) / (q + 1)).
      assert (Hd2 : 0 < d2) by (apply Rdiv_lt_0_compat; [apply Rmult_lt_0_compat|]; lra).
      exists (Rmin d1 d2). split; [apply Rmin_glb_lt; auto|].
      intros a Ha. pose proof (Rmin_l d1 d2) as L1. pose proof (Rmin_r d1 d2) as L2.
      assert (E : f (clampf (fadd (vget x) (fscal a (vget dir)))) = f (fadd (vget x) (fscal a pdir))).
      { assert (Hext : forall i, (i < n)%nat -> clampf (fadd (vget x) (fscal a (vget dir))) i = fadd (vget x) (fscal a pdir) i).
        { intros i Hi. rewrite H1 by (auto; lra). reflexivity. }
        unfold fobj. rewrite (fmv_extv n _ _ _ Hext). f_equal; [|f_equal]; apply fdot_ext; auto. }
      rewrite E, fobj_expand by exact Hsym.
      rewrite fdot_scal_r, fmv_scal, fdot_scal_l, fdot_scal_r. fold q.
      pose proof pdir_grad as Hpg. fold sdg in Hpg.
      assert (Hk : a * (q + 1) <= 2 * (1 - qp_armijo_param cfg) * (- sdg)).
      { assert (Ha2 : a <= d2) by lra. unfold d2 in Ha2.
        apply Rmult_le_reg_r with (/ (q + 1)); [apply Rinv_0_lt_compat; lra|].
        rewrite Rmult_assoc, Rinv_r by lra. unfold Rdiv in Ha2. lra. }
      assert (Ha0 : 0 < a) by lra.
      assert (M1 : a * fdot n (gr (vget x)) pdir <= a * sdg) by (apply Rmult_le_compat_l; lra).
      assert (M2 : a * (a * q) <= a * (2 * (1 - qp_armijo_param cfg) * (- sdg))).
      { apply Rmult_le_compat_l; [lra|]. nra. }
      nra.
    Qed.

    (** The full step, if it stays in the box, meets the test with ratio 1/2. *)
    Lemma armijo_full : fdot n (vget dir) (gr (vget x)) < 0 ->
      (forall i, (i < n)%nat -> vget lower i <= vget x i + vget dir i <= vget upper i) ->
      (f (clampf (fadd (vget x) (fscal 1 (vget dir)))) - f (vget x)) / (1 * fdot n (vget dir) (gr (vget x))) = / 2.
    Proof.
      intros Hneg Hin.
      assert (E : f (clampf (fadd (vget x) (fscal 1 (vget dir)))) = f (fadd (vget x) (vget dir))).
      { assert (Hext : forall i, (i < n)%nat -> clampf (fadd (vget x) (fscal 1 (vget dir))) i = fadd (vget x) (vget dir) i).
        { intros i Hi. specialize (Hin i Hi). unfold clampf, fadd, fscal. rewrite Rmult_1_l.
          rewrite Rmin_left by lra. rewrite Rmax_left by lra. reflexivity. }
        unfold fobj. rewrite (fmv_extv n _ _ _ Hext). f_equal; [|f_equal]; apply fdot_ext; auto. }
      rewrite E, fobj_expand by exact Hsym. rewrite (fdot_comm n (gr (vget x))).
      pose proof dir_sdg as Hs. field_simplify; [|lra]. 
      replace (fdot n (vget dir) (fmv n Hf (vget dir))) with (- fdot n (vget dir) (gr (vget x))) by lra.
      field. lra.
    Qed.
  End Dir.

  (** What the trace records about an iteration that took a step. *)
  Record step_entry (e : qp_trace R) : Prop := {
    se_lx : length (qt_x e) = n;
    se_ld : length (qt_dir e) = n;
    se_feas : forall i, (i < n)%nat -> vget lower i <= vget (qt_x e) i <= vget upper i;
    se_obj : qt_obj e = f (vget (qt_x e));
    se_curv : fdot n (vget (qt_dir e)) (gr (vget (qt_x e))) = - fdot n (vget (qt_dir e)) (fmv n Hf (vget (qt_dir e)));
    se_desc : fdot n (vget (qt_dir e)) (gr (vget (qt_x e))) < 0;
    se_full : qp_armijo_param cfg <= / 2 ->
              (forall i, (i < n)%nat -> vget lower i <= vget (qt_x e) i + vget (qt_dir e) i <= vget upper i) ->
              qt_snum e = 0%Z;
    se_small : qp_armijo_param cfg < 1 -> exists dl, 0 < dl /\ forall a, 0 < a <= dl ->
        f (clampf (fadd (vget (qt_x e)) (fscal a (vget (qt_dir e))))) - f (vget (qt_x e))
          <= qp_armijo_param cfg * (a * fdot n (vget (qt_dir e)) (gr (vget (qt_x e))))
  }.
  (** The line search of the entry was cut off by min_step. *)
  Definition cut_entry (e : qp_trace R) : Prop :=
    qp_step_factor cfg ^ Z.to_nat (qt_snum e) < qp_min_step cfg.

  Lemma armijo_R {S} fuel x dir oo sdg : forall j xc oc rv (s : S) U E,
    wp U (qp_armijo cfg H g lower upper fuel x dir oo sdg (qp_step cfg j) (Z.of_nat j) xc oc rv)
       (fun r s' => s' = s /\ let '(step', snum', xc', oc', rv') := r in
          exists k, snum' = Z.of_nat k /\ step' = qp_step cfg k /\ (j <= k)%nat /\
            (k = j \/ (oc - oo) / (qp_step cfg j * sdg) < qp_armijo_param cfg) /\
            (qp_step cfg k < qp_min_step cfg \/ qp_armijo_param cfg <= (oc' - oo) / (qp_step cfg k * sdg))) E s.
  Proof.
    induction fuel as [|fu IH]; intros j xc oc rv s U E; cbn [qp_armijo].
    - match goal with |- wp _ (if ?c then _ else _) _ _ _ => destruct c eqn:Ec end; [exact I|].
      apply wp_ret. split; [reflexivity|]. exists j. numR. apply Rltb_false in Ec.
      split; [reflexivity|]. split; [reflexivity|]. split; [lia|]. split; [left; reflexivity|right; exact Ec].
    - match goal with |- wp _ (if ?c then _ else _) _ _ _ => destruct c eqn:Ec end.
      2:{ apply wp_ret. split; [reflexivity|]. exists j. numR. apply Rltb_false in Ec.
      split; [reflexivity|]. split; [reflexivity|]. split; [lia|]. split; [left; reflexivity|right; exact Ec]. }
      assert (Hc : (oc - oo) / (qp_step cfg j * sdg) < qp_armijo_param cfg) by (numR; apply Rltb_true in Ec; exact Ec).
      change (qp_step cfg j * qp_step_factor cfg)%num with (qp_step cfg (Datatypes.S j)).
      match goal with |- wp _ (if ?c then _ else _) _ _ _ => destruct c eqn:Em end.
      + apply wp_ret. split; [reflexivity|]. exists (Datatypes.S j). numR. apply Rltb_true in Em.
        split; [lia|]. split; [reflexivity|]. split; [lia|]. split; [right; exact Hc|left; exact Em].
      + replace (Z.of_nat j + 1)%Z with (Z.of_nat (Datatypes.S j)) by lia.
        eapply wp_conseq; [apply IH| |intros e s0 He; exact He].
        intros [[[[? ?] ?] ?] ?] s' (-> & k & H1 & H2 & H3 & H4 & H5). split; [reflexivity|].
        exists k. split; [auto|]. split; [auto|]. split; [lia|]. auto.
  Qed.

  Lemma feas_of v x : length v = n -> x = qp_clip lower upper v ->
    forall i, (i < n)%nat -> vget lower i <= vget x i <= vget upper i.
  Proof.
    intros Hv -> i Hi. rewrite qp_clip_R by lia. unfold clampf. specialize (Hbox i Hi). split; [apply Rmax_r|].
    apply Rmax_lub; [apply Rmin_r|lra].
  Qed.

  Lemma qp_iter_R {S} U E fuel it st (s : S) :
    (1 <= it)%Z ->
    (if (it =? 1)%Z then qp_start n H g lower upper st else qp_cont LL n H g lower upper st) ->
    wp U (qp_iter LL cfg n H g lower upper fuel it st)
       (fun r s' => exists e, qs_trace (fst r) = qs_trace st ++ [e] /\
          (e = qp_trace0 n it \/ step_entry e) /\
          (qs_obj (fst r) <= qs_obj st \/ cut_entry e) /\
          (snd r = true -> qs_retval (fst r) <> (-1)%Z /\ qs_retval (fst r) <> (-2)%Z)) E s.
  Proof.
    intros Hit Hinv.
    assert (Hxs : exists v, length v = n /\ qs_x st = qp_clip lower upper v)
      by (destruct (it =? 1)%Z; apply Hinv).
    assert (Hos : qs_obj st = qp_obj H g (qs_x st)) by (destruct (it =? 1)%Z; apply Hinv).
    destruct Hxs as (v & Hv & Hxv).
    assert (Hlx : length (qs_x st) = n) by (rewrite Hxv, qp_clip_length; exact Hv).
    pose proof (feas_of v (qs_x st) Hv Hxv) as Hfeas.
    unfold qp_iter.
    assert (Hexit : forall rv tr', rv <> (-1)%Z -> rv <> (-2)%Z -> forall st0, qs_obj st0 = qs_obj st ->
       exists e, qs_trace (fst (qp_st_exit st0 rv (tr' ++ [qp_trace0 n it]), true)) = tr' ++ [e] /\
          (e = qp_trace0 n it \/ step_entry e) /\
          (qs_obj (fst (qp_st_exit st0 rv (tr' ++ [qp_trace0 n it]), true)) <= qs_obj st \/ cut_entry e) /\
          (snd (qp_st_exit st0 rv (tr' ++ [qp_trace0 n it]), true) = true ->
           qs_retval (fst (qp_st_exit st0 rv (tr' ++ [qp_trace0 n it]), true)) <> (-1)%Z /\
           qs_retval (fst (qp_st_exit st0 rv (tr' ++ [qp_trace0 n it]), true)) <> (-2)%Z)).
    { intros rv tr' H1 H2 st0 Ho. cbn [fst snd qp_st_exit qs_trace qs_obj qs_retval]. eexists. split; [reflexivity|].
      split; [left; reflexivity|]. split; [left; rewrite Ho; lra|]. auto. }
    destruct ((1 <? it)%Z && _) eqn:E4.
    { apply wp_ret. apply (Hexit 4%Z); auto; discriminate. }
    set (grad := qp_grad H g (qs_x st)).
    set (clamped := qp_clamped n lower upper (qs_x st) grad).
    assert (Hcl : length clamped = n) by (unfold clamped, qp_clamped; rewrite map_length, seq_length; reflexivity).
    destruct (forallb (fun b => b) clamped) eqn:Eall.
    { apply wp_ret. apply (Hexit 6%Z); auto; discriminate. }
    set (free := idx_of false clamped) in *.
    set (changed := (it =? 1)%Z || _).
    set (llt' := if changed then _ else _).
    assert (Hllt : llt' = Some (mgather H free free)).
    { unfold llt'. destruct changed eqn:Ec; [reflexivity|].
      unfold changed in Ec. apply orb_false_iff in Ec as [Ei Eq].
      rewrite Ei in Hinv. apply negb_false_iff in Eq.
      assert (Hsame : clamped = qs_clamped st).
      { apply (nth_ext _ _ false false); [rewrite Hcl; symmetry; apply Hinv|].
        intros i Hi. rewrite forallb_forall in Eq. apply eqb_prop, Eq. apply in_seq; lia. }
      assert (Hfr : free = qs_free st) by (unfold free; rewrite Hsame; symmetry; apply Hinv).
      rewrite Hfr. apply Hinv. }
    assert (Hfs : free = sel (phi clamped) n) by (apply idx_of_sel; exact Hcl).
    assert (Hok : llt_issue LL (mgather H free free) = false).
    { apply (proj2 (el_issue LL HLL _ (length free) (mgather_dim _ _ _) ltac:(rewrite Hfs; apply gather_sym; exact Hsym))).
      rewrite Hfs. apply gather_posdef; exact Hpd. }
    rewrite Hok, andb_false_r.
    match goal with |- wp _ (if ?c then _ else _) _ _ _ => destruct c eqn:E5 end.
    { apply wp_ret. apply (Hexit 5%Z); auto; discriminate. }
    rewrite Hllt.
    apply wp_bind. unfold must. apply wp_ret.
    apply wp_bind. apply wp_guard; [intros _|].
    2:{ cbn [mgather mrows]. rewrite Nat.eqb_refl. discriminate. }
    set (dir := qp_search_dir _ _ _ _ _ _ _ _).
    pose proof (dir_nonzero (qs_x st) clamped Hlx eq_refl Hok E5) as Hneg. fold dir in Hneg.
    assert (Hdl : length dir = n) by apply dir_length.
    assert (Hsdg : dot dir grad = fdot n (vget dir) (gr (vget (qs_x st)))).
    { rewrite dot_R, Hdl. unfold grad. rewrite (qp_grad_R n) by auto. reflexivity. }
    match goal with |- wp _ (if ?c then _ else _) _ _ _ => destruct c eqn:E2 end.
    { exfalso. numR. apply Rltb_true in E2. rewrite Hsdg in E2. pose proof (Rlt_trans _ _ _ E2 Hneg); lra. }
    apply wp_bind.
    eapply wp_conseq; [apply (armijo_R fuel (qs_x st) dir (qs_obj st) (dot dir grad) 0)| |intros e s' He; exact He].
    intros [[[[step' snum'] xc'] oc'] rv'] s' (-> & k & Hsn & Hst & _ & Hk0 & Hres).
    apply wp_ret; cbn [fst snd qs_trace qs_obj qs_retval]. rewrite upd_last_app.
    eexists. split; [reflexivity|].
    assert (Hclip : forall a, qp_obj H g (qp_clip lower upper (vadd (qs_x st) (vscale a dir))) =
        f (clampf (fadd (vget (qs_x st)) (fscal a (vget dir))))).
    { intros a. assert (Hvl : length (vadd (qs_x st) (vscale a dir)) = n) by (unfold vadd; rewrite vbuild_length; exact Hlx).
      rewrite (qp_obj_R n) by (auto; rewrite qp_clip_length; exact Hvl).
      assert (Hext : forall i, (i < n)%nat -> vget (qp_clip lower upper (vadd (qs_x st) (vscale a dir))) i =
              clampf (fadd (vget (qs_x st)) (fscal a (vget dir))) i).
      { intros i Hi. rewrite qp_clip_R by lia. rewrite vadd_f, vscale_f by (unfold vscale; rewrite vbuild_length; congruence).
        reflexivity. }
      unfold fobj. rewrite (fmv_extv n _ _ _ Hext). f_equal; [|f_equal]; apply fdot_ext; auto. }
    assert (Hobj : qs_obj st = f (vget (qs_x st))) by (rewrite Hos; apply qp_obj_R; auto).
    assert (Hpos : 0 < qp_step cfg k) by (rewrite qp_step_R; apply pow_lt; exact Hfac).
    split; [right|split].
    - split; cbn [qt_x qt_dir qt_obj qt_snum]; auto.
      + apply dir_sdg; auto.
      + intros Hp2 Hin. destruct Hk0 as [->|Hk0]; [exact Hsn|]. exfalso.
        cbn [qp_step] in Hk0. rewrite Hclip, Hobj, Hsdg in Hk0.
        assert (E1 : @nofZ R RNum 1 = 1) by (numR; lra). rewrite E1 in Hk0.
        pose proof (armijo_full (qs_x st) clamped Hlx eq_refl Hok Hneg Hin) as Haf.
        apply (Rlt_not_le _ _ Hk0). eapply Rle_trans; [exact Hp2|]. right. symmetry. exact Haf.
      + intros Hp1. apply (armijo_small (qs_x st) clamped); auto.
    - destruct Hres as [Hc|Hc]; [right|left].
      + unfold cut_entry; cbn [qt_snum]. rewrite Hsn, Nat2Z.id, <- qp_step_R. exact Hc.
      + rewrite Hsdg in Hc. set (sdg := fdot n (vget dir) (gr (vget (qs_x st)))) in *.
        assert (Hden : qp_step cfg k * sdg < 0) by (apply Rmult_pos_neg; [exact Hpos|exact Hneg]).
        assert (Hr : 0 <= (oc' - qs_obj st) / (qp_step cfg k * sdg)) by (eapply Rle_trans; [exact Hparam|exact Hc]).
        destruct (Rle_dec oc' (qs_obj st)) as [|Hgt]; [assumption|]. exfalso.
        assert ((oc' - qs_obj st) / (qp_step cfg k * sdg) < 0); [|lra].
        unfold Rdiv. apply Rmult_pos_neg; [lra|]. apply Rinv_lt_0_compat; exact Hden.
    - intros Hb. rewrite Hb. split; discriminate.
  Qed.

  Lemma qp_loop_R {S} U E e0 o0 fuel afuel : forall it st (s : S),
    (1 <= it)%Z ->
    (if (it =? 1)%Z then qp_start n H g lower upper st else qp_cont LL n H g lower upper st) ->
    tr_iters e0 (Z.to_nat it) (qs_trace st) ->
    Forall (fun e => e = qp_trace0 n (qt_iter e) \/ step_entry e) (tl (qs_trace st)) ->
    (qs_obj st <= o0 \/ Exists cut_entry (qs_trace st)) ->
    wp U (qp_loop LL cfg n H g lower upper fuel afuel it st)
       (fun st' s' => 
          Forall (fun e => e = qp_trace0 n (qt_iter e) \/ step_entry e) (tl (qs_trace st')) /\
          (qs_obj st' <= o0 \/ Exists cut_entry (qs_trace st')) /\
          qs_obj st' = qp_obj H g (qs_x st') /\
          qs_retval st' <> (-1)%Z /\ qs_retval st' <> (-2)%Z) E s.
  Proof.
    induction fuel as [|fu IH]; intros it st s Hit Hinv Htr Hall Hmon; cbn [qp_loop]; [exact I|].
    apply wp_bind.
    assert (Hne : qs_trace st <> []).
    { destruct Htr as [_ Ht]. destruct (qs_trace st); [discriminate|discriminate]. }
    eapply wp_conseq; [apply (wp_conj U _ _ _ _ _ s (qp_iter_spec LL cfg n H g lower upper U E e0 afuel it st s Hit Hinv Htr)
                          (qp_iter_R U E afuel it st s Hit Hinv))| |intros e s' [He _]; exact He].
    intros [st' brk] s' ((-> & Htr' & Hr) & e & Het & Hee & Hob & Hrv); cbn [fst snd] in *.
    assert (Hall' : Forall (fun e => e = qp_trace0 n (qt_iter e) \/ step_entry e) (tl (qs_trace st'))).
    { rewrite Het. destruct (qs_trace st) as [|a l]; [contradiction|]. cbn [app tl] in *.
      apply Forall_app; split; [exact Hall|]. constructor; [|constructor].
      destruct Hee as [->|Hse]; [left; reflexivity|right; exact Hse]. }
    assert (Hmon' : qs_obj st' <= o0 \/ Exists cut_entry (qs_trace st')).
    { destruct Hmon as [Hm|Hm].
      - destruct Hob as [Hob|Hob]; [left; lra|right]. rewrite Het. apply Exists_app. right. constructor. exact Hob.
      - right. rewrite Het. apply Exists_app. left. exact Hm. }
    destruct brk.
    - apply wp_ret. destruct (Hrv eq_refl). split; [exact Hall'|]. split; [exact Hmon'|]. split; [apply Hr|]. auto.
    - destruct Hr as [Hc Hm].
      apply IH; auto; try lia.
      + replace (it + 1 =? 1)%Z with false by (symmetry; apply Z.eqb_neq; lia). exact Hc.
      + replace (Z.to_nat (it + 1)) with (Datatypes.S (Z.to_nat it)) by lia; exact Htr'.
  Qed.

  Lemma qp_solve_R {S} fuel afuel ol ix (s s' : S) out :
    qp_solve LL cfg n H g lower upper fuel afuel ol ix s = Ok out s' ->
    Forall (fun e => e = qp_trace0 n (qt_iter e) \/ step_entry e) (tl (qo_trace out)) /\
    (f (vget (qo_x out)) <= f (vget (qp_clip lower upper ix)) \/ Exists cut_entry (qo_trace out)) /\
    qo_retval out <> (-1)%Z /\ qo_retval out <> (-2)%Z.
  Proof.
    intros Ez.
    destruct (qp_ok LL cfg n H g lower upper fuel afuel ol ix s s' out Ez) as (_ & Rz & _ & _ & _ & _ & Hix).
    set (Q := fun (out : qp_out R) (_ : S) =>
       Forall (fun e => e = qp_trace0 n (qt_iter e) \/ step_entry e) (tl (qo_trace out)) /\
       (qp_obj H g (qo_x out) <= qp_obj H g (qp_clip lower upper ix) \/ Exists cut_entry (qo_trace out)) /\
       qo_retval out <> (-1)%Z /\ qo_retval out <> (-2)%Z).
    assert (W : wp True (qp_solve LL cfg n H g lower upper fuel afuel ol ix) Q (fun _ _ => True) s).
    { unfold qp_solve.
      apply wp_bind. apply wp_guard; [intros Hg|auto].
      apply wp_bind.
      eapply wp_conseq; [eapply (qp_loop_R True (fun _ _ => True) _ (qp_obj H g (qp_clip lower upper ix)))| |auto].
      - lia.
      - cbn. split; cbn; auto. exists ix; split; auto.
      - cbn; split; reflexivity.
      - constructor.
      - left. cbn [qs_obj]. lra.
      - intros st s1 (H1 & H2 & H3 & H4 & H5).
        apply wp_bind. match goal with |- wp _ (if ?c then _ else _) _ _ _ => destruct c end; [exact I|]. apply wp_ret. apply wp_ret. unfold Q; cbn [qo_x qo_trace qo_retval].
        rewrite <- H3. auto. }
    unfold wp in W. rewrite Ez in W. destruct W as (W1 & W2 & W3 & W4).
    split; [exact W1|]. split; [|auto].
    assert (Hlo : length (qo_x out) = n) by (apply (qp_length LL cfg n H g lower upper fuel afuel ol ix s s' out Ez)).
    rewrite !(qp_obj_R n) in W2 by (auto; rewrite qp_clip_length; auto). exact W2.
  Qed.
End Iter.
