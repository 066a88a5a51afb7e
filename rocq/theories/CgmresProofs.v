(** Lemmas on the sweeps of Cgmres.v. *)
From Coq Require Import Reals Lra.
From Verif Require Import Prelude Scalar LinAlg RLin GmresSpec GmresCor Cgmres.
Local Open Scope R_scope.

Lemma skipn_skipn {A} a b (l : list A) : skipn a (skipn b l) = skipn (a + b) l.
Proof.
  revert l. induction b as [|b IH]; intros l; [rewrite Nat.add_0_r; reflexivity|]. rewrite Nat.add_succ_r. destruct l as [|x l]; [destruct a; reflexivity|].
  cbn [skipn]. apply IH.
Qed.

Section Sweeps.
  Variables (pb : cg_problem R) (od : ode R).
  Notation cvec := (list R).

  Lemma forward_spec h : forall us tau x, let '(xs, tau') := forward pb od h tau x us in
    length xs = S (length us) /\ nth 0 xs [] = x /\ tau' = tau + INR (length us) * h /\
    forall i, (i < length us)%nat -> nth (S i) xs [] = od (cp_f pb) (tau + INR i * h) (nth i xs []) (nth i us []) h.
  Proof.
    induction us as [|u us IH]; intros tau x; cbn [forward].
    - repeat split; [cbn; numR; lra|]. intros i Hi. cbn in Hi. lia.
    - specialize (IH (nadd tau h) (od (cp_f pb) tau x u h)). destruct (forward pb od h _ _ us) as [xs tau'].
      destruct IH as (L & H0 & Ht & Hi). split; [cbn; rewrite L; reflexivity|]. split; [reflexivity|]. split.
      + rewrite Ht. cbn [length]. rewrite S_INR. numR. ring.
      + intros [|i] Hi'; cbn [nth].
        * rewrite H0. cbn [INR]. f_equal. ring.
        * rewrite Hi by (cbn in Hi'; lia). cbn [nth]. rewrite S_INR. f_equal. numR. ring.
  Qed.

  Lemma backward_spec h : forall rv tau lmd ls ds, hd [] ls = lmd -> ls <> [] -> let m := length rv in
    let '(ls', ds') := backward pb od h tau lmd rv ls ds in
    length ls' = (m + length ls)%nat /\ length ds' = (m + length ds)%nat /\ skipn m ls' = ls /\
    forall i, (i < m)%nat -> let x := fst (nth i (rev rv) ([], [])) in let u := snd (nth i (rev rv) ([], [])) in
      nth i ls' [] = od (cp_costate pb) (tau - INR (m - 1 - i) * h) (nth (S i) ls' []) (x ++ u) (- h) /\
      nth i ds' [] = cp_dhdu pb (tau - INR (m - i) * h) x u (nth (S i) ls' []).
  Proof.
    induction rv as [|[x u] rv IH]; intros tau lmd ls ds Hl Hn; cbn [backward length].
    - repeat split; cbn in *; lia.
    - cbv zeta. set (lmd' := od (cp_costate pb) tau lmd (x ++ u) (nopp h)). set (d := cp_dhdu pb (nsub tau h) x u lmd).
      specialize (IH (nsub tau h) lmd' (lmd' :: ls) (d :: ds) eq_refl ltac:(discriminate)). cbv zeta in IH.
      destruct (backward pb od h (nsub tau h) lmd' rv (lmd' :: ls) (d :: ds)) as [ls' ds'] eqn:Eb. destruct IH as (L1 & L2 & Sk & Hi).
      assert (Dd : forall (rv : list (vec R * vec R)) tau l ls ds, exists q, snd (backward pb od h tau l rv ls ds) = q ++ ds /\ length q = length rv).
      { clear. induction rv as [|[x u] rv IH]; intros tau l ls ds; [exists []; split; reflexivity|]. cbn [backward].
        destruct (IH (nsub tau h) (od (cp_costate pb) tau l (x ++ u) (nopp h)) (od (cp_costate pb) tau l (x ++ u) (nopp h) :: ls)
          (cp_dhdu pb (nsub tau h) x u l :: ds)) as (q & E & Lq). exists (q ++ [cp_dhdu pb (nsub tau h) x u l]). split; [|rewrite app_length; cbn; lia].
        rewrite <- app_assoc. exact E. }
      destruct (Dd rv (nsub tau h) lmd' (lmd' :: ls) (d :: ds)) as (q & Eq & Lq). rewrite Eb in Eq. cbn [snd] in Eq.
      cbn [length] in L1, L2. split; [lia|]. split; [lia|].
      assert (Sk' : skipn (S (length rv)) ls' = ls).
      { replace (S (length rv)) with (1 + length rv)%nat by lia. rewrite <- skipn_skipn, Sk. reflexivity. }
      split; [exact Sk'|]. intros i Hi'. cbn [rev]. destruct (Nat.eq_dec i (length rv)) as [->|Hne].
      + rewrite app_nth2 by (rewrite rev_length; lia). rewrite rev_length, Nat.sub_diag. cbn [nth fst snd].
        replace (nth (length rv) ls' []) with lmd'.
        2:{ rewrite <- (firstn_skipn (length rv) ls'), Sk. rewrite app_nth2; rewrite firstn_length, L1; [|lia].
            replace (length rv - Nat.min (length rv) _)%nat with 0%nat by lia. reflexivity. }
        replace (nth (S (length rv)) ls' []) with lmd.
        2:{ rewrite <- (firstn_skipn (S (length rv)) ls'), Sk'. rewrite app_nth2; rewrite firstn_length, L1; [|lia].
            replace (S (length rv) - Nat.min (S (length rv)) _)%nat with 0%nat by lia. destruct ls; [congruence|]. cbn in *. congruence. }
        split.
        * unfold lmd'. numR. f_equal. replace (S (length rv) - 1 - length rv)%nat with 0%nat by lia. cbn [INR]. ring.
        * rewrite Eq, app_nth2 by lia. rewrite Lq, Nat.sub_diag. cbn [nth]. unfold d. numR. f_equal.
          replace (S (length rv) - length rv)%nat with 1%nat by lia. cbn [INR]. ring.
      + rewrite app_nth1 by (rewrite rev_length; lia). destruct (Hi i ltac:(lia)) as [E1 E2]. split.
        * rewrite E1 at 1. f_equal. numR. replace (S (length rv) - 1 - i)%nat with (S (length rv - 1 - i)) by lia. rewrite S_INR. ring.
        * rewrite E2. f_equal. numR. replace (S (length rv) - i)%nat with (S (length rv - i)) by lia. rewrite S_INR. ring.
  Qed.

  Lemma removelast_nth {A} (d : A) : forall l i, (i < length l - 1)%nat -> nth i (removelast l) d = nth i l d.
  Proof.
    induction l as [|a l IH]; intros i Hi; [cbn in Hi; lia|]. destruct l as [|b l]; [cbn in Hi; lia|].
    change (removelast (a :: b :: l)) with (a :: removelast (b :: l)). destruct i; [reflexivity|]. cbn [nth]. apply IH. cbn in *. lia.
  Qed.
  Lemma removelast_len {A} (l : list A) : length (removelast l) = (length l - 1)%nat.
  Proof. induction l as [|a [|b l] IH]; [reflexivity|reflexivity|]. change (removelast (a :: b :: l)) with (a :: removelast (b :: l)). cbn [length] in *. lia. Qed.
  Lemma last_nth {A} (d : A) : forall l, l <> [] -> last l d = nth (length l - 1) l d.
  Proof.
    induction l as [|a [|b l] IH]; intros H; [congruence|reflexivity|]. change (last (a :: b :: l) d) with (last (b :: l) d).
    rewrite IH by discriminate. cbn [length]. replace (S (S (length l)) - 1)%nat with (S (S (length l) - 1)) by lia. reflexivity.
  Qed.

  Lemma sweep_spec h t x us : let n := length us in
    let '(xs, tau) := forward pb od h t x us in
    let lmd := cp_dphi pb tau (last xs []) in
    let '(ls, ds) := backward pb od h tau lmd (rev (combine (removelast xs) us)) [lmd] [] in
    (length xs = (n + 1)%nat /\ length ls = (n + 1)%nat /\ length ds = n) /\
    nth 0 xs [] = x /\
    (forall i, (i < n)%nat -> nth (i + 1) xs [] = od (cp_f pb) (t + INR i * h) (nth i xs []) (nth i us []) h) /\
    nth n ls [] = cp_dphi pb (t + INR n * h) (nth n xs []) /\
    (forall i, (i < n)%nat -> nth i ls [] = od (cp_costate pb) (t + INR (i + 1) * h) (nth (i + 1) ls []) (nth i xs [] ++ nth i us []) (- h)) /\
    (forall i, (i < n)%nat -> nth i ds [] = cp_dhdu pb (t + INR i * h) (nth i xs []) (nth i us []) (nth (i + 1) ls [])).
  Proof.
    intros n. pose proof (forward_spec h us t x) as HF. destruct (forward pb od h t x us) as [xs tau]. destruct HF as (Lx & H0 & Ht & Hi).
    cbv zeta. set (lmd := cp_dphi pb tau (last xs [])).
    pose proof (backward_spec h (rev (combine (removelast xs) us)) tau lmd [lmd] [] eq_refl ltac:(discriminate)) as HB. cbv zeta in HB.
    rewrite rev_involutive in HB.
    assert (Lc : length (combine (removelast xs) us) = n) by (rewrite combine_length, removelast_len, Lx; unfold n; lia).
    rewrite rev_length, Lc in HB. destruct (backward pb od h tau lmd _ [lmd] []) as [ls ds]. destruct HB as (L1 & L2 & Sk & HB). cbn [length] in L1, L2.
    split; [rewrite Lx; fold n; lia|]. split; [exact H0|]. split; [intros i Hn; rewrite Nat.add_1_r; apply Hi; exact Hn|].
    assert (El : nth n ls [] = lmd).
    { rewrite <- (firstn_skipn n ls), Sk. rewrite app_nth2; rewrite firstn_length, L1; [|lia]. replace (n - Nat.min n (n + 1))%nat with 0%nat by lia. reflexivity. }
    split. { rewrite El. unfold lmd. rewrite Ht. f_equal. rewrite last_nth by (destruct xs; [discriminate Lx|discriminate]). f_equal. fold n in Lx. lia. }
    assert (Ec : forall i, (i < n)%nat -> nth i (combine (removelast xs) us) ([], []) = (nth i xs [], nth i us [])).
    { intros i Hn. change (list (list R)) with (list (vec R)). rewrite combine_nth by (etransitivity; [apply removelast_len|]; transitivity (S n - 1)%nat; [f_equal; exact Lx|change (S n - 1 = n)%nat; lia]). apply f_equal2; [|reflexivity]. apply removelast_nth. eapply Nat.lt_le_trans; [exact Hn|]. apply Nat.eq_le_incl. transitivity (S n - 1)%nat; [lia|f_equal; symmetry; exact Lx]. }
    split; intros i Hn; destruct (HB i Hn) as [E1 E2]; rewrite Ec in E1, E2 by exact Hn; cbn [fst snd] in E1, E2; rewrite Nat.add_1_r.
    - rewrite E1 at 1. f_equal. rewrite Ht. fold n. rewrite !minus_INR by lia. rewrite (S_INR i). change (INR 1) with 1. ring.
    - rewrite E2. f_equal. rewrite Ht. fold n. rewrite minus_INR by lia. ring.
  Qed.
End Sweeps.
