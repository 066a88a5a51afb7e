(** Property C79: FmpcSolver::solve in binary64 arithmetic always ends, how the line search chooses the step, what happens when the merit value
    is NaN, and the range of the barrier parameter. For every exp and log and every order of summation. *)
From Coq Require Import Reals Lra Psatz.
From Flocq Require Import Core BinarySingleNaN Mult_error.
From Verif Require Import Prelude Scalar LinAlg RLin DDP Fmpc FmpcProofs FmpcStep FmpcSpec FmpcSafe B64 FmpcF64 FmpcStep64 DDPTerm64 P_FmpcReal P_FmpcNewton ExDDP ExFmpc.
Local Open Scope R_scope.

Lemma half_pow k : 0 < (1 / 2) ^ k <= 1.
Proof. split; [apply pow_lt; lra|]. apply Rle_trans with (1 ^ k); [apply pow_incr; lra|rewrite pow1; lra]. Qed.

Section Run.
  Variables (ex lg : b64 -> b64) (sm : list b64 -> b64).
  Local Instance Nt : Num b64 := B64Num ex lg sm.

  (** 1e-10 as a double. *)
  Lemma short_val : fin (nlit (Num := Nt) 1 10000000000) /\ bpow radix2 (-34) < val (nlit (Num := Nt) 1 10000000000) < bpow radix2 (-33).
  Proof.
    assert (E : sf (nlit (Num := Nt) 1 10000000000) = SpecFloat.S754_finite false 7737125245533627 (-86)).
    { cbn [nlit Nt B64Num]. unfold b64_lit. rewrite !sf_div, !sf_ofZ. vm_compute. reflexivity. }
    unfold sf in E. split.
    - unfold fin. rewrite <- is_finite_SF_B2SF, E. reflexivity.
    - unfold val. rewrite <- SF2R_B2SF, E. cbn. unfold F2R. cbn. lra.
  Qed.
  (** Halving is exact down to the subnormal numbers. *)
  Lemma half_exact (x : b64) : fin x -> bpow radix2 (-1021) <= val x <= 1 ->
    fin (nmul (Num := Nt) x nhalf) /\ val (nmul (Num := Nt) x nhalf) = val x / 2.
  Proof.
    intros Fx Hx. destruct (nhalf_val ex lg sm) as [Vh Fh].
    change (nmul (Num := Nt) x nhalf) with (Bmult mode_NE x (nhalf (N := Nt))).
    assert (P : 0 < val x) by (pose proof (bpow_gt_0 radix2 (-1021)); lra).
    destruct (mul_ok x (nhalf (N := Nt)) Fx Fh) as [Fm Vm].
    { change (nhalf (N := Nt)) with (nhalf (N := Ns ex lg sm)). rewrite Vh, Rabs_pos_eq by lra. apply Rle_trans with (bpow radix2 0); [cbn; lra|apply bpow_le; lia]. }
    split; [exact Fm|]. rewrite Vm. change (nhalf (N := Nt)) with (nhalf (N := Ns ex lg sm)). rewrite Vh.
    change (val x / 2) with (val x * / 2). unfold fl. apply round_generic; [typeclasses eauto|]. rewrite fexp64_eq.
    replace (val x * / 2) with (val x * bpow radix2 (-1)) by (cbn; lra).
    apply mult_bpow_exact_FLT; [rewrite <- fexp64_eq; apply generic_format_B2R|].
    assert (M : (-1021 + 1 <= mag radix2 (val x))%Z).
    { apply mag_ge_bpow. rewrite Rabs_pos_eq by lra. replace (-1021 + 1 - 1)%Z with (-1021)%Z by lia. lra. }
    lia.
  Qed.
  (** After k halvings either the length was below 1e-10 before, or it is a / 2^k. *)
  Lemma halved_val k : forall a : b64, fin a -> 0 < val a <= 1 -> (forall j, (j < k)%nat -> too_short (N := Nt) (halved (N := Nt) a j) = false) ->
    fin (halved (N := Nt) a k) /\ val (halved (N := Nt) a k) = val a * (1 / 2) ^ k /\ (k <= 34)%nat.
  Proof.
    destruct short_val as [Fs Vs]. intros a Fa Ha Hs. induction k as [|k IH]; [cbn; split; [exact Fa|]; split; [lra|lia]|].
    destruct IH as (F & V & K); [intros; apply Hs; lia|].
    assert (E : forall k a, halved (N := Nt) a (S k) = nmul (Num := Nt) (halved (N := Nt) a k) nhalf).
    { clear. induction k as [|k IH]; intros a; [reflexivity|]. cbn [halved] in *. rewrite IH. reflexivity. }
    specialize (Hs k ltac:(lia)). unfold too_short in Hs. apply lt_false in Hs; [|exact F|exact Fs].
    assert (B : bpow radix2 (-34) < val a * (1 / 2) ^ k) by (rewrite <- V; lra).
    rewrite E. destruct (half_exact (halved (N := Nt) a k) F) as [F1 V1].
    { split; [|rewrite V]. - apply Rle_trans with (bpow radix2 (-34)); [apply bpow_le; lia|rewrite V; lra].
      - pose proof (half_pow k). apply Rle_trans with (1 * 1); [apply Rmult_le_compat; lra|lra]. }
    split; [exact F1|]. split; [rewrite V1, V; cbn [pow]; field|].
    destruct (Nat.eq_dec k 34) as [->|]; [exfalso|lia].
    assert ((1 / 2) ^ 34 = bpow radix2 (-34)) by (cbn; lra). nra.
  Qed.
  Lemma halved_short (a : b64) : fin a -> 0 < val a <= 1 -> exists k, (k <= 34)%nat /\ too_short (N := Nt) (halved (N := Nt) a k) = true.
  Proof.
    intros Fa Ha.
    assert (H : forall n, (exists k, (k < n)%nat /\ too_short (N := Nt) (halved (N := Nt) a k) = true) \/
                          forall k, (k < n)%nat -> too_short (N := Nt) (halved (N := Nt) a k) = false).
    { induction n as [|n [(k & Hk & E)|IH]]; [right; intros; lia|left; exists k; split; [lia|exact E]|].
      destruct (too_short (N := Nt) (halved (N := Nt) a n)) eqn:E; [left; exists n; split; [lia|exact E]|].
      right. intros k Hk. destruct (Nat.eq_dec k n) as [->|]; [exact E|apply IH; lia]. }
    destruct (H 35%nat) as [(k & Hk & E)|N]; [exists k; split; [lia|exact E]|].
    exfalso. destruct (halved_val 35 a Fa Ha N) as (_ & _ & K). lia.
  Qed.
  Lemma alpha_ok_val (a_s a_n : b64) : alpha_ok (N := Nt) a_s a_n = true -> (fin a_s /\ 0 < val a_s <= 1) /\ (fin a_n /\ 0 < val a_n <= 1).
  Proof.
    destruct (nofZ1_val ex lg sm) as [V1 F1]. unfold alpha_ok. rewrite !andb_true_iff. intros (((A1 & A2) & A3) & A4).
    assert (G : forall a : b64, nltb (Num := Nt) nzero a = true -> nleb (Num := Nt) a (nofZ 1) = true -> fin a /\ 0 < val a <= 1).
    { intros a P Q. change (Bltb (B754_zero false) a = true) in P. change (Bleb a (nofZ (N := Ns ex lg sm) 1) = true) in Q.
      assert (Fa : fin a).
      { destruct a as [s|s| |s m e B]; try reflexivity; [|discriminate]. destruct s; [discriminate|].
        revert Q F1 V1. destruct (nofZ (N := Ns ex lg sm) 1) as [?|?| |? ? ? ?]; discriminate. }
      split; [exact Fa|]. rewrite leb_fin in Q by assumption. rewrite V1 in Q. apply lt_true in P; [|reflexivity|exact Fa].
      change (val (B754_zero false)) with 0 in P. split; [exact P|]. destruct (Rle_bool_spec (val a) 1); [assumption|discriminate]. }
    auto.
  Qed.

  Section Update.
  Variables (pb : fproblem b64) (cf : fconfig b64).
  Lemma update_fuel64 fl st : (35 <= fl)%nat -> update_variables pb cf fl st <> OutOfFuel.
  Proof.
    intros Hf. pose proof (update_variables_case pb cf fl st) as H. unfold update_variables, bind at 1, get. unfold bind at 1.
    destruct (frac cf (v_s (f_var st)) (v_s (f_delta st))) as [a_s|] eqn:Es; [|discriminate].
    cbn [must ret]. unfold bind at 1.
    destruct (frac cf (v_n (f_var st)) (v_n (f_delta st))) as [a_n|] eqn:En; [|discriminate].
    cbn [must ret]. destruct (negb _) eqn:Ea; [discriminate|].
    apply negb_false_iff in Ea. destruct (alpha_ok_val a_s a_n Ea) as [[Fa Ha] _]. destruct (halved_short a_s Fa Ha) as (k & Hk & E).
    assert (L : forall st', ls_loop pb cf fl a_s st' <> OutOfFuel).
    { intros st'. apply (ls_loop_fuel pb cf k); [lia|exact E]. }
    unfold bind at 1. destruct (fc_ls cf).
    - unfold bind at 1. destruct (setup_merit_case pb cf st) as [->|(m1 & m2 & m3 & ->)]; [discriminate|].
      specialize (L (set_fmerit m1 m2 m3 st)).
      destruct (ls_loop pb cf fl a_s (set_fmerit m1 m2 m3 st)) as [a s1| | |]; try discriminate; [|congruence].
      unfold bind. destruct (step_var cf a a_n (f_var st) (f_delta st)); discriminate.
    - cbn [ret]. unfold bind. destruct (step_var cf a_s a_n (f_var st) (f_delta st)); discriminate.
  Qed.

  (** The step of one update in doubles. The limits a_max and a_n are in (0, 1] (anything else, NaN included, is refused before); without
      line search a_max is used; with it the first of a_max, a_max / 2, a_max / 4, ... (the halvings are exact) that is below 1e-10 or passes the
      test in computed values; at most 34 halvings. *)
  Theorem C79_step fl st st' : update_variables pb cf fl st = Ok true st' ->
    exists a_max a_s a_n,
      fin a_max /\ 0 < val a_max <= 1 /\ fin a_n /\ 0 < val a_n <= 1 /\ fin a_s /\ 0 < val a_s <= val a_max /\
      step_list (Nf cf + 1) a_s (v_x (f_var st)) (v_x (f_delta st)) = Some (v_x (f_var st')) /\
      step_list (Nf cf) a_s (v_u (f_var st)) (v_u (f_delta st)) = Some (v_u (f_var st')) /\
      step_list (Nf cf + 1) a_n (v_l (f_var st)) (v_l (f_delta st)) = Some (v_l (f_var st')) /\
      (fc_ls cf = false -> a_s = a_max) /\
      (fc_ls cf = true -> exists k, (k <= 34)%nat /\ val a_s = val a_max * (1 / 2) ^ k /\
         let phi a := candidate_merit pb cf (set_fvar (f_var st) st') a in
         let bound a := nadd (f_mfunc st') (nmul (nmul (nlit 1 1000) a) (f_mderiv st')) in
         (forall j, (j < k)%nat -> exists a m, val a = val a_max * (1 / 2) ^ j /\ fin a /\ nltb a (nlit 1 10000000000) = false /\
            phi a = Some m /\ nltb m (bound a) = false) /\
         (nltb a_s (nlit 1 10000000000) = true \/ exists m, phi a_s = Some m /\ nltb m (bound a_s) = true)).
  Proof.
    intros E. pose proof (update_variables_case pb cf fl st) as H. rewrite E in H.
    destruct H as [H|[H|(a_max & a_n & Fs & Fn & [[_ H]|(Ha & s2 & a & v & Hu & Hv & H)])]]; try discriminate.
    injection H as ->. destruct (alpha_ok_val _ _ Ha) as [[F1 V1] [F2 V2]].
    apply step_var_spec in Hv as (_ & S1 & S2 & S3 & _).
    assert (Q : (fin a /\ 0 < val a <= val a_max) /\ (fc_ls cf = false -> a = a_max) /\
      (fc_ls cf = true -> setup_merit pb cf st = Ok tt s2 /\ exists k, (k <= 34)%nat /\ a = halved a_max k /\ val a = val a_max * (1 / 2) ^ k /\
        (forall j, (j < k)%nat -> too_short (halved a_max j) = false /\ exists m, candidate_merit pb cf s2 (halved a_max j) = Some m /\ armijo s2 (halved a_max j) m = false) /\
        (too_short a = true \/ exists m, candidate_merit pb cf s2 a = Some m /\ armijo s2 a m = true))).
    { unfold alpha_used in Hu. destruct (fc_ls cf).
      - destruct Hu as [Hm Hl]. apply ls_loop_spec in Hl as (_ & k & -> & Hk & He).
        destruct (halved_val k a_max F1 V1) as (F3 & V3 & K); [intros j Hj; apply (Hk j Hj)|].
        pose proof (half_pow k).
        split; [split; [exact F3|rewrite V3; nra]|]. split; [discriminate|]. intros _. split; [exact Hm|].
        exists k. split; [exact K|]. split; [reflexivity|]. split; [exact V3|]. split; [exact Hk|exact He].
      - destruct Hu as [-> ->]. split; [split; [exact F1|lra]|]. split; [reflexivity|discriminate]. }
    destruct Q as ((F3 & V3) & Q1 & Q2). exists a_max, a, a_n. cbn [set_fvar f_var].
    do 9 (split; [assumption|]). split; [exact Q1|]. intros Hf. destruct (Q2 Hf) as (Hm & k & K & Ek & Vk & Hk & He).
    exists k. split; [exact K|]. split; [exact Vk|].
    assert (Es : forall b, candidate_merit pb cf (set_fvar (f_var st) (set_fvar v s2)) b = candidate_merit pb cf s2 b).
    { intros b. unfold setup_merit in Hm. revert Hm. match goal with |- match ?x with _ => _ end = _ -> _ => destruct x as [[[p d] sc]|]; [|discriminate] end.
      intros Hm. injection Hm as <-. reflexivity. }
    cbn zeta. split.
    - intros j Hj. destruct (Hk j Hj) as (Hs & m & Hc & Hr). destruct (halved_val j a_max F1 V1) as (F4 & V4 & _); [intros i Hi; apply Hk; lia|].
      exists (halved a_max j), m. rewrite Es. auto.
    - destruct He as [He|(m & Hc & Hr)]; [left; exact He|right]. exists m. rewrite Es. auto.
  Qed.

  (** A NaN in the merit function at the current point (or in its computed slope) is never noticed: every candidate fails the test and the step of states,
      inputs and slacks is the first of a_max, a_max / 2, ... below 1e-10, while the multipliers move by a_n. *)
  Theorem C79_nan fl st st' : fc_ls cf = true -> update_variables pb cf fl st = Ok true st' ->
    is_nan (f_mfunc st') = true \/ is_nan (f_mderiv st') = true ->
    exists a_s, fin a_s /\ 0 < val a_s < bpow radix2 (-33) /\
      step_list (Nf cf + 1) a_s (v_x (f_var st)) (v_x (f_delta st)) = Some (v_x (f_var st')) /\
      step_list (Nf cf) a_s (v_u (f_var st)) (v_u (f_delta st)) = Some (v_u (f_var st')).
  Proof.
    intros Hf E Hn. destruct (C79_step fl st st' E) as (a_max & a_s & a_n & F1 & V1 & F2 & V2 & F3 & V3 & S1 & S2 & S3 & _ & H).
    destruct (H Hf) as (k & _ & _ & _ & He). exists a_s. split; [exact F3|]. split; [|split; assumption]. split; [apply V3|].
    assert (N : forall a, nadd (Num := Nt) (f_mfunc st') (nmul (nmul (nlit 1 1000) a) (f_mderiv st')) = B754_nan).
    { intros a. cbn [nadd nmul Nt B64Num]. destruct Hn as [Hn|Hn].
      - destruct (f_mfunc st'); try discriminate. reflexivity.
      - destruct (f_mderiv st'); try discriminate. replace (Bmult mode_NE (Bmult mode_NE (nlit 1 1000) a) B754_nan) with (@B754_nan 53 1024).
        + destruct (f_mfunc st'); reflexivity.
        + destruct (Bmult mode_NE (nlit 1 1000) a); reflexivity. }
    destruct He as [He|(m & _ & Hr)].
    - destruct short_val as [Fs Vs]. cbn [nltb Nt B64Num] in He. apply lt_true in He; [|exact F3|exact Fs]. lra.
    - cbn zeta in Hr. rewrite N in Hr. destruct m; discriminate.
  Qed.
  End Update.

  (** solve ends, whatever the problem functions return, whatever the linear solver returns and whatever the fields of the object hold. *)
  Theorem C79_terminates LO (pb : fproblem b64) cf jk fuel t0 x0 v0 s : (35 <= fuel)%nat -> fmpc_solve LO pb cf jk fuel t0 x0 v0 s <> OutOfFuel.
  Proof. intros Hf. apply solve_fuel. intros st. apply update_fuel64. exact Hf. Qed.
  (** With C55: from arguments of the right shape, solve in doubles returns a status or throws; nothing else can happen. *)
  Theorem C79_total LO (pb : fproblem b64) cf jk fuel t0 x0 v0 s : (35 <= fuel)%nat ->
    well_dimensioned_f pb -> lin_dims LO -> junk_ok pb jk -> object_ok pb s ->
    length x0 = pb_nx (fp_dp pb) -> typed_var pb v0 ->
    (fc_init cf = true -> (Nf cf <= length (v_x v0) /\ Nf cf <= length (v_u v0) /\ Nf cf <= length (v_s v0) /\ Nf cf <= length (v_n v0))%nat) ->
    (fc_update_eps cf = true -> forall i, (i < Nf cf)%nat -> (0 < ng_of pb (ft pb t0 i))%nat) ->
    (fc_ls cf = true -> fc_lagr cf = true -> (0 < pb_nx (fp_dp pb) /\ forall i, i < Nf cf -> 0 < ng_of pb (ft pb t0 i))%nat) ->
    ((3 <= fc_print cf)%Z -> (1 <= fc_max_iter cf)%Z) ->
    exists s', object_ok pb s' /\ ((exists r, fmpc_solve LO pb cf jk fuel t0 x0 v0 s = Ok r s') \/ exists e, fmpc_solve LO pb cf jk fuel t0 x0 v0 s = Throw e s').
  Proof.
    intros Hf A1 A2 A3 A4 A5 A6 A7 A8 A9 A10. pose proof (C55_no_ub LO pb cf jk fuel t0 x0 v0 s A1 A2 A3 A4 A5 A6 A7 A8 A9 A10) as S.
    pose proof (C79_terminates LO pb cf jk fuel t0 x0 v0 s Hf) as F.
    destruct (fmpc_solve LO pb cf jk fuel t0 x0 v0 s) as [r s'|e s'| |]; try contradiction; exists s'; eauto.
  Qed.

  (** The barrier parameter after solve: in [1e-8, 1e6] (the bounds as doubles) or NaN. *)
  Definition barrier_ok (e : b64) : Prop := is_nan e = true \/ fin e /\ val (nlit (Num := Nt) 1 100000000) <= val e <= 1000000.
  Lemma eps_lo : fin (nlit (Num := Nt) 1 100000000) /\ 0 < val (nlit (Num := Nt) 1 100000000) <= 1 /\ Rabs (val (nlit (Num := Nt) 1 100000000) - / 100000000) <= bpow radix2 (-79).
  Proof.
    assert (E : sf (nlit (Num := Nt) 1 100000000) = SpecFloat.S754_finite false 6044629098073146 (-79)).
    { cbn [nlit Nt B64Num]. unfold b64_lit. rewrite !sf_div, !sf_ofZ. vm_compute. reflexivity. }
    unfold sf in E. split.
    - unfold fin. rewrite <- is_finite_SF_B2SF, E. reflexivity.
    - unfold val. rewrite <- SF2R_B2SF, E. cbn. unfold F2R. cbn. split; [lra|]. apply Rabs_le. lra.
  Qed.
  Lemma eps_hi : fin (nofZ (N := Nt) 1000000) /\ val (nofZ (N := Nt) 1000000) = 1000000.
  Proof.
    assert (E : sf (nofZ (N := Nt) 1000000) = SpecFloat.S754_finite false 8589934592000000 (-33)).
    { unfold nofZ. cbn [nlit Nt B64Num]. unfold b64_lit. rewrite !sf_div, !sf_ofZ. vm_compute. reflexivity. }
    unfold sf in E. split.
    - unfold fin. rewrite <- is_finite_SF_B2SF, E. reflexivity.
    - unfold val. rewrite <- SF2R_B2SF, E. cbn. unfold F2R. cbn. lra.
  Qed.
  Lemma clamp_ok (x : b64) : barrier_ok (nclamp (N := Nt) x (nlit 1 100000000) (nofZ 1000000)).
  Proof.
    destruct eps_lo as (F1 & V1 & _). destruct eps_hi as (F2 & V2). unfold nclamp, barrier_ok. cbn [nltb Nt B64Num].
    change (nlit (Num := B64Num ex lg sm) 1 100000000) with (nlit (Num := Nt) 1 100000000).
    set (lo := nlit (Num := Nt) 1 100000000) in *. set (hi := nofZ (N := Nt) 1000000) in *.
    destruct (Bltb x lo) eqn:E1; [right; split; [exact F1|lra]|]. destruct (Bltb hi x) eqn:E2; [right; split; [exact F2|lra]|].
    destruct x as [s|s| |s m e B] eqn:Ex; [| |left; reflexivity|].
    - rewrite <- Ex in *. assert (Fx : fin x) by (rewrite Ex; reflexivity). right. split; [exact Fx|]. apply lt_false in E1; auto. apply lt_false in E2; auto. lra.
    - exfalso. clearbody lo hi. clear - E1 E2 F1 F2. destruct s; [destruct lo as [?|?| |? ? ? ?]|destruct hi as [?|?| |? ? ? ?]]; try discriminate.
    - rewrite <- Ex in *. assert (Fx : fin x) by (rewrite Ex; reflexivity). right. split; [exact Fx|]. apply lt_false in E1; auto. apply lt_false in E2; auto. lra.
  Qed.
  Theorem C79_barrier LO (pb : fproblem b64) cf jk fuel t0 x0 v0 s r s' : fmpc_solve LO pb cf jk fuel t0 x0 v0 s = Ok r s' ->
    fc_update_eps cf = true -> (1 <= fc_max_iter cf)%Z -> barrier_ok (f_eps s').
  Proof.
    intros H Hf Hm. apply (solve_eps LO pb cf jk barrier_ok) in H; auto.
    intros s1 sum dim _. apply clamp_ok.
  Qed.
  (** The scale of the penalty is 0/0 = NaN when the point satisfies all constraints exactly and the objective has slope zero along the step, and infinite
      when it satisfies them exactly and the slope is positive; std::max does not remove the NaN. *)
  Theorem C79_scale cf (v : var b64) (d c : b64) : fc_lagr cf = false -> val c = 0 -> fin c -> Bsign c = false ->
    (fin d /\ val d = 0 -> exists m, merit_scale cf v d c = Some m /\ is_nan m = true) /\
    (fin d /\ 0 < val d -> merit_scale cf v d c = Some (inf64 false)).
  Proof.
    intros Hl Hc Fc Sc. unfold merit_scale. rewrite Hl. cbn [nsub nmul ndiv Nt B64Num].
    assert (Z : forall x : b64, fin x -> val x = 0 -> exists s, x = B754_zero s).
    { intros x Fx Vx. destruct x as [s|s| |s m e B]; try discriminate; [eauto|exfalso].
      unfold val in Vx. cbn in Vx. apply eq_0_F2R in Vx. cbn in Vx. destruct s; discriminate. }
    destruct (Z c Fc Hc) as (sc & ->). cbn in Sc. subst sc.
    assert (E : Bmult mode_NE (Bminus mode_NE (nofZ (N := Nt) 1) (nhalf (N := Nt))) (B754_zero false) = B754_zero false).
    { assert (E : sf (Bminus mode_NE (nofZ (N := Nt) 1) (nhalf (N := Nt))) = SpecFloat.S754_finite false 4503599627370496 (-53)).
      { rewrite sf_sub. unfold nofZ, nhalf. cbn [nlit Nt B64Num]. unfold b64_lit. rewrite !sf_div, !sf_ofZ. vm_compute. reflexivity. }
      unfold sf in E. destruct (Bminus mode_NE _ _); cbn in E; try discriminate. injection E as -> _ _. reflexivity. }
    rewrite E. split.
    - intros [Fd Vd]. destruct (Z d Fd Vd) as (sd & ->). eexists. split; [reflexivity|]. reflexivity.
    - intros [Fd Vd]. assert (Sd := pos_sign d Vd). unfold val in Vd. destruct d as [sd|sd| |sd m e B]; try discriminate; cbn in Vd; [lra|].
      cbn in Sd. subst sd. cbn [Bdiv]. unfold nmax. cbn [nltb Nt B64Num]. rewrite inf_lt. reflexivity.
  Qed.
End Run.

(** ** Concrete cases: the number type with log = 0 (right at slack 1) and sums from left to right *)
Definition zero_fun (x : b64) : b64 := B754_zero false.
Local Instance N1 : Num b64 := B64Num zero_fun zero_fun seq_sum.
Definition z0 : b64 := B754_zero false.
Definition tst (x dx ds : b64) : fsolver b64 := {|
  f_t := z0; f_x := [x]; f_var := ex_fvar 1 x z0 z0 none none; f_delta := ex_fvar 1 dx z0 z0 ds none; f_coeff := [ex_fcoeff x; ex_fcoeff x];
  f_trace := []; f_eps := nlit 1 10000; f_mscale := z0; f_mfunc := z0; f_mderiv := z0 |}.
Notation tup x dx ds := (update_variables ex_fp (ex_fcf 1 20 false false true) 35 (tst x dx ds)).
Definition test (p : list (list f64) -> fsolver b64 -> bool) (o : outcome (fsolver b64) bool) : bool :=
  match o with Ok true s => p (map (map sf) (v_x (f_var s))) s | _ => false end.
Lemma test_inv p o : test p o = true -> exists s, o = Ok true s /\ p (map (map sf) (v_x (f_var s))) s = true.
Proof. destruct o as [b s| | |]; try discriminate. destruct b; [|discriminate]. eauto. Qed.
Definition is0 (x : f64) : bool := match x with SpecFloat.S754_zero _ => true | _ => false end.
(** From x = 8 along -64: lengths 1, 1/2 and 1/4 are refused, 1/8 leads to x = 0. *)
Example C79_step_nonvacuous : exists st', tup (b64_ofZ 8) (b64_ofZ (-64)) z0 = Ok true st' /\ forallb (forallb is0) (map (map sf) (v_x (f_var st'))) = true.
Proof.
  assert (H : test (fun l _ => forallb (forallb is0) l) (tup (b64_ofZ 8) (b64_ofZ (-64)) z0) = true) by (vm_compute; reflexivity).
  apply test_inv in H as (st' & E & H). eauto.
Qed.
(** At x = 0, u = 0, s = 1 all constraints hold exactly. With slope zero (first case: NaN scale) and with positive slope (second case: infinite scale) the
    merit value is NaN. *)
Example C79_nan_nonvacuous :
  (exists st', tup z0 (b64_ofZ 1) z0 = Ok true st' /\ is_nan (f_mscale st') = true /\ is_nan (f_mfunc st') = true) /\
  (exists st', tup z0 (b64_ofZ 1) (b64_ofZ (-1)) = Ok true st' /\ is_finite (f_mscale st') = false /\ is_nan (f_mfunc st') = true).
Proof.
  split.
  - assert (H : test (fun _ s => is_nan (f_mscale s) && is_nan (f_mfunc s)) (tup z0 (b64_ofZ 1) z0) = true) by (vm_compute; reflexivity).
    apply test_inv in H as (st' & E & H). apply andb_true_iff in H. exists st'. tauto.
  - assert (H : test (fun _ s => negb (is_finite (f_mscale s)) && is_nan (f_mfunc s)) (tup z0 (b64_ofZ 1) (b64_ofZ (-1))) = true) by (vm_compute; reflexivity).
    apply test_inv in H as (st' & E & H). apply andb_true_iff in H as [H1 H2]. apply negb_true_iff in H1. exists st'. auto.
Qed.
(** A whole run, and one from an infinite slack with multiplier zero, which is accepted and leaves a NaN in the barrier parameter. *)
Notation trun s n := (fmpc_solve div_lin ex_fp (ex_fcf 2 20 false true true) (ex_fjunk z0) 35 z0 [b64_ofZ 5] (ex_fvar 2 z0 z0 z0 s n) ex_fs0).
Definition status_eps (o : outcome (fsolver b64) fstatus) : option (fstatus * f64) := match o with Ok r s => Some (r, sf (f_eps s)) | _ => None end.
Example C79_barrier_nonvacuous :
  status_eps (trun none none) = Some (Succeeded, SpecFloat.S754_finite false 6044629098073146 (-79)) /\
  status_eps (trun (inf64 false) z0) = Some (ErrorInBackward, SpecFloat.S754_nan).
Proof. split; vm_compute; reflexivity. Qed.
(** Every horizon from 1, an initial state that is NaN and a linear solver that returns its right-hand side: all hypotheses of C79_total hold. *)
Definition no_lin : linops b64 := {| ld_ok := fun _ => true; ld_vec := fun _ b => b; ld_mat := fun _ B => B; lu_vec := fun _ b => b; lu_mat := fun _ B => B |}.
Lemma ex_typed64 n (x u l s w : b64) : typed_var ex_fp_dyn (ex_fvar n x u l s w).
Proof.
  assert (Q : forall (a : b64) m (y : vec b64), In y (map (fun r : vec b64 => vconst (length r) a) (repeat [z0] m)) -> length y = 1%nat).
  { intros a m y H. apply in_map_iff in H as (z & <- & Hz). apply repeat_spec in Hz as ->. reflexivity. }
  constructor; cbn [ex_fvar var_reset var_ctor v_x v_u v_l v_s v_n]; try discriminate; intros y; apply Q.
Qed.
Example C79_total_nonvacuous n : (1 <= n)%nat ->
  exists s', object_ok ex_fp_dyn s' /\
    ((exists r, fmpc_solve no_lin ex_fp_dyn (ex_fcf (Z.of_nat n) 10 true true true) (sized_junk z0 1 1 1) 35 z0 [B754_nan] (ex_fvar n z0 z0 z0 none none) ex_fs0 = Ok r s') \/
     exists e, fmpc_solve no_lin ex_fp_dyn (ex_fcf (Z.of_nat n) 10 true true true) (sized_junk z0 1 1 1) 35 z0 [B754_nan] (ex_fvar n z0 z0 z0 none none) ex_fs0 = Throw e s').
Proof.
  intros Hn. apply (C79_total zero_fun zero_fun seq_sum no_lin ex_fp_dyn (ex_fcf (Z.of_nat n) 10 true true true) (sized_junk z0 1 1 1) 35 z0 [B754_nan] (ex_fvar n z0 z0 z0 none none) ex_fs0).
  - lia.
  - apply ex_well.
  - intros m G HG. split; [intros b Lb; auto|intros k B HB; auto].
  - apply ex_junk_ok.
  - split; [|intros nu ng E; discriminate]. cbn. repeat split; lia.
  - reflexivity.
  - apply ex_typed64.
  - intros _. unfold Nf. cbn. rewrite !map_length, !repeat_length. lia.
  - intros _ i _. cbn. lia.
  - intros _ E. discriminate.
  - cbn. lia.
Qed.

Print Assumptions C79_terminates.
Print Assumptions C79_total.
Print Assumptions C79_step.
Print Assumptions C79_nan.
Print Assumptions C79_barrier.
Print Assumptions C79_scale.
