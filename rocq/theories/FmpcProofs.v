(** Facts about the FMPC model that hold for every scalar type: loops, one iteration, the whole run. *)
From Verif Require Import Prelude Scalar LinAlg DDP Fmpc.

(** ** Loops of independent passes *)
Lemma tabo_length {A} n (f : nat -> option A) l : tabo n f = Some l -> length l = n.
Proof.
  revert l; induction n as [|n IH]; cbn; intros l H; [injection H as <-; reflexivity|].
  destruct (tabo n f); [|discriminate]. destruct (f n); [|discriminate]. injection H as <-.
  rewrite app_length; cbn. rewrite (IH _ eq_refl). lia.
Qed.
Lemma tabo_nth {A} n (f : nat -> option A) l i : tabo n f = Some l -> i < n -> nth_error l i = f i /\ f i <> None.
Proof.
  revert l; induction n as [|n IH]; cbn; intros l H Hi; [lia|].
  destruct (tabo n f) as [l0|] eqn:E; [|discriminate]. destruct (f n) as [a|] eqn:F; [|discriminate]. injection H as <-.
  pose proof (tabo_length _ _ _ E) as L.
  destruct (Nat.eq_dec i n) as [->|Hne].
  - rewrite nth_error_app2 by lia. rewrite L, Nat.sub_diag; cbn. rewrite F; split; [reflexivity|discriminate].
  - rewrite nth_error_app1 by lia. apply IH; [reflexivity|lia].
Qed.
Lemma tabo_some {A} n (f : nat -> option A) : (forall i, i < n -> f i <> None) -> exists l, tabo n f = Some l.
Proof.
  induction n as [|n IH]; intros H; cbn; [eauto|].
  destruct IH as [l ->]; [intros; apply H; lia|].
  destruct (f n) eqn:F; [eauto|]. exfalso; apply (H n); auto.
Qed.
Lemma tabo_none {A} n (f : nat -> option A) i : i < n -> f i = None -> tabo n f = None.
Proof.
  intros Hi F. destruct (tabo n f) as [l|] eqn:E; [|reflexivity].
  destruct (tabo_nth _ _ _ _ E Hi) as [_ H]. contradiction.
Qed.
Lemma tabo_ext {A} n (f g : nat -> option A) : (forall i, i < n -> f i = g i) -> tabo n f = tabo n g.
Proof. induction n as [|n IH]; intros H; cbn; [reflexivity|]. rewrite IH by (intros; apply H; lia). rewrite H by lia. reflexivity. Qed.

Lemma overwrite_same {A} (new old : list A) : length new = length old -> overwrite new old = new.
Proof. intros H. unfold overwrite. rewrite H, skipn_all, app_nil_r. reflexivity. Qed.
Lemma overwrite_length {A} (new old : list A) : length new <= length old -> length (overwrite new old) = length old.
Proof. intros H. unfold overwrite. rewrite app_length, skipn_length. lia. Qed.
Lemma overwrite_nth {A} (new old : list A) i : i < length new -> nth_error (overwrite new old) i = nth_error new i.
Proof. intros H. unfold overwrite. apply nth_error_app1; exact H. Qed.

(** Destructs one layer of a computation known to be defined. *)
Ltac opt1 H :=
  match type of H with
  | (match ?o with Some _ => _ | None => None end) = Some _ =>
    let E := fresh "E" in destruct o eqn:E; [|discriminate H]
  | (if ?b then _ else None) = Some _ => let E := fresh "B" in destruct b eqn:E; [|discriminate H]
  | (let '(_, _) := ?p in _) = Some _ => let E := fresh "P" in destruct p eqn:E
  | (match ?p with (_, _) => _ end) = Some _ => let E := fresh "P" in destruct p eqn:E
  | Some _ = Some _ => injection H as H
  end.

Section Run.
  Context {T : Type} {N : Num T}.
  Variables (LO : linops T) (pb : fproblem T) (cf : fconfig T) (jk : fjunk T).
  Notation Nf := (Nf cf).

  Definition with_eps e (s : fsolver T) := set_feps e s.
  (** The members after Step 1 and the KKT check of an iteration. *)
  Definition checked (s : fsolver T) (it : Z) (eps : T) (cl : list (coeff T)) (e : T) : fsolver T :=
    {| f_t := f_t s; f_x := f_x s; f_var := f_var s; f_delta := f_delta s; f_coeff := cl; f_trace := f_trace s ++ [(it, e)];
       f_eps := eps; f_mscale := f_mscale s; f_mfunc := f_mfunc s; f_mderiv := f_mderiv s |}.
  Definition new_eps (s : fsolver T) (eps : T) : Prop :=
    if fc_update_eps cf
    then exists sum dim, eps_sum (v_s (f_var s)) (v_n (f_var s)) Nf nzero 0 = Some (sum, dim) /\ eps = eps_of sum dim
    else eps = f_eps s.

  (** The rest of an iteration. *)
  Definition rest (fuel : nat) : M (fsolver T) fstatus :=
    (b <- backward_pass LO pb cf ;;
     if negb b then ret ErrorInBackward else
     b <- forward_pass pb cf ;;
     if negb b then ret ErrorInForward else
     b <- update_variables pb cf fuel ;;
     if negb b then ret ErrorInUpdate else
     ret IterationContinued)%monad.

  Lemma kkt_error_state eps s1 s2 : f_var s1 = f_var s2 -> f_x s1 = f_x s2 -> f_coeff s1 = f_coeff s2 ->
    kkt_error cf eps s1 = kkt_error cf eps s2.
  Proof. intros E1 E2 E3. unfold kkt_error. rewrite E1, E2, E3. reflexivity. Qed.

  Definition proc_case (fuel : nat) (it : Z) (s : fsolver T) (o : outcome (fsolver T) fstatus) : Prop :=
    (o = UB) \/
    exists eps cl e, new_eps s eps /\ coeffs pb cf (f_t s) (f_var s) (f_coeff s) = Some cl /\
      kkt_error cf nzero (checked s it eps cl e) = Some e /\
      o = (if nleb e (fc_kkt cf) then Ok Succeeded (checked s it eps cl e) else rest fuel (checked s it eps cl e)).
  Lemma proc_once_case fuel it s : proc_case fuel it s (proc_once LO pb cf fuel it s).
  Proof.
    unfold proc_once, bind at 1, modify.
    set (s0 := set_ftrace (f_trace s ++ [(it, nzero)]) s).
    unfold bind at 1.
    assert (H : (exists eps, new_eps s eps /\
       (if fc_update_eps cf then (st <- get;; '(sum, dim) <- must (eps_sum (v_s (f_var st)) (v_n (f_var st)) Nf nzero 0);;
          put (set_feps (eps_of sum dim) st))%monad else ret tt) s0 = Ok tt (set_feps eps s0)) \/
       (if fc_update_eps cf then (st <- get;; '(sum, dim) <- must (eps_sum (v_s (f_var st)) (v_n (f_var st)) Nf nzero 0);;
          put (set_feps (eps_of sum dim) st))%monad else ret tt) s0 = UB).
    { unfold new_eps. destruct (fc_update_eps cf).
      - unfold bind, get. cbn [s0 set_ftrace f_var]. destruct (eps_sum _ _ _ _ _) as [[sum dim]|] eqn:E; cbn.
        + left. exists (eps_of sum dim). split; [eauto|reflexivity].
        + right; reflexivity.
      - left. exists (f_eps s). split; [reflexivity|]. unfold ret. destruct s; reflexivity. }
    destruct H as [(eps & He & ->)| ->]; [|left; reflexivity].
    unfold bind at 1, get at 1. unfold bind at 1.
    change (f_t (set_feps eps s0)) with (f_t s). change (f_var (set_feps eps s0)) with (f_var s).
    change (f_coeff (set_feps eps s0)) with (f_coeff s).
    destruct (coeffs pb cf (f_t s) (f_var s) (f_coeff s)) as [cl|] eqn:Ec; [|left; reflexivity].
    cbn [must ret]. unfold bind at 1, put. unfold bind at 1, get at 1. unfold bind at 1.
    set (s1 := set_fcoeff cl (set_feps eps s0)).
    destruct (kkt_error cf nzero s1) as [e|] eqn:Ek; [|left; reflexivity].
    right. exists eps, cl, e. split; [exact He|]. split; [exact Ec|]. split.
    { rewrite <- Ek. apply kkt_error_state; reflexivity. }
    cbn [must ret]. unfold bind at 1.
    assert (Es : set_ftrace (upd_last (fun p => (fst p, e)) (f_trace s1)) s1 = checked s it eps cl e).
    { unfold checked, s1, s0, set_ftrace, set_fcoeff, set_feps. cbn [f_t f_x f_var f_delta f_coeff f_trace f_eps f_mscale f_mfunc f_mderiv].
      rewrite upd_last_app. reflexivity. }
    rewrite Es. destruct (nleb e (fc_kkt cf)); reflexivity.
  Qed.

  (** What the passes leave alone. *)
  Definition same_run (s s' : fsolver T) : Prop := f_t s' = f_t s /\ f_x s' = f_x s /\ f_trace s' = f_trace s /\ f_eps s' = f_eps s.
  Lemma same_refl s : same_run s s. Proof. repeat split. Qed.
  Lemma same_trans s1 s2 s3 : same_run s1 s2 -> same_run s2 s3 -> same_run s1 s3.
  Proof. intros (A1 & A2 & A3 & A4) (B1 & B2 & B3 & B4). repeat split; congruence. Qed.

  Lemma backward_case s : backward_pass LO pb cf s = UB \/
    exists c b cl, nth_error (f_coeff s) Nf = Some c /\
      bw_coeffs LO pb cf (f_eps s) (f_coeff s) (v_s (f_var s)) (v_n (f_var s)) Nf (c_s (bw_end c)) (c_P (bw_end c))
        (overwrite [bw_end c] (skipn Nf (f_coeff s))) = Some (b, cl) /\
      backward_pass LO pb cf s = Ok (b && negb (fc_check_nan cf && existsb coeff_nan cl)) (set_fcoeff cl s).
  Proof.
    unfold backward_pass. destruct (nth_error (f_coeff s) Nf) as [c|] eqn:E; [|auto].
    destruct (bw_coeffs _ _ _ _ _ _ _ _ _ _ _) as [[b cl]|] eqn:F; [|auto]. right. exists c, b, cl. auto.
  Qed.
  Lemma forward_case s : forward_pass pb cf s = UB \/
    exists d, delta_of pb cf s = Some d /\ forward_pass pb cf s = Ok (negb (fc_check_nan cf && var_nan d)) (set_fdelta d s).
  Proof. unfold forward_pass. destruct (delta_of pb cf s) as [d|]; [right; eauto|auto]. Qed.
  Lemma setup_merit_case s : setup_merit pb cf s = UB \/
    exists a b c, setup_merit pb cf s = Ok tt (set_fmerit a b c s).
  Proof. unfold setup_merit. match goal with |- context[match ?x with _ => _ end] => destruct x as [[[p d] sc]|] end; eauto. Qed.
  Lemma ls_loop_state fuel a s : (exists a', ls_loop pb cf fuel a s = Ok a' s) \/ ls_loop pb cf fuel a s = UB \/ ls_loop pb cf fuel a s = OutOfFuel.
  Proof.
    revert a; induction fuel as [|fuel IH]; intros a; cbn; [auto|].
    destruct (nltb a _); [eauto|].
    match goal with |- context[match ?x with _ => _ end] => destruct x as [m|]; [|auto] end.
    destruct (nltb m _); [eauto|apply IH].
  Qed.

  (** The fraction-to-boundary test. *)
  Definition alpha_ok (a_s a_n : T) : bool :=
    nltb nzero a_s && nleb a_s (nofZ 1) && nltb nzero a_n && nleb a_n (nofZ 1).
  (** The primal step length after the line search. *)
  Definition alpha_used (fuel : nat) (s s2 : fsolver T) (a_max a : T) : Prop :=
    if fc_ls cf
    then setup_merit pb cf s = Ok tt s2 /\ ls_loop pb cf fuel a_max s2 = Ok a s2
    else s2 = s /\ a = a_max.
  Definition update_case (fuel : nat) (s : fsolver T) (o : outcome (fsolver T) bool) : Prop :=
    o = UB \/ o = OutOfFuel \/
    exists a_s a_n, frac cf (v_s (f_var s)) (v_s (f_delta s)) = Some a_s /\ frac cf (v_n (f_var s)) (v_n (f_delta s)) = Some a_n /\
      ((alpha_ok a_s a_n = false /\ o = Ok false s) \/
       (alpha_ok a_s a_n = true /\ exists s2 a v, alpha_used fuel s s2 a_s a /\ step_var cf a a_n (f_var s) (f_delta s) = Some v /\
          o = Ok true (set_fvar v s2))).
  Lemma update_variables_case fuel s : update_case fuel s (update_variables pb cf fuel s).
  Proof.
    unfold update_variables, bind at 1, get. unfold bind at 1.
    destruct (frac cf (v_s (f_var s)) (v_s (f_delta s))) as [a_s|] eqn:Es; [|left; reflexivity].
    cbn [must ret]. unfold bind at 1.
    destruct (frac cf (v_n (f_var s)) (v_n (f_delta s))) as [a_n|] eqn:En; [|left; reflexivity].
    cbn [must ret].
    destruct (alpha_ok a_s a_n) eqn:Ea; unfold alpha_ok in Ea; rewrite Ea; cbn [negb].
    2:{ right; right. exists a_s, a_n. split; [exact Es|]. split; [exact En|]. left. split; [exact Ea|reflexivity]. }
    unfold bind at 1.
    assert (H : (exists s2 a, alpha_used fuel s s2 a_s a /\
       (if fc_ls cf then (setup_merit pb cf;;; ls_loop pb cf fuel a_s)%monad else ret a_s) s = Ok a s2) \/
       (if fc_ls cf then (setup_merit pb cf;;; ls_loop pb cf fuel a_s)%monad else ret a_s) s = UB \/
       (if fc_ls cf then (setup_merit pb cf;;; ls_loop pb cf fuel a_s)%monad else ret a_s) s = OutOfFuel).
    { unfold alpha_used. destruct (fc_ls cf).
      - unfold bind. destruct (setup_merit_case s) as [->|(m1 & m2 & m3 & ->)]; [auto|].
        destruct (ls_loop_state fuel a_s (set_fmerit m1 m2 m3 s)) as [(a' & E)|[E|E]]; rewrite E; auto.
        left. exists (set_fmerit m1 m2 m3 s), a'. auto.
      - left. exists s, a_s. auto. }
    destruct H as [(s2 & a & Hu & ->)|[->| ->]]; [|left; reflexivity|right; left; reflexivity].
    unfold bind at 1.
    destruct (step_var cf a a_n (f_var s) (f_delta s)) as [v|] eqn:Ev; [|left; reflexivity].
    right; right. exists a_s, a_n. split; [exact Es|]. split; [exact En|]. right. split; [exact Ea|].
    exists s2, a, v. split; [exact Hu|]. split; [exact Ev|reflexivity].
  Qed.
  Lemma alpha_used_state fuel s s2 a_max a : alpha_used fuel s s2 a_max a ->
    same_run s s2 /\ f_var s2 = f_var s /\ f_delta s2 = f_delta s /\ f_coeff s2 = f_coeff s.
  Proof.
    unfold alpha_used. destruct (fc_ls cf).
    - intros [H _]. destruct (setup_merit_case s) as [E|(m1 & m2 & m3 & E)]; rewrite E in H; [discriminate|].
      injection H as <-. repeat split.
    - intros [-> _]. repeat split.
  Qed.

  (** The rest of an iteration, by result. [cb] and [d]: what the passes stored. *)
  Definition rest_case (fuel : nat) (s : fsolver T) (o : outcome (fsolver T) fstatus) : Prop :=
    o = UB \/ o = OutOfFuel \/
    exists b cl, backward_pass LO pb cf s = Ok b (set_fcoeff cl s) /\
      ((b = false /\ o = Ok ErrorInBackward (set_fcoeff cl s)) \/
       b = true /\ exists d, delta_of pb cf (set_fcoeff cl s) = Some d /\
         ((fc_check_nan cf && var_nan d = true /\ o = Ok ErrorInForward (set_fdelta d (set_fcoeff cl s))) \/
          (fc_check_nan cf && var_nan d = false /\ exists b2 s2,
             update_variables pb cf fuel (set_fdelta d (set_fcoeff cl s)) = Ok b2 s2 /\
             o = Ok (if b2 then IterationContinued else ErrorInUpdate) s2))).
  Lemma rest_cases fuel s : rest_case fuel s (rest fuel s).
  Proof.
    unfold rest, bind at 1.
    destruct (backward_case s) as [->|(c & b & cl & _ & _ & E0)]; [left; reflexivity|]. rewrite E0.
    destruct (b && negb (fc_check_nan cf && existsb coeff_nan cl)) eqn:Eb; cbn [negb].
    2:{ right; right. exists false, cl. auto. }
    unfold bind at 1.
    destruct (forward_case (set_fcoeff cl s)) as [->|(d & Ed & ->)]; [left; reflexivity|].
    destruct (fc_check_nan cf && var_nan d) eqn:En; cbn [negb].
    { right; right. exists true, cl. split; [exact E0|]. right. split; [reflexivity|]. exists d. split; [exact Ed|]. left; auto. }
    unfold bind at 1.
    destruct (update_variables pb cf fuel (set_fdelta d (set_fcoeff cl s))) as [b2 s2|e s2| |] eqn:Eu.
    - right; right. exists true, cl. split; [exact E0|]. right. split; [reflexivity|]. exists d. split; [exact Ed|]. right.
      split; [exact En|]. exists b2, s2. split; [exact Eu|]. destruct b2; reflexivity.
    - exfalso. pose proof (update_variables_case fuel (set_fdelta d (set_fcoeff cl s))) as H. rewrite Eu in H.
      destruct H as [H|[H|(a_s & a_n & _ & _ & [[_ H]|(_ & s3 & a & v & _ & _ & H)])]]; discriminate.
    - left; reflexivity.
    - right; left; reflexivity.
  Qed.

  (** What one iteration did, by status. *)
  Definition iter_post (it : Z) (s : fsolver T) (r : fstatus) (s' : fsolver T) : Prop :=
    exists e, f_trace s' = f_trace s ++ [(it, e)] /\ f_t s' = f_t s /\ f_x s' = f_x s /\
      (r = Succeeded <-> nleb e (fc_kkt cf) = true) /\
      r <> Uninitialized /\ r <> MaxIterationReached /\
      (r <> IterationContinued -> f_var s' = f_var s).
  Lemma proc_once_post fuel it s r s' : proc_once LO pb cf fuel it s = Ok r s' -> iter_post it s r s'.
  Proof.
    intros E. destruct (proc_once_case fuel it s) as [H|(eps & cl & e & He & Hc & Hk & H)]; rewrite E in H; [discriminate|].
    exists e. destruct (nleb e (fc_kkt cf)) eqn:Ek.
    - injection H as -> ->. cbn. repeat split; auto; discriminate.
    - symmetry in H. pose proof (rest_cases fuel (checked s it eps cl e)) as Hr. rewrite H in Hr.
      destruct Hr as [Hr|[Hr|(b & cl' & Hb & Hr)]]; try discriminate.
      assert (HS : (r = Succeeded <-> false = true) <-> r <> Succeeded) by (split; [intros X Y; apply X in Y; discriminate|intros X; split; [intros Y; contradiction|discriminate]]).
      rewrite HS.
      destruct Hr as [[_ Hr]|(_ & d & Hd & [[_ Hr]|(_ & b2 & s2 & Hu & Hr)])].
      + injection Hr as -> ->. cbn. repeat split; auto; discriminate.
      + injection Hr as -> ->. cbn. repeat split; auto; discriminate.
      + injection Hr as -> ->.
        pose proof (update_variables_case fuel (set_fdelta d (set_fcoeff cl' (checked s it eps cl e)))) as Hc'. rewrite Hu in Hc'.
        destruct Hc' as [Hc'|[Hc'|(a_s & a_n & _ & _ & [[_ Hc']|(_ & s3 & a & v & Ha & _ & Hc')])]]; try discriminate.
        * injection Hc' as -> ->. cbn. repeat split; auto; discriminate.
        * injection Hc' as -> ->. apply alpha_used_state in Ha as ((A1 & A2 & A3 & _) & _).
          cbn [set_fvar f_trace f_t f_x f_var]. rewrite A1, A2, A3. cbn.
          repeat split; auto; try discriminate. intros X; contradiction.
  Qed.
  Lemma proc_once_nothrow fuel it s e s' : proc_once LO pb cf fuel it s <> Throw e s'.
  Proof.
    intros E. destruct (proc_once_case fuel it s) as [H|(eps & cl & e' & He & Hc & Hk & H)]; rewrite E in H; [discriminate|].
    destruct (nleb e' (fc_kkt cf)); [discriminate|]. symmetry in H.
    pose proof (rest_cases fuel (checked s it eps cl e')) as Hr. rewrite H in Hr.
    destruct Hr as [Hr|[Hr|(b & cl' & Hb & [[_ Hr]|(_ & d & Hd & [[_ Hr]|(_ & b2 & s2 & Hu & Hr)])])]]; discriminate.
  Qed.

  (** The loop. *)
  Definition loop_post (n : nat) (it : Z) (st : fstatus) (s : fsolver T) (r : fstatus) (s' : fsolver T) : Prop :=
    exists es, f_trace s' = f_trace s ++ es /\ f_t s' = f_t s /\ f_x s' = f_x s /\
      length es <= n /\ (forall i e, nth_error es i = Some e -> fst e = (it + Z.of_nat i)%Z) /\
      (r = IterationContinued \/ (r = st /\ n = 0) -> length es = n) /\
      (r <> IterationContinued -> n <> 0 -> es <> []) /\
      (forall i e, nth_error es i = Some e -> nleb (snd e) (fc_kkt cf) = true <-> (r = Succeeded /\ i + 1 = length es)) /\
      (n <> 0 -> r <> Uninitialized /\ r <> MaxIterationReached) /\
      (n = 0 -> r = st /\ s' = s).
  Lemma fopt_loop_post fuel n : forall it st s r s', 
    fopt_loop LO pb cf fuel n it st s = Ok r s' -> loop_post n it st s r s'.
  Proof.
    induction n as [|n IH]; intros it st s r s' E; cbn [fopt_loop] in E.
    - injection E as -> ->. exists []. rewrite app_nil_r. repeat split; auto; try (intros i e H; destruct i; discriminate); try lia.
      all: try (destruct i; discriminate).
    - unfold bind in E. destruct (proc_once LO pb cf fuel it s) as [r1 s1|e1 s1| |] eqn:E1; try discriminate.
      pose proof (proc_once_post _ _ _ _ _ E1) as (e & Ht & Htt & Hx & Hs & Hu & Hm & Hv).
      assert (Hstop : r1 <> IterationContinued -> r1 = r -> s1 = s' -> loop_post (S n) it st s r s').
      { intros Hne <- <-. exists [(it, e)]. rewrite Ht. repeat split; auto; cbn; try lia; try discriminate.
        - intros [|[|i]] p H; cbn in H; try discriminate. injection H as <-. cbn; lia.
        - intros [H|[_ H]]; [contradiction|discriminate].
        - destruct i as [|[|i]]; cbn in H; try discriminate. injection H as <-. apply Hs. auto.
        - destruct i as [|[|i]]; cbn in H; try discriminate. lia.
        - intros [X _]. destruct i as [|[|i]]; cbn in H; try discriminate. injection H as <-. apply Hs; auto. }
      destruct r1; try (unfold ret in E; injection E as E E'; apply Hstop; [discriminate|exact E|exact E']).
      apply IH in E; auto. destruct E as (es & Ht' & Htt' & Hx' & Hl & Hit & Hlen & Hne & Hk & Hz & H0).
      exists ((it, e) :: es). rewrite Ht', Ht, <- app_assoc. cbn [app].
      assert (He : nleb e (fc_kkt cf) = false).
      { destruct (nleb e (fc_kkt cf)) eqn:X; auto. assert (IterationContinued = Succeeded) by (apply Hs; auto). discriminate. }
      split; [reflexivity|]. split; [congruence|]. split; [congruence|]. split; [cbn; lia|]. split.
      { intros [|i] p H; cbn in H; [injection H as <-; cbn; lia|]. rewrite (Hit _ _ H). lia. }
      split.
      { intros H. cbn. f_equal. apply Hlen. destruct H as [H|[_ H]]; [auto|discriminate]. }
      split; [intros _ _; discriminate|]. split.
      { intros [|i] p H; cbn in H.
        - injection H as <-. cbn [snd]. rewrite He. split; [discriminate|]. intros [Hr Hi]. cbn in Hi.
          destruct n as [|n].
          + destruct (H0 eq_refl) as [X _]. congruence.
          + exfalso. apply Hne; [congruence|discriminate|]. destruct es; [reflexivity|cbn in Hi; lia].
        - rewrite (Hk _ _ H). cbn. split; intros [X Y]; split; auto; lia. }
      split; [|discriminate].
      intros _. destruct n as [|n]; [|apply Hz; discriminate].
      destruct (H0 eq_refl) as [-> _]. split; discriminate.
  Qed.

  (** The whole method. *)
  Definition start (t0 : T) (x0 : vec T) (v : var T) (eps : T) (s : fsolver T) : fsolver T :=
    {| f_t := t0; f_x := x0; f_var := v; f_delta := f_delta s; f_coeff := f_coeff s; f_trace := f_trace s;
       f_eps := eps; f_mscale := f_mscale s; f_mfunc := f_mfunc s; f_mderiv := f_mderiv s |}.
  Definition ready (t0 : T) (x0 : vec T) (v : var T) (eps : T) (cl : list (coeff T)) (s : fsolver T) : fsolver T :=
    {| f_t := t0; f_x := x0; f_var := v; f_delta := setup_delta cf jk (f_delta s); f_coeff := cl; f_trace := [];
       f_eps := eps; f_mscale := f_mscale s; f_mfunc := f_mfunc s; f_mderiv := f_mderiv s |}.
  (** The variable and the barrier parameter that enter checkVariable. *)
  Definition inited (t0 : T) (v0 : var T) (eps0 : T) : option (var T * T) :=
    if fc_init cf then match init_var pb cf t0 (nlit 1 10000) v0 with Some v => Some (v, nlit 1 10000) | None => None end
    else Some (v0, eps0).
  Definition finish (r : fstatus) : fstatus := match r with IterationContinued => MaxIterationReached | _ => r end.
  Definition solve_form (fuel : nat) (t0 : T) (x0 : vec T) (v0 : var T) (s : fsolver T) : outcome (fsolver T) fstatus :=
    match inited t0 v0 (f_eps s) with
    | None => UB
    | Some (v, eps) =>
      if bad_length cf v then Throw InvalidArgument (start t0 x0 v eps s)
      else if existsb (bad_dim pb t0 v) (seq 0 Nf) then Throw RuntimeError (start t0 x0 v eps s)
      else if existsb (bad_sign v) (seq 0 Nf) then Throw RuntimeError (start t0 x0 v eps s)
      else match setup_coeff pb cf jk t0 (f_coeff s) with
           | None => UB
           | Some cl =>
             match fopt_loop LO pb cf fuel (Z.to_nat (fc_max_iter cf)) 1 Uninitialized (ready t0 x0 v eps cl s) with
             | Ok r s' => if negb (3 <=? fc_print cf)%Z || negb (Nat.eqb (length (f_trace s')) 0) then Ok (finish r) s' else UB
             | Throw e s' => Throw e s'
             | UB => UB
             | OutOfFuel => OutOfFuel
             end
           end
    end.
  Lemma solve_form_eq fuel t0 x0 v0 s : fmpc_solve LO pb cf jk fuel t0 x0 v0 s = solve_form fuel t0 x0 v0 s.
  Proof.
    unfold fmpc_solve, solve_form, inited. unfold bind at 1, modify at 1. unfold bind at 1.
    destruct (fc_init cf).
    - unfold bind at 1. destruct (init_var pb cf t0 (nlit 1 10000) v0) as [v|]; [|reflexivity].
      cbn [must ret]. unfold modify, bind at 1. unfold check_variable at 1.
      cbn [set_feps set_fvar f_var f_t].
      destruct (bad_length cf v); [reflexivity|]. destruct (existsb (bad_dim pb t0 v) (seq 0 Nf)); [reflexivity|].
      destruct (existsb (bad_sign v) (seq 0 Nf)); [reflexivity|].
      unfold bind at 1, get at 1. unfold bind at 1. cbn [f_coeff set_feps set_fvar].
      destruct (setup_coeff pb cf jk t0 (f_coeff s)) as [cl|]; [|reflexivity].
      cbn [must ret]. unfold bind at 1, put. unfold bind at 1.
      unfold ready, set_ftrace, set_fcoeff, set_fdelta, set_feps, set_fvar.
      cbn [f_t f_x f_var f_delta f_coeff f_trace f_eps f_mscale f_mfunc f_mderiv].
      destruct (fopt_loop _ _ _ _ _ _ _ _) as [r s'| | |]; try reflexivity.
      unfold bind, get, guard. destruct (_ || _); reflexivity.
    - cbn [ret]. unfold bind at 1. unfold check_variable at 1.
      cbn [f_var f_t].
      destruct (bad_length cf v0); [reflexivity|]. destruct (existsb (bad_dim pb t0 v0) (seq 0 Nf)); [reflexivity|].
      destruct (existsb (bad_sign v0) (seq 0 Nf)); [reflexivity|].
      unfold bind at 1, get at 1. unfold bind at 1. cbn [f_coeff set_feps set_fvar].
      destruct (setup_coeff pb cf jk t0 (f_coeff s)) as [cl|]; [|reflexivity].
      cbn [must ret]. unfold bind at 1, put. unfold bind at 1.
      unfold ready, set_ftrace, set_fcoeff, set_fdelta, set_feps, set_fvar.
      cbn [f_t f_x f_var f_delta f_coeff f_trace f_eps f_mscale f_mfunc f_mderiv].
      destruct (fopt_loop _ _ _ _ _ _ _ _) as [r s'| | |]; try reflexivity.
      unfold bind, get, guard. destruct (_ || _); reflexivity.
  Qed.

  Lemma fopt_loop_nothrow fuel n : forall it st s e s', fopt_loop LO pb cf fuel n it st s <> Throw e s'.
  Proof.
    induction n as [|n IH]; intros it st s e s' H; cbn [fopt_loop] in H; [discriminate|].
    unfold bind in H. destruct (proc_once LO pb cf fuel it s) as [r1 s1|e1 s1| |] eqn:E; try discriminate.
    - destruct r1; try discriminate. apply IH in H; exact H.
    - exact (proc_once_nothrow _ _ _ _ _ E).
  Qed.

  (** Initialisation *)
  Lemma init_var_some t0 eps v v' : init_var pb cf t0 eps v = Some v' ->
    Nf <= length (v_x v) /\ Nf <= length (v_u v) /\ Nf <= length (v_s v) /\ Nf <= length (v_n v) /\
    v_hor v' = v_hor v /\ v_x v' = v_x v /\ v_u v' = v_u v /\ v_l v' = v_l v /\ length (v_s v') = length (v_s v) /\ length (v_n v') = length (v_n v) /\
    (forall i, i < Nf -> exists x u, nth_error (v_x v) i = Some x /\ nth_error (v_u v) i = Some u /\
       nth_error (v_s v') i = Some (init_s (fp_g pb (ft pb t0 i) x u)) /\
       nth_error (v_n v') i = Some (init_n eps (init_s (fp_g pb (ft pb t0 i) x u)))).
  Proof.
    intros H. unfold init_var in H. opt1 H. injection H as <-. cbn [v_hor v_x v_u v_l v_s v_n].
    pose proof (tabo_length _ _ _ E) as L.
    assert (Hi : forall i, i < Nf -> exists x u, nth_error (v_x v) i = Some x /\ nth_error (v_u v) i = Some u /\
        i < length (v_s v) /\ i < length (v_n v) /\ nth_error l i = Some (init_s (fp_g pb (ft pb t0 i) x u))).
    { intros i Hi. destruct (tabo_nth _ _ _ _ E Hi) as [E1 E2].
      destruct (nth_error (v_x v) i) as [x|]; [|contradiction]. destruct (nth_error (v_u v) i) as [u|]; [|contradiction].
      destruct (Nat.ltb i (length (v_s v)) && Nat.ltb i (length (v_n v))) eqn:B; [|contradiction].
      apply andb_true_iff in B as [B1 B2]. apply Nat.ltb_lt in B1, B2. exists x, u. auto. }
    assert (Hlen : forall m, (forall i, i < Nf -> i < m) -> Nf <= m).
    { intros m H. destruct Nf as [|k] eqn:Ek; [lia|]. specialize (H k). lia. }
    assert (HS : Nf <= length (v_s v)) by (apply Hlen; intros i Hlt; destruct (Hi i Hlt) as (x & u & _ & _ & A & _); exact A).
    assert (HN : Nf <= length (v_n v)) by (apply Hlen; intros i Hlt; destruct (Hi i Hlt) as (x & u & _ & _ & _ & A & _); exact A).
    split. { apply Hlen. intros i Hlt. destruct (Hi i Hlt) as (x & u & A & _). apply nth_error_Some. congruence. }
    split. { apply Hlen. intros i Hlt. destruct (Hi i Hlt) as (x & u & _ & A & _). apply nth_error_Some. congruence. }
    split; [exact HS|]. split; [exact HN|].
    split; [reflexivity|]. split; [reflexivity|]. split; [reflexivity|]. split; [reflexivity|].
    split. { apply overwrite_length. lia. }
    split. { apply overwrite_length. rewrite map_length. lia. }
    intros i Hlt. destruct (Hi i Hlt) as (x & u & A1 & A2 & _ & _ & A3). exists x, u. split; [exact A1|]. split; [exact A2|]. split.
    - rewrite overwrite_nth by lia. exact A3.
    - rewrite overwrite_nth by (rewrite map_length; lia). rewrite nth_error_map, A3. reflexivity.
  Qed.
  Lemma init_var_def t0 eps v : Nf <= length (v_x v) -> Nf <= length (v_u v) -> Nf <= length (v_s v) -> Nf <= length (v_n v) ->
    exists v', init_var pb cf t0 eps v = Some v'.
  Proof.
    intros H1 H2 H3 H4. unfold init_var.
    match goal with |- context [tabo Nf ?f] => destruct (tabo_some Nf f) as [l E]; [|rewrite E; eauto] end.
    intros i Hi. cbv beta.
    destruct (nth_error (v_x v) i) eqn:E1; [|apply nth_error_None in E1; lia].
    destruct (nth_error (v_u v) i) eqn:E2; [|apply nth_error_None in E2; lia].
    replace (Nat.ltb i (length (v_s v))) with true by (symmetry; apply Nat.ltb_lt; lia).
    replace (Nat.ltb i (length (v_n v))) with true by (symmetry; apply Nat.ltb_lt; lia). discriminate.
  Qed.
End Run.
