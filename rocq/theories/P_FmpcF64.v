(** Properties C72 and C73 of the FMPC solver in binary64 arithmetic, for every exp and log and every order of summation. *)
From Coq Require Import Reals Lra Psatz.
From Flocq Require Import Core BinarySingleNaN.
From Verif Require Import Prelude Scalar LinAlg RLin DDP Fmpc FmpcProofs FmpcStep FmpcSpec B64 FmpcF64 FmpcStep64 ExDDP ExFmpc.
Local Open Scope R_scope.

Section Run.
  Variables (ex lg : b64 -> b64) (sm : list b64 -> b64).
  Local Instance N64 : Num b64 := B64Num ex lg sm.

  (** ** C72 *)
  (** Succeeded: the residuals that are computed by one rounding are below kkt_error_thre (1 + 2^-50) as exact real numbers; for the
      stationarity residuals the rounding errors of the sums come on top. Nothing in them is infinite or NaN. *)
  Theorem C72_success LO (pb : fproblem b64) (D : derivs b64) cf jk fuel t0 x0 v0 s s' :
    some_order sm -> computes pb D -> fin (fc_kkt cf) -> bpow radix2 (-500) <= val (fc_kkt cf) ->
    fmpc_solve LO pb cf jk fuel t0 x0 v0 s = Ok Succeeded s' ->
    approx_kkt64 ex lg sm pb D t0 x0 (f_var s') (Nf cf) (val (fc_kkt cf) * (1 + bpow radix2 (-50))).
  Proof.
    intros Hsm CM Ft Ht H. apply solve_succ in H as (Et & Ex & cl & e & Hc & Hk & He). rewrite <- Et in Hc.
    pose proof (kkt_bound64 ex lg sm Hsm pb D cf s' cl e CM Hc Hk He Ft Ht) as A. rewrite Et, Ex in A. exact A.
  Qed.
  (** The factor of the rounding errors is about one unit of rounding per operation. *)
  Theorem C72_factor k : (Z.of_nat k <= 1000000)%Z -> 0 <= gam k <= 2 * INR k * bpow radix2 (-53).
  Proof. intros H. split; [apply gam_pos|apply (gam_le k H)]. Qed.

  (** ** C73 *)
  (** One update of slacks and multipliers between 2^-500 and 2^500 along a direction of magnitude at most 2^500: all stay finite and
      keep at least 0.4 % of their value. *)
  Theorem C73_update (pb : fproblem b64) cf fuel st st' : update_variables pb cf fuel st = Ok true st' ->
    in_range64 (v_s (f_var st)) -> in_range64 (v_n (f_var st)) -> bounded64 (v_s (f_delta st)) -> bounded64 (v_n (f_delta st)) ->
    keeps64 vget (4 / 1000) (v_s (f_var st)) (v_s (f_var st')) /\ keeps64 vget (4 / 1000) (v_n (f_var st)) (v_n (f_var st')).
  Proof. apply (update64 ex lg sm pb cf fuel st st'). Qed.
  (** With init_complementary_variable the hypotheses of the first update hold: every slack and every multiplier starts in [1/128, 2^500]
      if the constraint values are finite and at most 2^499 in magnitude and the barrier parameter is in [0, 1] (it is 1e-4). *)
  Theorem C73_init (pb : fproblem b64) cf t0 eps v v' : init_var pb cf t0 eps v = Some v' -> fin eps -> 0 <= val eps <= 1 ->
    (forall i x u a, (i < Nf cf)%nat -> nth_error (v_x v) i = Some x -> nth_error (v_u v) i = Some u ->
       In a (fp_g pb (nadd t0 (nmul (nofnat i) (pb_dt (fp_dp pb)))) x u) -> fin a /\ Rabs (val a) <= bpow radix2 499) ->
    forall i w a, (i < Nf cf)%nat -> nth_error (v_s v') i = Some w \/ nth_error (v_n v') i = Some w -> In a w ->
      fin a /\ / 128 <= val a <= bpow radix2 500.
  Proof. intros H Fe He Hg i w a Hi Hw Ha. exact (init64 ex lg sm pb cf t0 eps v v' H Fe He Hg i w Hi Hw a Ha). Qed.
End Run.
Print Assumptions C72_success.
Print Assumptions C72_factor.
Print Assumptions C73_update.
Print Assumptions C73_init.


Definition no_fun (x : b64) : b64 := B754_nan.
Local Instance N0 : Num b64 := B64Num no_fun no_fun seq_sum.
Definition z0 : b64 := B754_zero false.
Definition kx_D : derivs b64 := {|
  d_A := fun _ _ _ => m11 none; d_B := fun _ _ _ => m11 none; d_C := fun _ _ _ => m11 nzero; d_D := fun _ _ _ => m11 none;
  d_Lx := fun _ x _ => [vget x 0]; d_Lu := fun _ _ u => [vget u 0]; d_Lxx := fun _ _ _ => m11 none; d_Luu := fun _ _ _ => m11 none;
  d_Lxu := fun _ _ _ => m11 nzero; d_Tx := fun _ x => [vget x 0]; d_Txx := fun _ _ => m11 none |}.
Definition kx_cf : fconfig b64 := ex_fcf 2 20 false true false.
Notation kx_run := (fmpc_solve div_lin ex_fp kx_cf (ex_fjunk z0) 100 z0 [b64_ofZ 5] (ex_fvar 2 z0 z0 z0 none none) ex_fs0).
Definition ended (o : outcome (fsolver b64) fstatus) : bool := match o with Ok Succeeded _ => true | _ => false end.
Lemma ended_inv o : ended o = true -> exists s, o = Ok Succeeded s.
Proof. destruct o as [r s| | |]; try discriminate. destruct r; try discriminate. eauto. Qed.
Definition slack_of (p : b64 -> bool) (o : outcome (fsolver b64) bool) : bool :=
  match o with Ok true s => match v_s (f_var s) with [[a]] => p a | _ => false end | _ => false end.
Lemma slack_inv p o : slack_of p o = true -> exists s, o = Ok true s /\ exists a, v_s (f_var s) = [[a]] /\ p a = true.
Proof.
  destruct o as [b s| | |]; try discriminate. destruct b; [|discriminate]. cbn. destruct (v_s (f_var s)) as [|[|a [|? ?]] [|? ?]] eqn:E; try discriminate.
  intros H. exists s. split; [reflexivity|]. exists a. auto.
Qed.
Lemma thr_val : fin (fc_kkt kx_cf) /\ bpow radix2 (-500) <= val (fc_kkt kx_cf).
Proof.
  assert (E : sf (fc_kkt kx_cf) = SpecFloat.S754_finite false 7378697629483821 (-66)) by (vm_compute; reflexivity).
  unfold sf in E. split.
  - unfold fin. rewrite <- is_finite_SF_B2SF, E. reflexivity.
  - unfold val. rewrite <- SF2R_B2SF, E. apply Rle_trans with (bpow radix2 (-66)); [apply bpow_le; lia|]. cbn. unfold F2R. cbn. lra.
Qed.
(** x' = x + u, u <= 1, horizon 2, from x = 5: the run in doubles, with the sums taken from left to right, ends with Succeeded. *)
Example C72_nonvacuous : some_order seq_sum /\ computes ex_fp kx_D /\ fin (fc_kkt kx_cf) /\ bpow radix2 (-500) <= val (fc_kkt kx_cf) /\
  exists s', kx_run = Ok Succeeded s' /\ approx_kkt64 no_fun no_fun seq_sum ex_fp kx_D z0 [b64_ofZ 5] (f_var s') (Nf kx_cf) (val (fc_kkt kx_cf) * (1 + bpow radix2 (-50))).
Proof.
  assert (CM : computes ex_fp kx_D) by (constructor; intros; reflexivity).
  destruct thr_val as [T1 T2]. split; [apply seq_sum_order|]. split; [exact CM|]. split; [exact T1|]. split; [exact T2|].
  assert (H : ended kx_run = true) by (vm_compute; reflexivity).
  apply ended_inv in H as (s' & E). exists s'. split; [exact E|].
  exact (C72_success no_fun no_fun seq_sum div_lin ex_fp kx_D kx_cf (ex_fjunk z0) 100 z0 [b64_ofZ 5] (ex_fvar 2 z0 z0 z0 none none) ex_fs0 s' seq_sum_order CM T1 T2 E).
Qed.

(** One update from slack s with direction ds and multiplier n with direction dn. *)
Definition kx_st (s ds n dn : b64) : fsolver b64 := {|
  f_t := z0; f_x := [z0]; f_var := ex_fvar 1 z0 z0 z0 s n; f_delta := ex_fvar 1 z0 z0 z0 ds dn; f_coeff := [];
  f_trace := []; f_eps := nlit 1 10000; f_mscale := z0; f_mfunc := z0; f_mderiv := z0 |}.
Notation kx_up s ds n dn := (update_variables ex_fp (ex_fcf 1 20 false false false) 10 (kx_st s ds n dn)).
Ltac bval E := unfold val, fin; rewrite <- ?SF2R_B2SF, <- ?is_finite_SF_B2SF, E; cbn; unfold F2R; cbn.
Lemma ofZ_fin1 : fin (b64_ofZ 1) /\ val (b64_ofZ 1) = 1.
Proof. assert (E : B2SF (b64_ofZ 1) = SpecFloat.S754_finite false 4503599627370496 (-52)) by (vm_compute; reflexivity). split; bval E; [reflexivity|lra]. Qed.
Lemma ofZ_finm2 : fin (b64_ofZ (-2)) /\ val (b64_ofZ (-2)) = -2.
Proof. assert (E : B2SF (b64_ofZ (-2)) = SpecFloat.S754_finite true 4503599627370496 (-51)) by (vm_compute; reflexivity). split; bval E; [reflexivity|lra]. Qed.
Example C73_nonvacuous : exists st', kx_up (b64_ofZ 1) (b64_ofZ (-2)) (b64_ofZ 1) (b64_ofZ 1) = Ok true st' /\
  in_range64 [[b64_ofZ 1]] /\ bounded64 [[b64_ofZ (-2)]] /\ keeps64 vget (4 / 1000) [[b64_ofZ 1]] (v_s (f_var st')).
Proof.
  assert (H : slack_of (fun _ => true) (kx_up (b64_ofZ 1) (b64_ofZ (-2)) (b64_ofZ 1) (b64_ofZ 1)) = true) by (vm_compute; reflexivity).
  apply slack_inv in H as (st' & E & _).
  destruct ofZ_fin1 as [F1 V1]. destruct ofZ_finm2 as [F2 V2]. destruct lo_hi as (L1 & L2 & L3 & L4).
  assert (H5 : 2 <= hi500) by (unfold hi500; change 2 with (bpow radix2 1); apply bpow_le; lia).
  assert (R1 : in_range64 [[b64_ofZ 1]]).
  { intros w a [<-|[]] [<-|[]]. rewrite V1. split; [exact F1|lra]. }
  assert (R2 : bounded64 [[b64_ofZ (-2)]]).
  { intros w a [<-|[]] [<-|[]]. rewrite V2. split; [exact F2|]. rewrite Rabs_left; lra. }
  assert (R3 : bounded64 [[b64_ofZ 1]]).
  { intros w a [<-|[]] [<-|[]]. rewrite V1. split; [exact F1|]. rewrite Rabs_pos_eq; lra. }
  exists st'. split; [exact E|]. split; [exact R1|]. split; [exact R2|].
  exact (proj1 (C73_update no_fun no_fun seq_sum ex_fp (ex_fcf 1 20 false false false) 10 (kx_st (b64_ofZ 1) (b64_ofZ (-2)) (b64_ofZ 1) (b64_ofZ 1)) st' E R1 R1 R2 R3)).
Qed.
Example C73_init_nonvacuous : exists v', init_var ex_fp (ex_fcf 1 20 true false false) z0 (nlit 1 10000) (ex_fvar 1 z0 z0 z0 z0 z0) = Some v' /\
  map (map (fun a => nltb z0 a)) (v_s v') = [[true]] /\ map (map (fun a => nltb z0 a)) (v_n v') = [[true]].
Proof. eexists. split; [reflexivity|]. split; vm_compute; reflexivity. Qed.

(** Without the bounds C73_update is false. (a) A slack of 603 / (1000 2^74) and a direction of -2^1000: the quotient is below half of the
    smallest double above zero but rounds to it, the step is 1.09 times the allowed one and the slack becomes negative; the clamp that follows does
    not repair it. (b) The smallest positive slack 2^-1074: 0.995 s rounds to s and the slack becomes zero. *)
Definition kx_sub : b64 := nlit 603 (1000 * 2 ^ 74)%positive.
Definition kx_min : b64 := @B754_finite 53 1024 false 1 (-1074) eq_refl.
Theorem C73_refuted :
  (exists st', kx_up kx_sub (b64_ofZ (- 2 ^ 1000)) none none = Ok true st' /\ nltb z0 kx_sub = true /\
     exists a, v_s (f_var st') = [[a]] /\ nltb a z0 = true) /\
  (exists st', kx_up kx_min (b64_ofZ (-1)) none none = Ok true st' /\ nltb z0 kx_min = true /\
     exists a, v_s (f_var st') = [[a]] /\ neqb a z0 = true).
Proof.
  split.
  - assert (H : slack_of (fun a => nltb a z0) (kx_up kx_sub (b64_ofZ (- 2 ^ 1000)) none none) = true) by (vm_compute; reflexivity).
    apply slack_inv in H as (st' & E & H). exists st'. split; [exact E|]. split; [vm_compute; reflexivity|exact H].
  - assert (H : slack_of (fun a => neqb a z0) (kx_up kx_min (b64_ofZ (-1)) none none) = true) by (vm_compute; reflexivity).
    apply slack_inv in H as (st' & E & H). exists st'. split; [exact E|]. split; [vm_compute; reflexivity|exact H].
Qed.
Print Assumptions C73_refuted.
