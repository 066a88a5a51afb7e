(** Configurations for which the retry loop around the backward pass never ends (IEEE doubles). *)
From Verif Require Import Prelude Scalar LinAlg BoxQP BoxQPProofs DDP DDPSpec DDPProofs Chol ExDDP.

(** x' = x, running cost -u^2/2: Quu is negative at every regularisation below 1. *)
Definition neg_pb : problem f64 := {|
  pb_dt := none; pb_nx := 1; pb_fixed_nu := Some 1%nat; pb_inputDim := fun _ => 1%Z;
  pb_stateEq := fun t x u => [vget x 0];
  pb_runningCost := fun t x u => nopp (nhalf * (vget u 0 * vget u 0))%num;
  pb_terminalCost := fun t x => nzero;
  pb_stateEqDeriv := fun t x u _ => (m11 none, m11 nzero);
  pb_stateEqDeriv2 := fun t x u _ => (m11 none, m11 nzero);
  pb_runningCostDeriv := fun t x u _ => ([nzero], [nopp (vget u 0)], m11 nzero, m11 (nopp none), m11 nzero);
  pb_terminalCostDeriv := fun t x _ => ([nzero], m11 nzero) |}.
(** default settings except for factor, lambda_min, initial lambda *)
Definition div_cf (factor lmin l0 : f64) : config f64 :=
  let d := with_cf false false 5 1 in
  {| cf_print_level := cf_print_level d; cf_second := cf_second d; cf_constraint := cf_constraint d;
     cf_max_iter := cf_max_iter d; cf_horizon := cf_horizon d; cf_reg_type := cf_reg_type d;
     cf_initial_lambda := l0; cf_initial_dlambda := cf_initial_dlambda d;
     cf_lambda_factor := factor; cf_lambda_min := lmin; cf_lambda_max := cf_lambda_max d;
     cf_k_rel_norm_thre := cf_k_rel_norm_thre d; cf_lambda_thre := cf_lambda_thre d;
     cf_alpha_list := cf_alpha_list d; cf_cost_update_ratio_thre := cf_cost_update_ratio_thre d;
     cf_cost_update_thre := cf_cost_update_thre d |}.

Local Notation div_run cf fuel :=
  (ddp_solve chol_llt neg_pb cf None ex_junk fuel 500 nzero [none] [[none]] ex_s0).

Section Loop.
  Variable cf : config f64.
  Let retry1 (s : ddp f64) : option (ddp f64) :=
    match backwardPass chol_llt neg_pb cf None 500 s with
    | Ok false s1 => let s2 := inc_lambda cf s1 in if nltb (cf_lambda_max cf) (s_lambda s2) then None else Some s2
    | _ => None
    end.
  Lemma retry_step s s' : retry1 s = Some s' -> forall f, bw_retry chol_llt neg_pb cf None (S f) 500 s = bw_retry chol_llt neg_pb cf None f 500 s'.
  Proof.
    unfold retry1. cbn [bw_retry]. unfold bind, modify, get.
    destruct (backwardPass _ _ _ _ _ s) as [[] s1| | |]; try discriminate.
    destruct (nltb _ _) eqn:E; [discriminate|]. intros H; injection H as <-. intros f.
    destruct (nltb (cf_lambda_max cf) (s_lambda (inc_lambda cf s1))) eqn:E'; [congruence|reflexivity].
  Qed.
  (** [k] failing attempts lead to a state that one more attempt reproduces. *)
  Fixpoint attempts (k : nat) (s : ddp f64) : option (ddp f64) :=
    match k with O => Some s | S k' => match retry1 s with Some s' => attempts k' s' | None => None end end.
  Lemma attempts_fuel k : forall s s', attempts k s = Some s' ->
    forall f, bw_retry chol_llt neg_pb cf None f 500 s = OutOfFuel \/
              exists f', bw_retry chol_llt neg_pb cf None f 500 s = bw_retry chol_llt neg_pb cf None f' 500 s' /\ f' <= f.
  Proof.
    induction k as [|k IH]; intros s s' E f; cbn in E.
    - injection E as <-. right; exists f; auto.
    - destruct (retry1 s) as [s1|] eqn:E1; [|discriminate].
      destruct f as [|f]; [left; reflexivity|]. rewrite (retry_step _ _ E1).
      destruct (IH _ _ E f) as [H|(f' & H & Hle)]; [left; exact H|right; exists f'; split; auto].
  Qed.
  Lemma loop_fuel s : retry1 s = Some s -> forall f, bw_retry chol_llt neg_pb cf None f 500 s = OutOfFuel.
  Proof.
    intros E. induction f as [|f IH]; [reflexivity|]. rewrite (retry_step _ _ E). exact IH.
  Qed.
  Lemma diverges k s s' : attempts k s = Some s' -> retry1 s' = Some s' ->
    forall f, bw_retry chol_llt neg_pb cf None f 500 s = OutOfFuel.
  Proof.
    intros E1 E2 f. destruct (attempts_fuel _ _ _ E1 f) as [H|(f' & -> & _)]; [exact H|]. apply loop_fuel; exact E2.
  Qed.

  (** The state in which the first retry loop starts. *)
  Definition before_retry : M (ddp f64) unit :=
    (modify (fun s => set_lambda (cf_initial_lambda cf) (cf_initial_dlambda cf) (set_t nzero s)) ;;;
     modify (resize_lists neg_pb cf ex_junk) ;;;
     s <- get ;;
     c <- must (cd_setx 0 [none]
                 {| cd_x := resize (N_ cf + 1) (jk_x ex_junk) (cd_x (s_cd s)); cd_u := [[none]];
                    cd_cost := cost_resize ex_junk (N_ cf + 1) (cd_cost (s_cd s)) |}) ;;
     put (set_cd c s) ;;;
     for_up (N_ cf) (rollout_body neg_pb) ;;;
     s <- get ;;
     xN <- must (nth_error (cd_x (s_cd s)) (N_ cf)) ;;
     c <- must (cd_setc (N_ cf) (pb_terminalCost neg_pb (tm neg_pb (s_t s) (N_ cf)) xN) (s_cd s)) ;;
     put (set_cd c s) ;;;
     modify (fun s => set_trace [ {| tr_iter := 0; tr_cost := nsum (cd_cost (s_cd s));
                                    tr_lambda := s_lambda s; tr_dlambda := s_dlambda s; tr_alpha := nzero;
                                    tr_k_rel_norm := nzero; tr_actual := nzero; tr_expected := nzero;
                                    tr_ratio := nzero |} ] s) ;;;
     modify (fun s => set_trace (s_trace s ++ [trace0 1]) s) ;;;
     for_up (N_ cf) (deriv_body neg_pb cf) ;;;
     s <- get ;;
     xN <- must (nth_error (cd_x (s_cd s)) (N_ cf)) ;;
     let '(Vx, Vxx) := pb_terminalCostDeriv neg_pb (tm neg_pb (s_t s) (N_ cf)) xN (s_Vx s, s_Vxx s) in
     put (set_lastV Vx Vxx s))%monad.
End Loop.

(** [solve] reaches the retry loop in the state computed by [before_retry]. *)
Lemma div_reaches cf f s1 : before_retry cf ex_s0 = Ok tt s1 -> cf_horizon cf = 1%Z -> cf_max_iter cf = 5%Z ->
  bw_retry chol_llt neg_pb cf None f 500 s1 = OutOfFuel -> div_run cf f = OutOfFuel.
Proof.
  intros E Hh Hmi Hr. unfold ddp_solve, before_retry in *. unfold bind, modify, get in *. rewrite Hh in *.
  cbn [length negb Z.of_nat Pos.of_succ_nat Z.eqb Pos.eqb pb_fixed_nu neg_pb] in *.
  match type of E with match ?m with _ => _ end = _ => destruct m as [c s2| | |] eqn:E1; try discriminate E end.
  unfold put in *.
  match type of E with match ?m with _ => _ end = _ => destruct m as [? s3| | |] eqn:E2; try discriminate E end.
  match type of E with match ?m with _ => _ end = _ => destruct m as [xN s4| | |] eqn:E3; try discriminate E end.
  match type of E with match ?m with _ => _ end = _ => destruct m as [c1 s5| | |] eqn:E4; try discriminate E end.
  rewrite Hmi. change (Z.to_nat 5) with 5. cbn [opt_loop]. unfold bind. unfold procOnce, bind, modify, get.
  match type of E with match ?m with _ => _ end = _ => destruct m as [? s6| | |] eqn:E5; try discriminate E end.
  match type of E with match ?m with _ => _ end = _ => destruct m as [xN' s7| | |] eqn:E6; try discriminate E end.
  destruct (pb_terminalCostDeriv _ _ _ _) as [Vx Vxx]. unfold put in *. injection E as <-.
  rewrite Hr. reflexivity.
Qed.

Definition div_check (cf : config f64) (k : nat) : Prop :=
  match before_retry cf ex_s0 with
  | Ok tt s1 => match attempts cf k s1 with Some s' => attempts cf 1 s' = Some s' | None => False end
  | _ => False
  end.
Lemma div_by_check cf k : div_check cf k -> cf_horizon cf = 1%Z -> cf_max_iter cf = 5%Z ->
  forall f, div_run cf f = OutOfFuel.
Proof.
  unfold div_check. intros Hc Hh Hm f.
  destruct (before_retry cf ex_s0) as [[] s1| | |] eqn:E; try contradiction.
  destruct (attempts cf k s1) as [s'|] eqn:E1; [|contradiction].
  apply (div_reaches cf f s1 E Hh Hm). apply (diverges cf k s1 s' E1).
  cbn [attempts] in Hc |- *.
  match type of Hc with match ?m with _ => _ end = _ => destruct m as [s2|] eqn:E2; [|discriminate Hc] end.
  injection Hc as ->. first [exact E2 | reflexivity].
Qed.

(** factor = 1: lambda never grows. *)
Definition factor1_cf : config f64 := div_cf none (nlit 1 1000000) (nlit 1 10000).
Lemma div_factor1 : forall f,
  ddp_solve chol_llt neg_pb factor1_cf None ex_junk f 500 nzero [none] [[none]] ex_s0 = OutOfFuel.
Proof.
  assert (H : div_check factor1_cf 1) by (vm_compute; reflexivity).
  intros f. pose proof (div_by_check factor1_cf 1 H eq_refl eq_refl f) as Hd. exact Hd.
Qed.
