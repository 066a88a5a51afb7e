(** What one FMPC call hands over to the next one. *)
From Verif Require Import Prelude Scalar LinAlg DDP DDPSafe Fmpc FmpcProofs FmpcStep FmpcSpec P_FmpcRun FmpcSafe.

Section Handover.
  Context {T : Type} {N : Num T}.
  Variables (LO : linops T) (pb : fproblem T) (cf : fconfig T) (jk : fjunk T) (t0 : T).
  Notation nx := (pb_nx (fp_dp pb)).
  Notation Nf := (Nf cf).
  Hypothesis WF : well_dimensioned_f pb.
  Hypothesis WL : lin_dims LO.
  Hypothesis Hlagr : fc_ls cf = true -> fc_lagr cf = true -> 0 < nx /\ forall i, i < Nf -> 0 < ng_of pb (ft pb t0 i).
  Hypothesis Heps : fc_update_eps cf = true -> forall i, i < Nf -> 0 < ng_of pb (ft pb t0 i).

  Lemma solve_state fuel x0 v0 s r s' : length x0 = nx -> typed_var pb v0 -> junk_ok pb jk -> object_ok pb s ->
    fmpc_solve LO pb cf jk fuel t0 x0 v0 s = Ok r s' -> state_ok pb cf t0 s' /\ right_lengths cf (f_var s').
  Proof using WF WL Hlagr Heps.
    intros Lx Tv Jk Ho H. pose proof (solve_lens _ _ _ _ _ _ _ _ _ _ _ H) as Hl. rewrite solve_form_eq in H. unfold solve_form in H.
    destruct (inited pb cf t0 v0 (f_eps s)) as [[v eps]|] eqn:Ei; [|discriminate].
    destruct (bad_length cf v) eqn:Eb; [discriminate|]. destruct (existsb (bad_dim pb t0 v) (seq 0 Nf)) eqn:Ed; [discriminate|].
    destruct (existsb (bad_sign v) (seq 0 Nf)); [discriminate|].
    pose proof (inited_ok pb cf t0 WF v0 _ v eps Tv Ei Eb Ed) as Hv. apply bad_length_spec in Eb. pose proof (right_nat _ _ Eb) as (_ & _ & _ & _ & _ & Hh).
    destruct (setup_coeff pb cf jk t0 (f_coeff s)) as [cl|] eqn:Ecl; [|discriminate].
    pose proof (setup_coeff_ok pb cf jk t0 WF s Hh Ho Jk) as (cl' & Ecl' & Hcl). rewrite Ecl in Ecl'. injection Ecl' as <-.
    assert (Hr : state_ok pb cf t0 (ready cf jk t0 x0 v eps cl s)).
    { destruct Ho as ((O1 & O2) & _). constructor; cbn [ready f_t f_x f_var f_delta f_coeff]; auto. unfold setup_delta.
      destruct (Z.eqb_spec (v_hor (f_delta s)) (fc_hor cf)) as [E|E].
      - cbn zeta in O2. rewrite E in O2. exact O2.
      - unfold delta_len. cbn [var_ctor v_x v_u v_l v_s v_n]. rewrite !repeat_length. auto. }
    pose proof (loop_safe LO pb cf t0 WF WL Hlagr Heps fuel (Z.to_nat (fc_max_iter cf)) 1 Uninitialized _ Hr) as L.
    destruct (fopt_loop LO pb cf fuel (Z.to_nat (fc_max_iter cf)) 1 Uninitialized (ready cf jk t0 x0 v eps cl s)) as [r1 s1| | |] eqn:El; try contradiction; try discriminate.
    destruct (_ || _); [|discriminate]. injection H as _ <-. split; [exact (proj1 L)|].
    unfold lens in Hl. unfold right_lengths. repeat (apply pair_equal_spec in Hl as [Hl ?]). unfold Nf in *. lia.
  Qed.
  Lemma state_typed s : state_ok pb cf t0 s -> typed_var pb (f_var s).
  Proof using.
    intros [_ _ [_ Vx Vl Vu Vs Vn] _ _]. constructor.
    - intros w Hw. apply In_nth_error in Hw as (i & Hi). apply (Vx i w Hi).
    - intros w Hw. apply In_nth_error in Hw as (i & Hi). apply (Vl i w Hi).
    - intros n w E Hw. apply In_nth_error in Hw as (i & Hi). rewrite (Vu i w Hi). unfold nu_of. rewrite E. reflexivity.
    - intros n w E [Hw|Hw]; apply In_nth_error in Hw as (i & Hi); [rewrite (Vs i w Hi)|rewrite (Vn i w Hi)]; unfold ng_of; rewrite E; reflexivity.
  Qed.
End Handover.
