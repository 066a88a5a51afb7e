(** The callbacks of the C/GMRES example problems. *)
From Coq Require Import Reals Lra.
From Verif Require Import Prelude Scalar LinAlg RLin GmresSpec GmresCor Cgmres P_Ode CgmresGrad P_Cgmres Problems ProbSpec ProbProofs.
Local Open Scope R_scope.
Local Arguments IZR : simpl never.
Local Arguments Rdiv : simpl never.
Local Arguments Rminus : simpl never.
Local Arguments Rplus : simpl never.
Local Arguments Rmult : simpl never.
Local Arguments Ropp : simpl never.
Local Arguments sin : simpl never.
Local Arguments cos : simpl never.

Lemma list3' (l : list R) : length l = 3%nat -> l = [nth 0 l 0; nth 1 l 0; nth 2 l 0].
Proof. destruct l as [|a [|b [|c [|]]]]; try discriminate; reflexivity. Qed.
Lemma list5 (l : list R) : length l = 5%nat -> l = [nth 0 l 0; nth 1 l 0; nth 2 l 0; nth 3 l 0; nth 4 l 0].
Proof. do 5 (destruct l as [|? l]; [discriminate|]). destruct l; [|discriminate]. reflexivity. Qed.
Lemma list7 (l : list R) : length l = 7%nat -> l = [nth 0 l 0; nth 1 l 0; nth 2 l 0; nth 3 l 0; nth 4 l 0; nth 5 l 0; nth 6 l 0].
Proof. do 7 (destruct l as [|? l]; [discriminate|]). destruct l; [|discriminate]. reflexivity. Qed.

(** ** Cart-pole *)
(** The costs whose derivatives the class computes: quadratic in the distance to the reference; with input bound the dummy
    input and the multiplier of f^2 + f_dummy^2 = f_max^2 are further inputs. *)
Definition cgc_cost (p : cgc_par R) (t : R) (x u : list R) : R :=
  let r := cg_ref p t in let q := cg_q p in
  / 2 * (nth 0 q 0 * (nth 0 x 0 - nth 0 r 0) ^ 2 + nth 1 q 0 * (nth 1 x 0 - nth 1 r 0) ^ 2
         + nth 2 q 0 * (nth 2 x 0 - nth 2 r 0) ^ 2 + nth 3 q 0 * (nth 3 x 0 - nth 3 r 0) ^ 2 + nth 4 q 0 * nth 0 u 0 ^ 2)
  + (if cg_bound p then - nth 5 q 0 * nth 1 u 0 + nth 2 u 0 * (nth 0 u 0 ^ 2 + nth 1 u 0 ^ 2 - cg_fmax p ^ 2) else 0).
Definition cgc_end (p : cgc_par R) (t : R) (x : list R) : R :=
  let r := cg_ref p t in let w := cg_s p in
  / 2 * (nth 0 w 0 * (nth 0 x 0 - nth 0 r 0) ^ 2 + nth 1 w 0 * (nth 1 x 0 - nth 1 r 0) ^ 2
         + nth 2 w 0 * (nth 2 x 0 - nth 2 r 0) ^ 2 + nth 3 w 0 * (nth 3 x 0 - nth 3 r 0) ^ 2).
Record cgc_ok (p : cgc_par R) : Prop := { go_m1 : 0 < cg_m1 p; go_m2 : 0 <= cg_m2 p; go_l : cg_l p <> 0 }.

Section Cgc.
  Variables (p : cgc_par R) (pi : R).
  Hypothesis OK : cgc_ok p.
  Notation pb := (cg_cartpole sin cos p pi).
  Lemma cgc_true_t : true_callbacks_t pb (cgc_f sin cos p) (cgc_cost p) (cgc_end p).
  Proof using OK.
    split; [|split].
    - intros. split; reflexivity.
    - intros t x Hx. split; [reflexivity|]. intros W dW (L1 & L2 & D) E. cbn [cp_dim_x cg_cartpole] in *. subst x.
      eapply dl_conv; [intros s; unfold cgc_end, pow; reflexivity|cbv beta; repeat dstep|].
      rewrite (list4 _ L2). cbn. unfold vget, ldot. cbn. field.
    - intros t x u l Hx Hu Hl. cbn [cp_dim_x cp_dim_uc cg_cartpole cp_costate cp_dhdu] in *. destruct OK as [H1 H2 H3].
      destruct l as [|l0 [|l1 [|l2 [|l3 [|]]]]]; try discriminate. destruct x as [|x0 [|x1 [|x2 [|x3 [|]]]]]; try discriminate.
      unfold cgc_dim_uc in *. destruct (cg_bound p) eqn:EB.
      + destruct u as [|u0 [|u1 [|u2 [|]]]]; try discriminate. split; [reflexivity|]. split; [unfold cgc_dhdu; rewrite EB; reflexivity|]. split; [unfold cgc_dhdu; rewrite EB; reflexivity|].
        intros W dW (L1 & L2 & D) E. cbn [Nat.add] in *. pose proof (denom_pos _ _ (sin (nth 1 (W 0) 0)) H1 H2) as Hd.
        eapply (dl_conv (fun s => cgc_cost p t [nth 0 (W s) 0; nth 1 (W s) 0; nth 2 (W s) 0; nth 3 (W s) 0] [nth 4 (W s) 0; nth 5 (W s) 0; nth 6 (W s) 0] + ldot [l0; l1; l2; l3] (cgc_f sin cos p t [nth 0 (W s) 0; nth 1 (W s) 0; nth 2 (W s) 0; nth 3 (W s) 0] [nth 4 (W s) 0; nth 5 (W s) 0; nth 6 (W s) 0]))).
        { intros s. unfold hamiltonian. rewrite (list7 _ (L1 s)). reflexivity. }
        * unfold cgc_cost. rewrite EB. unfold ldot, pow. cbn. repeat dstep; [exact Hd|apply Rmult_integral_contrapositive_currified; assumption].
        * cbv beta. rewrite E in *. cbn [nth app] in *. rewrite (list7 _ L2). unfold cgc_dhdu. rewrite EB.
          unfold cgc_costate, cgc_dim_uc. rewrite EB. cbn. unfold vget, ldot. cbn. field. auto.
      + destruct u as [|u0 [|]]; try discriminate. split; [reflexivity|]. split; [unfold cgc_dhdu; rewrite EB; reflexivity|]. split; [unfold cgc_dhdu; rewrite EB; reflexivity|].
        intros W dW (L1 & L2 & D) E. cbn [Nat.add] in *. pose proof (denom_pos _ _ (sin (nth 1 (W 0) 0)) H1 H2) as Hd.
        eapply (dl_conv (fun s => cgc_cost p t [nth 0 (W s) 0; nth 1 (W s) 0; nth 2 (W s) 0; nth 3 (W s) 0] [nth 4 (W s) 0] + ldot [l0; l1; l2; l3] (cgc_f sin cos p t [nth 0 (W s) 0; nth 1 (W s) 0; nth 2 (W s) 0; nth 3 (W s) 0] [nth 4 (W s) 0]))).
        { intros s. unfold hamiltonian. rewrite (list5 _ (L1 s)). reflexivity. }
        * unfold cgc_cost. rewrite EB. unfold ldot, pow. cbn. repeat dstep; [exact Hd|apply Rmult_integral_contrapositive_currified; assumption].
        * cbv beta. rewrite E in *. cbn [nth app] in *. rewrite (list5 _ L2). unfold cgc_dhdu. rewrite EB.
          unfold cgc_costate, cgc_dim_uc. rewrite EB. cbn. unfold vget, ldot. cbn. field. auto.
  Qed.
End Cgc.

(** A reference that does not change makes the whole problem independent of time. *)
Lemma cgc_true (p : cgc_par R) pi : cgc_ok p -> (forall t, cg_ref p t = cg_ref p 0) ->
  true_callbacks (cg_cartpole sin cos p pi) (cgc_f sin cos p 0) (cgc_cost p 0) (cgc_end p 0).
Proof.
  intros OK HR. destruct (cgc_true_t p pi OK) as (H1 & H2 & H3).
  assert (E1 : forall t x, cgc_dphi p t x = cgc_dphi p 0 x) by (intros; unfold cgc_dphi; rewrite HR; reflexivity).
  assert (E2 : forall t l xu, cgc_costate sin cos p t l xu = cgc_costate sin cos p 0 l xu) by (intros; unfold cgc_costate; rewrite HR; reflexivity).
  split; [intros x u Hx Hu; apply (H1 0); assumption|]. split; [reflexivity|]. split.
  - intros t x Hx. split; [exact (E1 t x)|]. cbn [cp_dphi cg_cartpole]. rewrite E1. apply (H2 0 x Hx).
  - intros t x u l Hx Hu Hl. destruct (H3 0 x u l Hx Hu Hl) as (A & B & C).
    split; [exact (E2 t l (x ++ u))|]. split; [reflexivity|]. cbn [cp_costate cg_cartpole cp_dhdu] in *. rewrite E2. split; [exact A|]. split; [exact B|exact C].
Qed.

(** ** Semi-active damper *)
Definition damp_cost (p : damper_par R) (x u : list R) : R :=
  / 2 * (dp_q1 p * nth 0 x 0 ^ 2 + dp_q2 p * nth 1 x 0 ^ 2 + dp_r1 p * nth 0 u 0 ^ 2) - dp_r2 p * nth 1 u 0
  + nth 2 u 0 * ((nth 0 u 0 - dp_umax p / 2) ^ 2 + nth 1 u 0 ^ 2 - dp_umax p ^ 2 / 4).
Definition damp_end (p : damper_par R) (x : list R) : R := / 2 * (dp_s1 p * nth 0 x 0 ^ 2 + dp_s2 p * nth 1 x 0 ^ 2).
(** The costate equation with the input read at its place. *)
Definition damp_costate_good (p : damper_par R) (t : R) (lmd xu : list R) : list R :=
  [- dp_a p * nth 1 lmd 0 - dp_q1 p * nth 0 xu 0; - dp_b p * nth 1 lmd 0 * nth 2 xu 0 - dp_q2 p * nth 1 xu 0 - nth 0 lmd 0].
Definition damper_good (p : damper_par R) : cg_problem R := {|
  cp_dim_x := 2; cp_dim_uc := 3; cp_f := damp_f p; cp_costate := damp_costate_good p; cp_dphi := damp_dphi p; cp_dhdu := damp_dhdu p;
  cp_x0 := cp_x0 (damper p); cp_u0 := cp_u0 (damper p) |}.

Lemma damp_good_true p : true_callbacks (damper_good p) (damp_f p 0) (damp_cost p) (damp_end p).
Proof.
  split; [reflexivity|]. split; [reflexivity|]. split.
  - intros t x Hx. split; [reflexivity|]. split; [reflexivity|]. intros W dW (L1 & L2 & D) E. cbn [cp_dim_x damper_good] in *.
    eapply dl_conv; [intros s; unfold damp_end, pow; reflexivity|cbv beta; repeat dstep|].
    cbv beta. rewrite E. rewrite (list2 _ L2). cbn. unfold vget, ldot. cbn. field.
  - intros t x u l Hx Hu Hl. cbn [cp_dim_x cp_dim_uc damper_good cp_costate cp_dhdu] in *.
    split; [reflexivity|]. split; [reflexivity|]. split; [reflexivity|]. split; [reflexivity|]. split; [reflexivity|].
    destruct l as [|l0 [|l1 [|]]]; try discriminate. destruct x as [|x0 [|x1 [|]]]; try discriminate. destruct u as [|u0 [|u1 [|u2 [|]]]]; try discriminate.
    intros W dW (L1 & L2 & D) E. cbn [Nat.add] in *.
    eapply (dl_conv (fun s => damp_cost p [nth 0 (W s) 0; nth 1 (W s) 0] [nth 2 (W s) 0; nth 3 (W s) 0; nth 4 (W s) 0]
      + ldot [l0; l1] (damp_f p 0 [nth 0 (W s) 0; nth 1 (W s) 0] [nth 2 (W s) 0; nth 3 (W s) 0; nth 4 (W s) 0]))).
    { intros s. unfold hamiltonian. rewrite (list5 _ (L1 s)). reflexivity. }
    + unfold damp_cost, ldot, pow. cbn. repeat dstep.
    + cbv beta. rewrite E. cbn [nth app]. rewrite (list5 _ L2). unfold damp_dhdu, damp_costate_good. cbn. unfold vget, ldot. cbn. field.
Qed.

(** Two gradients agree. *)
Lemma gradient_unique d F v g g' : length v = d -> gradient d F v g -> gradient d F v g' -> g = g'.
Proof.
  intros Hv [L G] [L' G']. apply nth_ext with (d := 0) (d' := 0); [congruence|]. intros i Hi. rewrite L in Hi.
  set (e := map (fun j => if Nat.eqb i j then 1 else 0) (seq 0 d)). set (W := fun s => ladd v (lscal s e)).
  assert (Le : length e = d) by (unfold e; rewrite map_length, seq_length; reflexivity).
  assert (Ne : forall j, (j < d)%nat -> nth j e 0 = if Nat.eqb i j then 1 else 0) by (intros j Hj; exact (vbuild_get d (fun j => if Nat.eqb i j then 1 else 0) j Hj)).
  assert (NW : forall s j, (j < d)%nat -> nth j (W s) 0 = nth j v 0 + s * nth j e 0).
  { intros s j Hj. unfold W. rewrite nth_ladd, nth_lscal by (rewrite lscal_len; congruence). reflexivity. }
  assert (C : curve d W e).
  { split; [intros s; unfold W; apply ladd_len; [exact Hv|rewrite lscal_len; exact Le]|]. split; [exact Le|]. intros j Hj.
    apply (dl_conv (fun s => nth j v 0 + s * nth j e 0) _ (0 + (1 * nth j e 0 + 0 * 0))); [intros s; apply NW; exact Hj| |ring].
    apply (dl_plus (fun _ => nth j v 0) (fun s => s * nth j e 0)); [apply dl_const|]. apply (dl_mult (fun s => s) (fun _ => nth j e 0) 1 0); [apply derivable_pt_lim_id|apply dl_const]. }
  assert (W0 : W 0 = v).
  { apply nth_ext with (d := 0) (d' := 0); [unfold W; rewrite (ladd_len _ _ d) by (rewrite ?lscal_len; assumption); congruence|].
    intros j Hj. rewrite NW; [ring|]. unfold W in Hj. rewrite (ladd_len _ _ d) in Hj by (rewrite ?lscal_len; assumption). exact Hj. }
  assert (P : forall a, length a = d -> ldot a e = nth i a 0).
  { intros a Ha. rewrite ldot_R by congruence. unfold fdot. rewrite Ha. rewrite (Rsum_ext d _ (fun j => (if Nat.eqb i j then 1 else 0) * nth j a 0)).
    - rewrite Rsum_delta by exact Hi. ring.
    - intros j Hj. change (vget e j) with (nth j e 0). rewrite Ne by exact Hj. unfold vget. cbn [nzero RNum]. ring. }
  rewrite <- (P g L), <- (P g' L'). apply (uniqueness_limite _ _ _ _ (G W e C W0) (G' W e C W0)).
Qed.
(** The costate callback of the class is right exactly when the wrong entry makes no difference. *)
Lemma damp_costate_iff p t x u l : length x = 2%nat -> length u = 3%nat -> length l = 2%nat ->
  gradient 5 (hamiltonian 2 (damp_f p 0) (damp_cost p) l) (x ++ u) (lscal (-1) (damp_costate p t l (x ++ u)) ++ damp_dhdu p t x u l)
  <-> dp_b p * nth 1 l 0 * (nth 0 u 0 - nth 1 u 0) = 0.
Proof.
  intros Hx Hu Hl. pose proof (damp_good_true p) as (_ & _ & _ & H). destruct (H t x u l Hx Hu Hl) as (_ & _ & _ & _ & G). cbn [cp_dim_x cp_dim_uc damper_good Nat.add cp_costate cp_dhdu] in G.
  destruct l as [|l0 [|l1 [|]]]; try discriminate. destruct x as [|x0 [|x1 [|]]]; try discriminate. destruct u as [|u0 [|u1 [|u2 [|]]]]; try discriminate.
  split.
  - intros G'. pose proof (gradient_unique _ _ _ _ _ (eq_refl : length ([x0; x1] ++ [u0; u1; u2]) = 5%nat) G' G) as E.
    apply (f_equal (fun v => nth 1 v 0)) in E. cbn in E. unfold vget in E. cbn in E. cbn [nth]. lra.
  - intros E. cbn [nth] in E. replace (damp_costate p t [l0; l1] ([x0; x1] ++ [u0; u1; u2])) with (damp_costate_good p t [l0; l1] ([x0; x1] ++ [u0; u1; u2])); [exact G|].
    unfold damp_costate_good, damp_costate. cbn. unfold vget. cbn. f_equal. f_equal. lra.
Qed.

(** One sweep with two columns. *)
Lemma damp_sweep (pb : cg_problem R) (h : R) : grid_step bil_conf 2 1 = h ->
  cp_dim_x pb = 2%nat -> cp_dim_uc pb = 3%nat ->
  cp_f pb = damp_f (damper_default R) -> cp_dphi pb = damp_dphi (damper_default R) -> cp_dhdu pb = damp_dhdu (damper_default R) ->
  nth 0 (concat (calc_dhdu pb bil_conf euler 1 [0; 1] [[0; 0; 0]; [0; 1; 0]])) 0
  = - (10 * (1 - h * h) + - h * nth 1 (cp_costate pb (1 + INR 2 * h) [2 * h; 10 * (1 - h * h)] [h; 1; 0; 1; 0]) 0).
Proof.
  intros Eh E1 E2 E3 E4 E5.
  pose proof (C44_time_grid pb bil_conf euler 1 [0; 1] [[0; 0; 0]; [0; 1; 0]] 2 eq_refl eq_refl) as H. cbv zeta in H. unfold calc_dhdu. rewrite Eh in H.
  destruct (calc_all pb bil_conf euler 1 [0; 1] [[0; 0; 0]; [0; 1; 0]]) as [[xs ls] ds]. destruct H as (L1 & L2 & L3 & X0 & HX & EN & El & Ed). cbn [snd].
  destruct ds as [|d0 [|d1 [|]]]; try discriminate L3. destruct ls as [|l0 [|l1 [|l2 [|]]]]; try discriminate L2. destruct xs as [|x0 [|x1 [|x2 [|]]]]; try discriminate L1.
  pose proof (HX 0%nat ltac:(lia)) as HX0. pose proof (HX 1%nat ltac:(lia)) as HX1. specialize (Ed 0%nat ltac:(lia)). specialize (El 1%nat ltac:(lia)).
  rewrite E3 in HX0, HX1. rewrite E4 in EN. rewrite E5 in Ed. cbn [nth Nat.add] in X0, HX0, HX1, EN, Ed, El. subst x0.
  assert (X1 : x1 = [h; 1]). { rewrite HX0. unfold euler, vadd, vscale, vbuild, vget. cbn. unfold vget. cbn. f_equal; [ring|f_equal; field]. }
  assert (X2 : x2 = [2 * h; 1 - h * h]). { rewrite HX1, X1. unfold euler, vadd, vscale, vbuild, vget. cbn. unfold vget. cbn. f_equal; [ring|f_equal; field]. }
  assert (N2 : l2 = [2 * h; 10 * (1 - h * h)]). { rewrite EN, X2. unfold damp_dphi. cbn. unfold vget. cbn. f_equal; [field|f_equal; field]. }
  rewrite X1, N2 in El. cbn [app] in El.
  assert (N1 : nth 1 l1 0 = 10 * (1 - h * h) + - h * nth 1 (cp_costate pb (1 + INR 2 * h) [2 * h; 10 * (1 - h * h)] [h; 1; 0; 1; 0]) 0).
  { rewrite El. set (c := cp_costate pb). unfold euler, vadd, vscale, vbuild. cbn [length seq map nth]. unfold vget. cbn [nth]. cbn [nzero RNum]. cbn [nadd nmul].
    assert (Nc : forall (v : list R), nth 1 (map (fun i => - h * nth i v 0) (seq 0 (length v))) 0 = - h * nth 1 v 0).
    { intros v. change (vget (vscale (- h) v) 1 = - h * vget v 1). rewrite vscale_f. reflexivity. }
    rewrite <- Nc. reflexivity. }
  rewrite Ed. clear -N1. revert N1. generalize (nth 1 (cp_costate pb (1 + INR 2 * h) [2 * h; 10 * (1 - h * h)] [h; 1; 0; 1; 0]) 0). intros K N1. unfold damp_dhdu. cbn. unfold vget. cbn. rewrite N1. field.
Qed.

Lemma damp_grad_wrong : ~ gradient 6 (fun U => horizon_cost (damp_f (damper_default R) 0) (damp_cost (damper_default R)) (damp_end (damper_default R))
    (grid_step bil_conf 2 1) [0; 1] (columns 3 2 U)) [0; 0; 0; 0; 1; 0]
  (lscal (grid_step bil_conf 2 1) (concat (calc_dhdu (damper (damper_default R)) bil_conf euler 1 [0; 1] [[0; 0; 0]; [0; 1; 0]]))).
Proof.
  intros G. pose proof (C45_exact_gradient (damper_good (damper_default R)) bil_conf _ _ _ 1 [0; 1] [[0; 0; 0]; [0; 1; 0]] 2 (damp_good_true _) eq_refl eq_refl eq_refl
    ltac:(intros u [<-|[<-|[]]]; reflexivity)) as G'. cbv zeta in G'. cbn [cp_dim_uc damper_good Nat.mul Nat.add concat app] in G'.
  pose proof (gradient_unique 6 _ [0; 0; 0; 0; 1; 0] _ _ eq_refl G G') as E. apply (f_equal (fun v => nth 0 v 0)) in E. rewrite !nth_lscal in E.
  assert (Hh : 0 < grid_step bil_conf 2 1 < 1).
  { unfold grid_step. cbn. pose proof (exp_increasing (- (1 * 1)) 0 ltac:(lra)) as H. rewrite exp_0 in H. pose proof (exp_pos (- (1 * 1))). lra. }
  remember (grid_step bil_conf 2 1) as h eqn:Eh. symmetry in Eh.
  rewrite (damp_sweep (damper (damper_default R)) h Eh), (damp_sweep (damper_good (damper_default R)) h Eh) in E by reflexivity.
  cbn [cp_costate damper damper_good] in E. unfold damp_costate, damp_costate_good, vhead, vtail in E. cbn in E. unfold vget in E. cbn in E.
  assert (K : 0 < h * h * (1 - h * h)) by (apply Rmult_lt_0_compat; nra). lra.
Qed.
