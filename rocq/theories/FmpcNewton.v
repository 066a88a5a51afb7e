(** The passes of the FMPC solver solve the linearised KKT system (exact arithmetic). *)
From Coq Require Import Reals Lra Psatz FunctionalExtensionality.
From Verif Require Import Prelude Scalar LinAlg RLin DDP Fmpc FmpcProofs FmpcStep FmpcSpec FmpcReal.
Local Open Scope R_scope.

(** ** Algebra on functions *)
Definition fhad (w y : fvec) : fvec := fun i => w i * y i.
(** A diag(w) *)
Definition fcs (A : fmat) (w : fvec) : fmat := fun i j => A i j * w j.
Lemma fhad_add w x y : fhad w (fadd x y) = fadd (fhad w x) (fhad w y).
Proof. extensionality i. unfold fhad, fadd. ring. Qed.
Lemma fmv_fcs n A w y : fmv n (fcs A w) y = fmv n A (fhad w y).
Proof. extensionality i. apply Rsum_ext. intros j _. unfold fcs, fhad. ring. Qed.
Lemma fmv_fcs_tr n A w y : fmv n (ftr (fcs (ftr A) w)) y = fhad w (fmv n A y).
Proof. extensionality i. unfold fmv, fhad. rewrite <- Rsum_scal. apply Rsum_ext. intros j _. unfold fcs, ftr. ring. Qed.
Lemma fmm_assoc n m A B C : fmm m (fmm n A B) C = fmm n A (fmm m B C).
Proof.
  extensionality i; extensionality j. unfold fmm.
  transitivity (Rsum m (fun k => Rsum n (fun l => A i l * B l k * C k j))).
  { apply Rsum_ext; intros k Hk. rewrite <- Rsum_scal_r. reflexivity. }
  rewrite Rsum_swap. apply Rsum_ext; intros l Hl. rewrite <- Rsum_scal. apply Rsum_ext; intros; ring.
Qed.
Lemma fmm_opp_l n A B : fmm n (fmscal (-1) A) B = fmscal (-1) (fmm n A B).
Proof. extensionality i; extensionality j. unfold fmm, fmscal. rewrite <- Rsum_scal. apply Rsum_ext; intros; ring. Qed.
Lemma fquad_sym n A P : ftr P = P -> ftr (fmm n (fmm n (ftr A) P) A) = fmm n (fmm n (ftr A) P) A.
Proof. intros H. rewrite !ftr_mm, ftr_tr, H, fmm_assoc. reflexivity. Qed.
Lemma fweight_sym n A w : ftr (fmm n (fcs (ftr A) w) A) = fmm n (fcs (ftr A) w) A.
Proof. extensionality i; extensionality j. unfold ftr, fmm, fcs. apply Rsum_ext; intros; ring. Qed.

Section Alg.
  Variables (nx nu ng : nat) (dt : R) (A B C D Lxx Lxu Luu P K : fmat) (w tl xb lxb lub sl k : fvec).
  Definition nQxx : fmat := fmadd (fmscal dt Lxx) (fmm ng (fcs (ftr C) w) C).
  Definition nQuu : fmat := fmadd (fmscal dt Luu) (fmm ng (fcs (ftr D) w) D).
  Definition nQxu : fmat := fmadd (fmscal dt Lxu) (fmm ng (fcs (ftr C) w) D).
  Definition nF : fmat := fmadd nQxx (fmm nx (fmm nx (ftr A) P) A).
  Definition nH : fmat := fmadd nQxu (fmm nx (fmm nx (ftr A) P) B).
  Definition nG : fmat := fmadd nQuu (fmm nx (fmm nx (ftr B) P) B).
  Definition nrhs : fvec := fadd (fmv nx (ftr B) (fsubv (fmv nx P xb) sl)) (fadd lub (fmv ng (ftr D) tl)).
  Definition nP1 : fmat := fun i j => nF i j - fmm nu (fmm nu (ftr K) nG) K i j.
  Definition nP : fmat := fmscal (/ 2) (fmadd nP1 (ftr nP1)).
  Definition ns : fvec := fsubv (fsubv (fmv nx (ftr A) (fsubv sl (fmv nx P xb))) (fadd lxb (fmv ng (ftr C) tl))) (fmv nu nH k).
  Hypothesis HsP : ftr P = P.
  Hypothesis HsL : ftr Lxx = Lxx.
  Hypothesis HsU : ftr Luu = Luu.
  Hypothesis HK : fmm nu nG K = fmscal (-1) (ftr nH).
  Hypothesis Hk : fmv nu nG k = fscal (-1) nrhs.

  Lemma nG_sym : ftr nG = nG.
  Proof. unfold nG, nQuu. rewrite !ftr_madd, ftr_mscal, HsU, fweight_sym, fquad_sym by exact HsP. reflexivity. Qed.
  Lemma nF_sym : ftr nF = nF.
  Proof. unfold nF, nQxx. rewrite !ftr_madd, ftr_mscal, HsL, fweight_sym, fquad_sym by exact HsP. reflexivity. Qed.
  Lemma KGK : fmm nu (fmm nu (ftr K) nG) K = fmscal (-1) (fmm nu nH K).
  Proof.
    assert (E : fmm nu (ftr K) nG = fmscal (-1) nH).
    { rewrite <- nG_sym at 1. rewrite <- ftr_mm, HK. reflexivity. }
    rewrite E. apply fmm_opp_l.
  Qed.
  Lemma nP1_eq : nP1 = fmadd nF (fmm nu nH K).
  Proof. unfold nP1. rewrite KGK. extensionality i; extensionality j. unfold fmscal, fmadd. ring. Qed.
  Lemma nP1_sym : ftr nP1 = nP1.
  Proof.
    unfold nP1. extensionality i; extensionality j. unfold ftr at 1.
    pose proof (f_equal (fun M => M i j) nF_sym) as E1. unfold ftr in E1. cbn in E1.
    pose proof (f_equal (fun M => M i j) (fquad_sym nu K nG nG_sym)) as E2. unfold ftr at 1 in E2. rewrite E1, E2. reflexivity.
  Qed.
  Lemma nP_eq : nP = fmadd nF (fmm nu nH K).
  Proof. unfold nP. rewrite nP1_sym, nP1_eq. extensionality i; extensionality j. unfold fmscal, fmadd. field. Qed.
  Lemma nP_sym : ftr nP = nP.
  Proof. unfold nP. rewrite ftr_mscal, ftr_madd, ftr_tr, nP1_sym. reflexivity. Qed.

  Variable dx : fvec.
  Definition ndu : fvec := fadd (fmv nx K dx) k.
  Definition ndx' : fvec := fadd (fadd (fmv nx A dx) (fmv nu B ndu)) xb.
  Definition ndl' : fvec := fsubv (fmv nx P ndx') sl.
  Definition ndn : fvec := fadd (fhad w (fadd (fmv nx C dx) (fmv nu D ndu))) tl.

  Lemma newton_u : fadd (fadd (fadd (fadd (fscal dt (fmv nx (ftr Lxu) dx)) (fscal dt (fmv nu Luu ndu))) (fmv nx (ftr B) ndl')) (fmv ng (ftr D) ndn)) lub
    = fzero.
  Proof.
    assert (E : fmv nu nG ndu = fsubv (fscal (-1) (fmv nx (ftr nH) dx)) nrhs).
    { unfold ndu. rewrite fmv_add, <- fmv_mm, HK, Hk, fmv_mscal. extensionality i. unfold fadd, fsubv, fscal. ring. }
    unfold nG, nQuu, nH, nQxu, nrhs in E.
    rewrite !ftr_madd, ftr_mscal, !ftr_mm, HsP, ftr_tr in E.
    rewrite !fmv_madd, !fmv_mscal, !fmv_mm, fmv_fcs, fmv_fcs_tr in E.
    unfold ndn, ndl', ndx'. rewrite !fhad_add, !fmv_add, !fmv_sub, !fmv_add.
    rewrite !fmv_sub in E. extensionality i. apply (f_equal (fun f => f i)) in E. unfold fadd, fsubv, fscal, fzero in *. lra.
  Qed.
  Lemma newton_x : fadd (fadd (fadd (fadd (fscal dt (fmv nx Lxx dx)) (fscal dt (fmv nu Lxu ndu))) (fmv nx (ftr A) ndl')) (fmv ng (ftr C) ndn)) lxb
    = fsubv (fmv nx nP dx) ns.
  Proof.
    rewrite nP_eq. unfold ns. rewrite fmv_madd, fmv_mm.
    assert (E : fmv nu nH ndu = fadd (fmv nu nH (fmv nx K dx)) (fmv nu nH k)) by (unfold ndu; apply fmv_add).
    unfold nF, nQxx, nH, nQxu in *. rewrite !fmv_madd, !fmv_mscal, !fmv_mm, !fmv_fcs in *.
    unfold ndn, ndl', ndx'. rewrite !fhad_add, !fmv_add, !fmv_sub, !fmv_add.
    extensionality i. apply (f_equal (fun f => f i)) in E. unfold fadd, fsubv, fscal, fzero in *. lra.
  Qed.
End Alg.

(** ** Bridges *)
Lemma vmul_f (x y : vec R) : length x = length y -> vget (vmul x y) = fhad (vget x) (vget y).
Proof.
  intros H. unfold vmul. apply (vbuild_fun (length x) (fhad (vget x) (vget y))).
  intros i Hi; unfold fhad. rewrite !vget_out by lia. lra.
Qed.
Lemma vdiv_f (x y : vec R) : vget (vdiv x y) = fun i => vget x i / vget y i.
Proof. unfold vdiv. apply (vbuild_fun (length x) (fun i => vget x i / vget y i)). intros i Hi. rewrite !(vget_out x) by lia. lra. Qed.
Lemma mcolscale_dim r c (A : mat R) v : mdimb r c A = true -> mdimb r c (mcolscale A v) = true.
Proof. intros H. unfold mcolscale. rewrite (mdimb_rows _ _ _ H), (mdimb_cols _ _ _ H). apply mbuild_dim. Qed.
Lemma mcolscale_f r c (A : mat R) v : mdimb r c A = true -> mget (mcolscale A v) = fcs (mget A) (vget v).
Proof.
  intros H. unfold mcolscale. rewrite (mdimb_rows _ _ _ H), (mdimb_cols _ _ _ H).
  apply (mbuild_fun r c (fcs (mget A) (vget v))). intros i j Hij. unfold fcs. rewrite (mget_outR r c) by auto. lra.
Qed.
Lemma msub_dim r c (A B : mat R) : mdimb r c A = true -> mdimb r c (msub A B) = true.
Proof. intros H. unfold msub. rewrite (mdimb_rows _ _ _ H), (mdimb_cols _ _ _ H). apply mbuild_dim. Qed.
Lemma msub_f r c (A B : mat R) : mdimb r c A = true -> mdimb r c B = true -> mget (msub A B) = fun i j => mget A i j - mget B i j.
Proof.
  intros H H'. unfold msub. rewrite (mdimb_rows _ _ _ H), (mdimb_cols _ _ _ H).
  apply (mbuild_fun r c (fun i j => mget A i j - mget B i j)). intros i j Hij.
  rewrite (mget_outR r c A), (mget_outR r c B) by auto. lra.
Qed.
Lemma mone_R : @mone R RNum = -1. Proof. unfold mone. numR. lra. Qed.
Lemma ftr_sym n (A : mat R) : mdimb n n A = true -> fsym n (mget A) -> ftr (mget A) = mget A.
Proof.
  intros H S. extensionality i; extensionality j. unfold ftr.
  destruct (Nat.lt_ge_cases i n) as [Hi|Hi]; [destruct (Nat.lt_ge_cases j n) as [Hj|Hj]|].
  - apply S; assumption.
  - rewrite !(mget_outR n n A) by auto. reflexivity.
  - rewrite !(mget_outR n n A) by auto. reflexivity.
Qed.
Lemma mat_fun_ext r c (A B : mat R) : mdimb r c A = true -> mdimb r c B = true ->
  (forall i j, (i < r)%nat -> (j < c)%nat -> mget A i j = mget B i j) -> mget A = mget B.
Proof.
  intros HA HB H. extensionality i; extensionality j.
  destruct (Nat.lt_ge_cases i r) as [Hi|Hi]; [destruct (Nat.lt_ge_cases j c) as [Hj|Hj]|].
  - apply H; assumption.
  - rewrite (mget_outR r c A), (mget_outR r c B) by auto. reflexivity.
  - rewrite (mget_outR r c A), (mget_outR r c B) by auto. reflexivity.
Qed.
Lemma vec_fun_ext n (x y : vec R) : length x = n -> length y = n -> (forall i, (i < n)%nat -> vget x i = vget y i) -> vget x = vget y.
Proof.
  intros Hx Hy H. extensionality i. destruct (Nat.lt_ge_cases i n); [apply H; assumption|]. rewrite !vget_out by lia. reflexivity.
Qed.

Lemma vlen_add (x y : vec R) : length (vadd x y) = length x. Proof. apply vbuild_length. Qed.
Lemma vlen_sub (x y : vec R) : length (vsub x y) = length x. Proof. apply vbuild_length. Qed.
Lemma vlen_scale c (x : vec R) : length (vscale c x) = length x. Proof. apply vbuild_length. Qed.
Lemma vlen_mul (x y : vec R) : length (vmul x y) = length x. Proof. apply vbuild_length. Qed.
Lemma vlen_div (x y : vec R) : length (vdiv x y) = length x. Proof. apply vbuild_length. Qed.
Lemma vlen_inv (x : vec R) : length (vinv x) = length x. Proof. apply vbuild_length. Qed.
Lemma vlen_mv r c (A : mat R) x : mdimb r c A = true -> length (mvmul A x) = r.
Proof. intros H. rewrite mvmul_length. apply mdimb_rows in H. exact H. Qed.
Ltac mdims := repeat (assumption || apply mmul_dim with (m := _) || apply madd_dim || apply mscale_dim || apply msub_dim || apply mtr_dim || apply mcolscale_dim).

Section Bw.
  Variables (LO : linops R) (pb : fproblem R) (cf : fconfig R).
  Notation nx := (pb_nx (fp_dp pb)).
  Definition tilde (eps : R) (c : coeff R) (sl nl : vec R) : vec R :=
    vadd (vsub (vmul (vdiv nl sl) (c_gbar c)) nl) (vscale eps (vinv sl)).
  (** What one step of the backward pass leaves, in functions. *)
  Record bw_fact (eps : R) (c : coeff R) (sl nl s : vec R) (P : mat R) (c' : coeff R) : Prop := {
    bf_same : c_A c' = c_A c /\ c_B c' = c_B c /\ c_C c' = c_C c /\ c_D c' = c_D c /\ c_xbar c' = c_xbar c /\ c_gbar c' = c_gbar c;
    bf_dims : let nu := mcols (c_B c) in let ng := length sl in
      length s = nx /\ mdimb nx nx P = true /\ mdimb nx nx (c_A c) = true /\ mdimb nx nu (c_B c) = true /\ mdimb ng nx (c_C c) = true /\
      mdimb ng nu (c_D c) = true /\ mdimb nx nx (c_Lxx c) = true /\ mdimb nu nu (c_Luu c) = true /\ mdimb nx nu (c_Lxu c) = true /\
      length (c_xbar c) = nx /\ length (c_gbar c) = ng /\ length (c_Lxbar c) = nx /\ length (c_Lubar c) = nu /\ length nl = ng;
    bf_out : let nu := mcols (c_B c) in
      length (c_k c') = nu /\ mdimb nu nx (c_K c') = true /\ length (c_s c') = nx /\ mdimb nx nx (c_P c') = true;
    bf_K : let nu := mcols (c_B c) in let ng := length sl in let w := vget (vdiv nl sl) in let dt := pb_dt (fp_dp pb) in
      let G := nG nx ng dt (mget (c_B c)) (mget (c_D c)) (mget (c_Luu c)) (mget P) w in
      let H := nH nx ng dt (mget (c_A c)) (mget (c_B c)) (mget (c_C c)) (mget (c_D c)) (mget (c_Lxu c)) (mget P) w in
      fmm nu G (mget (c_K c')) = fmscal (-1) (ftr H) /\
      fmv nu G (vget (c_k c')) = fscal (-1) (nrhs nx ng (mget (c_B c)) (mget (c_D c)) (mget P) (vget (tilde eps c sl nl)) (vget (c_xbar c)) (vget (c_Lubar c)) (vget s)) /\
      vget (c_s c') = ns nx nu ng dt (mget (c_A c)) (mget (c_B c)) (mget (c_C c)) (mget (c_D c)) (mget (c_Lxu c)) (mget P) w
        (vget (tilde eps c sl nl)) (vget (c_xbar c)) (vget (c_Lxbar c)) (vget s) (vget (c_k c')) /\
      mget (c_P c') = nP nx nu ng dt (mget (c_A c)) (mget (c_B c)) (mget (c_C c)) (mget (c_D c)) (mget (c_Lxx c)) (mget (c_Luu c)) (mget P) (mget (c_K c')) w
  }.

  Lemma bw_coeff_R eps c sl nl s P c' : bw_coeff LO pb cf eps c sl nl s P = Some (Some c') ->
    exact_at LO (mcols (c_B c)) -> fsym nx (mget P) -> fsym (mcols (c_B c)) (mget (c_Luu c)) ->
    nonsing (mcols (c_B c)) (nG nx (length sl) (pb_dt (fp_dp pb)) (mget (c_B c)) (mget (c_D c)) (mget (c_Luu c)) (mget P) (vget (vdiv nl sl))) ->
    bw_fact eps c sl nl s P c'.
  Proof.
    intros H HX HP HU HN. unfold bw_coeff in H. cbn zeta in H. opt1 H. unfold vdimb, dp in B. rewrite !andb_true_iff, !Nat.eqb_eq in B.
    destruct B as (((((((((((((B1 & B2) & B3) & B4) & B5) & B6) & B7) & B8) & B9) & B10) & B11) & B12) & B13) & B14).
    unfold dp in *. fold (tilde eps c sl nl) in H. set (w := vdiv nl sl) in *. set (nu := mcols (c_B c)) in *. set (ng := length sl) in *.
    assert (Lt : length (tilde eps c sl nl) = ng) by (unfold tilde; rewrite vlen_add, vlen_sub, vlen_mul, vlen_div; exact B14).
    set (dt := pb_dt (fp_dp pb)) in *.
    set (G := madd (madd (mscale dt (c_Luu c)) (mmul (mcolscale (mtr (c_D c)) w) (c_D c))) (mmul (mmul (mtr (c_B c)) P) (c_B c))) in *.
    set (Hm := madd (madd (mscale dt (c_Lxu c)) (mmul (mcolscale (mtr (c_C c)) w) (c_D c))) (mmul (mmul (mtr (c_A c)) P) (c_B c))) in *.
    set (Fm := madd (madd (mscale dt (c_Lxx c)) (mmul (mcolscale (mtr (c_C c)) w) (c_C c))) (mmul (mmul (mtr (c_A c)) P) (c_A c))) in *.
    set (rhs := vadd (mvmul (mtr (c_B c)) (vsub (mvmul P (c_xbar c)) s)) (vadd (c_Lubar c) (mvmul (mtr (c_D c)) (tilde eps c sl nl)))) in *.
    pose proof (mtr_dim _ _ _ B3) as TA. pose proof (mtr_dim _ _ _ B4) as TB. pose proof (mtr_dim _ _ _ B5) as TC. pose proof (mtr_dim _ _ _ B6) as TD.
    assert (DG : mdimb nu nu G = true).
    { unfold G. apply madd_dim, madd_dim, mscale_dim; assumption. }
    assert (DH : mdimb nx nu Hm = true) by (unfold Hm; apply madd_dim, madd_dim, mscale_dim; assumption).
    assert (DF : mdimb nx nx Fm = true) by (unfold Fm; apply madd_dim, madd_dim, mscale_dim; assumption).
    assert (EG : mget G = nG nx ng dt (mget (c_B c)) (mget (c_D c)) (mget (c_Luu c)) (mget P) (vget w)).
    { unfold G, nG, nQuu. rewrite (madd_f nu nu).
      - rewrite (madd_f nu nu), (mscale_f nu nu), (mmul_f nu nu ng), (mcolscale_f nu ng), (mtr_f ng nu), (mmul_f nu nu nx), (mmul_f nu nx nx), (mtr_f nx nu);
          try assumption; try reflexivity; try (apply mcolscale_dim; assumption); try (apply mscale_dim; assumption);
          try (apply mmul_dim with nx; assumption); try (apply mmul_dim with ng; [apply mcolscale_dim|]; assumption).
      - apply madd_dim, mscale_dim; assumption.
      - apply mmul_dim with nx; [apply mmul_dim with nx|]; assumption. }
    assert (EH : mget Hm = nH nx ng dt (mget (c_A c)) (mget (c_B c)) (mget (c_C c)) (mget (c_D c)) (mget (c_Lxu c)) (mget P) (vget w)).
    { unfold Hm, nH, nQxu. rewrite (madd_f nx nu).
      - rewrite (madd_f nx nu), (mscale_f nx nu), (mmul_f nx nu ng), (mcolscale_f nx ng), (mtr_f ng nx), (mmul_f nx nu nx), (mmul_f nx nx nx), (mtr_f nx nx);
          try assumption; try reflexivity; try (apply mcolscale_dim; assumption); try (apply mscale_dim; assumption);
          try (apply mmul_dim with nx; assumption); try (apply mmul_dim with ng; [apply mcolscale_dim|]; assumption).
      - apply madd_dim, mscale_dim; assumption.
      - apply mmul_dim with nx; [apply mmul_dim with nx|]; assumption. }
    assert (EF : mget Fm = nF nx ng dt (mget (c_A c)) (mget (c_C c)) (mget (c_Lxx c)) (mget P) (vget w)).
    { unfold Fm, nF, nQxx. rewrite (madd_f nx nx).
      - rewrite (madd_f nx nx), (mscale_f nx nx), (mmul_f nx nx ng), (mcolscale_f nx ng), (mtr_f ng nx), (mmul_f nx nx nx), (mmul_f nx nx nx), (mtr_f nx nx);
          try assumption; try reflexivity; try (apply mcolscale_dim; assumption); try (apply mscale_dim; assumption);
          try (apply mmul_dim with nx; assumption); try (apply mmul_dim with ng; [apply mcolscale_dim|]; assumption).
      - apply madd_dim, mscale_dim; assumption.
      - apply mmul_dim with nx; [apply mmul_dim with nx|]; assumption. }
    assert (LR : length rhs = nu) by (unfold rhs; rewrite vlen_add; apply (vlen_mv _ _ _ _ TB)).
    assert (ER : vget rhs = nrhs nx ng (mget (c_B c)) (mget (c_D c)) (mget P) (vget (tilde eps c sl nl)) (vget (c_xbar c)) (vget (c_Lubar c)) (vget s)).
    { unfold rhs, nrhs. rewrite vadd_f by (rewrite (vlen_mv _ _ _ _ TB), vlen_add; lia).
      rewrite (mvmul_f nu nx), (mtr_f nx nu), vsub_f, (mvmul_f nx nx), vadd_f, (mvmul_f nu ng), (mtr_f ng nu); try assumption; try reflexivity.
      - rewrite (vlen_mv _ _ _ _ TD). exact B13.
      - rewrite (vlen_mv _ _ _ _ B2). lia. }
    assert (SG : fsym nu (mget G)).
    { rewrite EG. intros i j _ _. pose proof (nG_sym nx ng dt (mget (c_B c)) (mget (c_D c)) (mget (c_Luu c)) (mget P) (vget w) (ftr_sym _ _ B2 HP) (ftr_sym _ _ B8 HU)) as E.
      apply (f_equal (fun M => M j i)) in E. exact E. }
    assert (NG : nonsing nu (mget G)) by (rewrite EG; exact HN).
    assert (GK : exists k K, (if Nat.ltb 0 nu then
         if ld_ok LO G then Some (vscale mone (ld_vec LO G rhs), mscale mone (ld_mat LO G (mtr Hm)))
         else if fc_break cf then None
         else Some (vscale mone (lu_vec LO G rhs), mscale mone (lu_mat LO G (mtr Hm)))
       else Some ([], mzero 0 nx)) = Some (k, K) /\ length k = nu /\ mdimb nu nx K = true /\
       fmm nu (mget G) (mget K) = fmscal (-1) (ftr (mget Hm)) /\ fmv nu (mget G) (vget k) = fscal (-1) (vget rhs)).
    { destruct (HX G DG SG NG) as (X1 & X2).
      assert (Y : forall sv sm, solves nu G sv sm -> length (vscale mone (sv rhs)) = nu /\ mdimb nu nx (mscale mone (sm (mtr Hm))) = true /\
        fmm nu (mget G) (mget (mscale mone (sm (mtr Hm)))) = fmscal (-1) (ftr (mget Hm)) /\
        fmv nu (mget G) (vget (vscale mone (sv rhs))) = fscal (-1) (vget rhs)).
      { intros sv sm (V1 & V2). destruct (V1 rhs LR) as (V3 & V4). destruct (V2 nx (mtr Hm) (mtr_dim _ _ _ DH)) as (V5 & V6).
        split; [rewrite vlen_scale; exact V3|]. split; [apply mscale_dim; exact V5|]. rewrite mone_R. split.
        - rewrite (mscale_f nu nx) by exact V5. rewrite <- (mtr_f nx nu Hm DH).
          assert (E : mget (mmul G (sm (mtr Hm))) = mget (mtr Hm)).
          { apply (mat_fun_ext nu nx); [apply mmul_dim with nu; assumption|apply mtr_dim; exact DH|]. intros i j Hi Hj.
            rewrite (mmul_f nu nx nu) by assumption. apply V6; assumption. }
          rewrite (mmul_f nu nx nu) in E by assumption. rewrite <- E. extensionality i; extensionality j. unfold fmm, fmscal.
          rewrite <- Rsum_scal. apply Rsum_ext; intros; ring.
        - rewrite vscale_f. rewrite fmv_scal. f_equal.
          assert (E : vget (mvmul G (sv rhs)) = vget rhs).
          { apply (vec_fun_ext nu); [apply (vlen_mv _ _ _ _ DG)|exact LR|]. intros i Hi. rewrite (mvmul_f nu nu) by exact DG. apply V4. exact Hi. }
          rewrite (mvmul_f nu nu) in E by exact DG. exact E. }
      destruct (Nat.ltb 0 nu) eqn:Enu.
      - destruct (ld_ok LO G) eqn:El.
        + destruct (Y _ _ (X1 eq_refl)) as (Y1 & Y2 & Y3 & Y4). eauto 10.
        + destruct (fc_break cf); [discriminate H|]. destruct (Y _ _ (X2 eq_refl)) as (Y1 & Y2 & Y3 & Y4). eauto 10.
      - apply Nat.ltb_ge in Enu. exists [], (mzero 0 nx). split; [reflexivity|]. assert (Z0 : nu = 0%nat) by lia.
        split; [rewrite Z0; reflexivity|]. split; [rewrite Z0; apply mzero_dim|]. split.
        + rewrite <- (mtr_f nx nu Hm DH). extensionality i; extensionality j. unfold fmscal.
          rewrite (mget_outR nu nx (mtr Hm)) by (try (apply mtr_dim; exact DH); lia). unfold fmm. rewrite Z0. cbn. lra.
        + extensionality i. unfold fscal. rewrite (vget_out rhs) by lia. unfold fmv. rewrite Z0. cbn. lra. }
    destruct GK as (k & K & EGK & Lk & DK & FK & Fk). rewrite EGK in H. opt1 H. clear B. do 2 apply some_inj in H. subst c'.
    constructor; cbn [c_A c_B c_C c_D c_xbar c_gbar c_k c_K c_s c_P]; cbn zeta; fold nu ng w dt.
    - repeat split.
    - repeat (split; [assumption|]). exact B14.
    - split; [exact Lk|]. split; [exact DK|]. split.
      + rewrite !vlen_sub. apply (vlen_mv _ _ _ _ TA).
      + apply mscale_dim, madd_dim, msub_dim. exact DF.
    - rewrite <- EG, <- EH. split; [exact FK|]. split; [rewrite <- ER; exact Fk|]. split.
      + unfold ns. rewrite <- EH. rewrite vsub_f by (rewrite vlen_sub, (vlen_mv _ _ _ _ TA), (vlen_mv _ _ _ _ DH); reflexivity).
        rewrite vsub_f by (rewrite vlen_add, (vlen_mv _ _ _ _ TA); lia).
        rewrite (mvmul_f nx nx), (mtr_f nx nx), vsub_f, (mvmul_f nx nx), vadd_f, (mvmul_f nx ng), (mtr_f ng nx), (mvmul_f nx nu); try assumption; try reflexivity.
        * rewrite (vlen_mv _ _ _ _ TC). exact B12.
        * rewrite (vlen_mv _ _ _ _ B2). exact B1.
      + unfold nP, nP1. rewrite <- EG, <- EF.
        assert (DKG : mdimb nx nx (mmul (mmul (mtr K) G) K) = true).
        { apply mmul_dim with nu; [apply mmul_dim with nu; [apply mtr_dim|]|]; assumption. }
        rewrite (mscale_f nx nx) by (apply madd_dim, msub_dim; exact DF).
        rewrite (madd_f nx nx) by (try apply mtr_dim; apply msub_dim; exact DF).
        rewrite (mtr_f nx nx) by (apply msub_dim; exact DF). rewrite (msub_f nx nx) by assumption.
        rewrite (mmul_f nx nx nu), (mmul_f nx nu nu), (mtr_f nu nx); try assumption; try (apply mtr_dim; assumption).
        2:{ apply mmul_dim with nu; [apply mtr_dim|]; assumption. }
        unfold nhalf. f_equal. numR. lra.
  Qed.
End Bw.

(** ** The passes, list by list *)
Section Lists.
  Context {T : Type} {N : Num T}.
  Variables (LO : linops T) (pb : fproblem T) (cf : fconfig T).
  Notation nx := (pb_nx (fp_dp pb)).

  Lemma bw_coeffs_spec eps cl ss ns n : forall e acc out, bw_coeffs LO pb cf eps cl ss ns n (c_s e) (c_P e) (e :: acc) = Some (true, out) ->
    (forall j, nth_error out (n + j) = nth_error (e :: acc) j) /\
    forall i, (i < n)%nat -> exists c sl nl c' cn, nth_error cl i = Some c /\ nth_error ss i = Some sl /\ nth_error ns i = Some nl /\
      nth_error out i = Some c' /\ nth_error out (i + 1) = Some cn /\ bw_coeff LO pb cf eps c sl nl (c_s cn) (c_P cn) = Some (Some c').
  Proof.
    induction n as [|n IH]; intros e acc out H; cbn [bw_coeffs] in H.
    - injection H as <-. split; [reflexivity|]. intros i Hi; lia.
    - do 4 opt1 H. destruct o as [c'|]; [|discriminate H]. apply IH in H as (H1 & H2). split.
      + intros j. replace (Datatypes.S n + j)%nat with (n + Datatypes.S j)%nat by lia. rewrite H1. reflexivity.
      + intros i Hi. destruct (Nat.eq_dec i n) as [->|Hne]; [|apply H2; lia].
        exists c, v, v0, c', e. repeat (split; [assumption|]). split; [specialize (H1 0%nat); rewrite Nat.add_0_r in H1; exact H1|].
        split; [apply (H1 1%nat)|assumption].
  Qed.
  Lemma fw_lists_spec n : forall cl dx xs ls us, fw_lists pb cl n dx = Some (xs, ls, us) ->
    length xs = (n + 1)%nat /\ length ls = (n + 1)%nat /\ length us = n /\ nth_error xs 0 = Some dx /\
    (forall i, (i <= n)%nat -> exists c dxi dli, nth_error cl i = Some c /\ nth_error xs i = Some dxi /\ nth_error ls i = Some dli /\
       length dxi = nx /\ mdimb nx nx (c_P c) = true /\ length (c_s c) = nx /\ dli = vsub (mvmul (c_P c) dxi) (c_s c)) /\
    (forall i, (i < n)%nat -> exists c dxi dui dx', nth_error cl i = Some c /\ nth_error xs i = Some dxi /\ nth_error us i = Some dui /\
       nth_error xs (i + 1) = Some dx' /\ let nu := mcols (c_B c) in
       mdimb nu nx (c_K c) = true /\ length (c_k c) = nu /\ mdimb nx nx (c_A c) = true /\ mdimb nx nu (c_B c) = true /\ length (c_xbar c) = nx /\
       dui = vadd (mvmul (c_K c) dxi) (c_k c) /\ dx' = vadd (vadd (mvmul (c_A c) dxi) (mvmul (c_B c) dui)) (c_xbar c)).
  Proof.
    induction n as [|n IH]; intros cl dx xs ls us H; destruct cl as [|c cl]; cbn [fw_lists] in H; try discriminate H; cbn zeta in H.
    - opt1 H. injection H as <- <- <-. unfold vdimb, dp in B. rewrite !andb_true_iff, !Nat.eqb_eq in B. destruct B as ((B1 & B2) & B3).
      repeat (split; [reflexivity|]). split; [|intros i Hi; lia].
      intros i Hi. assert (i = 0)%nat by lia. subst i. cbn [nth_error]. exists c, dx, (vsub (mvmul (c_P c) dx) (c_s c)). auto 10.
    - opt1 H. opt1 H. opt1 H. destruct p as [[xs' ls'] us']. injection H as <- <- <-.
      unfold vdimb, dp in B, B0. rewrite !andb_true_iff, !Nat.eqb_eq in B. rewrite !andb_true_iff, !Nat.eqb_eq in B0. destruct B as ((B1 & B2) & B3). destruct B0 as ((((B4 & B5) & B6) & B7) & B8).
      apply IH in E as (L1 & L2 & L3 & H0 & H1 & H2). cbn [length nth_error]. repeat (split; [lia|]). split; [reflexivity|]. split.
      + intros [|i] Hi; cbn [nth_error]; [|apply H1; lia]. exists c, dx, (vsub (mvmul (c_P c) dx) (c_s c)). auto 10.
      + intros [|i] Hi; cbn [nth_error Nat.add]; [|apply H2; lia].
        do 4 eexists. repeat (split; [reflexivity || eassumption|]). cbn zeta. repeat (split; [assumption|]). auto.
  Qed.

  Lemma proc_cont fuel it s s' : proc_once LO pb cf fuel it s = Ok IterationContinued s' ->
    exists eps cl e cl' d, let sc := checked s it eps cl e in new_eps cf s eps /\ coeffs pb cf (f_t s) (f_var s) (f_coeff s) = Some cl /\
      backward_pass LO pb cf sc = Ok true (set_fcoeff cl' sc) /\
      delta_of pb cf (set_fcoeff cl' sc) = Some d /\ update_variables pb cf fuel (set_fdelta d (set_fcoeff cl' sc)) = Ok true s' /\
      f_coeff s' = cl' /\ f_delta s' = d /\ f_eps s' = eps /\ f_t s' = f_t s /\ f_x s' = f_x s.
  Proof.
    intros H. pose proof (proc_once_case LO pb cf fuel it s) as P. rewrite H in P.
    destruct P as [P|(eps & cl & e & He & Hc & _ & P)]; [discriminate|]. destruct (nleb e (fc_kkt cf)); [discriminate|].
    pose proof (rest_cases LO pb cf fuel (checked s it eps cl e)) as Q. rewrite <- P in Q.
    destruct Q as [Q|[Q|(b & cl' & Hb & [[_ Q]|(-> & d & Hd & [[_ Q]|(_ & b2 & s2 & Hu & Q)])])]]; try discriminate.
    destruct b2; [|discriminate]. injection Q as <-. exists eps, cl, e, cl', d. cbn zeta. repeat (split; [assumption|]).
    pose proof (update_variables_case pb cf fuel (set_fdelta d (set_fcoeff cl' (checked s it eps cl e)))) as U. rewrite Hu in U.
    destruct U as [U|[U|(a_s & a_n & _ & _ & [[_ U]|(_ & s3 & a & v & Ha & _ & U)])]]; try discriminate. injection U as ->.
    apply alpha_used_state in Ha as ((A1 & A2 & A3 & A4) & _ & A5 & A6). cbn [set_fvar f_coeff f_delta f_eps f_t f_x].
    rewrite A1, A2, A4, A5, A6. cbn. auto.
  Qed.
  Lemma backward_lists st cl : backward_pass LO pb cf st = Ok true (set_fcoeff cl st) -> exists c acc,
    nth_error (f_coeff st) (Nf cf) = Some c /\
    bw_coeffs LO pb cf (f_eps st) (f_coeff st) (v_s (f_var st)) (v_n (f_var st)) (Nf cf) (c_s (bw_end c)) (c_P (bw_end c)) (bw_end c :: acc) = Some (true, cl).
  Proof.
    intros H. destruct (backward_case LO pb cf st) as [E|(c & b & cl1 & Ec & Eb & E)]; rewrite H in E; [discriminate|].
    assert (cl1 = cl) by (apply (f_equal (fun o => match o with Ok _ s => f_coeff s | _ => [] end)) in E; cbn in E; congruence). subst cl1.
    injection E as E. destruct b; [|discriminate]. exists c. unfold overwrite in Eb. cbn [app length] in Eb. eauto.
  Qed.
End Lists.

Lemma nonsing_ext n F G : (forall i j, (i < n)%nat -> (j < n)%nat -> F i j = G i j) -> nonsing n F -> nonsing n G.
Proof.
  intros E H y Hy. apply H. intros i Hi. rewrite <- (Hy i Hi). apply Rsum_ext. intros j Hj. rewrite E by assumption. reflexivity.
Qed.
Lemma nP_is_sym n (P1 : fmat) : fsym n (fmscal (/ 2) (fmadd P1 (ftr P1))).
Proof. intros i j _ _. unfold fmscal, fmadd, ftr. ring. Qed.
Lemma condensed_nG pb D t x u s nl (P : mat R) :
  condensed pb D t x u s nl P = nG (pb_nx (fp_dp pb)) (length s) (pb_dt (fp_dp pb)) (mget (d_B D t x u)) (mget (d_D D t x u)) (mget (d_Luu D t x u)) (mget P) (vget (vdiv nl s)).
Proof.
  extensionality i; extensionality j. unfold condensed, nG, nQuu, fmadd, fmscal. f_equal; [f_equal|].
  - rewrite vdiv_f. reflexivity.
  - rewrite fmm_assoc. reflexivity.
Qed.

(** ** Convex problems: the condensed matrices are positive definite *)
Lemma posdef_nonsing n G : posdef n G -> nonsing n G.
Proof.
  intros H y Hy i Hi. destruct (Req_dec (y i) 0) as [E|E]; [exact E|exfalso].
  specialize (H y (ex_intro _ i (conj Hi E))).
  rewrite (fdot_ext n y (fmv n G y) y fzero) in H; [rewrite fdot_0_r in H; lra|auto|]. intros j Hj. apply Hy. exact Hj.
Qed.
Section Convex.
  Variables (nx nu ng : nat) (dt : R) (A B C D Lxx Lxu Luu P K : fmat) (w : fvec).
  Notation F := (nF nx ng dt A C Lxx P w).
  Notation H := (nH nx ng dt A B C D Lxu P w).
  Notation G := (nG nx ng dt B D Luu P w).
  Hypothesis Hdt : 0 < dt.
  Hypothesis Hw : forall i, 0 <= w i.
  Hypothesis HP : psd nx P.
  Hypothesis HU : posdef nu Luu.
  Hypothesis HL : forall y u, 0 <= fdot nx y (fmv nx Lxx y) + 2 * fdot nx y (fmv nu Lxu u) + fdot nu u (fmv nu Luu u).

  Lemma had_nonneg y : 0 <= fdot ng y (fhad w y).
  Proof. apply Rsum_nonneg. intros i _. unfold fhad. pose proof (Hw i). nra. Qed.
  Lemma weight_dot n m (X Y : fmat) x y : fdot n x (fmv m (fmm ng (fcs (ftr X) w) Y) y) = fdot ng (fmv n X x) (fhad w (fmv m Y y)).
  Proof. rewrite fmv_mm, fmv_fcs, fdot_mv, ftr_tr. reflexivity. Qed.
  Lemma quad_dot n m (X Y : fmat) x y : fdot n x (fmv m (fmm nx (fmm nx (ftr X) P) Y) y) = fdot nx (fmv n X x) (fmv nx P (fmv m Y y)).
  Proof. rewrite !fmv_mm, fdot_mv, ftr_tr. reflexivity. Qed.
  Lemma nG_posdef : posdef nu G.
  Proof.
    intros y Hy. unfold nG, nQuu. rewrite !fmv_madd, !fdot_add_r, weight_dot, quad_dot, fmv_mscal, fdot_scal_r.
    pose proof (HU y Hy). pose proof (had_nonneg (fmv nu D y)). pose proof (HP (fmv nu B y)). nra.
  Qed.
  Hypothesis HsP : ftr P = P.
  Hypothesis HsL : ftr Lxx = Lxx.
  Hypothesis HsU : ftr Luu = Luu.
  Hypothesis HK : fmm nu G K = fmscal (-1) (ftr H).
  Lemma nP_psd : psd nx (nP nx nu ng dt A B C D Lxx Luu P K w).
  Proof.
    intros y. rewrite (nP_eq _ _ _ _ _ _ _ _ _ Lxu) by assumption. set (u := fmv nx K y).
    rewrite fmv_madd, fdot_add_r, fmv_mm. fold u.
    assert (E : fdot nu u (fmv nu G u) = - fdot nx y (fmv nu H u)).
    { unfold u at 2. rewrite <- fmv_mm, HK, fmv_mscal, fdot_scal_r, (fdot_mv nx nu), (fdot_comm nu u). lra. }
    enough (0 <= fdot nx y (fmv nx F y) + 2 * fdot nx y (fmv nu H u) + fdot nu u (fmv nu G u)) by lra.
    unfold nF, nQxx, nH, nQxu, nG, nQuu. rewrite !fmv_madd, !fdot_add_r, !weight_dot, !quad_dot, !fmv_mscal, !fdot_scal_r.
    pose proof (HL y u) as L1. pose proof (had_nonneg (fadd (fmv nx C y) (fmv nu D u))) as L2. pose proof (HP (fadd (fmv nx A y) (fmv nu B u))) as L3.
    rewrite fhad_add, !fdot_add_l, !fdot_add_r in L2. rewrite fmv_add, !fdot_add_l, !fdot_add_r in L3.
    assert (E1 : fdot ng (fmv nu D u) (fhad w (fmv nx C y)) = fdot ng (fmv nx C y) (fhad w (fmv nu D u))).
    { apply Rsum_ext; intros; unfold fhad; ring. }
    assert (E2 : fdot nx (fmv nu B u) (fmv nx P (fmv nx A y)) = fdot nx (fmv nx A y) (fmv nx P (fmv nu B u))).
    { rewrite fdot_mv, HsP, fdot_comm. reflexivity. }
    rewrite E1 in L2. rewrite E2 in L3.
    assert (0 <= dt * (fdot nx y (fmv nx Lxx y) + 2 * fdot nx y (fmv nu Lxu u) + fdot nu u (fmv nu Luu u))) by (apply Rmult_le_pos; lra).
    nra.
  Qed.
End Convex.

Section Newton.
  Variables (LO : linops R) (pb : fproblem R) (cf : fconfig R) (D : derivs R).
  Notation nx := (pb_nx (fp_dp pb)).
  Notation Nf := (Nf cf).

  (** The passes on coefficients computed by Step 1. *)
  Lemma passes_newton st cl0 cl d : computes pb D -> sym_hessians pb D ->
    coeffs pb cf (f_t st) (f_var st) cl0 = Some (f_coeff st) ->
    backward_pass LO pb cf st = Ok true (set_fcoeff cl st) -> delta_of pb cf (set_fcoeff cl st) = Some d ->
    (forall i s j, nth_error (v_s (f_var st)) i = Some s -> (j < length s)%nat -> vget s j <> 0) ->
    (forall i u, nth_error (v_u (f_var st)) i = Some u -> exact_at LO (length u)) ->
    (forall i x u l s n x' l' c, (i < Nf)%nat -> stage (f_var st) i x u l s n x' l' -> nth_error cl (i + 1) = Some c ->
       nonsing (length u) (condensed pb D (f_t st + INR i * pb_dt (fp_dp pb)) x u s n (c_P c))) ->
    newton_step pb D (f_t st) (f_x st) (f_eps st) Nf (f_var st) d.
  Proof.
    intros CM (SY & SYT) Hc Hb Hd Hs HX HN.
    destruct (backward_lists _ _ _ _ _ Hb) as (ce & acc & Ece & Hbw). apply bw_coeffs_spec in Hbw as (Bend & Bst).
    apply coeffs_spec in Hc as (_ & Hc & (ce' & Ece' & Hce)). rewrite Ece in Ece'. injection Ece' as <-.
    destruct (coeff_end_spec pb cf D _ _ _ _ CM Hce) as (xN & lN & _ & ExN & ElN & _ & LT & LlN & ELx & ELxx & ELxb).
    unfold delta_of in Hd. cbn [set_fcoeff f_delta f_var f_x f_coeff f_eps] in Hd. do 2 opt1 Hd. opt1 Hd. destruct p as [[xs ls] us]. do 2 opt1 Hd.
    rename E1 into Esn, l into sns, v into xi, E into Exi. apply some_inj in Hd; subst d. rewrite !andb_true_iff, !Nat.leb_le in B0.
    destruct B0 as ((((G1 & G2) & G3) & G4) & G5). unfold vdimb in B. apply Nat.eqb_eq in B.
    apply fw_lists_spec in E0 as (Lxs & Lls & Lus & Hx0 & Hfl & Hfu).
    pose proof (tabo_length _ _ _ Esn) as Lsn.
    (* every step of the backward pass *)
    assert (Hstep : forall i, (i < Nf)%nat -> exists c c' cn x u l s n x' l', nth_error (f_coeff st) i = Some c /\ coeff_at pb (f_t st) (f_var st) cl0 i = Some c /\
       stage (f_var st) i x u l s n x' l' /\ nth_error cl i = Some c' /\ nth_error cl (i + 1) = Some cn /\
       bw_coeff LO pb cf (f_eps st) c s n (c_s cn) (c_P cn) = Some (Some c')).
    { intros i Hi. destruct (Bst i Hi) as (c & sl & nl & c' & cn & E1 & E2 & E3 & E4 & E5 & E6).
      destruct (Hc i Hi) as (c0 & E7 & E8). rewrite E1 in E7. injection E7 as <-.
      destruct (coeff_at_spec pb D _ _ _ _ _ CM E8) as (x & u & l & s & n & x' & l' & _ & St & _).
      pose proof St as (_ & _ & _ & S4 & S5 & _). rewrite S4 in E2. injection E2 as <-. rewrite S5 in E3. injection E3 as <-.
      exists c, c', cn, x, u, l, s, n, x', l'. auto 10. }
    assert (HF : forall m i c, (m <= Nf)%nat -> i = (Nf - m)%nat -> nth_error cl i = Some c -> fsym nx (mget (c_P c)) /\
       ((i < Nf)%nat -> forall c0 cn x u l s n x' l', coeff_at pb (f_t st) (f_var st) cl0 i = Some c0 -> stage (f_var st) i x u l s n x' l' -> nth_error cl (i + 1) = Some cn ->
          fsym nx (mget (c_P cn)) /\ bw_fact pb (f_eps st) c0 s n (c_s cn) (c_P cn) c)).
    { induction m as [|m IH]; intros i c Hm Ei Hci.
      - split; [|lia]. replace i with (Nf + 0)%nat in Hci by lia. rewrite Bend in Hci. cbn in Hci. injection Hci as <-. cbn [bw_end c_P]. rewrite ELxx. apply SYT.
      - assert (Hi : (i < Nf)%nat) by lia. destruct (Hstep i Hi) as (c0 & c' & cn & x & u & l & s & n & x' & l' & _ & Hat & St & Ec' & Ecn & Hbc).
        rewrite Hci in Ec'. injection Ec' as <-. destruct (IH (i + 1)%nat cn ltac:(lia) ltac:(lia) Ecn) as (SP & _).
        destruct (coeff_at_spec pb D _ _ _ _ _ CM Hat) as (x1 & u1 & l1 & s1 & n1 & x1' & l1' & cj & St1 & _ & S). cbn zeta in S.
        destruct (stage_fun _ _ _ _ _ _ _ _ _ _ _ _ _ _ _ _ St St1) as (-> & -> & -> & -> & -> & -> & ->).
        destruct S as (D1 & D2 & D3 & D4 & D5 & D6 & MA & MB & MC & MD & D7 & D8 & EA & EB & EC & ED & ELx0 & ELu & ELxx0 & ELuu & ELxu & Xb & Gb & Lxb & Lub & _).
        assert (Enu : mcols (c_B c0) = length u) by (rewrite EB; apply (mdimb_cols _ _ _ MB)).
        assert (BF : bw_fact pb (f_eps st) c0 s n (c_s cn) (c_P cn) c).
        { eapply bw_coeff_R; [exact Hbc| |exact SP| |]; rewrite Enu.
          - destruct St as (_ & S2 & _). eapply HX; eassumption.
          - rewrite ELuu. apply SY.
          - pose proof (HN i x u l s n x' l' cn Hi St Ecn) as HN'. rewrite condensed_nG in HN'. rewrite <- ft_R in HN'. rewrite EB, ED, ELuu. exact HN'. }
        split.
        + destruct BF as [_ _ _ (_ & _ & _ & ->)]. apply nP_is_sym.
        + intros _ c0' cn' x2 u2 l2 s2 n2 x2' l2' Hat' St' Ecn'. rewrite Hat in Hat'. injection Hat' as <-. rewrite Ecn in Ecn'. injection Ecn' as <-.
          destruct (stage_fun _ _ _ _ _ _ _ _ _ _ _ _ _ _ _ _ St St') as (-> & -> & -> & -> & -> & -> & ->). auto. }
    cbn [v_x v_u v_l v_s v_n].
    assert (NX : forall i, (i <= Nf)%nat -> nth_error (overwrite xs (v_x (f_delta st))) i = nth_error xs i) by (intros; apply overwrite_nth; lia).
    assert (NL : forall i, (i <= Nf)%nat -> nth_error (overwrite ls (v_l (f_delta st))) i = nth_error ls i) by (intros; apply overwrite_nth; lia).
    constructor; cbn [v_x v_u v_l v_s v_n].
    - intros x dx Hx Hdx j Hj. rewrite Exi in Hx. injection Hx as <-. rewrite NX, Hx0 in Hdx by lia. injection Hdx as <-.
      rewrite vsub_get by exact Hj. lra.
    - intros i Hi. destruct (Hstep i Hi) as (c0 & c' & cn & x & u & l & s & n & x' & l' & Ec0 & Hat & St & Ec' & Ecn & Hbc).
      destruct (HF (Nf - i)%nat i c' ltac:(lia) ltac:(lia) Ec') as (SPc & HF2).
      destruct (HF2 Hi c0 cn x u l s n x' l' Hat St Ecn) as (SPn & BF). clear HF2.
      destruct (coeff_at_spec pb D _ _ _ _ _ CM Hat) as (x1 & u1 & l1 & s1 & n1 & x1' & l1' & cj & St1 & _ & S). cbn zeta in S.
      destruct (stage_fun _ _ _ _ _ _ _ _ _ _ _ _ _ _ _ _ St St1) as (-> & -> & -> & -> & -> & -> & ->). clear St1.
      destruct S as (D1 & D2 & D3 & D4 & D5 & D6 & MA & MB & MC & MD & D7 & D8 & EA & EB & EC & ED & ELx0 & ELu & ELxx0 & ELuu & ELxu & Xb & Gb & Lxb & Lub & _).
      assert (Enu : mcols (c_B c0) = length u) by (rewrite EB; apply (mdimb_cols _ _ _ MB)).
      destruct (Hfu i Hi) as (c1 & dx & du & dx' & F1 & F2 & F3 & F4 & FF). rewrite Ec' in F1. injection F1 as <-. cbn zeta in FF.
      destruct (Hfl i ltac:(lia)) as (c1 & dx1 & dl & F5 & F6 & F7 & Ldx & _ & _ & Edl). rewrite Ec' in F5. injection F5 as <-. rewrite F2 in F6. injection F6 as <-.
      destruct (Hfl (i + 1)%nat ltac:(lia)) as (c1 & dx1 & dl' & F8 & F9 & F10 & Ldx' & _ & _ & Edl'). rewrite Ecn in F8. injection F8 as <-. rewrite F4 in F9. injection F9 as <-.
      destruct (tabo_nth _ _ _ _ Esn Hi) as (T1 & T2).
      destruct BF as [(BA & BB & BC & BD & Bx & Bg) BDm BO BK]. cbn zeta in BDm, BO, BK. rewrite Enu in *.
      destruct BDm as (Q1 & Q2 & Q3 & Q4 & Q5 & Q6 & Q7 & Q8 & Q9 & Q10 & Q11 & Q12 & Q13 & Q14).
      destruct BO as (O1 & O2 & O3 & O4). destruct BK as (K1 & K2 & K3 & K4).
      rewrite BA, BB, Bx, Enu in FF. destruct FF as (_ & _ & _ & _ & _ & Edu & Edx').
      assert (Ldu : length du = length u) by (rewrite Edu, vlen_add; apply (vlen_mv _ _ _ _ O2)).
      pose proof St as (S1 & S2 & S3 & S4 & S5 & S6 & S7).
      assert (Etab : fw_sn (f_eps st) cl (f_var st) xs us i = Some (fw_s c' dx du, fw_n (f_eps st) s n (fw_s c' dx du))).
      { unfold fw_sn in *. rewrite Ec', F2, F3, S4, S5 in *. match goal with |- (if ?b then _ else _) = _ => destruct b; [reflexivity|contradiction] end. }
      rewrite Etab in T1.
      assert (Lds : length (fw_s c' dx du) = length s).
      { unfold fw_s. rewrite vlen_scale, !vlen_add, BC. apply (vlen_mv _ _ _ _ Q5). }
      exists x, u, l, s, n, x', l', dx, du, dl, (fw_s c' dx du), (fw_n (f_eps st) s n (fw_s c' dx du)), dx', dl'.
      split; [exact St|]. split.
      { unfold stage. cbn [v_x v_u v_l v_s v_n]. rewrite !NX, !NL by lia. rewrite !overwrite_nth by (rewrite ?map_length; lia).
        pose proof (map_nth_error fst _ _ T1) as Tf. pose proof (map_nth_error snd _ _ T1) as Ts. repeat split; assumption. }
      split; [exact Ldu|]. split; [exact Lds|]. split; [unfold fw_n; apply vbuild_length|]. cbn zeta. rewrite <- ft_R.
      (* in functions *)
      set (fA := mget (c_A c0)) in *. set (fB := mget (c_B c0)) in *. set (fC := mget (c_C c0)) in *. set (fD := mget (c_D c0)) in *.
      rewrite <- EA, <- EB, <- EC, <- ED, <- ELxx0, <- ELuu, <- ELxu. fold fA fB fC fD.
      assert (Vdu : vget du = ndu nx (mget (c_K c')) (vget (c_k c')) (vget dx)).
      { rewrite Edu. unfold ndu. rewrite vadd_f by (rewrite (vlen_mv _ _ _ _ O2); lia). rewrite (mvmul_f _ _ _ _ O2). reflexivity. }
      assert (Vdx' : vget dx' = fadd (fadd (fmv nx fA (vget dx)) (fmv (length u) fB (vget du))) (vget (c_xbar c0))).
      { rewrite Edx'. rewrite vadd_f by (rewrite vlen_add, (vlen_mv _ _ _ _ Q3); lia).
        rewrite vadd_f by (rewrite (vlen_mv _ _ _ _ Q3), (vlen_mv _ _ _ _ Q4); lia). rewrite (mvmul_f _ _ _ _ Q3), (mvmul_f _ _ _ _ Q4). reflexivity. }
      assert (Vds : vget (fw_s c' dx du) = fscal (-1) (fadd (fadd (fmv nx fC (vget dx)) (fmv (length u) fD (vget du))) (vget (c_gbar c0)))).
      { unfold fw_s. rewrite BC, BD, Bg, mone_R, vscale_f. f_equal. rewrite vadd_f by (rewrite vlen_add, (vlen_mv _ _ _ _ Q5); lia).
        rewrite vadd_f by (rewrite (vlen_mv _ _ _ _ Q5), (vlen_mv _ _ _ _ Q6); lia). rewrite (mvmul_f _ _ _ _ Q5), (mvmul_f _ _ _ _ Q6). reflexivity. }
      assert (Comp : forall j, (j < length s)%nat -> vget s j * vget n j + vget s j * vget (fw_n (f_eps st) s n (fw_s c' dx du)) j + vget n j * vget (fw_s c' dx du) j = f_eps st).
      { intros j Hj. unfold fw_n. rewrite vbuild_get by exact Hj. rewrite mone_R. opsR. pose proof (Hs i s j S4 Hj). field. assumption. }
      assert (Vdn : vget (fw_n (f_eps st) s n (fw_s c' dx du)) = ndn nx (length u) fC fD (mget (c_K c')) (vget (vdiv n s)) (vget (tilde (f_eps st) c0 s n)) (vget (c_k c')) (vget dx)).
      { extensionality j. destruct (Nat.lt_ge_cases j (length s)) as [Hj|Hj].
        - pose proof (Hs i s j S4 Hj) as Hsj. unfold fw_n. rewrite vbuild_get by exact Hj. rewrite mone_R, Vds. opsR. unfold ndn. rewrite <- Vdu.
          unfold tilde, fadd, fhad, fscal. rewrite vdiv_f. unfold vadd, vsub, vscale, vmul, vdiv, vinv.
          rewrite !vbuild_get by (rewrite ?vbuild_length; lia). opsR. change none with 1. field. exact Hsj.
        - rewrite vget_out by (unfold fw_n; rewrite vbuild_length; exact Hj). unfold ndn, fadd, fhad. rewrite vdiv_f.
          rewrite (vget_out n) by lia. rewrite (vget_out (tilde _ _ _ _)) by (unfold tilde; rewrite vlen_add, vlen_sub, vlen_mul, vlen_div; lia). unfold Rdiv; ring. }
      assert (Vdl' : vget dl' = fsubv (fmv nx (mget (c_P cn)) (vget dx')) (vget (c_s cn))).
      { rewrite Edl'. rewrite vsub_f by (rewrite (vlen_mv _ _ _ _ Q2); lia). rewrite (mvmul_f _ _ _ _ Q2). reflexivity. }
      assert (Vdl : vget dl = fsubv (fmv nx (mget (c_P c')) (vget dx)) (vget (c_s c'))).
      { rewrite Edl. rewrite vsub_f by (rewrite (vlen_mv _ _ _ _ O4); lia). rewrite (mvmul_f _ _ _ _ O4). reflexivity. }
      split; [|split; [|split; [exact Comp|split]]].
      + intros j Hj. rewrite Vdx'. unfold fadd, fmv. rewrite Xb, vsub_get by lia. lra.
      + intros j Hj. rewrite Vds. unfold fscal, fadd, fmv. rewrite Gb, vadd_get by lia. lra.
      + intros j Hj.
        assert (Elxb : vget (c_Lxbar c0) j = - vget l j + pb_dt (fp_dp pb) * vget (d_Lx D (ft pb (f_t st) i) x u) j + Rsum nx (fun k => fA k j * vget l' k) + Rsum (length s) (fun k => fC k j * vget n k)).
        { rewrite Lxb. rewrite !vadd_get by (rewrite ?vlen_add, ?vlen_scale; lia). rewrite !vscale_get by (rewrite ?ELx0; lia).
          rewrite (mtr_mv_get _ _ _ _ _ Q3), (mtr_mv_get _ _ _ _ _ Q5), mone_R, ELx0. fold fA fC. lra. }
        pose proof (newton_x nx (length u) (length s) (pb_dt (fp_dp pb)) fA fB fC fD (mget (c_Lxx c0)) (mget (c_Lxu c0)) (mget (c_Luu c0)) (mget (c_P cn)) (mget (c_K c'))
          (vget (vdiv n s)) (vget (tilde (f_eps st) c0 s n)) (vget (c_xbar c0)) (vget (c_Lxbar c0)) (vget (c_s cn)) (vget (c_k c'))
          (ftr_sym _ _ Q2 SPn) (ftr_sym _ _ Q7 ltac:(rewrite ELxx0; apply SY)) (ftr_sym _ _ Q8 ltac:(rewrite ELuu; apply SY)) K1 (vget dx)) as NE.
        unfold ndl', ndx' in NE. rewrite <- Vdu, <- Vdx', <- Vdl', <- Vdn, <- K3, <- K4, <- Vdl in NE.
        apply (f_equal (fun f => f j)) in NE. unfold fadd, fscal in NE. rewrite Elxb in NE. unfold fmv, ftr in NE.
        rewrite (Rsum_ext nx (fun k => fA k j * (vget l' k + vget dl' k)) (fun k => fA k j * vget l' k + fA k j * vget dl' k)) by (intros; ring).
        rewrite (Rsum_ext (length s) (fun k => fC k j * (vget n k + _)) (fun k => fC k j * vget n k + fC k j * vget (fw_n (f_eps st) s n (fw_s c' dx du)) k)) by (intros; ring).
        rewrite !Rsum_plus. lra.
      + intros j Hj.
        assert (Elub : vget (c_Lubar c0) j = pb_dt (fp_dp pb) * vget (d_Lu D (ft pb (f_t st) i) x u) j + Rsum nx (fun k => fB k j * vget l' k) + Rsum (length s) (fun k => fD k j * vget n k)).
        { rewrite Lub. rewrite !vadd_get by (rewrite ?vlen_add, ?vlen_scale, ?ELu; lia). rewrite !vscale_get by (rewrite ?ELu; lia).
          rewrite (mtr_mv_get _ _ _ _ _ Q4), (mtr_mv_get _ _ _ _ _ Q6), ELu. fold fB fD. lra. }
        pose proof (newton_u nx (length u) (length s) (pb_dt (fp_dp pb)) fA fB fC fD (mget (c_Lxu c0)) (mget (c_Luu c0)) (mget (c_P cn)) (mget (c_K c'))
          (vget (vdiv n s)) (vget (tilde (f_eps st) c0 s n)) (vget (c_xbar c0)) (vget (c_Lubar c0)) (vget (c_s cn)) (vget (c_k c'))
          (ftr_sym _ _ Q2 SPn) K1 K2 (vget dx)) as NE.
        unfold ndl', ndx' in NE. rewrite <- Vdu, <- Vdx', <- Vdl', <- Vdn in NE.
        apply (f_equal (fun f => f j)) in NE. unfold fadd, fscal in NE. rewrite Elub in NE. unfold fmv, ftr, fzero in NE.
        rewrite (Rsum_ext nx (fun k => fB k j * (vget l' k + vget dl' k)) (fun k => fB k j * vget l' k + fB k j * vget dl' k)) by (intros; ring).
        rewrite (Rsum_ext (length s) (fun k => fD k j * (vget n k + _)) (fun k => fD k j * vget n k + fD k j * vget (fw_n (f_eps st) s n (fw_s c' dx du)) k)) by (intros; ring).
        rewrite !Rsum_plus. lra.
    - destruct (Hfl Nf ltac:(lia)) as (c1 & dx & dl & F1 & F2 & F3 & Ldx & MP & Ls & Edl). pose proof (Bend 0%nat) as F0. rewrite Nat.add_0_r, F1 in F0. cbn in F0. clear F1; rename F0 into F1. injection F1 as ->.
      exists xN, lN, dx, dl. split; [exact ExN|]. split; [exact ElN|]. rewrite NX, NL by lia. split; [exact F2|]. split; [exact F3|]. cbn zeta. rewrite <- ft_R.
      intros j Hj. rewrite Edl. cbn [bw_end c_P c_s] in *. rewrite vsub_get by (rewrite (vlen_mv _ _ _ _ MP); exact Hj). rewrite (mvmul_f _ _ _ _ MP).
      rewrite vlen_scale in Ls. rewrite vscale_get by (rewrite Ls; exact Hj). rewrite mone_R, ELxb, vsub_get by (rewrite ELx; lia). rewrite ELx, ELxx. unfold fmv. lra.
  Qed.

  (** For convex costs and positive s, nu the condensed matrices are positive definite. *)
  Lemma convex_condensed st cl0 cl : computes pb D -> sym_hessians pb D -> convex_cost pb D (f_t st) Nf (f_var st) ->
    coeffs pb cf (f_t st) (f_var st) cl0 = Some (f_coeff st) ->
    backward_pass LO pb cf st = Ok true (set_fcoeff cl st) ->
    (forall i u, nth_error (v_u (f_var st)) i = Some u -> exact_at LO (length u)) ->
    all_pos (v_s (f_var st)) -> all_ge 0 (v_n (f_var st)) ->
    (forall i x u l s n x' l' c, (i < Nf)%nat -> stage (f_var st) i x u l s n x' l' -> nth_error cl (i + 1) = Some c ->
       posdef (length u) (condensed pb D (f_t st + INR i * pb_dt (fp_dp pb)) x u s n (c_P c))).
  Proof.
    intros CM (SY & SYT) (Hdt & CL & CT) Hc Hb HX Ps Pn.
    destruct (backward_lists _ _ _ _ _ Hb) as (ce & acc & Ece & Hbw). apply bw_coeffs_spec in Hbw as (Bend & Bst).
    apply coeffs_spec in Hc as (_ & Hc & (ce' & Ece' & Hce)). rewrite Ece in Ece'. injection Ece' as <-.
    destruct (coeff_end_spec pb cf D _ _ _ _ CM Hce) as (xN & lN & _ & ExN & ElN & _ & LT & LlN & ELx & ELxx & ELxb).
    assert (HF : forall m i c, (m <= Nf)%nat -> i = (Nf - m)%nat -> nth_error cl i = Some c -> fsym nx (mget (c_P c)) /\ psd nx (mget (c_P c)) /\
       (forall h x u l s n x' l', (h + 1)%nat = i -> (h < Nf)%nat -> stage (f_var st) h x u l s n x' l' ->
          posdef (length u) (condensed pb D (f_t st + INR h * pb_dt (fp_dp pb)) x u s n (c_P c)))).
    { assert (PD : forall c, psd nx (mget (c_P c)) -> forall h x u l s n x' l', (h < Nf)%nat -> stage (f_var st) h x u l s n x' l' ->
          posdef (length u) (condensed pb D (f_t st + INR h * pb_dt (fp_dp pb)) x u s n (c_P c)) /\ (forall i, 0 <= vget (vdiv n s) i)).
      { intros c Pc h x u l s n x' l' Hh St. pose proof St as (_ & _ & _ & S4 & S5 & _).
        assert (W : forall i, 0 <= vget (vdiv n s) i).
        { intros i. destruct (Nat.lt_ge_cases i (length n)) as [Hi|Hi]; [|rewrite vget_out by (rewrite vlen_div; exact Hi); lra].
          rewrite vdiv_f. assert (0 <= vget n i) by (apply (Pn n); [eapply nth_error_In; eauto|apply nth_In; exact Hi]).
          destruct (Nat.lt_ge_cases i (length s)) as [Hj|Hj].
          - assert (0 < vget s i) by (apply (Ps s); [eapply nth_error_In; eauto|apply nth_In; exact Hj]).
            apply Rmult_le_pos; [assumption|]. left. apply Rinv_0_lt_compat. assumption.
          - rewrite (vget_out s) by exact Hj. unfold Rdiv. rewrite Rinv_0. lra. }
        split; [|exact W]. rewrite condensed_nG. apply nG_posdef; try assumption. apply (CL h x u Hh); apply St. }
      induction m as [|m IH]; intros i c Hm Ei Hci.
      - replace i with (Nf + 0)%nat in Hci by lia. rewrite Bend in Hci. cbn in Hci. injection Hci as <-. 
        assert (Pe : psd nx (mget (c_P (bw_end ce)))) by (cbn [bw_end c_P]; rewrite ELxx, ft_R; apply (CT xN ExN)).
        split; [cbn [bw_end c_P]; rewrite ELxx; apply SYT|]. split; [exact Pe|]. intros h x u l s n x' l' _ Hh St.
        apply (PD (bw_end ce) Pe h x u l s n x' l' Hh St).
      - assert (Hi : (i < Nf)%nat) by lia.
        destruct (Bst i Hi) as (c0 & sl & nl & c' & cn & E1 & E2 & E3 & E4 & E5 & E6). rewrite Hci in E4. injection E4 as <-.
        destruct (Hc i Hi) as (c1 & E7 & Hat). rewrite E1 in E7. injection E7 as <-.
        destruct (IH (i + 1)%nat cn ltac:(lia) ltac:(lia) E5) as (SP & PP & PD1).
        destruct (coeff_at_spec pb D _ _ _ _ _ CM Hat) as (x & u & l & s & n & x' & l' & cj & St & _ & S). cbn zeta in S.
        destruct S as (D1 & D2 & D3 & D4 & D5 & D6 & MA & MB & MC & MD & D7 & D8 & EA & EB & EC & ED & ELx0 & ELu & ELxx0 & ELuu & ELxu & _).
        pose proof St as (_ & S2 & _ & S4 & S5 & _). rewrite S4 in E2. injection E2 as <-. rewrite S5 in E3. injection E3 as <-.
        assert (Enu : mcols (c_B c0) = length u) by (rewrite EB; apply (mdimb_cols _ _ _ MB)).
        destruct (PD cn PP i x u l s n x' l' Hi St) as (PDi & W).
        assert (BF : bw_fact pb (f_eps st) c0 s n (c_s cn) (c_P cn) c).
        { eapply bw_coeff_R; [exact E6| |exact SP| |]; rewrite Enu.
          - eapply HX; eassumption.
          - rewrite ELuu. apply SY.
          - apply posdef_nonsing in PDi. rewrite condensed_nG in PDi. rewrite <- ft_R in PDi. rewrite EB, ED, ELuu. exact PDi. }
        destruct BF as [_ Bd _ BK]. cbn zeta in Bd, BK. rewrite Enu in *. destruct Bd as (Q1 & Q2 & _ & _ & _ & _ & Q7 & Q8 & _). destruct BK as (K1 & _ & _ & K4).
        assert (PPc : psd nx (mget (c_P c))).
        { rewrite K4. apply nP_psd with (mget (c_Lxu c0)); try assumption.
          - rewrite ELxx0, ELxu, ELuu, ft_R. apply (CL i x u Hi); apply St.
          - apply (ftr_sym _ _ Q2 SP).
          - apply (ftr_sym _ _ Q7). rewrite ELxx0. apply SY.
          - apply (ftr_sym _ _ Q8). rewrite ELuu. apply SY. }
        split; [rewrite K4; apply nP_is_sym|]. split; [exact PPc|]. intros h y v m' r k y' k' _ Hh St'. apply (PD c PPc h y v m' r k y' k' Hh St'). }
    intros i x u l s n x' l' c Hi St Hci. destruct (HF (Nf - (i + 1))%nat (i + 1)%nat c ltac:(lia) ltac:(lia) Hci) as (_ & _ & Q).
    apply (Q i x u l s n x' l'); auto.
  Qed.
End Newton.
