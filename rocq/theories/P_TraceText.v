(** Properties C76 and C77: what the files written by the solvers say when they are read back. *)
From Coq Require Import String Ascii DecimalString DecimalZ.
From Verif Require Import Prelude Scalar LinAlg BoxQP DDP DDPSpec DDPProofs DDPCor P_DDP_run Fmpc Cgmres TraceText Chol ExDDP.
Local Open Scope string_scope.

(** ** Reading a file *)
(** Text split at every occurrence of a character, as str.split of Python does it. *)
Fixpoint split (c : ascii) (s : string) : list string :=
  match s with
  | "" => [""]
  | String a r => if Ascii.eqb a c then "" :: split c r
                  else match split c r with h :: t => String a h :: t | [] => [String a ""] end
  end.
(** numpy.genfromtxt: empty lines are skipped, fields are separated by the delimiter, spaces around them do not count. *)
Definition lines (s : string) : list string := filter (fun l => negb (String.eqb l "")) (split "010" s).
Fixpoint strip (s : string) : string := match s with String " " r => strip r | _ => s end.
Definition table (c : ascii) (s : string) : list (list string) := map (fun l => map strip (split c l)) (lines s).
(** The column with a given name, names = True. *)
Fixpoint index (k : string) (l : list string) : option nat :=
  match l with [] => None | a :: r => if String.eqb a k then Some 0 else option_map Datatypes.S (index k r) end.
Fixpoint all {A} (l : list (option A)) : option (list A) :=
  match l with [] => Some [] | Some a :: r => option_map (cons a) (all r) | None :: _ => None end.
Definition column (k : string) (s : string) : option (list string) :=
  match table " " s with
  | h :: rs => match index k h with Some i => all (map (fun r => nth_error r i) rs) | None => None end
  | [] => None
  end.
(** Number of fields of every row. *)
Definition shape (c : ascii) (s : string) : list nat := map (@List.length string) (table c s).
(** int() of Python on the decimal notation. *)
Definition read_int (s : string) : option Z := option_map Z.of_int (NilZero.int_of_string s).

(** What is assumed of the notation of doubles: not empty, and none of the characters space, newline, comma, quote, bracket, brace, colon. *)
Definition plain_char (a : ascii) : bool :=
  negb (existsb (Ascii.eqb a) [" "; "010"; ","; """"; "\"; "["; "]"; "{"; "}"; ":"]%char).
Fixpoint plain_all (s : string) : bool := match s with "" => true | String a r => plain_char a && plain_all r end.
Definition plain (s : string) : Prop := s <> "" /\ plain_all s = true.

(** ** Lemmas on text *)
Fixpoint free (c : ascii) (s : string) : bool := match s with "" => true | String a r => negb (Ascii.eqb a c) && free c r end.
Lemma plain_free c s : plain_char c = false -> plain_all s = true -> free c s = true.
Proof.
  intros Hc. induction s as [|a s IH]; [reflexivity|]. cbn. intros H. apply andb_true_iff in H as [H1 H2].
  rewrite IH by exact H2. destruct (Ascii.eqb_spec a c) as [->|]; [congruence|reflexivity].
Qed.
Lemma free_app c s r : free c (s ++ r) = (free c s && free c r)%bool.
Proof. induction s as [|a s IH]; cbn; [reflexivity|]. rewrite IH. apply andb_assoc. Qed.
Lemma app_assoc_s a b c : (a ++ b) ++ c = a ++ (b ++ c).
Proof. induction a as [|x a IH]; cbn; [reflexivity|]. rewrite IH. reflexivity. Qed.
Lemma app_nil_s a : a ++ "" = a.
Proof. induction a as [|x a IH]; cbn; [reflexivity|]. rewrite IH. reflexivity. Qed.
Lemma split_app c a b : free c a = true -> split c (a ++ String c b) = a :: split c b.
Proof.
  induction a as [|x a IH]; cbn; intros H.
  - rewrite Ascii.eqb_refl. reflexivity.
  - apply andb_true_iff in H as [H1 H2]. apply negb_true_iff in H1. rewrite H1, IH by exact H2. reflexivity.
Qed.
Lemma split_free c a : free c a = true -> split c a = [a].
Proof.
  induction a as [|x a IH]; cbn; intros H; [reflexivity|]. apply andb_true_iff in H as [H1 H2]. apply negb_true_iff in H1.
  rewrite H1, IH by exact H2. reflexivity.
Qed.
Lemma strip_plain a : plain_all a = true -> strip a = a.
Proof. destruct a as [|x a]; [reflexivity|]. destruct x as [[] [] [] [] [] [] [] []]; cbn; intros H; try reflexivity; discriminate H. Qed.
Lemma strip_spaces n a : strip (spaces n ++ a) = strip a.
Proof. induction n as [|n IH]; cbn; [reflexivity|]. exact IH. Qed.
(** Lines: a text made of rows that end in a newline. *)
Lemma lines_texts {A} (row body : A -> string) l rest : (forall a, row a = body a ++ nl) -> (forall a, free "010" (body a) = true) ->
  (forall a, body a <> "") -> lines (texts row l ++ rest) = (map body l ++ lines rest)%list.
Proof.
  intros Hr Hf Hn. unfold lines. induction l as [|a l IH]; [reflexivity|]. cbn [texts map List.app]. rewrite Hr, !app_assoc_s. unfold nl. cbn [append].
  rewrite split_app by apply Hf. cbn [filter]. destruct (String.eqb_spec (body a) "") as [E|_]; [destruct (Hn a E)|]. cbn [negb].
  rewrite IH. reflexivity.
Qed.
(** A row of fields separated by one space. *)
Fixpoint row_of (l : list string) : string := match l with [] => "" | [a] => a | a :: r => a ++ " " ++ row_of r end.
Lemma split_row l : l <> [] -> Forall plain l -> map strip (split " " (row_of l)) = l.
Proof.
  intros Hl H. induction H as [|a l [Ha Hp] H IH]; [congruence|]. destruct l as [|b l].
  - cbn [row_of]. rewrite split_free by (apply plain_free; [reflexivity|exact Hp]). cbn. rewrite strip_plain by exact Hp. reflexivity.
  - change (row_of (a :: b :: l)) with (a ++ String " " (row_of (b :: l))).
    rewrite split_app by (apply plain_free; [reflexivity|exact Hp]). cbn [map]. rewrite strip_plain by exact Hp.
    rewrite IH by discriminate. reflexivity.
Qed.
Lemma row_free l : Forall plain l -> free "010" (row_of l) = true.
Proof.
  induction 1 as [|a l [Ha Hp] H IH]; [reflexivity|]. destruct l as [|b l].
  - cbn [row_of]. apply plain_free; [reflexivity|exact Hp].
  - change (row_of (a :: b :: l)) with (a ++ (String " " (row_of (b :: l)))). rewrite free_app. rewrite plain_free by (reflexivity || exact Hp).
    cbn [free andb negb Ascii.eqb Bool.eqb]. exact IH.
Qed.
Lemma row_nonempty l : l <> [] -> Forall plain l -> row_of l <> "".
Proof.
  intros Hl H. destruct H as [|a l [Ha Hp] H]; [congruence|]. destruct l as [|b l]; [exact Ha|].
  change (row_of (a :: b :: l)) with (a ++ String " " (row_of (b :: l))). destruct a; [congruence|discriminate].
Qed.
Lemma plain_uint d : plain_all (NilEmpty.string_of_uint d) = true.
Proof. induction d; cbn; auto. Qed.
Lemma plain_int z : plain (show_int z).
Proof.
  unfold show_int, plain. destruct (Z.to_int z) as [d|d]; cbn.
  - destruct d; cbn; (split; [discriminate|]); try apply plain_uint; reflexivity.
  - split; [discriminate|]. destruct d; cbn; try apply plain_uint; reflexivity.
Qed.
Lemma read_show z : read_int (show_int z) = Some z.
Proof.
  unfold read_int, show_int. destruct (Z.to_int z) as [d|d] eqn:E.
  - rewrite NilZero.isi; cbn [option_map]; [rewrite <- E; f_equal; apply DecimalZ.of_to| |discriminate].
    intros H. injection H as ->. destruct z; try discriminate E. injection E as E. pose proof (DecimalPos.Unsigned.to_uint_nonnil p). contradiction.
  - rewrite NilZero.isi; cbn [option_map]; [rewrite <- E; f_equal; apply DecimalZ.of_to|discriminate|].
    intros H. injection H as ->. destruct z; try discriminate E. injection E as E. pose proof (DecimalPos.Unsigned.to_uint_nonnil p). contradiction.
Qed.

(** ** C76: the trace files *)
Lemma all_map {A B} (g : A -> option B) (h : A -> B) l : (forall a, In a l -> g a = Some (h a)) -> all (map g l) = Some (map h l).
Proof.
  induction l as [|a l IH]; intros H; [reflexivity|]. cbn [map all]. rewrite (H a (or_introl eq_refl)), IH by (intros; apply H; right; assumption).
  reflexivity.
Qed.
Lemma table_named {A} (hd : list string) (f : A -> list string) (row : A -> string) l :
  hd <> [] -> Forall plain hd -> (forall a, row a = row_of (f a) ++ nl) -> (forall a, f a <> []) -> (forall a, Forall plain (f a)) ->
  table " " ((row_of hd ++ nl) ++ texts row l) = hd :: map f l.
Proof.
  intros H1 H2 Hr Hn Hp. unfold table. assert (E : lines ((row_of hd ++ nl) ++ texts row l) = row_of hd :: map (fun a => row_of (f a)) l).
  { rewrite <- (app_nil_s (texts row l)).
    change (((row_of hd ++ nl) ++ texts row l ++ "")) with ((row_of hd ++ nl) ++ (texts row l ++ "")).
    assert (E1 := lines_texts (fun _ : unit => row_of hd ++ nl) (fun _ => row_of hd) [tt] (texts row l ++ "")). cbn [texts map List.app] in E1.
    rewrite app_nil_s in E1. rewrite E1; [|reflexivity|intros _; apply row_free; assumption|intros _; apply row_nonempty; assumption].
    rewrite (lines_texts row (fun a => row_of (f a)) l "" Hr); [|intros a; apply row_free, Hp|intros a; apply row_nonempty; auto].
    change (lines "") with (@nil string). rewrite app_nil_r. reflexivity. }
  rewrite E. cbn [map]. rewrite split_row by assumption. f_equal. rewrite map_map. apply map_ext. intros a. apply split_row; auto.
Qed.
Lemma column_named {A} (hd : list string) (f : A -> list string) (row : A -> string) l k i g :
  hd <> [] -> Forall plain hd -> (forall a, row a = row_of (f a) ++ nl) -> (forall a, f a <> []) -> (forall a, Forall plain (f a)) ->
  index k hd = Some i -> (forall a, nth_error (f a) i = Some (g a)) ->
  column k ((row_of hd ++ nl) ++ texts row l) = Some (map g l).
Proof.
  intros H1 H2 Hr Hn Hp Hi Hg. unfold column. rewrite (table_named hd f row l) by assumption. rewrite Hi, map_map. apply all_map. intros a _. apply Hg.
Qed.

Lemma map_combine {A B C} (g : A -> C) : forall (l : list A) (r : list B), List.length r = List.length l -> map (fun e => g (fst e)) (combine l r) = map g l.
Proof. induction l as [|a l IH]; intros [|b r] H; try discriminate; [reflexivity|]. cbn. rewrite IH by (cbn in H; congruence). reflexivity. Qed.

Section Trace.
  Context {T : Type} (fmt : T -> string).
  Hypothesis Hfmt : forall a, plain (fmt a).

  Definition ddp_names : list string :=
    ["iter"; "cost"; "lambda"; "dlambda"; "alpha"; "k_rel_norm"; "cost_update_actual"; "cost_update_expected"; "cost_update_ratio";
     "duration_derivative"; "duration_backward"; "duration_forward"].
  Definition ddp_fields (e : trace T * durations T) : list string :=
    let '(t, d) := e in
    [show_int (tr_iter t); fmt (tr_cost t); fmt (tr_lambda t); fmt (tr_dlambda t); fmt (tr_alpha t); fmt (tr_k_rel_norm t); fmt (tr_actual t);
     fmt (tr_expected t); fmt (tr_ratio t); fmt (du_deriv d); fmt (du_back d); fmt (du_fwd d)].
  Lemma ddp_row_eq e : ddp_row fmt e = row_of (ddp_fields e) ++ nl.
  Proof. destruct e as [t d]. unfold ddp_row, ddp_fields. cbn [row_of]. rewrite !app_assoc_s. reflexivity. Qed.
  Lemma ddp_plain e : Forall plain (ddp_fields e).
  Proof. destruct e as [t d]. unfold ddp_fields. repeat (apply Forall_cons; [first [apply plain_int|apply Hfmt]|]). constructor. Qed.
  Lemma names_plain (l : list string) : forallb (fun s => (negb (String.eqb s "") && plain_all s)%bool) l = true -> Forall plain l.
  Proof.
    intros H. apply Forall_forall. intros s Hs. rewrite forallb_forall in H. specialize (H s Hs). apply andb_true_iff in H as [H1 H2].
    split; [|exact H2]. intros ->. discriminate H1.
  Qed.

  (** The file of DDPSolver: every field of every trace entry is found under its name, in the order of the iterations, and the iteration
      numbers can be read back. *)
  Theorem C76_ddp_trace (l : list (trace T * durations T)) : let s := ddp_dump fmt l in
    let col k (g : trace T -> T) := column k s = Some (map (fun e => fmt (g (fst e))) l) in
    let dur k (g : durations T -> T) := column k s = Some (map (fun e => fmt (g (snd e))) l) in
    (exists c, column "iter" s = Some c /\ map read_int c = map (fun e => Some (tr_iter (fst e))) l) /\
    col "cost" tr_cost /\ col "lambda" tr_lambda /\ col "dlambda" tr_dlambda /\ col "alpha" tr_alpha /\ col "k_rel_norm" tr_k_rel_norm /\
    col "cost_update_actual" tr_actual /\ col "cost_update_expected" tr_expected /\ col "cost_update_ratio" tr_ratio /\
    dur "duration_derivative" du_deriv /\ dur "duration_backward" du_back /\ dur "duration_forward" du_fwd.
  Proof.
    intros s col dur.
    assert (G : forall k i g, index k ddp_names = Some i -> (forall a, nth_error (ddp_fields a) i = Some (g a)) -> column k s = Some (map g l)).
    { intros k i g Hi Hg. apply (column_named ddp_names ddp_fields (ddp_row fmt) l k i g); auto.
      - discriminate.
      - apply names_plain. reflexivity.
      - apply ddp_row_eq.
      - intros [t d]. discriminate.
      - apply ddp_plain. }
    split; [exists (map (fun e => show_int (tr_iter (fst e))) l); split; [apply (G "iter" 0); [reflexivity|intros [t d]; reflexivity]|]|].
    { rewrite map_map. apply map_ext. intros e. apply read_show. }
    split; [apply (G "cost" 1); [reflexivity|intros [t d]; reflexivity]|].
    split; [apply (G "lambda" 2); [reflexivity|intros [t d]; reflexivity]|].
    split; [apply (G "dlambda" 3); [reflexivity|intros [t d]; reflexivity]|].
    split; [apply (G "alpha" 4); [reflexivity|intros [t d]; reflexivity]|].
    split; [apply (G "k_rel_norm" 5); [reflexivity|intros [t d]; reflexivity]|].
    split; [apply (G "cost_update_actual" 6); [reflexivity|intros [t d]; reflexivity]|].
    split; [apply (G "cost_update_expected" 7); [reflexivity|intros [t d]; reflexivity]|].
    split; [apply (G "cost_update_ratio" 8); [reflexivity|intros [t d]; reflexivity]|].
    split; [apply (G "duration_derivative" 9); [reflexivity|intros [t d]; reflexivity]|].
    split; [apply (G "duration_backward" 10); [reflexivity|intros [t d]; reflexivity]|].
    apply (G "duration_forward" 11); [reflexivity|intros [t d]; reflexivity].
  Qed.

  (** The file of FmpcSolver. *)
  Definition fmpc_names : list string := ["iter"; "kkt_error"; "duration_coeff"; "duration_backward"; "duration_forward"; "duration_update"].
  Definition fmpc_fields (e : (Z * T) * (T * T * T * T)) : list string :=
    let '((i, k), (((a, b), c), d)) := e in [show_int i; fmt k; fmt a; fmt b; fmt c; fmt d].
  Theorem C76_fmpc_trace (l : list ((Z * T) * (T * T * T * T))) : let s := fmpc_dump fmt l in
    (exists c, column "iter" s = Some c /\ map read_int c = map (fun e => Some (fst (fst e))) l) /\
    column "kkt_error" s = Some (map (fun e => fmt (snd (fst e))) l) /\
    column "duration_coeff" s = Some (map (fun e => fmt (fst (fst (fst (snd e))))) l) /\
    column "duration_backward" s = Some (map (fun e => fmt (snd (fst (fst (snd e))))) l) /\
    column "duration_forward" s = Some (map (fun e => fmt (snd (fst (snd e)))) l) /\
    column "duration_update" s = Some (map (fun e => fmt (snd (snd e))) l).
  Proof.
    intros s.
    assert (G : forall k i g, index k fmpc_names = Some i -> (forall a, nth_error (fmpc_fields a) i = Some (g a)) -> column k s = Some (map g l)).
    { intros k i g Hi Hg. apply (column_named fmpc_names fmpc_fields (fmpc_row fmt) l k i g); auto.
      - discriminate.
      - apply names_plain. reflexivity.
      - intros [[a b] [[[c d] e] h]]. unfold fmpc_row, fmpc_fields. cbn [row_of]. rewrite !app_assoc_s. reflexivity.
      - intros [[a b] [[[c d] e] h]]. discriminate.
      - intros [[a b] [[[c d] e] h]]. unfold fmpc_fields. repeat (apply Forall_cons; [first [apply plain_int|apply Hfmt]|]). constructor. }
    split; [exists (map (fun e => show_int (fst (fst e))) l); split; [apply (G "iter" 0); [reflexivity|intros [[a b] [[[c d] e] h]]; reflexivity]|]|].
    { rewrite map_map. apply map_ext. intros e. apply read_show. }
    split; [apply (G "kkt_error" 1); [reflexivity|intros [[a b] [[[c d] e] h]]; reflexivity]|].
    split; [apply (G "duration_coeff" 2); [reflexivity|intros [[a b] [[[c d] e] h]]; reflexivity]|].
    split; [apply (G "duration_backward" 3); [reflexivity|intros [[a b] [[[c d] e] h]]; reflexivity]|].
    split; [apply (G "duration_forward" 4); [reflexivity|intros [[a b] [[[c d] e] h]]; reflexivity]|].
    apply (G "duration_update" 5); [reflexivity|intros [[a b] [[[c d] e] h]]; reflexivity].
  Qed.

  (** After a call of solve the column "iter" reads 0, 1, ..., one row per trace entry, whatever the durations. *)
  Theorem C76_after_solve {N : Num T} LL pb cf limits jk fuel qfuel t0 x0 us s b s' ds :
    ddp_solve LL pb cf limits jk fuel qfuel t0 x0 us s = Ok b s' -> List.length ds = List.length (s_trace s') ->
    exists c, column "iter" (ddp_dump fmt (combine (s_trace s') ds)) = Some c /\ map read_int c = map (fun i => Some (Z.of_nat i)) (seq 0 (List.length (s_trace s'))) /\
      column "cost" (ddp_dump fmt (combine (s_trace s') ds)) = Some (map (fun e => fmt (tr_cost e)) (s_trace s')).
  Proof.
    intros E Hl. destruct (C03_C05_run_shape _ _ _ _ _ _ _ _ _ _ _ _ _ E) as (c0 & es & _ & _ & _ & _ & Hit & _).
    destruct (C76_ddp_trace (combine (s_trace s') ds)) as ((c & H1 & H2) & H3 & _). exists c. split; [exact H1|].
    assert (F : forall {B} (g : trace T -> B), map (fun e => g (fst e)) (combine (s_trace s') ds) = map g (s_trace s')).
    { intros B g. apply map_combine. exact Hl. }
    split.
    - rewrite H2, (F _ (fun e => Some (tr_iter e))). clear -Hit. assert (G : forall l k, (forall i e, nth_error l i = Some e -> tr_iter (T := T) e = Z.of_nat (k + i)) ->
        map (fun e => Some (tr_iter e)) l = map (fun i => Some (Z.of_nat i)) (seq k (List.length l))).
      { induction l as [|e l IH]; intros k H; [reflexivity|]. cbn [List.length seq map]. rewrite (H 0 e eq_refl), Nat.add_0_r. f_equal. apply IH.
        intros i e' He. rewrite (H (Datatypes.S i) e' He). f_equal. lia. }
      apply G. exact Hit.
    - rewrite H3. f_equal. apply (F _ (fun e => fmt (tr_cost e))).
  Qed.
End Trace.
Print Assumptions C76_ddp_trace.
Print Assumptions C76_fmpc_trace.
Print Assumptions C76_after_solve.

(** A notation of doubles that meets the assumption: mantissa and exponent as integers. *)
Definition fmt64 (x : f64) : string := let '(m, e) := f2 x in show_int m ++ "e" ++ show_int e.
Lemma plain_app a b : plain_all a = true -> plain_all b = true -> plain_all (a ++ b) = true.
Proof. induction a as [|x a IH]; cbn; intros Ha Hb; [exact Hb|]. apply andb_true_iff in Ha as [H1 H2]. rewrite H1, IH by assumption. reflexivity. Qed.
Lemma fmt64_plain x : plain (fmt64 x).
Proof.
  unfold fmt64. destruct (f2 x) as [m e]. destruct (plain_int m) as [H1 H2], (plain_int e) as [H3 H4]. split.
  - destruct (show_int m); [congruence|discriminate].
  - apply plain_app; [exact H2|]. cbn. exact H4.
Qed.
(** The trace of the run of ExDDP.v with zero durations: five entries, their costs and step factors as read from the file. *)
Definition trace_of (o : outcome (ddp f64) bool) : list (trace f64) := match o with Ok _ s => s_trace s | _ => [] end.
Definition no_dur : durations f64 := {| du_deriv := nzero; du_back := nzero; du_fwd := nzero |}.
Example C76_nonvacuous : (forall a, plain (fmt64 a)) /\
  let l := map (fun e => (e, no_dur)) (trace_of (lq_run (nofZ 2) nzero)) in
  (3 <= List.length l)%nat /\
  match column "iter" (ddp_dump fmt64 l) with Some ("0" :: "1" :: "2" :: _) => True | _ => False end /\
  match column "cost" (ddp_dump fmt64 l) with Some (a :: b :: _) => a <> b | _ => False end /\
  column "iteration" (ddp_dump fmt64 l) = None.
Proof. split; [exact fmt64_plain|]. vm_compute. repeat split; try lia; discriminate. Qed.

(** ** C77: the data files of CgmresSolver *)
Lemma spaces_free c n : Ascii.eqb " " c = false -> free c (spaces n) = true.
Proof. intros H. induction n as [|n IH]; [reflexivity|]. cbn [spaces free]. rewrite H. exact IH. Qed.

Section Data.
  Context {T : Type} (fmt : T -> string).
  Hypothesis Hfmt : forall a, plain (fmt a).
  Lemma split_commas (v : vec T) w : v <> [] ->
    map strip (split "," (String " " (commas (map (pad w) (map fmt v))))) = map fmt v.
  Proof.
    intros Hv. induction v as [|a v IH]; [congruence|].
    assert (Fa : free "," (String " " (pad w (fmt a))) = true).
    { cbn. unfold pad. rewrite free_app, spaces_free by reflexivity. apply plain_free; [reflexivity|apply Hfmt]. }
    assert (Sa : strip (String " " (pad w (fmt a))) = fmt a).
    { cbn [strip]. unfold pad. rewrite strip_spaces. apply strip_plain, Hfmt. }
    destruct v as [|b v].
    - cbn [map commas]. rewrite split_free by exact Fa. cbn [map]. rewrite Sa. reflexivity.
    - change (String " " (commas (map (pad w) (map fmt (a :: b :: v))))) with
        (String " " (pad w (fmt a)) ++ String "," (String " " (commas (map (pad w) (map fmt (b :: v)))))).
      rewrite split_app by exact Fa. cbn [map]. rewrite Sa. f_equal. apply IH. discriminate.
  Qed.
  Lemma commas_free v w : free "010" (commas (map (pad w) (map fmt v))) = true.
  Proof.
    induction v as [|a v IH]; [reflexivity|].
    assert (Fa : free "010" (pad w (fmt a)) = true) by (unfold pad; rewrite free_app, spaces_free by reflexivity; apply plain_free; [reflexivity|apply Hfmt]).
    destruct v as [|b v]; [exact Fa|].
    change (commas (map (pad w) (map fmt (a :: b :: v)))) with (pad w (fmt a) ++ String "," (String " " (commas (map (pad w) (map fmt (b :: v)))))).
    rewrite free_app, Fa. cbn [free andb negb Ascii.eqb Bool.eqb]. exact IH.
  Qed.
  Lemma table_rows {A} (tt : A -> T) (body : A -> string) (vals : A -> list string) (row : A -> string) l :
    (forall a, row a = (fmt (tt a) ++ String "," (String " " (body a))) ++ nl) -> (forall a, In a l -> free "010" (body a) = true) ->
    (forall a, In a l -> map strip (split "," (String " " (body a))) = vals a) ->
    table "," (texts row l) = map (fun a => fmt (tt a) :: vals a) l.
  Proof.
    intros Hr Hf Hs. induction l as [|a l IH]; [reflexivity|].
    assert (E : lines (texts row (a :: l)) = (fmt (tt a) ++ String "," (String " " (body a))) :: lines (texts row l)).
    { assert (E1 := lines_texts (fun _ : unit => row a) (fun _ => fmt (tt a) ++ String "," (String " " (body a))) [Datatypes.tt] (texts row l)).
      cbn [texts map List.app] in E1. rewrite app_nil_s in E1. cbn [texts]. rewrite E1; [reflexivity| | |].
      - intros _. apply Hr.
      - intros _. rewrite free_app. rewrite plain_free by (reflexivity || apply Hfmt). cbn [free andb negb Ascii.eqb Bool.eqb]. apply Hf. left; reflexivity.
      - intros _. destruct (Hfmt (tt a)) as [Hn _]. destruct (fmt (tt a)); [congruence|discriminate]. }
    unfold table in *. rewrite E. cbn [map]. rewrite split_app by (apply plain_free; [reflexivity|apply Hfmt]). cbn [map].
    rewrite strip_plain by apply Hfmt. rewrite Hs by (left; reflexivity). f_equal. apply IH; intros; [apply Hf|apply Hs]; right; assumption.
  Qed.

  (** Each file reads back as one row per logged step: the time, then the components of the state, of the input, or the error norm. *)
  Theorem C77_data_files (l : list (cg_row T)) : (forall r, In r l -> cr_x r <> [] /\ cr_u r <> []) ->
    table "," (cg_x_file fmt l) = map (fun r => fmt (cr_t r) :: map fmt (cr_x r)) l /\
    table "," (cg_u_file fmt l) = map (fun r => fmt (cr_t r) :: map fmt (cr_u r)) l /\
    table "," (cg_err_file fmt l) = map (fun r => [fmt (cr_t r); fmt (cr_err r)]) l.
  Proof.
    intros Hne. split; [|split].
    - apply (table_rows cr_t (fun r => show_vec fmt (cr_x r)) (fun r => map fmt (cr_x r))).
      + intros r. unfold cg_x_row. rewrite !app_assoc_s. reflexivity.
      + intros r _. apply commas_free.
      + intros r Hr. apply split_commas. apply Hne, Hr.
    - apply (table_rows cr_t (fun r => show_vec fmt (cr_u r)) (fun r => map fmt (cr_u r))).
      + intros r. unfold cg_u_row. rewrite !app_assoc_s. reflexivity.
      + intros r _. apply commas_free.
      + intros r Hr. apply split_commas. apply Hne, Hr.
    - apply (table_rows cr_t (fun r => fmt (cr_err r)) (fun r => [fmt (cr_err r)])).
      + intros r. unfold cg_err_row. rewrite !app_assoc_s. reflexivity.
      + intros r _. apply plain_free; [reflexivity|apply Hfmt].
      + intros r _. rewrite split_free; [cbn [map strip]; rewrite strip_plain by apply Hfmt; reflexivity|].
        cbn [free andb negb Ascii.eqb Bool.eqb]. apply plain_free; [reflexivity|apply Hfmt].
  Qed.
End Data.
Print Assumptions C77_data_files.
Example C77_nonvacuous : let r := {| cr_t := nhalf; cr_x := [nofZ 3; nofZ (-7)]; cr_u := [none]; cr_err := nzero |} : cg_row f64 in
  table "," (cg_x_file fmt64 [r; r]) = [[fmt64 nhalf; fmt64 (nofZ 3); fmt64 (nofZ (-7))]; [fmt64 nhalf; fmt64 (nofZ 3); fmt64 (nofZ (-7))]].
Proof. vm_compute. reflexivity. Qed.

(** ** The parameter file *)
(** Texts that a reader of JSON (RFC 8259) can accept. Numbers and words are not restricted further than to plain characters, and any
    character may follow a backslash, so that every JSON text is one of these. *)
Definition is_ws (a : ascii) : bool := existsb (Ascii.eqb a) [" "; "009"; "010"; "013"]%char.
Fixpoint ws (s : string) : bool := match s with "" => true | String a r => is_ws a && ws r end.
Definition atom_char (a : ascii) : bool := plain_char a && negb (is_ws a).
Fixpoint atom_all (s : string) : bool := match s with "" => true | String a r => atom_char a && atom_all r end.
Inductive str_body : string -> Prop :=
| sb_nil : str_body ""
| sb_char a s : a <> """"%char -> a <> "\"%char -> str_body s -> str_body (String a s)
| sb_esc a s : str_body s -> str_body (String "\" (String a s)).
Definition quoted (s : string) : string := String """" (s ++ dq).
Inductive jvalue : string -> Prop :=
| jv_atom s : s <> "" -> atom_all s = true -> jvalue s
| jv_str s : str_body s -> jvalue (quoted s)
| jv_arr0 w : ws w = true -> jvalue ("[" ++ w ++ "]")
| jv_arr e : jelems e -> jvalue ("[" ++ e ++ "]")
| jv_obj0 w : ws w = true -> jvalue ("{" ++ w ++ "}")
| jv_obj m : jmembers m -> jvalue ("{" ++ m ++ "}")
with jelems : string -> Prop :=
| je_one a v b : ws a = true -> jvalue v -> ws b = true -> jelems (a ++ v ++ b)
| je_more a v b e : ws a = true -> jvalue v -> ws b = true -> jelems e -> jelems (a ++ v ++ b ++ "," ++ e)
with jmembers : string -> Prop :=
| jm_one a k b c v d : ws a = true -> str_body k -> ws b = true -> ws c = true -> jvalue v -> ws d = true ->
    jmembers (a ++ quoted k ++ b ++ ":" ++ c ++ v ++ d)
| jm_more a k b c v d m : ws a = true -> str_body k -> ws b = true -> ws c = true -> jvalue v -> ws d = true -> jmembers m ->
    jmembers (a ++ quoted k ++ b ++ ":" ++ c ++ v ++ d ++ "," ++ m).
Scheme jv_ind := Induction for jvalue Sort Prop with je_ind := Induction for jelems Sort Prop with jm_ind := Induction for jmembers Sort Prop.
Definition json (s : string) : Prop := exists a v b, ws a = true /\ jvalue v /\ ws b = true /\ s = a ++ v ++ b.

(** A scanner that stops at a closing brace whose last significant character before is a comma. State: within a string, after a
    backslash, after a comma. *)
Inductive sc : Type := Sc (instr esc comma : bool).
Definition step (q : sc) (a : ascii) : option sc :=
  let '(Sc i e c) := q in
  if i then
    if e then Some (Sc true false c)
    else if Ascii.eqb a "\" then Some (Sc true true c) else if Ascii.eqb a """" then Some (Sc false false false) else Some (Sc true false c)
  else if is_ws a then Some q
  else if Ascii.eqb a """" then Some (Sc true false c)
  else if Ascii.eqb a "," then Some (Sc false false true)
  else if Ascii.eqb a "}" then (if c then None else Some (Sc false false false))
  else Some (Sc false false false).
Fixpoint scan (q : option sc) (s : string) : option sc :=
  match s with "" => q | String a r => scan (match q with Some q => step q a | None => None end) r end.
Lemma scan_app s r : forall q, scan q (s ++ r) = scan (scan q s) r.
Proof. induction s as [|a s IH]; intros q; cbn; [reflexivity|]. apply IH. Qed.
Lemma scan_none s : scan None s = None.
Proof. induction s as [|a s IH]; cbn; auto. Qed.
Lemma scan_ws s c : ws s = true -> scan (Some (Sc false false c)) s = Some (Sc false false c).
Proof. induction s as [|a s IH]; cbn; [reflexivity|]. intros H. apply andb_true_iff in H as [H1 H2]. rewrite H1. apply IH, H2. Qed.
Lemma scan_body s c : str_body s -> scan (Some (Sc true false c)) s = Some (Sc true false c).
Proof.
  induction 1 as [|a s H1 H2 H IH|a s H IH]; cbn; [reflexivity| |exact IH].
  destruct (Ascii.eqb_spec a "\"); [congruence|]. destruct (Ascii.eqb_spec a """"); [congruence|]. exact IH.
Qed.
Lemma scan_quoted s c : str_body s -> scan (Some (Sc false false c)) (quoted s) = Some (Sc false false false).
Proof. intros H. unfold quoted. cbn [scan step is_ws existsb Ascii.eqb Bool.eqb orb]. rewrite scan_app, scan_body by exact H. reflexivity. Qed.
Lemma step_atom a c : atom_char a = true -> step (Sc false false c) a = Some (Sc false false false).
Proof.
  unfold atom_char, plain_char. intros H. apply andb_true_iff in H as [H W]. apply negb_true_iff in H, W. cbn [existsb] in H.
  repeat (apply orb_false_iff in H as [? H]). unfold step. rewrite W.
  repeat match goal with E : Ascii.eqb a _ = false |- _ => rewrite ?E; clear E end. reflexivity.
Qed.
Lemma scan_atom s c : s <> "" -> atom_all s = true -> scan (Some (Sc false false c)) s = Some (Sc false false false).
Proof.
  revert c. induction s as [|a s IH]; intros c Hn H; [congruence|]. cbn [scan atom_all] in *. apply andb_true_iff in H as [H1 H2].
  rewrite step_atom by exact H1. destruct s as [|b s]; [reflexivity|]. apply IH; [discriminate|exact H2].
Qed.
Ltac sc := repeat first [rewrite scan_app | rewrite scan_ws by assumption | rewrite scan_quoted by assumption].
Lemma scan_value s (H : jvalue s) : forall c, scan (Some (Sc false false c)) s = Some (Sc false false false).
Proof.
  induction H using jv_ind with
    (P0 := fun s _ => forall c, scan (Some (Sc false false c)) s = Some (Sc false false false))
    (P1 := fun s _ => forall c, scan (Some (Sc false false c)) s = Some (Sc false false false)); intros q.
  - apply scan_atom; assumption.
  - apply scan_quoted; assumption.
  - sc. change (scan (Some (Sc false false q)) "[") with (Some (Sc false false false)). sc. reflexivity.
  - sc. change (scan (Some (Sc false false q)) "[") with (Some (Sc false false false)). rewrite IHjvalue. reflexivity.
  - sc. change (scan (Some (Sc false false q)) "{") with (Some (Sc false false false)). sc. reflexivity.
  - sc. change (scan (Some (Sc false false q)) "{") with (Some (Sc false false false)). rewrite IHjvalue. reflexivity.
  - sc. rewrite IHjvalue. sc. reflexivity.
  - sc. rewrite IHjvalue. sc. change (scan (Some (Sc false false false)) ",") with (Some (Sc false false true)). apply IHjvalue0.
  - sc. change (scan (Some (Sc false false false)) ":") with (Some (Sc false false false)). sc. rewrite IHjvalue. sc. reflexivity.
  - sc. change (scan (Some (Sc false false false)) ":") with (Some (Sc false false false)). sc. rewrite IHjvalue. sc.
    change (scan (Some (Sc false false false)) ",") with (Some (Sc false false true)). apply IHjvalue0.
Qed.
Lemma scan_json s : json s -> scan (Some (Sc false false false)) s <> None.
Proof. intros (a & v & b & Ha & Hv & Hb & ->). sc. rewrite scan_value by exact Hv. sc. discriminate. Qed.
Lemma scan_free s : free """" s = true -> forall c, scan (Some (Sc false false c)) s = None \/ exists c', scan (Some (Sc false false c)) s = Some (Sc false false c').
Proof.
  induction s as [|a s IH]; cbn [scan free]; intros H c; [right; exists c; reflexivity|]. apply andb_true_iff in H as [H1 H2].
  apply negb_true_iff in H1. cbn [step]. destruct (is_ws a); [apply IH, H2|]. rewrite H1.
  destruct (Ascii.eqb a ","); [apply IH, H2|]. destruct (Ascii.eqb a "}"); [destruct c; [left; apply scan_none|]|]; apply IH, H2.
Qed.
Lemma commas_noquote {T} (fmt : T -> string) : (forall a, plain (fmt a)) -> forall v w, free """" (commas (map (pad w) (map fmt v))) = true.
Proof.
  intros Hfmt v w. induction v as [|a v IH]; [reflexivity|].
  assert (Fa : free """" (pad w (fmt a)) = true) by (unfold pad; rewrite free_app, spaces_free by reflexivity; apply plain_free; [reflexivity|apply Hfmt]).
  destruct v as [|b v]; [exact Fa|].
  change (commas (map (pad w) (map fmt (a :: b :: v)))) with (pad w (fmt a) ++ String "," (String " " (commas (map (pad w) (map fmt (b :: v)))))).
  rewrite free_app, Fa. cbn [free andb negb Ascii.eqb Bool.eqb]. exact IH.
Qed.

(** The parameter file is never a JSON text, whatever the parameters: the last member is followed by a comma. *)
Theorem C77_param_refuted {T} (fmt : T -> string) : (forall a, plain (fmt a)) ->
  forall log_dt param, ~ json (cg_param_file fmt log_dt param).
Proof.
  intros Hfmt d v J. apply scan_json in J. apply J. clear J. unfold cg_param_file.
  assert (Fd : free """" (fmt d) = true) by (apply plain_free; [reflexivity|apply Hfmt]).
  assert (Fv := commas_noquote fmt Hfmt v (width (map fmt v))). change (free """" (show_vec fmt v) = true) in Fv.
  set (tl := dq ++ "state_eq_param" ++ dq ++ ": [" ++ show_vec fmt v ++ "]," ++ nl ++ "}" ++ nl).
  assert (T0 : forall c, scan (Some (Sc false false c)) tl = None).
  { intros c. unfold tl. cbn [dq append scan step is_ws existsb Ascii.eqb Bool.eqb orb]. rewrite scan_app.
    destruct (scan_free _ Fv false) as [-> | [c' ->]]; [apply scan_none|]. reflexivity. }
  cbn [nl dq append scan step is_ws existsb Ascii.eqb Bool.eqb orb]. rewrite scan_app.
  destruct (scan_free _ Fd false) as [-> | [c' ->]]; [apply scan_none|]. cbn [append scan step is_ws existsb Ascii.eqb Bool.eqb orb]. apply T0.
Qed.
Print Assumptions C77_param_refuted.
(** The definition of JSON is not empty: the same text without that comma is accepted. *)
Example C77_param_nonvacuous : json ("{" ++ nl ++ dq ++ "log_dt" ++ dq ++ ": 0.001," ++ nl ++ dq ++ "state_eq_param" ++ dq ++ ": [1, 2]" ++ nl ++ "}" ++ nl).
Proof.
  exists "", ("{" ++ (nl ++ quoted "log_dt" ++ "" ++ ":" ++ " " ++ "0.001" ++ "" ++ "," ++ (nl ++ quoted "state_eq_param" ++ "" ++ ":" ++ " " ++
    ("[" ++ ("" ++ "1" ++ "" ++ "," ++ (" " ++ "2" ++ "")) ++ "]") ++ nl)) ++ "}"), nl.
  split; [reflexivity|]. split; [|split; reflexivity].
  apply jv_obj. assert (B : forall s, atom_all s = true -> str_body s).
  { intros s. induction s as [|a s IH]; cbn [atom_all]; intros H; [constructor|]. apply andb_true_iff in H as [H1 H2].
    constructor; [intros -> | intros -> |]; try discriminate H1. apply IH, H2. }
  apply jm_more; try reflexivity; [apply B; reflexivity|apply jv_atom; [discriminate|reflexivity]|].
  apply jm_one; try reflexivity; [apply B; reflexivity|]. apply jv_arr. apply je_more; try reflexivity; [apply jv_atom; [discriminate|reflexivity]|].
  apply je_one; try reflexivity. apply jv_atom; [discriminate|reflexivity].
Qed.
