(** Proofs about Reports.v. *)
From Coq Require Import Bool Ascii String DecimalString NArith ZArith Lia Sorted List.
From Coq Require Import Floats.SpecFloat.
From Verif Require Import Base CInt Values ArgMatchers InvMatchers Sequences Spec_Match SequencesProofs Expectation 
  Syntax World Spec_World Spec_View Spec_Verify Spec_Verification WorldRel SpecCalls SpecHistory SpecVerify SpecStatement Format Spec_Format FormatProofs Reports Spec_Reports.
Import ListNotations.
Open Scope string_scope.

Section R.
Variable show_dbl : spec_float -> string.
Variable show_ptr : option addr -> string.
Local Notation shows := (shows show_dbl show_ptr).
Local Notation shows_object := (shows_object show_dbl show_ptr).

Lemma cut_upto : forall b s, upto_nul b s <-> cut_nul b = s.
Proof.
  induction b as [|c b IH]; intro s; cbn.
  - split; [intro H; now inversion H|intros <-; constructor].
  - destruct (N.eqb_spec (byte c) 0) as [Z|NZ].
    + assert (C : c = zero) by (rewrite <- (ascii_N_embedding c); unfold byte in Z; now rewrite Z). subst c.
      split; [intro H; inversion H; subst; auto; congruence|intros <-; constructor].
    + assert (C : c <> zero) by (intros ->; now apply NZ). split.
      * intro H. inversion H; subst; [congruence|]. f_equal. now apply IH.
      * intros <-. constructor; auto. now apply IH.
Qed.

Lemma object_shown : forall m v t, fmt_viewed show_dbl show_ptr m v = Def t <-> shows_object m v t.
Proof.
  intros m v t. split.
  - destruct v as [|z|x|[]|c|s|[p|]|p|a|n]; cbn; intro H; inversion H; subst; try constructor.
    destruct (load m p) as [c| |] eqn:L; cbn in H; try discriminate. destruct c; try discriminate. inversion H; subst.
    unfold load in L. destruct (nth_error m p) as [[v|]|] eqn:N; inversion L; subst.
    eapply ShCStr; eauto. now apply cut_upto.
  - intro H. inversion H; subst; cbn; auto. unfold load. rewrite H0. cbn. apply cut_upto in H1. now rewrite H1.
Qed.

Lemma arg_shown : forall m v t, fmt_val show_dbl show_ptr m v = Def t <-> shows m v t.
Proof.
  intros m v t. unfold fmt_val. split.
  - destruct v; cbn [view obind]; intro H; try (apply ShItself, object_shown; exact H).
    unfold load in H. destruct (nth_error m a) as [[v|]|] eqn:N; cbn in H; try discriminate.
    eapply ShThrough; eauto. now apply object_shown.
  - intro H. inversion H as [v' t' O|a v' t' N O]; subst.
    + apply object_shown in O. destruct v; cbn [view obind]; auto. discriminate.
    + apply object_shown in O. cbn [view]. unfold load. rewrite N. exact O.
Qed.

Lemma args_shown : forall m l ts, fmt_all show_dbl show_ptr m l = Def ts <-> Forall2 (shows m) l ts.
Proof.
  induction l as [|v l IH]; intro ts; cbn [fmt_all].
  - split; [intro H; inversion H; constructor|intro H; now inversion H].
  - split.
    + destruct (fmt_val show_dbl show_ptr m v) as [t| |] eqn:F; cbn [obind]; try discriminate.
      destruct (fmt_all show_dbl show_ptr m l) as [ss| |] eqn:G; cbn [obind]; try discriminate. intro H. inversion H; subst.
      constructor; [now apply arg_shown|now apply IH].
    + intro H. inversion H as [|v' t l' ts' A B]; subst. apply arg_shown in A. rewrite A. cbn [obind]. apply IH in B. now rewrite B.
Qed.

Lemma join_listed : forall ts s, listed ts s <-> join ", " ts = s.
Proof.
  induction ts as [|t ts IH]; intro s.
  - split; [intro H; now inversion H|intros <-; constructor].
  - destruct ts as [|t2 ts].
    + split; [intro H; inversion H; subst; cbn; congruence|intros <-; constructor].
    + change (join ", " (t :: t2 :: ts)) with (t ++ ", " ++ join ", " (t2 :: ts)). split.
      * intro H. inversion H as [| |t' ts' s' N L]; subst. apply IH in L. now rewrite L.
      * intros <-. constructor; [discriminate|]. now apply IH.
Qed.

Lemma call_text : forall m name args t, fmt_invocation show_dbl show_ptr m name args = Def t <-> call_reads show_dbl show_ptr m name args t.
Proof.
  intros m name args t. unfold fmt_invocation, print_tuple, call_reads. split.
  - destruct (fmt_all show_dbl show_ptr m args) as [ts| |] eqn:F; cbn [obind]; try discriminate. intro H. injection H as <-.
    exists ts, (join ", " ts). split; [now apply args_shown|]. split; [now apply join_listed|reflexivity].
  - intros (ts & s & A & B & ->). apply args_shown in A. rewrite A. cbn [obind]. apply join_listed in B. now rewrite B.
Qed.

Lemma sign_prefix : forall r p, sign r p <-> rel_prefix r = p.
Proof. intros r p. split; [intros []; reflexivity|intros <-; destruct r; constructor]. Qed.

Lemma asked : forall m am t, fmt_amatcher show_dbl show_ptr m am = Def t <-> asks show_dbl show_ptr m am t.
Proof.
  intros m am t. split.
  - destruct am as [|r [v|b]|r s|v k]; cbn [fmt_amatcher fmt_expected obind].
    + intro H. injection H as <-. constructor.
    + destruct (fmt_val show_dbl show_ptr m v) as [x| |] eqn:F; cbn [obind]; try discriminate. intro H. injection H as <-.
      constructor; [now apply sign_prefix|now apply arg_shown].
    + intro H. injection H as <-. constructor; [now apply sign_prefix|now apply cut_upto].
    + intro H. injection H as <-. constructor. now apply sign_prefix.
    + destruct (fmt_val show_dbl show_ptr m v) as [x| |] eqn:F; cbn [obind]; try discriminate.
      destruct (fmt_val show_dbl show_ptr m k) as [y| |] eqn:G; cbn [obind]; try discriminate. intro H. injection H as <-.
      constructor; now apply arg_shown.
  - intro H. destruct H as [|r p v t S V|r p b s S V|r p s S|v t k u V K]; cbn [fmt_amatcher fmt_expected obind]; auto;
      try (apply sign_prefix in S; subst p).
    + apply arg_shown in V. now rewrite V.
    + apply cut_upto in V. now rewrite V.
    + reflexivity.
    + apply arg_shown in V. apply arg_shown in K. now rewrite V, K.
Qed.

Lemma all_asked : forall m l ts, fmt_amatchers show_dbl show_ptr m l = Def ts <-> Forall2 (asks show_dbl show_ptr m) l ts.
Proof.
  induction l as [|v l IH]; intro ts; cbn [fmt_amatchers].
  - split; [intro H; inversion H; constructor|intro H; now inversion H].
  - split.
    + destruct (fmt_amatcher show_dbl show_ptr m v) as [t| |] eqn:F; cbn [obind]; try discriminate.
      destruct (fmt_amatchers show_dbl show_ptr m l) as [ss| |] eqn:G; cbn [obind]; try discriminate. intro H. inversion H; subst.
      constructor; [now apply asked|now apply IH].
    + intro H. inversion H as [|v' t l' ts' A B]; subst. apply asked in A. rewrite A. cbn [obind]. apply IH in B. now rewrite B.
Qed.

Lemma expression_text : forall m name im t,
  (exists s, fmt_imatcher show_dbl show_ptr m im = Def s /\ t = name ++ s) <-> expression_reads show_dbl show_ptr m name im t.
Proof.
  intros m name im t. split.
  - intros (s & F & ->). destruct im as [ms|p|]; cbn [fmt_imatcher] in F.
    + destruct (fmt_amatchers show_dbl show_ptr m ms) as [ss| |] eqn:G; cbn [obind] in F; try discriminate. injection F as <-.
      apply XrArgs with ss; [now apply all_asked|now apply join_listed].
    + injection F as <-. constructor.
    + injection F as <-. constructor.
  - intro H. destruct H as [ms ts s A B|p|].
    + exists ("(" ++ s ++ ")"). split; [|reflexivity]. cbn [fmt_imatcher]. apply all_asked in A. rewrite A. cbn [obind].
      apply join_listed in B. now rewrite B.
    + eexists. split; reflexivity.
    + eexists. split; reflexivity.
Qed.

Lemma call_undefined : forall m name args, (forall t, ~ call_reads show_dbl show_ptr m name args t) ->
  fmt_invocation show_dbl show_ptr m name args = UB.
Proof.
  intros m name args H.
  assert (V : forall v, fmt_val show_dbl show_ptr m v <> NoFuel).
  { intro v. unfold fmt_val. destruct v as [|z|x|b|c|s|[p|]|p|a|n]; cbn; try discriminate.
    - unfold load. destruct (nth_error m p) as [[c|]|]; cbn; try discriminate. destruct c; discriminate.
    - unfold load. destruct (nth_error m a) as [[v|]|]; cbn; try discriminate.
      destruct v as [|z|x|b|c|s|[p|]|p|a'|n]; cbn; try discriminate. unfold load. destruct (nth_error m p) as [[c|]|]; cbn; try discriminate. destruct c; discriminate. }
  assert (A : forall l, fmt_all show_dbl show_ptr m l <> NoFuel).
  { induction l as [|v l IH]; cbn [fmt_all]; [discriminate|]. specialize (V v). destruct (fmt_val show_dbl show_ptr m v); cbn [obind]; try congruence.
    destruct (fmt_all show_dbl show_ptr m l); cbn [obind]; congruence. }
  destruct (fmt_invocation show_dbl show_ptr m name args) as [t| |] eqn:F; auto.
  - exfalso. apply (H t). now apply call_text.
  - exfalso. unfold fmt_invocation, print_tuple in F. specialize (A args). destruct (fmt_all show_dbl show_ptr m args); cbn in F; congruence.
Qed.

Variable E : env.
Variable names : Z -> string.
Local Notation reads_now := (reads_now show_dbl show_ptr E names).
Local Notation call_reads_now := (call_reads_now show_dbl show_ptr names).
Local Notation inv_text := (inv_text show_dbl show_ptr names).
Local Notation ctx_text := (ctx_text E show_dbl show_ptr names).
Local Notation event_text := (event_text E show_dbl show_ptr names).

Lemma all_texts_some : forall f l ts, Forall2 (fun i t => f i = Def t) l ts -> all_texts f l = Def ts.
Proof. intros f l ts H. induction H as [|i t l ts A B IH]; cbn; auto. now rewrite A, IH. Qed.
Lemma all_texts_ex : forall f l, (forall i, In i l -> exists t, f i = Def t) -> exists ts, all_texts f l = Def ts.
Proof.
  induction l as [|i l IH]; intro H; cbn; eauto. destruct (H i (or_introl eq_refl)) as (t & ->). cbn [obind].
  destruct IH as (ts & ->); [intros; apply H; now right|]. cbn. eauto.
Qed.

Lemma involved_spelled : forall q : sequence nat, seq_built q -> forall c, In c (getInvolvedMocks (fun c => c) q) <-> In c (spelled q).
Proof.
  induction q as [j|l IHl r IHr|q IH n]; cbn; intros B c; try tauto.
  - destruct B. now rewrite !in_app_iff, IHl, IHr.
  - destruct B as [B N]. rewrite IH by auto. destruct (Z.to_nat n) as [|k] eqn:K; [lia|]. clear. induction k as [|k IHk]; cbn in *.
    + rewrite app_nil_r. tauto.
    + rewrite in_app_iff. rewrite <- IHk. tauto.
Qed.

Lemma ctx_reads : forall w c t, ctx_text w c = Def t <-> reads_now w c t.
Proof.
  intros w c t. unfold Reports.ctx_text, Spec_Reports.reads_now. split.
  - destruct (heap_ctx w c) as [x| |] eqn:X; cbn [obind]; try discriminate.
    destruct (bound_body E w (cx_target x)) as [b| |] eqn:B; cbn [obind]; try discriminate.
    destruct (heap_body w b) as [bd| |] eqn:D; cbn [obind]; try discriminate.
    destruct (heap_matcher w (cx_matcher x)) as [im| |] eqn:M; cbn [obind]; try discriminate.
    destruct (fmt_imatcher show_dbl show_ptr (w_mem w) im) as [s| |] eqn:F; cbn [obind]; try discriminate.
    intro H. injection H as <-. exists x, b, bd, im. repeat (split; [assumption || reflexivity|]). apply expression_text. eauto.
  - intros (x & b & bd & im & -> & H1 & H2 & H3 & H). cbn [obind]. rewrite H1. cbn [obind]. rewrite H2. cbn [obind]. rewrite H3. cbn [obind].
    apply expression_text in H. destruct H as (s & -> & ->). reflexivity.
Qed.

Lemma formatted_sequence : forall (leaf : nat -> string) (reads : nat -> string -> Prop), (forall c t, reads c t -> leaf c = t) ->
  forall q t, sequence_reads nat reads q t -> formatSequence leaf q = t.
Proof.
  intros leaf reads RL q t H.
  induction H as [a t R|l r t u _ IH1 _ IH2|a t n R|l r t n _ IH|q k t n _ IH].
  - cbn. auto.
  - cbn [formatSequence]. now rewrite IH1, IH2.
  - cbn [formatSequence composite]. cbn [String.append]. now rewrite (RL _ _ R).
  - change (formatSequence leaf (SRepeat (SConcat l r) n)) with ("(" ++ formatSequence leaf (SConcat l r) ++ ")" ++ " * " ++ show_Z n). now rewrite IH.
  - change (formatSequence leaf (SRepeat (SRepeat q k) n)) with ("(" ++ formatSequence leaf (SRepeat q k) ++ ")" ++ " * " ++ show_Z n). now rewrite IH.
Qed.

Lemma formatted_pattern : forall (leaf : nat -> string) (reads : nat -> string -> Prop), (forall c t, reads c t -> leaf c = t) ->
  forall p t, pattern_reads nat reads p t -> formatExpectedPattern leaf p = t.
Proof.
  intros leaf reads RL p t H. induction H as [q t R|q t p u R P IH].
  - cbn. eapply formatted_sequence; eauto.
  - destruct p as [|q' p]; [inversion P|].
    change (formatExpectedPattern leaf (q :: q' :: p)) with (formatSequence leaf q ++ " ... " ++ formatExpectedPattern leaf (q' :: p)).
    rewrite IH. erewrite formatted_sequence by eauto. reflexivity.
Qed.

Lemma read_leaves : forall reads q t, sequence_reads nat reads q t -> forall c, In c (getInvolvedMocks (fun c => c) q) -> exists x, reads c x.
Proof.
  intros reads q t H. induction H as [a t R|l r t u _ IH1 _ IH2|a t n R|l r t n _ IH|q k t n _ IH]; cbn; intros c C.
  - destruct C as [<-|[]]. eauto.
  - apply in_app_iff in C. destruct C; auto.
  - destruct C as [<-|[]]. eauto.
  - apply IH. exact C.
  - apply IH. exact C.
Qed.
Lemma read_pattern_leaves : forall reads p t, pattern_reads nat reads p t -> forall c, In c (flat_map (getInvolvedMocks (fun c => c)) p) -> exists x, reads c x.
Proof.
  intros reads p t H. induction H as [q t R|q t p u R P IH]; cbn; intros c C; apply in_app_iff in C.
  - destruct C as [C|[]]. eapply read_leaves; eauto.
  - destruct C as [C|C]; auto. eapply read_leaves; eauto.
Qed.

Lemma inv_reads : forall w i t, inv_text w i = Def t <-> call_reads_now w i t.
Proof.
  intros w i t. unfold Reports.inv_text, Spec_Reports.call_reads_now. split.
  - destruct (heap_inv w i) as [v| |]; cbn [obind]; try discriminate. intro H. exists v. split; auto. now apply call_text.
  - intros (v & -> & H). cbn [obind]. now apply call_text.
Qed.

Lemma listed_calls : forall w actual texts, Forall2 (call_reads_now w) (firstn 50 actual) texts -> Forall (fun x => one_line x = true) texts ->
  let all := (texts ++ map (fun _ => "") (skipn 50 actual))%list in
  list_texts show_dbl show_ptr names w actual = Def all /\ length all = length actual /\
  (forall x, In x all -> one_line x = true) /\
  (if (length all <=? 50)%nat then map (fun t => ("  " ++ t)%string) all
   else (map (fun t => ("  " ++ t)%string) (firstn 50 all) ++ ["  ..."])%list) =
  (map (fun x => ("  " ++ x)%string) texts ++ (if (length actual <=? 50)%nat then [] else ["  ..."]))%list.
Proof.
  intros w actual texts HT HO. cbv zeta. unfold list_texts.
  assert (HT' : Forall2 (fun i x => inv_text w i = Def x) (firstn 50 actual) texts).
  { clear - HT. induction HT; constructor; auto. now apply inv_reads. }
  rewrite (all_texts_some _ _ _ HT'). cbn [obind].
  assert (L : length texts = length (firstn 50 actual)) by (clear - HT; induction HT; cbn; congruence).
  assert (LA : length (texts ++ map (fun _ => "") (skipn 50 actual)) = length actual).
  { rewrite app_length, map_length, L, <- app_length, firstn_skipn. reflexivity. }
  split; [reflexivity|]. split; [exact LA|]. split.
  - intros x IN. apply in_app_iff in IN. destruct IN as [IN|IN].
    + rewrite Forall_forall in HO. auto.
    + apply in_map_iff in IN. destruct IN as (? & <- & _). reflexivity.
  - rewrite LA. destruct (length actual <=? 50)%nat eqn:Q.
    + apply Nat.leb_le in Q. rewrite skipn_all2 by lia. cbn [map app]. now rewrite !app_nil_r.
    + apply Nat.leb_gt in Q. f_equal. f_equal. rewrite firstn_app. rewrite firstn_length in L.
      replace (50 - length texts)%nat with 0%nat by lia. rewrite firstn_O, app_nil_r. apply firstn_all2. lia.
Qed.

(** The report of a failed verification. *)
Lemma sequence_text : forall w t pattern actual k n expected texts,
  actual <> [] -> pattern_reads nat (reads_now w) pattern expected -> one_line expected = true ->
  Forall2 (call_reads_now w) (firstn 50 actual) texts -> Forall (fun x => one_line x = true) texts ->
  exists s, event_text w (EvSequence t pattern actual k n) = Def s /\
  lines s =
  (["Verification error";
   "Expected pattern: " ++ expected;
   "Expected matches: " ++ (match t with VtExact => "exactly " | VtAtLeast => "at least " end) ++ NilZero.string_of_int (Z.to_int k);
   "Actual matches  : " ++ NilZero.string_of_int (Z.to_int n);
   "Actual sequence : total of " ++ NilZero.string_of_int (Z.to_int (Z.of_nat (length actual))) ++ " actual invocations:"]%string
  ++ map (fun x => ("  " ++ x)%string) texts ++ (if (length actual <=? 50)%nat then [] else ["  ..."]))%list.
Proof.
  intros w t pattern actual k n expected texts NE HC HE HT HO. cbn [Reports.event_text].
  destruct (all_texts_ex (ctx_text w) (flat_map (getInvolvedMocks (fun c => c)) pattern)) as (ls & ->).
  { intros c Hc. destruct (read_pattern_leaves _ _ _ HC c Hc) as (x & R). exists x. now apply ctx_reads. }
  destruct (listed_calls w actual texts HT HO) as (T & LA & OL & LS). cbn [obind]. rewrite T. cbn [obind].
  eexists. split; [reflexivity|].
  assert (FP : formatExpectedPattern (fun c => text_or_empty (ctx_text w c)) pattern = expected).
  { apply formatted_pattern with (reads := reads_now w); auto. intros c x R. apply ctx_reads in R. now rewrite R. }
  rewrite sequence_report.
  - rewrite FP, LS, LA. reflexivity.
  - intro H. apply (f_equal (@length _)) in H. rewrite LA in H. destruct actual; [congruence|discriminate].
  - exact OL.
  - now rewrite FP.
Qed.

(** The same if there were no calls. *)
Lemma sequence_text_empty : forall w t pattern k n expected,
  pattern_reads nat (reads_now w) pattern expected -> one_line expected = true ->
  exists s, event_text w (EvSequence t pattern [] k n) = Def s /\
  lines s =
  ["Verification error";
   "Expected pattern: " ++ expected;
   "Expected matches: " ++ (match t with VtExact => "exactly " | VtAtLeast => "at least " end) ++ NilZero.string_of_int (Z.to_int k);
   "Actual matches  : " ++ NilZero.string_of_int (Z.to_int n);
   "Actual sequence : total of 0 actual invocations."]%string.
Proof.
  intros w t pattern k n expected HC HE. cbn [Reports.event_text].
  destruct (all_texts_ex (ctx_text w) (flat_map (getInvolvedMocks (fun c => c)) pattern)) as (ls & ->).
  { intros c Hc. destruct (read_pattern_leaves _ _ _ HC c Hc) as (x & R). exists x. now apply ctx_reads. }
  change (list_texts show_dbl show_ptr names w []) with (Def (@nil string)). cbn [obind].
  eexists. split; [reflexivity|].
  assert (FP : formatExpectedPattern (fun c => text_or_empty (ctx_text w c)) pattern = expected).
  { apply formatted_pattern with (reads := reads_now w); auto. intros c x R. apply ctx_reads in R. now rewrite R. }
  unfold fmt_sequence_event, lines. rewrite FP.
  rewrite lines_app by reflexivity. rewrite lines_newline.
  rewrite lines_app by reflexivity. rewrite lines_app by exact HE. rewrite lines_newline.
  rewrite lines_app by reflexivity.
  assert (C : one_line (formatExpectedCount t k) = true).
  { unfold formatExpectedCount. destruct t; cbn; apply show_Z_one_line. }
  rewrite lines_app by exact C. rewrite lines_newline.
  rewrite lines_app by reflexivity. rewrite lines_app by apply show_Z_one_line. rewrite lines_newline.
  reflexivity.
Qed.

(** The report of VerifyNoOtherInvocations. *)
Lemma nomore_text : forall w all unverified texts, unverified <> [] ->
  Forall2 (call_reads_now w) (firstn 50 unverified) texts -> Forall (fun x => one_line x = true) texts ->
  exists s, event_text w (EvNoMore all unverified) = Def s /\
  lines s =
  (["Verification error"; "Expected no more invocations!! but the following unverified invocations were found:"]
  ++ map (fun x => ("  " ++ x)%string) texts ++ (if (length unverified <=? 50)%nat then [] else ["  ..."]))%list.
Proof.
  intros w all unv texts NE HT HO. cbn [Reports.event_text].
  destruct (listed_calls w unv texts HT HO) as (T & LA & OL & LS). rewrite T. cbn [obind].
  eexists. split; [reflexivity|]. unfold fmt_nomore_event, lines.
  rewrite lines_app by reflexivity. rewrite lines_newline. rewrite lines_app by reflexivity. rewrite lines_newline.
  cbn [app]. rewrite <- LS. rewrite <- invocation_list_lines; [reflexivity| |exact OL].
  intro H. apply (f_equal (@length _)) in H. rewrite LA in H. destruct unv; [congruence|discriminate].
Qed.

(** The report of an unexpected call. *)
Lemma unexpected_text : forall w t m args s,
  call_reads show_dbl show_ptr (w_mem w) (match m with Some id => names id | None => "unknown" end) args s -> one_line s = true ->
  exists x, event_text w (EvUnexpected t m args) = Def x /\
  lines x = ["Unexpected method invocation: " ++ s;
             match t with
             | Unmatched => "  Could not find any recorded behavior to support this method call."
             | Unmocked => "  An unmocked method was invoked. All used virtual methods must be stubbed!"
             end]%string.
Proof.
  intros w t m args s C O. cbn [Reports.event_text]. apply call_text in C. rewrite C. cbn [obind].
  eexists. split; [reflexivity|]. unfold fmt_unexpected_event, lines.
  rewrite lines_app by reflexivity. rewrite lines_app by exact O. rewrite lines_newline. destruct t; reflexivity.
Qed.

(** Nothing else has a report: all calls that are listed can be read. *)
Lemma all_texts_inv : forall f l ts, all_texts f l = Def ts -> forall i, In i l -> exists t, f i = Def t.
Proof.
  induction l as [|j l IH]; cbn; intros ts H i IN; [easy|].
  destruct (f j) as [t| |] eqn:F; cbn in H; try discriminate.
  destruct (all_texts f l) as [us| |] eqn:G; cbn in H; try discriminate.
  destruct IN as [<-|IN]; eauto.
Qed.
Lemma sequence_readable : forall w t pattern actual k n s i, event_text w (EvSequence t pattern actual k n) = Def s ->
  In i (firstn 50 actual) -> exists x, call_reads_now w i x.
Proof.
  intros w t pattern actual k n s i. cbn [Reports.event_text].
  destruct (all_texts (ctx_text w) _) as [ls| |]; cbn [obind]; try discriminate. unfold list_texts.
  destruct (all_texts (inv_text w) (firstn 50 actual)) as [ts| |] eqn:A; cbn [obind]; try discriminate. intros _ IN.
  destruct (all_texts_inv _ _ _ A i IN) as (x & X). exists x. now apply inv_reads.
Qed.
Lemma nomore_readable : forall w all unv s i, event_text w (EvNoMore all unv) = Def s ->
  In i (firstn 50 unv) -> exists x, call_reads_now w i x.
Proof.
  intros w all unv s i. cbn [Reports.event_text]. unfold list_texts.
  destruct (all_texts (inv_text w) (firstn 50 unv)) as [ts| |] eqn:A; cbn [obind]; try discriminate. intros _ IN.
  destruct (all_texts_inv _ _ _ A i IN) as (x & X). exists x. now apply inv_reads.
Qed.

End R.

Lemma sorted_same : forall l l' : list nat, StronglySorted lt l -> StronglySorted lt l' -> (forall i, In i l <-> In i l') -> l = l'.
Proof.
  induction l as [|a l IH]; intros l' S S' H.
  - destruct l' as [|b l']; auto. exfalso. apply (H b). now left.
  - destruct l' as [|b l']. { exfalso. apply (proj1 (H a)). now left. }
    inversion S as [|? ? S1 F1]; subst. inversion S' as [|? ? S2 F2]; subst. rewrite Forall_forall in F1, F2.
    assert (a = b).
    { destruct (proj1 (H a) (or_introl eq_refl)) as [|A]; auto. destruct (proj2 (H b) (or_introl eq_refl)) as [|B]; auto.
      specialize (F1 _ B). specialize (F2 _ A). lia. }
    subst b. f_equal. apply IH; auto. intro i. split; intro I.
    + destruct (proj1 (H i) (or_intror I)) as [<-|]; auto. specialize (F1 _ I). lia.
    + destruct (proj2 (H i) (or_intror I)) as [<-|]; auto. specialize (F2 _ I). lia.
Qed.

Lemma verify_plain : forall E, iterates E -> forall f m0 os s rs t m e me r qs,
  sexec_all E (S f) os (sinit m0) = SOk s rs -> designates E s t m e r -> method_at s m e = Some me -> s_uncaught s = 0%nat ->
  (Z.of_nat (length (s_calls s)) <= int_max)%Z -> Forall valid_quant qs ->
  let after := statement_over s s 1 in
  let verify more := (os ++ [OStmt [(t, None)] (SVerify ScInvolved [SLeaf 0%nat] (map VsQuant qs ++ more))])%list in
  if_accepted (demanded qs) (Z.of_nat (length (me_calls me)))
    (leads E (S f) m0 (verify []) (with_marks (me_calls me) after) (rs ++ [inl VVoid]) /\
     leads E (S f) m0 (verify [VsBool]) (with_marks (me_calls me) after) (rs ++ [inl (VBool true)]))
    (leads E (S f) m0 (verify [VsBool]) after (rs ++ [inl (VBool false)])).
Proof.
  intros E IT f m0 os s rs t m e me r qs X D M U B Q after verify.
  assert (MA : mentioned_all E s [fst (t, @None imatcher)] [(m, e)] s).
  { eapply MaCons; [|apply MaNil]. exists r. split; [exact D|]. left. split; [exact M|reflexivity]. }
  assert (DC : decided E s [(t, None)]).
  { intros x m' e' r' i c [<-|[]] _ _ _. left. exact Logic.I. }
  destruct (verify_single E IT f m0 os s rs (t, None) [(m, e)] s ScInvolved qs X MA U Logic.I B DC Q) as (fitting & SF & FI & CASES).
  destruct (histories E m0 (S f) os s rs X m e me M) as (SM & KM).
  assert (FE : fitting = me_calls me).
  { apply sorted_same; auto. intro i. rewrite FI. split.
    - intros (_ & m' & e' & r' & c & D' & (me' & M' & I') & _).
      assert (EQ : m = m' /\ e = e').
      { destruct D as (k1 & d1 & <- & L1 & N1 & _ & T1), D' as (k2 & d2 & T & L2 & N2 & _ & T2). cbn [fst] in T, T2. subst m'. rewrite L1 in L2. injection L2 as <-.
        rewrite N1 in N2. injection N2 as <-. split; auto. destruct t; [destruct T1 as (<- & _), T2 as (<- & _); auto|destruct T1 as (T1 & _), T2 as (T2 & _); congruence]. }
      destruct EQ as (<- & <-). congruence.
    - intro I. destruct (KM i I) as (c & C & _).
      assert (F : fits E s (t, None) i). { exists m, e, r, c. split; [exact D|]. split; [exists me; auto|]. split; [exact C|exact Logic.I]. }
      split; auto. exists 0%nat, (t, None). split; [cbn; auto|]. split; [reflexivity|].
      cbn [fst]. rewrite (designates_target E s t m e r D). exists e, me. auto. }
  subst fitting. unfold verify. rewrite app_nil_r. split; intro A.
  - destruct CASES as [(_ & P1 & P2)|(N & _)]; [|contradiction]. split; assumption.
  - destruct CASES as [(A' & _)|(_ & _ & P)]; [contradiction|]. exact P.
Qed.
