(** Proofs about Format.v. *)
From Coq Require Import Bool Ascii String Decimal DecimalString DecimalZ NArith ZArith Lia List.
From Verif Require Import Base CInt Values ArgMatchers InvMatchers Sequences Spec_Match SequencesProofs Format Spec_Format.
Import ListNotations.
Open Scope string_scope.

(** ** String facts *)

Lemma app_assoc_s : forall a b c : string, (a ++ b) ++ c = a ++ (b ++ c).
Proof. induction a as [|x a IH]; intros b c; cbn; [reflexivity | now rewrite IH]. Qed.

Lemma app_nil_s : forall a : string, a ++ "" = a.
Proof. induction a as [|x a IH]; cbn; [reflexivity | now rewrite IH]. Qed.

(** A rest of text that cannot continue a single expectation or a number. *)
Definition ends (r : string) : Prop :=
  match r with
  | EmptyString => True
  | String c _ => c = " "%char \/ c = ")"%char
  end.

Lemma single_prefix : forall t1 d t2 r1 r2,
  closed_from d t1 = true -> closed_from d t2 = true -> ends r1 -> ends r2 ->
  t1 ++ r1 = t2 ++ r2 -> t1 = t2 /\ r1 = r2.
Proof.
  induction t1 as [|c t1 IH]; intros d t2 r1 r2 H1 H2 E1 E2 E.
  - destruct t2 as [|c2 t2]; [split; [reflexivity | exact E]|].
    exfalso. cbn in H1. apply Nat.eqb_eq in H1. subst d.
    cbn in E. subst r1. cbn in E1. destruct E1 as [-> | ->]; cbn in H2; discriminate.
  - destruct t2 as [|c2 t2].
    + exfalso. cbn in H2. apply Nat.eqb_eq in H2. subst d.
      cbn in E. subst r2. cbn in E2. destruct E2 as [-> | ->]; cbn in H1; discriminate.
    + cbn in E. injection E as -> E. cbn [closed_from] in H1, H2.
      assert (K : exists d', closed_from d' t1 = true /\ closed_from d' t2 = true).
      { destruct (Ascii.eqb c2 "(") eqn:?; [exists (S d); auto|].
        destruct (Ascii.eqb c2 ")") eqn:?; [destruct d as [|d]; [discriminate | exists d; auto]|].
        destruct (Ascii.eqb c2 " " && Nat.eqb d 0); [discriminate | exists d; auto]. }
      destruct K as [d' [K1 K2]].
      destruct (IH d' t2 r1 r2 K1 K2 E1 E2 E) as [-> ->]. auto.
Qed.

Lemma no_blank_closed : forall s, no_blank s = true -> closed_from 0 s = true.
Proof.
  induction s as [|c s IH]; [reflexivity|]. cbn [no_blank closed_from].
  intros H. apply andb_prop in H as [H Hs]. apply andb_prop in H as [H H3].
  apply andb_prop in H as [H1 H2].
  apply negb_true_iff in H1, H2, H3. rewrite H1, H2, H3. cbn. now apply IH.
Qed.

(** ** Numbers *)

Lemma uint_no_blank : forall d, no_blank (NilEmpty.string_of_uint d) = true.
Proof. induction d; cbn; try assumption; reflexivity. Qed.

Lemma show_Z_no_blank : forall z, no_blank (show_Z z) = true.
Proof.
  intros z. unfold show_Z. destruct (Z.to_int z) as [d|d]; cbn.
  - destruct d; try apply uint_no_blank; reflexivity.
  - destruct d; try apply uint_no_blank; reflexivity.
Qed.

Lemma show_Z_inj : forall x y, show_Z x = show_Z y -> x = y.
Proof.
  intros x y E. unfold show_Z in E.
  assert (N : forall z, Z.to_int z <> Pos Nil /\ Z.to_int z <> Neg Nil).
  { intros z. destruct z as [|p|p]; cbn; split; try discriminate; intros H; injection H as H.
    - now apply DecimalPos.Unsigned.to_uint_nonnil in H.
    - now apply DecimalPos.Unsigned.to_uint_nonnil in H. }
  pose proof (NilZero.isi (Z.to_int x) (proj1 (N x)) (proj2 (N x))) as Hx.
  pose proof (NilZero.isi (Z.to_int y) (proj1 (N y)) (proj2 (N y))) as Hy.
  rewrite E in Hx. rewrite Hx in Hy. injection Hy as Hy.
  rewrite <- (DecimalZ.of_to x), <- (DecimalZ.of_to y). now rewrite Hy.
Qed.

(** ** Tokens *)

Inductive tok :=
| TLeaf (t : string) | TOpen | TClose | TPlus | TTimes (n : Z) | TDots.

Definition render1 (t : tok) : string :=
  match t with
  | TLeaf t => t | TOpen => "(" | TClose => ")" | TPlus => " + "
  | TTimes n => " * " ++ show_Z n | TDots => " ... "
  end.

Fixpoint render (ts : list tok) : string :=
  match ts with [] => "" | t :: r => render1 t ++ render r end.

Definition follows (ts : list tok) : Prop :=
  match ts with
  | [] | TClose :: _ | TPlus :: _ | TTimes _ :: _ | TDots :: _ => True
  | _ => False
  end.

Fixpoint tok_ok (ts : list tok) : Prop :=
  match ts with
  | [] => True
  | TLeaf t :: r => single_text t = true /\ follows r /\ tok_ok r
  | TTimes _ :: r => follows r /\ tok_ok r
  | _ :: r => tok_ok r
  end.

Lemma follows_ends : forall ts, follows ts -> ends (render ts).
Proof. intros [|[]]; cbn; intros H; auto; contradiction. Qed.

Lemma render_app : forall a b, render (a ++ b)%list = render a ++ render b.
Proof. induction a as [|x a IH]; intros b; cbn; [reflexivity | now rewrite IH, app_assoc_s]. Qed.

Lemma single_head : forall t, single_text t = true ->
  exists c t', t = String c t' /\ c <> "("%char /\ c <> ")"%char /\ c <> " "%char /\ closed_from 0 t = true.
Proof.
  intros [|c t] H; [discriminate|]. cbn [single_text] in H.
  apply andb_prop in H as [H1 H2]. apply negb_true_iff in H1. apply Ascii.eqb_neq in H1.
  exists c, t. repeat split; auto; intros ->; cbn in H2; discriminate.
Qed.

Lemma render_inj : forall a b, tok_ok a -> tok_ok b -> render a = render b -> a = b.
Proof.
  induction a as [|x a IH]; intros b Ha Hb E.
  - destruct b as [|y b]; [reflexivity|]. exfalso.
    destruct y as [t| | | |n|]; cbn in E; try discriminate.
    destruct Hb as [Ht _]. destruct (single_head _ Ht) as (c & t' & -> & _). discriminate.
  - destruct b as [|y b].
    { exfalso. destruct x as [t| | | |n|]; cbn in E; try discriminate.
      destruct Ha as [Ht _]. destruct (single_head _ Ht) as (c & t' & -> & _). discriminate. }
    assert (HL : forall t r ts, single_text t = true -> match ts with
       | TLeaf _ :: _ | [] => False | _ => True end -> t ++ r <> render ts).
    { intros t r ts Ht Hts Q. destruct (single_head _ Ht) as (c & t' & -> & N1 & N2 & N3 & _).
      destruct ts as [|[]]; cbn in Q, Hts; try contradiction; injection Q as Q _; congruence. }
    destruct x as [t| | | |n|], y as [u| | | |k|];
      try (exfalso; revert E; cbn; discriminate);
      try (exfalso; cbn [tok_ok] in Ha; solve [refine (HL t (render a) _ (proj1 Ha) _ E); exact I]);
      try (exfalso; symmetry in E; cbn [tok_ok] in Hb; solve [refine (HL u (render b) _ (proj1 Hb) _ E); exact I]);
      try (cbn in E; injection E as E; f_equal; apply IH; assumption).
    + destruct Ha as (H1 & F1 & Ha), Hb as (H2 & F2 & Hb). cbn in E.
      destruct (single_head _ H1) as (c1 & t1 & _ & _ & _ & _ & C1).
      destruct (single_head _ H2) as (c2 & t2 & _ & _ & _ & _ & C2).
      destruct (single_prefix t 0 u _ _ C1 C2 (follows_ends _ F1) (follows_ends _ F2) E) as [-> E'].
      f_equal. now apply IH.
    + destruct Ha as (F1 & Ha), Hb as (F2 & Hb). cbn in E. injection E as E.
      destruct (single_prefix (show_Z n) 0 (show_Z k) _ _
        (no_blank_closed _ (show_Z_no_blank n)) (no_blank_closed _ (show_Z_no_blank k))
        (follows_ends _ F1) (follows_ends _ F2) E) as [En E'].
      apply show_Z_inj in En. subst k. f_equal. now apply IH.
Qed.

(** ** Token lists of patterns *)

Section Pat.
Variable A : Type.
Variable leaf : A -> string.
Hypothesis leaf_ok : forall a, single_text (leaf a) = true.

Fixpoint toks (s : sequence A) : list tok :=
  match s with
  | SLeaf a => [TLeaf (leaf a)]
  | SConcat l r => toks l ++ [TPlus] ++ toks r
  | SRepeat s' n =>
      (if composite s' then [TOpen] ++ toks s' ++ [TClose] else toks s') ++ [TTimes n]
  end%list.

Fixpoint ptoks (p : list (sequence A)) : list tok :=
  match p with
  | [] => []
  | [s] => toks s
  | s :: p' => toks s ++ [TDots] ++ ptoks p'
  end%list.

Lemma render_toks : forall s, formatSequence leaf s = render (toks s).
Proof.
  induction s as [a|l IHl r IHr|s IH n]; cbn [formatSequence toks].
  - cbn. now rewrite app_nil_s.
  - rewrite IHl, IHr, !render_app. cbn. reflexivity.
  - rewrite IH. destruct (composite s); rewrite !render_app; cbn.
    + now rewrite app_nil_s, !app_assoc_s.
    + now rewrite app_nil_s.
Qed.

Lemma render_ptoks : forall p, formatExpectedPattern leaf p = render (ptoks p).
Proof.
  induction p as [|s p IH]; [reflexivity|]. cbn [formatExpectedPattern ptoks].
  destruct p as [|s2 p]; [apply render_toks|].
  rewrite IH, render_toks, !render_app. cbn. reflexivity.
Qed.

Lemma toks_ok_app : forall s r, follows r -> tok_ok r -> tok_ok (toks s ++ r)%list.
Proof.
  induction s as [a|l IHl r IHr|s IH n]; intros q F K; cbn [toks].
  - cbn. auto.
  - rewrite <- !app_assoc. apply IHl; [exact I|]. cbn. now apply IHr.
  - destruct (composite s); rewrite <- ?app_assoc; cbn [app].
    + cbn [tok_ok]. apply IH; cbn; auto.
    + apply IH; cbn; auto.
Qed.

Lemma ptoks_ok : forall p, tok_ok (ptoks p).
Proof.
  induction p as [|s p IH]; [exact I|]. cbn [ptoks]. destruct p as [|s2 p].
  - rewrite <- (app_nil_r (toks s)). apply toks_ok_app; exact I.
  - apply toks_ok_app; [exact I | exact IH].
Qed.

(** Evaluation of a token list: the enclosing levels' finished terms, the
    finished terms of the current level, its last term, the finished sequences. *)
Fixpoint ev (ts : list tok) (stack : list (list string)) (acc last : list string)
  : list (list string) :=
  match ts with
  | [] => [acc ++ last]
  | TLeaf t :: r => ev r stack acc [t]
  | TOpen :: r => ev r (acc :: stack) [] []
  | TClose :: r =>
      match stack with
      | [] => []
      | a :: stack' => ev r stack' a (acc ++ last)
      end
  | TPlus :: r => ev r stack (acc ++ last) []
  | TTimes n :: r => ev r stack acc (copies (Z.to_nat n) last)
  | TDots :: r => (acc ++ last) :: ev r [] [] []
  end%list.

Definition shown (s : sequence A) : list string := map leaf (spelled s).

Lemma map_copies : forall n (l : list A), map leaf (copies n l) = copies n (map leaf l).
Proof. induction n as [|n IH]; intros l; cbn; [reflexivity | now rewrite map_app, IH]. Qed.

Lemma ev_toks : forall s r stack acc, exists a l,
  ev (toks s ++ r)%list stack acc [] = ev r stack (acc ++ a)%list l /\
  (a ++ l)%list = shown s.
Proof.
  induction s as [x|s1 IH1 s2 IH2|s IH n]; intros r stack acc; cbn [toks].
  - exists [], [leaf x]. cbn. rewrite app_nil_r. auto.
  - rewrite <- !app_assoc.
    destruct (IH1 ([TPlus] ++ toks s2 ++ r)%list stack acc) as (a1 & l1 & E1 & S1).
    rewrite E1. cbn [app ev].
    destruct (IH2 r stack ((acc ++ a1) ++ l1)%list) as (a2 & l2 & E2 & S2).
    rewrite E2. exists (a1 ++ l1 ++ a2)%list, l2. split; [now rewrite <- !app_assoc|].
    unfold shown. cbn. rewrite map_app. fold (shown s1) (shown s2).
    rewrite <- S1, <- S2. now rewrite <- !app_assoc.
  - exists [], (copies (Z.to_nat n) (shown s)). rewrite app_nil_r. split.
    + destruct (composite s) eqn:C.
      * rewrite <- !app_assoc. cbn [app ev].
        destruct (IH (TClose :: TTimes n :: r) (acc :: stack) []) as (a & l & E & Q).
        rewrite E. cbn [app ev]. now rewrite Q.
      * destruct s; try discriminate. cbn. reflexivity.
    + cbn [app]. unfold shown. cbn [spelled]. now rewrite <- copies_repeat, map_copies.
Qed.

Lemma ev_ptoks : forall p, p <> [] -> ev (ptoks p) [] [] [] = map shown p.
Proof.
  induction p as [|s p IH]; intros H; [contradiction|]. cbn [ptoks].
  destruct p as [|s2 p].
  - destruct (ev_toks s [] [] []) as (a & l & E & Q). rewrite app_nil_r in E.
    rewrite E. cbn. now rewrite Q.
  - destruct (ev_toks s ([TDots] ++ ptoks (s2 :: p))%list [] []) as (a & l & E & Q).
    rewrite E. cbn [app ev]. rewrite IH by discriminate. cbn. now rewrite Q.
Qed.

Lemma ptoks_nil : forall p, ptoks p = [] -> p = [].
Proof.
  assert (T : forall s, toks s <> []).
  { intros [a|l r|s n]; cbn; try discriminate.
    - destruct (toks l); discriminate.
    - destruct (composite s); [discriminate|]. destruct (toks s); discriminate. }
  intros [|s [|s2 p]] H; [reflexivity| |]; exfalso; cbn in H.
  - now apply T in H.
  - destruct (toks s); discriminate.
Qed.

(** C50. *)
Lemma pattern_text : forall p q,
  formatExpectedPattern leaf p = formatExpectedPattern leaf q ->
  map (fun s => map leaf (spelled s)) p =
  map (fun s => map leaf (spelled s)) q.
Proof.
  intros p q E. rewrite !render_ptoks in E.
  apply render_inj in E; [|apply ptoks_ok|apply ptoks_ok].
  destruct p as [|s p].
  - cbn [ptoks] in E. symmetry in E. apply ptoks_nil in E. now subst.
  - destruct q as [|s' q].
    + apply ptoks_nil in E. discriminate.
    + change (map shown (s :: p) = map shown (s' :: q)).
      rewrite <- !ev_ptoks by discriminate. now rewrite E.
Qed.

End Pat.

(** ** The text of method expectations *)

(** Balanced at depth [S d]: what may stand between the outer parentheses. *)
Lemma closed_app : forall a d b, closed_from d a = true -> closed_from 0 b = true ->
  closed_from d (a ++ b) = true.
Proof.
  induction a as [|c a IH]; intros d b Ha Hb.
  - cbn in Ha. apply Nat.eqb_eq in Ha. now subst.
  - cbn [append closed_from] in *.
    destruct (Ascii.eqb c "("); [now apply IH|].
    destruct (Ascii.eqb c ")"); [destruct d; [discriminate | now apply IH]|].
    destruct (Ascii.eqb c " " && Nat.eqb d 0); [discriminate | now apply IH].
Qed.

(** A text whose parentheses are balanced, blanks allowed anywhere. *)
Definition balanced (s : string) : Prop :=
  forall d r, closed_from (S d) r = true -> closed_from (S d) (s ++ r) = true.

Lemma balanced_app : forall a b, balanced a -> balanced b -> balanced (a ++ b).
Proof. intros a b Ha Hb d r H. rewrite app_assoc_s. apply Ha. now apply Hb. Qed.

Lemma balanced_plain : forall s, no_blank s = true -> balanced s.
Proof.
  intros s. unfold balanced. induction s as [|c s IH]; intros H d r K; [exact K|].
  cbn [no_blank] in H. apply andb_prop in H as [H Hs]. apply andb_prop in H as [H H3].
  apply andb_prop in H as [H1 H2]. apply negb_true_iff in H1, H2, H3.
  cbn [append closed_from]. rewrite H1, H2, H3. cbn. now apply IH.
Qed.

Lemma balanced_join : forall ss, (forall s, In s ss -> balanced s) -> balanced (join ", " ss).
Proof.
  induction ss as [|s ss IH]; intros H; [intros d r K; exact K|].
  cbn [join]. destruct ss as [|s2 ss]; [apply H; now left|].
  apply balanced_app; [apply H; now left|].
  apply balanced_app; [intros d r K; exact K|]. apply IH. intros x Hx. apply H. now right.
Qed.

Lemma name_then_parens : forall n s, is_name n = true -> balanced s ->
  single_text (n ++ "(" ++ s ++ ")") = true.
Proof.
  intros n s Hn Hs. destruct n as [|c n]; [discriminate|]. cbn [is_name] in Hn.
  cbn [append single_text]. apply andb_true_intro. split.
  - cbn [no_blank] in Hn. repeat (apply andb_prop in Hn as [Hn _]). exact Hn.
  - change (String c (n ++ String "(" (s ++ ")"))) with (String c n ++ ("(" ++ (s ++ ")"))).
    apply closed_app; [now apply no_blank_closed|]. cbn. apply Hs. reflexivity.
Qed.

Lemma no_blank_app : forall a b, no_blank (a ++ b) = no_blank a && no_blank b.
Proof.
  induction a as [|c a IH]; intros b; [reflexivity|]. cbn [append no_blank].
  rewrite IH. now rewrite !andb_assoc.
Qed.

(** Matchers whose text is balanced whatever their operand: everything except
    doubles, pointers, characters and text. *)
Definition quiet_val (v : val) : bool :=
  match v with VInt _ | VBool _ | VOpaque _ => true | _ => false end.

Definition quiet_matcher (am : amatcher) : bool :=
  match am with
  | AAny => true
  | ACmp _ (XVal v) => quiet_val v
  | AApprox e k => quiet_val e && quiet_val k
  | _ => false
  end.

Definition quiet_condition (im : imatcher) : bool :=
  match im with IMArgs ms => forallb quiet_matcher ms | _ => true end.

Section Leaf.
Variable show_dbl : Floats.SpecFloat.spec_float -> string.
Variable show_ptr : option addr -> string.

Lemma quiet_val_text : forall m v, quiet_val v = true ->
  exists t, fmt_val show_dbl show_ptr m v = Def t /\ no_blank t = true.
Proof.
  intros m v H. destruct v; try discriminate; cbn.
  - eexists. split; [reflexivity | apply show_Z_no_blank].
  - eexists. split; [reflexivity | destruct b; reflexivity].
  - eexists. split; reflexivity.
Qed.

Lemma quiet_matcher_text : forall m am, quiet_matcher am = true ->
  exists t, fmt_amatcher show_dbl show_ptr m am = Def t /\ no_blank t = true.
Proof.
  intros m am H. destruct am as [|r [v|s]|r s|e k]; try discriminate; cbn in H |- *.
  - eexists. split; reflexivity.
  - destruct (quiet_val_text m v H) as (t & E & B). rewrite E. cbn.
    eexists. split; [reflexivity|]. rewrite no_blank_app, B. destruct r; reflexivity.
  - apply andb_prop in H as [He Hk].
    destruct (quiet_val_text m e He) as (t & E & B).
    destruct (quiet_val_text m k Hk) as (u & E' & B'). rewrite E, E'. cbn.
    eexists. split; [reflexivity|]. rewrite no_blank_app, B. cbn. exact B'.
Qed.

Lemma quiet_matchers_text : forall m ms, forallb quiet_matcher ms = true ->
  exists ss, fmt_amatchers show_dbl show_ptr m ms = Def ss /\
             length ss = length ms /\ forall s, In s ss -> no_blank s = true.
Proof.
  intros m. induction ms as [|am ms IH]; intros H.
  - exists []. cbn. split; [reflexivity|]. split; [reflexivity | contradiction].
  - cbn in H. apply andb_prop in H as [H1 H2].
    destruct (quiet_matcher_text m am H1) as (t & E & B).
    destruct (IH H2) as (ss & E' & L & K). cbn [fmt_amatchers]. rewrite E, E'. cbn.
    exists (t :: ss). split; [reflexivity|]. split; [cbn; now rewrite L|]. intros s [<-|Hs]; auto.
Qed.

(** The text of a method expectation with quiet operands is fit for C50. *)
Lemma context_single : forall m mock meth im,
  is_name mock = true -> is_name meth = true -> quiet_condition im = true ->
  exists t, fmt_context show_dbl show_ptr m mock meth im = Def t /\ single_text t = true.
Proof.
  intros m mock meth im H1 H2 H3.
  assert (N : is_name (mock ++ "." ++ meth) = true).
  { destruct mock as [|c mock]; [discriminate|]. cbn [is_name append].
    assert (Q : no_blank (String c mock ++ ("." ++ meth)) = true); [|exact Q].
    rewrite no_blank_app. cbn [is_name] in H1. rewrite H1. cbn.
    destruct meth; [discriminate | exact H2]. }
  assert (R : forall x, mock ++ "." ++ meth ++ x = (mock ++ "." ++ meth) ++ x).
  { intros x. now rewrite !app_assoc_s. }
  unfold fmt_context. destruct im as [ms|p|]; cbn [fmt_imatcher].
  - destruct (quiet_matchers_text m ms H3) as (ss & E & _ & K). rewrite E. cbn [obind].
    eexists. split; [reflexivity|]. rewrite R. apply name_then_parens; [exact N|].
    apply balanced_join. intros s Hs. apply balanced_plain. auto.
  - cbn [obind]. eexists. split; [reflexivity|]. rewrite R.
    change "( user defined matcher )" with ("(" ++ " user defined matcher " ++ ")").
    apply name_then_parens; [exact N|]. intros d r Hr. exact Hr.
  - cbn [obind]. eexists. split; [reflexivity|]. rewrite R.
    change "( Any arguments )" with ("(" ++ " Any arguments " ++ ")").
    apply name_then_parens; [exact N|]. intros d r Hr. exact Hr.
Qed.

End Leaf.

(** Without the condition on leaves the text is ambiguous: a std::string operand
    is printed without quotes. *)
Lemma pattern_text_ambiguous : exists (leaf : nat -> string) (p q : list (sequence nat)),
  (forall n, exists im, fmt_context (fun _ => "") (fun _ => "") [] "m" "f" im = Def (leaf n)) /\
  formatExpectedPattern leaf p = formatExpectedPattern leaf q /\
  map (fun s => length (spelled s)) p <> map (fun s => length (spelled s)) q.
Proof.
  exists (fun n => match n with 0%nat => "m.f(x)" | 1%nat => "m.f(y)" | _ => "m.f(x) + m.f(y)" end),
    [SConcat (SLeaf 0%nat) (SLeaf 1%nat)], [SLeaf 2%nat].
  split; [|split; [reflexivity | discriminate]].
  intros [|[|n]].
  - exists (IMArgs [ACmp REq (XVal (VStr "x"))]). reflexivity.
  - exists (IMArgs [ACmp REq (XVal (VStr "y"))]). reflexivity.
  - exists (IMArgs [ACmp REq (XVal (VStr "x) + m.f(y"))]). reflexivity.
Qed.

(** ** Invocation lists *)

Lemma lines_app : forall s cur r, one_line s = true ->
  lines_from cur (s ++ r) = lines_from (cur ++ s) r.
Proof.
  induction s as [|c s IH]; intros cur r H; cbn [append].
  - now rewrite app_nil_s.
  - cbn [one_line] in H. apply andb_prop in H as [H1 H2]. apply negb_true_iff in H1.
    cbn [lines_from]. rewrite H1, IH by exact H2. now rewrite app_assoc_s.
Qed.

Lemma lines_newline : forall cur r, lines_from cur (newline ++ r) = cur :: lines_from "" r.
Proof. reflexivity. Qed.

Lemma lines_list_loop : forall ts r, ts <> [] -> (forall t, In t ts -> one_line t = true) ->
  (r = "" \/ exists r', r = newline ++ r') ->
  lines (list_loop ts ++ r) =
  (map (fun t => ("  " ++ t)%string) ts ++ match r with EmptyString => [] | String _ r' => lines r' end)%list.
Proof.
  induction ts as [|t ts IH]; intros r Hne Hl Hr; [contradiction|].
  destruct ts as [|t2 ts].
  - cbn [list_loop map app]. unfold lines. rewrite lines_app by (cbn; apply Hl; now left).
    cbn [append]. destruct Hr as [-> | [r' ->]]; cbn; reflexivity.
  - cbn [list_loop]. rewrite !app_assoc_s. unfold lines.
    rewrite <- (app_assoc_s "  " t). rewrite lines_app by (cbn; apply Hl; now left).
    rewrite lines_newline. cbn [map app]. f_equal.
    apply (IH r); [discriminate | intros x Hx; apply Hl; now right | exact Hr].
Qed.

(** C51: all lines if at most 50, otherwise the first 50 and an ellipsis. *)
Lemma invocation_list_lines : forall ts, ts <> [] -> (forall t, In t ts -> one_line t = true) ->
  lines (formatInvocationList ts) =
  if (length ts <=? 50)%nat then map (fun t => ("  " ++ t)%string) ts
  else (map (fun t => ("  " ++ t)%string) (firstn 50 ts) ++ ["  ..."])%list.
Proof.
  intros ts Hne Hl. unfold formatInvocationList.
  destruct (Nat.leb_spec (length ts) 50) as [H|H].
  - destruct (Nat.ltb_spec 50 (length ts)); [lia|]. rewrite Nat.ltb_irrefl, firstn_all.
    rewrite lines_list_loop; auto. now rewrite app_nil_r.
  - destruct (Nat.ltb_spec 50 (length ts)); [|lia].
    destruct (Nat.ltb_spec 50 (length ts)); [|lia].
    rewrite lines_list_loop.
    + reflexivity.
    + destruct ts; [contradiction | discriminate].
    + intros t Ht. apply Hl. rewrite <- (firstn_skipn 50 ts). apply in_or_app. now left.
    + right. now exists "  ...".
Qed.

Lemma invocation_list_empty : formatInvocationList [] = "".
Proof. reflexivity. Qed.

Lemma show_Z_one_line : forall z, one_line (show_Z z) = true.
Proof.
  assert (U : forall d, one_line (NilEmpty.string_of_uint d) = true).
  { induction d; cbn; try assumption; reflexivity. }
  intros z. unfold show_Z. destruct (Z.to_int z) as [d|d]; cbn.
  - destruct d; try apply U; reflexivity.
  - destruct d; try apply U; reflexivity.
Qed.

(** The whole report of a failed verification, line by line. *)
Lemma sequence_event_lines : forall (A : Type) (leaf : A -> string) p t n k ts,
  ts <> [] -> (forall x, In x ts -> one_line x = true) ->
  one_line (formatExpectedPattern leaf p) = true ->
  lines (fmt_sequence_event leaf p t n k ts) =
  (["Verification error";
   "Expected pattern: " ++ formatExpectedPattern leaf p;
   "Expected matches: " ++ formatExpectedCount t n;
   "Actual matches  : " ++ show_Z k;
   "Actual sequence : total of " ++ show_Z (Z.of_nat (length ts)) ++ " actual invocations:"]%string
  ++ lines (formatInvocationList ts))%list.
Proof.
  intros A leaf p t n k ts Hne Hl Hp. unfold fmt_sequence_event, lines.
  rewrite lines_app by reflexivity. rewrite lines_newline.
  rewrite lines_app by reflexivity. rewrite lines_app by exact Hp. rewrite lines_newline.
  rewrite lines_app by reflexivity.
  assert (C : one_line (formatExpectedCount t n) = true).
  { unfold formatExpectedCount. destruct t; cbn; apply show_Z_one_line. }
  rewrite lines_app by exact C. rewrite lines_newline.
  rewrite lines_app by reflexivity. rewrite lines_app by apply show_Z_one_line. rewrite lines_newline.
  rewrite lines_app by reflexivity. rewrite lines_app by apply show_Z_one_line.
  rewrite lines_app by reflexivity.
  destruct (Nat.eqb_spec (length ts) 0) as [E|E].
  { destruct ts; [contradiction | discriminate]. }
  rewrite (app_assoc_s ":" newline). rewrite lines_app by reflexivity. rewrite lines_newline.
  cbn [app]. rewrite !app_assoc_s. reflexivity.
Qed.

Lemma sequence_report : forall (A : Type) (leaf : A -> string) p t n k ts,
  ts <> [] -> (forall x, In x ts -> one_line x = true) ->
  one_line (formatExpectedPattern leaf p) = true ->
  lines (fmt_sequence_event leaf p t n k ts) =
  (["Verification error";
   "Expected pattern: " ++ formatExpectedPattern leaf p;
   "Expected matches: " ++ formatExpectedCount t n;
   "Actual matches  : " ++ show_Z k;
   "Actual sequence : total of " ++ show_Z (Z.of_nat (length ts)) ++ " actual invocations:"]%string
  ++ (if (length ts <=? 50)%nat then map (fun t => ("  " ++ t)%string) ts
      else map (fun t => ("  " ++ t)%string) (firstn 50 ts) ++ ["  ..."]))%list.
Proof.
  intros A leaf p t n k ts H1 H2 H3. rewrite sequence_event_lines by assumption.
  now rewrite invocation_list_lines by assumption.
Qed.
