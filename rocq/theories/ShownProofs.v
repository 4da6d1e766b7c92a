(** Proofs for Shown.v: the table, and the texts. *)
From Coq Require Import Bool Ascii String ZArith Lia List.
From Verif Require Import Base Shown Spec_Shown.
Import ListNotations.
Open Scope nat_scope.

(** The look that a function of the standard library gives. *)
Definition look_of (c : cand) (s : scalar) : look :=
  match c with
  | PArith Bool => OneOrZero
  | PArith a => if narrow a then Letter false else if real a then Real else Number
  | PText _ => Text false
  | PNull => NullWord
  | PVoid | PVolatile => Address
  | PBuffer => Content
  | _ => Nothing
  end.

Lemma resolve_prints v s : scalar_ok v s -> match resolve v s with Some c => Some (look_of c s) | None => None end = prints v s.
Proof.
  intros H.
  destruct s as [a| |sc fx a|c vol p|].
  - destruct a; try (destruct v; vm_compute; reflexivity).
    all: specialize (H eq_refl) || idtac; destruct v; cbn in H; try discriminate H; vm_compute; reflexivity.
  - destruct v; reflexivity.
  - destruct H as (H8 & Hr & Hf). destruct sc; [destruct v; reflexivity|].
    destruct fx.
    + destruct a; try discriminate Hr; try (destruct v; vm_compute; reflexivity).
      all: specialize (H8 eq_refl); destruct v; cbn in H8; try discriminate H8; vm_compute; reflexivity.
    + specialize (Hf eq_refl). cbn [In] in Hf.
      destruct Hf as [E|[E|[E|[E|[E|[E|[]]]]]]]; rewrite <- E; destruct v; vm_compute; reflexivity.
  - destruct p as [a| | |d|].
    + destruct a; try (destruct c, vol, v; vm_compute; reflexivity).
      all: specialize (H eq_refl); destruct v; cbn in H; try discriminate H; destruct c, vol; vm_compute; reflexivity.
    + destruct c, vol, v; vm_compute; reflexivity.
    + destruct c, vol, v; vm_compute; reflexivity.
    + destruct c, vol, d, v; vm_compute; reflexivity.
    + destruct c, vol, v; vm_compute; reflexivity.
  - destruct v; reflexivity.
Qed.

Lemma before_nul_iff s : forall t, before_nul s = Def t <->
  exists rest, s = (t ++ String zero rest)%string /\ forall n c, String.get n t = Some c -> c <> zero.
Proof.
  induction s as [|a s IH]; intros t; cbn [before_nul].
  - split; [discriminate|]. intros (rest & E & _). destruct t; discriminate E.
  - destruct (Ascii.eqb a zero) eqn:Z.
    + apply Ascii.eqb_eq in Z. split.
      * intros E. injection E as <-. exists s. split; [rewrite Z; reflexivity|]. intros n c G. destruct n; discriminate G.
      * intros (rest & E & N). destruct t as [|b t]; [reflexivity|].
        exfalso. cbn in E. injection E as E _. apply (N 0 b); [reflexivity|]. rewrite <- E. exact Z.
    + assert (Za : a <> zero) by (intros ->; rewrite Ascii.eqb_refl in Z; discriminate Z).
      split.
      * intros E. destruct (before_nul s) as [u| |] eqn:B; cbn [obind] in E; try discriminate E.
        injection E as <-. destruct (proj1 (IH u) eq_refl) as (rest & Es & N). exists rest. rewrite Es. split; [reflexivity|].
        intros n c G. destruct n as [|n]; cbn in G; [injection G as <-; exact Za|exact (N n c G)].
      * intros (rest & E & N). destruct t as [|b t]; cbn in E; injection E as Ea Es.
        -- contradiction.
        -- rewrite (proj2 (IH t)); [cbn [obind]; rewrite Ea; reflexivity|].
           exists rest. split; [exact Es|]. intros n c G. exact (N (S n) c G).
Qed.

Lemma read_text_iff m p t : read_text m p = Def t <-> exists a, p = Some a /\ text_at m a t.
Proof.
  unfold read_text, text_at. split.
  - destruct p as [a|]; [|discriminate]. destruct (m a) as [[s|s]|] eqn:M; try discriminate.
    intros B. apply before_nul_iff in B. destruct B as (rest & E & N). exists a. split; [reflexivity|].
    exists rest. rewrite M, E. split; [reflexivity|exact N].
  - intros (a & -> & rest & M & N). rewrite M. apply before_nul_iff. exists rest. split; [reflexivity|exact N].
Qed.

Section Texts.
Variable show_number : Z -> string.
Variable show_address : option nat -> string.
Notation text_of := (text_of show_number show_address).
Notation format := (format show_number show_address).
Notation streamed := (streamed show_number show_address).

(** Parameters that take a value of a scalar type. *)
Definition takes (c : cand) (x : value) : Prop :=
  match c, x with
  | PArith a, VNumber _ => real a = false
  | PArith a, VFloat _ => real a = true
  | (PArith Bool | PText _ | PVoid | PVolatile | PBuffer), VPtr _ => True
  | PNull, VPtr None => True
  | _, _ => False
  end.

Lemma streamed_iff m c s x t : takes c x -> (streamed m c x = Def t <-> text_of m (look_of c s) x t).
Proof.
  assert (D : forall u (P : Prop), (P -> u = t) -> (u = t -> P) -> (Def u = Def t <-> P)).
  { intros u P A B. split; [intros E; injection E as E; exact (B E)|intros p; rewrite (A p); reflexivity]. }
  intros T. destruct c as [a|a| | | | |a|a]; destruct x as [z|r|p|r]; cbn [takes] in T;
    try contradiction; try (destruct a; contradiction).
  - destruct a; try discriminate T; cbn [look_of narrow real Shown.streamed].
    1: { destruct (Z.eqb z 0) eqn:Z.
         - apply Z.eqb_eq in Z. subst z. apply D; [intros H; inversion H; [congruence|reflexivity]|intros <-; constructor].
         - apply Z.eqb_neq in Z. apply D; [intros H; inversion H; [reflexivity|congruence]|intros <-; constructor; exact Z]. }
    1-3: apply D; [intros H; inversion H; reflexivity|intros <-; exact (L_letter _ _ m false z)].
    all: apply D; [intros H; inversion H; reflexivity|intros <-; constructor].
  - destruct a; try discriminate T; cbn [look_of narrow real Shown.streamed].
    all: apply D; [intros H; inversion H; reflexivity|intros <-; constructor].
  - destruct a; try contradiction. cbn [look_of Shown.streamed].
    destruct p as [p|]; apply D; try (intros H; inversion H; reflexivity); intros <-; constructor.
  - cbn [look_of Shown.streamed]. rewrite read_text_iff. split.
    + intros (b & -> & H). exact (L_text _ _ m false b t H).
    + intros H. inversion H as [| | | | | | | | |q b u H1 E1 E2 E3| | | | | | |]. exists b. split; [reflexivity|]. rewrite <- E3. exact H1.
  - cbn [look_of Shown.streamed]. apply D; [intros H; inversion H; reflexivity|intros <-; constructor].
  - cbn [look_of Shown.streamed]. apply D; [intros H; inversion H; reflexivity|intros <-; constructor].
  - cbn [look_of Shown.streamed]. apply D; [intros H; inversion H; reflexivity|intros <-; constructor].
  - cbn [look_of Shown.streamed]. destruct p as [p|].
    + destruct (m p) as [[u|u]|] eqn:M.
      * split; [discriminate|]. intros H. inversion H as [| | | | | | | | | | | | |b u' H1 E1 E2| | |]. congruence.
      * split.
        -- intros E. injection E as <-. constructor. exact M.
        -- intros H. inversion H as [| | | | | | | | | | | | |b u' H1 E1 E2| | |]. congruence.
      * split; [discriminate|]. intros H. inversion H as [| | | | | | | | | | | | |b u' H1 E1 E2| | |]. congruence.
    + apply D; [intros H; inversion H; reflexivity|intros <-; constructor].
Qed.

Lemma resolve_takes v s x c : scalar_ok v s -> scalar_value s x -> resolve v s = Some c -> takes c x.
Proof.
  intros O X R.
  assert (Q : match resolve v s with Some d => match s, x with
     | SArith a, VNumber _ | SEnum _ _ a, VNumber _ => takes d (VNumber 0) | SArith a, VFloat _ => takes d (VFloat "")
     | _, _ => takes d x end | None => True end).
  { clear R. destruct s as [a| |sc fx a|k vol p|]; destruct x as [z|r|q|r]; cbn [scalar_value] in X; try contradiction.
    - destruct a; try discriminate X; destruct v; vm_compute; exact Logic.I || reflexivity.
    - destruct a; try discriminate X; destruct v; vm_compute; exact Logic.I || reflexivity.
    - destruct q as [q|]; [contradiction|]. destruct v; vm_compute; exact Logic.I || reflexivity.
    - destruct O as (_ & Hr & _). destruct sc, fx, a; try discriminate Hr; destruct v; vm_compute; exact Logic.I || reflexivity.
    - destruct p as [a| | |d|]; [destruct a| | |destruct d|]; destruct k, vol, v, q; vm_compute; exact Logic.I || reflexivity.
    - destruct v, q; vm_compute; exact Logic.I || reflexivity. }
  rewrite R in Q. destruct s, x; cbn [scalar_value] in X; try contradiction; exact Q.
Qed.

Lemma lib_iff v s m x t c : scalar_ok v s -> scalar_value s x -> resolve v s = Some c ->
  exists l, prints v s = Some l /\ (streamed m c x = Def t <-> text_of m l x t).
Proof.
  intros O X R. exists (look_of c s). split.
  - rewrite <- (resolve_prints v s O), R. reflexivity.
  - apply streamed_iff. exact (resolve_takes v s x c O X R).
Qed.
End Texts.

Lemma not_nothing v s : scalar_ok v s -> prints v s <> Some Nothing.
Proof.
  intros O E. destruct s as [a| |sc fx a|k vol p|].
  - cbn in E. destruct (wide a); [destruct (since20 v); discriminate E|].
    destruct (narrow a); [discriminate E|]. destruct (real a); [discriminate E|]. destruct a; discriminate E.
  - cbn in E. destruct (since17 v); discriminate E.
  - cbn in E. destruct sc; [discriminate E|]. destruct (wide a); [destruct (since20 v); discriminate E|].
    destruct (narrow a); [discriminate E|]. destruct (real a); [discriminate E|]. destruct a; discriminate E.
  - destruct p as [a| | |d|]; [destruct a| | | |]; destruct k, vol, v; discriminate E.
  - discriminate E.
Qed.

(** How the choice goes, by what the standard library can print. *)
Lemma choice v t : ty_ok v t ->
  formatter_of v t =
    match t with
    | TScalar (SArith Bool) => TrueFalse
    | TScalar (SArith Char) => QuotedChar
    | TScalar (SPtr _ false (OfArith Char)) => QuotedText
    | TScalar (SArith _ as s) | TScalar (SPtr _ _ _ as s) =>
        match resolve v s with Some c => Streamed (ByLibrary c) | None => NotCompiled end
    | TScalar s | TClass None (Some s) => match resolve v s with Some c => Streamed (ByLibrary c) | None => Question end
    | TOwnEnum true | TClass (Some true) _ => Streamed ByUser
    | TOwnEnum false | TClass (Some false) _ | TClass None None => Question
    end.
Proof.
  intros _. unfold formatter_of, is_ostreamable.
  destruct t as [[a| |sc fx a|k vol p|]|[|]|[[|]|] [s|]]; cbn [always_ostreamable orb insertion]; try reflexivity.
  - destruct a; try reflexivity; destruct (resolve v _); reflexivity.
  - destruct (resolve v _); reflexivity.
  - destruct (resolve v _); reflexivity.
  - destruct vol.
    + destruct (resolve v _); destruct p as [a| | | |]; try destruct a; reflexivity.
    + destruct p as [a| | | |]; try destruct a; try reflexivity; destruct (resolve v _); reflexivity.
  - destruct (resolve v _); reflexivity.
  - destruct (resolve v _); reflexivity.
Qed.

(** Tests compile, except for volatile references and, since C++20, wide characters and pointers to them. *)
Theorem compiles v p t : ty_ok v t ->
  (format_of v p t = NotCompiled <-> p = ByReference true \/ looks v t = Nothing).
Proof.
  intros O. destruct p as [|[|]]; cbn [format_of].
  2: { split; [intros _; left; reflexivity|reflexivity]. }
  all: assert (Q : forall p', p' <> ByReference true ->
      (formatter_of v t = NotCompiled <-> p' = ByReference true \/ looks v t = Nothing));
    [|apply Q; discriminate].
  all: intros p' Hp; assert (K : formatter_of v t = NotCompiled <-> looks v t = Nothing);
    [|split; [intros H; right; apply K; exact H|intros [H|H]; [contradiction|apply K; exact H]]].
  all: rewrite (choice v t O); clear p' Hp.
  all: assert (H : forall s, scalar_ok v s -> (match resolve v s with Some c => Streamed (ByLibrary c) | None => NotCompiled end
         = NotCompiled <-> match prints v s with Some l => l | None => Nothing end = Nothing));
    [intros s Os; generalize (not_nothing v s Os); rewrite <- (resolve_prints v s Os); destruct (resolve v s);
      [intros N; split; [discriminate|intros E; rewrite E in N; contradiction]|intros _; split; reflexivity]|].
  all: assert (H' : forall s, scalar_ok v s -> (match resolve v s with Some c => Streamed (ByLibrary c) | None => Question end
         = NotCompiled <-> match prints v s with Some l => l | None => Mark end = Nothing));
    [intros s Os; generalize (not_nothing v s Os); rewrite <- (resolve_prints v s Os); destruct (resolve v s);
      [intros N; split; [discriminate|intros E; rewrite E in N; contradiction]|intros _; split; discriminate]|].
  all: destruct t as [[a| |sc fx a|k vol p|]|[|]|[[|]|] [s|]]; cbn [looks]; try (split; discriminate);
    try (apply H'; exact O).
  all: first [destruct a; try (split; discriminate); apply H; exact O
             |destruct vol; [|destruct p as [a| | | |]; [destruct a; try (split; discriminate)| | | |]]; apply H; exact O].
Qed.

(** The text, for every value in every memory. *)
Theorem shown_text show_number show_address v p t m x text :
  ty_ok v t -> format_of v p t <> NotCompiled -> has_type t x ->
  (format show_number show_address m (format_of v p t) x = Def text <->
   text_of show_number show_address m (looks v t) x text).
Proof.
  intros O C X.
  assert (P : format_of v p t = formatter_of v t) by (destruct p as [|[|]]; [reflexivity|contradiction C; reflexivity|reflexivity]).
  rewrite P in *. clear P p. rewrite (choice v t O) in *.
  assert (D : forall u (Q : Prop), (Q -> u = text) -> (u = text -> Q) -> (Def u = Def text <-> Q)).
  { intros u Q A B. split; [intros E; injection E as E; exact (B E)|intros q; rewrite (A q); reflexivity]. }
  assert (H : forall s, scalar_ok v s -> scalar_value s x ->
     match resolve v s with Some c => Streamed (ByLibrary c) | None => NotCompiled end <> NotCompiled ->
     (format show_number show_address m match resolve v s with Some c => Streamed (ByLibrary c) | None => NotCompiled end x = Def text
      <-> text_of show_number show_address m match prints v s with Some l => l | None => Nothing end x text)).
  { intros s Os Xs N. destruct (resolve v s) as [c|] eqn:R; [|contradiction N; reflexivity].
    destruct (lib_iff show_number show_address v s m x text c Os Xs R) as (l & -> & E). exact E. }
  assert (Qm : Def "?"%string = Def text <-> text_of show_number show_address m Mark x text).
  { apply D; [intros W; inversion W; reflexivity|intros <-; constructor]. }
  assert (H' : forall s, scalar_ok v s -> scalar_value s x ->
     (format show_number show_address m match resolve v s with Some c => Streamed (ByLibrary c) | None => Question end x = Def text
      <-> text_of show_number show_address m match prints v s with Some l => l | None => Mark end x text)).
  { intros s Os Xs. destruct (resolve v s) as [c|] eqn:R.
    - destruct (lib_iff show_number show_address v s m x text c Os Xs R) as (l & -> & E). exact E.
    - rewrite <- (resolve_prints v s Os), R. exact Qm. }
  assert (Qo : forall s, Def s = Def text <-> text_of show_number show_address m Own (VText s) text).
  { intros s. apply D; [intros W; inversion W; reflexivity|intros <-; constructor]. }
  destruct t as [[a| |sc fx a|k vol p|]|[|]|[[|]|] [s|]]; cbn [looks]; cbn [has_type] in X;
    try exact Qm; try (apply H'; [exact O|exact X]); try (destruct X as (s' & ->); apply Qo).
  - destruct a; try (apply H; [exact O|exact X|exact C]).
    + destruct x as [z|r|q|r]; cbn in X; try contradiction; try discriminate X. cbn [format].
      destruct (Z.eqb z 0) eqn:Z.
      * apply Z.eqb_eq in Z. subst z. apply D; [intros W; inversion W; [congruence|reflexivity]|intros <-; constructor].
      * apply Z.eqb_neq in Z. apply D; [intros W; inversion W; [reflexivity|congruence]|intros <-; constructor; exact Z].
    + destruct x as [z|r|q|r]; cbn in X; try contradiction; try discriminate X. cbn [format].
      apply D; [intros W; inversion W; reflexivity|intros <-; exact (L_letter _ _ m true z)].
  - destruct vol; [apply H; [exact O|exact X|exact C]|].
    destruct p as [a| | | |]; try (apply H; [exact O|exact X|exact C]).
    destruct a; try (apply H; [exact O|exact X|exact C]).
    destruct x as [z|r|q|r]; cbn in X; try contradiction. cbn [format]. destruct q as [b|].
    + split.
      * intros E. destruct (read_text m (Some b)) as [u| |] eqn:R; cbn [obind] in E; try discriminate E. injection E as <-.
        apply read_text_iff in R. destruct R as (b' & Eb & T). injection Eb as <-. exact (L_text _ _ m true b u T).
      * intros W. inversion W as [| | | | | | | | |q b' u H1 E1 E2 E3| | | | | | |].
        assert (R : read_text m (Some b) = Def u) by (apply read_text_iff; exists b; split; [reflexivity|exact H1]).
        rewrite R. cbn [obind]. reflexivity.
    + apply D; [intros W; inversion W; reflexivity|intros <-; constructor].
Qed.

(** Reports look at nothing but the argument, except for the types of [reads]. *)
Theorem harmless show_number show_address v p t m x :
  ty_ok v t -> format_of v p t <> NotCompiled -> has_type t x -> reads v t = false ->
  exists text, format show_number show_address m (format_of v p t) x = Def text.
Proof.
  intros O C X R.
  assert (N : looks v t <> Nothing) by (intros E; apply C; apply compiles; [exact O|right; exact E]).
  enough (K : exists text, text_of show_number show_address m (looks v t) x text)
    by (destruct K as (text & K); exists text; apply shown_text; assumption).
  unfold reads in R.
  assert (Q : forall s d, scalar_ok v s -> scalar_value s x ->
    match prints v s with Some l => l | None => d end <> Nothing -> (d = Nothing \/ d = Mark) ->
    match match prints v s with Some l => l | None => d end with Text _ | Content => true | _ => false end = false ->
    exists text, text_of show_number show_address m match prints v s with Some l => l | None => d end x text).
  { intros s d Os Xs Nn Dd Rr. destruct (resolve v s) as [c|] eqn:E.
    - assert (Ep : prints v s = Some (look_of c s)) by (rewrite <- (resolve_prints v s Os), E; reflexivity).
      rewrite Ep in *. generalize (resolve_takes v s x c Os Xs E). intros T.
      destruct c as [a|a| | | | |a|a]; destruct x as [z|r|q|r]; cbn [takes] in T; try contradiction;
        try (destruct a; contradiction); try discriminate Rr.
      + destruct a; try discriminate T; cbn [look_of narrow real].
        1: { destruct (Z.eq_dec z 0) as [->|Z]; eexists; [apply L_zero|apply L_one; exact Z]. }
        all: eexists; constructor.
      + destruct a; try discriminate T; cbn [look_of narrow real]; eexists; constructor.
      + destruct a; try contradiction. destruct q; eexists; constructor.
      + eexists; constructor.
      + eexists; constructor.
      + eexists; constructor.
    - assert (Ep : prints v s = None) by (rewrite <- (resolve_prints v s Os), E; reflexivity).
      rewrite Ep in *. destruct Dd as [-> | ->]; [contradiction Nn; reflexivity|]. eexists; constructor. }
  destruct t as [[a| |sc fx a|k vol q|]|[|]|[[|]|] [s|]]; cbn [looks] in *; cbn [has_type] in X;
    try (apply Q; auto; fail); try (eexists; constructor; fail); try (destruct X as (s' & ->); eexists; constructor; fail).
  - destruct a; try (apply Q; auto; fail).
    + destruct x as [z|r|b|r]; cbn in X; try contradiction; try discriminate X.
      destruct (Z.eq_dec z 0) as [->|Z]; eexists; [apply L_false|apply L_true; exact Z].
    + destruct x as [z|r|b|r]; cbn in X; try contradiction; try discriminate X. eexists; constructor.
  - destruct vol; [apply Q; auto; fail|].
    destruct q as [a| | | |]; try (apply Q; auto; fail).
    destruct a; try (apply Q; auto; fail). discriminate R.
Qed.

(** For those types there are arguments for which making a report is undefined. *)
Theorem harmful show_number show_address v p t : ty_ok v t -> format_of v p t <> NotCompiled -> reads v t = true ->
  exists m x, has_type t x /\ format show_number show_address m (format_of v p t) x = UB.
Proof.
  intros O C R. exists (fun _ => None), (VPtr (Some 0)).
  assert (X : has_type t (VPtr (Some 0))).
  { unfold reads in R. destruct t as [[a| |sc fx a|k vol q|]|[|]|[[|]|] [s|]]; cbn in *; try discriminate R; try exact Logic.I.
    - destruct a; cbn in R; try discriminate R; destruct (since20 v); discriminate R.
    - destruct (since17 v); discriminate R.
    - destruct sc; [discriminate R|]. destruct a; cbn in R; try discriminate R; destruct (since20 v); discriminate R.
    - destruct s as [a| |sc fx a|k vol q|]; cbn in *; try exact Logic.I.
      + destruct a; cbn in R; try discriminate R; destruct (since20 v); discriminate R.
      + destruct (since17 v); discriminate R.
      + destruct sc; [discriminate R|]. destruct a; cbn in R; try discriminate R; destruct (since20 v); discriminate R. }
  split; [exact X|].
  destruct (format show_number show_address (fun _ => None) (format_of v p t) (VPtr (Some 0))) as [u| |] eqn:E.
  - exfalso. apply shown_text in E; [|exact O|exact C|exact X]. unfold reads in R.
    destruct (looks v t); try discriminate R; inversion E as [| | | | | | | | |q b u' H1 E1 E2 E3| | | |b u' H1 E1 E2| | |].
    + destruct H1 as (rest & M & _). discriminate M.
    + discriminate H1.
  - reflexivity.
  - exfalso. destruct (format_of v p t) as [| | | |[c|]|]; cbn in E; try discriminate E.
    destruct c as [a|a| | | | |a|a]; try destruct a; cbn in E; discriminate E.
Qed.
