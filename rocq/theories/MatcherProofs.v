From Coq Require Import Ascii String NArith ZArith Lia List.
From Coq Require Import Floats.SpecFloat.
From Verif Require Import Base CInt Values ArgMatchers InvMatchers Spec_Args.
Import ListNotations.
Open Scope nat_scope.

(** ** Integers *)
Lemma rel_holds_int : forall r x y, rel_holds r (Some (x ?= y)%Z) = true <-> int_meaning r x y.
Proof.
  intros r x y. destruct (Z.compare_spec x y); destruct r; cbn; split; intro; try discriminate; try reflexivity; try lia.
Qed.

Lemma int_matcher : forall m r x y, exists b,
  am_matches m (ACmp r (XVal (VInt y))) (VInt x) = Def b /\ (b = true <-> int_meaning r x y).
Proof. intros. eexists. split; [reflexivity|]. apply rel_holds_int. Qed.

(** ** Doubles: unordered operands *)
Definition is_nan (x : spec_float) : bool :=
  match x with S754_nan => true | _ => false end.

Lemma SFcompare_nan : forall x y, is_nan x = true \/ is_nan y = true -> SFcompare x y = None.
Proof. intros [] [] [H|H]; cbn in *; try discriminate; auto; destruct s; auto. Qed.

Lemma nan_matcher : forall m r x y, is_nan x = true \/ is_nan y = true ->
  am_matches m (ACmp r (XVal (VDbl y))) (VDbl x) = Def (match r with RNe => true | _ => false end).
Proof. intros. cbn. rewrite SFcompare_nan by auto. destruct r; reflexivity. Qed.

Lemma SFcompare_not_nan : forall x y, is_nan x = false -> is_nan y = false -> SFcompare x y <> None.
Proof.
  intros [sx|sx| |sx mx ex] [sy|sy| |sy my ey] H1 H2; cbn in *; try discriminate;
    destruct sx; try discriminate; destruct sy; try discriminate;
    destruct (Z.compare ex ey); try discriminate; destruct (Pos.compare_cont _ _ _); discriminate.
Qed.

Lemma complement : forall c, c <> None ->
  rel_holds RNe c = negb (rel_holds REq c) /\
  rel_holds RGe c = negb (rel_holds RLt c) /\
  rel_holds RLe c = negb (rel_holds RGt c).
Proof. intros [[]|] H; cbn; auto; congruence. Qed.

(** ** Texts *)
Lemma lex_irrefl : forall a, ~ lex_lt a a.
Proof. induction a; intro H; inversion H; subst; auto; lia. Qed.

Lemma lex_asym : forall a b, lex_lt a b -> ~ lex_lt b a.
Proof. intros a b H. induction H; intro X; inversion X; subst; auto; lia. Qed.

Lemma N_of_ascii_inj : forall a b, N_of_ascii a = N_of_ascii b -> a = b.
Proof. intros a b H. rewrite <- (ascii_N_embedding a), <- (ascii_N_embedding b). now rewrite H. Qed.

Lemma strcmp_spec : forall a b,
  match strcmp a b with
  | Eq => text a = text b
  | Lt => lex_lt (text a) (text b)
  | Gt => lex_lt (text b) (text a)
  end.
Proof.
  induction a as [|ca a IH]; intros b; cbn [strcmp text]; unfold byte in *.
  - destruct b as [|cb b]; cbn [text]; auto.
    destruct (N.compare_spec 0 (N_of_ascii cb)) as [E|L|G].
    + rewrite <- E. reflexivity.
    + destruct (N.eqb_spec (N_of_ascii cb) 0); [lia|constructor].
    + lia.
  - destruct b as [|cb b]; cbn [text].
    + destruct (N.compare_spec (N_of_ascii ca) 0) as [E|L|G].
      * destruct (N.eqb_spec (N_of_ascii ca) 0); auto; lia.
      * lia.
      * destruct (N.eqb_spec (N_of_ascii ca) 0); [lia|constructor].
    + destruct (N.compare_spec (N_of_ascii ca) (N_of_ascii cb)) as [E|L|G].
      * rewrite E. destruct (N.eqb_spec (N_of_ascii cb) 0); auto.
        specialize (IH b). destruct (strcmp a b); [congruence|apply lex_tail; auto|apply lex_tail; auto].
      * destruct (N.eqb_spec (N_of_ascii cb) 0); [lia|].
        destruct (N.eqb_spec (N_of_ascii ca) 0); [constructor|constructor; auto].
      * destruct (N.eqb_spec (N_of_ascii ca) 0); [lia|].
        destruct (N.eqb_spec (N_of_ascii cb) 0); [constructor|constructor; auto].
Qed.

Lemma string_cmp_spec : forall a b,
  match string_cmp a b with
  | Eq => bytes a = bytes b
  | Lt => lex_lt (bytes a) (bytes b)
  | Gt => lex_lt (bytes b) (bytes a)
  end.
Proof.
  induction a as [|ca a IH]; intros [|cb b]; cbn [string_cmp bytes]; unfold byte; auto; try constructor.
  destruct (N.compare_spec (N_of_ascii ca) (N_of_ascii cb)) as [E|L|G]; try (constructor; auto; fail).
  rewrite E. specialize (IH b). destruct (string_cmp a b); [congruence|apply lex_tail; auto|apply lex_tail; auto].
Qed.

Lemma bytes_inj : forall a b, bytes a = bytes b -> a = b.
Proof.
  induction a as [|ca a IH]; intros [|cb b] H; cbn in H; try discriminate; auto.
  injection H as H1 H2. f_equal; auto using N_of_ascii_inj.
Qed.

Lemma bytes_cut : forall s, bytes (cut_nul s) = text s.
Proof.
  induction s as [|c s IH]; cbn; auto. unfold byte. destruct (N.eqb (N_of_ascii c) 0); cbn; congruence.
Qed.

Lemma rel_text : forall r c a b,
  match c with
  | Eq => a = b
  | Lt => lex_lt a b
  | Gt => lex_lt b a
  end -> (rel_holds r (Some c) = true <-> text_meaning r a b).
Proof.
  intros r c a b H. pose proof (lex_irrefl a) as I. 
  destruct c; destruct r; cbn; split; intro X; try discriminate; try reflexivity; auto; subst; auto.
  all: try (now apply lex_irrefl in X).
  all: try (destruct X as [X|X]; subst; auto).
  all: try (intro; subst; now apply lex_irrefl in H).
  all: try (now apply lex_irrefl in H).
  all: try (now apply lex_asym in H).
Qed.

(** C39 *)
Theorem str_matcher : forall m r s p buf, load m p = Def (VStr buf) ->
  exists b, am_matches m (AStr r s) (VCStr (Some p)) = Def b /\
            (b = true <-> text_meaning r (text buf) (text s)).
Proof.
  intros m r s p buf L. eexists. cbn. rewrite L. cbn. split; [reflexivity|].
  apply rel_text. apply strcmp_spec.
Qed.

Lemma str_null : forall m r s, am_matches m (AStr r s) (VCStr None) = UB.
Proof. reflexivity. Qed.

(** std::string arguments: whole contents, embedded NUL included; against a
    string literal, the literal up to its first NUL. *)
Theorem std_string_matcher : forall m r x y,
  exists b, am_matches m (ACmp r (XVal (VStr y))) (VStr x) = Def b /\
            (b = true <-> text_meaning r (bytes x) (bytes y)).
Proof. intros. eexists. split; [reflexivity|]. apply rel_text. apply string_cmp_spec. Qed.

Theorem literal_matcher : forall m r x s,
  exists b, am_matches m (ACmp r (XArr s)) (VStr x) = Def b /\
            (b = true <-> text_meaning r (bytes x) (text s)).
Proof.
  intros. eexists. split; [reflexivity|]. apply rel_text. rewrite <- bytes_cut. apply string_cmp_spec.
Qed.

(** ** ApproxEq on integers (C40) *)
Lemma approx_int : forall m x e k,
  (int_min <= x <= int_max -> int_min <= e <= int_max ->
   (Z.abs (x - e) <= int_max ->
     exists b, am_matches m (AApprox (VInt e) (VInt k)) (VInt x) = Def b /\
               (b = true <-> Z.abs (x - e) <= k)) /\
   (int_max < Z.abs (x - e) -> am_matches m (AApprox (VInt e) (VInt k)) (VInt x) = UB))%Z.
Proof.
  intros m x e k Hx He. cbn [am_matches approx]. unfold isub, int_ck, in_int.
  split; intro A.
  - destruct (Z.leb_spec int_min (x - e)); [|unfold int_min, int_max in *; lia].
    destruct (Z.leb_spec (x - e) int_max); [|unfold int_min, int_max in *; lia]. cbn [andb obind].
    destruct (Z.ltb_spec (x - e) 0).
    + unfold ineg, int_ck, in_int.
      destruct (Z.leb_spec int_min (- (x - e))); [|unfold int_min, int_max in *; lia].
      destruct (Z.leb_spec (- (x - e)) int_max); [|unfold int_min, int_max in *; lia]. cbn [andb obind].
      eexists. split; [reflexivity|]. rewrite Z.leb_le. lia.
    + cbn [obind]. eexists. split; [reflexivity|]. rewrite Z.leb_le. lia.
  - destruct (Z.leb_spec int_min (x - e)); destruct (Z.leb_spec (x - e) int_max); cbn [andb obind]; auto.
    destruct (Z.ltb_spec (x - e) 0); [|unfold int_min, int_max in *; lia].
    unfold ineg, int_ck, in_int.
    destruct (Z.leb_spec int_min (- (x - e))); destruct (Z.leb_spec (- (x - e)) int_max);
      cbn [andb obind]; auto; unfold int_min, int_max in *; lia.
Qed.

Lemma SFabs_cases : forall x, SFabs x = S754_nan \/
  (exists s, SFabs x = S754_zero s /\ s = false) \/ (exists s, SFabs x = S754_infinity s /\ s = false) \/
  exists m e, SFabs x = S754_finite false m e.
Proof. intros []; cbn; eauto 10. Qed.

(** A negative margin (other than -0) or a NaN margin accepts nothing. *)
Definition negative (x : spec_float) : bool :=
  match x with
  | S754_infinity true => true
  | S754_finite true _ _ => true
  | _ => false
  end.

Lemma approx_dbl_bad_margin : forall m a e k, is_nan k = true \/ negative k = true ->
  am_matches m (AApprox (VDbl e) (VDbl k)) (VDbl a) = Def false.
Proof.
  intros m a e k H. cbn [am_matches approx]. f_equal.
  assert (G : forall d, SFcompare (SFabs d) k = None \/ SFcompare (SFabs d) k = Some Gt).
  { intro d. destruct H as [H|H].
    - left. apply SFcompare_nan. auto.
    - destruct d, k as [|[]| |[]]; cbn in *; auto; discriminate. }
  destruct (G (dsub a e)) as [->| ->]; reflexivity.
Qed.

(** ** Positional conditions (C37) *)
Lemma collect_matchers_map : forall us acc, collect_matchers acc us = acc ++ map collect_one us.
Proof.
  induction us as [|u us IH]; intro acc; cbn; [now rewrite app_nil_r|].
  rewrite IH, <- app_assoc. reflexivity.
Qed.

Lemma args_match_false : forall m ms args i b, args_match_from m ms i args false = Def b -> b = false.
Proof.
  induction args as [|a args IH]; intros i b H; cbn in H; [congruence|].
  destruct (nth_error ms i); [eauto|discriminate].
Qed.

Lemma args_match_spec : forall m ms args i b, i + length args <= length ms ->
  args_match_from m ms i args true = Def b ->
  (b = true <-> forall j a am, nth_error args j = Some a -> nth_error ms (i + j) = Some am ->
     exists v, view m a = Def v /\ am_matches m am v = Def true).
Proof.
  induction args as [|a args IH]; intros i b L H; cbn [args_match_from] in H.
  - injection H as <-. split; auto. intros _ j a am E. destruct j; discriminate.
  - cbn [length] in L. destruct (nth_error ms i) as [am|] eqn:E; [|discriminate].
    destruct (view m a) as [v| |] eqn:V; cbn [obind] in H; try discriminate.
    destruct (am_matches m am v) as [x| |] eqn:M; cbn [obind] in H; try discriminate.
    destruct x.
    + rewrite (IH (S i) b ltac:(lia) H). split; intros G j a' am' A B.
      * destruct j as [|j]; cbn in A.
        -- injection A as <-. rewrite Nat.add_0_r, E in B. injection B as <-. eauto.
        -- apply (G j a' am' A). now replace (S i + j) with (i + S j) by lia.
      * apply (G (S j) a' am' A). now replace (i + S j) with (S i + j) by lia.
    + apply args_match_false in H. subst b. split; [discriminate|]. intro G.
      destruct (G 0 a am eq_refl) as (v' & V' & M').
      * now rewrite Nat.add_0_r.
      * congruence.
Qed.

Lemma args_match_total : forall m ms args i c, i + length args <= length ms ->
  (forall j a am, nth_error args j = Some a -> nth_error ms (i + j) = Some am ->
     exists v b, view m a = Def v /\ am_matches m am v = Def b) ->
  exists b, args_match_from m ms i args c = Def b.
Proof.
  induction args as [|a args IH]; intros i c L H; cbn [args_match_from]; [eauto|].
  cbn [length] in L. destruct (nth_error ms i) as [am|] eqn:E.
  - assert (H' : forall j a' am', nth_error args j = Some a' -> nth_error ms (S i + j) = Some am' ->
       exists v b, view m a' = Def v /\ am_matches m am' v = Def b).
    { intros j a' am' A B. apply (H (S j) a' am' A). now replace (i + S j) with (S i + j) by lia. }
    destruct c; [|apply IH; auto; lia].
    destruct (H 0 a am eq_refl) as (v & b & V & M); [now rewrite Nat.add_0_r|].
    rewrite V. cbn [obind]. rewrite M. cbn [obind]. apply IH; auto. lia.
  - exfalso. apply nth_error_None in E. lia.
Qed.

Lemma char_value_inj : forall a b, char_value a = char_value b -> a = b.
Proof.
  intros a b H. apply N_of_ascii_inj. unfold char_value, byte in H.
  pose proof (N_ascii_bounded a). pose proof (N_ascii_bounded b).
  destruct (Z.leb_spec 128 (Z.of_N (N_of_ascii a))); destruct (Z.leb_spec 128 (Z.of_N (N_of_ascii b))); lia.
Qed.

Lemma ptr_eqb_spec : forall p q, ptr_eqb p q = true <-> p = q.
Proof.
  intros [p|] [q|]; cbn; split; intro H; try discriminate; auto.
  - apply Nat.eqb_eq in H. congruence.
  - injection H as ->. apply Nat.eqb_refl.
Qed.

Lemma cmp_eq_same : forall a e, cmp_val REq a e = Def true <-> same_value a e.
Proof.
  intros a e. destruct a, e; cbn [cmp_val same_value]; try (split; [discriminate|tauto]).
  - pose proof (rel_holds_int REq z z0) as R. cbn [int_meaning] in R. rewrite <- R. split; congruence.
  - destruct (SFcompare x x0) as [[]|]; cbn; split; congruence.
  - destruct b, b0; cbn; split; congruence.
  - pose proof (rel_holds_int REq (char_value c) (char_value c0)) as R. cbn [int_meaning] in R. split; intro H.
    + injection H as H. apply char_value_inj. now apply R.
    + subst. f_equal. now apply R.
  - pose proof (string_cmp_spec s s0) as R. destruct (string_cmp s s0) eqn:C; cbn; split; intro H; try discriminate; auto.
    + now apply bytes_inj.
    + subst. now apply lex_irrefl in R.
    + subst. now apply lex_irrefl in R.
  - cbn. rewrite <- ptr_eqb_spec. split; congruence.
  - cbn. rewrite <- ptr_eqb_spec. split; congruence.
  - rewrite <- Nat.eqb_eq. split; congruence.
Qed.

Lemma collect_one_spec : forall m u v, am_matches m (collect_one u) v = Def true <-> using_accepts m u v.
Proof.
  intros m [|am|[e|s]] v; cbn [collect_one using_accepts].
  - cbn. tauto.
  - tauto.
  - apply cmp_eq_same.
  - tauto.
Qed.

Theorem using_spec : forall m us args b, length us = length args ->
  im_matches_args m (IMArgs (collect_matchers [] us)) args = Def b ->
  (b = true <-> Forall2 (fun u a => exists v, view m a = Def v /\ using_accepts m u v) us args).
Proof.
  intros m us args b L H. cbn [im_matches_args] in H. rewrite collect_matchers_map in H. cbn [app] in H.
  rewrite (args_match_spec m (map collect_one us) args 0 b) by (auto; rewrite map_length; lia).
  clear H b. revert args L. induction us as [|u us IH]; intros [|a args] L; cbn in L; try discriminate.
  - split; [constructor|]. intros _ j x y E. destruct j; discriminate.
  - injection L as L. split; intro G.
    + constructor.
      * destruct (G 0 a (collect_one u) eq_refl eq_refl) as (v & V & M). exists v. split; auto.
        now apply collect_one_spec.
      * apply IH; auto. intros j a' am' A B. apply (G (S j) a' am' A B).
    + inversion G as [|? ? ? ? (v & V & M) G']; subst. intros [|j] a' am' A B; cbn in A, B.
      * injection A as <-. injection B as <-. exists v. split; auto. now apply collect_one_spec.
      * destruct (IH args L) as [_ X]. apply (X G' j a' am' A B).
Qed.

Theorem using_total : forall m us args, length us = length args ->
  Forall2 (fun u a => exists v b, view m a = Def v /\ am_matches m (collect_one u) v = Def b) us args ->
  exists b, im_matches_args m (IMArgs (collect_matchers [] us)) args = Def b.
Proof.
  intros m us args L F. cbn [im_matches_args]. rewrite collect_matchers_map. cbn [app].
  apply args_match_total; [rewrite map_length; lia|].
  clear L. induction F as [|u a us args (v & b & V & M) F IH]; intros j a' am' A B; cbn in *.
  - destruct j; discriminate.
  - destruct j as [|j]; cbn in A, B.
    + injection A as <-. injection B as <-. eauto.
    + apply (IH j a' am' A B).
Qed.

(** More matchers than arguments or fewer: fewer is undefined behaviour. *)
Lemma using_too_few : forall m ms args, length ms < length args ->
  im_matches_args m (IMArgs ms) args <> Def true.
Proof.
  intros m ms args L. cbn [im_matches_args].
  assert (G : forall args i c, length ms < i + length args -> i <= length ms -> args_match_from m ms i args c <> Def true).
  { induction args0 as [|a r IH]; intros i c L1 L2; cbn [args_match_from length] in *; [lia|].
    destruct (nth_error ms i) as [am|] eqn:E; [|discriminate].
    apply nth_error_Some_lt in E.
    destruct c; [|apply IH; lia].
    destruct (view m a) as [v| |]; cbn [obind]; try discriminate.
    destruct (am_matches m am v) as [x| |]; cbn [obind]; try discriminate. apply IH; lia. }
  apply G; cbn; lia.
Qed.

(** ** applyTuple hands the elements over in order *)
Lemma apply_func_spec : forall A R (f : list A -> R) t n pack, n <= length t ->
  apply_func n f t pack = Some (f (firstn n t ++ pack)).
Proof.
  intros A R f t. induction n as [|n IH]; intros pack L; cbn [apply_func]; auto.
  destruct (nth_error t n) as [x|] eqn:E.
  - rewrite IH by lia. do 2 f_equal.
    rewrite <- (firstn_skipn n t) in E at 1.
    assert (F : firstn (S n) t = firstn n t ++ [x]).
    { clear IH pack. rewrite firstn_skipn in E. revert t L E. induction n as [|n IHn]; intros [|y t] L E; cbn in *; try discriminate; try lia.
      - congruence.
      - f_equal. apply IHn; auto; lia. }
    rewrite F, <- app_assoc. reflexivity.
  - apply nth_error_None in E. lia.
Qed.

Lemma applyTuple_spec : forall A R (f : list A -> R) t, applyTuple f t = Some (f t).
Proof.
  intros. unfold applyTuple. rewrite apply_func_spec by lia. now rewrite firstn_all, app_nil_r.
Qed.

(** ** bool, char, pointers and other values *)
Lemma bool_matcher : forall m r x y, exists b,
  am_matches m (ACmp r (XVal (VBool y))) (VBool x) = Def b /\ (b = true <-> int_meaning r (Z.b2z x) (Z.b2z y)).
Proof.
  intros m r x y. eexists. split; [reflexivity|].
  destruct r, x, y; cbn; split; intro; try discriminate; try reflexivity; try lia.
Qed.

Lemma char_value_number : forall c, char_value c = char_number c.
Proof.
  intros c. unfold char_value, char_number, byte. destruct (N.ltb_spec (N_of_ascii c) 128) as [L|L].
  - destruct (Z.leb_spec 128 (Z.of_N (N_of_ascii c))); [lia|reflexivity].
  - destruct (Z.leb_spec 128 (Z.of_N (N_of_ascii c))); [reflexivity|lia].
Qed.

Lemma char_matcher : forall m r x y, exists b,
  am_matches m (ACmp r (XVal (VChar y))) (VChar x) = Def b /\ (b = true <-> int_meaning r (char_number x) (char_number y)).
Proof. intros. eexists. split; [reflexivity|]. rewrite rel_holds_int, !char_value_number. reflexivity. Qed.

Lemma ptr_rel_spec : forall r p q,
  (p = q -> ptr_rel r (ptr_eqb p q) = Def (match r with REq | RGe | RLe => true | _ => false end)) /\
  (p <> q -> ptr_rel r (ptr_eqb p q) = match r with REq => Def false | RNe => Def true | _ => UB end).
Proof.
  intros r p q. split; intros H.
  - assert (E : ptr_eqb p q = true) by (apply ptr_eqb_spec; exact H). rewrite E. destruct r; reflexivity.
  - destruct (ptr_eqb p q) eqn:E; [apply ptr_eqb_spec in E; contradiction|]. destruct r; reflexivity.
Qed.

Lemma pointer_matcher : forall m r p q (v : option addr -> val), v = VPtr \/ v = VCStr ->
  (p = q -> am_matches m (ACmp r (XVal (v q))) (v p) = Def (match r with REq | RGe | RLe => true | _ => false end)) /\
  (p <> q -> am_matches m (ACmp r (XVal (v q))) (v p) = match r with REq => Def false | RNe => Def true | _ => UB end).
Proof. intros m r p q v [-> | ->]; exact (ptr_rel_spec r p q). Qed.

Lemma opaque_matcher : forall m x y,
  am_matches m (ACmp REq (XVal (VOpaque y))) (VOpaque x) = Def true <-> x = y.
Proof. intros. cbn. rewrite <- Nat.eqb_eq. split; congruence. Qed.

Lemma opaque_ne_matcher : forall m x y,
  am_matches m (ACmp RNe (XVal (VOpaque y))) (VOpaque x) = Def true <-> x <> y.
Proof.
  intros. cbn. destruct (Nat.eqb_spec x y); cbn; split; intro H; try congruence.
Qed.

(** ** Matching: the predicate sees what the arguments designate *)
Lemma seen_view : forall m a v, seen m a v -> view m a = Def v.
Proof. intros m a v [x w H|w H]; [exact H|]. destruct w; try reflexivity. exfalso. apply (H a0). reflexivity. Qed.

Lemma matching_spec : forall m p args vs, Forall2 (seen m) args vs ->
  im_matches_args m (IMUser p) args = Def (p vs).
Proof.
  intros m p args vs H. cbn. assert (E : view_all m args = Def vs).
  { induction H as [|a v args vs Ha H IH]; [reflexivity|]. cbn. rewrite (seen_view _ _ _ Ha). cbn. rewrite IH. reflexivity. }
  rewrite E. reflexivity.
Qed.
