(** The matcher code decides conditions as Spec_Conditions.v says. *)
From Coq Require Import Ascii String NArith ZArith Lia List.
From Coq Require Import Floats.SpecFloat.
From Verif Require Import Base CInt Values ArgMatchers InvMatchers Spec_Args MatcherProofs Spec_Conditions.
Import ListNotations.
Open Scope nat_scope.

Lemma seen_view : forall m a v, seen m a v <-> view m a = Def v.
Proof.
  intros m a v. split.
  - intro H. destruct H as [a v L|v N]; [exact L|]. destruct v; cbn; auto. now destruct (N a).
  - intro H. destruct a; cbn in H; try (inversion H; subst; apply seen_val; discriminate). now apply seen_ref.
Qed.

Lemma seen_fun : forall m a v w, seen m a v -> seen m a w -> v = w.
Proof. intros m a v w A B. apply seen_view in A, B. congruence. Qed.

Lemma double_rel : forall r x y, rel_holds r (SFcompare x y) = true <-> double_meaning r x y.
Proof.
  intros r x y. unfold double_meaning. destruct r, (SFcompare x y) as [[]|]; cbn; split; intro H; try reflexivity; try discriminate;
    try (now left); try (now right); try (destruct H; discriminate); try (now destruct H).
Qed.

Lemma approx_exact : forall m x y k,
  ((Z.abs (x - y) <= int_max)%Z /\ am_matches m (AApprox (VInt y) (VInt k)) (VInt x) = Def (Z.abs (x - y) <=? k)%Z) \/
  am_matches m (AApprox (VInt y) (VInt k)) (VInt x) = UB.
Proof.
  intros m x y k. cbn. unfold isub, int_ck. destruct (in_int (x - y)) eqn:I; cbn [obind]; [|now right].
  unfold in_int in I. apply Bool.andb_true_iff in I as [I1 I2]. apply Z.leb_le in I1, I2.
  destruct (Z.ltb_spec (x - y) 0).
  - unfold ineg, int_ck. destruct (in_int (- (x - y))) eqn:I; cbn [obind]; [|now right].
    unfold in_int in I. apply Bool.andb_true_iff in I as [_ I3]. apply Z.leb_le in I3. left. rewrite Z.abs_neq by lia. auto.
  - cbn [obind]. left. rewrite Z.abs_eq by lia. auto.
Qed.

(** The code answers exactly where the condition has a meaning, and answers accordingly. *)
Lemma means_matches : forall m c v P, means m c v P -> exists b, am_matches m c v = Def b /\ (b = true <-> P).
Proof.
  intros m c v P H. destruct H.
  - exists true. split; [reflexivity|tauto].
  - apply int_matcher.
  - eexists. split; [reflexivity|]. apply double_rel.
  - apply bool_matcher.
  - apply char_matcher.
  - apply std_string_matcher.
  - destruct (pointer_matcher m REq p q k H) as [A B].
    destruct (ptr_eqb p q) eqn:E.
    + assert (p = q) by (destruct p, q; cbn in E; try discriminate; auto; apply Nat.eqb_eq in E; now subst). rewrite A by auto. exists true. tauto.
    + assert (p <> q) by (intros ->; destruct q; cbn in E; try discriminate; now rewrite Nat.eqb_refl in E). rewrite B by auto. exists false.
      split; [reflexivity|]. split; intro; [discriminate|tauto].
  - destruct (pointer_matcher m RNe p q k H) as [A B].
    destruct (ptr_eqb p q) eqn:E.
    + assert (p = q) by (destruct p, q; cbn in E; try discriminate; auto; apply Nat.eqb_eq in E; now subst). rewrite A by auto. exists false.
      split; [reflexivity|]. split; intro; [discriminate|tauto].
    + assert (p <> q) by (intros ->; destruct q; cbn in E; try discriminate; now rewrite Nat.eqb_refl in E). rewrite B by auto. exists true. tauto.
  - destruct (pointer_matcher m r p p k H) as [A _]. rewrite A by auto. eexists. split; [reflexivity|].
    destruct r; cbn; intuition discriminate.
  - exists (Nat.eqb x y). split; [reflexivity|]. apply Nat.eqb_eq.
  - exists (negb (Nat.eqb x y)). split; [reflexivity|]. rewrite Bool.negb_true_iff. apply Nat.eqb_neq.
  - apply literal_matcher.
  - exists false. split; [reflexivity|]. split; [discriminate|tauto].
  - exists true. split; [reflexivity|tauto].
  - now apply str_matcher.
  - destruct (approx_exact m x y k) as [[_ E]|E].
    + eexists. split; [exact E|]. apply Z.leb_le.
    + exfalso. cbn in E. unfold isub, ineg, int_ck, in_int in E. unfold int_max, int_min in *.
      destruct (Z.leb_spec (-2147483648) (x - y)); destruct (Z.leb_spec (x - y) 2147483647); cbn in E; try lia.
      destruct (Z.ltb_spec (x - y) 0); [|discriminate].
      destruct (Z.leb_spec (-2147483648) (- (x - y))); destruct (Z.leb_spec (- (x - y)) 2147483647); cbn in E; try lia; discriminate.
  - eexists. split; [reflexivity|]. apply double_rel.
Qed.

Lemma matches_means : forall m c v b, am_matches m c v = Def b -> exists P, means m c v P /\ (b = true <-> P).
Proof.
  assert (ANY : forall m c v P b, means m c v P -> am_matches m c v = Def b -> exists P, means m c v P /\ (b = true <-> P)).
  { intros m c v P b M H. destruct (means_matches _ _ _ _ M) as (b' & E & I). rewrite H in E. inversion E; subst. eauto. }
  intros m [|r [e|s]|r s|e k] v b H.
  - eapply ANY; [apply MeansAny|exact H].
  - destruct v, e; cbn in H; try discriminate; try (eapply ANY; [constructor|]; exact H).
    + destruct (ptr_eqb p p0) eqn:E.
      * assert (p = p0) as <- by (destruct p, p0; cbn in E; try discriminate; auto; apply Nat.eqb_eq in E; now subst).
        eapply ANY; [apply (MeansPtrSame m VCStr); auto|]. cbn. now rewrite E.
      * destruct r; cbn in H; try discriminate.
        -- eapply ANY; [apply (MeansPtrEq m VCStr); auto|]. cbn. now rewrite E.
        -- eapply ANY; [apply (MeansPtrNe m VCStr); auto|]. cbn. now rewrite E.
    + destruct (ptr_eqb p p0) eqn:E.
      * assert (p = p0) as <- by (destruct p, p0; cbn in E; try discriminate; auto; apply Nat.eqb_eq in E; now subst).
        eapply ANY; [apply (MeansPtrSame m VPtr); auto|]. cbn. now rewrite E.
      * destruct r; cbn in H; try discriminate.
        -- eapply ANY; [apply (MeansPtrEq m VPtr); auto|]. cbn. now rewrite E.
        -- eapply ANY; [apply (MeansPtrNe m VPtr); auto|]. cbn. now rewrite E.
    + destruct r; try discriminate; eapply ANY; try constructor; exact H.
  - destruct v; cbn in H; try discriminate.
    + eapply ANY; [apply MeansLiteral|exact H].
    + destruct r; try discriminate; eapply ANY; try constructor; exact H.
  - cbn in H. destruct v; try discriminate. destruct p as [p|]; [|discriminate].
    destruct (load m p) as [[]| |] eqn:L; cbn in H; try discriminate.
    eapply ANY; [eapply MeansText; exact L|]. cbn. now rewrite L.
  - destruct v, e, k; try discriminate.
    + destruct (approx_exact m z z0 z1) as [[L E]|E]; [|rewrite H in E; discriminate].
      eapply ANY; [apply MeansNear; exact L|exact H].
    + eapply ANY; [apply MeansNearDouble|exact H].
Qed.

Lemma means_fun : forall m c v P Q, means m c v P -> means m c v Q -> (P <-> Q).
Proof.
  intros m c v P Q A B. destruct (means_matches _ _ _ _ A) as (b & E & I). destruct (means_matches _ _ _ _ B) as (b' & E' & I').
  rewrite E in E'. inversion E'; subst. rewrite <- I. exact I'.
Qed.

Lemma meets_iff : forall m c a, meets m c a <-> exists v, view m a = Def v /\ am_matches m c v = Def true.
Proof.
  intros m c a. split.
  - intros (v & P & S & M & H). exists v. split; [now apply seen_view|]. destruct (means_matches _ _ _ _ M) as (b & E & I).
    rewrite E. f_equal. now apply I.
  - intros (v & S & E). destruct (matches_means _ _ _ _ E) as (P & M & I). exists v, P. split; [now apply seen_view|]. split; [exact M|]. now apply I.
Qed.

Lemma misses_iff : forall m c a, misses m c a <-> exists v, view m a = Def v /\ am_matches m c v = Def false.
Proof.
  intros m c a. split.
  - intros (v & P & S & M & H). exists v. split; [now apply seen_view|]. destruct (means_matches _ _ _ _ M) as (b & E & I).
    rewrite E. f_equal. destruct b; [destruct H; now apply I|reflexivity].
  - intros (v & S & E). destruct (matches_means _ _ _ _ E) as (P & M & I). exists v, P. split; [now apply seen_view|]. split; [exact M|].
    intro Q. apply I in Q. discriminate.
Qed.

Lemma skip_rest : forall m args ms i, args_match_from m ms i args false = Def false <-> length args + i <= max i (length ms).
Proof.
  intros m args ms. induction args as [|a args IH]; intro i; cbn; [split; intro; [lia|reflexivity]|].
  destruct (nth_error ms i) eqn:N.
  - assert (L : i < length ms) by (apply nth_error_Some; congruence). rewrite IH. lia.
  - apply nth_error_None in N. split; [discriminate|lia].
Qed.

Lemma skip_not : forall m args ms i, args_match_from m ms i args false <> Def true.
Proof.
  intros m args ms. induction args as [|a args IH]; intro i; cbn; [discriminate|]. destruct (nth_error ms i); [apply IH|discriminate].
Qed.

Lemma all_meet_iff : forall m args ms i, args_match_from m ms i args true = Def true <-> all_meet m (skipn i ms) args.
Proof.
  intros m args ms. induction args as [|a args IH]; intro i; cbn; [split; intro; [constructor|reflexivity]|].
  destruct (nth_error ms i) as [c|] eqn:N.
  - assert (SK : skipn i ms = c :: skipn (S i) ms).
    { clear - N. revert ms N. induction i as [|i IH]; intros [|x ms] N; try discriminate; [now inversion N|]. cbn in *. now rewrite (IH ms N). }
    rewrite SK. split.
    + intro H. destruct (view m a) as [v| |] eqn:V; try discriminate. cbn [obind] in H. destruct (am_matches m c v) as [[]| |] eqn:A; try discriminate; cbn [obind] in H.
      * constructor; [apply meets_iff; eauto|]. now apply IH.
      * now apply skip_not in H.
    + intro H. inversion H; subst. match goal with X : meets _ _ _ |- _ => apply meets_iff in X as (v & V & A) end.
      rewrite V. cbn [obind]. rewrite A. cbn [obind]. now apply IH.
  - split; [discriminate|]. intro H. apply nth_error_None in N. rewrite skipn_all2 in H by lia. inversion H.
Qed.

Lemma one_misses_iff : forall m args ms i, args_match_from m ms i args true = Def false <-> one_misses m (skipn i ms) args.
Proof.
  intros m args ms. induction args as [|a args IH]; intro i; cbn [args_match_from]; [split; [discriminate|intro H; inversion H]|].
  destruct (nth_error ms i) as [c|] eqn:N.
  - assert (SK : skipn i ms = c :: skipn (S i) ms).
    { clear - N. revert ms N. induction i as [|i IH]; intros [|x ms] N; try discriminate; [now inversion N|]. cbn in *. now rewrite (IH ms N). }
    assert (L : i < length ms) by (apply nth_error_Some; congruence).
    assert (LS : length (skipn (S i) ms) = length ms - S i) by apply skipn_length.
    pose proof (IH (S i)) as IHS. rewrite SK. remember (skipn (S i) ms) as rest eqn:RE. clear RE. split.
    + intro H. destruct (view m a) as [v| |] eqn:V; try discriminate. cbn [obind] in H. destruct (am_matches m c v) as [[]| |] eqn:A; try discriminate; cbn [obind] in H.
      * apply OneLater; [apply meets_iff; eauto|]. now apply IHS.
      * apply OneHere; [apply misses_iff; eauto|]. apply skip_rest in H. rewrite LS. lia.
    + intro H. inversion H; subst.
      * match goal with X : misses _ _ _ |- _ => apply misses_iff in X as (v & V & A) end.
        match goal with X : length args <= _ |- _ => rewrite LS in X end.
        rewrite V. cbn [obind]. rewrite A. cbn [obind]. apply skip_rest. lia.
      * match goal with X : meets _ _ _ |- _ => apply meets_iff in X as (v & V & A) end.
        rewrite V. cbn [obind]. rewrite A. cbn [obind]. now apply IHS.
  - split; [discriminate|]. intro H. apply nth_error_None in N. rewrite skipn_all2 in H by lia. inversion H.
Qed.

Lemma view_all_iff : forall m args vs, view_all m args = Def vs <-> Forall2 (seen m) args vs.
Proof.
  intros m args. induction args as [|a args IH]; intro vs; cbn.
  - split; intro H; [inversion H; constructor|inversion H; reflexivity].
  - split.
    + intro H. destruct (view m a) as [v| |] eqn:V; try discriminate. cbn [obind] in H. destruct (view_all m args) as [ws| |]; try discriminate.
      cbn [obind] in H. inversion H; subst. constructor; [now apply seen_view|]. now apply IH.
    + intro H. inversion H as [|? v ? ws S F]; subst. apply seen_view in S. rewrite S. cbn [obind]. apply IH in F. now rewrite F.
Qed.

Theorem satisfied_iff : forall m c args, im_matches_args m c args = Def true <-> satisfied m c args.
Proof.
  intros m [ms|p|] args; cbn [im_matches_args satisfied].
  - apply (all_meet_iff m args ms 0).
  - split.
    + intro H. destruct (view_all m args) as [vs| |] eqn:V; try discriminate. cbn [obind] in H. exists vs. split; [now apply view_all_iff|]. now inversion H.
    + intros (vs & F & H). apply view_all_iff in F. rewrite F. cbn [obind]. now rewrite H.
  - tauto.
Qed.

Theorem unsatisfied_iff : forall m c args, im_matches_args m c args = Def false <-> unsatisfied m c args.
Proof.
  intros m [ms|p|] args; cbn [im_matches_args unsatisfied].
  - apply (one_misses_iff m args ms 0).
  - split.
    + intro H. destruct (view_all m args) as [vs| |] eqn:V; try discriminate. cbn [obind] in H. exists vs. split; [now apply view_all_iff|]. now inversion H.
    + intros (vs & F & H). apply view_all_iff in F. rewrite F. cbn [obind]. now rewrite H.
  - split; [discriminate|tauto].
Qed.

Theorem decided_iff : forall m c args, (exists b, im_matches_args m c args = Def b) <-> satisfied m c args \/ unsatisfied m c args.
Proof.
  intros m c args. rewrite <- satisfied_iff, <- unsatisfied_iff. split; [intros [[] H]; auto|intros [H|H]; eauto].
Qed.

Theorem satisfied_not : forall m c args, satisfied m c args -> ~ unsatisfied m c args.
Proof. intros m c args A B. apply satisfied_iff in A. apply unsatisfied_iff in B. congruence. Qed.

Lemma am_fuel : forall m c v, am_matches m c v <> NoFuel.
Proof.
  intros m [|r [e|s]|r s|e k] v; cbn; try discriminate.
  - destruct v, e; cbn; try discriminate; try (destruct r, (ptr_eqb p p0); discriminate); destruct r; discriminate.
  - destruct v; cbn; try discriminate; destruct r; discriminate.
  - destruct v; try discriminate. destruct p as [p|]; [|discriminate]. unfold load.
    destruct (nth_error m p) as [[w|]|]; cbn; try discriminate. destruct w; discriminate.
  - destruct v, e, k; cbn; try discriminate. unfold isub, int_ck. destruct (in_int (z - z0)); cbn; [|discriminate].
    destruct (z - z0 <? 0)%Z; cbn; [|discriminate]. unfold ineg, int_ck. destruct (in_int _); cbn; discriminate.
Qed.

Lemma view_fuel : forall m a, view m a <> NoFuel.
Proof. intros m a. destruct a; cbn; try discriminate. unfold load. destruct (nth_error m a) as [[]|]; discriminate. Qed.

Lemma im_fuel : forall m c args, im_matches_args m c args <> NoFuel.
Proof.
  intros m [ms|p|] args; cbn [im_matches_args]; [| |discriminate].
  - generalize 0, true. induction args as [|a args IH]; intros i t; cbn; [discriminate|].
    destruct (nth_error ms i) as [c|]; [|discriminate]. destruct t; [|apply IH].
    pose proof (view_fuel m a). destruct (view m a) as [v| |]; cbn [obind]; try congruence.
    pose proof (am_fuel m c v). destruct (am_matches m c v) as [b| |]; cbn [obind]; try congruence; apply IH.
  - assert (V : view_all m args <> NoFuel).
    { induction args as [|a args IH]; cbn; [discriminate|]. pose proof (view_fuel m a). destruct (view m a) as [v| |]; cbn [obind]; try congruence.
      destruct (view_all m args); cbn [obind]; congruence. }
    destruct (view_all m args); cbn [obind]; congruence.
Qed.

(** C37 as a whole. *)
Theorem condition_spec : forall m c args,
  (satisfied m c args /\ im_matches_args m c args = Def true) \/
  (unsatisfied m c args /\ im_matches_args m c args = Def false) \/
  (~ satisfied m c args /\ ~ unsatisfied m c args /\ im_matches_args m c args = UB).
Proof.
  intros m c args. rewrite <- satisfied_iff, <- unsatisfied_iff. pose proof (im_fuel m c args).
  destruct (im_matches_args m c args) as [[]| |]; [auto|auto| |congruence].
  right. right. split; [discriminate|]. split; [discriminate|reflexivity].
Qed.

(** C38 to C40 as a whole. *)
Theorem comparison_spec : forall m c v,
  (exists P b, means m c v P /\ am_matches m c v = Def b /\ (b = true <-> P)) \/
  ((forall P, ~ means m c v P) /\ am_matches m c v = UB).
Proof.
  intros m c v. pose proof (am_fuel m c v). destruct (am_matches m c v) as [b| |] eqn:A; [| |congruence].
  - left. destruct (matches_means _ _ _ _ A) as (P & M & I). exists P, b. auto.
  - right. split; [|reflexivity]. intros P M. destruct (means_matches _ _ _ _ M) as (b & E & _). congruence.
Qed.
