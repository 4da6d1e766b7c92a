From Coq Require Import Bool ZArith Lia List.
From Verif Require Import Base Values ArgMatchers Spec_Args Convert Spec_Convert.
Open Scope Z_scope.

Lemma convert_small : forall t z, fits t z -> convert t z = z.
Proof.
  intros [|[] []] z H; cbn in *; try (rewrite Z.mod_small; lia).
  destruct H as [-> | ->]; reflexivity.
Qed.

(** Conversion changes a number by a multiple of the size of the type. *)
Lemma convert_mod : forall s w z, exists k, convert (TInt s w) z = z + k * 2 ^ bits w.
Proof.
  intros s w z. assert (P : 2 ^ bits w <> 0) by (destruct w; cbn; lia). destruct s; cbn [convert].
  - exists (- ((z + 2 ^ (bits w - 1)) / 2 ^ bits w)). pose proof (Z.div_mod (z + 2 ^ (bits w - 1)) (2 ^ bits w) P). lia.
  - exists (- (z / 2 ^ bits w)). pose proof (Z.div_mod z (2 ^ bits w) P). lia.
Qed.

(** Two numbers convert to the same one if and only if they differ by a multiple. *)
Lemma convert_same : forall s w x y, convert (TInt s w) x = convert (TInt s w) y <-> exists k, x = y + k * 2 ^ bits w.
Proof.
  intros s w x y. split.
  - intro H. destruct (convert_mod s w x) as [a A]. destruct (convert_mod s w y) as [b B]. exists (b - a). lia.
  - intros [k ->]. assert (P : 2 ^ bits w <> 0) by (destruct w; cbn; lia). destruct s; cbn [convert].
    + replace (y + k * 2 ^ bits w + 2 ^ (bits w - 1)) with (y + 2 ^ (bits w - 1) + k * 2 ^ bits w) by lia.
      now rewrite Z.mod_add.
    + now rewrite Z.mod_add.
Qed.

Lemma common_shape : forall t u, exists s w, common t u = TInt s w /\ 2 ^ bits w = values_of t u /\
  (s = false <-> signless t u).
Proof.
  intros [|[] []] [|[] []]; cbn; do 2 eexists; (split; [reflexivity|]); (split; [reflexivity|]);
    unfold signless; cbn; split; intro H; try discriminate; auto;
    destruct H as [H|[H|[H [K|K]]]]; try discriminate; auto.
Qed.

Lemma holds_compare : forall r a b, rel_holds r (Some (a ?= b)) = true <-> int_meaning r a b.
Proof.
  intros r a b. destruct (Z.compare_spec a b); destruct r; cbn; split; intro; try discriminate; try lia; auto.
Qed.

(** C76 *)
Theorem equal_modulo : forall t u a e,
  compares REq t a u e = true <-> (values_of t u | a - e).
Proof.
  intros t u a e. unfold compares. rewrite holds_compare. cbn [int_meaning].
  destruct (common_shape t u) as (s & w & -> & <- & _). rewrite convert_same. split.
  - intros [k ->]. exists k. lia.
  - intros [k K]. exists k. lia.
Qed.

Theorem fits_accepted : forall t u x, fits t x -> compares REq t (passed t x) u x = true.
Proof.
  intros t u x H. unfold passed. rewrite convert_small by auto. apply equal_modulo. exists 0. lia.
Qed.

Lemma bits_values : forall s w u, 32 <= bits w -> (forall s' w', u = TInt s' w' -> bits w' <= bits w) ->
  values_of (TInt s w) u = 2 ^ bits w.
Proof.
  intros s w u H K. destruct w; cbn in H; try lia; destruct u as [|s' []]; cbn; auto.
  specialize (K s' W64 eq_refl). cbn in K. lia.
Qed.

Theorem wide_accepted : forall s w u x, 32 <= bits w -> (forall s' w', u = TInt s' w' -> bits w' <= bits w) ->
  compares REq (TInt s w) (passed (TInt s w) x) u x = true.
Proof.
  intros s w u x H K. apply equal_modulo. rewrite (bits_values s w u H K). unfold passed.
  destruct (convert_mod s w x) as [k ->]. exists k. lia.
Qed.

(** C77 *)
Lemma fits_common : forall t u a e s w, common t u = TInt s w -> fits t a -> fits u e ->
  (s = true -> fits (TInt s w) a /\ fits (TInt s w) e) /\
  (s = false -> 0 <= a -> 0 <= e -> fits (TInt s w) a /\ fits (TInt s w) e).
Proof.
  intros [|[] []] [|[] []] a e s w C A E; cbn in C; inversion C; subst; clear C; cbn in *; lia.
Qed.

Theorem numbers_compared : forall r t u a e, fits t a -> fits u e ->
  ~ signless t u \/ (0 <= a /\ 0 <= e) ->
  (compares r t a u e = true <-> int_meaning r a e).
Proof.
  intros r t u a e A E H. unfold compares. destruct (common_shape t u) as (s & w & C & _ & S).
  destruct (fits_common t u a e s w C A E) as [F G]. rewrite C.
  assert (X : fits (TInt s w) a /\ fits (TInt s w) e).
  { destruct s; [now apply F|]. destruct H as [H|[P Q]]; [exfalso; apply H; now apply S|now apply G]. }
  destruct X as [X Y]. rewrite !convert_small by assumption. apply holds_compare.
Qed.

(** A negative number is taken for the large one that is [values_of t u] greater. *)
Lemma lifted : forall t u a, signless t u -> fits t a \/ fits u a ->
  convert (common t u) a = if a <? 0 then a + values_of t u else a.
Proof.
  intros t u a S F. destruct (common_shape t u) as (s & w & C & V & I). rewrite C.
  assert (s = false) as -> by now apply I. rewrite <- V. cbn [convert].
  assert (B : - 2 ^ bits w <= a < 2 ^ bits w).
  { clear I S. revert C V. destruct F as [F|F]; destruct t as [|[] []], u as [|[] []]; cbn; intros C V; inversion C; subst; cbn in *; lia. }
  assert (P : 2 ^ bits w <> 0) by (destruct w; cbn; lia).
  destruct (Z.ltb_spec a 0).
  - rewrite <- (Z.mod_add a 1) by exact P. rewrite Z.mod_small; lia.
  - rewrite Z.mod_small; lia.
Qed.

Theorem signless_compared : forall r t u a e, fits t a -> fits u e -> signless t u ->
  (compares r t a u e = true <->
   int_meaning r (if a <? 0 then a + values_of t u else a) (if e <? 0 then e + values_of t u else e)).
Proof.
  intros r t u a e A E S. unfold compares. rewrite holds_compare. rewrite !lifted by auto. reflexivity.
Qed.

(** What a parameter receives. *)
Ltac powers := repeat match goal with |- context [2 ^ ?k] => let v := eval compute in (2 ^ k) in change (2 ^ k) with v end.
Theorem passed_int : forall s w x z, passed (TInt s w) x = z <-> fits (TInt s w) z /\ (size_of w | x - z).
Proof.
  intros s w x z. unfold passed. split.
  - intros <-. split.
    + destruct s, w; cbn [convert bits fits]; powers;
      match goal with |- context [?a mod ?m] => pose proof (Z.mod_pos_bound a m eq_refl) end; lia.
    + destruct s, w; cbn [convert bits size_of]; powers;
      match goal with |- context [?a mod ?m] => exists (a / m); pose proof (Z.div_mod a m ltac:(discriminate)) end; lia.
  - intros [F [k K]]. replace x with (z + k * size_of w) by lia. rewrite <- (convert_small (TInt s w) z F) at 2.
    destruct s, w; cbn [convert bits size_of]; powers;
    match goal with
    | |- (?a + ?b * ?c + ?d) mod ?m - _ = _ => replace (a + b * c + d) with (a + d + b * c) by lia; f_equal; apply (Z_mod_plus_full (a + d) b c)
    | |- (?a + ?b * ?c) mod ?m = _ => apply (Z_mod_plus_full a b c)
    end.
Qed.
Theorem passed_bool : forall x z, passed TBool x = z <-> (x = 0 /\ z = 0) \/ (x <> 0 /\ z = 1).
Proof. intros x z. unfold passed. cbn. destruct (Z.eqb_spec x 0); lia. Qed.
