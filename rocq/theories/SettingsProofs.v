(** Proofs about Settings.v. *)
From Coq Require Import Bool List.
From Verif Require Import Base Events Spec_Events EventsProofs Settings.
Import ListNotations.

Section Settings.
Context {E L X : Type}.
Variable reaction : L -> E -> option X.
Variable unexpected : E -> bool.
Notation handle_with := (handle_with reaction unexpected).

Lemma assertion_ends : forall m builtin c e,
  assert_on_unexpected m = true -> ndebug m = false -> unexpected e = true ->
  (forall l, In l (fc_listeners c) -> reaction l e = None) ->
  handle_with m builtin c e = (fc_listeners c, Aborts).
Proof.
  intros m b c e A N U Q. unfold handle_with. rewrite fireEvent_quiet by exact Q. now rewrite A, N, U.
Qed.

Lemma assertion_silent : forall m builtin c e,
  assert_on_unexpected m = false \/ ndebug m = true \/ unexpected e = false ->
  (forall l, In l (fc_listeners c) -> reaction l e = None) ->
  handle_with m builtin c e =
    (fc_listeners c ++ [getTestingFrameworkAdapter builtin c],
     ends_with (reaction (getTestingFrameworkAdapter builtin c) e)).
Proof.
  intros m b c e H Q. unfold handle_with. rewrite fireEvent_quiet by exact Q.
  destruct (assert_on_unexpected m), (ndebug m), (unexpected e); cbn; auto;
    destruct H as [H|[H|H]]; discriminate.
Qed.

Lemma assertion_avoided : forall m builtin c e,
  ndebug m = true \/ Exists (fun l => reaction l e <> None) (fc_listeners c) ->
  snd (handle_with m builtin c e) <> Aborts.
Proof.
  intros m b c e H. unfold handle_with.
  destruct (fireEvent reaction (fc_listeners c) e) as [done x] eqn:F. destruct x as [x|]; [discriminate|].
  destruct H as [H|H].
  - rewrite H. rewrite andb_false_r. cbn. destruct (reaction _ e); discriminate.
  - exfalso. revert done F. induction H as [l ls H|l ls H IH]; intros done F; cbn in F.
    + destruct (reaction l e); [discriminate|congruence].
    + destruct (reaction l e); [discriminate|]. destruct (fireEvent reaction ls e) as [d y].
      inversion F; subst. now apply (IH d).
Qed.
End Settings.
