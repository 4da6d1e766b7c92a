(** Model of include/fakeit/invocation_matchers.hpp and of the parts of
    include/mockutils/TupleDispatcher.hpp it uses. *)
From Coq Require Import Ascii String ZArith Lia List.
From Verif Require Import Base CInt Values ArgMatchers.
Import ListNotations.

(** Matcher objects: ArgumentsMatcherInvocationMatcher (26-86),
    UserDefinedInvocationMatcher (120-143), DefaultInvocationMatcher (146-166).
    Simplification: a user predicate is a total function of the viewed arguments;
    it cannot modify them, throw or call mocks. *)
Inductive imatcher : Type :=
| IMArgs (ms : list amatcher)
| IMUser (p : list val -> bool)
| IMDefault.

(** TupleDispatcher::for_each (TupleDispatcher.hpp:43-58) applied to the
    MatchingLambda (invocation_matchers.hpp:57-77): index [i] runs over the tuple,
    an argument is examined only while all previous ones matched.
    [_matchers[index]] out of range is undefined. *)
Fixpoint args_match_from (m : mem) (ms : list amatcher) (i : nat) (args : list val) (matching : bool)
  : outcome bool :=
  match args with
  | [] => Def matching
  | a :: args' =>
      match nth_error ms i with
      | None => UB
      | Some am =>
          if matching then
            let! v := view m a in
            let! b := am_matches m am v in
            args_match_from m ms (S i) args' b
          else args_match_from m ms (S i) args' false
      end
  end.

(** Viewing a whole argument tuple.  TupleDispatcher.hpp:14-28, 43-58: reads the arguments that the tuple of
    ActualInvocation.hpp:36-40 holds or refers to. *)
Fixpoint view_all (m : mem) (args : list val) : outcome (list val) :=
  match args with
  | [] => Def []
  | a :: args' =>
      let! v := view m a in
      let! vs := view_all m args' in
      Def (v :: vs)
  end.

(** matches(ArgumentsTuple&): 79-83, 138-140, 163-165. *)
Definition im_matches_args (m : mem) (im : imatcher) (args : list val) : outcome bool :=
  match im with
  | IMArgs ms => args_match_from m ms 0 args true
  | IMUser p => let! vs := view_all m args in Def (p vs)
  | IMDefault => Def true
  end.

(** matches(ActualInvocation&): 37-41, 127-131, 153-155.  [self] is the identity
    of the matcher object, [actual] the matcher the invocation was dispatched
    through (getActualMatcher), if any. *)
Definition im_matches (m : mem) (self : nat) (im : imatcher) (actual : option nat) (args : list val)
  : outcome bool :=
  match im with
  | IMDefault => im_matches_args m im args
  | _ =>
      match actual with
      | Some x => if Nat.eqb x self then Def true else im_matches_args m im args
      | None => im_matches_args m im args
      end
  end.

(** ** TupleDispatcher::applyTuple (TupleDispatcher.hpp:14-35) *)

(** apply_func<N>: peels the tuple from its last element, prepending each element
    to the argument pack; apply_func<0> calls the function. *)
Fixpoint apply_func {A R : Type} (n : nat) (f : list A -> R) (t : list A) (pack : list A) : option R :=
  match n with
  | O => Some (f pack)
  | S n' =>
      match nth_error t n' with
      | None => None
      | Some x => apply_func n' f t (x :: pack)
      end
  end.

(** TupleDispatcher.hpp:32-41: the function gets the elements in order; [None] if their number is not that of its
    parameters, which does not compile. *)
Definition applyTuple {A R : Type} (f : list A -> R) (t : list A) : option R :=
  apply_func (length t) f t [].
