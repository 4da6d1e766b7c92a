(** Model of include/fakeit/SortInvocations.hpp and ActualInvocationsSource.hpp. *)
From Coq Require Import ZArith Lia List.
From Verif Require Import Base.
Import ListNotations.
Open Scope Z_scope.

Section Sort.
(** [I]: pointers to invocations with pointer equality [eqb]; [ord] is
    getOrdinal(); [verified] is isVerified(). *)
Context {I : Type}.
Variable eqb : I -> I -> bool.
Variable ord : I -> Z.
Variable verified : I -> bool.

(** The order in which a std::unordered_set with the given elements is iterated:
    it depends on hashes (addresses) and is unspecified.  Theorems assume only
    that it is a permutation of the elements. *)
Variable iter : list I -> list I.

(** std::unordered_set<Invocation*>::insert.  Called at SortInvocations.hpp:44, ActualInvocationsSource.hpp:46, 79,
    RecordedMethodBody.hpp:162. *)
Definition uset_insert (x : I) (s : list I) : list I :=
  if existsb (eqb x) s then s else s ++ [x].

(** The loops at ActualInvocationsSource.hpp:44-48, 77-81, RecordedMethodBody.hpp:160-163. *)
Definition uset_insert_all (xs s : list I) : list I :=
  fold_left (fun acc x => uset_insert x acc) xs s.

(** std::set::insert with the comparator of SortInvocations.hpp:22-24: an element
    equivalent to one already present (equal ordinal) is not inserted. *)
Fixpoint set_insert (x : I) (s : list I) : list I :=
  match s with
  | [] => [x]
  | y :: s' =>
      if ord x <? ord y then x :: s
      else if ord y <? ord x then y :: set_insert x s'
      else s
  end.

(** sortByInvocationOrder: SortInvocations.hpp:20-31. *)
Definition sortByInvocationOrder (invocations : list I) : list I :=
  fold_left (fun acc x => set_insert x acc) (iter invocations) [].

(** collectActualInvocations: SortInvocations.hpp:33-38.  A source is given by
    what its getActualInvocations inserts, in order. *)
Definition collectActualInvocations (actual : list I) (sources : list (list I)) : list I :=
  fold_left (fun acc src => uset_insert_all src acc) sources actual.

(** selectNonVerifiedInvocations: SortInvocations.hpp:40-47. *)
Definition selectNonVerifiedInvocations (actual into : list I) : list I :=
  uset_insert_all (filter (fun i => negb (verified i)) (iter actual)) into.

(** AggregateInvocationsSource::getActualInvocations:
    ActualInvocationsSource.hpp:60-82 (shouldInclude is always true). *)
Definition aggregate (sources : list (list I)) (into : list I) : list I :=
  uset_insert_all (iter (collectActualInvocations [] sources)) into.

(** UnverifiedInvocationsSource::getActualInvocations:
    ActualInvocationsSource.hpp:41-49; [decorated] is the set collected from the
    decorated source. *)
Definition unverified_source (decorated into : list I) : list I :=
  uset_insert_all (filter (fun i => negb (verified i)) (iter decorated)) into.

End Sort.
