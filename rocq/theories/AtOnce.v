(** Model of Fake(…), Spy(…) and Method(mock, foo) = … when allocations fail: include/fakeit/FakeFunctor.hpp,
    SpyFunctor.hpp and MethodMockingContext.hpp, on top of OutOfMemory.v and with its simplifications.  The
    expressions, each with its own Using(…) or none, are of one method of one mock. *)
From Coq Require Import Bool ZArith List.
From Verif Require Import Base OutOfMemory.
Import ListNotations.
Open Scope nat_scope.

Section Fails.
Variable fails : nat -> bool.

(** The arguments of Fake(…) or Spy(…), temporaries of the full expression, each with its Using: api_macros.hpp:31-32,
    55-56, 61-62.  If making one throws, those made before are destroyed.  The order in which the arguments of a
    function are made is left open by the language; here it is the order in which they are written. *)
Fixpoint expressions (l : list (option nat)) : AM (list expr) :=
  match l with
  | [] => aret []
  | args :: r =>
      do! x := method_expr fails in
      do! y := aguard (use fails args x) (destroy false x) in
      do! ys := aguard (expressions r) (destroy false y) in
      aret (y :: ys)
  end.

(** Destroying expressions that were not committed, the last first. The temporaries of api_macros.hpp:31-32, 55-56,
    61-62 at the end of the statement. *)
Fixpoint give_up (l : list expr) : AM unit :=
  match l with [] => aret tt | y :: r => give_up r ;;! destroy false y end.

(** fake(root), FakeFunctor.hpp:20-24; spy(root), SpyFunctor.hpp:24-28; setMethodBodyByAssignment,
    MethodMockingContext.hpp:144-147: an action that stays, then commit.  The std::function of Spy and of the
    assignment, with its copies, is the first step of [append]; Fake has none. *)
Definition at_once_one (y : expr) : AM unit := append fails None y ;;! commit fails y.

(** operator()(head, tail…), FakeFunctor.hpp:31-35, SpyFunctor.hpp:41-44, and the end of the full expression, or
    what unwinding makes of it: the expressions are destroyed, the last first, each knowing whether it was
    committed (MethodMockingContext.hpp:94-101, 135-138). *)
Fixpoint at_once_all (l : list expr) : AM unit :=
  match l with
  | [] => aret tt
  | y :: r =>
      aguard (at_once_one y) (give_up (y :: r)) ;;!
      aguard (at_once_all r) (destroy true y) ;;!
      destroy true y
  end.

(** The whole statement: Fake and Spy with [l], or with one expression the assignment
    (MethodMockingContext.hpp:246-248, 321-333). *)
Definition at_once (l : list (option nat)) : AM unit := do! ys := expressions l in at_once_all ys.

(** A test as in OutOfMemory.v, with such statements too. FakeFunctor.hpp:20-35, SpyFunctor.hpp:22-44,
    MethodMockingContext.hpp:144-147. *)
Inductive mixed_step := MOld (t : test_step) | MAtOnce (l : list (option nat)).
(** One after the other; each is in a try block of its own, as in OutOfMemory.v: FakeFunctor.hpp:20-35. *)
Fixpoint mixed (l : list mixed_step) (quiet : bool) (s : state) : run bool :=
  match l with
  | [] => AVal s quiet
  | MOld t :: r =>
      match session fails [t] quiet s with
      | AVal s' q => mixed r q s' | AExn s' e => AExn s' e | ATerminate => ATerminate | AUb => AUb
      end
  | MAtOnce args :: r =>
      match at_once args s with
      | AVal s' _ => mixed r quiet s' | AExn s' _ => mixed r false s' | ATerminate => ATerminate | AUb => AUb
      end
  end.
End Fails.
