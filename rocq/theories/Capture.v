(** Model of how stubbing statements take hold of the values they are given: Return and
    AlwaysReturn of include/fakeit/StubbingProgress.hpp, assignment of a value in
    include/fakeit/MethodMockingContext.hpp, and Quantifier of
    include/fakeit/Quantifier.hpp.

    The operand of Return is an object in memory: a variable of the test, or a temporary
    that lives until the end of the statement.  Exceptions given to Throw are constants of
    the model (Syntax.v), so Throw is not repeated here. *)
From Coq Require Import Bool ZArith Lia List.
From Verif Require Import Base CInt Values ActionSeq Syntax.
Import ListNotations.
Open Scope nat_scope.

(** Quantifier<R>: Quantifier.hpp:23-30; the value is held as [const R &]. *)
Record quantifier : Type := mkQuantifier { q_quantity : Z; q_value : addr }.

(** QuantifierFunctor::operator(): Quantifier.hpp:44-47; Times<q>::of: 55-58.  The operand
    is taken by reference and passed on as such. *)
Definition times (n : Z) (a : addr) : quantifier := mkQuantifier n a.

(** The lambda of Return(const R &r).  StubbingProgress.hpp:50-54 for methods that return by
    value: [[r]] copies the object now; 56-60 for methods that return a reference: [[&r]]
    keeps where it is.  The same two lambdas are made by AlwaysReturn (86-96) and by the
    assignment of a value (MethodMockingContext.hpp:325-335). *)
Definition capture (by_ref : bool) (mm : mem) (a : addr) : outcome callable :=
  if by_ref then Def (FProg (PRet (VRef a)))
  else let! v := load mm a in Def (FProg (PRet v)).

(** Return(r): 50-60. *)
Definition Return (by_ref : bool) (mm : mem) (a : addr) : outcome (recorded callable) :=
  let! f := capture by_ref mm a in Def (RecOnce f).

(** Return(const Quantifier<R> &): 71-76: [const R &value = q.value; [value]]: the object the
    quantifier refers to is read now. *)
Definition ReturnQuantifier (mm : mem) (q : quantifier) : outcome (recorded callable) :=
  let! v := load mm (q_value q) in Def (RecTimes (FProg (PRet v)) (q_quantity q)).

(** One operand of Return(f, s, t...).  StubbingProgress.hpp:50-83. *)
Inductive item : Type :=
| IValue (a : addr)
| IQuantifier (q : quantifier).

(** StubbingProgress.hpp:51-54 (copies), 57-60 (a reference), 72-76 (a quantity). *)
Definition Return_item (by_ref : bool) (mm : mem) (i : item) : outcome (recorded callable) :=
  match i with
  | IValue a => Return by_ref mm a
  | IQuantifier q => ReturnQuantifier mm q
  end.

(** Return(f, s, t...): 78-83: Return(f), then Return(s, t...), down to one operand.  The
    result is the list of recordings in the order they are made. *)
Fixpoint Return_items (by_ref : bool) (mm : mem) (l : list item) : outcome (list (recorded callable)) :=
  match l with
  | [] => Def []
  | i :: l' =>
      let! r := Return_item by_ref mm i in
      let! rs := Return_items by_ref mm l' in
      Def (r :: rs)
  end.

(** AlwaysReturn(r): 86-96. *)
Definition AlwaysReturn (by_ref : bool) (mm : mem) (a : addr) : outcome (recorded callable) :=
  let! f := capture by_ref mm a in Def (RecAlways f).

(** One link of [When(...).Return(...).Return(...).AlwaysReturn(...)].  StubbingProgress.hpp:50-105. *)
Inductive link : Type :=
| LReturn (l : list item)
| LAlways (a : addr).

(** One after the other; the operands of one Return by the recursion at StubbingProgress.hpp:79-83. *)
Fixpoint links (by_ref : bool) (mm : mem) (l : list link) : outcome (list (recorded callable)) :=
  match l with
  | [] => Def []
  | x :: l' =>
      let! rs := match x with
                 | LReturn is => Return_items by_ref mm is
                 | LAlways a => let! r := AlwaysReturn by_ref mm a in Def [r]
                 end in
      let! rs' := links by_ref mm l' in
      Def (rs ++ rs')
  end.

(** [Method(mock, f) = r]: MethodMockingContext.hpp:325-335. *)
Definition assigned (by_ref : bool) (mm : mem) (a : addr) : outcome callable := capture by_ref mm a.
