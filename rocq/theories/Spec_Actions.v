(** What a stubbing chain is meant to answer, independent of the model. *)
From Coq Require Import ZArith List.
From Verif Require Import ActionSeq.
Import ListNotations.
Open Scope Z_scope.

(** A plan: callables with how often each is to be used in a row ([None]:
    without limit). *)
Definition plan (F : Type) : Type := list (F * option Z).

(** The answer to the [k]-th call (counting from 0); [None]: nothing is left. *)
Fixpoint nth_answer {F : Type} (p : plan F) (k : Z) : option F :=
  match p with
  | [] => None
  | (f, None) :: _ => Some f
  | (f, Some n) :: p' => if k <? n then Some f else nth_answer p' (k - Z.max 0 n)
  end.

(** The plan a chain of recordings stands for. *)
Definition meant {F : Type} (r : recorded F) : F * option Z :=
  match r with
  | RecOnce f => (f, Some 1)
  | RecTimes f q => (f, Some q)
  | RecAlways f => (f, None)
  end.

(** How an answer shows up in the model. *)
Definition shown {F : Type} (a : option F) : served F :=
  match a with Some f => SrvCall f | None => SrvNoMore end.

(** How many callables start in a call, itself included, that is answered by a callable which
    at depth [d] calls the method [nested d] times, and so on down to [more] levels below. *)
Fixpoint tree_size (nested : nat -> nat) (more d : nat) : nat :=
  match more with
  | O => 1
  | S more' => S (nested d * tree_size nested more' (S d))
  end.
