(** Which types can be copied, said without traits. *)
From Coq Require Import Bool Arith Lia List.
From Verif Require Import Base Copied.
Import ListNotations.

(** [made_of t u]: an object of type t contains objects of type u, at any depth. *)
Inductive made_of : cty -> cty -> Prop :=
| MadeSelf : forall t, made_of t t
| MadeVector : forall t u, made_of t u -> made_of (Vector t) u
| MadeContainer : forall t u, made_of t u -> made_of (Container t) u
| MadeClass : forall l t u, In t l -> made_of t u -> made_of (Class l) u.

(** A type can be copied if nothing that it is made of is move-only. *)
Definition can_be_copied (t : cty) : Prop := ~ made_of t MoveOnly.

(** What is by value can be copied; nothing is passed by rvalue reference. *)
Definition all_copied (ps : list parameter) : Prop :=
  forall p, In p ps -> match p with ByValue t => can_be_copied t | ByReference _ => True | ByRvalue _ => False end.

(** The copy constructor is deleted: of types that are move-only, and of classes with such members. *)
Inductive deleted : cty -> Prop :=
| DeletedLeaf : deleted MoveOnly
| DeletedClass : forall l t, In t l -> deleted t -> deleted (Class l).

(** A parameter that is known to be move-only: an rvalue reference, or a value, or vectors (of vectors ...) of values, whose copy
    constructor is deleted. *)
Inductive known : parameter -> Prop :=
| KnownRvalue : forall t, known (ByRvalue t)
| KnownValue : forall t, deleted t -> known (ByValue t)
| KnownVector : forall t, known (ByValue t) -> known (ByValue (Vector t)).

(** Types without containers, and vectors of such. *)
Inductive flat : cty -> Prop :=
| FlatCopyable : flat Copyable
| FlatMoveOnly : flat MoveOnly
| FlatClass : forall l, (forall t, In t l -> flat t) -> flat (Class l).
Inductive plain : cty -> Prop :=
| PlainFlat : forall t, flat t -> plain t
| PlainVector : forall t, plain t -> plain (Vector t).
