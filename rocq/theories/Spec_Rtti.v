(** * typeid and dynamic_cast of the object of a mock: what is said about it *)
From Coq Require Import Bool ZArith List.
From Verif Require Import Base VTable Rtti.
Import ListNotations.
Open Scope nat_scope.

(** Classes with one base at most. *)
Section Classes.
Variable parent : nat -> option nat.

(** [derives c b]: b is the base class of c, or a base of that. *)
Inductive derives : nat -> nat -> Prop :=
| DParent : forall c b, parent c = Some b -> derives c b
| DMore : forall c b a, parent c = Some b -> derives b a -> derives c a.

(** std::is_base_of. *)
Definition is_base (f : nat -> nat -> bool) : Prop :=
  forall b c, f b c = true <-> (b = c \/ derives c b).

(** No class is a base of itself. *)
Definition acyclic : Prop := forall c, ~ derives c c.

(** dynamic_cast<target*> of a pointer to [src] that points to an object of class [c]: needed at run time
    only if target is neither [src] nor a base of it. *)
Definition at_run_time (c src target : nat) : Prop :=
  (c = src \/ derives c src) /\ target <> src /\ ~ derives src target.
Definition succeeds (c target : nat) : Prop := c = target \/ derives c target.
End Classes.

(** The tables that the library makes for a class with so many entries. *)
Definition fits {W} (l : layout) (size : nat) (t : vtable W) : Prop :=
  Z.of_nat (length (vt_arr t)) = alloc_size l (Z.of_nat size) /\ vt_first t = (alloc_size l (Z.of_nat size) - Z.of_nat size)%Z.

(** What is done concerns entries and cookies that are there. *)
Definition proper {W} (l : layout) (size : nat) (d : doing W) : Prop :=
  match d with
  | DSet i _ => (0 <= i < Z.of_nat size)%Z
  | DCookie i _ => (0 <= i < numOfCookies l)%Z
  | DDtor i _ _ => (0 <= i)%Z /\ match l with Gcc => (i + 1 < Z.of_nat size)%Z | Msc => (i < Z.of_nat size)%Z end
  | DInit _ => True
  | DCopy _ from => fits l size from
  end.
