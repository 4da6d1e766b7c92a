(** Data races, as the C++ memory model defines them for the accesses that occur here:
    plain reads and writes, and atomic operations with sequentially consistent or
    acquire-release order.  Nothing here is about the library. *)
From Coq Require Import Bool List Relations.
Import ListNotations.
Open Scope nat_scope.

Section R.
(** [L]: memory locations. *)
Context {L : Type}.

Inductive access : Type := Rd (l : L) | Wr (l : L) | At (l : L).

(** Two accesses to one location, at least one of which is a plain write, or a plain and an
    atomic one. *)
Definition conflict (a b : access) : Prop :=
  match a, b with
  | Rd _, Rd _ => False
  | At _, At _ => False
  | Rd l, Wr l' | Wr l, Rd l' | Wr l, Wr l' => l = l'
  | At l, Rd l' | Rd l, At l' | At l, Wr l' | Wr l, At l' => l = l'
  end.

(** An execution: which thread did what, in the order it took effect. *)
Definition execution : Type := list (nat * access).

(** The threads run the given lists of accesses. *)
Definition runs (programs : list (list access)) (tr : execution) : Prop :=
  forall t, map snd (filter (fun x => Nat.eqb (fst x) t) tr) = nth t programs [].

(** Step [i] comes before step [j] for sure: in the same thread, or by two atomic operations
    on one location, or by a chain of these. *)
Definition before1 (tr : execution) (i j : nat) : Prop :=
  i < j /\ exists t a u b, nth_error tr i = Some (t, a) /\ nth_error tr j = Some (u, b) /\
    (t = u \/ exists l, a = At l /\ b = At l).
Definition before (tr : execution) : nat -> nat -> Prop := clos_trans nat (before1 tr).

(** A race: two conflicting accesses of different threads, neither of which comes before the
    other. *)
Definition race (tr : execution) : Prop :=
  exists i j t a u b, i < j /\ nth_error tr i = Some (t, a) /\ nth_error tr j = Some (u, b) /\
    t <> u /\ conflict a b /\ ~ before tr i j.

End R.
Arguments access L : clear implicits.
