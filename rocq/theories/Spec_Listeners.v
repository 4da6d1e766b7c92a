(** Specification: kinds of listeners and adapters that use the library. *)
From Coq Require Import List.
From Verif Require Import Base Events Listeners.
Import ListNotations.

Section Spec.
Context {E L X : Type}.

(** Registers or clears listeners. *)
Definition changes_listeners (o : fc_op L) : Prop := match o with FAdd _ | FClear => True | _ => False end.

(** Code that raises events of lower rank only and handles the exceptions that come of it. *)
Definition calls_down (rank : E -> nat) (e : E) (a : act E L X) : Prop :=
  exists e', a = AEvent e' true /\ rank e' < rank e.

(** The same, or it throws. *)
Definition calls_down_or_throws (rank : E -> nat) (e : E) (a : act E L X) : Prop :=
  calls_down rank e a \/ exists x, a = AThrow x.

(** The notifications of events of the rank of [e]. *)
Definition of_rank (rank : E -> nat) (e : E) (log : list (L * E)) : list (L * E) :=
  filter (fun p => Nat.eqb (rank (snd p)) (rank e)) log.

End Spec.
