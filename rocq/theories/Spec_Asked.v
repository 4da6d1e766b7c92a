(** What may be asked, said without the search. *)
From Coq Require Import Bool Arith Lia List.
From Verif Require Import Base Asked.
Import ListNotations.

Section Spec.
Context {T M I : Type}.
Variable ask : T -> M -> I -> T * reply.

(** The questions were really asked, in this order, beginning with memory t and ending with t'. *)
Inductive dialogue : T -> list (@question M I) -> T -> Prop :=
| DEnd : forall t, dialogue t [] t
| DAsk : forall t q t1 qs t', ask t (q_who q) (q_call q) = (t1, q_said q) -> dialogue t1 qs t' -> dialogue t (q :: qs) t'.

(** A question about a call that is there, by a condition that is in the pattern. *)
Definition sensible (pattern : list (list M)) (actual : list I) (q : question) : Prop :=
  nth_error actual (q_start q + q_off q) = Some (q_call q) /\
  exists ms, In ms pattern /\ nth_error ms (q_off q) = Some (q_who q).

(** The place of the call that a question is about. *)
Definition place (q : @question M I) : nat := q_start q + q_off q.

(** The pattern of Verify(...): at least one sequence, none of them empty; the longest has [k] elements at most. *)
Definition proper (pattern : list (list M)) : Prop := pattern <> [] /\ Forall (fun ms => ms <> []) pattern.
Definition no_longer (k : nat) (pattern : list (list M)) : Prop := Forall (fun ms => length ms <= k) pattern.

(** Later questions of one search start later, or are further on. *)
Definition before (a b : @question M I) : Prop := q_start a < q_start b \/ (q_start a = q_start b /\ q_off a < q_off b).

(** In order, each before all later ones. *)
Fixpoint ordered {X} (R : X -> X -> Prop) (l : list X) : Prop :=
  match l with [] => True | x :: r => Forall (R x) r /\ ordered R r end.
End Spec.
