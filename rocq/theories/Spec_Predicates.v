(** Specification: kinds of conditions that run code, and which condition decides a call. *)
From Coq Require Import List.
From Verif Require Import Base Predicates.
Import ListNotations.

Section Spec.
Context {P A X : Type}.

(** Code that calls the method with arguments of lower rank only and handles what is thrown. *)
Definition calls_below (rank : A -> nat) (a : A) (o : pact P A) : Prop :=
  exists a', o = PaCall a' true /\ rank a' < rank a.

(** The stubbing that decides a call among [stubs], oldest first: the newest one whose condition
    does not reject.  [asked]: the conditions asked, in order; [r]: what becomes of the call. *)
Inductive decided (ends : P -> A -> pend X) (unexpected : X) (stubs : list P) (a : A)
  : list P -> presult P X -> Prop :=
| decided_accept older p newer : stubs = older ++ p :: newer ->
    Forall (fun q => ends q a = Reject) newer -> ends p a = Accept ->
    decided ends unexpected stubs a (rev newer ++ [p]) (Answered p)
| decided_throw older p newer x : stubs = older ++ p :: newer ->
    Forall (fun q => ends q a = Reject) newer -> ends p a = Throw x ->
    decided ends unexpected stubs a (rev newer ++ [p]) (Threw x)
| decided_none : Forall (fun q => ends q a = Reject) stubs ->
    decided ends unexpected stubs a (rev stubs) (Threw unexpected).

(** What is recorded of a call with that result. *)
Definition recorded (ord : nat) (a : A) (r : presult P X) : list (pcall P A) :=
  match r with Answered p => [mkPcall ord a p] | Threw _ => [] end.

(** The conditions asked about arguments of the rank of [a]. *)
Definition asked_at (rank : A -> nat) (a : A) (l : list (P * A)) : list (P * A) :=
  filter (fun pa => Nat.eqb (rank (snd pa)) (rank a)) l.

(** The condition runs no library code for [a] and rejects. *)
Definition quietly_rejects (code : list (P * A) -> P -> A -> list (pact P A) * pend X) (a : A) (p : P) : Prop :=
  forall log, code log p a = ([], Reject).

End Spec.
