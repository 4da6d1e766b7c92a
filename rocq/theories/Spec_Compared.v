(** What is compared when a call is made, said without the search. *)
From Coq Require Import Bool Arith Lia List.
From Verif Require Import Base Asked Compared.
Import ListNotations.

Section Spec.
Context {T A E K P : Type}.
Variable compare : T -> op -> A -> E -> T * reply.
Variable other : K -> A -> outcome bool.
Variable predicate : T -> P -> list A -> T * reply.

(** The code of the user that an entry stands for. *)
Definition runs (t : T) (w : event A E P) : T * reply :=
  match w with Compare o a e => compare t o a e | Ask p args => predicate t p args end.

(** The entries ran one after the other, beginning with memory t and ending with t'. *)
Inductive ran : T -> list (entry A E P) -> T -> Prop :=
| REnd : forall t, ran t [] t
| RStep : forall t q t1 qs t', runs t (e_what q) = (t1, e_said q) -> ran t1 qs t' -> ran t (q :: qs) t'.

(** Position p said yes: without code of the user, or among the entries. *)
Definition passed (qs : list (entry A E P)) (ms : list (matcher E K)) (args : list A) (p : nat) : Prop :=
  exists m a, nth_error ms p = Some m /\ nth_error args p = Some a /\
    match m with
    | MAny => True
    | MOther k => other k a = Def true
    | MCmp o e => exists q, In q qs /\ e_pos q = p /\ e_what q = Compare o a e /\ e_said q = Yes
    end.

(** Position p said no. *)
Definition refused (qs : list (entry A E P)) (ms : list (matcher E K)) (args : list A) (p : nat) : Prop :=
  exists m a, nth_error ms p = Some m /\ nth_error args p = Some a /\
    match m with
    | MAny => False
    | MOther k => other k a = Def false
    | MCmp o e => exists q, In q qs /\ e_pos q = p /\ e_what q = Compare o a e /\ e_said q = No
    end.

(** An entry compares the argument at its position, as left operand, with the expected value of that position, by the operator
    that was asked for. *)
Definition of_position (ms : list (matcher E K)) (args : list A) (q : entry A E P) : Prop :=
  exists o e a, nth_error ms (e_pos q) = Some (MCmp o e) /\ nth_error args (e_pos q) = Some a /\ e_what q = Compare o a e.

(** In order, each before all later ones. *)
Fixpoint sorted {X} (R : X -> X -> Prop) (l : list X) : Prop :=
  match l with [] => True | x :: r => Forall (R x) r /\ sorted R r end.

(** The last entry is the only one that threw. *)
Definition ends_raised (qs : list (entry A E P)) : Prop :=
  exists l q, qs = l ++ [q] /\ e_said q = Raise /\ Forall (fun q => e_said q = Yes) l.

(** What is compared for one condition, and what comes of it. *)
Definition weighed (c : cond E K P) (args : list A) (qs : list (entry A E P)) (x : reply) : Prop :=
  match c with
  | CAll => qs = [] /\ x = Yes
  | CMatching p => exists q, qs = [q] /\ e_what q = Ask p args /\ e_said q = x
  | CUsing ms =>
      Forall (of_position ms args) qs /\ sorted lt (map e_pos qs) /\
      (forall q p, In q qs -> p < e_pos q -> passed qs ms args p) /\
      match x with
      | Yes => forall p, p < length args -> passed qs ms args p
      | No => exists p, refused qs ms args p /\ (forall p', p' < p -> passed qs ms args p') /\ Forall (fun q => e_pos q <= p) qs
      | Raise => ends_raised qs
      end
  end.

(** The stubbings newest first: each is weighed after all newer ones said no, and the first that does not say no decides. *)
Inductive decided (args : list A) : nat -> T -> list (nat * cond E K P) -> list (entry A E P) -> ending -> T -> Prop :=
| DNone : forall rank t, decided args rank t [] [] Unexpected t
| DNo : forall rank t id c older qs t1 qs' r t',
    ran t qs t1 -> Forall (fun q => e_rank q = rank) qs -> weighed c args qs No ->
    decided args (S rank) t1 older qs' r t' -> decided args rank t ((id, c) :: older) (qs ++ qs') r t'
| DYes : forall rank t id c older qs t',
    ran t qs t' -> Forall (fun q => e_rank q = rank) qs -> weighed c args qs Yes -> decided args rank t ((id, c) :: older) qs (Answered id) t'
| DRaise : forall rank t id c older qs t',
    ran t qs t' -> Forall (fun q => e_rank q = rank) qs -> weighed c args qs Raise -> decided args rank t ((id, c) :: older) qs Threw t'.

(** Earlier: for a newer stubbing (or an older call), or further left for the same one. *)
Definition earlier (a b : entry A E P) : Prop := e_rank a < e_rank b \/ (e_rank a = e_rank b /\ e_pos a < e_pos b).

(** A condition fits the arguments of a call: one element for each.  Using(...) does not compile otherwise
    (MethodMockingContext.hpp:253-263). *)
Definition fits (n : nat) (c : cond E K P) : Prop := match c with CUsing ms => length ms = n | _ => True end.

(** An element whose comparison is defined for argument a. *)
Definition safe_at (m : matcher E K) (a : A) : Prop := match m with MOther k => exists b, other k a = Def b | _ => True end.
Definition safe (c : cond E K P) (args : list A) : Prop :=
  match c with CUsing ms => forall p m a, nth_error ms p = Some m -> nth_error args p = Some a -> safe_at m a | _ => True end.

(** An element that never accepts a. *)
Definition never (m : matcher E K) (a : A) : Prop :=
  match m with MAny => False | MOther k => other k a = Def false | MCmp o e => forall t, snd (compare t o a e) <> Yes end.

(** Position p keeps what is to its right from being looked at. *)
Definition guarded (ms : list (matcher E K)) (args : list A) (p : nat) : Prop :=
  (exists m a, nth_error ms p = Some m /\ nth_error args p = Some a /\ never m a) /\
  forall p' m a, p' < p -> nth_error ms p' = Some m -> nth_error args p' = Some a -> safe_at m a.
End Spec.
