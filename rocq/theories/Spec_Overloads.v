(** * What C96 promises *)
From Coq Require Import Bool List Arith.
From Verif Require Import Overloads.
Import ListNotations.

(** Overload sets as C++ admits them: no method twice, no two with the same parameters and
    qualifiers, and no two with the same parameters of which only one has & or &&
    ([over.load]). *)
Definition admitted (s : list overload) : Prop :=
  NoDup s /\
  (forall o p, In o s -> In p s -> o_pars o = o_pars p -> o_qual o = o_qual p -> o = p) /\
  (forall o p, In o s -> In p s -> o_pars o = o_pars p -> (q_ref (o_qual o) = NoRef <-> q_ref (o_qual p) = NoRef)).

(** Methods the library can mock at all: volatile does not go with & and &&. *)
Definition mockable (o : overload) : Prop := q_volatile (o_qual o) = true -> q_ref (o_qual o) = NoRef.

(** The only method of its name with its qualifiers. *)
Definition lone (s : list overload) (o : overload) : Prop :=
  In o s /\ forall p, In p s -> o_qual p = o_qual o -> p = o.

(** What the names of the macros say. *)
Definition says_const (m : pmacro) : bool :=
  match m with ConstOverloadedMethod | ConstRefOverloadedMethod | ConstRValRefOverloadedMethod => true | _ => false end.
Definition says_ref (m : pmacro) : refq :=
  match m with
  | RefOverloadedMethod | ConstRefOverloadedMethod => LRef
  | RValRefOverloadedMethod | ConstRValRefOverloadedMethod => RRef
  | _ => NoRef
  end.

(** The method the user writes down with macro [m] and prototype [r(ps)]. *)
Definition written (m : pmacro) (r : nat) (ps : list nat) (o : overload) : Prop :=
  o_ret o = r /\ o_pars o = ps /\ q_volatile (o_qual o) = false /\ q_const (o_qual o) = says_const m /\ q_ref (o_qual o) = says_ref m.
