(** Specification of ReturnAndSet: which value each object ends up with. *)
From Coq Require Import ZArith List.
From Verif Require Import Base Values.
Import ListNotations.
Open Scope nat_scope.

(** The object a pointer or reference parameter designates. *)
Definition designates (p : val) (a : addr) : Prop :=
  p = VPtr (Some a) \/ p = VCStr (Some a) \/ p = VRef a.

(** A parameter that can be assigned through: it designates a live object. *)
Definition assignable (m : mem) (p : val) : Prop :=
  exists a v, designates p a /\ load m a = Def v.

(** [gets given params a v]: [v] is the value given for some parameter that
    designates [a], where [given i] is the value given for parameter [i]
    (counted from 0). *)
Definition gets (given : nat -> option val) (params : list val) (a : addr) (v : val) : Prop :=
  exists i p, nth_error params i = Some p /\ designates p a /\ given i = Some v.

(** [a] is designated by no parameter that a value was given for. *)
Definition untouched (given : nat -> option val) (params : list val) (a : addr) : Prop :=
  forall i p, nth_error params i = Some p -> designates p a -> given i = None.

(** Distinct parameters with values designate distinct objects. *)
Definition no_alias (given : nat -> option val) (params : list val) : Prop :=
  forall i j p q a, nth_error params i = Some p -> nth_error params j = Some q ->
    designates p a -> designates q a -> given i <> None -> given j <> None -> i = j.

(** The value given for parameter [n] (counted from 1) in a list of
    [_n <= v] arguments: the last one. *)
Fixpoint named (vals : list (nat * val)) (n : nat) : option val :=
  match vals with
  | [] => None
  | (k, v) :: rest =>
      match named rest n with
      | Some w => Some w
      | None => if Nat.eqb k n then Some v else None
      end
  end.

(** A pointer or reference that must not be assigned through: null, or to an object that is
    gone. *)
Definition hazardous (m : mem) (p : val) : Prop :=
  p = VPtr None \/ p = VCStr None \/ exists a, designates p a /\ load m a = UB.
