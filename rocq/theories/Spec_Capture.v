(** What the operands of Return(...) and AlwaysReturn(...) are meant to be: the values they
    have when the statement is executed. *)
From Coq Require Import ZArith List.
From Verif Require Import Base Values Spec_Actions Capture.
Import ListNotations.

(** The value of the object at [a] in memory [mm] (only asked for objects that exist). *)
Definition value_at (mm : mem) (a : addr) : val :=
  match nth_error mm a with Some (Some v) => v | _ => VVoid end.

(** The answers in order, each with how often it is to be given ([None]: for ever). *)
Definition item_values (mm : mem) (i : item) : val * option Z :=
  match i with
  | IValue a => (value_at mm a, Some 1%Z)
  | IQuantifier q => (value_at mm (q_value q), Some (q_quantity q))
  end.
Definition link_values (mm : mem) (l : link) : plan val :=
  match l with
  | LReturn is => map (item_values mm) is
  | LAlways a => [(value_at mm a, None)]
  end.
Definition values (mm : mem) (l : list link) : plan val := flat_map (link_values mm) l.

Definition positive (l : link) : Prop :=
  match l with
  | LReturn is => Forall (fun i => match i with IQuantifier q => (1 <= q_quantity q)%Z | _ => True end) is
  | LAlways _ => True
  end.
