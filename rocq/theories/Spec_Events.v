(** Specification of the configuration of event delivery, from the calls that made it. *)
From Coq Require Import List.
From Verif Require Import Base Events.
Import ListNotations.

Section Events.
Context {L : Type}.

(** The listeners registered since the last clearing. *)
Fixpoint registered (os : list (fc_op L)) (acc : list L) : list L :=
  match os with
  | [] => acc
  | FAdd l :: r => registered r (acc ++ [l])
  | FClear :: r => registered r []
  | _ :: r => registered r acc
  end.

(** The adapter in force. *)
Fixpoint adapter_in_force (os : list (fc_op L)) (cur : L) (builtin : L) : L :=
  match os with
  | [] => cur
  | FSetAdapter l :: r => adapter_in_force r l builtin
  | FResetAdapter :: r => adapter_in_force r builtin builtin
  | _ :: r => adapter_in_force r cur builtin
  end.

End Events.
