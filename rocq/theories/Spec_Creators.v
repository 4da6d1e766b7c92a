(** Specification: the values of operands, and the condition that a matcher function denotes. *)
From Coq Require Import String List.
From Verif Require Import Base Values ArgMatchers Creators.
Import ListNotations.

(** The variable [a] is in its lifetime and holds [e]. *)
Definition holds (s : cstate) (a : nat) (e : expected) : Prop := nth_error (cs_cells s) a = Some (Some e).

(** The operand has the value [e] in the state [s]. *)
Inductive has_value (s : cstate) : coperand -> expected -> Prop :=
| HvVar : forall a e, holds s a e -> has_value s (OpVar a) e
| HvMove : forall a e, holds s a e -> has_value s (OpMove a) e
| HvTemp : forall e, has_value s (OpTemp e) e.

(** The condition that a matcher function denotes for the values of its operands. *)
Inductive denotes : ckind -> list expected -> amatcher -> Prop :=
| DnAny : denotes KAny [] AAny
| DnCmp : forall r e, denotes (KCmp r) [e] (ACmp r e)
| DnStr : forall r t, denotes (KStr r) [XVal (VStr t)] (AStr r t)
| DnApprox : forall e m, denotes KApprox [XVal e; XVal m] (AApprox e m).

(** Every variable of [s] is as in [s']; only new ones may have come. *)
Definition untouched (s s' : cstate) : Prop := exists more, cs_cells s' = cs_cells s ++ more.

Definition is_move (o : coperand) : Prop := exists a, o = OpMove a.
Definition is_temp (o : coperand) : Prop := exists e, o = OpTemp e.
