(** What is asked of Fake, Spy and assignments that run out of memory, in the words of Spec_OutOfMemory.  Nothing
    here models library code. *)
From Coq Require Import ZArith Permutation List.
From Verif Require Import OutOfMemory Spec_OutOfMemory.
Import ListNotations.
Open Scope nat_scope.

(** One answer for each expression, in order, each with one action that stays; [objs]: their objects. *)
Inductive answers_for : list (option nat) -> list nat -> list (nat * thing) -> Prop :=
| af_none : answers_for [] [] []
| af_one : forall args l h hs o objs, answer h args [None] o -> answers_for l hs objs ->
    answers_for (args :: l) (h :: hs) (o ++ objs).

(** The answers of the expressions [l] were added, with the objects [objs]; nothing else the mock has changed. *)
Definition added (l : list (option nat)) (objs : list (nat * thing)) (s s' : state) : Prop :=
  exists hs, answers_for l hs objs /\ answers s' = answers s ++ hs /\ history s' = history s /\
    (forall b, st_body s = Some b -> exists b', st_body s' = Some b' /\ bo_id b' = bo_id b).

(** What can be lost of an expression with [args] that cannot be made: its context, with or without the actions there
    were before any was given; or matchers of its arguments. *)
Definition lost (args : option nat) (J : list (nat * thing)) : Prop :=
  J = [] \/ (exists c, J = [(c, ACtx)]) \/
  (exists c q a, J = [(c, ACtx); (q, ASeq [a] []); (a, ALast)]) \/
  (exists ids, length ids <= match args with Some n => n | None => 0 end /\ J = map (fun i => (i, AArg)) ids).
