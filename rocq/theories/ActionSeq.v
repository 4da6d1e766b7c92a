(** Model of include/fakeit/Action.hpp, ActionSequence.hpp, Quantifier.hpp, of
    the Finally guard (include/mockutils/Finally.hpp) used there, and of the
    recording functions of StubbingProgress.hpp. *)
From Coq Require Import ZArith Lia List.
From Verif Require Import Base CInt.
Import ListNotations.
Open Scope Z_scope.

Section Actions.
(** [F]: the callables (std::function objects) held by the actions. *)
Context {F : Type}.

(** The classes derived from Action: Repeat (Action.hpp:31-55), RepeatForever
    (57-76), ReturnDefaultValue (78-89), ReturnDelegateValue (91-108),
    NoMoreRecordedAction (ActionSequence.hpp:58-73). *)
Inductive action : Type :=
| ARepeat (f : F) (times : Z)
| AForever (f : F)
| ADefault
| ADelegate (f : F)
| ANoMore.

(** isDone: Action.hpp:48-50, 70-72, 86-88, 102-104, ActionSequence.hpp:70-72. *)
Definition isDone (a : action) : bool :=
  match a with
  | ARepeat _ t => t =? 0
  | _ => false
  end.

(** What invoke goes on to do after touching the action object itself. Action.hpp:43-46, 66-68, 82-84, 98-100,
    ActionSequence.hpp:66-68. *)
Inductive served : Type :=
| SrvCall (f : F)       (* run the callable with the call's arguments *)
| SrvDefault            (* return the default value *)
| SrvNoMore.            (* throw NoMoreRecordedActionException *)

(** invoke: Action.hpp:43-46 ([times--] on a long before the callable runs),
    66-68, 82-84, 98-100, ActionSequence.hpp:66-68.  Result: the action object
    afterwards and what is run. *)
Definition invoke (a : action) : outcome (action * served) :=
  match a with
  | ARepeat f t => let! t' := long_dec t in Def (ARepeat f t', SrvCall f)
  | AForever f => Def (a, SrvCall f)
  | ADefault => Def (a, SrvDefault)
  | ADelegate f => Def (a, SrvCall f)
  | ANoMore => Def (a, SrvNoMore)
  end.

(** ActionSequence.hpp:87-88.  Action objects have identity (several shared_ptr
    may refer to one): [as_acts] is the table of action objects, the two vectors
    hold indices into it. *)
Record aseq : Type := mkAseq {
  as_acts : list action;
  as_recorded : list nat;
  as_used : list nat
}.

(** Constructor: ActionSequence.hpp:32-34 with clear(): 80-85. *)
Definition aseq_new : aseq :=
  {| as_acts := [ANoMore]; as_recorded := [0%nat]; as_used := [] |}.

(** AppendDo / append: ActionSequence.hpp:36-38, 75-78: insertion before the last
    element of the vector; [end() - 1] of an empty vector is undefined. *)
Definition append (s : aseq) (a : action) : outcome aseq :=
  let id := length (as_acts s) in
  match rev (as_recorded s) with
  | [] => UB
  | last :: before =>
      Def {| as_acts := as_acts s ++ [a];
             as_recorded := rev before ++ [id; last];
             as_used := as_used s |}
  end.

(** handleMethodInvocation, first half: ActionSequence.hpp:40-44 and the entry of
    action.invoke (53): front() (undefined if empty) and the update of the
    action object.  Result: the new state, the action's identity (held by
    [destructablePtr] until the end of the call) and what is run. *)
Definition handle_begin (s : aseq) : outcome (aseq * nat * served) :=
  match as_recorded s with
  | [] => UB
  | id :: _ =>
      let! a := of_option (nth_error (as_acts s) id) in
      let! (a', srv) := invoke a in
      Def ({| as_acts := upd (as_acts s) id a';
              as_recorded := as_recorded s;
              as_used := as_used s |}, id, srv)
  end.

(** handleMethodInvocation, the Finally clause: ActionSequence.hpp:45-52 and
    Finally.hpp:32-34.  It runs whether the action returned or threw.  [s] is the
    state at that moment (the action may have called the method again);
    erase(begin()) of an empty vector is undefined. *)
Definition handle_end (s : aseq) (id : nat) : outcome aseq :=
  let! a := of_option (nth_error (as_acts s) id) in
  if isDone a then
    match as_recorded s with
    | [] => UB
    | _ :: rest =>
        Def {| as_acts := as_acts s; as_recorded := rest; as_used := as_used s ++ [id] |}
    end
  else Def s.

(** A whole call when the callable does not itself touch this sequence. ActionSequence.hpp:40-54. *)
Definition handle_call (s : aseq) : outcome (aseq * served) :=
  let! (s1, id, srv) := handle_begin s in
  let! s2 := handle_end s1 id in
  Def (s2, srv).

(** ** Recording: StubbingProgress.hpp *)

(** One link of a stubbing chain.
    [RecOnce f]   : Do(f) (145-148), and through it Return(v) (50-69), Return()
                    (98-101), Throw(e) (107-110), ReturnAndSet (132-137): Repeat
                    with the default count 1 (Action.hpp:35-37);
    [RecTimes f q]: Do(quantifier) (150-154), Return(quantifier) (71-76),
                    Throw(quantifier) (112-118): Repeat with the quantity, an int
                    converted to long;
    [RecAlways f] : AlwaysDo(f) (163-165) and AlwaysReturn, AlwaysThrow,
                    AlwaysReturnAndSet through it, and the assignment
                    Method(...) = f (MethodMockingContext.hpp:144-147). *)
Inductive recorded : Type :=
| RecOnce (f : F)
| RecTimes (f : F) (q : Z)
| RecAlways (f : F).

(** The action made for each: StubbingProgress.hpp:145-148 and 242-245 (one call), 72-76, 112-118, 151-154 and their
    twins for void (a quantity), 163-165 and 307-309 (Always). *)
Definition action_of (r : recorded) : action :=
  match r with
  | RecOnce f => ARepeat f 1
  | RecTimes f q => ARepeat f q
  | RecAlways f => AForever f
  end.

(** A chain of recordings on one sequence: each link appends its action
    (DoImpl -> recordAction -> appendAction -> AppendDo). StubbingProgress.hpp:145-165, ActionSequence.hpp:36-38,
    75-78. *)
Fixpoint record_all (s : aseq) (rs : list recorded) : outcome aseq :=
  match rs with
  | [] => Def s
  | r :: rs' => let! s' := append s (action_of r) in record_all s' rs'
  end.

(** What [k] successive calls (not re-entrant) are served with. ActionSequence.hpp:40-54, call after call. *)
Fixpoint play (k : nat) (s : aseq) : outcome (list served * aseq) :=
  match k with
  | O => Def ([], s)
  | S k' =>
      let! (s', srv) := handle_call s in
      let! (rest, s2) := play k' s' in
      Def (srv :: rest, s2)
  end.

End Actions.
Arguments action F : clear implicits.
Arguments served F : clear implicits.
Arguments aseq F : clear implicits.
Arguments recorded F : clear implicits.

(** ** Quantities: Quantifier.hpp *)

(** operator "" _Times: Quantifier.hpp:67-72, [(int) n] of an unsigned long long. *)
Definition lit_Times (n : Z) : Z := to_int32 n.

(** operator "" _Time: 74-81; [None] is std::invalid_argument. *)
Definition lit_Time (n : Z) : option Z :=
  if n =? 1 then Some (to_int32 n) else None.

(** ** Re-entrancy *)
Section Reentrant.
Context {F : Type}.
(** How many nested calls of the same method a callable makes before it returns,
    given how deeply it is nested itself (0: called from outside). *)
Variable nested : F -> nat -> nat.

(** handleMethodInvocation (ActionSequence.hpp:40-54) with a callable that calls
    the method again before it returns.  The result lists the callables in the
    order in which they start; [None] marks a call that found the sequence
    exhausted (NoMoreRecordedActionException, turned into an
    UnexpectedMethodCallException, which the nested caller is taken to catch). *)
Fixpoint reent_call (fuel : nat) (depth : nat) (s : aseq F)
  : outcome (aseq F * list (option F)) :=
  match fuel with
  | O => NoFuel
  | S fuel' =>
      let! (s1, id, srv) := handle_begin s in
      let! (s2, log) :=
        match srv with
        | SrvCall f =>
            let! (s', l) := reent_calls fuel' (S depth) (nested f depth) s1 in
            Def (s', Some f :: l)
        | _ => Def (s1, [None])
        end in
      let! s3 := handle_end s2 id in
      Def (s3, log)
  end
(** The calls that the callable makes, one after the other: ActionSequence.hpp:40-54 again. *)
with reent_calls (fuel : nat) (depth n : nat) (s : aseq F)
  : outcome (aseq F * list (option F)) :=
  match fuel with
  | O => NoFuel
  | S fuel' =>
      match n with
      | O => Def (s, [])
      | S n' =>
          let! (s1, l1) := reent_call fuel' depth s in
          let! (s2, l2) := reent_calls fuel' depth n' s1 in
          Def (s2, l1 ++ l2)
      end
  end.
End Reentrant.
