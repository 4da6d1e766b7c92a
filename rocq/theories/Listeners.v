(** Model of event delivery to listeners and adapters that use the library themselves:
    include/fakeit/FakeitContext.hpp:24-89, DefaultFakeit.hpp:40-68.

    fireEvent (76-89) is a range-based for loop over the std::vector _eventListeners: an iterator
    and the past-the-end iterator are taken at its start.  push_back (addEventHandler, 60-62)
    invalidates at least the past-the-end iterator, clear (64-66) all of them, and the loop uses
    them after each listener returns.  [ls_changes] counts the changes of the vector; a loop that
    goes on after a change is undefined. *)
From Coq Require Import List Arith.
From Verif Require Import Base Events.
Import ListNotations.
Open Scope nat_scope.

Section Listeners.
(** [E]: events, [L]: EventHandler objects, [X]: exceptions, as in Events.v. *)
Context {E L X : Type}.

(** What the code of a handler does.  Code of the user; DefaultFakeit.hpp:40-54, FakeitContext.hpp:60-66 for what it
    may call. *)
Inductive act : Type :=
| AConf (o : fc_op L)              (** Fakeit.addEventHandler(l), … *)
| AEvent (e : E) (caught : bool)   (** something that raises another event, in a try block or not *)
| AThrow (x : X).

(** The state: the context, the number of changes of its listeners, and who was notified of what
    so far.  FakeitContext.hpp:74 (_eventListeners), DefaultFakeit.hpp:40-54. *)
Record lstate : Type := mkLs { ls_ctx : fctx L; ls_changes : nat; ls_log : list (L * E) }.

(** [reaction log l e]: what [l] does when notified of [e] after the notifications [log]. *)
Variable reaction : list (L * E) -> L -> E -> list act.
(** The adapter of the test framework that the library was built for. *)
Variable builtin : L.

(** addEventHandler, clearEventHandlers, setTestingFrameworkAdapter, resetTestingFrameworkAdapter.
    FakeitContext.hpp:60-66, DefaultFakeit.hpp:48-54. *)
Definition configure (o : fc_op L) (s : lstate) : lstate :=
  mkLs (fc_step (ls_ctx s) o)
       (match o with FAdd _ | FClear => S (ls_changes s) | _ => ls_changes s end)
       (ls_log s).

Section Rec.
(** Delivery of an event raised by a handler. *)
Variable deliver_inner : lstate -> E -> outcome (lstate * option X).

(** The body of a handler.  Code of the user; its effects on the context are those of [configure]:
    FakeitContext.hpp:60-66, DefaultFakeit.hpp:48-54. *)
Fixpoint perform (acts : list act) (s : lstate) : outcome (lstate * option X) :=
  match acts with
  | [] => Def (s, None)
  | AConf o :: r => perform r (configure o s)
  | AThrow x :: _ => Def (s, Some x)
  | AEvent e caught :: r =>
      let! (s', x) := deliver_inner s e in
      match x, caught with
      | Some x', false => Def (s', Some x')
      | _, _ => perform r s'
      end
  end.

(** [l->handle(e)].  FakeitContext.hpp:77-79, 82-84, 86-88. *)
Definition notify (l : L) (s : lstate) (e : E) : outcome (lstate * option X) :=
  perform (reaction (ls_log s) l e) (mkLs (ls_ctx s) (ls_changes s) (ls_log s ++ [(l, e)])).

(** fireEvent: 76-89; [before]: the number of changes at its start. *)
Fixpoint fire (ls : list L) (before : nat) (s : lstate) (e : E) : outcome (lstate * option X) :=
  match ls with
  | [] => Def (s, None)
  | l :: rest =>
      let! (s', x) := notify l s e in
      match x with
      | Some _ => Def (s', x)
      | None => if ls_changes s' =? before then fire rest before s' e else UB
      end
  end.

(** handle: 24-43; the adapter is looked up after fireEvent. *)
Definition deliver_body (s : lstate) (e : E) : outcome (lstate * option X) :=
  let! (s', x) := fire (fc_listeners (ls_ctx s)) (ls_changes s) s e in
  match x with
  | Some _ => Def (s', x)
  | None => notify (getTestingFrameworkAdapter builtin (ls_ctx s')) s' e
  end.
End Rec.

(** [fuel] bounds the nesting of events.  FakeitContext.hpp:24-43, 76-89. *)
Fixpoint deliver (fuel : nat) (s : lstate) (e : E) : outcome (lstate * option X) :=
  match fuel with
  | 0 => NoFuel
  | S fuel' => deliver_body (deliver fuel') s e
  end.
End Listeners.
Arguments act E L X : clear implicits.
Arguments lstate E L : clear implicits.
