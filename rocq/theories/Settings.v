(** Model of event delivery with FAKEIT_ASSERT_ON_UNEXPECTED_METHOD_INVOCATION:
    include/fakeit/FakeitContext.hpp:14-16, 24-43.  The assertion stands between the notification of the
    listeners and that of the adapter, for events of unexpected calls only; with NDEBUG, assert expands
    to nothing. *)
From Coq Require Import Bool List.
From Verif Require Import Base Events.
Import ListNotations.

Section Settings.
(** As in Events.v. *)
Context {E L X : Type}.
Variable reaction : L -> E -> option X.
(** [unexpected e]: an UnexpectedMethodCallEvent (and not one of the two verification events). *)
Variable unexpected : E -> bool.

(** The macros a program is compiled with.  FakeitContext.hpp:14-16, 27-29. *)
Record macros : Type := mkMacros { assert_on_unexpected : bool; ndebug : bool }.

(** How the delivery ends: it returns, an exception leaves it, or the program is aborted.  FakeitContext.hpp:24-31.
    *)
Inductive ending : Type := Returns | Throws (x : X) | Aborts.

(** FakeitContext.hpp:30, 36, 42. *)
Definition ends_with (x : option X) : ending :=
  match x with None => Returns | Some x' => Throws x' end.

(** handle: FakeitContext.hpp:24-43.  Result: who was notified, and how it ended. *)
Definition handle_with (m : macros) (builtin : L) (c : fctx L) (e : E) : list L * ending :=
  let (done, x) := fireEvent reaction (fc_listeners c) e in
  match x with
  | Some x' => (done, Throws x')
  | None =>
      let a := getTestingFrameworkAdapter builtin c in
      if assert_on_unexpected m && negb (ndebug m) && unexpected e then (done, Aborts)
      else (done ++ [a], ends_with (reaction a e))
  end.
End Settings.
Arguments ending X : clear implicits.
