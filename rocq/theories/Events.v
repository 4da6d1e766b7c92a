(** Model of event delivery: include/fakeit/FakeitContext.hpp:20-91 and
    DefaultFakeit.hpp:25-75. *)
From Coq Require Import List.
From Verif Require Import Base.
Import ListNotations.

Section Events.
(** [E]: events (the three event classes share the same delivery code);
    [L]: identities of EventHandler objects; [X]: exceptions. *)
Context {E L X : Type}.
(** What a handler's handle(event) does: returns or throws. *)
Variable reaction : L -> E -> option X.

(** _eventListeners (FakeitContext.hpp:74) and _testingFrameworkAdapter
    (DefaultFakeit.hpp:29; None is nullptr). *)
Record fctx : Type := mkFctx { fc_listeners : list L; fc_adapter : option L }.

(** DefaultFakeit(): DefaultFakeit.hpp:33-36. *)
Definition fctx_new : fctx := mkFctx [] None.

(** addEventHandler 60-62, clearEventHandlers 64-66; setTestingFrameworkAdapter
    DefaultFakeit.hpp:48-50, resetTestingFrameworkAdapter 52-54. *)
Definition addEventHandler (c : fctx) (l : L) : fctx := mkFctx (fc_listeners c ++ [l]) (fc_adapter c).
(** clearEventHandlers: FakeitContext.hpp:64-66. *)
Definition clearEventHandlers (c : fctx) : fctx := mkFctx [] (fc_adapter c).
(** DefaultFakeit.hpp:48-50. *)
Definition setTestingFrameworkAdapter (c : fctx) (l : L) : fctx := mkFctx (fc_listeners c) (Some l).
(** DefaultFakeit.hpp:52-54. *)
Definition resetTestingFrameworkAdapter (c : fctx) : fctx := mkFctx (fc_listeners c) None.

(** fireEvent: FakeitContext.hpp:76-89.  Result: who was notified, in order, and
    the exception that ended the loop, if any. *)
Fixpoint fireEvent (ls : list L) (e : E) : list L * option X :=
  match ls with
  | [] => ([], None)
  | l :: rest =>
      match reaction l e with
      | Some x => ([l], Some x)
      | None => let (done, x) := fireEvent rest e in (l :: done, x)
      end
  end.

(** getTestingFrameworkAdapter: DefaultFakeit.hpp:58-62. *)
Definition getTestingFrameworkAdapter (builtin : L) (c : fctx) : L :=
  match fc_adapter c with Some l => l | None => builtin end.

(** handle: FakeitContext.hpp:24-43 (FAKEIT_ASSERT_ON_UNEXPECTED_METHOD_INVOCATION
    not defined). *)
Definition ctx_handle (builtin : L) (c : fctx) (e : E) : list L * option X :=
  let (done, x) := fireEvent (fc_listeners c) e in
  match x with
  | Some x' => (done, Some x')
  | None =>
      let a := getTestingFrameworkAdapter builtin c in
      (done ++ [a], reaction a e)
  end.

(** Configuration calls.  FakeitContext.hpp:60-66, DefaultFakeit.hpp:48-54. *)
Inductive fc_op : Type :=
| FAdd (l : L)
| FClear
| FSetAdapter (l : L)
| FResetAdapter.

(** FakeitContext.hpp:60-66, DefaultFakeit.hpp:48-54. *)
Definition fc_step (c : fctx) (o : fc_op) : fctx :=
  match o with
  | FAdd l => addEventHandler c l
  | FClear => clearEventHandlers c
  | FSetAdapter l => setTestingFrameworkAdapter c l
  | FResetAdapter => resetTestingFrameworkAdapter c
  end.

(** Several, one after the other: code of the user.  FakeitContext.hpp:60-66, DefaultFakeit.hpp:48-54. *)
Definition fc_run (c : fctx) (os : list fc_op) : fctx := fold_left fc_step os c.

End Events.
Arguments fctx L : clear implicits.
Arguments fc_op L : clear implicits.
