(** Vocabulary for programs that do not catch everything.  Nothing of the library is
    modelled here. *)
From Coq Require Import Bool ZArith List.
From Verif Require Import Values ActionSeq Syntax.
Import ListNotations.

(** [caught e]: the handlers in the program (say, [catch (std::exception &)]) take the
    exception [e].  [trusted a]: the program may install [a] as the adapter. *)
Section Caught.
Variable caught : exn -> bool.
Variable trusted : nat -> bool.

Definition callable_in (r : recorded callable) : callable :=
  match r with RecOnce f => f | RecTimes f _ => f | RecAlways f => f end.

(** Code that handles an exception only if [caught] says so: any other one passes
    through, after some clean-up.  [decent_op]: all code inside the operation is like that;
    [passes e p]: [p] does something and then lets [e] go on. *)
Inductive decent : prog -> Prop :=
| DcRet : forall v, decent (PRet v)
| DcThrow : forall e, decent (PThrow e)
| DcArg : forall i k, (forall v, decent (k v)) -> decent (PArg i k)
| DcSetArg : forall i v k, decent k -> decent (PSetArg i v k)
| DcThis : forall k, (forall o, decent (k o)) -> decent (PThis k)
| DcDo : forall o k, decent_op o -> (forall o', o <> OUnwinding o') ->
    (forall v, decent (k (OVal v))) ->
    (forall e, caught e = true -> decent (k (OExn e))) ->
    (forall e, caught e = false -> passes e (k (OExn e))) ->
    decent (PDo o k)
with passes : exn -> prog -> Prop :=
| PsThrow : forall e, passes e (PThrow e)
| PsArg : forall e i k, (forall v, passes e (k v)) -> passes e (PArg i k)
| PsSetArg : forall e i v k, passes e k -> passes e (PSetArg i v k)
| PsThis : forall e k, (forall o, passes e (k o)) -> passes e (PThis k)
| PsDo : forall e o k, decent_op o -> (forall r, passes e (k r)) -> passes e (PDo o k)
with decent_callable : callable -> Prop :=
| DfProg : forall p, decent p -> decent_callable (FProg p)
| DfDefault : decent_callable FDefault
| DfSet : forall r vals, decent_callable (FSet r vals)
| DfSetNamed : forall r vals, decent_callable (FSetNamed r vals)
| DfOrig : forall m o slot fwd, decent_callable (FOrig m o slot fwd)
with decent_op : op -> Prop :=
| DoWhen : forall c rs i, (forall r, In r rs -> decent_callable (callable_in r)) -> decent_op (OWhen c rs i)
| DoAssign : forall c f, decent_callable f -> decent_op (OAssign c f)
| DoStmtWhen : forall ts rs i, (forall r, In r rs -> decent_callable (callable_in r)) ->
    decent_op (OStmt ts (SWhen rs i))
| DoStmtAssign : forall ts f, decent_callable f -> decent_op (OStmt ts (SAssign f))
| DoStmtOther : forall ts s, (forall rs i, s <> SWhen rs i) -> (forall f, s <> SAssign f) -> decent_op (OStmt ts s)
| DoAdapter : forall a, trusted a = true -> decent_op (OAdapter (Some a))
| DoUnwinding : forall o, decent_op o -> decent_op (OUnwinding o)
| DoOther : forall o,
    match o with OWhen _ _ _ | OAssign _ _ | OStmt _ _ | OUnwinding _ | OAdapter (Some _) => False | _ => True end -> decent_op o.

(** A listener or adapter that throws on an event of the kind [bad] throws something the
    program does not catch. *)
Definition loud (bad : event -> bool) (react : nat -> event -> option exn) : Prop :=
  forall l e x, bad e = true -> react l e = Some x -> caught x = false.

(** Adapters throw on failed verifications of the kind [bad]. *)
Definition stern (bad : event -> bool) (react : nat -> event -> option exn) : Prop :=
  forall a e, bad e = true -> trusted a = true ->
  match e with EvUnexpected _ _ _ => True | _ => react a e <> None end.
End Caught.

(** The reports of the kind [bad]. *)
Definition complaints (bad : event -> bool) (log : list (nat * event)) : list event :=
  filter bad (map snd log).

Definition unexpected_calls (e : event) : bool := match e with EvUnexpected _ _ _ => true | _ => false end.
Definition failed_checks (e : event) : bool := negb (unexpected_calls e).
