(** What programs that use the library can do: the vocabulary of the world model
    (World.v).  Nothing here models a function of the library; the operations
    name the API entry points that World.v interprets. *)
From Coq Require Import Bool ZArith Lia List.
From Verif Require Import Base CInt Values ArgMatchers InvMatchers ActionSeq Sequences Expectation ReturnSet.
Import ListNotations.

(** Events handed to listeners and adapters: FakeitEvents.hpp.  Methods are named
    by their MethodInfo id ([None]: UnknownMethod, DomainObjects.hpp:52-59),
    invocations and method expressions by their identity. *)
Inductive unexpected_type : Type := Unmocked | Unmatched.
(** The events of FakeitEvents.hpp:18-143, with what they carry. *)
Inductive event : Type :=
| EvUnexpected (t : unexpected_type) (method : option Z) (args : list val)
| EvSequence (t : vtype) (pattern : list (sequence nat)) (actual : list nat) (expected count : Z)
| EvNoMore (all unverified : list nat).

(** Exceptions.  FakeitExceptions.hpp:27-57, SequenceVerificationProgress.hpp:100, 113; those of the user. *)
Inductive exn : Type :=
| XUser (n : nat)                  (* thrown by code of the user *)
| XUnexpected (e : event)          (* UnexpectedMethodCallException *)
| XVerification (e : event)        (* thrown by the test framework adapter *)
| XNoMore                          (* NoMoreRecordedActionException *)
| XFalse                           (* the bool thrown by ThrowFalseEventHandler *)
| XInvalid                         (* std::invalid_argument *)
| XNoDtor                          (* NoVirtualDtor *)
| XDefault.                        (* DefaultValueInstatiationException *)

(** What an operation gives its user; models no lines of /repo. *)
Inductive result : Type :=
| OVal (v : val)
| OExn (e : exn).

(** A source of invocations (ActualInvocationsSource.hpp): a mock, a method
    expression used as a filter, Unverified(...).  ActualInvocationsSource.hpp:16-66, UnverifiedFunctor.hpp:20-52.
    *)
Inductive source : Type :=
| SMock (m : nat)
| SCtx (c : nat)
| SUnverified (l : list source).

(** The part of an expression that designates a method: Method(mock, f) with its
    __COUNTER__ value, or Dtor(mock).  api_macros.hpp:28-50. *)
Inductive target : Type :=
| TMethod (mock slot : nat) (counter : Z)
| TDtor (mock : nat).

(** How the quantifiers and conversions of one Verify statement are chained.
    SequenceVerificationProgress.hpp:63-122. *)
Inductive vstep : Type :=
| VsQuant (q : quant)
| VsBool.

(** Which invocations a Verify statement looks at: Verify(...),
    Unverified.Verify(...), Using(...).Verify(...).  Sources inside a statement
    may refer to the method expressions of the statement by position.  VerifyFunctor.hpp:32-43,
    UnverifiedFunctor.hpp:20-52, UsingFunctor.hpp:31-38. *)
Inductive scope : Type :=
| ScInvolved
| ScUnverified
| ScUsing (l : list source).

(** [prog]: the body of a lambda given to Do, of an original method or of test
    code.  [callable]: a std::function held by an action.  [op]: one operation.
    The continuation of [PDo] receives the result or the exception of the
    operation, so that try/catch around it is expressible.  Code of the user; the entry points are cited at the
    operations in World.v; a std::function is held at Action.hpp:53, 75. *)
Inductive prog : Type :=
| PRet (v : val)
| PThrow (e : exn)
| PArg (i : nat) (k : val -> prog)            (* read the i-th parameter *)
| PSetArg (i : nat) (v : val) (k : prog)      (* assign to the i-th parameter *)
| PThis (k : nat -> prog)                     (* [this], in an original method *)
| PDo (o : op) (k : result -> prog)
with callable : Type :=
| FProg (p : prog)                            (* a user's callable *)
| FDefault                                    (* Return() : StubbingProgress.hpp:98-105 *)
| FSet (r : option vsrc) (vals : list vsrc)   (* ReturnAndSet(r, v1, v2, ...) *)
| FSetNamed (r : option vsrc) (vals : list (nat * vsrc)) (* ReturnAndSet(r, _1 <= v1, ...) *)
| FOrig (m o slot : nat) (forward : bool)     (* the original method of a spied object *)
(** The entry points are cited at [step] in World.v: Mock.hpp:43-67, WhenFunctor.hpp:64-87, VerifyFunctor.hpp:32-43 and so on. *)
with op : Type :=
(* calls and objects *)
| OCall (o slot : nat) (args : list val)      (* virtual call through an object *)
| ONewObj (c : nat)                           (* user's object of class c *)
| OFreeObj (o : nat)                          (* its storage is released *)
| OTypeid (o : nat)                           (* typeid(obj), obj of a polymorphic class *)
| OGetMember (o i : nat)
| OSetMember (o i : nat) (v : val)
| ORead (a : addr)
| OWrite (a : addr) (v : val)
| OAlloc (v : val)
| OFreeMem (a : addr)
(* mocks *)
| OMock (c : nat)                             (* Mock<C> mock; *)
| OSpyMock (c o : nat)                        (* Mock<C> mock(obj); *)
| OGet (m : nat)                              (* mock.get() *)
| OMockDestroy (m : nat)
| OReset (m : nat)
| OClear (m : nat)
(* method expressions held in variables *)
| OCtx (t : target)
| OCond (c : nat) (im : imatcher)             (* .Using(...), .Matching(...), (...) *)
| OCtxFree (c : nat)
(* statements on existing method expressions *)
| OWhen (c : nat) (rs : list (recorded callable)) (interrupt : option (nat * exn))
| OFake (c : nat)
| OSpy (c : nat) (forward : bool)
| OAssign (c : nat) (f : callable)
(* verification objects held in variables *)
| OExp (s : scope) (pattern : list (sequence nat))
| ONoOther (l : list source)
| OQuant (x : nat) (q : quant)
| OBool (x : nat)
| OExpFree (x : nat)
(* whole statements with their temporaries *)
| OStmt (ts : list (target * option imatcher)) (s : stmt)
(* configuration of the context *)
| OListener (l : nat)
| OClearListeners
| OAdapter (l : option nat)
(* an operation executed by a destructor while an exception propagates; it
   catches what it raises *)
| OUnwinding (o : op)
(** The entry points are cited at [step] in World.v: WhenFunctor.hpp:64-87, FakeFunctor.hpp:31-35, SpyFunctor.hpp:40-44. *)
with stmt : Type :=
| SWhen (rs : list (recorded callable)) (interrupt : option (nat * exn))
| SFake
| SSpy (forward : bool)
| SAssign (f : callable)
| SVerify (s : scope) (pattern : list (sequence nat)) (steps : list vstep)
| SNoOther (l : list source) (steps : list vstep).

(** ** Classes *)

(** Return type of a method, as far as the default value is concerned:
    DefaultValue.hpp.  DefaultValue.hpp:16-149. *)
Inductive rett : Type :=
| RtVoid
| RtVal (v : val)      (* constructible, returned by value; [v]: the default *)
| RtRef (a : addr)     (* reference to a constructible type; [a]: the static object
                          of DefaultValue<T&>, shared by all methods returning T& *)
| RtNone               (* not default constructible *)
| RtRefNone.           (* reference to such a type *)

(** A class: number of virtual table entries, entry of the (complete object)
    destructor if virtual, original bodies, return types, number of data member
    cells.  The C of Mock.hpp:35-36; models no further lines of /repo. *)
Record class_desc : Type := mkClass {
  cl_size : nat;
  cl_dtor : option nat;
  cl_body : nat -> prog;
  cl_ret : nat -> rett;
  cl_cells : nat
}.
