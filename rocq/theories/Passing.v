(** * Which objects are made of the arguments of a call

    A call goes through methodProxyX, methodProxy, handleMethodInvocation and the constructor of ActualInvocation
    (MethodProxyCreator.hpp:44-70, RecordedMethodBody.hpp:126-150, ActualInvocation.hpp:36-40), which makes the recorded
    arguments; the action is given references to those (ActionSequence.hpp:40-54, TupleDispatcher.hpp:15-41, Action.hpp:43-46);
    Spy and SpyWithoutVerify pass them to the original (MockImpl.hpp:183-213).

    The model has the objects, and writes down every move and copy that the library makes.  The rules by which references bind
    and objects are initialised are those of the language (trusted).  Simplified: the objects of one call are made from left to
    right (the order is not specified by the language); a constructor that throws leaves its source as it was; the stubbing
    accepts the call (conditions are Predicates.v and World.v); ReturnAndSet is in ReturnSet.v. *)
From Coq Require Import Bool Arith Lia List.
From Verif Require Import Base.
Import ListNotations.

(** Types of parameters: an object, which has a move constructor or is copied instead; T &; T &&.  For type_utils.hpp:37-45. *)
Inductive mode := ByValue (movable : bool) | ByRef | ByRvalue.
(** Categories of expressions; the language, for MethodProxyCreator.hpp:50-69. *)
Inductive category := Lvalue | Xvalue.

(** Objects: with their value, moved from, destroyed; the language, for ActualInvocation.hpp:38. *)
Inductive cell := Whole (v : nat) | Hollow | Gone.
(** What the library does to objects, from one to another; not in the code, ActualInvocation.hpp:38 keeps no record. *)
Inductive event := Moved (from to : nat) | Copied (from to : nat).

(** The objects, the moves and copies so far, the recorded arguments of each call (RecordedMethodBody.hpp:63), and the last
    ordinal (Invocation.hpp:23-26). *)
Record st := mkSt { cells : list cell; events : list event; calls : list (list nat); ordinal : nat }.

(** [Given]: user code (the function of Do, the original method) starts, with these objects as its arguments.  [Raised]: an
    exception leaves the call before.  [NotCompiled]: a reference does not bind.  For RecordedMethodBody.hpp:126-150. *)
Inductive res (A : Type) := Fine (s : st) (x : A) | Raised (s : st) | Undefined | NotCompiled.
Arguments Fine {A}. Arguments Raised {A}. Arguments Undefined {A}. Arguments NotCompiled {A}.

Section Passing.
(** Which of the constructors throw, by their number; code of the user, for ActualInvocation.hpp:38. *)
Variable throws : nat -> bool.

(** Changing an element; for ActualInvocation.hpp:38. *)
Fixpoint put (l : list cell) (i : nat) (c : cell) : list cell :=
  match l, i with
  | [], _ => []
  | _ :: r, 0 => c :: r
  | x :: r, S i => x :: put r i c
  end.

(** A new object, from an expression: ActualInvocation.hpp:38, MockImpl.hpp:190, 211. *)
Definition construct (movable : bool) (c : category) (from : nat) (s : st) : res nat :=
  match nth_error (cells s) from with
  | None | Some Gone => Undefined
  | Some x =>
      if throws (length (events s)) then Raised s
      else
        let to := length (cells s) in
        match c, movable with
        | Xvalue, true => Fine (mkSt (put (cells s) from Hollow ++ [x]) (events s ++ [Moved from to]) (calls s) (ordinal s)) to
        | _, _ => Fine (mkSt (cells s ++ [x]) (events s ++ [Copied from to]) (calls s) (ordinal s)) to
        end
  end.

(** A variable of a type, initialised by an expression: the language, for MethodProxyCreator.hpp:44-70. *)
Definition init (m : mode) (c : category) (l : nat) (s : st) : res nat :=
  match m, c with
  | ByValue movable, _ => construct movable c l s
  | ByRef, Lvalue => Fine s l
  | ByRvalue, Xvalue => Fine s l
  | _, _ => NotCompiled
  end.

(** The objects made so far are destroyed when a later one throws; the language, for ActualInvocation.hpp:38. *)
Definition destroy (ls : list nat) (s : st) : st :=
  mkSt (fold_left (fun cs l => put cs l Gone) ls (cells s)) (events s) (calls s) (ordinal s).

(** Several variables, from left to right; [made]: the objects made so far.  MethodProxyCreator.hpp:44-70, ActualInvocation.hpp:38,
    MockImpl.hpp:190, 211. *)
Fixpoint init_all (xs : list (mode * category * nat)) (made : list nat) (s : st) : res (list nat) :=
  match xs with
  | [] => Fine s []
  | (m, c, l) :: xs =>
      match init m c l s with
      | Fine s1 l1 =>
          match init_all xs (match m with ByValue _ => l1 :: made | _ => made end) s1 with
          | Fine s2 ls => Fine s2 (l1 :: ls)
          | e => e
          end
      | Raised s1 => Raised (destroy made s1)
      | Undefined => Undefined
      | NotCompiled => NotCompiled
      end
  end.

(** production_arg: type_utils.hpp:43-45. *)
Definition production_arg (m : mode) : mode := match m with ByValue _ => ByRef | ByRef => ByRef | ByRvalue => ByRvalue end.
(** test_arg: type_utils.hpp:39-41; arglist & in MockImpl.hpp:187, 209 is the same. *)
Definition test_arg (m : mode) : mode := ByRef.
(** std::forward<T>(args): the standard, for MethodProxyCreator.hpp:50-69, ActualInvocation.hpp:38, MockImpl.hpp:211. *)
Definition forward (m : mode) : category := match m with ByRef => Lvalue | _ => Xvalue end.

(** The arguments args... of functions, forwarded as types [as_] to variables of types [to_]: MethodProxyCreator.hpp:44-70. *)
Definition forwarded (as_ to_ : mode -> mode) (ms : list mode) (ls : list nat) : list (mode * category * nat) :=
  map (fun x => (to_ (fst x), forward (as_ (fst x)), snd x)) (combine ms ls).
(** The arguments args..., without std::forward: TupleDispatcher.hpp:26, MockImpl.hpp:190. *)
Definition named (to_ : mode -> mode) (ms : list mode) (ls : list nat) : list (mode * category * nat) :=
  map (fun x => (to_ (fst x), Lvalue, snd x)) (combine ms ls).
(** A type itself: arglist in ActualInvocation.hpp:38, 67. *)
Definition itself (m : mode) : mode := m.

(** Going on if all is well: the language, for RecordedMethodBody.hpp:126-150. *)
Definition and_then {A B : Type} (r : res A) (k : st -> A -> res B) : res B :=
  match r with Fine s x => k s x | Raised s => Raised s | Undefined => Undefined | NotCompiled => NotCompiled end.

(** nextInvocationOrdinal: Invocation.hpp:23-26. *)
Definition next_ordinal (s : st) : st := mkSt (cells s) (events s) (calls s) (S (ordinal s)).
(** _actualInvocations.push_back: RecordedMethodBody.hpp:138. *)
Definition record (ls : list nat) (s : st) : st := mkSt (cells s) (events s) (calls s ++ [ls]) (ordinal s).

(** How the stubbing answers: a function (Do, AlwaysDo, Return and Throw), Spy, SpyWithoutVerify.  Action.hpp:43-66, 92-108. *)
Inductive answer := Function | Copying | Forwarding.

(** The call of the original method, or of the function, with the recorded arguments: ActionSequence.hpp:40-54,
    TupleDispatcher.hpp:15-41 and Action.hpp:43-46; MockImpl.hpp:187-191; MockImpl.hpp:209-212. *)
Definition give (a : answer) (ms : list mode) (ls : list nat) (s : st) : res (list nat) :=
  and_then (init_all (named test_arg ms ls) [] s) (fun s1 ls1 =>
  match a with
  | Function => Fine s1 ls1
  | Copying => init_all (named itself ms ls1) [] s1
  | Forwarding => init_all (forwarded itself itself ms ls1) [] s1
  end).

(** A call: [ls] are the parameters of methodProxyX, or what they refer to.  MethodProxyCreator.hpp:53-56, 44-51,
    RecordedMethodBody.hpp:126-140, ActualInvocation.hpp:36-40.  The result: the recorded arguments and those given to user code. *)
Definition call (a : answer) (ms : list mode) (ls : list nat) (s : st) : res (list nat * list nat) :=
  and_then (init_all (forwarded production_arg production_arg ms ls) [] s) (fun s1 ls1 =>
  and_then (init_all (forwarded production_arg production_arg ms ls1) [] s1) (fun s2 ls2 =>
  and_then (init_all (forwarded production_arg production_arg ms ls2) [] (next_ordinal s2)) (fun s3 ls3 =>
  and_then (init_all (forwarded itself itself ms ls3) [] s3) (fun s4 rec =>
  and_then (give a ms rec (record rec s4)) (fun s5 given => Fine s5 (rec, given)))))).

End Passing.
