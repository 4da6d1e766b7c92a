(** * What Throw and AlwaysThrow throw

    Throw(e), Throw(n_Times(e)), Throw(e, f, ...) and AlwaysThrow(e) record lambdas that hold a copy of e and throw
    it (StubbingProgress.hpp:107-130, and 258-281 for methods without a result).  E is deduced from the expression,
    so it is its static type.  If E is an array, the lambda holds a copy of the array, and throwing it throws a
    pointer to that copy; only AlwaysThrow of methods without a result takes its argument by value (278-281), so that
    an array becomes a pointer before.

    One mock with one method, stubbed without conditions: the newest statement answers.  Actions that are used up are
    kept (ActionSequence.hpp:40-54) until the mock is Reset or destroyed (MockImpl.hpp:63-66).  Simplified: quantities
    are positive (C05 is about the others); exceptions are copied without throwing; the exception of the library for
    a call without answer is no class of the user; texts are the only arrays (with a
    quantity they do not compile). *)
From Coq Require Import Bool Ascii String Arith Lia List.
From Verif Require Import Base.
Import ListNotations.
Open Scope list_scope.
Open Scope nat_scope.

(** An object of a class type: its class, and the parts that the class and its bases contribute; code of the user. *)
Record object := mkObject { o_class : nat; o_part : nat -> nat }.

(** The expression given to Throw: a variable seen as an object of a class (its own or a base), an array of
    characters, or a pointer to one; code of the user. *)
Inductive operand := XObject (v : nat) (static : nat) | XArray (a : nat) | XPointer (a : nat).

(** A pointer to characters: to an array of the test, or to the copy in an action; StubbingProgress.hpp:108-109. *)
Inductive pointer := ToTest (a : nat) | ToAction (i : nat).

(** What a lambda holds: StubbingProgress.hpp:109, 115-116, 129. *)
Inductive held := HeldObject (o : object) | HeldArray (s : string) | HeldPointer (p : pointer).

(** An exception in flight; the language. *)
Inductive thrown := TObject (o : object) | TPointer (p : pointer).

(** An action, with its number, what its lambda holds, and how many calls it has left ([None]: RepeatForever);
    Action.hpp:31-79. *)
Record action := mkAction { a_id : nat; a_held : held; a_left : option nat }.

(** Handlers: catch (Class& x); catch (const char* ); catch (...); code of the user. *)
Inductive handler := CatchClass (c : nat) | CatchText | CatchAll.

(** Statements of a test.  [OStub void once always]: When(Method(mock, f)).Throw(...)...AlwaysThrow(...), of a method with
    or without a result; [once]: with quantities.  [ORead]: the test reads the text whose address was caught last.
    Code of the user; the entry points are StubbingProgress.hpp:107-130, 258-281 and MockImpl.hpp:63-66. *)
Inductive top :=
| OStub (void : bool) (once : list (operand * nat)) (always : option operand)
| OAssign (v c n : nat)
| OWrite (a : nat) (s : string)
| OCall (hs : list handler)
| OReset
| ORead.

(** What can be observed: which handler, and what it sees of an object: its class and the part of the class that is
    caught; code of the user. *)
Inductive seen := SawObject (class part : nat) | SawPointer | SawNothing.
(** What a statement tells; models no lines of /repo. *)
Inductive told := Done | Caught (handler : nat) (s : seen) | Escaped | Unexpected | Text (s : string).

Section Thrown.
(** [derives c b]: b is c or a base of it; code of the user. *)
Variable derives : nat -> nat -> bool.

(** A copy as an object of class [c]: the parts of other classes are cut off; the language. *)
Definition copy_as (c : nat) (o : object) : object := mkObject c (fun b => if derives c b then o_part o b else 0).

(** The state: the variables and arrays of the test, the actions of the newest statement that are left, all actions that
    exist, the number of the next, and the pointer that was caught last; MockImpl.hpp:63-66, ActionSequence.hpp:40-54, 87-88. *)
Record tstate := mkState {
  t_vars : nat -> object;
  t_texts : nat -> string;
  t_queue : list action;
  t_alive : list action;
  t_next : nat;
  t_last : option pointer
}.

(** The capture [e] of Throw(const E &e): StubbingProgress.hpp:107-110, 112-118, 127-130; 258-269.
    [decays]: AlwaysThrow(const E e), 278-281. *)
Definition capture (s : tstate) (decays : bool) (x : operand) : held :=
  match x with
  | XObject v c => HeldObject (copy_as c (t_vars s v))
  | XArray a => if decays then HeldPointer (ToTest a) else HeldArray (t_texts s a)
  | XPointer a => HeldPointer (ToTest a)
  end.

(** The actions of a statement, in order: StubbingProgress.hpp:107-130 and 258-281, with ActionSequence.hpp:75-78. *)
Fixpoint actions (s : tstate) (i : nat) (once : list (operand * nat)) (always : list (operand * bool)) : list action :=
  match once, always with
  | (x, n) :: r, _ => mkAction i (capture s false x) (Some n) :: actions s (S i) r always
  | [], (x, d) :: _ => [mkAction i (capture s d x) None]
  | [], [] => []
  end.

(** throw e in the lambda: an exception object that is a copy of what the lambda holds, or the address of the array in it;
    StubbingProgress.hpp:109, 116, 129. *)
Definition throw_held (a : action) : thrown :=
  match a_held a with
  | HeldObject o => TObject (copy_as (o_class o) o)
  | HeldArray _ => TPointer (ToAction (a_id a))
  | HeldPointer p => TPointer p
  end.

(** Handlers are tried in order; the language. *)
Fixpoint handle (i : nat) (t : thrown) (hs : list handler) : told :=
  match hs with
  | [] => Escaped
  | CatchAll :: _ => Caught i SawNothing
  | CatchText :: r => match t with TPointer _ => Caught i SawPointer | _ => handle (S i) t r end
  | CatchClass c :: r =>
      match t with
      | TObject o => if derives (o_class o) c then Caught i (SawObject (o_class o) (o_part o c)) else handle (S i) t r
      | _ => handle (S i) t r
      end
  end.

(** The pointer that is caught is kept by the test; code of the user. *)
Definition catches_pointer (t : thrown) (x : told) (old : option pointer) : option pointer :=
  match t, x with TPointer p, Caught _ SawPointer => Some p | _, _ => old end.

(** The characters behind a pointer: those of an array in an action are gone with the action, in whose
    std::function they are (Action.hpp:53, 75). *)
Definition read_pointer (s : tstate) (p : pointer) : outcome string :=
  match p with
  | ToTest a => Def (t_texts s a)
  | ToAction i =>
      match find (fun a => Nat.eqb (a_id a) i) (t_alive s) with
      | Some a => match a_held a with HeldArray t => Def t | _ => UB end
      | None => UB
      end
  end.

(** One call: ActionSequence.hpp:40-54 with Action.hpp:43-50, 66-72.  The action throws; when it is done, it goes to those
    that are used up, which exist like the others. *)
Definition one_call (s : tstate) (hs : list handler) : tstate * told :=
  match t_queue s with
  | [] => (s, Unexpected)
  | a :: r =>
      let t := throw_held a in
      let x := handle 0 t hs in
      let q := match a_left a with
               | None => a :: r
               | Some n => if n <=? 1 then r else mkAction (a_id a) (a_held a) (Some (n - 1)) :: r
               end in
      (mkState (t_vars s) (t_texts s) q (t_alive s) (t_next s) (catches_pointer t x (t_last s)), x)
  end.

(** One statement.  When: StubbingProgress.hpp:107-130, 258-281 (the newest stubbing answers, RecordedMethodBody.hpp:126-163);
    Reset: MockImpl.hpp:63-66, DynamicProxy.hpp:91-98. *)
Definition t_step (s : tstate) (o : top) : outcome (tstate * told) :=
  match o with
  | OStub void once always =>
      let l := actions s (t_next s) once match always with Some x => [(x, void)] | None => [] end in
      Def (mkState (t_vars s) (t_texts s) l (t_alive s ++ l) (t_next s + length l) (t_last s), Done)
  | OAssign v c n =>
      let o := t_vars s v in
      Def (mkState (fun w => if Nat.eqb v w then mkObject (o_class o) (fun b => if Nat.eqb c b then n else o_part o b) else t_vars s w)
             (t_texts s) (t_queue s) (t_alive s) (t_next s) (t_last s), Done)
  | OWrite a t =>
      Def (mkState (t_vars s) (fun b => if Nat.eqb a b then t else t_texts s b) (t_queue s) (t_alive s) (t_next s) (t_last s), Done)
  | OCall hs => Def (one_call s hs)
  | OReset => Def (mkState (t_vars s) (t_texts s) [] [] (t_next s) (t_last s), Done)
  | ORead => match t_last s with
             | None => UB
             | Some p => let! t := read_pointer s p in Def (s, Text t)
             end
  end.

(** A test; models no lines of /repo. *)
Fixpoint t_run (os : list top) (s : tstate) : outcome (tstate * list told) :=
  match os with
  | [] => Def (s, [])
  | o :: r => let! (s1, x) := t_step s o in let! (s2, xs) := t_run r s1 in Def (s2, x :: xs)
  end.

(** A new mock; models no lines of /repo. *)
Definition t_init (vars : nat -> object) (texts : nat -> string) : tstate := mkState vars texts [] [] 0 None.

End Thrown.
