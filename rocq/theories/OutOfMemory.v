(** Model of stubbing statements and calls when allocations fail: include/fakeit/MethodMockingContext.hpp,
    MockImpl.hpp, RecordedMethodBody.hpp, ActionSequence.hpp, WhenFunctor.hpp, MatchersCollector.hpp and
    include/mockutils/DynamicProxy.hpp, for one method of one mock.

    Simplifications: control blocks of shared_ptr are not objects here (they go with their last owner), but
    making one is an allocation that can fail; so is every step of the standard library that may allocate
    (strings, std::function, growing a vector) - where a run of it does not, it does not fail.  Copying a
    value of the user, which can throw, counts as such a step too.  A vector that fails to grow is unchanged, and a
    shared_ptr that cannot be made deletes what it was given, as the standard says.  Throwing needs no memory of
    its own.  The counter of smart_ptr goes with its object.  Which handler matches a call, and whether the
    user's function throws, are given. *)
From Coq Require Import Bool ZArith List.
From Verif Require Import Base.
Import ListNotations.
Open Scope nat_scope.

(** What is on the heap; numbers are the objects it refers to and deletes with it.
    [ACtx]: UniqueMethodMockingContextImpl; [AImpl]: MethodMockingContext::Implementation, whose parts are in
    [expr]; [ASeq]: ActionSequence, with the recorded and the used actions; [ALast]: NoMoreRecordedAction;
    [AAction]: the times that are left, or none for an action that stays; [AMatcher]: the matchers of arguments;
    [AHandler]: MatchedInvocationHandler; [ABody]: RecordedMethodBody, whose parts are in [body];
    [ACall]: ActualInvocation, and whether it is verified; [AChange]: StubbingChange; [AGroup]:
    AggregateInvocationsSource; [ACheck]: SequenceVerificationExpectation, with its sources, _isVerified,
    _expectAnything and _expectedCount; [AOther]: VerifyNoOtherInvocationsExpectation, with _isVerified.
    MethodMockingContext.hpp:73-78, ActionSequence.hpp:87-88, Action.hpp:54, RecordedMethodBody.hpp:59-63,
    SequenceVerificationExpectation.hpp:42-51, VerifyNoOtherInvocationsVerificationProgress.hpp:41-47. *)
Inductive thing : Type :=
| ACtx | AImpl | ASeq (recorded used : list nat) | ALast | AAction (times : option Z) | AMatcher (args : list nat)
| AArg | AHandler (parts : list nat) | ABody | ACall (verified : bool) | AChange
| AGroup | ACheck (group : nat) (done any : bool) (count : Z) | AOther (done : bool).

(** What the destructors delete: ActionSequence.hpp:87-88, invocation_matchers.hpp:28-31,
    RecordedMethodBody.hpp:31-56. *)
Definition children (t : thing) : list nat :=
  match t with ASeq r u => r ++ u | AMatcher l => l | AHandler l => l | ACheck g _ _ _ => [g] | _ => [] end.

(** RecordedMethodBody.hpp:62-63: the handlers and the invocations. *)
Record body := mkBody { bo_id : nat; bo_handlers : list nat; bo_calls : list nat }.

(** The allocations tried so far; the heap; whether the entry of the virtual table leads to the proxy of the
    method; the body that the mock has for the method (with its id in _offsets).  DynamicProxy.hpp:211-215. *)
Record state := mkState { st_tries : nat; st_heap : list (option thing); st_entry : bool; st_body : option body }.

(** How a computation ends: normally, with an exception, with std::terminate, or undefined.  [Failed]: a
    verification that failed; [Invalid]: std::invalid_argument.  Unexpected: RecordedMethodBody.hpp:145-149; Failed:
    StandaloneFakeit.hpp:80-92; Invalid: SequenceVerificationProgress.hpp:100, 113. *)
Inductive error := OutOfMemory | Unexpected | UserError | Failed | Invalid.
(** Models no lines of /repo. *)
Inductive run (A : Type) := AVal (s : state) (a : A) | AExn (s : state) (e : error) | ATerminate | AUb.
Arguments AVal {A}. Arguments AExn {A}. Arguments ATerminate {A}. Arguments AUb {A}.
(** Models no lines of /repo. *)
Definition AM (A : Type) := state -> run A.

(** Models no lines of /repo. *)
Definition aret {A} (a : A) : AM A := fun s => AVal s a.
(** A throw. Models no lines of /repo. *)
Definition athrow {A} (e : error) : AM A := fun s => AExn s e.
(** One after the other. Models no lines of /repo. *)
Definition abind {A B} (m : AM A) (k : A -> AM B) : AM B := fun s =>
  match m s with AVal s' a => k a s' | AExn s' e => AExn s' e | ATerminate => ATerminate | AUb => AUb end.
(** [m], and if it throws [clean] before the exception goes on: the destructors of what is there.  A rule of the
    language; an exception of a destructor then ends the program. *)
Definition aguard {A} (m : AM A) (clean : AM unit) : AM A := fun s =>
  match m s with
  | AExn s' e => match clean s' with AVal s2 _ => AExn s2 e | AExn _ _ => ATerminate | ATerminate => ATerminate | AUb => AUb end
  | r => r
  end.
Notation "'do!' x ':=' a 'in' b" := (abind a (fun x => b)) (at level 200, x pattern, a at level 100, b at level 200).
Notation "a ';;!' b" := (abind a (fun _ => b)) (at level 100, right associativity).

(** Models no lines of /repo. *)
Definition set_heap (h : list (option thing)) : AM unit := fun s => AVal (mkState (st_tries s) h (st_entry s) (st_body s)) tt.
(** setMethod, FakeObject.hpp:66-69, called at DynamicProxy.hpp:223. *)
Definition set_entry (b : bool) : AM unit := fun s => AVal (mkState (st_tries s) (st_heap s) b (st_body s)) tt.
(** _methodMocks and _offsets, DynamicProxy.hpp:224-225. *)
Definition set_body (b : body) : AM unit := fun s => AVal (mkState (st_tries s) (st_heap s) (st_entry s) (Some b)) tt.
(** Models no lines of /repo. *)
Definition get {A} (f : state -> A) : AM A := fun s => AVal s (f s).

(** Reading and writing an object.  Models no lines of /repo. Undefined if it is not there. *)
Definition peek (i : nat) : AM thing := fun s =>
  match nth_error (st_heap s) i with Some (Some t) => AVal s t | _ => AUb end.
(** Models no lines of /repo. *)
Definition put (i : nat) (t : thing) : AM unit :=
  do! _ := peek i in do! h := get st_heap in set_heap (upd h i (Some t)).
(** operator delete.  E.g. MethodMockingContext.hpp:95-99. *)
Definition free (i : nat) : AM unit :=
  do! _ := peek i in do! h := get st_heap in set_heap (upd h i None).

(** delete: the object and what it owns.  Models no lines of /repo. *)
Fixpoint each {A} (f : A -> AM unit) (l : list A) : AM unit :=
  match l with [] => aret tt | x :: r => f x ;;! each f r end.
(** delete of an object with its parts, e.g. MethodMockingContext.hpp:95-99; [depth] bounds the nesting. *)
Fixpoint delete (depth : nat) (i : nat) : AM unit :=
  match depth with
  | O => fun _ => AUb
  | S d => do! t := peek i in free i ;;! each (delete d) (children t)
  end.
(** Nothing is nested deeper: handler, sequence, action.  RecordedMethodBody.hpp:31-56, ActionSequence.hpp:87-88. *)
Definition del : nat -> AM unit := delete 3.

Section Fails.
(** Which of the allocations fail. *)
Variable fails : nat -> bool.

(** E.g. each new at MethodMockingContext.hpp:88-91. *)
Definition try_alloc : AM unit := fun s =>
  let s' := mkState (S (st_tries s)) (st_heap s) (st_entry s) (st_body s) in
  if fails (st_tries s) then AExn s' OutOfMemory else AVal s' tt.
(** new: the memory and the object in it.  E.g. MethodMockingContext.hpp:88-91, RecordedMethodBody.hpp:68, 129. *)
Definition new (t : thing) : AM nat :=
  try_alloc ;;! do! h := get st_heap in set_heap (h ++ [Some t]) ;;! aret (length h).
(** A step that may allocate while [i] is owned by an object that is destroyed if it fails; in particular
    std::shared_ptr<Destructible>{i} and push_back of such a pointer.  RecordedMethodBody.hpp:113-114, 132, 138. *)
Definition holding (i : nat) : AM unit := aguard try_alloc (del i).

(** ActionSequence(): ActionSequence.hpp:32-34, 80-85. *)
Definition new_sequence : AM nat :=
  do! q := new (ASeq [] []) in
  aguard (do! a := new ALast in holding a ;;! holding a ;;! put q (ASeq [a] []) ;;! aret q) (free q).

(** A method expression, without whether it was committed: MethodMockingContext.hpp:75-77. *)
Record expr := mkExpr { x_ctx : nat; x_impl : nat; x_seq : nat; x_matcher : nat }.

(** ~Implementation: MethodMockingContext.hpp:94-101. *)
Definition destroy (committed : bool) (x : expr) : AM unit :=
  del (x_ctx x) ;;!
  (if committed then aret tt else del (x_seq x) ;;! del (x_matcher x)) ;;!
  free (x_impl x).

(** Implementation(stubbingContext), MethodMockingContext.hpp:86-92: if making a member fails, the members
    made before, plain pointers, are forgotten; the context was given as a plain pointer too. *)
Definition new_impl (c : nat) : AM expr :=
  do! i := new AImpl in
  aguard (do! q := new_sequence in do! m := new (AMatcher []) in aret (mkExpr c i q m)) (free i).

(** stubMethodIfNotStubbed, MockImpl.hpp:314-323, with createRecordedMethodBody (334-338) and
    DynamicProxy.hpp:104-109, 222-226: the entry of the table first, then the shared_ptr. *)
Definition get_body : AM body :=
  do! o := get st_body in
  match o with
  | Some b => aret b
  | None =>
      try_alloc ;;!                                 (* std::string of the name *)
      do! i := new ABody in
      aguard try_alloc (free i) ;;!                 (* its copies, in the constructor *)
      set_entry true ;;!                            (* 223 *)
      holding i ;;!                                 (* 224 *)
      set_body (mkBody i [] []) ;;!                 (* 225 *)
      aret (mkBody i [] [])
  end.

(** Method(mock, foo), api_macros.hpp:31-32: MockImpl.hpp:92-96, MethodMockingContext.hpp:173-175, then
    setMethodDetails (149-151, 226-228, 295-298, MockImpl.hpp:152-154, RecordedMethodBody.hpp:166-169). *)
Definition method_expr : AM expr :=
  do! c := new ACtx in
  do! x := new_impl c in
  aguard try_alloc (destroy false x) ;;!            (* std::shared_ptr<Implementation> *)
  aguard (try_alloc ;;! get_body ;;! try_alloc) (destroy false x) ;;!
  aret x.

(** MatchersCollector.hpp:50-82: a matcher for each argument, collected in a vector of plain pointers. *)
Fixpoint collect (n : nat) (acc : list nat) : AM (list nat) :=
  match n with
  | O => aret acc
  | S k => do! d := new AArg in try_alloc ;;! collect k (acc ++ [d])
  end.
(** Using(…), MethodMockingContext.hpp:300-304, 253-263, 236-240, 165-168; the vector is copied
    (invocation_matchers.hpp:33-35).  Nothing for an expression without Using. *)
Definition use (args : option nat) (x : expr) : AM expr :=
  match args with
  | None => aret x
  | Some n =>
      do! l := collect n [] in
      do! m := new (AMatcher []) in
      aguard try_alloc (free m) ;;!
      put m (AMatcher l) ;;!
      del (x_matcher x) ;;!
      aret (mkExpr (x_ctx x) (x_impl x) (x_seq x) m)
  end.

(** Return, Do, …: the std::function, then the action (StubbingProgress.hpp:145-154, Action.hpp:35-41, 62-64)
    and ActionSequence.hpp:75-78. *)
Definition append (times : option Z) (x : expr) : AM unit :=
  try_alloc ;;!
  do! a := new (AAction times) in
  aguard try_alloc (free a) ;;!
  holding a ;;! holding a ;;!
  do! t := peek (x_seq x) in
  match t with
  | ASeq r u => put (x_seq x) (ASeq (removelast r ++ [a] ++ skipn (length r - 1) r) u)
  | _ => fun _ => AUb
  end.

(** Implementation::commit, MethodMockingContext.hpp:135-138, MockImpl.hpp:143-146 and addMethodInvocationHandler,
    RecordedMethodBody.hpp:110-115, 35-38.  _commited is set when it returns. *)
Definition commit (x : expr) : AM unit :=
  do! _ := get_body in
  do! h := new (AHandler []) in
  aguard try_alloc (del (x_matcher x) ;;! free h) ;;!                    (* _matcher *)
  aguard try_alloc (del (x_seq x) ;;! del (x_matcher x) ;;! free h) ;;!  (* _invocationHandler *)
  put h (AHandler [x_seq x; x_matcher x]) ;;!
  holding h ;;!                                                          (* 113 *)
  holding h ;;!                                                          (* 114 *)
  do! o := get st_body in
  match o with
  | Some b => set_body (mkBody (bo_id b) (bo_handlers b ++ [h]) (bo_calls b))
  | None => fun _ => AUb
  end.

(** When(Method(mock, foo).Using(…)): WhenFunctor.hpp:62-64, 82-87, the StubbingChange, then the counter of
    smart_ptr (smart_ptr.hpp:41-44), without which it is forgotten. *)
Definition start (args : option nat) : AM (expr * nat) :=
  do! x := method_expr in
  do! y := aguard (use args x) (destroy false x) in
  aguard (do! ch := new AChange in try_alloc ;;! aret (y, ch)) (destroy false y).
(** … .Return(…)…, 68-71.  While an exception is on its way ~StubbingChange does nothing (29-31). *)
Definition prepare (args : option nat) (acts : list (option Z)) : AM (expr * nat) :=
  do! p := start args in
  aguard (each (fun a => append a (fst p)) acts) (del (snd p) ;;! destroy false (fst p)) ;;!
  aret p.
(** The whole: ~StubbingChange commits (WhenFunctor.hpp:27-34); then the expression is destroyed. *)
Definition when (args : option nat) (acts : list (option Z)) : AM unit :=
  do! p := prepare args acts in
  aguard (commit (fst p)) (del (snd p) ;;! destroy false (fst p)) ;;!
  del (snd p) ;;!
  destroy true (fst p).

(** ActionSequence::handleMethodInvocation, ActionSequence.hpp:40-54.  [ok]: the user's function returns.  The
    push_back is made by the destructor of Finally, which must not throw (Finally.hpp:32-34).
    [true]: the call was answered; [false]: NoMoreRecordedActionException. *)
Definition play (h : nat) (ok : bool) : AM bool :=
  do! t := peek h in
  match t with
  | AHandler (q :: _) =>
      do! t := peek q in
      match t with
      | ASeq (a :: r) u =>
          try_alloc ;;!                             (* finallyClause and its copies *)
          do! t := peek a in
          match t with
          | ALast => aret false
          | AAction None => if ok then aret true else athrow UserError
          | AAction (Some k) =>
              put a (AAction (Some (k - 1)%Z)) ;;!
              (if (k - 1 =? 0)%Z
               then put q (ASeq r u) ;;! (fun s => match try_alloc s with AExn _ _ => ATerminate | r => r end) ;;! put q (ASeq r (u ++ [a]))
               else aret tt) ;;!
              if ok then aret true else athrow UserError
          | _ => fun _ => AUb
          end
      | _ => fun _ => AUb
      end
  | _ => fun _ => AUb
  end.

(** A call of the method.  The table leads to MockImpl::unmocked, MockImpl.hpp:273-282, or to the proxy,
    MethodProxyCreator.hpp:44-56, which looks for the body (DynamicProxy.hpp:33-42, 55-59: past the end of the
    vector if there is none); RecordedMethodBody.hpp:126-150.  [pick]: the handler that matches, if any.  The
    functions of the user that are asked for it, and the listeners of events, count as steps that may fail. *)
Definition call (pick : option nat) (ok : bool) : AM unit :=
  do! e := get st_entry in
  if negb e then try_alloc ;;! athrow Unexpected else
  do! o := get st_body in
  match o with
  | None => fun _ => AUb
  | Some b =>
      do! i := new (ACall false) in
      aguard try_alloc (free i) ;;!                 (* the copies of the arguments *)
      holding i ;;!                                 (* 132 *)
      match pick with
      | None => aguard (try_alloc ;;! athrow Unexpected) (del i)
      | Some h =>
          holding i ;;!                             (* 138 *)
          set_body (mkBody (bo_id b) (bo_handlers b) (bo_calls b ++ [i])) ;;!
          do! answered := play h ok in
          if answered then aret tt else try_alloc ;;! athrow Unexpected
      end
  end.

(** A test: stubbing statements, and calls with the n-th answer that was recorded or none of them, each with its
    exceptions caught.  [quiet]: no stubbing statement has thrown.  Code of the user; the lines are at [when] and
    [call]: WhenFunctor.hpp:27-34, RecordedMethodBody.hpp:126-150. *)
Inductive test_step := TWhen (args : option nat) (acts : list (option Z)) | TCall (n : option nat) (ok : bool).
(** One after the other; code of the user. *)
Fixpoint session (l : list test_step) (quiet : bool) (s : state) : run bool :=
  match l with
  | [] => AVal s quiet
  | TWhen args acts :: r =>
      match when args acts s with
      | AVal s' _ => session r quiet s' | AExn s' _ => session r false s' | ATerminate => ATerminate | AUb => AUb
      end
  | TCall n ok :: r =>
      let pick := match n, st_body s with Some n, Some b => nth_error (bo_handlers b) n | _, _ => None end in
      match call pick ok s with
      | AVal s' _ | AExn s' _ => session r quiet s' | ATerminate => ATerminate | AUb => AUb
      end
  end.
End Fails.

(** ~Mock, as far as the method goes: the vector of bodies of DynamicProxy.hpp:213 goes, and with a body its
    invocations and handlers (RecordedMethodBody.hpp:62-63, 98-99). *)
Definition destroy_mock : AM unit :=
  do! o := get st_body in
  match o with
  | None => aret tt
  | Some b => each del (bo_calls b) ;;! each del (bo_handlers b) ;;! free (bo_id b)
  end.
