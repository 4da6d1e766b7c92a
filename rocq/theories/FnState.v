(** * Function objects with a memory

    What becomes of a function object that has a state of its own (a lambda declared mutable, a class with an operator() that changes
    the object) when it is given to Do, Do(n_Times(…)), AlwaysDo or to Method(mock, f) = …: which copies are made, which of them runs,
    when they are destroyed.  StubbingProgress.hpp:145-165, 242-309, MethodMockingContext.hpp:144-147, 249-251, 321-323,
    Action.hpp:31-76, TupleDispatcher.hpp:14-41, Quantifier.hpp:24-31, ActionSequence.hpp:36-54, 75-88,
    RecordedMethodBody.hpp:71-82, 110-120.

    Simplified: one method of one mock and stubbings without a condition (so the newest one is the one that answers); the function
    does not use the mock; a copy of an object has the state of the object (the user's copy constructor) and the conversion to
    std::function is one copy (the object may be moved once more on the way into it); copies do not throw (Interrupted.v is about
    those that do). *)
From Coq Require Import ZArith Arith Lia List.
From Verif Require Import Base CInt ActionSeq.
Import ListNotations.

Section FnState.
(** [Ob]: function objects with their code and state; [A]: the arguments of a call; [R]: what a run yields (a value or a throw). *)
Context {Ob A R : Type}.

(** What a std::function holds: an object, or std::ref of an object of the test.  <functional>, used at Action.hpp:53, 75. *)
Inductive held : Type :=
| Object (o : Ob)
| Wrapper (x : nat).

(** The memory with function objects in it; [None]: destroyed.  The objects of the test are the first ones.  C++ objects, held by
    the members at Action.hpp:53, 75. *)
Definition heap := list (option held).

(** Reading an object; a destroyed or unknown one is undefined.  C++ object lifetimes; for the members at
    Action.hpp:53, 75. *)
Definition get (h : heap) (a : nat) : outcome held :=
  match nth_error h a with Some (Some v) => Def v | _ => UB end.

(** A new object.  The constructors of std::function, at Action.hpp:35-41, 61-63. *)
Definition alloc (h : heap) (v : held) : heap * nat := (h ++ [Some v], length h).

(** Destroying an object; twice is undefined.  The destructor of std::function, at the end of Action.hpp:35-37, 39-41, 61-63,
    StubbingProgress.hpp:145-148, 163-165. *)
Definition free (h : heap) (a : nat) : outcome heap :=
  let! _ := get h a in Def (upd h a None).

(** A std::function made of another one, for a parameter passed by value or a member [f(func)]: Action.hpp:36, 40, 62. *)
Definition copy (h : heap) (a : nat) : outcome (heap * nat) :=
  let! v := get h a in Def (alloc h v).

(** A std::function in [a] handed on by value [n] times, the last time into a member; each function destroys its parameter when it
    returns.  StubbingProgress.hpp:145-148 with Action.hpp:35-37 ([n] = 2), and so on: see [copies]. *)
Fixpoint through (n : nat) (h : heap) (a : nat) : outcome (heap * nat) :=
  match n with
  | 0%nat => Def (h, a)
  | S n' =>
      let! (h1, b) := copy h a in
      let! (h2, c) := through n' h1 b in
      let! h3 := free h2 a in
      Def (h3, c)
  end.

(** What the test writes between the parentheses: an object of its own, or std::ref of one.  Code of the user; it is given to
    StubbingProgress.hpp:145-165 and MethodMockingContext.hpp:321-323. *)
Inductive given : Type :=
| Copied (x : nat)
| Referred (x : nat).

(** The conversion of that to std::function, for the parameter at StubbingProgress.hpp:146, 164, Action.hpp:39,
    MethodMockingContext.hpp:321.  A Quantifier holds a reference to the object (Quantifier.hpp:30), so the conversion is of the
    object itself there too. *)
Definition convert (h : heap) (g : given) : outcome (heap * nat) :=
  match g with
  | Copied x => let! v := get h x in Def (alloc h v)
  | Referred x => Def (alloc h (Wrapper x))
  end.

(** The links of a stubbing.  [Once]: Do(g), StubbingProgress.hpp:145-148; [Times]: Do(q_Times(g)), 150-154; [Always]: AlwaysDo(g),
    163-165; [Assign]: Method(mock, f) = g, MethodMockingContext.hpp:321-323.  Do(g1, g2, …) is Do(g1).Do(g2)…: 156-161. *)
Inductive link : Type :=
| Once (g : given)
| Times (g : given) (q : Z)
| Always (g : given)
| Assign (g : given).

(** What is given: StubbingProgress.hpp:145-165, MethodMockingContext.hpp:321-323. *)
Definition link_given (l : link) : given :=
  match l with Once g | Times g _ | Always g | Assign g => g end.

(** How often the std::function made of it is handed on by value.  Do and AlwaysDo: the parameter and the member of the action
    (StubbingProgress.hpp:147, 164, Action.hpp:35-37, 61-63); a quantity: the member (StubbingProgress.hpp:153, Action.hpp:39-41);
    an assignment: MethodMockingContext.hpp:249, 144, Action.hpp:61, 62. *)
Definition copies (l : link) : nat :=
  match l with Once _ => 2 | Times _ _ => 1 | Always _ => 2 | Assign _ => 4 end.

(** The recording in the sense of ActionSeq.v, of the member at [a].  StubbingProgress.hpp:147, 153, 164,
    MethodMockingContext.hpp:145. *)
Definition recorded_as (l : link) (a : nat) : recorded nat :=
  match l with
  | Once _ => RecOnce a
  | Times _ q => RecTimes a q
  | Always _ | Assign _ => RecAlways a
  end.

(** One link: the function is copied into a new action, and the action appended.  StubbingProgress.hpp:145-165,
    MethodMockingContext.hpp:144-147, ActionSequence.hpp:36-38, 75-78. *)
Definition do_link (h : heap) (s : aseq nat) (l : link) : outcome (heap * aseq nat) :=
  let! (h1, a) := convert h (link_given l) in
  let! (h2, c) := through (copies l) h1 a in
  let! s' := append s (action_of (recorded_as l c)) in
  Def (h2, s').

(** The links of a statement, one after the other.  StubbingProgress.hpp:145-165. *)
Fixpoint do_links (h : heap) (s : aseq nat) (ls : list link) : outcome (heap * aseq nat) :=
  match ls with
  | [] => Def (h, s)
  | l :: ls' => let! (h1, s1) := do_link h s l in do_links h1 s1 ls'
  end.

Variable beh : Ob -> A -> Ob * R.

(** A run of the std::function in [a]: an object runs where it is, std::ref runs the object of the test.  The function is passed on
    by reference down to the call: TupleDispatcher.hpp:17-27, 33-41, Action.hpp:43-46, 66-68. *)
Definition run (h : heap) (a : nat) (x : A) : outcome (heap * R) :=
  let! v := get h a in
  match v with
  | Object o => let (o', r) := beh o x in Def (upd h a (Some (Object o')), r)
  | Wrapper b =>
      let! v' := get h b in
      match v' with
      | Object o => let (o', r) := beh o x in Def (upd h b (Some (Object o')), r)
      | Wrapper _ => UB
      end
  end.

(** The functions held by the actions of a stubbing, used up or not.  ActionSequence.hpp:87-88. *)
Definition fn_of (a : action nat) : list nat :=
  match a with ARepeat f _ => [f] | AForever f => [f] | ADelegate f => [f] | _ => [] end.
(** As above, through the two vectors, ActionSequence.hpp:87-88. *)
Definition owned (s : aseq nat) : list nat :=
  flat_map (fun id => match nth_error (as_acts s) id with Some a => fn_of a | None => [] end) (as_used s ++ as_recorded s).

(** Destroying several.  The destructors of the vectors at ActionSequence.hpp:87-88. *)
Fixpoint free_all (h : heap) (l : list nat) : outcome heap :=
  match l with
  | [] => Def h
  | a :: l' => let! h1 := free h a in free_all h1 l'
  end.

(** The memory and the stubbings of the method, newest first.  RecordedMethodBody.hpp:62. *)
Record world := mkWorld { w_heap : heap; w_stubs : list (aseq nat) }.

(** The statements of a test: a stubbing; a call of the mocked method; a call of the test's own object; Reset() of the mock (the same
    happens when the mock is destroyed).  Code of the user; the lines are at [step]: StubbingProgress.hpp:145-165,
    RecordedMethodBody.hpp:126-150, MockImpl.hpp:63-66. *)
Inductive event : Type :=
| Stub (ls : list link)
| Call (x : A)
| Own (v : nat) (x : A)
| ResetMock.

(** What a call shows: what the function yielded, or that nothing is left or stubbed (UnexpectedMethodCallException).
    RecordedMethodBody.hpp:126-150. *)
Inductive shows : Type :=
| Yields (r : R)
| Nothing.

(** A call of the mocked method: the newest stubbing (RecordedMethodBody.hpp:71-82) runs its first action
    (ActionSequence.hpp:40-54). *)
Definition call (w : world) (x : A) : outcome (world * shows) :=
  match w_stubs w with
  | [] => Def (w, Nothing)
  | s :: older =>
      let! (s1, id, srv) := handle_begin s in
      let! (h, r) := match srv with
                     | SrvCall f => let! (h, r) := run (w_heap w) f x in Def (h, Yields r)
                     | _ => Def (w_heap w, Nothing)
                     end in
      let! s2 := handle_end s1 id in
      Def (mkWorld h (s2 :: older), r)
  end.

(** One statement, and what it shows.  StubbingProgress.hpp:145-165 and RecordedMethodBody.hpp:110-115 ([Stub]), 126-150 ([Call]),
    MockImpl.hpp:63-66, DynamicProxy.hpp:91-98 and ActionSequence.hpp:87-88 ([ResetMock]: the stubbings and all they hold are destroyed). *)
Definition step (w : world) (e : event) : outcome (world * list shows) :=
  match e with
  | Stub ls =>
      let! (h, s) := do_links (w_heap w) aseq_new ls in
      Def (mkWorld h (s :: w_stubs w), [])
  | Call x => let! (w', r) := call w x in Def (w', [r])
  | Own v x => let! (h, r) := run (w_heap w) v x in Def (mkWorld h (w_stubs w), [Yields r])
  | ResetMock => let! h := free_all (w_heap w) (flat_map owned (w_stubs w)) in Def (mkWorld h [], [])
  end.

(** A test: code of the user.  StubbingProgress.hpp:145-165, RecordedMethodBody.hpp:126-150, MockImpl.hpp:63-66. *)
Fixpoint steps (w : world) (es : list event) : outcome (world * list shows) :=
  match es with
  | [] => Def (w, [])
  | e :: es' =>
      let! (w1, l1) := step w e in
      let! (w2, l2) := steps w1 es' in
      Def (w2, l1 ++ l2)
  end.

(** A test begins with its own objects, and no stubbings (RecordedMethodBody.hpp:62).  Code of the user. *)
Definition start (objs : list Ob) : world := mkWorld (map (fun o => Some (Object o)) objs) [].

(** How many function objects (and std::refs) exist.  Models no lines of /repo. *)
Definition living (w : world) : nat :=
  length (flat_map (fun c => match c with Some _ => [tt] | None => [] end) (w_heap w)).

(** How many there have been.  Models no lines of /repo. *)
Definition ever (w : world) : nat := length (w_heap w).

(** The test's own object.  Models no lines of /repo. *)
Definition own_object (w : world) (x : nat) : option Ob :=
  match nth_error (w_heap w) x with Some (Some (Object o)) => Some o | _ => None end.

End FnState.
Arguments held Ob : clear implicits.
Arguments heap Ob : clear implicits.
Arguments world Ob : clear implicits.
Arguments event A : clear implicits.
Arguments shows R : clear implicits.
