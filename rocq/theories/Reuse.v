(** * Memory that is used again

    Whether a recorded call was answered by the stubbing of an expression is decided by comparing addresses of matcher objects
    (invocation.getActualMatcher() == this: invocation_matchers.hpp:37-41, 127-131).  Matchers of temporary expressions and of
    expressions in variables come and go, and the memory manager may put a new one where an old one was.  MethodMockingContext.hpp:76-106,
    136-139, 164-167, ActualInvocation.hpp:36-55, RecordedMethodBody.hpp:35-57, 71-82, 110-120, 126-150, DynamicProxy.hpp:91-98.

    Simplified: one method of one mock; verifications are of one condition, of which each recorded call is asked once (C112); the
    actions return; expressions in variables are not copied; the matcher that an expression has for a moment before .Matching(p) gives it
    another one is not shown (it only keeps an address in use). *)
From Coq Require Import Bool Arith Lia List.
From Verif Require Import Base.
Import ListNotations.

Section Reuse.
(** [A]: the arguments of a call; [P]: conditions. *)
Context {A P : Type}.

(** What a condition answers; the number says how many questions were asked before in the test, so that a condition may answer
    differently each time it is asked (a predicate with a memory, or one that reads variables).  Code of the user, called at
    invocation_matchers.hpp:138-140. *)
Variable accepts : P -> nat -> A -> bool.

(** Where operator new puts the [n]-th matcher, given the addresses in use.  <new>; used at MethodMockingContext.hpp:87-91 and
    in setMatchingCriteria, 205-223. *)
Variable place : nat -> list nat -> nat.

(** A pointer to a matcher.  [p_addr] is its value, the only thing == compares; [p_obj] says which object it was made for: using
    it when that object is destroyed is undefined, even if another one lies there now.  C++; the pointers at
    MethodMockingContext.hpp:77, ActualInvocation.hpp:66 and RecordedMethodBody.hpp:54. *)
Record ptr := mkPtr { p_addr : nat; p_obj : nat }.

(** A matcher that exists: which one it is, where it lies, its condition.  invocation_matchers.hpp:26-60, 119-143. *)
Record obj := mkObj { o_id : nat; o_addr : nat; o_cond : P }.

(** The state.  [objs]: the matchers that exist; [stubs]: _invocationHandlers of the method, newest first; [calls]:
    _actualInvocations, with what setActualMatcher left (ActualInvocation.hpp:49-55); [vars]: the expressions in variables, with
    _invocationMatcher and _commited; [made]: how many matchers were made; [asked]: how many questions were asked.
    RecordedMethodBody.hpp:62-63, MethodMockingContext.hpp:76-79. *)
Record st := mkSt { objs : list obj; stubs : list ptr; calls : list (A * ptr); vars : list (nat * (ptr * bool));
                    made : nat; asked : nat }.

(** new …Matcher(…): MethodMockingContext.hpp:89-91. *)
Definition create (s : st) (p : P) : st * ptr :=
  let a := place (made s) (map o_addr (objs s)) in
  (mkSt (mkObj (made s) a p :: objs s) (stubs s) (calls s) (vars s) (S (made s)) (asked s), mkPtr a (made s)).

(** The object of a pointer; undefined if it is destroyed.  C++; * and -> at RecordedMethodBody.hpp:48 and
    MethodMockingContext.hpp:115, 132. *)
Definition deref (os : list obj) (q : ptr) : outcome obj :=
  of_option (find (fun o => o_id o =? p_obj q) os).

(** delete: MethodMockingContext.hpp:99-105, and by the shared_ptr of RecordedMethodBody.hpp:54.  Undefined if it is destroyed
    already. *)
Definition destroy (os : list obj) (q : ptr) : outcome (list obj) :=
  let! _ := deref os q in
  Def (filter (fun o => negb (o_id o =? p_obj q)) os).

(** As above, one after the other: the handlers at RecordedMethodBody.hpp:62 with the matchers at 54. *)
Fixpoint destroy_all (os : list obj) (qs : list ptr) : outcome (list obj) :=
  match qs with
  | [] => Def os
  | q :: qs' => let! os1 := destroy os q in destroy_all os1 qs'
  end.

(** matches(invocation): invocation_matchers.hpp:37-41, 127-131.  [by_]: getActualMatcher(), none before a call is answered
    (ActualInvocation.hpp:33-37).  Result: the answer and the number of questions so far. *)
Definition matches (os : list obj) (n : nat) (q : ptr) (by_ : option ptr) (a : A) : outcome (bool * nat) :=
  let! o := deref os q in
  if match by_ with Some b => p_addr b =? p_addr q | None => false end then Def (true, n)
  else Def (accepts (o_cond o) n a, S n).

(** getInvocationHandlerForActualArgs: RecordedMethodBody.hpp:71-82. *)
Fixpoint search (os : list obj) (n : nat) (qs : list ptr) (a : A) : outcome (option ptr * nat) :=
  match qs with
  | [] => Def (None, n)
  | q :: qs' =>
      let! (b, n1) := matches os n q None a in
      if b then Def (Some q, n1) else search os n1 qs' a
  end.

(** How many of the recorded calls match: MatchAnalysis.hpp:27-92 for one condition. *)
Fixpoint count (os : list obj) (n : nat) (q : ptr) (cs : list (A * ptr)) : outcome (nat * nat) :=
  match cs with
  | [] => Def (0, n)
  | (a, b) :: cs' =>
      let! (x, n1) := matches os n q (Some b) a in
      let! (k, n2) := count os n1 q cs' in
      Def ((if x then S k else k), n2)
  end.

(** The statements of a test.  [Stub p]: When(Method(mock, f).Matching(p)).AlwaysReturn(…); [Call a]; [Check p]: a verification of
    Method(mock, f).Matching(p); [Keep v p]: auto v = Method(mock, f).Matching(p); [StubKept v]: When(v).AlwaysReturn(…);
    [CheckKept v]: a verification of v; [Drop v]: the end of the scope of v; [Clear]: ClearInvocationHistory(); [Renew]: Reset().
    Code of the user; the lines are at [step]: MethodMockingContext.hpp:99-106, 136-139, RecordedMethodBody.hpp:110-150,
    DynamicProxy.hpp:91-98. *)
Inductive event : Type :=
| Stub (p : P)
| Call (a : A)
| Check (p : P)
| Keep (v : nat) (p : P)
| StubKept (v : nat)
| CheckKept (v : nat)
| Drop (v : nat)
| Clear
| Renew.

(** What a statement shows: which stubbing answered (the number of its matcher), that none did, or how many calls matched.
    Models no lines of /repo. *)
Inductive sight : Type :=
| AnsweredBy (i : nat)
| Unexpected
| Matched (n : nat).

(** Looking up a variable, and changing its _commited.  C++ scopes; MethodMockingContext.hpp:136-139. *)
Definition look (vs : list (nat * (ptr * bool))) (v : nat) : option (ptr * bool) :=
  option_map snd (find (fun e => fst e =? v) vs).
(** As above: commit(), MethodMockingContext.hpp:136-139. *)
Fixpoint commit (vs : list (nat * (ptr * bool))) (v : nat) : list (nat * (ptr * bool)) :=
  match vs with
  | [] => []
  | (w, (q, c)) :: vs' => if w =? v then (w, (q, true)) :: vs' else (w, (q, c)) :: commit vs' v
  end.
(** The end of the scope of the innermost variable of that name.  C++ scopes; the destructor is
    MethodMockingContext.hpp:99-106. *)
Fixpoint leave (vs : list (nat * (ptr * bool))) (v : nat) : list (nat * (ptr * bool)) :=
  match vs with
  | [] => []
  | (w, e) :: vs' => if w =? v then vs' else (w, e) :: leave vs' v
  end.

(** One statement.  [Stub]: the matcher goes to the mock (MethodMockingContext.hpp:136-139, RecordedMethodBody.hpp:110-115);
    [Call]: RecordedMethodBody.hpp:126-150; [Check]: the temporary is destroyed at the end (MethodMockingContext.hpp:99-106);
    [Drop]: the same destructor, which leaves a matcher that was committed to the mock; [Clear]: RecordedMethodBody.hpp:122-124;
    [Renew]: the handlers with their matchers and the calls are destroyed (DynamicProxy.hpp:91-98).  A variable that there is not
    (which does not compile) stands as undefined. *)
Definition step (s : st) (e : event) : outcome (st * list sight) :=
  match e with
  | Stub p =>
      let (s1, q) := create s p in
      Def (mkSt (objs s1) (q :: stubs s1) (calls s1) (vars s1) (made s1) (asked s1), [])
  | Call a =>
      let! (r, n) := search (objs s) (asked s) (stubs s) a in
      match r with
      | Some q => Def (mkSt (objs s) (stubs s) (calls s ++ [(a, q)]) (vars s) (made s) n, [AnsweredBy (p_obj q)])
      | None => Def (mkSt (objs s) (stubs s) (calls s) (vars s) (made s) n, [Unexpected])
      end
  | Check p =>
      let (s1, q) := create s p in
      let! (k, n) := count (objs s1) (asked s1) q (calls s1) in
      let! os := destroy (objs s1) q in
      Def (mkSt os (stubs s1) (calls s1) (vars s1) (made s1) n, [Matched k])
  | Keep v p =>
      let (s1, q) := create s p in
      Def (mkSt (objs s1) (stubs s1) (calls s1) ((v, (q, false)) :: vars s1) (made s1) (asked s1), [])
  | StubKept v =>
      let! (q, _) := of_option (look (vars s) v) in
      Def (mkSt (objs s) (q :: stubs s) (calls s) (commit (vars s) v) (made s) (asked s), [])
  | CheckKept v =>
      let! (q, _) := of_option (look (vars s) v) in
      let! (k, n) := count (objs s) (asked s) q (calls s) in
      Def (mkSt (objs s) (stubs s) (calls s) (vars s) (made s) n, [Matched k])
  | Drop v =>
      let! (q, c) := of_option (look (vars s) v) in
      let! os := if c : bool then Def (objs s) else destroy (objs s) q in
      Def (mkSt os (stubs s) (calls s) (leave (vars s) v) (made s) (asked s), [])
  | Clear => Def (mkSt (objs s) (stubs s) [] (vars s) (made s) (asked s), [])
  | Renew =>
      let! os := destroy_all (objs s) (stubs s) in
      Def (mkSt os [] [] (vars s) (made s) (asked s), [])
  end.

(** A test: code of the user.  The lines are at [step]: MethodMockingContext.hpp:99-106, 136-139, RecordedMethodBody.hpp:110-150. *)
Fixpoint steps (s : st) (es : list event) : outcome (st * list sight) :=
  match es with
  | [] => Def (s, [])
  | e :: es' =>
      let! (s1, l1) := step s e in
      let! (s2, l2) := steps s1 es' in
      Def (s2, l1 ++ l2)
  end.

(** A new mock.  RecordedMethodBody.hpp:62-63. *)
Definition fresh : st := mkSt [] [] [] [] 0 0.

End Reuse.
Arguments obj P : clear implicits.
Arguments st A P : clear implicits.
Arguments event A P : clear implicits.
