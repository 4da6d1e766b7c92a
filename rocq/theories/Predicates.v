(** Model of calls of one stubbed method, and of verifications of it, when the conditions are
    predicates given to Matching(…) that run arbitrary code: RecordedMethodBody.hpp:71-82,
    110-150, invocation_matchers.hpp:119-143, MatchAnalysis.hpp:16-92,
    SequenceVerificationExpectation.hpp:67-104.

    The search for the stubbing that answers (71-82) walks the std::vector _invocationHandlers with
    a reverse iterator, which holds the iterator one past the element.  push_back
    (addMethodInvocationHandler, 110-115) invalidates the past-the-end iterator, and all of them if
    the vector has to move to larger storage; using an invalid iterator is undefined.

    Simplifications: one method of a mock that the library created; the conditions ask about the
    arguments as they were passed (they may change by-value ones: Args.v); the actions of stubbings are left out (the result names the
    stubbing that answers), as are the notifications of unexpected calls (Events.v, Listeners.v). *)
From Coq Require Import List Arith Bool.
From Verif Require Import Base.
Import ListNotations.
Open Scope nat_scope.

Section Predicates.
(** [P]: predicates; [A]: arguments of a call; [X]: exceptions. *)
Context {P A X : Type}.

(** What the code of a predicate does before it ends.  Code of the user, called at invocation_matchers.hpp:138-140.
    *)
Inductive pact : Type :=
| PaStub (p : P)                    (** When(Method(mock, f).Matching(p))….; *)
| PaCall (a : A) (caught : bool)    (** mock.get().f(a), in a try block or not *)
| PaClear                           (** mock.ClearInvocationHistory(); *)
| PaReset.                          (** mock.Reset(); *)

(** The result of the predicate, invocation_matchers.hpp:138-140, or its exception. *)
Inductive pend : Type := Accept | Reject | Throw (x : X).

(** A recorded call: its ordinal, its arguments and the stubbing that answered.  RecordedMethodBody.hpp:63, 127-138,
    ActualInvocation.hpp:36-55. *)
Record pcall : Type := mkPcall { pc_ord : nat; pc_args : A; pc_by : P }.

(** The state of the method: whether it is mocked (a RecordedMethodBody exists), its stubbings,
    oldest first (_invocationHandlers), their number that fits the storage of the vector (capacity),
    how often the vector grew and moved, the recorded calls (_actualInvocations), how often they were
    thrown away, the next ordinal, how often the mock was reset, and which predicates were asked
    about what.  RecordedMethodBody.hpp:62-63; the ordinal: Invocation.hpp:23-26. *)
Record pstate : Type := mkPs {
  ps_mocked : bool; ps_stubs : list P; ps_room : nat; ps_pushed : nat; ps_moved : nat;
  ps_calls : list pcall; ps_cleared : nat; ps_next : nat; ps_resets : nat; ps_asked : list (P * A) }.

Variable code : list (P * A) -> P -> A -> list pact * pend.
(** The exception of an unexpected call, UnexpectedMethodCallException (RecordedMethodBody.hpp:145-149,
    MockImpl.hpp:273-282). *)
Variable unexpected : X.
(** The capacity a vector takes that has to grow to the given size (chosen by the standard library). *)
Variable grown : nat -> nat.

(** addMethodInvocationHandler: RecordedMethodBody.hpp:110-115 (and the creation of the body if
    there is none, stubMethodIfNotStubbed, MockImpl.hpp:314-323). *)
Definition add_stub (p : P) (s : pstate) : pstate :=
  let moves := ps_room s <? S (length (ps_stubs s)) in
  mkPs true (ps_stubs s ++ [p]) (if moves then grown (S (length (ps_stubs s))) else ps_room s)
       (S (ps_pushed s)) (if moves then S (ps_moved s) else ps_moved s)
       (ps_calls s) (ps_cleared s) (ps_next s) (ps_resets s) (ps_asked s).

(** RecordedMethodBody::clear: 122-124, through MockImpl.hpp:68-76, ClearInvocationHistory. *)
Definition clear_calls (s : pstate) : pstate :=
  mkPs (ps_mocked s) (ps_stubs s) (ps_room s) (ps_pushed s) (ps_moved s)
       [] (S (ps_cleared s)) (ps_next s) (ps_resets s) (ps_asked s).

(** Reset: DynamicProxy.hpp:91-98 destroys the body with its vectors. *)
Definition reset_mock (s : pstate) : pstate :=
  mkPs false [] 0 (ps_pushed s) (ps_moved s) [] (S (ps_cleared s)) (ps_next s) (S (ps_resets s)) (ps_asked s).

(** Invocation::nextInvocationOrdinal, RecordedMethodBody.hpp:127 and MockImpl.hpp:274. *)
Definition draw_ordinal (s : pstate) : pstate :=
  mkPs (ps_mocked s) (ps_stubs s) (ps_room s) (ps_pushed s) (ps_moved s)
       (ps_calls s) (ps_cleared s) (S (ps_next s)) (ps_resets s) (ps_asked s).

(** Bookkeeping of the model only: which predicate is asked about what.  Models no lines of /repo. *)
Definition note_asked (p : P) (a : A) (s : pstate) : pstate :=
  mkPs (ps_mocked s) (ps_stubs s) (ps_room s) (ps_pushed s) (ps_moved s)
       (ps_calls s) (ps_cleared s) (ps_next s) (ps_resets s) (ps_asked s ++ [(p, a)]).

(** _actualInvocations.push_back: RecordedMethodBody.hpp:138. *)
Definition record_call (c : pcall) (s : pstate) : pstate :=
  mkPs (ps_mocked s) (ps_stubs s) (ps_room s) (ps_pushed s) (ps_moved s)
       (ps_calls s ++ [c]) (ps_cleared s) (ps_next s) (ps_resets s) (ps_asked s).

(** RecordedMethodBody.hpp:140, 149, or an exception of the predicate. *)
Inductive presult : Type := Answered (p : P) | Threw (x : X).

Section Rec.
Variable call_inner : pstate -> A -> outcome (pstate * presult).

(** The code of a predicate, up to its end; [Some x]: an exception of a call inside ended it.  Called at
    invocation_matchers.hpp:138-140. *)
Fixpoint perform_acts (acts : list pact) (s : pstate) : outcome (pstate * option X) :=
  match acts with
  | [] => Def (s, None)
  | PaStub p :: r => perform_acts r (add_stub p s)
  | PaClear :: r => perform_acts r (clear_calls s)
  | PaReset :: r => perform_acts r (reset_mock s)
  | PaCall a caught :: r =>
      let! (s', res) := call_inner s a in
      match res, caught with
      | Threw x, false => Def (s', Some x)
      | _, _ => perform_acts r s'
      end
  end.

(** matches(invocation): invocation_matchers.hpp:138-140. *)
Definition ask (p : P) (a : A) (s : pstate) : outcome (pstate * pend) :=
  let (acts, e) := code (ps_asked s) p a in
  let! (s', x) := perform_acts acts (note_asked p a s) in
  match x with
  | Some x' => Def (s', Throw x')
  | None => Def (s', e)
  end.

(** getInvocationHandlerForActualArgs: RecordedMethodBody.hpp:71-82.  [s0]: the state at the start of the loop; [ps]: the
    stubbings still to be asked, newest first; [first]: the iterator is still rbegin(), whose
    underlying iterator is the past-the-end one.  The shared_ptr [curr] (73) keeps the stubbing alive
    while it is asked.  If the mock was reset meanwhile the loop goes on in a destroyed object. *)
Fixpoint find_stub (s0 : pstate) (first : bool) (ps : list P) (a : A) (s : pstate)
  : outcome (pstate * option presult) :=
  match ps with
  | [] => Def (s, None)
  | p :: rest =>
      let! (s', e) := ask p a s in
      match e with
      | Throw x => Def (s', Some (Threw x))
      | Accept => if ps_resets s' =? ps_resets s0 then Def (s', Some (Answered p)) else UB
      | Reject =>
          if (ps_resets s' =? ps_resets s0) && (ps_moved s' =? ps_moved s0) &&
             (negb first || (ps_pushed s' =? ps_pushed s0))
          then find_stub s0 false rest a s' else UB
      end
  end.

(** A call: handleMethodInvocation, RecordedMethodBody.hpp:126-150, of a mocked method; a call of a
    method that is not mocked is unexpected, too, and draws an ordinal (MockImpl.hpp:273-282).  If a
    predicate throws, the invocation is deleted by its shared_ptr (132) without being recorded. *)
Definition call_body (s : pstate) (a : A) : outcome (pstate * presult) :=
  if negb (ps_mocked s) then Def (draw_ordinal s, Threw unexpected)
  else
    let ord := ps_next s in
    let s1 := draw_ordinal s in
    let! (s2, r) := find_stub s1 true (rev (ps_stubs s1)) a s1 in
    match r with
    | Some (Threw x) => Def (s2, Threw x)
    | Some (Answered p) => Def (record_call (mkPcall ord a p) s2, Answered p)
    | None => Def (s2, Threw unexpected)
    end.

(** countMatches, MatchAnalysis.hpp:29-39 with 46-59 and 72-92, for the pattern
    Method(mock, f).Matching(q): the calls [cs] of the snapshot are asked for one after the other, each
    once.  The snapshot holds plain pointers; reading a call that was thrown away since is undefined. *)
Fixpoint count_matches (s0 : pstate) (q : P) (cs : list pcall) (n : nat) (s : pstate)
  : outcome (pstate * (nat + X)) :=
  match cs with
  | [] => Def (s, inl n)
  | c :: rest =>
      if ps_cleared s =? ps_cleared s0 then
        let! (s', e) := ask q (pc_args c) s in
        match e with
        | Throw x => Def (s', inr x)
        | Accept => count_matches s0 q rest (S n) s'
        | Reject => count_matches s0 q rest n s'
        end
      else UB
  end.
End Rec.

(** [fuel] bounds the nesting of calls.  RecordedMethodBody.hpp:126-150. *)
Fixpoint pcall_run (fuel : nat) (s : pstate) (a : A) : outcome (pstate * presult) :=
  match fuel with
  | 0 => NoFuel
  | S fuel' => call_body (pcall_run fuel') s a
  end.

(** sortByInvocationOrder: SortInvocations.hpp:20-31, by insertion. *)
Fixpoint insert_call (c : pcall) (l : list pcall) : list pcall :=
  match l with
  | [] => [c]
  | d :: r => if pc_ord c <? pc_ord d then c :: l else d :: insert_call c r
  end.
(** sortByInvocationOrder, SortInvocations.hpp:20-31. *)
Definition by_ordinal (l : list pcall) : list pcall := fold_right insert_call [] l.

(** Verify(Method(mock, f).Matching(q)).Exactly(k): SequenceVerificationExpectation.hpp:67-86.  The
    result says whether it holds.  At the end the matching calls are marked (85, 100-104), or all of
    the snapshot is printed in the report (80-82, DefaultEventFormatter.hpp:37-61); both read calls of
    the snapshot unless nothing matches and nothing was to. *)
Definition pverify (fuel : nat) (s : pstate) (q : P) (k : nat) : outcome (pstate * (bool + X)) :=
  let! (s', r) := count_matches (pcall_run fuel) s q (by_ordinal (ps_calls s)) 0 s in
  match r with
  | inr x => Def (s', inr x)
  | inl n =>
      if (ps_cleared s' =? ps_cleared s) || ((n =? 0) && (k =? 0))
      then Def (s', inl (n =? k)) else UB
  end.

End Predicates.
Arguments pact P A : clear implicits.
Arguments pend X : clear implicits.
Arguments pcall P A : clear implicits.
Arguments pstate P A : clear implicits.
Arguments presult P X : clear implicits.
