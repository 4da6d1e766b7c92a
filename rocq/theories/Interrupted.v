(** Model of verifications that are interrupted, because an allocation fails or because a predicate of the user
    throws: include/fakeit/VerifyFunctor.hpp, UsingProgress.hpp, SequenceVerificationProgress.hpp,
    SequenceVerificationExpectation.hpp, MatchAnalysis.hpp, SortInvocations.hpp, ActualInvocationsSource.hpp,
    VerifyNoOtherInvocationsFunctor.hpp and VerifyNoOtherInvocationsVerificationProgress.hpp, for one method of
    one mock.

    Simplifications, beyond those of OutOfMemory.v: the calls of the method are those of its body, in the order
    in which they were made (a container that is filled with them may fail at each); a pattern is given as
    the lists of expressions that its sequences stand for; numbers do not wrap around; the handler of a
    verification that fails throws, as the adapters of the testing frameworks do. *)
From Coq Require Import Bool ZArith List.
From Verif Require Import Base OutOfMemory Expectation.
Import ListNotations.
Open Scope nat_scope.

(** What is verified: the expressions, each with the number of matchers of its Using if it has one; the pattern,
    by the numbers of the expressions; and what the matcher of an expression says of a call, if it does not
    throw.  VerifyFunctor.hpp:32-43; the expressions: MethodMockingContext.hpp:86-92, 131-132. *)
Record check := mkCheck { ck_exprs : list (option nat); ck_pattern : list (list nat); ck_asks : nat -> nat -> option bool }.

Section Verifying.
Variable fails : nat -> bool.
Notation try_alloc := (try_alloc fails).
Notation new := (new fails).
Notation holding := (holding fails).

(** Expressions, made one after the other; they are destroyed when [k], what is done with them, is over:
    MethodMockingContext.hpp:94-101, 300-304. *)
Fixpoint with_exprs {A} (es : list (option nat)) (made : list expr) (k : list expr -> AM A) : AM A :=
  match es with
  | [] => k made
  | args :: r =>
      do! x := method_expr fails in
      do! y := aguard (use fails args x) (destroy false x) in
      do! a := aguard (with_exprs r (made ++ [y]) k) (destroy false y) in
      destroy false y ;;! aret a
  end.

(** Verify(…): VerifyFunctor.hpp:32-43, ActualInvocationsSource.hpp:22-26, 57-58; UsingProgress.hpp:33-38,
    SequenceVerificationProgress.hpp:25-33, SequenceVerificationExpectation.hpp:53-64; at last the counter of
    smart_ptr (smart_ptr.hpp:42-45), without which the expectation, a plain pointer, is forgotten, and with it
    its share of the group. *)
Definition open_check : AM nat :=
  try_alloc ;;!                                     (* allSequences *)
  try_alloc ;;!                                     (* involvedSources *)
  do! g := new AGroup in
  aguard try_alloc (free g) ;;!                     (* _sources *)
  holding g ;;!                                     (* std::shared_ptr *)
  do! x := aguard (try_alloc ;;!                    (* UsingProgress::Verify: allSequences *)
                   do! x := new (ACheck g false false (-1)) in
                   aguard try_alloc (free x) ;;!    (* _expectedPattern *)
                   aret x) (free g) in
  try_alloc ;;!
  aret x.

(** SequenceVerificationProgress.hpp:73-122: a number below zero is refused. *)
Definition limit (count : Z) (x : nat) : AM unit :=
  do! t := peek x in
  match t with ACheck g d a _ => put x (ACheck g d a count) | _ => fun _ => AUb end.
(** SequenceVerificationProgress.hpp:98-104. *)
Definition exactly (n : Z) (x : nat) : AM unit :=
  if (n <? 0)%Z then try_alloc ;;! athrow Invalid else limit n x.
(** SequenceVerificationProgress.hpp:73-122. *)
Definition quantify (q : quant) (x : nat) : AM unit :=
  match q with
  | QAny => do! t := peek x in match t with ACheck g d _ c => put x (ACheck g d true c) | _ => fun _ => AUb end
  | QNever => exactly 0 x
  | QOnce => exactly 1 x
  | QTwice => exactly 2 x
  | QAtLeastOnce => limit (-1) x
  | QExactly n => exactly n x
  | QAtLeast n => if (n <? 0)%Z then try_alloc ;;! athrow Invalid else limit (- n) x
  end.

(** Reading a call.  Invocation.hpp:44-58; undefined if it is not there. *)
Definition read_call (i : nat) : AM bool :=
  do! t := peek i in match t with ACall v => aret v | _ => fun _ => AUb end.
(** Putting calls into a container.  The insertions of SortInvocations.hpp:26-30, 35-36,
    ActualInvocationsSource.hpp:62-65, RecordedMethodBody.hpp:159-164. *)
Definition fill (l : list nat) : AM unit := each (fun i => read_call i ;;! try_alloc) l.
(** _actualInvocations, RecordedMethodBody.hpp:63. *)
Definition get_calls : AM (list nat) :=
  get (fun s => match st_body s with Some b => bo_calls b | None => [] end).

(** A matcher is asked about a call, MatchAnalysis.hpp:76-78: it must be there, and so must the call. *)
Definition asked (ck : check) (xs : list expr) (m i : nat) : AM bool :=
  match nth_error xs m with
  | None => fun _ => AUb
  | Some x =>
      do! t := peek (x_matcher x) in
      match t with
      | AMatcher _ =>
          read_call i ;;! try_alloc ;;!
          match ck_asks ck m i with Some b => aret b | None => athrow UserError end
      | _ => fun _ => AUb
      end
  end.

(** isMatch, MatchAnalysis.hpp:72-81. *)
Fixpoint is_match (ck : check) (xs : list expr) (act : list nat) (ms : list nat) (start : nat) : AM bool :=
  match ms with
  | [] => aret true
  | m :: r =>
      match nth_error act start with
      | None => fun _ => AUb
      | Some i => do! b := asked ck xs m i in if b then is_match ck xs act r (S start) else aret false
      end
  end.
(** findNextMatch of one sequence, 83-92: [n] places are left to look at, from [i] on. *)
Fixpoint find_block (ck : check) (xs : list expr) (act : list nat) (ms : list nat) (n i : nat) : AM (option nat) :=
  match n with
  | O => aret None
  | S n => do! b := is_match ck xs act ms i in if b then aret (Some i) else find_block ck xs act ms n (S i)
  end.
(** findNextMatch of the pattern, 46-59, with collectMatchedInvocations, 62-69. *)
Fixpoint find_pattern (ck : check) (xs : list expr) (act : list nat) (pat : list (list nat)) (start : nat) (matched : list nat)
  : AM (option nat * list nat) :=
  match pat with
  | [] => aret (Some start, matched)
  | ms :: r =>
      try_alloc ;;!                                 (* expectedSequence *)
      do! p := find_block ck xs act ms (length act + 1 - length ms - start) start in
      match p with
      | None => aret (None, matched)
      | Some i =>
          let hit := firstn (length ms) (skipn i act) in
          each (fun _ => try_alloc) hit ;;!
          find_pattern ck xs act r (i + length ms) (matched ++ hit)
      end
  end.
(** countMatches, 29-39.  [AUb] if [fuel] does not suffice: a pattern without any expectation is found for ever. *)
Fixpoint count_matches (fuel : nat) (ck : check) (xs : list expr) (act : list nat) (start count : nat) (matched : list nat)
  : AM (nat * list nat) :=
  match fuel with
  | O => fun _ => AUb
  | S f =>
      do! p := find_pattern ck xs act (ck_pattern ck) start matched in
      match p with
      | (Some e, matched) => count_matches f ck xs act e (S count) matched
      | (None, matched) => aret (count, matched)
      end
  end.
(** MatchAnalysis::run, 16-27: RecordedMethodBody.hpp:159-164 and AggregateInvocationsSource::getActualInvocations,
    ActualInvocationsSource.hpp:60-66, 76-82; sortByInvocationOrder, SortInvocations.hpp:20-31. *)
Definition analyse (ck : check) (xs : list expr) : AM (nat * list nat) :=
  do! act := get_calls in
  fill act ;;! fill act ;;! fill act ;;! fill act ;;!
  count_matches (S (length act)) ck xs act 0 0 [].

(** SequenceVerificationExpectation.hpp:67-86.  [soft]: asked by a conversion to bool, whose handler throws false
    (ThrowFalseEventHandler.hpp:11-13, SequenceVerificationProgress.hpp:42-51); otherwise the handler reports. *)
Definition verify_now (ck : check) (xs : list expr) (soft : bool) (x : nat) : AM bool :=
  do! t := peek x in
  match t with
  | ACheck g d a c =>
      if d then aret true else
      put x (ACheck g true a c) ;;!
      do! r := analyse ck xs in
      let n := Z.of_nat (fst r) in
      if (negb a && (((c <? 0) && (n <? - c)) || ((0 <=? c) && negb (n =? c))))%Z
      then try_alloc ;;! if soft then aret false else athrow Failed
      else each (fun i => do! _ := read_call i in put i (ACall true)) (snd r) ;;! aret true
  | _ => fun _ => AUb
  end.

(** ~SequenceVerificationExpectation when no exception is on its way, 15-20; the memory is given back even if it
    throws, and so are the members. *)
Definition close_check (ck : check) (xs : list expr) (x : nat) : AM unit :=
  aguard (verify_now ck xs false x) (del x) ;;! del x.

(** A statement: Verify(…), Verify(…).Exactly(2), …, or one that is converted to bool at once.  First its
    expressions and its verification are made, [opened]. *)
Definition opened (ck : check) : AM nat := with_exprs (ck_exprs ck) [] (fun _ => open_check).
(** SequenceVerificationProgress.hpp:73-122, then the destructor, SequenceVerificationExpectation.hpp:15-20. *)
Definition rest_of (ck : check) (q : option quant) (soft : bool) (xs : list expr) (x : nat) : AM bool :=
  do! b := aguard ((match q with Some q => quantify q x | None => aret tt end) ;;!
                   if soft then verify_now ck xs true x else aret true) (del x) in
  close_check ck xs x ;;!
  aret b.
(** VerifyFunctor.hpp:32-43 and the end of the statement. *)
Definition verify (ck : check) (q : option quant) (soft : bool) : AM bool :=
  with_exprs (ck_exprs ck) [] (fun xs => do! x := open_check in rest_of ck q soft xs x).

(** A verification in a variable: the steps made with it until the end of its scope, each with its exceptions
    caught.  The expressions are variables too.  SequenceVerificationProgress.hpp:42-51, 63-122. *)
Inductive step := SQuant (q : quant) | SBool.
(** Results and exceptions as the user gets them; models no lines of /repo. *)
Inductive reply := Said (b : bool) | Fine | Threw (e : error).
(** SequenceVerificationProgress.hpp:42-51, 63-122. *)
Definition do_step (ck : check) (xs : list expr) (x : nat) (o : step) : AM reply :=
  match o with
  | SQuant q => quantify q x ;;! aret Fine
  | SBool => do! b := verify_now ck xs true x in aret (Said b)
  end.
(** A catch of the user; models no lines of /repo. *)
Definition caught (m : AM reply) : AM reply := fun s =>
  match m s with AExn s' e => AVal s' (Threw e) | r => r end.
(** One after the other, each with its own catch; code of the user. *)
Fixpoint do_steps (ck : check) (xs : list expr) (x : nat) (l : list step) : AM (list reply) :=
  match l with
  | [] => aret []
  | o :: r => do! a := caught (do_step ck xs x o) in do! rest := do_steps ck xs x r in aret (a :: rest)
  end.
(** VerifyFunctor.hpp:32-43; the end of the scope: SequenceVerificationExpectation.hpp:15-20. *)
Definition keep (ck : check) (l : list step) : AM (list reply) :=
  with_exprs (ck_exprs ck) [] (fun xs =>
    do! x := open_check in
    do! rs := do_steps ck xs x l in
    close_check ck xs x ;;!
    aret rs).

(** Whether the calls are verified.  selectNonVerifiedInvocations, SortInvocations.hpp:40-47. *)
Fixpoint unverified (l : list nat) : AM (list nat) :=
  match l with
  | [] => aret []
  | i :: r =>
      do! v := read_call i in
      (if v then aret tt else try_alloc) ;;!
      do! u := unverified r in
      aret (if v then u else i :: u)
  end.
(** VerifyNoOtherInvocationsVerificationProgress.hpp:59-81 and SortInvocations.hpp:33-47. *)
Definition other_now (soft : bool) (x : nat) : AM bool :=
  do! t := peek x in
  match t with
  | AOther d =>
      if d then aret true else
      put x (AOther true) ;;!
      do! act := get_calls in
      fill act ;;!
      do! u := unverified act in
      match u with
      | [] => aret true
      | _ => fill u ;;! fill u ;;! fill act ;;! fill act ;;! try_alloc ;;! if soft then aret false else athrow Failed
      end
  | _ => fun _ => AUb
  end.
(** VerifyNoOtherInvocations(Method(mock, foo)), VerifyNoOtherInvocationsFunctor.hpp:37-44, with the constructors
    of the progress and of the expectation (VerifyNoOtherInvocationsVerificationProgress.hpp:49-55, 87-96) and its
    destructor (25-31). *)
Definition open_other : AM nat :=
  try_alloc ;;!                                     (* invocationSources *)
  do! x := new (AOther false) in
  aguard (try_alloc ;;! try_alloc) (free x) ;;!     (* its copies *)
  try_alloc ;;!                                     (* the counter of smart_ptr *)
  aret x.
(** VerifyNoOtherInvocationsFunctor.hpp:37-44. *)
Definition opened_other (args : option nat) : AM nat := with_exprs [args] [] (fun _ => open_other).
(** VerifyNoOtherInvocationsVerificationProgress.hpp:98-107, 121-122, then the destructor, 25-31. *)
Definition rest_of_other (soft : bool) (x : nat) : AM bool :=
  do! b := aguard (if soft then other_now true x else aret true) (del x) in
  aguard (other_now false x) (del x) ;;! del x ;;!
  aret b.
(** VerifyNoOtherInvocationsFunctor.hpp:37-44 and the end of the statement. *)
Definition no_other (args : option nat) (soft : bool) : AM bool :=
  with_exprs [args] [] (fun _ => do! x := open_other in rest_of_other soft x).

(** A test of stubbing statements, calls and verifications, each with its exceptions caught.  [quiet]: nothing
    but calls has run out of memory.  Code of the user; the lines of the statements are at [when], [call], [verify],
    [keep] and [no_other]: WhenFunctor.hpp:27-34, RecordedMethodBody.hpp:126-150,
    VerifyFunctor.hpp:32-43, SequenceVerificationExpectation.hpp:15-20, VerifyNoOtherInvocationsFunctor.hpp:37-44. *)
Inductive event :=
| EStub (args : option nat) (acts : list (option Z)) | ECall (n : option nat) (ok : bool)
| EVerify (ck : check) (q : option quant) (soft : bool) | EKeep (ck : check) (l : list step)
| EOther (args : option nat) (soft : bool).
(** Models no lines of /repo: whether a statement has thrown std::bad_alloc. *)
Definition loud {A} (r : run A) (quiet : bool) : bool :=
  match r with AExn _ OutOfMemory => false | _ => quiet end.
(** The lines are at [when], [call], [verify], [keep] and [no_other]: WhenFunctor.hpp:27-34, RecordedMethodBody.hpp:126-150,
    VerifyFunctor.hpp:32-43, SequenceVerificationExpectation.hpp:15-20, VerifyNoOtherInvocationsFunctor.hpp:37-44. *)
Definition play_event (v : event) (s : state) : run unit :=
  match v with
  | EStub args acts => when fails args acts s
  | ECall n ok =>
      let pick := match n, st_body s with Some n, Some b => nth_error (bo_handlers b) n | _, _ => None end in
      call fails pick ok s
  | EVerify ck q soft => (verify ck q soft ;;! aret tt) s
  | EKeep ck l => (keep ck l ;;! aret tt) s
  | EOther args soft => (no_other args soft ;;! aret tt) s
  end.
(** One after the other; code of the user. *)
Fixpoint play_events (l : list event) (quiet : bool) (s : state) : run bool :=
  match l with
  | [] => AVal s quiet
  | v :: r =>
      let quiet' := match v with ECall _ _ => quiet | _ => loud (play_event v s) quiet end in
      match play_event v s with
      | AVal s' _ | AExn s' _ => play_events r quiet' s'
      | ATerminate => ATerminate
      | AUb => AUb
      end
  end.
End Verifying.
