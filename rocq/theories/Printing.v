(** Model of reports about arguments whose operator<< is code of the user that calls mocked methods, throws,
    clears the history or leaves the stream in a state of its own: mockutils/Formatter.hpp:72-79,
    TuplePrinter.hpp:18-50, fakeit/ActualInvocation.hpp:57-62, invocation_matchers.hpp:43-53,
    MethodMockingContext.hpp:107-111, DefaultEventFormatter.hpp:18-146, FakeitContext.hpp:24-58,
    RecordedMethodBody.hpp:126-150, MockImpl.hpp:273-282, SequenceVerificationExpectation.hpp:67-104,
    VerifyNoOtherInvocationsVerificationProgress.hpp:58-83, ThrowFalseEventHandler.hpp:10-20,
    CatchFakeit.hpp:73-83.

    Simplifications: one mock, whose stubbings stay the same; the listeners only take note; operands of the
    expressions of a verification are compared for equality, or are _; file and line are left out of the texts;
    the library's own formatter is in use; the two operands of + in a pattern are printed from left to right, which
    C++17 demands and older versions allow. *)
From Coq Require Import Ascii String ZArith List Arith Bool.
From Verif Require Import Base CInt Sequences MatchAnalysis Expectation Format.
Import ListNotations.
Open Scope list_scope.
Open Scope nat_scope.

Section Printing.
(** [V]: arguments; [X]: exceptions of the user. *)
Context {V X : Type}.

(** What operator<< of a value does. *)
Inductive pract : Type :=
| PrText (t : string)                              (** os << "text" *)
| PrNumber (z : Z)                                 (** os << 5 *)
| PrFlags (f : nat)                                (** os << std::hex, os << std::setprecision(3), … *)
| PrFail                                           (** os.setstate(std::ios::failbit) *)
| PrCall (m : nat) (args : list V) (caught : bool) (** os << mock.get().m(args), in a try block or not *)
| PrClear                                          (** mock.ClearInvocationHistory() *)
| PrThrow (x : X).

(** How the stubbings of the mock answer a call: with a value (by the text it is printed as), with an exception;
    the actions are used up, RecordedMethodBody.hpp:139-142; no stubbing matches; the method is not stubbed. *)
Inductive reply : Type := Returns (t : string) | Raises (x : X) | Exhausted | Unmatched | Unmocked.

(** Exceptions: of the user; of the adapter, or UnexpectedMethodCallException, with a text.
    RecordedMethodBody.hpp:148-149, StandaloneFakeit.hpp:74-92. *)
Inductive pexn : Type := XUser (x : X) | XReport (t : string).

(** A recorded call; what the listeners are told.  ActualInvocation.hpp:36-62, Invocation.hpp:63-65. *)
Record pcall : Type := mkPcall { pc_ord : nat; pc_method : nat; pc_args : list V; pc_verified : bool }.
(** FakeitContext.hpp:24-43: the events that listeners get. *)
Inductive heard : Type := HUnmatched (m : nat) (args : list V) | HUnmocked | HSequence | HNoMore.

(** The state: the recorded calls, how often they were thrown away, the next ordinal; the values printed so far;
    what the listeners were told; the failures that the testing framework was told without an exception.
    RecordedMethodBody.hpp:62-63, Invocation.hpp:23-26, FakeitContext.hpp:74. *)
Record pstate : Type := mkPs {
  ps_calls : list pcall; ps_cleared : nat; ps_next : nat; ps_printed : list V; ps_heard : list heard;
  ps_failures : list string }.

(** An expression Method(mock, m).Using(…): None for _; without Using there is no list.
    MethodMockingContext.hpp:75-78, 300-304; the matchers: argument_matchers.hpp:79-107. *)
Record pexpr : Type := mkPexpr { ex_method : nat; ex_terms : option (list (option V)) }.

(** std::ostringstream: the flags, whether it failed, its text.  The std::ostringstream of Formatter.hpp:81,
    ActualInvocation.hpp:58, invocation_matchers.hpp:44. *)
Record ostream : Type := mkOs { os_flags : nat; os_failed : bool; os_text : string }.
(** Formatter.hpp:81. *)
Definition new_stream : ostream := mkOs 0 false "".

(** operator<< for a value, given the values that were printed before. *)
Variable code : list V -> V -> list pract.
(** How the standard library prints a number under some flags. *)
Variable digits : nat -> Z -> string.
Variable answers : nat -> list V -> reply.
Variable same : V -> V -> bool.
Variable name : nat -> string.
(** The adapter: whether its handle returns for unexpected calls, and for failed verifications
    (Adapters.v); whether it prints the pattern once more (Catch: CatchFakeit.hpp:75). *)
Variable returns vreturns again : bool.

(** Computations that may throw.  Models no lines of /repo. *)
Definition PM (A : Type) : Type := pstate -> outcome (pstate * (A + pexn)).
(** Models no lines of /repo. *)
Definition pret {A} (a : A) : PM A := fun s => Def (s, inl a).
(** Models no lines of /repo. *)
Definition pthrow {A} (x : pexn) : PM A := fun s => Def (s, inr x).
(** Models no lines of /repo. *)
Definition pbind {A B} (m : PM A) (f : A -> PM B) : PM B := fun s =>
  let! (s', r) := m s in match r with inl a => f a s' | inr x => Def (s', inr x) end.
Notation "'do?' x ':=' a 'in' b" := (pbind a (fun x => b)) (at level 200, x pattern, a at level 100, b at level 200).

(** Insertion into a stream that failed does nothing.  os << …, Formatter.hpp:82, TuplePrinter.hpp:23, 30, 42-44. *)
Definition insert (t : string) (os : ostream) : ostream :=
  if os_failed os then os else mkOs (os_flags os) (os_failed os) (os_text os ++ t).

(** ClearInvocationHistory: RecordedMethodBody.hpp:122-124. *)
Definition clear_history (s : pstate) : pstate :=
  mkPs [] (S (ps_cleared s)) (ps_next s) (ps_printed s) (ps_heard s) (ps_failures s).
(** nextInvocationOrdinal.  Invocation.hpp:23-26, at RecordedMethodBody.hpp:127. *)
Definition take_ordinal (s : pstate) : pstate :=
  mkPs (ps_calls s) (ps_cleared s) (S (ps_next s)) (ps_printed s) (ps_heard s) (ps_failures s).
(** _actualInvocations.push_back: RecordedMethodBody.hpp:138. *)
Definition record (c : pcall) (s : pstate) : pstate :=
  mkPs (ps_calls s ++ [c]) (ps_cleared s) (ps_next s) (ps_printed s) (ps_heard s) (ps_failures s).
(** Bookkeeping of the model: a value is printed.  Models no lines of /repo. *)
Definition note_printed (v : V) (s : pstate) : pstate :=
  mkPs (ps_calls s) (ps_cleared s) (ps_next s) (ps_printed s ++ [v]) (ps_heard s) (ps_failures s).
(** fireEvent: FakeitContext.hpp:76-89. *)
Definition fire (h : heard) (s : pstate) : pstate :=
  mkPs (ps_calls s) (ps_cleared s) (ps_next s) (ps_printed s) (ps_heard s ++ [h]) (ps_failures s).
(** The framework is told of a failure.  config/*: the adapters that return after reporting a failure, e.g.
    StandaloneFakeit.hpp:74-92 throws instead. *)
Definition fail (t : string) (s : pstate) : pstate :=
  mkPs (ps_calls s) (ps_cleared s) (ps_next s) (ps_printed s) (ps_heard s) (ps_failures s ++ [t]).
(** Models no lines of /repo. *)
Definition lift (f : pstate -> pstate) : PM unit := fun s => Def (f s, inl tt).

Section Rec.
(** A call of a method; the text of the result. *)
Variable call_inner : nat -> list V -> PM string.

(** The code of operator<<.  Called at Formatter.hpp:82. *)
Fixpoint run (acts : list pract) (os : ostream) : PM ostream :=
  match acts with
  | [] => pret os
  | PrText t :: r => run r (insert t os)
  | PrNumber z :: r => run r (insert (digits (os_flags os) z) os)
  | PrFlags f :: r => run r (mkOs f (os_failed os) (os_text os))
  | PrFail :: r => run r (mkOs (os_flags os) true (os_text os))
  | PrThrow x :: _ => pthrow (XUser x)
  | PrClear :: r => fun s => run r os (clear_history s)
  | PrCall m args caught :: r => fun s =>
      let! (s', res) := call_inner m args s in
      match res with
      | inl t => run r (insert t os) s'
      | inr x => if caught then run r os s' else Def (s', inr x)
      end
  end.

(** Formatter<C>::format: Formatter.hpp:72-79; each value has a stream of its own. *)
Definition print_value (v : V) : PM string := fun s =>
  (do? os := run (code (ps_printed s) v) new_stream in pret (os_text os)) (note_printed v s).

(** Reading something that lives as long as the history is not cleared: [since] is the number of times it was when the
    plain pointer was taken; None: a local object.  std::shared_ptr at RecordedMethodBody.hpp:132 keeps a call, a
    plain pointer in a list of SortInvocations.hpp:20-31 does not (RecordedMethodBody.hpp:122-124). *)
Definition alive (since : option nat) : PM unit := fun s =>
  match since with
  | Some n => if ps_cleared s =? n then Def (s, inl tt) else UB
  | None => Def (s, inl tt)
  end.

(** TuplePrinter.hpp:18-50. *)
Fixpoint print_args (since : option nat) (args : list V) : PM (list string) :=
  match args with
  | [] => pret []
  | v :: r =>
      do? _ := alive since in
      do? t := print_value v in
      do? ts := print_args since r in
      pret (t :: ts)
  end.

(** ActualInvocation::format: ActualInvocation.hpp:57-62. *)
Definition print_call (since : option nat) (m : nat) (args : list V) : PM string :=
  do? _ := alive since in
  do? ts := print_args since args in
  pret (name m ++ "(" ++ join ", " ts ++ ")")%string.

(** invocation_matchers.hpp:43-53 with format of the matchers, argument_matchers.hpp:70-72, 126-128. *)
Fixpoint print_terms (l : list (option V)) : PM (list string) :=
  match l with
  | [] => pret []
  | None :: r => do? ts := print_terms r in pret ("Any"%string :: ts)
  | Some v :: r =>
      do? t := print_value v in
      do? ts := print_terms r in
      pret (t :: ts)
  end.
(** MethodMockingContext.hpp:107-111; invocation_matchers.hpp:157-159. *)
Definition print_expr (e : pexpr) : PM string :=
  match ex_terms e with
  | None => pret (name (ex_method e) ++ "( Any arguments )")%string
  | Some l => do? ts := print_terms l in pret (name (ex_method e) ++ "(" ++ join ", " ts ++ ")")%string
  end.

(** formatSequence: DefaultEventFormatter.hpp:84-98, 128-146. *)
Fixpoint print_sequence (q : sequence pexpr) : PM string :=
  match q with
  | SLeaf e => print_expr e
  | SConcat l r =>
      do? a := print_sequence l in
      do? b := print_sequence r in
      pret (a ++ " + " ++ b)%string
  | SRepeat q' n =>
      do? a := print_sequence q' in
      pret ((if composite q' then "(" else "") ++ a ++ (if composite q' then ")" else "") ++ " * " ++ show_Z n)%string
  end.
(** formatExpectedPattern: 71-80. *)
Fixpoint print_pattern (p : list (sequence pexpr)) : PM string :=
  match p with
  | [] => pret ""%string
  | q :: r =>
      do? a := print_sequence q in
      do? b := print_pattern r in
      pret (match r with [] => a | _ => (a ++ " ... " ++ b)%string end)
  end.

(** formatInvocationList: 111-126; the texts of the calls that are printed. *)
Fixpoint print_list (since : nat) (l : list pcall) : PM (list string) :=
  match l with
  | [] => pret []
  | c :: r =>
      do? t := print_call (Some since) (pc_method c) (pc_args c) in
      do? ts := print_list since r in
      pret (t :: ts)
  end.
(** DefaultEventFormatter.hpp:111-126. *)
Definition print_calls (since : nat) (l : list pcall) : PM string :=
  do? ts := print_list since (firstn (if 50 <? length l then 50 else length l) l) in
  pret (list_loop ts ++ (if (50 <? List.length l)%nat then newline ++ "  ..." else ""))%string.

(** format(UnexpectedMethodCallEvent): 18-28. *)
Definition unexpected_text (unmatched : bool) (m : nat) (args : list V) : PM string :=
  if unmatched then do? t := print_call None m args in pret (fmt_unexpected_event true t)
  else pret (fmt_unexpected_event false "unknown()").

(** FakeitContext::handle (24-30), the adapter, and what follows if it returns: RecordedMethodBody.hpp:145-149,
    MockImpl.hpp:275-281. *)
Definition unexpected (unmatched : bool) (m : nat) (args : list V) : PM string :=
  do? _ := lift (fire (if unmatched then HUnmatched m args else HUnmocked)) in
  do? t := unexpected_text unmatched m args in
  if returns then
    do? _ := lift (fail t) in
    do? t' := unexpected_text unmatched m args in
    pthrow (XReport t')
  else pthrow (XReport t).

(** handleMethodInvocation: RecordedMethodBody.hpp:126-150; unmocked: MockImpl.hpp:273-282. *)
Definition call_body (m : nat) (args : list V) : PM string := fun s =>
  let ord := ps_next s in
  let s1 := take_ordinal s in
  match answers m args with
  | Returns t => pret t (record (mkPcall ord m args false) s1)
  | Raises x => pthrow (XUser x) (record (mkPcall ord m args false) s1)
  | Exhausted => unexpected true m args (record (mkPcall ord m args false) s1)
  | Unmatched => unexpected true m args s1
  | Unmocked => unexpected false m args s1
  end.

(** format(SequenceVerificationEvent): DefaultEventFormatter.hpp:37-61. *)
Definition sequence_text (since : nat) (p : list (sequence pexpr)) (t : vtype) (expected actual : Z) (l : list pcall) : PM string :=
  do? a := print_pattern p in
  do? b := print_calls since l in
  pret ("Verification error" ++ newline ++
        "Expected pattern: " ++ a ++ newline ++
        "Expected matches: " ++ formatExpectedCount t expected ++ newline ++
        "Actual matches  : " ++ show_Z actual ++ newline ++
        "Actual sequence : total of " ++ show_Z (Z.of_nat (List.length l)) ++ " actual invocations" ++
        (if (List.length l =? 0)%nat then "." else ":" ++ newline) ++ b)%string.

(** What a verification says: it holds; it does not, and the framework was told, or the answer is false.
    SequenceVerificationProgress.hpp:42-51, SequenceVerificationExpectation.hpp:67-86. *)
Inductive pverdict : Type := Holds | Fails.

(** The adapter's handle, after FakeitContext::handle (32-43). *)
Definition report (p : list (sequence pexpr)) (t : string) : PM pverdict :=
  do? _ := (if again then print_pattern p else pret ""%string) in
  if vreturns then do? _ := lift (fail t) in pret Fails else pthrow (XReport t).

(** matches: MethodMockingContext.hpp:125-133, invocation_matchers.hpp:36-40. *)
Fixpoint terms_match (l : list (option V)) (args : list V) : bool :=
  match l, args with
  | [], [] => true
  | None :: r, _ :: a => terms_match r a
  | Some v :: r, w :: a => same v w && terms_match r a
  | _, _ => false
  end.
(** MethodMockingContext.hpp:125-133, invocation_matchers.hpp:37-41. *)
Definition expr_matches (e : pexpr) (c : pcall) : bool :=
  (pc_method c =? ex_method e) && match ex_terms e with None => true | Some l => terms_match l (pc_args c) end.

(** sortByInvocationOrder: SortInvocations.hpp:20-31, by insertion. *)
Fixpoint insert_call (c : pcall) (l : list pcall) : list pcall :=
  match l with
  | [] => [c]
  | d :: r => if pc_ord c <? pc_ord d then c :: l else d :: insert_call c r
  end.
(** sortByInvocationOrder, SortInvocations.hpp:20-31. *)
Definition by_ordinal (l : list pcall) : list pcall := fold_right insert_call [] l.

(** markAsVerified: SequenceVerificationExpectation.hpp:100-104. *)
Definition mark (l : list pcall) (s : pstate) : pstate :=
  mkPs (map (fun c => if existsb (fun d => pc_ord d =? pc_ord c) l
                      then mkPcall (pc_ord c) (pc_method c) (pc_args c) true else c) (ps_calls s))
       (ps_cleared s) (ps_next s) (ps_printed s) (ps_heard s) (ps_failures s).

(** Verify(p).Exactly(k) or .AtLeast(k), [quietly]: converted to bool: SequenceVerificationExpectation.hpp:67-86,
    127-142, ThrowFalseEventHandler.hpp:10-20. *)
Definition verify_body (quietly : bool) (p : list (sequence pexpr)) (t : vtype) (k : Z) : PM pverdict := fun s =>
  let l := by_ordinal (ps_calls s) in
  let! (n, matched) := countMatches (fun e c => Def (expr_matches e c)) p l in
  if (match t with VtAtLeast => n <? k | VtExact => negb (n =? k) end)%Z then
    if quietly then Def (s, inl Fails)
    else (do? _ := lift (fire HSequence) in
          do? text := sequence_text (ps_cleared s) p t k n l in
          report p text) s
  else Def (mark matched s, inl Holds).

(** VerifyNoOtherInvocations(mock): 58-83. *)
Definition no_other_body (quietly : bool) : PM pverdict := fun s =>
  let l := by_ordinal (filter (fun c => negb (pc_verified c)) (ps_calls s)) in
  match l with
  | [] => Def (s, inl Holds)
  | _ =>
      if quietly then Def (s, inl Fails)
      else (do? _ := lift (fire HNoMore) in
            do? b := print_calls (ps_cleared s) l in
            report [] ("Verification error" ++ newline ++
              "Expected no more invocations!! but the following unverified invocations were found:" ++ newline ++ b)%string) s
  end.
End Rec.

(** A call; [fuel] bounds the nesting of calls.  RecordedMethodBody.hpp:126-150. *)
Fixpoint call (fuel : nat) (m : nat) (args : list V) : PM string :=
  match fuel with
  | 0 => fun _ => NoFuel
  | S f => call_body (call f) m args
  end.

(** Statements of a test, each in a try block of its own.  Code of the user; the lines are at the functions for each
    of them: RecordedMethodBody.hpp:126-150,
    VerifyFunctor.hpp:32-43, VerifyNoOtherInvocationsFunctor.hpp:37-44. *)
Inductive pstmt : Type :=
| SCall (m : nat) (args : list V)
| SVerify (quietly : bool) (p : list (sequence pexpr)) (t : vtype) (k : Z)
| SNoOther (quietly : bool).
(** What a statement gives its user; models no lines of /repo. *)
Inductive presult : Type := RText (t : string) | RVerdict (v : pverdict) | RThrew (x : pexn).
(** The lines are at the functions for each of them: RecordedMethodBody.hpp:126-150,
    VerifyFunctor.hpp:32-43, VerifyNoOtherInvocationsFunctor.hpp:37-44.  The try block is the user's. *)
Definition stmt (fuel : nat) (o : pstmt) (s : pstate) : outcome (pstate * presult) :=
  match o with
  | SCall m args => let! (s', r) := call fuel m args s in Def (s', match r with inl t => RText t | inr x => RThrew x end)
  | SVerify q p t k =>
      let! (s', r) := verify_body (call fuel) q p t k s in Def (s', match r with inl v => RVerdict v | inr x => RThrew x end)
  | SNoOther q =>
      let! (s', r) := no_other_body (call fuel) q s in Def (s', match r with inl v => RVerdict v | inr x => RThrew x end)
  end.
(** One after the other; code of the user. *)
Fixpoint stmts (fuel : nat) (l : list pstmt) (s : pstate) : outcome (pstate * list presult) :=
  match l with
  | [] => Def (s, [])
  | o :: r => let! (s1, a) := stmt fuel o s in let! (s2, b) := stmts fuel r s1 in Def (s2, a :: b)
  end.
End Printing.
Arguments pract V X : clear implicits.
Arguments reply X : clear implicits.
Arguments pexn X : clear implicits.
Arguments pcall V : clear implicits.
Arguments pstate V : clear implicits.
Arguments pexpr V : clear implicits.
Arguments heard V : clear implicits.
Arguments pstmt V : clear implicits.
Arguments presult X : clear implicits.
