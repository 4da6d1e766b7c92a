(** * Method expressions that are kept, Reset, and the names in reports

    [auto m = Method(mock, foo);] makes an object that remembers the mock and the method
    (MockImpl.hpp:134, 174), not the record of the method: each use looks the record up, and
    makes a new one if there is none (MockImpl.hpp:221-225, 314-323).  There is none after a
    Reset (DynamicProxy.hpp:91-98).  The name under which reports show a method is in the
    record (MethodInfo, DomainObjects.hpp:25-50).  A new record has the name that the compiler
    gives to the type of the method (MockImpl.hpp:334-338) until a macro like Method sets it
    to what is written there (api_macros.hpp:31-50, RecordedMethodBody.hpp:166-169).

    Modelled: tests that write method expressions, keep them, use them in Fake, Verify and
    VerifyNoOtherInvocations, call methods, Reset mocks and clear their histories.
    Simplified: the calls of all mocks are one list in the order of the calls (the library
    has one list per method and sorts what it collects by ordinal, SortInvocations.hpp:53-67);
    a verification is about one expression; an answered call only tells by which stubbing;
    events are reduced to the texts that name methods; the reports of more than 50 calls are
    shown whole (C51).  Not modelled: expressions whose condition is changed later (C64),
    expressions that are used in two stubbing statements (C54: not defined when the mock is
    Reset or destroyed), calls made by conditions and answers. *)
From Coq Require Import Bool String NArith Lia List.
From Verif Require Import Base.
Import ListNotations.
Open Scope list_scope.
Open Scope nat_scope.

Section Kept.
(** What a call passes; the text of a list of arguments, TuplePrinter.hpp:40-45. *)
Variable A : Type.
Variable show : A -> string.
(** typeid(vMethod).name() of a method of a mock: MockImpl.hpp:337.  Nothing is assumed about it. *)
Variable cname : nat -> nat -> string.
(** Whether a mock was made around an object of the user: Mock.hpp:46-47. *)
Variable around : nat -> bool.

(** The condition of an expression with the text that reports show: invocation_matchers.hpp:37-53. *)
Record cond : Type := mkCond { c_ok : A -> bool; c_text : string }.

(** A recorded call with the record of its method (Invocation.hpp:63-65) and its arguments. *)
Record call : Type := mkCall { cl_mock : nat; cl_slot : nat; cl_meth : nat; cl_args : A; cl_seen : bool }.

(** RecordedMethodBody.hpp:59-63: the id and the name of the method, and the stubbings, each with
    the expression that it was made with, oldest first. *)
Record kbody : Type := mkBody { kb_id : nat; kb_name : string; kb_stubs : list nat }.

(** A kept expression: MockImpl.hpp:134, 174, MethodMockingContext.hpp:75-78. *)
Record kexpr : Type := mkExpr { ke_mock : nat; ke_slot : nat; ke_cond : cond; ke_committed : bool }.

(** The records that there are, the recorded calls in order, the expressions in the order in which
    they were made, the next id (DomainObjects.hpp:27-30). *)
Record kstate : Type := mkState {
  k_bodies : nat -> nat -> option kbody;
  k_calls : list call;
  k_exprs : list kexpr;
  k_next : nat
}.

(** A test starts without mocks having been used; models no lines of /repo. *)
Definition k_init : kstate := mkState (fun _ _ => None) [] [] 1.

(** Replaces the record of a method, DynamicProxy.hpp:222-226. *)
Definition put_body (s : kstate) (m k : nat) (b : option kbody) : kstate :=
  mkState (fun m' k' => if Nat.eqb m m' && Nat.eqb k k' then b else k_bodies s m' k')
          (k_calls s) (k_exprs s) (k_next s).

(** getRecordedMethodBody: MockImpl.hpp:221-225, 314-323, 334-338. *)
Definition body_of (s : kstate) (m k : nat) : kstate * kbody :=
  match k_bodies s m k with
  | Some b => (s, b)
  | None =>
      let b := mkBody (k_next s) (cname m k) [] in
      (put_body (mkState (k_bodies s) (k_calls s) (k_exprs s) (S (k_next s))) m k (Some b), b)
  end.

(** The condition object of an expression.  Once committed it belongs to the record of the method
    (MethodMockingContext.hpp:96-100, RecordedMethodBody.hpp:54-55) and is gone with it. *)
Definition cond_of (s : kstate) (e : nat) : outcome cond :=
  match nth_error (k_exprs s) e with
  | None => NoFuel   (* no such variable *)
  | Some x =>
      if ke_committed x then
        match k_bodies s (ke_mock x) (ke_slot x) with
        | Some b => if existsb (Nat.eqb e) (kb_stubs b) then Def (ke_cond x) else UB
        | None => UB
        end
      else Def (ke_cond x)
  end.

(** What a statement of the test tells: that it returned, or the text of the exception
    (RecordedMethodBody.hpp:126-150, MockImpl.hpp:273-282, DefaultEventFormatter.hpp:18-69). *)
Inductive kres : Type :=
| KDone                                            (** nothing *)
| KAnswered (e : nat)                              (** the call was answered by the stubbing with this expression *)
| KOriginal                                        (** the method of the wrapped object ran *)
| KUnexpected (unmatched : bool) (text : string)   (** a report of an unexpected call *)
| KPassed                                          (** the verification passed *)
| KFailed (pattern : string) (count : nat) (calls : list string)  (** a report of a failed one *)
| KMore (calls : list string).                     (** a report of VerifyNoOtherInvocations *)

(** The quantity of a verification: SequenceVerificationProgress.hpp:98-104, 111-117. *)
Inductive kquant : Type := Exactly (n : nat) | AtLeast (n : nat).

(** SequenceVerificationExpectation.hpp:119-125; AtLeast(0) is Exactly(0), SequenceVerificationProgress.hpp:115 (C35). *)
Definition met (q : kquant) (n : nat) : bool :=
  match q with
  | Exactly x => Nat.eqb n x
  | AtLeast x => if Nat.eqb x 0 then Nat.eqb n 0 else Nat.leb x n
  end.

(** Statements of a test; code of the user. *)
Inductive kop : Type :=
| KMention (m k : nat) (mock method : string) (c : cond)  (** auto e = Method(mock, method).Using(...); *)
| KFake (e : nat)                                         (** Fake(e); *)
| KCall (m k : nat) (a : A)                               (** the method is called *)
| KVerify (e : nat) (q : kquant)                          (** Verify(e).Exactly(n); and the like *)
| KNoOther (e : nat)                                      (** VerifyNoOtherInvocations(e); *)
| KReset (m : nat)                                        (** mock.Reset(); *)
| KClear (m : nat).                                       (** mock.ClearInvocationHistory(); *)

(** getInvocationHandlerForActualArgs: RecordedMethodBody.hpp:71-81, newest first. *)
Fixpoint find_stub (s : kstate) (es : list nat) (a : A) : outcome (option nat) :=
  match es with
  | [] => Def None
  | e :: r => let! c := cond_of s e in if c_ok c a then Def (Some e) else find_stub s r a
  end.

(** ActualInvocation::format: ActualInvocation.hpp:57-62.  The name is read through the reference to
    the record of the method, Invocation.hpp:64: undefined if that is gone. *)
Definition call_text (s : kstate) (c : call) : outcome string :=
  match k_bodies s (cl_mock c) (cl_slot c) with
  | Some b => if Nat.eqb (kb_id b) (cl_meth c) then Def (kb_name b ++ show (cl_args c))%string else UB
  | None => UB
  end.

(** DefaultEventFormatter.hpp:111-126. *)
Fixpoint call_texts (s : kstate) (cs : list call) : outcome (list string) :=
  match cs with
  | [] => Def []
  | c :: r => let! t := call_text s c in let! ts := call_texts s r in Def (t :: ts)
  end.

(** Implementation::matches, MethodMockingContext.hpp:125-133, for each of the calls: which of them
    match.  isOfMethod looks the record up (MockImpl.hpp:156-158, RecordedMethodBody.hpp:105-108). *)
Fixpoint match_all (s : kstate) (e : nat) (x : kexpr) (cs : list call) : outcome (kstate * list bool) :=
  match cs with
  | [] => Def (s, [])
  | c :: r =>
      let (s1, b) := body_of s (ke_mock x) (ke_slot x) in
      let! hit :=
        if Nat.eqb (cl_meth c) (kb_id b) then
          let! cd := cond_of s1 e in Def (c_ok cd (cl_args c))
        else Def false in
      let! (s2, hits) := match_all s1 e x r in
      Def (s2, hit :: hits)
  end.

(** getActualInvocations of a mock, of all its methods: MockImpl.hpp:47-53. *)
Definition calls_of (s : kstate) (m : nat) : list call := filter (fun c => Nat.eqb (cl_mock c) m) (k_calls s).

(** markAsVerified, Invocation.hpp:52-54, of those calls of mock [m] that were hit. *)
Fixpoint mark (m : nat) (cs : list call) (hits : list bool) : list call :=
  match cs with
  | [] => []
  | c :: r =>
      if Nat.eqb (cl_mock c) m then
        match hits with
        | h :: hs => mkCall (cl_mock c) (cl_slot c) (cl_meth c) (cl_args c) (h || cl_seen c) :: mark m r hs
        | [] => c :: mark m r []
        end
      else c :: mark m r hits
  end.

(** Verify(e).Exactly(n): VerifyFunctor.hpp:32-43 (the calls of the mock of the expression),
    MatchAnalysis.hpp:29-39, 83-92 (for a pattern of one expression: each call that matches),
    SequenceVerificationExpectation.hpp:67-86.  The report: DefaultEventFormatter.hpp:37-61, with
    Implementation::format, MethodMockingContext.hpp:107-111, MockImpl.hpp:164-166. *)
Definition verify (s : kstate) (e : nat) (q : kquant) : outcome (kstate * kres) :=
  match nth_error (k_exprs s) e with
  | None => NoFuel
  | Some x =>
      let! (s1, hits) := match_all s e x (calls_of s (ke_mock x)) in
      let n := length (filter (fun b => b) hits) in
      if met q n then
        Def (mkState (k_bodies s1) (mark (ke_mock x) (k_calls s1) hits) (k_exprs s1) (k_next s1), KPassed)
      else
        let (s2, b) := body_of s1 (ke_mock x) (ke_slot x) in
        let! cd := cond_of s2 e in
        let! ts := call_texts s2 (calls_of s2 (ke_mock x)) in
        Def (s2, KFailed (kb_name b ++ c_text cd)%string n ts)
  end.

(** The calls that an expression accepts among those of its method: MethodMockingContext.hpp:113-120,
    RecordedMethodBody.hpp:152-157. *)
Fixpoint scan (s : kstate) (e : nat) (m k : nat) (cs : list call) : outcome (list call) :=
  match cs with
  | [] => Def []
  | c :: r =>
      if Nat.eqb (cl_mock c) m && Nat.eqb (cl_slot c) k then
        let! cd := cond_of s e in
        let! l := scan s e m k r in
        Def (if c_ok cd (cl_args c) then c :: l else l)
      else scan s e m k r
  end.

(** VerifyNoOtherInvocations(e): VerifyNoOtherInvocationsVerificationProgress.hpp:59-81, the report
    DefaultEventFormatter.hpp:63-69. *)
Definition no_other (s : kstate) (e : nat) : outcome (kstate * kres) :=
  match nth_error (k_exprs s) e with
  | None => NoFuel
  | Some x =>
      let (s1, _) := body_of s (ke_mock x) (ke_slot x) in
      let! found := scan s1 e (ke_mock x) (ke_slot x) (k_calls s1) in
      match filter (fun c => negb (cl_seen c)) found with
      | [] => Def (s1, KPassed)
      | more => let! ts := call_texts s1 more in Def (s1, KMore ts)
      end
  end.

(** A call through the object: MethodProxyCreator.hpp:44-51, RecordedMethodBody.hpp:126-150; without a
    record MockImpl.hpp:273-282, or the method of the object that was wrapped. *)
Definition invoke (s : kstate) (m k : nat) (a : A) : outcome (kstate * kres) :=
  match k_bodies s m k with
  | Some b =>
      let! found := find_stub s (rev (kb_stubs b)) a in
      match found with
      | Some e => Def (mkState (k_bodies s) (k_calls s ++ [mkCall m k (kb_id b) a false]) (k_exprs s) (k_next s), KAnswered e)
      | None => Def (s, KUnexpected true (kb_name b ++ show a)%string)
      end
  | None => Def (s, if around m then KOriginal else KUnexpected false "unknown()"%string)
  end.

(** One statement.  KMention: api_macros.hpp:31-50, MethodMockingContext.hpp:149-151, RecordedMethodBody.hpp:166-169;
    KFake: FakeFunctor.hpp:19-24, MethodMockingContext.hpp:135-138, RecordedMethodBody.hpp:110-115;
    KReset: DynamicProxy.hpp:91-98; KClear: MockImpl.hpp:68-76, RecordedMethodBody.hpp:122-124. *)
Definition k_step (o : kop) (s : kstate) : outcome (kstate * kres) :=
  match o with
  | KMention m k mock method c =>
      let (s1, b) := body_of s m k in
      let s2 := put_body s1 m k (Some (mkBody (kb_id b) (mock ++ "." ++ method)%string (kb_stubs b))) in
      Def (mkState (k_bodies s2) (k_calls s2) (k_exprs s2 ++ [mkExpr m k c false]) (k_next s2), KDone)
  | KFake e =>
      match nth_error (k_exprs s) e with
      | None => NoFuel
      | Some x =>
          if ke_committed x then NoFuel   (* not covered *)
          else
            let (s1, b) := body_of s (ke_mock x) (ke_slot x) in
            let s2 := put_body s1 (ke_mock x) (ke_slot x) (Some (mkBody (kb_id b) (kb_name b) (kb_stubs b ++ [e]))) in
            Def (mkState (k_bodies s2) (k_calls s2)
                   (upd (k_exprs s2) e (mkExpr (ke_mock x) (ke_slot x) (ke_cond x) true)) (k_next s2), KDone)
      end
  | KCall m k a => invoke s m k a
  | KVerify e q => verify s e q
  | KNoOther e => no_other s e
  | KReset m =>
      Def (mkState (fun m' k' => if Nat.eqb m m' then None else k_bodies s m' k')
             (filter (fun c => negb (Nat.eqb (cl_mock c) m)) (k_calls s)) (k_exprs s) (k_next s), KDone)
  | KClear m =>
      Def (mkState (k_bodies s) (filter (fun c => negb (Nat.eqb (cl_mock c) m)) (k_calls s)) (k_exprs s) (k_next s), KDone)
  end.

(** A test: one statement after the other, each with its exceptions caught; code of the user. *)
Fixpoint k_run (os : list kop) (s : kstate) : outcome (kstate * list kres) :=
  match os with
  | [] => Def (s, [])
  | o :: r =>
      let! (s1, x) := k_step o s in
      let! (s2, xs) := k_run r s1 in
      Def (s2, x :: xs)
  end.

End Kept.
