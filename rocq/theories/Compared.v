(** * Which comparisons a call makes

    A call of a stubbed method is compared with the values given to Using(...): RecordedMethodBody.hpp:71-82, 126-150,
    invocation_matchers.hpp:25-85, 119-166, TupleDispatcher.hpp:43-58.  The operators ==, !=, >, >=, < and <= may be code of the user
    that counts, prints or throws, and so may the predicates given to Matching(...).  The model passes the memory of all this code
    through the search and writes down every operator and every predicate that runs.

    Simplified: one method; what the user's code does to the mock is in Predicates.v, changed arguments are in Args.v; the actions
    of the stubbings are left out (the result names the stubbing that answers), as are the notifications (Events.v). *)
From Coq Require Import Bool Arith Lia List.
From Verif Require Import Base Asked.
Import ListNotations.

(** The comparison matchers with an operator of the type: argument_matchers.hpp:79-257. *)
Inductive op := OEq | ONe | OGt | OGe | OLt | OLe.

Section Compared.
(** [T]: the memory of the user's code; [A]: arguments; [E]: expected values; [K]: matchers without code of the user; [P]: predicates. *)
Context {T A E K P : Type}.
Variable compare : T -> op -> A -> E -> T * reply.
Variable other : K -> A -> outcome bool.
Variable predicate : T -> P -> list A -> T * reply.

(** An element of Using(...): Any (argument_matchers.hpp:59-77), a comparison (79-257), or one that calls only functions of the
    standard library, strcmp and abs (259-481), which may be undefined (strcmp of a null pointer). *)
Inductive matcher := MAny | MCmp (o : op) (e : E) | MOther (k : K).

(** The three kinds of conditions: invocation_matchers.hpp:25-85, 119-143, 145-166. *)
Inductive cond := CUsing (ms : list matcher) | CMatching (p : P) | CAll.

(** What ran: operator o with its operands, or a predicate.  argument_matchers.hpp:101, 131, 161, 191, 221, 251;
    invocation_matchers.hpp:138-140. *)
Inductive event := Compare (o : op) (a : A) (e : E) | Ask (p : P) (args : list A).

(** One entry of the list of what ran: for the how-manieth stubbing or call, at which position.  Not in the code; it stands for the
    order in which RecordedMethodBody.hpp:71-82 and MatchAnalysis.hpp:46-92 come to argument_matchers.hpp:66-68. *)
Record entry := mkE { e_rank : nat; e_pos : nat; e_what : event; e_said : reply }.

(** matches of one element: argument_matchers.hpp:66-68, 100-102 and alike.  The argument is the left operand. *)
Definition weigh_one (rank pos : nat) (t : T) (m : matcher) (a : A) : outcome (T * list entry * reply) :=
  match m with
  | MAny => Def (t, [], Yes)
  | MCmp o e => let (t1, x) := compare t o a e in Def (t1, [mkE rank pos (Compare o a e) x], x)
  | MOther k => let! b := other k a in Def (t, [], if b then Yes else No)
  end.

(** TupleDispatcher::for_each (TupleDispatcher.hpp:43-58) with MatchingLambda (invocation_matchers.hpp:57-77): all positions are
    visited, but nothing is compared after a position that was refused. *)
Fixpoint for_each (rank : nat) (ms : list matcher) (i : nat) (args : list A) (matching : bool) (t : T)
  : outcome (T * list entry * reply) :=
  match args with
  | [] => Def (t, [], if matching then Yes else No)
  | a :: rest =>
      match nth_error ms i with
      | None => UB
      | Some m =>
          if matching then
            let! (t1, q, x) := weigh_one rank i t m a in
            match x with
            | Raise => Def (t1, q, Raise)
            | Yes => let! (t2, qs, y) := for_each rank ms (S i) rest true t1 in Def (t2, q ++ qs, y)
            | No => let! (t2, qs, y) := for_each rank ms (S i) rest false t1 in Def (t2, q ++ qs, y)
            end
          else for_each rank ms (S i) rest false t
      end
  end.

(** matches of the arguments: invocation_matchers.hpp:79-83, 138-140, 163-165. *)
Definition weigh (rank : nat) (c : cond) (args : list A) (t : T) : outcome (T * list entry * reply) :=
  match c with
  | CUsing ms => for_each rank ms 0 args true t
  | CMatching p => let (t1, x) := predicate t p args in Def (t1, [mkE rank 0 (Ask p args) x], x)
  | CAll => Def (t, [], Yes)
  end.

(** A recorded call: its ordinal, the condition object through which it was answered, its arguments.
    ActualInvocation.hpp:36-55. *)
Record call_rec := mkRec { r_ord : nat; r_by : nat; r_args : list A }.

(** matches of an invocation: invocation_matchers.hpp:37-41, 127-131, 153-155.  [self] names the condition object. *)
Definition matches (rank self : nat) (c : cond) (by_ : option nat) (args : list A) (t : T) : outcome (T * list entry * reply) :=
  match c, by_ with
  | CAll, _ => weigh rank c args t
  | _, Some x => if x =? self then Def (t, [], Yes) else weigh rank c args t
  | _, None => weigh rank c args t
  end.

(** How a call ends: the stubbing that answers, none (an unexpected call), or an exception of the user's code.
    RecordedMethodBody.hpp:126-150. *)
Inductive ending := Answered (id : nat) | Unexpected | Threw.

(** getInvocationHandlerForActualArgs: RecordedMethodBody.hpp:71-82; the stubbings newest first.  The new invocation has no
    matcher yet (ActualInvocation.hpp:37). *)
Fixpoint find (rank : nat) (newest_first : list (nat * cond)) (args : list A) (t : T) : outcome (T * list entry * ending) :=
  match newest_first with
  | [] => Def (t, [], Unexpected)
  | (id, c) :: older =>
      let! (t1, qs, x) := matches rank id c None args t in
      match x with
      | Yes => Def (t1, qs, Answered id)
      | Raise => Def (t1, qs, Threw)
      | No => let! (t2, qs', r) := find (S rank) older args t1 in Def (t2, qs ++ qs', r)
      end
  end.

(** RecordedMethodBody.hpp:62-63; the ordinal: Invocation.hpp:23-26.  The stubbings oldest first. *)
Record method := mkMethod { m_stubs : list (nat * cond); m_calls : list call_rec; m_next : nat }.

(** handleMethodInvocation: RecordedMethodBody.hpp:126-150. *)
Definition call (m : method) (args : list A) (t : T) : outcome (method * T * list entry * ending) :=
  let! (t1, qs, r) := find 0 (rev (m_stubs m)) args t in
  match r with
  | Answered id => Def (mkMethod (m_stubs m) (m_calls m ++ [mkRec (m_next m) id args]) (S (m_next m)), t1, qs, r)
  | _ => Def (mkMethod (m_stubs m) (m_calls m) (S (m_next m)), t1, qs, r)
  end.

(** getActualInvocations of an expression, the calls chosen by Using(Method(...)...): MethodMockingContext.hpp:113-121 with
    scanActualInvocations, RecordedMethodBody.hpp:152-157.  None: an exception.  The set is given in the order of the calls. *)
Fixpoint collect (rank self : nat) (c : cond) (calls : list call_rec) (t : T) : outcome (T * list entry * option (list call_rec)) :=
  match calls with
  | [] => Def (t, [], Some [])
  | r :: rest =>
      let! (t1, qs, x) := matches rank self c (Some (r_by r)) (r_args r) t in
      match x with
      | Raise => Def (t1, qs, None)
      | Yes => let! (t2, qs', o) := collect (S rank) self c rest t1 in Def (t2, qs ++ qs', match o with Some l => Some (r :: l) | None => None end)
      | No => let! (t2, qs', o) := collect (S rank) self c rest t1 in Def (t2, qs ++ qs', o)
      end
  end.

End Compared.
Arguments matcher : clear implicits. Arguments cond : clear implicits. Arguments event : clear implicits. Arguments entry : clear implicits.
Arguments MAny {E K}. Arguments MCmp {E K}. Arguments MOther {E K}.
Arguments CUsing {E K P}. Arguments CMatching {E K P}. Arguments CAll {E K P}.
Arguments Compare {A E P}. Arguments Ask {A E P}.
Arguments mkE {A E P}. Arguments e_rank {A E P}. Arguments e_pos {A E P}. Arguments e_what {A E P}. Arguments e_said {A E P}.
Arguments mkRec {A}. Arguments r_ord {A}. Arguments r_by {A}. Arguments r_args {A}.
Arguments method : clear implicits. Arguments mkMethod {A E K P}. Arguments m_stubs {A E K P}. Arguments m_calls {A E K P}. Arguments m_next {A E K P}.
