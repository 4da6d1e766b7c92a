(** * Which questions a verification asks

    MatchAnalysis.hpp:16-92 once more, for conditions with a memory: predicates given to Matching(...) may count, print, or throw.
    The model passes the memory of all conditions through the search and writes down every question.

    Simplified: indices are natural numbers (MatchAnalysis.v has the int arithmetic, which is exact below 2^31, C25); the
    invocations that are marked are left out (C27); a question stands for the call of the virtual function matches
    (MatchAnalysis.hpp:78), which looks at the method of the call first and asks the condition only about calls of its own method
    (MethodMockingContext.hpp:125-133); conditions that stub, clear or reset the mock are in Predicates.v. *)
From Coq Require Import Bool Arith Lia List.
From Verif Require Import Base.
Import ListNotations.

(** What matches returns or throws: MatchAnalysis.hpp:78. *)
Inductive reply := Yes | No | Raise.

Section Asked.
(** [T]: the memory of the conditions; [M]: conditions; [I]: recorded calls. *)
Context {T M I : Type}.
Variable ask : T -> M -> I -> T * reply.

(** A question: where the attempt to match a sequence started, how far into it, the condition, the call, and the answer.
    Not in the code: MatchAnalysis.hpp:75-79 keeps no record. *)
Record question := mkQ { q_start : nat; q_off : nat; q_who : M; q_call : I; q_said : reply }.

(** isMatch: MatchAnalysis.hpp:72-81.  None is an exception of a condition. *)
Fixpoint is_match (actual : list I) (expected : list M) (start j : nat) (t : T) : outcome (T * list question * option bool) :=
  match expected with
  | [] => Def (t, [], Some true)
  | e :: rest =>
      match nth_error actual (start + j) with
      | None => UB
      | Some a =>
          let (t1, x) := ask t e a in
          let q := mkQ start j e a x in
          match x with
          | Raise => Def (t1, [q], None)
          | No => Def (t1, [q], Some false)
          | Yes => let! (t2, qs, b) := is_match actual rest start (S j) t1 in Def (t2, q :: qs, b)
          end
      end
  end.

(** findNextMatch of one sequence: MatchAnalysis.hpp:83-92; [todo] is how many places are left to try.  Some None is -1. *)
Fixpoint find_one (todo : nat) (actual : list I) (expected : list M) (i : nat) (t : T)
  : outcome (T * list question * option (option nat)) :=
  match todo with
  | 0 => Def (t, [], Some None)
  | S todo =>
      let! (t1, qs, b) := is_match actual expected i 0 t in
      match b with
      | None => Def (t1, qs, None)
      | Some true => Def (t1, qs, Some (Some i))
      | Some false => let! (t2, qs', r) := find_one todo actual expected (S i) t1 in Def (t2, qs ++ qs', r)
      end
  end.

(** findNextMatch of the pattern: MatchAnalysis.hpp:46-59. *)
Fixpoint find_all (pattern : list (list M)) (actual : list I) (start : nat) (t : T)
  : outcome (T * list question * option (option nat)) :=
  match pattern with
  | [] => Def (t, [], Some (Some start))
  | ms :: rest =>
      let! (t1, qs, r) := find_one (length actual + 1 - length ms - start) actual ms start t in
      match r with
      | Some (Some i) => let! (t2, qs', r') := find_all rest actual (i + length ms) t1 in Def (t2, qs ++ qs', r')
      | _ => Def (t1, qs, r)
      end
  end.

(** countMatches: MatchAnalysis.hpp:29-39. *)
Fixpoint count_loop (fuel : nat) (pattern : list (list M)) (actual : list I) (start count : nat) (t : T)
  : outcome (T * list question * option nat) :=
  match fuel with
  | 0 => NoFuel
  | S fuel =>
      let! (t1, qs, r) := find_all pattern actual start t in
      match r with
      | None => Def (t1, qs, None)
      | Some None => Def (t1, qs, Some count)
      | Some (Some e) => let! (t2, qs', c) := count_loop fuel pattern actual e (S count) t1 in Def (t2, qs ++ qs', c)
      end
  end.

(** run: MatchAnalysis.hpp:16-19.  The memory afterwards, the questions in order, and the number of matches if no condition threw.
    That the fuel is enough is proved. *)
Definition verify (pattern : list (list M)) (actual : list I) (t : T) : outcome (T * list question * option nat) :=
  count_loop (S (length actual)) pattern actual 0 0 t.

End Asked.
Arguments mkQ {M I}. Arguments q_start {M I}. Arguments q_off {M I}. Arguments q_who {M I}. Arguments q_call {M I}. Arguments q_said {M I}.
