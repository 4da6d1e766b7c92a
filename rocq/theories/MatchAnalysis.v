(** Model of include/fakeit/MatchAnalysis.hpp. *)
From Coq Require Import List ZArith Lia.
From Verif Require Import Base CInt Sequences.
Import ListNotations.
Open Scope Z_scope.

Section MA.
(** [I]: pointers to invocations; [M]: matchers; [mt m i]: the virtual call
    [m->matches( *i)], which may have undefined behaviour (e.g. when it looks at
    a reference argument whose object is gone). *)
Context {I M : Type}.
Variable mt : M -> I -> outcome bool.

(** std::vector::operator[] : out of range is undefined behaviour.  actualSequence[…], MatchAnalysis.hpp:67, 76. *)
Definition vec_at (v : list I) (i : Z) : outcome I :=
  if i <? 0 then UB else of_option (nth_error v (Z.to_nat i)).

(** [(int) v.size()].  MatchAnalysis.hpp:86. *)
Definition int_size {X : Type} (v : list X) : Z := to_int32 (Z.of_nat (length v)).

(** isMatch: MatchAnalysis.hpp:72-81.  [start + j] is int + unsigned, hence
    unsigned.  Recursion over the expected vector replaces the index test
    [j < expectedSequence.size()] (same thing below 2^32 elements). *)
Fixpoint isMatch_from (actual : list I) (expected : list M) (start j : Z) : outcome bool :=
  match expected with
  | [] => Def true
  | e :: rest =>
      let! a := vec_at actual (to_uint32 (to_uint32 start + j)) in
      let! b := mt e a in
      if b then isMatch_from actual rest start (to_uint32 (j + 1)) else Def false
  end.

(** MatchAnalysis.hpp:72-81. *)
Definition isMatch (actual : list I) (expected : list M) (start : Z) : outcome bool :=
  isMatch_from actual expected start 0.

(** findNextMatch(Sequence*&, ...): MatchAnalysis.hpp:83-92, the for loop. *)
Fixpoint findNextMatch_loop (fuel : nat) (actual : list I) (expected : list M) (i bound : Z)
  : outcome Z :=
  match fuel with
  | O => NoFuel
  | S f =>
      if i <? bound then
        let! b := isMatch actual expected i in
        if b then Def i else findNextMatch_loop f actual expected (i + 1) bound
      else Def (-1)
  end.

(** MatchAnalysis.hpp:83-92. *)
Definition findNextMatch_seq (s : sequence M) (actual : list I) (startSearchIndex : Z) : outcome Z :=
  let expected := getExpectedSequence s in
  let! d := isub (int_size actual) (int_size expected) in
  let! bound := iadd d 1 in
  findNextMatch_loop (S (Z.to_nat (bound - startSearchIndex))) actual expected startSearchIndex bound.

(** collectMatchedInvocations: MatchAnalysis.hpp:62-69. *)
Fixpoint collect_loop (fuel : nat) (actual matched : list I) (start stop : Z) : outcome (list I) :=
  match fuel with
  | O => NoFuel
  | S f =>
      if start <? stop then
        let! a := vec_at actual start in
        collect_loop f actual (matched ++ [a]) (start + 1) stop
      else Def matched
  end.

(** MatchAnalysis.hpp:62-69. *)
Definition collectMatchedInvocations (actual matched : list I) (start length : Z) : outcome (list I) :=
  let! stop := iadd start length in
  collect_loop (S (Z.to_nat (stop - start))) actual matched start stop.

(** findNextMatch(pattern, ...): MatchAnalysis.hpp:46-59.  Result: [Some end] for
    true (with the new value of [end]), [None] for false; together with the
    vector [matchedInvocations], which was extended on the way in both cases. *)
Fixpoint findNextMatch (pattern : list (sequence M)) (actual : list I) (startSearchIndex : Z)
         (matched : list I) : outcome (option Z * list I) :=
  match pattern with
  | [] => Def (Some startSearchIndex, matched)
  | s :: rest =>
      let! index := findNextMatch_seq s actual startSearchIndex in
      if index =? -1 then Def (None, matched)
      else
        let! matched' := collectMatchedInvocations actual matched index (to_int32 (seq_size s)) in
        findNextMatch rest actual (to_int32 (to_uint32 (index + seq_size s))) matched'
  end.

(** countMatches: MatchAnalysis.hpp:29-39. *)
Fixpoint countMatches_loop (fuel : nat) (pattern : list (sequence M)) (actual : list I)
         (startSearchIndex count : Z) (matched : list I) : outcome (Z * list I) :=
  match fuel with
  | O => NoFuel
  | S f =>
      let! r := findNextMatch pattern actual startSearchIndex matched in
      match r with
      | (None, matched') => Def (count, matched')
      | (Some stop, matched') =>
          let! c := iadd count 1 in
          countMatches_loop f pattern actual stop c matched'
      end
  end.

(** run: MatchAnalysis.hpp:16-19, without the collection and sorting of the
    actual sequence (SortInv.v).  The fuel is the length of the actual sequence
    plus one; that this is enough is part of theorem C25. *)
Definition countMatches (pattern : list (sequence M)) (actual : list I) : outcome (Z * list I) :=
  countMatches_loop (S (length actual)) pattern actual 0 0 [].

End MA.
