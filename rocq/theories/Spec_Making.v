(** * Making a mock when memory runs out: what is said about it *)
From Coq Require Import Bool List Arith.
From Verif Require Import Making.
Import ListNotations.
Open Scope nat_scope.

(** The first try from [s] on that fails is the one with number [k] (counted from 0). *)
Definition first_failure (fails : nat -> bool) (s : state) (k : nat) : Prop :=
  fails (st_tries s + k) = true /\ forall j, j < k -> fails (st_tries s + j) = false.

(** None of the next [n] tries fails. *)
Definition no_failure (fails : nat -> bool) (s : state) (n : nat) : Prop :=
  forall j, j < n -> fails (st_tries s + j) = false.

(** What is allocated. *)
Fixpoint live (h : list (option kind)) : list kind :=
  match h with [] => [] | Some k :: r => k :: live r | None :: r => live r end.

(** What came after a state: what was there before is still there, and [ks] besides. *)
Definition besides (s s' : state) (ks : list kind) : Prop :=
  exists new, st_heap s' = st_heap s ++ new /\ live new = ks.

(** Tries needed for a virtual table, and what is lost if one of them fails: the tables of MSVC consist
    of several pieces. *)
Definition table_tries (p : platform) : nat := match p with Gnu => 1 | Ms64 => 2 | Ms32 n => 5 + n end.
Definition table_kinds (p : platform) : list kind :=
  match p with
  | Gnu => [KArray]
  | Ms64 => [KArray; KLocator]
  | Ms32 n => [KArray; KLocator; KHier; KBases] ++ repeat KDesc (S n)
  end.
Definition table_lost (p : platform) (k : nat) : list kind :=
  match p with
  | Gnu => []
  | Ms64 => if k =? 0 then [] else [KArray]
  | Ms32 _ => if k =? 0 then [] else if k <? 4 then [KArray] else [KArray; KBases] ++ repeat KDesc (k - 4)
  end.

(** The tries of a mock: the object (if the library makes it) and its table; the control block; the clone
    of the table; two vectors. *)
Definition mock_tries (p : platform) (own : bool) : nat :=
  (if own then 1 + table_tries p else 0) + 1 + table_tries p + 2.

(** What is lost if try [k] fails: pieces of the table being made; the whole clone if it is the
    storage of one of the vectors. *)
Definition lost (p : platform) (own : bool) (k : nat) : list kind :=
  let start := if own then 1 + table_tries p else 0 in
  if own && (k <? start) then (if k =? 0 then [] else table_lost p (k - 1))
  else if k =? start then []
  else if k <? start + 1 + table_tries p then table_lost p (k - start - 1)
  else table_kinds p.

(** What a mock consists of in memory. *)
Definition mock_has (p : platform) (own : bool) : list kind :=
  (if own then KFake :: table_kinds p else []) ++ [KControl] ++ table_kinds p ++ [KSlots; KOffsets].

(** Stubbing a data member whose list of members has its storage in [old] and has to grow or not: either
    the member is constructed and owned by the mock, or all is as before. *)
Definition member_made (s : state) (w : option nat) (r : run (nat * nat * option nat)) (grow : bool) : Prop :=
  match r with
  | Val s' (_, _, v) =>
      (exists new, st_heap s' = (match w with Some i => if grow then upd (st_heap s) i None else st_heap s | None => st_heap s end) ++ new /\
         live new = [KWrapper; KControl] ++ (if grow then [KMembers] else []) /\
         (grow = true -> exists i, v = Some i /\ nth_error (st_heap s') i = Some (Some KMembers))) /\
      (grow = false -> v = w) /\
      st_members s' = S (st_members s) /\ st_table s' = st_table s /\ st_calls s' = st_calls s
  | Exn s' => besides s s' [] /\ st_members s' = st_members s /\ st_table s' = st_table s /\ st_calls s' = st_calls s
  | UB => False
  end.
