(** * C98: a mock that cannot be made leaves nothing behind *)
From Coq Require Import Bool Arith Lia List.
From Verif Require Import Making Spec_Making MakingProofs.
Import ListNotations.
Open Scope nat_scope.

(** Enough memory: the mock is made, and its object uses the mocked table. When the mock is destroyed, now or
    after anything else has been allocated, all its memory is released and the object is back to its table. *)
Theorem C98_made fails p own s :
  no_failure fails s (mock_tries p own) ->
  exists s' m, make_mock fails p own s = Val s' m /\
    besides s s' (mock_has p own) /\ st_table s' = Clone /\ st_calls s' = st_calls s /\ st_members s' = st_members s /\
    forall s2 more, st_heap s2 = st_heap s' ++ more ->
      exists s3 gone, destroy_mock m s2 = Val s3 tt /\ st_heap s3 = st_heap s ++ gone ++ more /\ live gone = [] /\
        st_table s3 = First /\ st_calls s3 = st_calls s2 /\ st_members s3 = st_members s2.
Proof. exact (made fails p own s). Qed.

(** The [k]th allocation fails: an exception, the object is as it was, and exactly [lost p own k] is left
    behind. *)
Theorem C98_unmade fails p own s k :
  first_failure fails s k -> k < mock_tries p own ->
  exists s', make_mock fails p own s = Exn s' /\
    besides s s' (lost p own k) /\ st_table s' = st_table s /\ st_calls s' = st_calls s /\ st_members s' = st_members s.
Proof. exact (unmade fails p own s k). Qed.

(** Nothing, for GCC and clang, unless one of the last two fails. *)
Theorem C98_unmade_gnu fails own s k :
  first_failure fails s k -> k + 2 < mock_tries Gnu own ->
  exists s', make_mock fails Gnu own s = Exn s' /\ besides s s' [] /\ st_table s' = st_table s.
Proof. exact (unmade_gnu fails own s k). Qed.

(** But the mocked table is lost if one of those fails, on every platform and for both kinds of mocks. *)
Theorem C98_unmade_refuted p own : exists fails s s' k,
  first_failure fails s k /\ k < mock_tries p own /\ make_mock fails p own s = Exn s' /\
  live (st_heap s) = [] /\ In KArray (live (st_heap s')).
Proof. exact (unmade_refuted p own). Qed.

(** ClearInvocationHistory: all recorded calls are forgotten, or none. *)
Theorem C98_clear fails grows s :
  match clear fails grows s with
  | Val s' _ => besides s s' [] /\ st_calls s' = map (fun _ => 0) (st_calls s) /\ st_table s' = st_table s /\ st_members s' = st_members s
  | Exn s' => besides s s' [] /\ st_calls s' = st_calls s /\ st_table s' = st_table s /\ st_members s' = st_members s
  | UB => False
  end.
Proof. exact (clear_spec fails grows s). Qed.

(** Which of the two: it throws if and only if the memory for the list of the methods is not there. *)
Theorem C98_clear_when fails grows s :
  let n := length (filter (fun b => b) grows) in
  (no_failure fails s n -> exists s', clear fails grows s = Val s' tt) /\
  (forall k, first_failure fails s k -> k < n -> exists s', clear fails grows s = Exn s').
Proof. exact (clear_when fails grows s). Qed.

(** A data member: constructed and owned, or as before. *)
Theorem C98_member fails grow old s :
  (match old with Some i => nth_error (st_heap s) i = Some (Some KMembers) | None => True end) ->
  member_made s old (stub_member fails grow old s) grow.
Proof. exact (stub_ok fails grow old s). Qed.

Theorem C98_member_when fails (grow : bool) old s :
  (match old with Some i => nth_error (st_heap s) i = Some (Some KMembers) | None => True end) ->
  let n := if grow then 4 else 3 in
  (no_failure fails s n -> exists s' r, stub_member fails grow old s = Val s' r) /\
  (forall k, first_failure fails s k -> k < n -> exists s', stub_member fails grow old s = Exn s').
Proof. exact (stub_when fails grow old s). Qed.

(** ** Examples *)

Definition empty : state := mkState 0 [] First [3; 5] 2.
Definition never : nat -> bool := fun _ => false.
Definition nth_fails (k : nat) : nat -> bool := Nat.eqb k.

Example ex_made : no_failure never empty (mock_tries (Ms32 1) true) /\ mock_tries (Ms32 1) true = 16 /\ mock_tries Gnu true = 6 /\ mock_tries Gnu false = 4.
Proof. split; [intros j J; reflexivity|repeat split]. Qed.

Example ex_destroyed : match make_mock never Gnu true empty with Val s m => destroy_mock m s | _ => UB end =
  Val (mkState 6 (repeat None 6) First [3; 5] 2) tt.
Proof. reflexivity. Qed.

Example ex_unmade : first_failure (nth_fails 2) empty 2 /\
  make_mock (nth_fails 2) Gnu true empty = Exn (mkState 3 [None; None] First [3; 5] 2).
Proof. repeat split. intros j J. unfold nth_fails. cbn. destruct j as [|[|j]]; try reflexivity. lia. Qed.

Example ex_lost : make_mock (nth_fails 5) Gnu true empty = Exn (mkState 6 [None; None; None; Some KArray; None] First [3; 5] 2) /\
  make_mock (nth_fails 1) Ms64 false empty = Exn (mkState 2 [None] First [3; 5] 2) /\
  make_mock (nth_fails 2) Ms64 false empty = Exn (mkState 3 [None; Some KArray] First [3; 5] 2).
Proof. repeat split. Qed.

Example ex_clear : clear (nth_fails 2) [true; true; false; true] empty = Exn (mkState 3 [None; None] First [3; 5] 2) /\
  clear never [true; true; false; true] empty = Val (mkState 3 [None; None; None] First [0; 0] 2) tt.
Proof. split; reflexivity. Qed.

Example ex_member : let s := mkState 0 [Some KMembers] Clone [] 1 in
  stub_member (nth_fails 3) true (Some 0) s = Exn (mkState 4 [Some KMembers; None; None] Clone [] 1) /\
  stub_member never true (Some 0) s = Val (mkState 4 [None; Some KWrapper; Some KControl; Some KMembers] Clone [] 2) (1, 2, Some 3).
Proof. split; reflexivity. Qed.

Definition C98_all := (C98_made, C98_unmade, C98_unmade_gnu, C98_unmade_refuted, C98_clear, C98_clear_when, C98_member, C98_member_when).
Print Assumptions C98_all.
