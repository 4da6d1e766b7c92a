(** C113: which objects are made of the arguments of a call. *)
From Coq Require Import Bool Arith List.
From Verif Require Import Base Passing Spec_Passing PassingProofs.
Import ListNotations.

Definition never (n : nat) : bool := false.
(** Two objects passed by value, one of them without a move constructor, and two references to one object. *)
Definition some_modes := [ByValue true; ByRef; ByValue false; ByRef].
Definition some_args := [0; 1; 2; 1].
Definition some_state := mkSt [Whole 10; Whole 11; Whole 12] [] [] 7.
Lemma some_usable : usable some_modes some_args some_state.
Proof.
  split; [reflexivity| |].
  - intros l [<-|[<-|[<-|[<-|[]]]]]; eexists; split; try reflexivity; discriminate.
  - intros [|[|[|[|i]]]] [|[|[|[|j]]]] b l M L1 L2; cbn in *; try discriminate; try reflexivity; try congruence; match goal with H : nth_error [] ?n = _ |- _ => destruct n; discriminate end.
Qed.

(** C113: a call answered by a function moves each argument passed by value once, into the record; an object that has no move
    constructor is copied instead.  Nothing else is moved or copied, references designate the same objects all the way, and the
    function gets the recorded objects themselves. *)
Theorem C113_function : forall throws ms ls s, (forall n, throws n = false) -> usable ms ls s ->
  exists s' rec, call throws Function ms ls s = Fine s' (rec, rec) /\ stand_for ms s ls s' rec /\ events s' = events s ++ moves ms ls rec /\
    calls s' = calls s ++ [rec] /\ ordinal s' = S (ordinal s) /\
    forall l, l < length (cells s) -> (forall i b, nth_error ms i = Some (ByValue b) -> nth_error ls i <> Some l) -> content s' l = content s l.
Proof. exact call_function. Qed.

Example C113_function_ex : usable some_modes some_args some_state /\
  call never Function some_modes some_args some_state =
  Fine (mkSt [Hollow; Whole 11; Whole 12; Whole 10; Whole 12] [Moved 0 3; Copied 2 4] [[3; 1; 4; 1]] 8) ([3; 1; 4; 1], [3; 1; 4; 1]).
Proof. split; [exact some_usable|reflexivity]. Qed.

(** C113: Spy copies each argument passed by value once more; the original gets the copies and the record keeps the values. *)
Theorem C113_spy : forall throws ms ls s, (forall n, throws n = false) -> usable ms ls s -> ~ In ByRvalue ms ->
  exists s' rec given, call throws Copying ms ls s = Fine s' (rec, given) /\ stand_for ms s ls s' rec /\ stand_for ms s ls s' given /\
    events s' = events s ++ moves ms ls rec ++ copies ms rec given /\ calls s' = calls s ++ [rec] /\
    forall i b r, nth_error ms i = Some (ByValue b) -> nth_error given i = Some r -> ~ In r rec.
Proof. exact call_spy. Qed.

Example C113_spy_ex : ~ In ByRvalue some_modes /\ exists s', call never Copying some_modes some_args some_state = Fine s' ([3; 1; 4; 1], [5; 1; 6; 1]) /\
  events s' = [Moved 0 3; Copied 2 4; Copied 3 5; Copied 4 6].
Proof. split; [intros [H|[H|[H|[H|[]]]]]; discriminate H|]. eexists. split; reflexivity. Qed.

(** C113: SpyWithoutVerify makes no copies of what can be moved: the original gets the values, and the record is left with what
    moving leaves. *)
Theorem C113_without_verify : forall throws ms ls s, (forall n, throws n = false) -> usable ms ls s ->
  exists s' rec given, call throws Forwarding ms ls s = Fine s' (rec, given) /\ stand_for ms s ls s' given /\
    events s' = events s ++ moves ms ls rec ++ moves ms rec given /\ calls s' = calls s ++ [rec] /\
    forall i m l, nth_error ms i = Some m -> nth_error ls i = Some l -> exists r, nth_error rec i = Some r /\
      match m with ByValue true => content s' r = Some Hollow | ByValue false => content s' r = content s l | _ => r = l end.
Proof. exact call_forward. Qed.

Example C113_without_verify_ex : usable [ByRvalue; ByValue true] [0; 1] some_state /\
  exists s', call never Forwarding [ByRvalue; ByValue true] [0; 1] some_state = Fine s' ([0; 3], [0; 4]) /\
  events s' = [Moved 1 3; Moved 3 4] /\ content s' 0 = Some (Whole 10) /\ content s' 3 = Some Hollow.
Proof.
  split; [|eexists; repeat split]. split; [reflexivity| |].
  - intros l [<-|[<-|[]]]; eexists; split; try reflexivity; discriminate.
  - intros [|[|i]] [|[|j]] b l M L1 L2; cbn in *; try discriminate; try reflexivity; try congruence; match goal with H : nth_error [] ?n = _ |- _ => destruct n; discriminate end.
Qed.

(** C113: whatever constructors throw, a call is never undefined, and every reference binds.  An exception while the record is
    made leaves no record and no object behind, only the number of the call is used up; when a spy passes the arguments on, the
    call is recorded, with objects that are there. *)
Theorem C113_exceptions : forall throws a ms ls s, usable ms ls s -> (a = Copying -> ~ In ByRvalue ms) ->
  (exists s' r, call throws a ms ls s = Fine s' r) \/
  exists s', call throws a ms ls s = Raised s' /\ ordinal s' = S (ordinal s) /\
    ((calls s' = calls s /\ nothing_left s s') \/
     (a <> Function /\ exists rec, calls s' = calls s ++ [rec] /\ forall l, In l rec -> exists c, content s' l = Some c /\ c <> Gone)).
Proof. exact call_defined. Qed.

Example C113_exceptions_ex :
  call (fun n => n =? 1) Function some_modes some_args some_state = Raised (mkSt [Hollow; Whole 11; Whole 12; Gone] [Moved 0 3] [] 8).
Proof. reflexivity. Qed.

(** C113, "the recorded arguments of a spied call are those of the call": refuted for SpyWithoutVerify, as its name says. *)
Theorem C113_without_verify_refuted : ~ (forall throws a ms ls s s' rec given, usable ms ls s -> call throws a ms ls s = Fine s' (rec, given) ->
  stand_for ms s ls s' rec).
Proof.
  intros H. specialize (H never Forwarding some_modes some_args some_state _ _ _ some_usable eq_refl). destruct H as [_ H].
  destruct (H 0 _ _ eq_refl eq_refl) as (r & R & C & _). injection R as <-. discriminate C.
Qed.

(** C113, "a spied call that throws before the original runs is not recorded": refuted.  The copies for the original are made
    after the call was recorded. *)
Theorem C113_recorded_refuted : ~ (forall throws a ms ls s s', usable ms ls s -> call throws a ms ls s = Raised s' -> calls s' = calls s).
Proof.
  intros H. specialize (H (fun n => n =? 2) Copying some_modes some_args some_state _ some_usable eq_refl). discriminate H.
Qed.

Definition C113_all := (C113_function, C113_spy, C113_without_verify, C113_exceptions, C113_without_verify_refuted, C113_recorded_refuted).
Print Assumptions C113_all.
