(** C100: Fake, Spy and assignments that run out of memory.  Theorems only; see Spec_AtOnce and Spec_OutOfMemory for
    the words used. *)
From Coq Require Import Bool Arith ZArith Lia Permutation List.
From Verif Require Import Base OutOfMemory Spec_OutOfMemory OutOfMemoryProofs AtOnce Spec_AtOnce AtOnceProofs.
Import ListNotations.
Open Scope nat_scope.

(** Fake(…), Spy(…) or an assignment gives the mock one answer for each of its expressions, and nothing else; or it
    throws, and then the mock has the answers of some of the first of them, complete, and of no others, every object
    there was is as it was, and nothing is lost but parts of one expression that could not be made.  It is undefined only if one of four allocations fails with which one of the answers
    is put into the mock. *)
Theorem C100 : forall fails l s,
  match at_once fails l s with
  | AVal s' _ => exists objs, added l objs s s' /\ Permutation (objects s') (objs ++ first_mention s s' ++ objects s)
  | AExn s' x => x = OutOfMemory /\ exists k objs J, k < length l /\ added (firstn k l) objs s s' /\
      Permutation (objects s') (J ++ objs ++ first_mention s s' ++ objects s) /\
      (J = [] \/ k = 0 /\ exists args, In args l /\ lost args J)
  | ATerminate => False
  | AUb => exists n, st_tries s <= n /\ fails n = false /\ commit_fails fails n = true
  end.
Proof. exact at_once_all_or_part. Qed.

(** Once the expressions are made, a statement that throws leaves nothing but those answers. *)
Theorem C100_tidy : forall fails l s s0 ys s' x, expressions fails l s = AVal s0 ys -> at_once fails l s = AExn s' x ->
  exists k objs, k < length l /\ added (firstn k l) objs s s' /\ Permutation (objects s') (objs ++ first_mention s s' ++ objects s).
Proof. exact at_once_tidy. Qed.

(** And what is lost when a statement with When throws: parts of the expression, or the note that it is open. *)
Theorem C91_lost : forall fails args acts s s' x, when fails args acts s = AExn s' x ->
  exists J, (lost args J \/ exists i, J = [(i, AChange)]) /\ Permutation (objects s') (J ++ first_mention s s' ++ objects s).
Proof. exact when_lost. Qed.

(** Refuted that such a statement is always defined: if one of those four fails for the first expression. *)
Theorem C100_commit_refuted : forall fails l s s0 y ys s1,
  expressions fails l s = AVal s0 (y :: ys) -> append fails None y s0 = AVal s1 tt ->
  fails (st_tries s1) = false -> commit_fails fails (st_tries s1) = true -> at_once fails l s = AUb.
Proof. exact first_undefined. Qed.

(** A mock whose method was mentioned before stays one that can be called, whatever fails. *)
Theorem C100_callable : forall fails l s, sound s ->
  match at_once fails l s with
  | AVal s' _ => sound s'
  | AExn s' _ => st_body s <> None -> sound s'
  | _ => True
  end.
Proof. exact at_once_sound. Qed.

(** Only what fails makes a statement throw for want of memory. *)
Theorem C100_memory : forall fails l s s', at_once fails l s = AExn s' OutOfMemory ->
  exists n, st_tries s <= n < st_tries s' /\ fails n = true.
Proof. exact at_once_memory. Qed.

(** Whatever fails in a test with statements of both kinds and calls that gets to its end: destroying the mock is
    defined, and nothing is left if no statement threw. *)
Theorem C100_destroyed : forall fails l s quiet, mixed fails l true no_mock = AVal s quiet ->
  exists s', destroy_mock s = AVal s' tt /\ (quiet = true -> objects s' = []).
Proof. exact mixed_end. Qed.

Definition ao_never : nat -> bool := fun _ => false.
Definition ao_only (n : nat) : nat -> bool := fun i => i =? n.
Definition ao_two : list (option nat) := [Some 1; None].

(** Fake(Method(mock, foo).Using(1), Method(mock, foo)): answered; out of memory for the first, or for the second; or
    undefined. *)
Definition ao_look (r : run unit) : option (bool * list nat * list (nat * thing)) :=
  match r with AVal s _ => Some (true, answers s, objects s) | AExn s _ => Some (false, answers s, objects s) | _ => None end.
Definition ao_at (n : nat) := ao_look (at_once (ao_only n) ao_two no_mock).
Example C100_case :
  ao_look (at_once ao_never ao_two no_mock) =
    Some (true, [14; 16], [(2, ASeq [13; 3] []); (3, ALast); (5, ABody); (6, AArg); (7, AMatcher [6]); (10, ASeq [15; 11] []);
                           (11, ALast); (12, AMatcher []); (13, AAction None); (14, AHandler [2; 7]);
                           (15, AAction None); (16, AHandler [10; 12])]) /\
  ao_at 33 = Some (false, [], [(5, ABody)]) /\
  ao_at 34 = None /\
  ao_at 43 = Some (false, [14], [(2, ASeq [13; 3] []); (3, ALast); (5, ABody); (6, AArg); (7, AMatcher [6]);
                                 (13, AAction None); (14, AHandler [2; 7])]) /\
  ao_at 44 = None.
Proof. vm_compute. repeat split; reflexivity. Qed.

(** Refuted that it is all or nothing: Fake of two expressions throws, and the first is faked. *)
Theorem C100_all_refuted : exists fails s' h o,
  at_once fails ao_two no_mock = AExn s' OutOfMemory /\ answers no_mock = [] /\ answers s' = [h] /\
  answer h (Some 1) [None] o /\ incl o (objects s').
Proof.
  exists (ao_only 43). do 3 eexists. split; [vm_compute; reflexivity|]. split; [reflexivity|]. split; [vm_compute; reflexivity|].
  split.
  - exists 2, 7, 3, [13], [6]. repeat split.
  - intros y K. cbn in K. vm_compute. intuition.
Qed.

Example C100_tidy_case : exists s0 ys s',
  expressions (ao_only 43) ao_two no_mock = AVal s0 ys /\ length ys = 2 /\ at_once (ao_only 43) ao_two no_mock = AExn s' OutOfMemory /\
  st_tries no_mock = 0 /\ st_tries s' = 44.
Proof. do 3 eexists. split; [vm_compute; reflexivity|]. split; [reflexivity|]. split; [vm_compute; reflexivity|]. split; reflexivity. Qed.

Example C100_commit_case : exists s0 y ys s1,
  expressions (ao_only 35) ao_two no_mock = AVal s0 (y :: ys) /\ append (ao_only 35) None y s0 = AVal s1 tt /\
  st_tries s1 = 33 /\ commit_fails (ao_only 35) 33 = true /\ at_once (ao_only 35) ao_two no_mock = AUb.
Proof. do 4 eexists. split; [vm_compute; reflexivity|]. repeat split; vm_compute; reflexivity. Qed.

Example C91_lost_case : exists s' s2,
  when (ao_only 6) (Some 1) [None] no_mock = AExn s' OutOfMemory /\ objects s' = [(0, ACtx); (2, ASeq [3] []); (3, ALast)] /\
  when (ao_only 19) (Some 1) [None] no_mock = AExn s2 OutOfMemory /\ objects s2 = [(5, ABody); (8, AChange)].
Proof. do 2 eexists. split; [vm_compute; reflexivity|]. split; [reflexivity|]. split; [vm_compute; reflexivity|]. reflexivity. Qed.

(** A mock whose method was mentioned, and a Spy of it that throws. *)
Definition ao_mock : state := mkState 14 [Some ABody] true (Some (mkBody 0 [] [])).
Example C100_callable_case : sound ao_mock /\ st_body ao_mock <> None /\
  exists s', at_once (ao_only 23) [None] ao_mock = AExn s' OutOfMemory /\ sound s'.
Proof.
  assert (S0 : sound ao_mock) by (split; [discriminate | contradiction]).
  split; [exact S0|]. split; [discriminate|].
  assert (K := C100_callable (ao_only 23) [None] ao_mock S0).
  destruct (at_once (ao_only 23) [None] ao_mock) as [s' u|s' x| |] eqn:E; try (vm_compute in E; discriminate E).
  exists s'. assert (x = OutOfMemory).
  { assert (A := C100 (ao_only 23) [None] ao_mock). rewrite E in A. apply A. }
  subst x. split; [reflexivity | apply K; discriminate].
Qed.

(** A faked method that is called, stubbed, called again and assigned; all of it fits, or the assignment does not. *)
Definition ao_test : list mixed_step :=
  [MAtOnce [None]; MOld (TCall (Some 0) true); MOld (TWhen (Some 1) [Some 1%Z]); MOld (TCall (Some 1) true); MAtOnce [Some 1]; MOld (TCall (Some 0) false)].
Definition ao_end (r : run bool) : option (bool * nat * list (nat * thing)) :=
  match r with
  | AVal s q => match destroy_mock s with AVal s' _ => Some (q, length (history s), objects s') | _ => None end
  | _ => None
  end.
Example C100_destroyed_case :
  ao_end (mixed ao_never ao_test true no_mock) = Some (true, 3, []) /\
  ao_end (mixed (ao_only 72) ao_test true no_mock) = Some (false, 3, [(25, AArg)]).
Proof. vm_compute. repeat split; reflexivity. Qed.

Definition P_AtOnce_theorems :=
  (C100, C100_tidy, C100_commit_refuted, C100_callable, C100_memory, C100_destroyed, C100_all_refuted, C91_lost).
Print Assumptions P_AtOnce_theorems.
