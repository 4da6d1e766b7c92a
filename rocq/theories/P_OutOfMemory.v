(** C91: what running out of memory does to a mock.  Theorems only; see Spec_OutOfMemory for the words used. *)
From Coq Require Import Bool Arith ZArith Lia Permutation List.
From Verif Require Import Base OutOfMemory Spec_OutOfMemory OutOfMemoryProofs.
Import ListNotations.
Open Scope nat_scope.

(** A stubbing statement either adds its answer to the mock, all of it and nothing else, or throws and leaves
    every object, the answers and the calls of the mock as they were - unless it is undefined, which it is only
    if one of four allocations at its end fails. *)
Theorem C91 : forall fails args acts s,
  match when fails args acts s with
  | AVal s' _ => exists h l, answers s' = answers s ++ [h] /\ history s' = history s /\
      answer h args acts l /\ Permutation (objects s') (l ++ first_mention s s' ++ objects s)
  | AExn s' x => x = OutOfMemory /\ kept s s'
  | ATerminate => False
  | AUb => exists s1 p, prepare fails args acts s = AVal s1 p /\ fails (st_tries s1) = false /\ commit_fails fails (st_tries s1) = true
  end.
Proof. exact when_all. Qed.

(** Refuted that a stubbing statement which runs out of memory is always defined: if one of those four fails. *)
Theorem C91_commit_refuted : forall fails args acts s s1 p,
  prepare fails args acts s = AVal s1 p -> fails (st_tries s1) = false -> commit_fails fails (st_tries s1) = true ->
  when fails args acts s = AUb.
Proof. exact when_undefined. Qed.

(** Once When(…) has its expression, a statement that throws leaves nothing allocated. *)
Theorem C91_tidy : forall fails args acts s s0 p s' x,
  start fails args s = AVal s0 p -> when fails args acts s = AExn s' x -> tidy s s'.
Proof. exact when_tidy. Qed.

(** Refuted that this is so from the beginning: without memory for the expression its context is never freed. *)
Theorem C91_tidy_refuted : forall fails args acts s,
  fails (st_tries s) = false -> fails (S (st_tries s)) = true ->
  exists s' i, when fails args acts s = AExn s' OutOfMemory /\ st_body s' = st_body s /\
    Permutation (objects s') ((i, ACtx) :: objects s).
Proof. exact when_leaks. Qed.

(** A mock whose method was mentioned before stays one that can be called, whatever fails. *)
Theorem C91_callable : forall fails args acts s, sound s ->
  match when fails args acts s with
  | AVal s' _ => sound s'
  | AExn s' _ => st_body s <> None -> sound s'
  | _ => True
  end.
Proof. exact when_sound. Qed.

(** A call of such a mock is defined.  It is answered, or throws what the action throws, is remembered and takes
    one use of the next action of the answer, which goes on owning it; or it
    throws for want of memory or of an answer, and then no answer is used up.  It ends the program only if it
    uses an action for the last time and that cannot be put with the used ones. *)
Theorem C91_call : forall fails pick ok s, sound s -> (forall h, pick = Some h -> In h (answers s)) ->
  match call fails pick ok s with
  | AVal s' _ => ok = true /\ sound s' /\ answers s' = answers s /\ exists h, pick = Some h /\ answered s s' h
  | AExn s' UserError => ok = false /\ sound s' /\ answers s' = answers s /\ exists h, pick = Some h /\ answered s s' h
  | AExn s' OutOfMemory => sound s' /\ answers s' = answers s /\ starved s s'
  | AExn s' Unexpected => sound s' /\ answers s' = answers s /\ starved s s' /\
      (st_entry s = false \/ pick = None \/ exists h a, pick = Some h /\ next s h a ALast)
  | AExn _ _ => False
  | ATerminate => fails (5 + st_tries s) = true /\ exists h a, pick = Some h /\ next s h a (AAction (Some 1%Z))
  | AUb => False
  end.
Proof. exact call_all. Qed.

(** Only what fails makes a statement or a call throw for want of memory. *)
Theorem C91_memory : forall fails s s',
  (forall args acts, when fails args acts s = AExn s' OutOfMemory -> exists n, st_tries s <= n < st_tries s' /\ fails n = true) /\
  (forall pick ok, call fails pick ok s = AExn s' OutOfMemory -> exists n, st_tries s <= n < st_tries s' /\ fails n = true).
Proof. intros fails s s'. split; intros; [eapply when_memory | eapply call_memory]; eassumption. Qed.

(** Whatever fails in a test that catches what its statements and calls throw and gets to its end: destroying the mock is
    defined, and nothing is left if no stubbing statement threw. *)
Theorem C91_destroyed : forall fails l s quiet, session fails l true no_mock = AVal s quiet ->
  exists s', destroy_mock s = AVal s' tt /\ (quiet = true -> objects s' = []).
Proof. exact session_end. Qed.

(** A mock of which nothing was mentioned, and one with a method that takes an argument and answers once. *)
Definition om_fresh : state := mkState 0 [] false None.
Definition om_never : nat -> bool := fun _ => false.
Definition om_only (n : nat) : nat -> bool := fun i => i =? n.
Definition om_mock : state :=
  mkState 30 [None; None; Some (ASeq [9; 3] []); Some ALast; None; Some ABody; Some AArg; Some (AMatcher [6]); None;
              Some (AAction (Some 1%Z)); Some (AHandler [2; 7])] true (Some (mkBody 5 [10] [])).

Lemma om_fresh_sound : sound om_fresh.
Proof. split; [discriminate | contradiction]. Qed.

Lemma om_mock_sound : sound om_mock.
Proof.
  assert (K := C91_callable om_never (Some 1) [Some 1%Z] om_fresh om_fresh_sound).
  assert (E : when om_never (Some 1) [Some 1%Z] om_fresh = AVal om_mock tt) by (vm_compute; reflexivity).
  rewrite E in K. exact K.
Qed.

Example C91_case :
  when om_never (Some 1) [Some 1%Z] om_fresh = AVal om_mock tt /\ answers om_mock = [10] /\
  objects om_mock = [(2, ASeq [9; 3] []); (3, ALast); (5, ABody); (6, AArg); (7, AMatcher [6]); (9, AAction (Some 1%Z)); (10, AHandler [2; 7])] /\
  (exists s', when (om_only 44) None [None] om_mock = AExn s' OutOfMemory /\ kept om_mock s').
Proof.
  split; [vm_compute; reflexivity|]. split; [reflexivity|]. split; [reflexivity|].
  assert (K := C91 (om_only 44) None [None] om_mock).
  destruct (when (om_only 44) None [None] om_mock) as [s' u|s' x| |] eqn:E; try (vm_compute in E; discriminate E).
  destruct K as [-> K]. exists s'. split; [reflexivity | exact K].
Qed.

Example C91_commit_case : exists s1 p,
  prepare (om_only 27) (Some 1) [Some 1%Z] om_fresh = AVal s1 p /\ st_tries s1 = 25 /\
  commit_fails (om_only 27) 25 = true /\ when (om_only 27) (Some 1) [Some 1%Z] om_fresh = AUb.
Proof. do 2 eexists. split; [vm_compute; reflexivity|]. repeat split; vm_compute; reflexivity. Qed.

Example C91_memory_case : exists s',
  when (om_only 44) None [None] om_mock = AExn s' OutOfMemory /\ st_tries om_mock = 30 /\ st_tries s' = 45.
Proof. eexists. split; [vm_compute; reflexivity|]. split; vm_compute; reflexivity. Qed.

Example C91_tidy_case : exists s0 p s',
  start (om_only 22) (Some 1) om_fresh = AVal s0 p /\ when (om_only 22) (Some 1) [Some 1%Z] om_fresh = AExn s' OutOfMemory /\
  objects s' = [(5, ABody)] /\ first_mention om_fresh s' = [(5, ABody)].
Proof. do 3 eexists. split; [vm_compute; reflexivity|]. split; [vm_compute; reflexivity|]. split; vm_compute; reflexivity. Qed.

(** What else is left behind: the answers so far, matchers of arguments, and the note that a statement is open. *)
Example C91_tidy_refuted_case :
  map (fun n => match when (om_only n) (Some 1) [Some 1%Z] om_fresh with AExn s' OutOfMemory => objects s' | _ => [] end) [1; 6; 16; 19]
  = [[(0, ACtx)]; [(0, ACtx); (2, ASeq [3] []); (3, ALast)]; [(5, ABody); (6, AArg)]; [(5, ABody); (8, AChange)]].
Proof. vm_compute; reflexivity. Qed.

Example C91_callable_case : st_body om_mock <> None /\ sound om_mock.
Proof. split; [discriminate | exact om_mock_sound]. Qed.

Example C91_call_case :
  (exists s', call om_never (Some 10) true om_mock = AVal s' tt /\ history s' = [11] /\
     In (2, ASeq [3] [9]) (objects s')) /\
  (exists s', call om_never None true om_mock = AExn s' Unexpected /\ history s' = []) /\
  (exists s', call (om_only 31) (Some 10) true om_mock = AExn s' OutOfMemory /\ objects s' = objects om_mock).
Proof.
  split; [|split]; eexists; (split; [vm_compute; reflexivity|]).
  - split; [vm_compute; reflexivity|]. vm_compute. auto.
  - vm_compute; reflexivity.
  - vm_compute; reflexivity.
Qed.

(** Two answers, one of them used up, calls that throw for want of memory, of an answer, and of luck; and a statement
    that leaks. *)
Definition om_test : list test_step :=
  [TWhen (Some 1) [Some 1%Z; Some 2%Z]; TCall (Some 0) true; TCall (Some 0) false; TWhen None [None]; TCall (Some 1) true; TCall None true; TCall (Some 0) true].
Definition om_end (r : run bool) : option (bool * nat * list (nat * thing)) :=
  match r with
  | AVal s q => match destroy_mock s with AVal s' _ => Some (q, length (history s), objects s') | _ => None end
  | _ => None
  end.
Example C91_destroyed_case :
  om_end (session om_never om_test true no_mock) = Some (true, 4, []) /\
  om_end (session (om_only 37) om_test true no_mock) = Some (true, 3, []) /\
  om_end (session (om_only 48) om_test true no_mock) = Some (false, 3, [(14, ACtx)]).
Proof. vm_compute. repeat split; reflexivity. Qed.

(** Refuted that a mock of which nothing was mentioned stays one that can be called: if the first mention of a method
    runs out of memory at the wrong place, any later call of the method is undefined, while before it threw. *)
Theorem C91_callable_refuted : exists fails s',
  sound om_fresh /\ when fails (Some 1) [Some 1%Z] om_fresh = AExn s' OutOfMemory /\
  (forall fails' pick ok, call fails' pick ok s' = AUb) /\
  call om_never None true om_fresh = AExn (mkState 1 [] false None) Unexpected.
Proof.
  exists (om_only 12). eexists. split; [exact om_fresh_sound|]. split; [vm_compute; reflexivity|]. split; vm_compute; reflexivity.
Qed.

(** Refuted that a call that runs out of memory throws, and that it is as if it had not been made: the program may
    end, and the mock may remember a call that nobody got an answer to. *)
Theorem C91_call_refuted : exists s h, sound s /\ In h (answers s) /\
  call (om_only (5 + st_tries s)) (Some h) true s = ATerminate /\
  exists s' i, call (om_only (4 + st_tries s)) (Some h) true s = AExn s' OutOfMemory /\ history s = [] /\ history s' = [i].
Proof.
  exists om_mock, 10. split; [exact om_mock_sound|]. split; [now left|]. split; [vm_compute; reflexivity|].
  do 2 eexists. split; [vm_compute; reflexivity|]. split; vm_compute; reflexivity.
Qed.

Definition P_OutOfMemory_theorems :=
  (C91, C91_commit_refuted, C91_tidy, C91_tidy_refuted, C91_callable, C91_callable_refuted, C91_call, C91_call_refuted,
   C91_memory, C91_destroyed).
Print Assumptions P_OutOfMemory_theorems.
