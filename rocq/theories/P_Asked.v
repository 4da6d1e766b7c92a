(** C112: which questions a verification asks the conditions. *)
From Coq Require Import Bool Arith List.
From Verif Require Import Base Spec_Match Asked Spec_Asked AskedProofs.
Import ListNotations.

(** The conditions of the examples count how often they were asked; condition [m] says yes to the call [m], and throws at call 9. *)
Definition counting (t m i : nat) : nat * reply := (S t, if i =? 9 then Raise else if m =? i then Yes else No).

(** C112: a verification comes to an end without undefined behaviour whatever the conditions do with their memory.  It asks only
    conditions that stand in the pattern, only about calls that are there, in order: the attempts start at later and later calls,
    and each goes from call to call.  An exception of a condition is the last thing that happens. *)
Theorem C112_questions : forall (T M I : Type) (ask : T -> M -> I -> T * reply) (pattern : list (list M)) (actual : list I) (t : T),
  proper pattern ->
  exists t' qs r, verify ask pattern actual t = Def (t', qs, r) /\ dialogue ask t qs t' /\ Forall (sensible pattern actual) qs /\ ordered before qs /\
    match r with
    | Some _ => Forall (fun q => q_said q <> Raise) qs
    | None => exists l q, qs = l ++ [q] /\ q_said q = Raise /\ Forall (fun q => q_said q <> Raise) l
    end.
Proof. exact @verify_ends. Qed.

Example C112_questions_ex : proper [[1; 2]] /\ exists qs, verify counting [[1; 2]] [1; 1; 2; 9; 1] 0 = Def (5, qs, None) /\
  map (fun q => (q_start q, q_off q)) qs = [(0, 0); (0, 1); (1, 0); (1, 1); (3, 0)].
Proof. split; [split; [discriminate|repeat constructor; discriminate]|]. eexists. split; vm_compute; reflexivity. Qed.

(** C112: no call is asked about more often than the longest sequence of the pattern has expectations. *)
Theorem C112_bounded : forall (T M I : Type) (ask : T -> M -> I -> T * reply) (pattern : list (list M)) (actual : list I) t t' qs r k,
  proper pattern -> no_longer k pattern -> verify ask pattern actual t = Def (t', qs, r) ->
  length qs <= length actual * k /\ forall c, length (filter (fun q => place q =? c) qs) <= k.
Proof. exact @verify_bound. Qed.

Example C112_bounded_ex : proper [[1; 2]; [3]] /\ no_longer 2 [[1; 2]; [3]] /\
  exists qs, verify counting [[1; 2]; [3]] [1; 1; 2; 4; 3; 1] 0 = Def (6, qs, Some 1).
Proof. repeat split; try discriminate; repeat constructor; try discriminate. eexists. vm_compute. reflexivity. Qed.

(** C112: if no sequence has more than one expectation, each call is asked about once at most, in the order of the calls. *)
Theorem C112_once : forall (T M I : Type) (ask : T -> M -> I -> T * reply) (pattern : list (list M)) (actual : list I) t t' qs r,
  proper pattern -> no_longer 1 pattern -> verify ask pattern actual t = Def (t', qs, r) ->
  ordered lt (map place qs).
Proof. exact @verify_single. Qed.

Example C112_once_ex : proper [[1]; [2]] /\ no_longer 1 [[1]; [2]] /\
  exists qs, verify counting [[1]; [2]] [1; 1; 2; 1] 0 = Def (4, qs, Some 1) /\ map (@q_who nat nat) qs = [1; 2; 2; 1].
Proof. repeat split; try discriminate; repeat constructor; try discriminate. eexists. split; vm_compute; reflexivity. Qed.

(** C112: one condition alone is asked about every call exactly once, in order, and the calls counted are those it said yes to,
    even if it would say something else when asked again. *)
Theorem C112_one : forall (T M I : Type) (ask : T -> M -> I -> T * reply) (m : M) (actual : list I) t t' qs n,
  verify ask [[m]] actual t = Def (t', qs, Some n) ->
  map place qs = seq 0 (length actual) /\ n = length (filter (fun q => match q_said q with Yes => true | _ => false end) qs).
Proof. exact @verify_one. Qed.

(** A condition that says yes every second time. *)
Definition second (t : nat) (m i : nat) : nat * reply := (S t, if Nat.even t then No else Yes).
Example C112_one_ex : exists qs, verify second [[7]] [1; 1; 1; 1; 1] 0 = Def (5, qs, Some 2).
Proof. eexists. vm_compute. reflexivity. Qed.

(** C112: conditions that remember something but whose answers do not depend on it: the count is the largest number of
    occurrences one after the other. *)
Theorem C112_steady : forall (T M I : Type) (ask : T -> M -> I -> T * reply) (f : M -> I -> bool),
  (forall t m i, snd (ask t m i) = if f m i then Yes else No) ->
  forall (pattern : list (list M)) (actual : list I) (t : T), proper pattern ->
  exists t' qs n, verify ask pattern actual t = Def (t', qs, Some n) /\ max_occurrences (fun m i => f m i = true) actual pattern n.
Proof. exact @verify_steady. Qed.

Example C112_steady_ex : let ask := fun (t m i : nat) => (S t, if m =? i then Yes else No) in
  (forall t m i, snd (ask t m i) = if m =? i then Yes else No) /\ exists qs, verify ask [[1; 2]; [3]] [1; 2; 3; 1; 2; 2; 3; 1] 0 = Def (7, qs, Some 2).
Proof. split; [reflexivity|]. eexists. vm_compute. reflexivity. Qed.

(** C112, "each condition is asked about each call once at most, so a predicate may count the calls it sees": refuted.  For
    f.Matching(p) + f.Matching(p) (written [p; p]) and three calls of which the second is refused, p is asked about the second
    call after the first and, having refused it, again as a first one. *)
Theorem C112_twice_refuted : ~ (forall (ask : nat -> nat -> nat -> nat * reply) pattern actual t t' qs r,
  proper pattern -> verify ask pattern actual t = Def (t', qs, r) -> NoDup (map (fun q => (q_who q, place q)) qs)).
Proof.
  intros H. specialize (H counting [[1; 1]] [1; 2; 1] 0).
  specialize (H 3 [mkQ 0 0 1 1 Yes; mkQ 0 1 1 2 No; mkQ 1 0 1 2 No] (Some 0)).
  assert (proper [[1; 1]]) as P by (split; [discriminate|repeat constructor; discriminate]).
  specialize (H P ltac:(vm_compute; reflexivity)). inversion H as [|x l N1 N2]. inversion N2 as [|x' l' N3 N4]. apply N3. left. reflexivity.
Qed.

(** C112, "a verification that was passed passes again": refuted for conditions whose answers depend on what they remember, here
    one that says yes every second time. *)
Theorem C112_again_refuted : ~ (forall (ask : nat -> nat -> nat -> nat * reply) pattern actual t1 qs1 n1 t2 qs2 n2,
  proper pattern -> verify ask pattern actual 0 = Def (t1, qs1, Some n1) -> verify ask pattern actual t1 = Def (t2, qs2, Some n2) -> n1 = n2).
Proof.
  intros H. specialize (H second [[7]] [1; 1; 1] 3 [mkQ 0 0 7 1 No; mkQ 1 0 7 1 Yes; mkQ 2 0 7 1 No] 1 6 [mkQ 0 0 7 1 Yes; mkQ 1 0 7 1 No; mkQ 2 0 7 1 Yes] 2).
  assert (proper [[7]]) as P by (split; [discriminate|repeat constructor; discriminate]).
  specialize (H P ltac:(vm_compute; reflexivity) ltac:(vm_compute; reflexivity)). discriminate H.
Qed.

Definition C112_all := (@C112_questions, @C112_bounded, @C112_once, @C112_one, @C112_steady, C112_twice_refuted, C112_again_refuted).
Print Assumptions C112_all.
