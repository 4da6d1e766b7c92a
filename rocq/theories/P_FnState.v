(** C116: function objects with a memory. *)
From Coq Require Import ZArith Arith Lia List.
From Verif Require Import Base CInt ActionSeq FnState Spec_FnState FnStateProofs.
Import ListNotations.
Open Scope nat_scope.

(** The examples: a counter that adds the argument to its sum and yields the sum. *)
Definition adder (o a : nat) : nat * nat := (o + a, o + a).
Definition a_test : list (event nat) :=
  [Own 0 2; Stub [Once (Copied 0); Times (Copied 0) 2; Once (Referred 1)]; Own 0 50; Call 1; Call 1; Call 1; Call 7; Own 1 1; Call 1;
   Stub [Assign (Copied 1)]; Call 3; Own 1 1; Call 3; ResetMock; Call 1; Stub [Always (Copied 0)]].

Lemma a_test_fair : Forall (fair 2) a_test.
Proof. unfold a_test, fair. repeat (constructor; cbn [names link_given]; try lia). all: try lia. Qed.

(** C116: in every test that stubs, calls, uses its own function objects and resets, in any order, the calls yield what they are
    meant to (each link has its own object made at the statement, or the test's object by std::ref), nothing is undefined, the
    test's objects end as they are meant to, and exactly one function object per link written since the last Reset is alive beside
    them: no temporary is left, and links that are used up or covered by newer stubbings are still held. *)
Theorem C116_meaning : forall (Ob A R : Type) (beh : Ob -> A -> Ob * R) (os : list Ob) (es : list (event A)),
  Forall (fair (length os)) es ->
  exists w, steps beh (start os) es = Def (w, snd (meant_steps beh (mkMind os []) es)) /\
    (forall x, x < length os -> own_object w x = nth_error (objs (fst (meant_steps beh (mkMind os []) es))) x) /\
    living w = length os + since 0 es.
Proof. exact (@meaning). Qed.

Example C116_meaning_ex :
  Forall (fair (length [10; 20])) a_test /\
  snd (meant_steps adder (mkMind [10; 20] []) a_test) =
    [Yields 12; Yields 62; Yields 13; Yields 13; Yields 14; Yields 27; Yields 28; Nothing; Yields 31; Yields 29; Yields 34; Nothing] /\
  objs (fst (meant_steps adder (mkMind [10; 20] []) a_test)) = [62; 29] /\ since 0 a_test = 1 /\ since 0 (firstn 10 a_test) = 4.
Proof. split; [exact a_test_fair|]. vm_compute. auto. Qed.

(** C116: an object of the test that is never given as std::ref changes only by the test's own calls of it. *)
Theorem C116_own : forall (Ob A R : Type) (beh : Ob -> A -> Ob * R) (os : list Ob) (es : list (event A)) x,
  Forall (fair (length os)) es -> Forall (fun e => ~ refers x e) es -> x < length os ->
  exists w l, steps beh (start os) es = Def (w, l) /\
    own_object w x = option_map (fun o => snd (row beh o (own_calls x es))) (nth_error os x).
Proof. exact (@own_unchanged). Qed.

Example C116_own_ex : Forall (fun e => ~ refers 0 e) a_test /\ own_calls 0 a_test = [2; 50] /\ snd (row adder 10 [2; 50]) = 62.
Proof.
  split; [|auto]. apply Forall_forall. intros e He. unfold a_test in He. cbn [In] in He.
  repeat destruct He as [<-|He]; cbn [refers]; try (intros []; fail); try destruct He;
    rewrite Exists_exists; intros (l & Hl & E); cbn [In] in Hl; repeat destruct Hl as [<-|Hl]; try destruct Hl; discriminate.
Qed.

(** C116: the object of a link keeps its state from call to call, for as many calls as the link answers. *)
Theorem C116_memory : forall (Ob A R : Type) (beh : Ob -> A -> Ob * R) (os : list Ob) x o l (xs : list A),
  nth_error os x = Some o -> link_given l = Copied x -> fair_link (length os) l ->
  (match count_of l with Some n => Z.of_nat (length xs) <= n | None => True end)%Z ->
  exists w, steps beh (start os) (Stub [l] :: map (fun a => Call a) xs) = Def (w, map (fun r => Yields r) (fst (row beh o xs))) /\
    own_object w x = Some o.
Proof. exact (@memory). Qed.

Example C116_memory_ex : nth_error [10; 20] 1 = Some 20 /\ fair_link 2 (Times (Copied 1) 3) /\
  fst (row adder 20 [1; 1; 1]) = [21; 22; 23].
Proof. repeat split; auto; cbn; lia. Qed.

(** C116: the test's object and the one made of it by AlwaysDo or an assignment go their own ways, in any order of calls. *)
Theorem C116_apart : forall (Ob A R : Type) (beh : Ob -> A -> Ob * R) (os : list Ob) x o l (ms : list (bool * A)),
  nth_error os x = Some o -> link_given l = Copied x -> count_of l = None ->
  exists w, steps beh (start os) (Stub [l] :: mixture x ms) = Def (w, map (fun r => Yields r) (two_rows beh o o ms)).
Proof. exact (@apart). Qed.

Example C116_apart_ex : count_of (Assign (Copied 1)) = None /\
  two_rows adder 20 20 [(true, 1); (false, 5); (true, 1); (false, 5)] = [21; 25; 22; 30].
Proof. split; reflexivity. Qed.

(** C116: with std::ref there is one object: calls of the mocked method and of the test's object continue each other. *)
Theorem C116_together : forall (Ob A R : Type) (beh : Ob -> A -> Ob * R) (os : list Ob) x o l (ms : list (bool * A)),
  nth_error os x = Some o -> link_given l = Referred x -> count_of l = None ->
  exists w, steps beh (start os) (Stub [l] :: mixture x ms) = Def (w, map (fun r => Yields r) (fst (row beh o (map snd ms)))) /\
    own_object w x = Some (snd (row beh o (map snd ms))).
Proof. exact (@together). Qed.

Example C116_together_ex : row adder 20 (map snd [(true, 1); (false, 5); (true, 1); (false, 5)]) = ([21; 26; 27; 32], 32).
Proof. reflexivity. Qed.

(** C116: Do(f, f, …, f): every link begins with the state [f] had at the statement, whatever the links before it did. *)
Theorem C116_each : forall (Ob A R : Type) (beh : Ob -> A -> Ob * R) (os : list Ob) x o (a : A) n,
  nth_error os x = Some o ->
  exists w, steps beh (start os) (Stub (repeat (Once (Copied x)) n) :: repeat (Call a) n) =
    Def (w, repeat (Yields (snd (beh o a))) n).
Proof. exact (@each_its_own). Qed.

Example C116_each_ex : nth_error [10; 20] 1 = Some 20 /\ repeat (Yields (snd (adder 20 1))) 3 = [Yields 21; Yields 21; Yields 21].
Proof. split; reflexivity. Qed.

(** C116: a function is copied when it is given, three times by Do(f) and AlwaysDo(f), twice under a quantity and five times by an
    assignment, and never by a call. *)
Theorem C116_copies : forall (Ob A R : Type) (beh : Ob -> A -> Ob * R) (es : list (event A)) (w w' : world Ob) l,
  steps beh w es = Def (w', l) -> ever w' = ever w + all_made es.
Proof. exact (@copies_made). Qed.

Example C116_copies_ex : exists w l, steps adder (start [10; 20]) a_test = Def (w, l) /\ ever w = 2 + (3 + 2 + 3 + 5 + 3).
Proof. eexists _, _. split; [vm_compute; reflexivity|reflexivity]. Qed.

(** C116: so Do(f, f) is not Do(2_Times(f)) for a function with a memory. *)
Theorem C116_times_refuted : ~ (forall (os : list nat) x (xs : list nat) w1 l1 w2 l2, x < length os ->
  steps adder (start os) (Stub [Once (Copied x); Once (Copied x)] :: map (fun a => Call a) xs) = Def (w1, l1) ->
  steps adder (start os) (Stub [Times (Copied x) 2] :: map (fun a => Call a) xs) = Def (w2, l2) -> l1 = l2).
Proof.
  intro H. specialize (H [10] 0 [1; 1] _ _ _ _ ltac:(cbn; lia) ltac:(vm_compute; reflexivity) ltac:(vm_compute; reflexivity)).
  discriminate.
Qed.

(** C116: what a function object holds (a captured shared_ptr) is not let go when the object has answered its last call. *)
Theorem C116_released_refuted : exists w l,
  steps adder (start [10]) [Stub [Once (Copied 0)]; Call 1; Call 1; Stub [Once (Copied 0)]; Call 1] = Def (w, l) /\
  l = [Yields 11; Nothing; Yields 11] /\ living w = 3.
Proof. eexists _, _. vm_compute. auto. Qed.

Definition C116_all := (C116_meaning, C116_own, C116_memory, C116_apart, C116_together, C116_each, C116_copies, C116_times_refuted,
  C116_released_refuted).
Print Assumptions C116_all.
