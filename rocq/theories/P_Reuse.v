(** C117: memory that is used again. *)
From Coq Require Import Bool Arith Lia List.
From Verif Require Import Base Reuse Spec_Reuse ReuseProofs.
Import ListNotations.

(** The examples.  Condition 0 accepts every second question, the others accept the arguments below them. *)
Definition says (p n a : nat) : bool := match p with 0 => Nat.even n | _ => a <? p end.
(** A memory manager that takes the lowest free place, and one that never uses a place again. *)
Fixpoint lowest (fuel k : nat) (l : list nat) : nat :=
  match fuel with
  | 0 => k
  | S f => if existsb (Nat.eqb k) l then lowest f (S k) l else k
  end.
Definition tight (n : nat) (l : list nat) : nat := lowest (S (list_max l)) 0 l.
Definition wasteful (n : nat) (l : list nat) : nat := S (list_max l) + n.

Lemma in_max : forall l x, In x l -> x <= list_max l.
Proof. intros l x H. pose proof (proj1 (list_max_le l (list_max l)) (le_n _)) as F. rewrite Forall_forall in F. auto. Qed.

Lemma wasteful_honest : honest wasteful.
Proof. intros n l H. apply in_max in H. unfold wasteful in H. lia. Qed.

Lemma lowest_free : forall f k l, list_max l < k + f -> ~ In (lowest f k l) l.
Proof.
  induction f as [|f IH]; intros k l H; cbn [lowest].
  - intro Hin. apply in_max in Hin. lia.
  - destruct (existsb (Nat.eqb k) l) eqn:E.
    + apply IH. lia.
    + intro Hin. assert (existsb (Nat.eqb k) l = true); [|congruence]. apply existsb_exists. exists k. split; auto. apply Nat.eqb_refl.
Qed.

Lemma tight_honest : honest tight.
Proof. intros n l. apply lowest_free. lia. Qed.

Definition a_test : list (event nat nat) :=
  [Keep 7 5; Check 3; StubKept 7; Call 4; Call 9; Check 5; Drop 7; Stub 0; Call 9; Call 9; Keep 8 0; Check 0; CheckKept 8; Drop 8; Check 10;
   Keep 9 0; StubKept 9; Call 1; Call 1; CheckKept 9; Clear; Call 2; Check 5; Renew; Stub 4; Call 3; Check 1].

(** C117: whatever places an honest memory manager chooses, also those of objects that were destroyed, a test that keeps to the rules
    shows exactly what it is meant to show if expressions are told apart by when they were made: a temporary or later expression is
    never taken for the one that answered a call.  The matcher that answered a recorded call always exists. *)
Theorem C117_meaning : forall (A P : Type) (accepts : P -> nat -> A -> bool) (place : nat -> list nat -> nat)
  (es : list (event A P)) m l, honest place -> all_meant accepts nothing es = Some (m, l) ->
  exists s, steps accepts place fresh es = Def (s, l) /\
    (forall c, In c (calls s) -> exists o, deref (objs s) (snd c) = Def o) /\
    map (fun c => (fst c, p_obj (snd c))) (calls s) = history m.
Proof. exact (@reuse_ok). Qed.

Example C117_meaning_ex : honest tight /\ option_map snd (all_meant says nothing a_test) =
  Some [Matched 0; AnsweredBy 0; Unexpected; Matched 1; Unexpected; Unexpected; Matched 0; Matched 1; Matched 1; AnsweredBy 7;
        AnsweredBy 3; Matched 2; AnsweredBy 3; Matched 1; AnsweredBy 9; Matched 0].
Proof. split; [exact tight_honest|]. vm_compute. reflexivity. Qed.

(** C117: two memory managers show the same. *)
Theorem C117_managers : forall (A P : Type) (accepts : P -> nat -> A -> bool) place1 place2 (es : list (event A P)) m l,
  honest place1 -> honest place2 -> all_meant accepts nothing es = Some (m, l) ->
  exists s1 s2, steps accepts place1 fresh es = Def (s1, l) /\ steps accepts place2 fresh es = Def (s2, l).
Proof. exact managers_agree. Qed.

Example C117_managers_ex : honest tight /\ honest wasteful /\
  exists s1 s2 l, steps says tight fresh a_test = Def (s1, l) /\ steps says wasteful fresh a_test = Def (s2, l) /\
    map o_addr (objs s1) = [0] /\ map o_addr (objs s2) = [10].
Proof. split; [exact tight_honest|]. split; [exact wasteful_honest|]. eexists _, _, _. vm_compute. auto. Qed.

(** C117: a verification by a condition whose answer depends on the arguments only counts the recorded calls it accepts. *)
Theorem C117_counts : forall (A P : Type) (accepts : P -> nat -> A -> bool) place (es : list (event A P)) m l p,
  honest place -> all_meant accepts nothing es = Some (m, l) -> (forall n a, accepts p n a = accepts p 0 a) ->
  exists s, steps accepts place fresh (es ++ [Check p]) =
    Def (s, l ++ [Matched (length (filter (fun c => accepts p 0 (fst c)) (history m)))]).
Proof. exact (@check_pure). Qed.

Example C117_counts_ex : (forall n a, says 5 n a = says 5 0 a) /\
  option_map (fun x => map fst (history (fst x))) (all_meant says nothing (firstn 19 a_test)) = Some [4; 1; 1].
Proof. split; [reflexivity|]. vm_compute. reflexivity. Qed.

(** C117: an expression that was used for a stubbing counts all recorded calls that this stubbing answered, whatever its condition
    says when it is verified. *)
Theorem C117_own : forall (A P : Type) (accepts : P -> nat -> A -> bool) place (es : list (event A P)) m l v i p,
  honest place -> all_meant accepts nothing es = Some (m, l) -> entry (named m) v = Some (i, p, Given) ->
  exists s k, steps accepts place fresh (es ++ [CheckKept v]) = Def (s, l ++ [Matched k]) /\
    length (filter (fun c => p_obj (snd c) =? i) (calls s)) <= k.
Proof. exact (@own_counted). Qed.

Example C117_own_ex : option_map (fun x => entry (named (fst x)) 9) (all_meant says nothing (firstn 19 a_test)) = Some (Some (7, 0, Given)).
Proof. vm_compute. reflexivity. Qed.

(** C117: the rule about Reset is needed: verifying an expression whose stubbing was reset is undefined as soon as there are calls,
    even if a new matcher lies at the same place. *)
Theorem C117_gone : forall (A P : Type) (accepts : P -> nat -> A -> bool) place (es : list (event A P)) m l v i p,
  honest place -> all_meant accepts nothing es = Some (m, l) -> entry (named m) v = Some (i, p, Gone) -> history m <> [] ->
  steps accepts place fresh (es ++ [CheckKept v]) = UB.
Proof. exact (@gone_ok). Qed.

Example C117_gone_ex : exists m l, all_meant says nothing a_test = Some (m, l) /\ entry (named m) 9 = Some (7, 0, Gone) /\ history m <> [].
Proof. eexists _, _. vm_compute. repeat split; auto. discriminate. Qed.

(** C117: the matchers that exist after such a test are those of the stubbings and of the variables that were not used for one, each
    once: temporaries are gone, and so is everything that was reset. *)
Theorem C117_exist : forall (A P : Type) (accepts : P -> nat -> A -> bool) place (es : list (event A P)) m l,
  honest place -> all_meant accepts nothing es = Some (m, l) ->
  exists s, steps accepts place fresh es = Def (s, l) /\ NoDup (map o_id (objs s)) /\
    forall i, In i (map o_id (objs s)) <-> (In i (map fst (answering m)) \/ exists v p, In (v, (i, p, Free)) (named m)).
Proof. exact (@exact_objects). Qed.

Example C117_exist_ex : exists m l, all_meant says nothing (firstn 19 a_test) = Some (m, l) /\ map fst (answering m) = [7; 3; 0].
Proof. eexists _, _. vm_compute. auto. Qed.

(** C117: a verification by a condition with a memory cannot be repeated. *)
Theorem C117_repeated_refuted : ~ (forall (es : list (event nat nat)) p s l j k,
  steps says tight fresh (es ++ [Check p; Check p]) = Def (s, l ++ [Matched j; Matched k]) -> j = k).
Proof.
  intro H. specialize (H [Stub 5; Call 1] 0 _ [AnsweredBy 0] 0 1 ltac:(vm_compute; reflexivity)). discriminate.
Qed.

(** C117: and an honest memory manager is needed: one that hands out places that are in use makes a verification count calls that it
    should not. *)
Theorem C117_honest_refuted : ~ (forall (place : nat -> list nat -> nat) (es : list (event nat nat)) m l,
  all_meant says nothing es = Some (m, l) -> exists s, steps says place fresh es = Def (s, l)).
Proof.
  intro H. destruct (H (fun _ _ => 0) [Stub 5; Call 4; Check 3] _ _ ltac:(vm_compute; reflexivity)) as [s S].
  vm_compute in S. discriminate.
Qed.

Definition C117_all := (@C117_meaning, C117_managers, @C117_counts, @C117_own, @C117_gone, @C117_exist, C117_repeated_refuted, C117_honest_refuted).
Print Assumptions C117_all.
