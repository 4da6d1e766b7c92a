(** Properties of pattern matching in Verify. *)
From Coq Require Import List ZArith Lia.
From Verif Require Import Base CInt Sequences MatchAnalysis Spec_Match SequencesProofs MatchAnalysisProofs.
Import ListNotations.
Open Scope Z_scope.

(** The concrete case used in the examples below: an invocation [i] is a number,
    expectation [m] accepts exactly the number [m]. *)
Definition eqm (m i : nat) : outcome bool := Def (Nat.eqb m i).

(** C22, counting part: a pattern that is a single expectation counts, and marks,
    exactly the accepted invocations. *)
Theorem C22_single_count : forall (I M : Type) (mt : M -> I -> outcome bool) (f : M -> I -> bool)
    (act : list I) (m : M),
  Z.of_nat (length act) <= int_max ->
  (forall i, In i act -> mt m i = Def (f m i)) ->
  countMatches mt [SLeaf m] act = Def (Z.of_nat (length (filter (f m) act)), filter (f m) act).
Proof. exact (fun I M mt f act m H => count_single mt f act H m). Qed.
Print Assumptions C22_single_count.

Example C22_single_count_ex : countMatches eqm [SLeaf 1%nat] [1; 2; 1; 3]%nat = Def (2, [1; 1]%nat).
Proof. exact (C22_single_count nat nat eqm Nat.eqb [1; 2; 1; 3]%nat 1%nat ltac:(cbv; discriminate) (fun i _ => eq_refl)). Qed.

(** C23: one sequence matches at a position iff its elements accept consecutive
    invocations; the search finds the first such position. *)
Theorem C23_contiguous : forall (I M : Type) (mt : M -> I -> outcome bool) (f : M -> I -> bool)
    (act : list I) (s : sequence M) (p : nat),
  Z.of_nat (length act) <= int_max ->
  seq_built s /\ Z.of_nat (length (spelled s)) <= int_max /\
    (forall m i, In m (spelled s) -> In i act -> mt m i = Def (f m i)) ->
  (exists q, findNextMatch_seq mt s act (Z.of_nat p) = Def (Z.of_nat q) /\
     (p <= q)%nat /\ block_at (fun m i => f m i = true) (spelled s) act q /\
     forall r, (p <= r)%nat -> block_at (fun m i => f m i = true) (spelled s) act r -> (q <= r)%nat) \/
  (findNextMatch_seq mt s act (Z.of_nat p) = Def (-1) /\
     forall r, (p <= r)%nat -> ~ block_at (fun m i => f m i = true) (spelled s) act r).
Proof. exact (fun I M mt f act s p H => findNextMatch_seq_spec mt f act H s p). Qed.
Print Assumptions C23_contiguous.

Example C23_contiguous_ex :
  findNextMatch_seq eqm (SConcat (SLeaf 1%nat) (SLeaf 2%nat)) [1; 3; 1; 2]%nat 0 = Def 2 /\
  seq_built (SConcat (SLeaf 1%nat) (SLeaf 2%nat)) /\
  (forall m i, In m [1; 2]%nat -> In i [1; 3; 1; 2]%nat -> eqm m i = Def (Nat.eqb m i)).
Proof. repeat split. Qed.

(** C23, several sequences: an occurrence of the whole pattern is found iff there
    is one, and the one found ends earliest. *)
Theorem C23_in_order : forall (I M : Type) (mt : M -> I -> outcome bool) (f : M -> I -> bool)
    (act : list I) (pattern : list (sequence M)) (s : nat) (matched : list I),
  Z.of_nat (length act) <= int_max ->
  Forall (fun q => seq_built q /\ Z.of_nat (length (spelled q)) <= int_max /\
    (forall m i, In m (spelled q) -> In i act -> mt m i = Def (f m i))) pattern ->
  let occ := occurs (fun m i => f m i = true) act in
  let blocks := map spelled pattern in
  (exists ps e,
     findNextMatch mt pattern act (Z.of_nat s) matched
       = Def (Some (Z.of_nat e), matched ++ occ_items act blocks ps) /\
     occ blocks s ps e /\
     forall s' ps' e', (s <= s')%nat -> occ blocks s' ps' e' -> (e <= e')%nat) \/
  (exists pre post ps e,
     pattern = pre ++ post /\ post <> [] /\
     findNextMatch mt pattern act (Z.of_nat s) matched
       = Def (None, matched ++ occ_items act (map spelled pre) ps) /\
     occ (map spelled pre) s ps e /\
     forall s' ps' e', (s <= s')%nat -> ~ occ blocks s' ps' e').
Proof. exact (fun I M mt f act pattern s matched H => findNextMatch_spec mt f act H pattern s matched). Qed.
Print Assumptions C23_in_order.

Example C23_in_order_ex :
  findNextMatch eqm [SLeaf 1%nat; SLeaf 2%nat] [1; 3; 2; 1]%nat 0 [] = Def (Some 3, [1; 2]%nat).
Proof. reflexivity. Qed.

(** C24 and C25: verification terminates without undefined behaviour, and the
    count is the largest number of occurrences that follow one another. *)
Theorem C24_max_count : forall (I M : Type) (mt : M -> I -> outcome bool) (f : M -> I -> bool)
    (act : list I) (pattern : list (sequence M)),
  Z.of_nat (length act) <= int_max -> pattern <> [] ->
  Forall (fun q => seq_built q /\ Z.of_nat (length (spelled q)) <= int_max /\
    (forall m i, In m (spelled q) -> In i act -> mt m i = Def (f m i))) pattern ->
  exists n marked, countMatches mt pattern act = Def (Z.of_nat n, marked) /\
    max_occurrences (fun m i => f m i = true) act (map spelled pattern) n.
Proof. exact (fun I M mt f act pattern H Hne Hok => count_max mt f act H pattern Hok Hne). Qed.
Print Assumptions C24_max_count.

Example C24_max_count_ex :
  countMatches eqm [SConcat (SLeaf 1%nat) (SLeaf 1%nat); SLeaf 2%nat] [1; 1; 1; 2; 1; 1; 2]%nat
    = Def (2, [1; 1; 2; 1; 1; 2]%nat) /\
  Forall seq_built [SConcat (SLeaf 1%nat) (SLeaf 1%nat); SLeaf 2%nat].
Proof. repeat constructor. Qed.

(** C26: s * n means n copies of s: in every expression context and pattern. *)
Theorem C26_repeat_is_sum : forall (I M : Type) (mt : M -> I -> outcome bool)
    (c : seq_ctx M) (s : sequence M) (n : Z) (s' : sequence M),
  seq_times s n = Some s' ->
  forall (pre post : list (sequence M)) (act : list I),
  Forall seq_built pre -> Forall seq_built post -> seq_built (plug c s') ->
  countMatches mt (pre ++ plug c s' :: post) act =
  countMatches mt (pre ++ plug c (n_fold (Z.to_nat n) s) :: post) act.
Proof. exact (fun I M mt => repeat_is_sum mt). Qed.
Print Assumptions C26_repeat_is_sum.

Example C26_repeat_is_sum_ex :
  seq_times (SLeaf 1%nat) 2 = Some (SRepeat (SLeaf 1%nat) 2) /\
  seq_built (plug (CLeft CHole (SLeaf 5%nat)) (SRepeat (SLeaf 1%nat) 2)) /\
  countMatches eqm [SConcat (SRepeat (SLeaf 1%nat) 2) (SLeaf 5%nat)] [1; 1; 5]%nat = Def (1, [1; 1; 5]%nat).
Proof. repeat split; cbv; congruence. Qed.

(** C26: the factor must be positive. *)
Theorem C26_rejects : forall (M : Type) (s : sequence M) (n : Z),
  (seq_times s n = None <-> n <= 0).
Proof. intros M s n. unfold seq_times. destruct (Z.leb_spec n 0); split; intros; auto; try discriminate; lia. Qed.
Print Assumptions C26_rejects.

Example C26_rejects_ex : seq_times (SLeaf 1%nat) 0 = None /\ seq_times (SLeaf 1%nat) 1 <> None.
Proof. split; [reflexivity | discriminate]. Qed.

(** C26: the length, exact below 2^32. *)
Theorem C26_length : forall (M : Type) (s s' : sequence M) (n : Z),
  seq_built s -> seq_times s n = Some s' -> n <= int_max ->
  n * Z.of_nat (length (spelled s)) < two32 ->
  seq_size s' = n * Z.of_nat (length (spelled s)).
Proof.
  intros M s s' n Hb H Hn Hlt. apply seq_times_some in H as [Hpos ->].
  rewrite seq_size_exact.
  - cbn [spelled]. rewrite repeat_length_mul. nia.
  - cbn. auto.
  - cbn [spelled]. rewrite repeat_length_mul. nia.
Qed.
Print Assumptions C26_length.

Example C26_length_ex : seq_size (SRepeat (SConcat (SLeaf 1%nat) (SLeaf 2%nat)) 3) = 6.
Proof. reflexivity. Qed.

(** C27, what is marked, exactly: the occurrences are taken greedily from the left, one
    after the other; the invocations of the counted occurrences are marked, and those of
    the blocks that still occur after the last counted occurrence, up to the first block
    that does not.  (So the property holds iff there are none of the latter.) *)
Theorem C27_marks : forall (I M : Type) (mt : M -> I -> outcome bool) (f : M -> I -> bool)
    (act : list I) (pattern : list (sequence M)),
  Z.of_nat (length act) <= int_max -> pattern <> [] ->
  Forall (fun q => seq_built q /\ Z.of_nat (length (spelled q)) <= int_max /\
    (forall m i, In m (spelled q) -> In i act -> mt m i = Def (f m i))) pattern ->
  let acc := fun m i => f m i = true in
  let blocks := map spelled pattern in
  exists occs e pre ps,
    countMatches mt pattern act =
      Def (Z.of_nat (length occs), flat_map (occ_items act blocks) occs ++ occ_items act pre ps) /\
    in_a_row acc act blocks 0 occs e /\ gives_up acc act blocks e pre ps.
Proof. exact (fun I M mt f act pattern H Hne Hok => countMatches_left mt f act H pattern Hok Hne). Qed.
Print Assumptions C27_marks.

(** C27 holds for a pattern of one sequence. *)
Theorem C27_marks_one_sequence : forall (I M : Type) (mt : M -> I -> outcome bool) (f : M -> I -> bool)
    (act : list I) (s : sequence M),
  Z.of_nat (length act) <= int_max ->
  seq_built s /\ Z.of_nat (length (spelled s)) <= int_max /\
    (forall m i, In m (spelled s) -> In i act -> mt m i = Def (f m i)) ->
  exists occs, countMatches mt [s] act =
      Def (Z.of_nat (length occs), flat_map (occ_items act [spelled s]) occs) /\
    series (fun m i => f m i = true) act [spelled s] 0 occs.
Proof. exact (fun I M mt f act s H => marks_one_sequence mt f act H s). Qed.
Print Assumptions C27_marks_one_sequence.

Example C27_marks_ex :
  countMatches eqm [SRepeat (SLeaf 1%nat) 2] [1; 1; 1; 3; 1; 1]%nat = Def (2, [1; 1; 1; 1]%nat) /\
  countMatches eqm [SLeaf 1%nat; SLeaf 2%nat; SLeaf 3%nat] [1; 2; 3; 1; 2; 1]%nat = Def (1, [1; 2; 3; 1; 2]%nat) /\
  Forall seq_built [SLeaf 1%nat; SLeaf 2%nat; SLeaf 3%nat].
Proof. repeat constructor. Qed.

(** C27 is false for patterns of several sequences: with calls A B A the pattern
    (A, B) is counted once, but the last A is marked too. *)
Theorem C27_marks_refuted : exists (act : list nat) (pattern : list (sequence nat)) n marked,
  countMatches (fun m i => Def (Nat.eqb m (Nat.div i 10))) pattern act = Def (n, marked) /\
  n = 1 /\ length marked = 3%nat /\
  max_occurrences (fun m i => Nat.eqb m (Nat.div i 10) = true) act (map spelled pattern) 1 /\
  (* the third call belongs to no counted occurrence, yet is marked *)
  In 12%nat marked /\
  forall ps e, occurs (fun m i => Nat.eqb m (Nat.div i 10) = true) act (map spelled pattern) 0 ps e ->
    ~ In 12%nat (occ_items act (map spelled pattern) ps).
Proof.
  exists [10; 20; 12]%nat, [SLeaf 1%nat; SLeaf 2%nat], 1, [10; 20; 12]%nat.
  assert (D : forall m i act, (forall x, In x act -> True) -> In m [1; 2]%nat -> In i act ->
     (fun m i => Def (Nat.eqb m (Nat.div i 10))) m i = Def (Nat.eqb m (Nat.div i 10))) by reflexivity.
  split; [reflexivity|]. split; [reflexivity|]. split; [reflexivity|]. split.
  - destruct (C24_max_count nat nat (fun m i => Def (Nat.eqb m (Nat.div i 10)))
       (fun m i => Nat.eqb m (Nat.div i 10)) [10; 20; 12]%nat [SLeaf 1%nat; SLeaf 2%nat])
      as (n & marked & E & Hm).
    + cbv; discriminate.
    + discriminate.
    + repeat constructor; cbv; discriminate.
    + replace n with 1%nat in Hm; [exact Hm|].
      change (countMatches _ _ _) with (Def (1, [10; 20; 12]%nat)) in E. injection E as E. lia.
  - split; [right; right; left; reflexivity|].
    intros ps e H. cbn [map spelled] in H.
    inversion H as [|ms rest s p ps' e' Hle [Hl1 Hb1] Hr]; subst.
    inversion Hr as [|ms rest s p2 ps2 e' Hle2 [Hl2 Hb2] Hr2]; subst.
    inversion Hr2; subst. cbn [length] in *.
    specialize (Hb2 0%nat 2%nat). rewrite Nat.add_0_r in Hb2.
    specialize (Hb1 0%nat 1%nat). rewrite Nat.add_0_r in Hb1.
    destruct p2 as [|[|[|p2]]]; [lia| | |lia].
    + destruct p as [|p]; [|lia]. cbn. intuition discriminate.
    + exfalso. specialize (Hb2 12%nat eq_refl eq_refl). discriminate.
Qed.
Print Assumptions C27_marks_refuted.
