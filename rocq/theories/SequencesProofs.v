(** Proofs about Sequences.v. *)
From Coq Require Import List ZArith Lia.
From Verif Require Import Base CInt Sequences Spec_Match.
Import ListNotations.
Open Scope Z_scope.

Section SP.
Context {A : Type}.

Lemma copies_length : forall n (l : list A), length (copies n l) = (n * length l)%nat.
Proof. induction n; intro l; simpl; auto. rewrite app_length, IHn. lia. Qed.

Lemma copies_repeat : forall n (l : list A), copies n l = concat (repeat l n).
Proof. induction n; intro l; cbn; congruence. Qed.

Lemma expected_spelled : forall s : sequence A, getExpectedSequence s = spelled s.
Proof.
  induction s as [a|l IHl r IHr|s IHs n]; cbn [getExpectedSequence spelled]; [reflexivity| |].
  - now rewrite IHl, IHr.
  - now rewrite IHs, copies_repeat.
Qed.

Lemma repeat_length_mul : forall n (l : list A), length (concat (repeat l n)) = (n * length l)%nat.
Proof. intros. rewrite <- copies_repeat. apply copies_length. Qed.

Lemma seq_size_mod : forall s : sequence A, seq_built s ->
  seq_size s = Z.of_nat (length (spelled s)) mod two32.
Proof.
  induction s as [a|l IHl r IHr|s IHs n]; simpl; intro Hb.
  - reflexivity.
  - destruct Hb as [Hl Hr]. rewrite app_length, Nat2Z.inj_add.
    rewrite (IHl Hl), (IHr Hr). unfold to_uint32.
    rewrite <- Z.add_mod by (unfold two32; lia). reflexivity.
  - destruct Hb as [Hs Hn]. rewrite repeat_length_mul, Nat2Z.inj_mul, Z2Nat.id by lia.
    rewrite (IHs Hs). unfold to_uint32.
    rewrite <- Z.mul_mod by (unfold two32; lia). f_equal. lia.
Qed.

Lemma seq_size_exact : forall s : sequence A, seq_built s ->
  Z.of_nat (length (spelled s)) < two32 ->
  seq_size s = Z.of_nat (length (spelled s)).
Proof. intros s Hb Hlt. rewrite seq_size_mod by auto. apply Z.mod_small. lia. Qed.

Lemma expected_nonempty : forall s : sequence A, seq_built s ->
  (1 <= length (spelled s))%nat.
Proof.
  induction s as [a|l IHl r IHr|s IHs n]; simpl; intro Hb; auto.
  - destruct Hb as [Hl Hr]. rewrite app_length. specialize (IHl Hl). lia.
  - destruct Hb as [Hs Hn]. rewrite repeat_length_mul. specialize (IHs Hs).
    assert (1 <= Z.to_nat n)%nat by lia. nia.
Qed.

Lemma seq_times_some : forall (s : sequence A) n s', seq_times s n = Some s' ->
  0 < n /\ s' = SRepeat s n.
Proof.
  intros s n s' H. unfold seq_times in H. destruct (Z.leb_spec n 0); try discriminate.
  injection H as <-. auto with zarith.
Qed.

End SP.
