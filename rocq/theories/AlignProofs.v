(** Proofs about Align.v. *)
From Coq Require Import NArith Lia.
From Verif Require Import Base Align.
Open Scope N_scope.

(** ** What a class with virtual methods is like *)

(** Its alignment is a power of two and at least that of the table pointer; its size is a multiple of it. *)
Definition polymorphic (c : shape) : Prop :=
  exists k n, sh_align c = 2 ^ (3 + k) /\ sh_size c = n * sh_align c /\ 0 < n.

Lemma polymorphic_words : forall c, polymorphic c -> exists n, sh_size c = n * 8 /\ 0 < n.
Proof.
  intros c (k & n & A & S & P). exists (n * 2 ^ k). rewrite S, A, N.pow_add_r. change (2 ^ 3) with 8.
  split; [lia|]. assert (0 < 2 ^ k) by (apply N.neq_0_lt_0, N.pow_nonzero; discriminate). nia.
Qed.

Lemma fake_size : forall c, polymorphic c -> sh_size (fake_shape c) = sh_size c.
Proof.
  intros c H. destruct (polymorphic_words c H) as (n & S & P).
  unfold fake_shape, round_up, pointer_size. cbn [sh_size]. rewrite S.
  replace (8 + (n * 8 - 8) + (8 - 1)) with (7 + n * 8) by lia.
  rewrite N.div_add by discriminate. change (7 / 8) with 0. lia.
Qed.

Lemma low_alignments : forall k, 2 ^ (3 + k) <= 16 -> (2 ^ (3 + k) | 16).
Proof.
  intros k H. destruct k as [|k]; [exists 2; reflexivity|].
  destruct (N.eq_dec (Npos k) 1) as [->|E]; [exists 1; reflexivity|].
  exfalso. assert (2 ^ 5 <= 2 ^ (3 + Npos k)) by (apply N.pow_le_mono_r; lia).
  change (2 ^ 5) with 32 in H0. lia.
Qed.

Lemma fake_aligned : forall c address, polymorphic c -> sh_align c <= 16 -> fake_instance c address ->
  use_at c address = Def tt.
Proof.
  intros c a (k & n & A & S & P) L F. unfold fake_instance, new_may_return in F. cbn in F. destruct F as [D _].
  unfold use_at. rewrite A in *.
  assert (E : a mod 2 ^ (3 + k) = 0).
  { apply N.mod_divide; [apply N.pow_nonzero; discriminate|].
    apply N.divide_trans with 16; [now apply low_alignments|exact D]. }
  now rewrite E.
Qed.

Lemma fake_misaligned : forall c, polymorphic c -> 16 < sh_align c ->
  exists address, fake_instance c address /\ use_at c address = UB.
Proof.
  intros c (k & n & A & S & P) L. exists 16. split.
  - unfold fake_instance, new_may_return. cbn. split; [exists 1; reflexivity|discriminate].
  - unfold use_at. rewrite N.mod_small by exact L. reflexivity.
Qed.
