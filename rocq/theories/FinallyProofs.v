(** Proofs about Finally.v. *)
From Coq Require Import Arith Lia List.
From Verif Require Import Base Finally.
Import ListNotations.
Open Scope nat_scope.

(** ** What compilers may do *)
Inductive standard : Type := Cxx11 | Cxx14 | Cxx17.

(** One flag for each of: return of the proxy's function, return of the mock's function,
    initialisation of the variable. *)
Definition allowed (s : standard) (elides : list bool) : Prop :=
  length elides = 3 /\ (s = Cxx17 -> Forall (eq true) elides).

Section Finally.
Context {M Rs : Type}.
Implicit Types (t orig : @vtab M) (f : @finally M) (body : @vtab M -> Rs * @vtab M).

Lemma hand_on_elided : forall el f t, Forall (eq true) el -> hand_on el f t = Def (Went (f, t)).
Proof. induction el as [|b el IH]; intros f t H; cbn; auto. inversion H; subst. now apply IH. Qed.

Lemma hand_on_moved : forall el f t, In false el -> hand_on el f t = Def Terminated.
Proof.
  induction el as [|b el IH]; intros f t H; [destruct H|].
  destruct b; cbn; [|reflexivity].
  destruct H as [H|H]; [discriminate|now apply IH].
Qed.

Lemma spied_elided : forall el orig t o body fake m,
  nth_error t o = Some fake -> nth_error orig o = Some m ->
  (forall u, length (snd (body u)) = length u) ->
  Forall (eq true) el ->
  exists before r after t',
    body before = (r, after) /\ spied el orig t o body = Def (Went (r, t')) /\
    nth_error before o = Some m /\ (forall k, k <> o -> nth_error before k = nth_error t k) /\
    nth_error t' o = Some fake /\ (forall k, k <> o -> nth_error t' k = nth_error after k).
Proof.
  intros el orig t o body fake m Ht Ho Hb He.
  assert (L : o < length t) by (apply nth_error_Some; congruence).
  exists (upd t o m).
  destruct (body (upd t o m)) as [r after] eqn:B.
  assert (La : o < length after).
  { specialize (Hb (upd t o m)). rewrite B in Hb. cbn in Hb. rewrite Hb, upd_length. exact L. }
  exists r, after, (upd after o fake).
  split; [reflexivity|]. split.
  - unfold spied, method_swapper, set_entry. rewrite Ht. cbn [of_option obind]. rewrite Ho. cbn [of_option obind].
    apply Nat.ltb_lt in L. rewrite L. cbn [obind]. rewrite hand_on_elided by exact He. cbn [obind].
    rewrite B. unfold finally_new, finally_destroy, set_entry. apply Nat.ltb_lt in La. rewrite La. reflexivity.
  - split; [now apply nth_error_upd_same|]. split; [intros; apply nth_error_upd_other; congruence|].
    split; [now apply nth_error_upd_same|]. intros; apply nth_error_upd_other; congruence.
Qed.

Lemma spied_moved : forall el orig t o body fake m,
  nth_error t o = Some fake -> nth_error orig o = Some m ->
  In false el -> spied el orig t o body = Def Terminated.
Proof.
  intros el orig t o body fake m Ht Ho He.
  assert (L : o < length t) by (apply nth_error_Some; congruence).
  unfold spied, method_swapper, set_entry. rewrite Ht. cbn [of_option obind]. rewrite Ho. cbn [of_option obind].
  apply Nat.ltb_lt in L. rewrite L. cbn [obind]. now rewrite hand_on_moved.
Qed.
End Finally.
