(** Common ground of the whole model: the outcome type and list helpers.
    Nothing here models library code. *)
From Coq Require Import List ZArith Lia Arith.
Import ListNotations.

(** Outcome of a C++ computation.
    [Def a]  : the computation is defined and yields [a];
    [UB]     : the computation has undefined behaviour;
    [NoFuel] : the bound on loop iterations / call depth chosen for the
    Gallina definition was too small (never confused with [UB]). Models no lines of /repo. *)
Inductive outcome (A : Type) : Type :=
| Def (a : A)
| UB
| NoFuel.
Arguments Def {A} a.
Arguments UB {A}.
Arguments NoFuel {A}.

(** Sequencing: the first outcome that is not defined is that of the whole. Models no lines of /repo. *)
Definition obind {A B : Type} (x : outcome A) (f : A -> outcome B) : outcome B :=
  match x with
  | Def a => f a
  | UB => UB
  | NoFuel => NoFuel
  end.

Notation "'let!' x ':=' a 'in' b" := (obind a (fun x => b))
  (at level 200, x pattern, a at level 100, b at level 200).

(** Models no lines of /repo: a read of something that may be absent. *)
Definition of_option {A : Type} (o : option A) : outcome A :=
  match o with Some a => Def a | None => UB end.

(** Replacing the element at a position ([l] unchanged if out of range). Models no lines of /repo. *)
Fixpoint upd {A : Type} (l : list A) (n : nat) (x : A) : list A :=
  match l, n with
  | [], _ => []
  | _ :: t, O => x :: t
  | h :: t, S n' => h :: upd t n' x
  end.

Lemma upd_length : forall A (l : list A) n x, length (upd l n x) = length l.
Proof. induction l as [|h t IH]; intros [|n] x; simpl; auto. Qed.

Lemma nth_error_upd_same : forall A (l : list A) n x,
  n < length l -> nth_error (upd l n x) n = Some x.
Proof.
  induction l as [|h t IH]; intros [|n] x H; simpl in *; try lia; auto.
  apply IH; lia.
Qed.

Lemma nth_error_upd_other : forall A (l : list A) n m x,
  n <> m -> nth_error (upd l n x) m = nth_error l m.
Proof.
  induction l as [|h t IH]; intros [|n] [|m] x H; simpl; auto; try congruence.
Qed.

Lemma nth_error_upd : forall A (l : list A) n m x,
  nth_error (upd l n x) m =
  if Nat.eqb n m then (if Nat.ltb n (length l) then Some x else None)
  else nth_error l m.
Proof.
  intros A l n m x. destruct (Nat.eqb_spec n m) as [->|Hne].
  - destruct (Nat.ltb_spec m (length l)) as [Hlt|Hge].
    + now apply nth_error_upd_same.
    + apply nth_error_None. now rewrite upd_length.
  - now apply nth_error_upd_other.
Qed.

Lemma upd_oob : forall A (l : list A) n x, length l <= n -> upd l n x = l.
Proof.
  induction l as [|h t IH]; intros [|n] x H; simpl in *; auto; try lia.
  f_equal. apply IH. lia.
Qed.

Lemma upd_same : forall A (l : list A) n x, nth_error l n = Some x -> upd l n x = l.
Proof.
  induction l as [|h t IH]; intros [|n] x H; simpl in *; try discriminate.
  - congruence.
  - f_equal. auto.
Qed.

Lemma upd_upd : forall A (l : list A) n x y, upd (upd l n x) n y = upd l n y.
Proof. induction l as [|h t IH]; intros [|n] x y; simpl; auto. now rewrite IH. Qed.

Lemma upd_comm : forall A (l : list A) n m x y,
  n <> m -> upd (upd l n x) m y = upd (upd l m y) n x.
Proof.
  induction l as [|h t IH]; intros [|n] [|m] x y H; simpl; auto; try congruence.
  rewrite IH; auto.
Qed.

Lemma nth_error_Some_lt : forall A (l : list A) n x,
  nth_error l n = Some x -> n < length l.
Proof. intros. apply nth_error_Some. congruence. Qed.

Lemma nth_error_app_last : forall A (l : list A) x, nth_error (l ++ [x]) (length l) = Some x.
Proof.
  intros. rewrite nth_error_app2 by lia. now rewrite Nat.sub_diag.
Qed.

Lemma nth_error_ext : forall A (l1 l2 : list A),
  (forall i, nth_error l1 i = nth_error l2 i) -> l1 = l2.
Proof.
  induction l1 as [|a l1 IH]; intros [|b l2] H; auto.
  - specialize (H 0); discriminate.
  - specialize (H 0); discriminate.
  - pose proof (H 0) as H0. simpl in H0. injection H0 as ->.
    f_equal. apply IH. intro i. apply (H (S i)).
Qed.

Lemma nth_error_repeat_lt : forall A (x : A) n i,
  i < n -> nth_error (repeat x n) i = Some x.
Proof. intros A x n. induction n; intros [|i] H; simpl; try lia; auto. apply IHn; lia. Qed.
