(** The bound on nesting does not matter once it is large enough: an answer found
    with some bound is the answer for every larger bound. *)
From Coq Require Import Bool ZArith Lia List.
From Verif Require Import Base CInt Values Syntax World.
Import ListNotations.

Definition leM {A} (m m' : M A) : Prop := forall w, m w = RNone \/ m w = m' w.

Lemma leM_refl : forall A (m : M A), leM m m.
Proof. intros A m w. now right. Qed.

Lemma leM_bind : forall A B (m m' : M A) (k k' : A -> M B),
  leM m m' -> (forall a, leM (k a) (k' a)) -> leM (bind m k) (bind m' k').
Proof.
  intros A B m m' k k' H K w. unfold bind. destruct (H w) as [->| <-]; [now left|].
  destruct (m w) as [w' a|w' e| |]; auto. apply K.
Qed.

Lemma leM_attempt : forall A (m m' : M A), leM m m' -> leM (attempt m) (attempt m').
Proof. intros A m m' H w. unfold attempt. destruct (H w) as [->| <-]; auto. Qed.

Lemma leM_guarded : forall A (m m' : M A) f, leM m m' -> leM (guarded m f) (guarded m' f).
Proof.
  intros A m m' f H. unfold guarded. apply leM_bind; [now apply leM_attempt|]. intro; apply leM_refl.
Qed.

Section Open.
Variable E : env.
Variables rec rec' : op -> M val.
Hypothesis Hrec : forall o, leM (rec o) (rec' o).

Ltac le :=
  repeat (intros; lazymatch goal with
  | |- leM ?m ?m => apply leM_refl
  | |- leM (bind _ _) (bind _ _) => apply leM_bind
  | |- leM (attempt _) (attempt _) => apply leM_attempt
  | |- leM (guarded _ _) (guarded _ _) => apply leM_guarded
  | |- leM (match ?x with _ => _ end) _ => destruct x
  | |- leM (rec _) (rec' _) => apply Hrec
  end).

Lemma le_run_prog : forall p fr, leM (run_prog rec fr p) (run_prog rec' fr p).
Proof.
  fix IH 1. intros [v|e|i k|i v k|k|o k] fr; cbn [run_prog]; le; intros; apply IH.
Qed.

Lemma le_run_callable : forall f i, leM (run_callable E rec f i) (run_callable E rec' f i).
Proof.
  intros [p| |r vals|r vals|m o slot forward] i; cbn [run_callable]; le; intros; try apply le_run_prog.
  unfold with_original; le.
Qed.

Lemma le_handle : forall b args, leM (handleMethodInvocation E rec b args) (handleMethodInvocation E rec' b args).
Proof.
  intros b args. unfold handleMethodInvocation, seq_handle, serve; le; intros; apply le_run_callable.
Qed.

Lemma le_run_code : forall o vt x args, leM (run_code E rec o vt x args) (run_code E rec' o vt x args).
Proof. intros. unfold run_code; le; intros; try apply le_handle; apply le_run_prog. Qed.

Lemma le_step : forall o, leM (step E rec o) (step E rec' o).
Proof.
  intros []; cbn [step]; le. unfold call_object; le; intros; apply le_run_code.
Qed.
End Open.

Lemma exec_le : forall E f o, leM (exec E f o) (exec E (S f) o).
Proof.
  intros E. induction f as [|f IH]; intro o; [now left|].
  change (exec E (S f) o) with (step E (exec E f) o).
  change (exec E (S (S f)) o) with (step E (exec E (S f)) o).
  apply le_step. exact IH.
Qed.

Lemma leM_trans : forall A (a b c : M A), leM a b -> leM b c -> leM a c.
Proof.
  intros A a b c H K w. destruct (H w) as [->|E1]; [now left|]. rewrite E1. apply K.
Qed.

Lemma exec_le_any : forall E f f' o, (f <= f')%nat -> leM (exec E f o) (exec E f' o).
Proof.
  intros E f f' o L. induction L as [|f' L IH]; [apply leM_refl|].
  eapply leM_trans; [exact IH|apply exec_le].
Qed.

Theorem exec_fuel : forall E f f' o w r,
  (f <= f')%nat -> exec E f o w = r -> r <> RNone -> exec E f' o w = r.
Proof.
  intros E f f' o w r L H N. destruct (exec_le_any E f f' o L w) as [H1|H1]; congruence.
Qed.
