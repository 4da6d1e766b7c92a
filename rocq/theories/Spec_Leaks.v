(** What belongs to whom among the things the library allocates (C89).  Models no code. *)
From Coq Require Import List.
From Verif Require Import Base ActionSeq Proxy Syntax World.
Import ListNotations.

(** What is allocated in a world: mocks, method expressions, the recorded bodies of methods, conditions,
    lists of actions, virtual tables. *)
Definition live_mock (w : world) (m : nat) (k : mock) : Prop := nth_error (w_mocks w) m = Some (Some k).
Definition live_expression (w : world) (c : nat) (x : ctx) : Prop := nth_error (w_ctxs w) c = Some (Some x).
Definition live_body (w : world) (b : nat) (x : body) : Prop := nth_error (w_bodies w) b = Some (Some x).
Definition live_condition (w : world) (i : nat) : Prop := exists x, nth_error (w_matchers w) i = Some (Some x).
Definition live_actions (w : world) (s : nat) : Prop := exists q, nth_error (w_seqs w) s = Some q /\ sq_alive q = true.
Definition live_table (w : world) (t : nat) : Prop := exists x, nth_error (w_tables w) t = Some (Some x).

(** Owners.  A condition and a list of actions belong to the expression they were written in until the
    statement takes effect, and to the body of the method from then on; bodies and tables belong to mocks, except
    for the tables of the classes, of which there are [n]. *)
Definition actions_owned (w : world) (s : nat) : Prop :=
  (exists c x, live_expression w c x /\ cx_committed x = false /\ cx_seq x = s) \/
  (exists b x i, live_body w b x /\ In (i, s) (bd_handlers x)).
Definition condition_owned (w : world) (i : nat) : Prop :=
  (exists c x, live_expression w c x /\ cx_committed x = false /\ cx_matcher x = i) \/
  (exists b x s, live_body w b x /\ In (i, s) (bd_handlers x)).
Definition body_owned (w : world) (b : nat) : Prop :=
  exists m k, live_mock w m k /\ In (Some b) (pt_mocks (mk_pt k)).
Definition table_owned (n : nat) (w : world) (t : nat) : Prop :=
  t < n \/
  exists m k, live_mock w m k /\ (mk_clone k = t \/ (mk_owner k = true /\ mk_orig k = t)).

(** A body that refers to a condition that is gone: releasing the body is undefined. *)
Definition doomed (w : world) : Prop :=
  exists b x i s, live_body w b x /\ In (i, s) (bd_handlers x) /\ nth_error (w_matchers w) i = Some None.

(** All mocks and all expressions that the program holds are gone. *)
Definition nothing_held (w : world) : Prop :=
  (forall m k, ~ live_mock w m k) /\ (forall c x, ~ live_expression w c x).
(** Nothing is left of what the library allocated; [n] classes have tables of their own. *)
Definition nothing_left (n : nat) (w : world) : Prop :=
  (forall b x, ~ live_body w b x) /\ (forall i, ~ live_condition w i) /\ (forall s, ~ live_actions w s) /\
  (forall t, live_table w t -> t < n).
(** No mock has a mocked method. *)
Definition all_at_rest (w : world) : Prop :=
  forall m k, live_mock w m k -> Forall (eq None) (pt_mocks (mk_pt k)).

(** A verification in progress that the program holds. *)
Definition live_verification (w : world) (x : nat) : Prop := exists e, nth_error (w_exps w) x = Some (Some e).
(** Of the expressions and verifications, exactly those of [w] are there in [w']. *)
Definition same_held (w w' : world) : Prop :=
  (forall c x, live_expression w' c x <-> live_expression w c x) /\
  (forall x, live_verification w' x <-> live_verification w x).
