(** What verifications inside conditions and actions see and change. *)
From Coq Require Import Bool Arith Lia List.
From Verif Require Import Base Asked Within.
Import ListNotations.

Section Spec.
Context {A P : Type}.

(** From s to s' the verifications [new] were made: each of them saw exactly the calls of s; no call was added, lost or changed;
    and a call is verified if it was before, or if one of them that passed matched it. *)
Definition later (s s' : st A) (new : list look) : Prop :=
  looks s' = looks s ++ new /\ Forall (fun l => l_calls l = length (calls s)) new /\
  map (fun r => (n_args r, n_by r)) (calls s') = map (fun r => (n_args r, n_by r)) (calls s) /\
  forall i r r', nth_error (calls s) i = Some r -> nth_error (calls s') i = Some r' ->
    (n_seen r' = true <-> n_seen r = true \/ exists l, In l new /\ l_ok l = true /\ In i (l_matched l)).

(** The state after a call was recorded. *)
Definition recorded (s : st A) (a : A) (id : nat) : st A := mkW (calls s ++ [mkN a id false]) (looks s).

(** The places of the calls that a condition accepts by their arguments, or because they were answered through it. *)
Definition accepted (s : st A) (id : nat) (f : A -> bool) : list nat :=
  filter (fun i => match nth_error (calls s) i with Some r => (n_by r =? id) || f (n_args r) | None => false end) (seq 0 (length (calls s))).

(** A condition is asked about each call in turn, in the state that was left before, except about calls that were answered through
    it, which it matches; an exception ends it.  The places of the matches. *)
Inductive polled (q : st A -> P -> A -> outcome (st A * reply)) (c : nat * P) : list (rcall A) -> nat -> st A -> st A -> option (list nat) -> Prop :=
| QEnd : forall i s, polled q c [] i s s (Some [])
| QOwn : forall r rest i s s' o, n_by r = fst c -> polled q c rest (S i) s s' o -> polled q c (r :: rest) i s s' (option_map (cons i) o)
| QYes : forall r rest i s s1 s' o, n_by r <> fst c -> q s (snd c) (n_args r) = Def (s1, Yes) -> polled q c rest (S i) s1 s' o ->
    polled q c (r :: rest) i s s' (option_map (cons i) o)
| QNo : forall r rest i s s1 s' o, n_by r <> fst c -> q s (snd c) (n_args r) = Def (s1, No) -> polled q c rest (S i) s1 s' o ->
    polled q c (r :: rest) i s s' o
| QRaise : forall r rest i s s1, n_by r <> fst c -> q s (snd c) (n_args r) = Def (s1, Raise) -> polled q c (r :: rest) i s s1 None.

(** The conditions of the stubbings, newest first, are asked in turn, in the state that was left before, until one does not refuse. *)
Inductive turns (q : st A -> P -> A -> outcome (st A * reply)) (a : A) : list (nat * P) -> st A -> st A -> nat + ending -> Prop :=
| TNone : forall s, turns q a [] s s (inr Unexpected)
| TNo : forall id p older s s1 s2 r, q s p a = Def (s1, No) -> turns q a older s1 s2 r -> turns q a ((id, p) :: older) s s2 r
| TYes : forall id p older s s1, q s p a = Def (s1, Yes) -> turns q a ((id, p) :: older) s s1 (inl id)
| TRaise : forall id p older s s1, q s p a = Def (s1, Raise) -> turns q a ((id, p) :: older) s s1 (inr ConditionThrew).

(** All conditions that the code verifies have a rank below n. *)
Variable rank : P -> nat.
Fixpoint below (n : nat) (p : prog P) : Prop :=
  match p with
  | Say _ => True
  | Check c _ k => rank (snd c) < n /\ forall b, below n (k b)
  | Others k => forall b, below n (k b)
  end.
End Spec.
