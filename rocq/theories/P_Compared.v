(** C114: which comparisons a call makes. *)
From Coq Require Import Bool Arith Lia List.
From Verif Require Import Base Asked Compared Spec_Compared ComparedProofs.
Import ListNotations.

(** The examples: operators that count how often they ran, throwing for the argument 9; a matcher like StrEq, undefined for 0. *)
Definition holds (o : op) (a e : nat) : bool :=
  match o with OEq => a =? e | ONe => negb (a =? e) | OGt => e <? a | OGe => e <=? a | OLt => a <? e | OLe => a <=? e end.
Definition counted (t : nat) (o : op) (a e : nat) : nat * reply := (S t, if a =? 9 then Raise else if holds o a e then Yes else No).
Definition text (k a : nat) : outcome bool := if a =? 0 then UB else Def (k =? a).
Definition sums (t : nat) (p : nat) (args : list nat) : nat * reply := (S t, if fold_right plus 0 args =? p then Yes else No).

(** C114: a condition Using(...) compares from left to right.  Each comparison has the argument as left operand, the value given to
    Using as right operand and the operator that was asked for; a position is compared only if all positions to its left said yes;
    none is compared twice; all say yes for an accepted call, and the first that says no ends it. *)
Theorem C114_condition : forall (T A E K P : Type) (compare : T -> op -> A -> E -> T * reply) (other : K -> A -> outcome bool)
  (predicate : T -> P -> list A -> T * reply) rank (c : cond E K P) args t t' qs x,
  fits (length args) c -> weigh compare other predicate rank c args t = Def (t', qs, x) ->
  ran compare predicate t qs t' /\ Forall (fun q => e_rank q = rank) qs /\ weighed other c args qs x.
Proof. exact @weigh_spec. Qed.

Example C114_condition_ex : let c := CUsing [MCmp OGt 3; MAny; MCmp OEq 4; MCmp OLt 9] : cond nat nat nat in
  fits (length [5; 7; 6; 1]) c /\
  weigh counted text sums 0 c [5; 7; 6; 1] 0 = Def (2, [mkE 0 0 (Compare OGt 5 3) Yes; mkE 0 2 (Compare OEq 6 4) No], No).
Proof. split; [reflexivity|vm_compute; reflexivity]. Qed.

(** C114: a call whose comparisons are defined ends, whatever the operators and predicates do with their memory. *)
Theorem C114_ends : forall (T A E K P : Type) (compare : T -> op -> A -> E -> T * reply) (other : K -> A -> outcome bool)
  (predicate : T -> P -> list A -> T * reply) (m : method A E K P) args t,
  Forall (fun s => fits (length args) (snd s) /\ safe other (snd s) args) (m_stubs m) ->
  exists m' t' qs r, call compare other predicate m args t = Def (m', t', qs, r).
Proof. exact @call_total. Qed.

(** Two stubbings; the newer one is Using(Gt(3), Eq(4)). *)
Definition two : method nat nat nat nat := mkMethod [(0, CUsing [MOther 5; MAny]); (1, CUsing [MCmp OGt 3; MCmp OEq 4])] [] 0.

Example C114_ends_ex : Forall (fun s => fits (length [5; 6]) (snd s) /\ safe text (snd s) [5; 6]) (m_stubs two) /\
  call counted text sums two [5; 6] 0 =
    Def (mkMethod (m_stubs two) [mkRec 0 0 [5; 6]] 1, 2, [mkE 0 0 (Compare OGt 5 3) Yes; mkE 0 1 (Compare OEq 6 4) No], Answered 0).
Proof.
  split; [|vm_compute; reflexivity]. repeat constructor; cbn; intros [|[|[|p]]] m a Hm Ha; cbn in *; inversion Hm; inversion Ha; subst; cbn; auto.
  exists true. reflexivity.
Qed.

(** C114: the stubbings are asked newest first, an older one only after all newer ones said no; the first that says yes answers and
    the call is recorded as its; if an operator or predicate throws, no older stubbing is asked and the call is not recorded. *)
Theorem C114_call : forall (T A E K P : Type) (compare : T -> op -> A -> E -> T * reply) (other : K -> A -> outcome bool)
  (predicate : T -> P -> list A -> T * reply) (m : method A E K P) args t m' t' qs r,
  Forall (fun s => fits (length args) (snd s)) (m_stubs m) -> call compare other predicate m args t = Def (m', t', qs, r) ->
  decided compare other predicate args 0 t (rev (m_stubs m)) qs r t' /\ m_stubs m' = m_stubs m /\ m_next m' = S (m_next m) /\
  m_calls m' = m_calls m ++ match r with Answered id => [mkRec (m_next m) id args] | _ => [] end.
Proof. exact @call_decided. Qed.

Example C114_call_ex : Forall (fun s => fits (length [5; 9]) (snd s)) (m_stubs two) /\
  call counted text sums two [5; 9] 0 =
    Def (mkMethod (m_stubs two) [] 1, 2, [mkE 0 0 (Compare OGt 5 3) Yes; mkE 0 1 (Compare OEq 9 4) Raise], Threw).
Proof. split; [repeat constructor|vm_compute; reflexivity]. Qed.

(** C114: in one call nothing runs twice: the comparisons are ordered by stubbing, newest first, and by position, and follow each
    other in memory. *)
Theorem C114_once : forall (T A E K P : Type) (compare : T -> op -> A -> E -> T * reply) (other : K -> A -> outcome bool)
  (predicate : T -> P -> list A -> T * reply) (m : method A E K P) args t m' t' qs r,
  Forall (fun s => fits (length args) (snd s)) (m_stubs m) -> call compare other predicate m args t = Def (m', t', qs, r) ->
  ran compare predicate t qs t' /\ sorted earlier qs /\ NoDup (map (fun q => (e_rank q, e_pos q)) qs) /\
  Forall (fun q => e_rank q < length (m_stubs m)) qs.
Proof. exact @call_once. Qed.

Example C114_once_ex : let m : method nat nat nat nat :=
    mkMethod [(0, CUsing [MCmp OEq 1; MCmp OEq 2]); (1, CMatching 7); (2, CUsing [MCmp OEq 1; MCmp OEq 3])] [] 0 in
  Forall (fun s => fits (length [1; 2]) (snd s)) (m_stubs m) /\
  exists m' qs, call counted text sums m [1; 2] 0 = Def (m', 5, qs, Answered 0) /\
    map (fun q => (e_rank q, e_pos q)) qs = [(0, 0); (0, 1); (1, 0); (2, 0); (2, 1)].
Proof. split; [repeat constructor|]. do 2 eexists. split; vm_compute; reflexivity. Qed.

(** C114: a position that says no protects those to its right: if it never accepts the argument, and everything to its left is
    defined, the condition is defined and does not accept, even if a comparison further right would be undefined, and nothing
    further right is compared. *)
Theorem C114_guard : forall (T A E K P : Type) (compare : T -> op -> A -> E -> T * reply) (other : K -> A -> outcome bool)
  (predicate : T -> P -> list A -> T * reply) rank (ms : list (matcher E K)) args t g,
  length ms = length args -> guarded compare other ms args g ->
  exists t' qs x, weigh compare other predicate rank (CUsing ms) args t = Def (t', qs, x) /\ x <> Yes /\ Forall (fun q => e_pos q <= g) qs.
Proof. exact @guard. Qed.

(** Using(Ne(0), StrEq("…")) for a length of 0 and a null pointer. *)
Example C114_guard_ex : length [MCmp ONe 0; MOther 5] = length [0; 0] /\ guarded counted text [MCmp ONe 0; MOther 5] [0; 0] 0 /\
  weigh counted text sums 0 (CUsing [MCmp ONe 0; MOther 5]) [0; 0] 0 = Def (1, [mkE 0 0 (Compare ONe 0 0) No], No).
Proof.
  split; [reflexivity|]. split; [|vm_compute; reflexivity]. split; [|intros; lia].
  exists (MCmp ONe 0), 0. split; [reflexivity|]. split; [reflexivity|]. intros t. cbn. discriminate.
Qed.

(** C114: Using(Method(...)...) asks its condition about the recorded calls of the method, oldest first, each call compared as
    above, and chooses those that it accepts; calls that were answered through the same expression are chosen without being asked
    about. *)
Theorem C114_chosen : forall (T A E K P : Type) (compare : T -> op -> A -> E -> T * reply) (other : K -> A -> outcome bool)
  (predicate : T -> P -> list A -> T * reply) self (c : cond E K P) calls rank t t' qs o,
  Forall (fun r => fits (length (r_args r)) c) calls -> collect compare other predicate rank self c calls t = Def (t', qs, o) ->
  ran compare predicate t qs t' /\ sorted earlier qs /\ Forall (fun q => rank <= e_rank q < rank + length calls) qs /\
  match o with
  | None => exists l q, qs = l ++ [q] /\ e_said q = Raise
  | Some chosen => exists keep, chosen = map fst (filter snd (combine calls keep)) /\ length keep = length calls /\
      forall i r b, nth_error calls i = Some r -> nth_error keep i = Some b ->
        let qi := filter (fun q => e_rank q =? rank + i) qs in
        if r_by r =? self then qi = [] /\ b = true else weighed other c (r_args r) qi (if b then Yes else No)
  end.
Proof. exact @collect_spec. Qed.

Example C114_chosen_ex : let c : cond nat nat nat := CUsing [MCmp OEq 1; MCmp OGt 2] in
  let calls := [mkRec 0 3 [1; 5]; mkRec 1 7 [2; 2]; mkRec 2 3 [1; 1]; mkRec 3 3 [4; 4]] in
  Forall (fun r => fits (length (r_args r)) c) calls /\
  exists qs, collect counted text sums 0 7 c calls 0 = Def (5, qs, Some [mkRec 0 3 [1; 5]; mkRec 1 7 [2; 2]]) /\
    map (fun q => (e_rank q, e_pos q)) qs = [(0, 0); (0, 1); (2, 0); (2, 1); (3, 0)].
Proof. split; [repeat constructor|]. eexists. split; vm_compute; reflexivity. Qed.

(** C114, "a position that refuses protects all others": refuted.  What stands to its left is compared first: for
    Using(StrEq("…"), Eq(true)) a call with a null pointer and false is undefined. *)
Theorem C114_right_refuted : ~ (forall (ms : list (matcher nat nat)) args g t,
  length ms = length args -> (exists m a, nth_error ms g = Some m /\ nth_error args g = Some a /\ never counted text m a) ->
  exists t' qs x, weigh counted text sums 0 (CUsing ms) args t = Def (t', qs, x)).
Proof.
  intros H. destruct (H [MOther 5; MCmp OEq 1] [0; 0] 1 0) as (t' & qs & x & W).
  - reflexivity.
  - exists (MCmp OEq 1), 0. split; [reflexivity|]. split; [reflexivity|]. intros t. cbn. discriminate.
  - vm_compute in W. discriminate.
Qed.

(** C114, "a call that some stubbing accepts is answered": refuted.  A newer stubbing is compared first: after
    When(f.Using(nullptr))… and When(f.Using(StrEq("…")))… the call f(nullptr) is undefined. *)
Theorem C114_newer_refuted : ~ (forall (m : method nat nat nat nat) args t,
  Forall (fun s => fits (length args) (snd s)) (m_stubs m) ->
  (exists id c, In (id, c) (m_stubs m) /\ forall t, exists t' qs, weigh counted text sums 0 c args t = Def (t', qs, Yes)) ->
  exists m' t' qs r, call counted text sums m args t = Def (m', t', qs, r)).
Proof.
  intros H. destruct (H (mkMethod [(0, CUsing [MCmp OEq 0]); (1, CUsing [MOther 5])] [] 0) [0] 0) as (m' & t' & qs & r & C).
  - repeat constructor.
  - exists 0, (CUsing [MCmp OEq 0]). split; [left; reflexivity|]. intros t. do 2 eexists. reflexivity.
  - vm_compute in C. discriminate.
Qed.

Definition C114_all := (@C114_condition, @C114_ends, @C114_call, @C114_once, @C114_guard, @C114_chosen, C114_right_refuted, C114_newer_refuted).
Print Assumptions C114_all.
