(** What is asked of verifications that may be interrupted: in terms of the calls that the mock remembers, which
    of them are verified, and the objects that are there.  (From the models only the form of objects, patterns
    and quantifiers is used.) *)
From Coq Require Import Bool ZArith Permutation List.
From Verif Require Import OutOfMemory Expectation Interrupted Spec_Match Spec_Verify Spec_OutOfMemory.
Import ListNotations.
Open Scope nat_scope.

(** The calls that the mock remembers are there. *)
Definition calls_there (s : state) : Prop := forall i, In i (history s) -> exists v, In (i, ACall v) (objects s).
Definition verified (s : state) (i : nat) : Prop := In (i, ACall true) (objects s).

(** A pattern that can be written: one sequence at least, each of at least one of the expressions. *)
Definition written (ck : check) : Prop :=
  ck_pattern ck <> [] /\
  forall ms, In ms (ck_pattern ck) -> ms <> [] /\ forall m, In m ms -> m < length (ck_exprs ck).

(** What the matchers say, where they do not throw. *)
Definition fits (ck : check) (acc : nat -> nat -> Prop) : Prop :=
  forall m i b, ck_asks ck m i = Some b -> (acc m i <-> b = true).
(** The predicate of some expression throws for some call. *)
Definition may_throw (ck : check) (s : state) : Prop :=
  exists m i, m < length (ck_exprs ck) /\ In i (history s) /\ ck_asks ck m i = None.

(** Whatever the predicates that throw would have said: the pattern is found [n] times among the calls of [s],
    and the calls [l] are part of that or of the beginning of one time more. *)
Definition found (ck : check) (s : state) (n : nat) (l : list nat) : Prop :=
  forall acc, fits ck acc -> exists occs e pre ps,
    in_a_row acc (history s) (ck_pattern ck) 0 occs e /\
    gives_up acc (history s) (ck_pattern ck) e pre ps /\
    n = length occs /\
    l = flat_map (occ_items (history s) (ck_pattern ck)) occs ++ occ_items (history s) pre ps.

(** What a quantifier asks for; AtLeast(0) asks that there be none. *)
Definition refused (q : option quant) : Prop :=
  exists n, (n < 0)%Z /\ (q = Some (QExactly n) \/ q = Some (QAtLeast n)).
Definition meets (q : option quant) (n : nat) : Prop :=
  match q with
  | None | Some QAtLeastOnce => 1 <= n
  | Some QAny => True
  | Some QNever => n = 0
  | Some QOnce => n = 1
  | Some QTwice => n = 2
  | Some (QExactly k) => Z.of_nat n = k
  | Some (QAtLeast k) => if (k =? 0)%Z then n = 0 else (k <= Z.of_nat n)%Z
  end.

(** What the quantifiers ask for that were given to a verification in a variable, one after the other: the last
    one that is not refused counts, but Any stays. *)
Definition quants (l : list step) : list life_op :=
  flat_map (fun o => match o with SQuant q => [LQuant q] | SBool => [] end) l.
Definition wanted (l : list step) (n : nat) : Prop :=
  match in_force (ReqAtLeast 1) (quants l) with
  | ReqAny => True
  | ReqExactly k => Z.of_nat n = k
  | ReqAtLeast k => if (k =? 0)%Z then n = 0 else (k <= Z.of_nat n)%Z
  end.

(** The calls [l] are verified, and nothing else happens. *)
Definition mark (l : list nat) (p : nat * thing) : nat * thing :=
  match p with (i, ACall v) => (i, ACall (v || existsb (Nat.eqb i) l)) | _ => p end.
Definition marked (l : list nat) (s s' : state) : Prop :=
  Permutation (objects s') (first_mention s s' ++ map (mark l) (objects s)) /\
  answers s' = answers s /\ history s' = history s.

(** Nothing happens at all, but for a first mention. *)
Definition nothing (s s' : state) : Prop := kept s s' /\ tidy s s'.
