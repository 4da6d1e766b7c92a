(** Specification of pattern matching, independent of the model: what it means
    for a pattern to occur in a list of invocations.  (From Sequences.v only the form of
    patterns is used.) *)
From Coq Require Import List Arith ZArith.
From Verif Require Import Sequences.
Import ListNotations.
Open Scope nat_scope.

(** The expectations a sequence stands for, one after the other: a + b is [a] followed by
    [b], s * n is [s] n times. *)
Fixpoint spelled {M : Type} (s : sequence M) : list M :=
  match s with
  | SLeaf m => [m]
  | SConcat a b => spelled a ++ spelled b
  | SRepeat a n => concat (repeat (spelled a) (Z.to_nat n))
  end.

Section Spec.
Context {I M : Type}.
(** [acc m i]: expectation [m] accepts invocation [i]. *)
Variable acc : M -> I -> Prop.

(** The expectations [ms] accept the consecutive invocations at positions
    [p], [p+1], ... of [act]. *)
Definition block_at (ms : list M) (act : list I) (p : nat) : Prop :=
  p + length ms <= length act /\
  forall j m i, nth_error ms j = Some m -> nth_error act (p + j) = Some i -> acc m i.

(** [occurs act pat s ps e]: the blocks of [pat] occur in [act] in order at the
    positions [ps], none before [s], without overlap, gaps allowed; the
    occurrence ends before position [e]. *)
Inductive occurs (act : list I) : list (list M) -> nat -> list nat -> nat -> Prop :=
| occ_nil : forall s, occurs act [] s [] s
| occ_cons : forall ms rest s p ps e,
    s <= p -> block_at ms act p -> occurs act rest (p + length ms) ps e ->
    occurs act (ms :: rest) s (p :: ps) e.

(** A series of occurrences, each starting at or after the end of the previous
    one. *)
Inductive series (act : list I) (pat : list (list M)) : nat -> list (list nat) -> Prop :=
| ser_nil : forall s, series act pat s []
| ser_cons : forall s ps e occs,
    occurs act pat s ps e -> series act pat e occs -> series act pat s (ps :: occs).

(** [n] is the largest number of occurrences in such a series. *)
Definition max_occurrences (act : list I) (pat : list (list M)) (n : nat) : Prop :=
  (exists occs, series act pat 0 occs /\ length occs = n) /\
  (forall occs, series act pat 0 occs -> length occs <= n).

(** An occurrence each of whose blocks stands at the first place where it can. *)
Inductive leftmost (act : list I) : list (list M) -> nat -> list nat -> nat -> Prop :=
| lm_nil : forall s, leftmost act [] s [] s
| lm_cons : forall ms rest s p ps e,
    s <= p -> block_at ms act p -> (forall r, s <= r < p -> ~ block_at ms act r) ->
    leftmost act rest (p + length ms) ps e ->
    leftmost act (ms :: rest) s (p :: ps) e.

(** Such occurrences one after the other, from [s] to [e]. *)
Inductive in_a_row (act : list I) (pat : list (list M)) : nat -> list (list nat) -> nat -> Prop :=
| row_nil : forall s, in_a_row act pat s [] s
| row_cons : forall s ps e occs e',
    leftmost act pat s ps e -> in_a_row act pat e occs e' -> in_a_row act pat s (ps :: occs) e'.

(** From [s] on the pattern does not occur any more: its blocks [pre] do, at [ps], but
    the next one does not occur behind them. *)
Definition gives_up (act : list I) (pat : list (list M)) (s : nat) (pre : list (list M)) (ps : list nat) : Prop :=
  exists ms post e, pat = pre ++ ms :: post /\ leftmost act pre s ps e /\
    forall r, e <= r -> ~ block_at ms act r.

(** The positions covered by an occurrence. *)
Fixpoint covered (pat : list (list M)) (ps : list nat) (k : nat) : Prop :=
  match pat, ps with
  | ms :: pat', p :: ps' => p <= k < p + length ms \/ covered pat' ps' k
  | _, _ => False
  end.

End Spec.

(** The invocations of [act] at the positions of an occurrence, in order. *)
Fixpoint occ_items {I M : Type} (act : list I) (pat : list (list M)) (ps : list nat) : list I :=
  match pat, ps with
  | ms :: pat', p :: ps' => firstn (length ms) (skipn p act) ++ occ_items act pat' ps'
  | _, _ => []
  end.

(** s + s + ... + s, n times. *)
Fixpoint n_fold {M : Type} (n : nat) (s : sequence M) : sequence M :=
  match n with
  | O | S O => s
  | S n' => SConcat (n_fold n' s) s
  end.

(** One sequence inside a larger one. *)
Inductive seq_ctx {M : Type} : Type :=
| CHole | CLeft (c : seq_ctx) (r : sequence M) | CRight (l : sequence M) (c : seq_ctx)
| CRep (c : seq_ctx) (n : Z).
Arguments seq_ctx : clear implicits.

Fixpoint plug {M : Type} (c : seq_ctx M) (s : sequence M) : sequence M :=
  match c with
  | CHole => s
  | CLeft c r => SConcat (plug c s) r
  | CRight l c => SConcat l (plug c s)
  | CRep c n => SRepeat (plug c s) n
  end.
