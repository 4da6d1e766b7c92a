(** What is asked of statements and calls that run out of memory: in terms of the objects that are there, the
    answers a mock has for a method, and the calls it remembers.  Nothing here models library code. *)
From Coq Require Import ZArith Permutation List.
From Verif Require Import OutOfMemory.
Import ListNotations.
Open Scope nat_scope.

(** The objects that are there, with their contents. *)
Definition objects (s : state) : list (nat * thing) :=
  flat_map (fun i => match nth_error (st_heap s) i with Some (Some t) => [(i, t)] | _ => [] end)
           (seq 0 (length (st_heap s))).

Definition answers (s : state) : list nat := match st_body s with Some b => bo_handlers b | None => [] end.
Definition history (s : state) : list nat := match st_body s with Some b => bo_calls b | None => [] end.

(** What the mock gets when a method is mentioned for the first time. *)
Definition first_mention (s s' : state) : list (nat * thing) :=
  match st_body s, st_body s' with None, Some b => [(bo_id b, ABody)] | _, _ => [] end.

(** Every object is as it was, and so are the answers and the calls. *)
Definition kept (s s' : state) : Prop :=
  incl (objects s) (objects s') /\ answers s' = answers s /\ history s' = history s /\
  (forall b, st_body s = Some b -> st_body s' = Some b).

(** No object more than before, but for the first mention. *)
Definition tidy (s s' : state) : Prop := Permutation (objects s') (first_mention s s' ++ objects s).

(** The objects of one answer: [args] matchers of arguments (if any were given), the actions [acts] in order. *)
Definition answer (h : nat) (args : option nat) (acts : list (option Z)) (l : list (nat * thing)) : Prop :=
  exists q m last ids mids,
    length ids = length acts /\ length mids = match args with Some n => n | None => 0 end /\
    l = [(h, AHandler [q; m]); (q, ASeq (ids ++ [last]) []); (last, ALast); (m, AMatcher mids)]
        ++ combine ids (map AAction acts) ++ map (fun i => (i, AArg)) mids.

(** An answer that can be played: its actions, and after them the one that says there are no more. *)
Definition playable (s : state) (h : nat) : Prop :=
  exists q m ids last used,
    In (h, AHandler [q; m]) (objects s) /\ In (q, ASeq (ids ++ [last]) used) (objects s) /\
    In (last, ALast) (objects s) /\ forall i, In i ids -> exists k, In (i, AAction k) (objects s).

(** A mock that can be called. *)
Definition sound (s : state) : Prop :=
  (st_entry s = true -> st_body s <> None) /\ forall h, In h (answers s) -> playable s h.

(** The next action of an answer. *)
Definition next (s : state) (h : nat) (a : nat) (t : thing) : Prop :=
  exists q m r used, In (h, AHandler [q; m]) (objects s) /\ In (q, ASeq (a :: r) used) (objects s) /\ In (a, t) (objects s).

(** A call is remembered and takes the next action of [h]: once more of it is used, and it is put with the used
    ones if that was the last time; nothing else happens. *)
Definition answered (s s' : state) (h : nat) : Prop :=
  exists i q m a r used,
    history s' = history s ++ [i] /\ In (h, AHandler [q; m]) (objects s) /\
    ((In (q, ASeq (a :: r) used) (objects s) /\ In (a, AAction None) (objects s) /\
      Permutation (objects s') ((i, ACall false) :: objects s)) \/
     exists k rest,
       Permutation (objects s) ((a, AAction (Some k)) :: (q, ASeq (a :: r) used) :: rest) /\
       Permutation (objects s')
         ((i, ACall false) :: (a, AAction (Some (k - 1)%Z)) :: (q, if (k =? 1)%Z then ASeq r (used ++ [a]) else ASeq (a :: r) used) :: rest)).

(** A call that was not answered for lack of memory, or that nothing was recorded for: nothing but perhaps the
    record of the call is new, and no answer is used up. *)
Definition starved (s s' : state) : Prop :=
  (history s' = history s /\ Permutation (objects s') (objects s)) \/
  (exists i, history s' = history s ++ [i] /\ Permutation (objects s') ((i, ACall false) :: objects s)).

(** One of the four allocations fails with which an answer is put into the mock, once there is memory for the
    answer itself; [k]: the number of allocations tried before the end of the statement. *)
Definition commit_fails (fails : nat -> bool) (k : nat) : bool :=
  (fails (1 + k) || fails (2 + k) || fails (3 + k) || fails (4 + k))%bool.

(** Before anything happens. *)
Definition no_mock : state := mkState 0 [] false None.
