(** Model of Return for types that can be moved but not copied:
    include/fakeit/StubbingProgress.hpp:62-69, over the action sequences of ActionSeq.v. *)
From Coq Require Import ZArith List.
From Verif Require Import Base CInt ActionSeq.
Import ListNotations.
Open Scope Z_scope.

Section M.
(** [V]: the values; [G]: other callables. *)
Context {V G : Type}.

(** What a shared_ptr made by Return refers to: a value, or what a move left behind.  StubbingProgress.hpp:65, 67.
    *)
Inductive cell : Type := Full (v : V) | Emptied.

(** The callables of a chain: the lambda of Return(R&&), which holds the shared_ptr number
    [i] (66-68; copies of the std::function share it), and any other. *)
Inductive mcallable : Type := FMove (i : nat) | FOther (g : G).

(** One link of the chain, as written by the user.  StubbingProgress.hpp:50-129. *)
Inductive mlink : Type := LMove (v : V) | LPlain (r : recorded G).

(** Links other than those of 62-69: StubbingProgress.hpp:50-60, 71-129. *)
Definition plain (r : recorded G) : recorded mcallable :=
  match r with
  | RecOnce g => RecOnce (FOther g)
  | RecTimes g q => RecTimes (FOther g) q
  | RecAlways g => RecAlways (FOther g)
  end.

(** Return(R&&): 65 make_shared<R>(std::move(r)), 66 Do: one Repeat. *)
Fixpoint mrecord (st : list cell) (l : list mlink) : list cell * list (recorded mcallable) :=
  match l with
  | [] => (st, [])
  | LMove v :: l' => let (st', rs) := mrecord (st ++ [Full v]) l' in (st', RecOnce (FMove (length st)) :: rs)
  | LPlain r :: l' => let (st', rs) := mrecord st l' in (st', plain r :: rs)
  end.

(** What a call gives its caller.  The R of StubbingProgress.hpp:66, or what ActionSequence.hpp:40-54 throws. *)
Inductive mresult : Type :=
| Got (c : cell)        (* an object constructed from what the shared_ptr refers to *)
| GotOther (g : G)
| GotDefault
| NoAnswer.             (* the call is unexpected *)

(** 67: [return std::move( *store)]: the caller's object is made from the content, which is
    left emptied.  The move constructor of the value type is taken not to call mocked methods
    and not to throw.  A shared_ptr that refers to nothing: cannot happen, shown as undefined. *)
Definition mserve (st : list cell) (s : served mcallable) : outcome (list cell * mresult) :=
  match s with
  | SrvCall (FMove i) => let! c := of_option (nth_error st i) in Def (upd st i Emptied, Got c)
  | SrvCall (FOther g) => Def (st, GotOther g)
  | SrvDefault => Def (st, GotDefault)
  | SrvNoMore => Def (st, NoAnswer)
  end.

(** [k] calls one after the other.  ActionSequence.hpp:40-54 for each. *)
Fixpoint mcalls (k : nat) (s : aseq mcallable) (st : list cell) : outcome (list mresult) :=
  match k with
  | O => Def []
  | S k' =>
      let! (s', srv) := handle_call s in
      let! (st', r) := mserve st srv in
      let! rs := mcalls k' s' st' in
      Def (r :: rs)
  end.

(** A chain on a new sequence, and then [k] calls.  StubbingProgress.hpp:50-129 and ActionSequence.hpp:40-54. *)
Definition mrun (l : list mlink) (k : nat) : outcome (list mresult) :=
  let (st, rs) := mrecord [] l in
  let! s := record_all aseq_new rs in
  mcalls k s st.
End M.
Arguments cell V : clear implicits.
Arguments mcallable G : clear implicits.
Arguments mlink V G : clear implicits.
Arguments mresult V G : clear implicits.
