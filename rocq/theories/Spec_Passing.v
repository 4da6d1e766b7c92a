(** What should become of the arguments of a call. *)
From Coq Require Import Bool Arith Lia List.
From Verif Require Import Base Passing.
Import ListNotations.

(** What an object holds now. *)
Definition content (s : st) (l : nat) : option cell := nth_error (cells s) l.

(** The arguments of a call are there, and those passed by value are objects of their own. *)
Record usable (ms : list mode) (ls : list nat) (s : st) : Prop := {
  us_length : length ls = length ms;
  us_alive : forall l, In l ls -> exists c, content s l = Some c /\ c <> Gone;
  us_own : forall i j b l, nth_error ms i = Some (ByValue b) -> nth_error ls i = Some l -> nth_error ls j = Some l -> i = j }.

(** The objects [rs], at a later time, stand for the arguments [ls]: references to the same objects, and new objects with the
    same values. *)
Definition stand_for (ms : list mode) (s : st) (ls : list nat) (s' : st) (rs : list nat) : Prop :=
  length rs = length ms /\
  forall i m l, nth_error ms i = Some m -> nth_error ls i = Some l ->
    exists r, nth_error rs i = Some r /\ content s' r = content s l /\
      match m with ByValue _ => length (cells s) <= r | _ => r = l end.

(** Each argument passed by value moved once (copied, if it has no move constructor), from left to right; references are not
    touched. *)
Fixpoint moves (ms : list mode) (from to : list nat) : list event :=
  match ms, from, to with
  | m :: ms, f :: from, t :: to =>
      match m with ByValue true => [Moved f t] | ByValue false => [Copied f t] | _ => [] end ++ moves ms from to
  | _, _, _ => []
  end.
(** Each copied once. *)
Fixpoint copies (ms : list mode) (from to : list nat) : list event :=
  match ms, from, to with
  | m :: ms, f :: from, t :: to => match m with ByValue _ => [Copied f t] | _ => [] end ++ copies ms from to
  | _, _, _ => []
  end.

(** Nothing made since [s] is left. *)
Definition nothing_left (s s' : st) : Prop := forall l, length (cells s) <= l -> content s' l = None \/ content s' l = Some Gone.
