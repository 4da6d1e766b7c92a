(** When programs may have mocks, and objects that use mocks, in variables with static storage
    duration. *)
From Coq Require Import Bool Arith List.
From Verif Require Import Globals.
Import ListNotations.
Open Scope nat_scope.

(** The files whose library variables code of file f reads. *)
Fixpoint reads (p : gprog) (f : nat) (x : code) : list nat :=
  match x with
  | LMake c | LUnexpected c | LUnmocked c | LStatic _ c => [p_kept p f c]
  | LVerify _ => [f]
  | LDefault _ | LVar _ _ => []
  | LIn g l => flat_map (reads p g) l
  end.

(** The values the library makes at first use and destroys at the end of the program that code
    uses: the name of methods that were never mentioned, default values of class types. *)
Fixpoint values (p : gprog) (x : code) : list key :=
  match x with
  | LUnmocked _ => [KUnknown]
  | LDefault t => if p_trivial p t then [] else [KDefault t]
  | LIn _ l => flat_map (values p) l
  | _ => []
  end.

Definition all_reads (p : gprog) (f : nat) (l : list code) : list nat := flat_map (reads p f) l.
Definition all_values (p : gprog) (l : list code) : list key := flat_map (values p) l.

Definition includes (p : gprog) (f : nat) : Prop := exists x, nth_error (p_files p) f = Some x /\ gf_includes x = true.
Definition variable (p : gprog) (f i : nat) (v : gvar) : Prop :=
  exists x, nth_error (p_files p) f = Some x /\ nth_error (gf_vars x) i = Some v.

(** Variable i of file f is initialised before variable j of file g, or is that variable. *)
Definition not_after (f i g j : nat) : Prop := f < g \/ (f = g /\ i <= j).

(** - What runs before main uses the library only in its own file and in files that are
      initialised already.
    - A destructor that uses the library other than through a variable belongs to a variable
      that is initialised after the library variables of some file.
    - What a destructor uses of the values made at first use was used by the initialiser of that
      variable or of an earlier one. *)
Record orderly (p : gprog) : Prop := mkOrderly {
  o_init : forall f i v g, variable p f i v ->
    In g (all_reads p f (v_init v)) \/ (exists c, v_mock v = Some c /\ g = p_kept p f c) -> g <= f /\ includes p g;
  o_main : forall g, In g (all_reads p 0 (p_main p)) -> includes p g;
  o_fini : forall f i v g, variable p f i v -> In g (all_reads p f (v_fini v)) ->
    includes p g /\ exists g', g' <= f /\ includes p g';
  o_values : forall f i v k, variable p f i v -> In k (all_values p (v_fini v)) ->
    exists f' i' v', variable p f' i' v' /\ not_after f' i' f i /\ In k (all_values p (v_init v')) }.

(** The mocks among the objects. *)
Definition is_mock (p : gprog) (k : key) : Prop :=
  match k with
  | KLocal _ => True
  | KVar f i => exists v c, variable p f i v /\ v_mock v = Some c
  | _ => False
  end.

(** In a list of destroyed objects, the last one first: k went before k'. *)
Definition went_before (l : list key) (k k' : key) : Prop := exists a b, l = a ++ k :: b /\ In k' a.

(** Code that uses no variable of the user (whose lifetime is the user's business). *)
Fixpoint no_own (x : code) : bool :=
  match x with
  | LStatic _ _ | LVar _ _ => false
  | LIn _ l => forallb no_own l
  | _ => true
  end.

Definition without_own (p : gprog) : Prop :=
  forallb no_own (p_main p) = true /\
  forall f i v, variable p f i v -> forallb no_own (v_init v) = true /\ forallb no_own (v_fini v) = true.
