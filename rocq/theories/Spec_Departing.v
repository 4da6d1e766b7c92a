(** * Values given to a mock, when they are destroyed: what is said about it

    The vocabulary (values, mocks, worlds) is that of Departing.v; none of its functions is used. *)
From Coq Require Import Bool List Arith.
From Verif Require Import Departing.
Import ListNotations.
Open Scope nat_scope.

Section Told.
  (** The world before, and the mock, if any, that has let go of its object. *)
  Variable w : world.
  Variable freed : option nat.

  Definition of_mock (m : nat) (k : mock) : Prop := nth_error (w_mocks w) m = Some k.

  (** A method of the object of [m] is stubbed, and whether a call is answered. *)
  Definition stubbed (m i : nat) (answers : bool) : Prop :=
    freed <> Some m /\
    exists k b, of_mock m k /\ mk_stage k = Attached /\ nth_error (mk_entries k) i = Some Bound /\
                nth_error (mk_slots k) i = Some (Body b) /\ b_answers b = answers.

  (** The object exists and method [i] of it is as the class has it. *)
  Definition plain (m i : nat) (own : bool) (dtor : option nat) : Prop :=
    exists k, of_mock m k /\ mk_own k = own /\ mk_dtor k = dtor /\ i < length (mk_entries k) /\
      ((freed = Some m \/ mk_stage k = Detached \/ mk_stage k = Gone /\ own = false)
       \/ mk_stage k = Attached /\ nth_error (mk_entries k) i = Some Orig).

  (** What an act means. *)
  Definition means (a : act) (m i : nat) : Prop :=
    match a with
    | Call m' i' => m' = m /\ i' = i
    | Delete m' => m' = m /\ exists k, of_mock m k /\ mk_dtor k = Some i
    end.

  (** It is carried out, and seen as this. *)
  Inductive told (a : act) : list seen -> Prop :=
  | t_answered m i : means a m i -> stubbed m i true -> told a [Answered m i]
  | t_original m i d : means a m i -> plain m i false d -> told a [Original m i]
  | t_ignored m i : means a m i -> plain m i true (Some i) -> told a [].

  (** It throws. *)
  Inductive fails (a : act) : Prop :=
  | f_unmatched m i : means a m i -> stubbed m i false -> fails a
  | f_unmocked m i d : means a m i -> plain m i true d -> d <> Some i -> fails a.

  (** The program may do it: the object exists. *)
  Definition possible (a : act) : Prop :=
    exists m i, means a m i /\ ((exists x, stubbed m i x) \/ (exists o d, plain m i o d)).

  (** The story of the acts of the values, each with the method it was kept for; [bad]: acts that are
      undefined. *)
  Variable bad : nat -> act -> Prop.
  Inductive outcome := Fine (l : list seen) | Stops | Undefined.
  Inductive goes : list (nat * act) -> outcome -> Prop :=
  | g_end : goes [] (Fine [])
  | g_fine i a r l l' : ~ bad i a -> told a l -> goes r (Fine l') -> goes ((i, a) :: r) (Fine (l ++ l'))
  | g_later i a r l o : ~ bad i a -> told a l -> goes r o -> (forall l, o <> Fine l) -> goes ((i, a) :: r) o
  | g_fails i a r : ~ bad i a -> fails a -> goes ((i, a) :: r) Stops
  | g_bad i a r : bad i a -> goes ((i, a) :: r) Undefined.
End Told.

(** Nothing is going on: a method is a proxy exactly if it has a body. *)
Definition settled (k : mock) : Prop :=
  mk_clearing k = None /\ length (mk_slots k) = length (mk_entries k) /\
  (mk_stage k = Attached ->
   forall i, match nth_error (mk_slots k) i with
             | Some (Body _) => nth_error (mk_entries k) i = Some Bound
             | Some Empty => nth_error (mk_entries k) i = Some Orig
             | Some Dead => False
             | None => True
             end).
Definition at_rest (w : world) : Prop := forall m k, nth_error (w_mocks w) m = Some k -> settled k.

(** The acts of a list of values, and those kept for a method, in the order of the destructors. *)
Definition turn {A} (fw : bool) (l : list A) : list A := if fw then l else rev l.
Definition acts_of (fw : bool) (i : nat) (l : list value) : list (nat * act) :=
  map (pair i) (concat (turn fw l)).
Definition numbered {A} (l : list A) : list (nat * A) := combine (seq 0 (length l)) l.
Definition all_kept (fw : bool) (k : mock) : list (nat * act) :=
  flat_map (fun p => match snd p with
                     | Body b => acts_of fw (fst p) (b_calls b) ++ acts_of fw (fst p) (b_held b)
                     | _ => []
                     end) (turn fw (numbered (mk_slots k))).
Definition all_recorded (fw : bool) (k : mock) : list (nat * act) :=
  flat_map (fun p => match snd p with Body b => acts_of fw (fst p) (b_calls b) | _ => [] end) (numbered (mk_slots k)).

(** Undefined while a mock is reset: a stubbed method of it that was emptied before, or is just
    being emptied. *)
Definition bad_reset (w : world) (fw : bool) (m : nat) (i : nat) (a : act) : Prop :=
  exists j x, means w a m j /\ stubbed w None m j x /\ (if fw then j <= i else i <= j).

(** Undefined while the history is cleared: an answered call of the method whose calls are cleared. *)
Definition bad_clear (w : world) (m : nat) (i : nat) (a : act) : Prop :=
  means w a m i /\ stubbed w None m i true.

(** The calls recorded for method [i] of mock [m]. *)
Definition history (w : world) (m i : nat) (l : list value) : Prop :=
  exists k b, nth_error (w_mocks w) m = Some k /\ nth_error (mk_slots k) i = Some (Body b) /\ b_calls b = l.

(** How often a method of a mock has answered. *)
Fixpoint answered (m i : nat) (l : list seen) : nat :=
  match l with
  | [] => 0
  | Answered m' i' :: r => (if Nat.eqb m' m && Nat.eqb i' i then 1 else 0) + answered m i r
  | Original _ _ :: r => answered m i r
  end.

(** Another mock's methods: still there, with the calls of the destructors added. *)
Definition others_grew (w w' : world) (m : nat) (l : list seen) : Prop :=
  forall n i h, n <> m -> history w n i h -> history w' n i (h ++ repeat [] (answered n i l)).
