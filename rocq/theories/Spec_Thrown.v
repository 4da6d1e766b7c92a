(** What a test may expect of Throw, without lambdas, actions and copies: each statement writes down what the statement
    "throw x;" would throw at that time, and the calls throw that, in order. *)
From Coq Require Import Bool Ascii String Arith Lia List.
From Verif Require Import Base Thrown.
Import ListNotations.
Open Scope list_scope.
Open Scope nat_scope.

Section Spec.
Variable derives : nat -> nat -> bool.

(** What is thrown: an object of a class with the values of its parts, a text, or the address of an array of the test. *)
Inductive item := IObject (class : nat) (part : nat -> nat) | IText (t : string) | IAddress (a : nat).

(** What the test has caught last: a text of a stubbing, or the address of an array of its own.  [born]: how many Resets
    there were when the stubbing was made. *)
Inductive kept := KText (born : nat) (t : string) | KAddress (a : nat).

Record sstate := mkSpec {
  s_vars : nat -> object;
  s_texts : nat -> string;
  s_items : list (item * option nat);
  s_born : nat;          (* the number of Resets when the newest statement was made *)
  s_resets : nat;
  s_last : option kept
}.

(** "throw x;" here and now.  An array is thrown as the address of its first character; Throw keeps the text. *)
Definition now (s : sstate) (x : operand) : item :=
  match x with
  | XObject v c => IObject c (o_part (s_vars s v))
  | XArray a => IText (s_texts s a)
  | XPointer a => IAddress a
  end.

(** AlwaysThrow of a method without a result throws addresses. *)
Definition now_or_address (void : bool) (s : sstate) (x : operand) : item :=
  match void, x with true, XArray a => IAddress a | _, _ => now s x end.

Definition items (s : sstate) (void : bool) (once : list (operand * nat)) (always : option operand) : list (item * option nat) :=
  map (fun p => (now s (fst p), Some (snd p))) once ++
  match always with Some x => [(now_or_address void s x, None)] | None => [] end.

(** A handler takes an object if it is for its class or a base; it sees the part of the class it is for. *)
Definition takes (i : item) (h : handler) : bool :=
  match h, i with
  | CatchAll, _ => true
  | CatchText, (IText _ | IAddress _) => true
  | CatchClass c, IObject d _ => derives d c
  | _, _ => false
  end.
Definition sees (i : item) (h : handler) : seen :=
  match h, i with
  | CatchAll, _ => SawNothing
  | CatchClass c, IObject d f => SawObject d (if derives d c then f c else 0)
  | _, _ => SawPointer
  end.
(** The first handler that takes it. *)
Fixpoint first_of (n : nat) (i : item) (hs : list handler) : option (nat * handler) :=
  match hs with
  | [] => None
  | h :: r => if takes i h then Some (n, h) else first_of (S n) i r
  end.
Definition caught (i : item) (hs : list handler) : told :=
  match first_of 0 i hs with Some (n, h) => Caught n (sees i h) | None => Escaped end.

(** What is left after a call. *)
Definition less (l : list (item * option nat)) : list (item * option nat) :=
  match l with
  | (i, Some (S (S n))) :: r => (i, Some (S n)) :: r
  | (i, None) :: r => (i, None) :: r
  | _ :: r => r
  | [] => []
  end.

Definition keeps_last (s : sstate) (i : item) (hs : list handler) : option kept :=
  match first_of 0 i hs with
  | Some (_, CatchText) => match i with IText t => Some (KText (s_born s) t) | IAddress a => Some (KAddress a) | _ => s_last s end
  | _ => s_last s
  end.

(** One statement; [None]: not allowed.  A text of a stubbing may be read until the next Reset. *)
Definition s_step (s : sstate) (o : top) : option (sstate * told) :=
  match o with
  | OStub void once always =>
      Some (mkSpec (s_vars s) (s_texts s) (items s void once always) (s_resets s) (s_resets s) (s_last s), Done)
  | OAssign v c n =>
      Some (mkSpec (fun w => if Nat.eqb v w then mkObject (o_class (s_vars s v)) (fun b => if Nat.eqb c b then n else o_part (s_vars s v) b)
                             else s_vars s w)
              (s_texts s) (s_items s) (s_born s) (s_resets s) (s_last s), Done)
  | OWrite a t =>
      Some (mkSpec (s_vars s) (fun b => if Nat.eqb a b then t else s_texts s b) (s_items s) (s_born s) (s_resets s) (s_last s), Done)
  | OCall hs =>
      match s_items s with
      | [] => Some (s, Unexpected)
      | (i, _) :: _ =>
          Some (mkSpec (s_vars s) (s_texts s) (less (s_items s)) (s_born s) (s_resets s) (keeps_last s i hs), caught i hs)
      end
  | OReset => Some (mkSpec (s_vars s) (s_texts s) [] (s_born s) (S (s_resets s)) (s_last s), Done)
  | ORead =>
      match s_last s with
      | Some (KText n t) => if Nat.eqb n (s_resets s) then Some (s, Text t) else None
      | Some (KAddress a) => Some (s, Text (s_texts s a))
      | None => None
      end
  end.

Fixpoint s_run (os : list top) (s : sstate) : option (list told) :=
  match os with
  | [] => Some []
  | o :: r => match s_step s o with
              | Some (s1, x) => match s_run r s1 with Some xs => Some (x :: xs) | None => None end
              | None => None
              end
  end.

Definition s_init (vars : nat -> object) (texts : nat -> string) : sstate := mkSpec vars texts [] 0 0 None.

(** Quantities are positive. *)
Definition positive (o : top) : Prop :=
  match o with OStub _ once _ => Forall (fun p => 1 <= snd p) once | _ => True end.

(** "throw x;" in the place of the call: what the handlers there catch. *)
Definition in_place (vars : nat -> object) (x : operand) (hs : list handler) : told :=
  caught match x with XObject v c => IObject c (o_part (vars v)) | XArray a | XPointer a => IAddress a end hs.
End Spec.
