(** Specification for virtual table layout and dispatch: a table is a finite map
    from named entries to contents; a method belongs to its first stubbing. *)
From Coq Require Import Bool ZArith List.
From Verif Require Import Base VTable.
Import ListNotations.
Open Scope Z_scope.

(** The named entries of a replacement table. *)
Inductive entry : Type :=
| EMethod (i : Z)
| ECookie (i : Z).

Definition entry_eqb (a b : entry) : bool :=
  match a, b with
  | EMethod i, EMethod j => i =? j
  | ECookie i, ECookie j => i =? j
  | _, _ => false
  end.

Definition valid_entry (size cookies : Z) (e : entry) : Prop :=
  match e with
  | EMethod i => 0 <= i < size
  | ECookie i => 0 <= i < cookies
  end.

(** The content of an entry after a list of writes. *)
Fixpoint last_written {W : Type} (ops : list (entry * W)) (e : entry) (init : W) : W :=
  match ops with
  | [] => init
  | (e', w) :: rest => last_written rest e (if entry_eqb e' e then w else init)
  end.

(** The first (id, handler) given for a method position. *)
Fixpoint first_for {H : Type} (slot : nat) (ops : list (nat * Z * H)) : option (Z * H) :=
  match ops with
  | [] => None
  | (s, id, h) :: rest => if Nat.eqb s slot then Some (id, h) else first_for slot rest
  end.

(** Named access to a table. *)
Section Access.
Context {W : Type}.

Definition read_entry (l : layout) (t : vtable W) (e : entry) : outcome W :=
  match e with EMethod i => getMethod t i | ECookie i => getCookie l t i end.

Definition write_entry (l : layout) (t : vtable W) (e : entry) (w : W) : outcome (vtable W) :=
  match e with EMethod i => setMethod t i w | ECookie i => setCookie l t i w end.

Fixpoint write_all (l : layout) (t : vtable W) (ops : list (entry * W)) : outcome (vtable W) :=
  match ops with
  | [] => Def t
  | (e, w) :: rest => let! t' := write_entry l t e w in write_all l t' rest
  end.

End Access.

(** The table a compiler makes for a class: in front of the entries, GCC and clang have the
    offset to top and the type information, MSVC has the object locator; nothing else belongs
    to the table. *)
Definition compiled {W : Type} (l : layout) (top ti : W) (entries : list W) : vtable W :=
  match l with
  | Gcc => mkVt (top :: ti :: entries) 2
  | Msc => mkVt (ti :: entries) 1
  end.
