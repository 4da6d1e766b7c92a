(** Model of include/mockutils/Finally.hpp:15-36 and of the way a spied method runs the original:
    DynamicProxy.hpp:177-187 (createRaiiMethodSwapper), MockImpl.hpp:294-297 (its forwarder) and
    the callable of Spy, MockImpl.hpp:188-191, 209-212 (the same but for how the arguments are
    passed).

    A Finally object is returned by value twice and initialises a variable.  Up to C++14 the compiler
    may elide each of these three moves or not; from C++17 on there is nothing to elide.  Simplified:
    virtual tables are lists of methods [M], the body of the original is any function of the table
    that gives a result (a value or an exception) and the table it leaves behind. *)
From Coq Require Import Arith Lia List.
From Verif Require Import Base.
Import ListNotations.
Open Scope nat_scope.

Section Finally.
Context {M Rs : Type}.

(** A virtual table, and a clause: the entry to write and what to write to it.  The entries that
    DynamicProxy.hpp:183-185 reads and writes. *)
Definition vtab : Type := list M.
(** The lambda at DynamicProxy.hpp:184-186. *)
Definition clause : Type := (nat * M)%type.

(** A Finally: its std::function, which may be empty.  Finally.hpp:15-36. *)
Definition finally : Type := option clause.

(** How a piece of code ends: normally, or in std::terminate.  A rule of the language, for the destructor of
    Finally.hpp:32-34. *)
Inductive ended (A : Type) : Type := Went (a : A) | Terminated.
Arguments Went {A} _.
Arguments Terminated {A}.

(** setMethod: gcc/VirtualTable.hpp:39-41. *)
Definition set_entry (t : vtab) (o : nat) (m : M) : outcome vtab :=
  if Nat.ltb o (length t) then Def (upd t o m) else UB.

(** The constructor from a callable, Finally.hpp:23-25. *)
Definition finally_new (c : clause) : finally := Some c.

(** The move constructor, Finally.hpp:27-29: the new object's function, empty so far, is swapped with
    the other's.  Result: the new object and what the other one is now. *)
Definition finally_move (other : finally) : finally * finally := (other, None).

(** The destructor, Finally.hpp:31-33.  Destructors are noexcept: std::bad_function_call from an empty
    function ends in std::terminate. *)
Definition finally_destroy (f : finally) (t : vtab) : outcome (ended vtab) :=
  match f with
  | None => Def Terminated
  | Some (o, m) => let! t' := set_entry t o m in Def (Went t')
  end.

(** A Finally handed on from one return to the next; [true] where the compiler elides the move.
    Where it does not, the object returned is moved from and destroyed.  DynamicProxy.hpp:184, MockImpl.hpp:296,
    189. *)
Fixpoint hand_on (elides : list bool) (f : finally) (t : vtab) : outcome (ended (finally * vtab)) :=
  match elides with
  | [] => Def (Went (f, t))
  | true :: r => hand_on r f t
  | false :: r =>
      let (g, f') := finally_move f in
      let! e := finally_destroy f' t in
      match e with Terminated => Def Terminated | Went t' => hand_on r g t' end
  end.

(** createRaiiMethodSwapper: DynamicProxy.hpp:177-187; [orig]: the original table. *)
Definition method_swapper (orig t : vtab) (o : nat) : outcome (finally * vtab) :=
  let! fake := of_option (nth_error t o) in
  let! m := of_option (nth_error orig o) in
  let! t' := set_entry t o m in
  Def (finally_new (o, fake), t').

(** The callable of Spy: MockImpl.hpp:188-191.  The destructor of the variable runs after the
    original, however it ended. *)
Definition spied (elides : list bool) (orig t : vtab) (o : nat) (body : vtab -> Rs * vtab) :
    outcome (ended (Rs * vtab)) :=
  let! (f, t1) := method_swapper orig t o in
  let! h := hand_on elides f t1 in
  match h with
  | Terminated => Def Terminated
  | Went (f', t2) =>
      let (r, t3) := body t2 in
      let! e := finally_destroy f' t3 in
      match e with Terminated => Def Terminated | Went t4 => Def (Went (r, t4)) end
  end.
End Finally.
Arguments Went {A} _.
Arguments Terminated {A}.
