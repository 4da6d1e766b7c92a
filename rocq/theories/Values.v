(** Values that travel through mocked calls, and the memory they may refer to.
    C++ arguments and results are modelled by a closed universe of values; this
    file models no function of the library except the C string comparison it
    relies on. *)
From Coq Require Import Ascii String NArith ZArith Lia List.
From Coq Require Import Floats.SpecFloat.
From Verif Require Import Base CInt.
Import ListNotations.
Open Scope Z_scope.

(** Models no lines of /repo. *)
Definition addr := nat.

(** The argument and result types of a mocked method (ActualInvocation.hpp:36-40); models no lines of /repo. *)
Inductive val : Type :=
| VVoid                         (* result of a void method *)
| VInt (z : Z)                  (* an int (values within int range) *)
| VDbl (x : spec_float)         (* a double *)
| VBool (b : bool)
| VChar (c : ascii)
| VStr (s : string)             (* a std::string, or the content of a char buffer *)
| VCStr (p : option addr)       (* a char pointer; None is nullptr *)
| VPtr (p : option addr)        (* any other object pointer; None is nullptr *)
| VRef (a : addr)               (* a parameter or result of reference type *)
| VOpaque (n : nat).            (* a class type with operator== and no operator<< *)

(** Memory: the objects that pointers and references designate.  [None] is an
    object whose lifetime has ended.  Models no lines of /repo. *)
Definition mem := list (option val).

(** Models no lines of /repo. Reading an object; undefined if its lifetime has ended. *)
Definition load (m : mem) (a : addr) : outcome val :=
  match nth_error m a with
  | Some (Some v) => Def v
  | _ => UB
  end.

(** Models no lines of /repo. Assigning to an object. *)
Definition store (m : mem) (a : addr) (v : val) : outcome mem :=
  match nth_error m a with
  | Some (Some _) => Def (upd m a (Some v))
  | _ => UB
  end.

(** The object an argument expression designates: a reference argument is looked
    at in memory, everything else is itself.  What the matchers get, TupleDispatcher.hpp:14-28. *)
Definition view (m : mem) (v : val) : outcome val :=
  match v with
  | VRef a => load m a
  | _ => Def v
  end.

(** What is left of a by-value argument after another object was move-constructed
    from it.  The move of a number, a character or a pointer is a copy; what is left
    of an object of class type is unspecified and given by [left].  An argument of
    reference type stays what it is: parameters of type T&& are treated like T&, that
    is, the object they refer to is not considered moved from.  std::forward at RecordedMethodBody.hpp:129 and in
    ReturnAndSet (StubbingProgress.hpp:187-188). *)
Definition moved_from (left : val -> val) (v : val) : val :=
  match v with
  | VStr _ | VOpaque _ => left v
  | _ => v
  end.

(** ** C strings *)
(** Models no lines of /repo. *)

Definition byte (c : ascii) : N := N_of_ascii c.

(** Numeric value of a plain [char] (signed on the supported x86/GCC targets). *)
Definition char_value (c : ascii) : Z :=
  let z := Z.of_N (byte c) in if 128 <=? z then z - 256 else z.

(** std::strcmp on two NUL-terminated buffers with the given contents: bytes are
    compared as unsigned char; comparison stops at the first NUL.  Called at argument_matchers.hpp:280-430 (StrEq to
    StrNe). *)
Fixpoint strcmp (a b : string) : comparison :=
  match a with
  | EmptyString =>
      match b with
      | EmptyString => Eq
      | String cb _ => N.compare 0 (byte cb)
      end
  | String ca a' =>
      let cb := match b with EmptyString => 0%N | String c _ => byte c end in
      match N.compare (byte ca) cb with
      | Eq => if N.eqb (byte ca) 0 then Eq
              else match b with EmptyString => Eq | String _ b' => strcmp a' b' end
      | c => c
      end
  end.

(** ** Doubles (IEEE binary64) *)

Definition dprec : Z := 53.
(** IEEE 754 double; models no lines of /repo. *)
Definition demax : Z := 1024.
(** The subtraction at argument_matchers.hpp:475. *)
Definition dsub (x y : spec_float) : spec_float := SFsub dprec demax x y.
