(** Specification: which numbers the integer types hold, how wide the comparison of two
    integer types is and whether it disregards the sign. *)
From Coq Require Import ZArith Floats.SpecFloat.
From Verif Require Import Convert.
Open Scope Z_scope.

(** The type [t] can hold the number [z]. *)
Definition fits (t : ity) (z : Z) : Prop :=
  match t with
  | TBool => z = 0 \/ z = 1
  | TInt true W8 => -128 <= z <= 127
  | TInt true W16 => -32768 <= z <= 32767
  | TInt true W32 => -2147483648 <= z <= 2147483647
  | TInt true W64 => -9223372036854775808 <= z <= 9223372036854775807
  | TInt false W8 => 0 <= z <= 255
  | TInt false W16 => 0 <= z <= 65535
  | TInt false W32 => 0 <= z <= 4294967295
  | TInt false W64 => 0 <= z <= 18446744073709551615
  end.

(** The number of values of a type of the width. *)
Definition size_of (w : width) : Z :=
  match w with W8 => 256 | W16 => 65536 | W32 => 4294967296 | W64 => 18446744073709551616 end.

(** The number of values that a comparison of a [t] with a [u] tells apart. *)
Definition values_of (t u : ity) : Z :=
  match t, u with
  | TInt _ W64, _ | _, TInt _ W64 => 18446744073709551616
  | _, _ => 4294967296
  end.

(** The comparison of a [t] with a [u] takes negative numbers for large ones. *)
Definition signless (t u : ity) : Prop :=
  t = TInt false W64 \/ u = TInt false W64 \/
  (values_of t u = 4294967296 /\ (t = TInt false W32 \/ u = TInt false W32)).

(** [x] is a datum of the type float (IEEE binary32). *)
Definition is_float (x : spec_float) : Prop := valid_binary 24 128 x = true.
