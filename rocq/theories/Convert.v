(** Model of comparison matchers whose operand and argument have different arithmetic types:
    the expressions [actual == this->_expected] and so on of
    include/fakeit/argument_matchers.hpp:100-102, 130-132, 160-162, 190-192, 220-222,
    250-252.  The matcher keeps the operand with its own type (ExpectedT, 30, 41); nothing
    converts it to the type of the parameter, so the comparison converts both to a common
    type as the language has it.

    Integer types by width and sign; [long] is 64 bits wide (as with GCC on 64-bit Linux; a
    32-bit [long] behaves like [int]).  Conversion to a signed type that cannot hold the value
    wraps around (as all supported compilers do; C++20 demands it). *)
From Coq Require Import Bool ZArith Lia List.
From Coq Require Import Floats.SpecFloat.
From Verif Require Import Base Values ArgMatchers.
Open Scope Z_scope.

Inductive width : Type := W8 | W16 | W32 | W64.
(** The widths of LP64. Models no lines of /repo. *)
Definition bits (w : width) : Z := match w with W8 => 8 | W16 => 16 | W32 => 32 | W64 => 64 end.

(** The arithmetic types ActualT and ExpectedT may be: argument_matchers.hpp:91-101. *)
Inductive ity : Type :=
| TBool
| TInt (signed : bool) (w : width).

(** Conversion of a number to an integer type.  A rule of the language, for the operators at
    argument_matchers.hpp:101, 131, 161, 191, 221, 251. *)
Definition convert (t : ity) (z : Z) : Z :=
  match t with
  | TBool => if z =? 0 then 0 else 1
  | TInt false w => z mod 2 ^ bits w
  | TInt true w => (z + 2 ^ (bits w - 1)) mod 2 ^ bits w - 2 ^ (bits w - 1)
  end.

(** Integral promotion: types narrower than int, and bool, become int.  A rule of the language, for
    argument_matchers.hpp:101-251. *)
Definition promote (t : ity) : ity :=
  match t with
  | TInt s w => if bits w <? 32 then TInt true W32 else t
  | TBool => TInt true W32
  end.

(** The usual arithmetic conversions: the common type of two promoted types.  A rule of the language, for
    argument_matchers.hpp:101-251. *)
Definition wider (w w' : width) : width := if bits w <? bits w' then w' else w.
(** The usual arithmetic conversions; a rule of the language, for argument_matchers.hpp:101-251. *)
Definition common (t u : ity) : ity :=
  match promote t, promote u with
  | TInt s w, TInt s' w' =>
      if Bool.eqb s s' then TInt s (wider w w')
      else
        let (ws, wu) := if s then (w, w') else (w', w) in
        if bits ws <=? bits wu then TInt false wu else TInt true ws
  | p, _ => p
  end.

(** [actual <op> expected]; [actual] of type [t], [expected] of type [u].  argument_matchers.hpp:101, 131, 161, 191,
    221, 251. *)
Definition compares (r : rel) (t : ity) (actual : Z) (u : ity) (expected : Z) : bool :=
  let c := common t u in
  rel_holds r (Some (convert c actual ?= convert c expected)).

(** What a method with a parameter of type [t] receives if it is called with the expression
    [x]; this is what is recorded (ActualInvocation.hpp:36-40) and given to the matcher
    (invocation_matchers.hpp:40-61). *)
Definition passed (t : ity) (x : Z) : Z := convert t x.

(** ** float parameters *)

(** Conversion of a double to float: rounding to nearest, ties to even; a number that is too
    large becomes infinite (IEEE 754; the standard leaves that case undefined for other
    arithmetics). *)
Definition to_float (x : spec_float) : spec_float :=
  match x with
  | S754_finite s m e => binary_normalize 24 128 (if s then Z.neg m else Z.pos m) e s
  | _ => x
  end.

(** Conversion of a float to double, which is exact: the number in the form that doubles
    have.  A rule of the language, for argument_matchers.hpp:101-251. *)
Definition to_double (x : spec_float) : spec_float :=
  match x with
  | S754_finite s m e => binary_normalize dprec demax (if s then Z.neg m else Z.pos m) e s
  | _ => x
  end.

(** [actual <op> expected] for a float argument and an operand of type double.  argument_matchers.hpp:101, 131, 161,
    191, 221, 251. *)
Definition compares_float (r : rel) (actual expected : spec_float) : bool :=
  rel_holds r (SFcompare (to_double actual) expected).

(** ** Integers and floating point numbers *)

(** float and double: the types a parameter or an operand (ExpectedT,
    argument_matchers.hpp:30, 41) may have besides the integer ones.  [long double] is left
    out. *)
Inductive fty : Type := TFloat | TDouble.
(** Bits of the significand (IEEE 754). Models no lines of /repo. *)
Definition precision (f : fty) : Z := match f with TFloat => 24 | TDouble => dprec end.
(** IEEE 754. Models no lines of /repo. *)
Definition max_exponent (f : fty) : Z := match f with TFloat => 128 | TDouble => demax end.

(** Conversion of an integer: rounding to nearest, ties to even (IEEE 754; the standard
    leaves the choice to the implementation).  Happens to an integer operand or argument in
    argument_matchers.hpp:100-102, 130-132, 160-162, 190-192, 220-222, 250-252, and to an
    integer given for a floating point parameter (ActualInvocation.hpp:36-40). *)
Definition int_to (f : fty) (z : Z) : spec_float := binary_normalize (precision f) (max_exponent f) z 0 false.

(** Conversion of a floating point number to an integer type: the fraction is dropped; what
    the type cannot hold is undefined.  Conversion to bool compares with zero.  Happens to a
    floating point number given for an integer parameter (ActualInvocation.hpp:36-40). *)
Definition from_fp (t : ity) (x : spec_float) : outcome Z :=
  match t with
  | TBool => Def (match x with S754_zero _ => 0 | _ => 1 end)
  | TInt _ _ =>
      match x with
      | S754_zero _ => Def 0
      | S754_finite s m e =>
          let n := if 0 <=? e then Z.pos m * 2 ^ e else Z.pos m / 2 ^ (- e) in
          let z := if s then - n else n in
          if convert t z =? z then Def z else UB
      | _ => UB
      end
  end.

(** [actual <op> expected] for an integer argument and a floating point operand, and the other
    way round: the integer is converted (argument_matchers.hpp:100-102, 130-132, 160-162,
    190-192, 220-222, 250-252). *)
Definition compares_int_fp (r : rel) (f : fty) (actual : Z) (expected : spec_float) : bool :=
  rel_holds r (SFcompare (int_to f actual) expected).
(** A floating point argument and an integer operand, which is converted: argument_matchers.hpp:101, 131, 161, 191,
    221, 251. *)
Definition compares_fp_int (r : rel) (f : fty) (actual : spec_float) (expected : Z) : bool :=
  rel_holds r (SFcompare actual (int_to f expected)).
