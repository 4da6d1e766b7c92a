(** Specification: the number a double denotes, and order on the extended reals. *)
From Coq Require Import ZArith Reals Floats.SpecFloat.
From Flocq Require Import Core.Core IEEE754.BinarySingleNaN.
From Verif Require Import Values ArgMatchers.

(** [x] is a representable IEEE binary64 datum. *)
Definition is_double (x : spec_float) : Prop := valid_binary 53 1024 x = true.

Inductive ext : Type := NegInf | Fin (r : R) | PosInf.

(** The number denoted by a datum; NaN denotes none. *)
Definition number (x : spec_float) : option ext :=
  match x with
  | S754_nan => None
  | S754_infinity true => Some NegInf
  | S754_infinity false => Some PosInf
  | S754_zero _ => Some (Fin 0%R)
  | S754_finite s m e =>
      Some (Fin ((if s then -1 else 1) * IZR (Zpos m) * bpow radix2 e)%R)
  end.

Definition ext_lt (a b : ext) : Prop :=
  match a, b with
  | NegInf, NegInf => False
  | NegInf, _ => True
  | _, NegInf => False
  | Fin x, Fin y => (x < y)%R
  | Fin _, PosInf => True
  | PosInf, _ => False
  end.

Definition ext_meaning (r : rel) (a e : ext) : Prop :=
  match r with
  | REq => a = e
  | RGt => ext_lt e a
  | RGe => ext_lt e a \/ a = e
  | RLt => ext_lt a e
  | RLe => ext_lt a e \/ a = e
  | RNe => a <> e
  end.

(** Rounding of a real number to the nearest double, ties to even (exponent
    range unbounded above). *)
Definition nearest_double (x : R) : R :=
  round radix2 (FLT_exp (-1074) 53) ZnearestE x.
