(** Specification: the numbers of the floating point types, and what becomes of an integer. *)
From Coq Require Import ZArith Reals Floats.SpecFloat.
From Flocq Require Import Core.Core.
From Verif Require Import Convert Spec_Double.
Open Scope Z_scope.

(** [x] is a datum of the type. *)
Definition is_fp (f : fty) (x : spec_float) : Prop :=
  match f with TFloat => valid_binary 24 128 x = true | TDouble => valid_binary 53 1024 x = true end.

(** The integers up to this number, and their negatives, are numbers of the type. *)
Definition whole_up_to (f : fty) : Z := match f with TFloat => 16777216 | TDouble => 9007199254740992 end.

(** The number of the type that is nearest, the even one of two. *)
Definition nearest (f : fty) (x : R) : R :=
  match f with
  | TFloat => round radix2 (FLT_exp (-149) 24) ZnearestE x
  | TDouble => round radix2 (FLT_exp (-1074) 53) ZnearestE x
  end.
