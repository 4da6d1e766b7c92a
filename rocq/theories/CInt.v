(** C++ machine integers as used by the library.

    [int] and [unsigned int] are 32 bits wide, [long] and [size_t] 64 bits
    (GCC/Clang on 64-bit Unix; on Windows [long] is 32 bits, which only changes
    the constant [long_min]).  Conversions wrap; signed arithmetic that leaves
    the range is undefined behaviour. *)
From Coq Require Import ZArith Lia.
From Verif Require Import Base.
Open Scope Z_scope.

Definition two32 : Z := 4294967296.
(** 2^31, for conversions to int such as (int) n at Quantifier.hpp:71. *)
Definition two31 : Z := 2147483648.
(** std::numeric_limits<int>::max() at DynamicProxy.hpp:51; the type of quantities and counts (Quantifier.hpp:20,
    SequenceVerificationExpectation.hpp:45). *)
Definition int_max : Z := 2147483647.
(** The other end of int; (int) n with n negative at Quantifier.hpp:71. *)
Definition int_min : Z := -2147483648.
(** The ends of long, the type of Repeat::times (Action.hpp:54). *)
Definition long_min : Z := -9223372036854775808.
(** The other end of long, the type of Repeat::times (Action.hpp:54). *)
Definition long_max : Z := 9223372036854775807.

(** Conversion to [unsigned int].  The parameter of _offsets and of ids: DynamicProxy.hpp:31-56, [id + 1] at 108. *)
Definition to_uint32 (z : Z) : Z := z mod two32.

(** Conversion to [int] (modular on every supported compiler).  (int) n: Quantifier.hpp:70-72, 77-80. *)
Definition to_int32 (z : Z) : Z := (z + two31) mod two32 - two31.

(** Signed 32-bit addition/subtraction/negation; overflow is undefined. *)
Definition in_int (z : Z) : bool := (int_min <=? z) && (z <=? int_max).
(** The result of int arithmetic: undefined if it does not fit.  C++; used for MatchAnalysis.hpp:35, 55, 65, 86. *)
Definition int_ck (z : Z) : outcome Z := if in_int z then Def z else UB.
(** int + int: MatchAnalysis.hpp:35, 55, 65. *)
Definition iadd (a b : Z) : outcome Z := int_ck (a + b).
(** int - int: MatchAnalysis.hpp:86. *)
Definition isub (a b : Z) : outcome Z := int_ck (a - b).
(** -times and -_expectedCount: SequenceVerificationProgress.hpp:115, SequenceVerificationExpectation.hpp:120, 137.
    *)
Definition ineg (a : Z) : outcome Z := int_ck (- a).

(** Signed 64-bit decrement; overflow is undefined. *)
Definition long_dec (a : Z) : outcome Z :=
  if a =? long_min then UB else Def (a - 1).

Lemma to_uint32_id : forall z, 0 <= z < two32 -> to_uint32 z = z.
Proof. intros. unfold to_uint32. now apply Z.mod_small. Qed.

Lemma to_int32_id : forall z, int_min <= z <= int_max -> to_int32 z = z.
Proof.
  intros z H. unfold to_int32, int_min, int_max, two31, two32 in *.
  rewrite Z.mod_small by lia. lia.
Qed.

Lemma int_ck_ok : forall z, int_min <= z <= int_max -> int_ck z = Def z.
Proof.
  intros z H. unfold int_ck, in_int.
  destruct (Z.leb_spec int_min z); destruct (Z.leb_spec z int_max); simpl; auto; lia.
Qed.

Lemma to_uint32_range : forall z, 0 <= to_uint32 z < two32.
Proof. intro. unfold to_uint32, two32. apply Z.mod_pos_bound. lia. Qed.

Lemma to_int32_range : forall z, int_min <= to_int32 z <= int_max.
Proof.
  intro z. unfold to_int32, int_min, int_max, two31, two32.
  pose proof (Z.mod_pos_bound (z + 2147483648) 4294967296). lia.
Qed.
