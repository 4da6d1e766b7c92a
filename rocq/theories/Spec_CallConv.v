(** * What C95 promises, in the words of the caller *)
From Coq Require Import Bool List Arith.
From Verif Require Import CallConv.
Import ListNotations.

(** Platforms whose rules put the address of a result before the object. *)
Inductive result_first : abi -> Prop :=
| rf_sysv : result_first SysV64
| rf_arm : result_first Aapcs32
| rf_i386 : result_first I386Gnu
| rf_mingw : result_first MinGW64.

(** Platforms on which the function called destroys the objects it received by value. *)
Inductive callee_destroys : abi -> Prop :=
| cd_x64 : callee_destroys MsX64
| cd_x86 : callee_destroys MsX86.

(** Results of member functions for which the caller passes an address: classes with a
    copy constructor or destructor of their own everywhere, other classes by their size. *)
Inductive needs_address : abi -> res -> Prop :=
| na_nontrivial : forall a n, needs_address a (RClass n false)
| na_large_64 : forall n, n > 16 -> needs_address SysV64 (RClass n true)
| na_large_arm64 : forall n, n > 16 -> needs_address Aapcs64 (RClass n true)
| na_large_arm : forall n, n > 4 -> needs_address Aapcs32 (RClass n true)
| na_i386 : forall n, needs_address I386Gnu (RClass n true)
| na_mingw : forall a n, a = MinGW64 \/ a = MinGW32 -> ~ In n [1; 2; 4; 8] -> needs_address a (RClass n true)
| na_ms : forall a n, a = MsX64 \/ a = MsX86 -> needs_address a (RClass n true).

(** Parameters with one argument each. *)
Definition fits (ps : list par) (args : list nat) : Prop := length args = length ps.

(** The stubbings see the mock of the object and each argument, and the result goes to
    the caller's place exactly if the caller passed one. *)
Definition faithful (a : abi) (r : res) (m slot : nat) (args : list nat) (o : reached) : Prop :=
  exists s, o = Handles m s (map Some args) /\ (needs_address a r -> s = Some slot) /\ (~ needs_address a r -> s = None).
