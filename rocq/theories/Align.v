(** Model of the storage of the object the library makes for a Mock<C>: include/mockutils/FakeObject.hpp:19-65,
    include/fakeit/MockImpl.hpp:284-292 (createFakeInstance: a new-expression, then a reinterpret_cast to C).

    Sizes and alignments in bytes, LP64.  FakeObject<C> has two members: a VirtualTable, which is
    one pointer (gcc/VirtualTable.hpp:18-48; the MSVC one likewise), and, unless C has no more than that, an array of
    char that makes up for the size of C.  Nothing in it has the alignment of C. *)
From Coq Require Import NArith Lia.
From Verif Require Import Base.
Open Scope N_scope.

(** A class: sizeof and alignof. The C of FakeObject.hpp:19-50. *)
Record shape : Type := mkShape { sh_size : N; sh_align : N }.

(** sizeof(VirtualTable) in FakeObject.hpp:50, gcc/VirtualTable.hpp:18-48; LP64. *)
Definition pointer_size : N := 8.

(** __STDCPP_DEFAULT_NEW_ALIGNMENT__: what operator new(std::size_t) guarantees; alignof(std::max_align_t)
    on this platform. Of the new-expression at MockImpl.hpp:285. *)
Definition new_alignment : N := 16.

(** The layout of a struct of two members, the second of which has alignment 1: it follows the
    first at once, and the size is rounded up to the alignment of the first. *)
Definition round_up (n a : N) : N := (n + (a - 1)) / a * a.

(** FakeObjectImpl<instanceAreaSize, …>: FakeObject.hpp:19-45.  sizeof(C) - sizeof(VirtualTable) is a
    std::size_t, converted to the int parameter; for classes of less than 2 GiB that is exact. *)
Definition fake_shape (c : shape) : shape :=
  mkShape (round_up (pointer_size + (sh_size c - pointer_size)) pointer_size) pointer_size.

(** [new T]: any block that operator new may return.  A type whose alignment is no greater than the default
    uses the operator without an alignment parameter, also since C++17. *)
Definition new_may_return (t : shape) (address : N) : Prop :=
  if sh_align t <=? new_alignment then (new_alignment | address) /\ address <> 0
  else (sh_align t | address) /\ address <> 0.

(** createFakeInstance: the object that Mock<C>() uses as a C is at [address]. MockImpl.hpp:284-292. *)
Definition fake_instance (c : shape) (address : N) : Prop := new_may_return (fake_shape c) address.

(** An object of shape [c] may be used at an address if the address is a multiple of the alignment; else
    it is undefined. A rule of the language, applied to the object of MockImpl.hpp:291. *)
Definition use_at (c : shape) (address : N) : outcome unit :=
  if address mod sh_align c =? 0 then Def tt else UB.
