(** Model of mocks of classes with base classes: include/mockutils/gcc/is_simple_inheritance_layout.hpp,
    its use in include/mockutils/gcc/VirtualTable.hpp:50-52, include/mockutils/FakeObject.hpp:19-59 and
    DynamicProxy.hpp:68-98, for a mock whose object the library made and for one that wraps an object.

    How compilers lay out objects is not part of the library; [dynamic] to [table] and [convert] follow
    the Itanium C++ ABI (2.4, 2.5), which gcc and clang use.  Simplifications: sizes and offsets are
    counted in words; the data of a class are whole words; entries for methods inherited from virtual
    bases, secondary tables and thunks are left out (the library makes one table only); virtual bases
    that are nearly empty (2.4), which can share the table of the class, are laid out like others. *)
From Coq Require Import Bool ZArith Lia List.
From Verif Require Import Base CInt VTable.
Import ListNotations.
Open Scope nat_scope.

(** A class: its name, its direct bases ([true]: virtual), the number of virtual methods it declares
    that none of its bases has, and its own data, in words.  The C of gcc/VirtualTable.hpp:47-48; models no further
    lines of /repo. *)
Inductive cls : Type := Cls (name : nat) (bases : list (bool * cls)) (virtuals words : nat).

(** std::tr2::direct_bases, is_simple_inheritance_layout.hpp:24, 32. *)
Definition bases_of (c : cls) : list (bool * cls) := match c with Cls _ bs _ _ => bs end.

(** is_simple_inheritance_layout<C>::value: is_simple_inheritance_layout.hpp:14-33; std::tr2::direct_bases
    lists virtual bases like others.  gcc/VirtualTable.hpp:50-52 refuses to compile a mock of other
    classes, with gcc only. *)
Fixpoint is_simple (c : cls) : bool :=
  match c with
  | Cls _ [] _ _ => true                    (* 28-29 *)
  | Cls _ [(_, b)] _ _ => is_simple b       (* 23-26 *)
  | Cls _ (_ :: _ :: _) _ _ => false        (* 19-21 *)
  end.

(** ** Layout of classes *)

(** The class needs a pointer to a virtual table.  std::is_polymorphic at DynamicProxy.hpp:66; by the rules of the
    ABI. *)
Fixpoint dynamic (c : cls) : bool :=
  match c with
  | Cls _ bs v _ => (0 <? v) || existsb (fun x : bool * cls => match x with (virt, b) => virt || dynamic b end) bs
  end.

(** The primary base, the first dynamic one that is not virtual, by its position.  Itanium C++ ABI 2.4; models no
    lines of /repo. *)
Fixpoint primary (bs : list (bool * cls)) : option nat :=
  match bs with
  | [] => None
  | (virt, b) :: r => if negb virt && dynamic b then Some 0 else option_map S (primary r)
  end.

(** The words of an object of the class, without those of its virtual bases.  sizeof(C) at FakeObject.hpp:50, by
    Itanium C++ ABI 2.4. *)
Fixpoint words_of (c : cls) : nat :=
  match c with
  | Cls _ bs v w =>
      (if (match primary bs with None => true | _ => false end) && dynamic c then 1 else 0) +
      list_sum (map (fun x : bool * cls => match x with (virt, b) => if virt then 0 else words_of b end) bs) + w
  end.

(** Where the [i]-th direct base is, if it is not virtual: the primary base at the start; the others
    behind it (or behind the table pointer) in order.  Itanium C++ ABI 2.4; models no lines of /repo. *)
Definition base_offset (c : cls) (i : nat) : nat :=
  let bs := bases_of c in
  let size (x : bool * cls) := if fst x then 0 else words_of (snd x) in
  match primary bs with
  | Some p =>
      if i =? p then 0
      else list_sum (map size (firstn i bs)) + (if i <? p then list_sum (map size (firstn 1 (skipn p bs))) else 0)
  | None => (if dynamic c then 1 else 0) + list_sum (map size (firstn i bs))
  end.

(** A virtual method: the class that declares it first, and its number there.  What an entry of
    gcc/VirtualTable.hpp:35-44 stands for. *)
Definition vmethod : Type := nat * nat.

(** The entries of the table: those of the primary base, then the class's own.  VTUtils::getVTSize
    (VTUtils.hpp:67-76) is the number of them; by Itanium C++ ABI 2.5. *)
Fixpoint table (c : cls) : list vmethod :=
  match c with
  | Cls n bs v _ =>
      (fix go (l : list (bool * cls)) : list vmethod :=
         match l with
         | [] => []
         | (virt, b) :: r => if negb virt && dynamic b then table b else go r
         end) bs ++ map (fun j => (n, j)) (seq 0 v)
  end.

(** ** The mocked object *)

(** What is in an entry: the zero of [new void*[…]{}], the type_info, the pointer to the bookkeeping
    of the mock, the distance to a virtual base, or what the mock has for a method.  gcc/VirtualTable.hpp:141-149,
    DynamicProxy.hpp:74-75. *)
Inductive ventry : Type := VNull | VType | VHandlers | VOffset (d : nat) | VMethod (m : vmethod).

(** initAll and copyFrom, gcc/VirtualTable.hpp:76-82, 122-127. *)
Fixpoint fill (t : vtable ventry) (i : Z) (ms : list vmethod) : outcome (vtable ventry) :=
  match ms with
  | [] => Def t
  | m :: r => let! t' := setMethod t i (VMethod m) in fill t' (i + 1)%Z r
  end.

(** The table of the mock, DynamicProxy.hpp:74-76 (with MockImpl.hpp:284-292 for what is copied). *)
Definition mock_table (c : cls) : outcome (vtable ventry) :=
  let! t := buildVTArray Gcc VNull VType (Z.of_nat (length (table c))) in
  let! t := fill t 0%Z (table c) in
  setCookie Gcc t 0%Z VHandlers.

(** A word of the object.  FakeObject.hpp:32-33. *)
Inductive oword : Type := OZero | OTable (t : vtable ventry).

(** The object, FakeObject.hpp:23-34, 56-59: the table and zeros. *)
Definition mock_object (c : cls) : outcome (list oword) :=
  let! t := mock_table c in
  Def (OTable t :: repeat OZero (words_of c - 1)).

(** ** What a program does with it *)

(** The table that the (sub)object at word [a] points to.  What compiled code does; undefined if there is none (the
    zeros of FakeObject.hpp:23-29). *)
Definition table_at (o : list oword) (a : nat) : outcome (vtable ventry) :=
  match nth_error o a with Some (OTable t) => Def t | _ => UB end.

(** Conversion of a pointer to a [c] at word [a] to a base, one direct base after the other.  To a
    virtual base, the distance is read from the table, from entry -3; this is right for classes with a
    single virtual base (further ones have entries before it). *)
Fixpoint convert (o : list oword) (c : cls) (path : list nat) (a : nat) : outcome nat :=
  match path with
  | [] => Def a
  | i :: rest =>
      match nth_error (bases_of c) i with
      | None => UB
      | Some (false, b) => convert o b rest (a + base_offset c i)
      | Some (true, b) =>
          let! t := table_at o a in
          let! d := vt_get t (-3)%Z in
          match d with VOffset d' => convert o b rest (a + d') | VNull => convert o b rest a | _ => UB end
      end
  end.

(** A call of the virtual method in entry [k] of the base at the end of the path.  What compiled code does with the
    table of gcc/VirtualTable.hpp:141-149. *)
Definition call_on (o : list oword) (c : cls) (path : list nat) (k : nat) : outcome vmethod :=
  let! a := convert o c path 0 in
  let! t := table_at o a in
  let! e := getMethod t (Z.of_nat k) in
  match e with VMethod m => Def m | _ => UB end.

(** The same on the mocked object.  On the object of FakeObject.hpp:48-59. *)
Definition call_through (c : cls) (path : list nat) (k : nat) : outcome vmethod :=
  let! o := mock_object c in
  call_on o c path k.

(** ** An object that the user made, and wraps *)

(** The virtual base of a class without classes with two bases, if there is one.  By
    is_simple_inheritance_layout.hpp:14-33 a class with more bases is not compiled. *)
Fixpoint virtual_of (c : cls) : option cls :=
  match c with
  | Cls _ [(true, b)] _ _ => Some b
  | Cls _ [(false, b)] _ _ => virtual_of b
  | _ => None
  end.

(** The compiler's table, with the distance to the virtual base, which is at the end, in entry -3. *)
Definition compiled_table (c : cls) : vtable ventry :=
  match virtual_of c with
  | Some _ => mkVt ([VOffset (words_of c); VNull; VType] ++ map VMethod (table c)) 3%Z
  | None => mkVt ([VNull; VType] ++ map VMethod (table c)) 2%Z
  end.

(** The words of an object without those of its virtual base.  Made by the compiler; models no lines of /repo. *)
Definition compiled_part (c : cls) : list oword :=
  if dynamic c then OTable (compiled_table c) :: repeat OZero (words_of c - 1) else repeat OZero (words_of c).
(** Made by the compiler; models no lines of /repo (wrapped at Mock.hpp:46-47, DynamicProxy.hpp:68-77). *)
Definition compiled_object (c : cls) : list oword :=
  compiled_part c ++ match virtual_of c with Some b => compiled_part b | None => [] end.

(** Mock<C>(object): the object's first word is replaced by the mock's table, DynamicProxy.hpp:68-77
    with FakeObject.hpp:76-79; the methods in it are those of the class (74). *)
Definition wrap (c : cls) (o : list oword) : outcome (list oword) :=
  let! t := mock_table c in
  Def (upd o 0 (OTable t)).
(** The mock is destroyed: the table that was there before is put back, DynamicProxy.hpp:79-81. *)
Definition unwrap (before o : list oword) : outcome (list oword) :=
  let! t := table_at before 0 in
  Def (upd o 0 (OTable t)).
