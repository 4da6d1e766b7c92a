(** * typeid and dynamic_cast of the object of a mock

    include/mockutils/mscpp/VirtualTable.hpp:34-134, 264-273: the structures that the library makes for the
    run time library of MSVC, and how that library reads them; gcc/VirtualTable.hpp:141-149 for the
    type_info of GCC and clang (dynamic_cast there reads the structures of the compiler, see Inherit.v).

    Simplifications: classes are numbers; the counts do not overflow; the TypeDescriptor of lines
    14-27 is not used by anything. *)
From Coq Require Import Bool ZArith Lia List.
From Verif Require Import Base VTable.
Import ListNotations.
Open Scope nat_scope.

(** PmdInfo (29-46): displacement in the object; of the vbtable, -1 if there is none; in the vbtable. *)
Record pmd := mkPmd { mdisp : Z; pdisp : Z; vdisp : Z }.
(** mscpp/VirtualTable.hpp:42-44. *)
Definition new_pmd : pmd := mkPmd 0 (-1) 0.

(** RTTIBaseClassDescriptor (47-56). *)
Record base := mkBase { ba_type : nat; ba_contained : nat; ba_where : pmd; ba_attributes : nat }.

(** RTTIClassHierarchyDescriptor (58-80); elements of the array are indeterminate until assigned. *)
Record hierarchy := mkHierarchy { hi_attributes : nat; hi_count : nat; hi_array : list (option base) }.

(** The loop of addBaseClass (88-90): the first [k] elements contain one more base. *)
Fixpoint bump (k : nat) (l : list (option base)) : outcome (list (option base)) :=
  match k, l with
  | O, _ => Def l
  | S k, Some b :: r =>
      let! r' := bump k r in
      Def (Some (mkBase (ba_type b) (S (ba_contained b)) (ba_where b) (ba_attributes b)) :: r')
  | S _, _ => UB
  end.

(** addBaseClass<BaseType> (82-92). *)
Definition add_base (h : hierarchy) (t : nat) : outcome hierarchy :=
  if hi_count h <? length (hi_array h)
  then let! a := bump (hi_count h) (upd (hi_array h) (hi_count h) (Some (mkBase t 0 new_pmd 0))) in
       Def (mkHierarchy (hi_attributes h) (S (hi_count h)) a)
  else UB.

(** addBaseClass<head, Base1, tail...> (94-99). *)
Fixpoint add_bases (h : hierarchy) (l : list nat) : outcome hierarchy :=
  match l with
  | [] => Def h
  | t :: r => let! h' := add_base h t in add_bases h' r
  end.

(** The constructor (60-67). *)
Definition new_hierarchy (c : nat) (bases : list nat) : outcome hierarchy :=
  add_bases (mkHierarchy 0 0 (repeat None (1 + length bases))) (c :: bases).

(** The static_asserts (84, 96): each class given is a base of the class, and of the one before it; for
    std::is_base_of a class is a base of itself. *)
Fixpoint asserted (is_base_of : nat -> nat -> bool) (c head : nat) (l : list nat) : bool :=
  is_base_of head c &&
  match l with
  | [] => true
  | b :: r => is_base_of b head && asserted is_base_of c b r
  end.
(** mscpp/VirtualTable.hpp:66, 84, 96. *)
Definition accepted (is_base_of : nat -> nat -> bool) (c : nat) (bases : list nat) : bool :=
  asserted is_base_of c c bases.

(** RTTICompleteObjectLocator (103-135), for 32 bit and for 64 bit (its last two members are offsets in the module
    there). *)
Inductive locator := Loc32 (offset cd : Z) (type : nat) (h : hierarchy) | Loc64 (offset cd : Z) (type_offset class_offset : Z).
(** mscpp/VirtualTable.hpp:106-111, 119-123. *)
Definition new_locator (wide : bool) (c : nat) (bases : list nat) : outcome locator :=
  if wide then Def (Loc64 0 0 0 0)
  else let! h := new_hierarchy c bases in Def (Loc32 0 0 c h).

(** ** How the run time library of MSVC reads them

    The result of an operator: the object with an offset, null, a type, or an exception of the type
    std::__non_rtti_object.  Models no lines of /repo, as all that follows up to [cast_void]. *)
Inductive answer := Object (offset : Z) | Null | Type_ (t : nat) | NoRtti.

(** The structures of 64 bit are addressed relative to the module that the locator is in. A locator on
    the heap is in none, which gives the address 0 for offset 0: there is nothing. *)
Definition typeid_of (l : locator) : outcome answer :=
  match l with
  | Loc32 _ _ t _ => Def (Type_ t)
  | Loc64 _ _ t _ => if (t =? 0)%Z then Def NoRtti else UB
  end.

(** Reading the array of mscpp/VirtualTable.hpp:80; undefined where nothing was assigned (65). *)
Definition element (h : hierarchy) (i : nat) : outcome base :=
  match nth_error (hi_array h) i with Some (Some b) => Def b | _ => UB end.

(** Is [src] among the [n] elements from [i] on?  numContainedBases of mscpp/VirtualTable.hpp:53, 88-90 is the
    number of them. *)
Fixpoint among (h : hierarchy) (src : nat) (i n : nat) : outcome bool :=
  match n with
  | O => Def false
  | S n => let! b := element h i in if ba_type b =? src then Def true else among h src (S i) n
  end.
(** The target's element, among the [n] from [i] on; the source has to be one of the bases it contains.  Over the
    array of mscpp/VirtualTable.hpp:79-80. *)
Fixpoint search (h : hierarchy) (src target i n : nat) : outcome (option base) :=
  match n with
  | O => Def None
  | S n =>
      let! b := element h i in
      if ba_type b =? target
      then let! y := among h src (S i) (ba_contained b) in Def (if y then Some b else None)
      else search h src target (S i) n
  end.

(** dynamic_cast<target*> of a pointer to [src] at offset 0, for hierarchies without several bases (the
    attributes are 0). *)
Definition cast (l : locator) (src target : nat) : outcome answer :=
  match l with
  | Loc32 _ _ _ h =>
      if hi_attributes h =? 0
      then let! r := search h src target 0 (hi_count h) in
           match r with
           | None => Def Null
           | Some b => if (pdisp (ba_where b) <? 0)%Z then Def (Object (mdisp (ba_where b))) else UB
           end
      else UB
  | Loc64 _ _ _ c => if (c =? 0)%Z then Def NoRtti else UB
  end.

(** dynamic_cast<void*>: back by the offset of the table in the object, and of the constructor displacement
    if there is one.  The offsets of mscpp/VirtualTable.hpp:107, 120. *)
Definition cast_void (l : locator) : outcome answer :=
  match l with
  | Loc32 o cd _ _ | Loc64 o cd _ _ => if (cd =? 0)%Z then Def (Object (- o)) else UB
  end.

(** ** The table that the structure is in

    What the operators find: the word before the first entry.  gcc/VirtualTable.hpp:146, mscpp/VirtualTable.hpp:270.
    *)
Definition rtti_word {W} (t : vtable W) : outcome W := vt_get t (-1).

(** What the library does to the table of an object: VTable.v. [DSet]: setMethod; [DCookie]: setCookie;
    [DDtor]: setDtor with its helper; [DInit]: initAll; [DCopy]: copyFrom.  gcc/VirtualTable.hpp:31-41, 76-82,
    107-127; mscpp/VirtualTable.hpp:151-161, 191-198, 226-247. *)
Inductive doing (W : Type) :=
| DSet (i : Z) (w : W) | DCookie (i : Z) (w : W) | DDtor (i : Z) (helper w : W) | DInit (w : W)
| DCopy (has_dtor : bool) (from : vtable W).
Arguments DSet {W}. Arguments DCookie {W}. Arguments DDtor {W}. Arguments DInit {W}. Arguments DCopy {W}.
(** gcc/VirtualTable.hpp:31-41, 76-82, 107-127; mscpp/VirtualTable.hpp:151-161, 191-198, 226-247. *)
Definition do_one {W} (l : layout) (size : nat) (t : vtable W) (d : doing W) : outcome (vtable W) :=
  match d with
  | DSet i w => setMethod t i w
  | DCookie i w => setCookie l t i w
  | DDtor i h w => setDtor l t i h w
  | DInit w => initAll size t w
  | DCopy d from => copyFrom l size d t from
  end.
(** One after the other: DynamicProxy.hpp:68-77, 104-125, MockImpl.hpp:284-292. *)
Fixpoint do_all {W} (l : layout) (size : nat) (t : vtable W) (ds : list (doing W)) : outcome (vtable W) :=
  match ds with
  | [] => Def t
  | d :: r => let! t' := do_one l size t d in do_all l size t' r
  end.
