(** Model of include/mockutils/gcc/VirtualTable.hpp, mscpp/VirtualTable.hpp,
    VTUtils.hpp and VirtualOffestSelector.hpp: virtual tables as raw arrays. *)
From Coq Require Import Bool ZArith Lia List.
From Verif Require Import Base CInt.
Import ListNotations.
Open Scope Z_scope.

Section VT.
(** [W]: what an entry holds (code addresses, bookkeeping pointers, type_info). *)
Context {W : Type}.

(** A table: the allocated array and the position of [_firstMethod] in it.  gcc/VirtualTable.hpp:44,
    mscpp/VirtualTable.hpp:164. *)
Record vtable : Type := mkVt { vt_arr : list W; vt_first : Z }.

(** [_firstMethod[i]]: reading and writing outside the array is undefined.  gcc/VirtualTable.hpp:28, 36,
    mscpp/VirtualTable.hpp:148, 156. *)
Definition vt_get (t : vtable) (i : Z) : outcome W :=
  let k := vt_first t + i in
  if k <? 0 then UB else of_option (nth_error (vt_arr t) (Z.to_nat k)).

(** gcc/VirtualTable.hpp:32, 40, mscpp/VirtualTable.hpp:152, 160. *)
Definition vt_set (t : vtable) (i : Z) (w : W) : outcome vtable :=
  let k := vt_first t + i in
  if (k <? 0) || (Z.of_nat (length (vt_arr t)) <=? k) then UB
  else Def (mkVt (upd (vt_arr t) (Z.to_nat k) w) (vt_first t)).

(** The two layouts.  [Gcc]: gcc/VirtualTable.hpp, [Msc]: mscpp/VirtualTable.hpp.  gcc/VirtualTable.hpp:27-33,
    mscpp/VirtualTable.hpp:147-153. *)
Inductive layout : Type := Gcc | Msc.

(** numOfCookies: gcc 139, mscpp 261. *)
Definition numOfCookies (l : layout) : Z := match l with Gcc => 2 | Msc => 3 end.

(** getCookie/setCookie index arithmetic: gcc 27-33 ([-3 - index]), mscpp 147-153
    ([-2 - index]). *)
Definition cookie_pos (l : layout) (i : Z) : Z :=
  match l with Gcc => -3 - i | Msc => -2 - i end.

(** gcc/VirtualTable.hpp:27-29, mscpp/VirtualTable.hpp:147-149. *)
Definition getCookie (l : layout) (t : vtable) (i : Z) : outcome W := vt_get t (cookie_pos l i).
(** gcc/VirtualTable.hpp:31-33, mscpp/VirtualTable.hpp:151-153. *)
Definition setCookie (l : layout) (t : vtable) (i : Z) (w : W) : outcome vtable :=
  vt_set t (cookie_pos l i) w.

(** getMethod/setMethod: gcc 35-41, mscpp 155-161. *)
Definition getMethod (t : vtable) (i : Z) : outcome W := vt_get t i.
(** gcc/VirtualTable.hpp:39-41, mscpp/VirtualTable.hpp:159-161. *)
Definition setMethod (t : vtable) (i : Z) (w : W) : outcome vtable := vt_set t i w.

(** buildVTArray: gcc 141-149 (size + 2 + numOfCookies entries, type_info written
    just before the first method), mscpp 264-273 (vtSize + numOfCookies + 1
    entries, object locator just before the first method).  [null]: the
    value-initialised entry; [ti]: type_info / object locator. *)
Definition alloc_size (l : layout) (size : Z) : Z :=
  match l with Gcc => size + 2 + numOfCookies Gcc | Msc => size + numOfCookies Msc + 1 end.

(** gcc/VirtualTable.hpp:141-149, mscpp/VirtualTable.hpp:264-273. *)
Definition buildVTArray (l : layout) (null ti : W) (size : Z) : outcome vtable :=
  let arr := repeat null (Z.to_nat (alloc_size l size)) in
  match l with
  | Gcc =>
      let p := numOfCookies Gcc in        (* array += numOfCookies *)
      let p := p + 1 in                   (* array++ : skip top_offset *)
      let! t := vt_set (mkVt arr p) 0 ti in
      Def (mkVt (vt_arr t) (p + 1))       (* array++ : skip type_info *)
  | Msc =>
      let p := numOfCookies Msc in
      let! t := vt_set (mkVt arr p) 0 ti in
      Def (mkVt (vt_arr t) (p + 1))
  end.

(** dispose: gcc 88-93, mscpp 207-213: the pointer handed to delete[], as a
    position in the array.  Deleting anything but the position 0 of the
    allocation is undefined. *)
Definition dispose_pos (l : layout) (t : vtable) : Z :=
  match l with
  | Gcc => vt_first t - 1 - 1 - numOfCookies Gcc
  | Msc => vt_first t - 1 - numOfCookies Msc
  end.

(** gcc/VirtualTable.hpp:88-93, mscpp/VirtualTable.hpp:207-213. *)
Definition dispose (l : layout) (t : vtable) : outcome unit :=
  if dispose_pos l t =? 0 then Def tt else UB.

(** The copy loops of copyFrom (gcc 76-82, mscpp 191-195) and initAll
    (gcc 122-127, mscpp 242-247); [n] entries starting at [i]. *)
Fixpoint copy_loop (n : nat) (i : Z) (dst src : vtable) : outcome vtable :=
  match n with
  | O => Def dst
  | S n' =>
      let! w := getMethod src i in
      let! dst' := vt_set dst i w in
      copy_loop n' (i + 1) dst' src
  end.

(** mscpp/VirtualTable.hpp:262. *)
Definition dtorCookieIndex : Z := numOfCookies Msc - 1.

(** copyFrom: gcc 76-82; mscpp 191-198 also copies the destructor cookie when the
    class has a virtual destructor. *)
Definition copyFrom (l : layout) (size : nat) (has_dtor : bool) (dst src : vtable) : outcome vtable :=
  let! d := copy_loop size 0 dst src in
  match l with
  | Gcc => Def d
  | Msc => if has_dtor then let! c := getCookie Msc src dtorCookieIndex in setCookie Msc d dtorCookieIndex c
           else Def d
  end.

(** gcc/VirtualTable.hpp:124-126, mscpp/VirtualTable.hpp:244-246. *)
Fixpoint init_loop (n : nat) (i : Z) (t : vtable) (w : W) : outcome vtable :=
  match n with
  | O => Def t
  | S n' => let! t' := setMethod t i w in init_loop n' (i + 1) t' w
  end.

(** gcc/VirtualTable.hpp:122-127, mscpp/VirtualTable.hpp:242-247. *)
Definition initAll (size : nat) (t : vtable) (w : W) : outcome vtable := init_loop size 0 t w.

(** setDtor: gcc 107-115 (the complete-object destructor entry gets the method,
    the deleting destructor entry behind it gets the helper [dtor]); mscpp
    226-236 (the entry gets the helper, the method goes to the cookie). *)
Definition setDtor (l : layout) (t : vtable) (index : Z) (helper w : W) : outcome vtable :=
  match l with
  | Gcc => let! t1 := vt_set t index w in vt_set t1 (index + 1) helper
  | Msc => let! t1 := vt_set t index helper in setCookie Msc t1 dtorCookieIndex w
  end.

(** What the helper [dtor] calls: gcc 95-104 reads the complete-object destructor
    entry of the object's table, mscpp 216-224 the cookie. *)
Definition dtor_helper_target (l : layout) (t : vtable) (index : Z) : outcome W :=
  match l with
  | Gcc => getMethod t index
  | Msc => getCookie Msc t dtorCookieIndex
  end.

End VT.
Arguments vtable W : clear implicits.

(** ** VTUtils.hpp and VirtualOffestSelector.hpp *)

(** VirtualOffestSelector.hpp:12-4020: method [offsetK] stands in entry K of the
    selector's own virtual table and stores and returns K; the last is
    offset1000.  (That each of the 1001 bodies returns its own number was checked
    by a script over the text.) *)
Definition selector_table : list Z := map Z.of_nat (seq 0 1001).

(** getOffset: VTUtils.hpp:31-35: calls entry [slot] (the entry designated by the
    member pointer) on the selector; an entry outside its table is undefined. *)
Definition getOffset (slot : nat) : outcome Z := of_option (nth_error selector_table slot).

(** getDestructorOffset: VTUtils.hpp:40-53; [None]: the class has no virtual
    destructor (NoVirtualDtor is thrown). *)
Definition getDestructorOffset (slot : option nat) : option (outcome Z) :=
  match slot with Some s => Some (getOffset s) | None => None end.

(** getVTSize: VTUtils.hpp:67-76: the entry of the first virtual method added by a
    derived class, i.e. the number of entries of the class. *)
Definition getVTSize (entries : nat) : outcome Z := getOffset entries.
