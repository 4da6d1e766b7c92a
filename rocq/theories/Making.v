(** * Making a mock when memory runs out

    include/fakeit/MockImpl.hpp:28-42, 118-125, 284-292 (the constructors and the destructor),
    include/mockutils/DynamicProxy.hpp:68-85, 152-160, 191-216, include/mockutils/FakeObject.hpp:48-64,
    include/mockutils/gcc/VirtualTable.hpp:84-93, 141-152,
    include/mockutils/mscpp/VirtualTable.hpp:58-134, 200-213, 264-276, and
    MockImpl::clear (MockImpl.hpp:68-76).

    A try is an allocation or a constructor of the user that may throw; [fails] says which ones do.
    Simplifications: contents of the allocations are of no importance except for which virtual table the
    object has; vectors allocate once when made with a size; std::vector's own proxies of the debug mode of MSVC are left
    out; throwing needs no memory. *)
From Coq Require Import Bool List Arith.
Import ListNotations.
Open Scope nat_scope.

(** What is allocated. [KFake]: FakeObject; [KArray]: the array of a VirtualTable; [KLocator], [KHier],
    [KBases], [KDesc]: RTTICompleteObjectLocator, RTTIClassHierarchyDescriptor, its array, its elements;
    [KControl]: of a shared_ptr; [KSlots], [KOffsets], [KMembers], [KVec]: storage of vectors;
    [KWrapper]: DataMemeberWrapper.  gcc/VirtualTable.hpp:143, mscpp/VirtualTable.hpp:58-134, 264-276,
    DynamicProxy.hpp:156-159, 209-216, MockImpl.hpp:68-76, 284-292. *)
Inductive kind := KFake | KArray | KLocator | KHier | KBases | KDesc | KControl | KSlots | KOffsets | KMembers | KVec | KWrapper.

(** The tables of GCC and clang; of MSVC for 64 bit; for 32 bit with so many base classes given to Mock. *)
Inductive platform := Gnu | Ms64 | Ms32 (bases : nat).

(** The table that the object uses: of its class (or the FakeObject's first one), or the clone.
    DynamicProxy.hpp:76, 80. *)
Inductive which := First | Clone.

(** Tries so far; the heap; the object's table; the recorded calls of the methods that have a body;
    data members of the object that are constructed.  The table: FakeObject.hpp:76-79; the calls:
    RecordedMethodBody.hpp:63; the members: DynamicProxy.hpp:191-205. *)
Record state := mkState { st_tries : nat; st_heap : list (option kind); st_table : which;
                          st_calls : list nat; st_members : nat }.

(** Returned; threw; undefined. Models no lines of /repo. *)
Inductive run (A : Type) := Val (s : state) (a : A) | Exn (s : state) | UB.
Arguments Val {A}. Arguments Exn {A}. Arguments UB {A}.
(** Models no lines of /repo. *)
Definition M (A : Type) := state -> run A.
(** Models no lines of /repo. *)
Definition ret {A} (a : A) : M A := fun s => Val s a.
(** Models no lines of /repo. *)
Definition bind {A B} (m : M A) (f : A -> M B) : M B := fun s =>
  match m s with Val s a => f a s | Exn s => Exn s | UB => UB end.
(** What has been constructed is destroyed if [m] throws.  A rule of the language, e.g. for the members of
    DynamicProxy.hpp:209-216. *)
Definition guard {A} (m : M A) (clean : M unit) : M A := fun s =>
  match m s with
  | Exn s => match clean s with Val s _ => Exn s | _ => UB end
  | r => r
  end.
Notation "'do!' x ':=' a 'in' b" := (bind a (fun x => b)) (at level 200, x pattern, a at level 100, b at level 200).
Notation "a ';;!' b" := (bind a (fun _ => b)) (at level 100, right associativity).

Section Fails.
Variable fails : nat -> bool.

(** A step that can fail.  E.g. [new] at gcc/VirtualTable.hpp:143, or the constructor at DynamicProxy.hpp:198. *)
Definition try : M unit := fun s =>
  let s' := mkState (S (st_tries s)) (st_heap s) (st_table s) (st_calls s) (st_members s) in
  if fails (st_tries s) then Exn s' else Val s' tt.

(** E.g. gcc/VirtualTable.hpp:143, MockImpl.hpp:285. *)
Definition alloc (k : kind) : M nat :=
  try ;;! (fun s => Val (mkState (st_tries s) (st_heap s ++ [Some k]) (st_table s) (st_calls s) (st_members s)) (length (st_heap s))).

(** Models no lines of /repo. *)
Fixpoint upd {A} (l : list A) (i : nat) (x : A) : list A :=
  match l, i with
  | [], _ => []
  | _ :: r, O => x :: r
  | y :: r, S i => y :: upd r i x
  end.

(** Releasing what is not allocated is undefined.  E.g. gcc/VirtualTable.hpp:92, mscpp/VirtualTable.hpp:207-213. *)
Definition free (i : nat) : M unit := fun s =>
  match nth_error (st_heap s) i with
  | Some (Some _) => Val (mkState (st_tries s) (upd (st_heap s) i None) (st_table s) (st_calls s) (st_members s)) tt
  | _ => UB
  end.
(** See [dispose], gcc/VirtualTable.hpp:88-93, mscpp/VirtualTable.hpp:207-213. *)
Fixpoint free_all (l : list nat) : M unit :=
  match l with [] => ret tt | i :: r => free i ;;! free_all r end.

(** setVirtualTable, FakeObject.hpp:76-79, called at DynamicProxy.hpp:76, 80. *)
Definition set_table (w : which) : M unit := fun s =>
  Val (mkState (st_tries s) (st_heap s) w (st_calls s) (st_members s)) tt.

(** The base classes one after the other, mscpp/VirtualTable.hpp:65-66. *)
Fixpoint allocs (k : kind) (n : nat) : M (list nat) :=
  match n with O => ret [] | S n => do! i := alloc k in do! l := allocs k n in ret (i :: l) end.

(** A VirtualTable: its array and the structures for RTTI, in the order in which dispose releases them.
    gcc/VirtualTable.hpp:44, 141-149; mscpp/VirtualTable.hpp:58-134, 207-213. *)
Record table := mkTable { t_parts : list nat }.

(** VirtualTable(): buildVTArray (gcc 141-149; mscpp 264-273). Nothing owns the array while the locator is
    made; a new expression releases its own memory if the constructor throws, but not what the
    constructor has allocated (mscpp 60-67, 119-123). *)
Definition build_table (p : platform) : M table :=
  match p with
  | Gnu => do! a := alloc KArray in ret (mkTable [a])
  | Ms64 => do! a := alloc KArray in do! l := alloc KLocator in ret (mkTable [l; a])
  | Ms32 n =>
      do! a := alloc KArray in
      do! l := alloc KLocator in
      do! p := guard (do! h := alloc KHier in
                      guard (do! b := alloc KBases in do! ds := allocs KDesc (S n) in ret (ds ++ [b; h])) (free h)) (free l) in
      ret (mkTable (p ++ [l; a]))
  end.

(** VirtualTable::dispose (gcc 88-93; mscpp 207-213). The destructor of VirtualTable does nothing. *)
Definition dispose (t : table) : M unit := free_all (t_parts t).

(** new FakeObject() and delete (FakeObject.hpp:56-64). *)
Definition make_fake (p : platform) : M (nat * table) :=
  do! f := alloc KFake in
  do! t := guard (build_table p) (free f) in ret (f, t).
(** FakeObject.hpp:61-64. *)
Definition delete_fake (o : nat * table) : M unit := dispose (snd o) ;;! free (fst o).

(** The members of DynamicProxy.  DynamicProxy.hpp:209-216; _members allocates nothing when it is made. *)
Record proxy := mkProxy { p_clone : table; p_slots : nat; p_offsets : nat }.

(** DynamicProxy's constructor (DynamicProxy.hpp:68-77): _cloneVt, _methodMocks, _offsets; the object gets
    the clone at the end. ~VirtualTable does not dispose, and ~DynamicProxy does not run. *)
Definition make_proxy (p : platform) : M proxy :=
  do! t := build_table p in
  do! s := alloc KSlots in
  do! o := guard (alloc KOffsets) (free s) in
  set_table Clone ;;! ret (mkProxy t s o).

(** A mock: the object that it owns, if any; the control block; the proxy.  MockImpl.hpp:118-120; the control block
    is that of a shared_ptr. *)
Record mock := mkMock { m_fake : option (nat * table); m_control : nat; m_proxy : proxy }.

(** FakeObject.hpp:61-64, if there is one (MockImpl.hpp:34-38). *)
Definition delete_owned (o : option (nat * table)) : M unit :=
  match o with Some f => delete_fake f | None => ret tt end.

(** MockImpl's constructors (MockImpl.hpp:28-38, 122-125). The shared_ptr is made from a pointer of the
    type FakeObject*, also if that is null, so it has a control block in both cases; if that cannot be
    allocated it deletes what it was given. *)
Definition make_mock (p : platform) (own : bool) : M mock :=
  do! f := (if own then do! f := make_fake p in ret (Some f) else ret None) in
  do! c := guard (alloc KControl) (delete_owned f) in
  do! x := guard (make_proxy p) (delete_owned f ;;! free c) in
  ret (mkMock f c x).

(** ~MockImpl: detach, ~DynamicProxy and its members, then the owner.  MockImpl.hpp:40-42, 118-120;
    DynamicProxy.hpp:79-85, 209-216. *)
Definition destroy_mock (m : mock) : M unit :=
  set_table First ;;!
  dispose (p_clone (m_proxy m)) ;;!
  free (p_offsets (m_proxy m)) ;;! free (p_slots (m_proxy m)) ;;!
  delete_owned (m_fake m) ;;! free (m_control m).

(** MockImpl::clear (MockImpl.hpp:68-76): the bodies are collected in a vector first, growing it where
    [grows] says; then each forgets its calls. [cur]: the vector's storage. *)
Fixpoint collect (grows : list bool) (cur : option nat) : M (option nat) :=
  match grows with
  | [] => ret cur
  | false :: r => collect r cur
  | true :: r =>
      do! n := guard (alloc KVec) (match cur with Some i => free i | None => ret tt end) in
      (match cur with Some i => free i | None => ret tt end) ;;! collect r (Some n)
  end.
(** RecordedMethodBody.hpp:122-124, called at MockImpl.hpp:71-73. *)
Definition forget : M unit := fun s =>
  Val (mkState (st_tries s) (st_heap s) (st_table s) (map (fun _ => 0) (st_calls s)) (st_members s)) tt.
(** MockImpl.hpp:68-76. *)
Definition clear (grows : list bool) : M unit :=
  do! v := collect grows None in
  forget ;;! (match v with Some i => free i | None => ret tt end).

(** stubDataMember (DynamicProxy.hpp:151-160, 191-205): the wrapper constructs the member in the object
    ([try]: the user's constructor); the shared_ptr; the growing vector of the old storage [old]. *)
Definition construct : M unit :=
  try ;;! (fun s => Val (mkState (st_tries s) (st_heap s) (st_table s) (st_calls s) (S (st_members s))) tt).
(** DynamicProxy.hpp:201-204; undefined if none is there. *)
Definition destruct_member : M unit := fun s =>
  match st_members s with
  | O => UB
  | S n => Val (mkState (st_tries s) (st_heap s) (st_table s) (st_calls s) n) tt
  end.
(** DynamicProxy.hpp:201-204. *)
Definition delete_wrapper (w : nat) : M unit := destruct_member ;;! free w.
(** DynamicProxy.hpp:151-160. *)
Definition stub_member (grow : bool) (old : option nat) : M (nat * nat * option nat) :=
  do! w := alloc KWrapper in
  guard construct (free w) ;;!
  do! c := guard (alloc KControl) (delete_wrapper w) in
  do! v := guard (if grow
                  then do! n := alloc KMembers in
                       (match old with Some i => free i | None => ret tt end) ;;! ret (Some n)
                  else ret old) (delete_wrapper w ;;! free c) in
  ret (w, c, v).
End Fails.
