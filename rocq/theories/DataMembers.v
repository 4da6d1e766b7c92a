(** Model of Mock::Stub for data members: include/fakeit/Mock.hpp:69-73,
    include/fakeit/MockImpl.hpp:55-76 and 86-90, include/mockutils/DynamicProxy.hpp:91-98,
    151-160 and 191-205, include/mockutils/FakeObject.hpp:23-29.

    The members are of class type (their construction and destruction matter).  A cell
    holds a living object or none: the library makes its objects as zeroed bytes without
    running a constructor (FakeObject.hpp:56-59), and zeroing the bytes of an object means
    that it is no longer usable as one.  Using or destroying a cell without a living object
    is undefined. *)
From Coq Require Import Bool ZArith Lia List.
From Verif Require Import Base Values.
Import ListNotations.
Open Scope nat_scope.

(** What happens to the objects in the cells, in order.  DynamicProxy.hpp:198 and 203. *)
Inductive fate : Type := Built (i : nat) | Gone (i : nat).

(** [dm_members]: the vector _members (DynamicProxy.hpp:214), each wrapper being the cell
    it refers to; [dm_owner]: the mock made the object itself; [dm_mock]: the mock lives. *)
Record dstate : Type := mkDm {
  dm_cells : list (option val);
  dm_members : list nat;
  dm_owner : bool;
  dm_mock : bool;
  dm_log : list fate
}.

(** A mock with an object made by the library ([n] members), and one around an object whose
    members hold [vs].  FakeObject.hpp:23-29, 56-59, MockImpl.hpp:30-38. *)
Definition dm_new (n : nat) : dstate := mkDm (repeat None n) [] true true [].
(** MockImpl.hpp:30-32. *)
Definition dm_wrap (vs : list val) : dstate := mkDm (map Some vs) [] false true [].

(** [x.~DataType()] on cell [i].  DynamicProxy.hpp:201-204. *)
Definition destroy_cell (s : dstate) (i : nat) : outcome dstate :=
  match nth_error (dm_cells s) i with
  | Some (Some _) =>
      Def (mkDm (upd (dm_cells s) i None) (dm_members s) (dm_owner s) (dm_mock s) (dm_log s ++ [Gone i]))
  | _ => UB
  end.

(** The elements of _members in turn: DynamicProxy.hpp:94, 214. *)
Fixpoint destroy_cells (s : dstate) (is : list nat) : outcome dstate :=
  match is with
  | [] => Def s
  | i :: is' => let! s' := destroy_cell s i in destroy_cells s' is'
  end.

(** stubDataMember: DynamicProxy.hpp:151-160, DataMemeberWrapper: 196-199.  The new object
    is built over whatever is in the cell. *)
Definition stubDataMember (s : dstate) (i : nat) (v : val) : outcome dstate :=
  if Nat.ltb i (length (dm_cells s)) then
    Def (mkDm (upd (dm_cells s) i (Some v)) (dm_members s ++ [i]) (dm_owner s) (dm_mock s) (dm_log s ++ [Built i]))
  else UB.

(** Releasing the wrappers, [_members = {}] or the destructor of the vector:
    ~DataMemeberWrapper, DynamicProxy.hpp:201-204. *)
Definition release_members (s : dstate) : outcome dstate :=
  let! s' := destroy_cells s (dm_members s) in
  Def (mkDm (dm_cells s') [] (dm_owner s') (dm_mock s') (dm_log s')).

(** initDataMembersIfOwner: MockImpl.hpp:55-61 with FakeObject.hpp:23-29. *)
Definition initDataMembersIfOwner (s : dstate) : dstate :=
  if dm_owner s then mkDm (map (fun _ => None) (dm_cells s)) (dm_members s) (dm_owner s) (dm_mock s) (dm_log s) else s.

(** reset: MockImpl.hpp:63-66, DynamicProxy.hpp:91-98. *)
Definition dm_reset (s : dstate) : outcome dstate :=
  let! s' := release_members s in Def (initDataMembersIfOwner s').

(** clear: MockImpl.hpp:68-76. *)
Definition dm_clear (s : dstate) : dstate := initDataMembersIfOwner s.

(** ~MockImpl: MockImpl.hpp:40-42, 118-119: the proxy with its wrappers goes before the
    object; the memory of an object the library made is released without running a
    destructor of the class (FakeObject.hpp:61-64). *)
Definition dm_destroy (s : dstate) : outcome dstate :=
  let! s' := release_members s in
  Def (mkDm (if dm_owner s' then map (fun _ => None) (dm_cells s') else dm_cells s') (dm_members s')
            (dm_owner s') false (dm_log s')).

(** Mock.hpp:69-73 (Stub), MockImpl.hpp:63-76 (Reset, ClearInvocationHistory), 40-42 (the destructor), and the use
    of the members by the test. *)
Inductive dm_op : Type :=
| DStub (i : nat) (v : val)      (* mock.Stub(&C::member, v) *)
| DGet (i : nat)                 (* mock.get().member *)
| DSet (i : nat) (v : val)       (* mock.get().member = v *)
| DClear                         (* mock.ClearInvocationHistory() *)
| DReset                         (* mock.Reset() *)
| DDestroy                       (* end of the mock's life *)
| DObjectEnds                    (* end of life of an object of the user: all members go *)
| DStubAssign (i : nat) (v w : val). (* mock.Stub(&C::member, v) = w *)

Definition dm_step (s : dstate) (o : dm_op) : outcome (dstate * val) :=
  match o with
  | DStub i v => if dm_mock s then let! s' := stubDataMember s i v in Def (s', VVoid) else UB
  | DGet i =>
      match nth_error (dm_cells s) i with Some (Some v) => Def (s, v) | _ => UB end
  | DSet i v =>
      match nth_error (dm_cells s) i with
      | Some (Some _) =>
          Def (mkDm (upd (dm_cells s) i (Some v)) (dm_members s) (dm_owner s) (dm_mock s) (dm_log s), VVoid)
      | _ => UB
      end
  | DClear => if dm_mock s then Def (dm_clear s, VVoid) else UB
  | DReset => if dm_mock s then let! s' := dm_reset s in Def (s', VVoid) else UB
  | DDestroy => if dm_mock s then let! s' := dm_destroy s in Def (s', VVoid) else UB
  | DObjectEnds =>
      if dm_owner s then UB
      else let! s' := destroy_cells s (seq 0 (length (dm_cells s))) in Def (s', VVoid)
  (* DataMemberStubbingRoot::operator= does nothing: StubbingImpl.hpp:33-34 *)
  | DStubAssign i v _ => if dm_mock s then let! s' := stubDataMember s i v in Def (s', VVoid) else UB
  end.

(** Several statements, one after the other: code of the user.  The lines are those of each step, MockImpl.hpp:40-42, 55-76,
    DynamicProxy.hpp:91-98, 151-160. *)
Fixpoint dm_run (s : dstate) (os : list dm_op) : outcome (dstate * list val) :=
  match os with
  | [] => Def (s, [])
  | o :: os' =>
      let! (s1, v) := dm_step s o in
      let! (s2, vs) := dm_run s1 os' in
      Def (s2, v :: vs)
  end.
