(** One mock whose methods are mentioned in several source files.  What [Proxy.v] says about ids,
    with the place the ids come from: __COUNTER__ of the file in which the macro stands. *)
From Coq Require Import Bool ZArith Lia List.
From Verif Require Import Base CInt Proxy.
Import ListNotations.
Open Scope nat_scope.

(** *** Source text *)

(** The expansions of __COUNTER__ in a file, in their order: the k-th one (from 0) yields k.
    [Foreign]: by something other than this library (test frameworks use it too).
    [Mentions l]: by Method, ConstOverloadedMethod, ... of api_macros.hpp:31-50, with the entries
    of the virtual table that the expression designates: one, or, in a function template
    (OverloadedMethod with a prototype that depends on a parameter), one per instantiation. *)
Inductive expansion : Type :=
| Foreign
| Mentions (slots : list nat).

(** Code of the user, with the macros of api_macros.hpp:31-50. *)
Definition source : Type := list expansion.

(** One mention that is executed: the file, the number of the expansion, the instantiation.  api_macros.hpp:31-50.
    *)
Record occ : Type := mkOcc { oc_file : nat; oc_pos : nat; oc_inst : nat }.

(** The entry an executed mention designates.  api_macros.hpp:10-50. *)
Definition designates (files : list source) (o : occ) : option nat :=
  match nth_error files (oc_file o) with
  | Some f => match nth_error f (oc_pos o) with
              | Some (Mentions l) => nth_error l (oc_inst o)
              | _ => None
              end
  | None => None
  end.

(** The template argument of stub<__COUNTER__> (api_macros.hpp:32-50): the standard does not
    know __COUNTER__; the compilers count the expansions in one translation unit. *)
Definition counter_of (o : occ) : Z := Z.of_nat (oc_pos o).

(** *** The mock *)

(** Entry of the virtual table of the mock: what the class or the mock put there at the
    beginning, or MethodProxyCreator<R, args...>::methodProxyX<id> (MethodProxyCreator.hpp:32-35,
    53-56).  [sig] stands for R and args. *)
Inductive entry : Type :=
| Initial
| ProxyX (sig : nat) (id : Z).

(** The table and the vectors of DynamicProxy.hpp:211-215.  A recorded method body is shown by
    the entry it was made for. *)
Record smock : Type := mkSm { sm_table : list entry; sm_pt : ptables nat }.

(** A class: the signature of each entry of its table.  R and arglist of MethodProxyCreator.hpp:25-26 for each
    entry. *)
Definition sclass : Type := list nat.

(** Constructor: DynamicProxy.hpp:68-77. *)
Definition sm_new (c : sclass) : smock := mkSm (repeat Initial (length c)) (pt_new (length c)).

(** Reset: DynamicProxy.hpp:91-98 (the table is copied back, the vectors are emptied). *)
Definition sm_reset (c : sclass) : smock := mkSm (repeat Initial (length c)) (pt_reset (length c)).

(** getRecordedMethodBody for a method expression: MockImpl.hpp:221-225, 314-323,
    DynamicProxy.hpp:104-109 with createMethodProxy (MethodProxyCreator.hpp:32-35) and bind
    (222-226). *)
Definition sm_mention (c : sclass) (m : smock) (slot : nat) (counter : Z) : outcome smock :=
  let! b := isBinded (sm_pt m) slot in
  if b then Def m
  else
    let! sig := of_option (nth_error c slot) in
    let! pt := pt_bind (sm_pt m) slot (method_id counter) slot in
    Def (mkSm (upd (sm_table m) slot (ProxyX sig (method_id counter))) pt).

(** What a call of an entry reaches.  MethodProxyCreator.hpp:44-51, RecordedMethodBody.hpp:126-150. *)
Inductive reached : Type :=
| Unstubbed            (* the entry is as at the beginning *)
| StubbingsOf (slot : nat).  (* the recorded body made for that entry *)

(** A virtual call, and methodProxy (MethodProxyCreator.hpp:44-51): the pointer found under the
    id is cast (line 47-49, from Destructible) to the handler type of the called signature; if it
    is a handler of another type, using it is undefined. *)
Definition sm_call (c : sclass) (m : smock) (slot : nat) : outcome reached :=
  let! e := of_option (nth_error (sm_table m) slot) in
  match e with
  | Initial => Def Unstubbed
  | ProxyX sig id =>
      let! h := dispatch (sm_pt m) id in
      let! sig' := of_option (nth_error c h) in
      if Nat.eqb sig sig' then Def (StubbingsOf h) else UB
  end.

(** *** Tests  api_macros.hpp:31-50, MethodProxyCreator.hpp:44-56, Mock.hpp:61-63. *)

Inductive event : Type :=
| Mention (o : occ)
| CallOf (slot : nat)
| ResetAll.

(** Runs the events on a mock and lists what the calls reached.  An occurrence that does not
    exist cannot be executed: nothing happens.  As cited at the functions used; code of the user. *)
Fixpoint srun (c : sclass) (files : list source) (m : smock) (l : list event) : outcome (list reached) :=
  match l with
  | [] => Def []
  | Mention o :: r =>
      match designates files o with
      | Some slot => let! m' := sm_mention c m slot (counter_of o) in srun c files m' r
      | None => srun c files m r
      end
  | CallOf slot :: r =>
      let! a := sm_call c m slot in
      let! rest := srun c files m r in
      Def (a :: rest)
  | ResetAll :: r => srun c files (sm_reset c) r
  end.

(** On a new mock, DynamicProxy.hpp:68-77. *)
Definition srun_new (c : sclass) (files : list source) (l : list event) : outcome (list reached) :=
  srun c files (sm_new c) l.
