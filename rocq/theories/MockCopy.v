(** Model of the copy constructor of Mock: include/fakeit/Mock.hpp:35-47,
    include/fakeit/MockImpl.hpp:26-42 and 118-120, include/mockutils/DynamicProxy.hpp:65-85
    and 209-216.  None of these classes declares a copy constructor, all their members can
    be copied, so copying a mock copies member by member.

    One object of the user and its mocks.  Only what copying concerns is modelled: which
    table the object points to, who releases which table, and which mock's vectors a call
    looks its handler up in. *)
From Coq Require Import Bool ZArith Lia List.
From Verif Require Import Base CInt Proxy.
Import ListNotations.
Open Scope nat_scope.

(** What stands in an entry of a virtual table: the class's own method, or the proxy
    function made for an id (MethodProxyCreator.hpp:44-51). *)
Inductive entry : Type := Original | ProxyOf (id : Z).

(** A table and its first cookie: the mock whose _invocationHandlers it refers to
    (DynamicProxy.hpp:75), none for the class's own table. *)
Record ctable : Type := mkCt { ct_entries : list entry; ct_cookie : option nat }.

(** A mock: originalVtHandle and _cloneVt as numbers of tables, _methodMocks and _offsets
    (DynamicProxy.hpp:210-215).  Handlers are numbers. *)
Record cmock : Type := mkCm { cm_original : nat; cm_clone : nat; cm_vectors : ptables nat }.

(** The tables ([None]: released), the table the object points to, the mocks ([None]:
    destroyed).  gcc/VirtualTable.hpp:44, 88-93; FakeObject.hpp:32; MockImpl.hpp:118-120. *)
Record cstate : Type := mkCs { cs_tables : list (option ctable); cs_vptr : nat; cs_mocks : list (option cmock) }.

(** An object of a class with [n] methods.  Made by the user; models no lines of /repo. *)
Definition cs_init (n : nat) : cstate := mkCs [Some (mkCt (repeat Original n) None)] 0 [].

(** Reading a table, gcc/VirtualTable.hpp:20-37; undefined if it has been released (88-93). *)
Definition table (s : cstate) (t : nat) : outcome ctable :=
  match nth_error (cs_tables s) t with Some (Some x) => Def x | _ => UB end.
(** Using a mock, Mock.hpp:37; undefined if it has been destroyed. *)
Definition mock (s : cstate) (m : nat) : outcome cmock :=
  match nth_error (cs_mocks s) m with Some (Some x) => Def x | _ => UB end.

(** Mock.hpp:46-47 and the copy constructor that the compiler makes; MockImpl.hpp:314-323; the destructor 40-42. *)
Inductive c_op : Type :=
| CWrap                              (* Mock<C> m(obj); *)
| CCopy (m : nat)                    (* Mock<C> n(m); *)
| CStub (m slot : nat) (id : Z) (h : nat) (* a first stubbing of a method *)
| CCall (slot : nat)                 (* a call through the object *)
| CDestroy (m : nat).

(** Result of a call: the original ran, or handler [h].  MethodProxyCreator.hpp:44-51. *)
Inductive c_res : Type := CDone | COriginal | CHandled (h : nat).

Definition c_step (s : cstate) (o : c_op) : outcome (cstate * c_res) :=
  match o with
  | CWrap =>
      (* DynamicProxy.hpp:69-77 *)
      let! t := table s (cs_vptr s) in
      let clone := mkCt (ct_entries t) (Some (length (cs_mocks s))) in
      let m := mkCm (cs_vptr s) (length (cs_tables s)) (pt_new (length (ct_entries t))) in
      Def (mkCs (cs_tables s ++ [Some clone]) (length (cs_tables s)) (cs_mocks s ++ [Some m]), CDone)
  | CCopy m =>
      (* memberwise; the copied InvocationHandlers is not the one the table refers to *)
      let! x := mock s m in
      Def (mkCs (cs_tables s) (cs_vptr s) (cs_mocks s ++ [Some x]), CDone)
  | CStub m slot id h =>
      (* stubMethodIfNotStubbed and bind: MockImpl.hpp:314-323, DynamicProxy.hpp:222-226 *)
      let! x := mock s m in
      let! b := isBinded (cm_vectors x) slot in
      if b then Def (s, CDone)
      else
        let! t := table s (cs_vptr s) in
        (* the class's own table is constant: writing to it is undefined *)
        let! _ := of_option (ct_cookie t) in
        let! v := pt_bind (cm_vectors x) slot id h in
        Def (mkCs (upd (cs_tables s) (cs_vptr s) (Some (mkCt (upd (ct_entries t) slot (ProxyOf id)) (ct_cookie t))))
                  (cs_vptr s) (upd (cs_mocks s) m (Some (mkCm (cm_original x) (cm_clone x) v))), CDone)
  | CCall slot =>
      let! t := table s (cs_vptr s) in
      match nth_error (ct_entries t) slot, ct_cookie t with
      | Some Original, _ => Def (s, COriginal)
      | Some (ProxyOf id), Some m =>
          let! x := mock s m in
          let! h := dispatch (cm_vectors x) id in
          Def (s, CHandled h)
      | _, _ => UB
      end
  | CDestroy m =>
      (* ~MockImpl: detach (DynamicProxy.hpp:79-81), then ~DynamicProxy: dispose (83-85) *)
      let! x := mock s m in
      let! _ := table s (cm_clone x) in
      Def (mkCs (upd (cs_tables s) (cm_clone x) None) (cm_original x) (upd (cs_mocks s) m None), CDone)
  end.

(** One after the other; code of the user. *)
Fixpoint c_run (s : cstate) (os : list c_op) : outcome (list c_res) :=
  match os with
  | [] => Def []
  | o :: os' =>
      let! (s', r) := c_step s o in
      let! rs := c_run s' os' in
      Def (r :: rs)
  end.
