(** The world model: mocks, objects, virtual tables, recorded bodies, action
    sequences, matchers, method expressions, verification objects and invocations
    on explicit heaps, and the API operations as functions on it.

    Models include/fakeit/RecordedMethodBody.hpp, MethodMockingContext.hpp,
    MockImpl.hpp, Mock.hpp, WhenFunctor.hpp, FakeFunctor.hpp, SpyFunctor.hpp,
    SpyWithoutVerifyFunctor.hpp, VerifyFunctor.hpp, UsingFunctor.hpp,
    UsingProgress.hpp, UnverifiedFunctor.hpp, VerifyNoOtherInvocations*.hpp,
    ActualInvocation.hpp, DefaultValue.hpp and include/mockutils/DynamicProxy.hpp,
    FakeObject.hpp, MethodProxyCreator.hpp (GCC/Clang layout), on top of the
    pieces modelled in the other files.

    General simplifications.
    - Virtual calls are untyped: a proxy that reaches the body of another method
      hands it the arguments as they are.
    - Addresses of released objects are not handed out again.
    - std::shared_ptr is taken at its word (release on the last owner), smart_ptr
      is modelled in SmartPtr.v.
    - User predicates, listeners and adapters do not call back into the library. *)
From Coq Require Import Bool ZArith Lia List.
From Verif Require Import Base CInt Values ArgMatchers InvMatchers ActionSeq Sequences MatchAnalysis
  SortInv VTable Proxy Events Expectation ReturnSet Ordinals Syntax.
Import ListNotations.

(** ** State *)

(** What a virtual table entry holds.  What MockImpl.hpp:271, 273-282 (the stubs), MethodProxyCreator.hpp:53-56 (the
    proxies), gcc/VirtualTable.hpp:95-104 (the destructor helper) and the compiler (original bodies) put there. *)
Inductive code : Type :=
| CUnmocked                       (* MockImpl::unmocked *)
| CUnmockedDtor                   (* MockImpl::unmockedDtor *)
| CProxy (id : Z)                 (* MethodProxyCreator::methodProxyX<id> *)
| CDtorHelper (c : nat)           (* VirtualTable<C>::dtor *)
| COrig (c slot : nat).           (* compiled body of a method of class c *)
(** A word of a table: gcc/VirtualTable.hpp:20-41, 141-149 (offset to top, type information, entries) with the
    cookies set in DynamicProxy.hpp:75 and MockImpl.hpp:284-292. *)
Inductive word : Type :=
| WNull
| WTypeInfo (c : nat)
| WCode (x : code)
| WHandlers (m : nat)             (* &_invocationHandlers of mock m *)
| WMock (m : nat).                (* the MockImpl m *)

(** An object of a mocked class: its virtual table pointer and its data members.
    For objects made by the library this is FakeObject (FakeObject.hpp:17-86). *)
Record obj : Type := mkObj { ob_vptr : nat; ob_class : nat; ob_data : list val }.

(** MockImpl.hpp:118-120 and DynamicProxy.hpp:209-216. *)
Record mock : Type := mkMock {
  mk_class : nat;
  mk_obj : nat;                   (* instance *)
  mk_owner : bool;                (* _instanceOwner is not null *)
  mk_orig : nat;                  (* originalVtHandle *)
  mk_clone : nat;                 (* _cloneVt *)
  mk_pt : ptables nat             (* _methodMocks (bodies) and _offsets *)
}.

(** RecordedMethodBody.hpp:59-63; handlers as (matcher, action sequence), oldest
    first. *)
Record body : Type := mkBody {
  bd_id : Z;                      (* _method.id() *)
  bd_ret : rett;
  bd_handlers : list (nat * nat);
  bd_invs : list nat
}.

(** ActualInvocation.hpp:64-65 and Invocation.hpp:63-65. *)
Record inv : Type := mkInv {
  iv_ord : Z;
  iv_method : Z;                  (* getMethod().id() *)
  iv_ret : rett;                  (* the type R of the method *)
  iv_args : list val;
  iv_matcher : option nat;
  iv_verified : bool
}.

(** MethodMockingContext::Implementation (MethodMockingContext.hpp:75-78) with the
    Context object it owns. *)
Record ctx : Type := mkCtx {
  cx_target : target;
  cx_seq : nat;
  cx_matcher : nat;
  cx_committed : bool
}.

(** Verification objects: SequenceVerificationExpectation.hpp:42-51 and
    VerifyNoOtherInvocationsVerificationProgress.hpp:41-47.  [ESeq unv l]: the
    invocations looked at are those of the aggregate of the sources [l], [unv]:
    restricted to the unverified ones. *)
Inductive expo : Type :=
| ESeq (unv : bool) (l : list source) (pattern : list (sequence nat)) (e : expectation)
| ENoOther (l : list source) (done : bool).

(** An action sequence with whether its storage is alive: its action objects may
    outlive it (they are held by shared_ptr during a call).  ActionSequence.hpp:40-54, 87-88. *)
Record seqcell : Type := mkSeq { sq_alive : bool; sq_seq : aseq callable }.

(** Everything that lives at one moment: the heaps, the counters (Invocation.hpp:23-26, DomainObjects.hpp:27-30),
    the FakeIt context (FakeitContext.hpp:74) and the number of exceptions in flight (FakeitExceptions.hpp:17-25).
    One thread. *)
Record world : Type := mkWorld {
  w_tables : list (option (vtable word));
  w_objs : list (option obj);
  w_mocks : list (option mock);
  w_bodies : list (option body);
  w_seqs : list seqcell;
  w_matchers : list (option imatcher);
  w_ctxs : list (option ctx);
  w_exps : list (option expo);
  w_invs : list inv;
  w_mem : mem;
  w_ord : Z;                      (* Invocation::nextInvocationOrdinal's counter *)
  w_started : Z;                  (* not in the code: how many ordinals were drawn *)
  w_mord : Z;                     (* MethodInfo::nextMethodOrdinal's counter *)
  w_fctx : fctx nat;
  w_log : list (nat * event);     (* deliveries: listener or adapter, event *)
  w_uncaught : nat                (* std::uncaught_exceptions() *)
}.

(** Changes one field of the model; models no lines of /repo. *)
Definition set_tables (w : world) x : world :=
  mkWorld x (w_objs w) (w_mocks w) (w_bodies w) (w_seqs w) (w_matchers w) (w_ctxs w) (w_exps w) (w_invs w) (w_mem w) (w_ord w) (w_started w) (w_mord w) (w_fctx w) (w_log w) (w_uncaught w).
(** Changes one field of the model; models no lines of /repo. *)
Definition set_objs (w : world) x : world :=
  mkWorld (w_tables w) x (w_mocks w) (w_bodies w) (w_seqs w) (w_matchers w) (w_ctxs w) (w_exps w) (w_invs w) (w_mem w) (w_ord w) (w_started w) (w_mord w) (w_fctx w) (w_log w) (w_uncaught w).
(** Changes one field of the model; models no lines of /repo. *)
Definition set_mocks (w : world) x : world :=
  mkWorld (w_tables w) (w_objs w) x (w_bodies w) (w_seqs w) (w_matchers w) (w_ctxs w) (w_exps w) (w_invs w) (w_mem w) (w_ord w) (w_started w) (w_mord w) (w_fctx w) (w_log w) (w_uncaught w).
(** Changes one field of the model; models no lines of /repo. *)
Definition set_bodies (w : world) x : world :=
  mkWorld (w_tables w) (w_objs w) (w_mocks w) x (w_seqs w) (w_matchers w) (w_ctxs w) (w_exps w) (w_invs w) (w_mem w) (w_ord w) (w_started w) (w_mord w) (w_fctx w) (w_log w) (w_uncaught w).
(** Changes one field of the model; models no lines of /repo. *)
Definition set_seqs (w : world) x : world :=
  mkWorld (w_tables w) (w_objs w) (w_mocks w) (w_bodies w) x (w_matchers w) (w_ctxs w) (w_exps w) (w_invs w) (w_mem w) (w_ord w) (w_started w) (w_mord w) (w_fctx w) (w_log w) (w_uncaught w).
(** Changes one field of the model; models no lines of /repo. *)
Definition set_matchers (w : world) x : world :=
  mkWorld (w_tables w) (w_objs w) (w_mocks w) (w_bodies w) (w_seqs w) x (w_ctxs w) (w_exps w) (w_invs w) (w_mem w) (w_ord w) (w_started w) (w_mord w) (w_fctx w) (w_log w) (w_uncaught w).
(** Changes one field of the model; models no lines of /repo. *)
Definition set_ctxs (w : world) x : world :=
  mkWorld (w_tables w) (w_objs w) (w_mocks w) (w_bodies w) (w_seqs w) (w_matchers w) x (w_exps w) (w_invs w) (w_mem w) (w_ord w) (w_started w) (w_mord w) (w_fctx w) (w_log w) (w_uncaught w).
(** Changes one field of the model; models no lines of /repo. *)
Definition set_exps (w : world) x : world :=
  mkWorld (w_tables w) (w_objs w) (w_mocks w) (w_bodies w) (w_seqs w) (w_matchers w) (w_ctxs w) x (w_invs w) (w_mem w) (w_ord w) (w_started w) (w_mord w) (w_fctx w) (w_log w) (w_uncaught w).
(** Changes one field of the model; models no lines of /repo. *)
Definition set_invs (w : world) x : world :=
  mkWorld (w_tables w) (w_objs w) (w_mocks w) (w_bodies w) (w_seqs w) (w_matchers w) (w_ctxs w) (w_exps w) x (w_mem w) (w_ord w) (w_started w) (w_mord w) (w_fctx w) (w_log w) (w_uncaught w).
(** Changes one field of the model; models no lines of /repo. *)
Definition set_mem (w : world) x : world :=
  mkWorld (w_tables w) (w_objs w) (w_mocks w) (w_bodies w) (w_seqs w) (w_matchers w) (w_ctxs w) (w_exps w) (w_invs w) x (w_ord w) (w_started w) (w_mord w) (w_fctx w) (w_log w) (w_uncaught w).
(** Changes one field of the model; models no lines of /repo. *)
Definition set_ord (w : world) x : world :=
  mkWorld (w_tables w) (w_objs w) (w_mocks w) (w_bodies w) (w_seqs w) (w_matchers w) (w_ctxs w) (w_exps w) (w_invs w) (w_mem w) x (w_started w) (w_mord w) (w_fctx w) (w_log w) (w_uncaught w).
(** Changes one field of the model; models no lines of /repo. *)
Definition set_started (w : world) x : world :=
  mkWorld (w_tables w) (w_objs w) (w_mocks w) (w_bodies w) (w_seqs w) (w_matchers w) (w_ctxs w) (w_exps w) (w_invs w) (w_mem w) (w_ord w) x (w_mord w) (w_fctx w) (w_log w) (w_uncaught w).
(** Changes one field of the model; models no lines of /repo. *)
Definition set_mord (w : world) x : world :=
  mkWorld (w_tables w) (w_objs w) (w_mocks w) (w_bodies w) (w_seqs w) (w_matchers w) (w_ctxs w) (w_exps w) (w_invs w) (w_mem w) (w_ord w) (w_started w) x (w_fctx w) (w_log w) (w_uncaught w).
(** Changes one field of the model; models no lines of /repo. *)
Definition set_fctx (w : world) x : world :=
  mkWorld (w_tables w) (w_objs w) (w_mocks w) (w_bodies w) (w_seqs w) (w_matchers w) (w_ctxs w) (w_exps w) (w_invs w) (w_mem w) (w_ord w) (w_started w) (w_mord w) x (w_log w) (w_uncaught w).
(** Changes one field of the model; models no lines of /repo. *)
Definition set_log (w : world) x : world :=
  mkWorld (w_tables w) (w_objs w) (w_mocks w) (w_bodies w) (w_seqs w) (w_matchers w) (w_ctxs w) (w_exps w) (w_invs w) (w_mem w) (w_ord w) (w_started w) (w_mord w) (w_fctx w) x (w_uncaught w).
(** Changes one field of the model; models no lines of /repo. *)
Definition set_uncaught (w : world) x : world :=
  mkWorld (w_tables w) (w_objs w) (w_mocks w) (w_bodies w) (w_seqs w) (w_matchers w) (w_ctxs w) (w_exps w) (w_invs w) (w_mem w) (w_ord w) (w_started w) (w_mord w) (w_fctx w) (w_log w) x.

(** ** Computations *)

(** Result of an operation: a value, an exception (both with the state reached),
    undefined behaviour, or no answer: the bound on nested operations was too
    small, or the program did something the model does not cover (said where it
    occurs).  Models no lines of /repo. *)
Inductive res (A : Type) : Type :=
| RVal (w : world) (a : A)
| RExn (w : world) (e : exn)
| RUB
| RNone.
Arguments RVal {A}.
Arguments RExn {A}.
Arguments RUB {A}.
Arguments RNone {A}.

(** Operations; models no lines of /repo. *)
Definition M (A : Type) : Type := world -> res A.

(** Returns.  Models no lines of /repo. *)
Definition ret {A} (a : A) : M A := fun w => RVal w a.
(** Leaves by an exception.  Models no lines of /repo. *)
Definition throw {A} (e : exn) : M A := fun w => RExn w e.
(** Undefined behaviour.  Models no lines of /repo. *)
Definition ub {A} : M A := fun _ => RUB.
(** No answer.  Models no lines of /repo. *)
Definition none {A} : M A := fun _ => RNone.
(** One after the other; an exception skips the rest.  Models no lines of /repo. *)
Definition bind {A B} (m : M A) (k : A -> M B) : M B := fun w =>
  match m w with
  | RVal w' a => k a w'
  | RExn w' e => RExn w' e
  | RUB => RUB
  | RNone => RNone
  end.
(** Result or exception as a value.  A catch-all.  Models no lines of /repo. *)
Definition attempt {A} (m : M A) : M (A + exn) := fun w =>
  match m w with
  | RVal w' a => RVal w' (inl a)
  | RExn w' e => RVal w' (inr e)
  | RUB => RUB
  | RNone => RNone
  end.
(** Continues the result.  Models no lines of /repo. *)
Definition rethrow {A} (r : A + exn) : M A :=
  match r with inl a => ret a | inr e => throw e end.
(** An outcome of a part without state.  Models no lines of /repo. *)
Definition lift {A} (o : outcome A) : M A := fun w =>
  match o with Def a => RVal w a | UB => RUB | NoFuel => RNone end.
(** Reads the state.  Models no lines of /repo. *)
Definition gets {A} (f : world -> A) : M A := fun w => RVal w (f w).
(** Changes the state.  Models no lines of /repo. *)
Definition modify (f : world -> world) : M unit := fun w => RVal (f w) tt.

Notation "'let*' x ':=' m 'in' k" := (bind m (fun x => k))
  (at level 200, x pattern, m at level 100, k at level 200).

(** A guard object (Finally, or any destructor) around [m]: [f] runs whether [m]
    returns or throws.  Finally.hpp:15-35. *)
Definition guarded {A} (m : M A) (f : M unit) : M A :=
  let* r := attempt m in
  let* _ := f in
  rethrow r.

(** Heap cells.  Undefined if the object is gone; models no lines of /repo. *)
Definition hget {A} (h : list (option A)) (i : nat) : M A :=
  match nth_error h i with Some (Some a) => ret a | _ => ub end.

(** The environment: the classes of the program; how listeners and adapters react
    to an event (return or throw); the built-in adapter; the iteration order of
    unordered sets; what is left in a by-value argument that was moved from.  Models no lines of /repo. *)
Record env : Type := mkEnv {
  e_classes : list class_desc;
  e_react : nat -> event -> option exn;
  e_builtin : nat;
  e_iter : list nat -> list nat;
  e_moved : val -> val
}.

Section Env.
Variable E : env.
Local Notation classes := (e_classes E).
Local Notation react := (e_react E).
Local Notation builtin := (e_builtin E).
Local Notation iter := (e_iter E).
Local Notation moved := (e_moved E).

(** The class of the user that a mock was made for; models no lines of /repo. *)
Definition class_of (c : nat) : M class_desc :=
  match nth_error classes c with Some d => ret d | None => ub end.

(** *** Access to the heaps *)
(** gcc/VirtualTable.hpp:20-41. *)
Definition get_table (t : nat) : M (vtable word) := let* h := gets w_tables in hget h t.
(** gcc/VirtualTable.hpp:20-41. *)
Definition put_table (t : nat) (x : vtable word) : M unit :=
  modify (fun w => set_tables w (upd (w_tables w) t (Some x))).
(** gcc/VirtualTable.hpp:84-86, 141-149 allocate. *)
Definition new_table (x : vtable word) : M nat :=
  let* h := gets w_tables in
  let* _ := modify (fun w => set_tables w (w_tables w ++ [Some x])) in
  ret (length h).
(** gcc/VirtualTable.hpp:88-93. *)
Definition free_table (t : nat) : M unit :=
  let* _ := get_table t in
  modify (fun w => set_tables w (upd (w_tables w) t None)).

(** An object, FakeObject.hpp:31-34; undefined if it is gone. *)
Definition get_obj (o : nat) : M obj := let* h := gets w_objs in hget h o.
(** FakeObject.hpp:31-34. *)
Definition put_obj (o : nat) (x : obj) : M unit :=
  modify (fun w => set_objs w (upd (w_objs w) o (Some x))).
(** MockImpl.hpp:284-292, or made by the user. *)
Definition new_obj (x : obj) : M nat :=
  let* h := gets w_objs in
  let* _ := modify (fun w => set_objs w (w_objs w ++ [Some x])) in
  ret (length h).
(** FakeObject.hpp:61-64, or by the user. *)
Definition free_obj (o : nat) : M unit :=
  let* _ := get_obj o in
  modify (fun w => set_objs w (upd (w_objs w) o None)).

(** MockImpl.hpp:118-120; undefined if it was destroyed (40-42). *)
Definition get_mock (m : nat) : M mock := let* h := gets w_mocks in hget h m.
(** MockImpl.hpp:118-120. *)
Definition put_mock (m : nat) (x : mock) : M unit :=
  modify (fun w => set_mocks w (upd (w_mocks w) m (Some x))).
(** Mock.hpp:43-47. *)
Definition new_mock (x : mock) : M nat :=
  let* h := gets w_mocks in
  let* _ := modify (fun w => set_mocks w (w_mocks w ++ [Some x])) in
  ret (length h).

(** RecordedMethodBody.hpp:59-63, 95-96; undefined if it was released. *)
Definition get_body (b : nat) : M body := let* h := gets w_bodies in hget h b.
(** RecordedMethodBody.hpp:59-63, 95-96. *)
Definition put_body (b : nat) (x : body) : M unit :=
  modify (fun w => set_bodies w (upd (w_bodies w) b (Some x))).
(** MockImpl.hpp:334-342. *)
Definition new_body (x : body) : M nat :=
  let* h := gets w_bodies in
  let* _ := modify (fun w => set_bodies w (w_bodies w ++ [Some x])) in
  ret (length h).

(** ActionSequence.hpp:87-88. *)
Definition get_seq (s : nat) : M seqcell :=
  let* h := gets w_seqs in
  match nth_error h s with Some c => ret c | None => ub end.
(** ActionSequence.hpp:87-88. *)
Definition put_seq (s : nat) (x : seqcell) : M unit :=
  modify (fun w => set_seqs w (upd (w_seqs w) s x)).
(** MethodMockingContext.hpp:86-92. *)
Definition new_seq (x : aseq callable) : M nat :=
  let* h := gets w_seqs in
  let* _ := modify (fun w => set_seqs w (w_seqs w ++ [mkSeq true x])) in
  ret (length h).
(** MethodMockingContext.hpp:96-100, RecordedMethodBody.hpp:54-55. *)
Definition free_seq (s : nat) : M unit :=
  let* c := get_seq s in
  if sq_alive c then put_seq s (mkSeq false (sq_seq c)) else ub.

(** MethodMockingContext.hpp:76, RecordedMethodBody.hpp:54-55; undefined if it was released. *)
Definition get_matcher (i : nat) : M imatcher := let* h := gets w_matchers in hget h i.
(** MethodMockingContext.hpp:86-92, 165-168. *)
Definition new_matcher (x : imatcher) : M nat :=
  let* h := gets w_matchers in
  let* _ := modify (fun w => set_matchers w (w_matchers w ++ [Some x])) in
  ret (length h).
(** MethodMockingContext.hpp:96-100, 165-168, RecordedMethodBody.hpp:54-55. *)
Definition free_matcher (i : nat) : M unit :=
  let* _ := get_matcher i in
  modify (fun w => set_matchers w (upd (w_matchers w) i None)).

(** MethodMockingContext.hpp:75-78; undefined if it was released. *)
Definition get_ctx (c : nat) : M ctx := let* h := gets w_ctxs in hget h c.
(** MethodMockingContext.hpp:75-78. *)
Definition put_ctx (c : nat) (x : ctx) : M unit :=
  modify (fun w => set_ctxs w (upd (w_ctxs w) c (Some x))).
(** MethodMockingContext.hpp:86-92. *)
Definition new_ctx (x : ctx) : M nat :=
  let* h := gets w_ctxs in
  let* _ := modify (fun w => set_ctxs w (w_ctxs w ++ [Some x])) in
  ret (length h).

(** SequenceVerificationExpectation.hpp:41-52, VerifyNoOtherInvocationsVerificationProgress.hpp:41-47; undefined if
    it was released. *)
Definition get_exp (x : nat) : M expo := let* h := gets w_exps in hget h x.
(** SequenceVerificationExpectation.hpp:41-52, VerifyNoOtherInvocationsVerificationProgress.hpp:41-47. *)
Definition put_exp (x : nat) (e : expo) : M unit :=
  modify (fun w => set_exps w (upd (w_exps w) x (Some e))).
(** SequenceVerificationProgress.hpp:28-33, VerifyFunctor.hpp:32-43, VerifyNoOtherInvocationsFunctor.hpp:37-44. *)
Definition new_exp (e : expo) : M nat :=
  let* h := gets w_exps in
  let* _ := modify (fun w => set_exps w (w_exps w ++ [Some e])) in
  ret (length h).
(** SequenceVerificationExpectation.hpp:15-20, VerifyNoOtherInvocationsVerificationProgress.hpp:25-31, after the
    check. *)
Definition free_exp (x : nat) : M unit :=
  let* _ := get_exp x in
  modify (fun w => set_exps w (upd (w_exps w) x None)).

(** Invocation.hpp:62-65, ActualInvocation.hpp:64-67.  Held by shared_ptr (RecordedMethodBody.hpp:63, 128-131):
    never found to be gone. *)
Definition get_inv (i : nat) : M inv :=
  let* h := gets w_invs in
  match nth_error h i with Some c => ret c | None => ub end.
(** Invocation.hpp:62-65. *)
Definition put_inv (i : nat) (x : inv) : M unit :=
  modify (fun w => set_invs w (upd (w_invs w) i x)).
(** RecordedMethodBody.hpp:128-131. *)
Definition new_inv (x : inv) : M nat :=
  let* h := gets w_invs in
  let* _ := modify (fun w => set_invs w (w_invs w ++ [x])) in
  ret (length h).

(** *** Counters *)

(** Invocation.hpp:23-26. *)
Definition nextInvocationOrdinal : M Z :=
  let* c := gets w_ord in
  let n := next_ordinal c in
  let* _ := modify (fun w => set_started (set_ord w n) (w_started w + 1)%Z) in
  ret n.

(** DomainObjects.hpp:27-30 ([++ordinal] on a std::atomic_uint). *)
Definition nextMethodOrdinal : M Z :=
  let* c := gets w_mord in
  let n := next_ordinal c in
  let* _ := modify (fun w => set_mord w n) in
  ret n.

(** *** Events: FakeitContext.hpp:24-43 *)
Definition handle_event (e : event) : M unit :=
  let* c := gets w_fctx in
  let (done, x) := ctx_handle react builtin c e in
  let* _ := modify (fun w => set_log w (w_log w ++ map (fun l => (l, e)) done)) in
  match x with Some x' => throw x' | None => ret tt end.

(** *** Objects and their tables *)

(** The table an object points to (getVTable, gcc/VirtualTable.hpp:20-23, 71-74). *)
Definition obj_table (o : nat) : M (nat * vtable word) :=
  let* x := get_obj o in
  let* t := get_table (ob_vptr x) in
  ret (ob_vptr x, t).

(** FakeObject::setMethod: FakeObject.hpp:66-69. *)
Definition fake_setMethod (o : nat) (offset : Z) (x : word) : M unit :=
  let* (t, vt) := obj_table o in
  let* vt' := lift (setMethod vt offset x) in
  put_table t vt'.

(** FakeObject::setDtor: FakeObject.hpp:81-84 with VirtualTable::setDtor. *)
Definition fake_setDtor (o : nat) (c : nat) (index : Z) (x : word) : M unit :=
  let* (t, vt) := obj_table o in
  let* vt' := lift (setDtor Gcc vt index (WCode (CDtorHelper c)) x) in
  put_table t vt'.

(** FakeObject::setVirtualTable: FakeObject.hpp:76-79. *)
Definition setVirtualTable (o t : nat) : M unit :=
  let* x := get_obj o in
  put_obj o (mkObj t (ob_class x) (ob_data x)).

(** initializeDataMembersArea: FakeObject.hpp:23-29.  Zero bytes are shown as the
    value [VInt 0] in every cell. *)
Definition initializeDataMembersArea (o : nat) : M unit :=
  let* x := get_obj o in
  put_obj o (mkObj (ob_vptr x) (ob_class x) (map (fun _ => VInt 0) (ob_data x))).

(** VirtualTable(): gcc/VirtualTable.hpp:84-86 with buildVTArray and getVTSize. *)
Definition build_table (c : nat) (d : class_desc) : M nat :=
  let* size := lift (getVTSize (cl_size d)) in
  let* vt := lift (buildVTArray Gcc WNull (WTypeInfo c) size) in
  new_table vt.

(** createFakeInstance: MockImpl.hpp:284-292. *)
Definition createFakeInstance (c : nat) : M nat :=
  let* d := class_of c in
  let* t := build_table c d in
  let* o := new_obj (mkObj t c (repeat (VInt 0) (cl_cells d))) in
  let* vt := get_table t in
  let* vt' := lift (initAll (cl_size d) vt (WCode CUnmocked)) in
  let* _ := put_table t vt' in
  let* _ := match cl_dtor d with
            | Some k => fake_setDtor o c (Z.of_nat k) (WCode CUnmockedDtor)
            | None => ret tt
            end in
  ret o.

(** DynamicProxy's constructor: DynamicProxy.hpp:68-77, as part of the private
    constructor of MockImpl: MockImpl.hpp:122-125. *)
Definition make_mock (c o : nat) (owner : bool) : M nat :=
  let* x := get_obj o in
  let* d := class_of c in
  let orig := ob_vptr x in
  let* clone := build_table c d in
  let* m := new_mock (mkMock c o owner orig clone (pt_new (cl_size d))) in
  let* src := get_table orig in
  let* vt := get_table clone in
  let* vt1 := lift (copyFrom Gcc (cl_size d) (match cl_dtor d with Some _ => true | None => false end) vt src) in
  let* vt2 := lift (setCookie Gcc vt1 0 (WHandlers m)) in
  let* _ := put_table clone vt2 in
  let* _ := setVirtualTable o clone in
  ret m.

(** Mock(): Mock.hpp:43-44, MockImpl.hpp:34-38. *)
Definition mock_new (c : nat) : M nat :=
  let* o := createFakeInstance c in
  let* m := make_mock c o true in
  let* (t, vt) := obj_table o in
  let* vt' := lift (setCookie Gcc vt 1 (WMock m)) in
  let* _ := put_table t vt' in
  ret m.

(** Mock(obj): Mock.hpp:46-47, MockImpl.hpp:30-32. *)
Definition mock_spy (c o : nat) : M nat := make_mock c o false.

(** *** Releasing bodies and mocks *)

(** ~MatchedInvocationHandler releases the matcher and the sequence it was given
    (RecordedMethodBody.hpp:54-55); ~RecordedMethodBody releases its vectors. *)
Fixpoint free_handlers (hs : list (nat * nat)) : M unit :=
  match hs with
  | [] => ret tt
  | (mt, sq) :: rest =>
      let* _ := free_matcher mt in
      let* _ := free_seq sq in
      free_handlers rest
  end.

(** ~RecordedMethodBody, RecordedMethodBody.hpp:59-63, 98-99. *)
Definition free_body (b : nat) : M unit :=
  let* x := get_body b in
  let* _ := modify (fun w => set_bodies w (upd (w_bodies w) b None)) in
  free_handlers (bd_handlers x).

(** The vector of the bodies is emptied (DynamicProxy.hpp:92) or destroyed with its owner (213). *)
Fixpoint free_bodies (bs : list (option nat)) : M unit :=
  match bs with
  | [] => ret tt
  | None :: rest => free_bodies rest
  | Some b :: rest => let* _ := free_body b in free_bodies rest
  end.

(** initDataMembersIfOwner: MockImpl.hpp:55-61. *)
Definition initDataMembersIfOwner (m : nat) : M unit :=
  let* k := get_mock m in
  if mk_owner k then initializeDataMembersArea (mk_obj k) else ret tt.

(** DynamicProxy::Reset: DynamicProxy.hpp:91-98. *)
Definition proxy_reset (m : nat) : M unit :=
  let* k := get_mock m in
  let* d := class_of (mk_class k) in
  let* _ := free_bodies (pt_mocks (mk_pt k)) in
  let* _ := put_mock m (mkMock (mk_class k) (mk_obj k) (mk_owner k) (mk_orig k) (mk_clone k) (pt_reset (cl_size d))) in
  let* src := get_table (mk_orig k) in
  let* vt := get_table (mk_clone k) in
  let* vt' := lift (copyFrom Gcc (cl_size d) (match cl_dtor d with Some _ => true | None => false end) vt src) in
  put_table (mk_clone k) vt'.

(** MockImpl::reset: MockImpl.hpp:63-66. *)
Definition mock_reset (m : nat) : M unit :=
  let* _ := proxy_reset m in
  initDataMembersIfOwner m.

(** RecordedMethodBody::clear: RecordedMethodBody.hpp:122-124, for every bound
    method: MockImpl.hpp:68-76 with getMethodMocks (DynamicProxy.hpp:162-170). *)
Fixpoint clear_bodies (bs : list (option nat)) : M unit :=
  match bs with
  | [] => ret tt
  | None :: rest => clear_bodies rest
  | Some b :: rest =>
      let* x := get_body b in
      let* _ := put_body b (mkBody (bd_id x) (bd_ret x) (bd_handlers x) []) in
      clear_bodies rest
  end.

(** MockImpl::clear: MockImpl.hpp:68-76. *)
Definition mock_clear (m : nat) : M unit :=
  let* k := get_mock m in
  let* _ := clear_bodies (pt_mocks (mk_pt k)) in
  initDataMembersIfOwner m.

(** ~MockImpl: MockImpl.hpp:40-42 (detach: DynamicProxy.hpp:79-81), then its
    members in reverse order: _proxy (DynamicProxy.hpp:83-85, then its vectors),
    _instanceOwner (FakeObject.hpp:61-64). *)
Definition mock_destroy (m : nat) : M unit :=
  let* k := get_mock m in
  let* _ := setVirtualTable (mk_obj k) (mk_orig k) in
  let* vt := get_table (mk_clone k) in
  let* _ := lift (dispose Gcc vt) in
  let* _ := free_table (mk_clone k) in
  let* _ := modify (fun w => set_mocks w (upd (w_mocks w) m None)) in
  let* _ := free_bodies (pt_mocks (mk_pt k)) in
  if mk_owner k then
    let* (t, vt') := obj_table (mk_obj k) in
    let* _ := lift (dispose Gcc vt') in
    let* _ := free_table t in
    free_obj (mk_obj k)
  else ret tt.

(** *** Method expressions *)
(** The mock of a method expression, MockImpl.hpp:134. *)

Definition target_mock (t : target) : nat := match t with TMethod m _ _ => m | TDtor m => m end.

(** getRecordedMethodBody: MockImpl.hpp:221-225 and 238-241, i.e.
    stubMethodIfNotStubbed (314-323) / stubDtorIfNotStubbed (325-332) with
    DynamicProxy's stubMethod 104-109, stubDtor 111-125, bind 222-226 and
    bindDtor 228-232.  (_vMethod designates an entry of the class; getOffset of
    an entry below the table size is that entry: VTable.v.) *)
Definition ensure_bound (m : nat) (slot : nat) (id : Z) (is_dtor : bool) : M nat :=
  let* k := get_mock m in
  let* d := class_of (mk_class k) in
  let* bound := lift (isBinded (mk_pt k) slot) in
  let* _ :=
    if bound then ret tt
    else
      let* n := nextMethodOrdinal in
      let* b := new_body (mkBody n (if is_dtor then RtVoid else cl_ret d slot) [] []) in
      let* _ :=
        if is_dtor then fake_setDtor (mk_obj k) (mk_class k) (Z.of_nat slot) (WCode (CProxy id))
        else fake_setMethod (mk_obj k) (Z.of_nat slot) (WCode (CProxy id)) in
      let* pt := lift (pt_bind (mk_pt k) slot id b) in
      put_mock m (mkMock (mk_class k) (mk_obj k) (mk_owner k) (mk_orig k) (mk_clone k) pt) in
  let* k' := get_mock m in
  match nth_error (pt_mocks (mk_pt k')) slot with
  | Some (Some b) => ret b
  | _ => ub
  end.

(** MockImpl.hpp:221-225 (methods), 238-241 (destructors), 314-332.  A class without virtual destructor:
    DynamicProxy.hpp:111-125 throws. *)
Definition getRecordedMethodBody (t : target) : M nat :=
  match t with
  | TMethod m slot counter => ensure_bound m slot (method_id counter) false
  | TDtor m =>
      let* k := get_mock m in
      let* d := class_of (mk_class k) in
      match cl_dtor d with
      | Some slot => ensure_bound m slot dtor_id true
      | None => throw XNoDtor
      end
  end.

(** ~Implementation: MethodMockingContext.hpp:94-101. *)
Definition ctx_free (c : nat) : M unit :=
  let* x := get_ctx c in
  let* _ := modify (fun w => set_ctxs w (upd (w_ctxs w) c None)) in
  if cx_committed x then ret tt
  else
    let* _ := free_seq (cx_seq x) in
    free_matcher (cx_matcher x).

(** Method(mock, f) / Dtor(mock): stub / dtor (Mock.hpp:66-141, MockImpl.hpp:92-100),
    Implementation's constructor (MethodMockingContext.hpp:86-92), then
    setMethodDetails (149-151), which fetches the recorded body; if that throws,
    the new object is released. *)
Definition ctx_new (t : target) : M nat :=
  let* _ := get_mock (target_mock t) in
  let* s := new_seq aseq_new in
  let* i := new_matcher IMDefault in
  let* c := new_ctx (mkCtx t s i false) in
  let* r := attempt (getRecordedMethodBody t) in
  match r with
  | inl _ => ret c
  | inr e => let* _ := ctx_free c in throw e
  end.

(** setInvocationMatcher: MethodMockingContext.hpp:165-168. *)
Definition ctx_cond (c : nat) (im : imatcher) : M unit :=
  let* n := new_matcher im in
  let* x := get_ctx c in
  let* _ := free_matcher (cx_matcher x) in
  put_ctx c (mkCtx (cx_target x) (cx_seq x) n (cx_committed x)).

(** appendAction: MethodMockingContext.hpp:140-142. *)
Definition ctx_append (c : nat) (a : action callable) : M unit :=
  let* x := get_ctx c in
  let* q := get_seq (cx_seq x) in
  if sq_alive q then
    let* s' := lift (append (sq_seq q) a) in
    put_seq (cx_seq x) (mkSeq true s')
  else ub.

(** commit: MethodMockingContext.hpp:135-138 with addMethodInvocationHandler
    (MockImpl.hpp:143-146, RecordedMethodBody.hpp:110-115). *)
Definition ctx_commit (c : nat) : M unit :=
  let* x := get_ctx c in
  let* b := getRecordedMethodBody (cx_target x) in
  let* bd := get_body b in
  let* _ := put_body b (mkBody (bd_id bd) (bd_ret bd) (bd_handlers bd ++ [(cx_matcher x, cx_seq x)]) (bd_invs bd)) in
  put_ctx c (mkCtx (cx_target x) (cx_seq x) (cx_matcher x) true).

(** *** Stubbing statements on a method expression *)
(** One link after the other, StubbingProgress.hpp:50-129,
    WhenFunctor.hpp:64-72. *)

Fixpoint append_all (c : nat) (rs : list (recorded callable)) : M unit :=
  match rs with
  | [] => ret tt
  | r :: rest => let* _ := ctx_append c (action_of r) in append_all c rest
  end.

(** When(...).link.link...; : WhenFunctor.hpp:23-87.  At the end of the statement
    the StubbingChange is destroyed and commits unless an exception is in flight
    (29-36).  [interrupt = Some (n, e)]: while the operand of link n+1 is
    evaluated the exception [e] is raised; the statement is left by it. *)
Definition do_when (c : nat) (rs : list (recorded callable)) (interrupt : option (nat * exn)) : M unit :=
  match interrupt with
  | Some (n, e) => let* _ := append_all c (firstn n rs) in throw e
  | None =>
      let* _ := append_all c rs in
      let* u := gets w_uncaught in
      if Nat.eqb u 0 then ctx_commit c else ret tt
  end.

(** Fake: FakeFunctor.hpp:19-24. *)
Definition do_fake (c : nat) : M unit :=
  let* _ := ctx_append c ADefault in ctx_commit c.

(** Spy / SpyWithoutVerify: SpyFunctor.hpp:22-28, SpyWithoutVerifyFunctor.hpp:12-18,
    with getOriginalMethodCopyArgs / ForwardArgs: MockImpl.hpp:183-213.  The
    original of a destructor does nothing (253-262). *)
Definition do_spy (c : nat) (forward : bool) : M unit :=
  let* x := get_ctx c in
  let* f := match cx_target x with
            | TMethod m slot _ => let* k := get_mock m in ret (FOrig m (mk_obj k) slot forward)
            | TDtor _ => ret (FProg (PRet VVoid))
            end in
  let* _ := ctx_append c (ADelegate f) in
  ctx_commit c.

(** Method(...) = f : MethodMockingContext.hpp:144-147, 321-335. *)
Definition do_assign (c : nat) (f : callable) : M unit :=
  let* _ := ctx_append c (AForever f) in ctx_commit c.

(** *** Calls *)

(** The default value of a return type: DefaultValue.hpp:33-61. *)
Definition default_value (r : rett) : M val :=
  match r with
  | RtVoid => ret VVoid
  | RtVal v => ret v
  | RtRef a => ret (VRef a)
  | RtNone => throw XDefault
  | RtRefNone => ub
  end.

(** Where the parameters of a running body live: in a recorded invocation, or in
    an ordinary stack frame.  ActualInvocation.hpp:36-44, 67 (the tuple of the arguments),
    RecordedMethodBody.hpp:128-131. *)
Inductive frame : Type :=
| FrInv (i : nat)
| FrStack (this : nat) (args : list val).

Section Open.
(** Operations nested inside user code. *)
Variable rec : op -> M val.

(** Runs code of the user; models no lines of /repo.  [PArg]/[PSetArg]: the references into the tuple that
    TupleDispatcher.hpp:37-41 hands out. *)
Fixpoint run_prog (fr : frame) (p : prog) : M val :=
  match p with
  | PRet v => ret v
  | PThrow e => throw e
  | PArg i k =>
      match fr with
      | FrInv n =>
          let* x := get_inv n in
          match nth_error (iv_args x) i with Some v => run_prog fr (k v) | None => ub end
      | FrStack _ args =>
          match nth_error args i with Some v => run_prog fr (k v) | None => ub end
      end
  | PSetArg i v k =>
      match fr with
      | FrInv n =>
          let* x := get_inv n in
          if Nat.ltb i (length (iv_args x)) then
            let* _ := put_inv n (mkInv (iv_ord x) (iv_method x) (iv_ret x) (upd (iv_args x) i v) (iv_matcher x) (iv_verified x)) in
            run_prog fr k
          else ub
      | FrStack this args =>
          if Nat.ltb i (length args) then run_prog (FrStack this (upd args i v)) k else ub
      end
  | PThis k => match fr with FrStack this _ => run_prog fr (k this) | FrInv _ => ub end
  | PDo o k =>
      let* r := attempt (rec o) in
      run_prog fr (k (match r with inl v => OVal v | inr e => OExn e end))
  end.

(** createRaiiMethodSwapper: DynamicProxy.hpp:177-187. *)
Definition with_original (m slot : nat) (run : M val) : M val :=
  let* k := get_mock m in
  let* (_, vt) := obj_table (mk_obj k) in
  let* fakeMethod := lift (getMethod vt (Z.of_nat slot)) in
  let* ot := get_table (mk_orig k) in
  let* original := lift (getMethod ot (Z.of_nat slot)) in
  let* _ := fake_setMethod (mk_obj k) (Z.of_nat slot) original in
  guarded run
    (let* k' := get_mock m in fake_setMethod (mk_obj k') (Z.of_nat slot) fakeMethod).

(** TupleDispatcher::invoke of the callable on the recorded arguments.  TupleDispatcher.hpp:37-41; the assigners
    StubbingProgress.hpp:402-484; the originals MockImpl.hpp:183-213. *)
Definition run_callable (f : callable) (i : nat) : M val :=
  match f with
  | FProg p => run_prog (FrInv i) p
  | FDefault => let* x := get_inv i in default_value (iv_ret x)
  | FSet r vals =>
      let* x := get_inv i in
      let* _ := put_inv i (mkInv (iv_ord x) (iv_method x) (iv_ret x) (positional_leaves moved (iv_args x))
                             (iv_matcher x) (iv_verified x)) in
      let* mem := gets w_mem in
      let* (mem', v) := lift (assigner_positional mem r vals (iv_args x)) in
      let* _ := modify (fun w => set_mem w mem') in
      ret v
  | FSetNamed r vals =>
      let* x := get_inv i in
      let* _ := put_inv i (mkInv (iv_ord x) (iv_method x) (iv_ret x) (placeholders_leave moved 1 vals (iv_args x))
                             (iv_matcher x) (iv_verified x)) in
      let* mem := gets w_mem in
      let* (mem', v) := lift (assigner_placeholders mem r vals (iv_args x)) in
      let* _ := modify (fun w => set_mem w mem') in
      ret v
  | FOrig m o slot forward =>
      with_original m slot
        (let* x := get_inv i in
         let* _ := if forward then
                     put_inv i (mkInv (iv_ord x) (iv_method x) (iv_ret x) (map (moved_from moved) (iv_args x)) (iv_matcher x) (iv_verified x))
                   else ret tt in
         rec (OCall o slot (iv_args x)))
  end.

(** Action.hpp:32-107 and ActionSequence.hpp:53, 58-73. *)
Definition serve (s : served callable) (i : nat) : M val :=
  match s with
  | SrvCall f => run_callable f i
  | SrvDefault => let* x := get_inv i in default_value (iv_ret x)
  | SrvNoMore => throw XNoMore
  end.

(** ActionSequence::handleMethodInvocation: ActionSequence.hpp:40-54.  The clause
    run at the end looks at the action object, which the call keeps alive, and
    touches the sequence only if the action is done. *)
Definition seq_end (s id : nat) : M unit :=
  let* q := get_seq s in
  let* a := lift (of_option (nth_error (as_acts (sq_seq q)) id)) in
  if isDone a then
    if sq_alive q then
      let* s' := lift (handle_end (sq_seq q) id) in put_seq s (mkSeq true s')
    else ub
  else ret tt.

(** ActionSequence::handleMethodInvocation: ActionSequence.hpp:40-54. *)
Definition seq_handle (s : nat) (i : nat) : M val :=
  let* q := get_seq s in
  if sq_alive q then
    let* (s1, id, srv) := lift (handle_begin (sq_seq q)) in
    let* _ := put_seq s (mkSeq true s1) in
    guarded (serve srv i) (seq_end s id)
  else ub.

(** getInvocationHandlerForActualArgs: RecordedMethodBody.hpp:71-81; [hs] newest
    first. *)
Fixpoint find_handler (hs : list (nat * nat)) (args : list val) (actual : option nat) : M (option (nat * nat)) :=
  match hs with
  | [] => ret None
  | (mt, sq) :: rest =>
      let* im := get_matcher mt in
      let* mem := gets w_mem in
      let* b := lift (im_matches mem mt im actual args) in
      if b then ret (Some (mt, sq)) else find_handler rest args actual
  end.

(** The end of RecordedMethodBody::handleMethodInvocation:
    RecordedMethodBody.hpp:145-149. *)
Definition unexpected (t : unexpected_type) (method : option Z) (args : list val) : M val :=
  let e := EvUnexpected t method args in
  let* _ := handle_event e in
  throw (XUnexpected e).

(** RecordedMethodBody::handleMethodInvocation: RecordedMethodBody.hpp:126-150. *)
Definition handleMethodInvocation (b : nat) (args : list val) : M val :=
  let* bd := get_body b in
  let* ordinal := nextInvocationOrdinal in
  let* i := new_inv (mkInv ordinal (bd_id bd) (bd_ret bd) args None false) in
  let* h := find_handler (rev (bd_handlers bd)) args None in
  match h with
  | Some (mt, sq) =>
      let* x := get_inv i in
      let* _ := put_inv i (mkInv (iv_ord x) (iv_method x) (iv_ret x) (iv_args x) (Some mt) (iv_verified x)) in
      let* _ := put_body b (mkBody (bd_id bd) (bd_ret bd) (bd_handlers bd) (bd_invs bd ++ [i])) in
      let* r := attempt (seq_handle sq i) in
      match r with
      | inr XNoMore =>
          let* _ := get_body b in   (* _fakeit, of the body, is used *)
          let* y := get_inv i in
          unexpected Unmatched (Some (bd_id bd)) (iv_args y)
      | _ => rethrow r
      end
  | None => unexpected Unmatched (Some (bd_id bd)) args
  end.

(** unmocked: MockImpl.hpp:273-282: the mock is found through cookie 1 of the
    object's table. *)
Definition run_unmocked (vt : vtable word) : M val :=
  let* _ := nextInvocationOrdinal in
  let* c := lift (getCookie Gcc vt 1) in
  match c with
  | WMock m => let* _ := get_mock m in unexpected Unmocked None []
  | _ => ub
  end.

(** Executing a table entry on object [o]: methodProxyX -> methodProxy
    (MethodProxyCreator.hpp:44-56), the stubs of MockImpl, original bodies. *)
Definition run_code (o : nat) (vt : vtable word) (x : code) (args : list val) : M val :=
  match x with
  | CUnmocked => run_unmocked vt
  | CUnmockedDtor => ret VVoid
  | CProxy id =>
      let* c := lift (getCookie Gcc vt 0) in
      match c with
      | WHandlers m =>
          let* k := get_mock m in
          let* b := lift (dispatch (mk_pt k) id) in
          handleMethodInvocation b args
      | _ => ub
      end
  | CDtorHelper _ => none   (* the destructor entry holds the helper itself: never installed *)
  | COrig c slot =>
      let* d := class_of c in
      run_prog (FrStack o args) (cl_body d slot)
  end.

(** A virtual call: the entry of the object's table is executed.
    VirtualTable::dtor: gcc/VirtualTable.hpp:95-104. *)
Definition call_object (o slot : nat) (args : list val) : M val :=
  let* (_, vt) := obj_table o in
  let* x := lift (getMethod vt (Z.of_nat slot)) in
  match x with
  | WCode (CDtorHelper c) =>
      let* d := class_of c in
      match cl_dtor d with
      | Some k =>
          let* y := lift (dtor_helper_target Gcc vt (Z.of_nat k)) in
          match y with WCode z => run_code o vt z args | _ => ub end
      | None => ub
      end
  | WCode z => run_code o vt z args
  | _ => ub
  end.

(** *** Verification *)

(** The recorded body of a bound method.  Asking for the body of a method that is
    not bound any more (its mock was Reset since the expression was made) binds it
    anew; during a verification this is not covered: no answer.  MockImpl.hpp:221-225, 238-241, 314-332. *)
Definition bound_body (w : world) (t : target) : outcome nat :=
  match nth_error (w_mocks w) (target_mock t) with
  | Some (Some k) =>
      let slot := match t with
                  | TMethod _ s _ => Some s
                  | TDtor _ => match nth_error classes (mk_class k) with Some d => cl_dtor d | None => None end
                  end in
      match slot with
      | Some s =>
          match nth_error (pt_mocks (mk_pt k)) s with
          | Some (Some b) => Def b
          | Some None => NoFuel
          | None => UB
          end
      | None => NoFuel
      end
  | _ => UB
  end.

(** As [get_body], of a world at rest: RecordedMethodBody.hpp:59-63, 95-96. *)
Definition heap_body (w : world) (b : nat) : outcome body :=
  match nth_error (w_bodies w) b with Some (Some x) => Def x | _ => UB end.

(** As [get_ctx], MethodMockingContext.hpp:75-78. *)
Definition heap_ctx (w : world) (c : nat) : outcome ctx :=
  match nth_error (w_ctxs w) c with Some (Some x) => Def x | _ => UB end.

(** As [get_matcher], MethodMockingContext.hpp:76. *)
Definition heap_matcher (w : world) (i : nat) : outcome imatcher :=
  match nth_error (w_matchers w) i with Some (Some x) => Def x | _ => UB end.

(** As [get_inv], Invocation.hpp:62-65. *)
Definition heap_inv (w : world) (i : nat) : outcome inv := of_option (nth_error (w_invs w) i).

(** _invocationMatcher->matches(invocation) of a method expression.  MethodMockingContext.hpp:132, and 113-120. *)
Definition ctx_accepts (w : world) (x : ctx) (v : inv) : outcome bool :=
  let! im := heap_matcher w (cx_matcher x) in
  im_matches (w_mem w) (cx_matcher x) im (iv_matcher v) (iv_args v).

(** Implementation::matches: MethodMockingContext.hpp:125-133 with isOfMethod
    (RecordedMethodBody.hpp:105-108). *)
Definition ctx_matches (w : world) (c i : nat) : outcome bool :=
  let! x := heap_ctx w c in
  let! b := bound_body w (cx_target x) in
  let! bd := heap_body w b in
  let! v := heap_inv w i in
  if Z.eqb (iv_method v) (bd_id bd) then ctx_accepts w x v else Def false.

(** MockImpl::getActualInvocations: MockImpl.hpp:47-53 with
    RecordedMethodBody.hpp:159-164. *)
Fixpoint bodies_invs (w : world) (bs : list (option nat)) (into : list nat) : outcome (list nat) :=
  match bs with
  | [] => Def into
  | None :: rest => bodies_invs w rest into
  | Some b :: rest =>
      let! bd := heap_body w b in
      bodies_invs w rest (uset_insert_all Nat.eqb (bd_invs bd) into)
  end.

(** Implementation::getActualInvocations: MethodMockingContext.hpp:113-120 with
    scanActualInvocations (RecordedMethodBody.hpp:152-157). *)
Fixpoint filter_invs (w : world) (x : ctx) (l : list nat) (into : list nat) : outcome (list nat) :=
  match l with
  | [] => Def into
  | i :: rest =>
      let! v := heap_inv w i in
      let! b := ctx_accepts w x v in
      filter_invs w x rest (if b then uset_insert Nat.eqb i into else into)
  end.

(** Invocation.hpp:56-58. *)
Definition is_verified (w : world) (i : nat) : bool :=
  match nth_error (w_invs w) i with Some v => iv_verified v | None => false end.

(** Invocation.hpp:44-46. *)
Definition ord_of (w : world) (i : nat) : Z :=
  match nth_error (w_invs w) i with Some v => iv_ord v | None => 0%Z end.

(** getActualInvocations of a source: ActualInvocationsSource.hpp:14-83.
    Unverified(l) decorates the aggregate of [l] (UnverifiedFunctor.hpp:45-52). *)
Fixpoint source_invs (w : world) (s : source) (into : list nat) : outcome (list nat) :=
  match s with
  | SMock m =>
      match nth_error (w_mocks w) m with
      | Some (Some k) => bodies_invs w (pt_mocks (mk_pt k)) into
      | _ => UB
      end
  | SCtx c =>
      let! x := heap_ctx w c in
      let! b := bound_body w (cx_target x) in
      let! bd := heap_body w b in
      filter_invs w x (bd_invs bd) into
  | SUnverified l =>
      let! tmp := (fix all (l : list source) (acc : list nat) : outcome (list nat) :=
                     match l with
                     | [] => Def acc
                     | s' :: r => let! acc' := source_invs w s' acc in all r acc'
                     end) l [] in
      let agg := uset_insert_all Nat.eqb (iter tmp) [] in
      Def (unverified_source Nat.eqb (is_verified w) iter agg into)
  end.

(** collectActualInvocations: SortInvocations.hpp:33-38. *)
Fixpoint sources_invs (w : world) (l : list source) (into : list nat) : outcome (list nat) :=
  match l with
  | [] => Def into
  | s :: r => let! into' := source_invs w s into in sources_invs w r into'
  end.

(** The source of a Verify statement: AggregateInvocationsSource
    (ActualInvocationsSource.hpp:60-66, 76-82), decorated by
    UnverifiedInvocationsSource (41-49) for Unverified.Verify. *)
Definition scope_invs (w : world) (unv : bool) (l : list source) : outcome (list nat) :=
  let! tmp := sources_invs w l [] in
  let agg := uset_insert_all Nat.eqb (iter tmp) [] in
  Def (if unv then unverified_source Nat.eqb (is_verified w) iter agg [] else agg).

(** The method expressions of a pattern.  getInvolvedMocks, Sequence.hpp:80-83, 111-113. *)
Definition pattern_ctxs (pattern : list (sequence nat)) : list nat :=
  flat_map (getInvolvedMocks (fun c => c)) pattern.

(** Every method expression of the pattern is alive and its method is bound.
    (The code looks at the expressions of a later sequence only if the earlier
    ones were found, or when it formats the failure; the model insists on all.)  MatchAnalysis.hpp:72-81. *)
Fixpoint pattern_live (w : world) (cs : list nat) : outcome unit :=
  match cs with
  | [] => Def tt
  | c :: r =>
      let! x := heap_ctx w c in
      let! _ := bound_body w (cx_target x) in
      pattern_live w r
  end.

(** MatchAnalysis::run: MatchAnalysis.hpp:16-39. *)
Definition analyse (w : world) (unv : bool) (l : list source) (pattern : list (sequence nat))
  : outcome (list nat * Z * list nat) :=
  let! s := scope_invs w unv l in
  let actual := sortByInvocationOrder (ord_of w) iter s in
  let! _ := pattern_live w (pattern_ctxs pattern) in
  let! (count, matched) := countMatches (ctx_matches w) pattern actual in
  Def (actual, count, matched).

(** markAsVerified: SequenceVerificationExpectation.hpp:100-104, Invocation.hpp:45-47. *)
Fixpoint mark_all (is : list nat) : M unit :=
  match is with
  | [] => ret tt
  | i :: rest =>
      let* x := get_inv i in
      let* _ := put_inv i (mkInv (iv_ord x) (iv_method x) (iv_ret x) (iv_args x) (iv_matcher x) true) in
      mark_all rest
  end.

(** The handler an event goes to: the context, or ThrowFalseEventHandler
    (ThrowFalseEventHandler.hpp:11-17), which throws [false]. *)
Definition report (quiet : bool) (e : event) : M unit :=
  if quiet then throw XFalse else handle_event e.

(** VerifyExpectation: SequenceVerificationExpectation.hpp:67-86,
    VerifyNoOtherInvocationsVerificationProgress.hpp:59-81. *)
Definition verify_exp (x : nat) (quiet : bool) : M unit :=
  let* e := get_exp x in
  match e with
  | ESeq unv l pattern ex =>
      if ex_done ex then ret tt
      else
        let ex' := mkExp (ex_count ex) (ex_any ex) true in
        let* _ := put_exp x (ESeq unv l pattern ex') in
        let* w := gets (fun w => w) in
        let* (actual, count, matched) := lift (analyse w unv l pattern) in
        let* v := lift (decide ex' count) in
        match v with
        | VOk => mark_all matched
        | VFail t expected n => report quiet (EvSequence t pattern actual expected n)
        end
  | ENoOther l done =>
      if done then ret tt
      else
        let* _ := put_exp x (ENoOther l true) in
        let* w := gets (fun w => w) in
        let* all := lift (sources_invs w l []) in
        let nonv := selectNonVerifiedInvocations Nat.eqb (is_verified w) iter all [] in
        match nonv with
        | [] => ret tt
        | _ =>
            report quiet (EvNoMore (sortByInvocationOrder (ord_of w) iter all)
                                   (sortByInvocationOrder (ord_of w) iter nonv))
        end
  end.

(** The conversion to bool: SequenceVerificationProgress.hpp:42-51,
    VerifyNoOtherInvocationsVerificationProgress.hpp:98-107. *)
Definition exp_bool (x : nat) : M val :=
  let* r := attempt (verify_exp x true) in
  match r with
  | inl _ => ret (VBool true)
  | inr XFalse => ret (VBool false)
  | inr e => throw e
  end.

(** The destructors: SequenceVerificationExpectation.hpp:15-20,
    VerifyNoOtherInvocationsVerificationProgress.hpp:25-31 (the storage is
    released even if the check throws). *)
Definition exp_free (x : nat) : M unit :=
  let* u := gets w_uncaught in
  guarded (if Nat.eqb u 0 then verify_exp x false else ret tt) (free_exp x).

(** Exactly, AtLeast, ...: SequenceVerificationProgress.hpp:73-122. *)
Definition exp_quant (x : nat) (q : quant) : M unit :=
  let* e := get_exp x in
  match e with
  | ESeq unv l pattern ex =>
      let* r := lift (set_quant ex q) in
      match r with
      | Some ex' => put_exp x (ESeq unv l pattern ex')
      | None => throw XInvalid
      end
  | ENoOther _ _ => none   (* does not compile *)
  end.

(** operator* throws std::invalid_argument for a factor below 1:
    Sequence.hpp:133-143. *)
Fixpoint seq_valid (s : sequence nat) : bool :=
  match s with
  | SLeaf _ => true
  | SConcat l r => seq_valid l && seq_valid r
  | SRepeat s' n => seq_valid s' && (0 <? n)%Z
  end.

(** The mocks of the method expressions of a pattern: collectInvolvedMocks,
    SortInvocations.hpp:69-74. *)
Fixpoint involved (cs : list nat) : M (list source) :=
  match cs with
  | [] => ret []
  | c :: r =>
      let* x := get_ctx c in
      let* l := involved r in
      ret (SMock (target_mock (cx_target x)) :: l)
  end.

(** Verify(...): VerifyFunctor.hpp:32-43; Unverified.Verify(...):
    UnverifiedFunctor.hpp:20-34; Using(...).Verify(...): UsingFunctor.hpp:30-37 with
    UsingProgress.hpp:32-38. *)
Definition exp_new_seq (s : scope) (pattern : list (sequence nat)) : M nat :=
  if forallb seq_valid pattern then
    match s with
    | ScInvolved => let* l := involved (pattern_ctxs pattern) in new_exp (ESeq false l pattern Expectation.exp_new)
    | ScUnverified => let* l := involved (pattern_ctxs pattern) in new_exp (ESeq true l pattern Expectation.exp_new)
    | ScUsing l => new_exp (ESeq false l pattern Expectation.exp_new)
    end
  else throw XInvalid.

(** *** Whole statements *)
(** How the model numbers what operations make; models no lines of /repo. *)

Definition id_val (n : nat) : val := VInt (Z.of_nat n).

(** The method expressions of a statement, created from left to right.  api_macros.hpp:28-50, MockImpl.hpp:92-100,
    setInvocationMatcher MethodMockingContext.hpp:165-168. *)
Definition ctx_of (t : target) (im : option imatcher) : M nat :=
  let* c := ctx_new t in
  match im with
  | Some im' => let* _ := ctx_cond c im' in ret c
  | None => ret c
  end.

(** The ends of temporaries, MethodMockingContext.hpp:94-101. *)
Fixpoint free_ctxs (cs : list nat) : M unit :=
  match cs with
  | [] => ret tt
  | c :: r => let* _ := ctx_free c in free_ctxs r
  end.

(** [done]: those already there, newest first; they are released in that order
    when the statement is over or when a later one fails.  MethodMockingContext.hpp:94-101; the order is that of the
    language. *)
Fixpoint with_ctxs (ts : list (target * option imatcher)) (done : list nat)
         (body : list nat -> M val) : M val :=
  match ts with
  | [] => guarded (body (rev done)) (free_ctxs done)
  | (t, im) :: r =>
      let* x := attempt (ctx_of t im) in
      match x with
      | inl c => with_ctxs r (c :: done) body
      | inr e => let* _ := free_ctxs done in throw e
      end
  end.

(** Positions replaced by the method expressions standing there; a position
    without one is not a program: no answer.  Sequence.hpp:48-143. *)
Fixpoint place_seq (cs : list nat) (s : sequence nat) : option (sequence nat) :=
  match s with
  | SLeaf i => match nth_error cs i with Some c => Some (SLeaf c) | None => None end
  | SConcat l r =>
      match place_seq cs l, place_seq cs r with
      | Some l', Some r' => Some (SConcat l' r')
      | _, _ => None
      end
  | SRepeat s' n => match place_seq cs s' with Some x => Some (SRepeat x n) | None => None end
  end.

(** Models no lines of /repo (lists of the above). *)
Fixpoint place_all {A} (f : A -> option A) (l : list A) : option (list A) :=
  match l with
  | [] => Some []
  | x :: r =>
      match f x, place_all f r with
      | Some y, Some ys => Some (y :: ys)
      | _, _ => None
      end
  end.

(** ActualInvocationsSource.hpp:14-83; the operand of Using, UsingFunctor.hpp:31-38. *)
Fixpoint place_source (cs : list nat) (s : source) : option source :=
  match s with
  | SMock m => Some (SMock m)
  | SCtx i => match nth_error cs i with Some c => Some (SCtx c) | None => None end
  | SUnverified l =>
      match (fix all (l : list source) : option (list source) :=
               match l with
               | [] => Some []
               | s' :: r =>
                   match place_source cs s', all r with
                   | Some y, Some ys => Some (y :: ys)
                   | _, _ => None
                   end
               end) l with
      | Some l' => Some (SUnverified l')
      | None => None
      end
  end.

(** VerifyFunctor.hpp:32-43, UsingFunctor.hpp:31-38, UnverifiedFunctor.hpp:20-34. *)
Definition place_scope (cs : list nat) (s : scope) : option scope :=
  match s with
  | ScUsing l => match place_all (place_source cs) l with Some l' => Some (ScUsing l') | None => None end
  | _ => Some s
  end.

(** The chained quantifiers and conversions; result: the last conversion.  SequenceVerificationProgress.hpp:42-122.
    *)
Fixpoint run_steps (x : nat) (steps : list vstep) (last : val) : M val :=
  match steps with
  | [] => ret last
  | VsQuant q :: r => let* _ := exp_quant x q in run_steps x r last
  | VsBool :: r => let* b := exp_bool x in run_steps x r b
  end.

(** A verification object made, used and released within one statement.  If a
    step throws, the object is released while that exception is in flight and
    checks nothing.  SequenceVerificationExpectation.hpp:15-20, VerifyFunctor.hpp:32-43. *)
Definition verify_stmt (mk : M nat) (steps : list vstep) : M val :=
  let* x := mk in
  let* r := attempt (run_steps x steps VVoid) in
  match r with
  | inl v => let* _ := exp_free x in ret v
  | inr e => let* _ := free_exp x in throw e
  end.

(** FakeFunctor.hpp:31-35, SpyFunctor.hpp:40-44, one after the other. *)
Fixpoint each (f : nat -> M unit) (cs : list nat) : M unit :=
  match cs with
  | [] => ret tt
  | c :: r => let* _ := f c in each f r
  end.

(** When and assignment take one method expression, Fake and Spy any number
    (FakeFunctor.hpp:31-35, SpyFunctor.hpp:40-44). *)
Definition run_stmt (s : stmt) (cs : list nat) : M val :=
  match s with
  | SWhen rs interrupt =>
      match cs with [c] => let* _ := do_when c rs interrupt in ret VVoid | _ => none end
  | SFake => let* _ := each do_fake cs in ret VVoid
  | SSpy forward => let* _ := each (fun c => do_spy c forward) cs in ret VVoid
  | SAssign f =>
      match cs with [c] => let* _ := do_assign c f in ret VVoid | _ => none end
  | SVerify sc pattern steps =>
      match place_scope cs sc, place_all (place_seq cs) pattern with
      | Some sc', Some pattern' => verify_stmt (exp_new_seq sc' pattern') steps
      | _, _ => none
      end
  | SNoOther l steps =>
      match place_all (place_source cs) l with
      | Some l' => verify_stmt (new_exp (ENoOther l' false)) steps
      | None => none
      end
  end.

(** *** Operations *)
(** The result of an operation as a value; models no lines of /repo. *)
Definition unit_val {A} (m : M A) : M val := let* _ := m in ret VVoid.
(** The same for a number; models no lines of /repo. *)
Definition nat_val (m : M nat) : M val := let* n := m in ret (id_val n).

(** The entry points: calls (the compiler's), Mock.hpp:43-47 (OMock, OSpyMock), 49-51 (OGet), 61-63 (OReset), 65-67
    (OClear), MockImpl.hpp:40-42 (OMockDestroy); api_macros.hpp:28-50 (OCtx), MethodMockingContext.hpp:94-101
    (OCtxFree), 165-168 (OCond); WhenFunctor.hpp:64-87, FakeFunctor.hpp:31-35, SpyFunctor.hpp:40-44,
    MethodMockingContext.hpp:321-335 (OWhen, OFake, OSpy, OAssign); VerifyFunctor.hpp:32-43 (OExp),
    VerifyNoOtherInvocationsFunctor.hpp:37-44 (ONoOther), SequenceVerificationProgress.hpp:42-122 (OQuant, OBool),
    SequenceVerificationExpectation.hpp:15-20 (OExpFree); FakeitContext.hpp:60-66 (OListener, OClearListeners),
    DefaultFakeit.hpp:48-54 (OAdapter).  The others are code of the user. *)
Definition step (o : op) : M val :=
  match o with
  | OCall o slot args => call_object o slot args
  | ONewObj c =>
      let* d := class_of c in
      nat_val (new_obj (mkObj c c (repeat (VInt 0) (cl_cells d))))
  | OFreeObj o => unit_val (free_obj o)
  (* What typeid of an object reads: the entry before the first method of the table
     it points to (the layout gcc/VirtualTable.hpp:141-149 imitates). *)
  | OTypeid o =>
      let* (_, vt) := obj_table o in
      let* x := lift (vt_get vt (-1)) in
      match x with WTypeInfo c => ret (id_val c) | _ => ub end
  | OGetMember o i =>
      let* x := get_obj o in
      match nth_error (ob_data x) i with Some v => ret v | None => ub end
  | OSetMember o i v =>
      let* x := get_obj o in
      if Nat.ltb i (length (ob_data x)) then
        unit_val (put_obj o (mkObj (ob_vptr x) (ob_class x) (upd (ob_data x) i v)))
      else ub
  | ORead a => let* m := gets w_mem in lift (load m a)
  | OWrite a v =>
      let* m := gets w_mem in
      let* m' := lift (store m a v) in
      unit_val (modify (fun w => set_mem w m'))
  | OAlloc v =>
      let* m := gets w_mem in
      let* _ := modify (fun w => set_mem w (w_mem w ++ [Some v])) in
      ret (id_val (length m))
  | OFreeMem a =>
      let* m := gets w_mem in
      let* _ := lift (load m a) in
      unit_val (modify (fun w => set_mem w (upd (w_mem w) a None)))
  | OMock c => nat_val (mock_new c)
  | OSpyMock c o => nat_val (mock_spy c o)
  | OGet m => let* k := get_mock m in ret (id_val (mk_obj k))
  | OMockDestroy m => unit_val (mock_destroy m)
  | OReset m => unit_val (mock_reset m)
  | OClear m => unit_val (mock_clear m)
  | OCtx t => nat_val (ctx_new t)
  | OCond c im => unit_val (ctx_cond c im)
  | OCtxFree c => unit_val (ctx_free c)
  | OWhen c rs interrupt => unit_val (do_when c rs interrupt)
  | OFake c => unit_val (do_fake c)
  | OSpy c forward => unit_val (do_spy c forward)
  | OAssign c f => unit_val (do_assign c f)
  | OExp s pattern => nat_val (exp_new_seq s pattern)
  | ONoOther l => nat_val (new_exp (ENoOther l false))
  | OQuant x q => unit_val (exp_quant x q)
  | OBool x => exp_bool x
  | OExpFree x => unit_val (exp_free x)
  | OStmt ts s => with_ctxs ts [] (run_stmt s)
  | OListener l => unit_val (modify (fun w => set_fctx w (addEventHandler (w_fctx w) l)))
  | OClearListeners => unit_val (modify (fun w => set_fctx w (clearEventHandlers (w_fctx w))))
  | OAdapter (Some l) => unit_val (modify (fun w => set_fctx w (setTestingFrameworkAdapter (w_fctx w) l)))
  | OAdapter None => unit_val (modify (fun w => set_fctx w (resetTestingFrameworkAdapter (w_fctx w))))
  | OUnwinding o' =>
      let* _ := modify (fun w => set_uncaught w (S (w_uncaught w))) in
      let* _ := attempt (rec o') in
      unit_val (modify (fun w => set_uncaught w (pred (w_uncaught w))))
  end.

End Open.

(** Operations with at most [fuel] levels of nesting (calls made by bodies of
    calls, and so on).  Models no lines of /repo. *)
Fixpoint exec (fuel : nat) (o : op) : M val :=
  match fuel with
  | O => none
  | S f => step (exec f) o
  end.

(** A test: a program run outside of any method.  Models no lines of /repo. *)
Definition exec_prog (fuel : nat) (p : prog) : M val := run_prog (exec fuel) (FrStack 0 []) p.

(** One after the other; models no lines of /repo. *)
Fixpoint exec_all (fuel : nat) (os : list op) : M (list (val + exn)) :=
  match os with
  | [] => ret []
  | o :: r =>
      let* x := attempt (exec fuel o) in
      let* xs := exec_all fuel r in
      ret (x :: xs)
  end.

(** ** The start of the process: the compiler's table of class number [c] is table
    number [c] (GCC: offset to top, type_info, entries).  The layout that gcc/VirtualTable.hpp:141-149 imitates. *)
Definition class_table (c : nat) (d : class_desc) : vtable word :=
  mkVt ([WNull; WTypeInfo c] ++ map (fun s => WCode (COrig c s)) (seq 0 (cl_size d))) 2.

(** Made by the compiler; models no lines of /repo. *)
Definition class_tables : list (option (vtable word)) :=
  map (fun p => Some (class_table (fst p) (snd p))) (combine (seq 0 (length classes)) classes).

(** Nothing has happened; the counters are zero (Invocation.hpp:23-26, DomainObjects.hpp:27-30). *)
Definition init_world (m : mem) : world :=
  mkWorld class_tables [] [] [] [] [] [] [] [] m 0 0 0 fctx_new [] 0.

End Env.
