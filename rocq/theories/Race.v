(** Model of the memory accesses of calls, stubbing statements and verifications on mocks:
    MethodProxyCreator::methodProxy (include/mockutils/MethodProxyCreator.hpp:44-56),
    InvocationHandlers (include/mockutils/DynamicProxy.hpp:33-59),
    RecordedMethodBody::handleMethodInvocation (include/fakeit/RecordedMethodBody.hpp:71-81,
    126-150), ActionSequence (include/fakeit/ActionSequence.hpp:40-54), Repeat
    (include/fakeit/Action.hpp:32-55), bind (DynamicProxy.hpp:222-226).

    Left out: memory that only the thread itself can reach (the invocation object it makes,
    its stack), constant data (type information, conditions without state), and what the
    user's code touches beyond the given list of accesses. *)
From Coq Require Import Bool ZArith List.
From Verif Require Import Spec_Race.
Import ListNotations.
Open Scope nat_scope.

(** Locations: per mock [m], entry [k] and stubbing [i] of a method.  FakeObject.hpp:32, gcc/VirtualTable.hpp:27-41,
    DynamicProxy.hpp:213-215, RecordedMethodBody.hpp:60-63, ActionSequence.hpp:87-88, Action.hpp:54,
    Invocation.hpp:25, 65, DomainObjects.hpp:29, FakeitContext.hpp:74. *)
Inductive loc : Type :=
| LVptr (m : nat)              (* the object's table pointer *)
| LEntry (m k : nat)           (* an entry of the mock's table *)
| LCookie (m : nat)            (* its first cookie *)
| LOffset (m k : nat)          (* an element of _offsets *)
| LBody (m k : nat)            (* an element of _methodMocks *)
| LBodyCount (m k : nat)       (* the reference count behind it (atomic) *)
| LOrdinal                     (* the process-wide invocation counter (atomic) *)
| LStubs (m k : nat)           (* the vector _invocationHandlers *)
| LStubCount (m k i : nat)     (* the reference count of a stubbing (atomic) *)
| LHistory (m k : nat)         (* the vector _actualInvocations *)
| LInvCount (m k : nat)        (* the reference counts of its elements (atomic), as one *)
| LMarks (m k : nat)           (* the marks of its elements as verified, as one *)
| LActions (m k i : nat)       (* _recordedActions and _usedActions of a stubbing *)
| LActionCount (m k i : nat)   (* the reference counts of its actions (atomic) *)
| LTimes (m k i : nat)         (* Repeat::times of its first action *)
| LName (m k : nat)            (* the method's name *)
| LMethodNo                    (* the process-wide method counter (atomic) *)
| LContext                     (* the listeners and the adapter *)
| LUser (n : nat).             (* memory of the user's code *)

(** The action a call finds: one that is counted (and [last]: used up by this call), one
    that lasts, one of Spy, which calls the original method, or none left.  Action.hpp:32-89, MockImpl.hpp:183-203,
    ActionSequence.hpp:40-54. *)
Inductive found : Type := FCounted (last : bool) | FLasting | FSpied | FNoMore.

(** A call of an already mentioned method, entry [c_entry] of mock [c_mock]: the stubbings
    that are tried, newest first, the one that accepts with the state of its actions, and
    what the action does to memory of the user.  RecordedMethodBody.hpp:71-81, 126-150. *)
Record call : Type := mkCallInfo {
  c_mock : nat;
  c_entry : nat;
  c_tried : list nat;
  c_found : option (nat * found);
  c_user : list (access loc)
}.

(** methodProxyX, methodProxy, getInvocatoinHandlerPtrById: MethodProxyCreator.hpp:44-56,
    DynamicProxy.hpp:33-42 (the search stops at the entry of the method, whose id is
    distinct from the others) and 55-59 (a shared_ptr is copied and released). *)
Definition lookup (m k : nat) : list (access loc) :=
  [Rd (LVptr m); Rd (LEntry m k); Rd (LVptr m); Rd (LCookie m)] ++
  map (fun j => Rd (LOffset m j)) (seq 0 (S k)) ++
  [Rd (LBody m k); At (LBodyCount m k); At (LBodyCount m k)].

(** ActionSequence::handleMethodInvocation: ActionSequence.hpp:40-54, with Repeat::invoke and
    isDone, Action.hpp:43-50.  Spy: MockImpl.hpp:183-192 with createRaiiMethodSwapper,
    DynamicProxy.hpp:177-187, which writes the table entry and writes it back. *)
Definition act (m k i : nat) (f : found) (user : list (access loc)) : list (access loc) :=
  [Rd (LActions m k i); At (LActionCount m k i)] ++
  match f with
  | FCounted last =>
      [Rd (LTimes m k i); Wr (LTimes m k i)] ++ user ++ [Rd (LTimes m k i)] ++
      (if last then [Wr (LActions m k i); At (LActionCount m k i); Wr (LActions m k i)] else [])
  | FLasting => user
  | FSpied => [Rd (LEntry m k); Wr (LEntry m k); Rd (LVptr m); Rd (LEntry m k)] ++ user ++ [Wr (LEntry m k)]
  | FNoMore => []
  end ++ [At (LActionCount m k i)].

(** FakeitContext::handle and format on a complaint (FakeitContext.hpp:24-31, 45-48); the
    text has the name of the method. *)
Definition complain (m k : nat) : list (access loc) := [Rd LContext; Rd (LName m k)].

(** handleMethodInvocation: RecordedMethodBody.hpp:126-150. *)
Definition handle (c : call) : list (access loc) :=
  let m := c_mock c in let k := c_entry c in
  [At LOrdinal; Rd (LStubs m k)] ++
  flat_map (fun i => [At (LStubCount m k i); At (LStubCount m k i)]) (c_tried c) ++
  match c_found c with
  | Some (i, f) =>
      [Rd (LHistory m k); Wr (LHistory m k)] ++ act m k i f (c_user c) ++
      match f with FNoMore => complain m k | _ => [] end ++ [At (LInvCount m k)]
  | None => complain m k
  end.

(** MethodProxyCreator.hpp:44-56. *)
Definition call_accesses (c : call) : list (access loc) := lookup (c_mock c) (c_entry c) ++ handle c.

(** [Method(mock, f)] for entry [k] of mock [m].  [first]: the method was not mentioned
    before, so it gets a body and is bound (DynamicProxy.hpp:222-226); then its body is looked
    up (MockImpl.hpp:314-323, DynamicProxy.hpp:127-131, 138-143, 252-255) and given its name
    (api_macros.hpp:31-32, RecordedMethodBody.hpp:166-169). *)
Definition mention_accesses (m k : nat) (first : bool) : list (access loc) :=
  [Rd (LBody m k); At (LBodyCount m k); At (LBodyCount m k)] ++
  (if first then [At LMethodNo; Rd (LVptr m); Wr (LEntry m k); Wr (LBody m k); Wr (LOffset m k)] else []) ++
  [Rd (LBody m k); At (LBodyCount m k); At (LBodyCount m k); Wr (LName m k)].

(** A statement that adds a stubbing to a method it mentions: RecordedMethodBody.hpp:110-115. *)
Definition stub_accesses (m k : nat) (first : bool) : list (access loc) :=
  mention_accesses m k first ++ [Rd (LStubs m k); Wr (LStubs m k)].

(** A verification in which mock [m] is involved; its table has [size] entries, [ks] are the
    methods mentioned so far, all of which are looked at, whichever of them is verified:
    MockImpl.hpp:47-53, getMethodMocks (DynamicProxy.hpp:162-170), getActualInvocations
    (RecordedMethodBody.hpp:159-164, which copies every shared_ptr) and the marks
    (SequenceVerificationExpectation.hpp:85, 100-104; any of the methods may be concerned).
    A complaint is left out. *)
Definition verify_accesses (m : nat) (size : nat) (ks : list nat) : list (access loc) :=
  flat_map (fun k => [Rd (LBody m k); At (LBodyCount m k); At (LBodyCount m k)]) (seq 0 size) ++
  flat_map (fun k => [Rd (LHistory m k); At (LInvCount m k); At (LInvCount m k)]) ks ++
  map (fun k => Wr (LMarks m k)) ks.

(** What threads do.  RecordedMethodBody.hpp:126-150, api_macros.hpp:31-32, RecordedMethodBody.hpp:110-115,
    SequenceVerificationExpectation.hpp:67-86. *)
Inductive t_op : Type :=
| TCall (c : call)
| TMention (m k : nat) (first : bool)
| TStub (m k : nat) (first : bool)
| TVerify (m size : nat) (ks : list nat).

(** As cited at the functions used, from MethodProxyCreator.hpp:44-56 on. *)
Definition op_accesses (o : t_op) : list (access loc) :=
  match o with
  | TCall c => call_accesses c
  | TMention m k first => mention_accesses m k first
  | TStub m k first => stub_accesses m k first
  | TVerify m size ks => verify_accesses m size ks
  end.
(** One operation after the other; code of the user. *)
Definition thread_accesses (os : list t_op) : list (access loc) := flat_map op_accesses os.
