(** * Values given to a mock, when they are destroyed

    A mock keeps values of the user: the arguments that were passed by value, moved into the
    recorded invocations (ActualInvocation.hpp:36-40), and what the functors of the answers
    captured.  They are destroyed by Mock::Reset, Mock::ClearInvocationHistory and by the
    destructor of the mock, in the middle of the library's work, and their destructors may
    use mocked objects: call methods, or delete the object that they own (MockImpl.hpp:108-119,
    "any recorded arguments in the proxy that capture the fakeObject itself").

    Modelled: MockImpl.hpp:40-76 (destructor, reset, clear), DynamicProxy.hpp:79-98
    (detach, destructor, Reset) with the members of both in the order of their declaration,
    InvocationHandlers::getInvocatoinHandlerPtrById (DynamicProxy.hpp:55-59),
    RecordedMethodBody.hpp:59-63, 98-99, 122-150.

    Simplifications: a method either answers every call or none (which answer it is does not
    matter here); calls made by destructors have no arguments; destructors of values are
    noexcept, as destructors are unless declared otherwise, so an exception that leaves one
    ends the program; data members of mocks are left out; the destructors make no mocks,
    statements or verifications. *)
From Coq Require Import Bool List Arith.
Import ListNotations.
Open Scope nat_scope.

(** What the destructor of a value does with mocked objects: call method [k] of the object of
    mock [m], or delete that object.  Models no lines of /repo: code of the user. *)
Inductive act := Call (m k : nat) | Delete (m : nat).
(** Models no lines of /repo: an object of the user. *)
Definition value := list act.

(** RecordedMethodBody: whether a call finds an answer; the values of its answers, and those
    of its recorded calls.  RecordedMethodBody.hpp:62-63. *)
Record body := mkBody { b_answers : bool; b_held : list value; b_calls : list value }.

(** An element of _methodMocks (a shared_ptr): empty, a body, or destroyed or about to be.  DynamicProxy.hpp:213. *)
Inductive slot := Empty | Body (b : body) | Dead.

(** An entry of the table that the object uses: of the class, or a proxy.  DynamicProxy.hpp:74, 222-232. *)
Inductive entry := Orig | Bound.

(** A mock. [Detached]: its destructor has given the object its first table back.  MockImpl.hpp:40-42, 108-120. *)
Inductive stage := Attached | Detached | Gone.
(** MockImpl.hpp:118-120, DynamicProxy.hpp:209-216; the members that matter here. *)
Record mock := mkMock {
  mk_stage : stage;
  mk_own : bool;            (* the library made the object *)
  mk_dtor : option nat;     (* the entry of the virtual destructor *)
  mk_entries : list entry;
  mk_slots : list slot;
  mk_clearing : option nat  (* the method whose calls are being cleared *)
}.

(** What can be observed: a call answered by a mock, the code of the class run.  RecordedMethodBody.hpp:126-150. *)
Inductive seen := Answered (m k : nat) | Original (m k : nat).
(** The mocks of a test and what was seen so far: MockImpl.hpp:118-120, RecordedMethodBody.hpp:62-63. *)
Record world := mkWorld { w_mocks : list mock; w_seen : list seen }.

(** [Ends]: std::terminate.  A destructor that throws ends the program: RecordedMethodBody.hpp:98, 145-149. *)
Inductive result := Ok (w : world) | Ends | UB.

(** Sequencing. Models no lines of /repo. *)
Definition bind (r : result) (f : world -> result) : result :=
  match r with Ok w => f w | Ends => Ends | UB => UB end.

(** Replacing an element. Models no lines of /repo. *)
Fixpoint upd {A} (l : list A) (i : nat) (x : A) : list A :=
  match l, i with
  | [], _ => []
  | _ :: r, O => x :: r
  | y :: r, S i => y :: upd r i x
  end.

(** Bookkeeping of the model. Models no lines of /repo. *)
Definition set_mock (w : world) (m : nat) (k : mock) : world := mkWorld (upd (w_mocks w) m k) (w_seen w).
(** Bookkeeping of the model. Models no lines of /repo. *)
Definition see (w : world) (x : seen) : world := mkWorld (w_mocks w) (w_seen w ++ [x]).
(** _methodMocks[i] = s: DynamicProxy.hpp:213, 224, 230. *)
Definition set_slot (k : mock) (i : nat) (s : slot) : mock :=
  mkMock (mk_stage k) (mk_own k) (mk_dtor k) (mk_entries k) (upd (mk_slots k) i s) (mk_clearing k).
(** MockImpl.hpp:40-42. *)
Definition set_stage (k : mock) (t : stage) : mock :=
  mkMock t (mk_own k) (mk_dtor k) (mk_entries k) (mk_slots k) (mk_clearing k).
(** Which body is in the middle of clear(): RecordedMethodBody.hpp:122-124. *)
Definition set_clearing (k : mock) (c : option nat) : mock :=
  mkMock (mk_stage k) (mk_own k) (mk_dtor k) (mk_entries k) (mk_slots k) c.

(** See above; 122-124. *)
Definition is_clearing (k : mock) (i : nat) : bool :=
  match mk_clearing k with Some j => Nat.eqb i j | None => false end.

(** The method of an entry that is not a proxy. An object made by the library: unmocked, which
    throws (MockImpl.hpp:273-282), or unmockedDtor, which does nothing (271). Another object: its
    class's code. *)
Definition original (w : world) (m : nat) (k : mock) (i : nat) : result :=
  if mk_own k
  then match mk_dtor k with
       | Some d => if Nat.eqb i d then Ok w else Ends
       | None => Ends
       end
  else Ok (see w (Original m i)).

(** A call of entry [i] of the object of mock [m], made in a destructor. A proxy copies the
    element of _methodMocks (DynamicProxy.hpp:55-59), which must be alive, and hands the call to the
    body: it is recorded (RecordedMethodBody.hpp:134-138), for which the vector must not be in the
    middle of clear(), and answered; or it throws (145-149). *)
Definition enter (w : world) (m i : nat) : result :=
  match nth_error (w_mocks w) m with
  | None => UB
  | Some k =>
      match nth_error (mk_entries k) i with
      | None => UB
      | Some e =>
          match mk_stage k, e with
          | Gone, _ => if mk_own k then UB else original w m k i
          | Detached, _ | Attached, Orig => original w m k i
          | Attached, Bound =>
              match nth_error (mk_slots k) i with
              | Some (Body b) =>
                  if b_answers b
                  then if is_clearing k i then UB
                       else Ok (see (set_mock w m (set_slot k i (Body (mkBody true (b_held b) (b_calls b ++ [[]]))))) (Answered m i))
                  else Ends
              | _ => UB
              end
          end
      end
  end.

(** One step of a destructor. Deleting the object goes through the entry of the virtual
    destructor; without one it is undefined.  MethodProxyCreator.hpp:44-51, DynamicProxy.hpp:33-42, 55-59,
    RecordedMethodBody.hpp:126-150, gcc/VirtualTable.hpp:95-115. *)
Definition step (w : world) (a : act) : result :=
  match a with
  | Call m i => enter w m i
  | Delete m =>
      match nth_error (w_mocks w) m with
      | Some k => match mk_dtor k with Some d => enter w m d | None => UB end
      | None => UB
      end
  end.

(** One after the other, in a destructor of a value (code of the user, run at RecordedMethodBody.hpp:62-63). *)
Fixpoint steps (w : world) (l : list act) : result :=
  match l with [] => Ok w | a :: r => bind (step w a) (fun w => steps w r) end.

(** One after the other: the destructors of the vectors at RecordedMethodBody.hpp:62-63. *)
Fixpoint destroy_values (w : world) (l : list value) : result :=
  match l with [] => Ok w | v :: r => bind (steps w v) (fun w => destroy_values w r) end.

(** The elements of a vector are destroyed from the first to the last (libstdc++, MSVC) or from
    the last to the first (libc++).  The vectors at RecordedMethodBody.hpp:62-63. *)
Definition destroy_vector (forward : bool) (w : world) (l : list value) : result :=
  destroy_values w (if forward then l else rev l).

(** ~RecordedMethodBody: the members in reverse order, _actualInvocations before
    _invocationHandlers (RecordedMethodBody.hpp:59-63, 98-99). *)
Definition destroy_body (forward : bool) (w : world) (b : body) : result :=
  bind (destroy_vector forward w (b_calls b)) (fun w => destroy_vector forward w (b_held b)).

(** An element of _methodMocks is destroyed: the last owner of the body deletes it.  The shared_ptr of
    DynamicProxy.hpp:213, ~RecordedMethodBody at RecordedMethodBody.hpp:98-99. *)
Definition destroy_slot (forward : bool) (m i : nat) (w : world) : result :=
  match nth_error (w_mocks w) m with
  | None => UB
  | Some k =>
      match nth_error (mk_slots k) i with
      | Some (Body b) => destroy_body forward (set_mock w m (set_slot k i Dead)) b
      | Some Empty => Ok (set_mock w m (set_slot k i Dead))
      | _ => UB
      end
  end.

(** One after the other: the vector _methodMocks at DynamicProxy.hpp:213, 92. *)
Fixpoint destroy_slots (forward : bool) (m : nat) (l : list nat) (w : world) : result :=
  match l with [] => Ok w | i :: r => bind (destroy_slot forward m i w) (destroy_slots forward m r) end.

(** The same order for the elements of _methodMocks (DynamicProxy.hpp:213). *)
Definition order (forward : bool) (n : nat) : list nat := if forward then seq 0 n else rev (seq 0 n).

(** _methodMocks with all elements destroyed.  DynamicProxy.hpp:92, and the destructor of the vector at 213. *)
Definition empty_slots (forward : bool) (m : nat) (w : world) : result :=
  match nth_error (w_mocks w) m with
  | None => UB
  | Some k => destroy_slots forward m (order forward (length (mk_slots k))) w
  end.

(** ~MockImpl (MockImpl.hpp:40-42, 118-120) and its members: the object gets its first table back; then
    _proxy with _methodMocks; then the object, if the library made it (its destructor is that of
    FakeObject, which calls nothing). *)
Definition destroy_mock (forward : bool) (m : nat) (w : world) : result :=
  match nth_error (w_mocks w) m with
  | None => UB
  | Some k =>
      bind (empty_slots forward m (set_mock w m (set_stage k Detached))) (fun w =>
        match nth_error (w_mocks w) m with
        | None => UB
        | Some k => Ok (set_mock w m (set_stage k Gone))
        end)
  end.

(** Mock::Reset (MockImpl.hpp:63-66, DynamicProxy.hpp:91-98): _methodMocks is emptied and filled with
    empty elements; only then the first table is copied into the one in use. *)
Definition reset (forward : bool) (m : nat) (w : world) : result :=
  bind (empty_slots forward m w) (fun w =>
    match nth_error (w_mocks w) m with
    | None => UB
    | Some k => Ok (set_mock w m (mkMock (mk_stage k) (mk_own k) (mk_dtor k)
                                         (map (fun _ => Orig) (mk_entries k)) (map (fun _ => Empty) (mk_slots k)) (mk_clearing k)))
    end).

(** RecordedMethodBody::clear (RecordedMethodBody.hpp:122-124) for the method [i]. *)
Definition clear_slot (forward : bool) (m i : nat) (w : world) : result :=
  match nth_error (w_mocks w) m with
  | None => UB
  | Some k =>
      match nth_error (mk_slots k) i with
      | Some (Body b) =>
          bind (destroy_vector forward (set_mock w m (set_clearing k (Some i))) (b_calls b)) (fun w =>
            match nth_error (w_mocks w) m with
            | None => UB
            | Some k => Ok (set_mock w m (set_clearing (set_slot k i (Body (mkBody (b_answers b) (b_held b) []))) None))
            end)
      | Some Empty => Ok w
      | _ => UB
      end
  end.

(** MockImpl.hpp:70-74, RecordedMethodBody.hpp:122-124. *)
Fixpoint clear_slots (forward : bool) (m : nat) (l : list nat) (w : world) : result :=
  match l with [] => Ok w | i :: r => bind (clear_slot forward m i w) (clear_slots forward m r) end.

(** Mock::ClearInvocationHistory (MockImpl.hpp:68-76): method by method. *)
Definition clear_history (forward : bool) (m : nat) (w : world) : result :=
  match nth_error (w_mocks w) m with
  | None => UB
  | Some k => clear_slots forward m (seq 0 (length (mk_slots k))) w
  end.
