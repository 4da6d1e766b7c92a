(** Model of InvocationHandlers and of the bookkeeping vectors of DynamicProxy
    (include/mockutils/DynamicProxy.hpp), and of the id constants passed by
    MockImpl / DynamicProxy to MethodProxyCreator. *)
From Coq Require Import Bool ZArith Lia List.
From Verif Require Import Base CInt.
Import ListNotations.
Open Scope Z_scope.

Section Proxy.
(** [H]: pointers to recorded method bodies. *)
Context {H : Type}.

(** _methodMocks and _offsets: DynamicProxy.hpp:213-215. *)
Record ptables : Type := mkPt { pt_mocks : list (option H); pt_offsets : list Z }.

(** Constructor: DynamicProxy.hpp:71-73 with InvocationHandlers' constructor
    45-53: every offset is set to numeric_limits<int>::max(). *)
Definition pt_new (size : nat) : ptables :=
  mkPt (repeat None size) (repeat int_max size).

(** Reset: DynamicProxy.hpp:91-97: both vectors are emptied and resized; resize
    value-initialises, so every offset becomes 0. *)
Definition pt_reset (size : nat) : ptables :=
  mkPt (repeat None size) (repeat 0 size).

(** getOffset: DynamicProxy.hpp:33-42: linear search; the size if not found. *)
Fixpoint offset_of (offsets : list Z) (id : Z) : nat :=
  match offsets with
  | [] => O
  | o :: rest => if o =? id then O else S (offset_of rest id)
  end.

(** getInvocatoinHandlerPtrById: DynamicProxy.hpp:55-59: no bounds check.  The
    pointer found may be null ([Def None]). *)
Definition handler_by_id (t : ptables) (id : Z) : outcome (option H) :=
  of_option (nth_error (pt_mocks t) (offset_of (pt_offsets t) id)).

(** isBinded: DynamicProxy.hpp:252-255. *)
Definition isBinded (t : ptables) (offset : nat) : outcome bool :=
  let! p := of_option (nth_error (pt_mocks t) offset) in
  Def (match p with Some _ => true | None => false end).

(** The vector part of bind / bindDtor: DynamicProxy.hpp:224-225, 230-231. *)
Definition pt_bind (t : ptables) (offset : nat) (id : Z) (h : H) : outcome ptables :=
  if Nat.ltb offset (length (pt_mocks t)) && Nat.ltb offset (length (pt_offsets t)) then
    Def (mkPt (upd (pt_mocks t) offset (Some h)) (upd (pt_offsets t) offset id))
  else UB.

(** The id under which a method is bound: stubMethod binds with [id + 1]
    (DynamicProxy.hpp:108) where [id] is the __COUNTER__ value of the macro
    (api_macros.hpp), stubDtor binds with 0 (121-123). *)
Definition method_id (counter : Z) : Z := to_uint32 (counter + 1).
(** createMethodProxy<0>, DynamicProxy.hpp:121, 123. *)
Definition dtor_id : Z := 0.

(** methodProxy: MethodProxyCreator.hpp:44-51: the handler found is called; a
    null handler is undefined behaviour. *)
Definition dispatch (t : ptables) (id : Z) : outcome H :=
  let! p := handler_by_id t id in
  match p with Some h => Def h | None => UB end.

End Proxy.
Arguments ptables H : clear implicits.

(** stubMethodIfNotStubbed / stubDtorIfNotStubbed (MockImpl.hpp:314-323, 325-332)
    seen from the dispatch tables: binding happens for the first expression
    that designates the method only; later ones reuse the handler. *)
Definition pt_stub {H : Type} (t : ptables H) (offset : nat) (id : Z) (h : H) : outcome (ptables H) :=
  let! b := isBinded t offset in
  if b then Def t else pt_bind t offset id h.

(** DynamicProxy.hpp:104-109, 222-226, one after the other. *)
Fixpoint pt_stub_all {H : Type} (t : ptables H) (ops : list (nat * Z * H)) : outcome (ptables H) :=
  match ops with
  | [] => Def t
  | (offset, id, h) :: rest => let! t' := pt_stub t offset id h in pt_stub_all t' rest
  end.
