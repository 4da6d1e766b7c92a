(** Model of the process-wide counters: Invocation::nextInvocationOrdinal
    (include/fakeit/Invocation.hpp:23-26) and MethodInfo::nextMethodOrdinal
    (include/fakeit/DomainObjects.hpp:27-30). *)
From Coq Require Import ZArith Lia List.
From Verif Require Import Base CInt.
Import ListNotations.
Open Scope Z_scope.

(** ++invocationOrdinal on a std::atomic_uint (Invocation.hpp:24-25): one atomic
    read-modify-write, wrapping modulo 2^32, whose result is the new value. *)
Definition next_ordinal (c : Z) : Z := to_uint32 (c + 1).

(** Threads sharing the counter.  A schedule names, step by step, the thread that
    performs its next increment (one step because the operation is atomic);
    the log records which thread got which ordinal.  Sequential consistency of a
    single atomic object holds in the C++ memory model (modification order).  Invocation.hpp:23-26,
    DomainObjects.hpp:27-30. *)
Fixpoint ord_run (c : Z) (sched : list nat) : list (nat * Z) :=
  match sched with
  | [] => []
  | th :: rest => let n := next_ordinal c in (th, n) :: ord_run n rest
  end.
