(** Which operations of different threads on mocks are meant to be independent. *)
From Coq Require Import Bool List.
From Verif Require Import Spec_Race Race.
Import ListNotations.
Open Scope nat_scope.

(** Which operations of two threads keep apart: calls of different methods; a statement that
    mentions a method for the first time only if its entry comes after the method the other
    thread calls; a verification only with other mocks or methods mentioned before. *)
Definition apart1 (o o' : t_op) : Prop :=
  match o, o' with
  | TCall c, TCall d => (c_mock c, c_entry c) <> (c_mock d, c_entry d)
  | TCall c, TMention m k first | TCall c, TStub m k first =>
      (c_mock c, c_entry c) <> (m, k) /\ (first = true -> c_mock c = m -> c_entry c < k)
  | TMention m k _, TMention m' k' _ | TMention m k _, TStub m' k' _ | TStub m k _, TStub m' k' _ => (m, k) <> (m', k')
  | TCall c, TVerify m _ ks => c_mock c = m -> ~ In (c_entry c) ks
  | TMention m' _ first, TVerify m _ _ | TStub m' _ first, TVerify m _ _ => m' = m -> first = false
  | TVerify m _ _, TVerify m' _ _ => m <> m'
  | _, _ => True
  end.
Definition keep_apart (o o' : t_op) : Prop := apart1 o o' /\ apart1 o' o.

(** What the user's code touches. *)
Definition user_accesses (o : t_op) : list (access loc) := match o with TCall c => c_user c | _ => [] end.
Definition of_user (a : access loc) : Prop :=
  match a with Rd (LUser _) | Wr (LUser _) | At (LUser _) => True | _ => False end.
