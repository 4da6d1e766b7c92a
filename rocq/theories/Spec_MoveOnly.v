(** What calls get from a chain with values that cannot be copied, independent of how the
    values are kept. *)
From Coq Require Import ZArith List.
From Verif Require Import CInt ActionSeq Spec_Actions MoveOnly.
Import ListNotations.
Open Scope Z_scope.

Section S.
Context {V G : Type}.

(** A link of the chain: a value for one call, or another callable with how often. *)
Definition says (l : mlink V G) : (V + G) * option Z :=
  match l with
  | LMove v => (inl v, Some 1)
  | LPlain r => let (g, q) := meant r in (inr g, q)
  end.

(** How an answer shows at the caller: a value arrives whole. *)
Definition got (a : option (V + G)) : mresult V G :=
  match a with Some (inl v) => Got (Full v) | Some (inr g) => GotOther g | None => NoAnswer end.

(** Quantities the API can pass on. *)
Definition link_ok (l : mlink V G) : Prop :=
  match l with LPlain (RecTimes _ q) => 1 <= q <= int_max | _ => True end.
End S.
