(** Model of include/mockutils/smart_ptr.hpp, the handle through which Verify
    statements share their expectation object. *)
From Coq Require Import ZArith Lia List.
From Verif Require Import Base CInt.
Import ListNotations.
Open Scope Z_scope.

(** Heap: reference counters and managed objects ([None]: deleted), the handles
    (variables of type smart_ptr; [None]: destroyed) as (pData, reference), and
    the log of deleted objects.  A managed object carries whether its destructor
    throws (the destructor of a verification expectation throws when the check
    fails).  smart_ptr.hpp:18, 33-34. *)
Record sp_state : Type := mkSp {
  sp_refs : list (option Z);
  sp_objs : list (option bool);
  sp_handles : list (option (nat * nat));
  sp_log : list nat
}.

(** Models no lines of /repo. *)
Definition sp_init : sp_state := mkSp [] [] [] [].

(** RefCount::AddRef: smart_ptr.hpp:21-23. *)
Definition sp_addref (s : sp_state) (r : nat) : outcome sp_state :=
  match nth_error (sp_refs s) r with
  | Some (Some c) =>
      let! c' := iadd c 1 in
      Def (mkSp (upd (sp_refs s) r (Some c')) (sp_objs s) (sp_handles s) (sp_log s))
  | _ => UB
  end.

(** RefCount::Release: smart_ptr.hpp:25-27. *)
Definition sp_release (s : sp_state) (r : nat) : outcome (sp_state * Z) :=
  match nth_error (sp_refs s) r with
  | Some (Some c) =>
      let! c' := isub c 1 in
      Def (mkSp (upd (sp_refs s) r (Some c')) (sp_objs s) (sp_handles s) (sp_log s), c')
  | _ => UB
  end.

(** [delete reference; delete pData]: smart_ptr.hpp:53-54, 71-72.  The flag tells
    whether the destructor of the object threw. *)
Definition sp_delete (s : sp_state) (o r : nat) : outcome (sp_state * bool) :=
  match nth_error (sp_refs s) r, nth_error (sp_objs s) o with
  | Some (Some _), Some (Some throws) =>
      Def (mkSp (upd (sp_refs s) r None) (upd (sp_objs s) o None) (sp_handles s) (sp_log s ++ [o]),
           throws)
  | _, _ => UB
  end.

(** smart_ptr.hpp:52-55, 70-73. *)
Definition sp_drop (s : sp_state) (o r : nat) : outcome (sp_state * bool) :=
  let! (s1, c) := sp_release s r in
  if c =? 0 then sp_delete s1 o r else Def (s1, false).

(** Using a variable; undefined if it is gone. smart_ptr.hpp:33-34. *)
Definition sp_handle (s : sp_state) (h : nat) : outcome (nat * nat) :=
  match nth_error (sp_handles s) h with Some (Some p) => Def p | _ => UB end.

Inductive sp_op : Type :=
| SpNew (throws : bool)        (* smart_ptr(new T) : 42-45 *)
| SpCopy (h : nat)             (* smart_ptr(const smart_ptr&) : 47-49 *)
| SpAssign (d s : nat)         (* operator= : 66-82 *)
| SpDestroy (h : nat)          (* ~smart_ptr : 51-56 *)
| SpDeref (h : nat).           (* operator-> followed by a use of the object : 62-64 *)

(** One operation; the flag tells whether it exits by an exception.  A destructor
    that exits by an exception still ends the life of the handle; an assignment
    that does so leaves the two pointers of the handle as they were.  smart_ptr.hpp:37-56, 66-82. *)
Definition sp_step (s : sp_state) (op : sp_op) : outcome (sp_state * bool) :=
  match op with
  | SpNew throws =>
      let o := length (sp_objs s) in
      let r := length (sp_refs s) in
      let s1 := mkSp (sp_refs s ++ [Some 0]) (sp_objs s ++ [Some throws])
                     (sp_handles s ++ [Some (o, r)]) (sp_log s) in
      let! s2 := sp_addref s1 r in
      Def (s2, false)
  | SpCopy h =>
      let! (o, r) := sp_handle s h in
      let! s1 := sp_addref s r in
      Def (mkSp (sp_refs s1) (sp_objs s1) (sp_handles s1 ++ [Some (o, r)]) (sp_log s1), false)
  | SpAssign d src =>
      let! (o1, r1) := sp_handle s d in
      let! (o2, r2) := sp_handle s src in
      if Nat.eqb d src then Def (s, false)
      else
        let! (s1, threw) := sp_drop s o1 r1 in
        if threw then Def (s1, true)
        else
          let! s2 := sp_addref s1 r2 in
          Def (mkSp (sp_refs s2) (sp_objs s2) (upd (sp_handles s2) d (Some (o2, r2))) (sp_log s2), false)
  | SpDestroy h =>
      let! (o, r) := sp_handle s h in
      let! (s1, threw) := sp_drop s o r in
      Def (mkSp (sp_refs s1) (sp_objs s1) (upd (sp_handles s1) h None) (sp_log s1), threw)
  | SpDeref h =>
      let! (o, r) := sp_handle s h in
      match nth_error (sp_objs s) o with
      | Some (Some _) => Def (s, false)
      | _ => UB
      end
  end.

(** A program: exceptions are caught by the surrounding code, which goes on.  One after the other; code of the user.
    *)
Fixpoint sp_run (s : sp_state) (ops : list sp_op) : outcome sp_state :=
  match ops with
  | [] => Def s
  | op :: ops' => let! (s', _) := sp_step s op in sp_run s' ops'
  end.
