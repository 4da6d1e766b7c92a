(** What shared ownership means: handles name objects, nothing else. *)
From Coq Require Import List Arith.
From Verif Require Import Base SmartPtr.
Import ListNotations.

(** [hs]: the object each handle holds ([None]: the handle is gone); [n]: number
    of objects created so far.  [None]: the program uses a handle that is gone. *)
Definition own_step (st : list (option nat) * nat) (op : sp_op) : option (list (option nat) * nat) :=
  let '(hs, n) := st in
  match op with
  | SpNew _ => Some (hs ++ [Some n], S n)
  | SpCopy h =>
      match nth_error hs h with Some (Some o) => Some (hs ++ [Some o], n) | _ => None end
  | SpAssign d s =>
      match nth_error hs d, nth_error hs s with
      | Some (Some _), Some (Some o) => Some (upd hs d (Some o), n)
      | _, _ => None
      end
  | SpDestroy h =>
      match nth_error hs h with Some (Some _) => Some (upd hs h None, n) | _ => None end
  | SpDeref h =>
      match nth_error hs h with Some (Some _) => Some (hs, n) | _ => None end
  end.

Fixpoint own_run (st : list (option nat) * nat) (ops : list sp_op) : option (list (option nat) * nat) :=
  match ops with
  | [] => Some st
  | op :: ops' => match own_step st op with Some st' => own_run st' ops' | None => None end
  end.

(** The programs for which the claim is made: either no object's destructor
    throws ([quiet = true]), or some may and no handle is assigned to. *)
Definition benign (quiet : bool) (op : sp_op) : Prop :=
  match op with
  | SpNew t => quiet = true -> t = false
  | SpAssign _ _ => quiet = true
  | _ => True
  end.
