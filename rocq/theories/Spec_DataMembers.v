(** What stubbed data members are meant to be: objects that live from Stub to Reset or the
    end of the mock. *)
From Coq Require Import Bool List.
From Verif Require Import Base Values DataMembers.
Import ListNotations.
Open Scope nat_scope.

(** The members of a mock whose object the library made: the value of each stubbed one.
    [None]: nothing is promised.  That is the case for members that are not stubbed, for
    stubbing a member twice, for assigning to what Stub returns, for clearing the history while members are stubbed, and once
    the mock is gone. *)
Definition step_members (alive : bool) (ms : list (option val)) (o : dm_op) : option (bool * list (option val) * val) :=
  match alive, o with
  | true, DStub i v =>
      match nth_error ms i with Some None => Some (true, upd ms i (Some v), VVoid) | _ => None end
  | true, DGet i =>
      match nth_error ms i with Some (Some v) => Some (true, ms, v) | _ => None end
  | true, DSet i v =>
      match nth_error ms i with Some (Some _) => Some (true, upd ms i (Some v), VVoid) | _ => None end
  | true, DClear => if forallb (fun m => match m with None => true | _ => false end) ms then Some (true, ms, VVoid) else None
  | true, DReset => Some (true, map (fun _ => None) ms, VVoid)
  | true, DDestroy => Some (false, map (fun _ => None) ms, VVoid)
  | _, _ => None
  end.

Fixpoint members (alive : bool) (ms : list (option val)) (os : list dm_op) : option (bool * list (option val) * list val) :=
  match os with
  | [] => Some (alive, ms, [])
  | o :: os' =>
      match step_members alive ms o with
      | Some (a, ms', v) =>
          match members a ms' os' with Some (a2, ms2, vs) => Some (a2, ms2, v :: vs) | None => None end
      | None => None
      end
  end.

(** What happened to the objects in cell [i]. *)
Definition happened (i : nat) (log : list fate) : list fate :=
  filter (fun x => match x with Built j | Gone j => Nat.eqb j i end) log.

(** Each was destroyed once, before the next was built; [living]: the last one still lives. *)
Definition once_each (i : nat) (living : bool) (l : list fate) : Prop :=
  exists k, l = concat (repeat [Built i; Gone i] k) ++ (if living then [Built i] else []).

(** Steps that are undefined for a mock whose object the library made: using the mock once it
    is gone, using a member that is not stubbed (there is no object in it), and ending the
    life of an object that is not the user's. *)
Definition misused (alive : bool) (ms : list (option val)) (o : dm_op) : Prop :=
  match o with
  | DGet i | DSet i _ => forall v, nth_error ms i <> Some (Some v)
  | DStub _ _ | DStubAssign _ _ _ | DClear | DReset | DDestroy => alive = false
  | DObjectEnds => True
  end.

(** An object of the user whose members are not stubbed is like any other object: members
    hold what was assigned to them last, whatever the mock does. *)
Definition step_plain (alive : bool) (vs : list val) (o : dm_op) : option (bool * list val * val) :=
  match o with
  | DGet i => match nth_error vs i with Some v => Some (alive, vs, v) | None => None end
  | DSet i v => match nth_error vs i with Some _ => Some (alive, upd vs i v, VVoid) | None => None end
  | DClear | DReset => if alive then Some (true, vs, VVoid) else None
  | DDestroy => if alive then Some (false, vs, VVoid) else None
  | _ => None
  end.
Fixpoint plain (alive : bool) (vs : list val) (os : list dm_op) : option (bool * list val * list val) :=
  match os with
  | [] => Some (alive, vs, [])
  | o :: os' =>
      match step_plain alive vs o with
      | Some (a, vs', v) =>
          match plain a vs' os' with Some (a2, vs2, rs) => Some (a2, vs2, v :: rs) | None => None end
      | None => None
      end
  end.
