(** Model of ReturnAndSet: include/fakeit/StubbingProgress.hpp:132-143, 174-224,
    318-366 and helper:: 369-484. *)
From Coq Require Import ZArith Lia List.
From Verif Require Import Base CInt Values.
Import ListNotations.
Open Scope nat_scope.

(** A value handed to ReturnAndSet, as held by the tuple of the assigner:
    [SVal v]: from an rvalue, held by value; [SRef a]: from an lvalue, whose
    deduced type is a reference, so that the tuple (183, 212, 335, 356) and
    ArgValue (371-377) hold a reference to the caller's object. *)
Inductive vsrc : Type :=
| SVal (v : val)
| SRef (a : addr).

(** The elements of vals_tuple, StubbingProgress.hpp:187-193, 219-220. *)
Definition src_read (m : mem) (s : vsrc) : outcome val :=
  match s with SVal v => Def v | SRef a => load m a end.

(** GetArg: 402-415: the object a parameter designates: a pointer is
    dereferenced, a reference is the object.  A by-value parameter yields a
    temporary: the assignment is lost (for built-in types it does not compile). *)
Inductive target : Type :=
| TCell (a : addr)
| TTemp.

(** StubbingProgress.hpp:402-415. *)
Definition GetArg (p : val) : outcome target :=
  match p with
  | VPtr (Some a) => Def (TCell a)
  | VCStr (Some a) => Def (TCell a)
  | VPtr None => UB
  | VCStr None => UB
  | VRef a => Def (TCell a)
  | _ => Def TTemp
  end.

(** [GetArg(p) = v]: null pointers and dead objects are undefined behaviour.  StubbingProgress.hpp:417-484. *)
Definition assign_to (m : mem) (p : val) (s : vsrc) : outcome mem :=
  let! v := src_read m s in
  let! t := GetArg p in
  match t with
  | TCell a => store m a v
  | TTemp => Def m
  end.

(** ParamWalker<N>::Assign: 417-431.  [vals] is the tuple (for non-void methods
    the return value stands at index 0); [n] counts down; the recursion comes
    first, so the last of the parameters is assigned first.  Fewer parameters
    than values does not compile (UB here). *)
Fixpoint ParamWalker (n : nat) (m : mem) (vals : list vsrc) (params : list val) : outcome mem :=
  match n with
  | O => Def m
  | S n' =>
      match params with
      | [] => UB
      | p :: rest =>
          let! m' := ParamWalker n' m vals rest in
          let! s := of_option (nth_error vals (length vals - n)) in
          assign_to m' p s
      end
  end.

(** The assigner lambdas, positional form: 180-188 ([Some r]: non-void) and
    329-337 ([None]: void).  Result: memory and return value. *)
Definition assigner_positional (m : mem) (r : option vsrc) (vals : list vsrc) (params : list val)
  : outcome (mem * val) :=
  match r with
  | Some r0 =>
      let! m' := ParamWalker (length vals) m (r0 :: vals) params in
      let! v := src_read m' r0 in
      Def (m', v)
  | None =>
      let! m' := ParamWalker (length vals) m vals params in
      Def (m', VVoid)
  end.

(** What the positional form leaves of the recorded arguments.  The assigner takes
    them by reference (test_arg, type_utils.hpp:39) and passes them on with
    std::forward<arglist>, as rvalues if the parameter is passed by value (187, 335).
    GetArg (410-415) returns such an rvalue by value, and ParamWalker<0> (427-431)
    takes all parameters that are not assigned by value: either way the recorded
    argument is moved from. *)
Definition positional_leaves (left : val -> val) (params : list val) : list val :=
  map (moved_from left) params.

(** ArgLocator<arg_index, check_index>::AssignArg: 433-474: the tuple is searched
    from its last element down; the first hit assigns.  [check] is
    check_index + 1.  (The C++11/14 variant throws std::logic_error when the
    types do not fit; types are assumed to fit here.) *)
Fixpoint ArgLocator (arg_index : nat) (check : nat) (m : mem) (p : val) (vals : list (nat * vsrc))
  : outcome mem :=
  match check with
  | O => Def m
  | S c =>
      let! (pos, s) := of_option (nth_error vals c) in
      if Nat.eqb pos arg_index then assign_to m p s
      else ArgLocator arg_index c m p vals
  end.

(** Assign<arg_index>: 476-484: the parameters from left to right. *)
Fixpoint Assign (arg_index : nat) (m : mem) (vals : list (nat * vsrc)) (params : list val) : outcome mem :=
  match params with
  | [] => Def m
  | p :: rest =>
      let! m' := ArgLocator arg_index (length vals) m p vals in
      Assign (S arg_index) m' vals rest
  end.

(** What the placeholder form leaves of the recorded arguments.  Here the parameters
    are passed on by reference all the way (433-445, 476-481); only GetArg, reached
    for the named positions, moves from a by-value argument. *)
Fixpoint placeholders_leave (left : val -> val) (arg_index : nat) (vals : list (nat * vsrc)) (params : list val)
  : list val :=
  match params with
  | [] => []
  | p :: rest =>
      (if existsb (fun x => Nat.eqb (fst x) arg_index) vals then moved_from left p else p)
      :: placeholders_leave left (S arg_index) vals rest
  end.

(** The assigner lambdas, placeholder form: 205-216 and 350-360; indices start
    at 1.  A position beyond the arity is a static_assert failure (379-400) or,
    before C++14 and on Windows, ignored. *)
Definition assigner_placeholders (m : mem) (r : option vsrc) (vals : list (nat * vsrc)) (params : list val)
  : outcome (mem * val) :=
  let! m' := Assign 1 m vals params in
  let! v := match r with Some r0 => src_read m' r0 | None => Def VVoid end in
  Def (m', v).
