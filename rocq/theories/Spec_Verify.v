(** Specification of verification statements: which counts a quantifier accepts
    and what a verification object does during its life. *)
From Coq Require Import Bool ZArith List.
From Verif Require Import Base CInt Expectation.
Import ListNotations.
Open Scope Z_scope.

(** The requirement in force. *)
Inductive requirement : Type := ReqAny | ReqExactly (n : Z) | ReqAtLeast (n : Z).

Definition accepts (r : requirement) (count : Z) : Prop :=
  match r with
  | ReqAny => True
  | ReqExactly n => count = n
  | ReqAtLeast n => n <= count
  end.

Definition requirement_of (q : quant) : option requirement :=
  match q with
  | QAny => Some ReqAny
  | QNever => Some (ReqExactly 0)
  | QOnce => Some (ReqExactly 1)
  | QTwice => Some (ReqExactly 2)
  | QAtLeastOnce => Some (ReqAtLeast 1)
  | QExactly n => if n <? 0 then None else Some (ReqExactly n)
  | QAtLeast n => if n <? 0 then None else Some (ReqAtLeast n)
  end.

(** The requirement after a list of quantifiers: the last valid one counts; Any,
    once given, stays. *)
Fixpoint in_force (r : requirement) (os : list life_op) : requirement :=
  match os with
  | [] => r
  | LQuant q :: rest =>
      in_force (match requirement_of q, r with
                | Some ReqAny, _ => ReqAny
                | _, ReqAny => ReqAny
                | Some r', _ => r'
                | None, _ => r
                end) rest
  | LBool _ :: rest => in_force r rest
  end.

(** The part before the first conversion to bool, the count seen there and the
    rest. *)
Fixpoint first_bool (os : list life_op) : option (list life_op * Z * list life_op) :=
  match os with
  | [] => None
  | LBool c :: rest => Some ([], c, rest)
  | LQuant q :: rest =>
      match first_bool rest with
      | None => None
      | Some (pre, c, post) => Some (LQuant q :: pre, c, post)
      end
  end.

Definition checks_in (l : list life_ev) : list Z :=
  flat_map (fun e => match e with EvCheck c => [c] | _ => [] end) l.
Definition reports_in (l : list life_ev) : list verdict :=
  flat_map (fun e => match e with EvReport v => [v] | _ => [] end) l.
Definition answers_in (l : list life_ev) : list bool :=
  flat_map (fun e => match e with EvAnswer b => [b] | _ => [] end) l.

(** Arguments of Exactly / AtLeast are ints. *)
Definition quant_int (q : quant) : Prop :=
  match q with
  | QExactly n | QAtLeast n => int_min <= n <= int_max
  | _ => True
  end.

Definition op_int (o : life_op) : Prop :=
  match o with LQuant q => quant_int q | LBool _ => True end.

(** The conversions to bool among the operations. *)
Definition conversions (os : list life_op) : list life_op :=
  filter (fun o => match o with LBool _ => true | _ => false end) os.

(** What a failure report says about the requirement: its kind and its number.  (AtLeast(0)
    is reported as the number 0.) *)
Definition told (r : requirement) (t : vtype) (n : Z) : Prop :=
  match t with
  | VtExact => r = ReqExactly n \/ (r = ReqAtLeast 0 /\ n = 0)
  | VtAtLeast => r = ReqAtLeast n
  end.
