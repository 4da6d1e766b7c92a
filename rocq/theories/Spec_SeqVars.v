(** Specification: what the sequences stand for that a program keeps in variables. *)
From Coq Require Import ZArith List.
From Verif Require Import Base SeqVars.
Import ListNotations.
Open Scope nat_scope.

Section Spec.
Context {A : Type}.

(** [vs]: what the variables stand for; [None]: the scope of the variable has ended. *)
Inductive stands_for (vs : list (option (list A))) : qexp A -> list A -> Prop :=
| SfVar : forall x l, nth_error vs x = Some (Some l) -> stands_for vs (QVar x) l
| SfMethod : forall a, stands_for vs (QMethod a) [a]
| SfPlus : forall e1 e2 l1 l2, stands_for vs e1 l1 -> stands_for vs e2 l2 -> stands_for vs (QPlus e1 e2) (l1 ++ l2)
| SfTimes : forall e n l, (0 < n)%Z -> stands_for vs e l ->
    stands_for vs (QTimes e n) (concat (repeat l (Z.to_nat n))).

(** The scope of [x] is the innermost one: every later variable has ended. *)
Definition innermost (vs : list (option (list A))) (x : nat) : Prop :=
  (exists l, nth_error vs x = Some (Some l)) /\ forall y l, x < y -> nth_error vs y <> Some (Some l).

(** The operands of + and * are variables. *)
Definition of_variables (e : qexp A) : Prop :=
  match e with
  | QVar _ | QMethod _ => True
  | QPlus (QVar _) (QVar _) => True
  | QTimes (QVar _) _ => True
  | _ => False
  end.

Definition is_method (e : qexp A) : Prop := exists a, e = QMethod a.

(** [shows vs seen prog seen']: starting with variables [vs] and the verified patterns [seen], the
    program declares its sequences from variables only, ends scopes inside out, and its
    verifications look for [seen'] in the end. *)
Inductive shows : list (option (list A)) -> list (list (list A)) -> list (qstmt A) -> list (list (list A)) -> Prop :=
| ShEnd : forall vs seen, shows vs seen [] seen
| ShAuto : forall vs seen e l prog seen', of_variables e -> stands_for vs e l ->
    shows (vs ++ [Some l]) seen prog seen' -> shows vs seen (QAuto e :: prog) seen'
| ShRef : forall vs seen e l prog seen', of_variables e -> ~ is_method e -> stands_for vs e l ->
    shows (vs ++ [Some l]) seen prog seen' -> shows vs seen (QRef e :: prog) seen'
| ShScope : forall vs seen x prog seen', innermost vs x ->
    shows (upd vs x None) seen prog seen' -> shows vs seen (QEnd x :: prog) seen'
| ShVerify : forall vs seen es ls prog seen', Forall2 (stands_for vs) es ls ->
    shows vs (seen ++ [ls]) prog seen' -> shows vs seen (QVerify es :: prog) seen'.

(** The expression has an operand that is not a variable. *)
Definition has_temporary (e : qexp A) : Prop :=
  match e with
  | QPlus e1 e2 => (forall x, e1 <> QVar x) \/ (forall x, e2 <> QVar x)
  | QTimes e1 _ => forall x, e1 <> QVar x
  | _ => False
  end.

(** The variable [x] is an operand of the expression. *)
Definition has_operand (e : qexp A) (x : nat) : Prop :=
  match e with
  | QPlus e1 e2 => e1 = QVar x \/ e2 = QVar x
  | QTimes e1 _ => e1 = QVar x
  | _ => False
  end.

(** The variable [x] occurs in the expression. *)
Fixpoint uses_variable (e : qexp A) (x : nat) : Prop :=
  match e with
  | QVar y => x = y
  | QMethod _ => False
  | QPlus e1 e2 => uses_variable e1 x \/ uses_variable e2 x
  | QTimes e1 _ => uses_variable e1 x
  end.

(** A factor in the expression is not positive. *)
Fixpoint bad_factor (e : qexp A) : Prop :=
  match e with
  | QPlus e1 e2 => bad_factor e1 \/ bad_factor e2
  | QTimes e1 n => bad_factor e1 \/ (n <= 0)%Z
  | _ => False
  end.

End Spec.
