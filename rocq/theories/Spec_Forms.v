(** What expressions are, said without overload resolution. *)
From Coq Require Import Bool Arith Lia List.
From Verif Require Import Base Forms.
Import ListNotations.

(** The expression gives a value of the type without any constructor or conversion function. *)
Inductive directly : ty -> expr -> Prop :=
| DOwn : forall t b, directly t (EOwn b)
| DStandard : forall t, directly t (EOther (Some true))
| DNull : directly TPointer ENull
| DZeroNumber : directly TNumber EZero
| DZeroBool : directly TBool EZero
| DZeroPointer : directly TPointer EZero
| DBracesNumber : directly TNumber EBraces
| DBracesBool : directly TBool EBraces
| DBracesPointer : directly TPointer EBraces.

(** With one. *)
Inductive by_class : ty -> expr -> Prop :=
| BUser : forall t, by_class t (EOther (Some false))
| BNull : forall c, c_null c = true -> by_class (TClass c) ENull
| BNullAny : forall c, c_any c = true -> by_class (TClass c) ENull
| BZeroNull : forall c, c_null c = true -> by_class (TClass c) EZero
| BZeroInt : forall c, c_int c = true -> by_class (TClass c) EZero
| BZeroAny : forall c, c_any c = true -> by_class (TClass c) EZero
| BBraces : forall c, c_braces c = true -> by_class (TClass c) EBraces
| BFunction : forall c, c_any c = true -> by_class (TClass c) EFunction
| BLambda : forall c fits captures, c_any c = true -> by_class (TClass c) (ELambda fits captures)
| BLambdaBool : forall fits, by_class TBool (ELambda fits false).

(** The same for parameters: only a variable of the type itself can be given for T &. *)
Definition directly_p (p : param) (e : expr) : Prop := if p_ref p then e = EOwn true else directly (p_type p) e.
Definition by_class_p (p : param) (e : expr) : Prop := p_ref p = false /\ by_class (p_type p) e.

(** A function that can be called with the arguments of the method. *)
Definition callable (e : expr) : Prop := e = EFunction \/ exists captures, e = ELambda true captures.

(** Looks like a value, like a function, or like neither. *)
Definition value (e : expr) : Prop := (exists b, e = EOwn b) \/ exists s, e = EOther s.
Definition function (e : expr) : Prop := e = EFunction \/ exists fits captures, e = ELambda fits captures.
Definition nothing (e : expr) : Prop := e = ENull \/ e = EZero \/ e = EBraces.

(** Using compares with the value. *)
Inductive compares : ty -> expr -> Prop :=
| CmpOwn : forall t b, compares t (EOwn b)
| CmpOther : forall t b, compares t (EOther (Some b))
| CmpNull : compares TPointer ENull
| CmpNullClass : forall c, c_null c = true -> c_eq_null c = true -> compares (TClass c) ENull
| CmpZeroNumber : compares TNumber EZero
| CmpZeroBool : compares TBool EZero
| CmpZeroClass : forall c, c_int c = true -> compares (TClass c) EZero.
