(** Properties C109-C111: what expressions mean in conditions, assignments and Return. *)
From Coq Require Import Bool Arith Lia List.
From Verif Require Import Base Forms Spec_Forms FormsProofs.
Import ListNotations.

(** std::shared_ptr, std::string (before C++23), a class that is made from numbers. *)
Definition shared_ptr := mkClass true false true false true.
Definition text := mkClass true false true false false.
Definition fraction := mkClass false true true false false.
Definition by_value (t : ty) := mkParam t false.
Definition by_reference (t : ty) := mkParam t true.

(** ** C109: conditions *)

(** Method(mock, f)(e) for a method with one parameter: e is an argument if it gives a value of the parameter directly, or by a class
    and it is no function; a predicate if it can be called and gives no such value; an empty one if it is nullptr, 0 or {} and gives
    no value.  Otherwise it does not compile. *)
Theorem C109_one p e :
  (in_parentheses [p] [e] = CArguments <-> directly_p p e \/ (by_class_p p e /\ ~ callable e /\ ~ nothing e)) /\
  (in_parentheses [p] [e] = CPredicate <-> callable e /\ (e = EFunction \/ ~ by_class_p p e)) /\
  (in_parentheses [p] [e] = CEmpty <-> nothing e /\ ~ directly_p p e /\ ~ by_class_p p e).
Proof. exact (one_table p e). Qed.

(** With any other number of parameters one expression is a predicate. *)
Theorem C109_other ps e : length ps <> 1 ->
  (in_parentheses ps [e] = CPredicate <-> callable e) /\
  (in_parentheses ps [e] = CEmpty <-> nothing e) /\
  in_parentheses ps [e] <> CArguments.
Proof. exact (other_table ps e). Qed.

(** None or several are arguments. *)
Theorem C109_several ps es : length es <> 1 ->
  (in_parentheses ps es = CArguments <-> Forall2 (fun p e => directly_p p e \/ by_class_p p e) ps es) /\
  (in_parentheses ps es = CArguments \/ in_parentheses ps es = CError).
Proof. exact (several_table ps es). Qed.

(** So values and functions that fit are never mistaken for each other. *)
Theorem C109_meaning ps es : (Forall value es -> in_parentheses ps es = CArguments \/ in_parentheses ps es = CError) /\
  (forall e, es = [e] -> callable e -> in_parentheses ps es = CPredicate \/ in_parentheses ps es = CError).
Proof. exact (never_misread ps es). Qed.

Example C109_one_example :
  in_parentheses [by_value TNumber] [EOther (Some true)] = CArguments /\
  in_parentheses [by_value (TClass text)] [EOther (Some false)] = CArguments /\
  in_parentheses [by_value TNumber] [ELambda true false] = CPredicate /\
  in_parentheses [by_value TNumber; by_reference TNumber] [ELambda true true] = CPredicate /\
  in_parentheses [by_value TNumber; by_reference TNumber] [EZero; EOwn true] = CArguments /\
  in_parentheses [by_reference TNumber] [EZero] = CEmpty.
Proof. repeat split. Qed.

(** Using(es...) with as many expressions as parameters compares; Using(e) with another number of parameters is Matching. *)
Theorem C109_using ps es : length es = length ps ->
  (in_using ps es = CArguments <-> Forall2 (fun p e => compares (p_type p) e) ps es) /\
  (in_using ps es = CArguments \/ in_using ps es = CError).
Proof. exact (using_table ps es). Qed.
Theorem C109_using_other ps e : length ps <> 1 ->
  (in_using ps [e] = CPredicate <-> callable e) /\ (in_using ps [e] = CEmpty <-> e = ENull) /\ in_using ps [e] <> CArguments.
Proof. exact (using_other ps e). Qed.
Theorem C109_matching e : (in_matching e = CPredicate <-> callable e) /\ (in_matching e = CEmpty <-> nothing e) /\ in_matching e <> CArguments.
Proof. exact (matching_table e). Qed.

Example C109_using_example : in_using [by_value (TClass shared_ptr); by_value TPointer] [ENull; ENull] = CArguments /\
  in_using [by_value TNumber; by_value TNumber] [ELambda true false] = CPredicate /\ in_matching (ELambda true true) = CPredicate.
Proof. repeat split. Qed.

(** Refuted: what can be passed to the method can be written in the parentheses.  nullptr for a smart pointer does not compile
    there, though Using(nullptr) does. *)
Theorem C109_null_refuted : by_class_p (by_value (TClass shared_ptr)) ENull /\
  in_parentheses [by_value (TClass shared_ptr)] [ENull] = CError /\ in_using [by_value (TClass shared_ptr)] [ENull] = CArguments /\
  in_parentheses [by_value (TClass shared_ptr); by_value TNumber] [ENull; EZero] = CArguments.
Proof. split; [split; [reflexivity|]; apply BNull; reflexivity|]. repeat split. Qed.

(** Refuted: what compiles works.  With two parameters, or one taken by reference, nullptr is an empty predicate: every call that
    comes to this condition throws std::bad_function_call. *)
Theorem C109_empty_refuted : in_parentheses [by_value TNumber; by_value TNumber] [ENull] = CEmpty /\
  in_parentheses [by_reference (TClass shared_ptr)] [ENull] = CEmpty /\ in_using [by_value TNumber; by_value TNumber] [ENull] = CEmpty.
Proof. repeat split. Qed.

(** Refuted: a predicate can be written for every parameter.  For bool it is ambiguous unless the lambda captures something; and one that
    does not fit the method compiles, and stands for the value true. *)
Theorem C109_bool_refuted : callable (ELambda true false) /\
  in_parentheses [by_value TBool] [ELambda true false] = CError /\ in_parentheses [by_value TBool] [ELambda true true] = CPredicate /\
  in_parentheses [by_value TBool] [ELambda false false] = CArguments.
Proof. split; [right; exists false; reflexivity|]. repeat split. Qed.

(** Refuted: Using(predicate) means the same for all methods. *)
Theorem C109_using_refuted : in_using [by_value TNumber; by_value TNumber] [ELambda true false] = CPredicate /\
  in_using [] [ELambda true false] = CPredicate /\ in_using [by_value TNumber] [ELambda true false] = CError.
Proof. repeat split. Qed.

(** ** C110: assignments *)

(** Method(mock, f) = e, for methods with a result: the value, if e gives one directly or by a class and is no function; the function, if
    it can be called; {} is an empty function if the result is a class.  Otherwise it does not compile. *)
Theorem C110_assign t e :
  (assign (Some t) e = AValue <-> directly t e \/ (by_class t e /\ ~ callable e /\ ~ nothing e)) /\
  (assign (Some t) e = AFunction <-> callable e) /\
  (assign (Some t) e = AEmpty <-> e = EBraces /\ exists c, t = TClass c).
Proof. exact (assign_table t e). Qed.
Theorem C110_void e : (assign None e = AFunction <-> callable e) /\ (assign None e = AEmpty <-> e = EBraces) /\ assign None e <> AValue.
Proof. exact (assign_void e). Qed.

(** So calls return what functions that fit return, and values. *)
Theorem C110_calls {V} r e (v f : V) :
  (callable e -> assigned_call (assign r e) v f = Some (Returned f)) /\
  (forall t, r = Some t -> value e -> (directly t e \/ by_class t e) -> assigned_call (assign r e) v f = Some (Returned v)).
Proof. exact (assign_calls r e v f). Qed.

Example C110_calls_example : assign (Some TBool) (ELambda true false) = AFunction /\ assign (Some (TClass text)) (EOther (Some false)) = AValue /\
  assign (Some TPointer) ENull = AValue /\ assign (Some TNumber) EZero = AValue /\ assign None (ELambda true true) = AFunction.
Proof. repeat split. Qed.

(** Refuted: Method(mock, f) = {} gives the value {}.  It does for numbers; if the result is a class every call throws
    std::bad_function_call. *)
Theorem C110_braces_refuted : by_class (TClass text) EBraces /\
  assigned_call (assign (Some (TClass text)) EBraces) 0 1 = Some ThrewBadCall /\
  assigned_call (assign (Some TNumber) EBraces) 0 1 = Some (Returned 0) /\
  assigned_call (assign None EBraces) 0 1 = Some ThrewBadCall.
Proof. split; [constructor; reflexivity|]. repeat split. Qed.

(** Refuted: a function that does not fit does not compile.  If the result is bool it stands for the value true. *)
Theorem C110_misfit_refuted : ~ callable (ELambda false false) /\
  assigned_call (assign (Some TBool) (ELambda false false)) true false = Some (Returned true) /\
  assign (Some TBool) (ELambda false true) = AError /\ assign (Some TNumber) (ELambda false false) = AError.
Proof. split; [intros [H|(c & H)]; discriminate H|]. repeat split. Qed.

(** Refuted: what can be returned can be assigned.  nullptr for a smart pointer does not compile. *)
Theorem C110_null_refuted : by_class (TClass shared_ptr) ENull /\ assign (Some (TClass shared_ptr)) ENull = AError /\
  by_class (TClass fraction) EZero /\ assign (Some (TClass fraction)) EZero = AError.
Proof. split; [constructor; reflexivity|]. split; [reflexivity|]. split; [apply BZeroInt; reflexivity|reflexivity]. Qed.

(** ** C111: Return of a list *)

(** Return({n, x}) returns the value {n, x} once if x alone is no result, and x n times if it is. *)
Theorem C111_pair whole second :
  (return_pair whole second = RValue <-> whole = true /\ second = false) /\
  (return_pair whole second = RTimes <-> second = true) /\
  (return_pair whole second = RError <-> whole = false /\ second = false).
Proof. exact (pair_table whole second). Qed.
Theorem C111_calls {V} n (w s : V) k second :
  (second = false -> returned_call (return_pair true second) false n w s k = Some (if k =? 0 then Returned w else WasUnexpected)) /\
  (second = true -> returned_call (return_pair true second) false n w s k = Some (if k <? n then Returned s else WasUnexpected)) /\
  returned_call (always_return_pair true) true n w s k = Some (Returned w).
Proof. exact (pair_calls n w s k second). Qed.

Example C111_calls_example : returned_call (return_pair true false) false 3 34 4 0 = Some (Returned 34) /\
  returned_call (return_pair false true) false 3 34 4 2 = Some (Returned 4) /\
  returned_call (always_return_pair true) true 3 34 4 7 = Some (Returned 34).
Proof. repeat split. Qed.

(** Refuted: Return({n, x}) returns the value that AlwaysReturn({n, x}) does.  For a class with a constructor from one or two numbers
    (std::complex, a fraction) it returns the value of x. *)
Theorem C111_refuted : exists w s : nat, w <> s /\
  returned_call (return_pair true true) false 1 w s 0 = Some (Returned s) /\
  returned_call (always_return_pair true) true 1 w s 0 = Some (Returned w) /\
  returned_call (return_pair true true) false 3 w s 2 = Some (Returned s) /\ returned_call (return_pair true true) false 3 w s 3 = Some WasUnexpected.
Proof. exists 34, 4. repeat split; try reflexivity. discriminate. Qed.

Definition C109_C111_all := (C109_one, C109_other, C109_several, C109_meaning, C109_using, C109_using_other, C109_matching, C109_null_refuted,
  C109_empty_refuted, C109_bool_refuted, C109_using_refuted, C110_assign, C110_void, @C110_calls, C110_braces_refuted, C110_misfit_refuted,
  C110_null_refuted, C111_pair, @C111_calls, C111_refuted).
Print Assumptions C109_C111_all.
