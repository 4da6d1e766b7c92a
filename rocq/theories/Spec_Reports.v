(** Specification of the texts of reports: how values read.  Nothing of the formatter is
    used. *)
From Coq Require Import Bool Ascii String DecimalString NArith ZArith List.
From Coq Require Import Floats.SpecFloat.
From Verif Require Import Base CInt Values ArgMatchers InvMatchers Sequences Expectation Spec_Verify Syntax World.
Import ListNotations.
Open Scope string_scope.

Section Shows.
Variable show_dbl : spec_float -> string.
Variable show_ptr : option addr -> string.
Variable m : mem.

Definition quoted (s : string) : string := String (ascii_of_nat 34) (s ++ String (ascii_of_nat 34) EmptyString).

(** [upto_nul buf s]: [s] are the characters of [buf] before its first NUL. *)
Inductive upto_nul : string -> string -> Prop :=
| UnEnd : upto_nul EmptyString EmptyString
| UnNul : forall rest, upto_nul (String zero rest) EmptyString
| UnChar : forall c rest s, c <> zero -> upto_nul rest s -> upto_nul (String c rest) (String c s).

(** An object that is not a reference and how it is printed. *)
Inductive shows_object : val -> string -> Prop :=
| ShInt : forall z, shows_object (VInt z) (NilZero.string_of_int (Z.to_int z))
| ShDbl : forall x, shows_object (VDbl x) (show_dbl x)
| ShTrue : shows_object (VBool true) "true"
| ShFalse : shows_object (VBool false) "false"
| ShChar : forall c, shows_object (VChar c) (String "'" (String c "'"))
| ShStr : forall s, shows_object (VStr s) s
| ShNull : shows_object (VCStr None) "[nullptr]"
| ShCStr : forall a buf s, nth_error m a = Some (Some (VStr buf)) -> upto_nul buf s ->
    shows_object (VCStr (Some a)) (quoted s)
| ShPtr : forall p, shows_object (VPtr p) (show_ptr p)
| ShOpaque : forall n, shows_object (VOpaque n) "?".

(** An argument: a reference reads like the object it designates now. *)
Inductive shows : val -> string -> Prop :=
| ShItself : forall v t, shows_object v t -> shows v t
| ShThrough : forall a v t, nth_error m a = Some (Some v) -> shows_object v t -> shows (VRef a) t.

(** The arguments, separated by commas. *)
Inductive listed : list string -> string -> Prop :=
| LsNone : listed [] ""
| LsOne : forall t, listed [t] t
| LsMore : forall t ts s, ts <> [] -> listed ts s -> listed (t :: ts) (t ++ ", " ++ s).

(** A call of the method called [name]. *)
Definition call_reads (name : string) (args : list val) (t : string) : Prop :=
  exists ts s, Forall2 shows args ts /\ listed ts s /\ t = name ++ "(" ++ s ++ ")".

(** What a condition on one argument reads like. *)
Inductive sign : rel -> string -> Prop :=
| SgEq : sign REq "" | SgNe : sign RNe "!="
| SgGt : sign RGt ">" | SgGe : sign RGe ">=" | SgLt : sign RLt "<" | SgLe : sign RLe "<=".

Inductive asks : amatcher -> string -> Prop :=
| AkAny : asks AAny "Any"
| AkCmp : forall r p v t, sign r p -> shows v t -> asks (ACmp r (XVal v)) (p ++ t)
| AkArr : forall r p buf s, sign r p -> upto_nul buf s -> asks (ACmp r (XArr buf)) (p ++ s)
| AkStr : forall r p s, sign r p -> asks (AStr r s) (p ++ s)
| AkApprox : forall v t k u, shows v t -> shows k u -> asks (AApprox v k) (t ++ "+/-" ++ u).

(** The condition of an expression of the method called [name]. *)
Inductive expression_reads (name : string) : imatcher -> string -> Prop :=
| XrArgs : forall ms ts s, Forall2 asks ms ts -> listed ts s -> expression_reads name (IMArgs ms) (name ++ "(" ++ s ++ ")")
| XrUser : forall p, expression_reads name (IMUser p) (name ++ "( user defined matcher )")
| XrAny : expression_reads name IMDefault (name ++ "( Any arguments )").
End Shows.

(** A sequence, given what its expressions read like: sums, and multiples, whose operand is
    in parentheses unless it is a single expression. *)
Section Patterns.
Variable A : Type.
Variable reads : A -> string -> Prop.

Inductive sequence_reads : sequence A -> string -> Prop :=
| QrLeaf : forall a t, reads a t -> sequence_reads (SLeaf a) t
| QrSum : forall l r t u, sequence_reads l t -> sequence_reads r u -> sequence_reads (SConcat l r) (t ++ " + " ++ u)
| QrTimes : forall a t n, reads a t -> sequence_reads (SRepeat (SLeaf a) n) (t ++ " * " ++ NilZero.string_of_int (Z.to_int n))
| QrTimesSum : forall l r t n, sequence_reads (SConcat l r) t ->
    sequence_reads (SRepeat (SConcat l r) n) ("(" ++ t ++ ") * " ++ NilZero.string_of_int (Z.to_int n))
| QrTimesTimes : forall q k t n, sequence_reads (SRepeat q k) t ->
    sequence_reads (SRepeat (SRepeat q k) n) ("(" ++ t ++ ") * " ++ NilZero.string_of_int (Z.to_int n)).

Inductive pattern_reads : list (sequence A) -> string -> Prop :=
| PrOne : forall q t, sequence_reads q t -> pattern_reads [q] t
| PrMore : forall q t p u, sequence_reads q t -> pattern_reads p u -> pattern_reads (q :: p) (t ++ " ... " ++ u).
End Patterns.

Section Now.
Variable show_dbl : spec_float -> string.
Variable show_ptr : option addr -> string.
Variable E : env.
(** The name of a method, as written where it was mentioned last. *)
Variable names : Z -> string.

(** What expression [c] reads like in the state [w]. *)
Definition reads_now (w : world) (c : nat) (t : string) : Prop :=
  exists x b bd im, heap_ctx w c = Def x /\ bound_body E w (cx_target x) = Def b /\ heap_body w b = Def bd /\
    heap_matcher w (cx_matcher x) = Def im /\ expression_reads show_dbl show_ptr (w_mem w) (names (bd_id bd)) im t.

(** What call [i] reads like in the state [w]. *)
Definition call_reads_now (w : world) (i : nat) (t : string) : Prop :=
  exists v, heap_inv w i = Def v /\ call_reads show_dbl show_ptr (w_mem w) (names (iv_method v)) (iv_args v) t.
End Now.

(** [p] holds if [n] meets the demand, [q] if it does not. *)
Definition if_accepted (d : requirement) (n : Z) (p q : Prop) : Prop :=
  (Spec_Verify.accepts d n -> p) /\ (~ Spec_Verify.accepts d n -> q).
