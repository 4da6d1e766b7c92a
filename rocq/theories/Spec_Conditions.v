(** What it is for the arguments of a call to meet a condition, independent of the matcher
    code.  (The meaning of the single comparisons: Spec_Args.v.) *)
From Coq Require Import Ascii String NArith ZArith List.
From Coq Require Import Floats.SpecFloat.
From Verif Require Import Base CInt Values ArgMatchers InvMatchers Spec_Args.
Import ListNotations.
Open Scope nat_scope.

(** Comparison of doubles as IEEE 754 has it: with NaN, only "not equal" holds. *)
Definition double_meaning (r : rel) (a e : spec_float) : Prop :=
  match r with
  | REq => SFcompare a e = Some Eq
  | RGt => SFcompare a e = Some Gt
  | RGe => SFcompare a e = Some Gt \/ SFcompare a e = Some Eq
  | RLt => SFcompare a e = Some Lt
  | RLe => SFcompare a e = Some Lt \/ SFcompare a e = Some Eq
  | RNe => SFcompare a e <> Some Eq
  end.

(** [means m c v P]: condition [c] on the value [v] is the statement [P].  Conditions
    that C++ gives no meaning (order of pointers to different objects, text at a null or
    dangling pointer, overflow) are not related to any statement. *)
Inductive means (m : mem) : amatcher -> val -> Prop -> Prop :=
| MeansAny : forall v, means m AAny v True
| MeansInt : forall r x y, means m (ACmp r (XVal (VInt y))) (VInt x) (int_meaning r x y)
| MeansDouble : forall r x y, means m (ACmp r (XVal (VDbl y))) (VDbl x) (double_meaning r x y)
| MeansBool : forall r x y, means m (ACmp r (XVal (VBool y))) (VBool x) (int_meaning r (Z.b2z x) (Z.b2z y))
| MeansChar : forall r x y, means m (ACmp r (XVal (VChar y))) (VChar x) (int_meaning r (char_number x) (char_number y))
| MeansString : forall r x y, means m (ACmp r (XVal (VStr y))) (VStr x) (text_meaning r (bytes x) (bytes y))
| MeansPtrEq : forall k p q, k = VPtr \/ k = VCStr -> means m (ACmp REq (XVal (k q))) (k p) (p = q)
| MeansPtrNe : forall k p q, k = VPtr \/ k = VCStr -> means m (ACmp RNe (XVal (k q))) (k p) (p <> q)
| MeansPtrSame : forall k r p, k = VPtr \/ k = VCStr -> means m (ACmp r (XVal (k p))) (k p) (In r [REq; RGe; RLe])
| MeansEq : forall x y, means m (ACmp REq (XVal (VOpaque y))) (VOpaque x) (x = y)
| MeansNe : forall x y, means m (ACmp RNe (XVal (VOpaque y))) (VOpaque x) (x <> y)
| MeansLiteral : forall r x s, means m (ACmp r (XArr s)) (VStr x) (text_meaning r (bytes x) (text s))
| MeansLiteralEq : forall p s, means m (ACmp REq (XArr s)) (VCStr p) False
| MeansLiteralNe : forall p s, means m (ACmp RNe (XArr s)) (VCStr p) True
| MeansText : forall r p s buf, load m p = Def (VStr buf) ->
    means m (AStr r s) (VCStr (Some p)) (text_meaning r (text buf) (text s))
| MeansNear : forall x y k, (Z.abs (x - y) <= int_max)%Z ->
    means m (AApprox (VInt y) (VInt k)) (VInt x) (Z.abs (x - y) <= k)%Z
| MeansNearDouble : forall x y k, means m (AApprox (VDbl y) (VDbl k)) (VDbl x) (double_meaning RLe (SFabs (dsub x y)) k).

(** The argument [a] (a reference stands for the object's current value) meets the
    condition; it is clear that it does not. *)
Definition meets (m : mem) (c : amatcher) (a : val) : Prop := exists v P, seen m a v /\ means m c v P /\ P.
Definition misses (m : mem) (c : amatcher) (a : val) : Prop := exists v P, seen m a v /\ means m c v P /\ ~ P.

(** All arguments meet their conditions (one for each, in order); the first that does not
    clearly does not.  A predicate is asked about the current values. *)
Inductive all_meet (m : mem) : list amatcher -> list val -> Prop :=
| AllNone : forall cs, all_meet m cs []
| AllCons : forall c cs a args, meets m c a -> all_meet m cs args -> all_meet m (c :: cs) (a :: args).
Inductive one_misses (m : mem) : list amatcher -> list val -> Prop :=
| OneHere : forall c cs a args, misses m c a -> length args <= length cs -> one_misses m (c :: cs) (a :: args)
| OneLater : forall c cs a args, meets m c a -> one_misses m cs args -> one_misses m (c :: cs) (a :: args).

Definition satisfied (m : mem) (c : imatcher) (args : list val) : Prop :=
  match c with
  | IMDefault => True
  | IMArgs cs => all_meet m cs args
  | IMUser p => exists vs, Forall2 (seen m) args vs /\ p vs = true
  end.
Definition unsatisfied (m : mem) (c : imatcher) (args : list val) : Prop :=
  match c with
  | IMDefault => False
  | IMArgs cs => one_misses m cs args
  | IMUser p => exists vs, Forall2 (seen m) args vs /\ p vs = false
  end.
