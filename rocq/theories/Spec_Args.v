(** Specification of what argument conditions mean, independent of the matcher
    code: relations on numbers, on texts and on values. *)
From Coq Require Import Ascii String NArith ZArith List.
From Coq Require Import Floats.SpecFloat.
From Verif Require Import Base Values ArgMatchers.
Import ListNotations.

(** The mathematical meaning of the six comparisons on integers. *)
Definition int_meaning (r : rel) (a e : Z) : Prop :=
  match r with
  | REq => a = e
  | RGt => (a > e)%Z
  | RGe => (a >= e)%Z
  | RLt => (a < e)%Z
  | RLe => (a <= e)%Z
  | RNe => a <> e
  end.

(** The text held in a character buffer: its bytes up to the first NUL. *)
Fixpoint text (s : string) : list N :=
  match s with
  | EmptyString => []
  | String c s' => if N.eqb (N_of_ascii c) 0 then [] else N_of_ascii c :: text s'
  end.

(** All bytes of a std::string. *)
Fixpoint bytes (s : string) : list N :=
  match s with
  | EmptyString => []
  | String c s' => N_of_ascii c :: bytes s'
  end.

(** Lexicographic order on byte lists. *)
Inductive lex_lt : list N -> list N -> Prop :=
| lex_nil : forall b t, lex_lt [] (b :: t)
| lex_head : forall a b s t, (a < b)%N -> lex_lt (a :: s) (b :: t)
| lex_tail : forall a s t, lex_lt s t -> lex_lt (a :: s) (a :: t).

Definition text_meaning (r : rel) (a e : list N) : Prop :=
  match r with
  | REq => a = e
  | RGt => lex_lt e a
  | RGe => lex_lt e a \/ a = e
  | RLt => lex_lt a e
  | RLe => lex_lt a e \/ a = e
  | RNe => a <> e
  end.

(** Equality of argument values as the == operator of their type has it. *)
Definition same_value (a e : val) : Prop :=
  match a, e with
  | VInt x, VInt y => x = y
  | VDbl x, VDbl y => SFcompare x y = Some Eq
  | VBool x, VBool y => x = y
  | VChar x, VChar y => x = y
  | VStr x, VStr y => x = y
  | VCStr p, VCStr q => p = q
  | VPtr p, VPtr q => p = q
  | VOpaque x, VOpaque y => x = y
  | _, _ => False
  end.

(** What one argument of Using(...) accepts. *)
Definition using_accepts (m : mem) (u : using_arg) (v : val) : Prop :=
  match u with
  | UWild => True
  | UMatcher am => am_matches m am v = Def true
  | UValue (XVal e) => same_value v e
  | UValue (XArr s) => am_matches m (ACmp REq (XArr s)) v = Def true
  end.

(** The number a plain char stands for: two's complement of eight bits. *)
Definition char_number (c : ascii) : Z :=
  if (N_of_ascii c <? 128)%N then Z.of_N (N_of_ascii c) else (Z.of_N (N_of_ascii c) - 256)%Z.

(** What a condition sees of an argument: of a reference, the current value of the object. *)
Inductive seen (m : mem) : val -> val -> Prop :=
| seen_ref : forall a v, load m a = Def v -> seen m (VRef a) v
| seen_val : forall v, (forall a, v <> VRef a) -> seen m v v.
