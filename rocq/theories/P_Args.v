(** Properties of argument conditions. *)
From Coq Require Import Bool Ascii String NArith ZArith Reals Lra Lia List.
From Coq Require Import Floats.SpecFloat.
From Verif Require Import Base CInt Values ArgMatchers InvMatchers Spec_Args MatcherProofs Spec_Conditions ConditionProofs Spec_Double DoubleProofs.
Import ListNotations.
Open Scope Z_scope.

(** C37: Using(...) accepts iff every position accepts its argument. *)
Theorem C37_using : forall (m : mem) (us : list using_arg) (args : list val) (b : bool),
  length us = length args ->
  im_matches_args m (IMArgs (collect_matchers [] us)) args = Def b ->
  (b = true <-> Forall2 (fun u a => exists v, view m a = Def v /\ using_accepts m u v) us args).
Proof. exact using_spec. Qed.
Print Assumptions C37_using.

(** C37: and it is defined whenever each single comparison is. *)
Theorem C37_using_defined : forall (m : mem) (us : list using_arg) (args : list val),
  length us = length args ->
  Forall2 (fun u a => exists v b, view m a = Def v /\ am_matches m (collect_one u) v = Def b) us args ->
  exists b, im_matches_args m (IMArgs (collect_matchers [] us)) args = Def b.
Proof. exact using_total. Qed.
Print Assumptions C37_using_defined.

Example C37_using_ex :
  im_matches_args [Some (VInt 5)] (IMArgs (collect_matchers [] [UValue (XVal (VInt 5)); UWild; UMatcher (ACmp RGt (XVal (VInt 2)))]))
    [VRef 0%nat; VBool true; VInt 3] = Def true /\
  im_matches_args [Some (VInt 5)] (IMArgs (collect_matchers [] [UValue (XVal (VInt 5)); UWild; UMatcher (ACmp RGt (XVal (VInt 2)))]))
    [VRef 0%nat; VBool true; VInt 2] = Def false.
Proof. split; reflexivity. Qed.

(** C37 as a whole: a condition accepts, rejects, or is undefined, exactly as the meaning of its
    parts says (Spec_Conditions.v). *)
Theorem C37_condition : forall (m : mem) (c : imatcher) (args : list val),
  (satisfied m c args /\ im_matches_args m c args = Def true) \/
  (unsatisfied m c args /\ im_matches_args m c args = Def false) \/
  (~ satisfied m c args /\ ~ unsatisfied m c args /\ im_matches_args m c args = UB).
Proof. exact condition_spec. Qed.
Print Assumptions C37_condition.

(** The three cases: StrEq on a text, on another text, and on a null pointer. *)
Example C37_condition_ex :
  satisfied [Some (VStr "ab")] (IMArgs [AAny; AStr REq "ab"]) [VInt 1; VCStr (Some 0%nat)] /\
  unsatisfied [Some (VStr "ab")] (IMArgs [AAny; AStr REq "b"; AStr REq "c"]) [VInt 1; VCStr (Some 0%nat); VCStr None] /\
  im_matches_args [Some (VStr "ab")] (IMArgs [AAny; AStr REq "ab"]) [VInt 1; VCStr None] = UB.
Proof.
  split; [apply satisfied_iff; reflexivity|]. split; [apply unsatisfied_iff; reflexivity|reflexivity].
Qed.

(** C38 to C40 as a whole: a comparison is defined exactly where it has a meaning, and then it is that. *)
Theorem C38_comparison : forall (m : mem) (c : amatcher) (v : val),
  (exists P b, means m c v P /\ am_matches m c v = Def b /\ (b = true <-> P)) \/
  ((forall P, ~ means m c v P) /\ am_matches m c v = UB).
Proof. exact comparison_spec. Qed.
Print Assumptions C38_comparison.

Example C38_comparison_ex :
  means [] (AApprox (VInt 10) (VInt 3)) (VInt 8) (Z.abs (8 - 10) <= 3) /\
  am_matches [] (AApprox (VInt (-2)) (VInt 3)) (VInt int_max) = UB.
Proof. split; [apply MeansNear; unfold int_max; lia|reflexivity]. Qed.

(** C37: Matching(p) asks the predicate about the current values of the arguments, in
    order. *)
Theorem C37_matching : forall (m : mem) (p : list val -> bool) (args vs : list val),
  Forall2 (seen m) args vs -> im_matches_args m (IMUser p) args = Def (p vs).
Proof. exact matching_spec. Qed.
Print Assumptions C37_matching.

Example C37_matching_ex :
  Forall2 (seen [Some (VInt 5)]) [VRef 0%nat; VInt 3] [VInt 5; VInt 3] /\
  im_matches_args [Some (VInt 5)] (IMUser (fun vs => match vs with [VInt x; VInt y] => y <? x | _ => false end))
    [VRef 0%nat; VInt 3] = Def true.
Proof. split; [|reflexivity]. repeat constructor; discriminate. Qed.

(** C42: the arguments reach the predicate or action in order, each once. *)
Theorem C42_in_order : forall (A R : Type) (f : list A -> R) (t : list A), applyTuple f t = Some (f t).
Proof. exact applyTuple_spec. Qed.
Print Assumptions C42_in_order.

Example C42_in_order_ex : applyTuple (fun l => l) [1; 2; 3] = Some [1; 2; 3].
Proof. reflexivity. Qed.

(** C38, integers. *)
Theorem C38_int : forall (m : mem) (r : rel) (x y : Z), exists b,
  am_matches m (ACmp r (XVal (VInt y))) (VInt x) = Def b /\
  (b = true <-> match r with REq => x = y | RNe => x <> y | RGt => x > y | RGe => x >= y
                           | RLt => x < y | RLe => x <= y end).
Proof. exact int_matcher. Qed.
Print Assumptions C38_int.

Example C38_int_ex : am_matches [] (ACmp RGe (XVal (VInt 4))) (VInt 4) = Def true /\
  am_matches [] (ACmp RGt (XVal (VInt 4))) (VInt 4) = Def false.
Proof. split; reflexivity. Qed.

(** C38, bool: false is less than true. *)
Theorem C38_bool : forall (m : mem) (r : rel) (x y : bool), exists b,
  am_matches m (ACmp r (XVal (VBool y))) (VBool x) = Def b /\ (b = true <-> int_meaning r (Z.b2z x) (Z.b2z y)).
Proof. exact bool_matcher. Qed.
Print Assumptions C38_bool.

(** C38, char: the order of the (signed) numbers. *)
Theorem C38_char : forall (m : mem) (r : rel) (x y : ascii), exists b,
  am_matches m (ACmp r (XVal (VChar y))) (VChar x) = Def b /\
  (b = true <-> int_meaning r (char_number x) (char_number y)).
Proof. exact char_matcher. Qed.
Print Assumptions C38_char.

(** C38, pointers: Eq and Ne compare addresses; the order of pointers to different objects
    is not defined. *)
Theorem C38_pointer : forall (m : mem) (r : rel) (p q : option addr) (v : option addr -> val), v = VPtr \/ v = VCStr ->
  (p = q -> am_matches m (ACmp r (XVal (v q))) (v p) = Def (match r with REq | RGe | RLe => true | _ => false end)) /\
  (p <> q -> am_matches m (ACmp r (XVal (v q))) (v p) = match r with REq => Def false | RNe => Def true | _ => UB end).
Proof. exact pointer_matcher. Qed.
Print Assumptions C38_pointer.

(** C38, types with == only. *)
Theorem C38_eq : forall (m : mem) (x y : nat),
  am_matches m (ACmp REq (XVal (VOpaque y))) (VOpaque x) = Def true <-> x = y.
Proof. exact opaque_matcher. Qed.
Theorem C38_ne : forall (m : mem) (x y : nat),
  am_matches m (ACmp RNe (XVal (VOpaque y))) (VOpaque x) = Def true <-> x <> y.
Proof. exact opaque_ne_matcher. Qed.
Print Assumptions C38_eq.
Print Assumptions C38_ne.

Example C38_other_ex :
  am_matches [] (ACmp RLt (XVal (VBool true))) (VBool false) = Def true /\
  am_matches [] (ACmp RLt (XVal (VChar "a"))) (VChar (ascii_of_nat 200)) = Def true /\
  am_matches [] (ACmp RNe (XVal (VPtr (Some 1%nat)))) (VPtr None) = Def true /\
  am_matches [] (ACmp RNe (XVal (VOpaque 1))) (VOpaque 1) = Def false.
Proof. repeat split; reflexivity. Qed.

(** C38, doubles that are numbers (infinities included): the order of the extended
    real line. *)
Theorem C38_double : forall (m : mem) (r : rel) (x y : spec_float) (a b : ext),
  is_double x -> is_double y -> number x = Some a -> number y = Some b ->
  exists t, am_matches m (ACmp r (XVal (VDbl y))) (VDbl x) = Def t /\ (t = true <-> ext_meaning r a b).
Proof. exact double_matcher. Qed.
Print Assumptions C38_double.

Example C38_double_ex : is_double d_big /\ is_double (S754_infinity true) /\
  am_matches [] (ACmp RGt (XVal (VDbl (S754_infinity true)))) (VDbl d_big) = Def true.
Proof. repeat split. Qed.

(** C38, NaN: only Ne accepts. *)
Theorem C38_nan : forall (m : mem) (r : rel) (x y : spec_float),
  number x = None \/ number y = None ->
  am_matches m (ACmp r (XVal (VDbl y))) (VDbl x) = Def (match r with RNe => true | _ => false end).
Proof. exact nan_numbers. Qed.
Print Assumptions C38_nan.

Example C38_nan_ex : am_matches [] (ACmp REq (XVal (VDbl S754_nan))) (VDbl S754_nan) = Def false.
Proof. reflexivity. Qed.

(** C38, std::string: byte-wise lexicographic order of the whole contents. *)
Theorem C38_std_string : forall (m : mem) (r : rel) (x y : string),
  exists b, am_matches m (ACmp r (XVal (VStr y))) (VStr x) = Def b /\
            (b = true <-> text_meaning r (bytes x) (bytes y)).
Proof. exact std_string_matcher. Qed.
Print Assumptions C38_std_string.

Example C38_std_string_ex : am_matches [] (ACmp RLt (XVal (VStr "abd"))) (VStr "abc") = Def true.
Proof. reflexivity. Qed.

(** C38, string literal given for a std::string parameter. *)
Theorem C38_literal : forall (m : mem) (r : rel) (x s : string),
  exists b, am_matches m (ACmp r (XArr s)) (VStr x) = Def b /\
            (b = true <-> text_meaning r (bytes x) (text s)).
Proof. exact literal_matcher. Qed.
Print Assumptions C38_literal.

Example C38_literal_ex : am_matches [] (ACmp REq (XArr "ab")) (VStr "ab") = Def true.
Proof. reflexivity. Qed.

(** C38 fails to be useful for a literal given for a const char* parameter: Eq
    compares addresses with a private copy and never accepts. *)
Theorem C38_literal_pointer_refuted : forall (m : mem) (s : string) (p : option addr),
  am_matches m (collect_one (UValue (XArr s))) (VCStr p) = Def false.
Proof. reflexivity. Qed.
Print Assumptions C38_literal_pointer_refuted.

Example C38_literal_pointer_ex :
  am_matches [Some (VStr "abc")] (collect_one (UValue (XArr "abc"))) (VCStr (Some 0%nat)) = Def false.
Proof. reflexivity. Qed.

(** C39: C strings, up to the first NUL, in unsigned byte order. *)
Theorem C39_c_strings : forall (m : mem) (r : rel) (s : string) (p : addr) (buf : string),
  load m p = Def (VStr buf) ->
  exists b, am_matches m (AStr r s) (VCStr (Some p)) = Def b /\
            (b = true <-> text_meaning r (text buf) (text s)).
Proof. exact str_matcher. Qed.
Print Assumptions C39_c_strings.

Example C39_c_strings_ex :
  let nul := String (ascii_of_nat 0) "x" in
  load [Some (VStr ("ab" ++ nul))] 0%nat = Def (VStr ("ab" ++ nul)) /\
  am_matches [Some (VStr ("ab" ++ nul))] (AStr REq "ab") (VCStr (Some 0%nat)) = Def true.
Proof. split; reflexivity. Qed.

(** C39: a null pointer is undefined behaviour. *)
Theorem C39_null : forall (m : mem) (r : rel) (s : string), am_matches m (AStr r s) (VCStr None) = UB.
Proof. exact str_null. Qed.
Print Assumptions C39_null.

(** C40, ints: exactly the closed ball; a distance beyond the range of int is
    undefined behaviour. *)
Theorem C40_int : forall (m : mem) (x e k : Z),
  int_min <= x <= int_max -> int_min <= e <= int_max ->
  (Z.abs (x - e) <= int_max ->
     exists b, am_matches m (AApprox (VInt e) (VInt k)) (VInt x) = Def b /\
               (b = true <-> Z.abs (x - e) <= k)) /\
  (int_max < Z.abs (x - e) -> am_matches m (AApprox (VInt e) (VInt k)) (VInt x) = UB).
Proof. exact approx_int. Qed.
Print Assumptions C40_int.

Example C40_int_ex : am_matches [] (AApprox (VInt 10) (VInt 2)) (VInt 8) = Def true /\
  am_matches [] (AApprox (VInt 10) (VInt 2)) (VInt 7) = Def false.
Proof. split; reflexivity. Qed.

(** C40, doubles: the distance rounded to the nearest double is what is compared
    with the margin. *)
Theorem C40_double : forall (m : mem) (x e k : spec_float) (a b c : R),
  is_double x -> is_double e -> is_double k ->
  number x = Some (Fin a) -> number e = Some (Fin b) -> number k = Some (Fin c) ->
  exists t, am_matches m (AApprox (VDbl e) (VDbl k)) (VDbl x) = Def t /\
    (t = true <-> (Rabs (nearest_double (a - b)) <= c)%R).
Proof. exact approx_dbl. Qed.
Print Assumptions C40_double.

(** C40, doubles: nothing within the exact margin is rejected. *)
Theorem C40_double_sound : forall (m : mem) (x e k : spec_float) (a b c : R),
  is_double x -> is_double e -> is_double k ->
  number x = Some (Fin a) -> number e = Some (Fin b) -> number k = Some (Fin c) ->
  (Rabs (a - b) <= c)%R -> am_matches m (AApprox (VDbl e) (VDbl k)) (VDbl x) = Def true.
Proof. exact approx_dbl_sound. Qed.
Print Assumptions C40_double_sound.

Example C40_double_ex : is_double (S754_finite false 4503599627370496 (-52)) /\
  am_matches [] (AApprox (VDbl (S754_finite false 4503599627370496 (-52))) (VDbl (S754_zero false)))
    (VDbl (S754_finite false 4503599627370496 (-52))) = Def true.
Proof. split; reflexivity. Qed.

(** C40, doubles: a negative or NaN margin accepts nothing. *)
Theorem C40_bad_margin : forall (m : mem) (a e k : spec_float),
  number k = None \/ (exists n, number k = Some n /\ ext_lt n (Fin 0)) ->
  am_matches m (AApprox (VDbl e) (VDbl k)) (VDbl a) = Def false.
Proof. exact bad_margin. Qed.
Print Assumptions C40_bad_margin.

Example C40_bad_margin_ex : exists n, number d_minus1 = Some n /\ ext_lt n (Fin 0).
Proof. eexists. split; [reflexivity|]. pose proof (Flocq.Core.Raux.bpow_gt_0 Flocq.Core.Zaux.radix2 (-52)). cbn in *. Lra.lra. Qed.

(** C40 read with the exact distance is false for doubles: 2^53 is accepted by
    ApproxEq(-1, 2^53) although the distance is 2^53 + 1. *)
Theorem C40_double_exact_refuted :
  is_double d_big /\ is_double d_minus1 /\
  number d_big = Some (Fin (IZR (2^53))) /\ number d_minus1 = Some (Fin (-1)) /\
  (forall m, am_matches m (AApprox (VDbl d_minus1) (VDbl d_big)) (VDbl d_big) = Def true) /\
  (Rabs (IZR (2^53) - (-1)) > IZR (2^53))%R.
Proof.
  exact (conj (proj1 approx_dbl_not_exact) (conj (proj1 (proj2 approx_dbl_not_exact))
    (conj (proj1 (proj2 (proj2 approx_dbl_not_exact))) (conj (proj1 (proj2 (proj2 (proj2 approx_dbl_not_exact))))
    (conj (proj2 (proj2 (proj2 (proj2 approx_dbl_not_exact)))) approx_dbl_distance))))).
Qed.
Print Assumptions C40_double_exact_refuted.
