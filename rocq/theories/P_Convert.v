(** Properties C76 and C77: operands of another arithmetic type than the parameter. *)
From Coq Require Import ZArith Reals Lia Lra Floats.SpecFloat.
From Flocq Require Core.Raux.
From Verif Require Import Base Values ArgMatchers Spec_Args Convert Spec_Convert Spec_ConvertMixed Spec_Double ConvertProofs ConvertFloatProofs ConvertMixedProofs.
Open Scope Z_scope.

(** C76: the call f(x) is accepted by Using(x) if the type of the parameter can hold x. *)
Theorem C76_held : forall (t u : ity) (x : Z), fits t x -> compares REq t (passed t x) u x = true.
Proof. exact fits_accepted. Qed.
Example C76_held_case : fits (TInt true W16) (-7) /\ compares REq (TInt true W16) (passed (TInt true W16) (-7)) (TInt true W64) (-7) = true /\
  compares REq (TInt true W16) (passed (TInt true W16) (-8)) (TInt true W64) (-7) = false.
Proof. cbn; lia. Qed.

(** C76: or if the parameter is at least as wide as int and as the operand. *)
Theorem C76_wide : forall (s : bool) (w : width) (u : ity) (x : Z), 32 <= bits w ->
  (forall s' w', u = TInt s' w' -> bits w' <= bits w) ->
  compares REq (TInt s w) (passed (TInt s w) x) u x = true.
Proof. exact wide_accepted. Qed.
(** f(-1) with an unsigned parameter. *)
Example C76_wide_case : 32 <= bits W32 /\ (forall s' w', TInt true W32 = TInt s' w' -> bits w' <= bits W32) /\
  passed (TInt false W32) (-1) = 4294967295 /\ compares REq (TInt false W32) 4294967295 (TInt true W32) (-1) = true.
Proof. split; [cbn; lia|]. split; [intros s' w' H; injection H as <- <-; lia|]. split; reflexivity. Qed.

(** What a parameter receives: the number its type has that differs by a multiple of the
    number of values of the type; bool: whether it is not zero. *)
Theorem C76_passed : forall (s : bool) (w : width) (x z : Z), passed (TInt s w) x = z <-> fits (TInt s w) z /\ (size_of w | x - z).
Proof. exact passed_int. Qed.
Theorem C76_passed_bool : forall x z : Z, passed TBool x = z <-> (x = 0 /\ z = 0) \/ (x <> 0 /\ z = 1).
Proof. exact passed_bool. Qed.
Example C76_passed_case : passed (TInt true W8) 300 = 44 /\ passed (TInt false W16) (-1) = 65535 /\ passed TBool (-3) = 1.
Proof. repeat split. Qed.

(** C76, exactly: an argument is accepted by an operand if and only if they differ by a
    multiple of the number of values that the comparison tells apart. *)
Theorem C76_equal : forall (t u : ity) (a e : Z), compares REq t a u e = true <-> (values_of t u | a - e).
Proof. exact equal_modulo. Qed.
(** An int parameter that is -1 is accepted by Using(4294967295u). *)
Example C76_equal_case : (values_of (TInt true W32) (TInt false W32) | -1 - 4294967295) /\
  ~ (values_of (TInt true W32) (TInt true W64) | -1 - 4294967295).
Proof.
  split; [exists (-1); reflexivity|]. intros [k K]. cbn in K. lia.
Qed.

(** C76 fails for narrowing: f(300) for a parameter of type signed char is not accepted by
    Using(300), nor f(2) for a bool one by Using(2). *)
Theorem C76_narrowed_refuted : exists (t u : ity) (x : Z), fits u x /\ compares REq t (passed t x) u x = false.
Proof. exists (TInt true W8), (TInt true W32), 300. split; [cbn; lia|reflexivity]. Qed.
Example C76_narrowed_bool : fits (TInt true W32) 2 /\ compares REq TBool (passed TBool 2) (TInt true W32) 2 = false.
Proof. split; [cbn; lia|reflexivity]. Qed.

(** C76 for a parameter of type float and an operand of type double: accepted if and only if
    the operand is a number that float has. *)
Theorem C76_float : forall (x : spec_float) (n : ext), is_double x -> number x = Some n ->
  (compares_float REq (to_float x) x = true <-> exists y, is_float y /\ number y = number x).
Proof. exact float_accepted. Qed.
(** 0.5 *)
Example C76_float_case : is_double (S754_finite false 4503599627370496 (-53)) /\
  (exists n, number (S754_finite false 4503599627370496 (-53)) = Some n) /\
  compares_float REq (to_float (S754_finite false 4503599627370496 (-53))) (S754_finite false 4503599627370496 (-53)) = true.
Proof. split; [reflexivity|]. split; [eexists; reflexivity|reflexivity]. Qed.

(** f(0.1) for a float parameter is not accepted by Using(0.1). *)
Theorem C76_float_refuted : exists x : spec_float, is_double x /\ number x <> None /\
  compares_float REq (to_float x) x = false /\ compares_float RGt (to_float x) x = true.
Proof. exists (S754_finite false 7205759403792794 (-56)). repeat split; try reflexivity. discriminate. Qed.

(** C77: the comparison matchers compare the numbers, if the comparison keeps signs or neither
    number is negative. *)
Theorem C77_numbers : forall (r : rel) (t u : ity) (a e : Z), fits t a -> fits u e ->
  ~ signless t u \/ (0 <= a /\ 0 <= e) ->
  (compares r t a u e = true <-> int_meaning r a e).
Proof. exact numbers_compared. Qed.
(** A long parameter and an unsigned operand; a short one and an unsigned char operand. *)
Example C77_numbers_case : ~ signless (TInt true W64) (TInt false W32) /\ ~ signless (TInt true W16) (TInt false W8) /\
  compares RLt (TInt true W64) (-5) (TInt false W32) 0 = true.
Proof.
  unfold signless. cbn. repeat split; try (intros [H|[H|[H [K|K]]]]; discriminate).
Qed.

(** C77 in the other case: negative numbers count as the large ones they convert to. *)
Theorem C77_signless : forall (r : rel) (t u : ity) (a e : Z), fits t a -> fits u e -> signless t u ->
  (compares r t a u e = true <->
   int_meaning r (if a <? 0 then a + values_of t u else a) (if e <? 0 then e + values_of t u else e)).
Proof. exact signless_compared. Qed.
Example C77_signless_case : fits (TInt true W32) (-5) /\ fits (TInt false W32) 3 /\ signless (TInt true W32) (TInt false W32).
Proof. unfold signless. cbn. repeat split; try lia. right; right; split; auto. Qed.

(** So Gt(3u) accepts -5 for an int parameter, and Lt(3u) does not. *)
Theorem C77_refuted : exists (t u : ity) (a e : Z), fits t a /\ fits u e /\ a < e /\
  compares RGt t a u e = true /\ compares RLt t a u e = false.
Proof. exists (TInt true W32), (TInt false W32), (-5), 3. cbn. repeat split; lia. Qed.

(** C76 for a floating point parameter and an integer operand: always. *)
Theorem C76_integer_operand : forall (f : fty) (x : Z), Z.abs x <= 2 ^ 64 -> compares_fp_int REq f (int_to f x) x = true.
Proof. exact mixed_passed. Qed.
(** f(16777217) for a float parameter, which receives 16777216. *)
Example C76_integer_operand_case : Z.abs 16777217 <= 2 ^ 64 /\ int_to TFloat 16777217 = int_to TFloat 16777216 /\
  int_to TDouble 16777217 <> int_to TDouble 16777216.
Proof. split; [cbn; lia|]. split; [reflexivity|discriminate]. Qed.

(** C76 for an integer parameter and a floating point operand in its range: accepted if and
    only if the operand is a whole number; for bool, if it is 0 or 1. *)
Theorem C76_floating_operand : forall (f : fty) (s : bool) (w : width) (x : spec_float) (z : Z),
  is_fp f x -> from_fp (TInt s w) x = Def z ->
  (compares_int_fp REq f z x = true <-> exists k, number x = Some (Fin (IZR k))).
Proof. exact mixed_dropped. Qed.
(** f(-3.0) *)
Example C76_floating_operand_case : is_fp TDouble (S754_finite true 6755399441055744 (-51)) /\
  from_fp (TInt true W32) (S754_finite true 6755399441055744 (-51)) = Def (-3) /\
  from_fp (TInt false W32) (S754_finite true 6755399441055744 (-51)) = UB /\
  compares_int_fp REq TDouble (-3) (S754_finite true 6755399441055744 (-51)) = true.
Proof. repeat split. Qed.

Theorem C76_floating_operand_bool : forall (f : fty) (x : spec_float) (z : Z), is_fp f x -> from_fp TBool x = Def z ->
  (compares_int_fp REq f z x = true <-> number x = Some (Fin 0) \/ number x = Some (Fin 1)).
Proof. exact mixed_bool. Qed.
Example C76_floating_operand_bool_case : is_fp TFloat (S754_finite false 8388608 (-22)) /\
  from_fp TBool (S754_finite false 8388608 (-22)) = Def 1 /\
  compares_int_fp REq TFloat 1 (S754_finite false 8388608 (-22)) = false.
Proof. repeat split. Qed.

(** What such a parameter receives: the number without its fraction, if the type holds that;
    otherwise the conversion is undefined. *)
Theorem C76_received : forall (s : bool) (w : width) (x : spec_float) (v : R) (z : Z), number x = Some (Fin v) ->
  (from_fp (TInt s w) x = Def z <-> z = Raux.Ztrunc v /\ fits (TInt s w) z).
Proof. exact received. Qed.
(** -2.5 and 255.5 for the char types. *)
Example C76_received_case : from_fp (TInt true W8) (S754_finite true 5 (-1)) = Def (-2) /\
  from_fp (TInt false W8) (S754_finite true 5 (-1)) = UB /\ from_fp (TInt false W8) (S754_finite false 511 (-1)) = Def 255 /\
  from_fp (TInt true W8) (S754_finite false 511 (-1)) = UB.
Proof. repeat split. Qed.

(** So f(2.5) for an int parameter is not accepted by Using(2.5). *)
Theorem C76_fraction_refuted : exists (x : spec_float) (z : Z), is_fp TDouble x /\ number x = Some (Fin (5 / 2)) /\
  from_fp (TInt true W32) x = Def z /\ compares_int_fp REq TDouble z x = false.
Proof.
  exists (S754_finite false 5629499534213120 (-51)), 2. split; [reflexivity|]. split; [|split; reflexivity].
  cbn. do 2 f_equal. lra.
Qed.

(** C77 for an integer and a floating point number, up to 2^24 for float and 2^53 for double. *)
Theorem C77_mixed : forall (f : fty) (r : rel) (z : Z) (x : spec_float) (n : ext),
  Z.abs z <= whole_up_to f -> is_fp f x -> number x = Some n ->
  (compares_int_fp r f z x = true <-> ext_meaning r (Fin (IZR z)) n) /\
  (compares_fp_int r f x z = true <-> ext_meaning r n (Fin (IZR z))).
Proof. exact mixed_numbers. Qed.
(** 3 and 2.5 *)
Example C77_mixed_case : Z.abs 3 <= whole_up_to TDouble /\ is_fp TDouble (S754_finite false 5629499534213120 (-51)) /\
  (exists n, number (S754_finite false 5629499534213120 (-51)) = Some n) /\
  compares_int_fp RGt TDouble 3 (S754_finite false 5629499534213120 (-51)) = true /\
  compares_fp_int RGt TDouble (S754_finite false 5629499534213120 (-51)) 3 = false.
Proof. split; [cbn; lia|]. split; [reflexivity|]. split; [eexists; reflexivity|]. split; reflexivity. Qed.

(** Beyond that the integer counts as the floating point number nearest to it. *)
Theorem C77_mixed_rounded : forall (f : fty) (r : rel) (z : Z) (x : spec_float) (n : ext),
  Z.abs z <= 2 ^ 64 -> is_fp f x -> number x = Some n ->
  (compares_int_fp r f z x = true <-> ext_meaning r (Fin (nearest f (IZR z))) n) /\
  (compares_fp_int r f x z = true <-> ext_meaning r n (Fin (nearest f (IZR z)))).
Proof. exact (fun f r z x n B V N => conj (mixed_int_fp f r z x n B V N) (mixed_fp_int f r x z n B V N)). Qed.
Example C77_mixed_rounded_case : Z.abs 9007199254740995 <= 2 ^ 64 /\
  compares_int_fp REq TDouble 9007199254740995 (S754_finite false 4503599627370498 1) = true.
Proof. split; [cbn; lia|reflexivity]. Qed.

(** So Eq(9007199254740992.0) accepts 9007199254740993, and Gt does not. *)
Theorem C77_mixed_refuted : exists (z : Z) (x : spec_float) (v : R), fits (TInt true W64) z /\ is_fp TDouble x /\
  number x = Some (Fin v) /\ (v < IZR z)%R /\
  compares_int_fp REq TDouble z x = true /\ compares_int_fp RGt TDouble z x = false.
Proof.
  exists 9007199254740993, (S754_finite false 4503599627370496 1). eexists. split; [cbn; lia|]. split; [reflexivity|].
  split; [reflexivity|]. split; [cbn; lra|]. split; reflexivity.
Qed.

Definition P_Convert_theorems :=
  (C76_held, C76_passed, C76_passed_bool, C76_wide, C76_equal, C76_narrowed_refuted, C77_numbers, C77_signless, C77_refuted).
Print Assumptions P_Convert_theorems.
Print Assumptions C76_float.
Print Assumptions C76_float_refuted.
Print Assumptions C76_integer_operand.
Print Assumptions C76_floating_operand.
Print Assumptions C76_floating_operand_bool.
Print Assumptions C76_received.
Print Assumptions C76_fraction_refuted.
Print Assumptions C77_mixed.
Print Assumptions C77_mixed_rounded.
Print Assumptions C77_mixed_refuted.
