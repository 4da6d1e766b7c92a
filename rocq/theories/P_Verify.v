(** Properties of verification objects: when the check is made, what the
    quantifiers accept, what is reported. *)
From Coq Require Import Bool ZArith Lia List.
From Verif Require Import Base CInt Expectation Spec_Verify ExpectationProofs.
Import ListNotations.
Open Scope Z_scope.

(** C33, C49 and the verdicts of C22 and C35: the whole life of a verification
    object.  It makes one check: at the first conversion to bool (then nothing is
    ever reported, and later conversions answer true) or at its end (then a failure is
    reported once, with the requirement that was in force), and none at all when it dies
    while an exception is in flight. *)
Theorem C33_life : forall (os : list life_op) (inflight : bool) (count : Z),
  Forall op_int os ->
  exists l, life os inflight count = Def l /\
  match first_bool os with
  | Some (pre, c, post) =>
      checks_in l = [c] /\ reports_in l = [] /\
      exists b, answers_in l = b :: map (fun _ => true) (conversions post) /\
        (in_force (ReqAtLeast 1) pre <> ReqAtLeast 0 ->
         (b = true <-> accepts (in_force (ReqAtLeast 1) pre) c))
  | None =>
      answers_in l = [] /\
      if inflight then checks_in l = [] /\ reports_in l = []
      else checks_in l = [count] /\
           (reports_in l = [] \/ exists t n, reports_in l = [VFail t n count] /\ told (in_force (ReqAtLeast 1) os) t n) /\
           (in_force (ReqAtLeast 1) os <> ReqAtLeast 0 ->
            (reports_in l = [] <-> accepts (in_force (ReqAtLeast 1) os) count))
  end.
Proof. exact life_spec. Qed.
Print Assumptions C33_life.

Example C33_ex :
  life [LQuant QTwice; LQuant (QExactly 3)] false 2 = Def [EvCheck 2; EvReport (VFail VtExact 3 2)] /\
  life [LQuant (QAtLeast 2); LBool 2] false 5 = Def [EvCheck 2; EvAnswer true] /\
  life [LQuant QNever] true 5 = Def [] /\
  Forall op_int [LQuant QTwice; LQuant (QExactly 3)].
Proof.
  split; [reflexivity|split; [reflexivity|split; [reflexivity|]]].
  constructor; [exact I|constructor; [cbv; split; congruence|constructor]].
Qed.

(** C34 is false: after a failed conversion the next one succeeds. *)
Theorem C34_twice_refuted : exists count, life [LBool count; LBool count] false count =
  Def [EvCheck count; EvAnswer false; EvAnswer true].
Proof. exact second_conversion. Qed.
Print Assumptions C34_twice_refuted.

(** C35 holds for every n >= 1 ... *)
Theorem C35_at_least : forall (n count : Z), 1 <= n <= int_max ->
  exists l, life [LQuant (QAtLeast n)] false count = Def l /\ (reports_in l = [] <-> n <= count).
Proof. exact at_least_verdict. Qed.
Print Assumptions C35_at_least.

Example C35_at_least_ex : (1 <= 3 <= int_max) /\
  life [LQuant (QAtLeast 3)] false 2 = Def [EvCheck 2; EvReport (VFail VtAtLeast 3 2)].
Proof. split; [cbv; split; congruence | reflexivity]. Qed.

(** ... and is false for n = 0, whatever the (non-zero) number of matches: AtLeast(0)
    acts like Never(). *)
Theorem C35_at_least_zero_refuted : forall count, 0 < count ->
  exists l, life [LQuant (QAtLeast 0)] false count = Def l /\ reports_in l = [VFail VtExact 0 count].
Proof. exact at_least_zero. Qed.
Print Assumptions C35_at_least_zero_refuted.

Example C35_at_least_zero_ex : life [LQuant (QAtLeast 0)] false 1 = Def [EvCheck 1; EvReport (VFail VtExact 0 1)].
Proof. reflexivity. Qed.

(** C35: negative arguments are rejected before anything is set or checked. *)
Theorem C35_negative : forall (e : expectation) (n : Z), n < 0 ->
  life_step e (LQuant (QExactly n)) = Def (e, [EvInvalid]) /\
  life_step e (LQuant (QAtLeast n)) = Def (e, [EvInvalid]).
Proof. exact negative_rejected. Qed.
Print Assumptions C35_negative.

Example C35_negative_ex : life [LQuant (QAtLeast (-1))] false 1 = Def [EvInvalid; EvCheck 1].
Proof. reflexivity. Qed.

(** C22, verdict: a bare Verify asks for at least one match; Exactly(n), Never,
    Once and Twice for that number. *)
Theorem C22_default_verdict : forall count,
  exists l, life [] false count = Def l /\ (reports_in l = [] <-> 1 <= count).
Proof. exact default_verdict. Qed.
Print Assumptions C22_default_verdict.

Theorem C22_exact_verdict : forall (n count : Z), 0 <= n <= int_max ->
  exists l, life [LQuant (QExactly n)] false count = Def l /\ (reports_in l = [] <-> count = n).
Proof. exact exact_verdict. Qed.
Print Assumptions C22_exact_verdict.

Example C22_verdict_ex : life [] false 0 = Def [EvCheck 0; EvReport (VFail VtAtLeast 1 0)] /\
  life [LQuant (QExactly 2)] false 2 = Def [EvCheck 2].
Proof. split; reflexivity. Qed.
