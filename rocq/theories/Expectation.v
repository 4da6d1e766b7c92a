(** Model of the verification expectation and its handles:
    include/fakeit/SequenceVerificationExpectation.hpp,
    SequenceVerificationProgress.hpp, ThrowFalseEventHandler.hpp. *)
From Coq Require Import Bool ZArith Lia List.
From Verif Require Import Base CInt.
Import ListNotations.
Open Scope Z_scope.

(** SequenceVerificationExpectation.hpp:42-51 (the pattern and the sources are
    modelled where the analysis is run). *)
Record expectation : Type := mkExp {
  ex_count : Z;      (* _expectedCount *)
  ex_any : bool;     (* _expectAnything *)
  ex_done : bool     (* _isVerified *)
}.

(** Constructor: 53-64. *)
Definition exp_new : expectation := mkExp (-1) false false.

(** The outcome of a check that was performed: success, or the event handed to
    the handler (type, expected count, actual count: 127-141). *)
Inductive vtype : Type := VtExact | VtAtLeast.
(** What VerifyExpectation comes to: SequenceVerificationExpectation.hpp:75-85. *)
Inductive verdict : Type :=
| VOk
| VFail (t : vtype) (expected actual : Z).

(** 106-125. *)
Definition isAtLeastVerification (e : expectation) : bool := ex_count e <? 0.
(** SequenceVerificationExpectation.hpp:119-121. *)
Definition atLeastLimitNotReached (e : expectation) (actual : Z) : outcome bool :=
  let! n := ineg (ex_count e) in Def (actual <? n).
(** SequenceVerificationExpectation.hpp:123-125. *)
Definition exactLimitNotMatched (e : expectation) (actual : Z) : bool := negb (actual =? ex_count e).

(** The decision part of VerifyExpectation: 74-83; [count] is ma.count. *)
Definition decide (e : expectation) (count : Z) : outcome verdict :=
  if negb (ex_any e) then
    if isAtLeastVerification e then
      let! b := atLeastLimitNotReached e count in
      if b then let! n := ineg (ex_count e) in Def (VFail VtAtLeast n count)
      else Def VOk
    else if exactLimitNotMatched e count then Def (VFail VtExact (ex_count e) count)
    else Def VOk
  else Def VOk.

(** VerifyExpectation: 67-86; [None]: already verified, nothing is done. *)
Definition VerifyExpectation (e : expectation) (count : Z) : outcome (expectation * option verdict) :=
  if ex_done e then Def (e, None)
  else let e' := mkExp (ex_count e) (ex_any e) true in
       let! v := decide e' count in Def (e', Some v).

(** Terminator::toBool: SequenceVerificationProgress.hpp:42-51 with
    ThrowFalseEventHandler (ThrowFalseEventHandler.hpp:11-17): a failed check
    throws [false], which is caught and returned. *)
Definition toBool (e : expectation) (count : Z) : outcome (expectation * option verdict * bool) :=
  let! (e', v) := VerifyExpectation e count in
  Def (e', v, match v with Some (VFail _ _ _) => false | _ => true end).

(** The destructor: SequenceVerificationExpectation.hpp:15-20; [inflight]:
    UncaughtException() (FakeitExceptions.hpp:17-25). *)
Definition exp_destroy (e : expectation) (inflight : bool) (count : Z)
  : outcome (expectation * option verdict) :=
  if inflight then Def (e, None) else VerifyExpectation e count.

(** Quantifiers: SequenceVerificationProgress.hpp:73-122; [None] is
    std::invalid_argument. *)
Inductive quant : Type :=
| QAny | QNever | QOnce | QTwice | QAtLeastOnce
| QExactly (n : Z) | QAtLeast (n : Z).

(** SequenceVerificationProgress.hpp:35-37, SequenceVerificationExpectation.hpp:26-28. *)
Definition verifyInvocations (e : expectation) (times : Z) : expectation :=
  mkExp times (ex_any e) (ex_done e).

(** SequenceVerificationProgress.hpp:98-104; [None] is std::invalid_argument. *)
Definition Exactly (e : expectation) (times : Z) : option expectation :=
  if times <? 0 then None else Some (verifyInvocations e times).

(** SequenceVerificationProgress.hpp:111-117. *)
Definition AtLeast (e : expectation) (times : Z) : outcome (option expectation) :=
  if times <? 0 then Def None
  else let! n := ineg times in Def (Some (verifyInvocations e n)).

(** SequenceVerificationProgress.hpp:73-122. *)
Definition set_quant (e : expectation) (q : quant) : outcome (option expectation) :=
  match q with
  | QAny => Def (Some (mkExp (ex_count e) true (ex_done e)))
  | QNever => Def (Exactly e 0)
  | QOnce => Def (Exactly e 1)
  | QTwice => Def (Exactly e 2)
  | QAtLeastOnce => Def (Some (verifyInvocations e (-1)))
  | QExactly n => Def (Exactly e n)
  | QAtLeast n => AtLeast e n
  end.

(** ** The life of a verification object.
    [count]: what the analysis finds at that moment.  SequenceVerificationProgress.hpp:39-122. *)
Inductive life_op : Type :=
| LQuant (q : quant)
| LBool (count : Z)       (* conversion to bool, also through operator! *)
.

(** What can be observed of it: SequenceVerificationExpectation.hpp:67-86, 127-141, ThrowFalseEventHandler.hpp:9-18.
    *)
Inductive life_ev : Type :=
| EvInvalid                       (* std::invalid_argument *)
| EvCheck (count : Z)             (* the analysis was run *)
| EvAnswer (b : bool)             (* result of a conversion *)
| EvReport (v : verdict).         (* event handed to the context *)

(** SequenceVerificationExpectation.hpp:72-85. *)
Definition checked (v : option verdict) (count : Z) : list life_ev :=
  match v with None => [] | Some _ => [EvCheck count] end.

(** SequenceVerificationProgress.hpp:42-51, 56-60, 67-122. *)
Definition life_step (e : expectation) (o : life_op) : outcome (expectation * list life_ev) :=
  match o with
  | LQuant q =>
      let! r := set_quant e q in
      Def (match r with Some e' => (e', []) | None => (e, [EvInvalid]) end)
  | LBool c =>
      let! (e', v, b) := toBool e c in
      Def (e', checked v c ++ [EvAnswer b])
  end.

(** Several, one after the other: code of the user.  SequenceVerificationProgress.hpp:42-51, 56-60, 67-122. *)
Fixpoint life_run (e : expectation) (os : list life_op) : outcome (expectation * list life_ev) :=
  match os with
  | [] => Def (e, [])
  | o :: r =>
      let! (e1, l1) := life_step e o in
      let! (e2, l2) := life_run e1 r in
      Def (e2, l1 ++ l2)
  end.

(** The whole life: operations on the handles, then the release of the last
    handle.  smart_ptr.hpp and ~SequenceVerificationExpectation, SequenceVerificationExpectation.hpp:15-20. *)
Definition life (os : list life_op) (inflight : bool) (count : Z) : outcome (list life_ev) :=
  let! (e, l) := life_run exp_new os in
  let! (_, v) := exp_destroy e inflight count in
  Def (l ++ checked v count ++
       match v with Some (VFail t n a) => [EvReport (VFail t n a)] | _ => [] end).
