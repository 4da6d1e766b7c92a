(** Property C79: sequences can be put together from sequences that are kept in variables. *)
From Coq Require Import ZArith Lia List.
From Verif Require Import Base SeqVars Spec_SeqVars SeqVarsProofs.
Import ListNotations.
Open Scope nat_scope.

(** C79: a program that puts its sequences together from variables, and whose scopes end inside
    out, verifies what the expressions stand for; inside Verify(…) any expression will do. *)
Theorem C79_variables : forall (A : Type) (prog : list (qstmt A)) (seen : list (list (list A))),
  shows [] [] prog seen -> exists s, qrun prog qstart = Def (Some s) /\ q_seen s = seen.
Proof. intros A. exact sequences_of_variables. Qed.
(** auto a = Method(m, f); auto b = Method(m, g); { const auto &s = a + b; auto t = s * 2;
    Verify(t + Method(m, h), s); } Verify(2 * (a + b)); *)
Definition C79_prog : list (qstmt nat) :=
  [QAuto (QMethod 10); QAuto (QMethod 20); QRef (QPlus (QVar 0) (QVar 1)); QAuto (QTimes (QVar 2) 2);
   QVerify [QPlus (QVar 3) (QMethod 30); QVar 2]; QEnd 3; QEnd 2; QVerify [QTimes (QPlus (QVar 0) (QVar 1)) 2]].
Example C79_variables_case :
  shows [] [] C79_prog [[[10; 20; 10; 20; 30]; [10; 20]]; [[10; 20; 10; 20]]].
Proof.
  unfold C79_prog.
  eapply ShAuto; [exact Logic.I|apply SfMethod|]. eapply ShAuto; [exact Logic.I|apply SfMethod|].
  eapply ShRef; [exact Logic.I|intros [a H]; discriminate|apply (SfPlus _ _ _ [10] [20]); now constructor|].
  eapply ShAuto; [exact Logic.I|apply (SfTimes _ _ 2%Z [10; 20]); [lia|now constructor]|].
  eapply ShVerify with (ls := [[10; 20; 10; 20; 30]; [10; 20]]).
  { constructor; [|constructor; [now constructor|constructor]]. apply (SfPlus _ _ _ [10; 20; 10; 20] [30]); now constructor. }
  eapply ShScope; [split; [eexists; reflexivity|intros [|[|[|[|y]]]] l L; cbn; try lia; now destruct y]|].
  eapply ShScope; [split; [eexists; reflexivity|intros [|[|[|[|y]]]] l L; cbn; try lia; try discriminate; now destruct y]|].
  eapply ShVerify with (ls := [[10; 20; 10; 20]]); [constructor; [|constructor]|constructor].
  apply (SfTimes _ _ 2%Z [10; 20]); [lia|]. apply (SfPlus _ _ _ [10] [20]); now constructor.
Qed.

(** C79: a factor that is not positive is refused with an exception, wherever it stands. *)
Theorem C79_factor : forall (A : Type) (e : qexp A) (s : qstate A),
  (forall x, uses_variable e x -> x < length (q_vars s)) -> bad_factor e ->
  qrun1 (QAuto e) s = Def None /\ qrun1 (QRef e) s = Def None /\ qrun1 (QVerify [e]) s = Def None.
Proof. intros A. exact factor_refused. Qed.
Example C79_factor_case : bad_factor (QPlus (QMethod 10) (QTimes (QMethod 20) 0)) /\
  qrun1 (QVerify [QPlus (QMethod 10) (QTimes (QMethod 20) 0)]) qstart = Def None.
Proof. split; [cbn; right; right; lia|reflexivity]. Qed.

(** C79 fails for a sequence that is declared with an operand that is not a variable, as in
    auto s = Method(m, f) + Method(m, g); : every later use is undefined. *)
Theorem C79_temporary_refuted : forall (A : Type) (prog : list (qstmt A)) (e : qexp A) (s : qstate A) (d : qstmt A) (l : list (qstmt A)) (s' : qstate A),
  qrun prog qstart = Def (Some s) -> has_temporary e -> d = QAuto e \/ d = QRef e ->
  qrun (d :: l) s = Def (Some s') -> qrun1 (QVerify [QVar (length (q_vars s))]) s' = UB.
Proof. intros A. exact temporary_operand. Qed.
Example C79_temporary_case : has_temporary (QPlus (QVar 0) (QMethod 20)) /\
  (exists s', qrun [QAuto (QMethod 10); QAuto (QPlus (QVar 0) (QMethod 20)); QAuto (QMethod 30)] qstart = Def (Some s')) /\
  qrun [QAuto (QMethod 10); QAuto (QPlus (QVar 0) (QMethod 20)); QAuto (QMethod 30); QVerify [QVar 1]] qstart = UB.
Proof. split; [right; discriminate|]. split; [eexists; reflexivity|reflexivity]. Qed.

(** C79 fails for const auto &s = Method(m, f); : every later use is undefined. *)
Theorem C79_reference_refuted : forall (A : Type) (prog : list (qstmt A)) (a : A) (s : qstate A) (l : list (qstmt A)) (s' : qstate A),
  qrun prog qstart = Def (Some s) -> qrun (QRef (QMethod a) :: l) s = Def (Some s') ->
  qrun1 (QVerify [QVar (length (q_vars s))]) s' = UB.
Proof. intros A. exact reference_to_method. Qed.
Example C79_reference_case : (exists s', qrun [QRef (QMethod 10)] qstart = Def (Some s')) /\
  qrun [QRef (QMethod 10); QVerify [QVar 0]] qstart = UB /\
  (exists s', qrun [QAuto (QMethod 10); QVerify [QVar 0]] qstart = Def (Some s')).
Proof. split; [eexists; reflexivity|]. split; [reflexivity|eexists; reflexivity]. Qed.

(** C79 fails for a sequence that outlives a variable it was put together from, as when a function
    returns the sum of its local variables. *)
Theorem C79_outlived_refuted : forall (A : Type) (prog : list (qstmt A)) (e : qexp A) (s : qstate A) (x : nat) (v : qvar) (d : qstmt A) (l : list (qstmt A)) (s' : qstate A),
  qrun prog qstart = Def (Some s) -> has_operand e x -> nth_error (q_vars s) x = Some v -> v_owns v = true ->
  d = QAuto e \/ d = QRef e -> In (QEnd x) l -> qrun (d :: l) s = Def (Some s') ->
  qrun1 (QVerify [QVar (length (q_vars s))]) s' = UB.
Proof. intros A. exact scope_ended. Qed.
Example C79_outlived_case : has_operand (QTimes (QVar 0) 3 : qexp nat) 0 /\
  (exists s v, qrun [QAuto (QMethod 10)] qstart = Def (Some s) /\ nth_error (q_vars s) 0 = Some v /\ v_owns v = true /\ length (q_vars s) = 1) /\
  (exists s', qrun [QAuto (QMethod 10); QAuto (QTimes (QVar 0) 3); QVerify [QVar 1]; QEnd 0] qstart = Def (Some s') /\ q_seen s' = [[[10; 10; 10]]]) /\
  qrun [QAuto (QMethod 10); QAuto (QTimes (QVar 0) 3); QVerify [QVar 1]; QEnd 0; QVerify [QVar 1]] qstart = UB.
Proof.
  split; [reflexivity|]. split; [do 2 eexists; repeat split|]. split; [eexists; split; reflexivity|reflexivity].
Qed.

Definition P_SeqVars_theorems := (C79_variables, C79_factor, C79_temporary_refuted, C79_reference_refuted, C79_outlived_refuted).
Print Assumptions P_SeqVars_theorems.
