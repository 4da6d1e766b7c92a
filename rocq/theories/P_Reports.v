(** Properties of reports in a given state of a program.

    [event_text … w ev]: the text the library's own formatter makes of [ev] in the state
    [w]; undefined ([UB]) if it reads something that is gone.  [call_reads_now … w i t],
    [reads_now … w c t] (Spec_Reports.v): what the recorded call [i] and the expression [c]
    read like in the state [w].  [names]: the names of the methods, [show_dbl] and
    [show_ptr]: operator<< of doubles and addresses; nothing is assumed of them. *)
From Coq Require Import Bool Ascii String DecimalString ZArith Lia List.
From Coq Require Import Floats.SpecFloat.
From Verif Require Import Base CInt Values ArgMatchers InvMatchers ActionSeq Sequences Expectation Syntax World Format Spec_Format Reports
  Spec_Reports ReportsProofs Spec_World Spec_View Spec_Verify Spec_Verification WorldExamples P_Calls P_Verification.
From Verif Require Import Spec_Conditions ConditionProofs.
Import ListNotations.
Open Scope string_scope.

(** ** C75: the report of a failed verification names what was expected, how often, how
    often it was found, and lists the calls it was looked for in, with their arguments as
    they are now, the first 50 of them. *)
Theorem C75_sequence : forall show_dbl show_ptr E names w t pattern actual k n expected texts,
  actual <> [] -> pattern_reads nat (reads_now show_dbl show_ptr E names w) pattern expected -> one_line expected = true ->
  Forall2 (call_reads_now show_dbl show_ptr names w) (firstn 50 actual) texts -> Forall (fun x => one_line x = true) texts ->
  exists s, event_text E show_dbl show_ptr names w (EvSequence t pattern actual k n) = Def s /\
  lines s =
  (["Verification error";
   "Expected pattern: " ++ expected;
   "Expected matches: " ++ (match t with VtExact => "exactly " | VtAtLeast => "at least " end) ++ NilZero.string_of_int (Z.to_int k);
   "Actual matches  : " ++ NilZero.string_of_int (Z.to_int n);
   "Actual sequence : total of " ++ NilZero.string_of_int (Z.to_int (Z.of_nat (length actual))) ++ " actual invocations:"]%string
  ++ map (fun x => ("  " ++ x)%string) texts ++ (if (length actual <=? 50)%nat then [] else ["  ..."]))%list.
Proof. exact sequence_text. Qed.

(** The same when there were no calls. *)
Theorem C75_sequence_empty : forall show_dbl show_ptr E names w t pattern k n expected,
  pattern_reads nat (reads_now show_dbl show_ptr E names w) pattern expected -> one_line expected = true ->
  exists s, event_text E show_dbl show_ptr names w (EvSequence t pattern [] k n) = Def s /\
  lines s =
  ["Verification error";
   "Expected pattern: " ++ expected;
   "Expected matches: " ++ (match t with VtExact => "exactly " | VtAtLeast => "at least " end) ++ NilZero.string_of_int (Z.to_int k);
   "Actual matches  : " ++ NilZero.string_of_int (Z.to_int n);
   "Actual sequence : total of 0 actual invocations."]%string.
Proof. exact sequence_text_empty. Qed.

(** VerifyNoOtherInvocations: the calls that were found, the first 50 of them. *)
Theorem C75_no_more : forall show_dbl show_ptr E names w all unverified texts, unverified <> [] ->
  Forall2 (call_reads_now show_dbl show_ptr names w) (firstn 50 unverified) texts -> Forall (fun x => one_line x = true) texts ->
  exists s, event_text E show_dbl show_ptr names w (EvNoMore all unverified) = Def s /\
  lines s =
  (["Verification error"; "Expected no more invocations!! but the following unverified invocations were found:"]
  ++ map (fun x => ("  " ++ x)%string) texts ++ (if (length unverified <=? 50)%nat then [] else ["  ..."]))%list.
Proof. exact nomore_text. Qed.

(** An unexpected call: the call with its arguments, and why it is unexpected. *)
Theorem C75_unexpected : forall show_dbl show_ptr E names w t m args s,
  call_reads show_dbl show_ptr (w_mem w) (match m with Some id => names id | None => "unknown" end) args s -> one_line s = true ->
  exists x, event_text E show_dbl show_ptr names w (EvUnexpected t m args) = Def x /\
  lines x = ["Unexpected method invocation: " ++ s;
             match t with
             | Unmatched => "  Could not find any recorded behavior to support this method call."
             | Unmocked => "  An unmocked method was invoked. All used virtual methods must be stubbed!"
             end]%string.
Proof. exact unexpected_text. Qed.

(** A test with two expressions in variables, [foo(3)] and [foo], and two calls, one with a
    reference to an object that was 4 when it was called and is 5 now. *)
Definition R_names (id : Z) : string := if (id =? 1)%Z then "mock.foo" else "mock.bar".
Definition R_text := event_text ex_env (fun _ => "") (fun _ => "") R_names.
Definition R_world (m : mem) (os : list op) : world :=
  match exec_all ex_env 10 os (init_world ex_env m) with RVal w _ => w | _ => init_world ex_env m end.
Definition R_prog : list op :=
  [OMock 0; OStmt [(foo 0, None)] (SWhen [always 1] None); OCall 0 0 [VInt 3]; OCall 0 0 [VRef 0]; OWrite 0 (VInt 5);
   OCtx (foo 0); OCond 1 (eq_int 3); OCtx (foo 0)].
Definition R_now : world := R_world [Some (VInt 4)] R_prog.
Definition R_pattern : list (sequence nat) := [SRepeat (SConcat (SLeaf 1) (SLeaf 2)) 2; SLeaf 2].
Definition R_expected : string := "(mock.foo(3) + mock.foo( Any arguments )) * 2 ... mock.foo( Any arguments )".
Lemma R_first : reads_now (fun _ => "") (fun _ => "") ex_env R_names R_now 1 "mock.foo(3)".
Proof. apply ctx_reads. vm_compute. reflexivity. Qed.
Lemma R_second : reads_now (fun _ => "") (fun _ => "") ex_env R_names R_now 2 "mock.foo( Any arguments )".
Proof. apply ctx_reads. vm_compute. reflexivity. Qed.
Lemma R_calls : Forall2 (call_reads_now (fun _ => "") (fun _ => "") R_names R_now) (firstn 50 [0; 1]%nat) ["mock.foo(3)"; "mock.foo(5)"].
Proof. repeat constructor; apply inv_reads; vm_compute; reflexivity. Qed.
Lemma R_reads : pattern_reads nat (reads_now (fun _ => "") (fun _ => "") ex_env R_names R_now) R_pattern R_expected.
Proof.
  change R_expected with (("(" ++ ("mock.foo(3)" ++ " + " ++ "mock.foo( Any arguments )") ++ ") * " ++ NilZero.string_of_int (Z.to_int 2)) ++ " ... " ++ "mock.foo( Any arguments )").
  apply PrMore; [apply QrTimesSum, QrSum; apply QrLeaf|apply PrOne, QrLeaf]; auto using R_first, R_second.
Qed.
Example C75_case :
  [0; 1]%nat <> [] /\ pattern_reads nat (reads_now (fun _ => "") (fun _ => "") ex_env R_names R_now) R_pattern R_expected /\ one_line R_expected = true /\
  Forall2 (call_reads_now (fun _ => "") (fun _ => "") R_names R_now) (firstn 50 [0; 1]%nat) ["mock.foo(3)"; "mock.foo(5)"] /\
  Forall (fun x => one_line x = true) ["mock.foo(3)"; "mock.foo(5)"] /\
  match R_text R_now (EvSequence VtExact R_pattern [0; 1]%nat 2 0) with
  | Def s => lines s = ["Verification error"; "Expected pattern: " ++ R_expected; "Expected matches: exactly 2"; "Actual matches  : 0";
                        "Actual sequence : total of 2 actual invocations:"; "  mock.foo(3)"; "  mock.foo(5)"]
  | _ => False
  end.
Proof.
  split; [discriminate|]. split; [exact R_reads|]. split; [reflexivity|]. split; [exact R_calls|]. split; [repeat constructor|]. vm_compute. reflexivity.
Qed.
Example C75_values : forall show_dbl show_ptr,
  call_reads show_dbl show_ptr [Some (VStr ("ab" ++ String zero "c")); None; Some (VInt (-7))] "mock.f"
    [VBool true; VChar "x"; VCStr (Some 0%nat); VCStr None; VRef 2; VOpaque 1; VStr "s"]
    ("mock.f(true, 'x', " ++ quoted "ab" ++ ", [nullptr], -7, ?, s)").
Proof. intros show_dbl show_ptr. apply call_text. vm_compute. reflexivity. Qed.

(** ** C74: calls can be verified and reported although the objects their reference
    parameters were bound to are gone.

    Verifying a method without a condition, whatever became of the arguments of its calls:
    all recorded calls of it count.  Nothing is assumed of the memory. *)
Theorem C74_without_condition : forall E, iterates E -> forall f m0 os s rs t m e me r qs,
  sexec_all E (S f) os (sinit m0) = SOk s rs -> designates E s t m e r -> method_at s m e = Some me -> s_uncaught s = 0%nat ->
  (Z.of_nat (length (s_calls s)) <= int_max)%Z -> Forall valid_quant qs ->
  let after := statement_over s s 1 in
  let verify more := (os ++ [OStmt [(t, None)] (SVerify ScInvolved [SLeaf 0%nat] (map VsQuant qs ++ more))])%list in
  if_accepted (demanded qs) (Z.of_nat (length (me_calls me)))
    (leads E (S f) m0 (verify []) (with_marks (me_calls me) after) (rs ++ [inl VVoid]) /\
     leads E (S f) m0 (verify [VsBool]) (with_marks (me_calls me) after) (rs ++ [inl (VBool true)]))
    (leads E (S f) m0 (verify [VsBool]) after (rs ++ [inl (VBool false)])).
Proof. exact verify_plain. Qed.

(** A method is called with a reference to an object that ends.  Verifying the method:
    once, as it should.  Verifying it with a condition on that argument: undefined. *)
Definition C74_prog : list op :=
  [OMock 0; OStmt [(foo 0, None)] (SWhen [always 1] None); OAlloc (VInt 3); OCall 0 0 [VRef 0]; OFreeMem 0].
Theorem C74_verify_refuted : exists E os x y v,
  (exists rs, results E 10 [] os = Some rs) /\
  results E 10 [] (os ++ [OStmt [(x, None)] (SVerify ScInvolved [SLeaf 0%nat] [VsQuant QOnce])]) = Some v /\
  undefined E 10 [] (os ++ [OStmt [(x, Some y)] (SVerify ScInvolved [SLeaf 0%nat] [VsQuant QOnce])]).
Proof.
  exists ex_env, C74_prog, (foo 0), (eq_int 3), (gives C74_prog ++ [inl VVoid])%list.
  split; [eexists; vm_compute; reflexivity|]. split; vm_compute; reflexivity.
Qed.

(** No report lists a call one of whose arguments cannot be read any more. *)
Theorem C74_report : forall show_dbl show_ptr E names w t pattern actual k n i, In i (firstn 50 actual) ->
  (forall x, ~ call_reads_now show_dbl show_ptr names w i x) ->
  forall s, event_text E show_dbl show_ptr names w (EvSequence t pattern actual k n) <> Def s.
Proof. intros show_dbl show_ptr E names w t pattern actual k n i IN H s T. destruct (sequence_readable _ _ _ _ _ _ _ _ _ _ _ _ T IN) as (x & X). exact (H x X). Qed.

Example C74_case :
  sexec_all ex_env 10 C74_prog (sinit []) = SOk (ends C74_prog) (gives C74_prog) /\
  (exists r me, designates ex_env (ends C74_prog) (foo 0) 0 0 r /\ method_at (ends C74_prog) 0 0 = Some me /\ me_calls me = [0%nat]) /\
  s_uncaught (ends C74_prog) = 0%nat /\ Forall valid_quant [QOnce] /\
  nth_error (s_mem (ends C74_prog)) 0 = Some None /\ ~ decided ex_env (ends C74_prog) [(foo 0, Some (eq_int 3))].
Proof.
  split; [calc|]. split.
  { do 2 eexists. split; [|split; calc]. do 2 eexists. repeat (split; [calc || (vm_compute; lia)|]). repeat split; calc || (vm_compute; lia). }
  split; [calc|]. split; [repeat constructor; discriminate|]. split; [calc|].
  intro D. destruct (D (foo 0, Some (eq_int 3)) 0%nat 0%nat (RtVal (VInt 0)) 0%nat (mkCall 0 (RtVal (VInt 0)) [VRef 0] false)) as [B|B].
  - now left.
  - do 2 eexists. repeat (split; [calc || (vm_compute; lia)|]). repeat split; calc || (vm_compute; lia).
  - eexists. split; [calc|]. now left.
  - calc.
  - apply satisfied_iff in B. vm_compute in B. discriminate B.
  - apply unsatisfied_iff in B. vm_compute in B. discriminate B.
Qed.

(** The report of a verification of that method that fails. *)
Definition C74_late : world := R_world [] (C74_prog ++ [OCtx (foo 0)]).
Theorem C74_report_refuted : exists show_dbl show_ptr E names w ev,
  (exists rs, exec_all E 10 (C74_prog ++ [OCtx (foo 0)]) (init_world E []) = RVal w rs) /\
  ev = EvSequence VtExact [SLeaf 1%nat] [0%nat] 0 1 /\
  event_text E show_dbl show_ptr names w ev = UB.
Proof.
  exists (fun _ => ""), (fun _ => ""), ex_env, R_names, C74_late, (EvSequence VtExact [SLeaf 1%nat] [0%nat] 0 1).
  split; [eexists; vm_compute; reflexivity|]. split; vm_compute; reflexivity.
Qed.

Example C74_report_case : In 0%nat (firstn 50 [0%nat]) /\ forall x, ~ call_reads_now (fun _ => "") (fun _ => "") R_names C74_late 0 x.
Proof. split; [now left|]. intros x H. apply inv_reads in H. vm_compute in H. discriminate. Qed.

Definition P_Reports_theorems := (C75_sequence, C75_sequence_empty, C75_no_more, C75_unexpected,
  C74_without_condition, C74_verify_refuted, C74_report, C74_report_refuted).
Print Assumptions P_Reports_theorems.
