(** Properties of the values given to Return, AlwaysReturn and assignments.

    [links by_ref mm ls] (Capture.v) is what the chain [ls] of Return and AlwaysReturn
    records when it is executed in memory [mm], for methods that return by value
    ([by_ref = false]) or by reference.  [values mm ls] (Spec_Capture.v): the values the
    operands have in [mm]. *)
From Coq Require Import Bool ZArith Lia List Permutation.
From Verif Require Import Base CInt Values ArgMatchers InvMatchers ActionSeq Spec_Actions Sequences MatchAnalysis
  Proxy Events Expectation ReturnSet Syntax World Spec_World WorldRel WorldSim Spec_View SpecFacts SpecKept SpecCalls
  SpecLasting Spec_Play SpecPlay Capture Spec_Capture CaptureProofs WorldExamples P_Calls P_Play.
From Verif Require Import Spec_Conditions ConditionProofs.
Import ListNotations.
Open Scope nat_scope.

(** ** C63: for methods that return by value, the answers are the values the operands had
    when the statement was executed, in order; what happens to the variables afterwards
    (assignment, end of life) does not matter. *)
Theorem C63_returned_values : forall E, iterates E -> forall f m0 os s rs t im ls recs m e me s1,
  leads E (S f) m0 os s rs -> mentioned E s t m e me s1 -> s_uncaught s = 0 ->
  links false (s_mem s) ls = Def recs -> Forall positive ls ->
  exists s2, leads E (S f) m0 (os ++ [OStmt [(t, im)] (SWhen recs None)]) s2 (rs ++ [inl VVoid]) /\
  forall ds s3, story E s2 ds s3 -> Forall (fun d => accepted_call im (dd_op d)) (concerning m e ds) ->
  leads E (S f) m0 (os ++ OStmt [(t, im)] (SWhen recs None) :: map dd_op ds) s3 (rs ++ inl VVoid :: map dd_result ds) /\
  forall i d, nth_error (concerning m e ds) i = Some d ->
  match nth_answer (values (s_mem s) ls) (Z.of_nat i) with
  | Some v => dd_result d = inl v
  | None => complains E s (me_no me) (dd_op d) (dd_result d)
  end.
Proof. exact returned_values. Qed.

(** Two variables with 5 and 6; [When(foo).Return(x, 2_Times(y))]; then 8 is assigned to x,
    foo is called, y ends its life, foo is called twice more. *)
Definition C63_start : list op := [OMock 0; OAlloc (VInt 5); OAlloc (VInt 6)].
Definition C63_links : list link := [LReturn [IValue 0; IQuantifier (times 2 1)]].
Definition C63_recs : list (recorded callable) := [once 5; RecTimes (FProg (PRet (VInt 6))) 2%Z].
Definition C63_when : op := OStmt [(foo 0, None)] (SWhen C63_recs None).
Definition C63_deeds : list deed :=
  [mkDeed None (OWrite 0 (VInt 8)) (inl VVoid); mkDeed (Some (0, 0)) (OCall 0 0 [VInt 3]) (inl (VInt 5));
   mkDeed None (OFreeMem 1) (inl VVoid); mkDeed (Some (0, 0)) (OCall 0 0 [VInt 3]) (inl (VInt 6));
   mkDeed (Some (0, 0)) (OCall 0 0 [VInt 3]) (inl (VInt 6))].
Example C63_case : exists me s1 s3,
  leads ex_env 10 [] C63_start (ends C63_start) (gives C63_start) /\
  mentioned ex_env (ends C63_start) (foo 0) 0 0 me s1 /\ s_uncaught (ends C63_start) = 0 /\
  links false (s_mem (ends C63_start)) C63_links = Def C63_recs /\ Forall positive C63_links /\
  values (s_mem (ends C63_start)) C63_links = [(VInt 5, Some 1%Z); (VInt 6, Some 2%Z)] /\
  story ex_env (ends (C63_start ++ [C63_when])) C63_deeds s3 /\
  Forall (fun d => accepted_call None (dd_op d)) (concerning 0 0 C63_deeds) /\
  length (concerning 0 0 C63_deeds) = 3.
Proof.
  do 3 eexists. split; [run|]. split.
  { eexists. split; [|right; split; [calc|split; [eexists; split; calc|split; [calc|split; reflexivity]]]].
    do 2 eexists. repeat (split; [calc|]). split; [vm_compute; lia|]. split; [reflexivity|]. split; [vm_compute; lia|]. split; calc. }
  split; [calc|]. split; [calc|].
  split; [repeat constructor; vm_compute; discriminate|]. split; [calc|]. split.
  { eapply StMem; [constructor; calc|].
    eapply (StCons _ _ _ _ _ _ _ (Some [VInt 3])); [answer|].
    eapply StMem; [econstructor; calc|].
    eapply (StCons _ _ _ _ _ _ _ (Some [VInt 3])); [answer|].
    eapply (StCons _ _ _ _ _ _ _ (Some [VInt 3])); [answer|]. apply StNil. }
  split; [repeat constructor; do 3 eexists; (split; [reflexivity|intro; apply satisfied_iff; reflexivity])|reflexivity].
Qed.

(** The same for a value assigned to a method, for every later program. *)
Theorem C63_assigned_value : forall E, iterates E -> forall f m0 os s rs t im a g m e me s1,
  leads E (S f) m0 os s rs -> mentioned E s t m e me s1 -> assigned false (s_mem s) a = Def g ->
  exists s2 me2, leads E (S f) m0 (os ++ [OStmt [(t, im)] (SAssign g)]) s2 (rs ++ [inl VVoid]) /\
  method_at s2 m e = Some me2 /\
  forall ops rs' s3 o slot args, still_decides E (S f) s2 m e me2 ops rs' s3 o slot args ->
  satisfied (s_mem s3) (cond_of im) args ->
  exists s4, leads E (S f) m0 ((os ++ [OStmt [(t, im)] (SAssign g)]) ++ ops ++ [OCall o slot args]) s4
               ((rs ++ [inl VVoid]) ++ rs' ++ [inl (value_at (s_mem s) a)]).
Proof. exact assigned_value. Qed.

Definition C63_stmt : op := OStmt [(foo 0, None)] (SAssign (FProg (PRet (VInt 5)))).
Definition C63_later : list op := [OCall 0 0 [VInt 3]; OWrite 0 (VInt 8); OFreeMem 0].
Example C63_assigned_case : exists me s1 me2 s3,
  leads ex_env 10 [] C63_start (ends C63_start) (gives C63_start) /\
  mentioned ex_env (ends C63_start) (foo 0) 0 0 me s1 /\
  assigned false (s_mem (ends C63_start)) 0 = Def (FProg (PRet (VInt 5))) /\
  still_decides ex_env 10 (ends (C63_start ++ [C63_stmt])) 0 0 me2 C63_later
    [inl (VInt 5); inl VVoid; inl VVoid] s3 0 0 [VInt 3] /\
  satisfied (s_mem s3) (cond_of None) [VInt 3].
Proof.
  eexists. eexists. exists (match method_at (ends (C63_start ++ [C63_stmt])) 0 0 with Some me => me | None => mkMethod 0 0 RtVoid [] [] false end).
  exists (ends (C63_start ++ [C63_stmt] ++ C63_later)). split; [run|]. split.
  { eexists. split; [|right; split; [calc|split; [eexists; split; calc|split; [calc|split; reflexivity]]]].
    do 2 eexists. repeat (split; [calc|]). split; [vm_compute; lia|]. split; [reflexivity|]. split; [vm_compute; lia|]. split; calc. }
  split; [calc|]. split; [|calc].
  split; [calc|]. split; [calc|]. eexists _, [], [_]. split; [reach|]. repeat (split; [calc|]). constructor.
Qed.

(** C63 is false for methods that return a reference: [Return(r)] keeps a reference to its
    operand.  The operand here is a temporary (an object that ends its life with the
    statement); reading the result of a call made in the next statement is undefined.  With
    a variable that lives on, the answer changes with the variable. *)
Theorem C63_reference_refuted : exists E recs,
  links true [Some (VInt 7)] [LReturn [IValue 0]] = Def recs /\
  results E 10 [] [OMock 0; OAlloc (VInt 7); OStmt [(bar 0, None)] (SWhen recs None); OFreeMem 0; OCall 0 1 []]
    = Some [inl (VInt 0); inl (VInt 0); inl VVoid; inl VVoid; inl (VRef 0)] /\
  undefined E 10 [] [OMock 0; OAlloc (VInt 7); OStmt [(bar 0, None)] (SWhen recs None); OFreeMem 0; OCall 0 1 []; ORead 0] /\
  results E 10 [] [OMock 0; OAlloc (VInt 7); OStmt [(bar 0, None)] (SWhen recs None); OWrite 0 (VInt 8); OCall 0 1 []; ORead 0]
    = Some [inl (VInt 0); inl (VInt 0); inl VVoid; inl VVoid; inl (VRef 0); inl (VInt 8)].
Proof.
  exists ex_env, [RecOnce (FProg (PRet (VRef 0)))]. repeat split; vm_compute; reflexivity.
Qed.

(** ** C65 is false: [auto q = 2_Times(42);] refers to a temporary that is gone in the next
    statement; [Return(q)] there is undefined.  Used within one statement it means two
    answers. *)
Theorem C65_stored_quantity_refuted : exists mm a n,
  links false mm [LReturn [IQuantifier (times n a)]] = Def [RecTimes (FProg (PRet (VInt 42))) n] /\
  links false (upd mm a None) [LReturn [IQuantifier (times n a)]] = UB.
Proof. exists [Some (VInt 42)], 0, 2%Z. split; reflexivity. Qed.

Definition P_Capture_theorems :=
  (C63_returned_values, C63_assigned_value, C63_reference_refuted, C65_stored_quantity_refuted).
Print Assumptions P_Capture_theorems.
