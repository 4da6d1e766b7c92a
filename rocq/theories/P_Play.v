(** Properties of stubbing chains in whole programs.

    [story E s ds s']: the calls and stubbing statements [ds], about any methods of any
    mocks, and uses of the test's own objects; [nth_answer (map meant recs) i]: the callable that the chain [recs] has for
    the call number [i], counted from 0 (Spec_Actions.v). *)
From Coq Require Import Bool ZArith Lia List Permutation.
From Verif Require Import Base CInt Values ArgMatchers InvMatchers ActionSeq Spec_Actions Sequences MatchAnalysis
  Proxy Events Expectation ReturnSet Syntax World Spec_World WorldRel WorldSim Spec_View SpecFacts SpecKept SpecCalls
  SpecLasting Spec_Play SpecPlay WorldExamples P_Calls.
From Verif Require Import Spec_Conditions ConditionProofs.
Import ListNotations.
Open Scope nat_scope.

(** ** C02, with C03 and C04: after [When(Method(mock,f)<condition>).<chain>], whatever
    calls and stubbing statements about other methods, and uses of the test's own objects,
    come in between, call number [i]
    of the method gets answer number [i] of the chain, and once there is none left it is
    unexpected (the older stubbings of the method are never consulted).  The calls are
    accepted by the condition, no newer stubbing of the method is made. *)
Theorem C02_program : forall E, iterates E -> forall f m0 os s rs t im recs m e me s1,
  leads E (S f) m0 os s rs -> mentioned E s t m e me s1 -> s_uncaught s = 0 ->
  Forall (fun x => match x with RecTimes _ q => (1 <= q)%Z | _ => True end) recs ->
  exists s2, leads E (S f) m0 (os ++ [OStmt [(t, im)] (SWhen recs None)]) s2 (rs ++ [inl VVoid]) /\
  forall ds s3, story E s2 ds s3 -> Forall (fun d => accepted_call im (dd_op d)) (concerning m e ds) ->
  leads E (S f) m0 (os ++ OStmt [(t, im)] (SWhen recs None) :: map dd_op ds) s3 (rs ++ inl VVoid :: map dd_result ds) /\
  forall i d, nth_error (concerning m e ds) i = Some d ->
  match nth_answer (map meant recs) (Z.of_nat i) with
  | Some g => forall x, says E (me_ret me) g (dd_op d) x -> dd_result d = x
  | None => complains E s (me_no me) (dd_op d) (dd_result d)
  end.
Proof. exact chain_program. Qed.

(** Two mocks; foo of the first has an older stubbing for everything.  Then
    [When(foo(3)).Return(5).Return(2_Times(6))], and calls foo(3) of the first mock with
    calls and statements about the other in between: 5, 6, 6, unexpected. *)
Definition C02_start : list op :=
  [OMock 0; OMock 0; OStmt [(foo 0, None)] (SWhen [always 1] None); OStmt [(foo 1, None)] (SWhen [always 2] None)].
Definition C02_recs : list (recorded callable) := [once 5; RecTimes (FProg (PRet (VInt 6))) 2%Z].
Definition C02_when : op := OStmt [(foo 0, Some (eq_int 3))] (SWhen C02_recs None).
Definition C02_deeds : list deed :=
  [mkDeed (Some (0, 0)) (OCall 0 0 [VInt 3]) (inl (VInt 5)); mkDeed (Some (1, 0)) (OCall 1 0 [VInt 3]) (inl (VInt 2));
   mkDeed (Some (0, 0)) (OCall 0 0 [VInt 3]) (inl (VInt 6)); mkDeed (Some (1, 0)) (OStmt [(foo 1, None)] (SWhen [once 9] None)) (inl VVoid);
   mkDeed (Some (0, 0)) (OCall 0 0 [VInt 3]) (inl (VInt 6)); mkDeed (Some (1, 0)) (OCall 1 0 [VInt 4]) (inl (VInt 9));
   mkDeed (Some (0, 0)) (OCall 0 0 [VInt 3]) (inr (XUnexpected (EvUnexpected Unmatched (Some 1%Z) [VInt 3])))].
Lemma no_listeners : forall E s ev, fc_listeners (s_fctx s) = [] -> listeners_quiet E s ev.
Proof. intros E s ev H l L. rewrite H in L. contradiction. Qed.
Lemma step_exhausted : forall E s m e o slot args me st r, exhausted E s o slot args m e me st ->
  listeners_quiet E s (unexpected_call me args) -> inr (complaint E s (unexpected_call me args)) = r ->
  plain_step E s m e (OCall o slot args)
    (notified E (put_method (recorded_call s me args) m e (with_call me (length (s_calls s)))) (unexpected_call me args)) r (Some args).
Proof. intros E s m e o slot args me st r X Q <-. econstructor; eauto. Qed.
Example C02_case : exists me s3,
  leads ex_env 10 [] C02_start (ends C02_start) (gives C02_start) /\
  mentioned ex_env (ends C02_start) (foo 0) 0 0 me (ends C02_start) /\ s_uncaught (ends C02_start) = 0 /\
  length (me_stubs me) = 1 /\
  story ex_env (ends (C02_start ++ [C02_when])) C02_deeds s3 /\
  Forall (fun d => accepted_call (Some (eq_int 3)) (dd_op d)) (concerning 0 0 C02_deeds) /\
  length (concerning 0 0 C02_deeds) = 4 /\
  says ex_env (me_ret me) (FProg (PRet (VInt 6))) (OCall 0 0 [VInt 3]) (inl (VInt 6)).
Proof.
  do 2 eexists. split; [run|]. split.
  { eexists. split; [|left; split; [calc|reflexivity]].
    do 2 eexists. repeat (split; [calc|]). split; [vm_compute; lia|]. split; [reflexivity|]. split; [vm_compute; lia|]. split; calc. }
  split; [calc|]. split; [calc|]. split.
  { Ltac answer := eapply PsAnswered with (newer := []);
      [reach|calc|split; [calc|split; [constructor|calc]]|calc|calc|calc|discriminate].
    eapply (StCons _ _ _ _ _ _ _ (Some [VInt 3])); [answer|].
    eapply (StCons _ _ _ _ _ _ _ (Some [VInt 3])); [answer|].
    eapply (StCons _ _ _ _ _ _ _ (Some [VInt 3])); [answer|].
    eapply (StCons _ _ _ _ _ _ _ None).
    { eapply PsWhen; [|calc]. eexists. split.
      - do 2 eexists. split; [calc|]. split; [calc|]. split; [calc|]. split; [vm_compute; lia|].
        split; [reflexivity|]. split; [vm_compute; lia|]. split; calc.
      - left. split; [calc|reflexivity]. }
    eapply (StCons _ _ _ _ _ _ _ (Some [VInt 3])); [answer|].
    eapply (StCons _ _ _ _ _ _ _ (Some [VInt 4])); [answer|].
    eapply (StCons _ _ _ _ _ _ _ (Some [VInt 3])); [|apply StNil].
    eapply step_exhausted.
    - split; [reach|]. split; [calc|]. split; [|split]; cycle 2.
      + eexists [], _. split; [calc|split; [constructor|calc]].
      + calc.
      + calc.
    - apply no_listeners. calc.
    - calc. }
  split; [repeat constructor; do 3 eexists; (split; [reflexivity|intro; apply satisfied_iff; reflexivity])|].
  split; [calc|]. do 3 eexists. split; [reflexivity|]. intro. do 2 eexists. reflexivity.
Qed.

(** ** C53 is false in whole programs, too: [When(foo).Do(g).Return(2)] where [g] for 0
    calls foo(1) and returns its result, and 1 otherwise.  The inner call runs [g] again
    instead of the second action of the chain, and [g] is never used up: the following
    calls get 1, not 2. *)
Definition C53_g : callable :=
  FProg (PArg 0 (fun v => match v with
                          | VInt 0 => PDo (OCall 0 0 [VInt 1]) (fun x => match x with OVal v => PRet v | OExn e => PThrow e end)
                          | _ => PRet (VInt 1)
                          end)).
Theorem C53_program_refuted : exists E,
  results E 10 [] [OMock 0; OStmt [(foo 0, None)] (SWhen [RecOnce C53_g; once 2] None);
                   OCall 0 0 [VInt 0]; OCall 0 0 [VInt 1]; OCall 0 0 [VInt 1]] =
  Some [inl (VInt 0); inl VVoid; inl (VInt 1); inl (VInt 1); inl (VInt 1)] /\
  nth_answer (map meant [RecOnce C53_g; once 2]) 1 = Some (FProg (PRet (VInt 2))).
Proof. exists ex_env. split; vm_compute; reflexivity. Qed.

Definition P_Play_theorems := (C02_program, C53_program_refuted).
Print Assumptions P_Play_theorems.
