(** Properties of whole programs in the world model that need no discipline on the
    program, and programs for which expected properties fail. *)
From Coq Require Import Bool ZArith Lia List.
From Verif Require Import Base CInt Values ArgMatchers InvMatchers ActionSeq Sequences
  Expectation Syntax World WorldLogic WorldFuel WorldVerify WorldExamples WrapProofs.
Import ListNotations.
Open Scope nat_scope.

(** ** C09: ordinals follow the order in which calls start, on all mocks, nested
    calls included ([w_invs] lists the invocations in the order in which the calls
    started; [w_started]: how many calls were started). *)
Theorem C09_call_order : forall E fuel m os w rs,
  exec_all E fuel os (init_world E m) = RVal w rs ->
  (w_started w < 4294967296)%Z ->
  forall i j x y, i < j -> nth_error (w_invs w) i = Some x -> nth_error (w_invs w) j = Some y ->
  (iv_ord x < iv_ord y)%Z.
Proof. exact calls_ordered. Qed.

Example C09_two_mocks_nested :
  exists w rs,
    exec_all ex_env 10
      [OMock 0; OMock 0;
       OStmt [(foo 0, None)] (SWhen [RecAlways (FProg (PDo (OCall 1 0 [VInt 5]) (fun _ => PRet (VInt 1))))] None);
       OStmt [(foo 1, None)] (SWhen [always 2] None);
       OCall 0 0 [VInt 3]; OCall 1 0 [VInt 4]] (init_world ex_env []) = RVal w rs /\
    (w_started w < 4294967296)%Z /\
    map (fun x => (iv_ord x, iv_args x)) (w_invs w) = [(1%Z, [VInt 3]); (2%Z, [VInt 5]); (3%Z, [VInt 4])].
Proof. eexists; eexists. split; [vm_compute; reflexivity|]. split; vm_compute; reflexivity. Qed.

(** C09 without the bound is false: foo(3) is called, then a method that is not mocked so often that
    the counter starts again, then foo(4); foo(4) counts as made just before foo(3). *)
Theorem C09_wrap_refuted : exists E e n,
  results E 10 []
    ([OMock 0; OStmt [(foo 0, None)] (SWhen [always 1] None); OCall 0 0 [VInt 3]] ++
     repeat (OCall 0 1 []) n ++
     [OCall 0 0 [VInt 4];
      OStmt [(foo 0, Some (eq_int 4)); (foo 0, Some (eq_int 3))]
        (SVerify ScInvolved [SConcat (SLeaf 0) (SLeaf 1)] [VsQuant QOnce])])
  = Some ([inl (VInt 0); inl VVoid; inl (VInt 1)] ++ repeat (inr (XUnexpected e)) n ++ [inl (VInt 1); inl VVoid]).
Proof. exists ex_env, wrap_event. exact order_wraps. Qed.

(** ** C30: verified stays verified, whatever operation follows (user code inside
    calls included). *)
Theorem C30_verified_stays : forall E fuel o w w' i x,
  (exists v, exec E fuel o w = RVal w' v) \/ (exists e, exec E fuel o w = RExn w' e) ->
  nth_error (w_invs w) i = Some x -> iv_verified x = true ->
  exists y, nth_error (w_invs w') i = Some y /\ iv_verified y = true /\ iv_ord y = iv_ord x.
Proof. exact verified_stays. Qed.

Example C30_case :
  exists w, exec_all ex_env 10
      [OMock 0; OStmt [(foo 0, None)] (SWhen [always 2] None); OCall 0 0 [VInt 3];
       OStmt [(foo 0, None)] (SVerify ScInvolved [SLeaf 0%nat] [])] (init_world ex_env [])
    = RVal w [inl (VInt 0); inl VVoid; inl (VInt 2); inl VVoid] /\
  (exists x, nth_error (w_invs w) 0 = Some x /\ iv_verified x = true) /\
  exists w' v, exec ex_env 10 (OCall 0 0 [VInt 3]) w = RVal w' v.
Proof.
  eexists. split; [vm_compute; reflexivity|]. split.
  - eexists. split; [vm_compute; reflexivity|reflexivity].
  - eexists; eexists. vm_compute. reflexivity.
Qed.

(** ** C28: a check that fails marks nothing: the release of a verification object
    that throws or delivers an event, and a conversion that answers false. *)
Theorem C28_failed_release : forall E f x w,
  match exec E (S f) (OExpFree x) w with
  | RVal w' _ => w_log w' <> w_log w -> w_invs w' = w_invs w
  | RExn w' _ => w_invs w' = w_invs w
  | _ => True
  end.
Proof. exact exec_expfree. Qed.

(** ** C28 and C49: a conversion to bool delivers nothing to anybody, never throws,
    and marks nothing when the answer is false. *)
Theorem C49_conversion : forall E f x w,
  match exec E (S f) (OBool x) w with
  | RVal w' v => w_log w' = w_log w /\ (v = VBool true \/ (v = VBool false /\ w_invs w' = w_invs w))
  | RExn _ _ => False
  | _ => True
  end.
Proof. exact exec_bool. Qed.

Definition C28_world : world :=
  match exec_all ex_env 10
      [OMock 0; OStmt [(foo 0, None)] (SWhen [always 2] None); OCall 0 0 [VInt 3]; OCall 0 0 [VInt 3];
       OCtx (foo 0); OExp ScInvolved [SLeaf 1%nat]; OQuant 0 QOnce] (init_world ex_env [])
  with RVal w _ => w | _ => init_world ex_env [] end.
Example C28_case :
  (exists w' e, exec ex_env 1 (OExpFree 0) C28_world = RExn w' e /\ length (w_invs w') = 2) /\
  (exists w', exec ex_env 1 (OBool 0) C28_world = RVal w' (VBool false)).
Proof.
  split.
  - eexists; eexists. split; [vm_compute; reflexivity|reflexivity].
  - eexists. vm_compute. reflexivity.
Qed.

(** ** The bound on nesting is not part of the meaning. *)
Theorem exec_bound_irrelevant : forall E f f' o w r,
  f <= f' -> exec E f o w = r -> r <> RNone -> exec E f' o w = r.
Proof. exact exec_fuel. Qed.

(** ** Refutations *)

(** C15: ClearInvocationHistory sets the data members to zero. *)
Theorem C15_clear_refuted : exists E prog before after,
  results E 10 [] (prog ++ [OGetMember 0 0; OClear 0; OGetMember 0 0]) =
    Some (before ++ [inl (VInt 7); inl VVoid; inl (VInt after)]) /\ after <> 7%Z.
Proof.
  exists ex_env, [OMock 0; OSetMember 0 0 (VInt 7)], [inl (VInt 0); inl VVoid], 0%Z.
  split; [exact clear_data_members|discriminate].
Qed.

(** C18: after the caller wrote 5 through the reference a faked method returned,
    the next call of the method returns a reference to 5 instead of 0. *)
Theorem C18_default_reference_refuted :
  exists E, results E 10 [Some (VInt 0)]
    [OMock 0; OStmt [(bar 0, None)] SFake; OCall 0 1 []; ORead 0; OWrite 0 (VInt 5); OCall 0 1 []; ORead 0]
  = Some [inl (VInt 0); inl VVoid; inl (VRef 0); inl (VInt 0); inl VVoid; inl (VRef 0); inl (VInt 5)].
Proof. exists ex_env. exact default_reference_shared. Qed.

(** C18: a faked method that returns a reference to an abstract class, or to one without a default
    constructor, has no object to refer to: the call is undefined. *)
Theorem C18_null_refuted : exists E,
  cl_ret (nth 0 (e_classes E) ex_class) 0 = RtRefNone /\
  undefined E 10 [] [OMock 0; OStmt [(foo 0, None)] SFake; OCall 0 0 []].
Proof. exists null_env. split; [reflexivity|exact default_reference_null]. Qed.

(** C36: [foo] of a wrapped object runs the original, which returns its argument;
    after a Verify that mentions it the same call is unexpected. *)
Theorem C36_verify_refuted : exists E e,
  results E 10 []
    [ONewObj 0; OSpyMock 0 0; OCall 0 0 [VInt 3];
     OStmt [(foo 0, None)] (SVerify ScInvolved [SLeaf 0%nat] [VsQuant QNever]);
     OCall 0 0 [VInt 3]]
  = Some [inl (VInt 0); inl (VInt 0); inl (VInt 3); inl VVoid; inr (XUnexpected e)].
Proof. exists ex_env. eexists. exact verify_changes_answers. Qed.

(** C16: the same for a When statement that was interrupted by an exception. *)
Theorem C16_interrupted_spy_refuted : exists E e,
  results E 10 []
    [ONewObj 0; OSpyMock 0 0; OCall 0 0 [VInt 3];
     OStmt [(foo 0, None)] (SWhen [once 1] (Some (1%nat, XUser 9)));
     OCall 0 0 [VInt 3]]
  = Some [inl (VInt 0); inl (VInt 0); inl (VInt 3); inr (XUser 9); inr (XUnexpected e)].
Proof. exists ex_env. eexists. exact interrupted_when_binds. Qed.

(** C54: a stored method expression used in two When statements: the second
    statement's action goes to the first stubbing (the first call after both
    statements is answered by the first statement's action), and destroying the
    mock is undefined. *)
Theorem C54_stored_expression_refuted : exists E,
  results E 10 []
    [OMock 0; OCtx (foo 0); OWhen 0 [once 1; once 2] None; OWhen 0 [once 3] None;
     OCall 0 0 [VInt 3]; OCall 0 0 [VInt 3]]
  = Some [inl (VInt 0); inl (VInt 0); inl VVoid; inl VVoid; inl (VInt 1); inl (VInt 2)] /\
  undefined E 10 []
    [OMock 0; OCtx (foo 0); OWhen 0 [once 1; once 2] None; OWhen 0 [once 3] None; OMockDestroy 0].
Proof. exists ex_env. split; [exact stored_expression_shares|exact stored_expression_double_free]. Qed.

(** C54: giving a stored expression another condition after it was used for a
    stubbing makes the next call undefined. *)
Theorem C54_condition_refuted : exists E,
  undefined E 10 []
    [OMock 0; OCtx (foo 0); OWhen 0 [always 1] None; OCond 0 (eq_int 3); OCall 0 0 [VInt 3]].
Proof. exists ex_env. exact stored_expression_condition. Qed.

(** C54: a stored expression that was used for a stubbing must not be used for another one once
    the mock was reset or destroyed; one that was not used before may be. *)
Theorem C54_reset_refuted : exists E,
  undefined E 10 [] [OMock 0; OCtx (foo 0); OWhen 0 [once 1] None; OReset 0; OWhen 0 [once 2] None] /\
  undefined E 10 [] [OMock 0; OCtx (foo 0); OWhen 0 [once 1] None; OMockDestroy 0; OWhen 0 [once 2] None] /\
  results E 10 [] [OMock 0; OCtx (foo 0); OReset 0; OWhen 0 [once 2] None; OCall 0 0 [VInt 3]]
  = Some [inl (VInt 0); inl (VInt 0); inl VVoid; inl VVoid; inl (VInt 2)].
Proof. exists ex_env. exact stored_expression_outlived. Qed.

(** C41: one expression [foo(1)] used to stub and to verify: after the object
    behind the reference argument became 2 the stored expression still accepts the
    call, a new expression with the same condition does not. *)
Theorem C41_identity_refuted : exists E,
  results E 10 [Some (VInt 1)]
    [OMock 0; OCtx (foo 0); OCond 0 (eq_int 1); OWhen 0 [always 4] None; OCall 0 0 [VRef 0];
     OWrite 0 (VInt 2);
     OExp ScInvolved [SLeaf 0%nat]; OBool 0;
     OStmt [(foo 0, Some (eq_int 1))] (SVerify ScInvolved [SLeaf 0%nat] [VsBool])]
  = Some [inl (VInt 0); inl (VInt 0); inl VVoid; inl VVoid; inl (VInt 4); inl VVoid;
          inl (VInt 0); inl (VBool true); inl (VBool false)].
Proof. exists ex_env. exact identity_shortcut. Qed.

(** C13: stubbing the destructor after Reset and deleting the object is undefined. *)
Theorem C13_destructor_world_refuted : exists E,
  undefined E 10 [] [OMock 0; OReset 0; OStmt [(TDtor 0, None)] SFake; OCall 0 3 []].
Proof. exists ex_env. exact destructor_after_reset. Qed.

(** C57: two mocks around one object, destroyed in the order of construction:
    stubbing through the second one changes the compiler's table; calling a third,
    unrelated object of the class is then undefined. *)
Theorem C57_two_mocks_refuted : exists E,
  results E 10 []
    [ONewObj 0; ONewObj 0; OCall 1 0 [VInt 3];
     OSpyMock 0 0; OSpyMock 0 0; OMockDestroy 0;
     OStmt [(foo 1, None)] (SWhen [always 4] None)]
  = Some [inl (VInt 0); inl (VInt 1); inl (VInt 3); inl (VInt 0); inl (VInt 1); inl VVoid; inl VVoid] /\
  undefined E 10 []
    [ONewObj 0; ONewObj 0; OCall 1 0 [VInt 3];
     OSpyMock 0 0; OSpyMock 0 0; OMockDestroy 0;
     OStmt [(foo 1, None)] (SWhen [always 4] None); OCall 1 0 [VInt 3]].
Proof. exists ex_env. exact two_mocks. Qed.

(** C58: an action that resets its own mock is undefined if it is the last run of
    a counted action. *)
Theorem C58_reset_in_action_refuted : exists E,
  undefined E 10 []
    [OMock 0; OStmt [(foo 0, None)] (SWhen [RecOnce (FProg (PDo (OReset 0) (fun _ => PRet (VInt 1))))] None);
     OCall 0 0 [VInt 3]].
Proof. exists ex_env. exact reset_in_last_action. Qed.

(** C59: a spied original that resets the mock leaves the object unusable. *)
Theorem C59_reset_in_original_refuted : exists E,
  results E 10 []
    [ONewObj 0; OSpyMock 0 0; OStmt [(foo 0, None)] (SSpy false); OCall 0 0 []]
  = Some [inl (VInt 0); inl (VInt 0); inl VVoid; inl (VInt 1)] /\
  undefined E 10 []
    [ONewObj 0; OSpyMock 0 0; OStmt [(foo 0, None)] (SSpy false); OCall 0 0 []; OCall 0 0 []].
Proof. exists ex_env_reset. exact reset_in_spied_method. Qed.

(** C60: statements in code that runs while an exception propagates do nothing: the
    second stubbing is not in force, the failing verification is not reported. *)
Theorem C60_unwinding_refuted : exists E,
  results E 10 []
    [OMock 0; OStmt [(foo 0, None)] (SWhen [always 1] None); OCall 0 0 [VInt 3];
     OUnwinding (OStmt [(foo 0, None)] (SWhen [always 2] None));
     OCall 0 0 [VInt 3];
     OUnwinding (OStmt [(foo 0, None)] (SVerify ScInvolved [SLeaf 0%nat] [VsQuant QNever]))]
  = Some [inl (VInt 0); inl VVoid; inl (VInt 1); inl VVoid; inl (VInt 1); inl VVoid].
Proof. exists ex_env. exact silent_in_unwinding. Qed.

(** C61: a verification kept in a variable beyond the statement that made its
    method expression. *)
Theorem C61_stored_verification_refuted : exists E,
  undefined E 10 []
    [OMock 0; OCtx (foo 0); OExp ScInvolved [SLeaf 0%nat]; OCtxFree 0; OExpFree 0].
Proof. exists ex_env. exact stored_verification. Qed.

(** C61: nor may the mock be gone when it is evaluated, released or destroyed, also if
    the calls looked at are those of another mock; with both still there all is well. *)
Theorem C61_mock_gone_refuted : exists E,
  (forall o, In o [OBool 0; OExpFree 0] ->
    undefined E 10 [] [OMock 0; OCtx (foo 0); OExp ScInvolved [SLeaf 0%nat]; OMockDestroy 0; o] /\
    undefined E 10 [] [OMock 0; OMock 0; OCtx (foo 0); OStmt [(foo 1, None)] (SWhen [always 1] None); OCall 1 0 [VInt 3];
                       OExp (ScUsing [SMock 1]) [SLeaf 0%nat]; OMockDestroy 0; o]) /\
  results E 10 [] [OMock 0; OCtx (foo 0); OExp ScInvolved [SLeaf 0%nat]; OBool 0; OExpFree 0; OCtxFree 0; OMockDestroy 0]
    = Some [inl (VInt 0); inl (VInt 0); inl (VInt 0); inl (VBool false); inl VVoid; inl VVoid; inl VVoid].
Proof. exists ex_env. split; [intros o [<-|[<-|[]]]; split; vm_compute; reflexivity|vm_compute; reflexivity]. Qed.

(** C62: a class with 1001 entries in its virtual table cannot be mocked; with 1000
    it can. *)
Theorem C62_many_methods_refuted :
  undefined (big_env 1001) 10 [] [OMock 0] /\ results (big_env 1000) 10 [] [OMock 0] = Some [inl (VInt 0)].
Proof. exact many_methods. Qed.

(** C64: a method expression kept in a variable, [auto m = Method(mock, foo);] after the
    calls foo(3) and foo(4).  [Verify(m).Exactly(2)] holds; after [Verify(m.Using(3))] it
    does not any more, because Using changes [m] itself. *)
Theorem C64_refined_expression_refuted : exists E,
  results E 10 []
    [OMock 0; OStmt [(foo 0, None)] (SWhen [always 1] None); OCall 0 0 [VInt 3]; OCall 0 0 [VInt 4];
     OCtx (foo 0);
     OExp ScInvolved [SLeaf 1%nat]; OQuant 0 (QExactly 2); OBool 0;
     OCond 1 (eq_int 3); OExp ScInvolved [SLeaf 1%nat]; OQuant 1 (QExactly 1); OBool 1;
     OExp ScInvolved [SLeaf 1%nat]; OQuant 2 (QExactly 2); OBool 2]
  = Some [inl (VInt 0); inl VVoid; inl (VInt 1); inl (VInt 1);
          inl (VInt 1);
          inl (VInt 0); inl VVoid; inl (VBool true);
          inl VVoid; inl (VInt 1); inl VVoid; inl (VBool true);
          inl (VInt 2); inl VVoid; inl (VBool false)].
Proof. exists ex_env. exact refined_expression. Qed.

(** C68: destroying a mock after the object it wraps is undefined; the other way round it
    is not. *)
Theorem C68_object_dies_first_refuted : exists E,
  results E 10 [] [ONewObj 0; OSpyMock 0 0; OMockDestroy 0; OFreeObj 0]
    = Some [inl (VInt 0); inl (VInt 0); inl VVoid; inl VVoid] /\
  undefined E 10 [] [ONewObj 0; OSpyMock 0 0; OFreeObj 0; OMockDestroy 0].
Proof. exists ex_env. exact object_dies_first. Qed.

Print Assumptions C64_refined_expression_refuted.
Print Assumptions C68_object_dies_first_refuted.
Print Assumptions C09_call_order.
Print Assumptions C30_verified_stays.
Print Assumptions C28_failed_release.
Print Assumptions C49_conversion.
Print Assumptions exec_bound_irrelevant.
Print Assumptions C15_clear_refuted.
Print Assumptions C18_default_reference_refuted.
Print Assumptions C36_verify_refuted.
Print Assumptions C16_interrupted_spy_refuted.
Print Assumptions C54_stored_expression_refuted.
Print Assumptions C54_condition_refuted.
Print Assumptions C41_identity_refuted.
Print Assumptions C13_destructor_world_refuted.
Print Assumptions C57_two_mocks_refuted.
Print Assumptions C58_reset_in_action_refuted.
Print Assumptions C59_reset_in_original_refuted.
Print Assumptions C60_unwinding_refuted.
Print Assumptions C61_stored_verification_refuted.
Print Assumptions C61_mock_gone_refuted.
Print Assumptions C62_many_methods_refuted.
Print Assumptions C18_null_refuted.
Print Assumptions C54_reset_refuted.
Print Assumptions C09_wrap_refuted.
