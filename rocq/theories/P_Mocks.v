(** Properties of Reset, ClearInvocationHistory, the destructor of a mock, and of
    verification as seen by later calls, in whole programs.

    [sexec_all E f os (sinit m0) = SOk s rs]: the abstract machine has the answers [rs] for
    the program [os] and ends in [s]; then so has the modelled code
    (World_follows_machine).  [leads]: what the modelled code does.  [nexec_all]: the
    abstract machine for programs that keep to some operations (Spec_Alike.v). *)
From Coq Require Import Bool ZArith Lia List Permutation.
From Verif Require Import Base CInt Values ArgMatchers InvMatchers ActionSeq Sequences MatchAnalysis
  Proxy Events Expectation ReturnSet Syntax World Spec_World WorldRel WorldSim Spec_View SpecFacts SpecKept
  Spec_Alike SpecAlike SpecFrame SpecMocks WorldDtor WorldExamples P_Calls.
Import ListNotations.
Open Scope nat_scope.

(** ** C12: Reset *)

(** No action is running between the operations of a test. *)
Theorem C12_at_rest : forall E m0 f os s rs, sexec_all E f os (sinit m0) = SOk s rs ->
  forall m k, live (s_mocks s) m = Some k -> quiet k = true.
Proof. exact at_rest. Qed.

(** After Reset nothing was said about any method of the mock and its history is empty;
    the other mocks, their histories, and the other objects are untouched. *)
Theorem C12_reset : forall E, iterates E -> forall f m0 os s rs m k,
  sexec_all E (S f) os (sinit m0) = SOk s rs -> live (s_mocks s) m = Some k ->
  exists s', leads E (S f) m0 (os ++ [OReset m]) s' (rs ++ [inl VVoid]) /\
    (forall e, method_at s' m e = None /\ history_at s' m e = []) /\
    (exists k', live (s_mocks s') m = Some k' /\ sk_class k' = sk_class k /\ sk_obj k' = sk_obj k /\ sk_owner k' = sk_owner k) /\
    (forall m', m' <> m -> live (s_mocks s') m' = live (s_mocks s) m' /\ forall e, history_at s' m' e = history_at s m' e) /\
    (forall o, o <> sk_obj k -> live (s_objs s') o = live (s_objs s) o).
Proof. exact program_reset. Qed.

(** Where nothing was said, a call of a mock the library created is unmocked: listeners and
    adapter are told, the caller gets an exception; *)
Theorem C12_unmocked : forall E, iterates E -> forall f m0 os s rs o slot m args,
  leads E (S f) m0 os s rs -> unmocked E s o slot m -> room s ->
  listeners_quiet E s (EvUnexpected Unmocked None []) ->
  exists s', leads E (S f) m0 (os ++ [OCall o slot args]) s' (rs ++ [inr (complaint E s (EvUnexpected Unmocked None []))]) /\
    s_mocks s' = s_mocks s /\ s_calls s' = s_calls s.
Proof. exact program_unmocked. Qed.

(** its destructor does nothing; *)
Theorem C12_destructor : forall E, iterates E -> forall f m0 os s rs o slot m args x k d,
  leads E (S f) m0 os s rs ->
  live (s_objs s) o = Some x -> so_mock x = Some m ->
  live (s_mocks s) m = Some k -> sk_owner k = true -> nth_error (e_classes E) (sk_class k) = Some d -> slot < cl_size d ->
  is_dtor d slot = true -> method_at s m (entry_method d slot) = None ->
  leads E (S f) m0 (os ++ [OCall o slot args]) s (rs ++ [inl VVoid]).
Proof. exact program_destructor. Qed.

(** a call of a wrapped object does what the body of its class's method does. *)
Theorem C12_original : forall E, iterates E -> forall f m0 os s rs o slot m args x k d dx s' r,
  leads E (S f) m0 os s rs ->
  live (s_objs s) o = Some x -> so_mock x = Some m ->
  live (s_mocks s) m = Some k -> sk_owner k = false -> nth_error (e_classes E) (sk_class k) = Some d -> slot < cl_size d ->
  nth_error (e_classes E) (so_class x) = Some dx -> slot < cl_size dx -> method_at s m (entry_method d slot) = None ->
  srun_prog (sexec E f) (FrStack o args) (cl_body dx slot) s = sanswer s' r ->
  leads E (S f) m0 (os ++ [OCall o slot args]) s' (rs ++ [r]).
Proof. exact program_original. Qed.

(** Mock 0 was created by the library, mock 1 wraps object 1; both were stubbed, their
    destructors too, and called. *)
Definition C12_prog : list op :=
  [OMock 0; ONewObj 0; OSpyMock 0 1;
   OStmt [(foo 0, None)] (SWhen [always 7] None); OStmt [(foo 1, None)] (SWhen [always 8] None);
   OStmt [(TDtor 0, None)] SFake; OStmt [(TDtor 1, None)] SFake;
   OCall 0 0 [VInt 3]; OCall 1 0 [VInt 3]; OCall 0 3 []].
Example C12_case :
  sexec_all ex_env 10 C12_prog (sinit []) = SOk (ends C12_prog) (gives C12_prog) /\
  (exists k, live (s_mocks (ends C12_prog)) 0 = Some k) /\ (exists k, live (s_mocks (ends C12_prog)) 1 = Some k) /\
  history_at (ends C12_prog) 0 0 = [Some ([VInt 3], false)] /\
  results ex_env 10 [] (C12_prog ++ [OReset 0; OReset 1; OCall 0 0 [VInt 3]; OCall 0 3 []; OCall 1 0 [VInt 3]; OCall 1 3 []]) =
    Some (gives C12_prog ++
      [inl VVoid; inl VVoid; inr (XUnexpected (EvUnexpected Unmocked None [])); inl VVoid; inl (VInt 3); inl VVoid]).
Proof. split; [calc|]. split; [eexists; calc|]. split; [eexists; calc|]. split; calc. Qed.

Example C12_calls : let os := C12_prog ++ [OReset 0; OReset 1] in
  unmocked ex_env (ends os) 0 0 0 /\ room (ends os) /\ listeners_quiet ex_env (ends os) (EvUnexpected Unmocked None []) /\
  (exists x k, live (s_objs (ends os)) 0 = Some x /\ so_mock x = Some 0 /\ live (s_mocks (ends os)) 0 = Some k /\
     sk_owner k = true /\ nth_error (e_classes ex_env) (sk_class k) = Some ex_class /\ is_dtor ex_class 3 = true /\
     method_at (ends os) 0 (entry_method ex_class 3) = None) /\
  (exists x k s', live (s_objs (ends os)) 1 = Some x /\ so_mock x = Some 1 /\ live (s_mocks (ends os)) 1 = Some k /\
     sk_owner k = false /\ nth_error (e_classes ex_env) (sk_class k) = Some ex_class /\
     nth_error (e_classes ex_env) (so_class x) = Some ex_class /\ method_at (ends os) 1 (entry_method ex_class 0) = None /\
     srun_prog (sexec ex_env 9) (FrStack 1 [VInt 3]) (cl_body ex_class 0) (ends os) = sanswer s' (inl (VInt 3))).
Proof.
  split; [do 3 eexists; repeat (split; [calc || (vm_compute; lia)|]); calc|]. split; [calc|]. split; [intros l _; calc|].
  split; do 2 eexists; [|eexists]; repeat (split; [calc|]); calc.
Qed.

(** ** C13: after Reset every program does what it does with a new mock in place of the
    one that was reset ([as_new]): it has the same results, verification and everything
    else included, provided that it keeps to methods, [plain_number]; the destructor is
    what C13_destructor_after_reset_refuted (P_Layout.v) is about.  (Numbers of method
    expressions are [__COUNTER__] values; 2^31 - 2 and more do not occur.)  The program
    may use stored method expressions that were made before the Reset. *)
Theorem C13_reset_as_new : forall E, iterates E -> forall f m0 os s rs m k os' s' rs',
  sexec_all E (S f) os (sinit m0) = SOk s rs -> live (s_mocks s) m = Some k ->
  (forall c y, live (s_ctxs s) c = Some y -> plain_number (sx_target y) = true) ->
  nexec_all E true plain_number 0 (S f) os' (as_new s m k) = SOk s' rs' ->
  exists s2, leads E (S f) m0 (os ++ OReset m :: os') s2 (rs ++ inl VVoid :: rs').
Proof. exact program_like_new. Qed.

(** And the other way round: with a new mock, what happens after Reset. *)
Theorem C13_new_as_reset : forall E, iterates E -> forall f s m k os' s1 s' rs', live (s_mocks s) m = Some k ->
  (forall c y, live (s_ctxs s) c = Some y -> plain_number (sx_target y) = true) ->
  sexec E (S f) (OReset m) s = SOk s1 VVoid -> nexec_all E true plain_number 0 (S f) os' s1 = SOk s' rs' ->
  exists s2, sexec_all E (S f) os' (as_new s m k) = SOk s2 rs'.
Proof. intros E _. exact (new_like_reset E). Qed.

(** [as_new] is what the constructors make. *)
Theorem C13_made_new : forall E f c s s' r, sexec E (S f) (OMock c) s = SOk s' r -> let m := length (s_mocks s) in
  r = id_val m /\ exists k, live (s_mocks s') m = Some k /\ sk_class k = c /\ sk_owner k = true /\ as_new s' m k = s'.
Proof. exact made_new. Qed.
Theorem C13_made_spying : forall E f c o s s' r, sexec E (S f) (OSpyMock c o) s = SOk s' r -> let m := length (s_mocks s) in
  r = id_val m /\ exists k, live (s_mocks s') m = Some k /\ sk_class k = c /\ sk_obj k = o /\ sk_owner k = false /\ as_new s' m k = s'.
Proof. exact made_spying. Qed.

(** Stubbing, calling and verifying after the Reset of the mock of C12_prog. *)
Definition C13_later : list op :=
  [OCall 0 0 [VInt 3]; OStmt [(foo 0, Some (eq_int 3))] (SWhen [once 5] None); OCall 0 0 [VInt 3]; OCall 0 0 [VInt 4];
   OStmt [(foo 0, None)] (SVerify ScInvolved [SLeaf 0%nat] [VsQuant (QExactly 1)]);
   OStmt [(bar 0, None)] SFake].
Example C13_case : exists k s',
  sexec_all ex_env 10 C12_prog (sinit []) = SOk (ends C12_prog) (gives C12_prog) /\
  live (s_mocks (ends C12_prog)) 0 = Some k /\ (exists me, live (sk_meths k) 0 = Some me) /\
  (forall c y, live (s_ctxs (ends C12_prog)) c = Some y -> plain_number (sx_target y) = true) /\
  nexec_all ex_env true plain_number 0 10 C13_later (as_new (ends C12_prog) 0 k) =
    SOk s' [inr (XUnexpected (EvUnexpected Unmocked None [])); inl VVoid; inl (VInt 5);
            inr (XUnexpected (EvUnexpected Unmatched (Some 5%Z) [VInt 4])); inl VVoid; inl VVoid].
Proof.
  do 2 eexists. split; [calc|]. split; [calc|]. split; [eexists; calc|]. split; [|calc].
  intros c y L. exfalso. revert L. replace (s_ctxs (ends C12_prog)) with [@None sctx; None; None; None] by calc.
  unfold live. destruct c as [|[|[|[|[|c]]]]]; cbn; discriminate.
Qed.
Example C13_reset_case : let s1 := ends (C12_prog ++ [OReset 0]) in exists k s' rs,
  live (s_mocks (ends C12_prog)) 0 = Some k /\
  sexec ex_env 10 (OReset 0) (ends C12_prog) = SOk s1 VVoid /\ nexec_all ex_env true plain_number 0 10 C13_later s1 = SOk s' rs.
Proof. do 3 eexists. split; [calc|]. split; calc. Qed.
Example C13_made_case : exists s1 s2,
  sexec ex_env 10 (OMock 0) (ends C12_prog) = SOk s1 (VInt 2) /\
  sexec ex_env 10 (OSpyMock 0 0) (ends [ONewObj 0]) = SOk s2 (VInt 0).
Proof. do 2 eexists. split; calc. Qed.

(** ** C14: ClearInvocationHistory *)

(** The history is empty; every stubbing stays, with its remaining actions; the other mocks
    are untouched.  (This may happen while an action runs.) *)
Theorem C14_clear : forall E, iterates E -> forall f m0 os s rs m k,
  leads E (S f) m0 os s rs -> live (s_mocks s) m = Some k ->
  exists s', leads E (S f) m0 (os ++ [OClear m]) s' (rs ++ [inl VVoid]) /\
    (forall e, history_at s' m e = []) /\
    (forall e me, method_at s m e = Some me ->
       exists me', method_at s' m e = Some me' /\ me_stubs me' = me_stubs me /\ me_no me' = me_no me /\
         me_id me' = me_id me /\ me_ret me' = me_ret me /\ me_bypass me' = me_bypass me) /\
    (forall e, method_at s m e = None -> method_at s' m e = None) /\
    (forall m', m' <> m -> live (s_mocks s') m' = live (s_mocks s) m' /\ forall e, history_at s' m' e = history_at s m' e) /\
    (forall o, o <> sk_obj k -> live (s_objs s') o = live (s_objs s) o).
Proof. exact program_clear. Qed.

(** Every later program that does not verify has the results it has without the clearing;
    the data members of an object the library made must be zero (C15_clear_refuted). *)
Theorem C14_same_answers : forall E, iterates E -> forall f m0 os s rs m k os' s' rs',
  leads E (S f) m0 os s rs -> live (s_mocks s) m = Some k ->
  (sk_owner k = true -> forall x, live (s_objs s) (sk_obj k) = Some x -> zeroed x = x) ->
  nexec_all E false (fun _ => true) 0 (S f) os' s = SOk s' rs' ->
  exists s2, leads E (S f) m0 (os ++ OClear m :: os') s2 (rs ++ inl VVoid :: rs').
Proof. exact clear_unnoticed. Qed.

Definition C14_prog : list op :=
  [OMock 0; OStmt [(foo 0, None)] (SWhen [once 1; once 2; once 3] None);
   OStmt [(foo 0, Some (eq_int 4))] (SWhen [once 9] None); OCall 0 0 [VInt 3]].
Definition C14_later : list op :=
  [OCall 0 0 [VInt 3]; OCall 0 0 [VInt 4]; OStmt [(foo 0, Some (eq_int 3))] (SWhen [once 6] None);
   OCall 0 0 [VInt 3]; OCall 0 0 [VInt 3]; OCall 0 0 [VInt 5]].
Example C14_case : exists k s',
  leads ex_env 10 [] C14_prog (ends C14_prog) [inl (VInt 0); inl VVoid; inl VVoid; inl (VInt 1)] /\
  live (s_mocks (ends C14_prog)) 0 = Some k /\ history_at (ends C14_prog) 0 0 = [Some ([VInt 3], false)] /\
  (sk_owner k = true -> forall x, live (s_objs (ends C14_prog)) (sk_obj k) = Some x -> zeroed x = x) /\
  nexec_all ex_env false (fun _ => true) 0 10 C14_later (ends C14_prog) =
    SOk s' [inl (VInt 2); inl (VInt 9); inl VVoid; inl (VInt 6);
            inr (XUnexpected (EvUnexpected Unmatched (Some 1%Z) [VInt 3])); inl (VInt 3)].
Proof.
  do 2 eexists. split; [run|]. split; [calc|]. split; [calc|]. split; [|calc].
  intros _ x L. vm_compute in L. inversion L; subst. calc.
Qed.

(** ** C20: objects of users' classes *)

(** The destructor of a mock that wraps an object puts it back: it is an object of its class
    with the data members it has, and no living mock wraps it; other objects and mocks are
    untouched. *)
Theorem C20_restored : forall E, iterates E -> forall f m0 os s rs m k,
  sexec_all E (S f) os (sinit m0) = SOk s rs -> live (s_mocks s) m = Some k -> sk_owner k = false ->
  exists s' x, leads E (S f) m0 (os ++ [OMockDestroy m]) s' (rs ++ [inl VVoid]) /\
    live (s_objs s) (sk_obj k) = Some x /\ live (s_objs s') (sk_obj k) = Some (mkSobj (so_class x) (so_data x) None) /\
    (forall o, o <> sk_obj k -> live (s_objs s') o = live (s_objs s) o) /\
    (forall m', m' <> m -> live (s_mocks s') m' = live (s_mocks s) m') /\
    (forall m' k', live (s_mocks s') m' = Some k' -> sk_obj k' <> sk_obj k).
Proof. exact program_destroy. Qed.

(** An object that no living mock wraps does what its class says, whatever was stubbed
    through mocks of other objects of the class. *)
Theorem C20_plain_object : forall E, iterates E -> forall f m0 os s rs o slot args x dx s' r,
  leads E (S f) m0 os s rs -> live (s_objs s) o = Some x ->
  (forall m k, live (s_mocks s) m = Some k -> sk_obj k <> o) ->
  nth_error (e_classes E) (so_class x) = Some dx -> slot < cl_size dx ->
  srun_prog (sexec E f) (FrStack o args) (cl_body dx slot) s = sanswer s' r ->
  leads E (S f) m0 (os ++ [OCall o slot args]) s' (rs ++ [r]).
Proof. exact program_plain_object. Qed.

(** Its class is the one it was made with. *)
Theorem C20_class_stays : forall E f os s s' rs o x x',
  sexec_all E f os s = SOk s' rs -> live (s_objs s) o = Some x ->
  live (s_objs s') o = Some x' -> so_class x' = so_class x.
Proof. exact class_stays. Qed.

(** Two objects; the first is wrapped and stubbed. *)
Definition C20_prog : list op :=
  [ONewObj 0; ONewObj 0; OSetMember 0 1 (VInt 5); OSpyMock 0 0; OStmt [(foo 0, None)] (SWhen [always 7] None);
   OStmt [(TDtor 0, None)] SFake; OSetMember 0 0 (VInt 6); OCall 0 0 [VInt 3]].
Example C20_case : exists k x s',
  sexec_all ex_env 10 C20_prog (sinit []) = SOk (ends C20_prog) (gives C20_prog) /\
  live (s_mocks (ends C20_prog)) 0 = Some k /\ sk_owner k = false /\
  live (s_objs (ends C20_prog)) 1 = Some x /\
  (forall m k', live (s_mocks (ends C20_prog)) m = Some k' -> sk_obj k' <> 1) /\
  nth_error (e_classes ex_env) (so_class x) = Some ex_class /\
  srun_prog (sexec ex_env 9) (FrStack 1 [VInt 3]) (cl_body ex_class 0) (ends C20_prog) = sanswer s' (inl (VInt 3)) /\
  results ex_env 10 [] (C20_prog ++ [OCall 1 0 [VInt 3]; OMockDestroy 0; OCall 0 0 [VInt 3]; OGetMember 0 0; OGetMember 0 1]) =
    Some (gives C20_prog ++ [inl (VInt 3); inl VVoid; inl (VInt 3); inl (VInt 6); inl (VInt 5)]).
Proof.
  do 3 eexists. split; [calc|]. split; [calc|]. split; [calc|]. split; [calc|]. split; [|split; [calc|split; calc]].
  intros [|m] k' L; [vm_compute in L; inversion L; subst; discriminate|].
  vm_compute in L. destruct m; discriminate.
Qed.

(** ** C36: verification and later calls *)

(** A verification statement about methods that were mentioned before ([said]): whether it
    succeeds or fails ([r]), every later program that does not verify, and that uses method
    expressions within statements only, has the results it has without the statement. *)
Theorem C36_verify : forall E, iterates E -> forall f m0 os s rs ts st s1 r os' s' rs',
  leads E (S f) m0 os s rs -> verifies st = true ->
  Forall (fun x => said E s (fst x)) ts -> sexec E (S f) (OStmt ts st) s = sanswer s1 r ->
  nexec_all E false (fun _ => true) (length ts) (S f) os' s = SOk s' rs' ->
  exists s2, leads E (S f) m0 (os ++ OStmt ts st :: os') s2 (rs ++ r :: rs').
Proof. exact verification_unnoticed. Qed.

(** The same for the single steps of a verification with stored objects: making it, giving
    a quantity, evaluating it, its destruction. *)
Theorem C36_objects : forall E, iterates E -> forall f m0 os s rs o s1 r os' s' rs',
  leads E (S f) m0 os s rs -> verifies_op o = true ->
  sexec E (S f) o s = sanswer s1 r -> nexec_all E false (fun _ => true) 0 (S f) os' s = SOk s' rs' ->
  exists s2, leads E (S f) m0 (os ++ o :: os') s2 (rs ++ r :: rs').
Proof. exact objects_unnoticed. Qed.

(** A verification that fails, after one call of C14_prog. *)
Definition C36_stmt : op :=
  OStmt [(foo 0, Some (eq_int 3)); (foo 0, None)]
    (SVerify ScInvolved [SConcat (SLeaf 0%nat) (SLeaf 1%nat)] [VsQuant (QExactly 1)]).
Example C36_case : exists s1 e s' rs',
  leads ex_env 10 [] C14_prog (ends C14_prog) (gives C14_prog) /\
  Forall (fun x => said ex_env (ends C14_prog) (fst x)) [(foo 0, Some (eq_int 3)); (foo 0, None)] /\
  sexec ex_env 10 C36_stmt (ends C14_prog) = sanswer s1 (inr (XVerification e)) /\
  nexec_all ex_env false (fun _ => true) 2 10 C14_later (ends C14_prog) = SOk s' rs'.
Proof.
  do 4 eexists. split; [run|]. split; [|split; [calc|calc]].
  assert (said ex_env (ends C14_prog) (foo 0)); [|repeat constructor; auto].
  exists 0, 0. eexists. eexists. split; [|left; split; calc].
  do 2 eexists. repeat (split; [calc|]). split; [vm_compute; lia|]. split; [calc|]. split; [vm_compute; lia|]. split; calc.
Qed.
Example C36_object_case : let os := C14_prog ++ [OCtx (foo 0)] in exists s1 s' rs',
  leads ex_env 10 [] os (ends os) (gives os) /\
  sexec ex_env 10 (OExp ScInvolved [SLeaf 2%nat]) (ends os) = sanswer s1 (inl (VInt 0)) /\
  nexec_all ex_env false (fun _ => true) 0 10 (C14_later ++ [OWhen 2 [once 4] None; OCall 0 0 [VInt 8]]) (ends os) = SOk s' rs'.
Proof. do 3 eexists. split; [run|]. split; calc. Qed.

(** ** C47: calling the destructor and deleting the object are the same to a mock: both entries
    of the destructor do exactly the same, in every state and for whatever follows, if the object
    was made by the library or the destructor was mentioned. *)
Theorem C47_program : forall E f m0 os s rs w o x m k d j,
  leads E f m0 os s rs -> exec_all E f os (init_world E m0) = RVal w rs ->
  live (s_objs s) o = Some x -> so_mock x = Some m -> live (s_mocks s) m = Some k ->
  nth_error (e_classes E) (sk_class k) = Some d -> cl_dtor d = Some j ->
  sk_owner k = true \/ method_at s m j <> None ->
  forall g args, exec E g (OCall o (S j) args) w = exec E g (OCall o j args) w.
Proof. exact program_dtor_entries. Qed.

(** Both mocks of C12_prog.  The destructor of mock 0 was faked and called. *)
Example C47_program_case : exists x k x' k',
  leads ex_env 10 [] C12_prog (ends C12_prog) (gives C12_prog) /\
  live (s_objs (ends C12_prog)) 0 = Some x /\ so_mock x = Some 0 /\ live (s_mocks (ends C12_prog)) 0 = Some k /\
  live (s_objs (ends C12_prog)) 1 = Some x' /\ so_mock x' = Some 1 /\ live (s_mocks (ends C12_prog)) 1 = Some k' /\
  sk_owner k = true /\ sk_owner k' = false /\ method_at (ends C12_prog) 1 2 <> None /\
  nth_error (e_classes ex_env) (sk_class k') = Some ex_class /\ cl_dtor ex_class = Some 2 /\
  results ex_env 10 [] (C12_prog ++ [OCall 1 3 []; OCall 1 2 []; OStmt [(TDtor 1, None)] (SVerify ScInvolved [SLeaf 0%nat] [VsQuant (QExactly 2)])]) =
    Some (gives C12_prog ++ [inl VVoid; inl VVoid; inl VVoid]).
Proof.
  do 4 eexists. split; [run|]. do 9 (split; [calc|| (vm_compute; discriminate)|]). split; [calc|]. split; calc.
Qed.

(** All at once, as the traversal of the proofs takes a while: none uses an axiom. *)
Definition P_Mocks_theorems :=
  (C12_at_rest,
   C12_reset,
   C12_unmocked,
   C12_destructor,
   C12_original,
   C13_reset_as_new,
   C13_new_as_reset,
   C13_made_new,
   C13_made_spying,
   C14_clear,
   C14_same_answers,
   C20_restored,
   C20_plain_object,
   C20_class_stays,
   C36_verify,
   C36_objects,
   C47_program).
Print Assumptions P_Mocks_theorems.
