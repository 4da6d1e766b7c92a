(** Property C89: everything the library allocates is released.  What belongs to whom: Spec_Leaks.v. *)
From Coq Require Import Bool ZArith Lia List.
From Verif Require Import Base CInt Values ArgMatchers InvMatchers ActionSeq Sequences
  Expectation ReturnSet VTable Proxy Syntax World WorldExamples Spec_Leaks LeakProofs WorldLeaks StmtTemps.
Import ListNotations.
Open Scope nat_scope.

(** C89: whatever a program did, nested in whatever bodies of methods, and however its operations
    ended: once its mocks and its stored expressions are gone, no recorded body, no condition, no
    list of actions and no virtual table but those of the classes is left. *)
Theorem C89 : forall E fuel m os w rs,
  exec_all E fuel os (init_world E m) = RVal w rs -> nothing_held w -> nothing_left (length (e_classes E)) w.
Proof. exact released_after. Qed.

(** The same while there are mocks, none of which has a mocked method, as after Reset. *)
Theorem C89_reset : forall E fuel m os w rs,
  exec_all E fuel os (init_world E m) = RVal w rs -> all_at_rest w -> (forall c x, ~ live_expression w c x) ->
  (forall b x, ~ live_body w b x) /\ (forall i, ~ live_condition w i) /\ (forall s, ~ live_actions w s).
Proof. exact rest_after. Qed.

(** At any time what is allocated has an owner, or the program gave a condition to a stored
    expression after stubbing with it. *)
Theorem C89_owned : forall E fuel m os w rs,
  exec_all E fuel os (init_world E m) = RVal w rs ->
  (forall s, live_actions w s -> actions_owned w s) /\
  (forall b x, live_body w b x -> body_owned w b) /\
  (forall t, live_table w t -> table_owned (length (e_classes E)) w t) /\
  ((forall i, live_condition w i -> condition_owned w i) \/ doomed w).
Proof. exact owned_after. Qed.

(** The temporary objects of a statement are gone when it is over, whichever way it is left: the
    expressions and verifications that are there afterwards are those that were there before. *)
Theorem C89_statement : forall E fuel ts s w,
  match exec E fuel (OStmt ts s) w with
  | RVal w' _ => same_held w w'
  | RExn w' _ => same_held w w'
  | _ => True
  end.
Proof. exact stmt_temporaries. Qed.

(** A program: two mocks, stubbing with and without conditions, a statement left by an exception,
    calls, one of them unexpected, a stored expression, spying, a failing and a passing
    verification, one mock reset and stubbed again, both destroyed. *)
Definition lk_prog : list op :=
  [OMock 0; ONewObj 0; OSpyMock 0 1;
   OStmt [(foo 0, Some (eq_int 3))] (SWhen [once 1; always 2] None);
   OStmt [(foo 0, None)] (SWhen [once 5] (Some (1, XUser 9)));
   OStmt [(foo 1, None)] (SSpy true);
   OCall 0 0 [VInt 3]; OCall 0 0 [VInt 4]; OCall 1 0 [VInt 8];
   OCtx (bar 0); OStmt [(foo 0, None)] (SVerify ScInvolved [SLeaf 0%nat] [VsQuant (QExactly 7)]);
   OStmt [(foo 1, None)] (SVerify ScInvolved [SLeaf 0%nat] []); OCtxFree 3].
Definition lk_tail : list op := [OReset 0; OStmt [(foo 0, None)] SFake; OMockDestroy 1; OMockDestroy 0].

Definition world_of (os : list op) : option world :=
  match exec_all ex_env 10 os (init_world ex_env [Some (VInt 0)]) with RVal w _ => Some w | _ => None end.
Definition count {A} (f : A -> bool) (l : list A) : nat := length (filter f l).
Definition there {A} (o : option A) : bool := match o with Some _ => true | None => false end.
(** Mocks, expressions, bodies, conditions, lists of actions and tables that are allocated. *)
Definition allocated (w : world) : list nat :=
  [count there (w_mocks w); count there (w_ctxs w); count there (w_bodies w); count there (w_matchers w);
   count sq_alive (w_seqs w); count there (w_tables w)].

Lemma none_there : forall A (l : list (option A)), count there l = 0 -> forall i x, nth_error l i <> Some (Some x).
Proof.
  intros A l. unfold count. induction l as [|[a|] l IH]; intros H i x.
  - destruct i; discriminate.
  - discriminate.
  - destruct i as [|i]; [discriminate|]. exact (IH H i x).
Qed.
Definition rests (w : world) : bool :=
  forallb (fun o => match o with Some k => forallb (fun b => negb (there b)) (pt_mocks (mk_pt k)) | None => true end) (w_mocks w).
Lemma rests_ok : forall w, rests w = true -> all_at_rest w.
Proof.
  intros w H m k L. unfold rests in H. rewrite forallb_forall in H. specialize (H _ (nth_error_In _ _ L)). cbn in H.
  rewrite forallb_forall in H. apply Forall_forall. intros [b|] B; [|reflexivity]. specialize (H _ B). discriminate.
Qed.

Example C89_case :
  option_map allocated (world_of lk_prog) = Some [2; 0; 3; 2; 2; 4] /\
  option_map allocated (world_of (lk_prog ++ [OReset 0; OReset 1])) = Some [2; 0; 0; 0; 0; 4] /\
  option_map allocated (world_of (lk_prog ++ lk_tail)) = Some [0; 0; 0; 0; 0; 1] /\
  (forall w, world_of (lk_prog ++ lk_tail) = Some w -> nothing_held w).
Proof.
  assert (A : option_map allocated (world_of (lk_prog ++ lk_tail)) = Some [0; 0; 0; 0; 0; 1]) by (vm_compute; reflexivity).
  split; [vm_compute; reflexivity|split; [vm_compute; reflexivity|split; [exact A|]]].
  intros w H. rewrite H in A. cbn [option_map] in A. unfold allocated in A. injection A as A1 A2 _ _ _ _.
  split; intros k x; now apply none_there.
Qed.
(** The hypotheses of [C89_reset] hold after Reset of all mocks. *)
Example C89_reset_case : exists w, world_of (lk_prog ++ [OReset 0; OReset 1]) = Some w /\
  all_at_rest w /\ (forall c x, ~ live_expression w c x).
Proof.
  assert (A : option_map (fun w => (rests w, count there (w_ctxs w))) (world_of (lk_prog ++ [OReset 0; OReset 1])) = Some (true, 0))
    by (vm_compute; reflexivity).
  destruct (world_of (lk_prog ++ [OReset 0; OReset 1])) as [w|]; [|discriminate]. exists w. split; [reflexivity|].
  cbn [option_map] in A. injection A as A1 A2. split; [now apply rests_ok|]. intros k x. now apply none_there.
Qed.
(** Statements that return, fail and throw, with a stored expression around. *)
Example C89_statement_case :
  let left o := match world_of [OMock 0; OCtx (foo 0)] with
                | Some w => match exec ex_env 10 o w with RVal w' v => Some (inl v, allocated w') | RExn w' e => Some (inr e, allocated w') | _ => None end
                | None => None
                end in
  option_map allocated (world_of [OMock 0; OCtx (foo 0)]) = Some [1; 1; 1; 1; 1; 3] /\
  left (OStmt [(foo 0, Some (eq_int 3)); (bar 0, None)] SFake) = Some (inl VVoid, [1; 1; 2; 3; 3; 3]) /\
  left (OStmt [(foo 0, None)] (SWhen [once 5] (Some (1, XUser 9)))) = Some (inr (XUser 9), [1; 1; 1; 1; 1; 3]) /\
  left (OStmt [(foo 0, None)] (SVerify ScInvolved [SLeaf 0%nat] [])) =
    Some (inr (XVerification (EvSequence VtAtLeast [SLeaf 1%nat] [] 1 0)), [1; 1; 1; 1; 1; 3]).
Proof. cbv zeta. split; [|split; [|split]]; vm_compute; reflexivity. Qed.

(** C89 is refuted for stored expressions that are given a condition after stubbing: with no
    expression left, a condition belongs to nobody, and the mock cannot be destroyed any more. *)
Theorem C89_refuted :
  exists os w i, world_of os = Some w /\ (forall c x, ~ live_expression w c x) /\
    live_condition w i /\ ~ condition_owned w i /\
    undefined ex_env 10 [Some (VInt 0)] (os ++ [OMockDestroy 0]).
Proof.
  exists [OMock 0; OCtx (foo 0); OWhen 0 [always 1] None; OCond 0 (eq_int 3); OCtxFree 0].
  assert (A : option_map (fun w => (count there (w_ctxs w), map (option_map bd_handlers) (w_bodies w), map there (w_matchers w)))
      (world_of [OMock 0; OCtx (foo 0); OWhen 0 [always 1] None; OCond 0 (eq_int 3); OCtxFree 0])
    = Some (0, [Some [(0, 0)]], [false; true])) by (vm_compute; reflexivity).
  destruct (world_of _) as [w|]; [|discriminate]. cbn [option_map] in A. injection A as A1 A2 A3.
  exists w, 1. split; [reflexivity|].
  assert (X : forall c x, ~ live_expression w c x) by (intros c x; now apply none_there).
  split; [exact X|split; [|split]].
  - pose proof (f_equal (fun l => nth_error l 1) A3) as A4. cbn beta in A4. rewrite nth_error_map in A4.
    destruct (nth_error (w_matchers w) 1) as [[y|]|] eqn:Y; cbn in A4; try discriminate. now exists y.
  - intros [(c & x & C & _)|(b & x & s & B & I)]; [exact (X c x C)|].
    pose proof (f_equal (fun l => nth_error l b) A2) as A4. cbn beta in A4. rewrite nth_error_map in A4.
    unfold live_body in B. rewrite B in A4. destruct b as [|b]; [|destruct b; discriminate].
    injection A4 as A4. rewrite A4 in I. destruct I as [I|[]]. discriminate.
  - vm_compute. reflexivity.
Qed.

Definition P_Leaks_theorems := (C89, C89_reset, C89_owned, C89_statement, C89_refuted).
Print Assumptions P_Leaks_theorems.
