(** Property C90: tests that keep to the rules are never undefined and always end.  The rules: Spec_Rules.v. *)
From Coq Require Import Bool ZArith Lia List Permutation.
From Verif Require Import Base CInt Values ArgMatchers InvMatchers Spec_Conditions ConditionProofs ActionSeq Sequences MatchAnalysis
  Spec_Match Proxy Events Expectation Spec_Verify ReturnSet Syntax World WorldExamples Spec_World Spec_View SpecFacts Spec_Verification
  Spec_Rules RulesProofs Spec_Leaks RulesLeaks.
Import ListNotations.
Open Scope nat_scope.

(** C90: a test declares mocks, some of them on objects of the user, does what the rules allow with those that are
    there, in whatever order and with whatever code in its actions and in the methods of its objects, and destroys
    mocks that nothing it does later needs; it declares and destroys at any time.  Then every operation returns or
    throws; none is undefined, and none throws the library's internal exception.  [2 * n + 1] bounds the depth of
    nested calls. *)
Theorem C90 : forall E P m n os fuel, iterates E -> pl_mem P m -> whole_test E P n os ->
  (Z.of_nat n <= 2 ^ 30)%Z -> 2 * n + 1 <= fuel ->
  exists w rs, exec_all E fuel os (init_world E m) = RVal w rs /\ ~ In (inr XNoMore) rs.
Proof. exact rules_world. Qed.

(** If the test destroys all of its mocks, nothing that the library allocated is left. *)
Theorem C90_released : forall E P m n os fuel, iterates E -> pl_mem P m -> whole_test E P n os -> all_go os ->
  (Z.of_nat n <= 2 ^ 30)%Z -> 2 * n + 1 <= fuel ->
  exists w rs, exec_all E fuel os (init_world E m) = RVal w rs /\
    nothing_held w /\ nothing_left (length (e_classes E)) w.
Proof. exact rules_released. Qed.

(** ** A test *)

(** Class 1 is like class 0, but foo calls bar of the same object. *)
Definition rl_class : class_desc :=
  mkClass 4 (Some 2%nat)
    (fun s => match s with
              | 0%nat => PThis (fun i => PArg 0 (fun v => PDo (OCall i 1 []) (fun _ => PRet v)))
              | 1%nat => PRet (VRef 0)
              | _ => PRet VVoid
              end)
    (fun s => match s with 0%nat => RtVal (VInt 0) | 1%nat => RtRef 0 | _ => RtVoid end)
    2.
Definition rl_env : env :=
  mkEnv [ex_class; rl_class]
    (fun _ e => match e with EvUnexpected _ _ _ => None | _ => Some (XVerification e) end)
    0 (fun l => l) (fun v => v).

(** Mock 1 is on an object of class 1.  foo takes one number.  Mocks 0 and 2 may use mock 1, and so may the methods
    of the object of mock 1. *)
Definition rl_plan : plan :=
  mkPlan (fun i => match i with 1 => Some (0, Some 1) | 0 | 2 | 3 => Some (0, None) | _ => None end)
    (fun i j => Nat.leb i 2 && Nat.eqb j 1)
    (fun i e => match i, e with 0, 0 | 2, 0 => 2 | 1, 0 => 1 | _, _ => 0 end)
    (fun _ e args => match e with 0 => exists z, args = [VInt z] | _ => args = [] end)
    (fun m => exists v l, m = Some v :: l)
    (fun _ z => if (z =? 11)%Z then 0 else 1)
    (fun i => Nat.eqb i 0).

(** Mocks 0 and 1 are declared.  foo of mock 0 is answered by a call of foo of mock 1 once, then with 9; mock 1 is
    spied.  Calls, one of them unexpected; verifications, one of them failing; a call from a destructor during stack
    unwinding; Reset. *)
Definition rl_answer : prog := PArg 0 (fun v => PDo (OCall 1 0 [v]) (fun r => match r with OVal x => PRet x | OExn _ => PRet (VInt (-1)) end)).
Definition rl_first : list op := declaration (0, (0, None)) ++ declaration (1, (0, Some 1)).
Definition rl_test : list op :=
  [OStmt [(foo 0, Some (eq_int 3))] (SWhen [RecOnce (FProg rl_answer); always 9] None);
   OStmt [(foo 1, None)] (SSpy true);
   OCall 0 0 [VInt 3]; OCall 0 0 [VInt 4]; OUnwinding (OCall 0 0 [VInt 3]);
   OStmt [(bar 0, None)] SFake; OCall 0 1 [];
   OStmt [(foo 1, None)] (SVerify ScInvolved [SLeaf 0] [VsQuant (QExactly 1); VsBool]);
   OStmt [] (SNoOther [SMock 0] []);
   OWrite 0 (VInt 5); ORead 0; OListener 7; OReset 0; OCall 0 0 [VInt 3]].
(** Then mock 2 is declared, which answers with a call of mock 1; mock 0 is destroyed; mocks 1 and 2 are used; mock 3
    is declared; mock 1 is destroyed, after which mock 2 must not be used any more; mock 3 is used; mocks 2 and 3 are
    destroyed. *)
Definition rl_then : list op :=
  declaration (2, (0, None)) ++
  [OStmt [(foo 2, None)] (SWhen [RecAlways (FProg rl_answer)] None); OMockDestroy 0;
   OCall 2 0 [VInt 6]; OCall 1 0 [VInt 7]] ++
  declaration (3, (0, None)) ++
  [OMockDestroy 1; OCall 3 0 [VInt 8]; OMockDestroy 2; OMockDestroy 3].

Lemma rl_do : forall E P k T L n N o os, op_ok E (only L P) n o -> n <= N -> test_ok E P k T L (N - n) os -> test_ok E P k T L N (o :: os).
Proof. intros E P k T L n N o os O L1 H. replace N with (n + (N - n)) by lia. now constructor. Qed.

Lemma rl_class_at : forall (L : nat -> bool) i, L i = true -> i < 4 -> class_at rl_env (only L rl_plan) i = Some ex_class.
Proof. intros L i LI H. unfold class_at. cbn. rewrite LI. destruct i as [|[|[|[|i]]]]; [reflexivity|reflexivity|reflexivity|reflexivity|lia]. Qed.
Lemma rl_foo : forall (L : nat -> bool) i, L i = true -> i < 4 -> designated rl_env (only L rl_plan) (foo i) i 0.
Proof. intros L i LI H. eapply DeMethod; [now apply rl_class_at|cbn; lia|reflexivity|reflexivity|discriminate|discriminate]. Qed.
Lemma rl_bar : forall (L : nat -> bool), L 0 = true -> designated rl_env (only L rl_plan) (bar 0) 0 1.
Proof. intros L LI. eapply DeMethod; [apply rl_class_at; [auto|lia]|cbn; lia|reflexivity|reflexivity|discriminate|discriminate]. Qed.
Lemma rl_any : forall L i e, settles (only L rl_plan) i e (cond_of None).
Proof. intros L i e m args _ _. left. apply satisfied_iff. reflexivity. Qed.
Lemma rl_three : forall L i, settles (only L rl_plan) i 0 (cond_of (Some (eq_int 3))).
Proof.
  intros L i m args _ (z & ->). apply decided_iff. cbn. destruct (Z.eqb z 3); eauto.
Qed.

(** The mocks: those without an object of the user, and mock 1. *)
Lemma rl_plain : forall P i, mock_ok rl_env P i (0, None).
Proof. intros P i. exists ex_class. split; [reflexivity|]. split; [reflexivity|exact Logic.I]. Qed.
Lemma rl_wrapping : forall L : nat -> bool, L 1 = true -> mock_ok rl_env (only L rl_plan) 1 (0, Some 1).
Proof.
  intros L LI. exists ex_class. split; [reflexivity|]. split; [reflexivity|]. exists rl_class. split; [reflexivity|]. split; [cbn; lia|].
  intros slot H. destruct slot as [|[|[|[|slot]]]]; unfold body_ok; cbn [rl_class cl_body]; try (cbn in H; lia); try apply OkRet.
  apply OkThis. apply OkArg; [intros args (z & ->); cbn; lia|]. intros args v _ _.
  apply OkDo with (n1 := 1) (n2 := 0); [cbn; lia| |intros r _; apply OkRet].
  apply (OkCall _ _ 1 1 1 ex_class); [unfold class_at; cbn; now rewrite LI|cbn; lia|cbn; lia|reflexivity].
Qed.

Lemma rl_call : forall n L i z, L i = true -> i < 4 -> S (pl_work rl_plan i 0) <= n -> op_ok rl_env (only L rl_plan) n (OCall i 0 [VInt z]).
Proof. intros n L i z LI H W. apply (OkCall _ _ n i 0 ex_class); [now apply rl_class_at|cbn; lia|exact W|exists z; reflexivity]. Qed.
Lemma rl_answer_ok : forall (L : nat -> bool) i, L 1 = true -> i = 0 \/ i = 2 -> callable_ok rl_env (only L rl_plan) i 0 (FProg rl_answer).
Proof.
  intros L i LI H.
  apply OkProg. apply OkArg; [intros args (z & ->); cbn; lia|]. intros args v (z & ->) Q. cbn in Q. injection Q as <-.
  apply OkDo with (n1 := 2) (n2 := 0); [destruct H as [-> | ->]; cbn; lia| |intros [x|e] _; apply OkRet].
  apply (OkCall _ _ 2 1 0 ex_class); [|cbn; lia|cbn; lia|exists z; reflexivity].
  destruct H as [-> | ->]; unfold class_at; cbn; now rewrite LI.
Qed.

Lemma rl_test_ok : forall k T (L : nat -> bool) N os, L 0 = true -> L 1 = true -> test_ok rl_env rl_plan k T L N os ->
  test_ok rl_env rl_plan k T L (21 + N) (rl_test ++ os).
Proof.
  intros k T L N os L0 L1 REST. unfold rl_test. cbn [app].
  apply rl_do with (n := 1); [|lia|].
  { apply OkStmt; [cbn; lia| |].
    - constructor; [|constructor]. exists 0, 0. split; [apply rl_foo; auto; lia|apply rl_three].
    - apply OkWhen with (i := 0) (e := 0); [apply rl_foo; auto; lia| |discriminate].
      constructor; [apply OkOnce, rl_answer_ok; auto|]. constructor; [|constructor]. apply OkAlways, OkProg, OkRet. }
  apply rl_do with (n := 1); [|lia|].
  { apply OkStmt; [cbn; lia| |].
    - constructor; [|constructor]. exists 1, 0. split; [apply rl_foo; auto; lia|apply rl_any].
    - apply OkSpy. intros _ x i e [<-|[]] D args A.
      assert (e = 0 /\ i = 1) as (-> & ->) by (inversion D; auto). destruct A as (z & ->). exists z. reflexivity. }
  apply rl_do with (n := 3); [apply rl_call; auto; cbn; lia|lia|].
  apply rl_do with (n := 3); [apply rl_call; auto; cbn; lia|lia|].
  apply rl_do with (n := 4); [apply OkUnwinding with (n1 := 3); [lia|apply rl_call; auto; cbn; lia]|lia|].
  apply rl_do with (n := 1); [|lia|].
  { apply OkStmt; [cbn; lia| |].
    - constructor; [|constructor]. exists 0, 1. split; [now apply rl_bar|apply rl_any].
    - apply OkFake. intros x i e [<-|[]] D. assert (e = 1 /\ i = 0) as (-> & ->) by (inversion D; auto).
      unfold returns. rewrite rl_class_at by (auto; lia). discriminate. }
  apply rl_do with (n := 1); [apply (OkCall _ _ 1 0 1 ex_class); [apply rl_class_at; auto; lia|cbn; lia|cbn; lia|reflexivity]|lia|].
  apply rl_do with (n := 1); [|lia|].
  { apply OkStmt; [cbn; lia| |].
    - constructor; [|constructor]. exists 1, 0. split; [apply rl_foo; auto; lia|apply rl_any].
    - apply OkVerify; [exact Logic.I|discriminate| |].
      + constructor; [|constructor]. split; [exact Logic.I|]. split; [cbn; unfold int_max; lia|cbn; constructor; [lia|constructor]].
      + intros q [X|[X|[]]]; [|discriminate]. injection X as <-. cbn; unfold int_min, int_max; lia. }
  apply rl_do with (n := 0); [|lia|].
  { apply OkStmt; [cbn; lia|constructor|]. apply OkNoOther; [constructor; [cbn; rewrite L0; discriminate|constructor]|intros q []]. }
  apply rl_do with (n := 0); [|lia|].
  { apply OkWrite. intros m (v & l & ->). exists (Some (VInt 5) :: l). split; [reflexivity|]. exists (VInt 5), l. reflexivity. }
  apply rl_do with (n := 0); [|lia|].
  { apply OkRead. intros m (v & l & ->). exists v. reflexivity. }
  apply rl_do with (n := 0); [apply OkListener|lia|].
  apply rl_do with (n := 3); [|lia|].
  { apply OkReset; [cbn; rewrite L0; discriminate|reflexivity|]. intros [|e]; cbn; lia. }
  apply rl_do with (n := 3); [apply rl_call; auto; cbn; lia|lia|].
  match goal with |- test_ok _ _ _ _ _ ?x _ => replace x with N by lia end. exact REST.
Qed.

(** A mock goes that no other uses. *)
Lemma rl_remain : forall i (L : nat -> bool), i <> 1 -> remain rl_plan i L (but_for i L).
Proof.
  intros i L N. unfold but_for. split; [now rewrite Nat.eqb_refl|]. split.
  - intros j H. apply andb_prop in H. apply H.
  - intros j j' _ U H. cbn in U. apply andb_prop in U. destruct U as [_ U]. apply Nat.eqb_eq in U. subst j'.
    rewrite H. apply not_eq_sym, Nat.eqb_neq in N. now rewrite N.
Qed.

Lemma rl_whole : whole_test rl_env rl_plan 28 (rl_first ++ rl_test ++ rl_then).
Proof.
  split; [intros l ev; destruct ev; discriminate|]. unfold rl_first. rewrite <- app_assoc.
  apply TestDeclare; [reflexivity|apply rl_plain|]. apply TestDeclare; [reflexivity|now apply rl_wrapping|].
  apply (rl_test_ok 2 _ _ 7); [reflexivity|reflexivity|]. unfold rl_then.
  apply TestDeclare; [reflexivity|apply rl_plain|]. cbn [app].
  apply rl_do with (n := 1); [|lia|].
  { apply OkStmt; [cbn; lia| |].
    - constructor; [|constructor]. exists 2, 0. split; [apply rl_foo; [reflexivity|lia]|apply rl_any].
    - apply OkWhen with (i := 2) (e := 0); [apply rl_foo; [reflexivity|lia]| |discriminate].
      constructor; [apply OkAlways, rl_answer_ok; auto|]. constructor. }
  eapply TestDestroy; [reflexivity|apply rl_remain; discriminate|].
  apply rl_do with (n := 3); [apply rl_call; [reflexivity|lia|cbn; lia]|lia|].
  apply rl_do with (n := 2); [apply rl_call; [reflexivity|lia|cbn; lia]|lia|].
  apply (TestDeclare rl_env rl_plan 3 _ _ (0, None)); [reflexivity|apply rl_plain|].
  apply TestDestroy with (L' := Nat.eqb 3); [reflexivity| |].
  { split; [reflexivity|]. split.
    - intros j H. apply Nat.eqb_eq in H. subst j. reflexivity.
    - intros j j' H U _. apply Nat.eqb_eq in H. subst j. discriminate. }
  apply rl_do with (n := 1); [apply rl_call; [reflexivity|lia|cbn; lia]|lia|].
  eapply TestDestroy; [reflexivity|apply rl_remain; discriminate|].
  eapply TestDestroy; [reflexivity|apply rl_remain; discriminate|].
  constructor.
Qed.

Example C90_case :
  iterates rl_env /\ pl_mem rl_plan [Some (VInt 0)] /\ whole_test rl_env rl_plan 28 (rl_first ++ rl_test ++ rl_then) /\
  results rl_env 57 [Some (VInt 0)] (rl_first ++ rl_test ++ rl_then) =
    Some [inl (VInt 0); inl (VInt 1); inl (VInt 1);
          inl VVoid; inl VVoid; inl (VInt 3); inr (XUnexpected (EvUnexpected Unmatched (Some 1%Z) [VInt 4])); inl VVoid;
          inl VVoid; inl (VRef 0); inl (VBool true); inr (XVerification (EvNoMore [0; 3; 4] [0; 3; 4]));
          inl VVoid; inl (VInt 5); inl VVoid; inl VVoid; inr (XUnexpected (EvUnexpected Unmocked None []));
          inl (VInt 2); inl VVoid; inl VVoid; inl (VInt 6); inl (VInt 7);
          inl (VInt 3); inl VVoid; inr (XUnexpected (EvUnexpected Unmocked None [])); inl VVoid; inl VVoid].
Proof.
  split; [intros l; apply Permutation_refl|]. split; [exists (VInt 0), []; reflexivity|].
  split; [exact rl_whole|]. vm_compute. reflexivity.
Qed.

(** The mocks, expressions, bodies, conditions, lists of actions and tables that are there after a test: the one
    above; with both mocks destroyed, with one, with none; and with both destroyed, when an expression was stored,
    which no rule allows. *)
Definition rl_left (os : list op) : option (list nat) :=
  let count := fun A (f : A -> bool) l => length (filter f l) in
  let there := fun A (o : option A) => match o with Some _ => true | None => false end in
  match exec_all rl_env 81 (rl_first ++ rl_test ++ os) (init_world rl_env [Some (VInt 0)]) with
  | RVal w _ => Some [count _ (there _) (w_mocks w); count _ (there _) (w_ctxs w); count _ (there _) (w_bodies w);
                      count _ (there _) (w_matchers w); count _ sq_alive (w_seqs w); count _ (there _) (w_tables w)]
  | _ => None
  end.
Example C90_released_case :
  all_go (rl_first ++ rl_test ++ rl_then) /\
  rl_left rl_then = Some [0; 0; 0; 0; 0; 2] /\
  rl_left (map OMockDestroy [1; 0]) = Some [0; 0; 0; 0; 0; 2] /\
  rl_left (map OMockDestroy [0]) = Some [1; 0; 1; 1; 1; 3] /\
  rl_left [] = Some [2; 0; 1; 1; 1; 5] /\
  rl_left (OCtx (foo 0) :: map OMockDestroy [1; 0]) = Some [0; 1; 0; 1; 1; 2].
Proof.
  split; [|split; [vm_compute; reflexivity|split; [vm_compute; reflexivity|split; [vm_compute; reflexivity|split; vm_compute; reflexivity]]]].
  intros i L. cbn in L. assert (H : i = 0 \/ i = 1 \/ i = 2 \/ i = 3) by lia.
  destruct H as [-> | [-> | [-> | ->]]]; cbn [In rl_first rl_test rl_then declaration app]; tauto.
Qed.

(** Tests that break a rule: a mock reset or destroyed by the code that answers its call, the destructor of a
    mock that was reset mentioned and called, an argument that the method does not have, an entry that the class does not have, a
    variable that does not exist, a mock destroyed twice, a mock used that is destroyed: by the test, by an action
    recorded for another mock. *)
Definition rl_once (p : prog) : op := OStmt [(foo 0, None)] (SWhen [RecOnce (FProg p)] None).
Example C90_rules_needed : forall os,
  In os [[rl_once (PDo (OReset 0) (fun _ => PRet (VInt 1))); OCall 0 0 [VInt 1]];
         [rl_once (PDo (OMockDestroy 0) (fun _ => PRet (VInt 1))); OCall 0 0 [VInt 1]];
         [OReset 0; OStmt [(TDtor 0, None)] SFake; OCall 0 2 []];
         [rl_once (PArg 1 (fun v => PRet v)); OCall 0 0 [VInt 1]];
         [OCall 0 9 []];
         [ORead 3];
         [OMockDestroy 0; OMockDestroy 0];
         [OMockDestroy 0; OCall 0 0 [VInt 1]];
         [OMockDestroy 1; OStmt [(foo 1, None)] SFake];
         [OMockDestroy 1; OStmt [] (SNoOther [SMock 0; SMock 1] [])];
         [OMock 0; rl_once (PDo (OCall 2 0 [VInt 1]) (fun _ => PRet (VInt 1))); OMockDestroy 2; OCall 0 0 [VInt 1]];
         [OMock 0; rl_once (PDo (OClear 2) (fun _ => PRet (VInt 1))); OMockDestroy 2; OCall 0 0 [VInt 1]]] ->
  undefined rl_env 81 [Some (VInt 0)] (rl_first ++ os).
Proof.
  intros os I. cbn [In] in I. decompose [or] I; try subst os; try contradiction; vm_compute; reflexivity.
Qed.

Definition P_Rules_theorems := (C90, C90_released).
Print Assumptions P_Rules_theorems.
