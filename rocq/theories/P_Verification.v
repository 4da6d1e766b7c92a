(** Properties of verification statements in whole programs.

    The vocabulary is in Spec_View.v and Spec_Verification.v.  The programs are those the
    abstract machine of Spec_World.v has answers for ([sexec_all ... = SOk s rs]); by
    World_follows_machine (P_Calls.v) the modelled code has the same ones.
    [mentioned_all E s ts ms s1]: mentioning the methods [ts] in [s] leads to [s1] (the
    same world if all were mentioned before). *)
From Coq Require Import Bool ZArith Lia List Permutation Sorted.
From Verif Require Import Base CInt Values ArgMatchers InvMatchers ActionSeq Sequences MatchAnalysis Spec_Match
  Proxy Events Expectation Spec_Verify ReturnSet Syntax World Spec_World WorldRel WorldSim Spec_View SpecFacts SpecKept
  SpecCalls SpecLasting SpecMocks SpecHistory Spec_Verification SpecVerify SpecStatement WorldExamples P_Calls.
From Verif Require Import Spec_Conditions ConditionProofs.
Import ListNotations.
Open Scope nat_scope.

(** ** C31, with C22 to C28 and C35: Verify, Using(...).Verify and Verify(Unverified, ...)
    of any pattern, quantifiers and history.  [actual] are exactly the chosen calls in call order;
    [n] is the largest number of occurrences of the pattern in them; the verdict is
    whether [n] meets the requirement; an accepted statement marks the calls [marks] and
    does nothing else, a rejected one marks nothing and reports, or evaluates to false.
    The statement always has an answer. *)
Theorem C31_verify : forall E, iterates E -> forall f m0 os s rs xs ms s1 sc pattern qs,
  sexec_all E (S f) os (sinit m0) = SOk s rs -> mentioned_all E s (map fst xs) ms s1 -> s_uncaught s = 0 ->
  sound_scope s1 xs sc -> pattern <> [] -> Forall (sound_sequence (length xs)) pattern ->
  (Z.of_nat (length (s_calls s1)) <= int_max)%Z -> decided E s1 xs -> Forall valid_quant qs ->
  let after := statement_over s s1 (length xs) in
  exists actual n marks, StronglySorted lt actual /\ (forall i, In i actual <-> chosen E s1 xs sc pattern i) /\
    max_occurrences (accepts_at E s1 xs) actual (map spelled pattern) n /\
    greedy_marks E s1 xs pattern actual n marks /\
    ((Spec_Verify.accepts (demanded qs) (Z.of_nat n) /\
      leads E (S f) m0 (os ++ [OStmt xs (SVerify sc pattern (map VsQuant qs))]) (with_marks marks after) (rs ++ [inl VVoid]) /\
      leads E (S f) m0 (os ++ [OStmt xs (SVerify sc pattern (map VsQuant qs ++ [VsBool]))]) (with_marks marks after) (rs ++ [inl (VBool true)])) \/
     (~ Spec_Verify.accepts (demanded qs) (Z.of_nat n) /\
      (exists t k, shown (demanded qs) t k /\
        let ev := EvSequence t (map (renumbered (length (s_ctxs s))) pattern) actual k (Z.of_nat n) in
        (listeners_quiet E s ev ->
         leads E (S f) m0 (os ++ [OStmt xs (SVerify sc pattern (map VsQuant qs))]) (notified E after ev) (rs ++ [reaction E s ev]))) /\
      leads E (S f) m0 (os ++ [OStmt xs (SVerify sc pattern (map VsQuant qs ++ [VsBool]))]) after (rs ++ [inl (VBool false)]))).
Proof. exact verify_program. Qed.

(** What [with_marks marks after] and [after] mean for which calls are verified. *)
Theorem C28_status : forall E s ts ms s1 n marks i, mentioned_all E s ts ms s1 ->
  (verified_call (statement_over s s1 n) i <-> verified_call s i) /\
  (verified_call (with_marks marks (statement_over s s1 n)) i <-> verified_call s i \/ (In i marks /\ i < length (s_calls s))).
Proof.
  intros E s ts ms s1 n marks i M. split; [eapply over_verified; eauto|].
  rewrite marks_verified, (over_verified E s ts ms s1 n i M). destruct (mentioned_all_rest E s ts ms s1 M) as (_ & _ & C & _).
  unfold statement_over. cbn. now rewrite C.
Qed.

(** ** C22: a single method expression: what is counted, and marked, are the chosen calls
    of its method that its condition accepts. *)
Theorem C22_verify : forall E, iterates E -> forall f m0 os s rs x ms s1 sc qs,
  sexec_all E (S f) os (sinit m0) = SOk s rs -> mentioned_all E s [fst x] ms s1 -> s_uncaught s = 0 ->
  sound_scope s1 [x] sc -> (Z.of_nat (length (s_calls s1)) <= int_max)%Z -> decided E s1 [x] -> Forall valid_quant qs ->
  let after := statement_over s s1 1 in
  exists fitting, StronglySorted lt fitting /\
    (forall i, In i fitting <-> chosen E s1 [x] sc [SLeaf 0] i /\ fits E s1 x i) /\
    ((Spec_Verify.accepts (demanded qs) (Z.of_nat (length fitting)) /\
      leads E (S f) m0 (os ++ [OStmt [x] (SVerify sc [SLeaf 0] (map VsQuant qs))]) (with_marks fitting after) (rs ++ [inl VVoid]) /\
      leads E (S f) m0 (os ++ [OStmt [x] (SVerify sc [SLeaf 0] (map VsQuant qs ++ [VsBool]))]) (with_marks fitting after) (rs ++ [inl (VBool true)])) \/
     (~ Spec_Verify.accepts (demanded qs) (Z.of_nat (length fitting)) /\
      (exists t k actual, shown (demanded qs) t k /\ StronglySorted lt actual /\ (forall i, In i actual <-> chosen E s1 [x] sc [SLeaf 0] i) /\
        let ev := EvSequence t [SLeaf (length (s_ctxs s))] actual k (Z.of_nat (length fitting)) in
        (listeners_quiet E s ev ->
         leads E (S f) m0 (os ++ [OStmt [x] (SVerify sc [SLeaf 0] (map VsQuant qs))]) (notified E after ev) (rs ++ [reaction E s ev]))) /\
      leads E (S f) m0 (os ++ [OStmt [x] (SVerify sc [SLeaf 0] (map VsQuant qs ++ [VsBool]))]) after (rs ++ [inl (VBool false)]))).
Proof. exact verify_single. Qed.

(** Without Using and Unverified every call that fits is counted. *)
Theorem C22_all_counted : forall E s x i, fits E s x i -> chosen E s [x] ScInvolved [SLeaf 0] i.
Proof.
  intros E s x i (m & e & r & c & D & R & _). exists 0, x. split; [cbn; auto|]. split; [reflexivity|].
  rewrite (designates_target E s (fst x) m e r D). exists e. exact R.
Qed.

(** ** C35: a negative count anywhere in the chain makes the statement throw
    std::invalid_argument; it checks nothing, marks nothing and reports nothing, whatever
    was called and whatever quantifiers come before and after. *)
Theorem C35_refused : forall E, iterates E -> forall f m0 os s rs xs ms s1 sc pattern qs q rest,
  sexec_all E (S f) os (sinit m0) = SOk s rs -> mentioned_all E s (map fst xs) ms s1 -> s_uncaught s = 0 ->
  sound_scope s1 xs sc -> Forall (sound_sequence (length xs)) pattern -> decided E s1 xs -> Forall valid_quant qs ->
  (exists n, (n < 0)%Z /\ (q = QExactly n \/ q = QAtLeast n)) ->
  leads E (S f) m0 (os ++ [OStmt xs (SVerify sc pattern (map VsQuant qs ++ VsQuant q :: rest))])
    (statement_over s s1 (length xs)) (rs ++ [inr XInvalid]).
Proof. exact verify_refused. Qed.

(** ** C26: a factor below one anywhere in a pattern, in whatever sums and repetitions:
    the statement throws std::invalid_argument; nothing was checked, marked or reported,
    whatever quantifiers and conversions follow. *)
Theorem C26_program : forall E, iterates E -> forall f m0 os s rs xs ms s1 sc pattern n q steps,
  sexec_all E (S f) os (sinit m0) = SOk s rs -> mentioned_all E s (map fst xs) ms s1 -> s_uncaught s = 0 ->
  sound_scope s1 xs sc -> (forall p j, In p pattern -> written j p -> j < length xs) -> decided E s1 xs ->
  In q pattern -> repeats n q -> (n < 1)%Z ->
  leads E (S f) m0 (os ++ [OStmt xs (SVerify sc pattern steps)]) (not_verified s s1 (length xs)) (rs ++ [inr XInvalid]).
Proof. exact verify_invalid. Qed.

(** ** C29: VerifyNoOtherInvocations of any mocks, methods with conditions, or Unverified
    of such: it passes iff no selected call is unverified, otherwise it reports exactly
    those, in call order; it changes no call's status. *)
Theorem C29_no_others : forall E, iterates E -> forall f m0 os s rs xs ms s1 l,
  sexec_all E (S f) os (sinit m0) = SOk s rs -> mentioned_all E s (map fst xs) ms s1 -> s_uncaught s = 0 ->
  Forall (sound_source s1 xs) l -> decided E s1 xs ->
  let after := statement_over s s1 (length xs) in
  exists actual nonv, StronglySorted lt actual /\ (forall i, In i actual <-> some_source E s1 xs l i) /\
    StronglySorted lt nonv /\ (forall i, In i nonv <-> some_source E s1 xs l i /\ ~ verified_call s i) /\
    (forall i, verified_call after i <-> verified_call s i) /\
    ((nonv = [] /\
      leads E (S f) m0 (os ++ [OStmt xs (SNoOther l [])]) after (rs ++ [inl VVoid]) /\
      leads E (S f) m0 (os ++ [OStmt xs (SNoOther l [VsBool])]) after (rs ++ [inl (VBool true)])) \/
     (nonv <> [] /\
      (let ev := EvNoMore actual nonv in listeners_quiet E s ev ->
       leads E (S f) m0 (os ++ [OStmt xs (SNoOther l [])]) (notified E after ev) (rs ++ [reaction E s ev])) /\
      leads E (S f) m0 (os ++ [OStmt xs (SNoOther l [VsBool])]) after (rs ++ [inl (VBool false)]))).
Proof.
  intros E IT f m0 os s rs xs ms s1 l X M U SS DC.
  destruct (noother_program E IT f m0 os s rs xs ms s1 l X M U SS DC) as (actual & nonv & A & B & C & D & H).
  exists actual, nonv. split; [exact A|]. split; [exact B|]. split; [exact C|]. split; [|split; [|exact H]].
  - intro i. rewrite D. destruct (mentioned_all_rest E s _ ms s1 M) as (_ & _ & K & _). unfold verified_call. now rewrite K.
  - intro i. exact (over_verified E s _ ms s1 _ i M).
Qed.

(** ** C08: after any program, nested calls and all, the history of a method is a list of
    calls of that method in the order in which they began, and no call is in two
    histories. *)
Theorem C08_any_program : forall E, iterates E -> forall f m0 os s rs, sexec_all E f os (sinit m0) = SOk s rs ->
  forall m e me, method_at s m e = Some me ->
  StronglySorted lt (me_calls me) /\
  (forall i, In i (me_calls me) -> exists c, nth_error (s_calls s) i = Some c /\ ca_method c = me_no me) /\
  (forall i m' e', In i (me_calls me) -> recorded s m' e' i -> m' = m /\ e' = e).
Proof.
  intros E IT f m0 os s rs X m e me M. pose proof (histories E m0 f os s rs X) as T. destruct (T m e me M) as (A & B).
  split; [exact A|]. split; [exact B|]. intros i m' e' I (me' & M' & I').
  destruct (B i I) as (c & C & N). destruct (T m' e' me' M') as (_ & B'). destruct (B' i I') as (c' & C' & N').
  pose proof (answered_leads E IT _ _ _ _ _ X) as (w & _ & HR). eapply (R_unique E w s HR); eauto. congruence.
Qed.

(** *** Examples: two mocks; foo(3) on the first, foo(3) on the second, foo(4) on the
    first, foo(5) on the second. *)
Definition V_prog : list op :=
  [OMock 0; OMock 0; OStmt [(foo 0, None)] (SWhen [always 1] None); OStmt [(foo 1, None)] (SWhen [always 2] None);
   OCall 0 0 [VInt 3]; OCall 1 0 [VInt 3]; OCall 0 0 [VInt 4]; OCall 1 0 [VInt 5]].

Lemma decided_all : forall E s xs,
  forallb (fun x => forallb (fun c => match im_matches_args (s_mem s) (cond_of (snd x)) (ca_args c) with Def _ => true | _ => false end) (s_calls s)) xs = true ->
  decided E s xs.
Proof.
  intros E s xs H x m e r i c IX _ _ C. rewrite forallb_forall in H. specialize (H x IX). rewrite forallb_forall in H.
  specialize (H c (nth_error_In _ _ C)). apply decided_iff. destruct (im_matches_args _ _ _) as [b| |]; try discriminate. eauto.
Qed.

Ltac answers := apply decided_all; calc.
Ltac known_method := eexists; split; [do 2 eexists; repeat (split; [calc || (vm_compute; lia)|]); repeat split; calc || (vm_compute; lia)|left; split; [calc|reflexivity]].
Ltac known_methods := repeat (eapply MaCons; [known_method|]); apply MaNil.

(** (foo(3) on the first + foo on the second), in this order without anything between,
    exactly once. *)
Definition V_xs : list (target * option imatcher) := [(foo 0, Some (eq_int 3)); (foo 1, None)].
Example C31_case :
  sexec_all ex_env 10 V_prog (sinit []) = SOk (ends V_prog) (gives V_prog) /\
  mentioned_all ex_env (ends V_prog) (map fst V_xs) [(0, 0); (1, 0)] (ends V_prog) /\ s_uncaught (ends V_prog) = 0 /\
  sound_scope (ends V_prog) V_xs ScInvolved /\ [SConcat (SLeaf 0) (SLeaf 1)] <> [] /\
  Forall (sound_sequence (length V_xs)) [SConcat (SLeaf 0) (SLeaf 1)] /\
  (Z.of_nat (length (s_calls (ends V_prog))) <= int_max)%Z /\ decided ex_env (ends V_prog) V_xs /\
  Forall valid_quant [QOnce] /\
  results ex_env 10 [] (V_prog ++ [OStmt V_xs (SVerify ScInvolved [SConcat (SLeaf 0) (SLeaf 1)] [VsQuant QOnce])]) =
    Some (gives V_prog ++ [inl VVoid]).
Proof.
  split; [calc|]. split; [known_methods|]. split; [calc|]. split; [exact Logic.I|]. split; [discriminate|].
  split; [repeat constructor; vm_compute; discriminate|]. split; [vm_compute; discriminate|].
  split; [answers|]. split; [repeat constructor; discriminate|]. calc.
Qed.

(** Using(the second mock, foo(4) of the first).Verify(foo(4) of the first).AtLeast(1):
    one call.  Using only the second mock: none, and the report shows its calls. *)
Definition V_x : target * option imatcher := (foo 0, Some (eq_int 4)).
Example C22_case :
  sexec_all ex_env 10 V_prog (sinit []) = SOk (ends V_prog) (gives V_prog) /\
  mentioned_all ex_env (ends V_prog) [fst V_x] [(0, 0)] (ends V_prog) /\ s_uncaught (ends V_prog) = 0 /\
  sound_scope (ends V_prog) [V_x] (ScUsing [SMock 1; SCtx 0]) /\
  (Z.of_nat (length (s_calls (ends V_prog))) <= int_max)%Z /\ decided ex_env (ends V_prog) [V_x] /\
  Forall valid_quant [QAtLeast 1] /\
  results ex_env 10 [] (V_prog ++ [OStmt [V_x] (SVerify (ScUsing [SMock 1; SCtx 0]) [SLeaf 0] [VsQuant (QAtLeast 1)])]) =
    Some (gives V_prog ++ [inl VVoid]) /\
  results ex_env 10 [] (V_prog ++ [OStmt [V_x] (SVerify (ScUsing [SMock 1]) [SLeaf 0] [VsQuant (QAtLeast 1)])]) =
    Some (gives V_prog ++ [inr (XVerification (EvSequence VtAtLeast [SLeaf 2] [1; 3] 1 0))]).
Proof.
  split; [calc|]. split; [known_methods|]. split; [calc|].
  split; [constructor; [vm_compute; discriminate|constructor; [vm_compute; lia|constructor]]|].
  split; [vm_compute; discriminate|]. split; [answers|].
  split; [constructor; [split; [vm_compute; split; discriminate|discriminate]|constructor]|]. split; calc.
Qed.

(** Verify(foo(4) of the first).Once().Exactly(-1), and then the calls are still unverified. *)
Example C35_refused_case :
  sexec_all ex_env 10 V_prog (sinit []) = SOk (ends V_prog) (gives V_prog) /\
  mentioned_all ex_env (ends V_prog) [fst V_x] [(0, 0)] (ends V_prog) /\ s_uncaught (ends V_prog) = 0 /\
  sound_scope (ends V_prog) [V_x] ScInvolved /\ Forall (sound_sequence 1) [SLeaf 0] /\ decided ex_env (ends V_prog) [V_x] /\
  Forall valid_quant [QOnce] /\
  results ex_env 10 [] (V_prog ++ [OStmt [V_x] (SVerify ScInvolved [SLeaf 0] [VsQuant QOnce; VsQuant (QExactly (-1))]);
                                   OStmt [] (SNoOther [SMock 0] [VsBool])]) =
    Some (gives V_prog ++ [inr XInvalid; inl (VBool false)]).
Proof.
  split; [calc|]. split; [known_methods|]. split; [calc|]. split; [exact Logic.I|].
  split; [repeat constructor; vm_compute; discriminate|]. split; [answers|]. split; [repeat constructor; discriminate|]. calc.
Qed.

(** Verify(foo(4), foo(4) + (foo(4) * 0) * 2): the calls are still unverified. *)
Definition V_zero : list (sequence nat) := [SLeaf 0; SConcat (SLeaf 0) (SRepeat (SRepeat (SLeaf 0) 0) 2)].
Example C26_program_case :
  sexec_all ex_env 10 V_prog (sinit []) = SOk (ends V_prog) (gives V_prog) /\
  mentioned_all ex_env (ends V_prog) [fst V_x] [(0, 0)] (ends V_prog) /\ s_uncaught (ends V_prog) = 0 /\
  sound_scope (ends V_prog) [V_x] ScInvolved /\ (forall p j, In p V_zero -> written j p -> j < 1) /\
  decided ex_env (ends V_prog) [V_x] /\ In (SConcat (SLeaf 0) (SRepeat (SRepeat (SLeaf 0) 0) 2)) V_zero /\
  repeats 0 (SConcat (SLeaf 0) (SRepeat (SRepeat (SLeaf 0) 0) 2)) /\
  results ex_env 10 [] (V_prog ++ [OStmt [V_x] (SVerify ScInvolved V_zero [VsQuant (QExactly 7)]);
                                   OStmt [] (SNoOther [SMock 0] [VsBool])]) =
    Some (gives V_prog ++ [inr XInvalid; inl (VBool false)]).
Proof.
  split; [calc|]. split; [known_methods|]. split; [calc|]. split; [exact Logic.I|].
  split. { intros p j [<-|[<-|[]]] W; repeat match goal with H : written _ _ |- _ => inversion H; clear H; subst end; lia. }
  split; [answers|]. split; [cbn; auto|]. split; [apply RpRight, RpRepeat, RpHere|]. calc.
Qed.

(** After Verify(foo(3)) of the first mock: its foo(4) and both calls of the second. *)
Definition V_prog2 : list op := V_prog ++ [OStmt [(foo 0, Some (eq_int 3))] (SVerify ScInvolved [SLeaf 0] [])].
Definition V_left : list source := [SMock 0; SUnverified [SCtx 0]].
Example C29_case :
  sexec_all ex_env 10 V_prog2 (sinit []) = SOk (ends V_prog2) (gives V_prog2) /\
  mentioned_all ex_env (ends V_prog2) (map fst [(foo 1, Some (eq_int 5))]) [(1, 0)] (ends V_prog2) /\ s_uncaught (ends V_prog2) = 0 /\
  Forall (sound_source (ends V_prog2) [(foo 1, Some (eq_int 5))]) V_left /\
  decided ex_env (ends V_prog2) [(foo 1, Some (eq_int 5))] /\
  results ex_env 10 [] (V_prog2 ++ [OStmt [(foo 1, Some (eq_int 5))] (SNoOther V_left [])]) =
    Some (gives V_prog2 ++ [inr (XVerification (EvNoMore [0; 2; 3] [2; 3]))]).
Proof.
  split; [calc|]. split; [known_methods|]. split; [calc|]. split.
  { constructor; [vm_compute; discriminate|]. constructor; [split; [vm_compute; lia|exact Logic.I]|constructor]. }
  split; [answers|]. calc.
Qed.

(** An action that calls its own method. *)
Definition V_nested : list op :=
  [OMock 0; OStmt [(foo 0, None)] (SWhen [always 1] None);
   OStmt [(foo 0, Some (eq_int 3))] (SWhen [RecAlways (FProg (PDo (OCall 0 0 [VInt 5]) (fun _ => PRet (VInt 7))))] None);
   OCall 0 0 [VInt 3]; OCall 0 0 [VInt 6]].
Example C08_any_program_case : exists me,
  sexec_all ex_env 10 V_nested (sinit []) = SOk (ends V_nested) (gives V_nested) /\
  method_at (ends V_nested) 0 0 = Some me /\ me_calls me = [0; 1; 2].
Proof. eexists. split; [calc|]. split; calc. Qed.

Definition P_Verification_theorems := (C31_verify, C35_refused, C26_program, C28_status, C22_verify, C22_all_counted, C29_no_others, C08_any_program).
Print Assumptions P_Verification_theorems.
