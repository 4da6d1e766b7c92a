(** Properties of calls and stubbing statements in whole programs.

    [leads E fuel m os s rs]: the program [os], run by the modelled code, has the results
    [rs], and [s] describes the world it leads to.  The vocabulary is in Spec_View.v.
    [iterates E]: iterating over an unordered_set visits each element once.

    What a description promises: for every program, if the abstract machine of
    Spec_World.v has an answer then the modelled code has the same one. *)
From Coq Require Import Bool String ZArith Lia List Permutation.
From Verif Require Import Base CInt Values ArgMatchers InvMatchers Spec_Conditions ConditionProofs ActionSeq Sequences MatchAnalysis
  Proxy Events Expectation ReturnSet Syntax World Spec_World WorldRel WorldSim Spec_View SpecFacts SpecKept SpecCalls
  SpecLasting SpecSpy SpecArgs WorldExamples.
Import ListNotations.
Open Scope nat_scope.

Theorem World_follows_machine : forall E, iterates E -> forall fuel m os s rs,
  sexec_all E fuel os (sinit m) = SOk s rs -> leads E fuel m os s rs.
Proof. exact answered_leads. Qed.

Theorem World_goes_on : forall E, iterates E -> forall fuel m os s rs os' s' rs',
  leads E fuel m os s rs -> sexec_all E fuel os' s = SOk s' rs' -> leads E fuel m (os ++ os') s' (rs ++ rs').
Proof. exact leads_more. Qed.

(** *** For the examples *)
Lemma ex_iterates : iterates ex_env.
Proof. intro l. apply Permutation_refl. Qed.
Definition ends (os : list op) : sworld :=
  match sexec_all ex_env 10 os (sinit []) with SOk s _ => s | _ => sinit [] end.
Definition gives (os : list op) : list (val + exn) :=
  match sexec_all ex_env 10 os (sinit []) with SOk _ rs => rs | _ => [] end.
Ltac run := apply answered_leads; [exact ex_iterates|vm_compute; reflexivity].
Ltac calc := first [vm_compute; reflexivity|apply satisfied_iff; vm_compute; reflexivity|apply unsatisfied_iff; vm_compute; reflexivity].
Ltac all_reject := match goal with |- Forall ?P ?l => let l' := eval vm_compute in l in change (Forall P l') end;
  repeat (apply Forall_nil || (apply Forall_cons; [calc|])).
(** Entry 0 of object 0 goes to method 0 of mock 0. *)
Ltac reach := do 3 eexists; repeat (split; [calc || (vm_compute; lia)|]); calc.

(** ** C01: the newest accepting stubbing answers the call; it is played once; newer and
    older ones stay as they are. *)
Theorem C01_newest : forall E, iterates E -> forall f m0 os s rs o slot args m e me newer st older a rest mm args' r,
  leads E (S f) m0 os s rs -> reaches E s o slot m e me -> room s ->
  newest s me args newer st older -> st_busy st = false -> st_todo st = a :: rest ->
  plain_action E (s_mem s) (me_ret me) a args = Some (mm, args', r) -> r <> inr XNoMore ->
  leads E (S f) m0 (os ++ [OCall o slot args])
    (after_answer s m e me (newer ++ played st :: older) mm args') (rs ++ [r]).
Proof.
  intros E IT f m0 os s rs o slot args m e me newer st older a rest mm args' r L RE RM NW B TD P NX.
  apply (newest_answers E IT f m0 os s rs o slot args m e me st); auto. split; auto. split; auto.
  exists newer, older, a, rest, mm, args'. auto 10.
Qed.

(** The same when the action calls, stubs or verifies mocks itself: the stubbing that
    was found is played exactly once, the others keep their places and are at most
    played by such calls. *)
Theorem C01_newest_reentrant : forall E, iterates E ->
  forall f m0 os s rs o slot args m e me newer st older g n rest s' r,
  leads E (S f) m0 os s rs -> reaches E s o slot m e me -> room s -> newest s me args newer st older ->
  st_busy st = false -> st_todo st = ARepeat g n :: rest ->
  sexec E (S f) (OCall o slot args) s = sanswer s' r ->
  leads E (S f) m0 (os ++ [OCall o slot args]) s' (rs ++ [r]) /\
  exists me', method_at s' m e = Some me' /\ grown me me' /\ moved_on newer st older (me_stubs me').
Proof. exact counted_consumed. Qed.

Definition C01_prog : list op :=
  [OMock 0; OStmt [(foo 0, None)] (SWhen [once 1; once 2] None);
   OStmt [(foo 0, Some (eq_int 3))] (SWhen [once 7] None);
   OStmt [(foo 0, Some (eq_int 4))] (SWhen [once 9] None)].

(** [foo(3)]: the newest stubbing is for 4, the one before it for 3. *)
Example C01_case : exists me newer st older mm args' a rest,
  leads ex_env 10 [] C01_prog (ends C01_prog) [inl (VInt 0); inl VVoid; inl VVoid; inl VVoid] /\
  reaches ex_env (ends C01_prog) 0 0 0 0 me /\ room (ends C01_prog) /\
  newest (ends C01_prog) me [VInt 3] newer st older /\ length newer = 1 /\ length older = 1 /\
  st_busy st = false /\ st_todo st = a :: rest /\
  plain_action ex_env (s_mem (ends C01_prog)) (me_ret me) a [VInt 3] = Some (mm, args', inl (VInt 7)).
Proof.
  eexists _, [_], _, [_], _, _, _, _. split; [run|]. split; [reach|]. split; [calc|].
  split; [split; [calc|split; [all_reject|calc]]|]. repeat (split; [calc|]). calc.
Qed.

(** An action that stubs its own method again and calls it. *)
Definition C01_reentrant : list op :=
  [OMock 0; OStmt [(foo 0, None)] (SWhen [once 1] None);
   OStmt [(foo 0, Some (eq_int 3))]
     (SWhen [RecOnce (FProg (PDo (OCall 0 0 [VInt 5]) (fun _ =>
                       PDo (OStmt [(foo 0, Some (eq_int 3))] (SWhen [once 8] None)) (fun _ => PRet (VInt 7)))))] None)].
Example C01_reentrant_case : exists me newer st older g n rest s',
  leads ex_env 10 [] C01_reentrant (ends C01_reentrant) (gives C01_reentrant) /\
  reaches ex_env (ends C01_reentrant) 0 0 0 0 me /\ room (ends C01_reentrant) /\
  newest (ends C01_reentrant) me [VInt 3] newer st older /\ length older = 1 /\
  st_busy st = false /\ st_todo st = ARepeat g n :: rest /\
  sexec ex_env 10 (OCall 0 0 [VInt 3]) (ends C01_reentrant) = sanswer s' (inl (VInt 7)).
Proof.
  eexists _, [], _, [_], _, _, _, _. split; [run|]. split; [reach|]. split; [calc|].
  split; [split; [calc|split; [all_reject|calc]]|]. repeat (split; [calc|]). calc.
Qed.

(** ** C03: a stubbing whose actions are used up makes every further call it accepts
    unexpected; the older stubbings ([newest] lets there be any) are not consulted, no
    stubbing changes, the calls go into the history. *)
Theorem C03_no_fallback : forall E, iterates E -> forall f m0 argss os s rs o slot m e me,
  leads E (S f) m0 os s rs -> reaches E s o slot m e me ->
  (s_started s + Z.of_nat (length argss) < 4294967296)%Z ->
  Forall (fun args => exists newer st older, newest s me args newer st older /\ st_busy st = false /\ st_todo st = []) argss ->
  Forall (fun args => listeners_quiet E s (unexpected_call me args)) argss ->
  exists s' me', leads E (S f) m0 (os ++ map (OCall o slot) argss) s'
                   (rs ++ map (fun args => inr (complaint E s (unexpected_call me args))) argss) /\
    reaches E s' o slot m e me' /\ me_no me' = me_no me /\ me_stubs me' = me_stubs me /\
    history_at s' m e = history_at s m e ++ map (fun a => Some (a, false)) argss /\
    (forall m' e', (m, e) <> (m', e') -> method_at s' m' e' = method_at s m' e').
Proof. exact exhausted_calls. Qed.

(** An Always for everything, then a used-up one for 3. *)
Definition C03_prog : list op :=
  [OMock 0; OStmt [(foo 0, None)] (SWhen [always 1] None);
   OStmt [(foo 0, Some (eq_int 3))] (SWhen [once 7] None); OCall 0 0 [VInt 3]].
Example C03_case : exists me,
  leads ex_env 10 [] C03_prog (ends C03_prog) [inl (VInt 0); inl VVoid; inl VVoid; inl (VInt 7)] /\
  reaches ex_env (ends C03_prog) 0 0 0 0 me /\
  (s_started (ends C03_prog) + Z.of_nat (length [[VInt 3]; [VInt 3]]) < 4294967296)%Z /\
  Forall (fun args => exists newer st older, newest (ends C03_prog) me args newer st older /\
                        st_busy st = false /\ st_todo st = [] /\ length older = 1) [[VInt 3]; [VInt 3]] /\
  Forall (fun args => listeners_quiet ex_env (ends C03_prog) (unexpected_call me args)) [[VInt 3]; [VInt 3]] /\
  results ex_env 10 [] (C03_prog ++ [OCall 0 0 [VInt 3]; OCall 0 0 [VInt 4]]) =
    Some [inl (VInt 0); inl VVoid; inl VVoid; inl (VInt 7);
          inr (XUnexpected (EvUnexpected Unmatched (Some 1%Z) [VInt 3])); inl (VInt 1)].
Proof.
  eexists. split; [run|]. split; [reach|]. split; [calc|]. split.
  { apply Forall_cons; [|apply Forall_cons; [|apply Forall_nil]]; eexists [], _, [_]; (split; [split; [calc|split; [constructor|calc]]|]; repeat (split; [calc|]); calc). }
  split; [repeat constructor; intros l []|]. calc.
Qed.

(** ** C06: the same step of the stubbing, [played], whether the action returns or
    throws; what it throws is the result of the call.  (For actions that use the
    library themselves: C01_newest_reentrant, with [r = inr x].) *)
Theorem C06_throwing : forall E, iterates E -> forall f m0 os s rs o slot args m e me newer st older a rest mm args' x,
  leads E (S f) m0 os s rs -> reaches E s o slot m e me -> room s ->
  newest s me args newer st older -> st_busy st = false -> st_todo st = a :: rest ->
  plain_action E (s_mem s) (me_ret me) a args = Some (mm, args', inr x) -> x <> XNoMore ->
  leads E (S f) m0 (os ++ [OCall o slot args])
    (after_answer s m e me (newer ++ played st :: older) mm args') (rs ++ [inr x]).
Proof.
  intros E IT f m0 os s rs o slot args m e me newer st older a rest mm args' x L RE RM NW B TD P NX.
  apply (C01_newest E IT f m0 os s rs o slot args m e me newer st older a rest mm args' (inr x)); auto. congruence.
Qed.

Definition C06_prog : list op :=
  [OMock 0; OStmt [(foo 0, None)] (SWhen [RecOnce (FProg (PThrow (XUser 5))); once 2] None)].
Example C06_case : exists me newer st older mm args' a rest,
  leads ex_env 10 [] C06_prog (ends C06_prog) [inl (VInt 0); inl VVoid] /\
  reaches ex_env (ends C06_prog) 0 0 0 0 me /\ room (ends C06_prog) /\
  newest (ends C06_prog) me [VInt 3] newer st older /\
  st_busy st = false /\ st_todo st = a :: rest /\
  plain_action ex_env (s_mem (ends C06_prog)) (me_ret me) a [VInt 3] = Some (mm, args', inr (XUser 5)) /\
  st_todo (played st) = [ARepeat (FProg (PRet (VInt 2))) 1%Z] /\
  results ex_env 10 [] (C06_prog ++ [OCall 0 0 [VInt 3]; OCall 0 0 [VInt 3]]) =
    Some [inl (VInt 0); inl VVoid; inr (XUser 5); inl (VInt 2)].
Proof.
  eexists _, [], _, [], _, _, _, _. split; [run|]. split; [reach|]. split; [calc|].
  split; [split; [calc|split; [all_reject|calc]]|]. repeat (split; [calc|]). calc.
Qed.

(** ** C07: a call that no stubbing accepts: the listeners and then the adapter are told,
    the caller gets the exception of the adapter or of the library, and apart from the
    log and the number of calls nothing changes: no method of any mock. *)
Theorem C07_unmatched : forall E, iterates E -> forall f m0 os s rs o slot args m e me,
  leads E (S f) m0 os s rs -> unmatched E s o slot args m e me ->
  listeners_quiet E s (unexpected_call me args) ->
  exists s', leads E (S f) m0 (os ++ [OCall o slot args]) s' (rs ++ [inr (complaint E s (unexpected_call me args))]) /\
    s_mocks s' = s_mocks s /\ s_objs s' = s_objs s /\ s_mem s' = s_mem s /\
    (forall m' e', history_at s' m' e' = history_at s m' e') /\
    s_log s' = s_log s ++ map (fun l => (l, unexpected_call me args)) (fc_listeners (s_fctx s) ++ [adapter E s]).
Proof. exact unmatched_changes_nothing. Qed.

Definition C07_prog : list op :=
  [OMock 0; OListener 4; OStmt [(foo 0, Some (eq_int 4))] (SWhen [once 9] None); OCall 0 0 [VInt 4]].
Example C07_case : exists me,
  leads ex_env 10 [] C07_prog (ends C07_prog) [inl (VInt 0); inl VVoid; inl VVoid; inl (VInt 9)] /\
  unmatched ex_env (ends C07_prog) 0 0 [VInt 3] 0 0 me /\ length (me_stubs me) = 1 /\
  listeners_quiet ex_env (ends C07_prog) (unexpected_call me [VInt 3]).
Proof.
  eexists. split; [run|]. split; [split; [reach|split; [calc|all_reject]]|].
  split; [calc|]. intros l _. calc.
Qed.

(** ** C08: the history of every method is the calls that found a stubbing ([found]), in
    order, with their arguments, after any series of calls and stubbing statements about
    any methods of any mocks. *)
Theorem C08_history : forall E, iterates E -> forall f m0 os s rs ops s' rs' found, leads E (S f) m0 os s rs ->
  series E s ops s' rs' found ->
  leads E (S f) m0 (os ++ ops) s' (rs ++ rs') /\
  forall m e, history_at s' m e = history_at s m e ++ map (fun a => Some (a, false)) (about m e found).
Proof. exact series_history. Qed.

(** ** C11: a call or a stubbing statement about method [e] of mock [m] leaves every other
    method of every mock as it is: its stubbings, their remaining actions, its history. *)
Theorem C11_others_untouched : forall E, iterates E -> forall f m0 os s rs m e o s' r fd,
  leads E (S f) m0 os s rs -> plain_step E s m e o s' r fd ->
  leads E (S f) m0 (os ++ [o]) s' (rs ++ [r]) /\
  forall m' e', (m, e) <> (m', e') -> method_at s' m' e' = method_at s m' e' /\ history_at s' m' e' = history_at s m' e'.
Proof. exact others_untouched. Qed.

(** A call that is answered, one that is unmatched, a When and a call that finds its
    stubbing used up, on two mocks. *)
Definition C08_start : list op :=
  [OMock 0; OMock 0; OStmt [(foo 0, Some (eq_int 3))] (SWhen [once 7] None)].
Definition C08_ops : list op :=
  [OCall 0 0 [VInt 3]; OCall 0 0 [VInt 4]; OStmt [(foo 1, None)] (SWhen [once 5] None);
   OCall 0 0 [VInt 3]; OCall 1 0 [VInt 6]].
Example C08_case : exists s' rs',
  leads ex_env 10 [] C08_start (ends C08_start) [inl (VInt 0); inl (VInt 1); inl VVoid] /\
  series ex_env (ends C08_start) C08_ops s' rs' [(0, 0, [VInt 3]); (0, 0, [VInt 3]); (1, 0, [VInt 6])] /\
  history_at s' 0 0 = [Some ([VInt 3], false); Some ([VInt 3], false)] /\ history_at s' 1 0 = [Some ([VInt 6], false)].
Proof.
  eexists. eexists. split; [run|]. split.
  { eapply (SerCons _ _ _ _ _ _ _ (Some [VInt 3])).
    { eapply PsAnswered with (newer := []) (older := []);
        [reach|calc|split; [calc|split; [constructor|calc]]|calc|calc|calc|discriminate]. }
    eapply (SerCons _ _ _ _ _ _ _ None).
    { eapply PsUnmatched; [split; [reach|split; [calc|all_reject]]|intros l []]. }
    eapply (SerCons _ _ 1 0 _ _ _ None).
    { eapply PsWhen; [|calc]. eexists. split.
      - do 2 eexists. split; [calc|]. split; [calc|]. split; [calc|]. split; [vm_compute; lia|].
        split; [reflexivity|]. split; [vm_compute; lia|]. split; calc.
      - right. split; [calc|]. split; [eexists; split; calc|]. split; [calc|]. split; reflexivity. }
    eapply (SerCons _ _ _ _ _ _ _ (Some [VInt 3])).
    { eapply PsExhausted; [split; [reach|]; split; [calc|]; split; [|split]; [| |eexists [], []; split; [calc|split; [constructor|calc]]]; calc|intros l []]. }
    eapply (SerCons _ _ _ _ _ _ _ (Some [VInt 6])).
    { eapply PsAnswered with (newer := []) (older := []);
        [reach|calc|split; [calc|split; [constructor|calc]]|calc|calc|calc|discriminate]. }
    apply SerNil. }
  split; calc.
Qed.

Example C11_case : exists s' r,
  leads ex_env 10 [] C08_start (ends C08_start) [inl (VInt 0); inl (VInt 1); inl VVoid] /\
  plain_step ex_env (ends C08_start) 0 0 (OCall 0 0 [VInt 3]) s' r (Some [VInt 3]) /\ r = inl (VInt 7).
Proof.
  eexists. eexists. split; [run|]. split; [|reflexivity].
  eapply PsAnswered with (newer := []) (older := []);
    [reach|calc|split; [calc|split; [constructor|calc]]|calc|calc|calc|discriminate].
Qed.

(** ** C16: a When statement that is interrupted after [n] of its actions, or that runs
    while an exception propagates, adds no stubbing: if the method was mentioned before,
    the world is the same but for one more expression that came and went. *)
Theorem C16_interrupted : forall E, iterates E -> forall f m0 os s rs t im acts n x m e me,
  leads E (S (S f)) m0 os s rs -> mentioned E s t m e me s ->
  leads E (S (S f)) m0 (os ++ [OStmt [(t, im)] (SWhen acts (Some (n, x)))]) (one_expression s) (rs ++ [inr x]) /\
  leads E (S (S f)) m0 (os ++ [OUnwinding (OStmt [(t, im)] (SWhen acts None))]) (one_expression s) (rs ++ [inl VVoid]).
Proof. intros E IT f m0 os s rs t im acts n x m e me L M. split; [eapply interrupted|eapply unwinding]; eauto. Qed.

(** If it was not mentioned before, it is afterwards a mocked method without stubbings.
    (For a method of a wrapped object that is a change: C16_interrupted_spy_refuted in
    P_World.v.) *)
Theorem C16_interrupted_first : forall E, iterates E -> forall f m0 os s rs t im acts n x m e me s1,
  leads E (S (S f)) m0 os s rs -> mentioned E s t m e me s1 -> method_at s m e = None ->
  leads E (S (S f)) m0 (os ++ [OStmt [(t, im)] (SWhen acts (Some (n, x)))]) (one_expression s1) (rs ++ [inr x]) /\
  leads E (S (S f)) m0 (os ++ [OUnwinding (OStmt [(t, im)] (SWhen acts None))]) (one_expression s1) (rs ++ [inl VVoid]) /\
  me_stubs me = [] /\ method_at (one_expression s1) m e = Some me /\
  forall m' e', (m, e) <> (m', e') -> method_at (one_expression s1) m' e' = method_at s m' e'.
Proof. exact interrupted_first. Qed.

Example C16_case : exists me me' s1,
  leads ex_env 10 [] C01_prog (ends C01_prog) (gives C01_prog) /\
  mentioned ex_env (ends C01_prog) (foo 0) 0 0 me (ends C01_prog) /\ length (me_stubs me) = 3 /\
  mentioned ex_env (ends C01_prog) (bar 0) 0 1 me' s1 /\ method_at (ends C01_prog) 0 1 = None /\
  results ex_env 10 [] (C01_prog ++ [OStmt [(foo 0, None)] (SWhen [once 1] (Some (1, XUser 9))); OCall 0 0 [VInt 3]]) =
    Some [inl (VInt 0); inl VVoid; inl VVoid; inl VVoid; inr (XUser 9); inl (VInt 7)].
Proof.
  eexists. eexists. eexists. split; [run|]. split.
  { eexists. split; [|left; split; [calc|reflexivity]].
    do 2 eexists. repeat (split; [calc|]). split; [vm_compute; lia|]. split; [reflexivity|]. split; [vm_compute; lia|]. split; calc. }
  split; [calc|]. split.
  { eexists. split.
    - do 2 eexists. repeat (split; [calc|]). split; [vm_compute; lia|]. split; [reflexivity|]. split; [vm_compute; lia|]. split; calc.
    - right. split; [calc|]. split; [eexists; split; calc|]. split; [calc|]. split; reflexivity. }
  split; calc.
Qed.

(** ** C17: after Fake(methods...), whatever the program does next ([ops]), a call of one
    of the methods gives the default value of its type, as long as the method is there
    and no newer stubbing accepts the call. *)
Theorem C17_fake : forall E, iterates E -> forall f m0 os s rs ts ms s1,
  leads E (S f) m0 os s rs -> mentioned_all E s ts ms s1 -> NoDup ms ->
  exists s2, leads E (S f) m0 (os ++ [OStmt (map (fun t => (t, None)) ts) SFake]) s2 (rs ++ [inl VVoid]) /\
  forall m e, In (m, e) ms -> exists me, method_at s2 m e = Some me /\
  forall ops rs' s3 o slot args r, still_decides E (S f) s2 m e me ops rs' s3 o slot args ->
  default_of (me_ret me) = Some r ->
  exists s4, leads E (S f) m0 ((os ++ [OStmt (map (fun t => (t, None)) ts) SFake]) ++ ops ++ [OCall o slot args]) s4
               ((rs ++ [inl VVoid]) ++ rs' ++ [r]).
Proof. exact fake_forever. Qed.

(** Fake(foo, bar) of a mock whose foo has a stubbing; afterwards: calls, a newer stubbing
    of foo for 4, a clearing of the history. *)
Definition C17_start : list op := [OMock 0; OStmt [(foo 0, None)] (SWhen [once 7] None)].
Definition C17_fake_both : op := OStmt (map (fun t => (t, None)) [foo 0; bar 0]) SFake.
Definition C17_later : list op :=
  [OCall 0 0 [VInt 3]; OStmt [(foo 0, Some (eq_int 4))] (SWhen [once 9] None); OClear 0; OCall 0 0 [VInt 4]].
Example C17_case : exists s1 me s3,
  leads ex_env 10 [] C17_start (ends C17_start) [inl (VInt 0); inl VVoid] /\
  mentioned_all ex_env (ends C17_start) [foo 0; bar 0] [(0, 0); (0, 1)] s1 /\ NoDup [(0, 0); (0, 1)] /\
  still_decides ex_env 10 (ends (C17_start ++ [C17_fake_both])) 0 0 me C17_later
    [inl (VInt 0); inl VVoid; inl VVoid; inl (VInt 9)] s3 0 0 [VInt 3] /\
  default_of (me_ret me) = Some (inl (VInt 0)).
Proof.
  eexists. exists (match method_at (ends (C17_start ++ [C17_fake_both])) 0 0 with Some me => me | None => mkMethod 0 0 RtVoid [] [] false end).
  exists (ends (C17_start ++ [C17_fake_both] ++ C17_later)). split; [run|]. split.
  { eapply MaCons; [|eapply MaCons; [|apply MaNil]].
    - eexists. split; [|left; split; [calc|reflexivity]].
      do 2 eexists. repeat (split; [calc|]). split; [vm_compute; lia|]. split; [reflexivity|]. split; [vm_compute; lia|]. split; calc.
    - eexists. split.
      + do 2 eexists. repeat (split; [calc|]). split; [vm_compute; lia|]. split; [reflexivity|]. split; [vm_compute; lia|]. split; calc.
      + right. split; [calc|]. split; [eexists; split; calc|]. split; [calc|]. split; reflexivity. }
  split; [repeat constructor; cbn; intuition discriminate|]. split; [|calc].
  split; [calc|]. split; [calc|]. eexists _, [_], [_; _]. split; [reach|]. repeat (split; [calc|]). all_reject.
Qed.

(** ** C21: after [Method(mock,f)<condition> = g], whatever the program does next, a call
    that the condition accepts runs [g], as long as the method is there and no newer
    stubbing accepts the call. *)
Theorem C21_assign : forall E, iterates E -> forall f m0 os s rs t im g m e me s1,
  leads E (S f) m0 os s rs -> mentioned E s t m e me s1 ->
  exists s2 me2, leads E (S f) m0 (os ++ [OStmt [(t, im)] (SAssign g)]) s2 (rs ++ [inl VVoid]) /\
  method_at s2 m e = Some me2 /\
  forall ops rs' s3 o slot args mm args' r, still_decides E (S f) s2 m e me2 ops rs' s3 o slot args ->
  satisfied (s_mem s3) (cond_of im) args ->
  plain_callable E (s_mem s3) (me_ret me2) g args = Some (mm, args', r) -> r <> inr XNoMore ->
  exists s4, leads E (S f) m0 ((os ++ [OStmt [(t, im)] (SAssign g)]) ++ ops ++ [OCall o slot args]) s4
               ((rs ++ [inl VVoid]) ++ rs' ++ [r]).
Proof. exact assign_forever. Qed.

Definition C21_start : list op := [OMock 0].
Definition C21_fn : callable := FProg (PArg 0 (fun v => PRet v)).
Definition C21_stmt : op := OStmt [(foo 0, Some (eq_int 3))] (SAssign C21_fn).
Definition C21_later : list op := [OCall 0 0 [VInt 3]; OStmt [(foo 0, Some (eq_int 4))] (SWhen [once 9] None); OCall 0 0 [VInt 3]].
Example C21_case : exists me s1 me2 s3,
  leads ex_env 10 [] C21_start (ends C21_start) [inl (VInt 0)] /\
  mentioned ex_env (ends C21_start) (foo 0) 0 0 me s1 /\
  still_decides ex_env 10 (ends (C21_start ++ [C21_stmt])) 0 0 me2 C21_later
    [inl (VInt 3); inl VVoid; inl (VInt 3)] s3 0 0 [VInt 3] /\
  satisfied (s_mem s3) (eq_int 3) [VInt 3] /\
  plain_callable ex_env (s_mem s3) (me_ret me2) C21_fn [VInt 3] = Some ([], [VInt 3], inl (VInt 3)).
Proof.
  eexists. eexists. exists (match method_at (ends (C21_start ++ [C21_stmt])) 0 0 with Some me => me | None => mkMethod 0 0 RtVoid [] [] false end).
  exists (ends (C21_start ++ [C21_stmt] ++ C21_later)). split; [run|]. split.
  { eexists. split.
    - do 2 eexists. repeat (split; [calc|]). split; [vm_compute; lia|]. split; [reflexivity|]. split; [vm_compute; lia|]. split; calc.
    - right. split; [calc|]. split; [eexists; split; calc|]. split; [calc|]. split; reflexivity. }
  split; [|split; calc].
  split; [calc|]. split; [calc|]. eexists _, [_], [_]. split; [reach|]. repeat (split; [calc|]). all_reject.
Qed.

(** ** C19: spies *)

(** Spy(methods...) makes the original the action of the newest stubbing of each method. *)
Theorem C19_spy : forall E, iterates E -> forall f m0 os s rs xs ms s1 fw,
  leads E (S f) m0 os s rs -> mentioned_all E s (map fst xs) ms s1 -> NoDup ms -> Forall (fun x => is_method (fst x)) xs ->
  exists s2 obj, leads E (S f) m0 (os ++ [OStmt xs (SSpy fw)]) s2 (rs ++ [inl VVoid]) /\
    (forall m k, live (s_mocks s1) m = Some k -> obj m = sk_obj k) /\
    Forall2 (fun x p => installed s2 (fst p) (snd p) (cond_of (snd x)) (spy_action obj fw p)) xs ms.
Proof. exact spy_statement. Qed.

(** A call that finds such a stubbing runs the original on the object once, with the
    arguments of the call, while the method is not intercepted; its result or exception
    is the result of the call; afterwards the method is intercepted again, and the
    stubbing is still there, unchanged. *)
Theorem C19_call : forall E, iterates E -> forall f m0 os s rs o slot args m me newer st older fw dx s' r,
  leads E (S (S f)) m0 os s rs -> wrapped E s o slot m dx -> reaches E s o slot m slot me -> room s ->
  newest s me args newer st older -> st_todo st = [ADelegate (FOrig m o slot fw)] ->
  srun_prog (sexec E f) (FrStack o args) (cl_body dx slot) (running_original E s m slot me fw args) = sanswer s' r ->
  r <> inr XNoMore ->
  exists me', method_at s' m slot = Some me' /\
    leads E (S (S f)) m0 (os ++ [OCall o slot args]) (put_method s' m slot (intercepting me' true)) (rs ++ [r]) /\
    exists new old, me_stubs me' = new ++ old /\ Forall2 advanced (me_stubs me) old /\ In st old.
Proof. exact spied_call. Qed.

(** While the original runs, calls of the method on the object run the original directly;
    in particular they are not recorded. *)
Theorem C19_self_call : forall E f s o slot m me args dx,
  wrapped E s o slot m dx -> method_at s m slot = Some me -> me_bypass me = true ->
  sexec E (S f) (OCall o slot args) s = srun_prog (sexec E f) (FrStack o args) (cl_body dx slot) s.
Proof. exact self_call. Qed.

(** A class whose method calls itself: [int f(int n) { return n == 0 ? 100 : f(0) }]. *)
Definition C19_class : class_desc :=
  mkClass 1 None
    (fun _ => PArg 0 (fun v => match v with
                               | VInt 0 => PRet (VInt 100)
                               | _ => PDo (OCall 0 0 [VInt 0]) (fun x => match x with OVal v => PRet v | OExn e => PThrow e end)
                               end))
    (fun _ => RtVal (VInt 0)) 0.
Definition C19_env : env := mkEnv [C19_class] (fun _ _ => None) 0 (fun l => l) (fun v => v).
Definition C19_prog : list op := [ONewObj 0; OSpyMock 0 0; OStmt [(foo 0, None)] (SSpy false)].
Definition C19_world : sworld :=
  match sexec_all C19_env 10 C19_prog (sinit []) with SOk s _ => s | _ => sinit [] end.
Example C19_case : exists me st s',
  leads C19_env 10 [] C19_prog C19_world [inl (VInt 0); inl (VInt 0); inl VVoid] /\
  wrapped C19_env C19_world 0 0 0 C19_class /\ reaches C19_env C19_world 0 0 0 0 me /\ room C19_world /\
  newest C19_world me [VInt 1] [] st [] /\ st_todo st = [ADelegate (FOrig 0 0 0 false)] /\
  srun_prog (sexec C19_env 8) (FrStack 0 [VInt 1]) (cl_body C19_class 0)
    (running_original C19_env C19_world 0 0 me false [VInt 1]) = sanswer s' (inl (VInt 100)) /\
  length (s_calls s') = 1 /\
  (exists me', method_at s' 0 0 = Some me' /\ me_bypass me' = true) /\
  wrapped C19_env s' 0 0 0 C19_class.
Proof.
  eexists. eexists. eexists. split; [apply answered_leads; [intro; apply Permutation_refl|calc]|].
  assert (W : forall s, live (s_objs s) 0 = Some (mkSobj 0 [] (Some 0)) ->
                (exists k, live (s_mocks s) 0 = Some k /\ sk_owner k = false /\ sk_obj k = 0 /\ sk_class k = 0) ->
                wrapped C19_env s 0 0 0 C19_class).
  { intros s O (k & K & A & B & C). do 3 eexists. repeat (split; [eassumption || reflexivity|]). rewrite C.
    repeat (split; [reflexivity || (vm_compute; lia)|]). vm_compute. lia. }
  split; [apply W; [calc|eexists; repeat (split; [calc|]); calc]|].
  split; [reach|]. split; [calc|]. split; [split; [calc|split; [constructor|calc]]|].
  split; [calc|]. split; [calc|]. split; [calc|]. split; [eexists; split; calc|].
  apply W; [calc|eexists; repeat (split; [calc|]); calc].
Qed.

(** The Spy statement of the example, with both methods. *)
Example C19_spy_case : exists s1,
  leads ex_env 10 [] [ONewObj 0; OSpyMock 0 0] (ends [ONewObj 0; OSpyMock 0 0]) [inl (VInt 0); inl (VInt 0)] /\
  mentioned_all ex_env (ends [ONewObj 0; OSpyMock 0 0]) (map fst [(foo 0, @None imatcher); (bar 0, None)]) [(0, 0); (0, 1)] s1 /\
  NoDup [(0, 0); (0, 1)] /\ Forall (fun x => is_method (fst x)) [(foo 0, @None imatcher); (bar 0, None)].
Proof.
  eexists. split; [run|]. split.
  { eapply MaCons; [|eapply MaCons; [|apply MaNil]].
    - eexists. split.
      + do 2 eexists. repeat (split; [calc|]). split; [vm_compute; lia|]. split; [reflexivity|]. split; [vm_compute; lia|]. split; calc.
      + right. split; [calc|]. split; [eexists; split; calc|]. split; [calc|]. split; reflexivity.
    - eexists. split.
      + do 2 eexists. repeat (split; [calc|]). split; [vm_compute; lia|]. split; [reflexivity|]. split; [vm_compute; lia|]. split; calc.
      + right. split; [calc|]. split; [eexists; split; calc|]. split; [calc|]. split; reflexivity. }
  split; [repeat constructor; cbn; intuition discriminate|repeat constructor].
Qed.

(** ** C42: once a call is over, its recorded method and arguments never change, whatever
    the program does; only its verified-status may go up.  What is recorded by a call is
    [args'] in C01_newest: the arguments as passed, except for parameters the action
    itself assigned ([plain]); objects designated by reference arguments are read when
    they are looked at ([scond_accepts] uses the memory of that moment). *)
Theorem C42_record : forall E, iterates E -> forall f m0 os s rs ops s' rs' i c,
  leads E f m0 os s rs -> sexec_all E f ops s = SOk s' rs' -> nth_error (s_calls s) i = Some c ->
  leads E f m0 (os ++ ops) s' (rs ++ rs') /\
  exists c', nth_error (s_calls s') i = Some c' /\ ca_args c' = ca_args c /\ ca_method c' = ca_method c /\
    (ca_verified c = true -> ca_verified c' = true).
Proof. exact record_stays. Qed.

(** A plain action records the arguments as they were passed, unless it assigns to its
    parameters or is a ReturnAndSet and an argument is an object passed by value. *)
Theorem C42_as_passed : forall E mm r a f args mm' args' x,
  plain_action E mm r a args = Some (mm', args', x) -> runs a f ->
  (forall p, f = FProg p -> assigns_nothing p) ->
  (forall v vals, f = FSet v vals -> Forall (fun v => is_object v = false) args) ->
  (forall v vals, f = FSetNamed v vals ->
     forall i v, nth_error args i = Some v -> is_object v = true -> ~ In (S i) (map fst vals)) ->
  args' = args.
Proof. exact recorded_as_passed. Qed.

(** ReturnAndSet keeps numbers, pointers and references in the record; with placeholders
    it also keeps the arguments that are not named. *)
Theorem C42_set : forall E mm r v vals args mm' args' x,
  plain_callable E mm r (FSet v vals) args = Some (mm', args', x) ->
  forall i a, nth_error args i = Some a -> is_object a = false -> nth_error args' i = Some a.
Proof. exact recorded_by_set. Qed.
Theorem C42_set_named : forall E mm r v vals args mm' args' x,
  plain_callable E mm r (FSetNamed v vals) args = Some (mm', args', x) ->
  forall i a, nth_error args i = Some a -> is_object a = false \/ ~ In (S i) (map fst vals) -> nth_error args' i = Some a.
Proof. exact recorded_by_set_named. Qed.

Example C42_as_passed_case :
  plain_action ex_env [Some (VInt 0)] (RtVal (VInt 0)) (AForever (FSetNamed (Some (SVal (VInt 1))) [(1, SVal (VInt 5))]))
    [VRef 0; VStr "abc"%string] = Some ([Some (VInt 5)], [VRef 0; VStr "abc"%string], inl (VInt 1)) /\
  runs (AForever (FSetNamed (Some (SVal (VInt 1))) [(1, SVal (VInt 5))])) (FSetNamed (Some (SVal (VInt 1))) [(1, SVal (VInt 5))]) /\
  ~ In 2 (map fst [(1, SVal (VInt 5))]).
Proof. split; [reflexivity|]. split; [right; left; reflexivity|]. cbn. intuition discriminate. Qed.

(** Objects passed by value are not kept by ReturnAndSet(r, v1, ...): the recorded copy
    is moved from.  The method is called with a variable and "abc"; the action sets the
    variable; verifying that the call was made with "abc" fails, where a moved-from
    string is empty.  With ReturnAndSet(r, _1 <= v1) it succeeds. *)
Theorem C42_set_refuted :
  results C42_env 10 [Some (VInt 0)] (C42_set_prog (FSet (Some (SVal (VInt 1))) [SVal (VInt 5)]))
  = Some [inl (VInt 0); inl VVoid; inl (VInt 1); inl (VInt 5); inl (VBool false)] /\
  results C42_env 10 [Some (VInt 0)] (C42_set_prog (FSetNamed (Some (SVal (VInt 1))) [(1, SVal (VInt 5))]))
  = Some [inl (VInt 0); inl VVoid; inl (VInt 1); inl (VInt 5); inl (VBool true)].
Proof. exact set_loses_record. Qed.

Definition C42_prog : list op := C01_prog ++ [OCall 0 0 [VInt 3]].
Definition C42_later : list op :=
  [OCall 0 0 [VInt 8]; OStmt [(foo 0, None)] (SVerify ScInvolved [SLeaf 0%nat] [VsQuant (QExactly 2)]); OReset 0].
Example C42_case : exists s' c,
  leads ex_env 10 [] C42_prog (ends C42_prog) (gives C42_prog) /\
  sexec_all ex_env 10 C42_later (ends C42_prog) = SOk s' [inl (VInt 1); inl VVoid; inl VVoid] /\
  nth_error (s_calls (ends C42_prog)) 0 = Some c /\ ca_args c = [VInt 3] /\
  assigns_nothing (PArg 0 (fun v => PRet v)).
Proof.
  eexists. eexists. split; [run|]. split; [calc|]. split; [calc|]. split; [calc|].
  constructor. intro. constructor.
Qed.

(** ** C56: a call that nothing supports ends in an exception at the call site, whatever
    the listeners and the adapter do. *)
Theorem C56_unsupported : forall E, iterates E -> forall f m0 os s rs o slot args m e me,
  leads E (S f) m0 os s rs ->
  unmatched E s o slot args m e me \/ (exists st, exhausted E s o slot args m e me st) ->
  exists s' x, leads E (S f) m0 (os ++ [OCall o slot args]) s' (rs ++ [inr x]).
Proof. exact unsupported_throws. Qed.

Theorem C56_unmocked : forall E, iterates E -> forall f m0 os s rs o slot args m,
  leads E (S f) m0 os s rs -> unmocked E s o slot m -> room s ->
  exists s' x, leads E (S f) m0 (os ++ [OCall o slot args]) s' (rs ++ [inr x]).
Proof. exact unmocked_throws. Qed.

(** An adapter that throws nothing at all, in [ex_env]: C07_case and C03_case give an
    unmatched and an exhausted call; here is an unmocked one. *)
Example C56_case :
  leads ex_env 10 [] [OMock 0] (ends [OMock 0]) [inl (VInt 0)] /\ unmocked ex_env (ends [OMock 0]) 0 0 0 /\
  room (ends [OMock 0]) /\
  (exists me, unmatched ex_env (ends C07_prog) 0 0 [VInt 3] 0 0 me) /\
  (exists me st, exhausted ex_env (ends C03_prog) 0 0 [VInt 3] 0 0 me st).
Proof.
  split; [run|]. split.
  { do 3 eexists. repeat (split; [calc|]). split; [vm_compute; lia|]. split; calc. }
  split; [calc|]. split; [eexists; split; [reach|split; [calc|all_reject]]|].
  eexists. eexists. split; [reach|]. split; [calc|]. split; [|split]; [| |eexists [], [_]; split; [calc|split; [constructor|calc]]]; calc.
Qed.

(** All at once, as the traversal of the proofs takes a while: none uses an axiom. *)
Definition P_Calls_theorems :=
  (World_follows_machine,
   World_goes_on,
   C01_newest,
   C01_newest_reentrant,
   C03_no_fallback,
   C06_throwing,
   C07_unmatched,
   C08_history,
   C11_others_untouched,
   C16_interrupted,
   C16_interrupted_first,
   C17_fake,
   C21_assign,
   C19_spy,
   C19_call,
   C19_self_call,
   C42_record,
   C42_as_passed,
   C42_set,
   C42_set_named,
   C42_set_refuted,
   C56_unsupported,
   C56_unmocked).
Print Assumptions P_Calls_theorems.
