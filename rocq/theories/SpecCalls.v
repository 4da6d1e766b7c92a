(** Calls and stubbing statements: the facts behind P_Calls.v. *)
From Coq Require Import Bool ZArith Lia List Permutation.
From Verif Require Import Base CInt Values ArgMatchers InvMatchers ActionSeq Sequences MatchAnalysis
  Proxy Events Expectation ReturnSet Syntax World Spec_World WorldRel WorldSimA WorldSimB WorldSimE WorldSim
  Spec_View SpecFacts SpecKept.
Import ListNotations.
Open Scope nat_scope.

Section S.
Variable E : env.
Hypothesis iter_perm : iterates E.

Local Notation leads := (leads E).

Lemma leads_R : forall f m os s rs, leads f m os s rs -> exists w, R E w s.
Proof. intros f m os s rs (w & _ & HR). eauto. Qed.

(** ** C01, C06 *)
Lemma newest_answers : forall f m0 os s rs o slot args m e me st s' r,
  leads (S f) m0 os s rs -> answered E s o slot args m e me st s' r ->
  leads (S f) m0 (os ++ [OCall o slot args]) s' (rs ++ [r]).
Proof.
  intros f m0 os s rs o slot args m e me st s' r L (RE & RM & newer & older & a & rest & mm & args' & NW & B & TD & P & NX & ->).
  destruct (leads_R _ _ _ _ _ L) as (w & HR).
  eapply leads_step; eauto. eapply call_answered; eauto.
Qed.

(** Any action. *)
Lemma newest_answers_any : forall f m0 os s rs o slot args m e me newer st older a rest s' r,
  leads (S f) m0 os s rs -> reaches E s o slot m e me -> room s -> newest s me args newer st older ->
  st_busy st = false -> st_todo st = a :: rest -> 
  sexec E (S f) (OCall o slot args) s = sanswer s' r ->
  leads (S f) m0 (os ++ [OCall o slot args]) s' (rs ++ [r]) /\ r <> inr XNoMore /\
  splay E (sexec E f) m e st (length (s_calls s)) (calling s m e me args) = sanswer s' r.
Proof.
  intros f m0 os s rs o slot args m e me newer st older a rest s' r L RE RM NW B TD H.
  split; [eapply leads_step; eauto|].
  cbn [sexec sstep] in H. rewrite (call_reaches _ _ _ _ _ _ _ _ _ RE) in H.
  rewrite (stubbed_found _ _ _ _ _ _ _ _ _ _ (reaches_at _ _ _ _ _ _ _ RE) RM NW), TD in H.
  unfold sbind, sattempt in H.
  destruct (splay E (sexec E f) m e st (length (s_calls s)) (calling s m e me args)) as [s2 v|s2 x|]; [| |destruct r; discriminate].
  - destruct r; cbn in H; inversion H; subst. split; [discriminate|reflexivity].
  - destruct x, r; cbn in H; inversion H; subst; (split; [discriminate|reflexivity]).
Qed.

Lemma calling_numbered : forall s m e me args, numbered s -> method_at s m e = Some me ->
  numbered (calling s m e me args).
Proof.
  intros s m e me args NB ME m' e' me' M. unfold calling in M.
  destruct (NB _ _ _ ME) as [N1 N2].
  destruct (Nat.eq_dec m m') as [<-|Q]; [destruct (Nat.eq_dec e e') as [<-|Q]|].
  - rewrite (method_put _ _ _ me) in M by exact ME. inversion M; subst me'. cbn. split; auto.
    revert N2. apply Forall_impl. intros st [U1 U2]. unfold used, calling.
    unfold put_method. destruct (live (s_mocks (recorded_call s me args)) m); cbn; auto.
  - rewrite method_put_other in M by congruence. destruct (NB m e' me') as [A B]; [exact M|]. split; auto.
    revert B. apply Forall_impl. intros st [U1 U2]. unfold used, calling.
    unfold put_method. destruct (live (s_mocks (recorded_call s me args)) m); cbn; auto.
  - rewrite method_put_other in M by congruence. destruct (NB m' e' me') as [A B]; [exact M|]. split; auto.
    revert B. apply Forall_impl. intros st [U1 U2]. unfold used, calling.
    unfold put_method. destruct (live (s_mocks (recorded_call s me args)) m); cbn; auto.
Qed.

(** A counted action that may use the library: whether it returns or throws, it counts
    as played once, and the other stubbings stay where they are. *)
Lemma counted_consumed : forall f m0 os s rs o slot args m e me newer st older g n rest s' r,
  leads (S f) m0 os s rs -> reaches E s o slot m e me -> room s -> newest s me args newer st older ->
  st_busy st = false -> st_todo st = ARepeat g n :: rest ->
  sexec E (S f) (OCall o slot args) s = sanswer s' r ->
  leads (S f) m0 (os ++ [OCall o slot args]) s' (rs ++ [r]) /\
  exists me', method_at s' m e = Some me' /\ grown me me' /\ moved_on newer st older (me_stubs me').
Proof.
  intros f m0 os s rs o slot args m e me newer st older g n rest s' r L RE RM NW B TD H.
  destruct (newest_answers_any _ _ _ _ _ _ _ _ _ _ _ _ _ _ _ _ _ _ L RE RM NW B TD H) as (L' & _ & P).
  split; auto. destruct (leads_R _ _ _ _ _ L) as (w & HR).
  pose proof (reaches_at _ _ _ _ _ _ _ RE) as ME.
  assert (M1 : method_at (calling s m e me args) m e = Some (with_call me (length (s_calls s)))).
  { unfold calling. eapply method_put. exact ME. }
  destruct (play_counted E (sexec E f) (keeps_exec E f) m e st (length (s_calls s)) _ _ g n rest newer older s' r M1
      (calling_numbered _ _ _ _ _ (R_numbered _ _ _ HR) ME) (proj1 NW) TD P) as (_ & _ & me' & A & G & MV).
  exists me'. split; auto.
Qed.

(** ** C07 *)
Lemma unmatched_call : forall f m0 os s rs o slot args m e me,
  leads (S f) m0 os s rs -> unmatched E s o slot args m e me ->
  listeners_quiet E s (unexpected_call me args) ->
  leads (S f) m0 (os ++ [OCall o slot args])
    (notified E (recorded_call s me args) (unexpected_call me args)) (rs ++ [inr (complaint E s (unexpected_call me args))]).
Proof.
  intros f m0 os s rs o slot args m e me L (RE & RM & F) Q.
  eapply leads_step; eauto. rewrite (call_unmatched _ _ _ _ _ _ _ _ _ RE RM F).
  rewrite (unexpected_quiet E _ _ _ (recorded_call s me args) Q). reflexivity.
Qed.

(** ** C56 *)
Lemma leads_unexpected : forall f m0 os s rs op t n args s1,
  leads (S f) m0 os s rs -> sexec E (S f) op s = sunexpected E t n args s1 ->
  exists s' x, leads (S f) m0 (os ++ [op]) s' (rs ++ [inr x]) /\ s_mocks s' = s_mocks s1 /\ s_calls s' = s_calls s1.
Proof.
  intros f m0 os s rs op t n args s1 L H.
  destruct (unexpected_exn E t n args s1) as (s' & x & U & A & B & _).
  exists s', x. split; auto. eapply leads_step; eauto. rewrite H, U. reflexivity.
Qed.

Lemma unsupported_throws : forall f m0 os s rs o slot args m e me,
  leads (S f) m0 os s rs ->
  unmatched E s o slot args m e me \/ (exists st, exhausted E s o slot args m e me st) ->
  exists s' x, leads (S f) m0 (os ++ [OCall o slot args]) s' (rs ++ [inr x]).
Proof.
  intros f m0 os s rs o slot args m e me L [(RE & RM & F)|(st & RE & RM & B & TD & newer & older & NW)].
  - destruct (leads_unexpected _ _ _ _ _ _ _ _ _ _ L (call_unmatched E f _ _ _ _ _ _ _ RE RM F)) as (s' & x & L' & _). eauto.
  - destruct (leads_unexpected _ _ _ _ _ _ _ _ _ _ L (call_exhausted E f _ _ _ _ _ _ _ _ _ _ RE RM NW B TD)) as (s' & x & L' & _). eauto.
Qed.

(** A method of a mock that the library made, before anything is said about it. *)
Lemma entry_plain : forall d slot, is_dtor d slot = false -> entry_method d slot = slot.
Proof.
  intros d slot H. unfold is_dtor, entry_method in *. destruct (cl_dtor d) as [k|]; auto.
  apply orb_false_iff in H. destruct H as [_ ->]. reflexivity.
Qed.

Lemma call_unmocked : forall f s o slot m args, unmocked E s o slot m -> room s ->
  sexec E (S f) (OCall o slot args) s = sunexpected E Unmocked None [] (sset_started s (s_started s + 1)%Z).
Proof.
  intros f s o slot m args (x & k & d & O & M & K & OW & D & L & DT & ME) RM. cbn [sexec sstep]. unfold scall.
  rewrite (sbind_ok _ _ _ _ _ _ _ (sget_live _ _ _ _ _ O)), M.
  rewrite (sbind_ok _ _ _ _ _ _ _ (sget_live _ _ _ _ _ K)).
  unfold sclass. rewrite D. unfold sbind at 1, sopt, sret.
  destruct (Nat.ltb_spec slot (cl_size d)); [|lia]. rewrite (entry_plain _ _ DT).
  unfold method_at in ME. rewrite K in ME. rewrite ME. unfold sinitial. rewrite OW, DT.
  assert (SS : sstart s = SOk (sset_started s (s_started s + 1)%Z) tt).
  { unfold sstart, sbind, sgets. unfold room in RM. destruct (Z.ltb_spec (s_started s + 1) 4294967296); [reflexivity|lia]. }
  rewrite (sbind_ok _ _ _ _ _ _ _ SS). reflexivity.
Qed.

Lemma unmocked_throws : forall f m0 os s rs o slot args m,
  leads (S f) m0 os s rs -> unmocked E s o slot m -> room s ->
  exists s' x, leads (S f) m0 (os ++ [OCall o slot args]) s' (rs ++ [inr x]).
Proof.
  intros f m0 os s rs o slot args m L U RM.
  destruct (leads_unexpected _ _ _ _ _ _ _ _ _ _ L (call_unmocked f _ _ _ _ args U RM)) as (s' & x & L' & _). eauto.
Qed.

(** ** C03 *)
Lemma reaches_mocks : forall s s' o slot m e me, s_objs s' = s_objs s -> s_mocks s' = s_mocks s ->
  reaches E s o slot m e me -> reaches E s' o slot m e me.
Proof. intros s s' o slot m e me A B (x & k & d & H). exists x, k, d. now rewrite A, B. Qed.

Lemma reaches_put : forall s o slot m e me me', reaches E s o slot m e me -> me_bypass me' = false ->
  reaches E (put_method s m e me') o slot m e me'.
Proof.
  intros s o slot m e me me' (x & k & d & O & M & K & D & L & EM & ME & B) B'. unfold put_method. rewrite K.
  exists x, (mkSmock (sk_class k) (sk_obj k) (sk_owner k) (sk_fill k) (upd (sk_meths k) e (Some me'))), d. cbn.
  rewrite live_upd_in by (eapply live_lt; eauto). repeat split; auto. apply live_upd_in. eapply live_lt; eauto.
Qed.

Definition after_exhausted (s : sworld) (m e : nat) (me : method) (args : list val) : sworld :=
  notified E (calling s m e me args) (unexpected_call me args).

Lemma exhausted_call : forall f m0 os s rs o slot args m e me st,
  leads (S f) m0 os s rs -> exhausted E s o slot args m e me st ->
  listeners_quiet E s (unexpected_call me args) ->
  leads (S f) m0 (os ++ [OCall o slot args]) (after_exhausted s m e me args)
    (rs ++ [inr (complaint E s (unexpected_call me args))]).
Proof.
  intros f m0 os s rs o slot args m e me st L (RE & RM & B & TD & newer & older & NW) Q.
  eapply leads_step; eauto. rewrite (call_exhausted _ _ _ _ _ _ _ _ _ _ _ _ RE RM NW B TD).
  assert (FC : s_fctx (calling s m e me args) = s_fctx s) by (unfold calling; now rewrite s_fctx_put).
  rewrite unexpected_quiet.
  - unfold sanswer, after_exhausted, complaint, adapter. rewrite FC. reflexivity.
  - unfold listeners_quiet. rewrite FC. exact Q.
Qed.

Lemma history_app : forall s me i, history s (with_call me i) =
  history s me ++ [match nth_error (s_calls s) i with Some c => Some (ca_args c, ca_verified c) | None => None end].
Proof. intros. unfold history, with_call. cbn. now rewrite map_app. Qed.

Lemma history_more : forall s s' me, (forall i, In i (me_calls me) -> nth_error (s_calls s') i = nth_error (s_calls s) i) ->
  history s' me = history s me.
Proof. intros s s' me H. unfold history. apply map_ext_in. intros i I. now rewrite H. Qed.

Lemma calls_known : forall w s m e me i, R E w s -> method_at s m e = Some me -> In i (me_calls me) -> i < length (s_calls s).
Proof.
  intros w s m e me i (own & tow & HR) ME IN. eapply (r_his _ _ _ _ _ HR); eauto.
  unfold method_at in ME. destruct (live (s_mocks s) m) as [k|] eqn:K; [|discriminate]. exists k. eauto.
Qed.

(** *** What single steps do *)
Lemma s_started_put : forall s m e me, s_started (put_method s m e me) = s_started s.
Proof. intros. unfold put_method. now destruct (live (s_mocks s) m). Qed.
Lemma s_objs_put : forall s m e me, s_objs (put_method s m e me) = s_objs s.
Proof. intros. unfold put_method. now destruct (live (s_mocks s) m). Qed.
Lemma s_ctxs_put : forall s m e me, s_ctxs (put_method s m e me) = s_ctxs s.
Proof. intros. unfold put_method. now destruct (live (s_mocks s) m). Qed.

Lemma after_answer_other : forall s m e me l mm args m' e', (m, e) <> (m', e') ->
  method_at (after_answer s m e me l mm args) m' e' = method_at s m' e'.
Proof.
  intros. unfold after_answer. change (method_at (sset_mem ?a ?b)) with (method_at a).
  now rewrite method_put_other.
Qed.

Lemma history_at_snoc : forall s s' m e me c, method_at s m e = Some me ->
  (forall i, In i (me_calls me) -> i < length (s_calls s)) ->
  s_calls s' = s_calls s ++ [c] -> forall me', method_at s' m e = Some me' ->
  me_calls me' = me_calls me ++ [length (s_calls s)] ->
  history_at s' m e = history_at s m e ++ [Some (ca_args c, ca_verified c)].
Proof.
  intros s s' m e me c M K C me' M' MC. unfold history_at. rewrite M, M'. unfold history. rewrite MC, map_app. f_equal.
  - apply map_ext_in. intros i I. rewrite C, nth_error_app1; auto.
  - cbn. rewrite C, nth_error_app2, Nat.sub_diag by lia. reflexivity.
Qed.

Lemma history_at_same : forall w s s' m e c, R E w s -> method_at s' m e = method_at s m e ->
  s_calls s' = s_calls s ++ c -> history_at s' m e = history_at s m e.
Proof.
  intros w s s' m e c HR M C. unfold history_at. rewrite M. destruct (method_at s m e) as [me|] eqn:Q; auto.
  unfold history. apply map_ext_in. intros i I. rewrite C, nth_error_app1; auto. eapply calls_known; eauto.
Qed.

Lemma step_leads : forall f m0 os s rs m e o s' r fd,
  leads (S f) m0 os s rs -> plain_step E s m e o s' r fd -> leads (S f) m0 (os ++ [o]) s' (rs ++ [r]).
Proof.
  intros f m0 os s rs m e o s' r fd L P. destruct P.
  - eapply newest_answers; eauto. split; [eauto|split; [eauto|]].
    do 6 eexists. split; [eauto|]. repeat (split; [eauto|]). reflexivity.
  - eapply exhausted_call; eauto.
  - eapply unmatched_call; eauto.
  - eapply leads_step; eauto. erewrite stmt_when by eauto. cbn. unfold one_expression, stubbed.
    rewrite s_ctxs_put. destruct (mentioned_ctxs _ _ _ _ _ _ _ H) as (-> & _). reflexivity.
  - eapply leads_step; eauto. erewrite stmt_fake by eauto. cbn. unfold one_expression, stubbed.
    rewrite s_ctxs_put. destruct (mentioned_ctxs _ _ _ _ _ _ _ H) as (-> & _). reflexivity.
  - eapply leads_step; eauto. erewrite stmt_assign by eauto. cbn. unfold one_expression, stubbed.
    rewrite s_ctxs_put. destruct (mentioned_ctxs _ _ _ _ _ _ _ H) as (-> & _). reflexivity.
Qed.

(** ** C11 *)
Lemma mentioned_other : forall s t m e me s' m' e', mentioned E s t m e me s' -> (m, e) <> (m', e') ->
  method_at s' m' e' = method_at s m' e'.
Proof.
  intros s t m e me s' m' e' (r & D & [[_ ->]|(_ & _ & _ & _ & ->)]) N; auto. now rewrite method_put_other.
Qed.

Lemma step_other : forall s m e o s' r fd m' e', plain_step E s m e o s' r fd -> (m, e) <> (m', e') ->
  method_at s' m' e' = method_at s m' e' /\ exists c, s_calls s' = s_calls s ++ c.
Proof.
  assert (ST : forall s t m e me s1 st m' e', mentioned E s t m e me s1 -> (m, e) <> (m', e') ->
    method_at (one_expression (stubbed s1 m e me st)) m' e' = method_at s m' e' /\
    exists c, s_calls (one_expression (stubbed s1 m e me st)) = s_calls s ++ c).
  { intros s t m e me s1 st m' e' M N. change (method_at (one_expression ?a)) with (method_at a).
    unfold stubbed. rewrite method_put_other by auto. split; [eapply mentioned_other; eauto|].
    exists []. rewrite app_nil_r. cbn. rewrite s_calls_put. now destruct (mentioned_ctxs _ _ _ _ _ _ _ M) as (_ & _ & _ & ->). }
  intros s m e o s' r fd m' e' P N. destruct P; eauto.
  - split; [now apply after_answer_other|]. eexists. unfold after_answer. cbn. rewrite s_calls_put. reflexivity.
  - change (method_at (notified E ?a ?b)) with (method_at a). split.
    + now rewrite method_put_other.
    + eexists. cbn. rewrite s_calls_put. reflexivity.
  - split; [reflexivity|]. eexists. reflexivity.
Qed.

(** Its own history. *)
Lemma step_history : forall w s m e o s' r fd, R E w s -> plain_step E s m e o s' r fd ->
  history_at s' m e = history_at s m e ++ match fd with Some a => [Some (a, false)] | None => [] end.
Proof.
  assert (ST : forall w s t m e me s1 st, R E w s -> mentioned E s t m e me s1 ->
    history_at (one_expression (stubbed s1 m e me st)) m e = history_at s m e ++ []).
  { intros w s t m e me s1 st HR M. rewrite app_nil_r. unfold history_at.
    change (method_at (one_expression ?a)) with (method_at a).
    pose proof (mentioned_at _ _ _ _ _ _ _ M) as M1. unfold stubbed. rewrite (method_put _ _ _ _ _ M1).
    destruct (mentioned_ctxs _ _ _ _ _ _ _ M) as (_ & _ & _ & C).
    assert (H1 : history s me = history_at s m e).
    { destruct M as (r & D & [[M2 ->]|(M2 & _ & _ & -> & ->)]); unfold history_at; rewrite M2; reflexivity. }
    unfold history_at in H1. rewrite <- H1. unfold history. cbn [me_calls with_stubs one_expression sset_ctxs s_calls].
    rewrite s_calls_put, C. reflexivity. }
  intros w s m e o s' r fd HR P. destruct P; eauto.
  - pose proof (reaches_at _ _ _ _ _ _ _ H) as M.
    eapply (history_at_snoc s _ m e me (mkCall (me_no me) (me_ret me) args' false)); eauto.
    + intros i I. eapply calls_known; eauto.
    + unfold after_answer. cbn. rewrite s_calls_put. reflexivity.
    + unfold after_answer. change (method_at (sset_mem ?a ?b)) with (method_at a). eapply method_put. exact M.
    + reflexivity.
  - pose proof (reaches_at _ _ _ _ _ _ _ (proj1 H)) as M.
    eapply (history_at_snoc s _ m e me (mkCall (me_no me) (me_ret me) args false)); eauto.
    + intros i I. eapply calls_known; eauto.
    + cbn. rewrite s_calls_put. reflexivity.
    + change (method_at (notified E ?a ?b)) with (method_at a). eapply method_put. exact M.
    + reflexivity.
  - rewrite app_nil_r. eapply (history_at_same w s _ m e [mkCall (me_no me) (me_ret me) args false]); eauto.
Qed.

Lemma step_history_other : forall w s m e o s' r fd m' e', R E w s -> plain_step E s m e o s' r fd -> (m, e) <> (m', e') ->
  history_at s' m' e' = history_at s m' e'.
Proof.
  intros w s m e o s' r fd m' e' HR P N. destruct (step_other _ _ _ _ _ _ _ _ _ P N) as (A & c & C).
  eapply history_at_same; eauto.
Qed.

(** ** C08 *)
Lemma series_history : forall f m0 os s rs ops s' rs' found, leads (S f) m0 os s rs ->
  series E s ops s' rs' found ->
  leads (S f) m0 (os ++ ops) s' (rs ++ rs') /\
  forall m e, history_at s' m e = history_at s m e ++ map (fun a => Some (a, false)) (about m e found).
Proof.
  intros f m0 os s rs ops s' rs' found L H. revert os rs L. induction H as [s|s m e o s1 r fd ops s2 rs' found P SE IH]; intros os rs L.
  - rewrite !app_nil_r. split; auto. intros. cbn. now rewrite app_nil_r.
  - destruct (leads_R _ _ _ _ _ L) as (w & HR).
    destruct (IH (os ++ [o]) (rs ++ [r])) as [L' HI]; [eapply step_leads; eauto|].
    rewrite <- !app_assoc in L'. split; auto. intros m' e'. rewrite HI. unfold about. rewrite filter_app, !map_app, app_assoc. f_equal.
    destruct (Nat.eqb_spec m m') as [->|N]; [destruct (Nat.eqb_spec e e') as [->|N]|].
    + rewrite (step_history _ _ _ _ _ _ _ _ HR P). f_equal. destruct fd; cbn; auto. now rewrite !Nat.eqb_refl.
    + rewrite (step_history_other _ _ _ _ _ _ _ _ _ _ HR P) by congruence.
      destruct fd; cbn; rewrite ?Nat.eqb_refl; [|now rewrite app_nil_r].
      destruct (Nat.eqb_spec e e'); [congruence|]. cbn. now rewrite app_nil_r.
    + rewrite (step_history_other _ _ _ _ _ _ _ _ _ _ HR P) by congruence.
      destruct fd; cbn; [|now rewrite app_nil_r].
      destruct (Nat.eqb_spec m m'); [congruence|]. cbn. now rewrite app_nil_r.
Qed.

Lemma others_untouched : forall f m0 os s rs m e o s' r fd,
  leads (S f) m0 os s rs -> plain_step E s m e o s' r fd ->
  leads (S f) m0 (os ++ [o]) s' (rs ++ [r]) /\
  forall m' e', (m, e) <> (m', e') -> method_at s' m' e' = method_at s m' e' /\ history_at s' m' e' = history_at s m' e'.
Proof.
  intros f m0 os s rs m e o s' r fd L P. split; [eapply step_leads; eauto|]. intros m' e' N.
  destruct (leads_R _ _ _ _ _ L) as (w & HR). split; [eapply step_other; eauto|eapply step_history_other; eauto].
Qed.

Lemma unmatched_changes_nothing : forall f m0 os s rs o slot args m e me,
  leads (S f) m0 os s rs -> unmatched E s o slot args m e me ->
  listeners_quiet E s (unexpected_call me args) ->
  exists s', leads (S f) m0 (os ++ [OCall o slot args]) s' (rs ++ [inr (complaint E s (unexpected_call me args))]) /\
    s_mocks s' = s_mocks s /\ s_objs s' = s_objs s /\ s_mem s' = s_mem s /\
    (forall m' e', history_at s' m' e' = history_at s m' e') /\
    s_log s' = s_log s ++ map (fun l => (l, unexpected_call me args)) (fc_listeners (s_fctx s) ++ [adapter E s]).
Proof.
  intros f m0 os s rs o slot args m e me L U Q. eexists. split; [eapply unmatched_call; eauto|].
  destruct (leads_R _ _ _ _ _ L) as (w & HR). repeat (split; [reflexivity|]). split; [|reflexivity].
  intros m' e'. eapply history_at_same; eauto; reflexivity.
Qed.

(** ** C03: any number of further calls *)
Lemma exhausted_calls : forall f m0 argss os s rs o slot m e me,
  leads (S f) m0 os s rs -> reaches E s o slot m e me ->
  (s_started s + Z.of_nat (length argss) < 4294967296)%Z ->
  Forall (fun args => exists newer st older, newest s me args newer st older /\ st_busy st = false /\ st_todo st = []) argss ->
  Forall (fun args => listeners_quiet E s (unexpected_call me args)) argss ->
  exists s' me', leads (S f) m0 (os ++ map (OCall o slot) argss) s'
                   (rs ++ map (fun args => inr (complaint E s (unexpected_call me args))) argss) /\
    reaches E s' o slot m e me' /\ me_no me' = me_no me /\ me_stubs me' = me_stubs me /\
    history_at s' m e = history_at s m e ++ map (fun a => Some (a, false)) argss /\
    (forall m' e', (m, e) <> (m', e') -> method_at s' m' e' = method_at s m' e').
Proof.
  intros f m0 argss. induction argss as [|args argss IH]; intros os s rs o slot m e me L RE RM FN FQ.
  - exists s, me. cbn. rewrite !app_nil_r. auto 10.
  - inversion FN as [|? ? (newer & st & older & NW & B & TD) FN']; subst. inversion FQ as [|? ? Q FQ']; subst.
    assert (X : exhausted E s o slot args m e me st).
    { split; auto. split; [unfold room; cbn [length] in RM; lia|]. split; auto. split; auto. eauto. }
    destruct (leads_R _ _ _ _ _ L) as (w & HR).
    pose proof (PsExhausted E s m e o slot args me st X Q) as P.
    pose proof (step_leads _ _ _ _ _ _ _ _ _ _ _ L P) as L1.
    set (s1 := notified E _ _) in *. set (i := length (s_calls s)) in *.
    assert (RE1 : reaches E s1 o slot m e (with_call me i)).
    { unfold s1. eapply (reaches_mocks (put_method (recorded_call s me args) m e (with_call me i))); auto.
      eapply reaches_put; [|destruct RE as (? & ? & ? & ? & ? & ? & ? & ? & ? & ? & BP); exact BP].
      eapply (reaches_mocks s); auto. exact RE. }
    assert (MM : s_mem s1 = s_mem s) by (unfold s1; cbn; rewrite s_mem_put; reflexivity).
    assert (FC : s_fctx s1 = s_fctx s) by (unfold s1; cbn; rewrite s_fctx_put; reflexivity).
    assert (SS : s_started s1 = (s_started s + 1)%Z) by (unfold s1; cbn; rewrite s_started_put; reflexivity).
    destruct (IH _ _ _ o slot m e (with_call me i) L1 RE1) as (s' & me' & L' & RE' & NO & ST & HI & OT).
    + rewrite SS. cbn [length] in RM. lia.
    + revert FN'. apply Forall_impl. intros a (nw & st' & od & (A & A2 & A3) & A4). exists nw, st', od. split; auto.
      split; [exact A|]. unfold accepts, rejects in *. rewrite MM. auto.
    + revert FQ'. apply Forall_impl. intros a A. unfold listeners_quiet. rewrite FC. exact A.
    + exists s', me'. rewrite <- !app_assoc in L'. cbn [map app] in *. split.
      * assert (EQ : map (fun a => @inr val exn (complaint E s1 (unexpected_call (with_call me i) a))) argss =
                     map (fun a => inr (complaint E s (unexpected_call me a))) argss).
        { apply map_ext. intro a. unfold complaint, adapter. rewrite FC. reflexivity. }
        rewrite EQ in L'. exact L'.
      * repeat (split; auto).
        -- rewrite HI, (step_history _ _ _ _ _ _ _ _ HR P), <- app_assoc. reflexivity.
        -- intros m' e' N. rewrite OT by auto. apply (step_other _ _ _ _ _ _ _ _ _ P N).
Qed.

End S.
