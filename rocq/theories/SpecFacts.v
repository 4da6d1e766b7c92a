(** Facts about single operations of the abstract machine, and their transfer to the
    modelled code. *)
From Coq Require Import Bool ZArith Lia List Permutation.
From Verif Require Import Base CInt Values ArgMatchers InvMatchers ActionSeq Sequences MatchAnalysis
  Proxy Events EventsProofs Expectation ReturnSet Syntax World Spec_World WorldRel WorldSimA WorldSimB WorldSimE WorldSim Spec_View.
From Verif Require Import Spec_Conditions ConditionProofs.
Import ListNotations.
Open Scope nat_scope.

Definition sanswer (s : sworld) (r : val + exn) : sres val :=
  match r with inl v => SOk s v | inr e => SExn s e end.

Lemma sbind_ok : forall A B (m : SM A) (k : A -> SM B) s s' a, m s = SOk s' a -> sbind m k s = k a s'.
Proof. intros. unfold sbind. now rewrite H. Qed.

Lemma sbind_exn : forall A B (m : SM A) (k : A -> SM B) s s' e, m s = SExn s' e -> sbind m k s = SExn s' e.
Proof. intros. unfold sbind. now rewrite H. Qed.

Lemma sget_live : forall A (f : sworld -> list (option A)) i s x, live (f s) i = Some x -> sget f i s = SOk s x.
Proof. intros. unfold sget, sbind, sgets, sopt. now rewrite H. Qed.

Lemma sattempt_answer : forall (m : SM val) s s' r, m s = sanswer s' r -> sattempt m s = SOk s' r.
Proof. intros. unfold sattempt. rewrite H. now destruct r. Qed.

Section S.
Variable E : env.
Hypothesis iter_perm : forall l, Permutation (e_iter E l) l.

Local Notation leads := (leads E).

(** ** Programs *)
Lemma exec_all_app : forall f os os' w,
  exec_all E f (os ++ os') w =
  match exec_all E f os w with
  | RVal w' rs =>
      match exec_all E f os' w' with
      | RVal w'' rs' => RVal w'' (rs ++ rs')
      | x => x
      end
  | x => x
  end.
Proof.
  intros f os os'. induction os as [|o os IH]; intro w; cbn.
  - unfold ret. destruct (exec_all E f os' w); reflexivity.
  - unfold bind. destruct (attempt (exec E f o) w) as [w1 x| | |]; auto. rewrite IH.
    destruct (exec_all E f os w1) as [w2 rs| | |]; auto. cbn.
    destruct (exec_all E f os' w2) as [w3 rs'| | |]; auto.
Qed.

Lemma answered_leads : forall fuel m os s rs, sexec_all E fuel os (sinit m) = SOk s rs -> leads fuel m os s rs.
Proof. intros. now apply exec_all_refines. Qed.

Lemma leads_more : forall fuel m os s rs os' s' rs', leads fuel m os s rs ->
  sexec_all E fuel os' s = SOk s' rs' -> leads fuel m (os ++ os') s' (rs ++ rs').
Proof.
  intros fuel m os s rs os' s' rs' (w & X & HR) Q.
  pose proof (sim_exec_all E iter_perm fuel os' w s HR) as S. unfold simw in S. rewrite Q in S.
  destruct S as (w' & a & S1 & S2 & S3). unfold eqP in S3. subst a.
  exists w'. split; auto. rewrite exec_all_app, X, S1. reflexivity.
Qed.

Lemma leads_step : forall fuel m os s rs o s' r, leads fuel m os s rs ->
  sexec E fuel o s = sanswer s' r -> leads fuel m (os ++ [o]) s' (rs ++ [r]).
Proof.
  intros fuel m os s rs o s' r L H. eapply leads_more; eauto.
  cbn. unfold sbind. erewrite sattempt_answer by eauto. reflexivity.
Qed.

Lemma leads_results : forall fuel m os s rs, leads fuel m os s rs ->
  match exec_all E fuel os (init_world E m) with RVal _ l => Some l | _ => None end = Some rs.
Proof. intros fuel m os s rs (w & X & _). now rewrite X. Qed.

(** ** Plain actions *)
Lemma run_plain : forall rec p s pre c args r, s_calls s = pre ++ [c] -> plain p (ca_args c) = Some (args, r) ->
  srun_prog rec (FrInv (length pre)) p s =
  sanswer (sset_calls s (pre ++ [mkCall (ca_method c) (ca_ret c) args (ca_verified c)])) r.
Proof.
  intros rec. induction p as [v|e|i k IH|i v k IH|k IH|o k IH]; intros s pre c args r C P; cbn -[Nat.ltb] in P; try discriminate.
  - inversion P; subst. destruct s, c; cbn in *. now subst.
  - inversion P; subst. destruct s, c; cbn in *. now subst.
  - cbn. assert (G : sget_call (length pre) s = SOk s c).
    { unfold sget_call, sbind, sgets. rewrite C, nth_error_app2, Nat.sub_diag by lia. reflexivity. }
    rewrite (sbind_ok _ _ _ _ _ _ _ G). revert P. destruct (nth_error (ca_args c) i) as [v|]; intro P; [|discriminate]. now apply IH.
  - cbn -[Nat.ltb]. assert (G : sget_call (length pre) s = SOk s c).
    { unfold sget_call, sbind, sgets. rewrite C, nth_error_app2, Nat.sub_diag by lia. reflexivity. }
    rewrite (sbind_ok _ _ _ _ _ _ _ G). revert P. destruct (Nat.ltb i (length (ca_args c))); intro P; [|discriminate].
    unfold sbind, sput_args, smodify.
    erewrite (IH _ pre (mkCall (ca_method c) (ca_ret c) (upd (ca_args c) i v) (ca_verified c))); [|cbn; rewrite C; apply upd_app_last|exact P].
    reflexivity.
Qed.

Lemma run_default : forall r s x, default_of r = Some x -> sdefault r s = sanswer s x.
Proof. intros [] s x H; inversion H; reflexivity. Qed.

Lemma run_callable : forall rec f s pre c mm args r, s_calls s = pre ++ [c] ->
  plain_callable E (s_mem s) (ca_ret c) f (ca_args c) = Some (mm, args, r) ->
  srun_callable E rec f (length pre) s =
  sanswer (sset_mem (sset_calls s (pre ++ [mkCall (ca_method c) (ca_ret c) args (ca_verified c)])) mm) r.
Proof.
  intros rec f s pre c mm args r C P.
  assert (G : sget_call (length pre) s = SOk s c).
  { unfold sget_call, sbind, sgets. rewrite C, nth_error_app2, Nat.sub_diag by lia. reflexivity. }
  assert (SAME : sset_calls s (pre ++ [mkCall (ca_method c) (ca_ret c) (ca_args c) (ca_verified c)]) = s).
  { destruct s, c; cbn in *. now subst. }
  destruct f as [p| |v vals|v vals|? ? ? ?]; cbn in P; cbn [srun_callable].
  - destruct (plain p (ca_args c)) as [[a x]|] eqn:Q; revert P; intro P; inversion P; subst.
    erewrite run_plain by eauto. destruct s; reflexivity.
  - rewrite (sbind_ok _ _ _ _ _ _ _ G). destruct (default_of (ca_ret c)) eqn:Q; inversion P; subst.
    rewrite SAME. erewrite run_default by eauto. destruct s; reflexivity.
  - rewrite (sbind_ok _ _ _ _ _ _ _ G). destruct (assigner_positional (s_mem s) v vals (ca_args c)) as [[mm' x]| |] eqn:Q; inversion P; subst.
    unfold sbind, sput_args, smodify, sgets, slift. rewrite C, upd_app_last. cbn [s_mem sset_calls]. rewrite Q. reflexivity.
  - rewrite (sbind_ok _ _ _ _ _ _ _ G). destruct (assigner_placeholders (s_mem s) v vals (ca_args c)) as [[mm' x]| |] eqn:Q; inversion P; subst.
    unfold sbind, sput_args, smodify, sgets, slift. rewrite C, upd_app_last. cbn [s_mem sset_calls]. rewrite Q. reflexivity.
  - discriminate.
Qed.

(** ** Finding a stubbing *)
Lemma find_newest : forall s args newer st older, Forall (rejects s args) newer -> accepts s args st ->
  sfind (newer ++ st :: older) args s = SOk s (Some st).
Proof.
  intros s args newer st older F A. induction F as [|y l Y F IH]; cbn.
  - unfold sbind, sgets, slift. apply satisfied_iff in A. now rewrite A.
  - unfold sbind, sgets, slift. apply unsatisfied_iff in Y. now rewrite Y.
Qed.

Lemma find_none : forall s args l, Forall (rejects s args) l -> sfind l args s = SOk s None.
Proof.
  intros s args l F. induction F as [|y l Y F IH]; cbn; auto.
  unfold sbind, sgets, slift. apply unsatisfied_iff in Y. now rewrite Y.
Qed.

Lemma replace_at : forall newer st older f st', ~ In (st_no st) (map st_no newer) -> f st = Some st' ->
  replace_stub (newer ++ st :: older) (st_no st) f = Some (newer ++ st' :: older).
Proof.
  intros newer st older f st' N F. induction newer as [|y l IH]; cbn.
  - now rewrite Nat.eqb_refl, F.
  - destruct (Nat.eqb_spec (st_no y) (st_no st)) as [Q|_]; [exfalso; apply N; now left|].
    rewrite IH; auto. intro; apply N; now right.
Qed.

(** ** Methods *)
Lemma method_at_live : forall s m e k me, live (s_mocks s) m = Some k -> live (sk_meths k) e = Some me -> method_at s m e = Some me.
Proof. intros. unfold method_at. now rewrite H. Qed.

Lemma smethod_at : forall s m e me, method_at s m e = Some me -> smethod m e s = SOk s me.
Proof.
  intros s m e me H. unfold method_at in H. unfold smethod. destruct (live (s_mocks s) m) as [k|] eqn:K; [|discriminate].
  rewrite (sbind_ok _ _ _ _ _ _ _ (sget_live _ _ _ _ _ K)). unfold sopt. now rewrite H.
Qed.

Lemma sset_method_at : forall s m e me me', method_at s m e = Some me -> sset_method m e me' s = SOk (put_method s m e me') tt.
Proof.
  intros s m e me me' H. unfold method_at in H. unfold sset_method, put_method.
  destruct (live (s_mocks s) m) as [k|] eqn:K; [|discriminate].
  rewrite (sbind_ok _ _ _ _ _ _ _ (sget_live _ _ _ _ _ K)). reflexivity.
Qed.

Lemma method_put : forall s m e me me' , method_at s m e = Some me -> method_at (put_method s m e me') m e = Some me'.
Proof.
  intros s m e me me' H. unfold method_at, put_method in *. destruct (live (s_mocks s) m) as [k|] eqn:K; [|discriminate].
  cbn. rewrite live_upd_in by (eapply live_lt; eauto). cbn. apply live_upd_in. eapply live_lt; eauto.
Qed.

Lemma method_put_other : forall s m e me' m' e', (m, e) <> (m', e') -> method_at (put_method s m e me') m' e' = method_at s m' e'.
Proof.
  intros s m e me' m' e' N. unfold method_at, put_method in *. destruct (live (s_mocks s) m) as [k|] eqn:K; auto.
  cbn. destruct (Nat.eq_dec m m') as [<-|M].
  - rewrite live_upd_in by (eapply live_lt; eauto). rewrite K. cbn. apply live_upd_out. congruence.
  - now rewrite live_upd_out.
Qed.

Lemma put_put : forall s m e a b, put_method (put_method s m e a) m e b = put_method s m e b.
Proof.
  intros. unfold put_method. destruct (live (s_mocks s) m) as [k|] eqn:K; [|now rewrite K].
  cbn. rewrite live_upd_in by (eapply live_lt; eauto). cbn. rewrite !upd_upd. reflexivity.
Qed.

Lemma put_same : forall s m e me, method_at s m e = Some me -> put_method s m e me = s.
Proof.
  intros s m e me H. unfold put_method, method_at in *. destruct (live (s_mocks s) m) as [k|] eqn:K; [|discriminate].
  rewrite (upd_same _ (sk_meths k)) by (now apply nth_live).
  rewrite (upd_same _ (s_mocks s)) by (rewrite (nth_live _ _ _ _ K); now destruct k). now destruct s.
Qed.

(** Fields other than the mocks. *)
Lemma put_calls : forall s m e me l, put_method (sset_calls s l) m e me = sset_calls (put_method s m e me) l.
Proof. intros. unfold put_method. cbn. now destruct (live (s_mocks s) m). Qed.
Lemma put_started : forall s m e me l, put_method (sset_started s l) m e me = sset_started (put_method s m e me) l.
Proof. intros. unfold put_method. cbn. now destruct (live (s_mocks s) m). Qed.
Lemma put_mem : forall s m e me l, put_method (sset_mem s l) m e me = sset_mem (put_method s m e me) l.
Proof. intros. unfold put_method. cbn. now destruct (live (s_mocks s) m). Qed.
Lemma put_log : forall s m e me l, put_method (sset_log s l) m e me = sset_log (put_method s m e me) l.
Proof. intros. unfold put_method. cbn. now destruct (live (s_mocks s) m). Qed.
Lemma s_mem_put : forall s m e me, s_mem (put_method s m e me) = s_mem s.
Proof. intros. unfold put_method. now destruct (live (s_mocks s) m). Qed.
Lemma s_calls_put : forall s m e me, s_calls (put_method s m e me) = s_calls s.
Proof. intros. unfold put_method. now destruct (live (s_mocks s) m). Qed.
Lemma s_fctx_put : forall s m e me, s_fctx (put_method s m e me) = s_fctx s.
Proof. intros. unfold put_method. now destruct (live (s_mocks s) m). Qed.

(** ** Calls *)
Lemma call_reaches : forall rec s o slot m e me args, reaches E s o slot m e me ->
  scall E rec o slot args s = sstubbed E rec m e args s.
Proof.
  intros rec s o slot m e me args (x & k & d & O & M & K & D & L & EM & ME & B). unfold scall.
  rewrite (sbind_ok _ _ _ _ _ _ _ (sget_live _ _ _ _ _ O)), M.
  rewrite (sbind_ok _ _ _ _ _ _ _ (sget_live _ _ _ _ _ K)).
  unfold sclass. rewrite D. unfold sbind at 1, sopt, sret.
  destruct (Nat.ltb_spec slot (cl_size d)); [|lia]. rewrite EM, ME, B. reflexivity.
Qed.

Lemma reaches_at : forall s o slot m e me, reaches E s o slot m e me -> method_at s m e = Some me.
Proof. intros s o slot m e me (x & k & d & O & M & K & D & L & EM & ME & B). eapply method_at_live; eauto. Qed.

(** The first half of a call: it is recorded and a stubbing is looked for. *)
Definition calling (s : sworld) (m e : nat) (me : method) (args : list val) : sworld :=
  put_method (recorded_call s me args) m e (with_call me (length (s_calls s))).

Lemma stubbed_found : forall rec s m e me args newer st older, method_at s m e = Some me -> room s ->
  newest s me args newer st older ->
  sstubbed E rec m e args s =
  (match st_todo st with
   | [] => if st_busy st then unspec else sunexpected E Unmatched (Some (Z.of_nat (S (me_no me)))) args
   | _ =>
       let? r := sattempt (splay E rec m e st (length (s_calls s))) in
       match r with
       | inr XNoMore => unspec
       | _ => srethrow r
       end
   end) (calling s m e me args).
Proof.
  intros rec s m e me args newer st older ME RM (ST & N & A). unfold sstubbed.
  rewrite (sbind_ok _ _ _ _ _ _ _ (smethod_at _ _ _ _ ME)).
  assert (SS : sstart s = SOk (sset_started s (s_started s + 1)%Z) tt).
  { unfold sstart, sbind, sgets. unfold room in RM. destruct (Z.ltb_spec (s_started s + 1) 4294967296); [reflexivity|lia]. }
  rewrite (sbind_ok _ _ _ _ _ _ _ SS). unfold sbind at 1, sgets. cbn [s_calls sset_started].
  unfold sbind at 1, smodify. 
  set (s1 := sset_calls _ _).
  assert (S1 : s1 = recorded_call s me args) by (unfold s1; destruct s; reflexivity).
  rewrite ST.
  assert (F : sfind (newer ++ st :: older) args s1 = SOk s1 (Some st)).
  { apply find_newest; [|exact A]. revert N. apply Forall_impl. intros y Y. exact Y. }
  rewrite (sbind_ok _ _ _ _ _ _ _ F).
  assert (ME1 : method_at s1 m e = Some me) by exact ME.
  rewrite (sbind_ok _ _ _ _ _ _ _ (sset_method_at _ _ _ _ _ ME1)).
  unfold calling. rewrite S1. unfold with_call. rewrite ST. reflexivity.
Qed.

Lemma stubbed_none : forall rec s m e me args, method_at s m e = Some me -> room s ->
  Forall (rejects s args) (me_stubs me) ->
  sstubbed E rec m e args s =
  sunexpected E Unmatched (Some (Z.of_nat (S (me_no me)))) args (recorded_call s me args).
Proof.
  intros rec s m e me args ME RM N. unfold sstubbed.
  rewrite (sbind_ok _ _ _ _ _ _ _ (smethod_at _ _ _ _ ME)).
  assert (SS : sstart s = SOk (sset_started s (s_started s + 1)%Z) tt).
  { unfold sstart, sbind, sgets. unfold room in RM. destruct (Z.ltb_spec (s_started s + 1) 4294967296); [reflexivity|lia]. }
  rewrite (sbind_ok _ _ _ _ _ _ _ SS). unfold sbind at 1, sgets. cbn [s_calls sset_started].
  unfold sbind at 1, smodify.
  set (s1 := sset_calls _ _).
  assert (S1 : s1 = recorded_call s me args) by (unfold s1; destruct s; reflexivity).
  assert (F : sfind (me_stubs me) args s1 = SOk s1 None).
  { apply find_none. revert N. apply Forall_impl. intros y Y. exact Y. }
  rewrite (sbind_ok _ _ _ _ _ _ _ F). now rewrite S1.
Qed.

(** ** Complaints *)
Lemma unexpected_exn : forall t n args s, exists s' x, sunexpected E t n args s = SExn s' x /\
  s_mocks s' = s_mocks s /\ s_calls s' = s_calls s /\ s_objs s' = s_objs s /\ s_mem s' = s_mem s /\ s_ctxs s' = s_ctxs s.
Proof.
  intros t n args s. unfold sunexpected, sreport, sbind, sgets.
  destruct (ctx_handle (e_react E) (e_builtin E) (s_fctx s) (EvUnexpected t n args)) as [done x].
  unfold smodify. destruct x as [x|]; cbn; eexists; eexists; split; try reflexivity; cbn; auto.
Qed.

Lemma unexpected_quiet : forall t n args s, listeners_quiet E s (EvUnexpected t n args) ->
  sunexpected E t n args s = SExn (notified E s (EvUnexpected t n args)) (complaint E s (EvUnexpected t n args)).
Proof.
  intros t n args s Q. unfold sunexpected, sreport, sbind, sgets, ctx_handle.
  rewrite (fireEvent_quiet (e_react E)) by exact Q.
  unfold smodify, notified, complaint, adapter, sthrow, sret.
  destruct (e_react E (getTestingFrameworkAdapter (e_builtin E) (s_fctx s)) (EvUnexpected t n args)); reflexivity.
Qed.

(** ** A call answered by a plain action *)
Lemma stubs_nodup : forall w s m e me, R E w s -> method_at s m e = Some me -> NoDup (map st_no (me_stubs me)).
Proof.
  intros w s m e me (own & tow & HR) ME. eapply un_nodup; [exact (r_uni _ _ _ _ _ HR)|].
  unfold method_at in ME. destruct (live (s_mocks s) m) as [k|] eqn:K; [|discriminate]. exists k. eauto.
Qed.

Lemma nodup_mid : forall newer st older, NoDup (map st_no (newer ++ st :: older)) -> ~ In (st_no st) (map st_no newer).
Proof.
  intros newer st older N. rewrite map_app in N. cbn in N. apply NoDup_remove_2 in N.
  intro. apply N, in_or_app. now left.
Qed.

Lemma change_stub_at : forall s m e me newer st older f st', method_at s m e = Some me ->
  me_stubs me = newer ++ st :: older -> ~ In (st_no st) (map st_no newer) -> f st = Some st' ->
  schange_stub m e (st_no st) f s = SOk (put_method s m e (with_stubs me (newer ++ st' :: older))) tt.
Proof.
  intros s m e me newer st older f st' ME ST N F. unfold schange_stub.
  rewrite (sbind_ok _ _ _ _ _ _ _ (smethod_at _ _ _ _ ME)), ST, (replace_at _ _ _ _ _ N F).
  unfold sbind, sopt, sret. now rewrite (sset_method_at _ _ _ _ _ ME).
Qed.

Lemma plain_action_play : forall rec s m e me args newer st older a rest mm args' r,
  method_at s m e = Some me -> newest s me args newer st older -> NoDup (map st_no (me_stubs me)) ->
  st_busy st = false -> st_todo st = a :: rest ->
  plain_action E (s_mem s) (me_ret me) a args = Some (mm, args', r) ->
  splay E rec m e st (length (s_calls s)) (calling s m e me args) =
  sanswer (after_answer s m e me (newer ++ played st :: older) mm args') r.
Proof.
  intros rec s m e me args newer st older a rest mm args' r ME (ST & _ & _) ND B TD P.
  assert (ND' : ~ In (st_no st) (map st_no newer)) by (apply (nodup_mid newer st older); now rewrite <- ST).
  set (i := length (s_calls s)). set (c := mkCall (me_no me) (me_ret me) args false).
  set (s1 := calling s m e me args).
  assert (ME1 : method_at s1 m e = Some (with_call me i)).
  { unfold s1, calling. eapply method_put. exact ME. }
  assert (C1 : s_calls s1 = s_calls s ++ [c]) by (unfold s1, calling; rewrite s_calls_put; reflexivity).
  assert (M1 : s_mem s1 = s_mem s) by (unfold s1, calling; rewrite s_mem_put; reflexivity).
  (* actions whose object does not change *)
  assert (KEEP : forall f, played st = st -> plain_callable E (s_mem s) (me_ret me) f args = Some (mm, args', r) ->
    srun_callable E rec f i s1 = sanswer (after_answer s m e me (newer ++ played st :: older) mm args') r).
  { intros f PS PC. unfold i. rewrite <- M1 in PC. erewrite run_callable; [|exact C1|exact PC].
    f_equal. unfold after_answer, s1, calling. rewrite PS, <- ST. cbn [ca_method ca_ret ca_verified c].
    rewrite <- put_calls. unfold with_call, with_stubs, recorded_call. destruct s; reflexivity. }
  unfold splay. rewrite TD. destruct a as [f n|f| |f|]; cbn in P.
  - destruct (Z.leb_spec 1 n) as [L|L]; [|discriminate]. rewrite B. destruct (Z.ltb_spec n 1); [lia|]. cbn [orb].
    set (st1 := mkStub (st_no st) (st_cond st) (ARepeat f (n - 1) :: rest) (st_used st) true).
    assert (ST1 : me_stubs (with_call me i) = newer ++ st :: older) by exact ST.
    rewrite (sbind_ok _ _ _ _ _ _ _ (change_stub_at _ _ _ _ _ _ _ begin_action st1 ME1 ST1 ND'
               ltac:(unfold begin_action; rewrite TD; reflexivity))).
    set (s2 := put_method s1 m e (with_stubs (with_call me i) (newer ++ st1 :: older))).
    assert (C2 : s_calls s2 = s_calls s ++ [c]) by (unfold s2; rewrite s_calls_put; exact C1).
    assert (M2 : s_mem s2 = s_mem s) by (unfold s2; rewrite s_mem_put; exact M1).
    rewrite <- M2 in P. unfold sguarded. unfold sbind at 1.
    set (s3 := sset_mem (sset_calls s2 (s_calls s ++ [mkCall (me_no me) (me_ret me) args' false])) mm).
    assert (RC : srun_callable E rec f i s2 = sanswer s3 r) by (exact (run_callable rec f s2 (s_calls s) c mm args' r C2 P)).
    rewrite (sattempt_answer _ _ _ _ RC).
    assert (ME3 : method_at s3 m e = Some (with_stubs (with_call me i) (newer ++ st1 :: older))).
    { change (method_at s3 m e) with (method_at s2 m e). unfold s2. eapply method_put; eauto. }
    set (st3 := played st).
    assert (EA : end_action (st_used st) st1 = Some st3).
    { unfold end_action, st1, st3, played, left_of. cbn. rewrite TD, Nat.eqb_refl, B.
      destruct (Z.eqb_spec (n - 1) 0), (Z.eqb_spec n 1); try lia; cbn; subst; reflexivity. }
    change (st_no st) with (st_no st1) at 1.
    rewrite (sbind_ok _ _ _ _ _ _ _ (change_stub_at s3 m e _ newer st1 older _ st3 ME3 eq_refl ND' EA)).
    assert (FIN : put_method s3 m e (with_stubs (with_stubs (with_call me i) (newer ++ st1 :: older)) (newer ++ st3 :: older))
                  = after_answer s m e me (newer ++ st3 :: older) mm args').
    { unfold s3, s2, s1, calling, after_answer. rewrite put_mem, put_calls, !put_put. f_equal.
      rewrite <- put_calls. unfold with_call, with_stubs, recorded_call. destruct s; reflexivity. }
    rewrite FIN. destruct r; reflexivity.
  - apply KEEP; auto. unfold played. rewrite TD. cbn. rewrite <- TD. now destruct st.
  - apply (KEEP FDefault); auto. unfold played. rewrite TD. cbn. rewrite <- TD. now destruct st.
  - apply KEEP; auto. unfold played. rewrite TD. cbn. rewrite <- TD. now destruct st.
  - discriminate.
Qed.

Lemma call_answered : forall f w s o slot m e me args newer st older a rest mm args' r,
  R E w s -> reaches E s o slot m e me -> room s -> newest s me args newer st older ->
  st_busy st = false -> st_todo st = a :: rest ->
  plain_action E (s_mem s) (me_ret me) a args = Some (mm, args', r) -> r <> inr XNoMore ->
  sexec E (S f) (OCall o slot args) s = sanswer (after_answer s m e me (newer ++ played st :: older) mm args') r.
Proof.
  intros f w s o slot m e me args newer st older a rest mm args' r HR RE RM NW B TD P NX.
  cbn [sexec sstep]. rewrite (call_reaches _ _ _ _ _ _ _ _ RE).
  pose proof (reaches_at _ _ _ _ _ _ RE) as ME.
  rewrite (stubbed_found _ _ _ _ _ _ _ _ _ ME RM NW), TD.
  unfold sbind. rewrite (sattempt_answer _ _ _ _ (plain_action_play _ _ _ _ _ _ _ _ _ _ _ _ _ _ ME NW (stubs_nodup _ _ _ _ _ HR ME) B TD P)).
  destruct r as [v|[]]; try reflexivity. congruence.
Qed.

(** ** Calls without an answer *)
Lemma call_exhausted : forall f s o slot m e me args newer st older,
  reaches E s o slot m e me -> room s -> newest s me args newer st older ->
  st_busy st = false -> st_todo st = [] ->
  sexec E (S f) (OCall o slot args) s =
  sunexpected E Unmatched (Some (Z.of_nat (S (me_no me)))) args (calling s m e me args).
Proof.
  intros f s o slot m e me args newer st older RE RM NW B TD.
  cbn [sexec sstep]. rewrite (call_reaches _ _ _ _ _ _ _ _ RE).
  rewrite (stubbed_found _ _ _ _ _ _ _ _ _ (reaches_at _ _ _ _ _ _ RE) RM NW), TD, B. reflexivity.
Qed.

Lemma call_unmatched : forall f s o slot m e me args,
  reaches E s o slot m e me -> room s -> Forall (rejects s args) (me_stubs me) ->
  sexec E (S f) (OCall o slot args) s =
  sunexpected E Unmatched (Some (Z.of_nat (S (me_no me)))) args (recorded_call s me args).
Proof.
  intros f s o slot m e me args RE RM N.
  cbn [sexec sstep]. rewrite (call_reaches _ _ _ _ _ _ _ _ RE).
  now rewrite (stubbed_none _ _ _ _ _ _ (reaches_at _ _ _ _ _ _ RE) RM N).
Qed.

(** ** Stubbing statements *)
Lemma starget_spec : forall s t m e r, designates E s t m e r -> starget E t s = SOk s (m, e, target_id t, r).
Proof.
  intros s t m e r (k & d & TM & K & D & L & T). unfold starget. rewrite TM.
  rewrite (sbind_ok _ _ _ _ _ _ _ (sget_live _ _ _ _ _ K)). unfold sclass. rewrite D. unfold sbind at 1, sopt, sret.
  destruct t as [m' slot c|m']; cbn in TM; subst m'.
  - destruct T as (-> & SZ & DT & ->). destruct (Nat.ltb_spec e (cl_size d)); [|lia]. rewrite DT. reflexivity.
  - destruct T as (-> & ->). reflexivity.
Qed.

Lemma designates_more : forall s s' t m e r, s_mocks s' = s_mocks s -> designates E s t m e r -> designates E s' t m e r.
Proof. intros s s' t m e r Q (k & d & H). exists k, d. rewrite Q. exact H. Qed.

Lemma smention_spec : forall s t m e me s' l, mentioned E s t m e me s' ->
  smention E t (sset_ctxs s l) = SOk (sset_ctxs s' l) (m, e).
Proof.
  intros s t m e me s' l (r & D & H). unfold smention.
  pose proof (designates_more s (sset_ctxs s l) _ _ _ _ eq_refl D) as D'.
  rewrite (sbind_ok _ _ _ _ _ _ _ (starget_spec _ _ _ _ _ D')). cbn beta iota.
  destruct D as (k & d & TM & K & DD & L & T).
  assert (K' : live (s_mocks (sset_ctxs s l)) m = Some k) by exact K.
  rewrite (sbind_ok _ _ _ _ _ _ _ (sget_live _ _ _ _ _ K')).
  destruct H as [[ME ->]|(ME & (k' & K2 & F) & RM & -> & ->)].
  - unfold method_at in ME. rewrite K in ME. unfold sbind at 1, sopt. rewrite (nth_live _ _ _ _ ME). reflexivity.
  - rewrite K in K2. inversion K2; subst k'. clear K2.
    unfold method_at in ME. rewrite K in ME.
    assert (NN : nth_error (sk_meths k) e = Some None).
    { unfold live in ME. destruct (nth_error (sk_meths k) e) as [[]|] eqn:Q; auto; [discriminate|]. apply nth_error_None in Q. lia. }
    unfold sbind at 1, sopt. rewrite NN. unfold sret. unfold sbind at 1, sgets. cbn [s_bound sset_ctxs].
    rewrite F. destruct (Z.ltb_spec (Z.of_nat (s_bound s) + 1) 4294967296); [|lia]. cbn [andb].
    unfold sbind at 1, smodify. unfold sset_method.
    assert (K3 : live (s_mocks (sset_bound (sset_ctxs s l) (S (s_bound (sset_ctxs s l))))) m = Some k) by exact K.
    unfold sbind at 1. rewrite (sbind_ok _ _ _ _ _ _ _ (sget_live _ _ _ _ _ K3)). unfold sput_mock, smodify, sret.
    f_equal. unfold put_method. cbn. rewrite K. reflexivity.
Qed.

Lemma mentioned_at : forall s t m e me s', mentioned E s t m e me s' -> method_at s' m e = Some me.
Proof.
  intros s t m e me s' (r & D & H). destruct H as [[ME ->]|(ME & (k' & K2 & F) & RM & M & ->)]; auto.
  destruct D as (k & d & TM & K & DD & L & T). unfold method_at, put_method. cbn. rewrite K. cbn.
  rewrite live_upd_in by (eapply live_lt; eauto). cbn. now apply live_upd_in.
Qed.

Lemma mentioned_ctxs : forall s t m e me s', mentioned E s t m e me s' ->
  s_ctxs s' = s_ctxs s /\ s_uncaught s' = s_uncaught s /\ s_mem s' = s_mem s /\ s_calls s' = s_calls s.
Proof.
  intros s t m e me s' (r & D & H). destruct H as [[ME ->]|(ME & (k' & K2 & F) & RM & M & ->)]; auto.
  unfold put_method. now destruct (live (s_mocks (sset_bound s (S (s_bound s)))) m).
Qed.

Lemma sappend_all_spec : forall rs s c x, live (s_ctxs s) c = Some x -> sx_committed x = false ->
  sappend_all c rs s = SOk (sset_ctxs s (upd (s_ctxs s) c (Some (mkSctx (sx_target x) (sx_cond x) (sx_todo x ++ map action_of rs) false)))) tt.
Proof.
  induction rs as [|r rs IH]; intros s c x L U; cbn.
  - rewrite app_nil_r, <- U. unfold sret. f_equal. rewrite (upd_same _ (s_ctxs s)).
    + now destruct s.
    + rewrite (nth_live _ _ _ _ L). now destruct x.
  - unfold sbind at 1, sctx_append. unfold sctx_unused. unfold sbind at 1.
    rewrite (sbind_ok _ _ _ _ _ _ _ (sget_live _ _ _ _ _ L)), U. unfold sret, sput_ctx, smodify.
    erewrite IH; [|cbn; apply live_upd_in; eapply live_lt; eauto|reflexivity].
    cbn. rewrite upd_upd, <- app_assoc. reflexivity.
Qed.

(** A method expression: its condition is set. *)
Lemma sctx_of_spec : forall s t im m e me s', mentioned E s t m e me s' ->
  sctx_of E t im s =
  SOk (sset_ctxs s' (s_ctxs s ++ [Some (mkSctx t (match im with Some i => i | None => IMDefault end) [] false)])) (length (s_ctxs s)).
Proof.
  intros s t im m e me s' M. unfold sctx_of, sctx_new.
  assert (D : exists r, designates E s t m e r) by (destruct M as (r & D & _); eauto).
  destruct D as (r & k & d & TM & K & DD). unfold sbind at 1.
  rewrite <- TM in K. rewrite (sbind_ok _ _ _ _ _ _ _ (sget_live _ _ _ _ _ K)).
  unfold sbind at 1, sgets. unfold sbind at 1, smodify.
  assert (SM : sattempt (smention E t) (sset_ctxs s (s_ctxs s ++ [Some (mkSctx t IMDefault [] false)])) =
               SOk (sset_ctxs s' (s_ctxs s ++ [Some (mkSctx t IMDefault [] false)])) (inl (m, e))).
  { unfold sattempt. now rewrite (smention_spec _ _ _ _ _ _ _ M). }
  rewrite (sbind_ok _ _ _ _ _ _ _ SM). unfold sret. destruct im as [im|]; [|reflexivity].
  unfold sctx_cond, sctx_unused, sbind.
  assert (LL : live (s_ctxs (sset_ctxs s' (s_ctxs s ++ [Some (mkSctx t IMDefault [] false)]))) (length (s_ctxs s)) = Some (mkSctx t IMDefault [] false)).
  { cbn. rewrite live_app, Nat.eqb_refl. reflexivity. }
  rewrite (sget_live _ _ _ _ _ LL). cbn. rewrite upd_app_last. reflexivity.
Qed.

Lemma sctx_commit_spec : forall s c x m e me, live (s_ctxs s) c = Some x -> sx_committed x = false ->
  mentioned E s (sx_target x) m e me s ->
  sctx_commit E c s =
  SOk (sset_ctxs (put_method s m e (with_stubs me (mkStub c (sx_cond x) (sx_todo x) 0 false :: me_stubs me)))
        (upd (s_ctxs s) c (Some (mkSctx (sx_target x) (sx_cond x) (sx_todo x) true)))) tt.
Proof.
  intros s c x m e me L U M. unfold sctx_commit, sctx_unused. unfold sbind at 1.
  rewrite (sbind_ok _ _ _ _ _ _ _ (sget_live _ _ _ _ _ L)), U. unfold sret.
  assert (Q : smention E (sx_target x) s = SOk s (m, e)).
  { pose proof (smention_spec _ _ _ _ _ _ (s_ctxs s) M) as Q. destruct s; exact Q. }
  rewrite (sbind_ok _ _ _ _ _ _ _ Q). cbn beta iota.
  pose proof (mentioned_at _ _ _ _ _ _ M) as ME.
  rewrite (sbind_ok _ _ _ _ _ _ _ (smethod_at _ _ _ _ ME)).
  rewrite (sbind_ok _ _ _ _ _ _ _ (sset_method_at _ _ _ _ _ ME)).
  unfold sput_ctx, smodify. f_equal. unfold with_stubs. unfold put_method. destruct (live (s_mocks s) m); reflexivity.
Qed.

(** Mentioning a method a second time changes nothing. *)
Lemma mentioned_again : forall s t m e me s', mentioned E s t m e me s' -> mentioned E s' t m e me s'.
Proof.
  intros s t m e me s' M. pose proof (mentioned_at _ _ _ _ _ _ M) as ME.
  destruct M as (r & D & H). exists r. split; [|now left].
  destruct H as [[_ ->]|(_ & _ & _ & _ & ->)]; auto.
  destruct D as (k & d & TM & K & DD & L & T). unfold put_method. cbn. rewrite K.
  exists (mkSmock (sk_class k) (sk_obj k) (sk_owner k) (sk_fill k) (upd (sk_meths k) e (Some me))), d.
  cbn. rewrite live_upd_in by (eapply live_lt; eauto). rewrite upd_length. repeat split; auto.
Qed.

Lemma mentioned_set_ctxs : forall s t m e me l, mentioned E s t m e me s -> method_at s m e = Some me ->
  mentioned E (sset_ctxs s l) t m e me (sset_ctxs s l).
Proof.
  intros s t m e me l (r & D & _) ME. exists r. split; [|now left].
  eapply designates_more; [|exact D]. reflexivity.
Qed.

Lemma put_set_ctxs : forall s m e me l, put_method (sset_ctxs s l) m e me = sset_ctxs (put_method s m e me) l.
Proof. intros. unfold put_method. cbn. now destruct (live (s_mocks s) m). Qed.

(** Statements on one method expression. *)
Lemma one_ctx_stmt : forall f s t im m e me s1 st s2 v, mentioned E s t m e me s1 ->
  (forall x, x = mkSctx t (match im with Some i => i | None => IMDefault end) [] false ->
     exists y, srun_stmt E st [length (s_ctxs s)] (sset_ctxs s1 (s_ctxs s ++ [Some x])) =
               sanswer (sset_ctxs s2 (s_ctxs s ++ [Some y])) v) ->
  sexec E (S f) (OStmt [(t, im)] st) s = sanswer (sset_ctxs s2 (s_ctxs s ++ [None])) v.
Proof.
  intros f s t im m e me s1 st s2 v M H. cbn [sexec sstep swith_ctxs].
  assert (Q : sattempt (sctx_of E t im) s = SOk (sset_ctxs s1 (s_ctxs s ++ [Some (mkSctx t (match im with Some i => i | None => IMDefault end) [] false)])) (inl (length (s_ctxs s)))).
  { unfold sattempt. now rewrite (sctx_of_spec _ _ _ _ _ _ _ M). }
  rewrite (sbind_ok _ _ _ _ _ _ _ Q). cbn [swith_ctxs rev app].
  destruct (H _ eq_refl) as (y & HY). unfold sguarded.
  rewrite (sbind_ok _ _ _ _ _ _ _ (sattempt_answer _ _ _ _ HY)). cbn [sfree_ctxs].
  assert (FR : (let? _ := sctx_free (length (s_ctxs s)) in sret tt) (sset_ctxs s2 (s_ctxs s ++ [Some y])) = SOk (sset_ctxs s2 (s_ctxs s ++ [None])) tt).
  { unfold sctx_free, sbind. 
    assert (LL : live (s_ctxs (sset_ctxs s2 (s_ctxs s ++ [Some y]))) (length (s_ctxs s)) = Some y).
    { cbn. rewrite live_app, Nat.eqb_refl. reflexivity. }
    rewrite (sget_live _ _ _ _ _ LL). cbn. rewrite upd_app_last. reflexivity. }
  rewrite (sbind_ok _ _ _ _ _ _ _ FR). destruct v; reflexivity.
Qed.

Lemma commit_new : forall s1 n l t im todo m e me, mentioned E s1 t m e me s1 -> n = length l ->
  sctx_commit E n (sset_ctxs s1 (l ++ [Some (mkSctx t im todo false)])) =
  SOk (sset_ctxs (stubbed s1 m e me (mkStub n im todo 0 false)) (l ++ [Some (mkSctx t im todo true)])) tt.
Proof.
  intros s1 n l t im todo m e me M ->.
  pose proof (mentioned_at _ _ _ _ _ _ M) as ME.
  erewrite (sctx_commit_spec _ _ (mkSctx t im todo false) m e me).
  - cbn. rewrite upd_app_last. unfold stubbed. rewrite put_set_ctxs. reflexivity.
  - cbn. now rewrite live_app, Nat.eqb_refl.
  - reflexivity.
  - cbn. now apply mentioned_set_ctxs.
Qed.

(** When(Method(mock, f)[condition]).actions; *)
Lemma stmt_when : forall f s t im rs m e me s1, mentioned E s t m e me s1 -> s_uncaught s = 0 ->
  sexec E (S f) (OStmt [(t, im)] (SWhen rs None)) s =
  SOk (sset_ctxs (stubbed s1 m e me (new_stub s im (map action_of rs))) (s_ctxs s ++ [None])) VVoid.
Proof.
  intros f s t im rs m e me s1 M U.
  change (SOk ?a VVoid) with (sanswer a (inl VVoid)). eapply one_ctx_stmt; [exact M|].
  intros x ->. cbn [srun_stmt sdo_when]. eexists.
  pose proof (mentioned_ctxs _ _ _ _ _ _ M) as (_ & U1 & _ & _).
  unfold sbind at 1. unfold sdo_when.
  erewrite (sbind_ok _ _ (sappend_all _ _)); [|eapply sappend_all_spec; [cbn; rewrite live_app, Nat.eqb_refl; reflexivity|reflexivity]].
  unfold sbind at 1, sgets. cbn [s_uncaught sset_ctxs s_ctxs]. rewrite U1, U. cbn [Nat.eqb].
  rewrite upd_app_last. cbn [sx_target sx_cond sx_todo app].
  change (sset_ctxs (sset_ctxs s1 ?a) ?b) with (sset_ctxs s1 b).
  rewrite (commit_new s1 (length (s_ctxs s)) _ _ _ _ _ _ _ (mentioned_again _ _ _ _ _ _ M) eq_refl). reflexivity.
Qed.

(** Interrupted: nothing is committed. *)
Lemma stmt_when_interrupted : forall f s t im rs n x m e me s1, mentioned E s t m e me s1 ->
  sexec E (S f) (OStmt [(t, im)] (SWhen rs (Some (n, x)))) s = SExn (sset_ctxs s1 (s_ctxs s ++ [None])) x.
Proof.
  intros f s t im rs n x m e me s1 M.
  change (SExn ?a x) with (sanswer a (inr x)). eapply one_ctx_stmt; [exact M|].
  intros y ->. cbn [srun_stmt sdo_when]. eexists.
  unfold sbind at 1. unfold sdo_when.
  erewrite (sbind_ok _ _ (sappend_all _ _)); [|eapply sappend_all_spec; [cbn; rewrite live_app, Nat.eqb_refl; reflexivity|reflexivity]].
  unfold sthrow. cbn [s_ctxs sset_ctxs]. rewrite upd_app_last. reflexivity.
Qed.

(** In code that runs while an exception propagates. *)
Lemma stmt_when_unwinding : forall f s t im rs m e me s1, mentioned E s t m e me s1 -> s_uncaught s <> 0 ->
  sexec E (S f) (OStmt [(t, im)] (SWhen rs None)) s = SOk (sset_ctxs s1 (s_ctxs s ++ [None])) VVoid.
Proof.
  intros f s t im rs m e me s1 M U.
  change (SOk ?a VVoid) with (sanswer a (inl VVoid)). eapply one_ctx_stmt; [exact M|].
  intros y ->. cbn [srun_stmt sdo_when]. eexists.
  pose proof (mentioned_ctxs _ _ _ _ _ _ M) as (_ & U1 & _ & _).
  unfold sbind at 1. unfold sdo_when.
  erewrite (sbind_ok _ _ (sappend_all _ _)); [|eapply sappend_all_spec; [cbn; rewrite live_app, Nat.eqb_refl; reflexivity|reflexivity]].
  unfold sbind at 1, sgets. cbn [s_uncaught sset_ctxs s_ctxs]. rewrite U1.
  destruct (Nat.eqb_spec (s_uncaught s) 0); [congruence|]. unfold sret. rewrite upd_app_last. reflexivity.
Qed.

Lemma append_new : forall s1 n l t im todo a, n = length l ->
  sctx_append n a (sset_ctxs s1 (l ++ [Some (mkSctx t im todo false)])) =
  SOk (sset_ctxs s1 (l ++ [Some (mkSctx t im (todo ++ [a]) false)])) tt.
Proof.
  intros s1 n l t im todo a ->. unfold sctx_append, sctx_unused, sbind.
  assert (LL : live (s_ctxs (sset_ctxs s1 (l ++ [Some (mkSctx t im todo false)]))) (length l) = Some (mkSctx t im todo false)).
  { cbn. now rewrite live_app, Nat.eqb_refl. }
  rewrite (sget_live _ _ _ _ _ LL). unfold sret, sput_ctx, smodify. cbn [sx_committed sx_target sx_cond sx_todo s_ctxs sset_ctxs]. rewrite upd_app_last. reflexivity.
Qed.

(** Method(mock, f)[condition] = function; *)
Lemma stmt_assign : forall f s t im g m e me s1, mentioned E s t m e me s1 ->
  sexec E (S f) (OStmt [(t, im)] (SAssign g)) s =
  SOk (sset_ctxs (stubbed s1 m e me (new_stub s im [AForever g])) (s_ctxs s ++ [None])) VVoid.
Proof.
  intros f s t im g m e me s1 M.
  change (SOk ?a VVoid) with (sanswer a (inl VVoid)). eapply one_ctx_stmt; [exact M|].
  intros y ->. cbn [srun_stmt]. eexists. unfold sdo_assign. unfold sbind at 1.
  rewrite (sbind_ok _ _ _ _ _ _ _ (append_new _ _ _ _ _ _ _ eq_refl)). cbn [app].
  rewrite (commit_new s1 (length (s_ctxs s)) _ _ _ _ _ _ _ (mentioned_again _ _ _ _ _ _ M) eq_refl). reflexivity.
Qed.

(** Fake(Method(mock, f)); *)
Lemma stmt_fake : forall f s t im m e me s1, mentioned E s t m e me s1 ->
  sexec E (S f) (OStmt [(t, im)] SFake) s =
  SOk (sset_ctxs (stubbed s1 m e me (new_stub s im [ADefault])) (s_ctxs s ++ [None])) VVoid.
Proof.
  intros f s t im m e me s1 M.
  change (SOk ?a VVoid) with (sanswer a (inl VVoid)). eapply one_ctx_stmt; [exact M|].
  intros y ->. cbn [srun_stmt seach]. eexists. unfold sdo_fake. unfold sbind at 1. unfold sbind at 1.
  rewrite (sbind_ok _ _ _ _ _ _ _ (append_new _ _ _ _ _ _ _ eq_refl)). cbn [app].
  rewrite (commit_new s1 (length (s_ctxs s)) _ _ _ _ _ _ _ (mentioned_again _ _ _ _ _ _ M) eq_refl). reflexivity.
Qed.

(** Spy(Method(mock, f)); *)
Lemma stmt_spy : forall f s slot c im fw m me s1 k, mentioned E s (TMethod m slot c) m slot me s1 ->
  live (s_mocks s) m = Some k ->
  sexec E (S f) (OStmt [(TMethod m slot c, im)] (SSpy fw)) s =
  SOk (sset_ctxs (stubbed s1 m slot me (new_stub s im [ADelegate (FOrig m (sk_obj k) slot fw)])) (s_ctxs s ++ [None])) VVoid.
Proof.
  intros f s slot c im fw m me s1 k M K.
  change (SOk ?a VVoid) with (sanswer a (inl VVoid)). eapply one_ctx_stmt; [exact M|].
  intros y ->. cbn [srun_stmt seach]. eexists. unfold sdo_spy. unfold sbind at 1. unfold sbind at 1.
  unfold sctx_unused. unfold sbind at 1.
  assert (LL : forall z, live (s_ctxs (sset_ctxs s1 (s_ctxs s ++ [Some z]))) (length (s_ctxs s)) = Some z).
  { intro. cbn. now rewrite live_app, Nat.eqb_refl. }
  rewrite (sbind_ok _ _ _ _ _ _ _ (sget_live _ _ _ _ _ (LL _))). cbn [sx_committed]. unfold sret at 1.
  cbn [sx_target].
  assert (K1 : exists k1, live (s_mocks s1) m = Some k1 /\ sk_obj k1 = sk_obj k).
  { destruct M as (r & D & [[_ ->]|(_ & _ & _ & _ & ->)]); [eauto|]. unfold put_method. cbn. rewrite K. cbn.
    rewrite live_upd_in by (eapply live_lt; eauto). eexists; split; [reflexivity|reflexivity]. }
  destruct K1 as (k1 & K1 & OB).
  assert (K1' : live (s_mocks (sset_ctxs s1 (s_ctxs s ++ [Some (mkSctx (TMethod m slot c) (match im with Some i => i | None => IMDefault end) [] false)]))) m = Some k1) by exact K1.
  unfold sbind at 1. rewrite (sbind_ok _ _ _ _ _ _ _ (sget_live _ _ _ _ _ K1')). unfold sret at 1. rewrite OB.
  rewrite (sbind_ok _ _ _ _ _ _ _ (append_new _ _ _ _ _ _ _ eq_refl)). cbn [app].
  rewrite (commit_new s1 (length (s_ctxs s)) _ _ _ _ _ _ _ (mentioned_again _ _ _ _ _ _ M) eq_refl). reflexivity.
Qed.

End S.
