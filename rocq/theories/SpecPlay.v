(** Stubbing chains in whole programs: the facts behind P_Play.v. *)
From Coq Require Import Bool ZArith Lia List Permutation.
From Verif Require Import Base CInt Values ArgMatchers InvMatchers ActionSeq Spec_Actions Sequences MatchAnalysis
  Proxy Events Expectation ReturnSet Syntax World Spec_World WorldRel WorldSimA WorldSimB WorldSimE WorldSim
  Spec_View SpecFacts SpecKept SpecCalls SpecLasting Spec_Play.
From Verif Require Import Spec_Conditions ConditionProofs.
Import ListNotations.
Open Scope nat_scope.

(** ** Positions in a chain *)

Definition plan_of (a : action callable) : callable * option Z :=
  match a with
  | ARepeat f n => (f, Some n)
  | AForever f => (f, None)
  | ADelegate f => (f, None)
  | _ => (FDefault, None)
  end.
Definition wellcounted (a : action callable) : Prop :=
  match a with ARepeat _ n => (1 <= n)%Z | AForever _ => True | _ => False end.

Lemma plan_meant : forall rs : list (recorded callable), map plan_of (map action_of rs) = map meant rs.
Proof. intros. rewrite map_map. apply map_ext. now intros []. Qed.

Lemma played_plan : forall st (j : Z), (0 <= j)%Z -> Forall wellcounted (st_todo st) ->
  nth_answer (map plan_of (st_todo (played st))) j = nth_answer (map plan_of (st_todo st)) (j + 1) /\
  Forall wellcounted (st_todo (played st)) /\ st_cond (played st) = st_cond st /\ st_busy (played st) = st_busy st.
Proof.
  intros [no c todo u b] j J F. unfold played. cbn [st_todo st_cond st_busy] in *.
  destruct todo as [|a rest]; [cbn; auto|]. inversion F as [|? ? W F']; subst. cbn [st_todo st_cond st_busy].
  destruct a as [g n|g| |g|]; cbn in W; try contradiction; cbn [left_of app].
  - destruct (Z.eqb_spec n 1) as [->|N1]; cbn [app map plan_of nth_answer].
    + split; [|auto]. destruct (Z.ltb_spec (j + 1) 1); [lia|]. f_equal. lia.
    + split; [|split; auto; constructor; auto; cbn; lia].
      destruct (Z.ltb_spec j (n - 1)), (Z.ltb_spec (j + 1) n); try lia; auto.
      f_equal. lia.
  - split; auto. 
Qed.

Lemma times_played_plan : forall k st, Forall wellcounted (st_todo st) ->
  (forall j, (0 <= j)%Z -> nth_answer (map plan_of (st_todo (times_played k st))) j = nth_answer (map plan_of (st_todo st)) (j + Z.of_nat k)) /\
  Forall wellcounted (st_todo (times_played k st)) /\ st_cond (times_played k st) = st_cond st /\
  st_busy (times_played k st) = st_busy st.
Proof.
  induction k as [|k IH]; intros st F; cbn [times_played].
  - split; auto. intros j J. f_equal. lia.
  - destruct (IH st F) as (A & B & C & D).
    destruct (played_plan (times_played k st) 0 ltac:(lia) B) as (_ & B' & C' & D').
    split; [|split; [exact B'|split; congruence]]. intros j J.
    destruct (played_plan (times_played k st) j J B) as (P & _). rewrite P, A by lia. f_equal. lia.
Qed.

Lemma head_plan : forall todo, Forall wellcounted todo ->
  match todo with
  | [] => nth_answer (map plan_of todo) 0 = None
  | a :: _ => exists g, nth_answer (map plan_of todo) 0 = Some g /\
      forall E mm r args, plain_action E mm r a args = plain_callable E mm r g args
  end.
Proof.
  intros [|a rest] F; [reflexivity|]. inversion F as [|? ? W _]; subst.
  destruct a as [g n|g| |g|]; cbn in W; try contradiction; exists g; cbn.
  - destruct (Z.ltb_spec 0 n); [|lia]. split; auto. intros. destruct (Z.leb_spec 1 n); [reflexivity|lia].
  - auto.
Qed.

(** The position after [k] calls. *)
Lemma position : forall (rs : list (recorded callable)) k st,
  Forall (fun r => match r with RecTimes _ q => (1 <= q)%Z | _ => True end) rs ->
  st_todo st = map action_of rs ->
  match st_todo (times_played k st) with
  | [] => nth_answer (map meant rs) (Z.of_nat k) = None
  | a :: _ => exists g, nth_answer (map meant rs) (Z.of_nat k) = Some g /\
      forall E mm r args, plain_action E mm r a args = plain_callable E mm r g args
  end.
Proof.
  intros rs k st F T.
  assert (W : Forall wellcounted (st_todo st)).
  { rewrite T. apply Forall_map. revert F. apply Forall_impl. intros [f|f q|f]; cbn; auto. lia. }
  destruct (times_played_plan k st W) as (A & B & _). pose proof (head_plan _ B) as H.
  specialize (A 0%Z ltac:(lia)). rewrite Z.add_0_l in A. rewrite T, plan_meant in A.
  destruct (st_todo (times_played k st)) as [|a l]; rewrite A in H; exact H.
Qed.

Section S.
Variable E : env.
Hypothesis iter_perm : iterates E.
Local Notation leads := (leads E).

Lemma memory_leads : forall f m0 os s rs o mm v, leads (S f) m0 os s rs -> memory_step (s_mem s) o mm v ->
  leads (S f) m0 (os ++ [o]) (sset_mem s mm) (rs ++ [inl v]).
Proof.
  intros f m0 os s rs o mm v L H. eapply (leads_step E iter_perm); eauto.
  inversion H as [a w LD|a w mm' SR|w|a w LD]; subst; cbn -[load store]; unfold sgets, sbind; cbn -[load store];
    rewrite ?LD, ?SR; try reflexivity. destruct s; reflexivity.
Qed.

Lemma story_leads : forall f m0 ds os s rs s', leads (S f) m0 os s rs -> story E s ds s' ->
  leads (S f) m0 (os ++ map dd_op ds) s' (rs ++ map dd_result ds).
Proof.
  intros f m0 ds os s rs s' L H. revert os rs L.
  induction H as [s|s m e o s1 r fd ds s2 P ST IH|s o mm v ds s2 P ST IH]; intros os rs L; cbn [map dd_op dd_result].
  - now rewrite !app_nil_r.
  - replace (os ++ o :: map dd_op ds) with ((os ++ [o]) ++ map dd_op ds) by now rewrite <- app_assoc.
    replace (rs ++ r :: map dd_result ds) with ((rs ++ [r]) ++ map dd_result ds) by now rewrite <- app_assoc.
    apply IH. eapply step_leads; eauto.
  - replace (os ++ o :: map dd_op ds) with ((os ++ [o]) ++ map dd_op ds) by now rewrite <- app_assoc.
    replace (rs ++ inl v :: map dd_result ds) with ((rs ++ [inl v]) ++ map dd_result ds) by now rewrite <- app_assoc.
    apply IH. eapply memory_leads; eauto.
Qed.

(** Steps about other methods and about this one do not change the adapter. *)
Lemma step_fctx : forall s m e o s' r fd, plain_step E s m e o s' r fd -> s_fctx s' = s_fctx s.
Proof.
  assert (ST : forall s t m e me s1 st, mentioned E s t m e me s1 ->
    s_fctx (one_expression (stubbed s1 m e me st)) = s_fctx s).
  { intros s t m e me s1 st (r & D & [[_ ->]|(_ & _ & _ & _ & ->)]); unfold stubbed; cbn; rewrite ?s_fctx_put; reflexivity. }
  intros s m e o s' r fd P. destruct P; eauto; cbn; rewrite ?s_fctx_put; reflexivity.
Qed.

(** The newest stubbing is [st0] played [k] times, and there are [older] ones below. *)
Definition at_position (s : sworld) (m e : nat) (no : nat) (rt : rett) (st0 : stub) (k : nat) (older : list stub) : Prop :=
  exists me, method_at s m e = Some me /\ me_no me = no /\ me_ret me = rt /\ me_stubs me = times_played k st0 :: older.

Lemma newest_head : forall s me args newer st older st' older', newest s me args newer st older ->
  me_stubs me = st' :: older' -> accepts s args st' -> newer = [] /\ st = st' /\ older = older'.
Proof.
  intros s me args newer st older st' older' (ST & RJ & AC) ST' AC'. rewrite ST in ST'.
  destruct newer as [|x newer]; cbn in ST'.
  - inversion ST'; auto.
  - inversion ST'; subst. inversion RJ as [|? ? RX _]; subst. now destruct (satisfied_not _ _ _ AC').
Qed.

Lemma own_call : forall s m e o s' r fd no rt st0 k older rs im,
  plain_step E s m e o s' r fd -> at_position s m e no rt st0 k older ->
  Forall (fun x => match x with RecTimes _ q => (1 <= q)%Z | _ => True end) rs ->
  st_todo st0 = map action_of rs -> st_cond st0 = cond_of im -> accepted_call im o ->
  (exists k', at_position s' m e no rt st0 k' older /\
     match nth_answer (map meant rs) (Z.of_nat k) with Some _ => k' = S k | None => k' = k end) /\
  match nth_answer (map meant rs) (Z.of_nat k) with
  | Some g => forall x, says E rt g o x -> r = x
  | None => complains E s no o r
  end.
Proof.
  intros s m e o s' r fd no rt st0 k older rs im P (me0 & M0 & NO & RT & SB) CN TD CO (obj & slot & args & -> & AC).
  pose proof (position rs k st0 CN TD) as PO.
  assert (WC : Forall wellcounted (st_todo st0)).
  { rewrite TD. apply Forall_map. revert CN. apply Forall_impl. intros [f|f q|f]; cbn; auto. lia. }
  destruct (times_played_plan k st0 WC) as (_ & _ & CK & _).
  assert (ACC : forall z, accepts z args (times_played k st0)) by (intro z; unfold accepts; rewrite CK, CO; apply AC).
  inversion P; subst.
  - match goal with H : reaches _ _ _ _ _ _ _ |- _ => pose proof (reaches_at _ _ _ _ _ _ _ H) as ME end.
    rewrite M0 in ME. inversion ME; subst me0.
    match goal with H : newest _ _ _ _ _ _ |- _ => destruct (newest_head _ _ _ _ _ _ _ _ H SB (ACC s)) as (-> & -> & ->) end.
    match goal with H : st_todo (times_played k st0) = _ |- _ => rewrite H in PO end. destruct PO as (g & NA & PA). rewrite NA. split.
    + exists (S k). split; [|reflexivity]. eexists. split.
      * unfold after_answer. change (method_at (sset_mem ?a ?b)) with (method_at a). eapply method_put. exact M0.
      * cbn. auto.
    + intros x (obj' & slot' & args'' & EQ & SY). inversion EQ; subst. destruct (SY (s_mem s)) as (mm' & ar & PC).
      match goal with H : plain_action _ _ _ _ _ = Some _ |- _ => rewrite PA, PC in H; inversion H end. reflexivity.
  - match goal with H : exhausted _ _ _ _ _ _ _ _ _ |- _ => destruct H as (RE & _ & _ & TE & nw & ol & NW) end.
    pose proof (reaches_at _ _ _ _ _ _ _ RE) as ME. rewrite M0 in ME. inversion ME; subst me0.
    destruct (newest_head _ _ _ _ _ _ _ _ NW SB (ACC s)) as (-> & -> & ->). rewrite TE in PO. rewrite PO. split.
    + exists k. split; [|reflexivity]. eexists. split.
      * change (method_at (notified E ?a ?b)) with (method_at a). eapply method_put. exact M0.
      * cbn. auto.
    + exists obj, slot, args. split; reflexivity.
  - match goal with H : unmatched _ _ _ _ _ _ _ _ |- _ => destruct H as (RE & _ & RJ) end.
    pose proof (reaches_at _ _ _ _ _ _ _ RE) as ME. rewrite M0 in ME. inversion ME; subst me0.
    rewrite SB in RJ. inversion RJ as [|? ? RX _]; subst. specialize (ACC s). now destruct (satisfied_not _ _ _ ACC).
Qed.

Lemma says_none : forall (p : plan callable) (k : Z), Forall (fun x => match snd x with Some n => (1 <= n)%Z | None => True end) p ->
  (0 <= k)%Z -> nth_answer p k = None -> forall j, (k <= j)%Z -> nth_answer p j = None.
Proof.
  induction p as [|[g [n|]] p IH]; cbn; intros k F K H j J; auto.
  inversion F as [|? ? N F']; subst. cbn in N.
  destruct (Z.ltb_spec k n); [discriminate|]. destruct (Z.ltb_spec j n); [lia|].
  eapply (IH (k - Z.max 0 n)%Z); eauto; lia.
Qed.

(** After the When statement. *)
Lemma chain : forall ds s s' m e no rt st0 k0 i0 older rs im,
  story E s ds s' -> at_position s m e no rt st0 k0 older ->
  Forall (fun x => match x with RecTimes _ q => (1 <= q)%Z | _ => True end) rs ->
  st_todo st0 = map action_of rs -> st_cond st0 = cond_of im ->
  k0 <= i0 -> (k0 < i0 -> nth_answer (map meant rs) (Z.of_nat k0) = None) ->
  Forall (fun d => accepted_call im (dd_op d)) (concerning m e ds) ->
  forall i d, nth_error (concerning m e ds) i = Some d ->
  match nth_answer (map meant rs) (Z.of_nat (i0 + i)) with
  | Some g => forall x, says E rt g (dd_op d) x -> dd_result d = x
  | None => complains E s no (dd_op d) (dd_result d)
  end.
Proof.
  intros ds s s' m e no rt st0 k0 i0 older rs im ST. revert k0 i0.
  induction ST as [s|s m1 e1 o s1 r fd ds s2 P ST IH|s o mm v ds s2 P ST IH]; intros k0 i0 AT CN TD CO KI KN F i d NE;
    [now destruct i| |exact (IH k0 i0 AT CN TD CO KI KN F i d NE)].
  assert (MB : Forall (fun x : callable * option Z => match snd x with Some n => (1 <= n)%Z | None => True end) (map meant rs)).
  { apply Forall_map. revert CN. apply Forall_impl. intros [g|g q|g]; cbn; auto. lia. }
  assert (FC : forall d x, complains E s1 no d x -> complains E s no d x).
  { intros d' x (a & b & c & Q1 & Q2). exists a, b, c. split; auto. rewrite Q2. unfold complaint, adapter.
    now rewrite (step_fctx _ _ _ _ _ _ _ P). }
  cbn [concerning filter] in NE, F. cbn [dd_about] in NE, F.
  destruct (Nat.eqb_spec m1 m) as [->|N]; [destruct (Nat.eqb_spec e1 e) as [->|N]|]; cbn [andb] in NE, F.
  - inversion F as [|? ? AC F']; subst. cbn [dd_op] in AC.
    destruct (own_call _ _ _ _ _ _ _ _ _ _ _ _ _ _ P AT CN TD CO AC) as ((k' & AT' & KQ) & RS).
    assert (SAME : nth_answer (map meant rs) (Z.of_nat i0) = nth_answer (map meant rs) (Z.of_nat k0)).
    { destruct (Nat.eq_dec k0 i0) as [->|NQ]; auto. rewrite (KN ltac:(lia)).
      apply (says_none _ (Z.of_nat k0) MB); [lia|apply KN; lia|lia]. }
    destruct i as [|i].
    + cbn in NE. inversion NE; subst d. cbn [dd_op dd_result]. rewrite Nat.add_0_r, SAME. exact RS.
    + cbn in NE. specialize (IH k' (S i0) AT' CN TD CO).
      rewrite Nat.add_succ_r, <- Nat.add_succ_l.
      assert (G : match nth_answer (map meant rs) (Z.of_nat (S i0 + i)) with
                  | Some g => forall x, says E rt g (dd_op d) x -> dd_result d = x
                  | None => complains E s1 no (dd_op d) (dd_result d)
                  end).
      { apply IH; auto.
        - destruct (nth_answer (map meant rs) (Z.of_nat k0)); lia.
        - intro LT. destruct (Nat.eq_dec k0 i0) as [EQ|NQ].
          + destruct (nth_answer (map meant rs) (Z.of_nat k0)) eqn:NA; [lia|]. now rewrite KQ.
          + rewrite (KN ltac:(lia)) in KQ. rewrite KQ. apply KN. lia. }
      destruct (nth_answer (map meant rs) (Z.of_nat (S i0 + i))); auto.
  - assert (G : match nth_answer (map meant rs) (Z.of_nat (i0 + i)) with
                | Some g => forall x, says E rt g (dd_op d) x -> dd_result d = x
                | None => complains E s1 no (dd_op d) (dd_result d)
                end).
    { apply (IH k0 i0); auto. destruct AT as (me & M & H). exists me.
      destruct (step_other E _ _ _ _ _ _ _ m e P) as (Q & _); [congruence|]. rewrite Q. auto. }
    destruct (nth_answer (map meant rs) (Z.of_nat (i0 + i))); auto.
  - assert (G : match nth_answer (map meant rs) (Z.of_nat (i0 + i)) with
                | Some g => forall x, says E rt g (dd_op d) x -> dd_result d = x
                | None => complains E s1 no (dd_op d) (dd_result d)
                end).
    { apply (IH k0 i0); auto. destruct AT as (me & M & H). exists me.
      destruct (step_other E _ _ _ _ _ _ _ m e P) as (Q & _); [congruence|]. rewrite Q. auto. }
    destruct (nth_answer (map meant rs) (Z.of_nat (i0 + i))); auto.
Qed.

Lemma chain_program : forall f m0 os s rs t im recs m e me s1,
  leads (S f) m0 os s rs -> mentioned E s t m e me s1 -> s_uncaught s = 0 ->
  Forall (fun x => match x with RecTimes _ q => (1 <= q)%Z | _ => True end) recs ->
  exists s2, leads (S f) m0 (os ++ [OStmt [(t, im)] (SWhen recs None)]) s2 (rs ++ [inl VVoid]) /\
  forall ds s3, story E s2 ds s3 -> Forall (fun d => accepted_call im (dd_op d)) (concerning m e ds) ->
  leads (S f) m0 (os ++ OStmt [(t, im)] (SWhen recs None) :: map dd_op ds) s3 (rs ++ inl VVoid :: map dd_result ds) /\
  forall i d, nth_error (concerning m e ds) i = Some d ->
  match nth_answer (map meant recs) (Z.of_nat i) with
  | Some g => forall x, says E (me_ret me) g (dd_op d) x -> dd_result d = x
  | None => complains E s (me_no me) (dd_op d) (dd_result d)
  end.
Proof.
  intros f m0 os s rs t im recs m e me s1 L M U CN.
  pose proof (step_leads E iter_perm _ _ _ _ _ _ _ _ _ _ _ L (PsWhen E s m e t im recs me s1 M U)) as L2.
  set (s2 := one_expression _) in L2. exists s2. split; [exact L2|]. intros ds s3 ST F. split.
  - pose proof (story_leads f m0 ds _ _ _ _ L2 ST) as L3. now rewrite <- !app_assoc in L3.
  - intros i d NE.
    assert (AT : at_position s2 m e (me_no me) (me_ret me) (new_stub s im (map action_of recs)) 0 (me_stubs me)).
    { eexists. split; [|split; [|split]].
      - unfold s2. change (method_at (one_expression ?a)) with (method_at a). unfold stubbed. eapply method_put.
        eapply mentioned_at; eauto.
      - reflexivity.
      - reflexivity.
      - reflexivity. }
    pose proof (chain ds s2 s3 m e _ _ _ 0 0 _ recs im ST AT CN eq_refl eq_refl (le_n _) ltac:(lia) F i d NE) as C.
    cbn [Nat.add] in C. destruct (nth_answer (map meant recs) (Z.of_nat i)); auto.
    destruct C as (a & b & c & Q1 & Q2). exists a, b, c. split; auto. rewrite Q2. unfold complaint, adapter.
    assert (FC : s_fctx s2 = s_fctx s).
    { exact (step_fctx _ _ _ _ _ _ _ (PsWhen E s m e t im recs me s1 M U)). }
    now rewrite FC.
Qed.

End S.
