(** Stubbings without an end (Fake, Spy, assignment, AlwaysReturn, ...): they stay in
    force until something newer takes over.  The facts behind C17, C19 and C21 in
    P_Calls.v. *)
From Coq Require Import Bool ZArith Lia List Permutation.
From Verif Require Import Base CInt Values ArgMatchers InvMatchers ActionSeq Sequences MatchAnalysis
  Proxy Events Expectation ReturnSet Syntax World Spec_World WorldRel WorldSimA WorldSimB WorldSimE WorldSim
  Spec_View SpecFacts SpecKept SpecCalls.
From Verif Require Import Spec_Conditions.
Import ListNotations.
Open Scope nat_scope.

Definition endless (a : action callable) : Prop :=
  match a with AForever _ | ADefault | ADelegate _ => True | _ => False end.

Section S.
Variable E : env.

(** ** Statements about several methods *)
Definition new_ctx (x : target * option imatcher) : option sctx := Some (mkSctx (fst x) (cond_of (snd x)) [] false).

Lemma put_sset_ctxs : forall s m e me l, put_method (sset_ctxs s l) m e me = sset_ctxs (put_method s m e me) l.
Proof. intros. unfold put_method. cbn. now destruct (live (s_mocks s) m). Qed.

Lemma mentioned_sset : forall s t m e me s' l, mentioned E s t m e me s' ->
  mentioned E (sset_ctxs s l) t m e me (sset_ctxs s' l).
Proof.
  intros s t m e me s' l (r & D & H). exists r. split; [eapply designates_more; [|exact D]; reflexivity|].
  destruct H as [[A ->]|(A & B & C & -> & ->)]; [now left|right]. repeat split; auto.
  rewrite <- put_sset_ctxs. reflexivity.
Qed.

Lemma mentioned_all_sset : forall s ts ms s' l, mentioned_all E s ts ms s' ->
  mentioned_all E (sset_ctxs s l) ts ms (sset_ctxs s' l).
Proof. intros s ts ms s' l H. induction H; econstructor; [eapply mentioned_sset; eassumption|eassumption]. Qed.

Lemma with_ctxs_spec : forall body (xs : list (target * option imatcher)) ms s s1 dn,
  mentioned_all E s (map fst xs) ms s1 ->
  swith_ctxs E xs dn body s =
  sguarded (body (rev dn ++ seq (length (s_ctxs s)) (length xs))) (sfree_ctxs (rev (seq (length (s_ctxs s)) (length xs)) ++ dn))
    (sset_ctxs s1 (s_ctxs s ++ map new_ctx xs)).
Proof.
  intros body xs. induction xs as [|[t im] xs IH]; intros ms s s1 dn H.
  - inversion H; subst. cbn [swith_ctxs map seq length app rev]. rewrite !app_nil_r. now destruct s1.
  - inversion H as [|? ? ? m e me s2 ms0 ? MN MA]; subst. cbn [swith_ctxs]. cbn [fst] in *.
    assert (Q : sattempt (sctx_of E t im) s = SOk (sset_ctxs s2 (s_ctxs s ++ [new_ctx (t, im)])) (inl (length (s_ctxs s)))).
    { unfold sattempt. now rewrite (sctx_of_spec _ _ _ _ _ _ _ _ MN). }
    rewrite (sbind_ok _ _ _ _ _ _ _ Q).
    rewrite (IH ms0 _ (sset_ctxs s1 (s_ctxs s ++ [new_ctx (t, im)]))).
    + cbn [s_ctxs sset_ctxs map]. rewrite app_length. cbn [length]. rewrite Nat.add_1_r. cbn [seq rev].
      rewrite <- !app_assoc. reflexivity.
    + now apply mentioned_all_sset.
Qed.

(** *** The loop over the expressions *)
Definition is_at (s : sworld) (t : target) (m e : nat) : Prop :=
  exists me r, designates E s t m e r /\ method_at s m e = Some me.

Lemma designates_put : forall s t m e r m' e' me', designates E s t m e r -> designates E (put_method s m' e' me') t m e r.
Proof.
  intros s t m e r m' e' me' (k & d & TM & K & D & L & T). unfold put_method. destruct (live (s_mocks s) m') as [k'|] eqn:K'.
  - destruct (Nat.eq_dec m' m) as [->|N].
    + rewrite K in K'. inversion K'; subst k'. eexists. exists d. cbn. rewrite live_upd_in by (eapply live_lt; eauto).
      split; auto. split; [reflexivity|]. cbn. rewrite upd_length. auto.
    + exists k, d. cbn. rewrite live_upd_out by auto. auto.
  - exists k, d. auto.
Qed.

Lemma is_at_put : forall s t m e m' e' me' me0, method_at s m' e' = Some me0 -> is_at s t m e -> is_at (put_method s m' e' me') t m e.
Proof.
  intros s t m e m' e' me' me0 M0 (me & r & D & M). exists (if (m' =? m) && (e' =? e) then me' else me), r.
  split; [now apply designates_put|]. destruct (Nat.eqb_spec m' m) as [->|N]; [destruct (Nat.eqb_spec e' e) as [->|N]|]; cbn.
  - eapply method_put; eauto.
  - rewrite method_put_other; auto. congruence.
  - rewrite method_put_other; auto. congruence.
Qed.

Lemma is_at_ctxs : forall s t m e l, is_at s t m e -> is_at (sset_ctxs s l) t m e.
Proof. intros s t m e l (me & r & D & M). exists me, r. split; [|exact M]. eapply designates_more; [|exact D]. reflexivity. Qed.

Lemma is_at_mentioned : forall s t m e, is_at s t m e -> exists me, method_at s m e = Some me /\ mentioned E s t m e me s.
Proof. intros s t m e (me & r & D & M). exists me. split; auto. exists r. split; auto. Qed.

Lemma installed_other : forall s m e im a m' e' me', installed s m e im a -> (m', e') <> (m, e) ->
  installed (put_method s m' e' me') m e im a.
Proof.
  intros s m e im a m' e' me' (me & st & older & M & H) N. exists me, st, older. split; auto.
  rewrite method_put_other; auto.
Qed.

Variable fn : nat -> SM unit.
Variable act : nat * nat -> action callable.
Variable J : sworld -> Prop.
Variable T : target -> Prop.
Hypothesis J_put : forall s m e me, J s -> J (put_method s m e me).
Hypothesis J_ctxs : forall s l, J s -> J (sset_ctxs s l).
(** [fn] appends the action and uses the expression. *)
Hypothesis fn_spec : forall s c t im m e, T t -> J s -> is_at s t m e -> live (s_ctxs s) c = Some (mkSctx t im [] false) ->
  fn c s = (let? _ := sctx_append c (act (m, e)) in sctx_commit E c) s.

Definition done_ctx (x : (target * option imatcher) * (nat * nat)) : option sctx :=
  Some (mkSctx (fst (fst x)) (cond_of (snd (fst x))) [act (snd x)] true).

Lemma live_mid : forall A (l1 : list (option A)) x l2, live (l1 ++ x :: l2) (length l1) = x.
Proof. intros. unfold live. rewrite nth_error_app2, Nat.sub_diag by lia. reflexivity. Qed.

Lemma upd_mid : forall A (l1 : list A) x l2 y, upd (l1 ++ x :: l2) (length l1) y = l1 ++ y :: l2.
Proof. intros A l1. induction l1; intros; cbn; auto. now rewrite IHl1. Qed.

Lemma each_installs : forall xs ms s pre, Forall2 (fun x p => is_at s (fst x) (fst p) (snd p)) xs ms -> NoDup ms -> J s -> Forall (fun x => T (fst x)) xs ->
  s_ctxs s = pre ++ map new_ctx xs ->
  exists s', seach fn (seq (length pre) (length xs)) s = SOk s' tt /\
    s_ctxs s' = pre ++ map done_ctx (combine xs ms) /\ J s' /\
    Forall2 (fun x p => installed s' (fst p) (snd p) (cond_of (snd x)) (act p)) xs ms /\
    (forall m e, ~ In (m, e) ms -> method_at s' m e = method_at s m e) /\
    (forall t m e, is_at s t m e -> is_at s' t m e).
Proof.
  induction xs as [|[t im] xs IH]; intros ms s pre F ND HJ HT C; inversion F as [|? [m e] ? ms' A F']; subst.
  - exists s. cbn in *. repeat split; auto.
  - cbn [fst snd] in *. cbn [length seq seach].
    inversion ND as [|? ? NI ND']; subst. inversion HT as [|? ? T0 HT']; subst. cbn in T0.
    assert (LV : live (s_ctxs s) (length pre) = Some (mkSctx t (cond_of im) [] false)) by (rewrite C; apply live_mid).
    destruct (is_at_mentioned _ _ _ _ A) as (me & ME & MN).
    set (s1 := sset_ctxs s (pre ++ Some (mkSctx t (cond_of im) [act (m, e)] false) :: map new_ctx xs)).
    assert (A1 : sctx_append (length pre) (act (m, e)) s = SOk s1 tt).
    { unfold sctx_append, sctx_unused, sbind. rewrite (sget_live _ _ _ _ _ LV). cbn. unfold sput_ctx, smodify.
      unfold s1. rewrite C. cbn [map new_ctx fst snd]. rewrite upd_mid. reflexivity. }
    set (s2 := sset_ctxs (put_method s1 m e (with_stubs me (mkStub (length pre) (cond_of im) [act (m, e)] 0 false :: me_stubs me)))
                 (pre ++ done_ctx ((t, im), (m, e)) :: map new_ctx xs)).
    assert (A2 : sctx_commit E (length pre) s1 = SOk s2 tt).
    { assert (LV1 : live (s_ctxs s1) (length pre) = Some (mkSctx t (cond_of im) [act (m, e)] false)) by (unfold s1; cbn; apply live_mid).
      erewrite sctx_commit_spec; [|exact LV1|reflexivity|cbn; apply mentioned_sset; exact MN].
      unfold s2. f_equal. f_equal. unfold s1. cbn. rewrite upd_mid. reflexivity. }
    assert (FN : fn (length pre) s = SOk s2 tt).
    { rewrite (fn_spec s (length pre) t (cond_of im) m e T0 HJ A LV), (sbind_ok _ _ _ _ _ _ _ A1). exact A2. }
    rewrite (sbind_ok _ _ _ _ _ _ _ FN).
    assert (ME1 : method_at s1 m e = Some me) by exact ME.
    assert (KA : forall t' m' e', is_at s t' m' e' -> is_at s2 t' m' e').
    { intros t' m' e' H. unfold s2. apply is_at_ctxs. eapply is_at_put; [exact ME1|]. unfold s1. now apply is_at_ctxs. }
    destruct (IH ms' s2 (pre ++ [done_ctx ((t, im), (m, e))])) as (s' & Q & C' & J' & IN & OT & AT').
    + clear - F' KA. revert KA. generalize s2. intros z KA. induction F' as [|x p l l' H F IH]; constructor; auto.
    + exact ND'.
    + unfold s2. apply J_ctxs, J_put. unfold s1. now apply J_ctxs.
    + exact HT'.
    + unfold s2. cbn. now rewrite <- app_assoc.
    + rewrite app_length in Q. cbn [length] in Q. rewrite Nat.add_1_r in Q. exists s'.
      split; auto. split; [rewrite C', <- app_assoc; reflexivity|]. split; auto. split; [|split].
      * constructor; auto. cbn [fst snd].
        exists (with_stubs me (mkStub (length pre) (cond_of im) [act (m, e)] 0 false :: me_stubs me)).
        eexists. eexists. split; [|split; [reflexivity|cbn; auto]].
        rewrite OT by exact NI. unfold s2. change (method_at (sset_ctxs ?a ?b)) with (method_at a). eapply method_put. exact ME1.
      * intros m' e' NI'. rewrite OT by (intro; apply NI'; now right). unfold s2.
        change (method_at (sset_ctxs ?a ?b)) with (method_at a). rewrite method_put_other; [reflexivity|].
        intro Q'. apply NI'. left. exact Q'.
      * auto.
Qed.

Lemma free_all : forall l s, NoDup l -> Forall (fun c => live (s_ctxs s) c <> None) l ->
  exists x, sfree_ctxs l s = SOk (sset_ctxs s x) tt.
Proof.
  induction l as [|c l IH]; intros s ND F; cbn.
  - exists (s_ctxs s). unfold sret. now destruct s.
  - inversion ND; subst. inversion F as [|? ? LV F']; subst.
    destruct (live (s_ctxs s) c) as [y|] eqn:Q; [|congruence].
    assert (FC : sctx_free c s = SOk (sset_ctxs s (upd (s_ctxs s) c None)) tt).
    { unfold sctx_free. rewrite (sbind_ok _ _ _ _ _ _ _ (sget_live _ _ _ _ _ Q)). reflexivity. }
    rewrite (sbind_ok _ _ _ _ _ _ _ FC).
    destruct (IH (sset_ctxs s (upd (s_ctxs s) c None))) as (x & X).
    + exact H2.
    + rewrite Forall_forall in *. intros d D. cbn. rewrite live_upd_out; auto. intros ->. contradiction.
    + exists x. exact X.
Qed.

(** A whole statement. *)
Lemma each_stmt : forall f st xs ms s s1, mentioned_all E s (map fst xs) ms s1 -> NoDup ms ->
  (forall l, J (sset_ctxs s1 l)) -> Forall (fun x => T (fst x)) xs ->
  (forall cs, srun_stmt E st cs = (let? _ := seach fn cs in sret VVoid)) ->
  exists s2, sexec E (S f) (OStmt xs st) s = SOk s2 VVoid /\
    Forall2 (fun x p => installed s2 (fst p) (snd p) (cond_of (snd x)) (act p)) xs ms.
Proof.
  intros f st xs ms s s1 M ND HJ HT RS. cbn [sexec sstep].
  rewrite (with_ctxs_spec _ _ _ _ _ _ M). cbn [rev app].
  assert (AT' : forall s ts ms s1, mentioned_all E s ts ms s1 ->
     Forall2 (fun t p => is_at s1 t (fst p) (snd p)) ts ms /\ (forall t m e, is_at s t m e -> is_at s1 t m e) /\ s_ctxs s1 = s_ctxs s).
  { clear. intros s ts ms s1 H. induction H as [s|s t ts m e me s1 ms s2 MN MA (IH1 & IH2 & IH3)]; [split; [constructor|auto]|].
    assert (K : forall t' m' e', is_at s t' m' e' -> is_at s1 t' m' e').
    { intros t' m' e' H. destruct MN as (r & D & [[_ ->]|(N & _ & _ & _ & ->)]); auto.
      destruct H as (me' & r' & D' & M'). 
      exists me', r'. split.
      - apply designates_put. eapply designates_more; [|exact D']. reflexivity.
      - rewrite method_put_other; auto. intro Q. inversion Q; subst. rewrite M' in N. discriminate. }
    split; [|split].
    - constructor; auto. cbn. apply IH2. pose proof (mentioned_again _ _ _ _ _ _ _ MN) as (r & D & _).
      exists me, r. split; auto. eapply mentioned_at; eauto.
    - auto.
    - rewrite IH3. eapply mentioned_ctxs; eauto. }
  destruct (AT' _ _ _ _ M) as (F & _ & CX). clear AT'.
  assert (G : forall l, Forall2 (fun x p => is_at (sset_ctxs s1 l) (fst x) (fst p) (snd p)) xs ms).
  { clear - F. intro l0. remember (map fst xs) as ts. revert xs Heqts. induction F; intros [|x0 xs] Q; inversion Q; subst; constructor; auto.
  }
  set (s2 := sset_ctxs s1 (s_ctxs s ++ map new_ctx xs)). pose proof (G (s_ctxs s ++ map new_ctx xs)) as F2. fold s2 in F2.
  destruct (each_installs xs ms s2 (s_ctxs s) F2 ND (HJ _) HT eq_refl) as (s' & Q & C' & J' & IN & _).
  rewrite RS. unfold sguarded.
  assert (BD : (let? _ := seach fn (seq (length (s_ctxs s)) (length xs)) in sret VVoid) s2 = sanswer s' (inl VVoid)).
  { rewrite (sbind_ok _ _ _ _ _ _ _ Q). reflexivity. }
  rewrite (sbind_ok _ _ _ _ _ _ _ (sattempt_answer _ _ _ _ BD)).
  assert (LN : length ms = length xs).
  { symmetry. revert F2. clear. generalize s2. intros z H. induction H; cbn; auto. }
  destruct (free_all (rev (seq (length (s_ctxs s)) (length xs)) ++ []) s') as (x & X).
  - rewrite app_nil_r. apply NoDup_rev, seq_NoDup.
  - rewrite app_nil_r. apply Forall_rev. rewrite Forall_forall. intros c CI. apply in_seq in CI. rewrite C'. unfold live.
    rewrite nth_error_app2 by lia. rewrite nth_error_map.
    destruct (nth_error (combine xs ms) (c - length (s_ctxs s))) eqn:NE; cbn; [discriminate|].
    apply nth_error_None in NE. rewrite combine_length in NE. lia.
  - rewrite (sbind_ok _ _ _ _ _ _ _ X). exists (sset_ctxs s' x). split; [reflexivity|].
    clear - IN. induction IN; constructor; auto.
Qed.

End S.

Section L.
Variable E : env.
Hypothesis iter_perm : iterates E.
Local Notation leads := (leads E).

Lemma fake_installs : forall f s xs ms s1, mentioned_all E s (map fst xs) ms s1 -> NoDup ms ->
  exists s2, sexec E (S f) (OStmt xs SFake) s = SOk s2 VVoid /\
    Forall2 (fun x p => installed s2 (fst p) (snd p) (cond_of (snd x)) ADefault) xs ms.
Proof.
  intros f s xs ms s1 M ND.
  apply (each_stmt E (sdo_fake E) (fun _ => ADefault) (fun _ => True) (fun _ => True)) with (s1 := s1); auto.
  apply Forall_forall. auto.
Qed.

(** ** Staying in force *)
Lemma bound_known : forall w s m e me, R E w s -> method_at s m e = Some me -> me_no me < s_bound s.
Proof.
  intros w s m e me (own & tow & HR) ME. unfold method_at in ME. destruct (live (s_mocks s) m) as [k|] eqn:K; [|discriminate].
  destruct (r_bod _ _ _ _ _ HR m e me) as (bd & L & _); [exists k; auto|].
  destruct (r_cnt _ _ _ _ _ HR) as (C & _). rewrite <- C. eapply live_lt; eauto.
Qed.

Lemma played_endless : forall st a, st_todo st = [a] -> endless a -> played st = st.
Proof. intros [no c t u b] a T EN. cbn in T. subst t. destruct a; cbn in EN; try contradiction; reflexivity. Qed.

Lemma advanced_endless : forall st st' a, st_todo st = [a] -> endless a -> advanced st st' -> st' = st.
Proof.
  intros st st' a T EN (n & -> & _). induction n; cbn; auto. rewrite IHn. eapply played_endless; eauto.
Qed.

Lemma lasting : forall w f s m e me st older a ops rs s' o slot args, R E w s ->
  method_at s m e = Some me -> me_stubs me = st :: older -> st_todo st = [a] -> endless a ->
  still_decides E f s m e me ops rs s' o slot args -> accepts s' args st ->
  exists me' new old, reaches E s' o slot m e me' /\ me_ret me' = me_ret me /\ newest s' me' args new st old /\ room s'.
Proof.
  intros w f s m e me st older a ops rs s' o slot args HR ME ST TD EN (X & RM & me' & new & old & RE & NO & ST' & LN & RJ) AC.
  pose proof (exec_all_holds _ _ _ _ _ _ _ HR X) as (_ & HH & _).
  destruct (HH _ _ _ (reaches_at _ _ _ _ _ _ _ RE)) as [[B _]|(me0 & M0 & G)].
  - pose proof (bound_known _ _ _ _ _ HR ME). lia.
  - rewrite ME in M0. inversion M0; subst me0. destruct G as (_ & _ & RT & _ & new' & old' & ST2 & F & _).
    assert (LL : length old = length old').
    { rewrite LN. clear - F. induction F; cbn; auto. }
    rewrite ST' in ST2. 
    assert (new = new' /\ old = old') as [<- <-].
    { assert (LN' : length new = length new') by (apply (f_equal (@length _)) in ST2; rewrite !app_length in ST2; lia).
      clear - ST2 LN'. revert new' LN' ST2. induction new; intros [|y new'] L Q; cbn in *; try discriminate; auto.
      inversion Q; subst. destruct (IHnew new') as [-> ->]; auto. }
    rewrite ST in F. inversion F as [|? st' ? old'' AD F']; subst.
    rewrite (advanced_endless _ _ _ TD EN AD) in *.
    exists me', new, old''. split; auto. split; auto. split; auto. split; auto.
Qed.

Lemma lasting_answers : forall f m0 os s rs m e me st older a ops rs' s' o slot args mm args' r,
  leads (S f) m0 os s rs -> method_at s m e = Some me -> me_stubs me = st :: older -> st_todo st = [a] -> endless a ->
  st_busy st = false ->
  still_decides E (S f) s m e me ops rs' s' o slot args -> accepts s' args st ->
  plain_action E (s_mem s') (me_ret me) a args = Some (mm, args', r) -> r <> inr XNoMore ->
  exists s'', leads (S f) m0 (os ++ ops ++ [OCall o slot args]) s'' (rs ++ rs' ++ [r]).
Proof.
  intros f m0 os s rs m e me st older a ops rs' s' o slot args mm args' r L ME ST TD EN B SD AC P NX.
  destruct (leads_R _ _ _ _ _ _ L) as (w & HR).
  destruct (lasting _ _ _ _ _ _ _ _ _ _ _ _ _ _ _ HR ME ST TD EN SD AC) as (me' & new & old & RE & RT & NW & RM).
  pose proof (leads_more E iter_perm _ _ _ _ _ _ _ _ L (proj1 SD)) as L'.
  rewrite !app_assoc. eexists. eapply (newest_answers E iter_perm); [exact L'|].
  split; [exact RE|]. split; auto. exists new, old, a, [], mm, args'. rewrite RT. split; [exact NW|]. repeat (split; auto).
Qed.

(** ** C17 *)
Lemma fake_forever : forall f m0 os s rs ts ms s1, leads (S f) m0 os s rs -> mentioned_all E s ts ms s1 -> NoDup ms ->
  exists s2, leads (S f) m0 (os ++ [OStmt (map (fun t => (t, None)) ts) SFake]) s2 (rs ++ [inl VVoid]) /\
  forall m e, In (m, e) ms -> exists me, method_at s2 m e = Some me /\
  forall ops rs' s3 o slot args r, still_decides E (S f) s2 m e me ops rs' s3 o slot args ->
  default_of (me_ret me) = Some r ->
  exists s4, leads (S f) m0 ((os ++ [OStmt (map (fun t => (t, None)) ts) SFake]) ++ ops ++ [OCall o slot args]) s4
               ((rs ++ [inl VVoid]) ++ rs' ++ [r]).
Proof.
  intros f m0 os s rs ts ms s1 L M ND.
  set (xs := map (fun t => (t, @None imatcher)) ts).
  assert (MF : map fst xs = ts) by (unfold xs; rewrite map_map; apply map_id).
  destruct (fake_installs f s xs ms s1) as (s2 & Q & F); [now rewrite MF|auto|].
  exists s2. pose proof (leads_step E iter_perm _ _ _ _ _ _ _ (inl VVoid) L Q) as L2. split; auto.
  intros m e IN.
  assert (I2 : installed s2 m e IMDefault ADefault).
  { assert (G : Forall (fun x => snd x = None) xs) by (unfold xs; apply Forall_map, Forall_forall; reflexivity).
    clear - F IN G. clearbody xs. induction F as [|[t im] [m' e'] l l' H F IH]; [contradiction|]. inversion G; subst. cbn in *. subst im.
    destruct IN as [EQ|IN]; [inversion EQ; subst; exact H|auto]. }
  destruct I2 as (me & st & older & ME & ST & CO & TD & B). exists me. split; auto.
  intros ops rs' s3 o slot args r SD DF.
  eapply lasting_answers; eauto.
  - exact Logic.I.
  - unfold accepts. rewrite CO. exact Logic.I.
  - cbn. now rewrite DF.
  - intro NX. rewrite NX in DF. destruct (me_ret me); discriminate DF.
Qed.

(** ** C21, and the same for AlwaysReturn etc. *)
Lemma assign_forever : forall f m0 os s rs t im g m e me s1, leads (S f) m0 os s rs -> mentioned E s t m e me s1 ->
  exists s2 me2, leads (S f) m0 (os ++ [OStmt [(t, im)] (SAssign g)]) s2 (rs ++ [inl VVoid]) /\
  method_at s2 m e = Some me2 /\
  forall ops rs' s3 o slot args mm args' r, still_decides E (S f) s2 m e me2 ops rs' s3 o slot args ->
  satisfied (s_mem s3) (cond_of im) args ->
  plain_callable E (s_mem s3) (me_ret me2) g args = Some (mm, args', r) -> r <> inr XNoMore ->
  exists s4, leads (S f) m0 ((os ++ [OStmt [(t, im)] (SAssign g)]) ++ ops ++ [OCall o slot args]) s4
               ((rs ++ [inl VVoid]) ++ rs' ++ [r]).
Proof.
  intros f m0 os s rs t im g m e me s1 L M.
  pose proof (leads_step E iter_perm _ _ _ _ _ _ _ (inl VVoid) L (stmt_assign E f s t im g m e me s1 M)) as L2.
  set (s2 := sset_ctxs _ _) in L2. exists s2, (with_stubs me (new_stub s im [AForever g] :: me_stubs me)).
  assert (M2 : method_at s2 m e = Some (with_stubs me (new_stub s im [AForever g] :: me_stubs me))).
  { unfold s2. change (method_at (sset_ctxs ?a ?b)) with (method_at a). unfold stubbed. eapply method_put. eapply mentioned_at; eauto. }
  split; auto. split; auto. intros ops rs' s3 o slot args mm args' r SD AC P NX.
  eapply (lasting_answers f m0 _ s2 _ m e _ _ _ (AForever g)); eauto; try reflexivity; try exact Logic.I.
  exact AC.
Qed.

End L.
