(** Statements of tests that keep to the rules (Spec_Rules.v) always end, and keep the
    invariant of RulesInv.v. *)
From Coq Require Import Bool ZArith Lia List Permutation Sorted.
From Verif Require Import Base CInt Values ArgMatchers InvMatchers Spec_Conditions ConditionProofs ActionSeq Sequences MatchAnalysis
  Spec_Match Proxy Events EventsProofs Expectation Spec_Verify ExpectationProofs ReturnSet Syntax World Spec_World WorldRel WorldSimA WorldSimB WorldSimE
  Spec_View SpecFacts SpecKept Spec_Alike SpecFrame SpecHistory SpecLasting Spec_Verification SpecVerify Spec_Rules RulesMore RulesInv.
Import ListNotations.
Open Scope nat_scope.

Section S.
Variable E : env.
Variable P : plan.
Hypothesis PLAN : plan_ok E P.

Local Notation designated := (designated E P).
Local Notation returns := (returns E P).
Local Notation inv := (inv E P).

Definition later (own : list (nat * nat)) (b : nat) (s : sworld) : Prop := exists own1, inv (own ++ own1) s /\ spent s b.
Definition good {A} (own : list (nat * nat)) (b : nat) (r : sres A) : Prop :=
  match r with
  | SOk s' _ => later own b s'
  | SExn s' e => e <> XNoMore /\ later own b s'
  | SUnspec => False
  end.

Lemma later_more : forall own l b b' s, later (own ++ l) b s -> b <= b' -> later own b' s.
Proof. intros own l b b' s (l1 & I & S) L. exists (l ++ l1). rewrite app_assoc. split; auto. eapply spent_more; eauto. Qed.
Lemma good_more : forall A own l b b' (r : sres A), good (own ++ l) b r -> b <= b' -> good own b' r.
Proof. intros A own l b b' r H L. destruct r; cbn in *; auto; [|destruct H; split; auto]; eapply later_more; eauto. Qed.
Lemma later_here : forall own b s, inv own s -> spent s b -> later own b s.
Proof. intros. exists []. rewrite app_nil_r. auto. Qed.

(** Reports. *)
Lemma reported : forall ev s, exists l, sreport E ev s = SOk (sset_log s l) tt \/ exists x, x <> XNoMore /\ sreport E ev s = SExn (sset_log s l) x.
Proof.
  intros ev s. unfold sreport, sbind, sgets.
  assert (H : forall x, snd (ctx_handle (e_react E) (e_builtin E) (s_fctx s) ev) = Some x -> x <> XNoMore).
  { assert (F : forall ls x, snd (fireEvent (e_react E) ls ev) = Some x -> x <> XNoMore).
    { induction ls as [|l ls IH]; intros x H; [discriminate|]. cbn in H. destruct (e_react E l ev) as [y|] eqn:R.
      - inversion H; subst. intros ->. exact (proj2 PLAN _ _ R).
      - destruct (fireEvent (e_react E) ls ev) as [dn y]. apply IH. exact H. }
    intros x H. unfold ctx_handle in H. specialize (F (fc_listeners (s_fctx s))).
    destruct (fireEvent (e_react E) (fc_listeners (s_fctx s)) ev) as [dn [y|]]; [apply F; exact H|].
    cbn in H. intros ->. exact (proj2 PLAN _ _ H). }
  destruct (ctx_handle (e_react E) (e_builtin E) (s_fctx s) ev) as [dn x]. unfold smodify. eexists.
  destruct x as [x|]; [right; exists x; split; [apply H; reflexivity|reflexivity]|left; reflexivity].
Qed.
Lemma unexpected_good : forall t m args own b s, inv own s -> spent s b -> good own b (sunexpected E t m args s).
Proof.
  intros t m args own b s I SP. unfold sunexpected. destruct (reported (EvUnexpected t m args) s) as (l & [Q|(x & NX & Q)]).
  - rewrite (sbind_ok _ _ _ _ _ _ _ Q). cbn. split; [discriminate|]. apply later_here; [|exact SP]. eapply inv_same; eauto.
  - rewrite (sbind_exn _ _ _ _ _ _ _ Q). cbn. split; auto. apply later_here; [|exact SP]. eapply inv_same; eauto.
Qed.

(** ** The expressions of a statement *)
Lemma mentioned_tidy : forall s t m e me s', mentioned E s t m e me s' -> tidy s -> tidy s'.
Proof.
  intros s t m e me s' M T. pose proof (smention_spec _ _ _ _ _ _ _ (s_ctxs s) M) as Q.
  replace (sset_ctxs s (s_ctxs s)) with s in Q by (now destruct s).
  pose proof (ti_mention E t s) as K. rewrite Q in K. destruct K as [_ K]. intros m0 e0 me0 H. exact (K T m0 e0 me0 H).
Qed.

Lemma mention_all : forall xs own s b, inv own s -> tidy s -> spent s b -> affordable (b + length xs) -> Forall (expression_ok E P) xs ->
  exists own1 ms s1, mentioned_all E s (map fst xs) ms s1 /\ inv (own ++ own1) s1 /\ tidy s1 /\ spent s1 (b + length xs) /\
    Forall2 (fun x p => designated (fst x) (fst p) (snd p)) xs ms.
Proof.
  induction xs as [|[t im] xs IH]; intros own s b I T SP AF F.
  - exists [], [], s. rewrite app_nil_r. cbn. rewrite Nat.add_0_r. split; [constructor|]. split; [exact I|]. split; [exact T|]. split; [exact SP|constructor].
  - inversion F as [|? ? (i & e & D & _) F']; subst. cbn [length] in AF.
    destruct (inv_mention E P PLAN own s t i e b I D SP) as (own1 & me & s1 & M & I1 & S1); [unfold affordable in *; lia|].
    destruct (IH (own ++ own1) s1 (S b)) as (own2 & ms & s2 & M2 & I2 & T2 & S2 & D2); auto.
    + eapply mentioned_tidy; eauto.
    + unfold affordable in *. lia.
    + exists (own1 ++ own2), ((i, e) :: ms), s2. rewrite app_assoc. cbn [map fst length]. split; [econstructor; eauto|].
      split; [exact I2|]. split; [exact T2|]. split; [rewrite Nat.add_succ_r; exact S2|]. constructor; auto.
Qed.

Lemma all_at : forall s ts ms s1, mentioned_all E s ts ms s1 ->
     Forall2 (fun t p => is_at E s1 t (fst p) (snd p)) ts ms /\ (forall t m e, is_at E s t m e -> is_at E s1 t m e) /\ s_ctxs s1 = s_ctxs s.
Proof.
  intros s ts ms s1 H. induction H as [s|s t ts m e me s1 ms s2 MN MA (IH1 & IH2 & IH3)]; [split; [constructor|auto]|].
  assert (K : forall t' m' e', is_at E s t' m' e' -> is_at E s1 t' m' e').
  { intros t' m' e' H. destruct MN as (r & D & [[_ ->]|(N & _ & _ & _ & ->)]); auto.
    destruct H as (me' & r' & D' & M').
    exists me', r'. split.
    - apply designates_put. eapply designates_more; [|exact D']. reflexivity.
    - rewrite method_put_other; auto. intro Q. inversion Q; subst. rewrite M' in N. discriminate. }
  split; [|split].
  - constructor; auto. cbn. apply IH2. pose proof (mentioned_again _ _ _ _ _ _ _ MN) as (r & D & _).
    exists me, r. split; auto. eapply mentioned_at; eauto.
  - auto.
  - rewrite IH3. eapply mentioned_ctxs; eauto.
Qed.

(** The body of a statement is good and leaves the expressions alive. *)
Definition body_good (own : list (nat * nat)) (b lo n : nat) (r : sres val) : Prop :=
  good own b r /\
  match r with
  | SOk s' _ | SExn s' _ => forall c, lo <= c < lo + n -> live (s_ctxs s') c <> None
  | SUnspec => True
  end.

Lemma stmt_frame : forall own s b xs body, inv own s -> tidy s -> spent s b -> affordable (b + length xs) ->
  Forall (expression_ok E P) xs ->
  (forall own1 ms s1, inv (own ++ own1) s1 -> tidy s1 -> spent s1 (b + length xs) ->
     s_ctxs s1 = s_ctxs s ++ map new_ctx xs ->
     Forall2 (fun x p => designated (fst x) (fst p) (snd p)) xs ms ->
     Forall2 (fun x p => is_at E s1 (fst x) (fst p) (snd p)) xs ms ->
     body_good (own ++ own1) (b + length xs) (length (s_ctxs s)) (length xs) (body (seq (length (s_ctxs s)) (length xs)) s1)) ->
  good own (b + length xs) (swith_ctxs E xs [] body s).
Proof.
  intros own s b xs body I T SP AF EO H.
  destruct (mention_all xs own s b I T SP AF EO) as (own1 & ms & s1 & M & I1 & T1 & S1 & D).
  rewrite (with_ctxs_spec _ _ _ _ _ _ _ M). cbn [rev app].
  destruct (all_at _ _ _ _ M) as (A & _ & CX).
  set (z := sset_ctxs s1 (s_ctxs s ++ map new_ctx xs)).
  assert (IZ : inv (own ++ own1) z) by (eapply inv_same; eauto).
  assert (AZ : Forall2 (fun x p => is_at E z (fst x) (fst p) (snd p)) xs ms).
  { unfold z. generalize (s_ctxs s ++ map new_ctx xs). clear - A. intro l0. remember (map fst xs) as ts.
    revert xs Heqts. induction A; intros [|x0 xs] Q; inversion Q; subst; constructor; auto. }
  specialize (H own1 ms z IZ T1 S1 eq_refl D AZ). destruct H as [G L].
  assert (FIN : forall s2 (r : val + exn), later (own ++ own1) (b + length xs) s2 -> (forall e, r = inr e -> e <> XNoMore) ->
    (forall c, length (s_ctxs s) <= c < length (s_ctxs s) + length xs -> live (s_ctxs s2) c <> None) ->
    good own (b + length xs) ((let? _ := sfree_ctxs (rev (seq (length (s_ctxs s)) (length xs)) ++ []) in srethrow r) s2)).
  { intros s2 r (own2 & I2 & S2) NX LV. destruct (free_all (rev (seq (length (s_ctxs s)) (length xs)) ++ []) s2) as (x & X).
    - rewrite app_nil_r. apply NoDup_rev, seq_NoDup.
    - rewrite app_nil_r. apply Forall_rev, Forall_forall. intros c CI. apply in_seq in CI. apply LV. lia.
    - rewrite (sbind_ok _ _ _ _ _ _ _ X).
      assert (LA : later own (b + length xs) (sset_ctxs s2 x)).
      { apply (later_more own own1 (b + length xs)); auto. exists own2. split; [eapply inv_same; eauto|exact S2]. }
      destruct r as [v|e]; cbn; auto. }
  unfold sguarded, sbind at 1, sattempt. destruct (body _ z) as [s2 v|s2 e|]; cbn in G.
  - apply (FIN s2 (inl v)); auto. discriminate.
  - destruct G as [NX G]. apply (FIN s2 (inr e)); auto. intros e' Q. now inversion Q; subst.
  - contradiction.
Qed.

(** ** Stubbing *)
Lemma held_recorded : forall i e r, recorded_ok E P i e r -> held E P i e (action_of r).
Proof. intros i e r H. destruct H; cbn; unfold callable_held; auto; split; auto; lia. Qed.

Lemma expression_settles : forall x i e, expression_ok E P x -> designated (fst x) i e -> settles P i e (cond_of (snd x)).
Proof.
  intros x i e (i' & e' & D & S) D'. destruct (designated_fun _ _ _ _ _ _ _ D D') as [-> ->]. exact S.
Qed.

Lemma inv_stub : forall own s i e me c im todo, inv own s -> method_at s i e = Some me -> settles P i e im -> Forall (held E P i e) todo ->
  inv own (put_method s i e (with_stubs me (mkStub c im todo 0 false :: me_stubs me))).
Proof.
  intros own s i e me c im todo I M S F. eapply inv_put; eauto. intro T. destruct (i_meths _ _ _ _ I _ _ _ T M) as (A & B & C).
  repeat split; auto. cbn. constructor; auto. split; auto.
Qed.

Lemma spent_put : forall s m e me b, spent s b -> spent (put_method s m e me) b.
Proof. intros s m e me b H. unfold put_method. now destruct (live (s_mocks s) m). Qed.

Section Each.
Variable fn : nat -> SM unit.
Variable act : target -> nat * nat -> action callable.
Variable T : target -> Prop.
Hypothesis act_held : forall t m e, T t -> designated t m e -> held E P m e (act t (m, e)).
Hypothesis fn_spec : forall own s c t im m e, designated t m e -> inv own s -> live (s_ctxs s) c = Some (mkSctx t im [] false) ->
  fn c s = (let? _ := sctx_append c (act t (m, e)) in sctx_commit E c) s.

Lemma each_good : forall xs ms own s pre, inv own s ->
  Forall2 (fun x p => designated (fst x) (fst p) (snd p)) xs ms ->
  Forall2 (fun x p => is_at E s (fst x) (fst p) (snd p)) xs ms ->
  Forall (expression_ok E P) xs -> Forall (fun x => T (fst x)) xs -> s_ctxs s = pre ++ map new_ctx xs ->
  exists s' l, seach fn (seq (length pre) (length xs)) s = SOk s' tt /\ inv own s' /\ (forall b, spent s b -> spent s' b) /\
    s_ctxs s' = pre ++ map Some l /\ length l = length xs.
Proof.
  induction xs as [|[t im] xs IH]; intros ms own s pre I D A EO HT C; inversion A as [|? [m e] ? ms' A0 A']; subst.
  - exists s, []. cbn in *. repeat (split; [now auto|]). auto.
  - inversion D as [|? ? ? ? D0 D']; subst. inversion EO as [|? ? E0 EO']; subst. inversion HT as [|? ? T0 HT']; subst.
    cbn [fst snd] in *. cbn [length seq seach].
    assert (LV : live (s_ctxs s) (length pre) = Some (mkSctx t (cond_of im) [] false)) by (rewrite C; apply live_mid).
    destruct (is_at_mentioned _ _ _ _ _ A0) as (me & ME & MN).
    set (a := act t (m, e)).
    set (s1 := sset_ctxs s (pre ++ Some (mkSctx t (cond_of im) [a] false) :: map new_ctx xs)).
    assert (A1 : sctx_append (length pre) a s = SOk s1 tt).
    { unfold sctx_append, sctx_unused, sbind. rewrite (sget_live _ _ _ _ _ LV). cbn. unfold sput_ctx, smodify.
      unfold s1. rewrite C. cbn [map new_ctx fst snd]. rewrite upd_mid. reflexivity. }
    set (y := mkSctx t (cond_of im) [a] true).
    set (s2 := sset_ctxs (put_method s1 m e (with_stubs me (mkStub (length pre) (cond_of im) [a] 0 false :: me_stubs me)))
                 (pre ++ Some y :: map new_ctx xs)).
    assert (A2 : sctx_commit E (length pre) s1 = SOk s2 tt).
    { assert (LV1 : live (s_ctxs s1) (length pre) = Some (mkSctx t (cond_of im) [a] false)) by (unfold s1; cbn; apply live_mid).
      erewrite sctx_commit_spec; [|exact LV1|reflexivity|cbn; apply mentioned_sset; exact MN].
      unfold s2. f_equal. f_equal. unfold s1. cbn. rewrite upd_mid. reflexivity. }
    assert (FN : fn (length pre) s = SOk s2 tt).
    { rewrite (fn_spec own s (length pre) t (cond_of im) m e D0 I LV), (sbind_ok _ _ _ _ _ _ _ A1). exact A2. }
    rewrite (sbind_ok _ _ _ _ _ _ _ FN).
    assert (ME1 : method_at s1 m e = Some me) by exact ME.
    assert (I1 : inv own s1) by (eapply inv_same; eauto).
    assert (I2 : inv own s2).
    { eapply (inv_same E P own (put_method s1 m e (with_stubs me (mkStub (length pre) (cond_of im) [a] 0 false :: me_stubs me)))); try reflexivity.
      apply inv_stub; auto.
      - apply (expression_settles (t, im)); auto.
      - repeat constructor. apply act_held; auto. }
    assert (KA : forall t' m' e', is_at E s t' m' e' -> is_at E s2 t' m' e').
    { intros t' m' e' H. unfold s2. apply is_at_ctxs. eapply is_at_put; [exact ME1|]. unfold s1. now apply is_at_ctxs. }
    destruct (IH ms' own s2 (pre ++ [Some y])) as (s' & l & Q & I' & SP' & C' & LN); auto.
    + clear - A' KA. revert KA. generalize s2. intros z KA. induction A' as [|x p l l' H F IH]; constructor; auto.
    + unfold s2. cbn. now rewrite <- app_assoc.
    + rewrite app_length in Q. cbn [length] in Q. rewrite Nat.add_1_r in Q. exists s', (y :: l).
      split; auto. split; auto. split; [|split].
      * intros b SP. apply SP'. change (spent (put_method s1 m e (with_stubs me (mkStub (length pre) (cond_of im) [a] 0 false :: me_stubs me))) b).
        apply spent_put. exact SP.
      * rewrite C', <- app_assoc. reflexivity.
      * cbn. now rewrite LN.
Qed.

Lemma each_body : forall xs ms own s b pre, inv own s -> spent s b ->
  Forall2 (fun x p => designated (fst x) (fst p) (snd p)) xs ms ->
  Forall2 (fun x p => is_at E s (fst x) (fst p) (snd p)) xs ms ->
  Forall (expression_ok E P) xs -> Forall (fun x => T (fst x)) xs -> s_ctxs s = pre ++ map new_ctx xs ->
  body_good own b (length pre) (length xs) ((let? _ := seach fn (seq (length pre) (length xs)) in sret VVoid) s).
Proof.
  intros xs ms own s b pre I SP D A EO HT C.
  destruct (each_good xs ms own s pre I D A EO HT C) as (s' & l & Q & I' & SP' & C' & LN).
  rewrite (sbind_ok _ _ _ _ _ _ _ Q). split; cbn.
  - apply later_here; auto.
  - intros c LC. rewrite C'. unfold live. rewrite nth_error_app2, nth_error_map by lia.
    destruct (nth_error l (c - length pre)) eqn:N; cbn; [discriminate|]. apply nth_error_None in N. lia.
Qed.
End Each.

(** ** Verification *)
Lemma inv_unique : forall own s, inv own s -> unique s.
Proof.
  intros own s I m e me m' e' me' M M' N. pose proof (i_own _ _ _ _ I _ _ _ M) as A. pose proof (i_own _ _ _ _ I _ _ _ M') as B.
  rewrite N in A. rewrite A in B. inversion B. auto.
Qed.
Lemma inv_known : forall own s m e i c, inv own s -> pl_mocks P m <> None -> tidy s -> recorded s m e i -> nth_error (s_calls s) i = Some c -> pl_args P m e (ca_args c).
Proof.
  intros own s m e i c I PM T (me & M & IN) C. destruct (T m e me M) as (_ & H). destruct (H i IN) as (c' & C' & N).
  rewrite C in C'. inversion C'; subst c'. pose proof (i_calls _ _ _ _ I) as F. rewrite Forall_forall in F.
  destruct (F c (nth_error_In _ _ C)) as (i' & e' & O & A). pose proof (i_own _ _ _ _ I _ _ _ M) as B.
  rewrite N, B in O. inversion O; subst. apply A, PM.
Qed.
Lemma designates_planned : forall own s t m e m' e' r, inv own s -> designated t m e -> designates E s t m' e' r -> m = m' /\ e = e'.
Proof.
  intros own s t m e m' e' r I D D'. destruct (designates_ok E P PLAN own s t m e I D) as (r0 & D0 & _).
  eapply designates_fun; eauto.
Qed.
Lemma inv_decided : forall own s xs, inv own s -> tidy s -> Forall (expression_ok E P) xs -> decided E s xs.
Proof.
  intros own s xs I T F x m e r i c IN D RC C. rewrite Forall_forall in F. destruct (F x IN) as (i' & e' & D' & ST).
  destruct (designates_planned _ _ _ _ _ _ _ _ I D' D) as [-> ->]. apply ST; [apply (i_mem _ _ _ _ I)|]. eapply inv_known; eauto using designated_there.
Qed.

Lemma source_sound : forall own s xs n y, inv own s -> SpecVerify.source_size y <= n -> source_ok P (length xs) y -> sound_source s xs y.
Proof.
  intros own s xs n. induction n as [|n IH]; intros y I SZ H; [destruct y; cbn in SZ; lia|]. destruct y as [m|j|l]; cbn [source_ok sound_source] in *; auto.
  - destruct (pl_mocks P m) as [x|] eqn:N; [|congruence].
    destruct (i_mocks _ _ _ _ I m x N) as (k & K & _). congruence.
  - cbn in SZ. induction l as [|y l IHl]; auto. destruct H as [H1 H2]. split; [apply IH; auto; lia|apply IHl; auto; lia].
Qed.
Lemma sources_sound : forall own s xs l, inv own s -> Forall (source_ok P (length xs)) l -> Forall (sound_source s xs) l.
Proof. intros own s xs l I. apply Forall_impl. intros y H. eapply source_sound; eauto. Qed.
Lemma scope_sound : forall own s xs sc, inv own s -> scope_ok P (length xs) sc -> sound_scope s xs sc.
Proof. intros own s xs [| |l] I H; cbn in *; auto. eapply sources_sound; eauto. Qed.

Lemma inv_marks : forall own s l, inv own s -> inv own (with_marks l s).
Proof.
  intros own s l I. apply inv_calls; auto. pose proof (i_calls _ _ _ _ I) as F. apply Forall_forall. intros c IN.
  apply in_map_iff in IN. destruct IN as ((i & c0) & Q & IN). apply in_combine_r in IN. rewrite Forall_forall in F. specialize (F c0 IN).
  destruct (existsb (Nat.eqb i) l); subst; auto.
Qed.
Lemma tidy_marks : forall s l, tidy s -> tidy (with_marks l s).
Proof.
  intros s l. apply (tidies_subs s (with_marks l s)).
  - intros i c N. rewrite with_marks_at, N. eexists. split; [reflexivity|]. now destruct (existsb (Nat.eqb i) l).
  - intros m e me M. right. exists me. auto.
Qed.
Lemma spent_marks : forall s l b, spent s b -> spent (with_marks l s) b.
Proof.
  intros s l b (A & B & C). repeat split; auto. unfold with_marks. cbn. rewrite map_length, combine_length, seq_length. lia.
Qed.

Section Verify.
Variable xs : list (target * option imatcher).
Variable ms : list (nat * nat).
Variable own : list (nat * nat).
Variable B : nat.
Variable pre : list (option sctx).
Hypothesis EO : Forall (expression_ok E P) xs.
Hypothesis AF : affordable B.
Let b := length pre.
Let cs := seq b (length xs).
Variable base : list (option expo).

(** The states during the life of the verification. *)
Record during (y : sworld) : Prop := mkDuring {
  du_inv : inv own y;
  du_tidy : tidy y;
  du_spent : spent y B;
  du_ctxs : s_ctxs y = pre ++ map new_ctx xs;
  du_at : forall x, In x xs -> exists m e, is_at E y (fst x) m e
}.

Lemma during_same : forall y y', during y -> s_objs y' = s_objs y -> s_mocks y' = s_mocks y -> s_bound y' = s_bound y ->
  s_calls y' = s_calls y -> s_mem y' = s_mem y -> s_started y' = s_started y -> s_ctxs y' = s_ctxs y -> during y'.
Proof.
  intros y y' [A1 A2 A3 A4 A5] H1 H2 H3 H4 H5 H6 H7. constructor.
  - eapply inv_same; eauto.
  - apply (tidies_same y y'); auto.
  - destruct A3 as (X & Y & Z). repeat split; congruence.
  - congruence.
  - intros x IN. destruct (A5 x IN) as (m & e & me & r & D & M). exists m, e, me, r. split; [eapply designates_more; eauto|].
    unfold method_at in *. now rewrite H2.
Qed.
Lemma during_marks : forall y l, during y -> during (with_marks l y).
Proof.
  intros y l [A1 A2 A3 A4 A5]. constructor; auto using inv_marks, tidy_marks, spent_marks.
Qed.

Lemma ctx_number : forall j x, nth_error xs j = Some x -> forall y, during y -> live (s_ctxs y) (b + j) = new_ctx x.
Proof.
  intros j x N y D. rewrite (du_ctxs y D). unfold live, b. rewrite nth_error_app2 by lia. replace (length pre + j - length pre) with j by lia.
  rewrite nth_error_map, N. reflexivity.
Qed.
Lemma cs_number : forall j, j < length xs -> nth_error cs j = Some (b + j).
Proof.
  intros j L. unfold cs. rewrite (nth_error_nth' _ 0) by (rewrite seq_length; lia). now rewrite seq_nth.
Qed.
Lemma at_number : forall y, during y -> forall j x, nth_error xs j = Some x -> exists m e, is_at E y (fst x) m e.
Proof. intros y D j x N. apply (du_at y D). eapply nth_error_In; eauto. Qed.
Lemma small_calls : forall y, during y -> (Z.of_nat (length (s_calls y)) <= int_max)%Z.
Proof. intros y D. destruct (du_spent y D) as (_ & L & _). unfold affordable in AF. unfold int_max. lia. Qed.

(** [VQ o]: the states of the verification object. *)
Variable VQ : expo -> Prop.
Definition going (r : sres unit) : Prop :=
  match r with
  | SOk y _ => during y /\ exists o, s_exps y = base ++ [Some o] /\ VQ o
  | SExn y e => e <> XNoMore /\ during y /\ exists o, s_exps y = base ++ [Some o] /\ VQ o
  | SUnspec => False
  end.
Hypothesis CHECK : forall y o quiet, during y -> s_exps y = base ++ [Some o] -> VQ o -> going (sverify E (length base) quiet y).
Variable oks : vstep -> Prop.
Hypothesis QUANT : forall y o q, during y -> s_exps y = base ++ [Some o] -> VQ o -> oks (VsQuant q) -> going (sexp_quant (length base) q y).

Lemma steps_good : forall steps y o v, Forall oks steps -> during y -> s_exps y = base ++ [Some o] -> VQ o ->
  match srun_steps E (length base) steps v y with
  | SOk y' _ => during y' /\ exists o, s_exps y' = base ++ [Some o] /\ VQ o
  | SExn y' e => e <> XNoMore /\ during y' /\ exists o, s_exps y' = base ++ [Some o] /\ VQ o
  | SUnspec => False
  end.
Proof.
  induction steps as [|[q|] steps IH]; intros y o v F D X V; cbn [srun_steps].
  - cbn. split; auto. eauto.
  - inversion F as [|? ? O F']; subst. pose proof (QUANT y o q D X V O) as G. unfold sbind.
    destruct (sexp_quant (length base) q y) as [y' []|y' e|]; cbn in G; auto. destruct G as (D' & o' & X' & V'). eapply IH; eauto.
  - inversion F as [|? ? O F']; subst. pose proof (CHECK y o true D X V) as G. unfold sbind, sexp_bool, sbind, sattempt.
    destruct (sverify E (length base) true y) as [y' []|y' e|]; cbn in G; auto.
    + destruct G as (D' & o' & X' & V'). cbn. eapply IH; eauto.
    + destruct G as (NX & D' & o' & X' & V'). destruct e; cbn; try (split; [congruence|split; eauto]). eapply IH; eauto.
Qed.

Lemma alive : forall y, during y -> forall c, b <= c < b + length xs -> live (s_ctxs y) c <> None.
Proof.
  intros y D c L. destruct (nth_error xs (c - b)) as [x|] eqn:N; [|apply nth_error_None in N; lia].
  pose proof (ctx_number _ _ N y D) as Q. replace (b + (c - b)) with c in Q by lia. rewrite Q. discriminate.
Qed.

Lemma end_good : forall y o, during y -> s_exps y = base ++ [Some o] ->
  sfree_exp (length base) y = SOk (over y base) tt /\ during (over y base).
Proof.
  intros y o D X. split; [eapply freed; eauto|]. eapply during_same; eauto.
Qed.

Lemma vstmt_good : forall mk steps s o, during s -> mk s = SOk (sset_exps s (base ++ [Some o])) (length base) -> VQ o -> Forall oks steps ->
  body_good own B b (length xs) (sverify_stmt E mk steps s).
Proof.
  intros mk steps s o D M V F. unfold sverify_stmt. rewrite (sbind_ok _ _ _ _ _ _ _ M).
  assert (D1 : during (sset_exps s (base ++ [Some o]))) by (eapply during_same; eauto).
  pose proof (steps_good steps _ o VVoid F D1 eq_refl V) as G. unfold sbind at 1, sattempt.
  assert (OUT : forall y (r : val + exn), during y -> (forall e, r = inr e -> e <> XNoMore) ->
    body_good own B b (length xs) (srethrow r (over y base)) \/ ~ during (over y base)).
  { intros y r Dy NX. left. assert (D' : during (over y base)) by (eapply during_same; eauto).
    destruct r as [v|e]; (split; [cbn|exact (alive _ D')]).
    - apply later_here; [apply D'|apply D'].
    - split; auto. apply later_here; [apply D'|apply D']. }
  assert (FIN : forall y (r : val + exn), during y -> (forall e, r = inr e -> e <> XNoMore) ->
    body_good own B b (length xs) (srethrow r (over y base))).
  { intros y r Dy NX. destruct (OUT y r Dy NX) as [G'|G']; auto. exfalso. apply G'. eapply during_same; eauto. }
  destruct (srun_steps E (length base) steps VVoid (sset_exps s (base ++ [Some o]))) as [y v|y e|]; [| |contradiction].
  - destruct G as (Dy & o' & X & V').
    unfold sexp_free. unfold sbind at 1. unfold sbind at 1, sgets.
    assert (W : going ((if Nat.eqb (s_uncaught y) 0 then sverify E (length base) false else sret tt) y)).
    { destruct (Nat.eqb (s_uncaught y) 0); [eapply CHECK; eauto|]. cbn. split; eauto. }
    unfold sguarded. unfold sbind at 1, sattempt.
    destruct ((if Nat.eqb (s_uncaught y) 0 then sverify E (length base) false else sret tt) y) as [y' []|y' e|]; cbn in W.
    + destruct W as (D' & o2 & X2 & V2). destruct (end_good y' o2 D' X2) as [Q _]. rewrite (sbind_ok _ _ _ _ _ _ _ Q).
      apply (FIN y' (inl v) D'). discriminate.
    + destruct W as (NX & D' & o2 & X2 & V2). destruct (end_good y' o2 D' X2) as [Q _]. rewrite (sbind_ok _ _ _ _ _ _ _ Q).
      apply (FIN y' (inr e) D'). intros e' Qe. now inversion Qe; subst.
    + contradiction.
  - destruct G as (NX & Dy & o' & X & V'). destruct (end_good y o' Dy X) as [Q _]. rewrite (sbind_ok _ _ _ _ _ _ _ Q).
    apply (FIN y (inr e) Dy). intros e' Qe. now inversion Qe; subst.
Qed.
End Verify.

(** Verify(...) with a pattern that can be built. *)
Section Pattern.
Variable xs : list (target * option imatcher).
Variable own : list (nat * nat).
Variable B : nat.
Variable pre : list (option sctx).
Hypothesis EO : Forall (expression_ok E P) xs.
Hypothesis AF : affordable B.
Let b := length pre.
Let cs := seq b (length xs).
Variable sc : scope.
Variable pattern : list (sequence nat).
Hypothesis SC : scope_ok P (length xs) sc.
Hypothesis NE : pattern <> [].
Hypothesis SP : Forall (sound_sequence (length xs)) pattern.
Let pat := map (renumbered b) pattern.
Variable unv : bool.
Variable l : list source.
Hypothesis SO : sources_of xs cs sc pattern = Some (unv, l).
Variable base : list (option expo).

Definition seq_state (o : expo) : Prop := exists ex r, o = ESeq unv l pat ex /\ rep ex r.

Lemma report_going : forall y quiet ev o, during xs own B pre y -> s_exps y = base ++ [Some o] -> seq_state o ->
  going xs own B pre base seq_state (sreport_to E quiet ev y).
Proof.
  intros y quiet ev o D X V. destruct quiet; cbn [sreport_to].
  - cbn. split; [discriminate|]. split; eauto.
  - destruct (reported ev y) as (lg & [Q|(x & NX & Q)]); rewrite Q; cbn.
    + split; [eapply during_same; eauto|eauto].
    + split; auto. split; [eapply during_same; eauto|eauto].
Qed.

Lemma check_seq : forall y o quiet, during xs own B pre y -> s_exps y = base ++ [Some o] -> seq_state o ->
  going xs own B pre base seq_state (sverify E (length base) quiet y).
Proof.
  intros y o quiet D X (ex & r & -> & RP).
  assert (LX : live (s_exps y) (length base) = Some (ESeq unv l pat ex)) by (rewrite X; apply last_live).
  destruct (ex_done ex) eqn:DN.
  - unfold sverify. rewrite (sbind_ok _ _ _ _ _ _ _ (sget_live _ _ _ _ _ LX)). rewrite DN. cbn. split; auto.
    exists (ESeq unv l pat ex). split; auto. exists ex, r. auto.
  - destruct (rep_no_zero _ _ RP) as [RP' NZ].
    set (ex' := mkExp (ex_count ex) (ex_any ex) true).
    set (y1 := sset_exps y (upd (s_exps y) (length base) (Some (ESeq unv l pat ex')))).
    assert (D1 : during xs own B pre y1) by (eapply during_same; eauto).
    assert (X1 : s_exps y1 = base ++ [Some (ESeq unv l pat ex')]) by (unfold y1; cbn; rewrite X; apply upd_app_last).
    assert (V1 : seq_state (ESeq unv l pat ex')) by (exists ex', r; split; auto).
    destruct (analysed E y1 xs b) with (cs := cs) (sc := sc) (pattern := pattern) (unv := unv) (l := l)
      as (actual & n & marks & AN & _ & _ & _ & _ & MK).
    + apply (du_tidy _ _ _ _ _ D1).
    + eapply inv_unique, (du_inv _ _ _ _ _ D1).
    + intros j x N. eapply ctx_number; eauto.
    + eapply at_number; eauto.
    + eapply inv_decided; [apply (du_inv _ _ _ _ _ D1)|apply (du_tidy _ _ _ _ _ D1)|exact EO].
    + apply cs_number.
    + exact SO.
    + eapply scope_sound; [apply (du_inv _ _ _ _ _ D1)|exact SC].
    + exact NE.
    + exact SP.
    + eapply small_calls; eauto.
    + destruct (checked_seq E y (length base) unv l pat ex (no_zero r) actual n marks quiet LX DN RP' NZ AN) as [[_ Q]|(_ & t & k & _ & Q)].
      * exact MK.
      * rewrite Q. cbn. split; [apply (during_marks xs own B pre y1 marks D1)|]. exists (ESeq unv l pat ex'). split; auto.
      * rewrite Q. eapply report_going; eauto.
Qed.

Lemma quant_seq : forall y o q, during xs own B pre y -> s_exps y = base ++ [Some o] -> seq_state o -> quant_int q ->
  going xs own B pre base seq_state (sexp_quant (length base) q y).
Proof.
  intros y o q D X (ex & r & -> & RP) QI.
  assert (LX : live (s_exps y) (length base) = Some (ESeq unv l pat ex)) by (rewrite X; apply last_live).
  destruct (set_quant_spec ex r q RP QI) as (o & Q & H).
  unfold sexp_quant. rewrite (sbind_ok _ _ _ _ _ _ _ (sget_live _ _ _ _ _ LX)). unfold sbind, slift. rewrite Q.
  destruct o as [ex1|]; cbn.
  - destruct H as (_ & RP1 & _). split; [eapply during_same; eauto|]. exists (ESeq unv l pat ex1). split; [rewrite X; apply upd_app_last|].
    exists ex1, (combine r q). auto.
  - split; [discriminate|]. split; auto. exists (ESeq unv l pat ex). split; auto. exists ex, r. auto.
Qed.
End Pattern.

(** VerifyNoOtherInvocations(...). *)
Section NoOther.
Variable xs : list (target * option imatcher).
Variable own : list (nat * nat).
Variable B : nat.
Variable pre : list (option sctx).
Hypothesis EO : Forall (expression_ok E P) xs.
Hypothesis AF : affordable B.
Let b := length pre.
Let cs := seq b (length xs).
Variable l0 l : list source.
Hypothesis SC : Forall (source_ok P (length xs)) l0.
Hypothesis PL : place_all (place_source cs) l0 = Some l.
Variable base : list (option expo).

Definition other_state (o : expo) : Prop := exists done, o = ENoOther l done.

Lemma check_other : forall y o quiet, during xs own B pre y -> s_exps y = base ++ [Some o] -> other_state o ->
  going xs own B pre base other_state (sverify E (length base) quiet y).
Proof.
  intros y o quiet D X (dn & ->).
  assert (LX : live (s_exps y) (length base) = Some (ENoOther l dn)) by (rewrite X; apply last_live).
  unfold sverify. rewrite (sbind_ok _ _ _ _ _ _ _ (sget_live _ _ _ _ _ LX)). destruct dn.
  - cbn. split; auto. exists (ENoOther l true). split; auto. now exists true.
  - set (y1 := sset_exps y (upd (s_exps y) (length base) (Some (ENoOther l true)))).
    assert (D1 : during xs own B pre y1) by (eapply during_same; eauto).
    assert (X1 : s_exps y1 = base ++ [Some (ENoOther l true)]) by (unfold y1; cbn; rewrite X; apply upd_app_last).
    assert (V1 : other_state (ENoOther l true)) by (now exists true).
    assert (PT : sput_exp (length base) (ENoOther l true) y = SOk y1 tt) by reflexivity.
    rewrite (sbind_ok _ _ _ _ _ _ _ PT).
    destruct (sources_spec E y1 xs b) with (cs := cs) (l := l0) as (l' & a & PL' & Q & _).
    + apply (du_tidy _ _ _ _ _ D1).
    + intros j x N. eapply ctx_number; eauto.
    + eapply at_number; eauto.
    + eapply inv_decided; [apply (du_inv _ _ _ _ _ D1)|apply (du_tidy _ _ _ _ _ D1)|exact EO].
    + apply cs_number.
    + eapply sources_sound; [apply (du_inv _ _ _ _ _ D1)|exact SC].
    + rewrite PL in PL'. inversion PL'; subst l'. unfold sbind at 1, sgets. unfold sbind at 1, slift. rewrite Q.
      destruct (filter _ _) as [|i nonv].
      * cbn. split; auto. eauto.
      * destruct quiet; cbn [sreport_to].
        -- cbn. split; [discriminate|]. split; eauto.
        -- destruct (reported (EvNoMore (in_call_order y1 a) (i :: nonv)) y1) as (lg & [Q'|(x & NX & Q')]); rewrite Q'; cbn.
           ++ split; [eapply during_same; eauto|eauto].
           ++ split; auto. split; [eapply during_same; eauto|eauto].
Qed.
End NoOther.

(** ** All statements *)
Theorem stmt_good : forall xs st n own s b, stmt_ok E P xs st -> Forall (expression_ok E P) xs -> length xs <= n ->
  inv own s -> tidy s -> spent s b -> affordable (b + n) -> good own (b + n) (swith_ctxs E xs [] (srun_stmt E st) s).
Proof.
  intros xs st n own s b ST EO LN I T SP AF.
  assert (AF' : affordable (b + length xs)) by (unfold affordable in *; lia).
  assert (G : good own (b + length xs) (swith_ctxs E xs [] (srun_stmt E st) s)).
  2:{ apply (good_more _ own [] (b + length xs)); [now rewrite app_nil_r|lia]. }
  assert (ONE : forall t im i e, designated t i e -> xs = [(t, im)] ->
    (forall own1 me s1, mentioned E s t i e me s1 -> inv (own ++ own1) s1 -> method_at s1 i e = Some me -> spent s1 (b + length xs) ->
       good (own ++ own1) (b + length xs) (sexec E 1 (OStmt [(t, im)] st) s)) ->
    good own (b + length xs) (swith_ctxs E xs [] (srun_stmt E st) s)).
  { intros t im i e D -> H. destruct (inv_mention E P PLAN own s t i e b I D SP) as (own1 & me & s1 & M & I1 & S1);
      [unfold affordable in *; cbn in AF'; lia|].
    apply (good_more _ own own1 (b + 1)); [|cbn; lia]. apply (H own1 me s1 M I1); [eapply mentioned_at; eauto|].
    cbn [length]. rewrite Nat.add_1_r. exact S1. }
  destruct ST as [t im i e rs x D RO NX|xs RN|xs fw SV|t im i e f D CO|xs sc pattern steps SC NE SQ QI|xs sc pattern steps k q SC WR IN RP LT|xs l steps SC NQ].
  - apply (ONE t im i e D eq_refl). intros own1 me s1 M I1 ME S1. inversion EO as [|? ? E0 _]; subst.
    assert (HE : Forall (held E P i e) (map action_of rs)).
    { clear - RO. induction RO; cbn; constructor; auto. now apply held_recorded. }
    destruct x as [(k, y)|].
    + rewrite (stmt_when_interrupted E 0 s t im rs k y i e me s1 M). cbn. split; [now apply (NX k)|]. apply later_here; [eapply inv_same; eauto|exact S1].
    + destruct (Nat.eq_dec (s_uncaught s) 0) as [U|U].
      * rewrite (stmt_when E 0 s t im rs i e me s1 M U). cbn [good]. apply later_here.
        -- eapply (inv_same E P _ (stubbed s1 i e me (new_stub s im (map action_of rs)))); try reflexivity. apply inv_stub; auto.
           apply (expression_settles (t, im)); auto.
        -- apply (spent_put s1 i e (with_stubs me (new_stub s im (map action_of rs) :: me_stubs me))). exact S1.
      * rewrite (stmt_when_unwinding E 0 s t im rs i e me s1 M U). cbn. apply later_here; [eapply inv_same; eauto|exact S1].
  - apply stmt_frame; auto. intros own1 ms s1 I1 T1 S1 C1 D1 A1. cbn [srun_stmt].
    apply (each_body (sdo_fake E) (fun _ _ => ADefault) (fun t => exists x, In x xs /\ fst x = t)) with (ms := ms); auto.
    + intros t m e (x & IX & <-) D. cbn. eapply RN; eauto.
    + apply Forall_forall. intros x IX. eauto.
  - apply stmt_frame; auto. intros own1 ms s1 I1 T1 S1 C1 D1 A1. cbn [srun_stmt].
    apply (each_body (fun c => sdo_spy E c fw)
      (fun t p => match t with TMethod _ _ _ => ADelegate (FOrig (fst p) (fst p) (snd p) fw) | TDtor _ => ADelegate (FProg (PRet VVoid)) end)
      (fun t => exists x, In x xs /\ fst x = t)) with (ms := ms); auto.
    + intros t m e (x & IX & Q) D. destruct D as [i slot c d H1 H2 H3 H4 H5 H6|i e d H1 H2 H3]; cbn [held fst snd].
      * right. exists fw, d. repeat split; auto. intro F. apply (SV F x); auto. rewrite Q. econstructor; eauto.
      * left. constructor. constructor.
    + intros own2 s2 c t im m e D I2 L. unfold sdo_spy. unfold sctx_unused. unfold sbind at 1. rewrite (sbind_ok _ _ _ _ _ _ _ (sget_live _ _ _ _ _ L)).
      cbn [sx_committed sx_target]. unfold sret at 1.
      destruct D as [i slot cn d H1 H2 H3 H4 H5 H6|i e d H1 H2 H3]; cbn [fst snd].
      * destruct (class_planned E P _ _ H1) as (x & X & _). destruct (i_mocks _ _ _ _ I2 i x X) as (k & K & (_ & KO & _)).
        assert (Q : (let? k0 := sget s_mocks i in sret (FOrig i (sk_obj k0) slot fw)) s2 = SOk s2 (FOrig i i slot fw)).
        { rewrite (sbind_ok _ _ _ _ _ _ _ (sget_live _ _ _ _ _ K)). now rewrite KO. }
        exact (sbind_ok _ _ _ _ _ _ _ Q).
      * reflexivity.
    + apply Forall_forall. intros x IX. eauto.
  - apply (ONE t im i e D eq_refl). intros own1 me s1 M I1 ME S1. inversion EO as [|? ? E0 _]; subst.
    rewrite (stmt_assign E 0 s t im f i e me s1 M). cbn [good]. apply later_here.
    + eapply (inv_same E P _ (stubbed s1 i e me (new_stub s im [AForever f]))); try reflexivity. apply inv_stub; auto.
      * apply (expression_settles (t, im)); auto.
      * constructor; [|constructor]. cbn. now left.
    + apply (spent_put s1 i e (with_stubs me (new_stub s im [AForever f] :: me_stubs me))). exact S1.
  - apply stmt_frame; auto. intros own1 ms s1 I1 T1 S1 C1 D1 A1. cbn [srun_stmt].
    assert (DU : during xs (own ++ own1) (b + length xs) (s_ctxs s) s1).
    { constructor; auto. intros x IX. clear - A1 IX. induction A1 as [|x0 p l l' H F IH]; [destruct IX|]. destruct IX as [<-|IX]; eauto. }
    destruct (made E s1 xs (length (s_ctxs s))) with (cs := seq (length (s_ctxs s)) (length xs)) (sc := sc) (pattern := pattern)
      as (sc' & unv & l & P1 & P2 & SO & MK); auto.
    + intros j x N. eapply ctx_number; eauto.
    + eapply at_number; eauto.
    + eapply inv_decided; eauto.
    + apply cs_number.
    + eapply scope_sound; eauto.
    + rewrite P1, P2.
      eapply (vstmt_good xs (own ++ own1) (b + length xs) (s_ctxs s) (s_exps s1)
        (seq_state (s_ctxs s) pattern unv l)) with (oks := fun v => match v with VsQuant q => quant_int q | VsBool => True end).
      * intros y o quiet Dy X V. eapply check_seq; eauto.
      * intros y o q Dy X V O. eapply quant_seq; eauto.
      * exact DU.
      * exact MK.
      * exists exp_new, (ReqAtLeast 1). split; [reflexivity|apply rep_new].
      * apply Forall_forall. intros [q|] IN; auto.
  - apply stmt_frame; auto. intros own1 ms s1 I1 T1 S1 C1 D1 A1. cbn [srun_stmt].
    assert (DU : during xs (own ++ own1) (b + length xs) (s_ctxs s) s1).
    { constructor; auto. intros x IX. clear - A1 IX. induction A1 as [|x0 p l l' H F IH]; [destruct IX|]. destruct IX as [<-|IX]; eauto. }
    destruct (unmade E s1 xs (length (s_ctxs s))) with (cs := seq (length (s_ctxs s)) (length xs)) (sc := sc) (pattern := pattern) (n := k) (q := q)
      as (sc' & P1 & P2 & MK); auto.
    + intros j x N. eapply ctx_number; eauto.
    + eapply at_number; eauto.
    + eapply inv_decided; eauto.
    + apply cs_number.
    + eapply scope_sound; eauto.
    + rewrite P1, P2. unfold sverify_stmt. rewrite (sbind_exn _ _ _ _ _ _ _ MK). split; cbn.
      * split; [discriminate|]. apply later_here; auto.
      * intros c L. eapply alive; eauto.
  - apply stmt_frame; auto. intros own1 ms s1 I1 T1 S1 C1 D1 A1. cbn [srun_stmt].
    assert (DU : during xs (own ++ own1) (b + length xs) (s_ctxs s) s1).
    { constructor; auto. intros x IX. clear - A1 IX. induction A1 as [|x0 p l1 l' H F IH]; [destruct IX|]. destruct IX as [<-|IX]; eauto. }
    destruct (sources_spec E s1 xs (length (s_ctxs s))) with (cs := seq (length (s_ctxs s)) (length xs)) (l := l) as (l' & a & PL & _); auto.
    + intros j x N. eapply ctx_number; eauto.
    + eapply at_number; eauto.
    + eapply inv_decided; eauto.
    + apply cs_number.
    + eapply sources_sound; eauto.
    + rewrite PL.
      eapply (vstmt_good xs (own ++ own1) (b + length xs) (s_ctxs s) (s_exps s1) (other_state l')) with (oks := fun v => v = VsBool).
      * intros y o quiet Dy X V. eapply check_other; eauto.
      * intros y o q Dy X V O. discriminate.
      * exact DU.
      * reflexivity.
      * now exists false.
      * apply Forall_forall. intros [q|] IN; auto. exfalso. eapply NQ; eauto.
Qed.

End S.
