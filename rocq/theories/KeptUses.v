(** Consequences: kept expressions and new ones, verifications that change nothing, names. *)
From Coq Require Import Bool String NArith Arith Lia List.
From Verif Require Import Base Kept Spec_Kept KeptProofs.
Import ListNotations.
Open Scope list_scope.
Open Scope nat_scope.

Section Uses.
Variable A : Type.
Variable show : A -> string.
Variable cname : nat -> nat -> string.
Variable around : nat -> bool.
Notation op := (kop A).
Notation run os := (k_run A show cname around os (k_init A)).
Notation story_by := (story_by A show around).
Notation story := (story A show cname around).

Lemma story_by_app nm os : forall h os', story_by nm h (os ++ os') = story_by nm h os ++ story_by nm (rev os ++ h) os'.
Proof.
  induction os as [|o r IH]; intros h os'; [reflexivity|]. cbn [app Spec_Kept.story_by rev].
  rewrite IH, <- app_assoc. reflexivity.
Qed.

Lemma keeps_app os : forall h os', keeps A h (os ++ os') = keeps A h os && keeps A (rev os ++ h) os'.
Proof.
  induction os as [|o r IH]; intros h os'; [reflexivity|]. cbn [app keeps rev].
  rewrite IH, <- app_assoc, andb_assoc. reflexivity.
Qed.

(** ** Kept and new expressions *)

Lemma about_new h m k mock method c m' k' :
  about A (KMention A m k mock method c :: h) (length (written A h)) m' k' = same m' k' m k.
Proof. unfold about. cbn [written]. rewrite nth_error_app2, Nat.sub_diag by lia. reflexivity. Qed.

Lemma accepts_new h m k mock method c a :
  accepts A (KMention A m k mock method c :: h) (length (written A h)) a = c_ok A c a.
Proof. unfold accepts. cbn [written]. rewrite nth_error_app2, Nat.sub_diag by lia. reflexivity. Qed.

Lemma hit_new h e m k mock method c r : nth_error (written A h) e = Some (m, k, c) ->
  hit A (KMention A m k mock method c :: h) (length (written A h)) r = hit A h e r.
Proof.
  intros W. unfold hit. rewrite about_new, accepts_new. unfold about, accepts. rewrite W. reflexivity.
Qed.

Lemma not_stubbed_new h s m k mock method c : Inv A cname h s ->
  stubbed A (KMention A m k mock method c :: h) (length (written A h)) = false.
Proof.
  intros R. destruct (stubbed A _ _) eqn:E; [|reflexivity]. cbn [stubbed existsb orb] in E.
  pose proof (rp_flag _ _ _ _ _ _ _ _ _ R _ E). lia.
Qed.

Lemma run_inv os : forall h s, Inv A cname h s -> keeps A h os = true -> exists s', Inv A cname (rev os ++ h) s'.
Proof.
  induction os as [|o r IH]; intros h s R X; [exists s; exact R|].
  cbn [keeps] in X. apply andb_true_iff in X. destruct X as [X Y].
  destruct (step_ok A show cname around h s o R X) as [s1 [_ R1]]. destruct (IH _ _ R1 Y) as [s2 R2].
  exists s2. cbn [rev]. rewrite <- app_assoc. exact R2.
Qed.

(** Verify and VerifyNoOtherInvocations through an expression. *)
Definition through (v : nat -> op) : Prop := (exists q, forall e, v e = KVerify A e q) \/ (forall e, v e = KNoOther A e).

Lemma as_new os v e m k c mock method : through v ->
  keeps A [] (os ++ [v e]) = true -> nth_error (written A (rev os)) e = Some (m, k, c) ->
  exists s s' xs x y,
    run (os ++ [v e]) = Def (s, xs ++ [x]) /\
    run (os ++ [KMention A m k mock method c; v (length (written A (rev os)))]) = Def (s', xs ++ [KDone; y]) /\
    (x = KPassed <-> y = KPassed).
Proof.
  intros V X W.
  destruct (kept_story A show cname around _ X) as [s Es].
  rewrite keeps_app in X. apply andb_true_iff in X. destruct X as [X1 X2]. rewrite app_nil_r in X2.
  destruct (run_inv os [] _ (init_ok A cname) X1) as [s0 R0]. rewrite app_nil_r in R0.
  assert (Y : keeps A [] (os ++ [KMention A m k mock method c; v (length (written A (rev os)))]) = true).
  { rewrite keeps_app, X1, app_nil_r. cbn [keeps andb]. rewrite andb_true_r.
    replace (allowed A (rev os) (KMention A m k mock method c)) with true by reflexivity. cbn [andb].
    assert (Q : (length (written A (rev os)) <? length (written A (KMention A m k mock method c :: rev os))) = true).
    { apply Nat.ltb_lt. cbn [written]. rewrite app_length. cbn. lia. }
    pose proof (not_stubbed_new _ _ m k mock method c R0) as Z.
    destruct V as [[q V]|V]; rewrite V; unfold allowed; rewrite Q, Z; [|reflexivity].
    destruct q as [x|[|x]]; [reflexivity| |reflexivity]. rewrite V in X2. discriminate X2. }
  destruct (kept_story A show cname around _ Y) as [s' Es'].
  exists s, s', (story [] os), (tells A show cname around (rev os) (v e)),
    (tells A show cname around (KMention A m k mock method c :: rev os) (v (length (written A (rev os))))).
  split; [|split].
  - rewrite Es. unfold Spec_Kept.story. rewrite story_by_app, app_nil_r. reflexivity.
  - rewrite Es'. unfold Spec_Kept.story. rewrite story_by_app, app_nil_r. reflexivity.
  - set (h := rev os) in *.
    assert (Wn : nth_error (written A (KMention A m k mock method c :: h)) (length (written A h)) = Some (m, k, c)).
    { cbn [written]. rewrite nth_error_app2, Nat.sub_diag by lia. reflexivity. }
    destruct V as [[q V]|V]; rewrite !V; unfold tells; cbn [tells_by].
    + rewrite W, Wn. cbn [history].
      assert (Cn : count A (KMention A m k mock method c :: h) (length (written A h)) (history A h) = count A h e (history A h)).
      { unfold count. f_equal. apply filter_ext. intros r. apply hit_new, W. }
      rewrite Cn. destruct (enough_b q _); split; intros Q; auto; discriminate.
    + cbn [history].
      rewrite (filter_ext _ _ (fun r => f_equal (fun b => b && negb (r_seen A r)) (hit_new h e m k mock method c r W))).
      destruct (filter _ (history A h)); split; intros Q; auto; discriminate.
Qed.

(** What decides. *)
Lemma verify_means os e q m k c :
  keeps A [] (os ++ [KVerify A e q]) = true -> nth_error (written A (rev os)) e = Some (m, k, c) ->
  exists s xs x, run (os ++ [KVerify A e q]) = Def (s, xs ++ [x]) /\
    (x = KPassed <->
     enough q (length (filter (fun r => Nat.eqb (r_mock A r) m && Nat.eqb (r_slot A r) k && c_ok A c (r_args A r))
                 (history A (rev os))))).
Proof.
  intros X W. destruct (kept_story A show cname around _ X) as [s Es].
  exists s, (story [] os), (tells A show cname around (rev os) (KVerify A e q)). split.
  - rewrite Es. unfold Spec_Kept.story. rewrite story_by_app, app_nil_r. reflexivity.
  - unfold tells; cbn [tells_by]. rewrite W. rewrite <- (enough_iff q).
    assert (Cn : count A (rev os) e (history A (rev os)) =
      length (filter (fun r => Nat.eqb (r_mock A r) m && Nat.eqb (r_slot A r) k && c_ok A c (r_args A r)) (history A (rev os)))).
    { unfold count. f_equal. apply filter_ext. intros r. unfold hit, about, accepts. rewrite W. reflexivity. }
    rewrite Cn. destruct (enough_b q _); split; intros Q; auto; discriminate.
Qed.

(** ** Facts about the text of a test *)

Lemma recent_written h e : recent A h e = true -> e < length (written A h).
Proof.
  induction h as [|o r IH]; [discriminate|]. destruct o; cbn [recent written]; auto.
  - rewrite app_length. cbn. intros X. apply orb_true_iff in X. destruct X as [X|X].
    + apply Nat.eqb_eq in X. lia.
    + apply IH in X. lia.
  - intros X. apply andb_true_iff in X. apply IH, X.
Qed.

Lemma recent_name h e m k c : recent A h e = true -> nth_error (written A h) e = Some (m, k, c) ->
  name A cname h m k = spoken A h m k /\ known A h m k = true.
Proof.
  induction h as [|o r IH]; [discriminate|]. destruct o; cbn [recent written name spoken known]; intros X W.
  - destruct (same m k m0 k0) eqn:Q; [auto|]. cbn [orb]. apply orb_true_iff in X. destruct X as [X|X].
    + apply Nat.eqb_eq in X. subst e. rewrite nth_error_app2 in W by lia. rewrite Nat.sub_diag in W. cbn in W.
      assert (Q' : same m k m0 k0 = true) by (apply (proj2 (same_iff _ _ _ _)); injection W; auto). congruence.
    + rewrite nth_error_app1 in W by (apply recent_written, X). auto.
  - destruct (IH X W) as [-> ->]. rewrite orb_true_r. auto.
  - auto.
  - destruct (IH X W) as [-> ->]. rewrite orb_true_r. auto.
  - destruct (IH X W) as [-> ->]. rewrite orb_true_r. auto.
  - apply andb_true_iff in X. destruct X as [X Y]. rewrite W in Y. rewrite Nat.eqb_sym in Y.
    destruct (m =? m0); [discriminate|]. auto.
  - auto.
Qed.

Lemma stubs_known h m k : stubs A h m k <> [] -> known A h m k = true.
Proof.
  induction h as [|o r IH]; [intros X; destruct X; reflexivity|]. destruct o; cbn [stubs known]; auto.
  - intros X. rewrite (IH X). apply orb_true_r.
  - intros X. destruct (about A r e m k); [reflexivity|]. apply IH, X.
  - intros X. rewrite (IH X). apply orb_true_r.
  - intros X. rewrite (IH X). apply orb_true_r.
  - destruct (m =? m0); [intros X; destruct X; reflexivity|auto].
Qed.

Lemma history_known h : forall c, In c (history A h) -> known A h (r_mock A c) (r_slot A c) = true.
Proof.
  induction h as [|o r IH]; [intros c []|]. destruct o; cbn [history known]; intros r0 I.
  - rewrite (IH _ I). apply orb_true_r.
  - rewrite (IH _ I). apply orb_true_r.
  - destruct (answered A r m k a) eqn:An; [|auto]. apply in_app_iff in I. destruct I as [I|[<-|[]]]; [auto|].
    cbn [r_mock r_slot]. apply stubs_known. intros Q. unfold answered in An. rewrite Q in An. discriminate.
  - destruct (enough_b q _).
    + apply in_map_iff in I. destruct I as [c0 [<- I]]. cbn [r_mock r_slot]. rewrite (IH _ I). apply orb_true_r.
    + rewrite (IH _ I). apply orb_true_r.
  - rewrite (IH _ I). apply orb_true_r.
  - apply filter_In in I. destruct I as [I Q]. destruct (r_mock A r0 =? m); [discriminate|auto].
  - apply filter_In in I. apply IH, I.
Qed.

(** ** Names *)

Definition named (h : list op) : Prop := forall m k, known A h m k = true -> name A cname h m k = spoken A h m k.

Lemma named_step h o : named h ->
  match o with KFake _ e | KVerify _ e _ | KNoOther _ e => recent A h e | _ => true end = true -> named (o :: h).
Proof.
  intros J X m k.
  assert (Ab : forall e, recent A h e = true -> about A h e m k = true -> name A cname h m k = spoken A h m k).
  { intros e Q1 Q2. apply about_iff in Q2. destruct Q2 as [c Q2]. apply (recent_name _ _ _ _ _ Q1 Q2). }
  destruct o; cbn [known name spoken].
  - destruct (same m k m0 k0); [auto|apply J].
  - intros K. apply orb_true_iff in K. destruct K as [K|K]; [apply (Ab _ X K)|apply J, K].
  - apply J.
  - intros K. apply orb_true_iff in K. destruct K as [K|K]; [|apply J, K].
    apply andb_true_iff in K. apply (Ab _ X), K.
  - intros K. apply orb_true_iff in K. destruct K as [K|K]; [apply (Ab _ X K)|apply J, K].
  - destruct (m =? m0); [discriminate|apply J].
  - apply J.
Qed.

Lemma text_spoken h l : named h -> incl l (history A h) ->
  map (text A show (name A cname) h) l = map (text A show (spoken A) h) l.
Proof.
  intros J I. apply map_ext_in. intros c Ic. unfold text. rewrite (J _ _ (history_known h c (I c Ic))). reflexivity.
Qed.

Lemma tells_spoken h o : named h ->
  match o with KFake _ e | KVerify _ e _ | KNoOther _ e => recent A h e | _ => true end = true ->
  tells_by A show around (name A cname) h o = tells_by A show around (spoken A) h o.
Proof.
  intros J X. destruct o; cbn [tells_by]; auto.
  - destruct (answer A h m k a); [reflexivity|]. destruct (known A h m k) eqn:K; [|reflexivity].
    rewrite (J _ _ K). reflexivity.
  - destruct (nth_error (written A h) e) as [[[m k] c]|] eqn:W; [|reflexivity].
    destruct (enough_b q _); [reflexivity|].
    destruct (recent_name _ _ _ _ _ X W) as [-> _]. rewrite text_spoken; auto.
    intros z Hz. apply filter_In in Hz. apply Hz.
  - assert (I : incl (filter (fun c => hit A h e c && negb (r_seen A c)) (history A h)) (history A h))
      by (intros z Hz; apply filter_In in Hz; apply Hz).
    destruct (filter _ (history A h)) as [|c0 r]; [reflexivity|]. rewrite text_spoken; auto.
Qed.

Lemma story_spoken os : forall h, named h -> prompt A h os = true ->
  story_by (name A cname) h os = story_by (spoken A) h os.
Proof.
  induction os as [|o r IH]; intros h J X; [reflexivity|]. cbn [prompt] in X. apply andb_true_iff in X.
  destruct X as [X Y]. cbn [Spec_Kept.story_by]. rewrite tells_spoken by assumption.
  rewrite IH; [reflexivity|apply named_step; assumption|exact Y].
Qed.

Lemma names_said os : keeps A [] os = true -> prompt A [] os = true ->
  exists s, run os = Def (s, story_by (spoken A) [] os).
Proof.
  intros X Y. destruct (kept_story A show cname around _ X) as [s E]. exists s. rewrite E. unfold Spec_Kept.story.
  rewrite story_spoken; [reflexivity| |exact Y]. intros m k Q. discriminate Q.
Qed.

(** ** Verifications that change nothing *)

Definition forget (c : rec A) : nat * nat * A := (r_mock A c, r_slot A c, r_args A c).

Record alike (h h' : list op) : Prop := mkAlike {
  al_written : written A h = written A h';
  al_stubs : forall m k, stubs A h m k = stubs A h' m k;
  al_known : forall m k, known A h m k = known A h' m k;
  al_name : forall m k, name A cname h m k = name A cname h' m k;
  al_history : map forget (history A h) = map forget (history A h');
  al_stubbed : forall e, stubbed A h e = stubbed A h' e
}.

Lemma forget_filter f l l' : (forall c c', forget c = forget c' -> f c = f c') ->
  map forget l = map forget l' -> map forget (filter f l) = map forget (filter f l').
Proof.
  intros E. revert l'. induction l as [|c r IH]; intros [|c' r'] X; try discriminate X; [reflexivity|].
  cbn [map] in X. assert (X2 : map forget r = map forget r') by (injection X; auto).
  assert (X1 : forget c = forget c') by (injection X as Q1 Q2 Q3 Q4; unfold forget; rewrite Q1, Q2, Q3; reflexivity). clear X. rename X1 into X.
  cbn [filter]. rewrite (E _ _ X). destruct (f c'); cbn [map]; rewrite (IH r' X2); [rewrite X|]; reflexivity.
Qed.

Lemma forget_length l l' : map forget l = map forget l' -> length l = length l'.
Proof. intros X. rewrite <- (map_length forget l), X. apply map_length. Qed.

Lemma alike_about h h' e m k : alike h h' -> about A h e m k = about A h' e m k.
Proof. intros L. unfold about. rewrite (al_written _ _ L). reflexivity. Qed.

Lemma alike_accepts h h' e a : alike h h' -> accepts A h e a = accepts A h' e a.
Proof. intros L. unfold accepts. rewrite (al_written _ _ L). reflexivity. Qed.

Lemma alike_hit h h' e c : alike h h' -> hit A h e c = hit A h' e c.
Proof. intros L. unfold hit. rewrite (alike_about _ _ _ _ _ L), (alike_accepts _ _ _ _ L). reflexivity. Qed.

Lemma hit_forget h e c c' : forget c = forget c' -> hit A h e c = hit A h e c'.
Proof. unfold forget, hit. intros X. injection X as -> -> ->. reflexivity. Qed.

Lemma alike_count h h' e : alike h h' -> count A h e (history A h) = count A h' e (history A h').
Proof.
  intros L. unfold count. rewrite (filter_ext _ _ (fun c => alike_hit h h' e c L)).
  apply forget_length, forget_filter; [intros; apply hit_forget; assumption|apply (al_history _ _ L)].
Qed.

Lemma alike_mock h h' m : alike h h' -> map forget (on_mock A m (history A h)) = map forget (on_mock A m (history A h')).
Proof.
  intros L. apply forget_filter; [|apply (al_history _ _ L)]. unfold forget. intros c c' X. injection X as -> _ _. reflexivity.
Qed.

Lemma alike_answered h h' m k a : alike h h' -> answered A h m k a = answered A h' m k a.
Proof.
  intros L. unfold answered. rewrite (al_stubs _ _ L). generalize (stubs A h' m k).
  induction l as [|e r IH]; [reflexivity|]. cbn [existsb]. rewrite IH, (alike_accepts _ _ _ _ L). reflexivity.
Qed.

Lemma alike_answer h h' m k a : alike h h' -> answer A h m k a = answer A h' m k a.
Proof.
  intros L. unfold answer. rewrite (al_stubs _ _ L). generalize (stubs A h' m k).
  induction l as [|e r IH]; [reflexivity|]. cbn [find]. rewrite IH, (alike_accepts _ _ _ _ L). reflexivity.
Qed.

Lemma alike_step h h' o : alike h h' -> alike (o :: h) (o :: h').
Proof.
  intros L. pose proof L as [W S K N H F]. constructor.
  - destruct o; cbn [written]; rewrite W; reflexivity.
  - intros m k. destruct o; cbn [stubs]; rewrite ?S; auto. rewrite (alike_about _ _ _ _ _ L). reflexivity.
  - intros m k. destruct o; cbn [known]; rewrite ?K; auto.
    + rewrite (alike_about _ _ _ _ _ L). reflexivity.
    + rewrite (alike_about _ _ _ _ _ L), (alike_count _ _ _ L), (forget_length _ _ (alike_mock _ _ m L)). reflexivity.
    + rewrite (alike_about _ _ _ _ _ L). reflexivity.
  - intros m k. destruct o; cbn [name]; rewrite ?N; reflexivity.
  - destruct o; cbn [history]; auto.
    + rewrite (alike_answered _ _ _ _ _ L). destruct (answered A h' m k a); [|exact H]. rewrite !map_app, H. reflexivity.
    + rewrite (alike_count _ _ _ L). destruct (enough_b q _); [|exact H]. rewrite !map_map. exact H.
    + apply forget_filter; [|exact H]. unfold forget. intros c c' X. injection X as -> _ _. reflexivity.
    + apply forget_filter; [|exact H]. unfold forget. intros c c' X. injection X as -> _ _. reflexivity.
  - intros e. destruct o; cbn [stubbed existsb]; try apply F. f_equal. apply F.
Qed.

Lemma alike_tells h h' o : alike h h' -> (forall e, o <> KNoOther A e) ->
  tells A show cname around h o = tells A show cname around h' o.
Proof.
  intros L X. unfold tells. destruct o; cbn [tells_by]; auto.
  - rewrite (alike_answer _ _ _ _ _ L), (al_known _ _ L), (al_name _ _ L). reflexivity.
  - rewrite (al_written _ _ L). destruct (nth_error (written A h') e) as [[[m k] c]|]; [|reflexivity].
    rewrite (alike_count _ _ _ L), (al_name _ _ L).
    assert (T : map (text A show (name A cname) h) (on_mock A m (history A h)) =
                map (text A show (name A cname) h') (on_mock A m (history A h'))).
    { pose proof (alike_mock _ _ m L) as Q. revert Q. generalize (on_mock A m (history A h)), (on_mock A m (history A h')).
      induction l as [|c0 r IH]; intros [|c1 r'] Q; try discriminate Q; [reflexivity|].
      cbn [map] in Q |- *. injection Q as Q1 Q2 Q3 Q4. rewrite (IH _ Q4). unfold text. rewrite Q1, Q2, Q3, (al_name _ _ L). reflexivity. }
    rewrite T. reflexivity.
  - destruct (X e eq_refl).
Qed.

Lemma alike_allowed h h' o : alike h h' -> allowed A h o = allowed A h' o.
Proof.
  intros L. destruct o; cbn [allowed]; auto; rewrite ?(al_written _ _ L), ?(al_stubbed _ _ L); auto.
  - unfold in_force. rewrite (al_written _ _ L). destruct (nth_error (written A h') e) as [[[m k] c]|]; [|reflexivity].
    rewrite (al_stubs _ _ L). reflexivity.
  - unfold in_force. rewrite (al_written _ _ L). destruct (nth_error (written A h') e) as [[[m k] c]|]; [|reflexivity].
    rewrite (al_stubs _ _ L). reflexivity.
Qed.

Lemma alike_rest os : forall h h', alike h h' -> Forall (fun o => forall e, o <> KNoOther A e) os ->
  story h os = story h' os /\ keeps A h os = keeps A h' os.
Proof.
  induction os as [|o r IH]; intros h h' L F; [split; reflexivity|]. inversion F as [|o' r' F1 F2]; subst.
  destruct (IH _ _ (alike_step _ _ o L) F2) as [E1 E2]. cbn [keeps]. rewrite E2, (alike_allowed _ _ _ L).
  split; [|reflexivity]. unfold Spec_Kept.story in *. cbn [Spec_Kept.story_by]. rewrite E1.
  f_equal. apply alike_tells; assumption.
Qed.

Lemma alike_verified h v e m k c : through v -> nth_error (written A h) e = Some (m, k, c) -> known A h m k = true ->
  alike (v e :: h) h.
Proof.
  intros V W K. assert (Kn : forall b m' k', about A h e m' k' && b || known A h m' k' = known A h m' k').
  { intros b m' k'. rewrite (about_same _ _ _ _ _ _ W). destruct (same m' k' m k) eqn:Q; [|reflexivity].
    apply same_iff in Q. destruct Q as [-> ->]. rewrite K. apply orb_true_r. }
  destruct V as [[q V]|V]; rewrite V; constructor; auto.
  - intros m' k'. cbn [known]. apply Kn.
  - cbn [history]. destruct (enough_b q _); [|reflexivity]. rewrite map_map. reflexivity.
  - intros m' k'. cbn [known]. rewrite <- (andb_true_r (about A h e m' k')). apply Kn.
Qed.

Lemma quiet os v e os' : through v -> keeps A [] (os ++ v e :: os') = true -> recent A (rev os) e = true ->
  Forall (fun o => forall e', o <> KNoOther A e') os' ->
  exists s s' xs x ys, run (os ++ v e :: os') = Def (s, xs ++ x :: ys) /\ run (os ++ os') = Def (s', xs ++ ys) /\
    length xs = length os.
Proof.
  intros V X R F. destruct (kept_story A show cname around _ X) as [s Es].
  rewrite keeps_app in X. apply andb_true_iff in X. destruct X as [X1 X2]. rewrite app_nil_r in X2.
  cbn [keeps] in X2. apply andb_true_iff in X2. destruct X2 as [X2 X3].
  pose proof (recent_written _ _ R) as Q. apply nth_error_Some in Q.
  destruct (nth_error (written A (rev os)) e) as [[[m k] c]|] eqn:W; [|congruence].
  destruct (recent_name _ _ _ _ _ R W) as [_ K].
  destruct (alike_rest os' _ _ (alike_verified _ v _ _ _ _ V W K) F) as [E1 E2]. rewrite X3 in E2.
  assert (Y : keeps A [] (os ++ os') = true) by (rewrite keeps_app, X1, app_nil_r, <- E2; reflexivity).
  destruct (kept_story A show cname around _ Y) as [s' Es'].
  exists s, s', (story [] os), (tells A show cname around (rev os) (v e)), (story (rev os) os').
  repeat split.
  - rewrite Es. unfold Spec_Kept.story in *. rewrite story_by_app, app_nil_r. cbn [Spec_Kept.story_by]. rewrite E1. reflexivity.
  - rewrite Es'. unfold Spec_Kept.story. rewrite story_by_app, app_nil_r. reflexivity.
  - unfold Spec_Kept.story. clear. generalize (@nil op). induction os as [|o r IH]; intros h; [reflexivity|].
    cbn [Spec_Kept.story_by length]. rewrite IH. reflexivity.
Qed.

End Uses.
