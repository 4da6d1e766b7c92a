(** Proofs about Within.v. *)
From Coq Require Import Bool Arith Lia List.
From Verif Require Import Base Asked Within Spec_Within.
Import ListNotations.

Section Proofs.
Context {A P : Type}.
Variable body : P -> A -> prog P.
Variable act : nat -> A -> prog P.
Local Notation key := (fun r : rcall A => (n_args r, n_by r)).

Lemma key_length : forall s s' : st A, map key (calls s') = map key (calls s) -> length (calls s') = length (calls s).
Proof. intros s s' H. apply (f_equal (@length _)) in H. rewrite !map_length in H. exact H. Qed.

Lemma later_refl : forall s : st A, later s s [].
Proof.
  intros s. split; [rewrite app_nil_r; reflexivity|]. split; [constructor|]. split; [reflexivity|].
  intros i r r' H1 H2. rewrite H1 in H2. inversion H2. split; [auto|]. intros [H|(l & [] & _)]. assumption.
Qed.

Lemma later_trans : forall (s s1 s2 : st A) n1 n2, later s s1 n1 -> later s1 s2 n2 -> later s s2 (n1 ++ n2).
Proof.
  intros s s1 s2 n1 n2 (L1 & F1 & K1 & M1) (L2 & F2 & K2 & M2). assert (length (calls s1) = length (calls s)) as E by (apply key_length; assumption).
  split; [rewrite L2, L1, app_assoc; reflexivity|]. split; [apply Forall_app; split; [assumption|rewrite <- E; assumption]|].
  split; [congruence|]. intros i r r2 H1 H2.
  destruct (nth_error (calls s1) i) as [r1|] eqn:H3; [|apply nth_error_None in H3; assert (nth_error (calls s) i <> None) as N by congruence; apply nth_error_Some in N; lia].
  rewrite (M2 _ _ _ H3 H2), (M1 _ _ _ H1 H3). split.
  - intros [[H|(l & I1 & I2)]|(l & I1 & I2)]; [auto| |]; right; exists l; (split; [apply in_or_app; auto|assumption]).
  - intros [H|(l & I1 & I2)]; [auto|]. apply in_app_or in I1. destruct I1 as [I1|I1]; [left; right|right]; exists l; auto.
Qed.

Lemma nth_marked : forall (g : nat * rcall A -> rcall A) cs k i,
  nth_error (map g (combine (seq k (length cs)) cs)) i = option_map (fun r => g (k + i, r)) (nth_error cs i).
Proof.
  intros g. induction cs as [|c cs IH]; intros k i; cbn; [destruct i; reflexivity|]. destruct i as [|i]; cbn; [rewrite Nat.add_0_r; reflexivity|].
  rewrite IH. rewrite Nat.add_succ_comm. reflexivity.
Qed.

Lemma key_marked : forall l (cs : list (rcall A)) k,
  map key (map (fun ir => if existsb (Nat.eqb (fst ir)) l then mkN (n_args (snd ir)) (n_by (snd ir)) true else snd ir) (combine (seq k (length cs)) cs)) = map key cs.
Proof.
  intros l. induction cs as [|c cs IH]; intros k; cbn; [reflexivity|]. f_equal; [destruct (existsb (Nat.eqb k) l); reflexivity|apply IH].
Qed.

Lemma existsb_in : forall i l, existsb (Nat.eqb i) l = true <-> In i l.
Proof.
  intros i l. rewrite existsb_exists. split; [intros (x & H & E); apply Nat.eqb_eq in E; subst; assumption|].
  intros H. exists i. split; [assumption|apply Nat.eqb_refl].
Qed.

Lemma later_note : forall (s : st A) l b,
  later s (note (mkLook (length (calls s)) l b) (if b then mark l s else s)) [mkLook (length (calls s)) l b].
Proof.
  intros s l b. split; [destruct b; reflexivity|]. split; [repeat constructor|]. split.
  - destruct b; cbn [note calls]; [apply key_marked|reflexivity].
  - intros i r r' H1 H2. destruct b; cbn [note calls mark] in H2.
    + rewrite nth_marked, H1 in H2. cbn in H2. destruct (existsb (Nat.eqb i) l) eqn:X; inversion H2; subst; cbn.
      * split; [|reflexivity]. intros _. right. eexists. split; [left; reflexivity|]. split; [reflexivity|]. apply existsb_in. assumption.
      * split; [auto|]. intros [H|(l' & [<-|[]] & _ & I1)]; [assumption|]. cbn in I1. apply existsb_in in I1. congruence.
    + rewrite H1 in H2. inversion H2; subst. split; [auto|]. intros [H|(l' & [<-|[]] & F & _)]; [assumption|discriminate].
Qed.

(** Running code that verifies, given what its conditions do. *)
Section Exec.
Variable ask : st A -> P -> A -> outcome (st A * reply).
Hypothesis ask_later : forall s p a s' x, ask s p a = Def (s', x) -> exists new, later s s' new.

Lemma matches_later : forall s c r s' x, matches ask s c r = Def (s', x) -> exists new, later s s' new.
Proof.
  intros s c r s' x H. unfold matches in H. destruct (n_by r =? fst c); [inversion H; subst; exists []; apply later_refl|]. eapply ask_later; eassumption.
Qed.

Lemma scan_later : forall c todo i s s' o, scan ask c todo i s = Def (s', o) -> exists new, later s s' new.
Proof.
  intros c. induction todo as [|r todo IH]; intros i s s' o H; cbn in H; [inversion H; subst; exists []; apply later_refl|].
  destruct (matches ask s c r) as [[s1 x]| |] eqn:M; cbn in H; try discriminate. apply matches_later in M. destruct M as (n1 & M).
  destruct x.
  - destruct (scan ask c todo (S i) s1) as [[s2 o2]| |] eqn:C; cbn in H; try discriminate. inversion H; subst.
    destruct (IH _ _ _ _ C) as (n2 & C2). exists (n1 ++ n2). eapply later_trans; eassumption.
  - destruct (IH _ _ _ _ H) as (n2 & C2). exists (n1 ++ n2). eapply later_trans; eassumption.
  - inversion H; subst. eauto.
Qed.

Lemma exec_later : forall p s s' x, exec ask s p = Def (s', x) -> exists new, later s s' new.
Proof.
  induction p as [x|c need k IH|k IH]; intros s s' y H; cbn [exec] in H.
  - inversion H; subst. exists []. apply later_refl.
  - destruct (scan ask c (calls s) 0 s) as [[s1 o]| |] eqn:C; cbn [obind] in H; try discriminate. apply scan_later in C. destruct C as (n1 & C).
    destruct o as [l|]; [|inversion H; subst; eauto]. apply IH in H. destruct H as (n2 & H).
    assert (length (calls s1) = length (calls s)) as E by (apply key_length; apply C). rewrite <- E in H.
    eexists. eapply later_trans; [exact C|]. eapply later_trans; [apply later_note|exact H].
  - apply IH in H. destruct H as (n2 & H). eexists. eapply later_trans; [|exact H].
    assert (later s (note (mkLook (length (calls s)) [] (forallb n_seen (calls s))) s) [mkLook (length (calls s)) [] (forallb n_seen (calls s))]) as N; [|exact N].
    split; [reflexivity|]. split; [repeat constructor|]. split; [reflexivity|].
    intros i r r' H1 H2. cbn in H2. rewrite H1 in H2. inversion H2; subst. split; [auto|].
    intros [H0|(l' & [<-|[]] & _ & [])]. assumption.
Qed.

(** A condition whose answers depend on the arguments only. *)
Lemma scan_steady : forall id p f, (forall s a s' x, ask s p a = Def (s', x) -> x = if f a : bool then Yes else No) ->
  forall todo i s s' o, scan ask (id, p) todo i s = Def (s', o) ->
  o = Some (filter (fun j => match nth_error todo (j - i) with Some r => (n_by r =? id) || f (n_args r) | None => false end) (seq i (length todo))).
Proof.
  intros id p f F. induction todo as [|r todo IH]; intros i s s' o H; cbn in H; [inversion H; reflexivity|].
  destruct (matches ask s (id, p) r) as [[s1 x]| |] eqn:M; cbn in H; try discriminate.
  assert (x = if (n_by r =? id) || f (n_args r) then Yes else No) as X.
  { unfold matches in M. cbn in M. destruct (n_by r =? id); cbn; [inversion M; reflexivity|]. eapply F; eassumption. }
  assert (filter (fun j => match nth_error (r :: todo) (j - i) with Some r => (n_by r =? id) || f (n_args r) | None => false end) (seq (S i) (length todo)) =
          filter (fun j => match nth_error todo (j - S i) with Some r => (n_by r =? id) || f (n_args r) | None => false end) (seq (S i) (length todo))) as Z.
  { apply filter_ext_in. intros j Hj. apply in_seq in Hj. replace (j - i) with (S (j - S i)) by lia. reflexivity. }
  cbn [length seq filter]. rewrite Nat.sub_diag. cbn [nth_error]. rewrite Z.
  destruct ((n_by r =? id) || f (n_args r)); subst x.
  - destruct (scan ask (id, p) todo (S i) s1) as [[s2 o2]| |] eqn:C; cbn in H; try discriminate. inversion H; subst. apply IH in C. rewrite C. reflexivity.
  - apply IH in H. exact H.
Qed.

Lemma exec_steady : forall id p f need k s s' x, (forall s a s' x, ask s p a = Def (s', x) -> x = if f a : bool then Yes else No) ->
  exec ask s (Check (id, p) need k) = Def (s', x) ->
  exists s1 new, later s s1 new /\ let l := accepted s id f in let b := need (length l) in
    exec ask (note (mkLook (length (calls s)) l b) (if b then mark l s1 else s1)) (k b) = Def (s', x).
Proof.
  intros id p f need k s s' x F H. cbn [exec] in H.
  destruct (scan ask (id, p) (calls s) 0 s) as [[s1 o]| |] eqn:C; cbn [obind] in H; try discriminate.
  destruct (scan_later _ _ _ _ _ _ C) as (new & L). apply (scan_steady id p f F) in C.
  assert (o = Some (accepted s id f)) as ->.
  { rewrite C. unfold accepted. f_equal. apply filter_ext. intros j. rewrite Nat.sub_0_r. reflexivity. }
  exists s1, new. split; [assumption|exact H].
Qed.
End Exec.

Lemma ask_later : forall d s p a s' x, ask body d s p a = Def (s', x) -> exists new, later s s' new.
Proof.
  induction d as [|d IH]; intros s p a s' x H; cbn [ask] in H; [discriminate|]. eapply exec_later; [|exact H]. intros. eapply IH; eassumption.
Qed.

Lemma run_later : forall d s p s' x, exec (ask body d) s p = Def (s', x) -> exists new, later s s' new.
Proof. intros d s p s' x H. eapply exec_later; [|exact H]. intros. eapply ask_later; eassumption. Qed.

Lemma run_steady : forall d id p f need k s s' x, (forall s a s' x, ask body d s p a = Def (s', x) -> x = if f a : bool then Yes else No) ->
  exec (ask body d) s (Check (id, p) need k) = Def (s', x) ->
  exists s1 new, later s s1 new /\ let l := accepted s id f in let b := need (length l) in
    exec (ask body d) (note (mkLook (length (calls s)) l b) (if b then mark l s1 else s1)) (k b) = Def (s', x).
Proof. intros d. intros. eapply exec_steady; [intros; eapply ask_later; eassumption|eassumption|eassumption]. Qed.

Lemma run_others : forall d k s s' x, exec (ask body d) s (Others k) = Def (s', x) ->
  exists l new, later s s' (l :: new) /\ (l_ok l = true <-> Forall (fun r => n_seen r = true) (calls s)).
Proof.
  clear act. intros d k s s' x H. cbn [exec] in H. apply run_later in H. destruct H as (new & H). do 2 eexists. split.
  - eapply (later_trans _ _ _ [_] new); [|exact H]. split; [reflexivity|]. split; [repeat constructor|]. split; [reflexivity|].
    intros i r r' H1 H2. cbn in H2. rewrite H1 in H2. inversion H2; subst. split; [auto|].
    intros [H0|(l' & [<-|[]] & _ & [])]. assumption.
  - cbn. rewrite forallb_forall, Forall_forall. tauto.
Qed.

Lemma find_later : forall d stubs a s s' r, find body d stubs a s = Def (s', r) ->
  (exists new, later s s' new) /\ match r with inl id => exists p, In (id, p) stubs | inr e => e = Unexpected \/ e = ConditionThrew end.
Proof.
  induction stubs as [|[id p] stubs IH]; intros a s s' r H; cbn in H.
  - inversion H; subst. split; [exists []; apply later_refl|auto].
  - destruct (ask body d s p a) as [[s1 x]| |] eqn:Q; cbn in H; try discriminate. apply ask_later in Q. destruct Q as (n1 & Q). destruct x.
    + inversion H; subst. split; [eauto|]. exists p. left. reflexivity.
    + apply IH in H. destruct H as ((n2 & H) & R). split; [exists (n1 ++ n2); eapply later_trans; eassumption|].
      destruct r; [|assumption]. destruct R as (q & R). exists q. right. assumption.
    + inversion H; subst. split; [eauto|auto].
Qed.

Lemma call_sees : forall d stubs a s s' e, call body act d stubs a s = Def (s', e) ->
  match e with
  | Returned id | ActionThrew id => (exists p, In (id, p) stubs) /\
      exists s1 new1 new2, later s s1 new1 /\ later (recorded s1 a id) s' new2
  | Unexpected | ConditionThrew => exists new, later s s' new
  end.
Proof.
  intros d stubs a s s' e H. unfold call in H. destruct (find body d (rev stubs) a s) as [[s1 r]| |] eqn:F; cbn in H; try discriminate.
  apply find_later in F. destruct F as ((n1 & L1) & R). destruct r as [id|e1].
  - destruct (exec (ask body d) (mkW (calls s1 ++ [mkN a id false]) (looks s1)) (act id a)) as [[s2 x]| |] eqn:X; cbn in H; try discriminate.
    apply run_later in X. destruct X as (n2 & L2). destruct R as (p & R). apply in_rev in R.
    inversion H; subst. destruct x; (split; [exists p; assumption|]); exists s1, n1, n2; auto.
  - inversion H; subst. destruct R; subst e; eauto.
Qed.

(** VerifyNoOtherInvocations at the beginning of an action. *)
Lemma call_others : forall d stubs a s s' e id k, act id a = Others k -> call body act d stubs a s = Def (s', e) -> e = Returned id \/ e = ActionThrew id ->
  exists s1 new1 x, later s s1 new1 /\
    exec (ask body d) (note (mkLook (S (length (calls s))) [] false) (recorded s1 a id)) (k false) = Def (s', x).
Proof.
  intros d stubs a s s' e id k K H E. unfold call in H. destruct (find body d (rev stubs) a s) as [[s1 r]| |] eqn:F; cbn [obind] in H; try discriminate.
  apply find_later in F. destruct F as ((n1 & L1) & R). destruct r as [id1|e1].
  - destruct (exec (ask body d) (mkW (calls s1 ++ [mkN a id1 false]) (looks s1)) (act id1 a)) as [[s2 x]| |] eqn:X; cbn [obind] in H; try discriminate.
    assert (id1 = id) as -> by (inversion H; subst; destruct x, E as [E|E]; inversion E; reflexivity).
    rewrite K in X. cbn [exec calls] in X. assert (length (calls s1) = length (calls s)) as LE by (apply key_length; apply L1).
    rewrite forallb_app in X. cbn in X. rewrite andb_false_r in X. rewrite app_length in X. cbn in X. rewrite LE, Nat.add_1_r in X.
    exists s1, n1, x. split; [assumption|]. inversion H; subst. exact X.
  - inversion H; subst. destruct R; subst e; destruct E; discriminate.
Qed.

Lemma scan_own : forall (q : st A -> P -> A -> outcome (st A * reply)) c todo i s s' l, scan q c todo i s = Def (s', Some l) ->
  forall j r, nth_error todo j = Some r -> n_by r = fst c -> In (i + j) l.
Proof.
  intros q c. induction todo as [|r0 todo IH]; intros i s s' l H j r N B; [destruct j; discriminate|]. cbn in H.
  destruct (matches q s c r0) as [[s1 x]| |] eqn:M; cbn in H; try discriminate. destruct j as [|j]; cbn in N.
  - inversion N; subst. unfold matches in M. rewrite B, Nat.eqb_refl in M. inversion M; subst.
    destruct (scan q c todo (S i) s1) as [[s2 o2]| |] eqn:C; cbn in H; try discriminate. inversion H; subst. destruct o2; inversion H2. left. lia.
  - rewrite Nat.add_succ_r. destruct x.
    + destruct (scan q c todo (S i) s1) as [[s2 o2]| |] eqn:C; cbn in H; try discriminate. inversion H; subst. destruct o2 as [l2|]; inversion H2; subst.
      right. apply (IH _ _ _ _ C _ _ N B).
    + apply (IH _ _ _ _ H _ _ N B).
    + discriminate.
Qed.

(** A verification, at the beginning of an action, of the expression that answered. *)
Lemma call_own : forall d stubs a s s' id p need k, act id a = Check (id, p) need k -> call body act d stubs a s = Def (s', Returned id) ->
  exists s1 new1 new2 l new3, later s s1 new1 /\ later (recorded s1 a id) s' (new2 ++ l :: new3) /\
    l_ok l = need (length (l_matched l)) /\ In (length (calls s)) (l_matched l).
Proof.
  intros d stubs a s s' id p need k K H. unfold call in H. destruct (find body d (rev stubs) a s) as [[s1 r]| |] eqn:F; cbn [obind] in H; try discriminate.
  apply find_later in F. destruct F as ((n1 & L1) & R). destruct r as [id1|e1]; [|inversion H; subst; destruct R; discriminate].
  destruct (exec (ask body d) (mkW (calls s1 ++ [mkN a id1 false]) (looks s1)) (act id1 a)) as [[s2 x]| |] eqn:X; cbn [obind] in H; try discriminate.
  assert (id1 = id /\ x <> Raise /\ s2 = s') as (-> & NR & ->) by (inversion H; subst; destruct x; inversion H2; subst; repeat split; discriminate).
  rewrite K in X. cbn [exec] in X. assert (length (calls s1) = length (calls s)) as LE by (apply key_length; apply L1).
  change (mkW (calls s1 ++ [mkN a id false]) (looks s1)) with (recorded s1 a id) in X.
  destruct (scan (ask body d) (id, p) (calls (recorded s1 a id)) 0 (recorded s1 a id)) as [[s3 o]| |] eqn:C; cbn [obind] in X; try discriminate.
  assert (exists n2, later (recorded s1 a id) s3 n2) as (n2 & L2) by (eapply scan_later; [intros; eapply ask_later; eassumption|exact C]).
  destruct o as [l|]; [|inversion X; subst; contradiction]. cbn zeta in X. apply run_later in X. destruct X as (n3 & L3).
  assert (length (calls s3) = length (calls (recorded s1 a id))) as LR by (apply key_length; apply L2). rewrite <- LR in L3.
  exists s1, n1, n2. eexists. exists n3. split; [assumption|]. split; [|split].
  - eapply later_trans; [exact L2|]. apply (later_trans _ _ _ [_] _ (later_note s3 l (need (length l))) L3).
  - reflexivity.
  - cbn [l_matched]. rewrite <- LE. apply (scan_own _ _ _ _ _ _ _ C (length (calls s1)) (mkN a id false)); [|reflexivity].
    cbn. rewrite nth_error_app2, Nat.sub_diag; [reflexivity|lia].
Qed.

Lemma scan_polled : forall (q : st A -> P -> A -> outcome (st A * reply)) c todo i s s' o, scan q c todo i s = Def (s', o) -> polled q c todo i s s' o.
Proof.
  intros q c. induction todo as [|r todo IH]; intros i s s' o H; cbn in H; [inversion H; subst; constructor|].
  unfold matches in H. destruct (Nat.eqb_spec (n_by r) (fst c)) as [B|B].
  - cbn in H. destruct (scan q c todo (S i) s) as [[s2 o2]| |] eqn:C; cbn in H; try discriminate. inversion H; subst.
    apply (QOwn q c r todo i s s' o2 B). apply IH. assumption.
  - destruct (q s (snd c) (n_args r)) as [[s1 x]| |] eqn:Q; cbn in H; try discriminate. destruct x.
    + destruct (scan q c todo (S i) s1) as [[s2 o2]| |] eqn:C; cbn in H; try discriminate. inversion H; subst.
      apply (QYes q c r todo i s s1 s' o2 B Q). apply IH. assumption.
    + apply (QNo q c r todo i s s1 s' o B Q). apply IH. assumption.
    + inversion H; subst. apply QRaise; assumption.
Qed.

Lemma check_polled : forall d c need k s s' x, exec (ask body d) s (Check c need k) = Def (s', x) ->
  exists s1 o, polled (ask body d) c (calls s) 0 s s1 o /\
    match o with
    | None => s' = s1 /\ x = Raise
    | Some l => let b := need (length l) in
        exec (ask body d) (note (mkLook (length (calls s)) l b) (if b then mark l s1 else s1)) (k b) = Def (s', x)
    end.
Proof.
  clear act. intros d c need k s s' x H. cbn [exec] in H.
  destruct (scan (ask body d) c (calls s) 0 s) as [[s1 o]| |] eqn:C; cbn [obind] in H; try discriminate.
  exists s1, o. split; [apply scan_polled; assumption|]. destruct o; [exact H|]. inversion H; auto.
Qed.

Lemma call_turns : forall d stubs a s s' e, call body act d stubs a s = Def (s', e) ->
  exists s1 r, turns (ask body d) a (rev stubs) s s1 r /\
    match r with
    | inl id => exists x, exec (ask body d) (recorded s1 a id) (act id a) = Def (s', x) /\ e = match x with Raise => ActionThrew id | _ => Returned id end
    | inr e1 => s' = s1 /\ e = e1
    end.
Proof.
  intros d stubs a s s' e H. unfold call in H.
  assert (forall l s s1 r, find body d l a s = Def (s1, r) -> turns (ask body d) a l s s1 r) as F.
  { clear. induction l as [|[id p] l IH]; intros s s1 r H; cbn in H; [inversion H; subst; constructor|].
    destruct (ask body d s p a) as [[s2 x]| |] eqn:Q; cbn in H; try discriminate. destruct x.
    - inversion H; subst. eapply TYes; eassumption.
    - eapply TNo; [eassumption|]. apply IH. assumption.
    - inversion H; subst. eapply TRaise; eassumption. }
  destruct (find body d (rev stubs) a s) as [[s1 r]| |] eqn:G; cbn [obind] in H; try discriminate. exists s1, r. split; [apply F; assumption|].
  destruct r as [id|e1].
  - unfold recorded. destruct (exec (ask body d) (mkW (calls s1 ++ [mkN a id false]) (looks s1)) (act id a)) as [[s2 x]| |] eqn:X; cbn [obind] in H; try discriminate.
    inversion H; subst. exists x. auto.
  - inversion H; auto.
Qed.

(** Coming to an end. *)
Variable rank : P -> nat.
Hypothesis ranked : forall p a, below rank (rank p) (body p a).

Lemma exec_total : forall d (q : st A -> P -> A -> outcome (st A * reply)), (forall s p a, rank p < d -> exists s' x, q s p a = Def (s', x)) ->
  forall pr, below rank d pr -> forall s, exists s' x, exec q s pr = Def (s', x).
Proof.
  intros d q Q. assert (forall c, rank (snd c) < d -> forall todo i s, exists s' o, scan q c todo i s = Def (s', o)) as SC.
  { intros c Rc. induction todo as [|r todo IH]; intros i s; cbn; [eauto|].
    assert (exists s1 x, matches q s c r = Def (s1, x)) as (s1 & x & M) by (unfold matches; destruct (n_by r =? fst c); eauto).
    rewrite M. cbn. destruct x; [|apply IH|eauto]. destruct (IH (S i) s1) as (s2 & o & C). rewrite C. cbn. eauto. }
  induction pr as [x|c need k IH|k IH]; intros B s; cbn [exec below] in *; [eauto| |].
  - destruct B as (B1 & B2). destruct (SC c B1 (calls s) 0 s) as (s1 & o & C). rewrite C. cbn [obind]. destruct o; [|eauto]. apply IH. apply B2.
  - apply IH. apply B.
Qed.

Lemma below_mono : forall n m, n <= m -> forall pr, below rank n pr -> below rank m pr.
Proof.
  intros n m L. induction pr as [x|c need k IH|k IH]; cbn; intros B; [auto| |].
  - destruct B as (B1 & B2). split; [lia|]. intros b. apply IH, B2.
  - intros b. apply IH, B.
Qed.

Lemma ask_total : forall d s p a, rank p < d -> exists s' x, ask body d s p a = Def (s', x).
Proof.
  induction d as [|d IH]; intros s p a L; [lia|]. cbn [ask]. apply (exec_total d); [assumption|].
  apply (below_mono (rank p)); [lia|]. apply ranked.
Qed.

Lemma call_total : forall d stubs a s, Forall (fun ip => rank (snd ip) < d) stubs -> (forall id a, below rank d (act id a)) ->
  exists s' e, call body act d stubs a s = Def (s', e).
Proof.
  intros d stubs a s F B. unfold call.
  assert (forall l s, Forall (fun ip => rank (snd ip) < d) l -> exists s' r, find body d l a s = Def (s', r)) as FT.
  { induction l as [|[id p] l IH]; intros s0 Fl; cbn; [eauto|]. inversion Fl as [|? ? F1 F2]; subst. cbn in F1.
    destruct (ask_total d s0 p a F1) as (s1 & x & Q). rewrite Q. cbn. destruct x; eauto. }
  destruct (FT (rev stubs) s (Forall_rev F)) as (s1 & r & R). rewrite R. cbn [obind]. destruct r as [id|e]; [|eauto].
  destruct (exec_total d (ask body d) (ask_total d) (act id a) (B id a) (mkW (calls s1 ++ [mkN a id false]) (looks s1))) as (s2 & x & X).
  rewrite X. cbn. eauto.
Qed.

Lemma verify_total : forall d pr s, below rank d pr -> exists s' x, exec (ask body d) s pr = Def (s', x).
Proof. intros d pr s B. apply (exec_total d); [intros; apply ask_total; assumption|assumption]. Qed.

End Proofs.
