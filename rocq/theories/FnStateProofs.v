(** Proofs about FnState.v. *)
From Coq Require Import ZArith Arith Lia List Sorting.Permutation.
From Verif Require Import Base CInt ActionSeq Spec_Actions ActionSeqProofs FnState Spec_FnState.
Import ListNotations.
Open Scope nat_scope.

Section P.
Context {Ob A R : Type}.
Variable beh : Ob -> A -> Ob * R.
Notation heap := (heap Ob).

Definition alive (h : heap) : nat := length (flat_map (fun c => match c with Some _ => [tt] | None => [] end) h).

Lemma alive_app : forall (h : heap) v, alive (h ++ [Some v]) = S (alive h).
Proof. clear beh. intros. unfold alive. rewrite flat_map_app, app_length. simpl. lia. Qed.

Lemma alive_upd : forall (h : heap) a v v', nth_error h a = Some (Some v) -> alive (upd h a (Some v')) = alive h.
Proof.
  clear beh. induction h as [|c h IH]; intros [|a] v v' H; simpl in *; try discriminate.
  - injection H as ->. reflexivity.
  - unfold alive in *. simpl. rewrite !app_length. now rewrite (IH _ _ v' H).
Qed.

Lemma alive_free : forall (h : heap) a v, nth_error h a = Some (Some v) -> S (alive (upd h a None)) = alive h.
Proof.
  clear beh. induction h as [|c h IH]; intros [|a] v H; simpl in *; try discriminate.
  - injection H as ->. reflexivity.
  - unfold alive in *. simpl. rewrite !app_length. rewrite <- (IH _ _ H). lia.
Qed.

Lemma get_def : forall (h : heap) a v, nth_error h a = Some (Some v) -> get h a = Def v.
Proof. clear beh. intros. unfold get. now rewrite H. Qed.

Lemma nth_some_lt : forall X (l : list X) n x, nth_error l n = Some x -> n < length l.
Proof. intros. apply nth_error_Some. congruence. Qed.

Lemma through_ok : forall n (h : heap) a v, nth_error h a = Some (Some v) ->
  exists h' c, through n h a = Def (h', c) /\ length h <= length h' /\ nth_error h' c = Some (Some v) /\
    (forall i, i < length h -> i <> a -> nth_error h' i = nth_error h i) /\
    (forall i w, nth_error h' i = Some (Some w) -> i = c \/ (i < length h /\ i <> a)) /\
    (c = a \/ length h <= c) /\ alive h' = alive h.
Proof.
  clear beh. induction n as [|n IH]; intros h a v H; cbn [through].
  - exists h, a. repeat split; auto.
    intros i w Hi. destruct (Nat.eq_dec i a); auto. right. split; auto. eapply nth_some_lt; eauto.
  - unfold copy. rewrite (get_def _ _ _ H). cbn [obind alloc].
    assert (La : a < length h) by (eapply nth_some_lt; eauto).
    assert (Hb : nth_error (h ++ [Some v]) (length h) = Some (Some v)).
    { rewrite nth_error_app2 by lia. now rewrite Nat.sub_diag. }
    destruct (IH _ _ _ Hb) as (h2 & c & E & L & Hc & Hsame & Hlive & Hca & Hal).
    rewrite app_length in *. cbn [length] in *.
    rewrite E. cbn [obind].
    assert (H2a : nth_error h2 a = Some (Some v)).
    { rewrite Hsame by lia. now rewrite nth_error_app1 by lia. }
    unfold free. rewrite (get_def _ _ _ H2a). cbn [obind].
    assert (Lc : length h <= c) by lia.
    exists (upd h2 a None), c. split; [reflexivity|]. rewrite upd_length.
    split; [lia|]. split; [rewrite nth_error_upd_other by lia; auto|].
    split.
    { intros i Li Ni. rewrite nth_error_upd_other by lia. rewrite Hsame by lia. now rewrite nth_error_app1 by lia. }
    split.
    { intros i w Hi. rewrite nth_error_upd in Hi. destruct (Nat.eqb_spec a i) as [->|Na].
      - destruct (i <? length h2); discriminate.
      - destruct (Hlive _ _ Hi) as [->|[? ?]]; auto. right. lia. }
    split; [auto|].
    rewrite alive_app in Hal. pose proof (alive_free _ _ _ H2a). lia.
Qed.

(** One link's function in place: a fresh object, nothing else touched, nothing else left over. *)
Lemma keep_ok : forall n (h : heap) g v,
  match g with Copied x => nth_error h x = Some (Some v) | Referred x => v = Wrapper x end ->
  exists h' c, (let! (h1, a) := convert h g in through n h1 a) = Def (h', c) /\
    length h <= c /\ nth_error h' c = Some (Some v) /\
    (forall i, i < length h -> nth_error h' i = nth_error h i) /\
    (forall i w, nth_error h' i = Some (Some w) -> i = c \/ i < length h) /\ alive h' = S (alive h).
Proof.
  clear beh. intros n h g v Hg.
  assert (E0 : convert h g = Def (h ++ [Some v], length h)).
  { destruct g; cbn [convert].
    - rewrite (get_def _ _ _ Hg). reflexivity.
    - subst v. reflexivity. }
  rewrite E0. cbn [obind].
  assert (Hb : nth_error (h ++ [Some v]) (length h) = Some (Some v)).
  { rewrite nth_error_app2 by lia. now rewrite Nat.sub_diag. }
  destruct (through_ok n _ _ _ Hb) as (h2 & c & E & L & Hc & Hsame & Hlive & Hca & Hal).
  rewrite app_length in *. cbn [length] in *.
  exists h2, c. split; auto. split; [lia|]. split; auto. split.
  - intros i Li. rewrite Hsame by lia. now rewrite nth_error_app1 by lia.
  - split.
    + intros i w Hi. destruct (Hlive _ _ Hi) as [|[? ?]]; auto. right. lia.
    + rewrite alive_app in Hal. exact Hal.
Qed.

(** ** What the actions hold *)
Definition bounded (s : aseq nat) : Prop := Forall (fun id => id < length (as_acts s)) (as_used s ++ as_recorded s).

Lemma owned_append : forall s a s' f, bounded s -> append s a = Def s' -> fn_of a = [f] ->
  bounded s' /\ Permutation (owned s') (f :: owned s).
Proof.
  clear beh. intros s a s' f B E Hf. unfold append in E.
  destruct (rev (as_recorded s)) as [|lst before] eqn:Hrev; [discriminate|]. injection E as <-.
  assert (Hrec : as_recorded s = rev before ++ [lst]).
  { apply (f_equal (@rev nat)) in Hrev. now rewrite rev_involutive in Hrev. }
  unfold bounded, owned in *. cbn [as_acts as_used as_recorded]. rewrite Hrec in *.
  rewrite Forall_app in B. destruct B as [Bu Br]. rewrite Forall_app in Br. destruct Br as [Bb Bl].
  inversion Bl; subst. split.
  - rewrite app_length. cbn [length]. rewrite !Forall_app. repeat split.
    + eapply Forall_impl; [|exact Bu]. simpl. lia.
    + eapply Forall_impl; [|exact Bb]. simpl. lia.
    + constructor; [lia|]. constructor; [lia|constructor].
  - set (G := fun acts (id : nat) => match nth_error acts id with Some a => fn_of a | None => [] end).
    assert (Same : forall l, Forall (fun id => id < length (as_acts s)) l ->
              flat_map (G (as_acts s ++ [a])) l = flat_map (G (as_acts s)) l).
    { induction 1; simpl; auto. rewrite IHForall. f_equal. unfold G. now rewrite nth_error_app1 by auto. }
    fold (G (as_acts s ++ [a])) (G (as_acts s)).
    rewrite !flat_map_app.
    assert (E1 : flat_map (G (as_acts s ++ [a])) [length (as_acts s); lst] = f :: flat_map (G (as_acts s)) [lst]).
    { change [length (as_acts s); lst] with ([length (as_acts s)] ++ [lst]). rewrite flat_map_app, (Same [lst]) by auto.
      cbn [flat_map]. unfold G at 1. rewrite nth_error_app2 by lia. rewrite Nat.sub_diag. cbn [nth_error]. rewrite Hf. reflexivity. }
    rewrite E1, (Same (as_used s)), (Same (rev before)) by auto.
    rewrite !app_assoc. apply Permutation_sym, Permutation_middle.
Qed.

Lemma invoke_fn : forall (a a' : action nat) srv, invoke a = Def (a', srv) -> fn_of a' = fn_of a.
Proof.
  clear beh. intros [f t|f| |f|] a' srv H; simpl in H; try (injection H as <- <-; reflexivity).
  unfold long_dec in H. destruct (t =? long_min)%Z; [discriminate|]. simpl in H. injection H as <- <-. reflexivity.
Qed.

Lemma owned_call : forall s s1 id srv s2, bounded s -> handle_begin s = Def (s1, id, srv) -> handle_end s1 id = Def s2 ->
  bounded s2 /\ owned s2 = owned s.
Proof.
  clear beh. intros s s1 id srv s2 B Eb Ee. unfold handle_begin in Eb.
  destruct (as_recorded s) as [|i rest] eqn:Er; [discriminate|].
  destruct (nth_error (as_acts s) i) as [a|] eqn:Ea; [|discriminate]. cbn [of_option obind] in Eb.
  destruct (invoke a) as [[a' v]| |] eqn:Ei; [|discriminate|discriminate]. cbn [obind] in Eb.
  injection Eb as <- <- <-.
  unfold handle_end in Ee. cbn [as_acts as_recorded as_used] in Ee.
  rewrite nth_error_upd_same in Ee by (eapply nth_some_lt; eauto). cbn [of_option obind] in Ee.
  assert (Own : forall used rec, used ++ rec = as_used s ++ as_recorded s ->
     owned {| as_acts := upd (as_acts s) i a'; as_recorded := rec; as_used := used |} = owned s /\
     bounded {| as_acts := upd (as_acts s) i a'; as_recorded := rec; as_used := used |}).
  { intros used rec E. unfold owned, bounded in *. cbn [as_acts as_used as_recorded]. rewrite E. split.
    - clear - Ea Ei. induction (as_used s ++ as_recorded s) as [|j l IH]; simpl; auto. rewrite IH. f_equal.
      rewrite nth_error_upd. destruct (Nat.eqb_spec i j) as [->|]; auto.
      rewrite (proj2 (Nat.ltb_lt _ _) (nth_some_lt _ _ _ _ Ea)). rewrite Ea. eapply invoke_fn; eauto.
    - rewrite upd_length. exact B. }
  destruct (isDone a').
  - injection Ee as <-.
    destruct (Own (as_used s ++ [i]) rest) as [? ?]; [rewrite Er, <- app_assoc; reflexivity|auto].
  - injection Ee as <-. rewrite <- Er. destruct (Own (as_used s) (as_recorded s)) as [? ?]; auto.
Qed.

Lemma rep_owned : forall s p, rep s p -> exists u, owned s = u ++ map fst p.
Proof.
  clear beh. intros s p [_ H]. unfold owned. rewrite flat_map_app. eexists. f_equal.
  revert p H. induction (as_recorded s) as [|i l IH]; intros [|e p] H; simpl in *; try discriminate.
  - injection H as H1 H2. rewrite H1. simpl. destruct l; [reflexivity|discriminate].
  - injection H as H1 H2. rewrite H1. simpl. rewrite (IH _ H2).
    destruct e as [f [n|]]; reflexivity.
Qed.

(** ** The invariant *)
Definition shaped (nv : nat) (v : held Ob) : Prop := match v with Object _ => True | Wrapper x => x < nv end.

Definition J (h : heap) (ss : list (aseq nat)) (os : list Ob) : Prop :=
  Forall bounded ss /\
  length os <= length h /\
  (forall x o, nth_error os x = Some o -> nth_error h x = Some (Some (Object o))) /\
  NoDup (flat_map owned ss) /\
  (forall a, In a (flat_map owned ss) -> length os <= a /\ exists v, nth_error h a = Some (Some v) /\ shaped (length os) v) /\
  alive h = length os + length (flat_map owned ss).

Definition who_at (h : heap) (a : nat) (w : who Ob) : Prop :=
  nth_error h a = Some (Some (match w with Mine o => Object o | Yours x => Wrapper x end)).

Definition planned (h : heap) (s : aseq nat) (es : list (who Ob * option Z)) : Prop :=
  exists p, rep s p /\ Forall entry_ok p /\ Forall2 (fun e e' => who_at h (fst e) (fst e') /\ snd e = snd e') p es.

Lemma given_value : forall h ss os g, J h ss os -> names g < length os ->
  exists v w, match g with Copied x => nth_error h x = Some (Some v) | Referred x => v = Wrapper x end /\
    who_of os g = Some w /\ v = match w with Mine o => Object o | Yours x => Wrapper x end /\ shaped (length os) v.
Proof.
  clear beh. intros h ss os g (_ & _ & Hv & _) L. destruct g as [x|x]; simpl in *.
  - destruct (nth_error os x) as [o|] eqn:E; [|apply nth_error_None in E; lia].
    exists (Object o), (Mine o). simpl. auto.
  - exists (Wrapper x), (Yours x). simpl. auto.
Qed.

Lemma link_ok : forall h s ss os l es, J h (s :: ss) os -> planned h s es -> fair_link (length os) l ->
  exists h' s' w, do_link h s l = Def (h', s') /\ J h' (s' :: ss) os /\
    who_of os (link_given l) = Some w /\ planned h' s' (es ++ [(w, count_of l)]).
Proof.
  clear beh. intros h s ss os l es HJ HP [HL HQ].
  destruct (given_value h (s :: ss) os _ HJ HL) as (v & w & Hg & Hw & Hvw & Hsh).
  destruct (keep_ok (copies l) h _ _ Hg) as (h' & c & E & Lc & Hc & Hsame & Hlive & Hal).
  unfold do_link.
  destruct (convert h (link_given l)) as [[h1 a]| |] eqn:Ec; try discriminate. cbn [obind] in E |- *.
  rewrite E. cbn [obind].
  destruct HP as (p & Hrep & Hok & H2).
  destruct (rep_append s p (recorded_as l c) Hrep) as (s' & Ea & Hrep'). rewrite Ea. cbn [obind].
  destruct HJ as (HB & HLn & Hvars & HND & HM & Hcnt).
  inversion HB as [|? ? Bs Bss]; subst.
  destruct (owned_append s _ s' c Bs Ea) as [Bs' Perm]; [destruct l; reflexivity|].
  cbn [flat_map] in *.
  assert (Perm2 : Permutation (owned s' ++ flat_map owned ss) (c :: owned s ++ flat_map owned ss)).
  { change (c :: owned s ++ flat_map owned ss) with ((c :: owned s) ++ flat_map owned ss).
    apply Permutation_app_tail. exact Perm. }
  assert (Fresh : forall a0, In a0 (owned s ++ flat_map owned ss) -> a0 < length h).
  { intros a0 Hin. destruct (HM _ Hin) as (_ & v' & Hv' & _). eapply nth_some_lt; eauto. }
  exists h', s', w. split; [reflexivity|]. split.
  - split; [constructor; auto|].
    assert (Lh : length h < length h') by (apply nth_some_lt in Hc; lia).
    split; [lia|]. split; [intros x o Ho; rewrite Hsame; [auto|apply nth_some_lt in Ho; lia]|].
    cbn [flat_map]. split.
    { eapply Permutation_NoDup; [apply Permutation_sym; exact Perm2|]. constructor; auto.
      intro Hin. apply Fresh in Hin. lia. }
    split.
    { intros a0 Hin. apply (Permutation_in _ Perm2) in Hin. destruct Hin as [<-|Hin].
      - split; [lia|]. eauto.
      - destruct (HM _ Hin) as (? & v' & Hv' & ?). split; auto. exists v'. split; auto.
        rewrite Hsame by auto. exact Hv'. }
    rewrite (Permutation_length Perm2). cbn [length]. lia.
  - split; [exact Hw|]. exists (p ++ [meant (recorded_as l c)]). split; [exact Hrep'|]. split.
    + apply Forall_app. split; auto. constructor; [|constructor].
      destruct l; unfold entry_ok, long_max; simpl in *; lia.
    + apply Forall2_app.
      * destruct (rep_owned _ _ Hrep) as [u Hu].
        assert (Hin : forall a0, In a0 (map fst p) -> a0 < length h).
        { intros a0 Hi. apply Fresh. rewrite Hu, !in_app_iff. auto. }
        clear - H2 Hsame Hin. induction H2 as [|e e' p es [H1 H3] H2 IH]; constructor.
        -- split; auto. unfold who_at in *. rewrite Hsame; auto. apply Hin. simpl. auto.
        -- apply IH. intros. apply Hin. simpl. auto.
      * constructor; [|constructor]. split.
        -- unfold who_at. destruct l; cbn [recorded_as meant fst]; rewrite Hc; destruct w; reflexivity.
        -- destruct l; reflexivity.
Qed.

Lemma links_ok : forall ls h s ss os es, J h (s :: ss) os -> planned h s es -> Forall (fair_link (length os)) ls ->
  exists h' s', do_links h s ls = Def (h', s') /\ J h' (s' :: ss) os /\ planned h' s' (es ++ plan_of os ls) /\
    length (flat_map owned (s' :: ss)) = length (flat_map owned (s :: ss)) + length ls.
Proof.
  clear beh. induction ls as [|l ls IH]; intros h s ss os es HJ HP HF; cbn [do_links].
  - exists h, s. rewrite app_nil_r. auto.
  - inversion HF as [|? ? Hl Hls]; subst.
    destruct (link_ok _ _ _ _ _ _ HJ HP Hl) as (h1 & s1 & w & E & J1 & Hw & P1). rewrite E. cbn [obind].
    destruct (IH _ _ _ _ _ J1 P1 Hls) as (h2 & s2 & E2 & J2 & P2 & L2).
    exists h2, s2. split; auto. split; auto.
    assert (Ep : plan_of os (l :: ls) = (w, count_of l) :: plan_of os ls) by (unfold plan_of; cbn [flat_map]; now rewrite Hw).
    rewrite Ep. rewrite <- app_assoc in P2. split; auto.
    rewrite L2. cbn [length].
    assert (length (flat_map owned (s1 :: ss)) = S (length (flat_map owned (s :: ss)))).
    { clear - E HJ J1.
      unfold do_link in E. destruct (convert h (link_given l)) as [[h0 a]| |]; try discriminate. cbn [obind] in E.
      destruct (through (copies l) h0 a) as [[h3 c]| |]; try discriminate. cbn [obind] in E.
      destruct (append s (action_of (recorded_as l c))) as [s3| |] eqn:Ea; try discriminate. cbn [obind] in E.
      injection E as <- <-. destruct HJ as (HB & _). inversion HB; subst.
      destruct (owned_append s _ s3 c H1 Ea) as [_ Perm]; [destruct l; reflexivity|].
      cbn [flat_map]. rewrite !app_length. apply Permutation_length in Perm. rewrite Perm. reflexivity. }
    lia.
Qed.

Definition Inv (w : world Ob) (m : mind Ob) : Prop :=
  J (w_heap w) (w_stubs w) (objs m) /\
  match w_stubs w with [] => left_ m = [] | s :: _ => planned (w_heap w) s (left_ m) end.

Lemma replace_nth : forall (os : list Ob) x o y, x < length os ->
  nth_error (replace os x o) y = if Nat.eqb x y then Some o else nth_error os y.
Proof.
  clear beh. induction os as [|o0 os IH]; intros [|x] o [|y] L; simpl in *; try lia; auto.
  unfold replace in *. simpl. apply IH. lia.
Qed.

Lemma replace_length : forall (os : list Ob) x o, x < length os -> length (replace os x o) = length os.
Proof.
  clear beh. intros os x o L. unfold replace. rewrite app_length. cbn [length]. rewrite firstn_length, skipn_length. lia.
Qed.

(** Writing one of the test's objects. *)
Lemma J_yours : forall h ss os x o o', J h ss os -> nth_error os x = Some o ->
  J (upd h x (Some (Object o'))) ss (replace os x o').
Proof.
  clear beh. intros h ss os x o o' (HB & HLn & Hv & HND & HM & Hc) Ho.
  assert (Lx : x < length os) by (eapply nth_some_lt; eauto).
  unfold J. rewrite replace_length by auto. rewrite upd_length.
  split; auto. split; auto. split.
  { intros y oy Hy. rewrite replace_nth in Hy by auto. rewrite nth_error_upd.
    destruct (Nat.eqb_spec x y) as [->|].
    - injection Hy as <-. rewrite (proj2 (Nat.ltb_lt _ _)) by lia. reflexivity.
    - auto. }
  split; auto. split.
  { intros a Hin. destruct (HM _ Hin) as (? & v & Hva & ?). split; auto. exists v. split; auto.
    rewrite nth_error_upd_other by lia. auto. }
  rewrite (alive_upd h x (Object o)) by auto. exact Hc.
Qed.

(** Writing an object of the library. *)
Lemma J_mine : forall h ss os a o o', J h ss os -> In a (flat_map owned ss) -> nth_error h a = Some (Some (Object o)) ->
  J (upd h a (Some (Object o'))) ss os.
Proof.
  clear beh. intros h ss os a o o' (HB & HLn & Hv & HND & HM & Hc) Hin Ho.
  destruct (HM _ Hin) as (La & _).
  unfold J. rewrite upd_length. split; auto. split; auto. split.
  { intros y oy Hy. pose proof (nth_some_lt _ _ _ _ Hy). rewrite nth_error_upd_other by lia. auto. }
  split; auto. split.
  { intros b Hb. destruct (HM _ Hb) as (? & v & Hvb & ?). split; auto.
    rewrite nth_error_upd. destruct (Nat.eqb_spec a b) as [->|].
    - rewrite (proj2 (Nat.ltb_lt _ _)) by (eapply nth_some_lt; eauto). exists (Object o'). simpl. auto.
    - eauto. }
  rewrite (alive_upd h a (Object o)) by auto. exact Hc.
Qed.

Lemma J_owned : forall h s s' ss os, owned s' = owned s -> bounded s' -> J h (s :: ss) os -> J h (s' :: ss) os.
Proof.
  clear beh. intros h s s' ss os E B (HB & H). unfold J in *. cbn [flat_map] in *. rewrite E. split; auto.
  inversion HB; subst. constructor; auto.
Qed.

Lemma planned_upd : forall (h : heap) p es a c, ~ In a (map fst p) ->
  Forall2 (fun (e : nat * option Z) (e' : who Ob * option Z) => who_at h (fst e) (fst e') /\ snd e = snd e') p es ->
  Forall2 (fun e e' => who_at (upd h a c) (fst e) (fst e') /\ snd e = snd e') p es.
Proof.
  clear beh. intros h p es a c Hn H. induction H as [|e e' p es [H1 H3] H IH]; constructor.
  - split; auto. unfold who_at in *. rewrite nth_error_upd_other; auto. intros ->. apply Hn. simpl. auto.
  - apply IH. intro. apply Hn. simpl. auto.
Qed.

Lemma call_split : forall (s s' : aseq nat) srv, handle_call s = Def (s', srv) ->
  exists s1 id, handle_begin s = Def (s1, id, srv) /\ handle_end s1 id = Def s'.
Proof.
  clear beh. intros s s' srv H. unfold handle_call in H.
  destruct (handle_begin s) as [[[s1 id] v]| |]; try discriminate. cbn [obind] in H.
  destruct (handle_end s1 id) as [s2| |] eqn:E; try discriminate. cbn [obind] in H. injection H as <- <-.
  eauto.
Qed.

Lemma nodup_r : forall (u l : list nat), NoDup (u ++ l) -> NoDup l.
Proof. clear beh. induction u as [|a u IH]; simpl; intros l H; auto. inversion H; auto. Qed.

Lemma nodup_l : forall (u l : list nat), NoDup (u ++ l) -> NoDup u.
Proof.
  clear beh. induction u as [|a u IH]; simpl; intros l H; constructor; inversion H as [|? ? Hn H']; subst; eauto.
  intro. apply Hn. rewrite in_app_iff. auto.
Qed.

Lemma call_ok : forall w m x, Inv w m ->
  exists w', call beh w x = Def (w', snd (answer beh m x)) /\ Inv w' (fst (answer beh m x)) /\
    length (flat_map owned (w_stubs w')) = length (flat_map owned (w_stubs w)).
Proof.
  intros [h ss] [os le] x [HJ HP]. cbn [w_heap w_stubs objs left_] in *. unfold call. cbn [w_stubs w_heap].
  destruct ss as [|s ss].
  { subst le. exists (mkWorld h []). split; [reflexivity|]. split; [split; cbn; auto|reflexivity]. }
  destruct HP as (p & Hrep & Hok & H2).
  destruct (rep_call s p Hrep Hok) as (s' & E & Rep' & Ok' & _).
  destruct (call_split _ _ _ E) as (s1 & id & Eb & Ee). rewrite Eb. cbn [obind].
  assert (HB : bounded s) by (destruct HJ as (HB & _); inversion HB; auto).
  destruct (owned_call _ _ _ _ _ HB Eb Ee) as [B' O'].
  destruct (rep_owned _ _ Hrep) as [u Hu].
  assert (ND : NoDup (map fst p)).
  { destruct HJ as (_ & _ & _ & ND & _). cbn [flat_map] in ND. rewrite Hu in ND.
    rewrite <- app_assoc in ND. eapply nodup_l, nodup_r. exact ND. }
  assert (InM : forall a, In a (map fst p) -> In a (flat_map owned (s :: ss))).
  { intros a Ha. cbn [flat_map]. rewrite Hu, !in_app_iff. auto. }
  assert (Len : length (flat_map owned (s' :: ss)) = length (flat_map owned (s :: ss))).
  { cbn [flat_map]. rewrite !app_length, O'. reflexivity. }
  inversion H2 as [|[a n] [w n'] p' es' [Hw Hn] H2' Ep Ees]; subst.
  - (* nothing left *)
    cbn [nth_answer shown obind]. rewrite Ee. cbn [obind].
    exists (mkWorld h (s' :: ss)). cbn [answer left_ fst snd w_heap w_stubs].
    split; [reflexivity|]. split; auto. split.
    + eapply J_owned; eauto.
    + exists []. cbn [advance] in Rep'. repeat split; auto; apply Rep'.
  - cbn [fst snd] in *. subst n'.
    inversion Hok as [|? ? Hok1 Hok2]; subst. cbn [snd entry_ok] in Hok1.
    assert (Hsrv : shown (nth_answer ((a, n) :: p') 0) = SrvCall a).
    { destruct n as [n|]; cbn [nth_answer shown]; auto. unfold entry_ok in Hok1. cbn [snd] in Hok1.
      destruct (Z.ltb_spec 0 n); [reflexivity|lia]. }
    rewrite Hsrv in *.
    cbn [map fst] in ND. inversion ND as [|? ? Hni ND']; subst.
    unfold who_at in Hw.
    (* what remains of the plan *)
    assert (Adv : forall h' w', who_at h' a w' ->
       Forall2 (fun (e : nat * option Z) (e' : who Ob * option Z) => who_at h' (fst e) (fst e') /\ snd e = snd e') p' es' ->
       Forall2 (fun e e' => who_at h' (fst e) (fst e') /\ snd e = snd e') (advance ((a, n) :: p')) (less w' n es')).
    { intros h' w' Hw' HF. destruct n as [n|]; cbn [advance less].
      - destruct (n =? 1)%Z; auto.
      - constructor; auto. }
    destruct w as [o|v].
    + unfold run. rewrite (get_def _ _ _ Hw). cbn [obind]. cbn [answer left_ objs].
      destruct (beh o x) as [o' r]. cbn [obind]. rewrite Ee. cbn [obind fst snd].
      exists (mkWorld (upd h a (Some (Object o'))) (s' :: ss)). split; [reflexivity|]. cbn [w_stubs w_heap]. split; auto.
      split; cbn [w_stubs w_heap objs left_].
      * eapply J_owned; eauto. eapply J_mine; eauto. apply InM. simpl. auto.
      * eexists. split; [exact Rep'|]. split; [exact Ok'|]. apply Adv.
        -- unfold who_at. apply nth_error_upd_same. eapply nth_some_lt; eauto.
        -- apply planned_upd; auto.
    + assert (Lv : v < length os).
      { destruct HJ as (_ & _ & _ & _ & HM & _). destruct (HM a) as (_ & vv & Hvv & Hs).
        - apply InM. simpl. auto.
        - rewrite Hw in Hvv. injection Hvv as <-. exact Hs. }
      destruct (nth_error os v) as [o|] eqn:Ho; [|apply nth_error_None in Ho; lia].
      assert (Hho : nth_error h v = Some (Some (Object o))) by (destruct HJ as (_ & _ & Hv & _); auto).
      assert (Nin : forall b, In b (map fst ((a, Some 0%Z) :: p')) -> b <> v).
      { intros b Hb ->. destruct HJ as (_ & _ & _ & _ & HM & _). destruct (HM v) as (? & _); [apply InM; exact Hb|lia]. }
      unfold run. rewrite (get_def _ _ _ Hw). cbn [obind]. rewrite (get_def _ _ _ Hho). cbn [obind]. cbn [answer left_ objs].
      rewrite Ho. destruct (beh o x) as [o' r]. cbn [obind]. rewrite Ee. cbn [obind fst snd].
      exists (mkWorld (upd h v (Some (Object o'))) (s' :: ss)). split; [reflexivity|]. cbn [w_stubs w_heap]. split; auto.
      split; cbn [w_stubs w_heap objs left_].
      * eapply J_owned; eauto. eapply J_yours; eauto.
      * eexists. split; [exact Rep'|]. split; [exact Ok'|]. apply Adv.
        -- unfold who_at. rewrite nth_error_upd_other; auto. apply not_eq_sym. apply Nin. simpl. auto.
        -- apply planned_upd; auto. intro Hb. apply (Nin v); auto. simpl. auto.
Qed.

Lemma free_all_ok : forall l (h : heap), NoDup l -> (forall a, In a l -> exists v, nth_error h a = Some (Some v)) ->
  exists h', free_all h l = Def h' /\ length h' = length h /\ (forall i, ~ In i l -> nth_error h' i = nth_error h i) /\
    alive h' + length l = alive h.
Proof.
  clear beh. induction l as [|a l IH]; intros h ND H; cbn [free_all].
  - exists h. repeat split; auto.
  - inversion ND; subst. destruct (H a) as [v Hv]; [simpl; auto|].
    unfold free. rewrite (get_def _ _ _ Hv). cbn [obind].
    destruct (IH (upd h a None)) as (h' & E & L & Hs & Hal); auto.
    { intros b Hb. rewrite nth_error_upd_other by (intros ->; auto). apply H. simpl. auto. }
    exists h'. split; auto. rewrite upd_length in L. split; auto. split.
    + intros i Hi. rewrite Hs by (intro; apply Hi; simpl; auto). apply nth_error_upd_other. intros ->. apply Hi. simpl. auto.
    + pose proof (alive_free _ _ _ Hv). cbn [length]. lia.
Qed.

Lemma step_ok : forall w m (e : event A), Inv w m -> fair (length (objs m)) e ->
  exists w', step beh w e = Def (w', snd (meant_step beh m e)) /\ Inv w' (fst (meant_step beh m e)) /\
    length (objs (fst (meant_step beh m e))) = length (objs m) /\
    length (flat_map owned (w_stubs w')) = since (length (flat_map owned (w_stubs w))) [e].
Proof.
  intros [h ss] m e HI HF. destruct e as [ls|x|v x|]; cbn [step meant_step since fair] in *.
  - destruct HI as [HJ HP]. cbn [w_heap w_stubs] in *.
    assert (J0 : J h (aseq_new :: ss) (objs m)).
    { destruct HJ as (HB & H). split; auto. constructor; auto. unfold bounded. repeat constructor. }
    assert (P0 : planned h aseq_new []).
    { exists []. split; [apply rep_new|]. split; constructor. }
    destruct (links_ok ls h aseq_new ss (objs m) [] J0 P0 HF) as (h' & s' & E & J' & P' & L').
    rewrite E. cbn [obind fst snd]. exists (mkWorld h' (s' :: ss)). split; [reflexivity|]. split; [split; auto|].
    cbn [w_stubs objs]. split; auto.
  - destruct (call_ok _ _ x HI) as (w' & E & I' & L'). rewrite E. cbn [obind].
    assert (Lo : length (objs (fst (answer beh m x))) = length (objs m)).
    { clear. destruct m as [os le]. unfold answer. cbn [left_ objs]. destruct le as [|[[o|v] n] rest]; auto.
      - destruct (beh o x). reflexivity.
      - destruct (nth_error os v) eqn:E; auto. destruct (beh o x). cbn [fst objs]. apply replace_length. eapply nth_some_lt; eauto. }
    destruct (answer beh m x) as [m' r]. cbn [fst snd] in *. eauto.
  - destruct HI as [HJ HP]. cbn [w_heap w_stubs] in *.
    destruct (nth_error (objs m) v) as [o|] eqn:Ho; [|apply nth_error_None in Ho; lia].
    assert (Hho : nth_error h v = Some (Some (Object o))) by (destruct HJ as (_ & _ & Hv & _); auto).
    unfold run. rewrite (get_def _ _ _ Hho). cbn [obind]. destruct (beh o x) as [o' r]. cbn [obind fst snd].
    exists (mkWorld (upd h v (Some (Object o'))) ss). split; [reflexivity|]. cbn [w_stubs objs]. split.
    + split; cbn [w_stubs w_heap objs left_]; [eapply J_yours; eauto|].
      destruct ss as [|s ss]; auto. destruct HP as (p & Hrep & Hok & H2). exists p. split; auto. split; auto.
      apply planned_upd; auto. intro Hin. destruct (rep_owned _ _ Hrep) as [u Hu].
      destruct HJ as (_ & _ & _ & _ & HM & _). destruct (HM v) as (? & _); [|lia].
      cbn [flat_map]. rewrite Hu, !in_app_iff. auto.
    + split; auto. apply replace_length. eapply nth_some_lt; eauto.
  - destruct HI as [HJ HP]. cbn [w_heap w_stubs] in *. destruct HJ as (HB & HLn & Hv & HND & HM & Hc).
    destruct (free_all_ok (flat_map owned ss) h HND) as (h' & E & L & Hs & Hal).
    { intros a Ha. destruct (HM _ Ha) as (_ & vv & ? & _). eauto. }
    rewrite E. cbn [obind fst snd]. exists (mkWorld h' []). split; [reflexivity|]. cbn [w_stubs objs]. split; auto.
    split; cbn [w_stubs w_heap objs left_ flat_map]; auto.
    split; auto. split; [lia|]. split.
    { intros x o Ho. rewrite Hs; auto. intro Hin. destruct (HM _ Hin) as (? & _). apply nth_some_lt in Ho. lia. }
    split; [constructor|]. split; [intros a []|]. simpl. lia.
Qed.

Lemma since_app : forall (e : event A) es k, since k (e :: es) = since (since k [e]) es.
Proof. clear beh. intros [ls|x|v x|] es k; reflexivity. Qed.

Lemma steps_ok : forall (es : list (event A)) w m, Inv w m -> Forall (fair (length (objs m))) es ->
  exists w', steps beh w es = Def (w', snd (meant_steps beh m es)) /\ Inv w' (fst (meant_steps beh m es)) /\
    length (objs (fst (meant_steps beh m es))) = length (objs m) /\
    length (flat_map owned (w_stubs w')) = since (length (flat_map owned (w_stubs w))) es.
Proof.
  induction es as [|e es IH]; intros w m HI HF; cbn [steps meant_steps].
  - exists w. split; [reflexivity|]. split; [exact HI|]. split; reflexivity.
  - inversion HF as [|? ? He Hes]; subst.
    destruct (step_ok w m e HI He) as (w1 & E1 & I1 & L1 & O1). rewrite E1. cbn [obind].
    destruct (meant_step beh m e) as [m1 l1]. cbn [fst snd] in *. rewrite <- L1 in Hes.
    destruct (IH w1 m1 I1 Hes) as (w2 & E2 & I2 & L2 & O2). rewrite E2. cbn [obind].
    destruct (meant_steps beh m1 es) as [m2 l2]. cbn [fst snd] in *.
    exists w2. split; auto. split; auto. split; [congruence|]. rewrite since_app, <- O1. exact O2.
Qed.

Lemma start_ok : forall os : list Ob, Inv (start os) (mkMind os []).
Proof.
  clear beh. intros os. split; cbn [start w_heap w_stubs objs left_]; auto.
  unfold J. cbn [flat_map]. rewrite map_length. split; auto. split; auto. split.
  { intros x o H. rewrite nth_error_map, H. reflexivity. }
  split; [constructor|]. split; [intros a []|]. simpl. rewrite Nat.add_0_r.
  induction os; simpl; auto. unfold alive in *. simpl. now rewrite IHos.
Qed.

(** ** The theorems *)
Lemma meaning : forall (os : list Ob) (es : list (event A)), Forall (fair (length os)) es ->
  exists w, steps beh (start os) es = Def (w, snd (meant_steps beh (mkMind os []) es)) /\
    (forall x, x < length os -> own_object w x = nth_error (objs (fst (meant_steps beh (mkMind os []) es))) x) /\
    living w = length os + since 0 es.
Proof.
  intros os es HF. destruct (steps_ok es _ _ (start_ok os) HF) as (w & E & [HJ _] & L & O).
  exists w. split; auto. destruct HJ as (_ & _ & Hv & _ & _ & Hc). cbn [objs] in L. split.
  - intros x Lx. unfold own_object.
    destruct (nth_error (objs (fst (meant_steps beh (mkMind os []) es))) x) as [o|] eqn:Ho.
    + now rewrite (Hv _ _ Ho).
    + apply nth_error_None in Ho. lia.
  - unfold living. fold (alive (w_heap w)). rewrite Hc, L, O. reflexivity.
Qed.

(** The test's own object, if it is never referred to. *)
Definition no_yours (x : nat) (m : mind Ob) : Prop := Forall (fun e => fst e <> Yours x) (left_ m).

Lemma less_no : forall x w n rest, w <> Yours x -> Forall (fun e : who Ob * option Z => fst e <> Yours x) rest ->
  Forall (fun e => fst e <> Yours x) (less w n rest).
Proof.
  clear beh. intros x w [n|] rest Hw Hr; cbn [less]; [destruct (n =? 1)%Z; auto|]; constructor; auto.
Qed.

Lemma untouched : forall (es : list (event A)) m x, x < length (objs m) -> Forall (fair (length (objs m))) es -> no_yours x m ->
  Forall (fun e => ~ refers x e) es ->
  nth_error (objs (fst (meant_steps beh m es))) x =
  option_map (fun o => snd (row beh o (own_calls x es))) (nth_error (objs m) x).
Proof.
  induction es as [|e es IH]; intros m x L HF HN HR; cbn [meant_steps].
  - cbn. destruct (nth_error (objs m) x); reflexivity.
  - inversion HF as [|? ? Hf HF']; subst. inversion HR as [|? ? Hr HR']; subst.
    assert (Key : length (objs (fst (meant_step beh m e))) = length (objs m) /\ no_yours x (fst (meant_step beh m e)) /\
       (nth_error (objs (fst (meant_step beh m e))) x =
        option_map (fun o => snd (row beh o (own_calls x [e]))) (nth_error (objs m) x))).
    { destruct m as [os le]. unfold no_yours in *. cbn [objs left_] in *.
      assert (Id : nth_error os x = option_map (fun o => snd (row beh o [])) (nth_error os x)).
      { destruct (nth_error os x); reflexivity. }
      destruct e as [ls|a|v a|]; cbn [meant_step fair refers objs left_ fst snd] in *.
      - split; auto. split; auto. unfold plan_of. rewrite Forall_forall. intros [w n] Hin.
        rewrite in_flat_map in Hin. destruct Hin as (l & Hl & Hin).
        destruct (who_of os (link_given l)) as [w'|] eqn:Ew; [|destruct Hin]. destruct Hin as [E|[]].
        injection E as <- <-. cbn [fst]. intros ->. apply Hr. rewrite Exists_exists. exists l. split; auto.
        destruct (link_given l) as [y|y]; cbn [who_of] in Ew.
        + destruct (nth_error os y); discriminate.
        + congruence.
      - unfold answer. cbn [left_ objs]. destruct le as [|[[o|v] n] rest]; cbn [fst]; auto.
        + destruct (beh o a). cbn [fst objs left_]. split; auto. split; auto. inversion HN; subst. apply less_no; auto. discriminate.
        + inversion HN; subst. cbn [fst] in *.
          destruct (nth_error os v) as [o|] eqn:Ev; cbn [fst]; auto. destruct (beh o a). cbn [fst objs left_].
          rewrite replace_length by (eapply nth_some_lt; eauto). split; auto. split; [apply less_no; auto|].
          rewrite replace_nth by (eapply nth_some_lt; eauto). destruct (Nat.eqb_spec v x) as [->|]; [congruence|auto].
      - destruct (nth_error os v) as [o|] eqn:Ev; [|apply nth_error_None in Ev; lia].
        destruct (beh o a) as [o' r] eqn:Eb. cbn [fst objs left_]. rewrite replace_length by auto. split; auto. split; auto.
        rewrite replace_nth by auto. unfold own_calls. cbn [flat_map app]. destruct (Nat.eqb_spec v x) as [->|].
        + rewrite Ev. cbn [option_map app row]. rewrite Eb. reflexivity.
        + exact Id.
      - split; auto. }
    destruct Key as (L1 & N1 & E1).
    destruct (meant_step beh m e) as [m1 l1]. cbn [fst snd] in *.
    specialize (IH m1 x). rewrite L1 in IH. specialize (IH L HF' N1 HR').
    destruct (meant_steps beh m1 es) as [m2 l2]. cbn [fst snd] in *. rewrite IH, E1.
    change (own_calls x (e :: es)) with ((match e with Own v a => if Nat.eqb v x then [a] else [] | _ => [] end) ++ own_calls x es).
    unfold own_calls at 2. cbn [flat_map]. rewrite app_nil_r.
    destruct (nth_error (objs m) x) as [o|]; cbn [option_map]; auto. f_equal.
    destruct e as [ls|a|v a|]; cbn [app]; auto. destruct (Nat.eqb v x); cbn [app row]; auto.
    destruct (beh o a) as [o' r]. cbn [snd]. destruct (row beh o' (own_calls x es)) as [? ?]. reflexivity.
Qed.

Lemma own_unchanged : forall (os : list Ob) (es : list (event A)) x, Forall (fair (length os)) es ->
  Forall (fun e => ~ refers x e) es -> x < length os ->
  exists w l, steps beh (start os) es = Def (w, l) /\
    own_object w x = option_map (fun o => snd (row beh o (own_calls x es))) (nth_error os x).
Proof.
  intros os es x HF HR L. destruct (meaning os es HF) as (w & E & Ho & _).
  exists w. eexists. split; [exact E|]. rewrite (Ho _ L).
  rewrite untouched; auto. constructor.
Qed.

(** A row of calls after one stubbing. *)
Lemma meant_row : forall xs os o n rest, (match n with Some n => Z.of_nat (length xs) <= n | None => True end)%Z ->
  snd (meant_steps beh (mkMind os ((Mine o, n) :: rest)) (map (fun a => Call a) xs)) =
  map (fun r => Yields r) (fst (row beh o xs)).
Proof.
  induction xs as [|x xs IH]; intros os o n rest Hn; cbn [map meant_steps]; auto.
  cbn [meant_step answer left_ row objs]. destruct (beh o x) as [o' r].
  destruct n as [n|]; cbn [less].
  - cbn [length] in Hn. destruct (Z.eqb_spec n 1) as [->|Hn1].
    + destruct xs as [|x' xs]; [reflexivity|cbn [length] in Hn; lia].
    + specialize (IH os o' (Some (n - 1)%Z) rest).
      destruct (meant_steps beh (mkMind os ((Mine o', Some (n - 1)%Z) :: rest)) (map (fun a => Call a) xs)) as [m2 l2].
      destruct (row beh o' xs) as [rs o2]. cbn [fst snd app map] in *. f_equal. apply IH. lia.
  - specialize (IH os o' None rest).
    destruct (meant_steps beh (mkMind os ((Mine o', None) :: rest)) (map (fun a => Call a) xs)) as [m2 l2].
    destruct (row beh o' xs) as [rs o2]. cbn [fst snd app map] in *. f_equal. apply IH. auto.
Qed.

Lemma memory : forall (os : list Ob) x o l (xs : list A), nth_error os x = Some o -> link_given l = Copied x ->
  fair_link (length os) l -> (match count_of l with Some n => Z.of_nat (length xs) <= n | None => True end)%Z ->
  exists w, steps beh (start os) (Stub [l] :: map (fun a => Call a) xs) = Def (w, map (fun r => Yields r) (fst (row beh o xs))) /\
    own_object w x = Some o.
Proof.
  intros os x o l xs Ho Hg Hf Hn.
  assert (HF : Forall (fair (length os)) (Stub [l] :: map (fun a => Call a) xs)).
  { constructor; [constructor; auto|]. rewrite Forall_map. apply Forall_forall. intros. exact Logic.I. }
  destruct (meaning os _ HF) as (w & E & Hown & _).
  assert (Lx : x < length os) by (eapply nth_some_lt; eauto).
  exists w. split.
  - rewrite E. do 2 f_equal. cbn [meant_steps meant_step objs]. unfold plan_of. cbn [flat_map]. rewrite Hg. cbn [who_of].
    rewrite Ho. cbn [option_map app].
    pose proof (meant_row xs os o (count_of l) [] Hn) as M.
    destruct (meant_steps beh {| objs := os; left_ := [(Mine o, count_of l)] |} (map (fun a => Call a) xs)) as [m2 l2].
    exact M.
  - destruct (own_unchanged os _ x HF) as (w' & l' & E' & Ho'); auto.
    { constructor.
      - cbn [refers]. rewrite Exists_exists. intros (l0 & [<-|[]] & C). congruence.
      - rewrite Forall_map. apply Forall_forall. intros ? _ []. }
    rewrite E in E'. injection E' as -> _. rewrite Ho', Ho. cbn [option_map].
    replace (own_calls x (Stub [l] :: map (fun a : A => Call a) xs)) with (@nil A); [reflexivity|].
    unfold own_calls. cbn [flat_map app]. clear. induction xs; simpl; auto.
Qed.

Lemma nth_replace_same : forall (os : list Ob) x o o', nth_error os x = Some o -> nth_error (replace os x o') x = Some o'.
Proof. clear beh. intros. rewrite replace_nth by (eapply nth_some_lt; eauto). now rewrite Nat.eqb_refl. Qed.

Lemma fair_mixture : forall n x (ms : list (bool * A)), x < n -> Forall (fair n) (mixture x ms).
Proof.
  clear beh. intros n x ms L. unfold mixture. rewrite Forall_map. apply Forall_forall. intros [[|] a] _; simpl; auto.
Qed.

Lemma meant_apart : forall (ms : list (bool * A)) os x o1 o2 rest, nth_error os x = Some o2 ->
  snd (meant_steps beh (mkMind os ((Mine o1, None) :: rest)) (mixture x ms)) = map (fun r => Yields r) (two_rows beh o1 o2 ms).
Proof.
  induction ms as [|[[|] a] ms IH]; intros os x o1 o2 rest Ho; cbn [mixture map meant_steps two_rows fst snd]; auto;
    fold (mixture x ms); cbn [meant_step answer left_ objs].
  - destruct (beh o1 a) as [o' r]. cbn [less]. specialize (IH os x o' o2 rest Ho).
    destruct (meant_steps beh (mkMind os ((Mine o', None) :: rest)) (mixture x ms)) as [m2 l2].
    cbn [snd app map] in *. now rewrite IH.
  - rewrite Ho. destruct (beh o2 a) as [o' r].
    specialize (IH (replace os x o') x o1 o' rest (nth_replace_same _ _ _ _ Ho)).
    destruct (meant_steps beh (mkMind (replace os x o') ((Mine o1, None) :: rest)) (mixture x ms)) as [m2 l2].
    cbn [snd app map] in *. now rewrite IH.
Qed.

Lemma meant_together : forall (ms : list (bool * A)) os x o rest, nth_error os x = Some o ->
  snd (meant_steps beh (mkMind os ((Yours x, None) :: rest)) (mixture x ms)) =
    map (fun r => Yields r) (fst (row beh o (map snd ms))) /\
  nth_error (objs (fst (meant_steps beh (mkMind os ((Yours x, None) :: rest)) (mixture x ms)))) x =
    Some (snd (row beh o (map snd ms))).
Proof.
  induction ms as [|[b a] ms IH]; intros os x o rest Ho; cbn [mixture map meant_steps row fst snd]; auto.
  fold (mixture x ms).
  assert (E : meant_step beh (mkMind os ((Yours x, None) :: rest)) (if b then Call a else Own x a) =
    let (o', r) := beh o a in (mkMind (replace os x o') ((Yours x, None) :: rest), [Yields r])).
  { destruct b; cbn [meant_step answer left_ objs]; rewrite Ho; destruct (beh o a); reflexivity. }
  rewrite E. destruct (beh o a) as [o' r].
  destruct (IH (replace os x o') x o' rest (nth_replace_same _ _ _ _ Ho)) as [H1 H2].
  destruct (meant_steps beh (mkMind (replace os x o') ((Yours x, None) :: rest)) (mixture x ms)) as [m2 l2].
  destruct (row beh o' (map snd ms)) as [rs o2]. cbn [fst snd app map] in *. rewrite H1. auto.
Qed.

Lemma apart : forall (os : list Ob) x o l (ms : list (bool * A)), nth_error os x = Some o ->
  link_given l = Copied x -> count_of l = None ->
  exists w, steps beh (start os) (Stub [l] :: mixture x ms) = Def (w, map (fun r => Yields r) (two_rows beh o o ms)).
Proof.
  intros os x o l ms Ho Hg Hn. assert (Lx : x < length os) by (eapply nth_some_lt; eauto).
  assert (HF : Forall (fair (length os)) (Stub [l] :: mixture x ms)).
  { constructor; [|apply fair_mixture; auto]. constructor; auto. split; [rewrite Hg; exact Lx|].
    destruct l; simpl in *; auto; discriminate. }
  destruct (meaning os _ HF) as (w & E & _). exists w. rewrite E. do 2 f_equal.
  cbn [meant_steps meant_step objs]. unfold plan_of. cbn [flat_map]. rewrite Hg, Hn. cbn [who_of].
  rewrite Ho. cbn [option_map app]. pose proof (meant_apart ms os x o o [] Ho) as M.
  destruct (meant_steps beh {| objs := os; left_ := [(Mine o, None)] |} (mixture x ms)) as [m2 l2]. exact M.
Qed.

Lemma together : forall (os : list Ob) x o l (ms : list (bool * A)), nth_error os x = Some o ->
  link_given l = Referred x -> count_of l = None ->
  exists w, steps beh (start os) (Stub [l] :: mixture x ms) = Def (w, map (fun r => Yields r) (fst (row beh o (map snd ms)))) /\
    own_object w x = Some (snd (row beh o (map snd ms))).
Proof.
  intros os x o l ms Ho Hg Hn. assert (Lx : x < length os) by (eapply nth_some_lt; eauto).
  assert (HF : Forall (fair (length os)) (Stub [l] :: mixture x ms)).
  { constructor; [|apply fair_mixture; auto]. constructor; auto. split; [rewrite Hg; exact Lx|].
    destruct l; simpl in *; auto; discriminate. }
  destruct (meaning os _ HF) as (w & E & Hown & _). exists w. rewrite E, (Hown _ Lx).
  cbn [meant_steps meant_step objs]. unfold plan_of. cbn [flat_map]. rewrite Hg, Hn. cbn [who_of app].
  destruct (meant_together ms os x o [] Ho) as [M1 M2].
  destruct (meant_steps beh {| objs := os; left_ := [(Yours x, None)] |} (mixture x ms)) as [m2 l2].
  cbn [fst snd app] in *. rewrite M1. auto.
Qed.

Lemma each_its_own : forall (os : list Ob) x o (a : A) n, nth_error os x = Some o ->
  exists w, steps beh (start os) (Stub (repeat (Once (Copied x)) n) :: repeat (Call a) n) =
    Def (w, repeat (Yields (snd (beh o a))) n).
Proof.
  intros os x o a n Ho. assert (Lx : x < length os) by (eapply nth_some_lt; eauto).
  assert (HF : Forall (fair (length os)) (Stub (repeat (Once (Copied x)) n) :: repeat (Call a) n)).
  { constructor.
    - apply Forall_forall. intros l Hl. apply repeat_spec in Hl. subst l. split; auto.
    - apply Forall_forall. intros e He. apply repeat_spec in He. subst e. exact Logic.I. }
  destruct (meaning os _ HF) as (w & E & _). exists w. rewrite E. do 2 f_equal.
  cbn [meant_steps meant_step objs].
  assert (Ep : plan_of os (repeat (Once (Copied x)) n) = repeat (Mine o, Some 1%Z) n).
  { unfold plan_of. clear - Ho. induction n; cbn [repeat flat_map link_given who_of]; auto. rewrite Ho. cbn [option_map app].
    now rewrite IHn. }
  rewrite Ep. clear - Ob. induction n as [|n IH]; cbn [repeat meant_steps]; auto.
  cbn [meant_step answer left_ objs]. destruct (beh o a) as [o' r] eqn:Eb. cbn [less snd].
  change ((1 =? 1)%Z) with true. cbn iota.
  destruct (meant_steps beh (mkMind os (repeat (Mine o, Some 1%Z) n)) (repeat (Call a) n)) as [m2 l2].
  cbn [snd app] in *. now rewrite IH.
Qed.

(** How many objects are ever made. *)
Ltac ob H := match type of H with obind ?t _ = Def _ => let E := fresh "E" in destruct t eqn:E; [cbn [obind] in H|discriminate H|discriminate H] end.

Lemma through_made : forall n (h : heap) a h' c, through n h a = Def (h', c) -> length h' = length h + n.
Proof.
  clear beh. induction n as [|n IH]; intros h a h' c H; cbn [through] in H.
  - injection H as <- <-. lia.
  - ob H. destruct a0 as [h1 b]. ob H. destruct a0 as [h2 c2]. ob H. injection H as <- <-.
    unfold copy in E. ob E. injection E as <- <-. unfold free in E1. ob E1. injection E1 as <-. rewrite upd_length.
    apply IH in E0. rewrite app_length in E0. cbn [length] in E0. lia.
Qed.

Lemma link_made : forall (h : heap) s l h' s', do_link h s l = Def (h', s') -> length h' = length h + made l.
Proof.
  clear beh. intros h s l h' s' H. unfold do_link in H. ob H. destruct a as [h1 a]. ob H. destruct a0 as [h2 c]. ob H.
  injection H as <- <-. apply through_made in E0.
  assert (length h1 = S (length h)).
  { destruct (link_given l); cbn [convert] in E; [ob E|]; injection E as <- <-; rewrite app_length; cbn [length]; lia. }
  destruct l; cbn [copies made] in *; lia.
Qed.

Lemma links_made : forall ls (h : heap) s h' s', do_links h s ls = Def (h', s') -> length h' = length h + list_sum (map made ls).
Proof.
  clear beh. induction ls as [|l ls IH]; intros h s h' s' H; cbn [do_links] in H.
  - injection H as <- <-. cbn. lia.
  - ob H. destruct a as [h1 s1]. apply link_made in E. apply IH in H. unfold list_sum in *. cbn [map fold_right]. lia.
Qed.

Lemma run_made : forall (h : heap) a x h' r, run beh h a x = Def (h', r) -> length h' = length h.
Proof.
  intros h a x h' r H. unfold run in H. ob H. destruct a0 as [o|b].
  - destruct (beh o x). injection H as <- <-. apply upd_length.
  - ob H. destruct a0 as [o|]; [|discriminate]. destruct (beh o x). injection H as <- <-. apply upd_length.
Qed.

Lemma free_all_made : forall l (h h' : heap), free_all h l = Def h' -> length h' = length h.
Proof.
  clear beh. induction l as [|a l IH]; intros h h' H; cbn [free_all] in H.
  - injection H as <-. reflexivity.
  - ob H. unfold free in E. ob E. injection E as <-. apply IH in H. now rewrite upd_length in H.
Qed.

Lemma step_made : forall w (e : event A) w' l, step beh w e = Def (w', l) -> ever w' = ever w + all_made [e].
Proof.
  intros w e w' l H. unfold ever, all_made. destruct e as [ls|x|v x|]; cbn [step flat_map] in *; rewrite ?app_nil_r.
  - ob H. destruct a as [h s]. injection H as <- <-. now apply links_made in E.
  - ob H. destruct a as [w1 r]. injection H as <- <-. unfold call in E. cbn. rewrite Nat.add_0_r.
    destruct (w_stubs w) as [|s older]; [injection E as <- <-; reflexivity|].
    ob E. destruct a as [[s1 id] srv]. ob E. destruct a as [h r']. ob E. injection E as <- <-. cbn [w_heap].
    destruct srv; try (injection E1 as <- <-; reflexivity). ob E1. destruct a0 as [h0 r0]. injection E1 as <- <-.
    eapply run_made; eauto.
  - ob H. destruct a as [h r]. injection H as <- <-. cbn. rewrite Nat.add_0_r. eapply run_made; eauto.
  - ob H. injection H as <- <-. cbn. rewrite Nat.add_0_r. eapply free_all_made; eauto.
Qed.

Lemma copies_made : forall (es : list (event A)) w w' l, steps beh w es = Def (w', l) -> ever w' = ever w + all_made es.
Proof.
  induction es as [|e es IH]; intros w w' l H; cbn [steps] in H.
  - injection H as <- <-. cbn. lia.
  - ob H. destruct a as [w1 l1]. ob H. destruct a as [w2 l2]. injection H as <- <-.
    apply step_made in E. apply IH in E0. rewrite E0, E. unfold all_made. cbn [flat_map]. rewrite app_nil_r, list_sum_app. lia.
Qed.

End P.
