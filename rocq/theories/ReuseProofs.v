(** Proofs about Reuse.v. *)
From Coq Require Import Bool Arith Lia List.
From Verif Require Import Base Reuse Spec_Reuse.
Import ListNotations.

Section P.
Context {A P : Type}.
Variable accepts : P -> nat -> A -> bool.
Variable place : nat -> list nat -> nat.

Definition ok (L : list (obj P)) (q : ptr) (p : P) : Prop := In (mkObj (p_obj q) (p_addr q) p) L.

Definition neat (L : list (obj P)) (n : nat) : Prop :=
  NoDup (map o_id L) /\ NoDup (map o_addr L) /\ Forall (fun o => o_id o < n) L.

Definition rel (L : list (obj P)) (ans : list (nat * P)) (n : nat) (e : nat * (ptr * bool)) (e' : nat * (nat * P * fate)) : Prop :=
  match e, e' with
  | (v, (q, c)), (w, (i, p, f)) =>
      v = w /\ p_obj q = i /\ i < n /\
      match f with
      | Free => c = false /\ ok L q p /\ ~ In i (map fst ans)
      | Given => c = true /\ ok L q p /\ In i (map fst ans)
      | Gone => c = true /\ ~ In i (map o_id L)
      end
  end.

Definition id_of (e : nat * (nat * P * fate)) : nat := fst (fst (snd e)).

Definition stub_rel (L : list (obj P)) (q : ptr) (ip : nat * P) : Prop := p_obj q = fst ip /\ ok L q (snd ip).

Definition Inv (s : st A P) (m : mind A P) : Prop :=
  made s = number m /\ asked s = questions m /\ neat (objs s) (made s) /\
  Forall2 (stub_rel (objs s)) (stubs s) (answering m) /\ NoDup (map fst (answering m)) /\
  history m = map (fun c => (fst c, p_obj (snd c))) (calls s) /\ Forall (fun c => In (snd c) (stubs s)) (calls s) /\
  Forall2 (rel (objs s) (answering m) (made s)) (vars s) (named m) /\ NoDup (map id_of (named m)).

Lemma nodup_inj : forall X Y (f : X -> Y) (l : list X) x y, NoDup (map f l) -> In x l -> In y l -> f x = f y -> x = y.
Proof.
  induction l as [|z l IH]; intros x y ND Hx Hy E; [destruct Hx|]. cbn [map] in ND. inversion ND; subst.
  destruct Hx as [->|Hx], Hy as [->|Hy]; auto.
  - exfalso. apply H1. rewrite E. now apply in_map.
  - exfalso. apply H1. rewrite <- E. now apply in_map.
Qed.

Lemma deref_ok : forall L n q p, neat L n -> ok L q p -> deref L q = Def (mkObj (p_obj q) (p_addr q) p).
Proof.
  clear accepts place. intros L n q p (ND & _) H. unfold deref.
  destruct (find (fun o => o_id o =? p_obj q) L) as [o|] eqn:E.
  - apply find_some in E as [Hin Ho]. apply Nat.eqb_eq in Ho. cbn [of_option]. f_equal.
    apply (nodup_inj _ _ o_id L); auto.
  - exfalso. apply (find_none _ _ E) in H. cbn [o_id] in H. now rewrite Nat.eqb_refl in H.
Qed.

Lemma same_addr : forall L n q p b p', neat L n -> ok L q p -> ok L b p' -> (p_addr b =? p_addr q) = (p_obj b =? p_obj q).
Proof.
  clear accepts place. intros L n q p b p' (ND & NA & _) Hq Hb.
  destruct (Nat.eqb_spec (p_addr b) (p_addr q)) as [E|E], (Nat.eqb_spec (p_obj b) (p_obj q)) as [E'|E']; auto; exfalso.
  - apply (nodup_inj _ _ o_addr L _ _ NA Hb Hq) in E. injection E. auto.
  - apply (nodup_inj _ _ o_id L _ _ ND Hb Hq) in E'. injection E'. auto.
Qed.

Lemma search_ok : forall L k qs ss n a, neat L k -> Forall2 (stub_rel L) qs ss ->
  exists r n', search accepts L n qs a = Def (r, n') /\ who accepts ss n a = (option_map p_obj r, n') /\
    match r with Some q => In q qs | None => True end.
Proof.
  clear place. intros L k qs ss n a HN H. revert n. induction H as [|q [i p] qs ss [Hi Ho] H IH]; intros n; cbn [search who].
  - exists None, n. auto.
  - unfold matches. cbn [fst snd] in *. rewrite (deref_ok _ _ _ _ HN Ho). cbn [obind o_cond].
    destruct (accepts p n a).
    + exists (Some q), (S n). cbn [option_map]. rewrite Hi. simpl. auto.
    + destruct (IH (S n)) as (r & n' & E & W & HI). exists r, n'. split; auto. split; auto. destruct r; simpl; auto.
Qed.

Lemma count_ok : forall L k q p cs n, neat L k -> ok L q p -> Forall (fun c : A * ptr => exists p', ok L (snd c) p') cs ->
  count accepts L n q cs = Def (tally accepts (p_obj q) p n (map (fun c => (fst c, p_obj (snd c))) cs)).
Proof.
  clear place. intros L k q p cs n HN Hq H. revert n. induction H as [|[a b] cs [p' Hb] H IH]; intros n; cbn [count map tally fst snd]; auto.
  cbn [snd] in Hb. unfold matches. rewrite (deref_ok _ _ _ _ HN Hq). cbn [obind o_cond]. rewrite (same_addr _ _ _ _ _ _ HN Hq Hb).
  destruct (p_obj b =? p_obj q); cbn [obind]; rewrite IH; cbn [obind].
  - destruct (tally accepts (p_obj q) p n (map (fun c => (fst c, p_obj (snd c))) cs)). reflexivity.
  - destruct (tally accepts (p_obj q) p (S n) (map (fun c => (fst c, p_obj (snd c))) cs)). reflexivity.
Qed.

Lemma stub_ok : forall L qs ss q, Forall2 (stub_rel L) qs ss -> In q qs -> exists p, ok L q p /\ In (p_obj q, p) ss.
Proof.
  clear accepts place. intros L qs ss q H. induction H as [|q0 [i p] qs ss [Hi Ho] H IH]; intros Hin; [destruct Hin|].
  destruct Hin as [->|Hin].
  - exists p. cbn [fst snd] in *. subst i. simpl. auto.
  - destruct (IH Hin) as (p' & ? & ?). exists p'. simpl. auto.
Qed.

Lemma calls_ok : forall s m, Inv s m -> Forall (fun c : A * ptr => exists p', ok (objs s) (snd c) p') (calls s).
Proof.
  intros s m (_ & _ & _ & HS & _ & _ & HC & _). eapply Forall_impl; [|exact HC]. intros c Hc.
  destruct (stub_ok _ _ _ _ HS Hc) as (p & ? & _). eauto.
Qed.

(** ** New objects *)
Lemma create_neat : forall L n p, honest place -> neat L n -> neat (mkObj n (place n (map o_addr L)) p :: L) (S n).
Proof.
  clear accepts. intros L n p HP (ND & NA & HL). split; [|split]; cbn [map o_id o_addr].
  - constructor; auto. intro Hin. apply in_map_iff in Hin as (o & E & Hin). rewrite Forall_forall in HL. apply HL in Hin. lia.
  - constructor; auto.
  - constructor; [cbn; lia|]. eapply Forall_impl; [|exact HL]. cbn. intros. lia.
Qed.

Lemma stub_more : forall L o qs ss, Forall2 (stub_rel L) qs ss -> Forall2 (stub_rel (o :: L)) qs ss.
Proof. clear accepts place. induction 1 as [|q ip qs ss [Hi Ho] H IH]; constructor; auto. split; auto. right. exact Ho. Qed.

Lemma rel_more : forall L ans n a p vs ns, Forall2 (rel L ans n) vs ns -> Forall2 (rel (mkObj n a p :: L) ans (S n)) vs ns.
Proof.
  clear accepts place. induction 1 as [|[v [q c]] [w [[i p'] f]] vs ns R H IH]; constructor; auto.
  destruct R as (-> & Hi & Hn & R). split; auto. split; auto. split; [lia|].
  destruct f; destruct R as (Hc & R).
  - destruct R. split; auto. split; auto. right. auto.
  - destruct R. split; auto. split; auto. right. auto.
  - split; auto. cbn [map o_id]. intros [E|Hin]; auto. lia.
Qed.

Lemma rel_stub : forall L ans n i p vs ns, Forall2 (rel L ans n) vs ns -> ~ In i (map id_of ns) -> Forall2 (rel L ((i, p) :: ans) n) vs ns.
Proof.
  clear accepts place. induction 1 as [|[v [q c]] [w [[j p'] f]] vs ns R H IH]; intros Hn; constructor.
  - destruct R as (-> & Hi & Hl & R). split; auto. split; auto. split; auto. destruct f; destruct R as (Hc & R); auto.
    + destruct R. split; auto. split; auto. cbn [map fst]. intros [E|Hin]; auto. apply Hn. simpl. auto.
    + destruct R. split; auto. split; auto. cbn. auto.
  - apply IH. intro. apply Hn. simpl. auto.
Qed.

Lemma ids_small : forall L ans n vs ns i, Forall2 (rel L ans n) vs ns -> In i (map id_of ns) -> i < n.
Proof.
  clear accepts place. induction 1 as [|[v [q c]] [w [[j p'] f]] vs ns R H IH]; intros Hin; [destruct Hin|].
  destruct Hin as [<-|Hin]; auto. apply R.
Qed.

Lemma ans_small : forall L n qs ss i, neat L n -> Forall2 (stub_rel L) qs ss -> In i (map fst ss) -> i < n.
Proof.
  clear accepts place. intros L n qs ss i (_ & _ & HL) H. induction H as [|q [j p] qs ss [Hi Ho] H IH]; intros Hin; [destruct Hin|].
  destruct Hin as [<-|Hin]; auto. cbn [fst snd] in *. rewrite Forall_forall in HL. apply HL in Ho. cbn in Ho. lia.
Qed.

(** ** Variables *)
Lemma look_ok : forall L ans n vs ns v x, Forall2 (rel L ans n) vs ns -> entry ns v = Some x ->
  exists q c, look vs v = Some (q, c) /\ rel L ans n (v, (q, c)) (v, x) /\ In (v, x) ns.
Proof.
  clear accepts place. induction 1 as [|[v0 [q c]] [w [[j p'] f]] vs ns R H IH]; intros E; [discriminate|].
  unfold entry, look in *. cbn [find fst] in *. pose proof R as (-> & _).
  destruct (Nat.eqb_spec w v) as [->|].
  - cbn [option_map snd] in *. injection E as <-. exists q, c. split; auto. split; [exact R|]. simpl. auto.
  - destruct (IH E) as (q' & c' & E' & R' & Hin). exists q', c'. split; auto. split; auto. simpl. auto.
Qed.

Lemma commit_ok : forall L ans n vs ns v i p, Forall2 (rel L ans n) vs ns -> NoDup (map id_of ns) ->
  entry ns v = Some (i, p, Free) -> Forall2 (rel L ((i, p) :: ans) n) (commit vs v) (set_given ns v).
Proof.
  clear accepts place. induction 1 as [|[v0 [q c]] [w [[j p'] f]] vs ns R H IH]; intros ND E; [discriminate|].
  cbn [commit set_given]. pose proof R as (-> & _). unfold entry in E. cbn [find fst] in E.
  cbn [map] in ND. inversion ND as [|? ? Hn ND']; subst.
  destruct (Nat.eqb_spec w v) as [->|].
  - cbn [option_map snd] in E. injection E as -> -> ->. destruct R as (_ & Hi & Hl & Hc & Ho & Hni). constructor.
    + split; auto. split; auto. split; auto. split; auto. split; auto. cbn. auto.
    + apply rel_stub; auto.
  - constructor; auto.
    destruct R as (_ & Hi & Hl & R). split; auto. split; auto. split; auto. destruct f; destruct R as (Hc & R); auto.
    + destruct R. split; auto. split; auto. cbn [map fst]. intros [Ej|Hin]; auto. rewrite Ej in *. apply Hn.
      fold (entry ns v) in E. destruct (look_ok _ _ _ _ _ _ _ H E) as (_ & _ & _ & _ & Hin).
      apply (in_map id_of) in Hin. cbn in Hin |- *. exact Hin.
    + destruct R. split; auto. split; auto. cbn. auto.
Qed.

Lemma given_ids : forall ns v, map id_of (set_given (P:=P) ns v) = map id_of ns.
Proof. clear accepts place. induction ns as [|[w [[j p] f]] ns IH]; intros v; cbn [set_given]; auto. destruct (w =? v); cbn; auto. now rewrite IH. Qed.

Lemma without_in : forall ns v x, In x (map id_of (without (P:=P) ns v)) -> In x (map id_of ns).
Proof.
  clear accepts place. induction ns as [|[w e] ns IH]; intros v x; cbn [without]; auto.
  destruct (w =? v); cbn; auto. intros [->|H]; auto. right. eapply IH; eauto.
Qed.

Lemma without_nodup : forall ns v, NoDup (map id_of ns) -> NoDup (map id_of (without (P:=P) ns v)).
Proof.
  clear accepts place. induction ns as [|[w e] ns IH]; intros v ND; cbn [without]; auto. cbn [map] in ND. inversion ND; subst.
  destruct (w =? v); auto. cbn [map]. constructor; auto. intro H. apply without_in in H. auto.
Qed.

Lemma leave_ok : forall L ans n vs ns v, Forall2 (rel L ans n) vs ns -> Forall2 (rel L ans n) (leave vs v) (without ns v).
Proof.
  clear accepts place. induction 1 as [|[v0 e] [w e'] vs ns R H IH]; cbn [leave without]; auto.
  assert (v0 = w) as -> by (destruct e, e' as [[? ?] ?]; apply R).
  destruct (w =? v); auto.
Qed.

Lemma without_gone : forall ns v i p f, NoDup (map id_of ns) -> entry (P:=P) ns v = Some (i, p, f) -> ~ In i (map id_of (without ns v)).
Proof.
  clear accepts place. induction ns as [|[w [[j p'] f']] ns IH]; intros v i p f ND E; [discriminate|].
  unfold entry in E. cbn [find fst] in E. cbn [map] in ND. inversion ND as [|? ? Hn ND']; subst. cbn [without].
  destruct (Nat.eqb_spec w v) as [->|].
  - cbn [option_map snd] in E. injection E as -> -> ->. exact Hn.
  - fold (entry ns v) in E. cbn [map]. intros [Ej|Hin].
    + cbn in Ej. subst j. apply Hn. clear - E. unfold entry in E. destruct (find (fun e => fst e =? v) ns) as [[w' x]|] eqn:F; [|discriminate].
      cbn in E. injection E as ->. apply find_some in F as [F _]. apply (in_map id_of) in F. exact F.
    + eapply IH; eauto.
Qed.

(** ** Destruction *)
Lemma nodup_filter : forall X Y (f : X -> Y) g (l : list X), NoDup (map f l) -> NoDup (map f (filter g l)).
Proof.
  induction l as [|x l IH]; cbn; intros ND; auto. inversion ND; subst. destruct (g x); auto. cbn. constructor; auto.
  intro H. apply H1. apply in_map_iff in H as (y & E & Hy). apply filter_In in Hy as [Hy _]. rewrite <- E. now apply in_map.
Qed.

Lemma filter_neat : forall L n g, neat L n -> neat (filter g L) n.
Proof.
  clear accepts place. intros L n g (ND & NA & HL). split; [|split]; try apply nodup_filter; auto.
  rewrite Forall_forall in *. intros o Ho. apply filter_In in Ho as [Ho _]. auto.
Qed.

Definition but (i : nat) (L : list (obj P)) := filter (fun o => negb (o_id o =? i)) L.

Lemma ok_but : forall L q p i, ok L q p -> p_obj q <> i -> ok (but i L) q p.
Proof. clear accepts place. intros L q p i H N. unfold ok, but. apply filter_In. split; auto. cbn. destruct (Nat.eqb_spec (p_obj q) i); auto. Qed.

Lemma not_but : forall (L : list (obj P)) i, ~ In i (map o_id (but i L)).
Proof.
  clear accepts place. intros L i H. apply in_map_iff in H as (o & E & H). apply filter_In in H as [_ H]. subst i.
  now rewrite Nat.eqb_refl in H.
Qed.

Lemma but_in : forall (L : list (obj P)) i j, In j (map o_id (but i L)) -> In j (map o_id L).
Proof.
  clear accepts place. intros L i j H. apply in_map_iff in H as (o & E & H). apply filter_In in H as [H _]. subst j. now apply in_map.
Qed.

Lemma stub_but : forall L i qs ss, Forall2 (stub_rel L) qs ss -> ~ In i (map fst ss) -> Forall2 (stub_rel (but i L)) qs ss.
Proof.
  clear accepts place. induction 1 as [|q [j p] qs ss [Hi Ho] H IH]; intros N; constructor.
  - split; auto. cbn [fst snd] in *. apply ok_but; auto. intros E. apply N. cbn. left. congruence.
  - apply IH. intro. apply N. cbn. auto.
Qed.

Lemma rel_but : forall L ans n i vs ns, Forall2 (rel L ans n) vs ns -> ~ In i (map id_of ns) -> Forall2 (rel (but i L) ans n) vs ns.
Proof.
  clear accepts place. induction 1 as [|[v [q c]] [w [[j p] f]] vs ns R H IH]; intros N; constructor.
  - assert (p_obj q <> i) by (intros E; apply N; cbn; left; destruct R as (_ & <- & _); exact E).
    destruct R as (-> & Hi & Hl & R). split; auto. split; auto. split; auto. destruct f; destruct R as (Hc & R).
    + destruct R. split; auto. split; auto. apply ok_but; auto.
    + destruct R. split; auto. split; auto. apply ok_but; auto.
    + split; auto. intro Hin. apply but_in in Hin. auto.
  - apply IH. intro. apply N. cbn. auto.
Qed.

Lemma create_check : forall (L : list (obj P)) n a p, Forall (fun o => o_id o < n) L -> but n (mkObj n a p :: L) = L.
Proof.
  clear accepts place. intros L n a p H. unfold but. cbn [filter o_id]. rewrite Nat.eqb_refl. cbn [negb].
  induction H as [|o L Ho H IH]; cbn [filter]; auto. destruct (Nat.eqb_spec (o_id o) n); [lia|]. cbn [negb]. now rewrite IH.
Qed.

Lemma destroy_ok : forall L n q p, neat L n -> ok L q p -> destroy L q = Def (but (p_obj q) L).
Proof. clear accepts place. intros. unfold destroy. rewrite (deref_ok _ _ _ _ H H0). reflexivity. Qed.

(** Reset: the matchers of the stubbings go, those of free expressions stay. *)
Lemma renew_ok : forall qs ss L n vs ns, Forall2 (stub_rel L) qs ss -> NoDup (map fst ss) -> neat L n ->
  Forall2 (rel L ss n) vs ns ->
  exists L', destroy_all L qs = Def L' /\ neat L' n /\ Forall2 (rel L' [] n) vs (map after_reset ns).
Proof.
  clear accepts place.
  assert (Gen : forall qs ss L n vs ns (old : list nat), Forall2 (stub_rel L) qs ss -> NoDup (map fst ss) -> neat L n ->
    Forall2 (fun e e' => match e, e' with (v, (q, c)), (w, (i, p, f)) => v = w /\ p_obj q = i /\ i < n /\
        match f with
        | Free => c = false /\ ok L q p /\ ~ In i (map fst ss)
        | Given => c = true /\ (In i (map fst ss) \/ ~ In i (map o_id L))
        | Gone => c = true /\ ~ In i (map o_id L)
        end end) vs ns ->
    exists L', destroy_all L qs = Def L' /\ neat L' n /\ Forall2 (rel L' [] n) vs (map after_reset ns)).
  { intros qs ss L n vs ns _ H. revert vs ns. revert L H. revert ss. induction qs as [|q qs IH]; intros ss L H vs ns ND HN HR.
    - inversion H; subst. exists L. split; auto. split; auto. induction HR as [|[v [q c]] [w [[i p] f]] vs ns R HR IH']; cbn [map]; constructor; auto.
      destruct R as (-> & Hi & Hl & R). destruct f; cbn [after_reset]; (split; [auto|]; split; [auto|]; split; [auto|]).
      + destruct R as (? & ? & ?). auto.
      + destruct R as (? & [[]|?]). auto.
      + auto.
    - inversion H as [|? [i p] ? ss' [Hi Ho] H']; subst. cbn [fst snd map] in *. inversion ND as [|? ? Hn ND']; subst.
      cbn [destroy_all]. rewrite (destroy_ok _ _ _ _ HN Ho). cbn [obind].
      apply (IH ss' (but (p_obj q) L)); auto.
      + apply stub_but; auto.
      + apply filter_neat; auto.
      + clear - HR. induction HR as [|[v [q0 c]] [w [[i p0] f]] vs ns R HR IH']; constructor; auto.
        destruct R as (-> & Hi & Hl & R). split; auto. split; auto. split; auto. destruct f; destruct R as (Hc & R).
        * destruct R as [Ho Hn]. split; auto. split; [|intro; apply Hn; cbn; auto]. apply ok_but; auto. intro E. apply Hn. cbn. left. congruence.
        * split; auto. destruct R as [[E|Hin]|Hnin]; auto.
          -- right. subst i. rewrite <- E. apply not_but.
          -- right. intro Hx. apply but_in in Hx. auto.
        * split; auto. intro Hx. apply but_in in Hx. auto. }
  intros qs ss L n vs ns H ND HN HR. apply (Gen qs ss L n vs ns []); auto.
  clear - HR. induction HR as [|[v [q0 c]] [w [[i p0] f]] vs ns R HR IH']; constructor; auto.
  destruct R as (-> & Hi & Hl & R). split; auto. split; auto. split; auto. destruct f; destruct R as (Hc & R); auto. destruct R. auto.
Qed.

Lemma reset_ids : forall ns : list (nat * (nat * P * fate)), map id_of (map after_reset ns) = map id_of ns.
Proof. clear accepts place. induction ns as [|[w [[j p] f]] ns IH]; cbn [map]; auto. rewrite IH. destruct f; reflexivity. Qed.

Lemma step_ok : forall s m e m' l, honest place -> Inv s m -> meant accepts m e = Some (m', l) ->
  exists s', step accepts place s e = Def (s', l) /\ Inv s' m'.
Proof.
  intros s m e m' l HP HI E. pose proof (calls_ok _ _ HI) as HCo.
  destruct s as [L qs cs vs n k]. destruct m as [ss hs ns n' k']. unfold Inv in HI.
  cbn [objs stubs calls vars made asked answering history named number questions] in *.
  destruct HI as (-> & -> & HN & HS & ND & Hh & HC & HV & NV).
  assert (Fresh1 : ~ In n' (map fst ss)) by (intro Hin; pose proof (ans_small _ _ _ _ _ HN HS Hin); lia).
  assert (Fresh2 : ~ In n' (map id_of ns)) by (intro Hin; pose proof (ids_small _ _ _ _ _ _ HV Hin); lia).
  destruct e as [p|a|p|v p|v|v|v| |]; cbn [meant step create objs stubs calls vars made asked answering history named number questions] in *.
  - injection E as <- <-. eexists. split; [reflexivity|]. unfold Inv. cbn [objs stubs calls vars made asked answering history named number questions].
    split; auto. split; auto. split; [now apply create_neat|]. split.
    { constructor; [|now apply stub_more]. split; auto. left. reflexivity. }
    split; [cbn [map fst]; constructor; auto|]. split; auto. split.
    { eapply Forall_impl; [|exact HC]. intros c Hc. right. exact Hc. }
    split; auto. apply rel_stub; auto. now apply rel_more.
  - destruct (search_ok L n' qs ss k' a HN HS) as (r & k2 & Es & Ew & Hr). rewrite Es, Ew in *. cbn [obind].
    destruct r as [q|]; cbn [option_map] in *; injection E as <- <-; eexists; (split; [reflexivity|]); unfold Inv;
      cbn [objs stubs calls vars made asked answering history named number questions];
      (split; [auto|]; split; [auto|]; split; [auto|]; split; [auto|]; split; [auto|]).
    + split; [rewrite map_app, Hh; reflexivity|]. split; auto. apply Forall_app. split; auto.
    + split; auto.
  - pose proof (create_neat L n' p HP HN) as HN2.
    set (q := mkPtr (place n' (map o_addr L)) n') in *.
    assert (Hq : ok (mkObj n' (place n' (map o_addr L)) p :: L) q p) by (left; reflexivity).
    rewrite (count_ok _ _ q p cs k' HN2 Hq) by (eapply Forall_impl; [|exact HCo]; intros c [p' Hc]; exists p'; right; exact Hc).
    rewrite <- Hh. cbn [p_obj]. destruct (tally accepts n' p k' hs) as [t k2] eqn:Et.
    change (p_obj q) with n'. rewrite Et. cbn [obind].
    rewrite (destroy_ok _ _ _ _ HN2 Hq). cbn [obind]. injection E as <- <-. eexists. split; [reflexivity|].
    unfold Inv. cbn [objs stubs calls vars made asked answering history named number questions].
    change (p_obj q) with n'. rewrite create_check by apply HN.
    split; auto. split; auto. split.
    { destruct HN as (? & ? & HL). split; auto. split; auto. eapply Forall_impl; [|exact HL]. cbn. lia. }
    split; auto. split; auto. split; auto. split; auto. split; auto.
    clear - HV. induction HV as [|[v [q0 c]] [w [[i p0] f]] vs ns R HR IH]; constructor; auto.
    destruct R as (-> & Hi & Hl & R). split; auto.
  - injection E as <- <-. eexists. split; [reflexivity|]. unfold Inv. cbn [objs stubs calls vars made asked answering history named number questions].
    split; auto. split; auto. split; [now apply create_neat|]. split; [now apply stub_more|]. split; auto. split; auto. split; auto.
    split; [|cbn [map]; constructor; auto]. constructor; [|now apply rel_more].
    split; auto. split; auto. split; [lia|]. split; auto. split; auto. left. reflexivity.
  - destruct (entry ns v) as [[[i p] f]|] eqn:En; [|discriminate]. destruct f; try discriminate. injection E as <- <-.
    destruct (look_ok _ _ _ _ _ _ _ HV En) as (q & c & El & R & _). rewrite El. cbn [of_option obind].
    eexists. split; [reflexivity|]. destruct R as (_ & Hi & Hl & Hc & Ho & Hni).
    unfold Inv. cbn [objs stubs calls vars made asked answering history named number questions].
    split; auto. split; auto. split; auto. split; [constructor; auto; split; auto|]. split; [cbn [map fst]; constructor; auto|].
    split; auto. split.
    { eapply Forall_impl; [|exact HC]. intros c0 Hc0. right. exact Hc0. }
    split; [apply commit_ok; auto|]. now rewrite given_ids.
  - destruct (entry ns v) as [[[i p] f]|] eqn:En; [|discriminate].
    destruct (look_ok _ _ _ _ _ _ _ HV En) as (q & c & El & R & _). rewrite El. cbn [of_option obind].
    assert (Ho : f <> Gone -> ok L q p) by (destruct R as (_ & _ & _ & R); destruct f; intros; try apply R; congruence).
    assert (Hi : p_obj q = i) by apply R.
    destruct f; try discriminate;
      (rewrite (count_ok _ _ q p cs k' HN) by (auto; apply Ho; discriminate); rewrite <- Hh, Hi;
       destruct (tally accepts i p k' hs) as [t k2]; cbn [obind]; injection E as <- <-; eexists; split; [reflexivity|];
       unfold Inv; cbn [objs stubs calls vars made asked answering history named number questions]; auto 12).
  - destruct (entry ns v) as [[[i p] f]|] eqn:En; [|discriminate]. injection E as <- <-.
    destruct (look_ok _ _ _ _ _ _ _ HV En) as (q & c & El & R & _). rewrite El. cbn [of_option obind].
    pose proof (leave_ok _ _ _ _ _ v HV) as HV2. pose proof (without_nodup _ v NV) as NV2.
    destruct R as (_ & Hi & Hl & R). destruct f; destruct R as (-> & R); cbn [obind].
    + destruct R as [Ho Hni]. rewrite (destroy_ok _ _ _ _ HN Ho). cbn [obind]. eexists. split; [reflexivity|].
      unfold Inv. cbn [objs stubs calls vars made asked answering history named number questions]. rewrite Hi.
      split; auto. split; auto. split; [now apply filter_neat|]. split; [apply stub_but; auto|]. split; auto. split; auto. split; auto.
      split; auto. apply rel_but; auto. eapply without_gone; eauto.
    + eexists. split; [reflexivity|]. unfold Inv. cbn [objs stubs calls vars made asked answering history named number questions]. auto 12.
    + eexists. split; [reflexivity|]. unfold Inv. cbn [objs stubs calls vars made asked answering history named number questions]. auto 12.
  - injection E as <- <-. eexists. split; [reflexivity|]. unfold Inv. cbn [objs stubs calls vars made asked answering history named number questions].
    auto 12.
  - injection E as <- <-. destruct (renew_ok _ _ _ _ _ _ HS ND HN HV) as (L' & Ed & HN' & HV'). rewrite Ed. cbn [obind].
    eexists. split; [reflexivity|]. unfold Inv. cbn [objs stubs calls vars made asked answering history named number questions].
    rewrite reset_ids. split; auto. split; auto. split; auto. split; [constructor|]. split; [constructor|]. auto.
Qed.

Lemma steps_ok : forall es s m m' l, honest place -> Inv s m -> all_meant accepts m es = Some (m', l) ->
  exists s', steps accepts place s es = Def (s', l) /\ Inv s' m'.
Proof.
  induction es as [|e es IH]; intros s m m' l HP HI E; cbn [all_meant steps] in *.
  - injection E as <- <-. eauto.
  - destruct (meant accepts m e) as [[m1 l1]|] eqn:E1; [|discriminate].
    destruct (all_meant accepts m1 es) as [[m2 l2]|] eqn:E2; [|discriminate]. injection E as <- <-.
    destruct (step_ok _ _ _ _ _ HP HI E1) as (s1 & S1 & I1). rewrite S1. cbn [obind].
    destruct (IH _ _ _ _ HP I1 E2) as (s2 & S2 & I2). rewrite S2. cbn [obind]. eauto.
Qed.

Lemma fresh_ok : Inv fresh (@nothing A P).
Proof.
  unfold Inv, fresh, nothing, neat. cbn. repeat split; constructor.
Qed.

Lemma reuse_ok : forall es m l, honest place -> all_meant accepts nothing es = Some (m, l) ->
  exists s, steps accepts place fresh es = Def (s, l) /\
    (forall c, In c (calls s) -> exists o, deref (objs s) (snd c) = Def o) /\
    map (fun c => (fst c, p_obj (snd c))) (calls s) = history m.
Proof.
  intros es m l HP E. destruct (steps_ok _ _ _ _ _ HP fresh_ok E) as (s & S & I). exists s. split; auto. split.
  - intros c Hc. pose proof (calls_ok _ _ I) as H. rewrite Forall_forall in H. destruct (H _ Hc) as [p Ho].
    destruct I as (_ & _ & HN & _). rewrite (deref_ok _ _ _ _ HN Ho). eauto.
  - symmetry. apply I.
Qed.

Lemma gone_ok : forall es m l v i p, honest place -> all_meant accepts nothing es = Some (m, l) ->
  entry (named m) v = Some (i, p, Gone) -> history m <> [] ->
  steps accepts place fresh (es ++ [CheckKept v]) = UB.
Proof.
  intros es m l v i p HP E En Hh. destruct (steps_ok _ _ _ _ _ HP fresh_ok E) as (s & S & I).
  assert (App : forall es s0 s1 l1 e, steps accepts place s0 es = Def (s1, l1) -> step accepts place s1 e = UB ->
     steps accepts place s0 (es ++ [e]) = UB).
  { clear. induction es as [|e0 es IH]; intros s0 s1 l1 e H U; cbn [steps app] in *.
    - injection H as -> <-. rewrite U. reflexivity.
    - destruct (step accepts place s0 e0) as [[s2 l2]| |]; try discriminate. cbn [obind] in *.
      destruct (steps accepts place s2 es) as [[s3 l3]| |] eqn:E3; try discriminate. cbn [obind] in H. injection H as -> <-.
      rewrite (IH _ _ _ _ E3 U). reflexivity. }
  eapply App; [exact S|]. destruct I as (_ & _ & HN & _ & _ & Hc & _ & HV & _). cbn [step].
  destruct (look_ok _ _ _ _ _ _ _ HV En) as (q & c & El & R & _). rewrite El. cbn [of_option obind].
  destruct R as (_ & Hi & _ & _ & Hn). destruct (calls s) as [|[a b] cs]; [now rewrite Hc in Hh|]. cbn [count]. unfold matches, deref.
  destruct (find (fun o => o_id o =? p_obj q) (objs s)) as [o|] eqn:F; [|reflexivity].
  exfalso. apply find_some in F as [F1 F2]. apply Nat.eqb_eq in F2. apply Hn. rewrite <- Hi, <- F2. now apply in_map.
Qed.

(** Conditions without a memory: verifications count the calls that were accepted. *)
Lemma tally_pure : forall i p n (cs : list (A * nat)), (forall n a, accepts p n a = accepts p 0 a) ->
  (forall a, In (a, i) cs -> accepts p 0 a = true) ->
  fst (tally accepts i p n cs) = length (filter (fun c => accepts p 0 (fst c)) cs).
Proof.
  clear place. intros i p n cs Hp. revert n. induction cs as [|[a j] cs IH]; intros n Hi; cbn [tally filter fst]; auto.
  assert (IH' : forall n, fst (tally accepts i p n cs) = length (filter (fun c => accepts p 0 (fst c)) cs)) by (intros; apply IH; intros; apply Hi; simpl; auto).
  destruct (Nat.eqb_spec j i) as [->|].
  - specialize (IH' n). destruct (tally accepts i p n cs). rewrite (Hi a) by (simpl; auto). cbn [fst length] in *. now rewrite IH'.
  - specialize (IH' (S n)). destruct (tally accepts i p (S n) cs). rewrite Hp. cbn [fst] in *. destruct (accepts p 0 a); cbn [length]; now rewrite IH'.
Qed.

Lemma check_pure : forall es m l p, honest place -> all_meant accepts nothing es = Some (m, l) ->
  (forall n a, accepts p n a = accepts p 0 a) ->
  exists s, steps accepts place fresh (es ++ [Check p]) = Def (s, l ++ [Matched (length (filter (fun c => accepts p 0 (fst c)) (history m)))]).
Proof.
  intros es m l p HP E Hp.
  assert (Small : forall a i, In (a, i) (history m) -> i < number m).
  { destruct (steps_ok _ _ _ _ _ HP fresh_ok E) as (s & _ & I). destruct I as (Hm & _ & HN & HS & _ & Hh & HC & _).
    intros a i Hin. rewrite Hh in Hin. apply in_map_iff in Hin as ([a' q] & Eq & Hin). cbn in Eq. injection Eq as <- <-.
    rewrite Forall_forall in HC. apply HC in Hin. cbn in Hin. destruct (stub_ok _ _ _ _ HS Hin) as (p' & Ho & _).
    destruct HN as (_ & _ & HL). rewrite Forall_forall in HL. apply HL in Ho. cbn in Ho. lia. }
  pose proof (tally_pure (number m) p (questions m) (history m) Hp) as T.
  assert (App : all_meant accepts nothing (es ++ [Check p]) =
     Some (mkMind (answering m) (history m) (named m) (S (number m)) (snd (tally accepts (number m) p (questions m) (history m))),
           l ++ [Matched (fst (tally accepts (number m) p (questions m) (history m)))])).
  { clear - E. revert E. generalize (@nothing A P) as m0. revert l. induction es as [|e es IH]; intros l m0 E; cbn [all_meant app] in *.
    - injection E as -> <-. cbn [meant]. destruct (tally accepts (number m) p (questions m) (history m)). reflexivity.
    - destruct (meant accepts m0 e) as [[m1 l1]|]; [|discriminate].
      destruct (all_meant accepts m1 es) as [[m2 l2]|] eqn:E2; [|discriminate]. injection E as -> <-.
      rewrite (IH _ _ E2). now rewrite app_assoc. }
  rewrite T in App by (intros a Hin; apply Small in Hin; lia).
  destruct (reuse_ok _ _ _ HP App) as (s & S & _). eauto.
Qed.

(** Calls answered by an expression count for it whatever its condition says later. *)
Lemma tally_own : forall i p n (cs : list (A * nat)), length (filter (fun c => snd c =? i) cs) <= fst (tally accepts i p n cs).
Proof.
  clear place. intros i p n cs. revert n. induction cs as [|[a j] cs IH]; intros n; cbn [tally filter snd]; auto.
  destruct (j =? i).
  - specialize (IH n). destruct (tally accepts i p n cs). cbn [fst length] in *. lia.
  - specialize (IH (S n)). destruct (tally accepts i p (S n) cs). cbn [fst] in *. destruct (accepts p n a); lia.
Qed.

Lemma meant_app : forall es e m0 m l m' l', all_meant accepts m0 es = Some (m, l) -> meant accepts m e = Some (m', l') ->
  all_meant accepts m0 (es ++ [e]) = Some (m', l ++ l').
Proof.
  clear place. induction es as [|e0 es IH]; intros e m0 m l m' l' E E'; cbn [all_meant app] in *.
  - injection E as -> <-. rewrite E'. now rewrite app_nil_r.
  - destruct (meant accepts m0 e0) as [[m1 l1]|]; [|discriminate].
    destruct (all_meant accepts m1 es) as [[m2 l2]|] eqn:E2; [|discriminate]. injection E as -> <-.
    rewrite (IH _ _ _ _ _ _ E2 E'). now rewrite app_assoc.
Qed.

Lemma own_counted : forall es m l v i p, honest place -> all_meant accepts nothing es = Some (m, l) ->
  entry (named m) v = Some (i, p, Given) ->
  exists s k, steps accepts place fresh (es ++ [CheckKept v]) = Def (s, l ++ [Matched k]) /\
    length (filter (fun c => p_obj (snd c) =? i) (calls s)) <= k.
Proof.
  intros es m l v i p HP E En.
  destruct (tally accepts i p (questions m) (history m)) as [k n] eqn:T.
  assert (E' : meant accepts m (CheckKept v) = Some (mkMind (answering m) (history m) (named m) (number m) n, [Matched k])).
  { cbn [meant]. rewrite En, T. reflexivity. }
  pose proof (meant_app _ _ _ _ _ _ _ E E') as E2.
  destruct (reuse_ok _ _ _ HP E2) as (s & S & _ & Hh). exists s, k. split; auto. cbn [history] in Hh.
  pose proof (tally_own i p (questions m) (history m)) as O. rewrite T in O. cbn [fst] in O. rewrite <- Hh in O.
  etransitivity; [|exact O]. clear. induction (calls s) as [|[a q] cs IH]; cbn [filter map snd fst]; auto.
  destruct (p_obj q =? i); cbn [length]; lia.
Qed.

(** ** Nothing else exists *)
Definition Cov (s : st A P) (m : mind A P) : Prop :=
  forall o, In o (objs s) -> In (o_id o) (map fst (answering m)) \/ exists v p, In (v, (o_id o, p, Free)) (named m).

Lemma entry_split : forall (ns : list (nat * (nat * P * fate))) v x e, entry ns v = Some x -> In e ns ->
  e = (v, x) \/ (In e (set_given ns v) /\ In e (without ns v)).
Proof.
  clear accepts place. induction ns as [|[w [y f]] ns IH]; intros v x e E Hin; [discriminate|].
  unfold entry in E. cbn [find fst] in E. cbn [set_given without]. destruct (Nat.eqb_spec w v) as [->|].
  - cbn in E. injection E as <-. destruct Hin as [<-|Hin]; auto. right. split; auto. right. exact Hin.
  - fold (entry ns v) in E. destruct Hin as [<-|Hin].
    + right. split; left; reflexivity.
    + destruct (IH _ _ _ E Hin) as [?|[? ?]]; auto. right. split; right; auto.
Qed.

Lemma destroy_all_in : forall qs (L L' : list (obj P)) o, destroy_all L qs = Def L' -> In o L' -> In o L /\ ~ In (o_id o) (map p_obj qs).
Proof.
  clear accepts place. induction qs as [|q qs IH]; intros L L' o E Hin; cbn [destroy_all] in E.
  - injection E as <-. auto.
  - unfold destroy in E. destruct (deref L q) as [x| |]; try discriminate. cbn [obind] in E.
    destruct (IH _ _ _ E Hin) as [H1 H2]. apply filter_In in H1 as [H1 H3]. split; auto. cbn [map]. intros [Eq|Hi]; auto.
    rewrite Eq, Nat.eqb_refl in H3. discriminate.
Qed.

Lemma stub_ids : forall L qs ss, Forall2 (stub_rel L) qs ss -> map p_obj qs = map fst ss.
Proof. clear accepts place. induction 1 as [|q ip qs ss [Hi _] H IH]; cbn [map]; auto. now rewrite Hi, IH. Qed.

Lemma cov_step : forall s m e m' l s' l', Inv s m -> Cov s m -> meant accepts m e = Some (m', l) ->
  step accepts place s e = Def (s', l') -> Cov s' m'.
Proof.
  intros s m e m' l s' l' HI HC E S.
  destruct s as [L qs cs vs n k]. destruct m as [ss hs ns n' k']. unfold Inv, Cov in *.
  cbn [objs stubs calls vars made asked answering history named number questions] in *.
  destruct HI as (-> & -> & HN & HS & ND & Hh & _ & HV & NV).
  destruct e as [p|a|p|v p|v|v|v| |]; cbn [meant step create objs stubs calls vars made asked answering history named number questions] in *.
  - injection E as <- <-. injection S as <- <-. cbn [objs answering named map fst]. intros o [<-|Ho]; [left; left; reflexivity|].
    destruct (HC _ Ho) as [?|?]; auto. left. right. auto.
  - destruct (search accepts L k' qs a) as [[r n2]| |]; try discriminate. cbn [obind] in S.
    destruct (who accepts ss k' a) as [[i|] n3]; injection E as <- <-; destruct r; injection S as <- <-; exact HC.
  - destruct (count accepts _ k' _ cs) as [[c n2]| |]; try discriminate. cbn [obind] in S.
    destruct (destroy _ _) as [os| |] eqn:Ed; try discriminate. cbn [obind] in S. injection S as <- <-.
    destruct (tally accepts n' p k' hs). injection E as <- <-. cbn [objs answering named].
    unfold destroy in Ed. destruct (deref _ _); try discriminate. cbn [obind] in Ed.
    assert (Eo : os = but n' (mkObj n' (place n' (map o_addr L)) p :: L)) by (unfold but; cbn [p_obj] in Ed; congruence). rewrite Eo.
    rewrite create_check by apply HN. exact HC.
  - injection E as <- <-. injection S as <- <-. cbn [objs answering named]. intros o [<-|Ho].
    + right. exists v, p. left. reflexivity.
    + destruct (HC _ Ho) as [?|(v0 & p0 & ?)]; auto. right. exists v0, p0. right. auto.
  - destruct (entry ns v) as [[[i p] f]|] eqn:En; [|discriminate]. destruct f; try discriminate. injection E as <- <-.
    destruct (look vs v) as [[q c]|]; [|discriminate]. cbn [of_option obind] in S. injection S as <- <-. cbn [objs answering named map fst].
    intros o Ho. destruct (HC _ Ho) as [?|(v0 & p0 & Hin)]; [left; right; auto|].
    destruct (entry_split _ _ _ _ En Hin) as [Eq|[Hg _]].
    + injection Eq as -> -> ->. left. left. reflexivity.
    + right. eauto.
  - destruct (look vs v) as [[q c]|]; [|discriminate]. cbn [of_option obind] in S.
    destruct (count accepts L k' q cs) as [[c0 n2]| |]; try discriminate. cbn [obind] in S. injection S as <- <-.
    destruct (entry ns v) as [[[i p] f]|]; [|discriminate]. destruct f; try discriminate;
      destruct (tally accepts i p k' hs); injection E as <- <-; exact HC.
  - destruct (entry ns v) as [[[i p] f]|] eqn:En; [|discriminate]. injection E as <- <-.
    destruct (look_ok _ _ _ _ _ _ _ HV En) as (q & c & El & R & _). rewrite El in S. cbn [of_option obind] in S.
    destruct R as (_ & Hi & Hl & R).
    assert (Keep : forall o, In o L -> (f = Free -> o_id o <> i) ->
       In (o_id o) (map fst ss) \/ (exists v0 p0, In (v0, (o_id o, p0, Free)) (without ns v))).
    { intros o Ho Hf. destruct (HC _ Ho) as [?|(v0 & p0 & Hin)]; auto.
      destruct (entry_split _ _ _ _ En Hin) as [Eq|[_ Hg]]; [|right; eauto]. injection Eq as _ E1 _ E2. exfalso. apply Hf; congruence. }
    destruct f; destruct R as (-> & R); cbn [obind] in S.
    + destruct R as [Ho Hni]. rewrite (destroy_ok _ _ _ _ HN Ho) in S. cbn [obind] in S. injection S as <- <-. cbn [objs answering named].
      intros o Hin. apply filter_In in Hin as [Hin Hb]. apply Keep; auto. intros _ Eq. rewrite Eq, Hi, Nat.eqb_refl in Hb. discriminate.
    + injection S as <- <-. cbn [objs answering named]. intros o Hin. apply Keep; auto. discriminate.
    + injection S as <- <-. cbn [objs answering named]. intros o Hin. apply Keep; auto. discriminate.
  - injection E as <- <-. injection S as <- <-. exact HC.
  - injection E as <- <-. destruct (destroy_all L qs) as [os| |] eqn:Ed; try discriminate. cbn [obind] in S. injection S as <- <-.
    cbn [objs answering named]. intros o Ho. destruct (destroy_all_in _ _ _ _ Ed Ho) as [H1 H2]. rewrite (stub_ids _ _ _ HS) in H2.
    destruct (HC _ H1) as [?|(v0 & p0 & Hin)]; [contradiction|]. right. exists v0, p0.
    apply (in_map after_reset) in Hin. exact Hin.
Qed.

Lemma exact_objects : forall es m l, honest place -> all_meant accepts nothing es = Some (m, l) ->
  exists s, steps accepts place fresh es = Def (s, l) /\ NoDup (map o_id (objs s)) /\
    forall i, In i (map o_id (objs s)) <-> (In i (map fst (answering m)) \/ exists v p, In (v, (i, p, Free)) (named m)).
Proof.
  intros es m l HP E.
  assert (Gen : forall es s m m' l, Inv s m -> Cov s m -> all_meant accepts m es = Some (m', l) ->
     exists s', steps accepts place s es = Def (s', l) /\ Inv s' m' /\ Cov s' m').
  { clear es m l E. induction es as [|e es IH]; intros s m m' l HI HC E; cbn [all_meant steps] in *.
    - injection E as <- <-. eauto.
    - destruct (meant accepts m e) as [[m1 l1]|] eqn:E1; [|discriminate].
      destruct (all_meant accepts m1 es) as [[m2 l2]|] eqn:E2; [|discriminate]. injection E as <- <-.
      destruct (step_ok _ _ _ _ _ HP HI E1) as (s1 & S1 & I1).
      pose proof (cov_step _ _ _ _ _ _ _ HI HC E1 S1) as C1. rewrite S1. cbn [obind].
      destruct (IH _ _ _ _ I1 C1 E2) as (s2 & S2 & I2). rewrite S2. cbn [obind]. eauto. }
  assert (C0 : Cov fresh nothing) by (intros o []).
  destruct (Gen es _ _ _ _ fresh_ok C0 E) as (s & S & I & C). exists s. split; auto.
  destruct I as (_ & _ & HN & HS & _ & _ & _ & HV & _). split; [apply HN|]. intros i. split.
  - intros Hin. apply in_map_iff in Hin as (o & <- & Hin). auto.
  - intros [Hin|(v & p & Hin)].
    + rewrite <- (stub_ids _ _ _ HS) in Hin. apply in_map_iff in Hin as (q & <- & Hin).
      destruct (stub_ok _ _ _ _ HS Hin) as (p & Ho & _). apply (in_map o_id) in Ho. exact Ho.
    + clear - HV Hin. induction HV as [|[v0 [q c]] [w [[j p'] f]] vs ns R HV IH]; [destruct Hin|]. destruct Hin as [Eq|Hin]; auto.
      injection Eq as -> -> -> ->. destruct R as (_ & <- & _ & _ & Ho & _). apply (in_map o_id) in Ho. exact Ho.
Qed.

End P.

(** The places that a memory manager chooses do not matter. *)
Lemma managers_agree : forall A P (accepts : P -> nat -> A -> bool) place1 place2 es m l, honest place1 -> honest place2 ->
  all_meant accepts nothing es = Some (m, l) ->
  exists s1 s2, steps accepts place1 fresh es = Def (s1, l) /\ steps accepts place2 fresh es = Def (s2, l).
Proof.
  intros A P accepts place1 place2 es m l H1 H2 E.
  destruct (reuse_ok accepts place1 es m l H1 E) as (s1 & S1 & _). destruct (reuse_ok accepts place2 es m l H2 E) as (s2 & S2 & _). eauto.
Qed.
