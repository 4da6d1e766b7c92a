(** The simulation, part B: method expressions and the binding of methods. *)
From Coq Require Import Bool ZArith Lia List Permutation.
From Verif Require Import Base CInt Values ArgMatchers InvMatchers ActionSeq Sequences MatchAnalysis
  SortInv VTable Spec_Layout VTableProofs Proxy ProxyProofs Events Expectation ReturnSet Ordinals Syntax World Spec_World
  WorldLogic WorldRel WorldSimA.
Import ListNotations.
Open Scope nat_scope.

(** ** Tables *)
Lemma vt_get_set_other : forall W (t t' : vtable W) i x j, vt_set t i x = Def t' -> i <> j -> vt_get t' j = vt_get t j.
Proof.
  intros W t t' i x j H N. unfold vt_set in H. destruct (Z.ltb_spec (vt_first t + i) 0); [discriminate|].
  destruct (Z.leb_spec (Z.of_nat (length (vt_arr t))) (vt_first t + i)); [discriminate|]. cbn [orb] in H.
  injection H as <-. unfold vt_get. cbn [vt_arr vt_first]. destruct (Z.ltb_spec (vt_first t + j) 0); auto.
  rewrite nth_error_upd_other; auto. lia.
Qed.

Lemma shows_ext : forall size f g vt, (forall j, j < size -> f j = g j) -> shows size f vt -> shows size g vt.
Proof. intros size f g vt H [W S]. split; auto. intros j L. rewrite <- H by auto. auto. Qed.

Lemma shows_set : forall size f vt slot x, shows size f vt -> slot < size ->
  exists vt', setMethod vt (Z.of_nat slot) x = Def vt' /\
    shows size (fun j => if Nat.eqb j slot then x else f j) vt' /\
    (forall i, (i < 0)%Z -> vt_get vt' i = vt_get vt i).
Proof.
  intros size f vt slot x [W S] L.
  assert (V : valid_entry (Z.of_nat size) (numOfCookies Gcc) (EMethod (Z.of_nat slot))) by (cbn; lia).
  pose proof (write_pos Gcc _ _ _ x W V) as WP. cbn [write_entry] in WP.
  eexists. split; [exact WP|]. split.
  - split; [now apply write_wf|]. intros j Lj.
    assert (Vj : valid_entry (Z.of_nat size) (numOfCookies Gcc) (EMethod (Z.of_nat j))) by (cbn; lia).
    pose proof (read_write Gcc _ _ _ x _ W V Vj) as RW. cbn [read_entry entry_eqb] in RW. rewrite RW.
    destruct (Z.eqb_spec (Z.of_nat slot) (Z.of_nat j)), (Nat.eqb_spec j slot); try lia; auto.
  - intros i Li. eapply vt_get_set_other; [exact WP|lia].
Qed.

Lemma shows_setDtor : forall size f vt j h x, shows size f vt -> S j < size ->
  exists vt', setDtor Gcc vt (Z.of_nat j) h x = Def vt' /\
    shows size (fun i => if Nat.eqb i (S j) then h else if Nat.eqb i j then x else f i) vt' /\
    (forall i, (i < 0)%Z -> vt_get vt' i = vt_get vt i).
Proof.
  intros size f vt j h x S L.
  destruct (shows_set size f vt j x S) as (vt1 & A1 & B1 & C1); [lia|].
  destruct (shows_set size _ vt1 (Datatypes.S j) h B1 L) as (vt2 & A2 & B2 & C2).
  exists vt2. cbn [setDtor]. unfold setMethod in *. rewrite A1. cbn [obind].
  replace (Z.of_nat j + 1)%Z with (Z.of_nat (Datatypes.S j)) by lia. rewrite A2. split; auto. split; auto.
  intros i Li. rewrite C2, C1; auto.
Qed.

Lemma live_upd_in : forall A (h : list (option A)) i x, i < length h -> live (upd h i x) i = x.
Proof. intros. rewrite live_upd by auto. now rewrite Nat.eqb_refl. Qed.
Lemma live_upd_out : forall A (h : list (option A)) i j x, i <> j -> live (upd h i x) j = live h j.
Proof.
  intros A h i j x N. unfold live. now rewrite nth_error_upd_other.
Qed.

Lemma map_upd : forall A B (f : A -> B) l i x, map f (upd l i x) = upd (map f l) i (f x).
Proof. induction l as [|h t IH]; intros [|i] x; cbn; auto. now rewrite IH. Qed.

Section CurWord.
Variables (owner : bool) (c : nat) (d : class_desc) (oc : nat).
Local Notation cw := (cur_word owner c d oc).

Lemma cw_bind : forall fs slot no id j, slot < length fs -> live fs slot = None ->
  (forall i, cl_dtor d = Some i -> live fs (S i) = None) ->
  (forall i, cl_dtor d = Some i -> slot <> S i) ->
  cw (upd fs slot (Some (no, id, false))) j =
  if Nat.eqb j slot then WCode (CProxy id)
  else match cl_dtor d with
       | Some i => if Nat.eqb slot i && Nat.eqb j (S i) then WCode (CDtorHelper c) else cw fs j
       | None => cw fs j
       end.
Proof.
  intros fs slot no id j L N HD HS. unfold cur_word. rewrite !(live_upd _ fs slot) by auto.
  rewrite (Nat.eqb_sym j slot).
  destruct (Nat.eqb_spec slot j) as [->|Nj]; [reflexivity|].
  destruct (cl_dtor d) as [i|] eqn:D; [|reflexivity].
  rewrite live_upd by auto.
  destruct (live fs j) as [[[no' id'] b']|] eqn:F.
  - destruct (Nat.eqb_spec slot i) as [->|]; cbn [andb]; [|reflexivity].
    destruct (Nat.eqb_spec j (S i)) as [->|]; [|reflexivity]. rewrite (HD i eq_refl) in F. discriminate.
  - destruct (Nat.eqb_spec slot i) as [->|]; cbn [andb]; [|reflexivity].
    destruct (Nat.eqb j (S i)); reflexivity.
Qed.

Lemma cw_bypass : forall fs slot no id b b' j, live fs slot = Some (no, id, b) ->
  cw (upd fs slot (Some (no, id, b'))) j =
  if Nat.eqb j slot then (if b' then init_word owner c d oc slot else WCode (CProxy id)) else cw fs j.
Proof.
  intros fs slot no id b b' j F. pose proof (live_lt _ _ _ _ F) as L.
  unfold cur_word. rewrite !(live_upd _ fs slot) by auto. rewrite (Nat.eqb_sym j slot).
  destruct (Nat.eqb_spec slot j) as [->|Nj]; [reflexivity|].
  destruct (cl_dtor d) as [i|]; [|reflexivity]. rewrite live_upd by auto.
  destruct (Nat.eqb_spec slot i) as [->|]; [|reflexivity]. now rewrite F.
Qed.
End CurWord.

Section B.
Variable E : env.
Local Notation R := (R E).
Local Notation Rg := (Rg E).
Local Notation sim := (sim E).
Local Notation simw := (simw E).
Local Notation classes := (e_classes E).

Lemma mock_rel_tabs : forall tabs tabs' m k c o owner fill fs sx d,
  mock_rel E tabs m k c o owner fill fs sx d ->
  live tabs' (mk_clone k) = live tabs (mk_clone k) ->
  (owner = true -> live tabs' (mk_orig k) = live tabs (mk_orig k)) ->
  mock_rel E tabs' m k c o owner fill fs sx d.
Proof.
  intros tabs tabs' m k c o owner fill fs sx d H H1 H2. destruct H. constructor; auto.
  - intro O. rewrite (H2 O). auto.
  - rewrite H1. auto.
Qed.

Lemma CLS_upd : forall tabs t x, CLS E tabs -> length classes <= t -> CLS E (upd tabs t x).
Proof.
  intros tabs t x H L c d C. rewrite live_upd_out; [auto|]. apply nth_error_Some_lt in C. lia.
Qed.

(** What stays when a mock is updated. *)
Definition keeps_mock (k k' : mock) : Prop :=
  mk_clone k' = mk_clone k /\ mk_obj k' = mk_obj k /\ mk_orig k' = mk_orig k /\ mk_owner k' = mk_owner k.

Lemma OBJ_mocks : forall objs mocks sobjs m k k', OBJ E objs mocks sobjs -> live mocks m = Some k ->
  keeps_mock k k' -> OBJ E objs (upd mocks m (Some k')) sobjs.
Proof.
  intros objs mocks sobjs m k k' (L & H) K (K1 & K2 & K3 & K4). split; auto. intro o. specialize (H o).
  destruct (live objs o) as [x|], (live sobjs o) as [sx|]; auto.
  destruct H as (H1 & H2 & H3 & H4). repeat split; auto.
  destruct (so_mock sx) as [m'|]; auto. destruct H4 as (k0 & Q1 & Q2 & Q3).
  pose proof (live_lt _ _ _ _ K). rewrite live_upd by auto.
  destruct (Nat.eqb_spec m m') as [->|N]; eauto.
  assert (k0 = k) by congruence. subst k0. exists k'. repeat split; congruence.
Qed.

Lemma TOW_mocks : forall tow mocks m k k', TOW E tow mocks -> live mocks m = Some k -> keeps_mock k k' ->
  TOW E tow (upd mocks m (Some k')).
Proof.
  intros tow mocks m k k' H K (K1 & K2 & K3 & K4) m' k0 H0.
  pose proof (live_lt _ _ _ _ K). rewrite live_upd in H0 by auto.
  destruct (Nat.eqb_spec m m') as [->|N]; [|auto]. inversion H0; subst k0.
  rewrite K1, K3, K4. apply (H m' k K).
Qed.

Lemma MCK_upd : forall tow tabs tabs' mocks smocks sobjs m k k' sk',
  MCK E tabs mocks smocks sobjs -> TOW E tow mocks -> live mocks m = Some k ->
  (forall t, length classes <= t -> tow t <> m -> live tabs' t = live tabs t) ->
  (exists sx d, live sobjs (sk_obj sk') = Some sx /\
     mock_rel E tabs' m k' (sk_class sk') (sk_obj sk') (sk_owner sk') (sk_fill sk') (map face (sk_meths sk')) sx d) ->
  MCK E tabs' (upd mocks m (Some k')) (upd smocks m (Some sk')) sobjs.
Proof.
  intros tow tabs tabs' mocks smocks sobjs m k k' sk' (L & H) T K HT HN.
  pose proof (live_lt _ _ _ _ K) as LT. split; [now rewrite !upd_length|].
  intro m'. rewrite !live_upd by lia. destruct (Nat.eqb_spec m m') as [->|N]; [exact HN|].
  specialize (H m'). destruct (live mocks m') as [k0|] eqn:K0, (live smocks m') as [sk0|]; auto.
  destruct H as (sx & d & H1 & H2). exists sx, d. split; auto.
  destruct (T m' k0 K0) as (T1 & T2 & T3).
  eapply mock_rel_tabs; [exact H2| |].
  - apply HT; auto. congruence.
  - intro O. pose proof (mr_owner _ _ _ _ _ _ _ _ _ _ _ H2) as MO.
    destruct T3 as (T4 & T5 & T6); [congruence|]. apply HT; auto. congruence.
Qed.

(** ** Methods of mocks *)
Definition set_meth (sk : smock) (slot : nat) (me : method) : smock :=
  mkSmock (sk_class sk) (sk_obj sk) (sk_owner sk) (sk_fill sk) (upd (sk_meths sk) slot (Some me)).

Lemma at_set : forall sm m sk slot me m' slot' me', live sm m = Some sk -> slot < length (sk_meths sk) ->
  at_ (upd sm m (Some (set_meth sk slot me))) m' slot' me' ->
  (m' = m /\ slot' = slot /\ me' = me) \/ (~ (m' = m /\ slot' = slot) /\ at_ sm m' slot' me').
Proof.
  intros sm m sk slot me m' slot' me' SK L (sk' & A1 & A2).
  pose proof (live_lt _ _ _ _ SK). rewrite live_upd in A1 by auto.
  destruct (Nat.eqb_spec m m') as [->|N].
  - inversion A1; subst sk'. cbn in A2. rewrite live_upd in A2 by auto.
    destruct (Nat.eqb_spec slot slot') as [->|N'].
    + inversion A2. left. auto.
    + right. split; [intros [_ ?]; congruence|]. exists sk. auto.
  - right. split; [intros [? _]; congruence|]. exists sk'. auto.
Qed.

Lemma at_set_same : forall sm m sk slot me, live sm m = Some sk -> slot < length (sk_meths sk) ->
  at_ (upd sm m (Some (set_meth sk slot me))) m slot me.
Proof.
  intros sm m sk slot me SK L. exists (set_meth sk slot me). pose proof (live_lt _ _ _ _ SK).
  rewrite live_upd_in by auto. split; auto. cbn. now rewrite live_upd_in.
Qed.

Lemma UNI_set : forall sm cx m sk slot me, UNI sm cx -> live sm m = Some sk -> slot < length (sk_meths sk) ->
  (forall m' slot' me', ~ (m' = m /\ slot' = slot) -> at_ sm m' slot' me' -> me_no me' <> me_no me) ->
  NoDup (map st_no (me_stubs me)) ->
  (forall st, In st (me_stubs me) -> st_no st < length cx /\ ~ unused cx (st_no st)) ->
  (forall st m' slot' me' st', In st (me_stubs me) -> ~ (m' = m /\ slot' = slot) -> at_ sm m' slot' me' ->
     In st' (me_stubs me') -> st_no st <> st_no st') ->
  UNI (upd sm m (Some (set_meth sk slot me))) cx.
Proof.
  intros sm cx m sk slot me U SK L H1 H2 H3 H4. destruct U as [U1 U2 U3 U4]. constructor.
  - intros m1 s1 e1 m2 s2 e2 A1 A2 Q.
    destruct (at_set _ _ _ _ _ _ _ _ SK L A1) as [(-> & -> & ->)|(N1 & B1)];
    destruct (at_set _ _ _ _ _ _ _ _ SK L A2) as [(-> & -> & ->)|(N2 & B2)]; auto.
    + exfalso. eapply H1; eauto.
    + exfalso. eapply H1; eauto.
    + eapply U1; eauto.
  - intros m1 s1 e1 m2 s2 e2 st1 st2 A1 A2 I1 I2 Q.
    destruct (at_set _ _ _ _ _ _ _ _ SK L A1) as [(-> & -> & ->)|(N1 & B1)];
    destruct (at_set _ _ _ _ _ _ _ _ SK L A2) as [(-> & -> & ->)|(N2 & B2)]; auto.
    + exfalso. exact (H4 st1 m2 s2 e2 st2 I1 N2 B2 I2 Q).
    + exfalso. exact (H4 st2 m1 s1 e1 st1 I2 N1 B1 I1 (eq_sym Q)).
    + eapply U2; eauto.
  - intros m1 s1 e1 A1. destruct (at_set _ _ _ _ _ _ _ _ SK L A1) as [(-> & -> & ->)|(N1 & B1)]; eauto.
  - intros m1 s1 e1 st A1 I1. destruct (at_set _ _ _ _ _ _ _ _ SK L A1) as [(-> & -> & ->)|(N1 & B1)]; eauto.
Qed.

(** The stubbings of a method are changed, not its number. *)
Lemma UNI_set_same : forall sm cx m sk slot me0 me, UNI sm cx -> live sm m = Some sk ->
  live (sk_meths sk) slot = Some me0 -> me_no me = me_no me0 -> map st_no (me_stubs me) = map st_no (me_stubs me0) ->
  UNI (upd sm m (Some (set_meth sk slot me))) cx.
Proof.
  intros sm cx m sk slot me0 me U SK ME N1 N2.
  assert (A0 : at_ sm m slot me0) by (exists sk; auto).
  assert (Q : forall st, In st (me_stubs me) -> exists st0, In st0 (me_stubs me0) /\ st_no st0 = st_no st).
  { intros st I. apply (in_map st_no) in I. rewrite N2 in I. apply in_map_iff in I as (st0 & I1 & I2). eauto. }
  apply UNI_set; auto.
  - eapply live_lt; eauto.
  - intros m' slot' me' N A C. rewrite N1 in C. apply N. eapply (un_no _ _ U); eauto.
  - rewrite N2. eapply un_nodup; eauto.
  - intros st I. destruct (Q st I) as (st0 & I0 & <-). eapply un_ctx; eauto.
  - intros st m' slot' me' st' I N A I' C. destruct (Q st I) as (st0 & I0 & C0). apply N.
    destruct (un_stub _ _ U m' slot' me' m slot me0 st' st0 A A0 I' I0) as [-> ->]; auto. congruence.
Qed.

Lemma HIS_set : forall sm n m sk slot me, HIS sm n -> live sm m = Some sk -> slot < length (sk_meths sk) ->
  (forall i, In i (me_calls me) -> i < n) -> HIS (upd sm m (Some (set_meth sk slot me))) n.
Proof.
  intros sm n m sk slot me H SK L HN m' slot' me' i A I.
  destruct (at_set _ _ _ _ _ _ _ _ SK L A) as [(-> & -> & ->)|(N1 & B1)]; eauto.
Qed.

Lemma BOD_set : forall own bodies mats seqs sm m sk slot me bd,
  BOD own bodies mats seqs sm -> live sm m = Some sk -> slot < length (sk_meths sk) ->
  me_no me < length bodies ->
  (forall m' slot' me', ~ (m' = m /\ slot' = slot) -> at_ sm m' slot' me' -> me_no me' <> me_no me) ->
  body_rel own mats seqs bd me ->
  BOD own (upd bodies (me_no me) (Some bd)) mats seqs (upd sm m (Some (set_meth sk slot me))).
Proof.
  intros own bodies mats seqs sm m sk slot me bd H SK L LB HN HB m' slot' me' A.
  destruct (at_set _ _ _ _ _ _ _ _ SK L A) as [(-> & -> & ->)|(N1 & B1)].
  - exists bd. rewrite live_upd_in by auto. auto.
  - destruct (H m' slot' me' B1) as (bd' & D1 & D2). exists bd'. split; auto.
    rewrite live_upd_out; auto. intro C. eapply HN; eauto.
Qed.

(** ** Binding *)
Lemma Rg_table : forall own tow w s m sk, Rg own tow w s -> live (s_mocks s) m = Some sk ->
  exists k sx d vt x, live (w_mocks w) m = Some k /\ live (s_objs s) (sk_obj sk) = Some sx /\
    mock_rel E (w_tables w) m k (sk_class sk) (sk_obj sk) (sk_owner sk) (sk_fill sk) (map face (sk_meths sk)) sx d /\
    live (w_objs w) (sk_obj sk) = Some x /\ ob_vptr x = mk_clone k /\
    live (w_tables w) (mk_clone k) = Some vt /\
    shows (cl_size d) (cur_word (sk_owner sk) (sk_class sk) d (so_class sx) (map face (sk_meths sk))) vt /\
    getCookie Gcc vt 0 = Def (WHandlers m) /\
    (sk_owner sk = true -> getCookie Gcc vt 1 = Def (WMock m)) /\
    vt_get vt (-1) = Def (WTypeInfo (sk_class sk)).
Proof.
  intros own tow w s m sk H SK.
  destruct (Rg_mock E _ _ _ _ _ _ H SK) as (k & sx & d & K1 & K2 & K3).
  destruct (Rg_obj E _ _ _ _ _ _ H K2) as (x & X1 & X2).
  destruct (mr_clone _ _ _ _ _ _ _ _ _ _ _ K3) as (vt & V1 & V2 & V3 & V4 & V5).
  exists k, sx, d, vt, x. repeat (split; auto).
  destruct X2 as (_ & _ & _ & X3). rewrite (mr_mock _ _ _ _ _ _ _ _ _ _ _ K3) in X3.
  destruct X3 as (k' & Q1 & Q2 & Q3). congruence.
Qed.

Lemma obj_table_live : forall w o x vt, live (w_objs w) o = Some x -> live (w_tables w) (ob_vptr x) = Some vt ->
  obj_table o w = RVal w (ob_vptr x, vt).
Proof.
  intros w o x vt H1 H2. unfold obj_table, bind. rewrite (get_obj_live _ _ _ H1). rewrite (get_table_live _ _ _ H2).
  reflexivity.
Qed.

Lemma live_face : forall fs i, live (map face fs) i = face (live fs i).
Proof. intros. apply live_map. reflexivity. Qed.

Lemma id_free_spec : forall k id, id_free k id = true ->
  id <> sk_fill k /\ forall i me, live (sk_meths k) i = Some me -> id <> me_id me.
Proof.
  intros k id H. unfold id_free in H. apply andb_true_iff in H as [H1 H2].
  split.
  - intro C. rewrite C, Z.eqb_refl in H1. discriminate.
  - intros i me L C. rewrite forallb_forall in H2. apply nth_live, nth_error_In in L. specialize (H2 _ L).
    cbn in H2. rewrite C, Z.eqb_refl in H2. discriminate.
Qed.

Lemma class_fits_size : forall d, class_fits d = true -> cl_size d <= 1000 /\
  forall j, cl_dtor d = Some j -> S j < cl_size d.
Proof.
  intros d H. unfold class_fits in H. apply andb_true_iff in H as [H1 H2]. apply Nat.leb_le in H1. split; auto.
  intros j D. rewrite D in H2. now apply Nat.ltb_lt in H2.
Qed.

Lemma is_dtor_false : forall d slot j, is_dtor d slot = false -> cl_dtor d = Some j -> slot <> j /\ slot <> S j.
Proof.
  intros d slot j H D. unfold is_dtor in H. rewrite D in H. apply orb_false_iff in H as [H1 H2].
  apply Nat.eqb_neq in H1. apply Nat.eqb_neq in H2. auto.
Qed.

(** The part of a binding that concerns the tables: entry [slot] gets its proxy. *)
Lemma mock_rel_bind : forall tabs m k c o owner fill fs sx d slot id n vt vt',
  mock_rel E tabs m k c o owner fill fs sx d ->
  live fs slot = None -> slot < length fs ->
  id <> fill -> (forall i no id' b, live fs i = Some (no, id', b) -> id <> id') ->
  (is_dtor d slot = false \/ cl_dtor d = Some slot) ->
  mk_clone k < length tabs ->
  live tabs (mk_clone k) = Some vt ->
  (owner = true -> mk_orig k <> mk_clone k) ->
  shows (cl_size d) (fun j => if Nat.eqb j slot then WCode (CProxy id)
     else match cl_dtor d with
          | Some i => if Nat.eqb slot i && Nat.eqb j (S i) then WCode (CDtorHelper c) else cur_word owner c d (so_class sx) fs j
          | None => cur_word owner c d (so_class sx) fs j
          end) vt' ->
  (forall i, (i < 0)%Z -> vt_get vt' i = vt_get vt i) ->
  mock_rel E (upd tabs (mk_clone k) (Some vt')) m
    (mkMock (mk_class k) (mk_obj k) (mk_owner k) (mk_orig k) (mk_clone k)
       (mkPt (upd (pt_mocks (mk_pt k)) slot (Some n)) (upd (pt_offsets (mk_pt k)) slot id)))
    c o owner fill (upd fs slot (Some (n, id, false))) sx d.
Proof.
  intros tabs m k c o owner fill fs sx d slot id n vt vt' H F L NF NI DT LT V NE S CK. destruct H.
  destruct (class_fits_size _ mr_fits) as [_ FD].
  assert (SD : forall i, cl_dtor d = Some i -> slot <> Datatypes.S i).
  { intros i D. destruct DT as [DT|DT]; [eapply is_dtor_false; eauto|]. rewrite D in DT. inversion DT. lia. }
  constructor; cbn; auto.
  - now rewrite upd_length.
  - intros j D. rewrite live_upd_out by (intro; eapply SD; eauto). auto.
  - intros j no id0 D. rewrite live_upd by auto. destruct (Nat.eqb slot j); [congruence|]. eauto.
  - intro O. destruct (mr_own O) as (Q1 & ot & Q2 & Q3). split; auto. exists ot.
    rewrite live_upd_out by (intro; apply (NE O); congruence). auto.
  - exists vt'. rewrite live_upd_in by auto. destruct mr_clone as (vt0 & V1 & V2 & V3 & V4 & V5).
    assert (vt0 = vt) by congruence. subst vt0. split; auto. split.
    + eapply shows_ext; [|exact S]. intros j Lj. rewrite cw_bind by auto. reflexivity.
    + unfold getCookie. cbn [cookie_pos]. rewrite !CK by lia. auto.
  - rewrite map_upd, mr_pt. reflexivity.
  - rewrite map_upd, mr_off. reflexivity.
  - intros i j no i1 b no' i2 b' X Y Q. rewrite live_upd in X by auto. rewrite live_upd in Y by auto.
    destruct (Nat.eqb_spec slot i) as [N1|N1]; destruct (Nat.eqb_spec slot j) as [N2|N2]; try congruence.
    + inversion X; subst. exfalso. eapply NI; eauto.
    + inversion Y; subst. exfalso. eapply NI; eauto.
    + eauto.
  - intros i no id0 b X. rewrite live_upd in X by auto. destruct (Nat.eqb_spec slot i) as [->|N1]; eauto.
    inversion X; subst. auto.
Qed.

Lemma bind_new : forall own tow w s m sk k sx d slot id (b : bool),
  Rg own tow w s -> live (s_mocks s) m = Some sk ->
  live (w_mocks w) m = Some k -> live (s_objs s) (sk_obj sk) = Some sx ->
  mock_rel E (w_tables w) m k (sk_class sk) (sk_obj sk) (sk_owner sk) (sk_fill sk) (map face (sk_meths sk)) sx d ->
  nth_error (sk_meths sk) slot = Some None ->
  (if b then cl_dtor d = Some slot else is_dtor d slot = false) ->
  id_free sk id = true -> (Z.of_nat (s_bound s) + 1 < 4294967296)%Z ->
  exists w', ensure_bound E m slot id b w = RVal w' (s_bound s) /\ w_ctxs w' = w_ctxs w /\
    Rg own tow w' (sset_mocks (sset_bound s (S (s_bound s)))
      (upd (s_mocks s) m (Some (set_meth sk slot (mkMethod (s_bound s) id (if b then RtVoid else cl_ret d slot) [] [] false))))).
Proof.
  intros own tow w s m sk k sx d slot id b H SK K SX MR NM DT IDF BD.
  destruct (id_free_spec _ _ IDF) as [IF1 IF2].
  pose proof (nth_error_Some_lt _ _ _ _ NM) as LM.
  pose proof (mr_len _ _ _ _ _ _ _ _ _ _ _ MR) as LEN. rewrite map_length in LEN.
  destruct (class_fits_size _ (mr_fits _ _ _ _ _ _ _ _ _ _ _ MR)) as [_ FD].
  assert (NL : live (map face (sk_meths sk)) slot = None).
  { rewrite live_face. now rewrite (live_nth _ _ _ _ NM). }
  destruct (Rg_table _ _ _ _ _ _ H SK) as (k' & sx' & d' & vt & x & Q1 & Q2 & Q3 & X & XV & VT & SH & CK0 & CK1 & CK2).
  assert (k' = k) by congruence. subst k'. assert (sx' = sx) by congruence. subst sx'.
  assert (d' = d) by (pose proof (mr_d _ _ _ _ _ _ _ _ _ _ _ Q3); pose proof (mr_d _ _ _ _ _ _ _ _ _ _ _ MR); congruence).
  subst d'. clear Q1 Q2 Q3.
  destruct (r_cnt _ _ _ _ _ H) as (C1 & C2 & C3).
  pose proof (live_lt _ _ _ _ VT) as LT.
  destruct (r_tow _ _ _ _ _ H m k K) as (T1 & T2 & T3).
  assert (NE : sk_owner sk = true -> mk_orig k <> mk_clone k).
  { intro O. apply T3. rewrite (mr_owner _ _ _ _ _ _ _ _ _ _ _ MR). exact O. }
  pose proof (mr_class _ _ _ _ _ _ _ _ _ _ _ MR) as MC. pose proof (mr_obj _ _ _ _ _ _ _ _ _ _ _ MR) as MO.
  (* the tables afterwards *)
  assert (TB : exists vt',
     (forall w0, w_objs w0 = w_objs w -> w_tables w0 = w_tables w ->
       (if b then fake_setDtor (mk_obj k) (sk_class sk) (Z.of_nat slot) (WCode (CProxy id))
        else fake_setMethod (mk_obj k) (Z.of_nat slot) (WCode (CProxy id))) w0
       = RVal (set_tables w0 (upd (w_tables w0) (mk_clone k) (Some vt'))) tt) /\
     shows (cl_size d) (fun j => if Nat.eqb j slot then WCode (CProxy id)
     else match cl_dtor d with
          | Some i => if Nat.eqb slot i && Nat.eqb j (S i) then WCode (CDtorHelper (sk_class sk))
                      else cur_word (sk_owner sk) (sk_class sk) d (so_class sx) (map face (sk_meths sk)) j
          | None => cur_word (sk_owner sk) (sk_class sk) d (so_class sx) (map face (sk_meths sk)) j
          end) vt' /\
     (forall i, (i < 0)%Z -> vt_get vt' i = vt_get vt i)).
  { destruct b.
    - destruct (shows_setDtor _ _ _ slot (WCode (CDtorHelper (sk_class sk))) (WCode (CProxy id)) SH) as (vt' & A1 & A2 & A3).
      { apply FD; auto. }
      exists vt'. split; [|split; auto].
      + intros w0 W1 W2. unfold fake_setDtor, bind. rewrite MO.
        rewrite (obj_table_live w0 _ x vt) by (rewrite ?W1, ?W2, ?XV; auto).
        unfold lift. rewrite A1. unfold put_table, modify. now rewrite XV.
      + eapply shows_ext; [|exact A2]. intros j Lj. cbn. rewrite DT, Nat.eqb_refl. cbn [andb].
        destruct (Nat.eqb_spec j slot), (Nat.eqb_spec j (S slot)); auto. lia.
    - destruct (shows_set _ _ _ slot (WCode (CProxy id)) SH) as (vt' & A1 & A2 & A3); [lia|].
      exists vt'. split; [|split; auto].
      + intros w0 W1 W2. unfold fake_setMethod, bind. rewrite MO.
        rewrite (obj_table_live w0 _ x vt) by (rewrite ?W1, ?W2, ?XV; auto).
        unfold lift. rewrite A1. unfold put_table, modify. now rewrite XV.
      + eapply shows_ext; [|exact A2]. intros j Lj. cbn. destruct (Nat.eqb j slot); auto.
        destruct (cl_dtor d) as [i|] eqn:D; auto. destruct (is_dtor_false _ _ _ DT D) as [N1 N2].
        destruct (Nat.eqb_spec slot i); [lia|]. reflexivity. }
  destruct TB as (vt' & TB1 & TB2 & TB3).
  pose proof (mr_pt _ _ _ _ _ _ _ _ _ _ _ MR) as PT. pose proof (mr_off _ _ _ _ _ _ _ _ _ _ _ MR) as PO.
  assert (ORD : next_ordinal (w_mord w) = Z.of_nat (S (s_bound s))).
  { unfold next_ordinal, to_uint32, two32. rewrite C2. rewrite Z.mod_small; lia. }
  unfold ensure_bound. unfold bind at 1. rewrite (get_mock_live _ _ _ K). unfold bind at 1. unfold class_of. rewrite MC.
  rewrite (mr_d _ _ _ _ _ _ _ _ _ _ _ MR). unfold ret at 1. unfold bind at 1. unfold lift at 1, isBinded.
  assert (PN : nth_error (pt_mocks (mk_pt k)) slot = Some None).
  { rewrite PT, !nth_error_map, NM. reflexivity. }
  rewrite PN. cbn [of_option obind]. unfold bind at 1. unfold bind at 1. unfold nextMethodOrdinal.
  unfold bind at 1, gets, bind at 1, modify, ret at 1. unfold new_body. unfold bind at 1. unfold bind at 1. unfold gets at 1.
  unfold bind at 1. unfold modify at 1, ret at 1. cbn [w_bodies set_mord].
  unfold bind at 1. rewrite TB1 by reflexivity. unfold bind at 1. unfold lift, pt_bind.
  assert (PLEN : Nat.ltb slot (length (pt_mocks (mk_pt k))) && Nat.ltb slot (length (pt_offsets (mk_pt k))) = true).
  { rewrite PT, PO, !map_length. apply andb_true_iff. split; apply Nat.ltb_lt; auto. }
  rewrite PLEN. unfold put_mock, modify. unfold bind at 1.
  rewrite (get_mock_live _ m (mkMock (sk_class sk) (mk_obj k) (mk_owner k) (mk_orig k) (mk_clone k)
     (mkPt (upd (pt_mocks (mk_pt k)) slot (Some (length (w_bodies w)))) (upd (pt_offsets (mk_pt k)) slot id)))).
  2:{ cbn. apply live_upd_in. eapply live_lt; eauto. }
  cbn [mk_pt pt_mocks]. rewrite nth_error_upd_same by (rewrite PT, !map_length; auto).
  unfold ret. rewrite C1. eexists. split; [reflexivity|]. split; [reflexivity|].
  set (me := mkMethod (s_bound s) id (if b then RtVoid else cl_ret d slot) [] [] false).
  assert (FRESH : forall m' slot' me', at_ (s_mocks s) m' slot' me' -> me_no me' < s_bound s).
  { intros m' slot' me' A. destruct (r_bod _ _ _ _ _ H m' slot' me' A) as (bd & B1 & B2).
    apply live_lt in B1. lia. }
  pose proof (r_ord _ _ _ _ _ H) as O.
  destruct H; constructor; cbn; auto.
  - apply CLS_upd; auto.
  - eapply OBJ_mocks; eauto. repeat split.
  - eapply MCK_upd; [exact r_mck|exact r_tow|exact K| |].
    + intros t T N. rewrite live_upd_out; auto. intros <-. congruence.
    + exists sx, d. split; [exact SX|]. cbn [set_meth sk_class sk_obj sk_owner sk_fill sk_meths].
      rewrite map_upd. cbn [face]. rewrite <- MC at 1.
      eapply mock_rel_bind; eauto.
      * now rewrite map_length.
      * intros i no id' b0 L0. rewrite live_face in L0. destruct (live (sk_meths sk) i) as [me0|] eqn:M0; [|discriminate].
        inversion L0; subst. eapply IF2; eauto.
      * destruct b; auto.
  - eapply TOW_mocks; eauto. repeat split.
  - intros m' slot' me' A. destruct (at_set _ _ _ _ _ _ _ _ SK LM A) as [(-> & -> & ->)|(N1 & B1)].
    + eexists. cbn. rewrite live_app, C1, Nat.eqb_refl. split; [reflexivity|].
      split; [exact ORD|]. split; [reflexivity|]. split; [reflexivity|]. constructor.
    + destruct (r_bod m' slot' me' B1) as (bd & D1 & D2). exists bd. split; auto. rewrite live_app.
      destruct (Nat.eqb_spec (me_no me') (length (w_bodies w))); auto. specialize (FRESH _ _ _ B1). lia.
  - apply UNI_set; auto.
    + intros m' slot' me' _ A. specialize (FRESH _ _ _ A). cbn. lia.
    + constructor.
    + intros st [].
  - split; [rewrite app_length; cbn; lia|]. split; [exact ORD|lia].
  - apply HIS_set; auto. intros i [].
Qed.

Definition methP (w : world) (s : sworld) (b : nat) (p : nat * nat) : Prop :=
  exists me, at_ (s_mocks s) (fst p) (snd p) me /\ me_no me = b.
Definition mentP (w0 : world) (s0 : sworld) (w : world) (s : sworld) (b : nat) (p : nat * nat) : Prop :=
  methP w s b p /\ w_ctxs w = w_ctxs w0 /\ s_ctxs s = s_ctxs s0.

Lemma bound_old : forall w s m sk k sx d slot me id b, R w s ->
  live (s_mocks s) m = Some sk -> live (w_mocks w) m = Some k ->
  mock_rel E (w_tables w) m k (sk_class sk) (sk_obj sk) (sk_owner sk) (sk_fill sk) (map face (sk_meths sk)) sx d ->
  nth_error (sk_meths sk) slot = Some (Some me) ->
  ensure_bound E m slot id b w = RVal w (me_no me).
Proof.
  intros w s m sk k sx d slot me id b H SK K MR NM.
  assert (PN : nth_error (pt_mocks (mk_pt k)) slot = Some (Some (me_no me))).
  { rewrite (mr_pt _ _ _ _ _ _ _ _ _ _ _ MR), !nth_error_map, NM. reflexivity. }
  unfold ensure_bound, bind, class_of. rewrite (get_mock_live _ _ _ K).
  rewrite (mr_class _ _ _ _ _ _ _ _ _ _ _ MR), (mr_d _ _ _ _ _ _ _ _ _ _ _ MR).
  unfold ret, lift, isBinded. rewrite PN. cbn [of_option obind]. rewrite (get_mock_live _ _ _ K). rewrite PN. reflexivity.
Qed.

Lemma simw_mention : forall t w s, R w s ->
  simw (mentP w s) (getRecordedMethodBody E t) (smention E t) w s.
Proof.
  intros t w s HR. destruct HR as (own & tow & H).
  unfold simw, WorldRel.simw, smention, starget. unfold sbind at 1. unfold sbind at 1. rewrite sget_spec.
  destruct (live (s_mocks s) (target_mock t)) as [sk|] eqn:SK; [|exact I].
  destruct (Rg_mock E _ _ _ _ _ _ H SK) as (k & sx & d & K1 & K2 & K3).
  unfold sbind at 1. unfold sclass. rewrite (mr_d _ _ _ _ _ _ _ _ _ _ _ K3). unfold sopt at 1, sret at 1.
  assert (G : forall m slot id (b : bool),
    m = target_mock t ->
    (if b then cl_dtor d = Some slot else is_dtor d slot = false) ->
    match
      (let? k0 := sget s_mocks m in
       let? x := sopt (nth_error (sk_meths k0) slot) in
       match x with
       | Some _ => sret (m, slot)
       | None =>
           let? n := sgets s_bound in
           if id_free k0 id && (Z.of_nat n + 1 <? 4294967296)%Z then
             let? _ := smodify (fun s => sset_bound s (S (s_bound s))) in
             let? _ := sset_method m slot (mkMethod n id (if b then RtVoid else cl_ret d slot) [] [] false) in
             sret (m, slot)
           else unspec
       end) s
    with
    | SOk s' p => exists w' a, ensure_bound E m slot id b w = RVal w' a /\ R w' s' /\ mentP w s w' s' a p
    | SExn s' e => exists w', ensure_bound E m slot id b w = RExn w' e /\ R w' s'
    | SUnspec => True
    end).
  { intros m slot id b -> DT. unfold sbind at 1. rewrite sget_spec, SK. unfold sbind at 1.
    destruct (nth_error (sk_meths sk) slot) as [[me|]|] eqn:NM; unfold sopt, sret at 1; [| |exact I].
    - exists w, (me_no me). split; [|split].
      + eapply bound_old; eauto. exists own, tow. eauto.
      + exists own, tow. auto.
      + split; [|auto]. exists me. split; auto. exists sk. split; auto. now apply live_nth.
    - unfold sbind at 1. unfold sgets at 1. destruct (id_free sk id) eqn:IDF; [|exact I]. cbn [andb].
      destruct (Z.ltb_spec (Z.of_nat (s_bound s) + 1) 4294967296) as [BD|BD]; [|exact I].
      unfold sbind at 1. unfold smodify at 1. unfold sbind at 1. unfold sset_method. unfold sbind at 1. rewrite sget_spec.
      cbn [s_mocks sset_bound]. rewrite SK. unfold sput_mock, smodify, sret.
      destruct (bind_new own tow w s _ sk k sx d slot id b H SK K1 K2 K3 NM DT IDF BD) as (w' & W1 & WC & W2).
      exists w', (s_bound s). split; [exact W1|]. split; [exists own, tow; exact W2|].
      split; [|split; [exact WC|reflexivity]].
      eexists. split; [eapply at_set_same; eauto|reflexivity]. eapply nth_error_Some_lt; eauto. }
  destruct t as [m slot counter|m]; cbn [getRecordedMethodBody target_mock] in *.
  - destruct (Nat.ltb slot (cl_size d)) eqn:L; [|exact I]. cbn [andb].
    destruct (is_dtor d slot) eqn:DT; [exact I|]. cbn [negb]. unfold sret at 1.
    apply (G m slot (method_id counter) false eq_refl DT).
  - assert (Q : (let* k := get_mock m in
                 let* d := class_of E (mk_class k) in
                 match cl_dtor d with
                 | Some slot => ensure_bound E m slot dtor_id true
                 | None => throw XNoDtor
                 end) w = match cl_dtor d with Some slot => ensure_bound E m slot dtor_id true w | None => RExn w XNoDtor end).
    { unfold bind. rewrite (get_mock_live _ _ _ K1). unfold class_of.
      rewrite (mr_class _ _ _ _ _ _ _ _ _ _ _ K3), (mr_d _ _ _ _ _ _ _ _ _ _ _ K3).
      unfold ret, throw. destruct (cl_dtor d); reflexivity. }
    destruct (cl_dtor d) as [j|] eqn:D.
    + unfold sret at 1. rewrite Q. apply (G m j dtor_id true eq_refl eq_refl).
    + unfold sthrow. rewrite Q. exists w. split; auto. exists own, tow. auto.
Qed.

End B.
