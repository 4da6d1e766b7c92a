(** The simulation, part E: creation, Reset, ClearInvocationHistory and
    destruction of mocks. *)
From Coq Require Import Bool ZArith Lia List Permutation.
From Verif Require Import Base CInt Values ArgMatchers InvMatchers ActionSeq Sequences MatchAnalysis
  SortInv VTable Spec_Layout VTableProofs Proxy ProxyProofs Events Expectation ReturnSet Ordinals Syntax World Spec_World
  WorldLogic WorldRel WorldSimA WorldSimB WorldSimC WorldSimD.
Import ListNotations.
Open Scope nat_scope.

(** ** Lists *)
Lemma upd_app_last : forall A (l : list A) a b, upd (l ++ [a]) (length l) b = l ++ [b].
Proof. induction l; intros; cbn; congruence. Qed.

Lemma map_repeat' : forall A B (f : A -> B) a n, map f (repeat a n) = repeat (f a) n.
Proof. induction n; cbn; congruence. Qed.

Lemma live_app_old : forall A (h : list (option A)) l j, j < length h -> live (h ++ l) j = live h j.
Proof. intros. unfold live. now rewrite nth_error_app1. Qed.

Lemma live_app_new : forall A (h : list (option A)) x, live (h ++ [x]) (length h) = x.
Proof. intros. rewrite live_app. now rewrite Nat.eqb_refl. Qed.

(** ** Tables *)
Lemma build_table_spec : forall c d w, class_fits d = true ->
  exists vt, build_table c d w = RVal (set_tables w (w_tables w ++ [Some vt])) (length (w_tables w)) /\
    vt_wf Gcc (Z.of_nat (cl_size d)) vt /\ vt_get vt (-1) = Def (WTypeInfo c).
Proof.
  intros c d w F. destruct (class_fits_size _ F) as [L _].
  destruct (build_spec Gcc WNull (WTypeInfo c) (Z.of_nat (cl_size d))) as (vt & B & W & _ & T & _); [lia|].
  exists vt. split; auto. unfold build_table, getVTSize. rewrite getOffset_spec by auto.
  unfold lift at 1. unfold bind at 1. unfold lift. rewrite B. reflexivity.
Qed.

Lemma shows_init : forall size vt (x : word), vt_wf Gcc (Z.of_nat size) vt ->
  exists vt', initAll size vt x = Def vt' /\ shows size (fun _ => x) vt'.
Proof.
  intros size vt x W. destruct (init_loop_spec Gcc (Z.of_nat size) size 0 vt x W) as (vt' & I1 & I2 & I3); [lia|lia|].
  exists vt'. split; [exact I1|]. split; auto. intros j L.
  specialize (I3 (EMethod (Z.of_nat j))). cbn [read_entry valid_entry] in I3. rewrite I3 by lia.
  destruct (Z.leb_spec 0 (Z.of_nat j)); [|lia]. destruct (Z.ltb_spec (Z.of_nat j) (0 + Z.of_nat size)); [|lia]. reflexivity.
Qed.

Lemma copy_loop_below : forall n i (t t' src : vtable word) j, copy_loop n i t src = Def t' -> (j < i)%Z ->
  vt_get t' j = vt_get t j.
Proof.
  induction n as [|n IH]; cbn; intros i t t' src j H L; [now injection H as <-|].
  destruct (getMethod src i) as [x| |]; try discriminate. cbn [obind] in H.
  destruct (vt_set t i x) as [t1| |] eqn:S1; try discriminate. cbn [obind] in H.
  rewrite (IH _ _ _ _ j H) by lia. eapply vt_get_set_other; [exact S1|lia].
Qed.

Lemma shows_copy : forall size vt src (f : nat -> word) b, vt_wf Gcc (Z.of_nat size) vt ->
  (forall j, j < size -> getMethod src (Z.of_nat j) = Def (f j)) ->
  exists vt', copyFrom Gcc size b vt src = Def vt' /\ shows size f vt' /\
    (forall i, (i < 0)%Z -> vt_get vt' i = vt_get vt i).
Proof.
  intros size vt src f b W S.
  destruct (copy_loop_spec Gcc (Z.of_nat size) src (fun j => f (Z.to_nat j))) with (n := size) (i := 0%Z) (t := vt)
    as (vt' & I1 & I2 & I3); auto; try lia.
  { intros j L. rewrite <- (Z2Nat.id j) at 1 by lia. apply S. lia. }
  exists vt'. unfold copyFrom. rewrite I1. cbn [obind]. split; [reflexivity|]. split.
  - split; auto. intros j L. specialize (I3 (EMethod (Z.of_nat j))). cbn [read_entry valid_entry] in I3. rewrite I3 by lia.
    destruct (Z.leb_spec 0 (Z.of_nat j)); [|lia]. destruct (Z.ltb_spec (Z.of_nat j) (0 + Z.of_nat size)); [|lia].
    cbn [andb]. now rewrite Nat2Z.id.
  - intros i L. eapply copy_loop_below; [exact I1|lia].
Qed.

Lemma shows_cookie : forall size f vt i (x : word), shows size f vt -> (0 <= i < 2)%Z ->
  exists vt', setCookie Gcc vt i x = Def vt' /\ shows size f vt' /\
    (forall j, (0 <= j < 2)%Z -> getCookie Gcc vt' j = if (i =? j)%Z then Def x else getCookie Gcc vt j) /\
    vt_get vt' (-1) = vt_get vt (-1).
Proof.
  intros size f vt i x [W S] L.
  assert (V : valid_entry (Z.of_nat size) (numOfCookies Gcc) (ECookie i)) by (cbn; lia).
  pose proof (write_pos Gcc _ _ _ x W V) as WP. cbn [write_entry] in WP.
  eexists. split; [exact WP|]. split.
  - split; [now apply write_wf|]. intros j Lj.
    assert (Vj : valid_entry (Z.of_nat size) (numOfCookies Gcc) (EMethod (Z.of_nat j))) by (cbn; lia).
    pose proof (read_write Gcc _ _ _ x _ W V Vj) as RW. cbn [read_entry entry_eqb] in RW. rewrite RW. auto.
  - split; [|unfold setCookie in WP; eapply vt_get_set_other; [exact WP|unfold cookie_pos; lia]]. intros j Lj.
    assert (Vj : valid_entry (Z.of_nat size) (numOfCookies Gcc) (ECookie j)) by (cbn; lia).
    pose proof (read_write Gcc _ _ _ x _ W V Vj) as RW. cbn [read_entry entry_eqb] in RW. exact RW.
Qed.

Lemma cur_word_none : forall owner c d oc n j, cur_word owner c d oc (repeat None n) j = init_word owner c d oc j.
Proof.
  intros. unfold cur_word. rewrite !live_repeat_none. destruct (cl_dtor d) as [k|]; auto.
  rewrite live_repeat_none. destruct (Nat.eqb j (S k)); auto.
Qed.

Section E.
Variable E : env.
Local Notation R := (R E).
Local Notation Rg := (Rg E).
Local Notation sim := (sim E).
Local Notation simw := (simw E).
Local Notation classes := (e_classes E).

(** ** Creation *)
Lemma fake_instance_spec : forall c d w, nth_error classes c = Some d -> class_fits d = true ->
  exists ot, createFakeInstance E c w =
      RVal (set_objs (set_tables w (w_tables w ++ [Some ot]))
             (w_objs w ++ [Some (mkObj (length (w_tables w)) c (repeat (VInt 0) (cl_cells d)))])) (length (w_objs w)) /\
    shows (cl_size d) (init_word true c d c) ot.
Proof.
  intros c d w C F. destruct (build_table_spec c d w F) as (vt & B & W & _).
  destruct (shows_init (cl_size d) vt (WCode CUnmocked) W) as (vt1 & I1 & I2).
  destruct (class_fits_size _ F) as [_ FD].
  unfold createFakeInstance. unfold bind at 1. unfold class_of at 1. rewrite C. unfold ret at 1.
  unfold bind at 1. rewrite B. unfold bind at 1. unfold new_obj. unfold bind at 1, gets at 1. unfold bind at 1, modify at 1.
  unfold ret at 1. cbn [w_objs set_tables]. unfold bind at 1.
  match goal with |- context [get_table ?t ?W] => rewrite (get_table_live W t vt) by apply live_app_new end.
  unfold bind at 1. unfold lift at 1. rewrite I1. unfold bind at 1. unfold put_table at 1, modify at 1. cbn [w_tables set_objs set_tables].
  rewrite upd_app_last.
  match goal with |- context [set_tables ?W (w_tables w ++ [Some vt1])] => set (w1 := set_tables W (w_tables w ++ [Some vt1])) end.
  destruct (cl_dtor d) as [j|] eqn:D.
  - destruct (shows_setDtor _ _ _ j (WCode (CDtorHelper c)) (WCode CUnmockedDtor) I2) as (vt2 & A1 & A2 & A3); [now apply FD|].
    unfold fake_setDtor. unfold bind at 1. unfold bind at 1.
    rewrite (obj_table_live w1 _ (mkObj (length (w_tables w)) c (repeat (VInt 0) (cl_cells d))) vt1);
      [|apply live_app_new|apply live_app_new].
    unfold bind, lift. rewrite A1. unfold put_table, modify, ret. cbn [ob_vptr]. exists vt2. split.
    + unfold w1. cbn [w_tables set_tables]. rewrite upd_app_last. reflexivity.
    + eapply shows_ext; [|exact A2]. intros i L. cbn. unfold init_word. rewrite D.
      destruct (Nat.eqb_spec i j), (Nat.eqb_spec i (S j)); auto; lia.
  - exists vt1. split; [reflexivity|]. eapply shows_ext; [|exact I2]. intros i L. unfold init_word. now rewrite D.
Qed.

Lemma make_mock_spec : forall c d o owner w x src f, nth_error classes c = Some d -> class_fits d = true ->
  live (w_objs w) o = Some x -> live (w_tables w) (ob_vptr x) = Some src ->
  (forall j, j < cl_size d -> getMethod src (Z.of_nat j) = Def (f j)) ->
  exists vt, make_mock E c o owner w =
      RVal (set_objs (set_mocks (set_tables w (w_tables w ++ [Some vt]))
               (w_mocks w ++ [Some (mkMock c o owner (ob_vptr x) (length (w_tables w)) (pt_new (cl_size d)))]))
             (upd (w_objs w) o (Some (mkObj (length (w_tables w)) (ob_class x) (ob_data x))))) (length (w_mocks w)) /\
    shows (cl_size d) f vt /\ getCookie Gcc vt 0 = Def (WHandlers (length (w_mocks w))) /\
    vt_get vt (-1) = Def (WTypeInfo c).
Proof.
  intros c d o owner w x src f C F X SR SF. destruct (build_table_spec c d w F) as (vt & B & W & T).
  destruct (shows_copy _ _ _ f (match cl_dtor d with Some _ => true | None => false end) W SF) as (vt1 & I1 & I2 & I3).
  destruct (shows_cookie _ _ _ 0 (WHandlers (length (w_mocks w))) I2) as (vt2 & C1 & C2 & C3 & C4); [lia|].
  exists vt2. split.
  2:{ split; auto. split; [rewrite C3 by lia; reflexivity|]. rewrite C4, I3 by lia. exact T. }
  unfold make_mock. unfold bind at 1. rewrite (get_obj_live _ _ _ X). unfold bind at 1. unfold class_of at 1. rewrite C.
  unfold ret at 1. unfold bind at 1. rewrite B. unfold bind at 1. unfold new_mock. unfold bind at 1, gets at 1.
  unfold bind at 1, modify at 1. unfold ret at 1. cbn [w_mocks set_tables]. unfold bind at 1.
  match goal with |- context [get_table ?t ?W] => rewrite (get_table_live W t src) end.
  2:{ cbn. rewrite live_app_old; auto. eapply live_lt; eauto. }
  unfold bind at 1.
  match goal with |- context [get_table ?t ?W] => rewrite (get_table_live W t vt) by apply live_app_new end.
  unfold bind at 1, lift at 1. rewrite I1. unfold bind at 1, lift at 1. rewrite C1.
  unfold bind at 1. unfold put_table, modify. unfold bind at 1. unfold setVirtualTable. unfold bind at 1.
  match goal with |- context [get_obj ?t ?W] => rewrite (get_obj_live W t x) by exact X end.
  unfold put_obj, modify, ret. cbn [w_tables w_mocks w_objs set_tables set_mocks]. rewrite upd_app_last. reflexivity.
Qed.

Lemma CLS_len : forall tabs, CLS E tabs -> length classes <= length tabs.
Proof.
  intros tabs H. destruct (length classes) as [|n] eqn:L; [lia|].
  destruct (nth_error classes n) as [d|] eqn:C.
  - apply H in C. apply live_lt in C. lia.
  - apply nth_error_None in C. lia.
Qed.

Lemma CLS_app : forall tabs l, CLS E tabs -> CLS E (tabs ++ l).
Proof. intros tabs l H c d C. pose proof (H c d C) as X. rewrite live_app_old; auto. eapply live_lt; eauto. Qed.

Lemma at_app : forall sm sk n m slot me, sk_meths sk = repeat None n -> at_ (sm ++ [Some sk]) m slot me -> at_ sm m slot me.
Proof.
  intros sm sk n m slot me N (sk' & A1 & A2). rewrite live_app in A1. destruct (Nat.eqb_spec m (length sm)).
  - inversion A1; subst sk'. rewrite N, live_repeat_none in A2. discriminate.
  - exists sk'. auto.
Qed.

Lemma UNI_sub : forall sm sm' cx, UNI sm cx -> (forall m slot me, at_ sm' m slot me -> at_ sm m slot me) -> UNI sm' cx.
Proof. intros sm sm' cx [U1 U2 U3 U4] S. constructor; eauto 8. Qed.

Lemma R_new_mock : forall own tow w s l k sk sx d objs' sobjs' n,
  Rg own tow w s ->
  OBJ E objs' (w_mocks w ++ [Some k]) sobjs' ->
  (forall mm sk sx, live (s_mocks s) mm = Some sk -> live (s_objs s) (sk_obj sk) = Some sx ->
     exists sx', live sobjs' (sk_obj sk) = Some sx' /\ (so_mock sx = Some mm -> same_obj sx sx')) ->
  live sobjs' (sk_obj sk) = Some sx ->
  mock_rel E (w_tables w ++ l) (length (w_mocks w)) k (sk_class sk) (sk_obj sk) (sk_owner sk) (sk_fill sk) (map face (sk_meths sk)) sx d ->
  length (w_tables w) <= mk_clone k ->
  (mk_owner k = true -> length (w_tables w) <= mk_orig k /\ mk_orig k <> mk_clone k) ->
  sk_meths sk = repeat None n ->
  R (set_objs (set_mocks (set_tables w (w_tables w ++ l)) (w_mocks w ++ [Some k])) objs')
    (sset_mocks (sset_objs s sobjs') (s_mocks s ++ [Some sk])).
Proof.
  intros own tow w s l k sk sx d objs' sobjs' n H HO HS SX MR LC LO NM.
  exists own, (fun t => if Nat.ltb t (length (w_tables w)) then tow t else length (w_mocks w)).
  pose proof (CLS_len _ (r_cls _ _ _ _ _ H)) as CL.
  pose proof (r_mck _ _ _ _ _ H) as MK0. pose proof MK0 as (ML & MK).
  assert (AS : forall m slot me, at_ (s_mocks s ++ [Some sk]) m slot me -> at_ (s_mocks s) m slot me).
  { intros. eapply at_app; eauto. }
  assert (OLD : forall m k0, live (w_mocks w) m = Some k0 -> mk_clone k0 < length (w_tables w) /\
     (mk_owner k0 = true -> mk_orig k0 < length (w_tables w))).
  { intros m k0 K. specialize (MK m). rewrite K in MK. destruct (live (s_mocks s) m) as [sk0|]; [|contradiction].
    destruct MK as (sx0 & d0 & _ & M0). destruct (mr_clone _ _ _ _ _ _ _ _ _ _ _ M0) as (vt & V & _). split; [eapply live_lt; eauto|].
    intro O. rewrite (mr_owner _ _ _ _ _ _ _ _ _ _ _ M0) in O.
    destruct (mr_own _ _ _ _ _ _ _ _ _ _ _ M0 O) as (_ & ot & OT & _). eapply live_lt; eauto. }
  destruct H; constructor; cbn -[Nat.ltb]; auto.
  - now apply CLS_app.
  - split; [rewrite !app_length; cbn; lia|]. intro m. rewrite !live_app, ML.
    destruct (Nat.eqb_spec m (length (s_mocks s))) as [->|N].
    + exists sx, d. split; auto. rewrite <- ML. exact MR.
    + assert (M2 : MCK E (w_tables w) (w_mocks w) (s_mocks s) sobjs') by (eapply MCK_objs; eauto).
      destruct M2 as [_ M2]. specialize (M2 m).
      destruct (live (w_mocks w) m) as [k0|] eqn:K0, (live (s_mocks s) m) as [sk0|]; auto.
      destruct M2 as (sx0 & d0 & Q1 & Q2). exists sx0, d0. split; auto. destruct (OLD m k0 K0) as [L1 L2].
      eapply mock_rel_tabs; [exact Q2| |].
      * now apply live_app_old.
      * intro O. apply live_app_old. apply L2. rewrite (mr_owner _ _ _ _ _ _ _ _ _ _ _ Q2). exact O.
  - intros m k0 K0. rewrite live_app in K0. destruct (Nat.eqb_spec m (length (w_mocks w))) as [->|N].
    + inversion K0; subst k0. destruct (Nat.ltb_spec (mk_clone k) (length (w_tables w))); [lia|].
      split; auto. split; [lia|]. intro O. destruct (LO O). destruct (Nat.ltb_spec (mk_orig k) (length (w_tables w))); [lia|].
      split; auto. split; [lia|auto].
    + destruct (OLD m k0 K0) as [L1 L2]. destruct (r_tow m k0 K0) as (T1 & T2 & T3).
      destruct (Nat.ltb_spec (mk_clone k0) (length (w_tables w))); [|lia]. split; auto. split; auto. intro O.
      destruct (T3 O) as (T4 & T5 & T6). pose proof (L2 O). destruct (Nat.ltb_spec (mk_orig k0) (length (w_tables w))); [|lia]. auto.
  - intros m slot me A. apply r_bod with (1 := AS _ _ _ A).
  - eapply UNI_sub; eauto.
  - intros m slot me i A. eapply r_his; eauto.
Qed.

(** A mock nothing was said about yet. *)
Lemma mock_rel_fresh : forall tabs m k c o owner fill sx d n vt,
  mk_class k = c -> mk_obj k = o -> mk_owner k = owner -> nth_error classes c = Some d -> class_fits d = true ->
  n = cl_size d -> so_mock sx = Some m ->
  (owner = true -> so_class sx = c /\ exists ot, live tabs (mk_orig k) = Some ot /\
             shows (cl_size d) (init_word owner c d (so_class sx)) ot) ->
  (owner = false -> mk_orig k = so_class sx /\
             exists dx, nth_error classes (so_class sx) = Some dx /\ cl_size d <= cl_size dx) ->
  live tabs (mk_clone k) = Some vt -> shows (cl_size d) (init_word owner c d (so_class sx)) vt ->
  getCookie Gcc vt 0 = Def (WHandlers m) -> (owner = true -> getCookie Gcc vt 1 = Def (WMock m)) ->
  vt_get vt (-1) = Def (WTypeInfo c) ->
  mk_pt k = mkPt (repeat None n) (repeat fill n) ->
  mock_rel E tabs m k c o owner fill (map face (repeat None n)) sx d.
Proof.
  intros tabs m k c o owner fill sx d n vt H1 H2 H3 H4 H5 H6 H7 H8 H9 H10 H11 H12 H13 HT H14.
  rewrite map_repeat'. cbn [face]. constructor; auto.
  - now rewrite repeat_length.
  - intros. apply live_repeat_none.
  - intros. rewrite live_repeat_none. discriminate.
  - exists vt. split; auto. split; auto. eapply shows_ext; [|exact H11]. intros j L. now rewrite cur_word_none.
  - rewrite H14. cbn. now rewrite map_repeat'.
  - rewrite H14. cbn. now rewrite map_repeat'.
  - intros i j no id b no' id' b' X. rewrite live_repeat_none in X. discriminate.
  - intros i no id b X. rewrite live_repeat_none in X. discriminate.
Qed.

Lemma mock_new_run : forall c w W1 W2 o n x2 vt vt2,
  createFakeInstance E c w = RVal W1 o -> make_mock E c o true W1 = RVal W2 n ->
  live (w_objs W2) o = Some x2 -> live (w_tables W2) (ob_vptr x2) = Some vt ->
  setCookie Gcc vt 1 (WMock n) = Def vt2 ->
  mock_new E c w = RVal (set_tables W2 (upd (w_tables W2) (ob_vptr x2) (Some vt2))) n.
Proof.
  intros c w W1 W2 o n x2 vt vt2 F1 G1 O T C1. unfold mock_new. unfold bind at 1. rewrite F1. unfold bind at 1. rewrite G1.
  unfold bind at 1. rewrite (obj_table_live W2 o x2 vt O T). unfold bind, lift. rewrite C1. reflexivity.
Qed.

Lemma new_mock_world : forall w t1 o1 t2 mk o2 t3,
  set_tables (set_objs (set_mocks (set_tables (set_objs (set_tables w t1) o1) t2) mk) o2) t3 =
  set_objs (set_mocks (set_tables w t3) mk) o2.
Proof. intros []; reflexivity. Qed.

Lemma sim_mock_new : forall c, sim (mock_new E c) (smock_new E c).
Proof.
  intros c w s (own & tow & H). unfold smock_new.
  destruct (nth_error classes c) as [d|] eqn:C; [|apply simw_u; unfold sclass; now rewrite C].
  eapply simw_s; [unfold sclass; rewrite C; reflexivity|]. destruct (class_fits d) eqn:F; [|exact I].
  destruct (fake_instance_spec c d w C F) as (ot & F1 & F2).
  set (o := length (w_objs w)). set (t := length (w_tables w)).
  set (x := mkObj t c (repeat (VInt 0) (cl_cells d))).
  set (w1 := set_objs (set_tables w (w_tables w ++ [Some ot])) (w_objs w ++ [Some x])).
  fold o t x w1 in F1.
  destruct (make_mock_spec c d o true w1 x ot (init_word true c d c) C F) as (vt & G1 & G2 & G3 & G4).
  { apply live_app_new. } { apply live_app_new. } { apply F2. }
  cbn [w1 w_mocks w_tables w_objs set_objs set_tables] in G1, G3, G4.
  destruct (shows_cookie _ _ _ 1 (WMock (length (w_mocks w))) G2) as (vt2 & C1 & C2 & C3 & C4); [lia|].
  pose proof (r_obj _ _ _ _ _ H) as [OL OB]. pose proof (r_mck _ _ _ _ _ H) as (ML & _).
  set (x2 := mkObj (S t) c (repeat (VInt 0) (cl_cells d))).
  set (k := mkMock c o true t (S t) (pt_new (cl_size d))).
  assert (TL : length (w_tables w ++ [Some ot]) = S t) by (rewrite app_length; unfold t; cbn; lia).
  set (w2 := set_objs (set_mocks (set_tables w (w_tables w ++ [Some ot; Some vt2])) (w_mocks w ++ [Some k]))
               (w_objs w ++ [Some x2])).
  eapply simw_intro_ok with (w' := w2) (a := length (w_mocks w)); [reflexivity| | |unfold eqP; now rewrite ML].
  - rewrite (mock_new_run c w w1 _ o _ x2 vt vt2 F1 G1).
    + cbn [w_objs w_tables set_objs set_mocks set_tables ob_vptr x2]. unfold w2, w1. rewrite new_mock_world. unfold o. rewrite TL, upd_app_last. replace (w_tables w ++ [Some ot; Some vt2]) with ((w_tables w ++ [Some ot]) ++ [Some vt2]) by now rewrite <- app_assoc.
      rewrite <- TL at 1. rewrite upd_app_last. reflexivity.
    + cbn [w_objs w_tables set_objs set_mocks set_tables]. rewrite TL. apply live_upd_in. rewrite app_length. cbn. unfold o. lia.
    + cbn [w_objs w_tables set_objs set_mocks set_tables ob_vptr x2]. rewrite <- TL. apply live_app_new.
    + exact C1.
  - cbn [s_mocks s_objs sset_objs sset_mocks].
    apply (R_new_mock own tow w s [Some ot; Some vt2] k (mkSmock c (length (s_objs s)) true int_max (repeat None (cl_size d)))
             (mkSobj c (sfresh_data d) (Some (length (s_mocks s)))) d _ _ (cl_size d)); auto.
    + split; [rewrite !app_length; cbn; lia|]. intro o'. rewrite !live_app, <- OL.
      destruct (Nat.eqb_spec o' (length (w_objs w))) as [->|N].
      * split; [reflexivity|]. split; [reflexivity|]. split; [cbn; apply nth_error_Some; congruence|]. cbn.
        exists k. rewrite <- ML. split; [apply live_app_new|]. auto.
      * specialize (OB o'). destruct (live (w_objs w) o') as [y|], (live (s_objs s) o') as [sy|]; auto.
        destruct OB as (O1 & O2 & O3 & O4). split; auto. split; auto. split; auto.
        destruct (so_mock sy) as [m'|]; auto. destruct O4 as (k' & K' & O5). exists k'. split; auto.
        rewrite live_app_old; auto. eapply live_lt; eauto.
    + intros mm sk sx SK SX. exists sx. split; [|intros _; split; auto]. rewrite live_app_old; auto. eapply live_lt; eauto.
    + cbn. apply live_app_new.
    + cbn [sk_class sk_obj sk_owner sk_fill sk_meths]. apply mock_rel_fresh with (vt := vt2); auto.
      * cbn. now rewrite ML.
      * intros _. split; auto. exists ot. split; auto. cbn [k mk_orig].
        replace (w_tables w ++ [Some ot; Some vt2]) with ((w_tables w ++ [Some ot]) ++ [Some vt2]) by now rewrite <- app_assoc.
        rewrite live_app_old by (rewrite TL; unfold t; lia). apply live_app_new.
      * discriminate.
      * cbn. replace (w_tables w ++ [Some ot; Some vt2]) with ((w_tables w ++ [Some ot]) ++ [Some vt2]) by now rewrite <- app_assoc.
        rewrite <- TL. apply live_app_new.
      * rewrite C3 by lia. exact G3.
      * intros _. rewrite C3 by lia. reflexivity.
      * rewrite C4. exact G4.
    + cbn. unfold t. lia.
    + intros _. cbn. unfold t. lia.
Qed.

Lemma sim_mock_spy : forall c o, sim (mock_spy E c o) (smock_spy E c o).
Proof.
  intros c o w s (own & tow & H). unfold smock_spy.
  destruct (nth_error classes c) as [d|] eqn:C; [|apply simw_u; unfold sclass; now rewrite C].
  eapply simw_s; [unfold sclass; rewrite C; reflexivity|].
  destruct (live (s_objs s) o) as [sx|] eqn:SX; [|apply simw_u; rewrite sget_spec, SX; reflexivity].
  eapply simw_s; [rewrite sget_spec, SX; reflexivity|].
  destruct (nth_error classes (so_class sx)) as [dx|] eqn:DX; [|apply simw_u; unfold sclass; now rewrite DX].
  eapply simw_s; [unfold sclass; rewrite DX; reflexivity|].
  destruct (so_mock sx) as [m0|] eqn:SM; [exact I|]. destruct (class_fits d) eqn:F; [|exact I]. cbn [andb].
  destruct (Nat.leb_spec (cl_size d) (cl_size dx)) as [LE|]; [|exact I].
  pose proof (r_obj _ _ _ _ _ H) as [OL OB]. pose proof (r_mck _ _ _ _ _ H) as (ML & _).
  destruct (Rg_obj E _ _ _ _ _ _ H SX) as (x & X & (O1 & O2 & O3 & O4)). rewrite SM in O4.
  destruct (make_mock_spec c d o false w x (class_table (so_class sx) dx) (init_word false c d (so_class sx)) C F) as (vt & G1 & G2 & G3 & G4).
  { exact X. } { rewrite O4. apply (r_cls _ _ _ _ _ H _ _ DX). }
  { intros j L. cbn. apply getMethod_class_table. lia. }
  eapply simw_intro_ok; [reflexivity|exact G1| |unfold eqP; now rewrite ML].
  cbn [s_mocks s_objs sset_objs sset_mocks].
  eapply (R_new_mock own tow w s [Some vt] _ (mkSmock c o false int_max (repeat None (cl_size d)))
             (mkSobj (so_class sx) (so_data sx) (Some (length (s_mocks s)))) d _ _ (cl_size d)); auto.
  - split; [rewrite !upd_length; lia|]. intro o'. pose proof (live_lt _ _ _ _ SX). rewrite !live_upd by lia.
    destruct (Nat.eqb_spec o o') as [->|N].
    + split; [exact O1|]. split; [exact O2|]. split; [exact O3|]. cbn. eexists. rewrite <- ML. split; [apply live_app_new|]. auto.
    + specialize (OB o'). destruct (live (w_objs w) o') as [y|], (live (s_objs s) o') as [sy|]; auto.
      destruct OB as (P1 & P2 & P3 & P4). split; auto. split; auto. split; auto.
      destruct (so_mock sy) as [m'|]; auto. destruct P4 as (k' & K' & P5). exists k'. split; auto.
      rewrite live_app_old; auto. eapply live_lt; eauto.
  - intros mm sk sx' SK SX'. pose proof (live_lt _ _ _ _ SX). rewrite live_upd by auto.
    destruct (Nat.eqb_spec o (sk_obj sk)) as [->|N].
    + eexists. split; [reflexivity|]. intro Q. congruence.
    + exists sx'. split; auto. split; auto.
  - cbn. apply live_upd_in. eapply live_lt; eauto.
  - cbn [sk_class sk_obj sk_owner sk_fill sk_meths]. apply mock_rel_fresh with (vt := vt); auto.
    + cbn. now rewrite ML.
    + discriminate.
    + intros _. split; [exact O4|]. exists dx. auto.
    + cbn. apply live_app_new.
    + discriminate.
  - discriminate.
Qed.


(** ** Releasing *)

(** A world with other bodies, matchers and sequences. *)
Definition hp (w : world) (b : list (option body)) (m : list (option imatcher)) (q : list seqcell) : world :=
  set_bodies (set_matchers (set_seqs w q) m) b.

Lemma hp_same : forall w, hp w (w_bodies w) (w_matchers w) (w_seqs w) = w.
Proof. now intros []. Qed.
Lemma hp_hp : forall w b m q b' m' q', hp (hp w b m q) b' m' q' = hp w b' m' q'.
Proof. reflexivity. Qed.

Lemma stub_rel_frame : forall own mats seqs mats' seqs' h st, stub_rel own mats seqs h st ->
  nth_error seqs' (st_no st) = nth_error seqs (st_no st) ->
  (forall i, own i = st_no st -> live mats' i = live mats i) ->
  stub_rel own mats' seqs' h st.
Proof.
  intros own mats seqs mats' seqs' h st (A & B & C & q & D & F) H1 H2. split; auto. split; auto.
  rewrite (H2 _ B). split; auto. exists q. rewrite H1. auto.
Qed.

Lemma Forall2_weak : forall A B (P Q : A -> B -> Prop) l l', Forall2 P l l' ->
  (forall a b, In b l' -> P a b -> Q a b) -> Forall2 Q l l'.
Proof.
  intros A B P Q l l' H. induction H; intro K; constructor.
  - apply K; [now left|auto].
  - apply IHForall2. intros. apply K; [now right|auto].
Qed.

Lemma free_handlers_spec : forall own hs sts w, Forall2 (stub_rel own (w_matchers w) (w_seqs w)) hs sts ->
  NoDup (map st_no sts) ->
  exists m' q', free_handlers hs w = RVal (hp w (w_bodies w) m' q') tt /\
    length m' = length (w_matchers w) /\ length q' = length (w_seqs w) /\
    (forall n, ~ In n (map st_no sts) -> nth_error q' n = nth_error (w_seqs w) n) /\
    (forall i, ~ In (own i) (map st_no sts) -> live m' i = live (w_matchers w) i).
Proof.
  intros own hs. induction hs as [|[mt sq] hs IH]; intros sts w H ND; inversion H as [|? st ? sts' H1 H2]; subst.
  - exists (w_matchers w), (w_seqs w). rewrite hp_same. auto.
  - cbn [map] in *. inversion ND as [|? ? NI ND']; subst.
    destruct H1 as (A & B & C & q & D & F). cbn [fst snd] in *. subst sq.
    set (w1 := hp w (w_bodies w) (upd (w_matchers w) mt None) (upd (w_seqs w) (st_no st) (mkSeq false q))).
    destruct (IH sts' w1) as (m' & q' & I1 & I2 & I3 & I4 & I5); auto.
    { eapply Forall2_weak; [exact H2|]. intros h st' IN SR.
      assert (st_no st' <> st_no st) by (intro X; apply NI; rewrite <- X; now apply in_map).
      eapply stub_rel_frame; [exact SR| |].
      - cbn. rewrite nth_error_upd_other; auto.
      - intros i O. cbn. apply live_upd_out. congruence. }
    exists m', q'. split.
    { cbn [free_handlers]. unfold bind at 1. unfold free_matcher, bind at 1. rewrite (get_matcher_live _ _ _ C).
      unfold modify. unfold bind at 1. unfold free_seq, bind at 1.
      match goal with |- context [get_seq ?n ?W] => rewrite (get_seq_nth W n (mkSeq true q)) by exact D end.
      cbn [sq_alive sq_seq]. unfold put_seq, modify. exact I1. }
    split; [rewrite I2; cbn; now rewrite upd_length|]. split; [rewrite I3; cbn; now rewrite upd_length|]. split.
    + intros n N. rewrite I4 by (intro; apply N; now right). cbn. apply nth_error_upd_other. intro X. apply N. now left.
    + intros i N. rewrite I5 by (intro; apply N; now right). cbn. apply live_upd_out. intro X. subst. apply N. left. congruence.
Qed.

Definition no_of (x : option method) : list nat := match x with Some me => [me_no me] | None => [] end.
Definition stubs_of (x : option method) : list nat := match x with Some me => map st_no (me_stubs me) | None => [] end.

Lemma body_rel_frame : forall own mats seqs mats' seqs' bd me, body_rel own mats seqs bd me ->
  (forall st, In st (me_stubs me) -> nth_error seqs' (st_no st) = nth_error seqs (st_no st) /\
     (forall i, own i = st_no st -> live mats' i = live mats i)) ->
  body_rel own mats' seqs' bd me.
Proof.
  intros own mats seqs mats' seqs' bd me (A & B & C & D) H. split; auto. split; auto. split; auto.
  eapply Forall2_weak; [exact D|]. intros h st I S. destruct (H st I). eapply stub_rel_frame; eauto.
Qed.

Lemma Forall2_rev : forall A B (P : A -> B -> Prop) l l', Forall2 P l l' -> Forall2 P (rev l) (rev l').
Proof.
  intros A B P l l' H. induction H; cbn; [constructor|]. apply Forall2_app; auto.
Qed.

Lemma NoDup_app_l : forall A (l l' : list A), NoDup (l ++ l') ->
  NoDup l /\ NoDup l' /\ forall x, In x l -> ~ In x l'.
Proof.
  induction l as [|a l IH]; cbn; intros l' H; [split; [constructor|split; auto]|].
  inversion H as [|? ? N H']; subst. destruct (IH _ H') as (I1 & I2 & I3). split.
  - constructor; auto. intro. apply N. apply in_or_app. auto.
  - split; auto. intros x [->|X]; auto. intro. apply N. apply in_or_app. auto.
Qed.

Lemma free_bodies_spec : forall own L w,
  (forall me, In (Some me) L -> exists bd, live (w_bodies w) (me_no me) = Some bd /\
     body_rel own (w_matchers w) (w_seqs w) bd me) ->
  NoDup (flat_map no_of L) -> NoDup (flat_map stubs_of L) ->
  exists b' m' q', free_bodies (map (option_map face_no) (map face L)) w = RVal (hp w b' m' q') tt /\
    length b' = length (w_bodies w) /\ length m' = length (w_matchers w) /\ length q' = length (w_seqs w) /\
    (forall n, ~ In n (flat_map no_of L) -> live b' n = live (w_bodies w) n) /\
    (forall n, ~ In n (flat_map stubs_of L) -> nth_error q' n = nth_error (w_seqs w) n) /\
    (forall i, ~ In (own i) (flat_map stubs_of L) -> live m' i = live (w_matchers w) i).
Proof.
  intros own L. induction L as [|[me|] L IH]; intros w H N1 N2.
  - exists (w_bodies w), (w_matchers w), (w_seqs w). rewrite hp_same. repeat split; auto.
  - cbn [flat_map no_of stubs_of] in *. cbn [app] in N1. inversion N1 as [|? ? NI N1']; subst.
    apply NoDup_app_l in N2 as (N3 & N4 & N5).
    destruct (H me (or_introl eq_refl)) as (bd & B & BR).
    set (w0 := set_bodies w (upd (w_bodies w) (me_no me) None)).
    assert (HH : Forall2 (stub_rel own (w_matchers w0) (w_seqs w0)) (bd_handlers bd) (rev (me_stubs me))).
    { rewrite <- (rev_involutive (bd_handlers bd)). apply Forall2_rev. apply BR. }
    destruct (free_handlers_spec own _ _ w0 HH) as (m1 & q1 & F1 & F2 & F3 & F4 & F5).
    { rewrite map_rev. now apply NoDup_rev. }
    assert (RV : forall n, In n (map st_no (rev (me_stubs me))) -> In n (map st_no (me_stubs me))).
    { intros n I. rewrite map_rev in I. now apply in_rev. }
    destruct (IH (hp w0 (w_bodies w0) m1 q1)) as (b' & m' & q' & I1 & I2 & I3 & I4 & I5 & I6 & I7); auto.
    { intros me' IN. destruct (H me' (or_intror IN)) as (bd' & B' & BR'). exists bd'. split.
      - cbn. rewrite live_upd_out; auto. intro X. apply NI. rewrite X. apply in_flat_map. exists (Some me'). split; auto. now left.
      - cbn. eapply body_rel_frame; [exact BR'|]. intros st IS.
        assert (NN : ~ In (st_no st) (map st_no (rev (me_stubs me)))).
        { intro X. apply (N5 (st_no st)); auto. apply in_flat_map. exists (Some me'). split; auto. cbn. now apply in_map. }
        split; [now apply F4|]. intros i O. apply F5. now rewrite O. }
    exists b', m', q'. split.
    { cbn [map face option_map face_no fst free_bodies]. unfold bind at 1. unfold free_body, bind at 1.
      change (face_no (me_no me, me_id me, me_bypass me)) with (me_no me). rewrite (get_body_live _ _ _ B).
      unfold bind at 1, modify at 1. fold w0. rewrite F1. exact I1. }
    split; [rewrite I2; cbn; now rewrite upd_length|]. split; [rewrite I3; exact F2|]. split; [rewrite I4; exact F3|].
    split; [|split].
    + intros n N. rewrite I5 by (intro; apply N; now right). cbn. apply live_upd_out. intro. apply N. now left.
    + intros n N. rewrite I6 by (intro; apply N; apply in_or_app; now right). cbn. apply F4.
      intro. apply N. apply in_or_app. left. auto.
    + intros n N. rewrite I7 by (intro; apply N; apply in_or_app; now right). cbn. apply F5.
      intro. apply N. apply in_or_app. left. auto.
  - cbn [flat_map no_of stubs_of app] in *. apply IH; auto. intros me I. apply H. now right.
Qed.

Lemma NoDup_flat : forall A B (f : A -> list B) L,
  (forall i a, nth_error L i = Some a -> NoDup (f a)) ->
  (forall i j a a' x, nth_error L i = Some a -> nth_error L j = Some a' -> In x (f a) -> In x (f a') -> i = j) ->
  NoDup (flat_map f L).
Proof.
  intros A B f L. induction L as [|a L IH]; intros H1 H2; cbn; [constructor|].
  assert (N : NoDup (flat_map f L)).
  { apply IH; [intros i b X; apply (H1 (S i) b X)|]. intros i j b b' x X Y P Q.
    assert (S i = S j) by exact (H2 (S i) (S j) b b' x X Y P Q). congruence. }
  assert (D : forall x, In x (f a) -> ~ In x (flat_map f L)).
  { intros x I J. apply in_flat_map in J as (b & J1 & J2). apply In_nth_error in J1 as (j & J1).
    specialize (H2 0 (S j) a b x eq_refl J1 I J2). discriminate. }
  specialize (H1 0 a eq_refl). revert D. induction (f a) as [|y l IHl]; cbn; intro D; auto.
  inversion H1; subst. constructor.
  - intro X. apply in_app_or in X as [X|X]; [contradiction|]. apply (D y); auto.
  - apply IHl; auto.
Qed.

Lemma live_in_meths : forall (L : list (option method)) i me, nth_error L i = Some (Some me) -> live L i = Some me.
Proof. intros. now apply live_nth. Qed.

Lemma meths_nodup : forall sm cx m sk, UNI sm cx -> live sm m = Some sk ->
  NoDup (flat_map no_of (sk_meths sk)) /\ NoDup (flat_map stubs_of (sk_meths sk)).
Proof.
  intros sm cx m sk U SK.
  assert (AT : forall i me, nth_error (sk_meths sk) i = Some (Some me) -> at_ sm m i me).
  { intros i me X. exists sk. split; auto. now apply live_in_meths. }
  split; apply NoDup_flat.
  - intros i [me|] X; cbn; [constructor; [auto|constructor]|constructor].
  - intros i j [me|] [me'|] x X Y; cbn; try contradiction. intros [P|[]] [Q|[]].
    apply (un_no _ _ U m i me m j me'); auto. congruence.
  - intros i [me|] X; cbn; [eapply un_nodup; eauto|constructor].
  - intros i j [me|] [me'|] x X Y; cbn; try contradiction. intros P Q.
    apply in_map_iff in P as (st & P1 & P2). apply in_map_iff in Q as (st' & Q1 & Q2).
    apply (un_stub _ _ U m i me m j me' st st'); auto. congruence.
Qed.

Lemma CTX_keep : forall own ctxs mats seqs mats' seqs' sctxs, CTX own ctxs mats seqs sctxs ->
  length seqs' = length seqs ->
  (forall c, unused sctxs c -> nth_error seqs' c = nth_error seqs c /\
     forall i, own i = c -> live mats' i = live mats i) ->
  CTX own ctxs mats' seqs' sctxs.
Proof.
  intros own ctxs mats seqs mats' seqs' sctxs (L1 & L2 & H) L F. split; auto. split; [congruence|].
  intro c. specialize (H c). destruct (live ctxs c) as [x|], (live sctxs c) as [sx|] eqn:SX; auto.
  destruct H as (H1 & H2 & H3 & H4). split; auto. split; auto. split; auto. intro C.
  destruct (H4 C) as (O & M & q & Q1 & Q2). destruct (F c) as [F1 F2]; [exists sx; auto|].
  rewrite (F2 _ O), F1. split; auto. split; auto. exists q. auto.
Qed.

(** The methods of a mock are released. *)
Lemma release : forall own w ctxs sctxs sm m sk,
  BOD own (w_bodies w) (w_matchers w) (w_seqs w) sm -> UNI sm sctxs ->
  CTX own ctxs (w_matchers w) (w_seqs w) sctxs -> live sm m = Some sk ->
  exists b' m' q', free_bodies (map (option_map face_no) (map face (sk_meths sk))) w = RVal (hp w b' m' q') tt /\
    length b' = length (w_bodies w) /\ length m' = length (w_matchers w) /\
    CTX own ctxs m' q' sctxs /\
    forall sm', (forall m1 slot me, at_ sm' m1 slot me -> m1 <> m /\ at_ sm m1 slot me) -> BOD own b' m' q' sm'.
Proof.
  intros own w ctxs sctxs sm m sk HB HU HC SK.
  destruct (meths_nodup _ _ _ _ HU SK) as [N1 N2].
  assert (AT : forall me, In (Some me) (sk_meths sk) -> exists slot, at_ sm m slot me).
  { intros me I. apply In_nth_error in I as (i & I). exists i, sk. split; auto. now apply live_in_meths. }
  destruct (free_bodies_spec own (sk_meths sk) w) as (b' & m' & q' & F1 & F2 & F3 & F4 & F5 & F6 & F7); auto.
  { intros me I. destruct (AT me I) as (slot & A). apply (HB m slot me A). }
  assert (IS : forall n, In n (flat_map stubs_of (sk_meths sk)) ->
    exists slot me st, at_ sm m slot me /\ In st (me_stubs me) /\ st_no st = n).
  { intros n I. apply in_flat_map in I as ([me|] & I1 & I2); [|contradiction]. cbn in I2.
    apply in_map_iff in I2 as (st & I2 & I3). destruct (AT me I1) as (slot & A). eauto 7. }
  exists b', m', q'. split; auto. split; auto. split; auto. split.
  - eapply CTX_keep; [exact HC|auto|]. intros c UN.
    assert (NN : ~ In c (flat_map stubs_of (sk_meths sk))).
    { intro X. destruct (IS c X) as (slot & me & st & A & I & <-). apply (un_ctx _ _ HU _ _ _ _ A I). exact UN. }
    split; [now apply F6|]. intros i O. apply F7. now rewrite O.
  - intros sm' SUB m1 slot me A. destruct (SUB _ _ _ A) as [NM A']. destruct (HB _ _ _ A') as (bd & B & BR).
    exists bd. split.
    + rewrite F5; auto. intro X. apply in_flat_map in X as ([me'|] & X1 & X2); [|contradiction].
      destruct X2 as [X2|[]]. destruct (AT me' X1) as (slot' & A2).
      destruct (un_no _ _ HU _ _ _ _ _ _ A2 A' X2). congruence.
    + eapply body_rel_frame; [exact BR|]. intros st I.
      assert (NN : ~ In (st_no st) (flat_map stubs_of (sk_meths sk))).
      { intro X. destruct (IS _ X) as (slot' & me' & st' & A2 & I2 & Q).
        destruct (un_stub _ _ HU _ _ _ _ _ _ _ _ A2 A' I2 I Q). congruence. }
      split; [now apply F6|]. intros i O. apply F7. now rewrite O.
Qed.

(** ** Reset *)
Lemma map_none : forall A B (L : list A), map (fun _ => @None B) L = repeat None (length L).
Proof. induction L; cbn; congruence. Qed.

(** Data members of an object of the library. *)
Lemma simw_zero : forall m w s k sk0 sk, R w s -> live (w_mocks w) m = Some k -> live (s_mocks s) m = Some sk0 ->
  sk_owner sk0 = sk_owner sk -> sk_obj sk0 = sk_obj sk ->
  simw eqP (initDataMembersIfOwner m) (szero sk) w s.
Proof.
  intros m w s k sk0 sk HR K SK0 Q1 Q2. unfold initDataMembersIfOwner.
  eapply simw_w; [apply get_mock_live; exact K|].
  destruct HR as (own & tow & H). destruct (Rg_mock E _ _ _ _ _ _ H SK0) as (k0 & sx & d & K0 & SX & MR).
  assert (k0 = k) by congruence. subst k0.
  rewrite (mr_owner _ _ _ _ _ _ _ _ _ _ _ MR), (mr_obj _ _ _ _ _ _ _ _ _ _ _ MR). unfold szero. rewrite Q1, Q2 in *.
  destruct (sk_owner sk); [|apply sim_ret; exists own, tow; auto].
  destruct (Rg_obj E _ _ _ _ _ _ H SX) as (x & X & (O1 & O2 & O3 & O4)).
  unfold initializeDataMembersArea. eapply simw_w; [apply get_obj_live; exact X|].
  eapply simw_s; [rewrite sget_spec, SX; reflexivity|].
  eapply simw_intro_ok; [reflexivity|reflexivity| |reflexivity]. rewrite O2.
  apply R_data; auto. exists own, tow; auto.
Qed.

Lemma sim_mock_reset : forall m, sim (mock_reset E m) (smock_reset m).
Proof.
  intros m w s (own & tow & H). unfold smock_reset.
  destruct (live (s_mocks s) m) as [sk|] eqn:SK; [|apply simw_u; rewrite sget_spec, SK; reflexivity].
  eapply simw_s; [rewrite sget_spec, SK; reflexivity|]. destruct (quiet sk); [|exact I].
  destruct (Rg_table E _ _ _ _ _ _ H SK) as (k & sx & d & vt & x & K & SX & MR & X & XV & VT & SH & C0 & C1 & C2).
  destruct (release own w (w_ctxs w) (s_ctxs s) (s_mocks s) m sk) as (b' & m' & q' & F1 & F2 & F3 & F4 & F5); auto;
    try (destruct H; assumption).
  set (k' := mkMock (mk_class k) (mk_obj k) (mk_owner k) (mk_orig k) (mk_clone k) (pt_reset (cl_size d))).
  set (sk' := mkSmock (sk_class sk) (sk_obj sk) (sk_owner sk) 0 (map (fun _ => None) (sk_meths sk))).
  assert (ML : length (sk_meths sk) = cl_size d) by (rewrite <- (mr_len _ _ _ _ _ _ _ _ _ _ _ MR), map_length; reflexivity).
  destruct (r_tow _ _ _ _ _ H m k K) as (T1 & T2 & T3).
  (* the source *)
  assert (SRC : exists src, live (w_tables w) (mk_orig k) = Some src /\
     forall j, j < cl_size d -> getMethod src (Z.of_nat j) = Def (init_word (sk_owner sk) (sk_class sk) d (so_class sx) j)).
  { destruct (sk_owner sk) eqn:O.
    - destruct (mr_own _ _ _ _ _ _ _ _ _ _ _ MR eq_refl) as (_ & ot & OT & _ & OS). exists ot. auto.
    - destruct (mr_spy _ _ _ _ _ _ _ _ _ _ _ MR eq_refl) as (OC & dx & DX & LE).
      exists (class_table (so_class sx) dx). rewrite OC. split; [apply (r_cls _ _ _ _ _ H _ _ DX)|].
      intros j L. cbn. apply getMethod_class_table. lia. }
  destruct SRC as (src & SR & SF). destruct SH as [SW SH].
  destruct (shows_copy _ _ _ _ (match cl_dtor d with Some _ => true | None => false end) SW SF) as (vt' & V1 & V2 & V3).
  pose proof (live_lt _ _ _ _ VT) as LT.
  set (w1 := set_tables (set_mocks (hp w b' m' q') (upd (w_mocks w) m (Some k'))) (upd (w_tables w) (mk_clone k) (Some vt'))).
  eapply simw_s; [reflexivity|]. unfold mock_reset. eapply simw_w with (w' := w1).
  - unfold proxy_reset. unfold bind at 1. rewrite (get_mock_live _ _ _ K). unfold bind at 1, class_of at 1.
    assert (KD : nth_error classes (mk_class k) = Some d)
      by (rewrite (mr_class _ _ _ _ _ _ _ _ _ _ _ MR); apply (mr_d _ _ _ _ _ _ _ _ _ _ _ MR)).
    rewrite KD. unfold ret at 1.
    unfold bind at 1. rewrite (mr_pt _ _ _ _ _ _ _ _ _ _ _ MR), F1. unfold bind at 1, put_mock at 1, modify at 1.
    unfold bind at 1. rewrite (get_table_live _ _ src) by exact SR. unfold bind at 1.
    rewrite (get_table_live _ _ vt) by exact VT. unfold bind at 1, lift at 1. rewrite V1. reflexivity.
  - assert (AS : forall m1 slot me, at_ (upd (s_mocks s) m (Some sk')) m1 slot me -> m1 <> m /\ at_ (s_mocks s) m1 slot me).
    { intros m1 slot me (y & A1 & A2). rewrite live_upd in A1 by (eapply live_lt; eauto).
      destruct (Nat.eqb_spec m m1) as [->|N].
      - inversion A1; subst y. cbn in A2. rewrite map_none, live_repeat_none in A2. discriminate.
      - split; auto. exists y. auto. }
    eapply simw_zero with (m := m) (k := k') (sk0 := sk'); auto.
    2:{ unfold w1. cbn -[upd]. apply live_upd_in. eapply live_lt; eauto. }
    2:{ cbn -[upd]. apply live_upd_in. eapply live_lt; eauto. }
    assert (KM : keeps_mock k k') by (repeat split).
    exists own, tow. destruct H; constructor; cbn -[upd]; auto.
    + now apply CLS_upd.
    + eapply OBJ_mocks; eauto.
    + eapply MCK_upd; eauto.
      * intros t TL TN. apply live_upd_out. congruence.
      * exists sx, d. split; auto. unfold sk'. cbn [sk_class sk_obj sk_owner sk_fill sk_meths]. rewrite map_none, ML.
        destruct MR. apply mock_rel_fresh with (vt := vt'); auto.
        -- intro O. destruct (mr_own O) as (P1 & ot & P2 & P3). split; auto. exists ot. split; auto. cbn.
           rewrite live_upd_out; auto. destruct (T3 (eq_trans mr_owner O)) as (_ & _ & T4). congruence.
        -- cbn. now apply live_upd_in.
        -- unfold getCookie. cbn [cookie_pos]. rewrite V3 by lia. exact C0.
        -- intro O. unfold getCookie. cbn [cookie_pos]. rewrite V3 by lia. apply C1. exact O.
        -- rewrite V3 by lia. exact C2.
    + eapply TOW_mocks; eauto.
    + eapply UNI_sub; eauto. intros. now apply AS.
    + rewrite F3. exact r_idn.
    + destruct r_cnt as (P1 & P2 & P3). split; [congruence|]. auto.
    + intros m1 slot me i A. destruct (AS _ _ _ A). eapply r_his; eauto.
Qed.

(** ** ClearInvocationHistory *)
Lemma clear_bodies_spec : forall own mats seqs L w,
  (forall me, In (Some me) L -> exists bd, live (w_bodies w) (me_no me) = Some bd /\ body_rel own mats seqs bd me) ->
  NoDup (flat_map no_of L) ->
  exists b', clear_bodies (map (option_map face_no) (map face L)) w = RVal (set_bodies w b') tt /\
    length b' = length (w_bodies w) /\
    (forall n, ~ In n (flat_map no_of L) -> live b' n = live (w_bodies w) n) /\
    (forall me, In (Some me) L -> exists bd, body_rel own mats seqs bd me /\
        live b' (me_no me) = Some (mkBody (bd_id bd) (bd_ret bd) (bd_handlers bd) [])).
Proof.
  intros own mats seqs L. induction L as [|[me|] L IH]; intros w H N1.
  - exists (w_bodies w). split; [now destruct w|]. split; auto. split; auto. intros me [].
  - cbn [flat_map no_of] in *. cbn [app] in N1. inversion N1 as [|? ? NI N1']; subst.
    destruct (H me (or_introl eq_refl)) as (bd & B & BR).
    pose proof (live_lt _ _ _ _ B) as LT.
    set (w0 := set_bodies w (upd (w_bodies w) (me_no me) (Some (mkBody (bd_id bd) (bd_ret bd) (bd_handlers bd) [])))).
    destruct (IH w0) as (b' & I1 & I2 & I3 & I4); auto.
    { intros me' IN. destruct (H me' (or_intror IN)) as (bd' & B' & BR'). exists bd'. split; auto.
      cbn. rewrite live_upd_out; auto. intro X. apply NI. rewrite X. apply in_flat_map. exists (Some me'). split; auto. now left. }
    exists b'. split.
    { cbn [map face option_map face_no fst clear_bodies]. unfold bind at 1.
      change (face_no (me_no me, me_id me, me_bypass me)) with (me_no me). rewrite (get_body_live _ _ _ B).
      unfold bind at 1, put_body at 1, modify at 1. fold w0. exact I1. }
    split; [rewrite I2; cbn; now rewrite upd_length|]. split.
    + intros n N. rewrite I3 by (intro; apply N; now right). cbn. apply live_upd_out. intro. apply N. now left.
    + intros me' [Q|IN].
      * inversion Q; subst me'. exists bd. split; auto. rewrite I3 by auto. cbn. now apply live_upd_in.
      * destruct (I4 me' IN) as (bd' & P1 & P2). exists bd'. auto.
  - cbn [flat_map no_of app] in *. destruct (IH w) as (b' & I1 & I2 & I3 & I4); auto.
    { intros me I. apply H. now right. }
    exists b'. split; auto. split; auto. split; auto. intros me [Q|I]; [discriminate|auto].
Qed.

Lemma face_forget : forall x, face (forget_calls x) = face x.
Proof. now intros [me|]. Qed.

Lemma sim_mock_clear : forall m, sim (mock_clear m) (smock_clear m).
Proof.
  intros m w s (own & tow & H). unfold smock_clear.
  destruct (live (s_mocks s) m) as [sk|] eqn:SK; [|apply simw_u; rewrite sget_spec, SK; reflexivity].
  eapply simw_s; [rewrite sget_spec, SK; reflexivity|]. eapply simw_s; [reflexivity|].
  destruct (Rg_mock E _ _ _ _ _ _ H SK) as (k & sx & d & K & SX & MR).
  destruct (meths_nodup _ _ _ _ (r_uni _ _ _ _ _ H) SK) as [N1 _].
  set (sk' := mkSmock (sk_class sk) (sk_obj sk) (sk_owner sk) (sk_fill sk) (map forget_calls (sk_meths sk))).
  assert (AT : forall me, In (Some me) (sk_meths sk) -> exists slot, at_ (s_mocks s) m slot me).
  { intros me I. apply In_nth_error in I as (i & I). exists i, sk. split; auto. now apply live_in_meths. }
  destruct (clear_bodies_spec own (w_matchers w) (w_seqs w) (sk_meths sk) w) as (b' & F1 & F2 & F3 & F4); auto.
  { intros me I. destruct (AT me I) as (slot & A). apply (r_bod _ _ _ _ _ H m slot me A). }
  assert (LT := live_lt _ _ _ _ SK).
  assert (AS : forall m1 slot me, at_ (upd (s_mocks s) m (Some sk')) m1 slot me ->
     (m1 <> m /\ at_ (s_mocks s) m1 slot me) \/
     (m1 = m /\ exists me0, at_ (s_mocks s) m slot me0 /\ live (sk_meths sk) slot = Some me0 /\ Some me = forget_calls (Some me0))).
  { intros m1 slot me (y & A1 & A2). rewrite live_upd in A1 by auto.
    destruct (Nat.eqb_spec m m1) as [->|N].
    - inversion A1; subst y. cbn in A2. rewrite live_map in A2 by reflexivity.
      destruct (live (sk_meths sk) slot) as [me0|] eqn:ME; [|discriminate]. right. split; auto. exists me0.
      split; [exists sk; auto|]. split; auto.
    - left. split; auto. exists y. auto. }
  assert (AS' : forall m1 slot me, at_ (upd (s_mocks s) m (Some sk')) m1 slot me ->
     exists me0, at_ (s_mocks s) m1 slot me0 /\ me_no me = me_no me0 /\ me_stubs me = me_stubs me0).
  { intros m1 slot me A. destruct (AS _ _ _ A) as [[_ A1]|(-> & me0 & A1 & _ & Q)]; [exists me; auto|].
    exists me0. inversion Q; subst me. auto. }
  unfold mock_clear. eapply simw_w; [apply get_mock_live; exact K|].
  eapply simw_w; [rewrite (mr_pt _ _ _ _ _ _ _ _ _ _ _ MR); exact F1|].
  eapply simw_zero with (m := m) (k := k) (sk0 := sk'); auto.
  2:{ cbn -[upd]. now apply live_upd_in. }
  exists own, tow. pose proof (r_uni _ _ _ _ _ H) as UN. destruct H; constructor; cbn -[upd]; auto.
  - destruct r_mck as [ML MK]. split; [now rewrite upd_length|]. intro m1. rewrite live_upd by auto. specialize (MK m1).
    destruct (Nat.eqb_spec m m1) as [->|N]; [|exact MK]. rewrite K. exists sx, d. split; auto. cbn.
    rewrite map_map. rewrite (map_ext _ face face_forget). exact MR.
  - intros m1 slot me A. destruct (AS _ _ _ A) as [[N A1]|(-> & me0 & A1 & ME & Q)].
    + destruct (r_bod _ _ _ A1) as (bd & B & BR). exists bd. split; auto. rewrite F3; auto.
      intro X. apply in_flat_map in X as ([me'|] & X1 & X2); [|contradiction]. destruct X2 as [X2|[]].
      destruct (AT me' X1) as (slot' & A2). destruct (un_no _ _ UN _ _ _ _ _ _ A2 A1 X2). congruence.
    + destruct (F4 me0) as (bd & (P1 & P2 & P3 & P4) & P5); [eapply nth_error_In; apply nth_live; eauto|].
      inversion Q; subst me. cbn. eexists. split; [exact P5|]. split; auto.
  - destruct UN as [U1 U2 U3 U4]. constructor.
    + intros m1 s1 e1 m2 s2 e2 A1 A2 Q. destruct (AS' _ _ _ A1) as (x1 & B1 & C1 & D1).
      destruct (AS' _ _ _ A2) as (x2 & B2 & C2 & D2). eapply U1; eauto. congruence.
    + intros m1 s1 e1 m2 s2 e2 st st' A1 A2 I1 I2 Q. destruct (AS' _ _ _ A1) as (x1 & B1 & C1 & D1).
      destruct (AS' _ _ _ A2) as (x2 & B2 & C2 & D2). rewrite D1 in I1. rewrite D2 in I2. eapply U2; eauto.
    + intros m1 s1 e1 A1. destruct (AS' _ _ _ A1) as (x1 & B1 & C1 & D1). rewrite D1. eauto.
    + intros m1 s1 e1 st A1 I1. destruct (AS' _ _ _ A1) as (x1 & B1 & C1 & D1). rewrite D1 in I1. eauto.
  - destruct r_cnt as (P1 & P2 & P3). split; [congruence|]. auto.
  - intros m1 slot me i A I1. destruct (AS _ _ _ A) as [[N A1]|(-> & me0 & A1 & ME & Q)]; [eauto|].
    inversion Q; subst me. destruct I1.
Qed.

(** ** Destruction *)
Lemma R_del_mock : forall own tow w s m k sk sx d tabs' objs' sobj' b' m' q',
  Rg own tow w s -> live (w_mocks w) m = Some k -> live (s_mocks s) m = Some sk ->
  live (s_objs s) (sk_obj sk) = Some sx ->
  mock_rel E (w_tables w) m k (sk_class sk) (sk_obj sk) (sk_owner sk) (sk_fill sk) (map face (sk_meths sk)) sx d ->
  (forall t, tow t <> m \/ t < length classes -> live tabs' t = live (w_tables w) t) ->
  (forall o, o <> sk_obj sk -> live objs' o = live (w_objs w) o) -> length objs' = length (w_objs w) ->
  match live objs' (sk_obj sk), sobj' with
  | Some x, Some y => ob_class x = so_class y /\ ob_data x = so_data y /\ so_class y < length classes /\
                      so_mock y = None /\ ob_vptr x = so_class y
  | None, None => True
  | _, _ => False
  end ->
  length b' = length (w_bodies w) -> length m' = length (w_matchers w) ->
  CTX own (w_ctxs w) m' q' (s_ctxs s) ->
  (forall sm', (forall m1 slot me, at_ sm' m1 slot me -> m1 <> m /\ at_ (s_mocks s) m1 slot me) -> BOD own b' m' q' sm') ->
  R (set_objs (hp (set_mocks (set_tables w tabs') (upd (w_mocks w) m None)) b' m' q') objs')
    (sset_objs (sset_mocks s (upd (s_mocks s) m None)) (upd (s_objs s) (sk_obj sk) sobj')).
Proof.
  intros own tow w s m k sk sx d tabs' objs' sobj' b' m' q' H K SK SX MR HT HO HOL HX LB LM HC HB.
  pose proof (live_lt _ _ _ _ K) as LK. pose proof (live_lt _ _ _ _ SK) as LSK. pose proof (live_lt _ _ _ _ SX) as LSX.
  assert (AS : forall m1 slot me, at_ (upd (s_mocks s) m None) m1 slot me -> m1 <> m /\ at_ (s_mocks s) m1 slot me).
  { intros m1 slot me (y & A1 & A2). rewrite live_upd in A1 by auto. destruct (Nat.eqb_spec m m1) as [->|N]; [discriminate|].
    split; auto. exists y. auto. }
  pose proof (mr_mock _ _ _ _ _ _ _ _ _ _ _ MR) as MM. pose proof (mr_obj _ _ _ _ _ _ _ _ _ _ _ MR) as MO.
  exists own, tow. destruct H; constructor; cbn -[upd]; auto.
  - intros c dc C. rewrite HT; [auto|]. right. eapply nth_error_Some_lt; eauto.
  - destruct r_obj as [OL OB]. split; [rewrite upd_length; lia|]. intro o. rewrite live_upd by auto.
    destruct (Nat.eqb_spec (sk_obj sk) o) as [<-|N].
    + destruct (live objs' (sk_obj sk)) as [x|], sobj' as [y|]; auto. destruct HX as (P1 & P2 & P3 & P4 & P5).
      split; auto. split; auto. split; auto. rewrite P4. auto.
    + rewrite HO by auto. specialize (OB o). destruct (live (w_objs w) o) as [x|], (live (s_objs s) o) as [y|]; auto.
      destruct OB as (P1 & P2 & P3 & P4). split; auto. split; auto. split; auto.
      destruct (so_mock y) as [m1|]; auto. destruct P4 as (k1 & Q1 & Q2 & Q3). exists k1. split; auto.
      rewrite live_upd_out; auto. intro X. subst m1. congruence.
  - destruct r_mck as [ML MK]. split; [rewrite !upd_length; auto|]. intro m1. rewrite !live_upd by auto.
    destruct (Nat.eqb_spec m m1) as [->|N]; auto. specialize (MK m1).
    destruct (live (w_mocks w) m1) as [k1|] eqn:K1, (live (s_mocks s) m1) as [sk1|]; auto.
    destruct MK as (sx1 & d1 & P1 & P2). exists sx1, d1.
    pose proof (mr_mock _ _ _ _ _ _ _ _ _ _ _ P2) as MM1.
    rewrite live_upd_out by (intro X; rewrite <- X in P1; congruence). split; auto.
    destruct (r_tow m1 k1 K1) as (T1 & T2 & T3). eapply mock_rel_tabs; [exact P2| |].
    + apply HT. left. congruence.
    + intro O. destruct T3 as (T4 & _); [rewrite (mr_owner _ _ _ _ _ _ _ _ _ _ _ P2); auto|]. apply HT. left. congruence.
  - intros m1 k1 K1. rewrite live_upd in K1 by auto. destruct (Nat.eqb m m1); [discriminate|]. auto.
  - eapply UNI_sub; eauto. intros. now apply AS.
  - rewrite LM. exact r_idn.
  - destruct r_cnt as (P1 & P2 & P3). split; [congruence|]. auto.
  - intros m1 slot me i A. destruct (AS _ _ _ A). eapply r_his; eauto.
Qed.

Lemma sim_mock_destroy : forall m, sim (mock_destroy m) (smock_destroy m).
Proof.
  intros m w s (own & tow & H). unfold smock_destroy.
  destruct (live (s_mocks s) m) as [sk|] eqn:SK; [|apply simw_u; rewrite sget_spec, SK; reflexivity].
  eapply simw_s; [rewrite sget_spec, SK; reflexivity|].
  destruct (Rg_table E _ _ _ _ _ _ H SK) as (k & sx & d & vt & x & K & SX & MR & X & XV & VT & SH & C0 & C1 & C2).
  eapply simw_s; [rewrite sget_spec, SX; reflexivity|]. destruct (quiet sk); [|exact I].
  eapply simw_s; [reflexivity|].
  destruct (Rg_obj E _ _ _ _ _ _ H SX) as (x0 & X0 & (O1 & O2 & O3 & O4)). assert (x0 = x) by congruence. subst x0.
  set (x' := mkObj (mk_orig k) (ob_class x) (ob_data x)).
  set (w1 := set_mocks (set_tables (set_objs w (upd (w_objs w) (sk_obj sk) (Some x'))) (upd (w_tables w) (mk_clone k) None))
               (upd (w_mocks w) m None)).
  destruct (release own w1 (w_ctxs w) (s_ctxs s) (s_mocks s) m sk) as (b' & m' & q' & F1 & F2 & F3 & F4 & F5); auto;
    try (destruct H; assumption).
  destruct (r_tow _ _ _ _ _ H m k K) as (T1 & T2 & T3).
  pose proof (live_lt _ _ _ _ X) as LX. pose proof (live_lt _ _ _ _ VT) as LV.
  assert (PRE : forall A (r : mock -> M A) , (let* k := get_mock m in
     let* _ := setVirtualTable (mk_obj k) (mk_orig k) in
     let* vt := get_table (mk_clone k) in
     let* _ := lift (dispose Gcc vt) in
     let* _ := free_table (mk_clone k) in
     let* _ := modify (fun w => set_mocks w (upd (w_mocks w) m None)) in
     let* _ := free_bodies (pt_mocks (mk_pt k)) in r k) w = r k (hp w1 b' m' q')).
  { intros A r. unfold bind at 1. rewrite (get_mock_live _ _ _ K). unfold bind at 1, setVirtualTable, bind at 1.
    rewrite (mr_obj _ _ _ _ _ _ _ _ _ _ _ MR). rewrite (get_obj_live _ _ _ X). unfold put_obj, modify.
    unfold bind at 1. rewrite (get_table_live _ _ vt) by exact VT. unfold bind at 1, lift at 1.
    rewrite (dispose_wf _ _ _ (proj1 SH)). unfold bind at 1, free_table, bind at 1.
    rewrite (get_table_live _ _ vt) by exact VT. unfold modify. unfold bind at 1. unfold bind at 1.
    rewrite (mr_pt _ _ _ _ _ _ _ _ _ _ _ MR).
    match goal with |- context [free_bodies _ ?W] => change W with w1 end. rewrite F1. reflexivity. }
  assert (PRE2 : mock_destroy m w = (if mk_owner k then
      let* (t, vt') := obj_table (mk_obj k) in
      let* _ := lift (dispose Gcc vt') in
      let* _ := free_table t in
      free_obj (mk_obj k) else ret tt) (hp w1 b' m' q')).
  { exact (PRE _ (fun k => if mk_owner k then
      let* (t, vt') := obj_table (mk_obj k) in
      let* _ := lift (dispose Gcc vt') in
      let* _ := free_table t in
      free_obj (mk_obj k) else ret tt)). }
  rewrite (mr_owner _ _ _ _ _ _ _ _ _ _ _ MR), (mr_obj _ _ _ _ _ _ _ _ _ _ _ MR) in PRE2.
  destruct (sk_owner sk) eqn:OW.
  - (* the object is released too *)
    destruct (mr_own _ _ _ _ _ _ _ _ _ _ _ MR eq_refl) as (_ & ot & OT & OS).
    destruct (T3 (mr_owner _ _ _ _ _ _ _ _ _ _ _ MR)) as (T4 & T5 & T6).
    unfold bind at 1 in PRE2. rewrite (obj_table_live (hp w1 b' m' q') (sk_obj sk) x' ot) in PRE2.
    2:{ cbn. now apply live_upd_in. }
    2:{ cbn. rewrite live_upd_out; auto. }
    unfold bind at 1, lift in PRE2. rewrite (dispose_wf _ _ _ (proj1 OS)) in PRE2.
    unfold bind at 1, free_table, bind at 1 in PRE2. rewrite (get_table_live _ _ ot) in PRE2.
    2:{ cbn. rewrite live_upd_out; auto. }
    unfold modify, free_obj, bind in PRE2. rewrite (get_obj_live _ _ x') in PRE2.
    2:{ cbn. now apply live_upd_in. }
    eapply simw_intro_ok; [reflexivity|exact PRE2| |reflexivity].
    refine (R_del_mock own tow w s m k sk sx d _ (upd (upd (w_objs w) (sk_obj sk) (Some x')) (sk_obj sk) None) None b' m' q'
              H K SK SX _ _ _ _ _ _ _ _ _); auto.
    + rewrite ?OW. exact MR.
    + intros t T. cbn [x' w1 hp ob_vptr w_tables set_tables set_mocks set_bodies set_matchers set_seqs]. assert (t <> mk_clone k /\ t <> mk_orig k) as [Q1 Q2] by (destruct T; split; (congruence || lia)).
      rewrite !live_upd_out; auto.
    + intros o N. rewrite !live_upd_out; auto.
    + now rewrite !upd_length.
    + rewrite live_upd_in; [exact I|]. now rewrite upd_length.
  - destruct (mr_spy _ _ _ _ _ _ _ _ _ _ _ MR eq_refl) as (OC & dx & DX & LE).
    eapply simw_intro_ok; [reflexivity|exact PRE2| |reflexivity].
    refine (R_del_mock own tow w s m k sk sx d (upd (w_tables w) (mk_clone k) None)
              (upd (w_objs w) (sk_obj sk) (Some x')) _ b' m' q'
              H K SK SX _ _ _ _ _ _ _ _ _); auto.
    + rewrite OW. exact MR.
    + intros t T. assert (t <> mk_clone k) as Q1 by (destruct T; (congruence || lia)). rewrite !live_upd_out; auto.
    + intros o N. rewrite !live_upd_out; auto.
    + now rewrite !upd_length.
    + rewrite live_upd_in by auto. cbn. auto.
Qed.

End E.
