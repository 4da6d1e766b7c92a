(** The simulation, part D: calls. *)
From Coq Require Import Bool ZArith Lia List Permutation.
From Verif Require Import Base CInt Values ArgMatchers InvMatchers ActionSeq Sequences MatchAnalysis
  SortInv VTable Spec_Layout VTableProofs Proxy ProxyProofs Events Expectation ReturnSet Ordinals Syntax World Spec_World
  WorldLogic WorldRel WorldSimA WorldSimB WorldSimC.
Import ListNotations.
Open Scope nat_scope.

(** ** Action sequences *)
Lemma seq_head : forall q used a rest, seq_rel q used (a :: rest) ->
  nth_error (as_acts q) (S used) = Some a /\ exists r, as_recorded q = S used :: r.
Proof.
  intros q used a rest (pre & P1 & P2 & P3). split.
  - rewrite P2. cbn. rewrite nth_error_app2 by lia. rewrite P1, Nat.sub_diag. reflexivity.
  - rewrite P3. cbn. eauto.
Qed.

Lemma seq_begin_counted : forall q used f n rest, seq_rel q used (ARepeat f n :: rest) -> (1 <= n)%Z ->
  exists q', handle_begin q = Def (q', S used, SrvCall f) /\ seq_rel q' used (ARepeat f (n - 1) :: rest).
Proof.
  intros q used f n rest H N. destruct (seq_head _ _ _ _ H) as (A & r & RR).
  destruct H as (pre & P1 & P2 & P3).
  unfold handle_begin. rewrite RR, A. cbn [of_option obind invoke]. unfold long_dec.
  destruct (Z.eqb_spec n long_min) as [L|L].
  { unfold long_min in L. lia. }
  cbn [obind]. eexists. split; [reflexivity|]. exists pre. split; auto. cbn [as_acts as_recorded]. split.
  - rewrite P2. cbn [upd]. f_equal. rewrite <- P1. clear. induction pre; cbn; congruence.
  - rewrite <- RR. exact P3.
Qed.

Lemma seq_begin_uncounted : forall q used a rest, seq_rel q used (a :: rest) -> uncounted a ->
  exists srv, handle_begin q = Def (q, S used, srv) /\
    srv = match a with AForever f => SrvCall f | ADelegate f => SrvCall f | ADefault => SrvDefault
          | _ => SrvNoMore end.
Proof.
  intros q used a rest H U. destruct (seq_head _ _ _ _ H) as (A & r & RR).
  unfold handle_begin. rewrite RR, A. cbn [of_option obind].
  assert (I : invoke a = Def (a, match a with AForever f => SrvCall f | ADelegate f => SrvCall f | ADefault => SrvDefault
          | _ => SrvNoMore end)) by (destruct a; cbn in *; try contradiction; reflexivity).
  rewrite I. cbn [obind]. rewrite (upd_same _ _ _ _ A). eexists. split; [|reflexivity].
  destruct q; cbn in *. now rewrite <- RR.
Qed.

Lemma seq_begin_empty : forall q used, seq_rel q used [] ->
  handle_begin q = Def (q, 0, SrvNoMore) /\ nth_error (as_acts q) 0 = Some ANoMore.
Proof.
  intros q used (pre & P1 & P2 & P3). cbn in P3.
  assert (A : nth_error (as_acts q) 0 = Some ANoMore) by (rewrite P2; reflexivity). split; auto.
  unfold handle_begin. rewrite P3, A. cbn [of_option obind invoke]. rewrite (upd_same _ _ _ _ A).
  destruct q; cbn in *. now rewrite <- P3.
Qed.

Lemma seq_end_rel : forall q used f n rest, seq_rel q used (ARepeat f n :: rest) -> n = 0%Z ->
  exists q', handle_end q (S used) = Def q' /\ seq_rel q' (S used) rest.
Proof.
  intros q used f n rest H ->. destruct (seq_head _ _ _ _ H) as (A & r & RR).
  destruct H as (pre & P1 & P2 & P3).
  unfold handle_end. rewrite A. cbn [of_option obind isDone Z.eqb]. rewrite RR. eexists. split; [reflexivity|].
  exists (pre ++ [ARepeat f 0]). split; [rewrite app_length; cbn; lia|]. cbn [as_acts as_recorded]. split.
  - rewrite P2, <- app_assoc. reflexivity.
  - rewrite P3 in RR. cbn in RR. inversion RR. reflexivity.
Qed.

Lemma set_seqs_same : forall w n c, nth_error (w_seqs w) n = Some c -> set_seqs w (upd (w_seqs w) n c) = w.
Proof. intros w n c H. rewrite (upd_same _ _ _ _ H). now destruct w. Qed.

Lemma map_upd_same : forall A B (f : A -> B) l i x y, nth_error l i = Some y -> f x = f y ->
  map f (upd l i x) = map f l.
Proof.
  induction l as [|h t IH]; intros [|i] x y H Q; cbn in *; auto.
  - inversion H; subst. congruence.
  - f_equal. eauto.
Qed.

(** ** Stubbings *)
Lemma replace_stub_spec : forall l n f l', replace_stub l n f = Some l' ->
  exists st st', In st l /\ st_no st = n /\ f st = Some st' /\
    (st_no st' = n -> NoDup (map st_no l) ->
      map st_no l' = map st_no l /\
      forall own mats seqs seqs' hs, Forall2 (stub_rel own mats seqs) hs l ->
        (forall k, k <> n -> nth_error seqs' k = nth_error seqs k) ->
        (forall h, stub_rel own mats seqs h st -> stub_rel own mats seqs' h st') ->
        Forall2 (stub_rel own mats seqs') hs l').
Proof.
  induction l as [|st l IH]; intros n f l' H; cbn in H; [discriminate|].
  destruct (Nat.eqb_spec (st_no st) n) as [Q|N].
  - destruct (f st) as [st'|] eqn:F; [|discriminate]. inversion H; subst l'; clear H.
    exists st, st'. split; [now left|]. split; auto. split; auto. intros Q' ND. cbn. split; [congruence|].
    intros own mats seqs seqs' hs X K G. inversion X as [|h hs' ? ? X1 X2]; subst. constructor; auto.
    inversion ND as [|? ? NI ND']; subst.
    assert (NL : forall st0, In st0 l -> st_no st0 <> st_no st).
    { intros st0 I C. apply NI. rewrite <- C. now apply in_map. }
    clear - X2 K NL. induction X2 as [|h0 st0 hs l R0 X IH]; constructor.
    + destruct R0 as (R1 & R2 & R3 & q & R4 & R5). split; auto. split; auto. split; auto. exists q. split; auto.
      rewrite K; auto. apply NL. now left.
    + apply IH. intros st1 I. apply NL. now right.
  - destruct (replace_stub l n f) as [l1|] eqn:RS; [|discriminate]. inversion H; subst l'; clear H.
    destruct (IH _ _ _ RS) as (s1 & s2 & I & Q1 & Q2 & G). exists s1, s2. split; [now right|]. split; auto. split; auto.
    intros Q' ND. inversion ND as [|? ? NI ND']; subst. destruct (G Q' ND') as [G1 G2]. split; [cbn; congruence|].
    intros own mats seqs seqs' hs X K GG. inversion X as [|h hs' ? ? X1 X2]; subst. constructor; eauto.
    destruct X1 as (R1 & R2 & R3 & q & R4 & R5). split; auto. split; auto. split; auto. exists q. split; auto.
    rewrite K; auto.
Qed.

Lemma nodup_stub : forall l st st', NoDup (map st_no l) -> In st l -> In st' l -> st_no st = st_no st' -> st = st'.
Proof.
  induction l as [|a l IH]; intros st st' ND I I' Q; [contradiction|]. inversion ND as [|? ? NI ND']; subst.
  destruct I as [->|I], I' as [->|I']; auto.
  - exfalso. apply NI. rewrite Q. now apply in_map.
  - exfalso. apply NI. rewrite <- Q. now apply in_map.
Qed.

Section D.
Variable E : env.
Local Notation R := (R E).
Local Notation Rg := (Rg E).
Local Notation sim := (sim E).
Local Notation simw := (simw E).

Definition with_stubs (me : method) (l : list stub) : method :=
  mkMethod (me_no me) (me_id me) (me_ret me) l (me_calls me) (me_bypass me).

Lemma Rg_change : forall own tow w s m sk slot me n f l st st' q',
  Rg own tow w s -> live (s_mocks s) m = Some sk -> live (sk_meths sk) slot = Some me ->
  In st (me_stubs me) -> st_no st = n -> replace_stub (me_stubs me) n f = Some l -> f st = Some st' ->
  st_no st' = n -> st_cond st' = st_cond st -> seq_rel q' (st_used st') (st_todo st') ->
  Rg own tow (set_seqs w (upd (w_seqs w) n (mkSeq true q')))
    (sset_mocks s (upd (s_mocks s) m (Some (set_meth sk slot (with_stubs me l))))).
Proof.
  intros own tow w s m sk slot me n f l st st' q' H SK ME I N RS F N' C Q.
  assert (A0 : at_ (s_mocks s) m slot me) by (exists sk; auto).
  pose proof (r_uni _ _ _ _ _ H) as U. pose proof (un_nodup _ _ U _ _ _ A0) as ND.
  destruct (replace_stub_spec _ _ _ _ RS) as (s1 & s2 & I1 & Q1 & Q2 & G).
  assert (s1 = st) by (eapply nodup_stub; eauto; congruence). subst s1.
  assert (s2 = st') by congruence. subst s2. clear Q2. destruct (G N' ND) as [G1 G2]. clear G.
  destruct (r_bod _ _ _ _ _ H _ _ _ A0) as (bd & B1 & B2 & B3 & B4 & B5).
  destruct (un_ctx _ _ U _ _ _ _ A0 I) as [LN NU]. rewrite N in LN, NU.
  pose proof (live_lt _ _ _ _ ME) as LM.
  pose proof (r_ctx _ _ _ _ _ H) as (L1 & L2 & CX).
  assert (OT : forall k, k <> n -> nth_error (upd (w_seqs w) n (mkSeq true q')) k = nth_error (w_seqs w) k)
    by (intros k K; apply nth_error_upd_other; congruence).
  destruct H; constructor; cbn; auto.
  - eapply MCK_face; eauto.
  - intros m' slot' me' A. destruct (at_set _ _ _ _ _ _ _ _ SK LM A) as [(-> & -> & ->)|(NN & A')].
    + exists bd. split; auto. split; auto. split; auto. split; auto. cbn [me_stubs with_stubs].
      eapply G2; eauto. intros h (R1 & R2 & R3 & q & R4 & R5).
      split; [congruence|]. split; [congruence|]. split; [congruence|]. exists q'. split; [|exact Q].
      rewrite N'. apply nth_error_upd_same. lia.
    + destruct (r_bod _ _ _ A') as (bd' & D1 & D2 & D3 & D4 & D5). exists bd'. split; auto. split; auto.
      split; auto. split; auto.
      assert (NL : forall st0, In st0 (me_stubs me') -> st_no st0 <> n).
      { intros st0 I0 C0. apply NN. destruct (un_stub _ _ U _ _ _ _ _ _ _ _ A' A0 I0 I); auto. congruence. }
      clear - D5 NL OT. revert NL D5. generalize (rev (bd_handlers bd')) (me_stubs me'). intros hs ls NL X.
      induction X as [|h0 st0 hs ls R0 X IH]; constructor.
      * destruct R0 as (R1 & R2 & R3 & q & R4 & R5). split; auto. split; auto. split; auto. exists q. split; auto.
        rewrite OT; auto. apply NL. now left.
      * apply IH. intros st1 I. apply NL. now right.
  - eapply UNI_set_same; eauto.
  - split; auto. split; [now rewrite upd_length|]. intro c. specialize (CX c).
    destruct (live (w_ctxs w) c) as [x|], (live (s_ctxs s) c) as [sx|] eqn:SX; auto.
    destruct CX as (H1 & H2 & H3 & H4). split; auto. split; auto. split; auto. intro SC.
    destruct (H4 SC) as (O & M & q & Q3 & Q4). split; auto. split; auto. exists q. split; auto.
    rewrite OT; auto. intros ->. apply NU. exists sx. auto.
  - apply HIS_set; auto. intros i Ii. eapply r_his; eauto.
Qed.

Lemma schange_spec : forall m slot n f s,
  schange_stub m slot n f s =
  match live (s_mocks s) m with
  | Some sk => match live (sk_meths sk) slot with
               | Some me => match replace_stub (me_stubs me) n f with
                            | Some l => SOk (sset_mocks s (upd (s_mocks s) m (Some (set_meth sk slot (with_stubs me l))))) tt
                            | None => SUnspec
                            end
               | None => SUnspec
               end
  | None => SUnspec
  end.
Proof.
  intros. unfold schange_stub. unfold sbind at 1. rewrite smethod_spec.
  destruct (live (s_mocks s) m) as [sk|] eqn:SK; auto. destruct (live (sk_meths sk) slot) as [me|]; auto.
  unfold sbind. unfold sopt. destruct (replace_stub (me_stubs me) n f) as [l|]; [|reflexivity]. unfold sret.
  rewrite sset_method_spec, SK. reflexivity.
Qed.

(** The sequence of a stubbing. *)
Lemma stub_seq : forall own tow w s m sk slot me st, Rg own tow w s -> live (s_mocks s) m = Some sk ->
  live (sk_meths sk) slot = Some me -> In st (me_stubs me) ->
  exists q, nth_error (w_seqs w) (st_no st) = Some (mkSeq true q) /\ seq_rel q (st_used st) (st_todo st).
Proof.
  intros own tow w s m sk slot me st H SK ME I.
  assert (A0 : at_ (s_mocks s) m slot me) by (exists sk; auto).
  destruct (r_bod _ _ _ _ _ H _ _ _ A0) as (bd & B1 & B2 & B3 & B4 & B5).
  revert I B5. generalize (rev (bd_handlers bd)). induction (me_stubs me) as [|s0 l IH]; intros hs I X; [contradiction|].
  inversion X as [|h hs' ? ? X1 X2]; subst. destruct I as [->|I]; eauto.
  destruct X1 as (_ & _ & _ & q & R4 & R5). eauto.
Qed.

Lemma sim_seq_end : forall m slot n used, sim (seq_end n (S used)) (schange_stub m slot n (end_action used)).
Proof.
  intros m slot n used w s (own & tow & H). unfold simw, WorldRel.simw. rewrite schange_spec.
  destruct (live (s_mocks s) m) as [sk|] eqn:SK; [|exact I].
  destruct (live (sk_meths sk) slot) as [me|] eqn:ME; [|exact I].
  destruct (replace_stub (me_stubs me) n (end_action used)) as [l|] eqn:RS; [|exact I].
  destruct (replace_stub_spec _ _ _ _ RS) as (st & st' & I & N & F & _).
  destruct (stub_seq _ _ _ _ _ _ _ _ _ H SK ME I) as (q & Q1 & Q2). rewrite N in Q1.
  unfold seq_end. unfold bind at 1. rewrite (get_seq_nth _ _ _ Q1). cbn [sq_seq sq_alive].
  pose proof F as F0. unfold end_action in F.
  destruct (st_busy st); cbn [andb] in F; [|discriminate].
  destruct (Nat.eqb_spec (st_used st) used) as [US|]; [|discriminate].
  destruct (st_todo st) as [|[f c| | | |] rest] eqn:TD; try discriminate.
  rewrite US in Q2. destruct (seq_head _ _ _ _ Q2) as (A & _).
  unfold bind at 1. unfold lift at 1. rewrite A. cbn [of_option isDone].
  destruct (Z.eqb_spec c 0) as [->|NZ]; inversion F; subst st'; clear F.
  - destruct (seq_end_rel _ _ _ _ _ Q2 eq_refl) as (q' & E1 & E2).
    unfold bind, lift. rewrite E1. unfold put_seq, modify. eexists _, _. split; [reflexivity|]. split; [|reflexivity].
    exists own, tow. eapply Rg_change; eauto. cbn. now rewrite US.
  - exists w, tt. split; [reflexivity|]. split; [|reflexivity]. exists own, tow.
    rewrite <- (set_seqs_same w n _ Q1). eapply Rg_change; eauto. cbn. now rewrite US.
Qed.

(** The end of an action without a count does nothing. *)
Lemma seq_end_nothing : forall w w' n q id a, grows w w' -> nth_error (w_seqs w) n = Some (mkSeq true q) ->
  nth_error (as_acts q) id = Some a -> uncounted a -> seq_end n id w' = RVal w' tt.
Proof.
  intros w w' n q id a G Q A U. destruct (gr_seqs _ _ G _ _ Q) as (q' & Q1 & Q2).
  unfold seq_end. unfold bind. rewrite (get_seq_nth _ _ _ Q1). unfold lift. rewrite (Q2 _ _ A U). cbn [of_option].
  destruct a; try contradiction; reflexivity.
Qed.

Lemma guarded_nothing : forall A (P : world -> sworld -> A -> A -> Prop) (m : M A) sm f w s,
  simw eqP m sm w s -> (forall w' a, m w = RVal w' a -> f w' = RVal w' tt) ->
  (forall w' e, m w = RExn w' e -> f w' = RVal w' tt) -> simw eqP (guarded m f) sm w s.
Proof.
  intros A P m sm f w s H F1 F2. unfold simw, WorldRel.simw in *. unfold guarded, bind, attempt.
  destruct (sm s) as [s' b|s' e|]; auto.
  - destruct H as (w' & a & H1 & H2). rewrite H1, (F1 _ _ H1). unfold rethrow, ret. eauto.
  - destruct H as (w' & H1 & H2). rewrite H1, (F2 _ _ H1). unfold rethrow, throw. eauto.
Qed.

Section Open.
Variable rec : op -> M val.
Variable srec : op -> SM val.
Hypothesis Hsim : forall o, sim (rec o) (srec o).
Hypothesis Hgrows : forall o, pres grows (rec o).

(** ** User code *)
Lemma simw_put_args : forall i w s v ca args, R w s -> callP i w s v ca ->
  R (set_invs w (upd (w_invs w) i (mkInv (iv_ord v) (iv_method v) (iv_ret v) args (iv_matcher v) (iv_verified v))))
    (sset_calls s (upd (s_calls s) i (mkCall (ca_method ca) (ca_ret ca) args (ca_verified ca)))).
Proof.
  intros i w s v ca args (own & tow & H) (V & C & (I1 & I2 & I3 & I4)). exists own, tow.
  eapply Rg_put_inv; eauto; repeat split; auto.
Qed.

Lemma sim_run_prog : forall p fr, sim (run_prog rec fr p) (srun_prog srec fr p).
Proof.
  fix IH 1. intros [v|e|i k|i v k|k|o k] fr; cbn [run_prog srun_prog].
  - apply sim_ret.
  - apply sim_throw.
  - destruct fr as [n|this args].
    + intros w s HR. eapply simw_bind; [apply (simw_get_call E n); auto|]. clear w s HR.
      intros w s x cx HR (V & C & (I1 & I2 & I3 & I4)). rewrite I3.
      destruct (nth_error (ca_args cx) i); [now apply IH|exact I].
    + destruct (nth_error args i); [apply IH|apply sim_unspec].
  - destruct fr as [n|this args].
    + intros w s HR. eapply simw_bind; [apply (simw_get_call E n); auto|]. clear w s HR.
      intros w s x cx HR CP. pose proof CP as (V & C & (I1 & I2 & I3 & I4)). rewrite I3.
      destruct (Nat.ltb i (length (ca_args cx))); [|exact I].
      eapply simw_bind with (P := eqP).
      * unfold simw, WorldRel.simw, sput_args, smodify, put_inv, modify. eexists _, _. split; [reflexivity|].
        split; [|reflexivity]. now apply simw_put_args.
      * intros w' s' a b HR' _. now apply IH.
    + destruct (Nat.ltb i (length args)); [apply IH|apply sim_unspec].
  - destruct fr as [n|this args]; [apply sim_unspec|apply IH].
  - apply sim_bind; [apply sim_attempt; apply Hsim|]. intro r. apply IH.
Qed.

(** ** Spied originals *)
Lemma getMethod_class_table : forall c d slot, slot < cl_size d ->
  getMethod (class_table c d) (Z.of_nat slot) = Def (WCode (COrig c slot)).
Proof.
  intros c d slot L. unfold getMethod, class_table, vt_get. cbn [vt_arr vt_first].
  destruct (Z.ltb_spec (2 + Z.of_nat slot) 0); [lia|].
  replace (Z.to_nat (2 + Z.of_nat slot)) with (S (S slot)) by lia. cbn [nth_error app].
  rewrite nth_error_map. rewrite (nth_error_nth' _ 0) by now rewrite seq_length. cbn [option_map of_option].
  rewrite seq_nth by auto. reflexivity.
Qed.

Lemma orig_entry : forall own tow w s m sk k sx d slot, Rg own tow w s ->
  live (s_mocks s) m = Some sk ->
  mock_rel E (w_tables w) m k (sk_class sk) (sk_obj sk) (sk_owner sk) (sk_fill sk) (map face (sk_meths sk)) sx d ->
  slot < cl_size d ->
  exists ot, live (w_tables w) (mk_orig k) = Some ot /\
    getMethod ot (Z.of_nat slot) = Def (init_word (sk_owner sk) (sk_class sk) d (so_class sx) slot).
Proof.
  intros own tow w s m sk k sx d slot H SK MR L. destruct (sk_owner sk) eqn:O.
  - destruct (mr_own _ _ _ _ _ _ _ _ _ _ _ MR eq_refl) as (_ & ot & T & (_ & SH)). exists ot. auto.
  - destruct (mr_spy _ _ _ _ _ _ _ _ _ _ _ MR eq_refl) as (Q & dx & DX & LE). rewrite Q.
    exists (class_table (so_class sx) dx). split; [apply (r_cls _ _ _ _ _ H _ _ DX)|].
    rewrite getMethod_class_table by lia. reflexivity.
Qed.

Definition with_bypass (me : method) (b : bool) : method :=
  mkMethod (me_no me) (me_id me) (me_ret me) (me_stubs me) (me_calls me) b.

Lemma sset_bypass_spec : forall m slot no id from s,
  sset_bypass m slot no id from s =
  match live (s_mocks s) m with
  | Some sk => match live (sk_meths sk) slot with
               | Some me => if Nat.eqb (me_no me) no && Z.eqb (me_id me) id && Bool.eqb (me_bypass me) from then
                   SOk (sset_mocks s (upd (s_mocks s) m (Some (set_meth sk slot (with_bypass me (negb from)))))) tt
                   else SUnspec
               | None => SUnspec
               end
  | None => SUnspec
  end.
Proof.
  intros. unfold sset_bypass. unfold sbind at 1. rewrite smethod_spec.
  destruct (live (s_mocks s) m) as [sk|] eqn:SK; auto. destruct (live (sk_meths sk) slot) as [me|]; auto.
  destruct (_ && _ && _); [|reflexivity]. rewrite sset_method_spec, SK. reflexivity.
Qed.

(** The entry of a bound method is exchanged. *)
Lemma bypass_step : forall w s m slot no id from (x : word), R w s ->
  (from = true -> x = WCode (CProxy id)) ->
  (from = false -> exists sk k sx d, live (s_mocks s) m = Some sk /\ live (w_mocks w) m = Some k /\
     live (s_objs s) (sk_obj sk) = Some sx /\
     mock_rel E (w_tables w) m k (sk_class sk) (sk_obj sk) (sk_owner sk) (sk_fill sk) (map face (sk_meths sk)) sx d /\
     is_dtor d slot = false /\ x = init_word (sk_owner sk) (sk_class sk) d (so_class sx) slot) ->
  simw eqP (let* k' := get_mock m in fake_setMethod (mk_obj k') (Z.of_nat slot) x) (sset_bypass m slot no id from) w s.
Proof.
  intros w s m slot no id from x HR X1 X2.
  unfold simw, WorldRel.simw. rewrite sset_bypass_spec.
  destruct (live (s_mocks s) m) as [sk|] eqn:SK; [|exact I].
  destruct (live (sk_meths sk) slot) as [me|] eqn:ME; [|exact I].
  destruct (Nat.eqb_spec (me_no me) no) as [NO|]; [|exact I].
  destruct (Z.eqb_spec (me_id me) id) as [ID|]; [|exact I]. cbn [andb].
  destruct (Bool.eqb (me_bypass me) from) eqn:BP; [|exact I]. apply eqb_prop in BP.
  destruct HR as (own & tow & H).
  destruct (Rg_table E _ _ _ _ _ _ H SK) as (k & sx & d & vt & ob & K1 & K2 & K3 & OB & OV & VT & SH & CK0 & CK1 & CK2).
  pose proof (live_lt _ _ _ _ ME) as LM. pose proof (live_lt _ _ _ _ VT) as LT.
  pose proof (mr_len _ _ _ _ _ _ _ _ _ _ _ K3) as LEN. rewrite map_length in LEN.
  assert (FS : live (map face (sk_meths sk)) slot = Some (me_no me, me_id me, me_bypass me)).
  { rewrite live_face, ME. reflexivity. }
  assert (ND : forall j, cl_dtor d = Some j -> negb from = true -> slot <> j).
  { intros j D NF ->. destruct from; [discriminate|]. destruct (X2 eq_refl) as (sk' & k' & sx' & d' & Y1 & Y2 & Y3 & Y4 & Y5 & _).
    assert (d' = d).
    { pose proof (mr_d _ _ _ _ _ _ _ _ _ _ _ Y4). pose proof (mr_d _ _ _ _ _ _ _ _ _ _ _ K3).
      assert (sk' = sk) by congruence. subst. congruence. }
    subst d'. destruct (is_dtor_false _ _ _ Y5 D). congruence. }
  assert (XW : x = if negb from then init_word (sk_owner sk) (sk_class sk) d (so_class sx) slot else WCode (CProxy (me_id me))).
  { destruct from; cbn; [now rewrite ID; apply X1|].
    destruct (X2 eq_refl) as (sk' & k' & sx' & d' & Y1 & Y2 & Y3 & Y4 & Y5 & ->).
    assert (sk' = sk) by congruence. subst sk'. assert (sx' = sx) by congruence. subst sx'.
    pose proof (mr_d _ _ _ _ _ _ _ _ _ _ _ Y4). pose proof (mr_d _ _ _ _ _ _ _ _ _ _ _ K3). congruence. }
  destruct (shows_set _ _ _ slot x SH) as (vt' & S1 & S2 & S3); [lia|].
  unfold bind. rewrite (get_mock_live _ _ _ K1). unfold fake_setMethod, bind.
  rewrite (mr_obj _ _ _ _ _ _ _ _ _ _ _ K3). rewrite (obj_table_live w _ ob vt) by (rewrite ?OV; auto).
  unfold lift. rewrite S1. unfold put_table, modify. rewrite OV.
  eexists _, _. split; [reflexivity|]. split; [|reflexivity].
  destruct (r_tow _ _ _ _ _ H m k K1) as (T1 & T2 & T3).
  assert (NE : sk_owner sk = true -> mk_orig k <> mk_clone k).
  { intro O. apply T3. rewrite (mr_owner _ _ _ _ _ _ _ _ _ _ _ K3). exact O. }
  assert (A0 : at_ (s_mocks s) m slot me) by (exists sk; auto).
  exists own, tow. destruct H; constructor; cbn; auto.
  - apply CLS_upd; auto.
  - rewrite <- (upd_same _ (w_mocks w) m (Some k)) by (now apply nth_live).
    eapply MCK_upd; [exact r_mck|exact r_tow|exact K1| |].
    + intros t T N. rewrite live_upd_out; auto. intros <-. congruence.
    + exists sx, d. split; [exact K2|]. cbn [set_meth sk_class sk_obj sk_owner sk_fill sk_meths].
      rewrite map_upd. cbn [face with_bypass me_no me_id me_bypass]. destruct K3. constructor; auto.
      * now rewrite upd_length.
      * intros j D. rewrite live_upd_out; [auto|]. intros ->. rewrite (mr_dtor _ D) in FS. discriminate.
      * intros j no' id' D. rewrite live_upd by now rewrite map_length. destruct (Nat.eqb_spec slot j) as [->|]; [|eauto].
        destruct from; cbn [negb]; [congruence|]. exfalso. eapply ND; eauto.
      * intro O. destruct (mr_own O) as (Q1 & ot & Q2 & Q3). split; auto. exists ot.
        rewrite live_upd_out by (intro; apply (NE O); congruence). auto.
      * exists vt'. rewrite live_upd_in by auto. split; auto. unfold getCookie in *. cbn [cookie_pos] in *. rewrite !S3 by lia. split; [|auto].
        eapply shows_ext; [|exact S2]. intros j Lj. cbn. rewrite (cw_bypass _ _ _ _ _ _ _ _ _ _ _ FS).
        destruct (Nat.eqb j slot); auto.
      * rewrite mr_pt. symmetry. eapply map_upd_same; [apply nth_live; exact FS|reflexivity].
      * rewrite mr_off. symmetry. eapply map_upd_same; [apply nth_live; exact FS|reflexivity].
      * intros i j n1 i1 b1 n2 i2 b2 Xa Ya Q. rewrite live_upd in Xa by now rewrite map_length.
        rewrite live_upd in Ya by now rewrite map_length.
        destruct (Nat.eqb_spec slot i) as [N1|N1]; destruct (Nat.eqb_spec slot j) as [N2|N2]; try congruence.
        -- eapply mr_inj; [rewrite <- N1; exact FS|exact Ya|congruence].
        -- eapply mr_inj; [exact Xa|rewrite <- N2; exact FS|congruence].
        -- eauto.
      * intros i n1 i1 b1 Xa. rewrite live_upd in Xa by now rewrite map_length.
        destruct (Nat.eqb_spec slot i) as [N1|N1]; eauto. inversion Xa; subst i1. eauto.
  - intros m' slot' me' A. destruct (at_set _ _ _ _ _ _ _ _ SK LM A) as [(-> & -> & ->)|(NN & A')]; [|exact (r_bod _ _ _ A')].
    destruct (r_bod _ _ _ A0) as (bd & B1 & B2). exists bd. split; [exact B1|exact B2].
  - eapply UNI_set_same; eauto.
  - apply HIS_set; auto. intros i Ii. eapply r_his; eauto.
Qed.

Lemma with_original_spec : forall w m slot run k t vt fm ot og,
  live (w_mocks w) m = Some k -> obj_table (mk_obj k) w = RVal w (t, vt) -> getMethod vt (Z.of_nat slot) = Def fm ->
  live (w_tables w) (mk_orig k) = Some ot -> getMethod ot (Z.of_nat slot) = Def og ->
  with_original m slot run w =
  (let* _ := (let* k' := get_mock m in fake_setMethod (mk_obj k') (Z.of_nat slot) og) in
   guarded run (let* k' := get_mock m in fake_setMethod (mk_obj k') (Z.of_nat slot) fm)) w.
Proof.
  intros w m slot run k t vt fm ot og K O G OT OG. unfold with_original.
  unfold bind at 1. rewrite (get_mock_live _ _ _ K). unfold bind at 1. rewrite O. unfold bind at 1, lift at 1. rewrite G.
  unfold bind at 1. rewrite (get_table_live _ _ _ OT). unfold bind at 1, lift at 1. rewrite OG.
  unfold bind at 1. symmetry. unfold bind at 1. unfold bind at 1. rewrite (get_mock_live _ _ _ K). reflexivity.
Qed.

Lemma sim_run_callable : forall f i, sim (run_callable E rec f i) (srun_callable E srec f i).
Proof.
  intros [p| |r vals|r vals|m o slot forward] i; cbn [run_callable srun_callable].
  - apply sim_run_prog.
  - intros w s HR. eapply simw_bind; [apply (simw_get_call E i); auto|]. clear w s HR.
    intros w s x cx HR (V & C & (I1 & I2 & I3 & I4)). rewrite I2. now apply sim_default.
  - intros w s HR. eapply simw_bind; [apply (simw_get_call E i); auto|]. clear w s HR.
    intros w s x cx HR CP. pose proof CP as (V & C & (I1 & I2 & I3 & I4)). rewrite I3.
    eapply simw_bind with (P := eqP).
    { unfold simw, WorldRel.simw, sput_args, smodify, put_inv, modify.
      eexists _, _. split; [reflexivity|]. split; [|reflexivity]. now apply simw_put_args. }
    intros w2 s2 _ _ HR2 _.
    apply sim_bind; [apply sim_get_mem|intro mem; apply sim_bind; [apply sim_lift_same|intros [mem' v]]|auto].
    apply sim_bind; [|intros _; apply sim_ret]. apply sim_modify. intros. now apply R_mem.
  - intros w s HR. eapply simw_bind; [apply (simw_get_call E i); auto|]. clear w s HR.
    intros w s x cx HR CP. pose proof CP as (V & C & (I1 & I2 & I3 & I4)). rewrite I3.
    eapply simw_bind with (P := eqP).
    { unfold simw, WorldRel.simw, sput_args, smodify, put_inv, modify.
      eexists _, _. split; [reflexivity|]. split; [|reflexivity]. now apply simw_put_args. }
    intros w2 s2 _ _ HR2 _.
    apply sim_bind; [apply sim_get_mem|intro mem; apply sim_bind; [apply sim_lift_same|intros [mem' v]]|auto].
    apply sim_bind; [|intros _; apply sim_ret]. apply sim_modify. intros. now apply R_mem.
  - intros w s HR. pose proof HR as (own & tow & H). unfold simw, WorldRel.simw.
    unfold sbind at 1. rewrite sget_spec. destruct (live (s_mocks s) m) as [sk|] eqn:SK; [|exact I].
    destruct (Rg_table E _ _ _ _ _ _ H SK) as (k & sx & d & vt & ob & K1 & K2 & K3 & OB & OV & VT & SH & CK0 & CK1 & CK2).
    unfold sbind at 1. unfold sclass. rewrite (mr_d _ _ _ _ _ _ _ _ _ _ _ K3). unfold sopt at 1, sret at 1.
    destruct (is_dtor d slot) eqn:DT; [exact I|].
    unfold sbind at 1. rewrite smethod_spec, SK. destruct (live (sk_meths sk) slot) as [me|] eqn:ME; [|exact I].
    pose proof (live_lt _ _ _ _ ME) as LM.
    pose proof (mr_len _ _ _ _ _ _ _ _ _ _ _ K3) as LEN. rewrite map_length in LEN.
    destruct (me_bypass me) eqn:BP.
    { unfold sbind at 1. rewrite sset_bypass_spec, SK, ME, BP, andb_false_r. exact I. }
    destruct (orig_entry _ _ _ _ _ _ _ _ _ slot H SK K3) as (ot & OT & OE); [lia|].
    assert (FM : getMethod vt (Z.of_nat slot) = Def (WCode (CProxy (me_id me)))).
    { rewrite (proj2 SH) by lia. unfold cur_word. rewrite live_face, ME. cbn. now rewrite BP. }
    assert (PRE : with_original m slot
       (let* x := get_inv i in
         let* _ := if forward then
                     put_inv i (mkInv (iv_ord x) (iv_method x) (iv_ret x) (map (moved_from (e_moved E)) (iv_args x)) (iv_matcher x) (iv_verified x))
                   else ret tt in
         rec (OCall o slot (iv_args x))) w =
       (let* _ := (let* k' := get_mock m in fake_setMethod (mk_obj k') (Z.of_nat slot)
                     (init_word (sk_owner sk) (sk_class sk) d (so_class sx) slot)) in
        guarded (let* x := get_inv i in
         let* _ := if forward then
                     put_inv i (mkInv (iv_ord x) (iv_method x) (iv_ret x) (map (moved_from (e_moved E)) (iv_args x)) (iv_matcher x) (iv_verified x))
                   else ret tt in
         rec (OCall o slot (iv_args x)))
         (let* k' := get_mock m in fake_setMethod (mk_obj k') (Z.of_nat slot) (WCode (CProxy (me_id me))))) w).
    { apply (with_original_spec w m slot _ k (ob_vptr ob) vt _ ot); auto.
      rewrite (mr_obj _ _ _ _ _ _ _ _ _ _ _ K3). apply obj_table_live; rewrite ?OV; auto. }
    eapply (simw_run E) with (P := eqP); [exact PRE|reflexivity|].
    eapply simw_bind with (P := eqP).
    + apply bypass_step; auto; [discriminate|]. intros _. exists sk, k, sx, d. auto 8.
    + intros w1 s1 _ _ HR1 _. unfold guarded, sguarded.
      eapply simw_bind with (P := eqP).
      * apply simw_attempt. eapply simw_bind; [apply (simw_get_call E i); auto|]. clear w1 s1 HR1.
        intros w1 s1 x cx HR1 CP. pose proof CP as (V & C & (I1 & I2 & I3 & I4)). rewrite I3.
        eapply simw_bind with (P := eqP).
        -- destruct forward; [|now apply sim_ret]. unfold simw, WorldRel.simw, sput_args, smodify, put_inv, modify.
           eexists _, _. split; [reflexivity|]. split; [|reflexivity]. now apply simw_put_args.
        -- intros w2 s2 _ _ HR2 _. now apply Hsim.
      * intros w2 s2 r r' HR2 Q. unfold eqP in Q. subst r'. eapply simw_bind with (P := eqP).
        -- apply bypass_step; auto. discriminate.
        -- intros w3 s3 _ _ HR3 _. now apply sim_rethrow.
Qed.

(** ** Actions *)
Lemma sim_serve_call : forall f i, sim (serve E rec (SrvCall f) i) (srun_callable E srec f i).
Proof. intros. apply sim_run_callable. Qed.

Lemma sim_serve_default : forall i, sim (serve E rec SrvDefault i) (let? x := sget_call i in sdefault (ca_ret x)).
Proof.
  intros i w s HR. cbn [serve]. eapply simw_bind; [apply (simw_get_call E i); auto|]. clear w s HR.
  intros w s x cx HR (V & C & (I1 & I2 & I3 & I4)). rewrite I2. now apply sim_default.
Qed.

Lemma simw_play : forall w s m slot sk me st i, R w s -> live (s_mocks s) m = Some sk ->
  live (sk_meths sk) slot = Some me -> In st (me_stubs me) ->
  simw eqP (seq_handle E rec (st_no st) i)
    (match st_todo st with [] => sthrow XNoMore | _ => splay E srec m slot st i end) w s.
Proof.
  intros w s m slot sk me st i HR SK ME I. pose proof HR as (own & tow & H).
  destruct (stub_seq _ _ _ _ _ _ _ _ _ H SK ME I) as (q & Q1 & Q2).
  (* the common form of the model side *)
  assert (RUN : forall q' id srv, handle_begin q = Def (q', id, srv) ->
    seq_handle E rec (st_no st) i w =
    guarded (serve E rec srv i) (seq_end (st_no st) id) (set_seqs w (upd (w_seqs w) (st_no st) (mkSeq true q')))).
  { intros q' id srv HB. unfold seq_handle. unfold bind at 1. rewrite (get_seq_nth _ _ _ Q1). cbn [sq_alive sq_seq].
    unfold bind at 1. unfold lift. rewrite HB. reflexivity. }
  assert (UNC : forall a rest srv (sm : SM val), st_todo st = a :: rest -> uncounted a ->
     handle_begin q = Def (q, S (st_used st), srv) -> sim (serve E rec srv i) sm ->
     simw eqP (seq_handle E rec (st_no st) i) sm w s).
  { intros a rest srv sm TD U HB SS. rewrite TD in Q2. destruct (seq_head _ _ _ _ Q2) as (A & _).
    eapply (simw_run E); [exact (RUN _ _ _ HB)|reflexivity|]. rewrite (set_seqs_same _ _ _ Q1).
    pose proof (gp_serve E rec Hgrows srv i w) as G. unfold presw in G.
    apply guarded_nothing; [exact (fun _ _ _ _ => True)|now apply SS| |].
    - intros w' x X. rewrite X in G. eapply seq_end_nothing; eauto.
    - intros w' x X. rewrite X in G. eapply seq_end_nothing; eauto. }
  unfold splay. destruct (st_todo st) as [|a rest] eqn:TD.
  - destruct (seq_begin_empty _ _ Q2) as [HB A0].
    eapply (simw_run E) with (sm' := sthrow XNoMore); [exact (RUN _ _ _ HB)|reflexivity|]. rewrite (set_seqs_same _ _ _ Q1).
    apply guarded_nothing; [exact (fun _ _ _ _ => True)|now apply sim_throw| |].
    + intros w' x X. discriminate X.
    + intros w' x X. inversion X; subst w'. eapply seq_end_nothing; [apply grows_refl|exact Q1|exact A0|exact Logic.I].
  - destruct a as [f n|f| |f|].
    + destruct (st_busy st) eqn:BS; [exact Logic.I|]. cbn [orb]. destruct (Z.ltb_spec n 1); [exact Logic.I|].
      destruct (seq_begin_counted _ _ _ _ _ Q2) as (q' & HB & Q3); [lia|].
      assert (BA : begin_action st = Some (mkStub (st_no st) (st_cond st) (ARepeat f (n - 1) :: rest) (st_used st) true)).
      { unfold begin_action. now rewrite TD. }
      unfold simw, WorldRel.simw. unfold sbind at 1. rewrite schange_spec, SK, ME.
      destruct (replace_stub (me_stubs me) (st_no st) begin_action) as [l|] eqn:RS; [|exact Logic.I].
      rewrite (RUN _ _ _ HB).
      assert (R1 : R (set_seqs w (upd (w_seqs w) (st_no st) (mkSeq true q')))
                     (sset_mocks s (upd (s_mocks s) m (Some (set_meth sk slot (with_stubs me l)))))).
      { exists own, tow. eapply Rg_change; eauto. }
      apply (sim_guarded E _ _ _ _ _ (sim_serve_call f i) (sim_seq_end m slot (st_no st) (st_used st)) _ _ R1).
    + destruct (seq_begin_uncounted _ _ _ _ Q2 Logic.I) as (srv & HB & ->).
      eapply UNC; eauto; [exact Logic.I|apply sim_serve_call].
    + destruct (seq_begin_uncounted _ _ _ _ Q2 Logic.I) as (srv & HB & ->).
      eapply UNC; eauto; [exact Logic.I|apply sim_serve_default].
    + destruct (seq_begin_uncounted _ _ _ _ Q2 Logic.I) as (srv & HB & ->).
      eapply UNC; eauto; [exact Logic.I|apply sim_serve_call].
    + exact Logic.I.
Qed.

(** ** The search for a stubbing *)
Lemma sfind_spec : forall l args s,
  match sfind l args s with
  | SOk s' r => s' = s /\ match r with Some st => In st l | None => True end
  | SExn _ _ => False
  | SUnspec => True
  end.
Proof.
  induction l as [|st l IH]; intros args s; cbn [sfind].
  - split; auto.
  - unfold sbind, sgets, slift. destruct (im_matches_args (s_mem s) (st_cond st) args) as [[]| |]; auto.
    + split; auto. now left.
    + specialize (IH args s). destruct (sfind l args s) as [s' [st'|]| |]; auto. destruct IH. split; auto. now right.
Qed.

Lemma find_handler_spec : forall own mats seqs hs l w s args, Forall2 (stub_rel own mats seqs) hs l ->
  w_matchers w = mats -> w_mem w = s_mem s ->
  match sfind l args s with
  | SOk _ (Some st) => exists h, find_handler hs args None w = RVal w (Some h) /\ stub_rel own mats seqs h st
  | SOk _ None => find_handler hs args None w = RVal w None
  | _ => True
  end.
Proof.
  intros own mats seqs hs l w s args H WM MM. induction H as [|[mt sq] st hs l S1 H IH].
  - reflexivity.
  - pose proof S1 as (S2 & S3 & S4 & _). cbn in S2, S3, S4. rewrite <- WM in S4.
    assert (IM : im_matches (s_mem s) mt (st_cond st) None args = im_matches_args (s_mem s) (st_cond st) args)
      by (destruct (st_cond st); reflexivity).
    assert (FH : forall b, im_matches_args (s_mem s) (st_cond st) args = Def b ->
      find_handler ((mt, sq) :: hs) args None w = if b then RVal w (Some (mt, sq)) else find_handler hs args None w).
    { intros b Q. cbn [find_handler]. unfold bind. rewrite (get_matcher_live _ _ _ S4). unfold gets, lift. rewrite MM, IM, Q.
      now destruct b. }
    cbn [sfind]. unfold sbind, sgets, slift.
    destruct (im_matches_args (s_mem s) (st_cond st) args) as [[]| |]; auto; rewrite (FH _ eq_refl); auto.
    exists (mt, sq). split; [reflexivity|exact S1].
Qed.

(** ** Calls of mocked methods *)
Lemma sim_stubbed : forall m slot w s sk me args, R w s -> live (s_mocks s) m = Some sk ->
  live (sk_meths sk) slot = Some me ->
  simw eqP (handleMethodInvocation E rec (me_no me) args) (sstubbed E srec m slot args) w s.
Proof.
  intros m slot w s sk me args HR SK ME. pose proof HR as (own & tow & H).
  assert (A0 : at_ (s_mocks s) m slot me) by (exists sk; auto).
  destruct (r_bod _ _ _ _ _ H _ _ _ A0) as (bd & B1 & BR). pose proof BR as (B2 & B3 & B4 & B5).
  unfold sstubbed. eapply simw_s; [rewrite smethod_spec, SK, ME; reflexivity|].
  destruct (Z.ltb_spec (s_started s + 1) 4294967296) as [L|L].
  2:{ apply simw_u. unfold sstart, sbind, sgets. destruct (Z.ltb_spec (s_started s + 1) 4294967296); [lia|reflexivity]. }
  eapply simw_s.
  { unfold sstart, sbind, sgets. destruct (Z.ltb_spec (s_started s + 1) 4294967296); [reflexivity|lia]. }
  eapply simw_s; [reflexivity|]. eapply simw_s; [reflexivity|]. cbn [s_calls sset_started].
  set (i := length (s_calls s)).
  set (s1 := sset_calls (sset_started s (s_started s + 1)%Z) (s_calls s ++ [mkCall (me_no me) (me_ret me) args false])).
  unfold handleMethodInvocation. eapply simw_w; [apply (get_body_live _ _ _ B1)|].
  destruct (nextInvocationOrdinal w) as [w1 n|w1 e| |] eqn:NO; try discriminate NO.
  eapply simw_w; [exact NO|].
  destruct (new_inv (mkInv n (bd_id bd) (bd_ret bd) args None false) w1) as [w2 j|w2 e| |] eqn:NI; try discriminate NI.
  eapply simw_w; [exact NI|].
  rewrite B2, B3 in NI.
  destruct (sim_start_new E w s _ _ _ _ _ _ _ HR Logic.I NO NI L) as (J & R2). subst j. fold i s1 in R2 |- *.
  assert (WQ : w_matchers w2 = w_matchers w /\ w_seqs w2 = w_seqs w /\ w_bodies w2 = w_bodies w).
  { unfold nextInvocationOrdinal, bind, gets, modify, ret in NO. inversion NO; subst.
    unfold new_inv, bind, gets, modify, ret in NI. inversion NI; subst. auto. }
  destruct WQ as (WM & WS & WB).
  clear HR H NO NI w1 n tow.
  assert (SK1 : live (s_mocks s1) m = Some sk) by exact SK.
  destruct R2 as (own' & tow & H).
  destruct (r_bod _ _ _ _ _ H _ _ _ A0) as (bd' & B1' & BR'). rewrite WB in B1'. assert (bd' = bd) by congruence. subst bd'.
  pose proof BR' as (_ & _ & _ & B5').
  pose proof (find_handler_spec _ _ _ _ _ w2 s1 args B5' eq_refl (r_mem _ _ _ _ _ H)) as FH.
  pose proof (sfind_spec (me_stubs me) args s1) as FS.
  destruct (sfind (me_stubs me) args s1) as [s2 [st|]|s2 e|] eqn:SF; [| |contradiction|now apply simw_u].
  2:{ destruct FS as [-> _]. eapply simw_s; [exact SF|]. eapply simw_w; [exact FH|]. rewrite B2. apply sim_unexpected.
      exists own', tow. exact H. }
  destruct FS as [-> IN]. destruct FH as ([mt sq] & FH & SR).
  eapply simw_s; [exact SF|]. eapply simw_w; [exact FH|]. clear FH SF.
  (* recording the answer *)
  assert (CI : nth_error (s_calls s1) i = Some (mkCall (me_no me) (me_ret me) args false)) by apply nth_error_app_last.
  destruct (Rg_call E _ _ _ _ _ _ H CI) as (v & V & VR). pose proof VR as (V1 & V2 & V3 & V4).
  eapply simw_w; [apply (get_inv_nth _ _ _ V)|]. eapply simw_w; [reflexivity|]. eapply simw_w; [reflexivity|].
  eapply simw_s; [rewrite sset_method_spec, SK1; reflexivity|].
  destruct SR as (SR1 & SR2 & SR3 & SR4). cbn [fst snd] in SR1, SR2, SR3. subst sq.
  destruct (un_ctx _ _ (r_uni _ _ _ _ _ H) _ _ _ _ A0 IN) as [UN1 UN2].
  set (v' := mkInv (iv_ord v) (iv_method v) (iv_ret v) (iv_args v) (Some mt) (iv_verified v)).
  assert (H' : Rg own' tow (set_invs w2 (upd (w_invs w2) i v')) s1).
  { assert (SS : s1 = sset_calls s1 (upd (s_calls s1) i (mkCall (me_no me) (me_ret me) args false))).
    { rewrite (upd_same _ _ _ _ CI). now destruct s1. }
    rewrite SS. eapply Rg_put_inv; eauto.
    - repeat split; auto.
    - cbn. intros mt' Q. inversion Q; subst mt'. right. split; [eapply live_lt; eauto|]. rewrite SR2. auto. }
  set (me' := mkMethod (me_no me) (me_id me) (me_ret me) (me_stubs me) (me_calls me ++ [i]) (me_bypass me)).
  assert (H2 : Rg own' tow (set_bodies (set_invs w2 (upd (w_invs w2) i v'))
                   (upd (w_bodies (set_invs w2 (upd (w_invs w2) i v'))) (me_no me)
                     (Some (mkBody (bd_id bd) (bd_ret bd) (bd_handlers bd) (bd_invs bd ++ [i])))))
                 (sset_mocks s1 (upd (s_mocks s1) m (Some (set_meth sk slot me'))))).
  { eapply (Rg_method E _ _ _ s1 m sk slot me me'); eauto.
    - cbn. intros j IJ. apply in_app_iff in IJ as [IJ|[<-|[]]].
      + eapply (r_his _ _ _ _ _ H); eauto.
      + rewrite app_length. unfold i. cbn. lia.
    - split; auto. split; auto. split; [cbn; congruence|]. exact B5'. }
  match type of H2 with Rg _ _ ?W ?S => set (w3 := W) in *; set (s3 := S) in * end.
  assert (R3 : R w3 s3) by (exists own', tow; exact H2).
  assert (SK3 : live (s_mocks s3) m = Some (set_meth sk slot me')).
  { apply live_upd_in. eapply live_lt; eauto. }
  assert (ME3 : live (sk_meths (set_meth sk slot me')) slot = Some me').
  { apply live_upd_in. eapply live_lt; eauto. }
  pose proof (simw_play w3 s3 m slot _ me' st i R3 SK3 ME3 IN) as PL.
  destruct (st_todo st) as [|a rest] eqn:TD.
  - (* exhausted *)
    destruct (st_busy st); [exact I|].
    unfold simw, WorldRel.simw, sthrow in PL. destruct PL as (w4 & P1 & P2).
    assert (P1' : attempt (seq_handle E rec (st_no st) i) w3 = RVal w4 (inr XNoMore)) by (unfold attempt; now rewrite P1).
    eapply simw_w; [exact P1'|].
    pose proof P2 as (own4 & tow4 & H4).
    assert (A4 : at_ (s_mocks s3) m slot me') by (eexists; eauto).
    destruct (r_bod _ _ _ _ _ H4 _ _ _ A4) as (bd4 & B4' & _).
    eapply simw_w; [apply (get_body_live _ _ _ B4')|].
    assert (C4 : nth_error (s_calls s3) i = Some (mkCall (me_no me) (me_ret me) args false)) by exact CI.
    destruct (Rg_call E _ _ _ _ _ _ H4 C4) as (v4 & V4' & (_ & _ & V6 & _)).
    eapply simw_w; [apply (get_inv_nth _ _ _ V4')|]. rewrite V6, B2. cbn [ca_args]. now apply sim_unexpected.
  - (* played *)
    apply simw_attempt in PL. eapply simw_bind; [exact PL|].
    intros w4 s4 r r' R4 Q. unfold eqP in Q. subst r'.
    destruct r as [x|x]; [now apply sim_rethrow|]. destruct x; try now apply sim_rethrow. exact I.
Qed.

(** ** Dispatch *)
Lemma dispatch_face : forall tabs m k c o owner fill fs sx d slot no id b,
  mock_rel E tabs m k c o owner fill fs sx d -> live fs slot = Some (no, id, b) -> dispatch (mk_pt k) id = Def no.
Proof.
  intros tabs m k c o owner fill fs sx d slot no id b H F. destruct H.
  unfold dispatch, handler_by_id. rewrite mr_pt, mr_off.
  pose proof (nth_live _ _ _ _ F) as NF.
  rewrite (offset_of_unique _ _ slot).
  - rewrite nth_error_map, NF. reflexivity.
  - rewrite nth_error_map, NF. reflexivity.
  - intros j L. rewrite nth_error_map. destruct (nth_error fs j) as [[[[no' id'] b']|]|] eqn:FJ; cbn; try discriminate.
    + intro C. inversion C; subst. apply live_nth in FJ. pose proof (mr_inj _ _ _ _ _ _ _ _ FJ F eq_refl). lia.
    + intro C. inversion C; subst. eapply mr_fill; eauto.
Qed.

Lemma sim_body : forall c o slot args,
  sim (let* d := class_of E c in run_prog rec (FrStack o args) (cl_body d slot)) (sbody E srec c o slot args).
Proof.
  intros. unfold sbody. apply sim_bind; [apply sim_class|]. intro d.
  destruct (Nat.ltb slot (cl_size d)); [apply sim_run_prog|apply sim_unspec].
Qed.

Lemma sim_call : forall o slot args, sim (call_object E rec o slot args) (scall E srec o slot args).
Proof.
  intros o slot args w s HR. pose proof HR as (own & tow & H). unfold scall.
  destruct (live (s_objs s) o) as [sx|] eqn:SX; [|apply simw_u; rewrite sget_spec, SX; reflexivity].
  eapply simw_s; [rewrite sget_spec, SX; reflexivity|].
  destruct (Rg_obj E _ _ _ _ _ _ H SX) as (x & X & (O1 & O2 & O3 & O4)).
  unfold call_object.
  destruct (so_mock sx) as [m|] eqn:SM.
  - destruct O4 as (k & K & OV & MO).
    destruct (live (s_mocks s) m) as [sk|] eqn:SK; [|apply simw_u; rewrite sget_spec, SK; reflexivity].
    eapply simw_s; [rewrite sget_spec, SK; reflexivity|].
    destruct (Rg_table E _ _ _ _ _ _ H SK) as (k' & sx' & d & vt & ob & K1 & K2 & K3 & OB & OV' & VT & SH & CK0 & CK1 & CK2).
    assert (k' = k) by congruence. subst k'.
    assert (OO : o = sk_obj sk) by (rewrite <- (mr_obj _ _ _ _ _ _ _ _ _ _ _ K3); congruence). clear MO. subst o.
    assert (sx' = sx) by congruence. subst sx'. assert (ob = x) by congruence. subst ob.
    eapply simw_s; [unfold sclass; rewrite (mr_d _ _ _ _ _ _ _ _ _ _ _ K3); reflexivity|].
    destruct (Nat.ltb_spec slot (cl_size d)) as [L|L]; [|exact I].
    eapply simw_w; [apply (obj_table_live w _ x vt); rewrite ?OV'; auto|]. cbv beta iota.
    eapply simw_w; [unfold lift; rewrite (proj2 SH) by auto; reflexivity|].
    pose proof (mr_len _ _ _ _ _ _ _ _ _ _ _ K3) as LEN. rewrite map_length in LEN.
    destruct (class_fits_size _ (mr_fits _ _ _ _ _ _ _ _ _ _ _ K3)) as [_ FD].
    (* the proxy of a method *)
    assert (PX : forall i me, live (sk_meths sk) i = Some me ->
       simw eqP (run_code E rec (sk_obj sk) vt (CProxy (me_id me)) args) (sstubbed E srec m i args) w s).
    { intros i me ME. eapply (simw_run E); [|reflexivity|apply (sim_stubbed m i w s sk me args HR SK ME)].
      cbn [run_code]. unfold bind at 1, lift at 1. rewrite CK0. unfold bind at 1. rewrite (get_mock_live _ _ _ K1).
      unfold bind at 1, lift at 1.
      rewrite (dispatch_face _ _ _ _ _ _ _ _ _ _ i (me_no me) (me_id me) (me_bypass me) K3); [reflexivity|].
      now rewrite live_face, ME. }
    (* what an entry does before anything is said about it *)
    assert (INI : forall z, init_word (sk_owner sk) (sk_class sk) d (so_class sx) slot = WCode z ->
       (forall c, z <> CDtorHelper c) ->
       simw eqP (run_code E rec (sk_obj sk) vt z args) (sinitial E srec sk d sx (sk_obj sk) slot args) w s).
    { intros z IW NH. unfold init_word in IW. unfold sinitial.
      assert (UM : simw eqP (run_code E rec (sk_obj sk) vt CUnmocked args)
                     (let? _ := sstart in sunexpected E Unmocked None []) w s \/ sk_owner sk = false).
      { destruct (sk_owner sk) eqn:OW; [left|now right]. cbn [run_code]. unfold run_unmocked.
        pose proof (simw_start E w s HR) as ST. unfold simw, WorldRel.simw, sbind, bind in *.
        unfold sstart, sbind, sgets in *. destruct (s_started s + 1 <? 4294967296)%Z; [|exact I]. unfold smodify in *.
        destruct ST as (w1 & n1 & N1 & HR1 & _). rewrite N1. unfold lift. rewrite (CK1 eq_refl).
        pose proof HR1 as (own1 & tow1 & H1).
        destruct (Rg_mock E _ _ _ _ m sk H1 SK) as (k1 & _ & _ & KK & _). rewrite (get_mock_live _ _ _ KK).
        now apply sim_unexpected. }
      destruct (sk_owner sk) eqn:OW.
      - destruct UM as [UM|]; [|discriminate]. unfold is_dtor. destruct (cl_dtor d) as [j|].
        + destruct (Nat.eqb_spec slot j); [inversion IW; subst z; now apply sim_ret|].
          destruct (Nat.eqb_spec slot (S j)); [inversion IW; subst z; exfalso; eapply NH; reflexivity|].
          inversion IW; subst z. exact UM.
        + inversion IW; subst z. exact UM.
      - inversion IW; subst z. cbn [run_code]. now apply sim_body. }
    assert (WC : forall owner c oc j, exists z, init_word owner c d oc j = WCode z).
    { intros. unfold init_word. destruct owner; eauto. destruct (cl_dtor d); eauto.
      destruct (Nat.eqb j n); eauto. destruct (Nat.eqb j (S n)); eauto. }
    (* the entries that are not the second one of a destructor *)
    assert (GEN : (forall j, cl_dtor d = Some j -> slot <> S j) ->
       simw eqP (match cur_word (sk_owner sk) (sk_class sk) d (so_class sx) (map face (sk_meths sk)) slot with
                 | WCode (CDtorHelper c) =>
                     let* d0 := class_of E c in
                     match cl_dtor d0 with
                     | Some k0 =>
                         let* y := lift (dtor_helper_target Gcc vt (Z.of_nat k0)) in
                         match y with WCode z => run_code E rec (sk_obj sk) vt z args | _ => ub end
                     | None => ub
                     end
                 | WCode z => run_code E rec (sk_obj sk) vt z args
                 | _ => ub
                 end)
         (match live (sk_meths sk) slot with
          | Some me => if me_bypass me then sinitial E srec sk d sx (sk_obj sk) slot args else sstubbed E srec m slot args
          | None => sinitial E srec sk d sx (sk_obj sk) slot args
          end) w s).
    { intro NS.
      assert (NH : forall z, init_word (sk_owner sk) (sk_class sk) d (so_class sx) slot = WCode z -> forall c, z <> CDtorHelper c).
      { intros z IW c ->. unfold init_word in IW. destruct (sk_owner sk); [|discriminate].
        destruct (cl_dtor d) as [j|]; [|discriminate]. destruct (Nat.eqb slot j); [discriminate|].
        destruct (Nat.eqb_spec slot (S j)); [|discriminate]. eapply NS; eauto. }
      assert (INI' : simw eqP (match init_word (sk_owner sk) (sk_class sk) d (so_class sx) slot with
                 | WCode (CDtorHelper c) =>
                     let* d0 := class_of E c in
                     match cl_dtor d0 with
                     | Some k0 =>
                         let* y := lift (dtor_helper_target Gcc vt (Z.of_nat k0)) in
                         match y with WCode z => run_code E rec (sk_obj sk) vt z args | _ => ub end
                     | None => ub
                     end
                 | WCode z => run_code E rec (sk_obj sk) vt z args
                 | _ => ub
                 end) (sinitial E srec sk d sx (sk_obj sk) slot args) w s).
      { destruct (WC (sk_owner sk) (sk_class sk) (so_class sx) slot) as (z & IW).
        pose proof (NH z IW) as NZ. pose proof (INI z IW NZ) as XI. rewrite IW.
        destruct z; try exact XI. exfalso. eapply NZ; reflexivity. }
      unfold cur_word. rewrite live_face. destruct (live (sk_meths sk) slot) as [me|] eqn:ME; cbn [face].
      - destruct (me_bypass me); [exact INI'|]. now apply PX.
      - destruct (cl_dtor d) as [j|] eqn:D; [|exact INI'].
        destruct (Nat.eqb_spec slot (S j)); [exfalso; eapply NS; eauto|exact INI']. }
    unfold entry_method. destruct (cl_dtor d) as [j|] eqn:D.
    2:{ apply GEN. discriminate. }
    destruct (Nat.eqb_spec slot (S j)) as [->|NJ].
    2:{ apply GEN. intros j' Q. inversion Q; subst. exact NJ. }
    clear GEN. pose proof (mr_dtor _ _ _ _ _ _ _ _ _ _ _ K3 j D) as M1.
    pose proof (fun no id => mr_bypass _ _ _ _ _ _ _ _ _ _ _ K3 j no id D) as M2.
    assert (GJ : getMethod vt (Z.of_nat j) = Def (cur_word (sk_owner sk) (sk_class sk) d (so_class sx) (map face (sk_meths sk)) j)).
    { apply SH. lia. }
    assert (SJ : cur_word (sk_owner sk) (sk_class sk) d (so_class sx) (map face (sk_meths sk)) (S j) =
       match live (sk_meths sk) j with Some _ => WCode (CDtorHelper (sk_class sk))
       | None => init_word (sk_owner sk) (sk_class sk) d (so_class sx) (S j) end).
    { unfold cur_word. rewrite M1, D, Nat.eqb_refl, live_face. destruct (live (sk_meths sk) j); reflexivity. }
    rewrite SJ. rewrite live_face in M2. unfold cur_word in GJ. rewrite live_face in GJ. clear SJ.
    destruct (live (sk_meths sk) j) as [me|] eqn:ME; cbn [face] in *.
    + destruct (me_bypass me) eqn:BP; [exfalso; eapply M2; reflexivity|].
      eapply simw_w; [unfold class_of; rewrite (mr_d _ _ _ _ _ _ _ _ _ _ _ K3); reflexivity|]. rewrite D.
      eapply simw_w; [unfold lift, dtor_helper_target; rewrite GJ; reflexivity|]. now apply PX.
    + destruct (sk_owner sk) eqn:OW.
      * unfold init_word at 1. rewrite D. destruct (Nat.eqb_spec (S j) j); [lia|]. rewrite Nat.eqb_refl.
        eapply simw_w; [unfold class_of; rewrite (mr_d _ _ _ _ _ _ _ _ _ _ _ K3); reflexivity|]. rewrite D.
        eapply simw_w; [unfold lift, dtor_helper_target; rewrite GJ, D; reflexivity|].
        destruct (Nat.eqb_spec j (S j)); [lia|]. unfold init_word. rewrite D, Nat.eqb_refl.
        unfold sinitial, is_dtor. rewrite OW, D, Nat.eqb_refl, orb_true_r. now apply sim_ret.
      * apply (INI (COrig (so_class sx) (S j))); [reflexivity|discriminate].
  - destruct (nth_error (e_classes E) (so_class sx)) as [dx|] eqn:DX.
    2:{ apply simw_u. unfold sclass. now rewrite DX. }
    eapply simw_w; [apply (obj_table_live w _ x (class_table (so_class sx) dx)); [auto|rewrite O4; apply (r_cls _ _ _ _ _ H _ _ DX)]|].
    unfold sbody. eapply simw_s; [unfold sclass; rewrite DX; reflexivity|].
    destruct (Nat.ltb_spec slot (cl_size dx)) as [L|L]; [|exact I]. cbv beta iota.
    eapply simw_w; [unfold lift; rewrite getMethod_class_table by auto; reflexivity|]. cbn [run_code].
    eapply simw_w; [unfold class_of; rewrite DX; reflexivity|]. now apply sim_run_prog.
Qed.

End Open.
End D.
