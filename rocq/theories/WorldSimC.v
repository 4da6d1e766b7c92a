(** The simulation, part C: method expressions and stubbings. *)
From Coq Require Import Bool ZArith Lia List Permutation.
From Verif Require Import Base CInt Values ArgMatchers InvMatchers ActionSeq Sequences MatchAnalysis
  SortInv VTable Spec_Layout VTableProofs Proxy ProxyProofs Events Expectation ReturnSet Ordinals Syntax World Spec_World
  WorldLogic WorldRel WorldSimA WorldSimB.
Import ListNotations.
Open Scope nat_scope.

(** ** Frames *)
Lemma BOD_frame : forall own own' bodies mats mats' seqs seqs' sm, BOD own bodies mats seqs sm ->
  (forall m slot me st, at_ sm m slot me -> In st (me_stubs me) ->
     nth_error seqs' (st_no st) = nth_error seqs (st_no st) /\
     forall i x, own i = st_no st -> live mats i = Some x -> own' i = st_no st /\ live mats' i = Some x) ->
  BOD own' bodies mats' seqs' sm.
Proof.
  intros own own' bodies mats mats' seqs seqs' sm H F m slot me A.
  destruct (H m slot me A) as (bd & B1 & B2 & B3 & B4 & B5). exists bd. split; auto.
  repeat (split; [auto|]).
  assert (G : forall st, In st (me_stubs me) -> forall h, stub_rel own mats seqs h st -> stub_rel own' mats' seqs' h st).
  { intros st I h (S1 & S2 & S3 & q & S4 & S5). destruct (F m slot me st A I) as [F1 F2].
    destruct (F2 _ _ S2 S3) as [F3 F4]. split; auto. split; auto. split; auto. exists q. rewrite F1. auto. }
  revert G B5. generalize (rev (bd_handlers bd)) (me_stubs me). intros hs l G X. induction X; constructor.
  - apply G; auto. now left.
  - apply IHX. intros st I. apply G. now right.
Qed.

Lemma CTX_frame : forall own own' ctxs mats mats' seqs seqs' sctxs c x' sx',
  CTX own ctxs mats seqs sctxs -> c < length sctxs -> length seqs' = length sctxs ->
  match x', sx' with Some x, Some sx => ctx_rel own' mats' seqs' c x sx | None, None => True | _, _ => False end ->
  (forall c', c' <> c -> nth_error seqs' c' = nth_error seqs c' /\
     forall i y, own i = c' -> live mats i = Some y -> own' i = c' /\ live mats' i = Some y) ->
  CTX own' (upd ctxs c x') mats' seqs' (upd sctxs c sx').
Proof.
  intros own own' ctxs mats mats' seqs seqs' sctxs c x' sx' (L1 & L2 & H) LC LS HN F.
  split; [now rewrite !upd_length|]. split; [now rewrite upd_length|].
  intro c'. rewrite !live_upd by lia. destruct (Nat.eqb_spec c c') as [->|N]; [exact HN|].
  specialize (H c'). destruct (live ctxs c') as [x|], (live sctxs c') as [sx|]; auto.
  destruct H as (H1 & H2 & H3 & H4). split; auto. split; auto. split; auto. intro C.
  destruct (H4 C) as (O & M & q & Q1 & Q2). destruct (F c') as [F1 F2]; auto.
  destruct (F2 _ _ O M). split; auto. split; auto. exists q. rewrite F1. auto.
Qed.

Lemma UNI_ctxs : forall sm cx cx', UNI sm cx -> length cx <= length cx' ->
  (forall c, c < length cx -> unused cx' c -> unused cx c) -> UNI sm cx'.
Proof.
  intros sm cx cx' [U1 U2 U3 U4] L H. constructor; auto.
  intros m slot me st A I. destruct (U4 m slot me st A I) as [X Y]. split; [lia|]. intro. apply Y. auto.
Qed.

Lemma IDN_ctxs : forall own own' invs n n' cx cx', IDN own invs n cx -> n <= n' ->
  (forall i, i < n -> own' i = own i) -> length cx <= length cx' ->
  (forall c, c < length cx -> unused cx' c -> unused cx c) -> IDN own' invs n' cx'.
Proof.
  intros own own' invs n n' cx cx' H L1 O L2 U i v mt V M. destruct (H i v mt V M) as (A & B & C).
  rewrite O by auto. repeat split; try lia. intro. apply C. auto.
Qed.

Lemma unused_upd : forall cx c x c', c < length cx -> unused (upd cx c x) c' ->
  (c' = c /\ exists y, x = Some y /\ sx_committed y = false) \/ (c' <> c /\ unused cx c').
Proof.
  intros cx c x c' L (y & Y1 & Y2). rewrite live_upd in Y1 by auto.
  destruct (Nat.eqb_spec c c') as [->|N]; [left; eauto|right; split; [auto|exists y; auto]].
Qed.

(** ** Sequences *)
Lemma seq_new_rel : seq_rel aseq_new 0 [].
Proof. exists []. repeat split. Qed.

Lemma seq_append_rel : forall q used todo a, seq_rel q used todo ->
  exists q', append q a = Def q' /\ seq_rel q' used (todo ++ [a]).
Proof.
  intros q used todo a (pre & P1 & P2 & P3). unfold append. rewrite P3, rev_unit.
  eexists. split; [reflexivity|]. exists pre. split; auto. cbn [as_acts as_recorded]. split.
  - rewrite P2. cbn. now rewrite <- app_assoc.
  - rewrite rev_involutive, P2. cbn. rewrite !app_length. cbn [length]. rewrite Nat.add_1_r, seq_S.
    rewrite <- app_assoc. cbn. rewrite P1. reflexivity.
Qed.

Section C.
Variable E : env.
Local Notation R := (R E).
Local Notation Rg := (Rg E).
Local Notation sim := (sim E).
Local Notation simw := (simw E).

(** ** Creation and release *)
Lemma sim_ctx_free : forall c, sim (ctx_free c) (sctx_free c).
Proof.
  intros c w s (own & tow & H). unfold simw, WorldRel.simw, sctx_free. unfold sbind. rewrite sget_spec.
  destruct (live (s_ctxs s) c) as [sx|] eqn:SX; [|exact I]. unfold smodify.
  destruct (Rg_ctx E _ _ _ _ _ _ H SX) as (x & X & (C1 & C2 & C3 & C4)).
  pose proof (live_lt _ _ _ _ SX) as LT.
  unfold ctx_free. unfold bind at 1. rewrite (get_ctx_live _ _ _ X). unfold bind at 1. unfold modify at 1.
  assert (UN : forall c', c' < length (s_ctxs s) -> unused (upd (s_ctxs s) c None) c' -> unused (s_ctxs s) c').
  { intros c' _ U. destruct (unused_upd _ _ _ _ LT U) as [(-> & y & Y & _)|[_ U']]; [discriminate|auto]. }
  destruct (cx_committed x) eqn:CM.
  - unfold ret. eexists _, _. split; [reflexivity|]. split; [|reflexivity]. exists own, tow.
    destruct H; constructor; cbn; auto.
    + eapply UNI_ctxs; eauto. now rewrite upd_length.
    + eapply CTX_frame; eauto. apply r_ctx.
    + eapply IDN_ctxs; eauto. now rewrite upd_length.
  - destruct C4 as (O & M & q & Q1 & Q2); [congruence|].
    unfold free_seq. unfold bind at 1. unfold bind at 1. rewrite C3.
    rewrite (get_seq_nth (set_ctxs w (upd (w_ctxs w) c None)) c _ Q1). cbn [sq_alive].
    unfold put_seq, modify. unfold free_matcher. unfold bind.
    match goal with |- context [get_matcher _ ?W] => rewrite (get_matcher_live W _ _ M) end. unfold modify.
    eexists _, _. split; [reflexivity|]. split; [|reflexivity]. exists own, tow.
    assert (US : unused (s_ctxs s) c) by (exists sx; split; [auto|congruence]).
    assert (LM : cx_matcher x < length (w_matchers w)) by (eapply live_lt; eauto).
    destruct H; constructor; cbn; auto.
    + eapply BOD_frame; eauto. intros m slot me st A I.
      destruct (un_ctx _ _ r_uni _ _ _ _ A I) as [_ NU]. split.
      * apply nth_error_upd_other. intros ->. auto.
      * intros i y Oi Mi. split; auto. rewrite live_upd_out; auto. intros <-. apply NU. rewrite <- Oi, O. auto.
    + eapply UNI_ctxs; eauto. now rewrite upd_length.
    + eapply CTX_frame; eauto.
      * rewrite upd_length. apply r_ctx.
      * intros c' N. split; [apply nth_error_upd_other; congruence|]. intros i y Oi Mi. split; auto.
        rewrite live_upd_out; auto. intros <-. congruence.
    + eapply IDN_ctxs; eauto; rewrite ?upd_length; auto.
Qed.

Lemma sim_ctx_new : forall t, sim (ctx_new E t) (sctx_new E t).
Proof.
  intros t w s HR. unfold ctx_new, sctx_new.
  eapply simw_bind; [apply simw_get_mock; auto|]. clear w s HR. intros w s k sk HR _.
  (* the new context *)
  destruct HR as (own & tow & H).
  pose proof (r_ctx _ _ _ _ _ H) as (L1 & L2 & CX).
  set (c := length (s_ctxs s)).
  set (w1 := set_ctxs (set_matchers (set_seqs w (w_seqs w ++ [mkSeq true aseq_new])) (w_matchers w ++ [Some IMDefault]))
               (w_ctxs w ++ [Some (mkCtx t (length (w_seqs w)) (length (w_matchers w)) false)])).
  set (s1 := sset_ctxs s (s_ctxs s ++ [Some (mkSctx t IMDefault [] false)])).
  assert (R1 : R w1 s1).
  { exists (fun i => if Nat.eqb i (length (w_matchers w)) then c else own i), tow.
    assert (UN : forall c', c' < length (s_ctxs s) -> unused (s_ctxs s ++ [Some (mkSctx t IMDefault [] false)]) c' -> unused (s_ctxs s) c').
    { intros c' L (y & Y1 & Y2). rewrite live_app in Y1. destruct (Nat.eqb_spec c' (length (s_ctxs s))); [lia|]. exists y. auto. }
    assert (FR : forall c' i x, c' < length (s_ctxs s) -> own i = c' -> live (w_matchers w) i = Some x ->
      (if Nat.eqb i (length (w_matchers w)) then c else own i) = c' /\ live (w_matchers w ++ [Some IMDefault]) i = Some x).
    { intros c' i x L O M. pose proof (live_lt _ _ _ _ M). rewrite live_app.
      destruct (Nat.eqb_spec i (length (w_matchers w))); [lia|]. auto. }
    destruct H; constructor; cbn; auto.
    - eapply BOD_frame; [exact r_bod|]. intros m slot me st A I.
      destruct (un_ctx _ _ r_uni _ _ _ _ A I) as [LN _]. split; [apply nth_error_app1; lia|]. eauto.
    - eapply UNI_ctxs; eauto. rewrite app_length. lia.
    - split; [rewrite !app_length; cbn; lia|]. split; [rewrite !app_length; cbn; lia|].
      intro c'. rewrite !live_app, L1. destruct (Nat.eqb_spec c' (length (s_ctxs s))) as [->|N].
      + split; [reflexivity|]. split; [reflexivity|]. split; [exact L2|]. intros _. cbn. rewrite Nat.eqb_refl.
        split; [reflexivity|]. rewrite live_app, Nat.eqb_refl. split; auto. exists aseq_new.
        rewrite <- L2, nth_error_app_last. split; auto. apply seq_new_rel.
      + specialize (CX c'). destruct (live (w_ctxs w) c') as [x|], (live (s_ctxs s) c') as [sx|] eqn:SX; auto.
        pose proof (live_lt _ _ _ _ SX).
        destruct CX as (H1 & H2 & H3 & H4). split; auto. split; auto. split; auto. intro C.
        destruct (H4 C) as (O & M & q & Q1 & Q2). destruct (FR c' _ _ H O M) as [F1 F2].
        split; auto. split; auto. exists q. split; auto. rewrite nth_error_app1; auto. lia.
    - eapply IDN_ctxs; eauto; rewrite ?app_length; cbn; try lia.
      intros i L. destruct (Nat.eqb_spec i (length (w_matchers w))); [lia|auto]. }
  assert (SN : simw (@eqP nat)
     (let* r := attempt (getRecordedMethodBody E t) in
      match r with inl _ => ret c | inr e => let* _ := ctx_free c in throw e end)
     (let? r := sattempt (smention E t) in
      match r with inl _ => sret c | inr e => let? _ := sctx_free c in sthrow e end) w1 s1).
  { eapply simw_bind with (P := fun _ _ a b => match a, b with inl _, inl _ => True | inr e, inr e' => e = e' | _, _ => False end).
    - pose proof (simw_mention E t w1 s1 R1) as SM. unfold simw, WorldRel.simw, attempt, sattempt in *.
      destruct (smention E t s1) as [s' p|s' e|]; auto.
      + destruct SM as (w' & a & M1 & M2 & _). rewrite M1. eauto.
      + destruct SM as (w' & M1 & M2). rewrite M1. eauto.
    - intros w' s' [a|e] [p|e'] R' P; try contradiction.
      + now apply sim_ret.
      + subst e'. apply (sim_bind E _ _ _ _ _ _ (sim_ctx_free c) (fun _ => sim_throw E _ e)); auto. }
  eapply simw_run; [| |exact SN].
  - unfold new_seq, new_matcher, new_ctx, bind, gets, modify, ret. cbn [w_ctxs set_matchers set_seqs w_matchers].
    rewrite L1. reflexivity.
  - reflexivity.
Qed.

Lemma sctx_unused_spec : forall c s,
  sctx_unused c s = match live (s_ctxs s) c with
                    | Some x => if sx_committed x then SUnspec else SOk s x
                    | None => SUnspec
                    end.
Proof.
  intros. unfold sctx_unused, sbind. rewrite sget_spec. destruct (live (s_ctxs s) c) as [x|]; auto.
  destruct (sx_committed x); reflexivity.
Qed.

Lemma sim_ctx_cond : forall c im, sim (ctx_cond c im) (sctx_cond c im).
Proof.
  intros c im w s (own & tow & H). unfold simw, WorldRel.simw, sctx_cond. unfold sbind. rewrite sctx_unused_spec.
  destruct (live (s_ctxs s) c) as [sx|] eqn:SX; [|exact I]. destruct (sx_committed sx) eqn:SC; [exact I|].
  unfold sput_ctx, smodify.
  destruct (Rg_ctx E _ _ _ _ _ _ H SX) as (x & X & (C1 & C2 & C3 & C4)).
  destruct (C4 SC) as (O & M & q & Q1 & Q2).
  pose proof (live_lt _ _ _ _ SX) as LT. pose proof (live_lt _ _ _ _ M) as LM.
  unfold ctx_cond, new_matcher. unfold bind at 1. unfold bind at 1. unfold gets at 1. unfold bind at 1.
  unfold modify at 1, ret at 1. unfold bind at 1.
  rewrite (get_ctx_live (set_matchers w (w_matchers w ++ [Some im])) c x X).
  unfold free_matcher. unfold bind at 1. unfold bind at 1.
  rewrite (get_matcher_live (set_matchers w (w_matchers w ++ [Some im])) (cx_matcher x) (sx_cond sx)).
  2:{ cbn. rewrite live_app. destruct (Nat.eqb_spec (cx_matcher x) (length (w_matchers w))); [lia|auto]. }
  unfold modify, put_ctx, modify. eexists _, _. split; [reflexivity|]. split; [|reflexivity].
  assert (UN : forall c', c' < length (s_ctxs s) ->
     unused (upd (s_ctxs s) c (Some (mkSctx (sx_target sx) im (sx_todo sx) false))) c' -> unused (s_ctxs s) c').
  { intros c' _ U. destruct (unused_upd _ _ _ _ LT U) as [(-> & y & Y & _)|[_ U']]; [exists sx; auto|auto]. }
  assert (US : unused (s_ctxs s) c) by (exists sx; split; [auto|congruence]).
  exists (fun i => if Nat.eqb i (length (w_matchers w)) then c else own i), tow. cbn.
  assert (FR : forall c' i y, c' <> c -> own i = c' -> live (w_matchers w) i = Some y ->
      (if Nat.eqb i (length (w_matchers w)) then c else own i) = c' /\
      live (upd (w_matchers w ++ [Some im]) (cx_matcher x) None) i = Some y).
  { intros c' i y N Oi Mi. pose proof (live_lt _ _ _ _ Mi).
    destruct (Nat.eqb_spec i (length (w_matchers w))); [lia|]. split; auto.
    rewrite live_upd_out by (intros <-; congruence). rewrite live_app.
    destruct (Nat.eqb_spec i (length (w_matchers w))); [lia|auto]. }
  destruct H; constructor; cbn; auto.
  - eapply BOD_frame; [exact r_bod|]. intros m slot me st A I.
    destruct (un_ctx _ _ r_uni _ _ _ _ A I) as [_ NU]. split; auto. intros i y Oi Mi.
    apply FR; auto. intros Q. apply NU. now rewrite Q.
  - eapply UNI_ctxs; eauto. now rewrite upd_length.
  - eapply CTX_frame; eauto; [apply r_ctx|].
    split; [auto|]. split; [cbn; congruence|]. split; [auto|]. intros _. cbn. rewrite Nat.eqb_refl. split; auto.
    split; [|exists q; auto].
    rewrite live_upd_out by lia. now rewrite live_app, Nat.eqb_refl.
  - eapply IDN_ctxs; eauto; rewrite ?upd_length, ?app_length; cbn; try lia.
    intros i L. destruct (Nat.eqb_spec i (length (w_matchers w))); [lia|auto].
Qed.

Lemma sim_ctx_append : forall c a, sim (ctx_append c a) (sctx_append c a).
Proof.
  intros c a w s (own & tow & H). unfold simw, WorldRel.simw, sctx_append. unfold sbind. rewrite sctx_unused_spec.
  destruct (live (s_ctxs s) c) as [sx|] eqn:SX; [|exact I]. destruct (sx_committed sx) eqn:SC; [exact I|].
  unfold sput_ctx, smodify.
  destruct (Rg_ctx E _ _ _ _ _ _ H SX) as (x & X & (C1 & C2 & C3 & C4)).
  destruct (C4 SC) as (O & M & q & Q1 & Q2).
  pose proof (live_lt _ _ _ _ SX) as LT.
  destruct (seq_append_rel q 0 (sx_todo sx) a Q2) as (q' & A1 & A2).
  unfold ctx_append. unfold bind at 1. rewrite (get_ctx_live _ _ _ X). unfold bind at 1. rewrite C3.
  rewrite (get_seq_nth _ _ _ Q1). cbn [sq_alive sq_seq]. unfold bind. unfold lift. rewrite A1. unfold put_seq, modify.
  eexists _, _. split; [reflexivity|]. split; [|reflexivity].
  assert (UN : forall c', c' < length (s_ctxs s) ->
     unused (upd (s_ctxs s) c (Some (mkSctx (sx_target sx) (sx_cond sx) (sx_todo sx ++ [a]) false))) c' -> unused (s_ctxs s) c').
  { intros c' _ U. destruct (unused_upd _ _ _ _ LT U) as [(-> & y & Y & _)|[_ U']]; [exists sx; auto|auto]. }
  assert (US : unused (s_ctxs s) c) by (exists sx; split; [auto|congruence]).
  exists own, tow. pose proof (r_ctx _ _ _ _ _ H) as (L1 & L2 & CX).
  destruct H; constructor; cbn; auto.
  - eapply BOD_frame; [exact r_bod|]. intros m slot me st A I.
    destruct (un_ctx _ _ r_uni _ _ _ _ A I) as [_ NU]. split; auto. apply nth_error_upd_other. intros Q. apply NU. now rewrite <- Q.
  - eapply UNI_ctxs; eauto. now rewrite upd_length.
  - (* the context itself is not written *)
    rewrite <- (upd_same _ (w_ctxs w) c (Some x)) by (now apply nth_live).
    eapply CTX_frame; eauto.
    + now rewrite upd_length.
    + split; [auto|]. split; [cbn; congruence|]. split; [auto|]. intros _. split; auto. split; auto.
      exists q'. rewrite nth_error_upd_same by lia. auto.
    + intros c' N. split; [apply nth_error_upd_other; congruence|auto].
  - eapply IDN_ctxs; eauto. now rewrite upd_length.
Qed.

(** A method whose face does not change. *)
Lemma MCK_face : forall tabs mocks smocks sobjs m sk slot me0 me, MCK E tabs mocks smocks sobjs ->
  live smocks m = Some sk -> live (sk_meths sk) slot = Some me0 -> face (Some me) = face (Some me0) ->
  MCK E tabs mocks (upd smocks m (Some (set_meth sk slot me))) sobjs.
Proof.
  intros tabs mocks smocks sobjs m sk slot me0 me (L & H) SK ME F. pose proof (live_lt _ _ _ _ SK) as LT.
  split; [now rewrite upd_length|]. intro m'. rewrite live_upd by auto. specialize (H m').
  destruct (Nat.eqb_spec m m') as [->|N]; [|exact H]. rewrite SK in H.
  destruct (live mocks m') as [k|]; [|contradiction]. destruct H as (sx & d & H1 & H2). exists sx, d. split; [exact H1|].
  cbn [set_meth sk_class sk_obj sk_owner sk_fill sk_meths]. rewrite map_upd, F, <- map_upd.
  rewrite (upd_same _ (sk_meths sk) slot (Some me0)) by (now apply nth_live). exact H2.
Qed.

Lemma CNT_upd : forall bodies mord sm sm' n b x, CNT bodies mord sm n -> CNT (upd bodies b x) mord sm' n.
Proof. intros bodies mord sm sm' n b x (H1 & H2 & H3). split; [now rewrite upd_length|]. auto. Qed.

Lemma at_neq : forall sm cx m slot me m' slot' me', UNI sm cx -> at_ sm m slot me -> at_ sm m' slot' me' ->
  ~ (m' = m /\ slot' = slot) -> me_no me' <> me_no me.
Proof. intros sm cx m slot me m' slot' me' U A A' N C. apply N. eapply un_no; eauto. Qed.

(** A method changes: its stubbings keep their numbers. *)
Lemma Rg_method : forall own tow w s m sk slot me0 me bd,
  Rg own tow w s -> live (s_mocks s) m = Some sk -> live (sk_meths sk) slot = Some me0 ->
  face (Some me) = face (Some me0) -> map st_no (me_stubs me) = map st_no (me_stubs me0) ->
  (forall i, In i (me_calls me) -> i < length (s_calls s)) ->
  body_rel own (w_matchers w) (w_seqs w) bd me ->
  Rg own tow (set_bodies w (upd (w_bodies w) (me_no me0) (Some bd)))
    (sset_mocks s (upd (s_mocks s) m (Some (set_meth sk slot me)))).
Proof.
  intros own tow w s m sk slot me0 me bd H SK ME F N HC HB.
  assert (A0 : at_ (s_mocks s) m slot me0) by (exists sk; auto).
  destruct (r_bod _ _ _ _ _ H _ _ _ A0) as (bd0 & B1 & _). apply live_lt in B1.
  pose proof (live_lt _ _ _ _ ME) as LM. assert (F1 : me_no me = me_no me0) by (cbn in F; congruence).
  pose proof (r_ord _ _ _ _ _ H) as O.
  destruct H; constructor; cbn; auto.
  - eapply MCK_face; eauto.
  - rewrite <- F1. apply BOD_set; auto; [now rewrite F1|].
    intros m' slot' me' NN A'. rewrite F1. eapply at_neq; eauto.
  - eapply UNI_set_same; eauto.
  - eapply CNT_upd; eauto.
  - apply HIS_set; auto.
Qed.

Lemma smethod_spec : forall m slot s,
  smethod m slot s = match live (s_mocks s) m with
                     | Some k => match live (sk_meths k) slot with Some me => SOk s me | None => SUnspec end
                     | None => SUnspec
                     end.
Proof.
  intros. unfold smethod, sbind. rewrite sget_spec. destruct (live (s_mocks s) m) as [k|]; auto.
  unfold sopt. destruct (live (sk_meths k) slot); reflexivity.
Qed.

Lemma sset_method_spec : forall m slot me s,
  sset_method m slot me s = match live (s_mocks s) m with
                            | Some k => SOk (sset_mocks s (upd (s_mocks s) m (Some (set_meth k slot me)))) tt
                            | None => SUnspec
                            end.
Proof.
  intros. unfold sset_method, sbind. rewrite sget_spec. destruct (live (s_mocks s) m) as [k|]; auto.
Qed.

Definition ctxP (c : nat) (w : world) (s : sworld) (x : ctx) (sx : sctx) : Prop :=
  live (w_ctxs w) c = Some x /\ live (s_ctxs s) c = Some sx /\ cx_target x = sx_target sx.
Definition freshP (c : nat) (w : world) (s : sworld) (x : ctx) (sx : sctx) : Prop :=
  ctxP c w s x sx /\ sx_committed sx = false.
Lemma simw_get_unused : forall c w s, R w s -> simw (freshP c) (get_ctx c) (sctx_unused c) w s.
Proof.
  intros c w s (own & tow & H). unfold simw, WorldRel.simw. rewrite sctx_unused_spec.
  destruct (live (s_ctxs s) c) as [sx|] eqn:SX; [|exact I]. destruct (sx_committed sx) eqn:SC; [exact I|].
  destruct (Rg_ctx E _ _ _ _ _ _ H SX) as (x & X & (C1 & _)). rewrite (get_ctx_live _ _ _ X).
  exists w, x. split; auto. split; [exists own, tow; auto|]. split; [split; auto|exact SC].
Qed.
Lemma simw_get_ctx : forall c w s, R w s -> simw (ctxP c) (get_ctx c) (sget s_ctxs c) w s.
Proof.
  intros c w s (own & tow & H). unfold simw, WorldRel.simw. rewrite sget_spec.
  destruct (live (s_ctxs s) c) as [sx|] eqn:SX; [|exact I].
  destruct (Rg_ctx E _ _ _ _ _ _ H SX) as (x & X & (C1 & _)). rewrite (get_ctx_live _ _ _ X).
  exists w, x. split; auto. split; [exists own, tow; auto|]. split; auto.
Qed.

Lemma sim_ctx_commit : forall c, sim (ctx_commit E c) (sctx_commit E c).
Proof.
  intros c w0 s0 HR. unfold ctx_commit, sctx_commit.
  eapply simw_bind; [apply (simw_get_unused c); auto|]. clear w0 s0 HR.
  intros w0 s0 x sx HR ((X0 & SX0 & T0) & SC). rewrite T0.
  eapply simw_bind; [apply simw_mention; auto|]. clear HR.
  intros w s b [m slot] (own & tow & H) ((me & (sk & SK & ME) & NO) & WC & SCX). cbn [fst snd] in *.
  unfold simw, WorldRel.simw. unfold sbind at 1. rewrite smethod_spec, SK, ME. unfold sbind. rewrite sset_method_spec, SK.
  unfold sput_ctx, smodify. cbn [s_ctxs sset_mocks].
  assert (SX : live (s_ctxs s) c = Some sx) by congruence.
  assert (X : live (w_ctxs w) c = Some x) by congruence.
  destruct (Rg_ctx E _ _ _ _ _ _ H SX) as (x' & X' & (C1 & C2 & C3 & C4)). assert (x' = x) by congruence. subst x'.
  destruct (C4 SC) as (O & M & q & Q1 & Q2).
  pose proof (live_lt _ _ _ _ SX) as LT. pose proof (live_lt _ _ _ _ ME) as LM.
  assert (A0 : at_ (s_mocks s) m slot me) by (exists sk; auto).
  destruct (r_bod _ _ _ _ _ H _ _ _ A0) as (bd & B1 & B2). pose proof (live_lt _ _ _ _ B1) as LB.
  unfold bind at 1. rewrite <- NO. rewrite (get_body_live _ _ _ B1). unfold put_body, put_ctx, bind, modify.
  eexists _, _. split; [reflexivity|]. split; [|reflexivity].
  set (st := mkStub c (sx_cond sx) (sx_todo sx) 0 false).
  set (me' := mkMethod (me_no me) (me_id me) (me_ret me) (st :: me_stubs me) (me_calls me) (me_bypass me)).
  assert (US : unused (s_ctxs s) c) by (exists sx; split; [auto|congruence]).
  assert (UN : forall c', c' < length (s_ctxs s) ->
     unused (upd (s_ctxs s) c (Some (mkSctx (sx_target sx) (sx_cond sx) (sx_todo sx) true))) c' -> unused (s_ctxs s) c').
  { intros c' _ U. destruct (unused_upd _ _ _ _ LT U) as [(-> & y & Y & _)|[_ U']]; auto. }
  assert (NS : forall m' slot' me1 st', at_ (s_mocks s) m' slot' me1 -> In st' (me_stubs me1) -> st_no st' <> c).
  { intros m' slot' me1 st' A I Q. destruct (un_ctx _ _ (r_uni _ _ _ _ _ H) _ _ _ _ A I) as [_ NU]. apply NU. now rewrite Q. }
  exists own, tow. destruct H; constructor; cbn; auto.
  - eapply MCK_face; eauto.
  - apply (BOD_set _ _ _ _ _ _ _ _ me'); auto.
    + intros m' slot' me1 NN A'. apply (at_neq _ _ _ _ _ _ _ _ r_uni A0 A' NN).
    + destruct B2 as (B2 & B3 & B4 & B5). split; auto. split; auto. split; auto. cbn [bd_handlers me_stubs me'].
      rewrite rev_unit. constructor; auto. split; [auto|]. split; [auto|]. split; [auto|]. exists q. auto.
  - apply UNI_set; auto.
    + eapply UNI_ctxs; eauto. now rewrite upd_length.
    + intros m' slot' me1 NN A'. apply (at_neq _ _ _ _ _ _ _ _ r_uni A0 A' NN).
    + cbn. constructor; [|eapply un_nodup; eauto]. intro I. apply in_map_iff in I as (st' & I1 & I2).
      eapply NS; eauto.
    + rewrite upd_length. intros st' [<-|I].
      * cbn. split; auto. intro U. destruct (unused_upd _ _ _ _ LT U) as [(_ & y & Y & YC)|[NC _]]; [|auto].
        inversion Y; subst y. discriminate.
      * destruct (un_ctx _ _ r_uni _ _ _ _ A0 I) as [U1 U2]. split; auto.
    + intros st1 m' slot' me1 st2 [<-|I1] NN A' I2.
      * cbn. intro Q. eapply NS; eauto.
      * intro Q. apply NN. destruct (un_stub _ _ r_uni _ _ _ _ _ _ _ _ A0 A' I1 I2 Q). auto.
  - eapply CTX_frame; eauto; [apply r_ctx|]. split; auto.
  - eapply IDN_ctxs; eauto. now rewrite upd_length.
  - eapply CNT_upd; eauto.
  - apply HIS_set; auto. intros i I. eapply r_his; eauto.
Qed.

(** ** Stubbing statements *)
Lemma sim_append_all : forall c rs, sim (append_all c rs) (sappend_all c rs).
Proof.
  intro c. induction rs as [|r rs IH]; [apply sim_ret|]. cbn. apply sim_bind; [apply sim_ctx_append|]. intros _. exact IH.
Qed.

Lemma sim_do_when : forall c rs i, sim (do_when E c rs i) (sdo_when E c rs i).
Proof.
  intros c rs [[n e]|]; unfold do_when, sdo_when.
  - apply sim_bind; [apply sim_append_all|]. intros _. apply sim_throw.
  - apply sim_bind; [apply sim_append_all|]. intros _. apply sim_bind; [apply sim_get_uncaught|]. intro u.
    destruct (Nat.eqb u 0); [apply sim_ctx_commit|apply sim_ret].
Qed.

Lemma sim_do_fake : forall c, sim (do_fake E c) (sdo_fake E c).
Proof. intros c. apply sim_bind; [apply sim_ctx_append|]. intros _. apply sim_ctx_commit. Qed.
Lemma sim_do_assign : forall c f, sim (do_assign E c f) (sdo_assign E c f).
Proof. intros c f. apply sim_bind; [apply sim_ctx_append|]. intros _. apply sim_ctx_commit. Qed.

Lemma sim_do_spy : forall c f, sim (do_spy E c f) (sdo_spy E c f).
Proof.
  intros c f w s HR. unfold do_spy, sdo_spy. eapply simw_bind; [apply (simw_get_unused c); auto|]. clear w s HR.
  intros w s x sx HR ((_ & _ & T) & _). rewrite T.
  eapply simw_bind with (P := fun _ _ a b => a = b).
  - destruct (sx_target sx) as [m slot k|m].
    + eapply simw_bind; [apply simw_get_mock; auto|]. intros w' s' k' sk' R' (_ & _ & sx' & d & _ & MR).
      rewrite (mr_obj _ _ _ _ _ _ _ _ _ _ _ MR). now apply sim_ret.
    + now apply sim_ret.
  - intros w' s' a b R' ->. apply sim_bind; [apply sim_ctx_append|intros _; apply sim_ctx_commit|auto].
Qed.

End C.
