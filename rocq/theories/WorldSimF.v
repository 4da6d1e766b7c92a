(** The simulation, part F: verification. *)
From Coq Require Import Bool ZArith Lia List Permutation Sorted.
From Verif Require Import Base CInt Values ArgMatchers InvMatchers ActionSeq Sequences MatchAnalysis
  SortInv SortInvProofs VTable Spec_Layout VTableProofs Proxy ProxyProofs Events Expectation ReturnSet Ordinals Syntax World Spec_World
  WorldLogic WorldRel WorldSimA WorldSimB WorldSimC WorldSimD WorldSimE.
Import ListNotations.
Open Scope nat_scope.

(** ** Counting matches looks at the answers of the expressions only *)
Lemma obind_def : forall A B (a : outcome A) (f : A -> outcome B) y, obind a f = Def y -> exists x, a = Def x /\ f x = Def y.
Proof. intros A B [x| |] f y H; cbn in H; try discriminate. eauto. Qed.

Section Count.
Variables f g : nat -> nat -> outcome bool.
Hypothesis Hfg : forall c i b, f c i = Def b -> g c i = Def b.

Lemma isMatch_mono : forall actual expected start j b,
  isMatch_from f actual expected start j = Def b -> isMatch_from g actual expected start j = Def b.
Proof.
  intros actual expected start. induction expected as [|e r IH]; intros j b H; cbn [isMatch_from] in *; auto.
  apply obind_def in H as (a & A & H). rewrite A. cbn [obind].
  apply obind_def in H as (b' & B & H). rewrite (Hfg _ _ _ B). cbn [obind]. destruct b'; auto.
Qed.

Lemma findNextMatch_loop_mono : forall fuel actual expected i bound r,
  findNextMatch_loop f fuel actual expected i bound = Def r -> findNextMatch_loop g fuel actual expected i bound = Def r.
Proof.
  induction fuel as [|fu IH]; intros actual expected i bound r H; cbn [findNextMatch_loop] in *; auto.
  destruct (Z.ltb i bound); auto. apply obind_def in H as (b & B & H). unfold isMatch in *.
  rewrite (isMatch_mono _ _ _ _ _ B). cbn [obind]. destruct b; auto.
Qed.

Lemma findNextMatch_seq_mono : forall s actual i r,
  findNextMatch_seq f s actual i = Def r -> findNextMatch_seq g s actual i = Def r.
Proof.
  intros s actual i r H. unfold findNextMatch_seq in *. apply obind_def in H as (d & D & H). rewrite D. cbn [obind].
  apply obind_def in H as (b & B & H). rewrite B. cbn [obind]. now apply findNextMatch_loop_mono.
Qed.

Lemma findNextMatch_mono : forall pattern actual i matched r,
  findNextMatch f pattern actual i matched = Def r -> findNextMatch g pattern actual i matched = Def r.
Proof.
  induction pattern as [|s p IH]; intros actual i matched r H; cbn [findNextMatch] in *; auto.
  apply obind_def in H as (d & D & H). rewrite (findNextMatch_seq_mono _ _ _ _ D). cbn [obind].
  destruct (Z.eqb d (-1)); auto. apply obind_def in H as (b & B & H). rewrite B. cbn [obind]. auto.
Qed.

Lemma countMatches_loop_mono : forall fuel pattern actual i count matched r,
  countMatches_loop f fuel pattern actual i count matched = Def r ->
  countMatches_loop g fuel pattern actual i count matched = Def r.
Proof.
  induction fuel as [|fu IH]; intros pattern actual i count matched r H; cbn [countMatches_loop] in *; auto.
  apply obind_def in H as ([[stop|] m'] & D & H); rewrite (findNextMatch_mono _ _ _ _ _ D); cbn [obind]; auto.
  apply obind_def in H as (c & C & H). rewrite C. cbn [obind]. auto.
Qed.

Lemma countMatches_mono : forall pattern actual r,
  countMatches f pattern actual = Def r -> countMatches g pattern actual = Def r.
Proof. intros. now apply countMatches_loop_mono. Qed.
End Count.

(** ** Lists of calls *)
Lemma seq_sorted : forall n a, StronglySorted lt (seq a n).
Proof.
  induction n as [|n IH]; intro a; cbn; constructor; auto.
  apply Forall_forall. intros x X. apply in_seq in X. lia.
Qed.

Lemma filter_sorted : forall A (P : A -> A -> Prop) f l, StronglySorted P l -> StronglySorted P (filter f l).
Proof.
  intros A P f l H. induction H as [|a l H IH F]; cbn; [constructor|]. destruct (f a); auto. constructor; auto.
  rewrite Forall_forall in *. intros x X. apply filter_In in X. apply F. tauto.
Qed.

Lemma in_call_order_in : forall s l i, In i (in_call_order s l) <-> In i l /\ i < length (s_calls s).
Proof.
  intros s l i. unfold in_call_order. rewrite filter_In, in_seq, existsb_exists. split.
  - intros (A & x & B & C). apply Nat.eqb_eq in C. subst. split; [auto|lia].
  - intros (A & B). split; [lia|]. exists i. split; auto. apply Nat.eqb_refl.
Qed.

Lemma in_call_order_sorted : forall s l, StronglySorted lt (in_call_order s l).
Proof. intros. apply filter_sorted, seq_sorted. Qed.

Lemma nat_eqb_spec : forall a b, Nat.eqb a b = true <-> a = b.
Proof. intros. apply Nat.eqb_eq. Qed.

Section F.
Variable E : env.
Hypothesis iter_perm : forall l, Permutation (e_iter E l) l.
Local Notation R := (R E).
Local Notation Rg := (Rg E).
Local Notation sim := (sim E).
Local Notation simw := (simw E).
Local Notation classes := (e_classes E).
Local Notation iter := (e_iter E).

Section State.
Variables (own tow : nat -> nat) (w : world) (s : sworld).
Hypothesis H : Rg own tow w s.

Lemma ord_lt : forall i j, i < j -> j < length (s_calls s) -> (ord_of w i < ord_of w j)%Z.
Proof.
  intros i j L LJ. rewrite <- (Rg_ncalls E _ _ _ _ H) in LJ.
  destruct (nth_error (w_invs w) i) as [x|] eqn:X; [|apply nth_error_None in X; lia].
  destruct (nth_error (w_invs w) j) as [y|] eqn:Y; [|apply nth_error_None in Y; lia].
  unfold ord_of. rewrite X, Y. destruct (r_ord _ _ _ _ _ H) as (_ & _ & O).
  destruct (r_sta _ _ _ _ _ H) as [S1 S2]. destruct O as [O _]; [unfold two32; lia|]. eauto.
Qed.

Lemma sorted_calls : forall l, NoDup l -> (forall i, In i l -> i < length (s_calls s)) ->
  sortByInvocationOrder (ord_of w) iter l = in_call_order s l.
Proof.
  intros l ND B.
  assert (DO : distinct_ords (ord_of w) l).
  { intros a b A1 A2 Q. destruct (Nat.lt_trichotomy a b) as [X|[X|X]]; auto.
    - pose proof (ord_lt a b X (B b A2)). lia.
    - pose proof (ord_lt b a X (B a A1)). lia. }
  apply sorted_unique with (ord := ord_of w).
  - apply sort_sorted.
  - assert (G : forall k, StronglySorted lt k -> (forall i, In i k -> i < length (s_calls s)) ->
       StronglySorted (fun a b => (ord_of w a < ord_of w b)%Z) k).
    { intros k S. induction S as [|a k S IH F]; intro K; constructor.
      - apply IH. intros. apply K. now right.
      - rewrite Forall_forall in *. intros x X. apply ord_lt; auto. apply K. now right. }
    apply G; [apply in_call_order_sorted|]. intros i I. apply in_call_order_in in I. tauto.
  - intro x. rewrite sort_in, in_call_order_in by auto. split; [intro; split; auto|tauto].
Qed.

Lemma verified_same : forall i, is_verified w i = sverified s i.
Proof.
  intro i. unfold is_verified, sverified. destruct (nth_error (s_calls s) i) as [ca|] eqn:C.
  - destruct (Rg_call E _ _ _ _ _ _ H C) as (v & V & _ & _ & _ & Q). now rewrite V.
  - apply nth_error_None in C. rewrite <- (Rg_ncalls E _ _ _ _ H) in C.
    now rewrite (proj2 (nth_error_None _ _) C).
Qed.

(** ** Expressions *)
Lemma sunused_ctx : forall c sx, sunused s c = Def sx ->
  exists x, heap_ctx w c = Def x /\ cx_target x = sx_target sx /\ unused (s_ctxs s) c /\
    own (cx_matcher x) = c /\ live (w_matchers w) (cx_matcher x) = Some (sx_cond sx).
Proof.
  intros c sx U. unfold sunused in U. destruct (live (s_ctxs s) c) as [y|] eqn:SX; [|discriminate].
  destruct (sx_committed y) eqn:SC; [discriminate|]. inversion U; subst y.
  destruct (Rg_ctx E _ _ _ _ _ _ H SX) as (x & X & (C1 & C2 & C3 & C4)). destruct (C4 SC) as (O & M & _).
  exists x. unfold heap_ctx. rewrite (nth_live _ _ _ _ X). repeat split; auto. exists sx. auto.
Qed.

Lemma smethod_bound : forall t me, smethod_of E s t = Def me ->
  exists m slot, at_ (s_mocks s) m slot me /\ bound_body E w t = Def (me_no me).
Proof.
  intros t me M. unfold smethod_of in M. destruct (live (s_mocks s) (target_mock t)) as [sk|] eqn:SK; [|discriminate].
  destruct (Rg_mock E _ _ _ _ _ _ H SK) as (k & sx & d & K & SX & MR).
  unfold bound_body. rewrite (nth_live _ _ _ _ K). rewrite (mr_class _ _ _ _ _ _ _ _ _ _ _ MR).
  match type of M with match ?e with _ => _ end = _ => destruct e as [slot|] eqn:SL; [|discriminate] end.
  destruct (live (sk_meths sk) slot) as [me'|] eqn:ME; [|discriminate]. inversion M; subst me'.
  exists (target_mock t), slot. split; [exists sk; auto|].
  rewrite (mr_pt _ _ _ _ _ _ _ _ _ _ _ MR), map_map, nth_error_map, (nth_live _ _ _ _ ME). reflexivity.
Qed.

Lemma body_of : forall m slot me, at_ (s_mocks s) m slot me -> exists bd, heap_body w (me_no me) = Def bd /\
  bd_id bd = Z.of_nat (S (me_no me)) /\ bd_invs bd = me_calls me.
Proof.
  intros m slot me A. destruct (r_bod _ _ _ _ _ H _ _ _ A) as (bd & B & (B1 & B2 & B3 & B4)).
  exists bd. unfold heap_body. rewrite (nth_live _ _ _ _ B). auto.
Qed.

Lemma accepts_same : forall c x im i b, unused (s_ctxs s) c -> own (cx_matcher x) = c ->
  live (w_matchers w) (cx_matcher x) = Some im -> scond_accepts s im i = Def b ->
  exists v, heap_inv w i = Def v /\ ctx_accepts w x v = Def b.
Proof.
  intros c x im i b U O M A. unfold scond_accepts in A.
  destruct (nth_error (s_calls s) i) as [ca|] eqn:C; [|discriminate].
  destruct (Rg_call E _ _ _ _ _ _ H C) as (v & V & (V1 & V2 & V3 & V4)).
  exists v. unfold heap_inv. rewrite V. split; [reflexivity|].
  unfold ctx_accepts, heap_matcher. rewrite (nth_live _ _ _ _ M). cbn [obind].
  rewrite <- (r_mem _ _ _ _ _ H) in A. rewrite <- V3 in A. unfold im_matches.
  destruct im; auto; destruct (iv_matcher v) as [mt|] eqn:IM; auto.
  all: destruct (Nat.eqb_spec mt (cx_matcher x)) as [Q|Q]; auto; exfalso.
  all: destruct (r_idn _ _ _ _ _ H _ _ _ V IM) as (_ & _ & N); apply N; rewrite Q, O; exact U.
Qed.

Lemma matches_same : forall c i b, sctx_matches E s c i = Def b -> ctx_matches E w c i = Def b.
Proof.
  intros c i b M. unfold sctx_matches in M. apply obind_def in M as (sx & U & M).
  apply obind_def in M as (me & ME & M). apply obind_def in M as (ca & CA & M).
  destruct (sunused_ctx _ _ U) as (x & X & T & UN & O & MA). destruct (smethod_bound _ _ ME) as (m & slot & A & BB).
  destruct (body_of _ _ _ A) as (bd & B1 & B2 & B3).
  destruct (nth_error (s_calls s) i) as [ca'|] eqn:C; [|discriminate]. cbn in CA. inversion CA; subst ca'.
  destruct (Rg_call E _ _ _ _ _ _ H C) as (v & V & (V1 & V2 & V3 & V4)).
  unfold ctx_matches. rewrite X. cbn [obind]. rewrite T, BB. cbn [obind]. rewrite B1. cbn [obind].
  unfold heap_inv. rewrite V. cbn [of_option obind]. rewrite V1, B2.
  destruct (Z.eqb_spec (Z.of_nat (S (ca_method ca))) (Z.of_nat (S (me_no me)))), (Nat.eqb_spec (ca_method ca) (me_no me)); try lia; auto.
  destruct (accepts_same c x (sx_cond sx) i b UN O MA M) as (v' & V' & AC). unfold heap_inv in V'. rewrite V in V'.
  cbn in V'. inversion V'; subst v'. exact AC.
Qed.

(** ** Sources *)
Definition same_set (into l l' : list nat) : Prop :=
  (forall i, In i l' <-> In i into \/ In i l) /\ (NoDup into -> NoDup l').

Lemma filter_invs_spec : forall c x im l into r, unused (s_ctxs s) c -> own (cx_matcher x) = c ->
  live (w_matchers w) (cx_matcher x) = Some im ->
  sfilter (scond_accepts s im) l = Def r ->
  exists r', filter_invs w x l into = Def r' /\ same_set into r r'.
Proof.
  intros c x im l. induction l as [|i l IH]; intros into r U O M F; cbn in F |- *.
  - inversion F; subst. exists into. split; auto. split; [intro; cbn; tauto|auto].
  - apply obind_def in F as (b & B & F). apply obind_def in F as (l' & L & F). inversion F; subst r.
    destruct (accepts_same _ _ _ _ _ U O M B) as (v & V & A). rewrite V. cbn [obind]. rewrite A. cbn [obind].
    destruct (IH (if b then uset_insert Nat.eqb i into else into) l' U O M L) as (r' & R1 & R2 & R3).
    exists r'. split; auto. split.
    + intro j. rewrite R2. destruct b; [|tauto]. rewrite (uset_insert_in _ (is_verified w) nat_eqb_spec). cbn. intuition.
    + intro N. apply R3. destruct b; auto. now apply (uset_insert_nodup _ nat_eqb_spec).
Qed.

Definition calls_of (y : option method) : list nat := match y with Some me => me_calls me | None => [] end.

Lemma bodies_invs_spec : forall L into, (forall me, In (Some me) L -> exists m slot, at_ (s_mocks s) m slot me) ->
  exists r', bodies_invs w (map (option_map face_no) (map face L)) into = Def r' /\ same_set into (flat_map calls_of L) r'.
Proof.
  induction L as [|[me|] L IH]; intros into A; cbn [map face option_map bodies_invs flat_map calls_of].
  - exists into. split; auto. split; [intro; cbn; tauto|auto].
  - destruct (A me (or_introl eq_refl)) as (m & slot & AT). destruct (body_of _ _ _ AT) as (bd & B1 & B2 & B3).
    change (face_no (me_no me, me_id me, me_bypass me)) with (me_no me). rewrite B1. cbn [obind]. rewrite B3.
    destruct (IH (uset_insert_all Nat.eqb (me_calls me) into)) as (r' & R1 & R2 & R3).
    { intros me' I. apply A. now right. }
    exists r'. split; auto. split.
    + intro j. rewrite R2, in_app_iff, (uset_insert_all_in _ (is_verified w) nat_eqb_spec). tauto.
    + intro N. apply R3. now apply (uset_insert_all_nodup _ nat_eqb_spec).
  - cbn [app]. apply IH. intros me' I. apply A. now right.
Qed.

Lemma unverified_spec : forall l l' into tmp, same_set [] l tmp ->
  l' = filter (fun i => negb (sverified s i)) l ->
  same_set into l' (unverified_source Nat.eqb (is_verified w) iter (uset_insert_all Nat.eqb (iter tmp) []) into).
Proof.
  intros l l' into tmp [S1 S2] ->. split.
  - intro i. rewrite (unverified_in _ _ _ nat_eqb_spec iter_perm), (uset_insert_all_in _ (is_verified w) nat_eqb_spec), (iter_in _ iter_perm), S1, filter_In.
    rewrite verified_same. cbn. destruct (sverified s i); cbn; intuition congruence.
  - intro N. unfold unverified_source. now apply (uset_insert_all_nodup _ nat_eqb_spec).
Qed.

Fixpoint source_spec (x : source) : forall into r, ssource E s x = Def r ->
  exists r', source_invs E w x into = Def r' /\ same_set into r r'.
Proof.
  destruct x as [m|c|l]; intros into r S.
  - cbn in S |- *. destruct (live (s_mocks s) m) as [sk|] eqn:SK; [|discriminate]. inversion S; subst r.
    destruct (Rg_mock E _ _ _ _ _ _ H SK) as (k & sx & d & K & SX & MR).
    rewrite (nth_live _ _ _ _ K), (mr_pt _ _ _ _ _ _ _ _ _ _ _ MR). apply bodies_invs_spec.
    intros me I. apply In_nth_error in I as (i & I). exists m, i, sk. split; auto. now apply live_in_meths.
  - cbn in S |- *. apply obind_def in S as (sx & U & S). apply obind_def in S as (me & ME & S).
    destruct (sunused_ctx _ _ U) as (x & X & T & UN & O & MA). destruct (smethod_bound _ _ ME) as (m & slot & A & BB).
    destruct (body_of _ _ _ A) as (bd & B1 & B2 & B3).
    rewrite X. cbn [obind]. rewrite T, BB. cbn [obind]. rewrite B1. cbn [obind]. rewrite B3.
    eapply filter_invs_spec; eauto.
  - cbn [ssource source_invs] in *. apply obind_def in S as (l' & L & S). inversion S; subst r.
    assert (G : forall acc,
       exists r', (fix all (l : list source) (acc : list nat) : outcome (list nat) :=
                     match l with
                     | [] => Def acc
                     | s' :: r => let! acc' := source_invs E w s' acc in all r acc'
                     end) l acc = Def r' /\ same_set acc l' r').
    { clear S. revert l' L. induction l as [|y l IH]; intros l' L acc; cbn in L |- *.
      - inversion L; subst. exists acc. split; auto. split; [intro; cbn; tauto|auto].
      - apply obind_def in L as (a & A & L). apply obind_def in L as (b & B & L). inversion L; subst l'.
        destruct (source_spec y acc a A) as (r1 & R1 & R2 & R3). rewrite R1. cbn [obind].
        destruct (IH b B r1) as (r2 & Q1 & Q2 & Q3). exists r2. split; auto. split.
        + intro i. rewrite Q2, R2, in_app_iff. tauto.
        + auto. }
    destruct (G []) as (tmp & T1 & T2). rewrite T1. cbn [obind]. eexists. split; [reflexivity|].
    eapply unverified_spec; eauto.
Qed.

Lemma sources_spec : forall l into r, ssources E s l = Def r ->
  exists r', sources_invs E w l into = Def r' /\ same_set into r r'.
Proof.
  induction l as [|y l IH]; intros into r S; cbn in S |- *.
  - inversion S; subst. exists into. split; auto. split; [intro; cbn; tauto|auto].
  - apply obind_def in S as (a & A & S). apply obind_def in S as (b & B & S). inversion S; subst r.
    destruct (source_spec y into a A) as (r1 & R1 & R2 & R3). rewrite R1. cbn [obind].
    destruct (IH r1 b B) as (r2 & Q1 & Q2 & Q3). exists r2. split; auto. split.
    + intro i. rewrite Q2, R2, in_app_iff. tauto.
    + auto.
Qed.

(** Sources contain calls. *)
Lemma sfilter_sub : forall f l r i, sfilter f l = Def r -> In i r -> In i l.
Proof.
  intros f l. induction l as [|j l IH]; intros r i F I; cbn in F.
  - inversion F; subst. contradiction.
  - apply obind_def in F as (b & B & F). apply obind_def in F as (l' & L & F). inversion F; subst r.
    destruct b; [destruct I as [->|I]; [now left|]|]; right; eauto.
Qed.

Fixpoint source_calls (x : source) : forall r i, ssource E s x = Def r -> In i r -> i < length (s_calls s).
Proof.
  destruct x as [m|c|l]; intros r i S I.
  - cbn in S. destruct (live (s_mocks s) m) as [sk|] eqn:SK; [|discriminate]. inversion S; subst r.
    apply in_flat_map in I as ([me|] & I1 & I2); [|contradiction]. apply In_nth_error in I1 as (j & J).
    apply (r_his _ _ _ _ _ H m j me); auto. exists sk. split; auto. now apply live_in_meths.
  - cbn in S. apply obind_def in S as (sx & U & S). apply obind_def in S as (me & ME & S).
    destruct (smethod_bound _ _ ME) as (m & slot & A & BB). apply (r_his _ _ _ _ _ H _ _ _ _ A). eapply sfilter_sub; eauto.
  - cbn [ssource] in S. apply obind_def in S as (l' & L & S). inversion S; subst r. apply filter_In in I as [I _].
    clear S. revert l' L I. induction l as [|y l IH]; intros l' L I; cbn in L.
    + inversion L; subst. contradiction.
    + apply obind_def in L as (a & A & L). apply obind_def in L as (b & B & L). inversion L; subst l'.
      apply in_app_or in I as [I|I]; [eapply source_calls; eauto|eauto].
Qed.

Lemma sources_calls : forall l r i, ssources E s l = Def r -> In i r -> i < length (s_calls s).
Proof.
  induction l as [|y l IH]; intros r i S I; cbn in S.
  - inversion S; subst. contradiction.
  - apply obind_def in S as (a & A & S). apply obind_def in S as (b & B & S). inversion S; subst r.
    apply in_app_or in I as [I|I]; [eapply source_calls; eauto|eauto].
Qed.

Lemma in_call_order_ext : forall l l', (forall i, In i l <-> In i l') -> in_call_order s l = in_call_order s l'.
Proof.
  intros l l' X. unfold in_call_order. apply filter_ext. intro i.
  destruct (existsb (Nat.eqb i) l) eqn:A, (existsb (Nat.eqb i) l') eqn:B; auto.
  - apply existsb_exists in A as (j & A1 & A2). apply Nat.eqb_eq in A2. subst j. apply X in A1.
    assert (existsb (Nat.eqb i) l' = true) by (apply existsb_exists; exists i; split; auto; apply Nat.eqb_refl). congruence.
  - apply existsb_exists in B as (j & A1 & A2). apply Nat.eqb_eq in A2. subst j. apply X in A1.
    assert (existsb (Nat.eqb i) l = true) by (apply existsb_exists; exists i; split; auto; apply Nat.eqb_refl). congruence.
Qed.

Lemma sorted_set : forall l l', same_set [] l l' -> (forall i, In i l -> i < length (s_calls s)) ->
  sortByInvocationOrder (ord_of w) iter l' = in_call_order s l.
Proof.
  intros l l' [S1 S2] B. rewrite sorted_calls.
  - apply in_call_order_ext. intro i. rewrite S1. cbn. tauto.
  - apply S2. constructor.
  - intros i I. apply B. apply S1 in I as [[]|I]; auto.
Qed.

Lemma scope_spec : forall unv l r, sscope E s unv l = Def r ->
  exists r', scope_invs E w unv l = Def r' /\ sortByInvocationOrder (ord_of w) iter r' = r.
Proof.
  intros unv l r S. unfold sscope in S. apply obind_def in S as (all & A & S). inversion S; subst r. clear S.
  destruct (sources_spec l [] all A) as (tmp & T1 & T2). unfold scope_invs. rewrite T1. cbn [obind].
  eexists. split; [reflexivity|]. destruct unv.
  - apply sorted_set.
    + eapply unverified_spec; eauto.
    + intros i I. apply filter_In in I as [I _]. eapply sources_calls; eauto.
  - apply sorted_set.
    + destruct T2 as [T2 T3]. split.
      * intro i. rewrite (uset_insert_all_in _ (is_verified w) nat_eqb_spec), (iter_in _ iter_perm), T2. tauto.
      * intros N. now apply (uset_insert_all_nodup _ nat_eqb_spec).
    + intros i I. eapply sources_calls; eauto.
Qed.

Lemma pattern_live_spec : forall cs, sunused_all E s cs = Def tt -> pattern_live E w cs = Def tt.
Proof.
  induction cs as [|c cs IH]; intro S; cbn in S |- *; auto.
  apply obind_def in S as (sx & U & S). apply obind_def in S as (me & ME & S).
  destruct (sunused_ctx _ _ U) as (x & X & T & _). destruct (smethod_bound _ _ ME) as (m & slot & A & BB).
  rewrite X. cbn [obind]. rewrite T, BB. cbn [obind]. auto.
Qed.

Lemma analyse_spec : forall unv l pattern r, sanalyse E s unv l pattern = Def r -> analyse E w unv l pattern = Def r.
Proof.
  intros unv l pattern r S. unfold sanalyse in S. apply obind_def in S as (actual & A & S).
  apply obind_def in S as ([] & U & S). apply obind_def in S as ([count matched] & C & S).
  destruct (scope_spec _ _ _ A) as (r' & R1 & R2). unfold analyse. rewrite R1. cbn [obind].
  rewrite (pattern_live_spec _ U). cbn [obind]. rewrite R2.
  rewrite (countMatches_mono _ _ matches_same _ _ _ C). exact S.
Qed.

Lemma no_other_spec : forall l all, ssources E s l = Def all ->
  exists r', sources_invs E w l [] = Def r' /\
    sortByInvocationOrder (ord_of w) iter r' = in_call_order s all /\
    sortByInvocationOrder (ord_of w) iter (selectNonVerifiedInvocations Nat.eqb (is_verified w) iter r' []) =
      filter (fun i => negb (sverified s i)) (in_call_order s all) /\
    (selectNonVerifiedInvocations Nat.eqb (is_verified w) iter r' [] = [] <->
      filter (fun i => negb (sverified s i)) (in_call_order s all) = []).
Proof.
  intros l all A. destruct (sources_spec l [] all A) as (r' & R1 & R2). pose proof R2 as [R3 R4].
  assert (B : forall i, In i all -> i < length (s_calls s)) by (intros; eapply sources_calls; eauto).
  set (nonv := selectNonVerifiedInvocations Nat.eqb (is_verified w) iter r' []).
  assert (N : forall i, In i nonv <-> In i all /\ sverified s i = false).
  { intro i. unfold nonv. rewrite (select_in _ _ _ nat_eqb_spec iter_perm), R3, verified_same. cbn. tauto. }
  assert (Q : sortByInvocationOrder (ord_of w) iter nonv = filter (fun i => negb (sverified s i)) (in_call_order s all)).
  { rewrite sorted_calls.
    - apply sorted_unique with (ord := Z.of_nat).
      + assert (G : forall k, StronglySorted lt k -> StronglySorted (fun a b => (Z.of_nat a < Z.of_nat b)%Z) k).
        { intros k S. induction S as [|a k S IH F]; constructor; auto. eapply Forall_impl; [|exact F]. intros; lia. }
        apply G, in_call_order_sorted.
      + assert (G : forall k, StronglySorted lt k -> StronglySorted (fun a b => (Z.of_nat a < Z.of_nat b)%Z) k).
        { intros k S. induction S as [|a k S IH F]; constructor; auto. eapply Forall_impl; [|exact F]. intros; lia. }
        apply G, filter_sorted, in_call_order_sorted.
      + intro i. rewrite filter_In, !in_call_order_in, N. destruct (sverified s i); cbn; intuition congruence.
    - unfold nonv. apply (select_nodup _ _ _ nat_eqb_spec). constructor.
    - intros i I. apply B. apply N in I. tauto. }
  exists r'. split; auto. split; [now apply sorted_set|]. split; [exact Q|].
  assert (IN : forall i, In i nonv <-> In i (filter (fun i => negb (sverified s i)) (in_call_order s all))).
  { intro i. rewrite N, filter_In, in_call_order_in. split.
    - intros [P1 P2]. rewrite P2. auto.
    - intros [[P1 P2] P3]. split; auto. destruct (sverified s i); [discriminate|auto]. }
  split; intro X.
  - destruct (filter _ _) as [|i r]; auto. exfalso. fold nonv in X. specialize (IN i). rewrite X in IN. apply IN. now left.
  - fold nonv. destruct nonv as [|i r]; auto. exfalso. specialize (IN i). rewrite X in IN. apply IN. now left.
Qed.

End State.

(** ** Checking *)
Lemma sim_mark_all : forall is, sim (mark_all is) (smark_all is).
Proof.
  induction is as [|i is IH]; [apply sim_ret|]. intros w s HR. cbn [mark_all smark_all].
  eapply simw_bind; [apply simw_get_call; auto|]. clear w s HR. intros w s v ca (own & tow & H) (V & C & (P1 & P2 & P3 & P4)).
  eapply simw_w; [reflexivity|]. eapply simw_s; [reflexivity|]. apply IH. exists own, tow.
  eapply Rg_put_inv; eauto.
  - repeat split; auto.
  - repeat split; auto.
Qed.

Lemma sim_report_to : forall quiet e, sim (report E quiet e) (sreport_to E quiet e).
Proof. intros [] e; [apply sim_throw|apply sim_report]. Qed.

Lemma sim_verify : forall x quiet, sim (verify_exp E x quiet) (sverify E x quiet).
Proof.
  intros x quiet. unfold verify_exp, sverify. apply sim_bind; [apply sim_get_exp|]. intros [unv l pattern ex|l done].
  - destruct (ex_done ex); [apply sim_ret|]. apply sim_bind; [apply sim_put_exp|]. intros _ w s HR.
    eapply simw_w; [reflexivity|]. eapply simw_s; [reflexivity|]. destruct HR as (own & tow & H).
    destruct (sanalyse E s unv l pattern) as [[[actual count] matched]| |] eqn:A;
      [|apply simw_u; reflexivity|apply simw_u; reflexivity].
    eapply simw_s; [reflexivity|]. eapply simw_w; [unfold lift; rewrite (analyse_spec _ _ _ _ H _ _ _ _ A); reflexivity|].
    cbn beta iota. assert (HR : R w s) by (exists own, tow; auto).
    refine (sim_bind E _ _ _ _ _ _ (sim_lift_same E _ _) _ w s HR).
    intros []; [apply sim_mark_all|apply sim_report_to].
  - destruct done; [apply sim_ret|]. apply sim_bind; [apply sim_put_exp|]. intros _ w s HR.
    eapply simw_w; [reflexivity|]. eapply simw_s; [reflexivity|]. destruct HR as (own & tow & H).
    destruct (ssources E s l) as [all| |] eqn:A; [|apply simw_u; reflexivity|apply simw_u; reflexivity].
    destruct (no_other_spec _ _ _ _ H _ _ A) as (r' & R1 & R2 & R3 & R4).
    eapply simw_s; [reflexivity|]. eapply simw_w; [unfold lift; rewrite R1; reflexivity|].
    cbn beta. assert (HR : R w s) by (exists own, tow; auto). rewrite R2, R3.
    destruct (selectNonVerifiedInvocations Nat.eqb (is_verified w) iter r' []) as [|i1 n1] eqn:N1.
    + rewrite (proj1 R4 eq_refl). apply sim_ret; auto.
    + destruct (filter (fun i => negb (sverified s i)) (in_call_order s all)) as [|i2 n2] eqn:N2.
      * exfalso. pose proof (proj2 R4 eq_refl). discriminate.
      * apply sim_report_to; auto.
Qed.

Lemma sim_exp_bool : forall x, sim (exp_bool E x) (sexp_bool E x).
Proof.
  intro x. unfold exp_bool, sexp_bool. apply sim_bind; [apply sim_attempt, sim_verify|].
  intros [u|[]]; (apply sim_ret || apply sim_throw).
Qed.

Lemma sim_exp_free : forall x, sim (exp_free E x) (sexp_free E x).
Proof.
  intro x. unfold exp_free, sexp_free. apply sim_bind; [apply sim_get_uncaught|]. intro u.
  apply sim_guarded; [|apply sim_free_exp]. destruct (Nat.eqb u 0); [apply sim_verify|apply sim_ret].
Qed.

Lemma sim_exp_quant : forall x q, sim (exp_quant x q) (sexp_quant x q).
Proof.
  intros x q. unfold exp_quant, sexp_quant. apply sim_bind; [apply sim_get_exp|]. intros [unv l pattern ex|l done].
  - apply sim_bind; [apply sim_lift_same|]. intros [ex'|]; [apply sim_put_exp|apply sim_throw].
  - apply sim_unspec.
Qed.

Lemma sim_involved : forall cs, sim (involved cs) (sinvolved cs).
Proof.
  induction cs as [|c cs IH]; [apply sim_ret|]. intros w s HR. cbn [involved sinvolved].
  eapply simw_bind; [apply simw_get_ctx; auto|]. intros w' s' x sx HR' (_ & _ & T). rewrite T.
  refine (sim_bind E _ _ _ _ _ _ IH _ w' s' HR'). intro l. apply sim_ret.
Qed.

Lemma sim_exp_new : forall sc pattern, sim (exp_new_seq sc pattern) (sexp_new sc pattern).
Proof.
  intros sc pattern. unfold exp_new_seq, sexp_new. destruct (forallb seq_valid pattern); [|apply sim_throw].
  destruct sc; try apply sim_new_exp; (apply sim_bind; [apply sim_involved|]; intro l; apply sim_new_exp).
Qed.

End F.
