(** Verification statements in whole programs: the facts behind P_Verification.v. *)
From Coq Require Import Bool ZArith Lia List Permutation Sorted.
From Verif Require Import Base CInt Values ArgMatchers InvMatchers ActionSeq Sequences MatchAnalysis Spec_Match
  Proxy Events Expectation Spec_Verify ReturnSet Syntax World Spec_World WorldRel WorldSim Spec_View SpecFacts SpecKept
  SpecCalls SpecLasting SpecMocks SpecHistory Spec_Verification SpecVerify.
Import ListNotations.
Open Scope nat_scope.

Section S.
Variable E : env.
Hypothesis iter_perm : iterates E.
Local Notation leads := (leads E).

Lemma mentioned_rest : forall s t m e me s', mentioned E s t m e me s' -> s_exps s' = s_exps s /\ s_fctx s' = s_fctx s.
Proof.
  intros s t m e me s' (r & D & H). destruct H as [[ME ->]|(ME & (k' & K2 & F) & RM & M & ->)]; auto.
  unfold put_method. now destruct (live (s_mocks (sset_bound s (S (s_bound s)))) m).
Qed.

Lemma mentioned_all_rest : forall s ts ms s1, mentioned_all E s ts ms s1 ->
  s_ctxs s1 = s_ctxs s /\ s_uncaught s1 = s_uncaught s /\ s_calls s1 = s_calls s /\ s_exps s1 = s_exps s /\ s_fctx s1 = s_fctx s /\
  Forall2 (fun t p => is_at E s1 t (fst p) (snd p)) ts ms /\ (forall t m e, is_at E s t m e -> is_at E s1 t m e).
Proof.
  intros s ts ms s1 H. induction H as [s|s t ts m e me s1 ms s2 MN MA (A & B & C & D0 & F & IH1 & IH2)]; [repeat split; auto|].
  destruct (mentioned_ctxs _ _ _ _ _ _ _ MN) as (A' & B' & _ & C'). destruct (mentioned_rest _ _ _ _ _ _ MN) as (D' & F').
  assert (K : forall t' m' e', is_at E s t' m' e' -> is_at E s1 t' m' e').
  { intros t' m' e' H. destruct MN as (r & D & [[_ ->]|(N & _ & _ & _ & ->)]); auto.
    destruct H as (me' & r' & D1 & M'). exists me', r'. split.
    - apply designates_put. eapply designates_more; [|exact D1]. reflexivity.
    - rewrite method_put_other; auto. intro Q. inversion Q; subst. rewrite M' in N. discriminate. }
  repeat split; try congruence; auto. constructor; auto. cbn. apply IH2.
  pose proof (mentioned_again _ _ _ _ _ _ _ MN) as (r & D & _). exists me, r. split; auto. eapply mentioned_at; eauto.
Qed.

(** The world in which the statement proper runs. *)
Definition inside (s s1 : sworld) (xs : list (target * option imatcher)) : sworld := sset_ctxs s1 (s_ctxs s ++ map new_ctx xs).

Lemma stmt_around : forall f xs ms s s1 st z' r, mentioned_all E s (map fst xs) ms s1 ->
  srun_stmt E st (seq (length (s_ctxs s)) (length xs)) (inside s s1 xs) = sanswer z' r ->
  s_ctxs z' = s_ctxs (inside s s1 xs) ->
  sexec E (S f) (OStmt xs st) s = sanswer (sset_ctxs z' (s_ctxs s ++ repeat None (length xs))) r.
Proof.
  intros f xs ms s s1 st z' r M X C. cbn [sexec sstep]. rewrite (with_ctxs_spec _ _ _ _ _ _ _ M). cbn [rev app].
  fold (inside s s1 xs). unfold sguarded. rewrite (sbind_ok _ _ _ _ _ _ _ (sattempt_answer _ _ _ _ X)).
  set (news := map (fun x : target * option imatcher => mkSctx (fst x) (cond_of (snd x)) [] false) xs).
  assert (LN : length news = length xs) by apply map_length.
  rewrite app_nil_r. rewrite <- LN. rewrite (sbind_ok _ _ _ _ _ _ _ (free_made news (s_ctxs s) [] z' ltac:(rewrite C, app_nil_r; unfold inside, news; cbn; rewrite map_map; reflexivity))).
  rewrite app_nil_r. destruct r; reflexivity.
Qed.

(** What the statement proper needs to know. *)
Lemma inside_facts : forall f m0 os s rs xs ms s1, sexec_all E (S f) os (sinit m0) = SOk s rs ->
  mentioned_all E s (map fst xs) ms s1 -> s_uncaught s = 0 ->
  let z := inside s s1 xs in let b := length (s_ctxs s) in
  tidy z /\ unique z /\ (forall j x, nth_error xs j = Some x -> live (s_ctxs z) (b + j) = new_ctx x) /\
  (forall j x, nth_error xs j = Some x -> exists m e, is_at E z (fst x) m e) /\
  (forall j, j < length xs -> nth_error (seq b (length xs)) j = Some (b + j)) /\ s_uncaught z = 0.
Proof.
  intros f m0 os s rs xs ms s1 X M U z b.
  destruct (mentioned_all_rest _ _ _ _ M) as (C1 & U1 & K1 & E1 & F1 & AT & _).
  assert (UZ : s_uncaught z = 0) by (unfold z; cbn; congruence).
  assert (ST : sexec E (S f) (OStmt xs (SNoOther [] [])) s = sanswer (sset_ctxs (over z (s_exps z)) (s_ctxs s ++ repeat None (length xs))) (inl VVoid)).
  { eapply stmt_around; eauto. fold z. cbn [srun_stmt place_all]. unfold sverify_stmt.
    set (zz := fun d => sset_exps z (s_exps z ++ [Some (ENoOther [] d)])).
    assert (MK : snew_exp (ENoOther [] false) z = SOk (zz false) (length (s_exps z))) by reflexivity.
    rewrite (sbind_ok _ _ _ _ _ _ _ MK). unfold sbind, sattempt. cbn [srun_steps]. unfold sret at 1.
    rewrite (released E (zz false) (s_exps z) (ENoOther [] false) (zz true) (inl tt)).
    - reflexivity.
    - exact UZ.
    - reflexivity.
    - unfold sattempt. unfold sverify. assert (LX : live (s_exps (zz false)) (length (s_exps z)) = Some (ENoOther [] false)) by apply last_live.
      rewrite (sbind_ok _ _ _ _ _ _ _ (sget_live _ _ _ _ _ LX)).
      assert (PT : sput_exp (length (s_exps z)) (ENoOther [] true) (zz false) = SOk (zz true) tt).
      { unfold sput_exp, smodify, zz. cbn [s_exps sset_exps]. rewrite WorldSimE.upd_app_last. reflexivity. }
      rewrite (sbind_ok _ _ _ _ _ _ _ PT). unfold sgets, sbind, slift. cbn [ssources].
      assert (N : in_call_order (zz true) [] = []) by (unfold in_call_order; generalize (seq 0 (length (s_calls (zz true)))); intro k; induction k; cbn; auto).
      rewrite N. reflexivity.
    - exists (ENoOther [] true). reflexivity. }
  split; [|split; [|split; [|split; [|split]]]].
  - pose proof (histories E m0 (S f) os s rs X) as TS. pose proof (ti_exec E (S f) (OStmt xs (SNoOther [] [])) s) as T. rewrite ST in T.
    destruct T as (_ & T). exact (T TS).
  - pose proof (answered_leads E iter_perm _ _ _ _ _ X) as L. pose proof (leads_step E iter_perm _ _ _ _ _ _ _ _ L ST) as (w & _ & HR).
    exact (R_unique E _ _ HR).
  - intros j x NX. unfold z, b, live. cbn. rewrite nth_error_app2 by lia. replace (length (s_ctxs s) + j - length (s_ctxs s)) with j by lia.
    rewrite nth_error_map, NX. reflexivity.
  - intros j x NX. assert (NX' : nth_error (map fst xs) j = Some (fst x)) by (rewrite nth_error_map, NX; reflexivity).
    clear - AT NX'. revert j NX'. induction AT as [|t [m e] ts ms H AT IH]; intros [|j] NX; try discriminate; [|eauto].
    inversion NX; subst. exists m, e. exact H.
  - intros j J. rewrite nth_error_nth' with (d := 0) by (rewrite seq_length; auto). rewrite seq_nth by auto. reflexivity.
  - exact UZ.
Qed.

(** ** Verify(...) *)
Lemma verify_program : forall f m0 os s rs xs ms s1 sc pattern qs,
  sexec_all E (S f) os (sinit m0) = SOk s rs -> mentioned_all E s (map fst xs) ms s1 -> s_uncaught s = 0 ->
  sound_scope s1 xs sc -> pattern <> [] -> Forall (sound_sequence (length xs)) pattern ->
  (Z.of_nat (length (s_calls s1)) <= int_max)%Z -> decided E s1 xs -> Forall valid_quant qs ->
  let after := statement_over s s1 (length xs) in
  exists actual n marks, StronglySorted lt actual /\ (forall i, In i actual <-> chosen E s1 xs sc pattern i) /\
    max_occurrences (accepts_at E s1 xs) actual (map spelled pattern) n /\
    greedy_marks E s1 xs pattern actual n marks /\
    ((Spec_Verify.accepts (demanded qs) (Z.of_nat n) /\
      leads (S f) m0 (os ++ [OStmt xs (SVerify sc pattern (map VsQuant qs))]) (with_marks marks after) (rs ++ [inl VVoid]) /\
      leads (S f) m0 (os ++ [OStmt xs (SVerify sc pattern (map VsQuant qs ++ [VsBool]))]) (with_marks marks after) (rs ++ [inl (VBool true)])) \/
     (~ Spec_Verify.accepts (demanded qs) (Z.of_nat n) /\
      (exists t k, shown (demanded qs) t k /\
        let ev := EvSequence t (map (renumbered (length (s_ctxs s))) pattern) actual k (Z.of_nat n) in
        (listeners_quiet E s ev ->
         leads (S f) m0 (os ++ [OStmt xs (SVerify sc pattern (map VsQuant qs))]) (notified E after ev) (rs ++ [reaction E s ev]))) /\
      leads (S f) m0 (os ++ [OStmt xs (SVerify sc pattern (map VsQuant qs ++ [VsBool]))]) after (rs ++ [inl (VBool false)]))).
Proof.
  intros f m0 os s rs xs ms s1 sc pattern qs X M U SS NE SP SM DC VQ after.
  destruct (inside_facts f m0 os s rs xs ms s1 X M U) as (TI & UN & CX & AT & CS & UZ).
  destruct (mentioned_all_rest _ _ _ _ M) as (C1 & U1 & K1 & E1 & F1 & _).
  set (z := inside s s1 xs) in *. set (b := length (s_ctxs s)) in *.
  pose proof (answered_leads E iter_perm _ _ _ _ _ X) as L.
  destruct (verify_stmt_spec E z xs b (seq b (length xs)) TI UN CX AT DC CS UZ sc pattern qs SS NE SP SM VQ)
    as (actual & n & marks & A1 & A2 & A3 & A4 & A5).
  exists actual, n, marks. split; [exact A1|]. split; [exact A2|]. split; [exact A3|]. split; [exact A4|].
  assert (OV : forall g : sworld -> sworld, (forall a c, sset_ctxs (g a) c = g (sset_ctxs a c)) ->
    sset_ctxs (g (over z (s_exps z))) (s_ctxs s ++ repeat None (length xs)) = g after).
  { intros g G. rewrite G. f_equal. unfold after, statement_over, over, z, inside. cbn. rewrite E1. reflexivity. }
  assert (NT : forall ev, (forall a c, sset_ctxs (notified E a ev) c = notified E (sset_ctxs a c) ev)) by reflexivity.
  assert (SAME : forall ev, reaction E z ev = reaction E s ev).
  { intro ev. unfold reaction, adapter, z, inside. cbn. now rewrite F1. }
  destruct A5 as [(AC & V & V')|(AC & (t & k & SH & V) & V')]; [left|right]; (split; [exact AC|]).
  - split; (eapply leads_step; [exact iter_perm|exact L|]).
    + erewrite stmt_around; [|exact M|exact (eq_trans V (eq_refl : _ = sanswer _ (inl VVoid)))|reflexivity].
      rewrite (OV (with_marks marks)) by reflexivity. reflexivity.
    + erewrite stmt_around; [|exact M|exact (eq_trans V' (eq_refl : _ = sanswer _ (inl (VBool true))))|reflexivity].
      rewrite (OV (with_marks marks)) by reflexivity. reflexivity.
  - split.
    + exists t, k. split; auto. cbv zeta. intro LQ. eapply leads_step; [exact iter_perm|exact L|].
      erewrite stmt_around; [|exact M|apply V|reflexivity].
      * rewrite (OV (fun a => notified E a (EvSequence t (map (renumbered b) pattern) actual k (Z.of_nat n)))) by reflexivity. rewrite SAME. reflexivity.
      * unfold listeners_quiet in *. unfold z, inside. cbn. rewrite F1. exact LQ.
    + eapply leads_step; [exact iter_perm|exact L|].
      erewrite stmt_around; [|exact M|exact (eq_trans V' (eq_refl : _ = sanswer _ (inl (VBool false))))|reflexivity].
      rewrite (OV (fun a => a)) by reflexivity. reflexivity.
Qed.

(** A negative count: std::invalid_argument, and nothing else happens. *)
Lemma verify_refused : forall f m0 os s rs xs ms s1 sc pattern qs q rest,
  sexec_all E (S f) os (sinit m0) = SOk s rs -> mentioned_all E s (map fst xs) ms s1 -> s_uncaught s = 0 ->
  sound_scope s1 xs sc -> Forall (sound_sequence (length xs)) pattern -> decided E s1 xs -> Forall valid_quant qs ->
  (exists n, (n < 0)%Z /\ (q = QExactly n \/ q = QAtLeast n)) ->
  leads (S f) m0 (os ++ [OStmt xs (SVerify sc pattern (map VsQuant qs ++ VsQuant q :: rest))]) (statement_over s s1 (length xs)) (rs ++ [inr XInvalid]).
Proof.
  intros f m0 os s rs xs ms s1 sc pattern qs q rest X M U SS SP DC VQ NQ.
  destruct (inside_facts f m0 os s rs xs ms s1 X M U) as (TI & UN & CX & AT & CS & UZ).
  destruct (mentioned_all_rest _ _ _ _ M) as (C1 & U1 & K1 & E1 & F1 & _).
  set (z := inside s s1 xs) in *. set (b := length (s_ctxs s)) in *.
  pose proof (answered_leads E iter_perm _ _ _ _ _ X) as L.
  pose proof (refused_stmt_spec E z xs b (seq b (length xs)) TI CX AT DC CS UZ sc pattern qs q rest SS SP VQ NQ) as V.
  eapply leads_step; [exact iter_perm|exact L|].
  erewrite stmt_around; [|exact M|exact (eq_trans V (eq_refl : _ = sanswer _ (inr XInvalid)))|reflexivity].
  replace (sset_ctxs (over z (s_exps z)) (s_ctxs s ++ repeat None (length xs))) with (statement_over s s1 (length xs)); [reflexivity|].
  unfold statement_over, over, z, inside. cbn. rewrite E1. reflexivity.
Qed.

(** A factor below one: std::invalid_argument, before anything is looked at. *)
Lemma verify_invalid : forall f m0 os s rs xs ms s1 sc pattern n q steps,
  sexec_all E (S f) os (sinit m0) = SOk s rs -> mentioned_all E s (map fst xs) ms s1 -> s_uncaught s = 0 ->
  sound_scope s1 xs sc -> (forall p j, In p pattern -> written j p -> j < length xs) -> decided E s1 xs ->
  In q pattern -> repeats n q -> (n < 1)%Z ->
  leads (S f) m0 (os ++ [OStmt xs (SVerify sc pattern steps)]) (not_verified s s1 (length xs)) (rs ++ [inr XInvalid]).
Proof.
  intros f m0 os s rs xs ms s1 sc pattern n q steps X M U SS SW DC IN RN N.
  destruct (inside_facts f m0 os s rs xs ms s1 X M U) as (TI & UN & CX & AT & CS & UZ).
  set (z := inside s s1 xs) in *. set (b := length (s_ctxs s)) in *.
  pose proof (answered_leads E iter_perm _ _ _ _ _ X) as L.
  pose proof (invalid_stmt_spec E z xs b (seq b (length xs)) TI CX AT DC CS sc pattern n q steps SS SW IN RN N) as V.
  eapply leads_step; [exact iter_perm|exact L|].
  erewrite stmt_around; [|exact M|exact (eq_trans V (eq_refl : _ = sanswer _ (inr XInvalid)))|reflexivity].
  reflexivity.
Qed.

(** ** VerifyNoOtherInvocations(...) *)
Lemma noother_program : forall f m0 os s rs xs ms s1 l,
  sexec_all E (S f) os (sinit m0) = SOk s rs -> mentioned_all E s (map fst xs) ms s1 -> s_uncaught s = 0 ->
  Forall (sound_source s1 xs) l -> decided E s1 xs ->
  let after := statement_over s s1 (length xs) in
  exists actual nonv, StronglySorted lt actual /\ (forall i, In i actual <-> some_source E s1 xs l i) /\
    StronglySorted lt nonv /\ (forall i, In i nonv <-> some_source E s1 xs l i /\ ~ verified_call s1 i) /\
    ((nonv = [] /\
      leads (S f) m0 (os ++ [OStmt xs (SNoOther l [])]) after (rs ++ [inl VVoid]) /\
      leads (S f) m0 (os ++ [OStmt xs (SNoOther l [VsBool])]) after (rs ++ [inl (VBool true)])) \/
     (nonv <> [] /\
      (let ev := EvNoMore actual nonv in listeners_quiet E s ev ->
       leads (S f) m0 (os ++ [OStmt xs (SNoOther l [])]) (notified E after ev) (rs ++ [reaction E s ev])) /\
      leads (S f) m0 (os ++ [OStmt xs (SNoOther l [VsBool])]) after (rs ++ [inl (VBool false)]))).
Proof.
  intros f m0 os s rs xs ms s1 l X M U SS DC after.
  destruct (inside_facts f m0 os s rs xs ms s1 X M U) as (TI & UN & CX & AT & CS & UZ).
  destruct (mentioned_all_rest _ _ _ _ M) as (C1 & U1 & K1 & E1 & F1 & _).
  set (z := inside s s1 xs) in *. set (b := length (s_ctxs s)) in *.
  pose proof (answered_leads E iter_perm _ _ _ _ _ X) as L.
  destruct (noother_stmt_spec E z xs b (seq b (length xs)) TI CX AT DC CS UZ l SS) as (actual & nonv & A1 & A2 & A3 & A4 & A5).
  exists actual, nonv. split; [exact A1|]. split; [exact A2|]. split; [exact A3|]. split; [exact A4|].
  assert (OV : forall g : sworld -> sworld, (forall a c, sset_ctxs (g a) c = g (sset_ctxs a c)) ->
    sset_ctxs (g (over z (s_exps z))) (s_ctxs s ++ repeat None (length xs)) = g after).
  { intros g G. rewrite G. f_equal. unfold after, statement_over, over, z, inside. cbn. rewrite E1. reflexivity. }
  assert (SAME : forall ev, reaction E z ev = reaction E s ev).
  { intro ev. unfold reaction, adapter, z, inside. cbn. now rewrite F1. }
  destruct A5 as [(AC & V & V')|(AC & V & V')]; [left|right]; (split; [exact AC|]).
  - split; (eapply leads_step; [exact iter_perm|exact L|]).
    + erewrite stmt_around; [|exact M|exact (eq_trans V (eq_refl : _ = sanswer _ (inl VVoid)))|reflexivity].
      rewrite (OV (fun a => a)) by reflexivity. reflexivity.
    + erewrite stmt_around; [|exact M|exact (eq_trans V' (eq_refl : _ = sanswer _ (inl (VBool true))))|reflexivity].
      rewrite (OV (fun a => a)) by reflexivity. reflexivity.
  - split.
    + cbv zeta. intro LQ. eapply leads_step; [exact iter_perm|exact L|].
      erewrite stmt_around; [|exact M|apply V|reflexivity].
      * rewrite (OV (fun a => notified E a (EvNoMore actual nonv))) by reflexivity. rewrite SAME. reflexivity.
      * unfold listeners_quiet in *. unfold z, inside. cbn. rewrite F1. exact LQ.
    + eapply leads_step; [exact iter_perm|exact L|].
      erewrite stmt_around; [|exact M|exact (eq_trans V' (eq_refl : _ = sanswer _ (inl (VBool false))))|reflexivity].
      rewrite (OV (fun a => a)) by reflexivity. reflexivity.
Qed.

(** ** One method *)
Lemma sorted_nth : forall l p q i j, StronglySorted lt l -> p < q -> nth_error l p = Some i -> nth_error l q = Some j -> i < j.
Proof.
  intros l p q i j H. revert p q. induction H as [|a l H IH F]; intros p q PQ A B; [destruct p; discriminate|].
  destruct q as [|q]; [lia|]. destruct p as [|p]; cbn in *.
  - inversion A; subst. rewrite Forall_forall in F. apply F. eapply nth_error_In; eauto.
  - eapply (IH p q); eauto. lia.
Qed.

Lemma block_single : forall (acc : nat -> nat -> Prop) j act p, block_at acc [j] act p <-> exists i, nth_error act p = Some i /\ acc j i.
Proof.
  intros acc j act p. unfold block_at. cbn. split.
  - intros [L H]. destruct (nth_error act p) as [i|] eqn:N; [|apply nth_error_None in N; lia]. exists i. split; auto.
    apply (H 0 j i); auto. now rewrite Nat.add_0_r.
  - intros (i & N & A). split; [assert (p < length act) by (apply nth_error_Some; congruence); lia|].
    intros [|k] m i' M N'; cbn in M; [|destruct k; discriminate]. inversion M; subst. rewrite Nat.add_0_r, N in N'. now inversion N'; subst.
Qed.

Lemma nth_slice : forall (act : list nat) p i, nth_error act p = Some i -> firstn 1 (skipn p act) = [i].
Proof. induction act as [|a act IH]; intros [|p] i H; try discriminate; [now inversion H|]. cbn in *. auto. Qed.

Lemma row_single : forall (acc : nat -> nat -> Prop) j act s occs e, StronglySorted lt act -> in_a_row acc act [[j]] s occs e ->
  let its := flat_map (occ_items act [[j]]) occs in
  s <= e /\ length its = length occs /\ StronglySorted lt its /\
  (forall i, In i its <-> exists p, s <= p < e /\ nth_error act p = Some i /\ acc j i).
Proof.
  intros acc j act s occs e SA H. induction H as [s|s ps e occs e' LM R (LE & LN & SI & IN)]; cbv zeta in *.
  - cbn. repeat split; auto; [constructor|tauto|intros (p & L & _); lia].
  - inversion LM as [|? ? ? p ps' ? SP BL FST LM']; subst. inversion LM'; subst. cbn [length] in *.
    apply block_single in BL. destruct BL as (i0 & N0 & A0).
    assert (Q : occ_items act [[j]] [p] = [i0]) by (cbn [occ_items length]; rewrite (nth_slice _ _ _ N0); reflexivity).
    cbn [flat_map]. rewrite Q. cbn [app length]. split; [lia|]. split; [congruence|]. split.
    + constructor; auto. rewrite Forall_forall. intros i I. apply IN in I. destruct I as (q & L & N & _). eapply (sorted_nth act p q); eauto. lia.
    + intro i. cbn. rewrite IN. split.
      * intros [<-|(q & L & N & A)]; [exists p; repeat split; auto; lia|exists q; repeat split; auto; lia].
      * intros (q & L & N & A). destruct (Nat.eq_dec q p) as [->|NE]; [left; congruence|].
        destruct (Nat.lt_ge_cases q p) as [LT|GE].
        { exfalso. apply (FST q); [lia|]. apply block_single. eauto. }
        right. exists q. repeat split; auto; lia.
Qed.

Lemma verify_single : forall f m0 os s rs x ms s1 sc qs,
  sexec_all E (S f) os (sinit m0) = SOk s rs -> mentioned_all E s [fst x] ms s1 -> s_uncaught s = 0 ->
  sound_scope s1 [x] sc -> (Z.of_nat (length (s_calls s1)) <= int_max)%Z -> decided E s1 [x] -> Forall valid_quant qs ->
  let after := statement_over s s1 1 in
  exists fitting, StronglySorted lt fitting /\
    (forall i, In i fitting <-> chosen E s1 [x] sc [SLeaf 0] i /\ fits E s1 x i) /\
    ((Spec_Verify.accepts (demanded qs) (Z.of_nat (length fitting)) /\
      leads (S f) m0 (os ++ [OStmt [x] (SVerify sc [SLeaf 0] (map VsQuant qs))]) (with_marks fitting after) (rs ++ [inl VVoid]) /\
      leads (S f) m0 (os ++ [OStmt [x] (SVerify sc [SLeaf 0] (map VsQuant qs ++ [VsBool]))]) (with_marks fitting after) (rs ++ [inl (VBool true)])) \/
     (~ Spec_Verify.accepts (demanded qs) (Z.of_nat (length fitting)) /\
      (exists t k actual, shown (demanded qs) t k /\ StronglySorted lt actual /\ (forall i, In i actual <-> chosen E s1 [x] sc [SLeaf 0] i) /\
        let ev := EvSequence t [SLeaf (length (s_ctxs s))] actual k (Z.of_nat (length fitting)) in
        (listeners_quiet E s ev ->
         leads (S f) m0 (os ++ [OStmt [x] (SVerify sc [SLeaf 0] (map VsQuant qs))]) (notified E after ev) (rs ++ [reaction E s ev]))) /\
      leads (S f) m0 (os ++ [OStmt [x] (SVerify sc [SLeaf 0] (map VsQuant qs ++ [VsBool]))]) after (rs ++ [inl (VBool false)]))).
Proof.
  intros f m0 os s rs x ms s1 sc qs X M U SS SM DC VQ after.
  assert (SP : Forall (sound_sequence (length [x])) [SLeaf 0]).
  { constructor; [|constructor]. unfold sound_sequence. cbn. split; [constructor|]. split; [unfold int_max; lia|]. constructor; auto. }
  destruct (verify_program f m0 os s rs [x] ms s1 sc [SLeaf 0] qs X M U SS ltac:(discriminate) SP SM DC VQ)
    as (actual & n & marks & A1 & A2 & A3 & A4 & A5).
  destruct A4 as (occs & e & pre & ps & LO & MK & RW & GU). cbn [map spelled] in *.
  destruct GU as (m' & post & e' & SPL & LM & NO). 
  assert (pre = []) as -> by (destruct pre as [|? [|]]; [reflexivity|discriminate|discriminate]). inversion SPL; subst m' post. inversion LM; subst.
  cbn [occ_items] in A5. rewrite app_nil_r in A5.
  destruct (row_single (accepts_at E s1 [x]) 0 actual 0 occs e' A1 RW) as (_ & LN & SI & IN).
  set (fitting := flat_map (occ_items actual [[0]]) occs) in *.
  exists fitting. split; [exact SI|]. split.
  { intro i. rewrite IN, <- A2. split.
    - intros (p & _ & N & (x' & NX & F)). inversion NX; subst. split; auto. eapply nth_error_In; eauto.
    - intros [I F]. destruct (In_nth_error _ _ I) as (p & N). exists p. split; [split; [lia|]|split; [exact N|exists x; auto]].
      destruct (Nat.lt_ge_cases p e') as [|GE]; auto. exfalso. apply (NO p GE). apply block_single. exists i. split; auto. exists x. auto. }
  rewrite LN. destruct A5 as [A5|(AC & (t & k & SH & V) & V')]; [left; exact A5|right]. split; [exact AC|]. split; [|exact V'].
  exists t, k, actual. split; [exact SH|]. split; [exact A1|]. split; [exact A2|]. cbn [renumbered] in V. rewrite Nat.add_0_r in V. exact V.
Qed.

(** A call that fits an expression is one of the mocks involved. *)
Lemma designates_target : forall s t m e r, designates E s t m e r -> target_mock t = m.
Proof. intros s t m e r (k & d & T & _). exact T. Qed.

Lemma over_verified : forall s ts ms s1 n i, mentioned_all E s ts ms s1 ->
  (verified_call (statement_over s s1 n) i <-> verified_call s i).
Proof.
  intros s ts ms s1 n i M. destruct (mentioned_all_rest _ _ _ _ M) as (_ & _ & C & _). unfold verified_call, statement_over. cbn. now rewrite C.
Qed.

Lemma marks_verified : forall l s i, verified_call (with_marks l s) i <-> verified_call s i \/ (In i l /\ i < length (s_calls s)).
Proof.
  intros l s i. unfold verified_call. rewrite with_marks_at. split.
  - intros (c & H & V). destruct (nth_error (s_calls s) i) as [c0|] eqn:N; [|discriminate].
    assert (L : i < length (s_calls s)) by (apply nth_error_Some; congruence).
    destruct (existsb (Nat.eqb i) l) eqn:X; [right; split; [apply existsb_nat; exact X|exact L]|left].
    exists c. split; auto.
  - intros [(c & N & V)|[I L]].
    + rewrite N. destruct (existsb _ l); eexists; split; try reflexivity. exact V.
    + destruct (nth_error (s_calls s) i) as [c0|] eqn:N; [|apply nth_error_None in N; lia].
      apply existsb_nat in I. rewrite I. eexists. split; reflexivity.
Qed.
End S.
