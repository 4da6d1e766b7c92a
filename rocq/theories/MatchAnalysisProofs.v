(** Proofs about MatchAnalysis.v against Spec_Match.v. *)
From Coq Require Import List ZArith Lia.
From Verif Require Import Base CInt Sequences SequencesProofs MatchAnalysis Spec_Match.
Import ListNotations.
Open Scope Z_scope.

Section MAP.
Context {I M : Type}.
Variable mt : M -> I -> outcome bool.
Variable f : M -> I -> bool.
Let acc (m : M) (i : I) : Prop := f m i = true.

Variable act : list I.
Hypothesis act_small : Z.of_nat (length act) <= int_max.

Definition defined_on (ms : list M) : Prop :=
  forall m i, In m ms -> In i act -> mt m i = Def (f m i).

Lemma vec_at_nat : forall p i, nth_error act p = Some i -> vec_at act (Z.of_nat p) = Def i.
Proof.
  intros p i H. unfold vec_at. destruct (Z.ltb_spec (Z.of_nat p) 0); try lia.
  rewrite Nat2Z.id, H. reflexivity.
Qed.

Lemma isMatch_from_spec : forall ms p j,
  defined_on ms ->
  (p + j + length ms <= length act)%nat ->
  (isMatch_from mt act ms (Z.of_nat p) (Z.of_nat j) = Def true /\
   forall k m i, nth_error ms k = Some m -> nth_error act (p + j + k) = Some i -> acc m i) \/
  (isMatch_from mt act ms (Z.of_nat p) (Z.of_nat j) = Def false /\
   exists k m i, nth_error ms k = Some m /\ nth_error act (p + j + k) = Some i /\ ~ acc m i).
Proof.
  induction ms as [|e rest IH]; intros p j Hdef Hlen; simpl.
  - left. split; auto. intros [|k] m i Hk; discriminate.
  - simpl in Hlen.
    destruct (nth_error act (p + j)) as [a|] eqn:Ha.
    2:{ apply nth_error_None in Ha. lia. }
    assert (Hidx : to_uint32 (to_uint32 (Z.of_nat p) + Z.of_nat j) = Z.of_nat (p + j)).
    { unfold int_max in act_small. rewrite (to_uint32_id (Z.of_nat p)) by (unfold two32; lia).
      rewrite to_uint32_id by (unfold two32; lia). lia. }
    rewrite Hidx, (vec_at_nat _ _ Ha). simpl.
    rewrite (Hdef e a) by (simpl; eauto using nth_error_In). simpl.
    destruct (f e a) eqn:Hf.
    + replace (to_uint32 (Z.of_nat j + 1)) with (Z.of_nat (S j)).
      2:{ unfold int_max in act_small. rewrite to_uint32_id by (unfold two32; lia). lia. }
      destruct (IH p (S j)) as [[HT Hall]|[HF [k [m [i [Hk [Hi Hn]]]]]]].
      * intros m i Hm. apply Hdef. now right.
      * lia.
      * left. split; auto. intros [|k] m i Hk Hi; simpl in Hk.
        -- injection Hk as <-. rewrite Nat.add_0_r in Hi. rewrite Ha in Hi.
           injection Hi as <-. exact Hf.
        -- apply (Hall k); auto. replace (p + S j + k)%nat with (p + j + S k)%nat by lia. auto.
      * right. split; auto. exists (S k), m, i. repeat split; auto.
        replace (p + j + S k)%nat with (p + S j + k)%nat by lia. auto.
    + right. split; auto. exists 0%nat, e, a. repeat split; auto.
      * rewrite Nat.add_0_r. auto.
      * unfold acc. congruence.
Qed.

Lemma isMatch_spec : forall ms p,
  defined_on ms -> (p + length ms <= length act)%nat ->
  (isMatch mt act ms (Z.of_nat p) = Def true /\ block_at acc ms act p) \/
  (isMatch mt act ms (Z.of_nat p) = Def false /\ ~ block_at acc ms act p).
Proof.
  intros ms p Hd Hlen. unfold isMatch.
  destruct (isMatch_from_spec ms p 0 Hd) as [[HT Hall]|[HF [k [m [i [Hk [Hi Hn]]]]]]]; [lia| |].
  - left. split; auto. split; auto. intros j m i Hj Hi.
    apply (Hall j); auto. now rewrite Nat.add_0_r.
  - right. split; auto. intros [_ Hb]. apply Hn. apply (Hb k); auto.
    now rewrite Nat.add_0_r in Hi.
Qed.

Lemma loop_spec : forall ms n fuel p,
  defined_on ms ->
  (n = length act + 1 - length ms - p)%nat -> (n < fuel)%nat ->
  let bound := Z.of_nat (length act) - Z.of_nat (length ms) + 1 in
  (exists q, findNextMatch_loop mt fuel act ms (Z.of_nat p) bound = Def (Z.of_nat q) /\
     (p <= q)%nat /\ block_at acc ms act q /\
     forall r, (p <= r)%nat -> block_at acc ms act r -> (q <= r)%nat) \/
  (findNextMatch_loop mt fuel act ms (Z.of_nat p) bound = Def (-1) /\
     forall r, (p <= r)%nat -> ~ block_at acc ms act r).
Proof.
  intros ms n. induction n as [|n IH]; intros [|fuel] p Hd Hn Hf bound; try lia.
  - simpl. destruct (Z.ltb_spec (Z.of_nat p) bound) as [Hlt|Hge].
    + unfold bound in Hlt. lia.
    + right. split; auto. intros r Hr [Hb _]. lia.
  - simpl. destruct (Z.ltb_spec (Z.of_nat p) bound) as [Hlt|Hge].
    2:{ unfold bound in Hge. lia. }
    unfold bound in Hlt.
    destruct (isMatch_spec ms p Hd) as [[HT Hb]|[HF Hb]]; [lia| |].
    + rewrite HT. simpl. left. exists p. repeat split; auto; apply Hb.
    + rewrite HF. simpl. replace (Z.of_nat p + 1) with (Z.of_nat (S p)) by lia.
      destruct (IH fuel (S p) Hd) as [[q [Hq [Hle [Hbq Hmin]]]]|[Hm Hno]]; try lia.
      * left. exists q. split; [exact Hq|]. split; [lia|]. split; [exact Hbq|].
        intros r Hr Hbr. destruct (Nat.eq_dec r p) as [->|Hne]; [contradiction|].
        apply Hmin; auto. lia.
      * right. split; [exact Hm|]. intros r Hr Hbr.
        destruct (Nat.eq_dec r p) as [->|Hne]; [contradiction|]. apply (Hno r); auto. lia.
Qed.

(** Conditions on one sequence of the pattern. *)
Definition seq_ok (s : sequence M) : Prop :=
  seq_built s /\ Z.of_nat (length (spelled s)) <= int_max /\
  defined_on (spelled s).

Lemma findNextMatch_seq_spec : forall s p,
  seq_ok s ->
  (exists q, findNextMatch_seq mt s act (Z.of_nat p) = Def (Z.of_nat q) /\
     (p <= q)%nat /\ block_at acc (spelled s) act q /\
     forall r, (p <= r)%nat -> block_at acc (spelled s) act r -> (q <= r)%nat) \/
  (findNextMatch_seq mt s act (Z.of_nat p) = Def (-1) /\
     forall r, (p <= r)%nat -> ~ block_at acc (spelled s) act r).
Proof.
  intros s p [Hb [Hlen Hd]]. unfold findNextMatch_seq, int_size. rewrite expected_spelled.
  pose proof (expected_nonempty s Hb) as Hne.
  set (ms := spelled s) in *.
  rewrite !to_int32_id by (unfold int_min, int_max in *; lia).
  unfold isub, iadd. rewrite int_ck_ok by (unfold int_min, int_max in *; lia). cbn [obind].
  rewrite int_ck_ok by (unfold int_min, int_max in *; lia). cbn [obind].
  apply (loop_spec ms (length act + 1 - length ms - p)); auto. lia.
Qed.

Lemma collect_loop_spec : forall n fuel p matched,
  (p + n <= length act)%nat -> (n < fuel)%nat ->
  collect_loop fuel act matched (Z.of_nat p) (Z.of_nat (p + n)) =
  Def (matched ++ firstn n (skipn p act)).
Proof.
  induction n as [|n IH]; intros [|fuel] p matched Hle Hf; try lia; simpl.
  - destruct (Z.ltb_spec (Z.of_nat p) (Z.of_nat (p + 0))); try lia. now rewrite app_nil_r.
  - destruct (Z.ltb_spec (Z.of_nat p) (Z.of_nat (p + S n))) as [Hlt|Hge]; try lia.
    destruct (nth_error act p) as [a|] eqn:Ha.
    2:{ apply nth_error_None in Ha. lia. }
    rewrite (vec_at_nat _ _ Ha). simpl.
    replace (Z.of_nat p + 1) with (Z.of_nat (S p)) by lia.
    replace (p + S n)%nat with (S p + n)%nat by lia.
    rewrite IH by lia. rewrite <- app_assoc. simpl. do 2 f_equal.
    assert (Hsk : skipn p act = a :: skipn (S p) act).
    { clear - Ha. revert p Ha. induction act as [|x l IHl]; intros [|p] Ha; simpl in *; try discriminate.
      - congruence.
      - apply IHl; auto. }
    rewrite Hsk. reflexivity.
Qed.

Lemma collect_spec : forall n p matched,
  (p + n <= length act)%nat ->
  collectMatchedInvocations act matched (Z.of_nat p) (Z.of_nat n) =
  Def (matched ++ firstn n (skipn p act)).
Proof.
  intros n p matched H. unfold collectMatchedInvocations, iadd.
  rewrite int_ck_ok by (unfold int_min, int_max in *; lia). cbn [obind].
  replace (Z.of_nat p + Z.of_nat n) with (Z.of_nat (p + n)) by lia.
  apply collect_loop_spec; lia.
Qed.

Definition expected_of (pattern : list (sequence M)) : list (list M) := map spelled pattern.

Lemma occurs_le : forall pat s ps e, occurs acc act pat s ps e -> (s <= e)%nat.
Proof. induction 1; lia. Qed.

Lemma occurs_end : forall pat s ps e, occurs acc act pat s ps e ->
  (s <= length act)%nat -> (e <= length act)%nat.
Proof. induction 1; auto. intros. apply IHoccurs. destruct H0. lia. Qed.

Lemma occurs_weaken : forall pat s s' ps e, occurs acc act pat s ps e -> (s' <= s)%nat ->
  pat <> [] -> occurs acc act pat s' ps e.
Proof.
  intros pat s s' ps e H Hle Hne. destruct H as [|ms rest s p ps e Hsp Hb Ho]; [congruence|].
  constructor; auto. lia.
Qed.

(** One pass over the pattern. *)
Lemma findNextMatch_spec : forall pattern s matched,
  Forall seq_ok pattern ->
  (exists ps e,
     findNextMatch mt pattern act (Z.of_nat s) matched
       = Def (Some (Z.of_nat e), matched ++ occ_items act (expected_of pattern) ps) /\
     occurs acc act (expected_of pattern) s ps e /\
     forall s' ps' e', (s <= s')%nat -> occurs acc act (expected_of pattern) s' ps' e' -> (e <= e')%nat) \/
  (exists pre post ps e,
     pattern = pre ++ post /\ post <> [] /\
     findNextMatch mt pattern act (Z.of_nat s) matched
       = Def (None, matched ++ occ_items act (expected_of pre) ps) /\
     occurs acc act (expected_of pre) s ps e /\
     forall s' ps' e', (s <= s')%nat -> ~ occurs acc act (expected_of pattern) s' ps' e').
Proof.
  induction pattern as [|q rest IH]; intros s matched Hok; simpl.
  - left. exists [], s. rewrite app_nil_r. repeat split; auto.
    + constructor.
    + intros s' ps' e' Hle H. inversion H; subst. auto.
  - inversion Hok as [|? ? Hq Hrest]; subst.
    pose proof Hq as [Hb [Hlen Hd]].
    destruct (findNextMatch_seq_spec q s Hq) as [[p [Hp [Hle [Hbl Hmin]]]]|[Hm Hno]].
    + rewrite Hp. simpl. destruct (Z.eqb_spec (Z.of_nat p) (-1)); try lia.
      assert (Hsz : seq_size q = Z.of_nat (length (spelled q))).
      { apply seq_size_exact; auto. unfold int_max, two32 in *. lia. }
      pose proof (proj1 Hbl) as Hbound.
      rewrite Hsz. rewrite to_int32_id by (unfold int_min, int_max in *; lia).
      rewrite collect_spec by lia. simpl.
      replace (to_int32 (to_uint32 (Z.of_nat p + Z.of_nat (length (spelled q)))))
        with (Z.of_nat (p + length (spelled q))).
      2:{ rewrite to_uint32_id by (unfold two32, int_max in *; lia).
          rewrite to_int32_id by (unfold int_min, int_max in *; lia). lia. }
      set (matched' := matched ++ firstn (length (spelled q)) (skipn p act)).
      destruct (IH (p + length (spelled q))%nat matched' Hrest)
        as [[ps [e [Hf [Ho Hm]]]]|[pre [post [ps [e [Hpp [Hpost [Hf [Ho Hno]]]]]]]]].
      * left. exists (p :: ps), e. split.
        { rewrite Hf. unfold matched'. rewrite <- app_assoc. reflexivity. }
        split; [constructor; auto|].
        intros s' ps' e' Hs' Ho'. inversion Ho' as [|? ? ? p' ? ? Hsp' Hb' Ho'']; subst.
        apply (Hm (p' + length (spelled q))%nat ps0); auto.
        assert (p <= p')%nat by (apply Hmin; auto; lia). lia.
      * right. exists (q :: pre), post, (p :: ps), e. split; [now rewrite Hpp|].
        split; auto. split.
        { rewrite Hf. unfold matched'. rewrite <- app_assoc. reflexivity. }
        split; [constructor; auto|].
        intros s' ps' e' Hs' Ho'. inversion Ho' as [|? ? ? p' ? ? Hsp' Hb' Ho'']; subst.
        apply (Hno (p' + length (spelled q))%nat ps0 e'); auto.
        assert (p <= p')%nat by (apply Hmin; auto; lia). lia.
    + rewrite Hm. simpl. right. exists [], (q :: rest), [], s. repeat split; auto.
      * discriminate.
      * simpl. now rewrite app_nil_r.
      * constructor.
      * intros s' ps' e' Hs' Ho'. inversion Ho' as [|? ? ? p' ? ? Hsp' Hb' Ho'']; subst.
        apply (Hno p'); auto. lia.
Qed.

Lemma occurs_progress : forall pattern s ps e, Forall seq_ok pattern -> pattern <> [] ->
  occurs acc act (expected_of pattern) s ps e -> (s < e <= length act)%nat.
Proof.
  intros [|q rest] s ps e Hok Hne Ho; [congruence|].
  inversion Hok as [|? ? Hq Hrest]; subst.
  simpl in Ho. inversion Ho as [|? ? ? p ps0 ? Hsp Hb Ho']; subst.
  pose proof (expected_nonempty q (proj1 Hq)) as Hn.
  pose proof (occurs_le _ _ _ _ Ho') as Hle.
  assert (Hb' := proj1 Hb).
  pose proof (occurs_end _ _ _ _ Ho' Hb'). lia.
Qed.

(** The whole count.  [pre] is the incomplete occurrence on which the last
    attempt gave up. *)
Lemma countMatches_loop_spec : forall pattern, Forall seq_ok pattern -> pattern <> [] ->
  forall fuel s c matched,
  (s <= length act)%nat -> (length act - s < fuel)%nat ->
  0 <= c -> c + Z.of_nat (length act - s) <= int_max ->
  exists occs pre post tail_ps e0 e,
    countMatches_loop mt fuel pattern act (Z.of_nat s) c matched
      = Def (c + Z.of_nat (length occs),
             matched ++ flat_map (occ_items act (expected_of pattern)) occs
                     ++ occ_items act (expected_of pre) tail_ps) /\
    series acc act (expected_of pattern) s occs /\
    pattern = pre ++ post /\ post <> [] /\
    occurs acc act (expected_of pre) e0 tail_ps e /\
    (forall s' occs', (s <= s')%nat -> series acc act (expected_of pattern) s' occs' ->
       (length occs' <= length occs)%nat).
Proof.
  intros pattern Hok Hne. induction fuel as [|fuel IH]; intros s c matched Hs Hfuel Hc Hcb; [lia|].
  simpl. destruct (findNextMatch_spec pattern s matched Hok)
    as [[ps [e [Hf [Ho Hm]]]]|[pre [post [ps [e [Hpp [Hpost [Hf [Ho Hno]]]]]]]]].
  - rewrite Hf. simpl. pose proof (occurs_progress _ _ _ _ Hok Hne Ho) as Hprog.
    unfold iadd. rewrite int_ck_ok by (unfold int_min, int_max in *; lia). simpl.
    destruct (IH e (c + 1) (matched ++ occ_items act (expected_of pattern) ps))
      as [occs [pre [post [tps [e0 [e1 [Hcnt [Hser [Hpp [Hpost [Htail Hmax]]]]]]]]]]]; try lia.
    exists (ps :: occs), pre, post, tps, e0, e1. split.
    { rewrite Hcnt. simpl length. simpl flat_map. rewrite <- !app_assoc. do 2 f_equal. lia. }
    split; [econstructor; eauto|]. repeat split; auto.
    intros s' occs' Hs' Hser'. inversion Hser' as [|? ps' e' occs'' Ho' Hser'']; subst; simpl; try lia.
    assert (e <= e')%nat by (eapply Hm; eauto).
    specialize (Hmax e' occs'' H Hser''). lia.
  - rewrite Hf. simpl. exists [], pre, post, ps, s, e. split.
    { simpl. now rewrite Z.add_0_r. }
    split; [constructor|]. repeat split; auto.
    intros s' occs' Hs' Hser'. inversion Hser' as [|? ps' e' occs'' Ho' Hser'']; subst; simpl; try lia.
    exfalso. eapply Hno; eauto.
Qed.

Lemma countMatches_full : forall pattern, Forall seq_ok pattern -> pattern <> [] ->
  exists occs pre post tail_ps e0 e,
    countMatches mt pattern act
      = Def (Z.of_nat (length occs),
             flat_map (occ_items act (expected_of pattern)) occs
                     ++ occ_items act (expected_of pre) tail_ps) /\
    series acc act (expected_of pattern) 0 occs /\
    pattern = pre ++ post /\ post <> [] /\
    occurs acc act (expected_of pre) e0 tail_ps e /\
    (forall occs', series acc act (expected_of pattern) 0 occs' ->
       (length occs' <= length occs)%nat).
Proof.
  intros pattern Hok Hne.
  destruct (countMatches_loop_spec pattern Hok Hne (S (length act)) 0 0 [])
    as [occs [pre [post [tps [e0 [e1 [Hcnt [Hser [Hpp [Hpost [Htail Hmax]]]]]]]]]]]; try lia.
  exists occs, pre, post, tps, e0, e1. repeat split; auto.
  intros occs' H. apply (Hmax 0%nat); auto.
Qed.

(** What is found, and what is collected on the way, exactly. *)
Lemma findNextMatch_left : forall pattern s matched,
  Forall seq_ok pattern ->
  (exists ps e,
     findNextMatch mt pattern act (Z.of_nat s) matched
       = Def (Some (Z.of_nat e), matched ++ occ_items act (expected_of pattern) ps) /\
     leftmost acc act (expected_of pattern) s ps e) \/
  (exists pre ps,
     findNextMatch mt pattern act (Z.of_nat s) matched = Def (None, matched ++ occ_items act pre ps) /\
     gives_up acc act (expected_of pattern) s pre ps).
Proof.
  induction pattern as [|q rest IH]; intros s matched Hok; simpl.
  - left. exists [], s. rewrite app_nil_r. split; auto. constructor.
  - inversion Hok as [|? ? Hq Hrest]; subst.
    pose proof Hq as [Hb [Hlen Hd]].
    destruct (findNextMatch_seq_spec q s Hq) as [[p [Hp [Hle [Hbl Hmin]]]]|[Hm Hno]].
    + rewrite Hp. simpl. destruct (Z.eqb_spec (Z.of_nat p) (-1)); try lia.
      assert (Hsz : seq_size q = Z.of_nat (length (spelled q))).
      { apply seq_size_exact; auto. unfold int_max, two32 in *. lia. }
      pose proof (proj1 Hbl) as Hbound.
      rewrite Hsz. rewrite to_int32_id by (unfold int_min, int_max in *; lia).
      rewrite collect_spec by lia. simpl.
      replace (to_int32 (to_uint32 (Z.of_nat p + Z.of_nat (length (spelled q)))))
        with (Z.of_nat (p + length (spelled q))).
      2:{ rewrite to_uint32_id by (unfold two32, int_max in *; lia).
          rewrite to_int32_id by (unfold int_min, int_max in *; lia). lia. }
      assert (Hf : forall r, (s <= r < p)%nat -> ~ block_at acc (spelled q) act r).
      { intros r Hr Hbr. specialize (Hmin r ltac:(lia) Hbr). lia. }
      destruct (IH (p + length (spelled q))%nat (matched ++ firstn (length (spelled q)) (skipn p act)) Hrest)
        as [[ps [e [HF HL]]]|[pre [ps [HF (ms & post & e & HP & HL & HN)]]]].
      * left. exists (p :: ps), e. split; [rewrite HF; now rewrite <- app_assoc|]. constructor; auto.
      * right. exists (spelled q :: pre), (p :: ps). split; [rewrite HF; now rewrite <- app_assoc|].
        exists ms, post, e. split; [cbn; now rewrite <- HP|]. split; auto. constructor; auto.
    + rewrite Hm. simpl. right. exists [], []. split; [cbn; now rewrite app_nil_r|].
      exists (spelled q), (expected_of rest), s. split; auto. split; auto. constructor.
Qed.

Lemma leftmost_occurs : forall pat s ps e, leftmost acc act pat s ps e -> occurs acc act pat s ps e.
Proof. induction 1; constructor; auto. Qed.

Lemma countMatches_loop_left : forall pattern, Forall seq_ok pattern -> pattern <> [] ->
  forall fuel s c matched,
  (s <= length act)%nat -> (length act - s < fuel)%nat ->
  0 <= c -> c + Z.of_nat (length act - s) <= int_max ->
  exists occs e0 pre ps,
    countMatches_loop mt fuel pattern act (Z.of_nat s) c matched
      = Def (c + Z.of_nat (length occs),
             matched ++ flat_map (occ_items act (expected_of pattern)) occs ++ occ_items act pre ps) /\
    in_a_row acc act (expected_of pattern) s occs e0 /\
    gives_up acc act (expected_of pattern) e0 pre ps.
Proof.
  intros pattern Hok Hne. induction fuel as [|fuel IH]; intros s c matched Hs Hfuel Hc Hcb; [lia|].
  simpl. destruct (findNextMatch_left pattern s matched Hok) as [[ps [e [Hf HL]]]|[pre [ps [Hf HG]]]].
  - rewrite Hf. simpl. pose proof (occurs_progress _ _ _ _ Hok Hne (leftmost_occurs _ _ _ _ HL)) as Hprog.
    unfold iadd. rewrite int_ck_ok by (unfold int_min, int_max in *; lia). simpl.
    destruct (IH e (c + 1) (matched ++ occ_items act (expected_of pattern) ps))
      as (occs & e0 & pre & tps & Hcnt & Hrow & Hg); try lia.
    exists (ps :: occs), e0, pre, tps. split.
    { rewrite Hcnt. simpl length. simpl flat_map. rewrite <- !app_assoc. do 2 f_equal. lia. }
    split; auto. econstructor; eauto.
  - rewrite Hf. simpl. exists [], s, pre, ps. split; [now rewrite Z.add_0_r|]. split; auto. constructor.
Qed.

Lemma countMatches_left : forall pattern, Forall seq_ok pattern -> pattern <> [] ->
  exists occs e0 pre ps,
    countMatches mt pattern act
      = Def (Z.of_nat (length occs), flat_map (occ_items act (expected_of pattern)) occs ++ occ_items act pre ps) /\
    in_a_row acc act (expected_of pattern) 0 occs e0 /\
    gives_up acc act (expected_of pattern) e0 pre ps.
Proof.
  intros pattern Hok Hne.
  destruct (countMatches_loop_left pattern Hok Hne (S (length act)) 0 0 []) as (occs & e0 & pre & ps & H); try lia.
  exists occs, e0, pre, ps. exact H.
Qed.

End MAP.

(** ** Consequences in the form used by the property files *)
Section Forms.
Context {I M : Type}.
Variable mt : M -> I -> outcome bool.
Variable f : M -> I -> bool.
Variable act : list I.
Hypothesis act_small : Z.of_nat (length act) <= int_max.

Lemma skipn_nth : forall (l : list I) p i, nth_error l p = Some i -> skipn p l = i :: skipn (S p) l.
Proof.
  induction l as [|x l IH]; intros [|p] i H; cbn in H; try discriminate.
  - injection H as ->. reflexivity.
  - cbn [skipn]. rewrite (IH p i H). reflexivity.
Qed.

Lemma skipn_add : forall n k (l : list I), skipn n (skipn k l) = skipn (n + k) l.
Proof.
  intros n k. revert n. induction k as [|k IH]; intros n l.
  - now rewrite Nat.add_0_r.
  - destruct l as [|x l]; [now rewrite !skipn_nil|]. cbn [skipn]. rewrite IH.
    now rewrite Nat.add_succ_r.
Qed.

Lemma filter_none : forall (g : I -> bool) l,
  (forall p i, nth_error l p = Some i -> g i = false) -> filter g l = [].
Proof.
  induction l as [|x l IH]; intros H; [reflexivity|]. cbn.
  rewrite (H 0%nat x eq_refl). apply IH. intros p i Hp. exact (H (S p) i Hp).
Qed.

Lemma filter_gap : forall (g : I -> bool) n l,
  (forall p i, (p < n)%nat -> nth_error l p = Some i -> g i = false) ->
  filter g l = filter g (skipn n l).
Proof.
  induction n as [|n IH]; intros l H; [reflexivity|]. destruct l as [|x l]; [reflexivity|].
  cbn [filter skipn]. rewrite (H 0%nat x ltac:(lia) eq_refl). apply IH.
  intros p i Hp Hi. apply (H (S p)); [lia | exact Hi].
Qed.

Lemma nth_error_skipn_add : forall n (l : list I) p, nth_error (skipn n l) p = nth_error l (n + p).
Proof.
  induction n as [|n IH]; intros l p; [reflexivity|]. destruct l as [|x l]; [now destruct p|].
  cbn. apply IH.
Qed.

Lemma single_occurs : forall m s p, (s <= p)%nat ->
  (exists i, nth_error act p = Some i /\ f m i = true) ->
  occurs (fun m i => f m i = true) act [[m]] s [p] (p + 1).
Proof.
  intros m s p Hs [i [Hi Hf]]. econstructor; [exact Hs| |cbn; constructor].
  split.
  - assert (p < length act)%nat by (apply nth_error_Some; congruence). cbn. lia.
  - intros [|[|j]] m' i' Hm Hi'; cbn in Hm; try discriminate.
    injection Hm as <-. rewrite Nat.add_0_r in Hi'. congruence.
Qed.

(** A pattern that is one single expectation counts the accepted invocations. *)
Lemma count_single_loop : forall m, defined_on mt f act [m] ->
  forall fuel s c matched, (s <= length act)%nat -> (length act - s < fuel)%nat ->
  0 <= c -> c + Z.of_nat (length act - s) <= int_max ->
  countMatches_loop mt fuel [SLeaf m] act (Z.of_nat s) c matched =
  Def (c + Z.of_nat (length (filter (f m) (skipn s act))), matched ++ filter (f m) (skipn s act)).
Proof.
  intros m Hd. induction fuel as [|fuel IH]; intros s c matched Hs Hf Hc Hm; [lia|].
  cbn [countMatches_loop].
  assert (Hok : Forall (seq_ok mt f act) [SLeaf m]).
  { repeat constructor; auto. cbn. unfold int_max. lia. }
  destruct (findNextMatch_spec mt f act act_small [SLeaf m] s matched Hok)
    as [(ps & e & E & Ho & Hmin) | (pre & post & ps & e & Hpp & Hne & E & Ho & Hno)].
  - rewrite E. cbn [obind].
    assert (L : (s < e <= length act)%nat).
    { apply (occurs_progress mt f act [SLeaf m] s ps e Hok); [discriminate | exact Ho]. }
    inversion Ho as [|ms rest s0 p ps' e' Hle Hb Hr]; subst.
    inversion Hr; subst. cbn [length] in *.
    destruct Hb as [Hlen Hb]. cbn [length] in Hlen.
    destruct (nth_error act p) as [i|] eqn:Hi; [|apply nth_error_None in Hi; lia].
    assert (Hfi : f m i = true).
    { apply (Hb 0%nat m i); [reflexivity | rewrite Nat.add_0_r; exact Hi]. }
    assert (Gap : forall q j, (s <= q < p)%nat -> nth_error act q = Some j -> f m j = false).
    { intros q j Hq Hj. destruct (f m j) eqn:Hfj; [|reflexivity]. exfalso.
      assert (Q := Hmin s [q] (q + 1)%nat ltac:(lia)
        (single_occurs m s q ltac:(lia) (ex_intro _ j (conj Hj Hfj)))). lia. }
    unfold iadd, int_ck, in_int. unfold int_max, int_min in *.
    replace ((-2147483648 <=? c + 1) && (c + 1 <=? 2147483647))%bool with true
      by (symmetry; apply andb_true_intro; split; apply Z.leb_le; lia).
    cbn [obind]. rewrite IH; try lia.
    assert (Q : filter (f m) (skipn s act) = i :: filter (f m) (skipn (p + 1) act)).
    { rewrite (filter_gap (f m) (p - s) (skipn s act)).
      - rewrite skipn_add. replace (p - s + s)%nat with p by lia.
        rewrite (skipn_nth act p i Hi). cbn [filter]. rewrite Hfi. f_equal.
        now replace (p + 1)%nat with (S p) by lia.
      - intros q j Hq Hj. rewrite nth_error_skipn_add in Hj. apply (Gap (s + q)%nat j); [lia | exact Hj]. }
    rewrite Q. cbn [length expected_of map occ_items spelled].
    rewrite (skipn_nth act p i Hi). cbn [firstn app]. rewrite <- app_assoc. cbn [app].
    f_equal. f_equal. lia.
  - rewrite E. cbn [obind].
    assert (pre = []).
    { destruct pre as [|x [|y pre]]; auto; cbn in Hpp; [|discriminate].
      injection Hpp as _ Hpp. destruct post; [contradiction | discriminate]. }
    subst pre. inversion Ho; subst. cbn [expected_of map occ_items]. 
    assert (Q : filter (f m) (skipn e act) = []).
    { apply filter_none. intros p i Hp. rewrite nth_error_skipn_add in Hp.
      destruct (f m i) eqn:Hfi; [|reflexivity]. exfalso.
      exact (Hno e [(e + p)%nat] (e + p + 1)%nat ltac:(lia)
        (single_occurs m e (e + p) ltac:(lia) (ex_intro _ i (conj Hp Hfi)))). }
    rewrite Q. cbn. now rewrite Z.add_0_r.
Qed.

Lemma count_single : forall m, (forall i, In i act -> mt m i = Def (f m i)) ->
  countMatches mt [SLeaf m] act =
  Def (Z.of_nat (length (filter (f m) act)), filter (f m) act).
Proof.
  intros m Hd. unfold countMatches.
  change 0 with (Z.of_nat 0) at 1.
  rewrite (count_single_loop m); cbn [skipn app]; try lia; auto.
  intros m' i [<-|[]] Hi. auto.
Qed.

(** Count and marked invocations of any pattern. *)
Lemma count_max : forall pattern, Forall (seq_ok mt f act) pattern -> pattern <> [] ->
  exists n marked, countMatches mt pattern act = Def (Z.of_nat n, marked) /\
    max_occurrences (fun m i => f m i = true) act (map spelled pattern) n.
Proof.
  intros pattern Hok Hne.
  destruct (countMatches_full mt f act act_small pattern Hok Hne)
    as (occs & pre & post & tp & e0 & e & E & Hs & _ & _ & _ & Hmax).
  do 2 eexists. split; [exact E|]. split; [|exact Hmax]. now exists occs.
Qed.

(** For a pattern that is one sequence, exactly the matched runs are marked. *)
Lemma marks_one_sequence : forall s, seq_ok mt f act s ->
  exists occs, countMatches mt [s] act =
      Def (Z.of_nat (length occs), flat_map (occ_items act [spelled s]) occs) /\
    series (fun m i => f m i = true) act [spelled s] 0 occs.
Proof.
  intros s Hok.
  destruct (countMatches_full mt f act act_small [s] (Forall_cons _ Hok (Forall_nil _)) ltac:(discriminate))
    as (occs & pre & post & tp & e0 & e & E & Hs & Hpp & Hne & Ho & _).
  assert (pre = []).
  { destruct pre as [|x [|y pre]]; auto; cbn in Hpp; [|discriminate].
    injection Hpp as _ Hpp. destruct post; [contradiction | discriminate]. }
  subst pre. cbn [expected_of map occ_items] in E. rewrite app_nil_r in E.
  exists occs. split; [exact E | exact Hs].
Qed.

End Forms.

(** Patterns with the same flattened sequences behave the same. *)
Section Congr.
Context {I M : Type}.
Variable mt : M -> I -> outcome bool.

Definition same_seq (a b : sequence M) : Prop :=
  seq_built a /\ seq_built b /\ spelled a = spelled b.

Lemma findNext_congr : forall p q, Forall2 same_seq p q -> forall act s matched,
  findNextMatch mt p act s matched = findNextMatch mt q act s matched.
Proof.
  induction 1 as [|a b p q (Ha & Hb & E) Hpq IH]; intros act s matched; [reflexivity|].
  cbn [findNextMatch]. unfold findNextMatch_seq. rewrite !expected_spelled, E.
  assert (S : seq_size a = seq_size b) by (rewrite !seq_size_mod by assumption; now rewrite E).
  rewrite S.
  match goal with |- obind ?x _ = _ => destruct x as [i| |]; cbn [obind]; try reflexivity end.
  destruct (i =? -1); [reflexivity|].
  destruct (collectMatchedInvocations _ _ _ _); cbn [obind]; try reflexivity. apply IH.
Qed.

Lemma count_congr : forall p q, Forall2 same_seq p q -> forall act,
  countMatches mt p act = countMatches mt q act.
Proof.
  intros p q H act. unfold countMatches.
  assert (L : forall fuel s c matched, countMatches_loop mt fuel p act s c matched =
                                       countMatches_loop mt fuel q act s c matched).
  { induction fuel as [|fuel IH]; intros s c matched; [reflexivity|]. cbn [countMatches_loop].
    rewrite (findNext_congr p q H). destruct (findNextMatch mt q act s matched) as [[[e|] l]| |]; cbn; auto.
    destruct (iadd c 1); cbn; auto. }
  apply L.
Qed.

Lemma n_fold_built : forall n (s : sequence M), seq_built s -> seq_built (n_fold n s).
Proof. induction n as [|[|n] IH]; intros s H; cbn in *; auto. Qed.

Lemma copies_snoc : forall n (l : list M), copies n l ++ l = l ++ copies n l.
Proof. induction n as [|n IH]; intros l; cbn; [now rewrite app_nil_r|]. now rewrite <- app_assoc, IH. Qed.

Lemma n_fold_expected : forall n (s : sequence M), (1 <= n)%nat ->
  spelled (n_fold n s) = concat (repeat (spelled s) n).
Proof.
  induction n as [|[|n] IH]; intros s H; [lia| |].
  - cbn. now rewrite app_nil_r.
  - change (n_fold (S (S n)) s) with (SConcat (n_fold (S n) s) s).
    cbn [spelled]. rewrite IH by lia. now rewrite <- !copies_repeat, copies_snoc.
Qed.

Lemma plug_congr : forall c a b, seq_built (plug c a) -> seq_built b ->
  spelled a = spelled b -> same_seq (plug c a) (plug c b).
Proof.
  induction c as [|c IH r|l c IH|c IH n]; intros a b Ha Hb E; cbn in *.
  - split; auto.
  - destruct Ha as [H1 H2]. destruct (IH a b H1 Hb E) as (A & B & C).
    split; cbn; auto. split; auto. now rewrite C.
  - destruct Ha as [H1 H2]. destruct (IH a b H2 Hb E) as (A & B & C).
    split; cbn; auto. split; auto. now rewrite C.
  - destruct Ha as [H1 H2]. destruct (IH a b H1 Hb E) as (A & B & C).
    split; cbn; auto. split; auto. now rewrite C.
Qed.

Lemma plug_hole_built : forall c (s : sequence M), seq_built (plug c s) -> seq_built s.
Proof. induction c as [|c IH r|l c IH|c IH n]; intros s H; cbn in H; tauto || (apply IH; tauto). Qed.

Lemma Forall2_same_refl : forall l, Forall seq_built l -> Forall2 same_seq l l.
Proof. induction 1; constructor; auto. repeat split; auto. Qed.

Lemma repeat_is_sum : forall c s n s', seq_times s n = Some s' ->
  forall pre post act, Forall seq_built pre -> Forall seq_built post -> seq_built (plug c s') ->
  countMatches mt (pre ++ plug c s' :: post) act =
  countMatches mt (pre ++ plug c (n_fold (Z.to_nat n) s) :: post) act.
Proof.
  intros c s n s' H pre post act Hpre Hpost Hb. apply seq_times_some in H as [Hn ->].
  pose proof (plug_hole_built c _ Hb) as Hs. cbn in Hs.
  apply count_congr. apply Forall2_app; [now apply Forall2_same_refl|].
  constructor; [|now apply Forall2_same_refl].
  apply plug_congr; auto.
  - apply n_fold_built. tauto.
  - rewrite n_fold_expected by lia. reflexivity.
Qed.

End Congr.
