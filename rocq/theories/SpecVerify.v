(** Verification statements: the calls they are about and their verdicts.  The facts behind
    P_Verification.v. *)
From Coq Require Import Bool ZArith Lia List Sorted Permutation.
From Verif Require Import Base CInt Values ArgMatchers InvMatchers ActionSeq Sequences SequencesProofs MatchAnalysis Spec_Match MatchAnalysisProofs
  Proxy Events EventsProofs Expectation Spec_Verify ExpectationProofs ReturnSet Syntax World Spec_World WorldRel WorldSimA WorldSimB WorldSimC WorldSimD WorldSimE WorldSim Spec_View SpecFacts SpecKept
  SpecCalls SpecLasting Spec_Alike SpecAlike SpecFrame SpecMocks SpecHistory Spec_Verification.
From Verif Require Import Spec_Conditions ConditionProofs.
Import ListNotations.
Open Scope nat_scope.

(** ** Lists *)
Lemma seq_map_sorted : forall (p : nat -> bool) n a, StronglySorted lt (filter p (seq a n)).
Proof.
  intros p n. induction n as [|n IH]; intro a; cbn; [constructor|]. destruct (p a); auto. constructor; auto.
  apply Forall_forall. intros x H. apply filter_In in H. destruct H as [H _]. apply in_seq in H. lia.
Qed.
Lemma existsb_nat : forall i l, existsb (Nat.eqb i) l = true <-> In i l.
Proof.
  intros i l. rewrite existsb_exists. split.
  - intros (x & H & Q). apply Nat.eqb_eq in Q. now subst.
  - intro H. exists i. split; auto. apply Nat.eqb_refl.
Qed.

Section S.
Variable E : env.

Definition unique (s : sworld) : Prop := forall m e me m' e' me', method_at s m e = Some me -> method_at s m' e' = Some me' ->
  me_no me = me_no me' -> m = m' /\ e = e'.

Lemma R_unique : forall w s, R E w s -> unique s.
Proof.
  intros w s (own & tow & HR) m e me m' e' me' A B N. eapply (un_no _ _ (r_uni _ _ _ _ _ HR)); [| |exact N].
  - unfold method_at in A. destruct (live (s_mocks s) m) as [k|] eqn:K; [|discriminate]. exists k. eauto.
  - unfold method_at in B. destruct (live (s_mocks s) m') as [k|] eqn:K; [|discriminate]. exists k. eauto.
Qed.

(** ** The expressions of a statement and the calls they accept *)
Section Z.
Variable z : sworld.
Variable xs : list (target * option imatcher).
Variable b : nat.
Hypothesis TI : tidy z.
Hypothesis UN : unique z.
Hypothesis CX : forall j x, nth_error xs j = Some x -> live (s_ctxs z) (b + j) = new_ctx x.
Hypothesis AT : forall j x, nth_error xs j = Some x -> exists m e, is_at E z (fst x) m e.
Hypothesis DC : decided E z xs.

Lemma designates_fun : forall t m e r m' e' r', designates E z t m e r -> designates E z t m' e' r' -> m = m' /\ e = e'.
Proof.
  intros t m e r m' e' r' (k & d & T & K & D & L & H) (k' & d' & T' & K' & D' & L' & H'). rewrite <- T in K. rewrite <- T' in K'.
  rewrite K in K'. inversion K'; subst k'. rewrite D in D'. inversion D'; subst d'. split; [congruence|].
  destruct t; [destruct H, H'; congruence|]. destruct H as [H _], H' as [H' _]. congruence.
Qed.

Lemma method_of : forall t m e me r, designates E z t m e r -> method_at z m e = Some me -> smethod_of E z t = Def me.
Proof.
  intros t m e me r (k & d & T & K & D & L & H) M. unfold smethod_of. rewrite T, K. unfold method_at in M. rewrite K in M.
  destruct t as [m' slot c|m']; [destruct H as [-> _]; now rewrite M|]. rewrite D. destruct H as [-> _]. now rewrite M.
Qed.

Lemma expression : forall j x, nth_error xs j = Some x ->
  exists m e me r, designates E z (fst x) m e r /\ method_at z m e = Some me /\ smethod_of E z (fst x) = Def me /\
    sunused z (b + j) = Def (mkSctx (fst x) (cond_of (snd x)) [] false).
Proof.
  intros j x H. destruct (AT j x H) as (m & e & me & r & D & M). exists m, e, me, r. split; auto. split; auto. split; [eapply method_of; eauto|].
  unfold sunused. now rewrite (CX j x H).
Qed.

Lemma call_in : forall m e i, recorded z m e i -> exists me c, method_at z m e = Some me /\ nth_error (s_calls z) i = Some c /\ ca_method c = me_no me.
Proof.
  intros m e i (me & M & IN). destruct (TI m e me M) as (_ & H). destruct (H i IN) as (c & C & Q). eauto.
Qed.

Definition known (i : nat) : Prop := exists m, of_mock z m i.

(** Whether an expression accepts a recorded call is decided, and as [fits] says. *)
Lemma matches_fits : forall j x i, nth_error xs j = Some x -> known i ->
  exists d, sctx_matches E z (b + j) i = Def d /\ (d = true <-> fits E z x i).
Proof.
  intros j x i H (m0 & e0 & RC). destruct (expression j x H) as (m & e & me & r & D & M & MO & U).
  destruct (call_in _ _ _ RC) as (me0 & c & M0 & C & N). unfold sctx_matches. rewrite U. cbn [obind sx_target sx_cond]. rewrite MO. cbn [obind].
  rewrite C. cbn [of_option obind]. destruct (Nat.eqb_spec (ca_method c) (me_no me)) as [Q|Q].
  - assert (X : m0 = m /\ e0 = e) by (apply (UN _ _ _ _ _ _ M0 M); congruence). destruct X as [-> ->].
    assert (Hd : exists d, im_matches_args (s_mem z) (cond_of (snd x)) (ca_args c) = Def d).
    { apply decided_iff. apply (DC x m e r i c); auto. eapply nth_error_In; eauto. }
    destruct Hd as [d Hd].
    exists d. unfold scond_accepts. rewrite C. split; auto. split.
    + intros ->. exists m, e, r, c. split; [auto|]. split; [auto|]. split; [auto|]. now apply satisfied_iff.
    + intros (m' & e' & r' & c' & D' & R' & C' & A). rewrite C in C'. inversion C'; subst c'. apply satisfied_iff in A. congruence.
  - exists false. split; auto. split; [discriminate|]. intros (m' & e' & r' & c' & D' & R' & C' & A).
    destruct (designates_fun _ _ _ _ _ _ _ D D') as [<- <-]. destruct (call_in _ _ _ R') as (me' & c2 & M' & C2 & N').
    congruence.
Qed.

Lemma fits_known : forall x i, fits E z x i -> known i.
Proof. intros x i (m & e & r & c & D & RC & _). exists m, e. exact RC. Qed.

Lemma sfilter_spec : forall g l, (forall i, In i l -> exists d, g i = Def d) ->
  exists l', sfilter g l = Def l' /\ forall i, In i l' <-> In i l /\ g i = Def true.
Proof.
  intros g l. induction l as [|a l IH]; intro H; cbn.
  - exists []. split; auto. intro i. cbn. tauto.
  - destruct (H a (or_introl eq_refl)) as [d D]. destruct IH as (l' & Q & IH); [intros; apply H; now right|]. rewrite D. cbn. rewrite Q. cbn.
    exists (if d then a :: l' else l'). split; auto. intro i. destruct d; cbn; rewrite IH.
    + split; [intros [->|[? ?]]; auto|intros [[->|?] ?]; auto].
    + split; [intros [? ?]; auto|intros [[->|?] ?]; auto; congruence].
Qed.

Lemma mock_calls : forall m k i, live (s_mocks z) m = Some k ->
  In i (flat_map (fun y : option method => match y with Some me => me_calls me | None => [] end) (sk_meths k)) <-> of_mock z m i.
Proof.
  intros m k i K. rewrite in_flat_map. split.
  - intros ([me|] & IN & H); [|destruct H]. apply In_nth_error in IN. destruct IN as [e N]. exists e, me.
    unfold method_at, live. unfold live in K. rewrite K. now rewrite N.
  - intros (e & me & M & IN). unfold method_at in M. rewrite K in M. exists (Some me). split; auto.
    unfold live in M. destruct (nth_error (sk_meths k) e) as [[y|]|] eqn:N; inversion M; subst. eapply nth_error_In; eauto.
Qed.

Lemma verified_spec : forall i, sverified z i = true <-> verified_call z i.
Proof.
  intro i. unfold sverified, verified_call. destruct (nth_error (s_calls z) i) as [c|] eqn:N; split; intro H; try discriminate; eauto.
  - destruct H as (c' & Q & V). congruence.
  - destruct H as (c' & Q & V). congruence.
Qed.
Lemma unverified_filter : forall l i, In i (filter (fun j => negb (sverified z j)) l) <-> In i l /\ ~ verified_call z i.
Proof.
  intros l i. rewrite filter_In, <- verified_spec. destruct (sverified z i); cbn; intuition congruence.
Qed.

Definition placed_list := (fix all (cs : list nat) (l : list source) : option (list source) :=
  match l with [] => Some [] | s' :: r => match place_source cs s', all cs r with Some y, Some ys => Some (y :: ys) | _, _ => None end end).

Variable cs : list nat.
Hypothesis CS : forall j, j < length xs -> nth_error cs j = Some (b + j).

Fixpoint source_size (y : source) : nat :=
  match y with SUnverified l => S ((fix sum (l : list source) := match l with [] => 0 | x :: r => source_size x + sum r end) l) | _ => 1 end.

Lemma source_spec : forall n y, source_size y <= n -> sound_source z xs y ->
  exists y' l, place_source cs y = Some y' /\ ssource E z y' = Def l /\ forall i, In i l <-> selects E z xs y i.
Proof.
  induction n as [|n IH]; intros y SZ SD; [destruct y; cbn in SZ; lia|]. destruct y as [m|j|l]; cbn [place_source sound_source selects] in *.
  - destruct (live (s_mocks z) m) as [k|] eqn:K; [|congruence]. exists (SMock m). cbn [ssource]. rewrite K. eexists. split; auto. split; [reflexivity|].
    intro i. now apply mock_calls.
  - rewrite (CS j SD). exists (SCtx (b + j)). cbn [ssource]. destruct (nth_error xs j) as [x|] eqn:NX; [|apply nth_error_None in NX; lia].
    destruct (expression j x NX) as (m & e & me & r & D & M & MO & U). rewrite U. cbn [obind sx_target sx_cond]. rewrite MO. cbn [obind].
    destruct (sfilter_spec (scond_accepts z (cond_of (snd x))) (me_calls me)) as (l & Q & H).
    + intros i IN. destruct (TI m e me M) as (_ & T). destruct (T i IN) as (c & C & N). unfold scond_accepts. rewrite C.
      apply decided_iff. eapply (DC x m e r i c); eauto; [eapply nth_error_In; eauto|]. exists me. auto.
    + exists l. split; auto. split; auto. intro i. rewrite H. split.
      * intros [IN A]. exists x. split; auto. unfold scond_accepts in A. destruct (nth_error (s_calls z) i) as [c|] eqn:C; [|discriminate].
        exists m, e, r, c. split; [auto|]. split; [exists me; auto|]. split; [auto|]. now apply satisfied_iff.
      * intros (x' & X & (m' & e' & r' & c & D' & (me' & M' & IN) & C & A)). inversion X; subst x'.
        destruct (designates_fun _ _ _ _ _ _ _ D D') as [<- <-]. rewrite M in M'. inversion M'; subst me'. split; auto. unfold scond_accepts. rewrite C. now apply satisfied_iff.
  - cbn in SZ.
    assert (Q : exists ys l', (fix all (l : list source) : option (list source) :=
               match l with
               | [] => Some []
               | s' :: r => match place_source cs s', all r with Some y, Some ys => Some (y :: ys) | _, _ => None end
               end) l = Some ys /\
               (fix all (l : list source) : outcome (list nat) :=
                    match l with [] => Def [] | y :: r => let! a := ssource E z y in let! b := all r in Def (a ++ b) end) ys = Def l' /\
               forall i, In i l' <-> (fix any (l : list source) : Prop := match l with [] => False | y' :: r => selects E z xs y' i \/ any r end) l).
    { clear - IH SZ SD. induction l as [|y l IHl].
      - exists [], []. split; auto. split; auto. intro i. cbn. tauto.
      - destruct SD as [SY SL]. destruct (IH y) as (y' & ly & P & Q & H); auto; [lia|]. destruct IHl as (ys & l' & P' & Q' & H'); auto; [lia|].
        exists (y' :: ys), (ly ++ l'). rewrite P, P', Q, Q'. split; auto. split; auto. intro i. rewrite in_app_iff, H, H'. tauto. }
    destruct Q as (ys & l' & P & Q & H). rewrite P. exists (SUnverified ys). eexists. split; auto. cbn [ssource]. rewrite Q. cbn [obind]. split; [reflexivity|].
    intro i. rewrite unverified_filter, H. tauto.
Qed.

Lemma sources_spec : forall l, Forall (sound_source z xs) l ->
  exists l' a, place_all (place_source cs) l = Some l' /\ ssources E z l' = Def a /\ forall i, In i a <-> some_source E z xs l i.
Proof.
  intros l F. induction F as [|y l SY F IH]; cbn [place_all ssources].
  - exists [], []. split; auto. split; auto. intro i. cbn. split; [tauto|]. intros (y & [] & _).
  - destruct (source_spec (source_size y) y (le_n _) SY) as (y' & ly & P & Q & H). destruct IH as (l' & a & P' & Q' & H').
    rewrite P, P'. exists (y' :: l'), (ly ++ a). cbn [ssources]. rewrite Q, Q'. split; auto. split; auto. intro i.
    rewrite in_app_iff, H, H'. unfold some_source. split.
    + intros [A|(x & IN & A)]; [exists y|exists x]; cbn; auto.
    + intros (x & [<-|IN] & A); eauto.
Qed.

Lemma selects_known : forall n y i, source_size y <= n -> selects E z xs y i -> known i.
Proof.
  induction n as [|n IH]; intros y i SZ H; [destruct y; cbn in SZ; lia|]. destruct y as [m|j|l]; cbn [selects] in H.
  - exists m. auto.
  - destruct H as (x & _ & F). eapply fits_known; eauto.
  - destruct H as [H _]. cbn in SZ. induction l as [|y l IHl]; [destruct H|]. destruct H as [H|H]; [eapply (IH y); eauto; lia|apply IHl; auto; lia].
Qed.

Lemma known_lt : forall i, known i -> i < length (s_calls z).
Proof. intros i (m & e & H). destruct (call_in _ _ _ H) as (me & c & _ & C & _). apply nth_error_Some. congruence. Qed.

Lemma ordered_spec : forall l, (forall i, In i l -> known i) -> forall i, In i (in_call_order z l) <-> In i l.
Proof.
  intros l H i. unfold in_call_order. rewrite filter_In, existsb_nat, in_seq. split; [tauto|]. intro IN. split; auto. split; [lia|].
  cbn. apply known_lt. auto.
Qed.

(** ** Patterns *)
Lemma place_renumbered : forall q, Forall (fun j => j < length xs) (spelled q) -> seq_built q -> place_seq cs q = Some (renumbered b q).
Proof.
  induction q as [j|l IHl r IHr|q IH n]; cbn [spelled place_seq renumbered seq_built]; intros F B.
  - inversion F; subst. now rewrite (CS j).
  - apply Forall_app in F. destruct F, B. now rewrite IHl, IHr.
  - destruct B as [B N]. rewrite IH; auto. destruct (Z.to_nat n) as [|k] eqn:K; [lia|]. cbn in F. now apply Forall_app in F.
Qed.
Lemma renumbered_expected : forall q, spelled (renumbered b q) = map (Nat.add b) (spelled q).
Proof.
  induction q as [j|l IHl r IHr|q IH n]; cbn; auto.
  - now rewrite IHl, IHr, map_app.
  - rewrite IH. induction (Z.to_nat n); cbn; auto. now rewrite map_app, IHn0.
Qed.
Lemma renumbered_built : forall q, seq_built q -> seq_built (renumbered b q).
Proof. induction q; cbn; tauto. Qed.
Lemma built_valid : forall q : sequence nat, seq_built q -> seq_valid q = true.
Proof.
  induction q as [j|l IHl r IHr|q IH n]; cbn; auto.
  - intros [A B]. now rewrite IHl, IHr.
  - intros [A B]. rewrite IH by auto. cbn. apply Z.ltb_lt. lia.
Qed.
Lemma involved_leaves : forall q : sequence nat, seq_built q -> forall c, In c (getInvolvedMocks (fun c => c) q) <-> In c (spelled q).
Proof.
  induction q as [j|l IHl r IHr|q IH n]; cbn; intros B c; try tauto.
  - destruct B. now rewrite !in_app_iff, IHl, IHr.
  - destruct B as [B N]. rewrite IH by auto. destruct (Z.to_nat n) as [|k] eqn:K; [lia|]. clear. induction k as [|k IHk]; cbn in *.
    + rewrite app_nil_r. tauto.
    + rewrite in_app_iff. rewrite <- IHk. tauto.
Qed.
Lemma pattern_leaves : forall p : list (sequence nat), Forall seq_built p -> forall c,
  In c (pattern_ctxs p) <-> In c (concat (map spelled p)).
Proof.
  intros p F c. unfold pattern_ctxs. induction F as [|q p B F IH]; cbn; [tauto|]. rewrite !in_app_iff, IH, involved_leaves by auto. tauto.
Qed.

(** ** From the numbers of the expressions to their positions *)
Section T.
Variable act : list nat.
Hypothesis KN : forall i, In i act -> known i.
Let f (c i : nat) : bool := match sctx_matches E z c i with Def d => d | _ => false end.
Let acc' (c i : nat) : Prop := f c i = true.
Let acc := accepts_at E z xs.
Let up := map (map (Nat.add b)).
Definition small (ms : list nat) : Prop := Forall (fun j => j < length xs) ms.

Lemma acc_spec : forall j i, j < length xs -> In i act -> sctx_matches E z (b + j) i = Def (f (b + j) i) /\ (acc' (b + j) i <-> acc j i).
Proof.
  intros j i L IN. destruct (nth_error xs j) as [x|] eqn:N; [|apply nth_error_None in N; lia].
  destruct (matches_fits j x i N (KN i IN)) as (d & Q & H). unfold acc', f. rewrite Q. split; auto. rewrite H. unfold acc, accepts_at. split.
  - intro F. eauto.
  - intros (x' & X & F). congruence.
Qed.
Lemma block_up : forall ms p, small ms -> block_at acc' (map (Nat.add b) ms) act p <-> block_at acc ms act p.
Proof.
  intros ms p SM. unfold block_at. rewrite map_length. split; intros [L H]; split; auto; intros j m i Hm Hi.
  - assert (m < length xs) by (eapply Forall_forall in SM; [exact SM|eapply nth_error_In; eauto]).
    apply acc_spec; auto; [eapply nth_error_In; eauto|]. apply (H j); auto. now apply map_nth_error.
  - rewrite nth_error_map in Hm. destruct (nth_error ms j) as [m0|] eqn:N; cbn in Hm; inversion Hm; subst.
    assert (m0 < length xs) by (eapply Forall_forall in SM; [exact SM|eapply nth_error_In; eauto]).
    apply acc_spec; auto; [eapply nth_error_In; eauto|]. eapply H; eauto.
Qed.
Lemma occurs_up : forall pat s ps e, Forall small pat -> occurs acc' act (up pat) s ps e <-> occurs acc act pat s ps e.
Proof.
  unfold up. induction pat as [|ms pat IH]; intros s ps e F; cbn; (split; intro H; inversion H; subst; try constructor; auto).
  - apply block_up; auto. now inversion F.
  - apply IH; [now inversion F|]. now rewrite map_length in *.
  - apply block_up; auto. now inversion F.
  - rewrite map_length. apply IH; [now inversion F|]. auto.
Qed.
Lemma leftmost_up : forall pat s ps e, Forall small pat -> leftmost acc' act (up pat) s ps e <-> leftmost acc act pat s ps e.
Proof.
  unfold up. induction pat as [|ms pat IH]; intros s ps e F; cbn; (split; intro H; inversion H; subst; try constructor; auto); inversion F; subst.
  - apply block_up; auto.
  - match goal with H : forall r, _ <= r < _ -> ~ _ |- _ => intros r Hr B; apply (H r Hr), block_up; auto end.
  - apply IH; auto. now rewrite map_length in *.
  - apply block_up; auto.
  - match goal with H : forall r, _ <= r < _ -> ~ _ |- _ => intros r Hr B; apply (H r Hr), block_up; auto end.
  - rewrite map_length. apply IH; auto.
Qed.
Lemma series_up : forall pat occs s, Forall small pat -> Spec_Match.series acc' act (up pat) s occs <-> Spec_Match.series acc act pat s occs.
Proof.
  intros pat occs. induction occs as [|ps occs IH]; intros s F; [split; constructor|].
  split; intro H; inversion H as [|? ? e ? O S]; subst; apply ser_cons with (e := e); [apply occurs_up; auto|now apply IH|apply occurs_up; auto|now apply IH].
Qed.
Lemma row_up : forall pat occs s e, Forall small pat -> in_a_row acc' act (up pat) s occs e -> in_a_row acc act pat s occs e.
Proof.
  intros pat occs. induction occs as [|ps occs IH]; intros s e F H; inversion H; subst; [constructor|]. econstructor; [|eapply IH; eauto]. eapply leftmost_up; eauto.
Qed.
Lemma items_up : forall pat ps, occ_items act (up pat) ps = occ_items act pat ps.
Proof. unfold up. induction pat as [|ms pat IH]; intros [|p ps]; cbn; auto. now rewrite map_length, IH. Qed.
Lemma up_split : forall pat pre ms post, up pat = pre ++ ms :: post -> exists pre0 ms0 post0, pat = pre0 ++ ms0 :: post0 /\
  pre = up pre0 /\ ms = map (Nat.add b) ms0 /\ post = up post0.
Proof.
  unfold up. induction pat as [|x pat IH]; intros [|y pre] ms post H; cbn in H; inversion H; subst.
  - exists [], x, pat. auto.
  - destruct (IH _ _ _ H2) as (pre0 & ms0 & post0 & -> & -> & -> & ->). exists (x :: pre0), ms0, post0. auto.
Qed.
Lemma up_giving : forall pat s pre ps, Forall small pat -> gives_up acc' act (up pat) s pre ps ->
  exists pre0, pre = up pre0 /\ gives_up acc act pat s pre0 ps.
Proof.
  intros pat s pre ps F (ms & post & e & Q & L & H). destruct (up_split _ _ _ _ Q) as (pre0 & ms0 & post0 & -> & -> & -> & ->).
  apply Forall_app in F. destruct F as [F1 F2]. inversion F2; subst. exists pre0. split; auto. exists ms0, post0, e. split; auto. split; [now apply leftmost_up|].
  intros r Hr B. apply (H r Hr). now apply block_up.
Qed.

Hypothesis SMALL : (Z.of_nat (length act) <= int_max)%Z.
Lemma analysis : forall pattern, pattern <> [] -> Forall (sound_sequence (length xs)) pattern ->
  exists n marks, countMatches (sctx_matches E z) (map (renumbered b) pattern) act = Def (Z.of_nat n, marks) /\
    max_occurrences acc act (map spelled pattern) n /\
    greedy_marks E z xs pattern act n marks /\ (forall i, In i marks -> In i act).
Proof.
  intros pattern NE SP.
  assert (BU : map spelled (map (renumbered b) pattern) = up (map spelled pattern)).
  { unfold up. rewrite !map_map. apply map_ext. apply renumbered_expected. }
  assert (BS : Forall small (map spelled pattern)).
  { apply Forall_forall. intros ms IN. apply in_map_iff in IN. destruct IN as (q & <- & IN). rewrite Forall_forall in SP. apply SP in IN. apply IN. }
  assert (OK : Forall (seq_ok (sctx_matches E z) f act) (map (renumbered b) pattern)).
  { apply Forall_forall. intros q' IN. apply in_map_iff in IN. destruct IN as (q & <- & IN). rewrite Forall_forall in SP. apply SP in IN.
    destruct IN as (B & L & F). split; [now apply renumbered_built|]. rewrite renumbered_expected, map_length. split; auto.
    intros c i Hc Hi. apply in_map_iff in Hc. destruct Hc as (j & <- & Hj). rewrite Forall_forall in F. apply acc_spec; auto. }
  assert (NE' : map (renumbered b) pattern <> []) by (destruct pattern; [congruence|discriminate]).
  destruct (countMatches_left (sctx_matches E z) f act SMALL _ OK NE') as (occs & e & pre & ps & Q & ROW & GU).
  destruct (count_max (sctx_matches E z) f act SMALL _ OK NE') as (n & mk & Q' & (EX & MX)). rewrite Q' in Q.
  inversion Q as [[Q1 Q2]]. apply Nat2Z.inj in Q1. unfold expected_of in *. rewrite BU in *.
  destruct (up_giving _ _ _ _ BS GU) as (pre0 & -> & GU0).
  exists n, mk. split; auto. split; [split|split].
  - destruct EX as (oc & S & L). exists oc. split; auto. now apply series_up.
  - intros oc S. apply MX. now apply series_up.
  - exists occs, e, pre0, ps. split; auto. split; [rewrite Q2; f_equal|split]; auto.
    + apply flat_map_ext. intro. apply items_up.
    + apply items_up.
    + now apply row_up.
  - rewrite Q2. intros i IN. apply in_app_iff in IN. assert (H : forall (pat : list (list nat)) ps, In i (occ_items act pat ps) -> In i act).
    { clear. induction pat as [|ms pat IH]; intros [|p ps] H; cbn in H; try contradiction. apply in_app_iff in H. destruct H as [H|H]; eauto.
      assert (G : In i (skipn p act)) by (rewrite <- (firstn_skipn (length ms) (skipn p act)); apply in_app_iff; auto).
      rewrite <- (firstn_skipn p act). apply in_app_iff. auto. }
    destruct IN as [IN|IN]; eauto. apply in_flat_map in IN. destruct IN as (p & _ & IN). eauto.
Qed.
End T.

(** ** The calls in scope *)
Definition mock_at (j : nat) : nat := match nth_error xs j with Some x => target_mock (fst x) | None => 0 end.
Definition sources_of (sc : scope) (pattern : list (sequence nat)) : option (bool * list source) :=
  match sc with
  | ScUsing l => match place_all (place_source cs) l with Some l' => Some (false, l') | None => None end
  | ScInvolved => Some (false, map (fun j => SMock (mock_at j)) (pattern_ctxs pattern))
  | ScUnverified => Some (true, map (fun j => SMock (mock_at j)) (pattern_ctxs pattern))
  end.

Lemma leaves_small : forall pattern, Forall (sound_sequence (length xs)) pattern -> forall j, In j (pattern_ctxs pattern) -> j < length xs.
Proof.
  intros pattern SP j IN. rewrite pattern_leaves in IN by (eapply Forall_impl; [|exact SP]; intros q (B & _); exact B).
  apply in_concat in IN. destruct IN as (ms & IM & IN). apply in_map_iff in IM. destruct IM as (q & <- & IQ). rewrite Forall_forall in SP.
  apply SP in IQ. destruct IQ as (_ & _ & F). rewrite Forall_forall in F. auto.
Qed.

Lemma mock_alive : forall j x, nth_error xs j = Some x -> exists k, live (s_mocks z) (target_mock (fst x)) = Some k.
Proof. intros j x N. destruct (AT j x N) as (m & e & me & r & (k & d & T & K & _) & _). rewrite T. eauto. Qed.

Lemma involved_spec : forall js, (forall j, In j js -> j < length xs) ->
  exists a, ssources E z (map (fun j => SMock (mock_at j)) js) = Def a /\
    forall i, In i a <-> exists j x, In j js /\ nth_error xs j = Some x /\ of_mock z (target_mock (fst x)) i.
Proof.
  induction js as [|j js IH]; intro H; cbn [map ssources].
  - exists []. split; auto. intro i. split; [intros []|]. intros (j & x & [] & _).
  - destruct IH as (a & Q & IH); [intros; apply H; now right|]. destruct (nth_error xs j) as [x|] eqn:N.
    2:{ apply nth_error_None in N. specialize (H j (or_introl eq_refl)). lia. }
    destruct (mock_alive j x N) as (k & K). unfold mock_at at 1. rewrite N. cbn [ssource]. rewrite K. cbn [obind]. rewrite Q. cbn [obind].
    eexists. split; [reflexivity|]. intro i. rewrite in_app_iff, IH, mock_calls by exact K. split.
    + intros [A|(j' & x' & A & B & C)]; [exists j, x|exists j', x']; cbn; auto.
    + intros (j' & x' & [<-|A] & B & C); [left; congruence|right]. eauto.
Qed.

Lemma scoped : forall sc pattern unv l, sources_of sc pattern = Some (unv, l) -> sound_scope z xs sc ->
  Forall (sound_sequence (length xs)) pattern ->
  exists actual, sscope E z unv l = Def actual /\ StronglySorted lt actual /\ (forall i, In i actual <-> chosen E z xs sc pattern i) /\
    (forall i, In i actual -> known i) /\ length actual <= length (s_calls z).
Proof.
  intros sc pattern unv l SO SS SP.
  assert (G : forall a (P : nat -> Prop), ssources E z l = Def a -> (forall i, In i (if unv then filter (fun i => negb (sverified z i)) a else a) <-> P i) ->
    (forall i, P i -> known i) ->
    exists actual, sscope E z unv l = Def actual /\ StronglySorted lt actual /\ (forall i, In i actual <-> P i) /\
      (forall i, In i actual -> known i) /\ length actual <= length (s_calls z)).
  { intros a P Q H KN. unfold sscope. rewrite Q. cbn [obind]. eexists. split; [reflexivity|]. split; [apply seq_map_sorted|].
    assert (OR : forall i, In i (in_call_order z (if unv then filter (fun i => negb (sverified z i)) a else a)) <-> P i).
    { intro i. rewrite ordered_spec; auto. intros j IN. apply KN, H, IN. }
    split; [exact OR|]. split; [intros i IN; apply KN, OR, IN|].
    unfold in_call_order. set (g := fun i => existsb (Nat.eqb i) _). clearbody g.
    pose proof (seq_length (length (s_calls z)) 0) as SL. rewrite <- SL at 2. generalize (seq 0 (length (s_calls z))).
    clear. intro l. induction l as [|x l IH]; cbn; auto. destruct (g x); cbn; lia. }
  assert (PB : Forall seq_built pattern) by (eapply Forall_impl; [|exact SP]; intros q (B & _); exact B).
  assert (KI : forall i, in_pattern z xs pattern i -> known i).
  { intros i (j & x & _ & _ & H). exists (target_mock (fst x)). exact H. }
  destruct sc as [| |l0]; cbn [sources_of sound_scope chosen] in *.
  - inversion SO; subst. destruct (involved_spec (pattern_ctxs pattern)) as (a & Q & H); [now apply leaves_small|].
    apply (G a); auto. intro i. rewrite H. unfold in_pattern. split; intros (j & x & A & B); exists j, x; (split; [apply (pattern_leaves pattern PB); exact A|exact B]).
  - inversion SO; subst. destruct (involved_spec (pattern_ctxs pattern)) as (a & Q & H); [now apply leaves_small|].
    apply (G a); auto.
    + intro i. rewrite unverified_filter, H. unfold in_pattern.
      split; (intros [(j & x & A & B) V]; split; [exists j, x; split; [apply (pattern_leaves pattern PB); exact A|exact B]|exact V]).
    + intros i [A _]. auto.
  - destruct (sources_spec l0 SS) as (l' & a & P & Q & H). rewrite P in SO. inversion SO; subst. apply (G a); auto.
    intros i (y & _ & S). eapply selects_known; [apply le_n|exact S].
Qed.

(** ** Making the verification object *)
Lemma renumbered_ctxs : forall pattern, pattern_ctxs (map (renumbered b) pattern) = map (Nat.add b) (pattern_ctxs pattern).
Proof.
  unfold pattern_ctxs. induction pattern as [|q pattern IH]; cbn; auto. rewrite map_app, IH. f_equal. clear.
  induction q; cbn; auto. now rewrite map_app, IHq1, IHq2.
Qed.
Lemma sinvolved_spec : forall js, (forall j, In j js -> j < length xs) ->
  sinvolved (map (Nat.add b) js) z = SOk z (map (fun j => SMock (mock_at j)) js).
Proof.
  induction js as [|j js IH]; intro H; cbn [map sinvolved]; [reflexivity|].
  destruct (nth_error xs j) as [x|] eqn:N; [|apply nth_error_None in N; specialize (H j (or_introl eq_refl)); lia].
  rewrite (sbind_ok _ _ _ _ _ _ _ (sget_live _ _ _ _ _ (CX j x N))). rewrite (sbind_ok _ _ _ _ _ _ _ (IH ltac:(intros; apply H; now right))).
  unfold mock_at at 2. now rewrite N.
Qed.
Lemma made : forall sc pattern, sound_scope z xs sc -> Forall (sound_sequence (length xs)) pattern ->
  exists sc' unv l, place_scope cs sc = Some sc' /\ place_all (place_seq cs) pattern = Some (map (renumbered b) pattern) /\
    sources_of sc pattern = Some (unv, l) /\
    sexp_new sc' (map (renumbered b) pattern) z =
      SOk (sset_exps z (s_exps z ++ [Some (ESeq unv l (map (renumbered b) pattern) exp_new)])) (length (s_exps z)).
Proof.
  intros sc pattern SS SP.
  assert (PL : place_all (place_seq cs) pattern = Some (map (renumbered b) pattern)).
  { clear - SP CS. induction SP as [|q p (B & L & F) SP IH]; cbn; auto. rewrite (place_renumbered q F B), IH. reflexivity. }
  assert (VA : forallb seq_valid (map (renumbered b) pattern) = true).
  { apply forallb_forall. intros q' IN. apply in_map_iff in IN. destruct IN as (q & <- & IN). apply built_valid, renumbered_built.
    rewrite Forall_forall in SP. apply SP in IN. apply IN. }
  unfold sexp_new. rewrite VA, renumbered_ctxs. pose proof (sinvolved_spec (pattern_ctxs pattern) (leaves_small pattern SP)) as IV.
  destruct sc as [| |l0]; cbn [place_scope sources_of sound_scope] in *.
  - exists ScInvolved. do 2 eexists. split; auto. split; auto. split; [reflexivity|]. rewrite (sbind_ok _ _ _ _ _ _ _ IV). reflexivity.
  - exists ScUnverified. do 2 eexists. split; auto. split; auto. split; [reflexivity|]. rewrite (sbind_ok _ _ _ _ _ _ _ IV). reflexivity.
  - destruct (sources_spec l0 SS) as (l' & a & P & _). rewrite P. exists (ScUsing l'). do 2 eexists. split; [reflexivity|]. split; [exact PL|]. split; reflexivity.
Qed.

(** A pattern with a factor below one somewhere is not built. *)
Lemma place_written : forall q, (forall j, written j q -> j < length xs) -> place_seq cs q = Some (renumbered b q).
Proof.
  induction q as [j|l IHl r IHr|q IH n]; cbn [place_seq renumbered]; intro F.
  - rewrite (CS j); auto. apply F. constructor.
  - rewrite IHl by (intros j W; apply F; now apply WrLeft). rewrite IHr by (intros j W; apply F; now apply WrRight). reflexivity.
  - rewrite IH; auto. intros j W. apply F. now constructor.
Qed.
Lemma invalid_repeats : forall n q, repeats n q -> (n < 1)%Z -> seq_valid (renumbered b q) = false.
Proof.
  intros n q H N. induction H as [q|m q H IH|l r H IH|l r H IH]; cbn [renumbered seq_valid].
  - replace (0 <? n)%Z with false by (symmetry; apply Z.ltb_ge; lia). apply andb_false_r.
  - now rewrite IH.
  - now rewrite IH.
  - rewrite IH. apply andb_false_r.
Qed.
Lemma unmade : forall sc pattern n q, sound_scope z xs sc -> (forall p j, In p pattern -> written j p -> j < length xs) ->
  In q pattern -> repeats n q -> (n < 1)%Z ->
  exists sc', place_scope cs sc = Some sc' /\ place_all (place_seq cs) pattern = Some (map (renumbered b) pattern) /\
    sexp_new sc' (map (renumbered b) pattern) z = SExn z XInvalid.
Proof.
  intros sc pattern n q SS SW IN RN N.
  assert (PL : place_all (place_seq cs) pattern = Some (map (renumbered b) pattern)).
  { clear - SW CS. induction pattern as [|q p IH]; cbn; auto. rewrite (place_written q), IH; auto; intros; eapply SW; cbn; eauto. }
  assert (VA : forallb seq_valid (map (renumbered b) pattern) = false).
  { apply not_true_is_false. intro T. rewrite forallb_forall in T. specialize (T _ (in_map (renumbered b) _ _ IN)).
    now rewrite (invalid_repeats n q RN N) in T. }
  unfold sexp_new. rewrite VA. destruct sc as [| |l0]; cbn [place_scope sound_scope] in *.
  - exists ScInvolved. auto.
  - exists ScUnverified. auto.
  - destruct (sources_spec l0 SS) as (l' & a & P & _). rewrite P. exists (ScUsing l'). auto.
Qed.

Lemma unused_all : forall js, (forall j, In j js -> j < length xs) -> sunused_all E z (map (Nat.add b) js) = Def tt.
Proof.
  induction js as [|j js IH]; intro H; cbn [map sunused_all]; [reflexivity|].
  destruct (nth_error xs j) as [x|] eqn:N; [|apply nth_error_None in N; specialize (H j (or_introl eq_refl)); lia].
  destruct (expression j x N) as (m & e & me & r & D & M & MO & U). rewrite U. cbn [obind sx_target]. rewrite MO. cbn [obind]. apply IH. intros. apply H. now right.
Qed.

Lemma analysed : forall sc pattern unv l, sources_of sc pattern = Some (unv, l) -> sound_scope z xs sc ->
  pattern <> [] -> Forall (sound_sequence (length xs)) pattern -> (Z.of_nat (length (s_calls z)) <= int_max)%Z ->
  exists actual n marks, sanalyse E z unv l (map (renumbered b) pattern) = Def (actual, Z.of_nat n, marks) /\
    StronglySorted lt actual /\ (forall i, In i actual <-> chosen E z xs sc pattern i) /\
    max_occurrences (accepts_at E z xs) actual (map spelled pattern) n /\
    greedy_marks E z xs pattern actual n marks /\ (forall i, In i marks -> i < length (s_calls z)).
Proof.
  intros sc pattern unv l SO SS NE SP SM. destruct (scoped sc pattern unv l SO SS SP) as (actual & Q & SRT & CH & KN & LN).
  destruct (analysis actual KN) with (pattern := pattern) as (n & marks & C & MX & GM & IN); auto; [lia|].
  exists actual, n, marks. unfold sanalyse. rewrite Q. cbn [obind]. rewrite renumbered_ctxs, unused_all by (now apply leaves_small). cbn [obind].
  rewrite C. cbn [obind]. repeat split; auto; try apply MX; try (apply CH).
  intros i H. apply known_lt. auto.
Qed.
End Z.

(** ** Marking *)
Lemma with_marks_at : forall l s i, nth_error (s_calls (with_marks l s)) i =
  match nth_error (s_calls s) i with
  | Some c => Some (if existsb (Nat.eqb i) l then mkCall (ca_method c) (ca_ret c) (ca_args c) true else c)
  | None => None
  end.
Proof.
  intros l s i. unfold with_marks. cbn. rewrite nth_error_map.
  assert (H : forall (cs : list call) a i, nth_error (List.combine (seq a (length cs)) cs) i = match nth_error cs i with Some c => Some (a + i, c) | None => None end).
  { clear. induction cs as [|c cs IH]; intros a [|i]; cbn; auto.
    - now rewrite Nat.add_0_r.
    - rewrite IH. destruct (nth_error cs i); auto. do 2 f_equal. lia. }
  rewrite H. destruct (nth_error (s_calls s) i); reflexivity.
Qed.
Lemma marks_step : forall i l s c, nth_error (s_calls s) i = Some c ->
  with_marks l (sset_calls s (upd (s_calls s) i (mkCall (ca_method c) (ca_ret c) (ca_args c) true))) = with_marks (i :: l) s.
Proof.
  intros i l s c C. transitivity (sset_calls s (s_calls (with_marks l (sset_calls s (upd (s_calls s) i (mkCall (ca_method c) (ca_ret c) (ca_args c) true)))))); [reflexivity|].
  transitivity (sset_calls s (s_calls (with_marks (i :: l) s))); [|reflexivity]. f_equal. apply nth_error_ext. intro j. rewrite !with_marks_at. cbn [s_calls sset_calls].
  assert (L : i < length (s_calls s)) by (apply nth_error_Some; congruence).
  cbn [existsb]. destruct (Nat.eqb_spec j i) as [->|N]; cbn [orb].
  - rewrite nth_error_upd_same by auto. rewrite C. cbn. now destruct (existsb (Nat.eqb i) l).
  - rewrite nth_error_upd_other by auto. reflexivity.
Qed.
Lemma with_marks_nil : forall s, with_marks [] s = s.
Proof.
  intro s. transitivity (sset_calls s (s_calls (with_marks [] s))); [reflexivity|]. transitivity (sset_calls s (s_calls s)); [|now destruct s].
  f_equal. apply nth_error_ext. intro i. rewrite with_marks_at. cbn. now destruct (nth_error (s_calls s) i).
Qed.
Lemma smark_spec : forall l s, (forall i, In i l -> i < length (s_calls s)) -> smark_all l s = SOk (with_marks l s) tt.
Proof.
  induction l as [|i l IH]; intros s H; cbn [smark_all].
  - now rewrite with_marks_nil.
  - destruct (nth_error (s_calls s) i) as [c|] eqn:C.
    2:{ apply nth_error_None in C. specialize (H i (or_introl eq_refl)). lia. }
    assert (G : sget_call i s = SOk s c) by (unfold sget_call, sbind, sgets, sopt; now rewrite C).
    rewrite (sbind_ok _ _ _ _ _ _ _ G). unfold sbind at 1, smodify. rewrite IH.
    + now rewrite (marks_step i l s c C).
    + intros j IN. cbn. rewrite upd_length. apply H. now right.
Qed.

(** ** The check *)
Lemma rep_no_zero : forall e r, rep e r -> rep e (no_zero r) /\ no_zero r <> ReqAtLeast 0.
Proof.
  intros e [|n|n] H; cbn; try (split; [auto|discriminate]). destruct (Z.eqb_spec n 0) as [->|N]; split; auto; try discriminate; congruence.
Qed.

(** The verdict on [n] matches, and the report of a failure. *)
Lemma verdict_spec : forall ex r n, rep ex r -> r <> ReqAtLeast 0 ->
  (Spec_Verify.accepts r n /\ decide ex n = Def VOk) \/
  (~ Spec_Verify.accepts r n /\ exists t k, decide ex n = Def (VFail t k n) /\ shown r t k).
Proof.
  intros ex r n RP NZ. destruct (decide_spec ex r n RP NZ) as (v & Q & H). destruct v as [|t k a].
  - left. split; auto. now apply H.
  - right. split; [intro A; apply H in A; discriminate|]. destruct (decide_fail _ _ _ _ _ _ RP Q) as (-> & D). exists t, k. split; auto.
    unfold shown. destruct t; [left|right]; split; auto. destruct D as [D|[D ->]]; auto. contradiction.
Qed.

Lemma rep_done : forall ex r, rep ex r -> rep (mkExp (ex_count ex) (ex_any ex) true) r.
Proof. intros ex r H. exact H. Qed.

Lemma checked_seq : forall z x unv l pat ex r actual n marks quiet,
  live (s_exps z) x = Some (ESeq unv l pat ex) -> ex_done ex = false -> rep ex r -> r <> ReqAtLeast 0 ->
  let z1 := sset_exps z (upd (s_exps z) x (Some (ESeq unv l pat (mkExp (ex_count ex) (ex_any ex) true)))) in
  sanalyse E z1 unv l pat = Def (actual, Z.of_nat n, marks) -> (forall i, In i marks -> i < length (s_calls z)) ->
  (Spec_Verify.accepts r (Z.of_nat n) /\ sverify E x quiet z = SOk (with_marks marks z1) tt) \/
  (~ Spec_Verify.accepts r (Z.of_nat n) /\ exists t k, shown r t k /\
     sverify E x quiet z = sreport_to E quiet (EvSequence t pat actual k (Z.of_nat n)) z1).
Proof.
  intros z x unv l pat ex r actual n marks quiet LX DN RP NZ z1 AN MK.
  assert (V : sverify E x quiet z = match decide (mkExp (ex_count ex) (ex_any ex) true) (Z.of_nat n) with
    | Def VOk => smark_all marks z1
    | Def (VFail t k c) => sreport_to E quiet (EvSequence t pat actual k c) z1
    | _ => SUnspec
    end).
  { unfold sverify. rewrite (sbind_ok _ _ _ _ _ _ _ (sget_live _ _ _ _ _ LX)). rewrite DN.
    assert (P : sput_exp x (ESeq unv l pat (mkExp (ex_count ex) (ex_any ex) true)) z = SOk z1 tt) by reflexivity.
    rewrite (sbind_ok _ _ _ _ _ _ _ P). unfold sgets, sbind, slift. rewrite AN.
    destruct (decide _ _) as [[]| |]; reflexivity. }
  destruct (verdict_spec _ r (Z.of_nat n) (rep_done _ _ RP) NZ) as [[A D]|(A & t & k & D & SH)]; rewrite D in V; rewrite V.
  - left. split; auto. apply smark_spec. exact MK.
  - right. split; auto. exists t, k. split; auto.
Qed.

Lemma report_quiet : forall ev z, listeners_quiet E z ev ->
  sreport E ev z = match reaction E z ev with inl _ => SOk (notified E z ev) tt | inr x => SExn (notified E z ev) x end.
Proof.
  intros ev z Q. unfold sreport, sbind, sgets, ctx_handle. rewrite (fireEvent_quiet (e_react E)) by exact Q.
  unfold smodify, notified, reaction, adapter, sthrow, sret. destruct (e_react E (getTestingFrameworkAdapter (e_builtin E) (s_fctx z)) ev); reflexivity.
Qed.

(** ** Quantifiers *)
Lemma quants_spec : forall qs z x unv l pat ex r v, live (s_exps z) x = Some (ESeq unv l pat ex) -> ex_done ex = false -> rep ex r ->
  Forall valid_quant qs -> forall rest,
  exists ex', ex_done ex' = false /\ rep ex' (in_force r (map LQuant qs)) /\
    srun_steps E x (map VsQuant qs ++ rest) v z = srun_steps E x rest v (sset_exps z (upd (s_exps z) x (Some (ESeq unv l pat ex')))).
Proof.
  induction qs as [|q qs IH]; intros z x unv l pat ex r v LX DN RP F rest.
  - exists ex. split; auto. split; auto. cbn [map app]. f_equal. rewrite (upd_same _ (s_exps z)); [now destruct z|].
    unfold live in LX. destruct (nth_error (s_exps z) x) as [[y|]|]; congruence.
  - inversion F as [|? ? (QI & QV) F']; subst. destruct (set_quant_spec ex r q RP QI) as (o & Q & H).
    destruct o as [ex1|]; [|destruct H; contradiction]. destruct H as (_ & RP1 & DN1).
    set (z1 := sset_exps z (upd (s_exps z) x (Some (ESeq unv l pat ex1)))).
    destruct (IH z1 x unv l pat ex1 (combine r q) v) with (rest := rest) as (ex' & DN' & RP' & S); auto.
    { unfold z1. cbn. apply live_upd_in. eapply live_lt; eauto. }
    { congruence. }
    exists ex'. split; auto. split; [exact RP'|]. cbn [map app srun_steps].
    assert (X : sexp_quant x q z = SOk z1 tt).
    { unfold sexp_quant. rewrite (sbind_ok _ _ _ _ _ _ _ (sget_live _ _ _ _ _ LX)). unfold sbind, slift. now rewrite Q. }
    rewrite (sbind_ok _ _ _ _ _ _ _ X), S. f_equal. unfold z1. cbn. now rewrite upd_upd.
Qed.

(** ** Whole statements *)
Definition over (z : sworld) (base : list (option expo)) : sworld := sset_exps z (base ++ [None]).

Lemma freed : forall z base y, s_exps z = base ++ [Some y] -> sfree_exp (length base) z = SOk (over z base) tt.
Proof.
  intros z base y H. assert (L : live (s_exps z) (length base) = Some y).
  { unfold live. rewrite H, nth_error_app2 by lia. now rewrite Nat.sub_diag. }
  unfold sfree_exp. rewrite (sbind_ok _ _ _ _ _ _ _ (sget_live _ _ _ _ _ L)). unfold smodify, over. rewrite H. now rewrite upd_app_last.
Qed.

Lemma released : forall z base y z' r, s_uncaught z = 0 -> s_exps z = base ++ [Some y] ->
  sattempt (sverify E (length base) false) z = SOk z' r -> (exists y', s_exps z' = base ++ [Some y']) ->
  sexp_free E (length base) z = match r with inl _ => SOk (over z' base) tt | inr e => SExn (over z' base) e end.
Proof.
  intros z base y z' r U H X (y' & H'). unfold sexp_free, sbind, sgets. rewrite U. cbn [Nat.eqb]. unfold sguarded, sbind.
  rewrite X. rewrite (freed z' base y' H'). now destruct r as [[]|e].
Qed.

Lemma last_live : forall A (base : list (option A)) y, live (base ++ [Some y]) (length base) = Some y.
Proof. intros. unfold live. rewrite nth_error_app2 by lia. now rewrite Nat.sub_diag. Qed.

Section Stmt.
Variable z : sworld.
Variable xs : list (target * option imatcher).
Variable b : nat.
Variable cs : list nat.
Hypothesis TI : tidy z.
Hypothesis UN : unique z.
Hypothesis CX : forall j x, nth_error xs j = Some x -> live (s_ctxs z) (b + j) = new_ctx x.
Hypothesis AT : forall j x, nth_error xs j = Some x -> exists m e, is_at E z (fst x) m e.
Hypothesis DC : decided E z xs.
Hypothesis CS : forall j, j < length xs -> nth_error cs j = Some (b + j).
Hypothesis U : s_uncaught z = 0.
Let z0 := over z (s_exps z).

Lemma accepted_dec : forall r n, Spec_Verify.accepts r n \/ ~ Spec_Verify.accepts r n.
Proof. intros [|k|k] n; cbn; [auto|destruct (Z.eq_dec n k); auto|destruct (Z_le_dec k n); auto]. Qed.

Lemma verify_stmt_spec : forall sc pattern qs, sound_scope z xs sc -> pattern <> [] -> Forall (sound_sequence (length xs)) pattern ->
  (Z.of_nat (length (s_calls z)) <= int_max)%Z -> Forall valid_quant qs ->
  exists actual n marks, StronglySorted lt actual /\ (forall i, In i actual <-> chosen E z xs sc pattern i) /\
    max_occurrences (accepts_at E z xs) actual (map spelled pattern) n /\
    greedy_marks E z xs pattern actual n marks /\
    ((Spec_Verify.accepts (demanded qs) (Z.of_nat n) /\
      srun_stmt E (SVerify sc pattern (map VsQuant qs)) cs z = SOk (with_marks marks z0) VVoid /\
      srun_stmt E (SVerify sc pattern (map VsQuant qs ++ [VsBool])) cs z = SOk (with_marks marks z0) (VBool true)) \/
     (~ Spec_Verify.accepts (demanded qs) (Z.of_nat n) /\
      (exists t k, shown (demanded qs) t k /\
        let ev := EvSequence t (map (renumbered b) pattern) actual k (Z.of_nat n) in
        (listeners_quiet E z ev -> srun_stmt E (SVerify sc pattern (map VsQuant qs)) cs z = sanswer (notified E z0 ev) (reaction E z ev))) /\
      srun_stmt E (SVerify sc pattern (map VsQuant qs ++ [VsBool])) cs z = SOk z0 (VBool false))).
Proof.
  intros sc pattern qs SS NE SP SM VQ.
  destruct (made z xs b TI CX AT DC cs CS sc pattern SS SP) as (sc' & unv & l & P1 & P2 & SO & MK).
  set (pat := map (renumbered b) pattern) in *. set (x := length (s_exps z)) in *.
  set (zz := fun y => sset_exps z (s_exps z ++ [Some y])).
  assert (AN : forall y, exists actual n marks, sanalyse E (zz y) unv l pat = Def (actual, Z.of_nat n, marks) /\
    StronglySorted lt actual /\ (forall i, In i actual <-> chosen E z xs sc pattern i) /\
    max_occurrences (accepts_at E z xs) actual (map spelled pattern) n /\
    greedy_marks E z xs pattern actual n marks /\ (forall i, In i marks -> i < length (s_calls z))).
  { intro y. exact (analysed (zz y) xs b TI UN CX AT DC cs CS sc pattern unv l SO SS NE SP SM). }
  assert (ZU : forall y e, upd (s_exps (zz y)) x (Some e) = s_exps z ++ [Some e]) by (intros; cbn; unfold x; now rewrite upd_app_last).
  (* the steps up to the check *)
  assert (QS : forall rest, exists ex, ex_done ex = false /\ rep ex (demanded qs) /\
    srun_steps E x (map VsQuant qs ++ rest) VVoid (zz (ESeq unv l pat exp_new)) = srun_steps E x rest VVoid (zz (ESeq unv l pat ex))).
  { intro rest. destruct (quants_spec qs (zz (ESeq unv l pat exp_new)) x unv l pat exp_new (ReqAtLeast 1) VVoid (last_live _ _ _) eq_refl rep_new VQ rest)
      as (ex & D & RP & Q). exists ex. split; auto. destruct (rep_no_zero _ _ RP) as [RP' _]. split; [exact RP'|].
    rewrite Q. rewrite ZU. reflexivity. }
  assert (NZ : demanded qs <> ReqAtLeast 0) by (unfold demanded, no_zero; destruct (in_force _ _) as [|k|k]; try discriminate; destruct (Z.eqb_spec k 0); congruence).
  (* the check *)
  set (y1 := fun ex => ESeq unv l pat (mkExp (ex_count ex) (ex_any ex) true)).
  assert (CK : forall ex quiet, ex_done ex = false -> rep ex (demanded qs) -> forall actual n marks,
    sanalyse E (zz (y1 ex)) unv l pat = Def (actual, Z.of_nat n, marks) -> (forall i, In i marks -> i < length (s_calls z)) ->
    (Spec_Verify.accepts (demanded qs) (Z.of_nat n) /\ sverify E x quiet (zz (ESeq unv l pat ex)) = SOk (with_marks marks (zz (y1 ex))) tt) \/
    (~ Spec_Verify.accepts (demanded qs) (Z.of_nat n) /\ exists t k, shown (demanded qs) t k /\
       sverify E x quiet (zz (ESeq unv l pat ex)) = sreport_to E quiet (EvSequence t pat actual k (Z.of_nat n)) (zz (y1 ex)))).
  { intros ex quiet D RP actual n marks A M.
    pose proof (checked_seq (zz (ESeq unv l pat ex)) x unv l pat ex (demanded qs) actual n marks quiet (last_live _ _ _) D RP NZ) as C.
    cbv zeta in C. rewrite ZU in C. exact (C A M). }
  assert (ST : forall steps, srun_stmt E (SVerify sc pattern steps) cs z =
    match sattempt (srun_steps E x steps VVoid) (zz (ESeq unv l pat exp_new)) with
    | SOk z' (inl v) => sbind (sexp_free E x) (fun _ => sret v) z'
    | SOk z' (inr e) => sbind (sfree_exp x) (fun _ => sthrow e) z'
    | SExn z' e => SExn z' e
    | SUnspec => SUnspec
    end).
  { intro steps. cbn [srun_stmt]. rewrite P1, P2. unfold sverify_stmt. rewrite (sbind_ok _ _ _ _ _ _ _ MK). unfold sbind at 1.
    fold (zz (ESeq unv l pat exp_new)). destruct (sattempt _ _) as [z' [v|e]|z' e|]; reflexivity. }
  destruct (QS []) as (ex & D & RP & Q0). destruct (QS [VsBool]) as (ex' & D' & RP' & Q1).
  destruct (AN (y1 ex)) as (actual & n & marks & A & SRT & CH & MX & GM & IM).
  destruct (AN (y1 ex')) as (actual' & n' & marks' & A' & _).
  assert (SAME : sanalyse E (zz (y1 ex')) unv l pat = sanalyse E (zz (y1 ex)) unv l pat).
  { assert (L : forall y y', ssources E (zz y) l = ssources E (zz y') l).
    { intros y y'. clear. induction l as [|a l IH]; cbn; auto. rewrite IH. f_equal.
      assert (X : forall k a, source_size a <= k -> ssource E (zz y) a = ssource E (zz y') a).
      { clear. induction k as [|k IH]; intros a SZ; [destruct a; cbn in SZ; lia|]. destruct a as [m|c|ls]; cbn [ssource]; auto.
        f_equal. cbn in SZ. induction ls as [|a ls IHl]; auto. rewrite (IH a) by lia. rewrite IHl by lia. reflexivity. }
      apply (X (source_size a)). apply le_n. }
    unfold sanalyse, sscope. rewrite (L (y1 ex') (y1 ex)). destruct (ssources E (zz (y1 ex)) l); cbn [obind]; auto.
    assert (UA : forall js, sunused_all E (zz (y1 ex')) js = sunused_all E (zz (y1 ex)) js).
    { clear. induction js as [|j js IH]; cbn; auto. rewrite IH. reflexivity. }
    rewrite UA. reflexivity. }
  rewrite SAME, A in A'. inversion A' as [[Q2 Q3 Q4]]. apply Nat2Z.inj in Q3. subst actual' n' marks'. clear A'.
  exists actual, n, marks. split; auto. split; auto. split; auto. split; auto.
  rewrite !ST. rewrite app_nil_r in Q0. unfold sattempt. rewrite Q0, Q1. cbn [srun_steps]. unfold sret at 1. 
  assert (X1 : forall z' y v, s_exps z' = s_exps z ++ [Some y] -> s_uncaught z' = 0 -> sverify E x false z' = SOk z' tt ->
     sbind (sexp_free E x) (fun _ => sret v) z' = SOk (over z' (s_exps z)) (v : val)).
  { intros z' y v H H' H''. unfold sbind, x. rewrite (released z' (s_exps z) y z' (inl tt) H' H); [reflexivity| |eauto]. unfold sattempt. fold x. now rewrite H''. }
  assert (DONE : forall z' ex0, s_exps z' = s_exps z ++ [Some (y1 ex0)] -> sverify E x false z' = SOk z' tt).
  { intros z' ex0 H. unfold sverify. assert (LX : live (s_exps z') x = Some (y1 ex0)) by (rewrite H; apply last_live).
    rewrite (sbind_ok _ _ _ _ _ _ _ (sget_live _ _ _ _ _ LX)). reflexivity. }
  destruct (accepted_dec (demanded qs) (Z.of_nat n)) as [AC|AC]; [left|right]; (split; [exact AC|]).
  - destruct (CK ex false D RP actual n marks A IM) as [[_ V]|[N _]]; [|contradiction].
    destruct (CK ex' true D' RP' actual n marks ltac:(rewrite SAME; exact A) IM) as [[_ V']|[N _]]; [|contradiction]. split.
    + unfold sbind, x. rewrite (released (zz (ESeq unv l pat ex)) (s_exps z) (ESeq unv l pat ex) (with_marks marks (zz (y1 ex))) (inl tt) U eq_refl).
      * reflexivity.
      * unfold sattempt. fold x. now rewrite V.
      * exists (y1 ex). reflexivity.
    + assert (B : sexp_bool E x (zz (ESeq unv l pat ex')) = SOk (with_marks marks (zz (y1 ex'))) (VBool true)).
      { unfold sexp_bool, sbind, sattempt. rewrite V'. reflexivity. }
      rewrite (sbind_ok _ _ _ _ _ _ _ B). exact (X1 (with_marks marks (zz (y1 ex'))) (y1 ex') (VBool true) eq_refl U (DONE (with_marks marks (zz (y1 ex'))) ex' eq_refl)).
  - split.
    + destruct (CK ex false D RP actual n marks A IM) as [[N _]|[_ (t & k & SH & V)]]; [contradiction|]. exists t, k. split; auto. cbv zeta. intro LQ.
      cbn [sreport_to] in V. rewrite (report_quiet _ (zz (y1 ex)) LQ) in V.
      change (reaction E (zz (y1 ex))) with (reaction E z) in V. set (ev := EvSequence t pat actual k (Z.of_nat n)) in *.
      unfold sret at 1. unfold sbind, x. rewrite (released (zz (ESeq unv l pat ex)) (s_exps z) (ESeq unv l pat ex) (notified E (zz (y1 ex)) ev) 
          (match reaction E z ev with inl _ => inl tt | inr e => inr e end) U eq_refl).
      * destruct (reaction E z ev) as [v|e] eqn:RE; [|reflexivity]. unfold reaction in RE. destruct (e_react _ _ _); inversion RE. reflexivity.
      * unfold sattempt. fold x. rewrite V. now destruct (reaction E z ev).
      * exists (y1 ex). reflexivity.
    + destruct (CK ex' true D' RP' actual n marks ltac:(rewrite SAME; exact A) IM) as [[N _]|[_ (t & k & SH & V)]]; [contradiction|].
      assert (B : sexp_bool E x (zz (ESeq unv l pat ex')) = SOk (zz (y1 ex')) (VBool false)).
      { unfold sexp_bool, sbind, sattempt. rewrite V. reflexivity. }
      rewrite (sbind_ok _ _ _ _ _ _ _ B). exact (X1 (zz (y1 ex')) (y1 ex') (VBool false) eq_refl U (DONE (zz (y1 ex')) ex' eq_refl)).
Qed.

(** A negative count: nothing is checked, nothing is marked. *)
Lemma refused_quant : forall q v rest z0 x unv l pat ex, live (s_exps z0) x = Some (ESeq unv l pat ex) ->
  (exists n, (n < 0)%Z /\ (q = QExactly n \/ q = QAtLeast n)) ->
  srun_steps E x (VsQuant q :: rest) v z0 = SExn z0 XInvalid.
Proof.
  intros q v rest z1 x unv l pat ex LX (n & N & Q).
  assert (S : set_quant ex q = Def None).
  { destruct Q as [-> | ->]; cbn; unfold Exactly, AtLeast; destruct (Z.ltb_spec n 0); auto; lia. }
  cbn [srun_steps]. unfold sbind at 1. unfold sexp_quant. rewrite (sbind_ok _ _ _ _ _ _ _ (sget_live _ _ _ _ _ LX)).
  unfold sbind, slift. rewrite S. reflexivity.
Qed.

Lemma refused_stmt_spec : forall sc pattern qs q rest, sound_scope z xs sc -> Forall (sound_sequence (length xs)) pattern ->
  Forall valid_quant qs -> (exists n, (n < 0)%Z /\ (q = QExactly n \/ q = QAtLeast n)) ->
  srun_stmt E (SVerify sc pattern (map VsQuant qs ++ VsQuant q :: rest)) cs z = SExn z0 XInvalid.
Proof.
  intros sc pattern qs q rest SS SP VQ NQ.
  destruct (made z xs b TI CX AT DC cs CS sc pattern SS SP) as (sc' & unv & l & P1 & P2 & SO & MK).
  set (pat := map (renumbered b) pattern) in *. set (x := length (s_exps z)) in *.
  cbn [srun_stmt]. rewrite P1, P2. unfold sverify_stmt. rewrite (sbind_ok _ _ _ _ _ _ _ MK). unfold sbind at 1. unfold sattempt.
  set (z1 := sset_exps z (s_exps z ++ [Some (ESeq unv l pat exp_new)])).
  destruct (quants_spec qs z1 x unv l pat exp_new (ReqAtLeast 1) VVoid (last_live _ _ _) eq_refl rep_new VQ (VsQuant q :: rest)) as (ex & D & RP & ->).
  assert (U1 : upd (s_exps z1) x (Some (ESeq unv l pat ex)) = s_exps z ++ [Some (ESeq unv l pat ex)]) by (unfold z1, x; cbn; now rewrite upd_app_last).
  rewrite U1. rewrite (refused_quant q VVoid rest _ x unv l pat ex); [|apply last_live|exact NQ].
  unfold sbind at 1. unfold x. rewrite (freed _ (s_exps z) (ESeq unv l pat ex)) by reflexivity. reflexivity.
Qed.

Lemma invalid_stmt_spec : forall sc pattern n q steps, sound_scope z xs sc ->
  (forall p j, In p pattern -> written j p -> j < length xs) -> In q pattern -> repeats n q -> (n < 1)%Z ->
  srun_stmt E (SVerify sc pattern steps) cs z = SExn z XInvalid.
Proof.
  intros sc pattern n q steps SS SW IN RN N.
  destruct (unmade z xs b TI CX AT DC cs CS sc pattern n q SS SW IN RN N) as (sc' & P1 & P2 & MK).
  cbn [srun_stmt]. rewrite P1, P2. unfold sverify_stmt, sbind at 1. now rewrite MK.
Qed.

Lemma ssources_exps : forall y l, ssources E (sset_exps z y) l = ssources E z l.
Proof.
  intro y. assert (X : forall k a, source_size a <= k -> ssource E (sset_exps z y) a = ssource E z a).
  { clear. induction k as [|k IH]; intros a SZ; [destruct a; cbn in SZ; lia|]. destruct a as [m|c|ls]; cbn [ssource]; auto.
    f_equal. cbn in SZ. induction ls as [|a ls IHl]; auto. rewrite (IH a) by lia. rewrite IHl by lia. reflexivity. }
  induction l as [|a l IH]; cbn; auto. rewrite IH. f_equal. apply (X (source_size a)). apply le_n.
Qed.

Lemma noother_stmt_spec : forall l, Forall (sound_source z xs) l ->
  exists actual nonv, StronglySorted lt actual /\ (forall i, In i actual <-> some_source E z xs l i) /\
    StronglySorted lt nonv /\ (forall i, In i nonv <-> some_source E z xs l i /\ ~ verified_call z i) /\
    ((nonv = [] /\
      srun_stmt E (SNoOther l []) cs z = SOk z0 VVoid /\
      srun_stmt E (SNoOther l [VsBool]) cs z = SOk z0 (VBool true)) \/
     (nonv <> [] /\
      (let ev := EvNoMore actual nonv in
       listeners_quiet E z ev -> srun_stmt E (SNoOther l []) cs z = sanswer (notified E z0 ev) (reaction E z ev)) /\
      srun_stmt E (SNoOther l [VsBool]) cs z = SOk z0 (VBool false))).
Proof.
  intros l SS. destruct (sources_spec z xs b TI CX AT DC cs CS l SS) as (l' & a & P & Q & H).
  assert (KN : forall i, In i a -> known z i) by (intros i IN; apply H in IN; destruct IN as (y & _ & S); eapply selects_known; [apply le_n|exact S]).
  set (x := length (s_exps z)) in *. set (zz := fun y => sset_exps z (s_exps z ++ [Some y])).
  set (actual := in_call_order z a). set (nonv := filter (fun i => negb (sverified z i)) actual).
  assert (OR : forall i, In i actual <-> some_source E z xs l i).
  { intro i. unfold actual. rewrite ordered_spec; auto. }
  exists actual, nonv. split; [apply seq_map_sorted|]. split; [exact OR|]. split.
  { unfold nonv, actual, in_call_order. clear. generalize (seq_map_sorted (fun i => existsb (Nat.eqb i) a) (length (s_calls z)) 0).
    generalize (filter (fun i => existsb (Nat.eqb i) a) (seq 0 (length (s_calls z)))). intros k SK.
    induction SK as [|i k SK IH F]; cbn; [constructor|]. destruct (negb _); auto. constructor; auto.
    rewrite Forall_forall in *. intros j J. apply filter_In in J. now apply F. }
  split; [intro i; unfold nonv; rewrite unverified_filter, OR; tauto|].
  assert (LX : forall y, live (s_exps (zz y)) x = Some y) by (intro; apply last_live).
  assert (CK : forall quiet, sverify E x quiet (zz (ENoOther l' false)) =
     match nonv with [] => SOk (zz (ENoOther l' true)) tt | _ => sreport_to E quiet (EvNoMore actual nonv) (zz (ENoOther l' true)) end).
  { intro quiet. unfold sverify. rewrite (sbind_ok _ _ _ _ _ _ _ (sget_live _ _ _ _ _ (LX _))).
    assert (PT : sput_exp x (ENoOther l' true) (zz (ENoOther l' false)) = SOk (zz (ENoOther l' true)) tt).
    { unfold sput_exp, smodify, zz. cbn [s_exps sset_exps]. unfold x. rewrite upd_app_last. reflexivity. }
    rewrite (sbind_ok _ _ _ _ _ _ _ PT). unfold sgets, sbind, slift. unfold zz at 1. rewrite ssources_exps, Q.
    change (filter (fun i => negb (sverified (zz (ENoOther l' true)) i)) (in_call_order (zz (ENoOther l' true)) a)) with nonv.
    destruct nonv; reflexivity. }
  assert (X1 : forall z' y v, s_exps z' = s_exps z ++ [Some y] -> s_uncaught z' = 0 -> sverify E x false z' = SOk z' tt ->
     sbind (sexp_free E x) (fun _ => sret v) z' = SOk (over z' (s_exps z)) (v : val)).
  { intros z' y v I I' I''. unfold sbind, x. rewrite (released z' (s_exps z) y z' (inl tt) I' I); [reflexivity| |eauto]. unfold sattempt. fold x. now rewrite I''. }
  assert (DONE : sverify E x false (zz (ENoOther l' true)) = SOk (zz (ENoOther l' true)) tt).
  { unfold sverify. rewrite (sbind_ok _ _ _ _ _ _ _ (sget_live _ _ _ _ _ (LX _))). reflexivity. }
  assert (ST : forall steps, srun_stmt E (SNoOther l steps) cs z =
    match sattempt (srun_steps E x steps VVoid) (zz (ENoOther l' false)) with
    | SOk z' (inl v) => sbind (sexp_free E x) (fun _ => sret v) z'
    | SOk z' (inr e) => sbind (sfree_exp x) (fun _ => sthrow e) z'
    | SExn z' e => SExn z' e
    | SUnspec => SUnspec
    end).
  { intro steps. cbn [srun_stmt]. rewrite P. unfold sverify_stmt.
    assert (MK : snew_exp (ENoOther l' false) z = SOk (zz (ENoOther l' false)) x) by reflexivity.
    rewrite (sbind_ok _ _ _ _ _ _ _ MK). unfold sbind at 1. destruct (sattempt _ _) as [z' [v|e]|z' e|]; reflexivity. }
  rewrite !ST. unfold sattempt. cbn [srun_steps]. unfold sret at 1.
  assert (S0 : sverify E x true (zz (ENoOther l' false)) = match nonv with [] => SOk (zz (ENoOther l' true)) tt | _ => SExn (zz (ENoOther l' true)) XFalse end).
  { rewrite CK. destruct nonv; reflexivity. }
  assert (B : sexp_bool E x (zz (ENoOther l' false)) = SOk (zz (ENoOther l' true)) (VBool (match nonv with [] => true | _ => false end))).
  { unfold sexp_bool, sbind, sattempt. rewrite S0. destruct nonv; reflexivity. }
  destruct nonv as [|i0 nonv0] eqn:NV; [left|right]; (split; [solve [reflexivity|discriminate]|]).
  - split.
    + unfold sbind, x. rewrite (released (zz (ENoOther l' false)) (s_exps z) (ENoOther l' false) (zz (ENoOther l' true)) (inl tt) U eq_refl).
      * reflexivity.
      * unfold sattempt. fold x. rewrite CK. reflexivity.
      * exists (ENoOther l' true). reflexivity.
    + rewrite (sbind_ok _ _ _ _ _ _ _ B). exact (X1 (zz (ENoOther l' true)) (ENoOther l' true) (VBool true) eq_refl U DONE).
  - split.
    + cbv zeta. intro LQ. pose proof (CK false) as V. cbn [sreport_to] in V. set (ev := EvNoMore actual (i0 :: nonv0)) in *.
      rewrite (report_quiet _ (zz (ENoOther l' true)) LQ) in V. change (reaction E (zz (ENoOther l' true))) with (reaction E z) in V.
      unfold sret at 1. unfold sbind, x. rewrite (released (zz (ENoOther l' false)) (s_exps z) (ENoOther l' false) (notified E (zz (ENoOther l' true)) ev)
          (match reaction E z ev with inl _ => inl tt | inr e => inr e end) U eq_refl).
      * destruct (reaction E z ev) as [v|e] eqn:RE; [|reflexivity]. unfold reaction in RE. destruct (e_react _ _ _); inversion RE. reflexivity.
      * unfold sattempt. fold x. rewrite V. now destruct (reaction E z ev).
      * exists (ENoOther l' true). reflexivity.
    + rewrite (sbind_ok _ _ _ _ _ _ _ B). exact (X1 (zz (ENoOther l' true)) (ENoOther l' true) (VBool false) eq_refl U DONE).
Qed.
End Stmt.
End S.
