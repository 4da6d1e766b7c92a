(** Tests that keep to the rules (Spec_Rules.v): declarations, what is done and what is destroyed. *)
From Coq Require Import Bool ZArith Lia List Permutation.
From Verif Require Import Base CInt Values ArgMatchers InvMatchers Spec_Conditions ActionSeq Sequences MatchAnalysis
  Proxy Events Expectation ReturnSet Syntax World Spec_World WorldRel WorldSimA WorldSimB WorldSimE
  Spec_View SpecFacts SpecKept Spec_Alike SpecFrame SpecHistory Spec_Verification Spec_Rules RulesMore RulesInv RulesStmts RulesCalls
  RulesClosing.
Import ListNotations.
Open Scope nat_scope.

Definition clean (rs : list (val + exn)) : Prop := ~ In (inr XNoMore) rs.
Lemma clean_cons : forall r rs, r <> inr XNoMore -> clean rs -> clean (r :: rs).
Proof. intros r rs A B [H|H]; auto. Qed.
Lemma clean_app : forall a b, clean a -> clean b -> clean (a ++ b).
Proof. intros a b A B H. apply in_app_or in H. destruct H; auto. Qed.

Lemma all_app : forall E f os os' s s1 rs s2 rs', sexec_all E f os s = SOk s1 rs -> sexec_all E f os' s1 = SOk s2 rs' ->
  sexec_all E f (os ++ os') s = SOk s2 (rs ++ rs').
Proof.
  intros E f os os'. induction os as [|o os IH]; intros s s1 rs s2 rs' A B; cbn in *.
  - inversion A; subst. exact B.
  - unfold sbind in *. destruct (sattempt (sexec E f o) s) as [s3 x|s3 x|]; try discriminate.
    destruct (sexec_all E f os s3) as [s4 xs|s4 xs|] eqn:Q; try discriminate. inversion A; subst.
    now rewrite (IH _ _ _ _ _ Q B).
Qed.
Lemma all_cons : forall E f o os s s1 r s2 rs, sexec E f o s = sanswer s1 r -> sexec_all E f os s1 = SOk s2 rs ->
  sexec_all E f (o :: os) s = SOk s2 (r :: rs).
Proof. intros E f o os s s1 r s2 rs A B. cbn. unfold sbind. rewrite (sattempt_answer _ _ _ _ A), B. reflexivity. Qed.

Lemma live_end : forall A (l : list (option A)) x, live (l ++ [x]) (length l) = x.
Proof. intros. unfold live. now rewrite nth_error_app_last. Qed.
Lemma live_old : forall A (l : list (option A)) x i, i < length l -> live (l ++ [x]) i = live l i.
Proof. intros. unfold live. now rewrite nth_error_app1. Qed.
Lemma live_map : forall A B (f : A -> B) (l : list (option A)) i, live (map (option_map f) l) i = option_map f (live l i).
Proof. intros. unfold live. rewrite nth_error_map. now destruct (nth_error l i) as [[x|]|]. Qed.

(** ** One operation *)
Section Closing.
Variable E : env.
Variable P : plan.
Hypothesis PLAN : plan_ok E P.

Lemma rules_store : forall n o, op_ok E P n o -> stores o = false.
Proof. intros n o H. now inversion H. Qed.

Lemma cexec_good : forall n f o own s b, 2 * n + 1 <= f -> op_ok E P n o -> ready E P own s n b -> good E P own (b + n) (cexec E f o s).
Proof.
  assert (KC : forall f o, keeps (cexec E f o)) by (intros f o; eapply always_le; [apply cexec_le|apply keeps_exec]).
  assert (TC : forall f o, always tidies (cexec E f o)) by (intros f o; eapply always_le; [apply cexec_le|apply ti_exec]).
  induction n as [n IH] using lt_wf_ind. intros f o own s b LF OK R. destruct f as [|f]; [lia|]. cbn [cexec].
  rewrite (rules_store n o OK).
  apply (step_good E P PLAN (cexec E f) n); auto.
  - intros n1 o1 own1 s1 b1 L1 OK1 R1. apply IH; auto. lia.
  - intros i e d me own1 s1 b1 args CL L DT M BY PA LW R1 RM. destruct f as [|f]; [lia|]. cbn [cexec stores].
    eapply (orig_step E P PLAN (cexec E f) (S (pl_work P i e))); eauto.
    + intros n1 o1 own2 s2 b2 L1 OK1 R2. apply IH; auto; lia.
Qed.

(** What an operation leaves: no expression, the mocks and objects that were there. *)
Lemma exec_closing : forall n f o own s b, 2 * n + 1 <= f -> op_ok E P n o -> ready E P own s n b ->
  match sexec E f o s with SOk s' _ | SExn s' _ => closing s s' | SUnspec => False end.
Proof.
  intros n f o own s b LF OK R. pose proof (cexec_good n f o own s b LF OK R) as G. pose proof (cl_cexec E f o s) as C.
  destruct (cexec_le E f o s) as [Q|Q]; rewrite Q in *; [contradiction|]. destruct (sexec E f o s); auto.
Qed.
End Closing.

Section S.
Variable E : env.
Variable P : plan.
Hypothesis REACT : forall l ev, e_react E l ev <> Some XNoMore.

(** ** Between the operations of the test *)
Definition there (s : sworld) (i : nat) : Prop :=
  exists k o, live (s_mocks s) i = Some k /\ sk_obj k = i /\ live (s_objs s) i = Some o.

Record between (k : nat) (T L : nat -> bool) (own : list (nat * nat)) (s : sworld) (b : nat) : Prop := mkBetween {
  be_plan : plan_ok E (only L P);
  be_inv : inv E (only L P) own s;
  be_numbered : numbered s;
  be_tidy : tidy s;
  be_rest : forall i e me, method_at s i e = Some me -> resting me = true;
  be_spent : spent s b;
  be_mocks : length (s_mocks s) = k;
  be_objs : length (s_objs s) = k;
  be_there : forall i, T i = true -> there s i;
  be_gone : forall i, T i = false -> live (s_mocks s) i = None;
  be_ctxs : forall c, live (s_ctxs s) c = None
}.

Lemma between_init : forall m, pl_mem P m -> between 0 no_mocks no_mocks [] (sinit m) 0.
Proof.
  intros m PM. assert (NM : forall i e, method_at (sinit m) i e = None) by (intros i e; unfold method_at, live; cbn; now destruct i).
  assert (NX : forall (Q : Prop) i e me, method_at (sinit m) i e = Some me -> Q) by (intros Q i e me M; rewrite NM in M; discriminate).
  constructor; try reflexivity.
  - split; auto. intros i x Q. discriminate.
  - constructor; [intros i x Q; discriminate|intros i x Q; discriminate|intros i e me M; exact (NX _ _ _ _ M)|intros i e me _ M; exact (NX _ _ _ _ M)|apply Forall_nil|exact PM|reflexivity|apply Forall_nil].
  - intros i e me M. exact (NX _ _ _ _ M).
  - intros i e me M. exact (NX _ _ _ _ M).
  - intros i e me M. exact (NX _ _ _ _ M).
  - repeat split; cbn; lia.
  - intros i H. discriminate.
  - intros i _. unfold live. cbn. now destruct i.
  - intros c. unfold live. cbn. now destruct c.
Qed.

Lemma between_ready : forall k T L own s b n, between k T L own s b -> affordable (b + n) -> ready E (only L P) own s n b.
Proof. intros k T L own s b n B AF. destruct B. constructor; auto. intros i e me M _. eauto. Qed.

Lemma outline_there : forall s s', outline s' = outline s -> length (s_mocks s') = length (s_mocks s) /\ length (s_objs s') = length (s_objs s) /\
  (forall i, there s i -> there s' i) /\ (forall i, live (s_mocks s) i = None -> live (s_mocks s') i = None).
Proof.
  intros s s' Q. unfold outline in Q. injection Q as Q1 Q2.
  assert (M : forall i, option_map sk_obj (live (s_mocks s') i) = option_map sk_obj (live (s_mocks s) i)) by (intro i; now rewrite <- !live_map, Q1).
  assert (O : forall i, option_map (fun _ => tt) (live (s_objs s') i) = option_map (fun _ => tt) (live (s_objs s) i)).
  { intro i. rewrite <- (live_map sobj unit (fun _ => tt)), Q2. apply live_map. }
  split; [apply (f_equal (@length _)) in Q1; now rewrite !map_length in Q1|].
  split; [apply (f_equal (@length _)) in Q2; now rewrite !map_length in Q2|]. split.
  - intros i (k & o & K & KO & OO). specialize (M i). specialize (O i). rewrite K in M. rewrite OO in O.
    destruct (live (s_mocks s') i) as [k'|] eqn:K'; [|discriminate]. destruct (live (s_objs s') i) as [o'|] eqn:O'; [|discriminate].
    cbn in M. injection M as M. exists k', o'. repeat split; auto. congruence.
  - intros i K. specialize (M i). rewrite K in M. destruct (live (s_mocks s') i); [discriminate|reflexivity].
Qed.

Lemma test_step : forall k T L n o f own s b, op_ok E (only L P) n o -> between k T L own s b -> affordable (b + n) -> 2 * n + 1 <= f ->
  exists own1 s1 r, sexec E f o s = sanswer s1 r /\ between k T L (own ++ own1) s1 (b + n) /\ r <> inr XNoMore.
Proof.
  intros k T L n o f own s b OK B AF LF. pose proof (between_ready k T L own s b n B AF) as R. pose proof (be_plan _ _ _ _ _ _ B) as PLAN.
  pose proof (exec_good E (only L P) PLAN n f o own s b LF OK R) as G.
  pose proof (exec_closing E (only L P) PLAN n f o own s b LF OK R) as C.
  pose proof (keeps_exec E f o s) as K. pose proof (ti_exec E f o s) as TI.
  assert (NEXT : forall s1, later E (only L P) own (b + n) s1 -> kept s s1 -> tidies s s1 -> closing s s1 ->
    exists own1, between k T L (own ++ own1) s1 (b + n)).
  { intros s1 (own1 & I1 & S1) K1 T1 C1. destruct (K1 (be_numbered _ _ _ _ _ _ B)) as [N1 H1]. exists own1.
    destruct (outline_there s s1 (closing_outline _ _ C1)) as (LM & LO & TH & GO).
    constructor; auto; [apply T1, B| |rewrite LM; apply B|rewrite LO; apply B| | |].
    - intros i e me' M. destruct (proj1 (proj2 H1) _ _ _ M) as [[_ RS]|(me & M0 & GR)]; auto.
      rewrite (grown_resting _ _ GR). eapply be_rest; eauto.
    - intros i H. apply TH. now apply (be_there _ _ _ _ _ _ B).
    - intros i H. apply GO. now apply (be_gone _ _ _ _ _ _ B).
    - intros c. destruct (live (s_ctxs s1) c) eqn:Q; auto. exfalso. apply (C1 (inl c)); cbn; [congruence|apply (be_ctxs _ _ _ _ _ _ B)]. }
  destruct (sexec E f o s) as [s1 v|s1 y|] eqn:Q; cbn in G; [| |contradiction].
  - destruct (NEXT s1) as (own1 & B1); auto. exists own1, s1, (inl v). repeat (split; auto). discriminate.
  - destruct G as [NX G]. destruct (NEXT s1) as (own1 & B1); auto. exists own1, s1, (inr y). repeat (split; auto). congruence.
Qed.

(** ** The plan changes *)
Definition moves (L L' : nat -> bool) (i : nat) : Prop :=
  L i = true /\ L' i = true /\ pl_mocks P i <> None /\ below (within (only L P) i) (within (only L' P) i).

Lemma moves_same : forall L L' i, moves L L' i -> pl_mocks (only L' P) i = pl_mocks (only L P) i /\ pl_mocks (only L P) i <> None.
Proof. intros L L' i (A & B & C & _). cbn. now rewrite A, B. Qed.
Lemma moves_class : forall L L' i, moves L L' i -> class_at E (only L' P) i = class_at E (only L P) i.
Proof. intros L L' i M. unfold class_at. now rewrite (proj1 (moves_same _ _ _ M)). Qed.
Lemma moves_object_at : forall L L' i, moves L L' i -> object_at E (only L' P) i = object_at E (only L P) i.
Proof. intros L L' i M. unfold object_at. now rewrite (proj1 (moves_same _ _ _ M)). Qed.
Lemma moves_returns : forall L L' i e, moves L L' i -> returns E (only L' P) i e = returns E (only L P) i e.
Proof. intros L L' i e M. unfold returns. now rewrite (moves_class _ _ _ M). Qed.

Lemma moves_callable : forall L L' i e f, moves L L' i -> callable_held E (only L P) i e f -> callable_held E (only L' P) i e f.
Proof.
  intros L L' i e f M [H|(fw & d & Q & C & H)].
  - left. destruct (moves_same _ _ _ M) as [S1 S2]. eapply callable_within; eauto. apply M.
  - right. exists fw, d. rewrite (moves_class _ _ _ M). auto.
Qed.
Lemma moves_held : forall L L' i e a, moves L L' i -> held E (only L P) i e a -> held E (only L' P) i e a.
Proof.
  intros L L' i e a M. destruct a; cbn; rewrite ?(moves_returns _ _ _ _ M); auto; try (apply moves_callable; auto).
  intros [H N]. split; auto. eapply moves_callable; eauto.
Qed.
Lemma moves_meth : forall L L' i e me, moves L L' i -> meth_ok E (only L P) i e me -> meth_ok E (only L' P) i e me.
Proof.
  intros L L' i e me M (A & B & C). split; [|split].
  - unfold id_ok in *. now rewrite (moves_class _ _ _ M).
  - now rewrite (moves_returns _ _ _ _ M).
  - eapply Forall_impl; [|exact C]. intros st [D F]. split; [exact D|]. intro BS. eapply Forall_impl; [|exact (F BS)].
    intros a. now apply moves_held.
Qed.
Lemma moves_object : forall L L' i x o, moves L L' i -> object_ok E (only L P) i x o -> object_ok E (only L' P) i x o.
Proof. intros L L' i x o M (A & B & d & D & H). split; auto. split; auto. exists d. now rewrite (moves_object_at _ _ _ M). Qed.
Lemma moves_mock : forall L L' i x k, moves L L' i -> smock_ok E (only L P) i x k -> smock_ok E (only L' P) i x k.
Proof. intros L L' i x o M (A & B & C & D & d & H). repeat (split; auto). exists d. now rewrite (moves_class _ _ _ M). Qed.

Lemma moves_more : forall L L' i, (forall j, L j = true -> L' j = true) -> L i = true -> pl_mocks P i <> None -> moves L L' i.
Proof. intros L L' i H A B. split; auto. split; auto. split; auto. apply below_within. now apply below_more. Qed.
Lemma moves_remain : forall L L' g i, remain P g L L' -> L' i = true -> pl_mocks P i <> None -> moves L L' i.
Proof. intros L L' g i R A B. split; [now apply R|]. split; auto. split; auto. eapply below_remain; eauto. Qed.

(** ** The declarations *)
Lemma and_also_more : forall k L j, L j = true -> and_also k L j = true.
Proof. intros k L j H. unfold and_also. rewrite H. apply orb_true_r. Qed.
Lemma and_also_this : forall k L, and_also k L k = true.
Proof. intros. unfold and_also. now rewrite Nat.eqb_refl. Qed.
Lemma and_also_other : forall k L j, j <> k -> and_also k L j = L j.
Proof. intros k L j N. unfold and_also. apply Nat.eqb_neq in N. now rewrite N. Qed.

(** A mock and an object are added. *)
Lemma between_add : forall k T L own s b s' x o y, between k T L own s b -> pl_mocks P k = Some x ->
  mock_ok E (only (and_also k L) P) k x ->
  s_objs s' = s_objs s ++ [Some o] -> s_mocks s' = s_mocks s ++ [Some y] ->
  object_ok E (only (and_also k L) P) k x o -> smock_ok E (only (and_also k L) P) k x y ->
  (forall e, live (sk_meths y) e = None) -> s_calls s' = s_calls s -> s_mem s' = s_mem s -> s_bound s' = s_bound s ->
  s_started s' = s_started s -> s_ctxs s' = s_ctxs s -> numbered s' -> tidy s' ->
  between (S k) (and_also k T) (and_also k L) own s' b.
Proof.
  intros k T L own s b s' x o y B X MK O Y OK YK NM CA ME BO ST CX NU TI.
  pose proof (be_mocks _ _ _ _ _ _ B) as LM. pose proof (be_objs _ _ _ _ _ _ B) as LO. pose proof (be_inv _ _ _ _ _ _ B) as I.
  assert (ME' : forall i e me, method_at s' i e = Some me -> i <> k /\ method_at s i e = Some me).
  { intros i e me. unfold method_at. rewrite Y. destruct (Nat.lt_trichotomy i k) as [H|[->|H]].
    - rewrite live_old by lia. split; auto. lia.
    - rewrite <- LM, live_end, NM. discriminate.
    - unfold live. rewrite (proj2 (nth_error_None _ _)); [discriminate|]. rewrite app_length. cbn. lia. }
  assert (OLD : forall i, i <> k -> pl_mocks (only (and_also k L) P) i <> None -> moves L (and_also k L) i).
  { intros i N H. cbn in H. rewrite and_also_other in H by auto. destruct (L i) eqn:LI; [|congruence].
    apply moves_more; auto using and_also_more. }
  assert (OLDS : forall i z, i <> k -> pl_mocks (only (and_also k L) P) i = Some z -> pl_mocks (only L P) i = Some z).
  { intros i z N H. cbn in *. now rewrite and_also_other in H by auto. }
  constructor.
  - split; auto. intros i z Z. destruct (Nat.eq_dec i k) as [->|N].
    + destruct (only_some _ _ _ _ Z) as [_ Z']. assert (z = x) by congruence. now subst z.
    + apply mock_mono with (P := only L P); [apply OLD; congruence|]. apply (be_plan _ _ _ _ _ _ B). auto.
  - constructor.
    + intros i z Z. rewrite O. destruct (Nat.eq_dec i k) as [->|N].
      * destruct (only_some _ _ _ _ Z) as [_ Z']. assert (z = x) by congruence. subst z. exists o. rewrite <- LO at 1. rewrite live_end. auto.
      * destruct (i_objs _ _ _ _ I i z) as (o' & Q & H); auto. exists o'. rewrite live_old by (eapply live_lt; eauto). split; auto.
        eapply moves_object; eauto. apply OLD; congruence.
    + intros i z Z. rewrite Y. destruct (Nat.eq_dec i k) as [->|N].
      * destruct (only_some _ _ _ _ Z) as [_ Z']. assert (z = x) by congruence. subst z. exists y. rewrite <- LM at 1. rewrite live_end. auto.
      * destruct (i_mocks _ _ _ _ I i z) as (o' & Q & H); auto. exists o'. rewrite live_old by (eapply live_lt; eauto). split; auto.
        eapply moves_mock; eauto. apply OLD; congruence.
    + intros i e me M. eapply i_own; eauto. now apply ME'.
    + intros i e me H M. destruct (ME' _ _ _ M) as [N M0]. assert (V : moves L (and_also k L) i) by (apply OLD; auto).
      eapply moves_meth; eauto. eapply i_meths; eauto. apply (moves_same _ _ _ V).
    + rewrite CA. eapply Forall_impl; [|apply (i_calls _ _ _ _ I)]. intros c (i & e & NE & H). exists i, e. split; auto. intro H'.
      assert (N : i <> k).
      { pose proof (i_range _ _ _ _ I) as RG. rewrite Forall_forall in RG. apply nth_error_In in NE. specialize (RG _ NE). cbn in RG. lia. }
      assert (V : moves L (and_also k L) i) by (apply OLD; auto). rewrite (moves_returns _ _ _ _ V). apply H. apply (moves_same _ _ _ V).
    + rewrite ME. apply I.
    + rewrite BO. apply I.
    + eapply Forall_impl; [|apply (i_range _ _ _ _ I)]. intros z H. rewrite Y, app_length. cbn. cbn in H. lia.
  - exact NU.
  - exact TI.
  - intros i e me M. exact (be_rest _ _ _ _ _ _ B _ _ _ (proj2 (ME' _ _ _ M))).
  - unfold spent. rewrite ST, CA, BO. apply B.
  - rewrite Y, app_length, LM. cbn. lia.
  - rewrite O, app_length, LO. cbn. lia.
  - intros i H. unfold there. rewrite O, Y. destruct (Nat.eq_dec i k) as [->|N].
    + exists y, o. rewrite <- LM at 1. rewrite live_end. rewrite <- LO at 2. rewrite live_end. split; auto. split; auto. apply YK.
    + rewrite and_also_other in H by auto. destruct (be_there _ _ _ _ _ _ B i H) as (k' & o' & Q1 & Q2 & Q3). exists k', o'.
      rewrite !live_old by (eapply live_lt; eauto). auto.
  - intros i H. destruct (Nat.eq_dec i k) as [->|N]; [now rewrite and_also_this in H|]. rewrite and_also_other in H by auto.
    pose proof (be_gone _ _ _ _ _ _ B i H) as Q. rewrite Y. destruct (Nat.lt_ge_cases i k).
    + now rewrite live_old by lia.
    + unfold live. rewrite (proj2 (nth_error_None _ _)); auto. rewrite app_length. cbn. lia.
  - intro c. rewrite CX. apply B.
Qed.

Lemma declared_keeps : forall f os s s' rs, sexec_all E f os s = SOk s' rs -> numbered s -> tidy s -> numbered s' /\ tidy s'.
Proof.
  intros f. induction os as [|o os IH]; intros s s' rs Q N T; cbn in Q.
  - inversion Q; subst. auto.
  - unfold sbind in Q. unfold sattempt in Q. pose proof (keeps_exec E f o s) as K. pose proof (ti_exec E f o s) as TI.
    destruct (sexec E f o s) as [s1 x|s1 x|]; try discriminate;
    (destruct (sexec_all E f os s1) as [s2 xs|s2 xs|] eqn:Q2; try discriminate; inversion Q; subst;
     eapply IH; [exact Q2|apply (K N)|apply TI, T]).
Qed.

Lemma declare_one : forall f k T L own s b x, between k T L own s b -> pl_mocks P k = Some x -> mock_ok E (only (and_also k L) P) k x ->
  exists s' rs, sexec_all E (S f) (declaration (k, x)) s = SOk s' rs /\ between (S k) (and_also k T) (and_also k L) own s' b /\ clean rs.
Proof.
  intros f k T L own s b [c [cx|]] B X MK; pose proof MK as (d & DC & DF & REST); cbn [fst snd] in *;
  assert (X' : pl_mocks (only (and_also k L) P) k = pl_mocks P k) by (cbn; now rewrite and_also_this).
  - destruct REST as (dx & DX & SZ & _). cbn [declaration].
    assert (OA : object_at E (only (and_also k L) P) k = Some dx) by (unfold object_at; now rewrite X', X).
    assert (CA : class_at E (only (and_also k L) P) k = Some d) by (unfold class_at; now rewrite X', X).
    set (o := mkSobj cx (sfresh_data dx) (Some k)).
    set (y := mkSmock c k false int_max (repeat None (cl_size d))).
    set (s1 := sset_objs s (s_objs s ++ [Some (mkSobj cx (sfresh_data dx) None)])).
    set (s2 := sset_mocks (sset_objs s1 (upd (s_objs s1) k (Some o))) (s_mocks s1 ++ [Some y])).
    assert (Q1 : sexec E (S f) (ONewObj cx) s = sanswer s1 (inl (id_val (length (s_objs s))))).
    { cbn [sexec sstep]. unfold sclass. rewrite DX. reflexivity. }
    assert (L1 : live (s_objs s1) k = Some (mkSobj cx (sfresh_data dx) None)).
    { unfold s1. cbn. rewrite <- (be_objs _ _ _ _ _ _ B). apply live_end. }
    assert (Q2 : sexec E (S f) (OSpyMock c k) s1 = sanswer s2 (inl (id_val k))).
    { cbn [sexec sstep]. unfold snat, smock_spy. unfold sclass at 1. rewrite DC.
      unfold sbind at 1. unfold sbind at 1. unfold sopt at 1, sret at 1. rewrite (sbind_ok _ _ _ _ _ _ _ (sget_live _ _ _ _ _ L1)).
      cbn [so_class so_mock so_data]. unfold sclass. rewrite DX. unfold sbind at 1. unfold sopt, sret at 1. rewrite DF.
      destruct (Nat.leb_spec (cl_size d) (cl_size dx)); [|lia]. cbn [andb]. unfold sbind, sgets, sput_obj, smodify, sret. cbn [sanswer].
      assert (LM : length (s_mocks s1) = k) by exact (be_mocks _ _ _ _ _ _ B). rewrite LM. unfold s2. reflexivity. }
    assert (Q : sexec_all E (S f) [ONewObj cx; OSpyMock c k] s = SOk s2 [inl (id_val (length (s_objs s))); inl (id_val k)]).
    { eapply all_cons; [exact Q1|]. eapply all_cons; [exact Q2|]. reflexivity. }
    destruct (declared_keeps _ _ _ _ _ Q) as [NU TI]; [apply B|apply B|].
    exists s2, [inl (id_val (length (s_objs s))); inl (id_val k)]. split; [exact Q|split].
    + eapply (between_add k T L own s b s2 (c, Some cx) o y); eauto; try reflexivity.
      * unfold s2, s1. cbn. rewrite <- (be_objs _ _ _ _ _ _ B). apply upd_app_last.
      * split; [reflexivity|split; [reflexivity|]]. exists dx. split; auto. cbn. apply repeat_length.
      * repeat split; auto; [now left|]. exists d. split; auto. cbn. apply repeat_length.
      * intro e. apply live_repeat_none.
    + apply clean_cons; [discriminate|]. apply clean_cons; [discriminate|]. intros [].
  - cbn [declaration].
    assert (OA : object_at E (only (and_also k L) P) k = Some d) by (unfold object_at; now rewrite X', X).
    assert (CA : class_at E (only (and_also k L) P) k = Some d) by (unfold class_at; now rewrite X', X).
    set (o := mkSobj c (sfresh_data d) (Some k)).
    set (y := mkSmock c k true int_max (repeat None (cl_size d))).
    set (s2 := sset_mocks (sset_objs s (s_objs s ++ [Some o])) (s_mocks s ++ [Some y])).
    assert (Q1 : sexec E (S f) (OMock c) s = sanswer s2 (inl (id_val k))).
    { cbn [sexec sstep]. unfold snat, smock_new, sclass. rewrite DC. unfold sbind at 1. unfold sbind at 1. unfold sopt, sret at 1. rewrite DF.
      unfold sbind, sgets, smodify, sret. cbn [sanswer]. unfold s2, o, y. rewrite (be_objs _ _ _ _ _ _ B), (be_mocks _ _ _ _ _ _ B). reflexivity. }
    assert (Q : sexec_all E (S f) [OMock c] s = SOk s2 [inl (id_val k)]) by (eapply all_cons; [exact Q1|]; reflexivity).
    destruct (declared_keeps _ _ _ _ _ Q) as [NU TI]; [apply B|apply B|].
    exists s2, [inl (id_val k)]. split; [exact Q|split].
    + eapply (between_add k T L own s b s2 (c, None) o y); eauto; try reflexivity.
      * split; [reflexivity|split; [reflexivity|]]. exists d. split; auto. cbn. apply repeat_length.
      * repeat split; auto; [now left|]. exists d. split; auto. cbn. apply repeat_length.
      * intro e. apply live_repeat_none.
    + apply clean_cons; [discriminate|]. intros [].
Qed.

(** ** What is destroyed *)
(** Mock [i] goes; of the other objects and mocks nothing changes. *)
Definition without (i : nat) (s s' : sworld) : Prop :=
  s_mocks s' = upd (s_mocks s) i None /\ (exists o, s_objs s' = upd (s_objs s) i o) /\ s_ctxs s' = s_ctxs s /\ s_calls s' = s_calls s /\
  s_mem s' = s_mem s /\ s_bound s' = s_bound s /\ s_started s' = s_started s.

Lemma destroyed : forall f i s, there s i -> (forall e me, method_at s i e = Some me -> resting me = true) ->
  exists s', sexec E (S f) (OMockDestroy i) s = sanswer s' (inl VVoid) /\ without i s s'.
Proof.
  intros f i s (k & o & K & KO & O) R. cbn [sexec sstep]. unfold sunit, smock_destroy.
  assert (Q : quiet k = true).
  { unfold quiet. apply forallb_forall. intros [me|] IN; auto. apply In_nth_error in IN. destruct IN as (e & NE).
    apply (R e me). unfold method_at. rewrite K. unfold live. now rewrite NE. }
  assert (H : exists s', smock_destroy i s = SOk s' tt /\ without i s s').
  { unfold smock_destroy. rewrite (sbind_ok _ _ _ _ _ _ _ (sget_live _ _ _ _ _ K)), KO.
    rewrite (sbind_ok _ _ _ _ _ _ _ (sget_live _ _ _ _ _ O)), Q. unfold sbind, smodify.
    destruct (sk_owner k); unfold sput_obj, smodify; (eexists; split; [reflexivity|]; repeat split; eexists; reflexivity). }
  destruct H as (s' & H & J). exists s'. split; auto. fold (smock_destroy i). now rewrite (sbind_ok _ _ _ _ _ _ _ H).
Qed.

Lemma but_for_other : forall i L j, j <> i -> but_for i L j = L j.
Proof. intros i L j N. unfold but_for. apply Nat.eqb_neq in N. now rewrite N. Qed.
Lemma but_for_this : forall i L, but_for i L i = false.
Proof. intros. unfold but_for. now rewrite Nat.eqb_refl. Qed.

Lemma between_destroy : forall f k T L own s b i L', between k T L own s b -> T i = true -> remain P i L L' ->
  exists s', sexec E (S f) (OMockDestroy i) s = sanswer s' (inl VVoid) /\ between k (but_for i T) L' own s' b.
Proof.
  intros f k T L own s b i L' B TI R. pose proof (be_there _ _ _ _ _ _ B i TI) as TH. pose proof (be_inv _ _ _ _ _ _ B) as I.
  destruct (destroyed f i s TH) as (s' & Q & WM & (wo & WO) & WC & WCA & WME & WB & WS); [intros; eapply be_rest; eauto|].
  exists s'. split; auto.
  assert (KT : numbered s' /\ tidy s').
  { pose proof (keeps_exec E (S f) (OMockDestroy i) s) as K. pose proof (ti_exec E (S f) (OMockDestroy i) s) as TT. rewrite Q in K, TT. cbn in K, TT.
    split; [apply (K (be_numbered _ _ _ _ _ _ B))|apply TT, B]. }
  assert (LT : i < length (s_mocks s)) by (destruct TH as (y & o & Y & _); eapply live_lt; eauto).
  assert (ME' : forall j e me, method_at s' j e = Some me -> j <> i /\ method_at s j e = Some me).
  { intros j e me. unfold method_at. rewrite WM. destruct (Nat.eq_dec i j) as [<-|N].
    - rewrite live_upd_in by auto. discriminate.
    - rewrite live_upd_out by auto. auto. }
  assert (OLD : forall j, pl_mocks (only L' P) j <> None -> moves L L' j).
  { intros j H. cbn in H. destruct (L' j) eqn:LJ; [|congruence]. eapply moves_remain; eauto. }
  assert (OLDS : forall j z, pl_mocks (only L' P) j = Some z -> j <> i /\ pl_mocks (only L P) j = Some z).
  { intros j z H. destruct (only_some _ _ _ _ H) as [A C]. split; [intros ->; rewrite (proj1 R) in A; discriminate|].
    cbn. now rewrite (proj1 (proj2 R) j A). }
  constructor.
  - split; auto. intros j z Z. apply mock_mono with (P := only L P); [apply OLD; congruence|]. apply (be_plan _ _ _ _ _ _ B). now apply OLDS.
  - constructor.
    + intros j z Z. destruct (OLDS j z Z) as [N Z']. destruct (i_objs _ _ _ _ I j z Z') as (o' & QQ & H). exists o'. rewrite WO, live_upd_out by auto.
      split; auto. eapply moves_object; eauto. apply OLD; congruence.
    + intros j z Z. destruct (OLDS j z Z) as [N Z']. destruct (i_mocks _ _ _ _ I j z Z') as (o' & QQ & H). exists o'. rewrite WM, live_upd_out by auto.
      split; auto. eapply moves_mock; eauto. apply OLD; congruence.
    + intros j e me M. eapply i_own; eauto. now apply ME'.
    + intros j e me H M. destruct (ME' _ _ _ M) as [N M0]. assert (V : moves L L' j) by (apply OLD; auto).
      eapply moves_meth; eauto. eapply i_meths; eauto. apply (moves_same _ _ _ V).
    + rewrite WCA. eapply Forall_impl; [|apply (i_calls _ _ _ _ I)]. intros c (j & e & NE & H). exists j, e. split; auto. intro H'.
      assert (V : moves L L' j) by (apply OLD; auto). rewrite (moves_returns _ _ _ _ V). apply H. apply (moves_same _ _ _ V).
    + rewrite WME. apply I.
    + rewrite WB. apply I.
    + rewrite WM, upd_length. apply I.
  - apply KT.
  - apply KT.
  - intros j e me M. exact (be_rest _ _ _ _ _ _ B _ _ _ (proj2 (ME' _ _ _ M))).
  - unfold spent. rewrite WS, WCA, WB. apply B.
  - rewrite WM, upd_length. apply B.
  - rewrite WO, upd_length. apply B.
  - intros j H. destruct (Nat.eq_dec j i) as [->|N]; [now rewrite but_for_this in H|]. rewrite but_for_other in H by auto.
    destruct (be_there _ _ _ _ _ _ B j H) as (y & o & Q1 & Q2 & Q3). exists y, o. rewrite WM, WO, !live_upd_out by auto. auto.
  - intros j H. rewrite WM. destruct (Nat.eq_dec i j) as [<-|N]; [now rewrite live_upd_in|]. rewrite but_for_other in H by auto.
    rewrite live_upd_out by auto. now apply (be_gone _ _ _ _ _ _ B).
  - intro c. rewrite WC. apply B.
Qed.

(** ** Whole tests *)
(* The mocks that are there at the end are declared and not destroyed. *)
Lemma rules_stay : forall n o, op_ok E P n o -> (forall i, o <> OMockDestroy i) /\ (forall os, declared (o :: os) = declared os).
Proof. intros n o H. destruct H; split; auto; intros ? X; discriminate. Qed.
Lemma declaration_stays : forall k x os, (forall i, ~ In (OMockDestroy i) (declaration (k, x))) /\ declared (declaration (k, x) ++ os) = S (declared os).
Proof.
  intros k [c [cx|]] os; cbn; split; auto.
  - intros i [X|[X|[]]]; discriminate.
  - intros i [X|[]]; discriminate.
Qed.

Lemma test_leads : forall k T L N os, test_ok E P k T L N os -> forall f own s b, between k T L own s b -> affordable (b + N) -> 2 * N + 1 <= f ->
  exists own1 s' rs k' T' L', sexec_all E f os s = SOk s' rs /\ between k' T' L' (own ++ own1) s' (b + N) /\ clean rs /\
    forall j, T' j = true -> (T j = true \/ k <= j < k + declared os) /\ ~ In (OMockDestroy j) os.
Proof.
  intros k T L N os H. induction H as [k T L|k T L n n1 o os OK H IH|k T L x n os X MK H IH|k T L i L' n os TI R H IH]; intros f own s b B AF LF.
  - exists [], s, [], k, T, L. rewrite app_nil_r, Nat.add_0_r. split; [reflexivity|]. split; auto. split; [intros []|]. cbn. auto.
  - destruct (test_step k T L n o f own s b OK B) as (own1 & s1 & r & Q & B1 & NX); [unfold affordable in *; lia|lia|].
    destruct (IH f (own ++ own1) s1 (b + n) B1) as (own2 & s2 & rs & k' & T' & L' & Q2 & B2 & C2 & D2); [unfold affordable in *; lia|lia|].
    exists (own1 ++ own2), s2, (r :: rs), k', T', L'. rewrite app_assoc, Nat.add_assoc. split; [eapply all_cons; eauto|]. split; auto. split; [now apply clean_cons|].
    intros j TJ. destruct (D2 j TJ) as [D3 D4].
    assert (OP : op_ok E P n o) by (eapply op_mono; [exact OK|apply below_only]). destruct (rules_stay n o OP) as [S1 S2]. rewrite S2. split; auto.
    intros [Z|Z]; auto. eapply S1; eauto.
  - destruct f as [|f]; [lia|]. destruct (declare_one f k T L own s b x B X MK) as (s1 & rs1 & Q1 & B1 & C1).
    destruct (IH (S f) own s1 b B1 AF LF) as (own2 & s2 & rs & k' & T' & L' & Q2 & B2 & C2 & D2).
    exists own2, s2, (rs1 ++ rs), k', T', L'. split; [eapply all_app; eauto|]. split; auto. split; [now apply clean_app|].
    intros j TJ. destruct (D2 j TJ) as [D3 D4]. destruct (declaration_stays k x os) as [S1 S2]. rewrite S2. split.
    + destruct (Nat.eq_dec j k) as [->|NE]; [right; lia|]. rewrite and_also_other in D3 by auto. destruct D3 as [D3|D3]; [auto|right; lia].
    + intro Z. apply in_app_or in Z. destruct Z as [Z|Z]; auto. eapply S1; eauto.
  - destruct f as [|f]; [lia|]. destruct (between_destroy f k T L own s b i L' B TI R) as (s1 & Q1 & B1).
    destruct (IH (S f) own s1 b B1 AF LF) as (own2 & s2 & rs & k' & T' & L'' & Q2 & B2 & C2 & D2).
    exists own2, s2, (inl VVoid :: rs), k', T', L''. split; [eapply all_cons; eauto|]. split; auto. split; [apply clean_cons; [discriminate|auto]|].
    intros j TJ. destruct (D2 j TJ) as [D3 D4]. cbn [declared]. destruct (Nat.eq_dec j i) as [->|NE].
    + exfalso. rewrite but_for_this in D3. destruct D3 as [D3|D3]; [discriminate|].
      destruct (be_there _ _ _ _ _ _ B i TI) as (y & o & Y & _). pose proof (live_lt _ _ _ _ Y). pose proof (be_mocks _ _ _ _ _ _ B). lia.
    + rewrite but_for_other in D3 by auto. split; auto. intros [Z|Z]; auto. congruence.
Qed.
End S.

Theorem rules : forall E P m N os fuel, pl_mem P m -> whole_test E P N os -> (Z.of_nat N <= 1073741824)%Z -> 2 * N + 1 <= fuel ->
  exists s rs, sexec_all E fuel os (sinit m) = SOk s rs /\ clean rs /\
    (all_go os -> forall i, live (s_mocks s) i = None) /\ (forall c, live (s_ctxs s) c = None).
Proof.
  intros E P m N os fuel PM [RE T] AF LF.
  destruct (test_leads E P RE 0 no_mocks no_mocks N os T fuel [] (sinit m) 0 (between_init E P RE m PM) AF LF)
    as (own & s & rs & k & T' & L' & Q & B & C & D).
  exists s, rs. split; auto. split; auto. split; [|apply B].
  intros AG i. apply (be_gone _ _ _ _ _ _ _ _ B). destruct (T' i) eqn:TI; auto. exfalso. destruct (D i TI) as [[D1|D1] D2]; [discriminate|].
  apply D2, AG. lia.
Qed.

(** The library itself. *)
Theorem rules_world : forall E P m n os fuel, iterates E -> pl_mem P m -> whole_test E P n os ->
  (Z.of_nat n <= 2 ^ 30)%Z -> 2 * n + 1 <= fuel ->
  exists w rs, exec_all E fuel os (init_world E m) = RVal w rs /\ ~ In (inr XNoMore) rs.
Proof.
  intros E P m n os fuel IT PM T L LF. destruct (rules E P m n os fuel PM T L LF) as (s & rs & Q & C & _).
  destruct (answered_leads E IT fuel m _ s rs Q) as (w & X & _). exists w, rs. auto.
Qed.
