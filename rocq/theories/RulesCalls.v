(** Calls and all other operations of tests that keep to the rules (Spec_Rules.v) always
    end, and keep the invariant of RulesInv.v. *)
From Coq Require Import Bool ZArith Lia List Permutation Sorted.
From Verif Require Import Base CInt Values ArgMatchers InvMatchers Spec_Conditions ConditionProofs ActionSeq Sequences MatchAnalysis
  Spec_Match Proxy Events EventsProofs Expectation Spec_Verify ExpectationProofs ReturnSet Syntax World Spec_World WorldRel WorldSimA WorldSimB WorldSimE
  Spec_View SpecFacts SpecKept Spec_Alike SpecFrame SpecHistory SpecLasting Spec_Verification SpecVerify Spec_Rules RulesMore RulesInv RulesStmts.
Import ListNotations.
Open Scope nat_scope.

Section S.
Variable E : env.
Variable P : plan.
Hypothesis PLAN : plan_ok E P.

Local Notation inv := (inv E P).
Local Notation good := (good E P).
Local Notation later := (later E P).
Local Notation work := (pl_work P).

(** Methods whose answers take less than [n] are not running. *)
Definition calm (n : nat) (s : sworld) : Prop :=
  forall i e me, method_at s i e = Some me -> S (work i e) <= n -> resting me = true.

Record ready (own : list (nat * nat)) (s : sworld) (n b : nat) : Prop := mkReady {
  re_inv : inv own s;
  re_numbered : numbered s;
  re_tidy : tidy s;
  re_calm : calm n s;
  re_spent : spent s b;
  re_afford : affordable (b + n)
}.

Lemma calm_less : forall n n' s, calm n s -> n' <= n -> calm n' s.
Proof. intros n n' s C L i e me M W. apply (C i e me M). lia. Qed.
Lemma calm_kept : forall n s s', calm n s -> holds s s' -> calm n s'.
Proof.
  intros n s s' C (_ & H & _) i e me' M W. destruct (H _ _ _ M) as [[_ R]|(me & M0 & G)]; auto.
  rewrite (grown_resting _ _ G). eapply C; eauto.
Qed.
Lemma ready_less : forall own s n b n', ready own s n b -> n' <= n -> ready own s n' b.
Proof.
  intros own s n b n' [A B C D F G] L. constructor; auto; [eapply calm_less; eauto|unfold affordable in *; lia].
Qed.
Lemma ready_later : forall own s n b b', ready own s n b -> b <= b' -> later own b' s.
Proof. intros own s n b b' R L. apply later_here; [apply R|eapply spent_more; [apply R|auto]]. Qed.
Lemma ready_same : forall own s s' n b, ready own s n b -> s_objs s' = s_objs s -> s_mocks s' = s_mocks s -> s_bound s' = s_bound s ->
  s_calls s' = s_calls s -> s_mem s' = s_mem s -> s_started s' = s_started s -> s_ctxs s' = s_ctxs s -> ready own s' n b.
Proof.
  intros own s s' n b [A B C D F G] H1 H2 H3 H4 H5 H6 H7. constructor; auto.
  - eapply inv_same; eauto.
  - intros m e me M. unfold method_at in M. rewrite H2 in M. destruct (B m e me M) as [X Y]. split; auto.
    unfold used in *. rewrite H7. exact Y.
  - apply (tidies_same s s'); auto.
  - intros i e me M. unfold method_at in M. rewrite H2 in M. apply (D i e me M).
  - destruct F as (X & Y & Z). repeat split; congruence.
Qed.

Lemma after : forall A own s n b (m : SM A) b' n', ready own s n b -> keeps m -> always tidies m -> good own b' (m s) ->
  n' <= n -> affordable (b' + n') ->
  match m s with
  | SOk s' _ | SExn s' _ => exists own1, ready (own ++ own1) s' n' b' /\ recs s s' /\ holds s s'
  | SUnspec => False
  end.
Proof.
  intros A own s n b m b' n' [I NB T C SP AF] K TI G L AF'. specialize (K s). specialize (TI s).
  assert (H : forall s', later own b' s' -> kept s s' -> tidies s s' -> exists own1, ready (own ++ own1) s' n' b' /\ recs s s' /\ holds s s').
  { intros s' (own1 & I1 & S1) K1 [R1 T1]. destruct (K1 NB) as [N1 H1]. exists own1. split; auto. constructor; auto.
    eapply calm_less; [|exact L]. eapply calm_kept; eauto. }
  destruct (m s) as [s' a|s' x|]; cbn in G; auto. destruct G. auto.
Qed.

(** ** Frames of user code *)
Definition call_at (own : list (nat * nat)) (s : sworld) (j i e : nat) : Prop :=
  exists c, nth_error (s_calls s) j = Some c /\ nth_error own (ca_method c) = Some (i, e).
Definition frame_fits (own : list (nat * nat)) (s : sworld) (fr : frame) (A : list val -> Prop) (this : option nat) : Prop :=
  match fr with
  | FrInv j => this = None /\ exists i e, pl_mocks P i <> None /\ call_at own s j i e /\ A = pl_args P i e
  | FrStack t args => this = Some t /\ A args
  end.

Lemma call_at_later : forall own own1 s s' j i e, call_at own s j i e -> recs s s' -> call_at (own ++ own1) s' j i e.
Proof.
  intros own own1 s s' j i e (c & C & O) R. destruct (R j c C) as (c' & C' & Q). exists c'. split; auto. rewrite Q.
  rewrite nth_error_app1; auto. apply nth_error_Some. congruence.
Qed.
Lemma frame_later : forall own own1 s s' fr A this, frame_fits own s fr A this -> recs s s' -> frame_fits (own ++ own1) s' fr A this.
Proof.
  intros own own1 s s' [j|t args] A this H R; cbn in *; auto. destruct H as (Q & i & e & T & C & ->). split; auto. exists i, e. split; auto. split; auto.
  eapply call_at_later; eauto.
Qed.
Lemma call_at_args : forall own s j i e, inv own s -> pl_mocks P i <> None -> call_at own s j i e ->
  exists c, sget_call j s = SOk s c /\ nth_error (s_calls s) j = Some c /\ nth_error own (ca_method c) = Some (i, e) /\
    pl_args P i e (ca_args c) /\ returns E P i e = Some (ca_ret c).
Proof.
  intros own s j i e I T (c & C & O). exists c. split; [unfold sget_call, sbind, sgets, sopt; now rewrite C|]. split; auto. split; auto.
  pose proof (i_calls _ _ _ _ I) as F. rewrite Forall_forall in F. destruct (F c (nth_error_In _ _ C)) as (i' & e' & O' & A).
  rewrite O in O'. inversion O'; subst. destruct (A T). auto.
Qed.

Definition new_args (s : sworld) (j : nat) (c : call) (args : list val) : sworld :=
  sset_calls s (upd (s_calls s) j (mkCall (ca_method c) (ca_ret c) args (ca_verified c))).

Lemma ready_args : forall own s n b j i e c args, ready own s n b -> nth_error (s_calls s) j = Some c ->
  nth_error own (ca_method c) = Some (i, e) -> pl_args P i e args ->
  ready own (new_args s j c args) n b /\ recs s (new_args s j c args) /\ call_at own (new_args s j c args) j i e.
Proof.
  intros own s n b j i e c args [I NB T C SP AF] N O A.
  pose proof (ti_put_args j c args s N) as TP. unfold sput_args, smodify in TP. fold (new_args s j c args) in TP. destruct TP as [R T1].
  split; [|split]; auto.
  - constructor; auto.
    + apply inv_calls; auto. pose proof (i_calls _ _ _ _ I) as F. rewrite Forall_forall in F |- *. intros x IN.
      apply In_nth_error in IN. destruct IN as (q & Q). destruct (Nat.eq_dec j q) as [<-|NE].
      * rewrite nth_error_upd_same in Q by (apply nth_error_Some; congruence). inversion Q; subst x.
        destruct (F c (nth_error_In _ _ N)) as (i' & e' & O' & RT). rewrite O in O'. inversion O'; subst. exists i', e'.
        split; auto. intro TH. destruct (RT TH). auto.
      * rewrite nth_error_upd_other in Q by auto. apply F. eapply nth_error_In; eauto.
    + unfold new_args. destruct SP as (X & Y & Z). repeat split; auto. cbn. now rewrite upd_length.
  - exists (mkCall (ca_method c) (ca_ret c) args (ca_verified c)). split; auto. cbn. apply nth_error_upd_same. apply nth_error_Some. congruence.
Qed.

(** ** User code *)
Section Open.
Variable rec : op -> SM val.
Variable N : nat.
Hypothesis KEEP : forall o, keeps (rec o).
Hypothesis TIDY : forall o, always tidies (rec o).
Hypothesis REC : forall n o own s b, n < N -> op_ok E P n o -> ready own s n b -> good own (b + n) (rec o s).

Lemma prog_good : forall p A this n fr own s b, prog_ok E P A this n p -> n < N -> ready own s n b ->
  frame_fits own s fr A this -> good own (b + n) (srun_prog rec fr p s).
Proof.
  induction p as [v|e|j k IH|j v k IH|k IH|o k IH]; intros A this n fr own s b OK LN R FF; inversion OK; subst; cbn [srun_prog].
  - cbn. eapply ready_later; eauto. lia.
  - cbn. split; auto. eapply ready_later; eauto. lia.
  - match goal with H1 : forall args, A args -> j < length args, H2 : forall args v, A args -> _ |- _ => rename H1 into HL; rename H2 into HK end.
    destruct fr as [q|t args]; cbn [frame_fits] in FF.
    + destruct FF as (TH & i & e & T & CA & ->). destruct (call_at_args _ _ _ _ _ (re_inv _ _ _ _ R) T CA) as (c & G & C & O & PA & _).
      rewrite (sbind_ok _ _ _ _ _ _ _ G). destruct (nth_error (ca_args c) j) as [v|] eqn:V.
      * eapply IH; eauto. cbn. eauto 7.
      * apply nth_error_None in V. specialize (HL _ PA). lia.
    + destruct FF as (TH & PA). destruct (nth_error args j) as [v|] eqn:V.
      * eapply IH; eauto. cbn. auto.
      * apply nth_error_None in V. specialize (HL _ PA). lia.
  - match goal with H1 : forall args, A args -> _ |- _ => rename H1 into HL end.
    destruct fr as [q|t args]; cbn [frame_fits] in FF.
    + destruct FF as (TH & i & e & T & CA & ->). destruct (call_at_args _ _ _ _ _ (re_inv _ _ _ _ R) T CA) as (c & G & C & O & PA & _).
      rewrite (sbind_ok _ _ _ _ _ _ _ G). destruct (HL _ PA) as [L1 PA']. destruct (Nat.ltb_spec j (length (ca_args c))); [|lia].
      destruct (ready_args own s n b q i e c (upd (ca_args c) j v) R C O PA') as (R' & RC & CA').
      assert (Q : sput_args q c (upd (ca_args c) j v) s = SOk (new_args s q c (upd (ca_args c) j v)) tt) by reflexivity.
      rewrite (sbind_ok _ _ _ _ _ _ _ Q). eapply IH; eauto. cbn. eauto 7.
    + destruct FF as (TH & PA). destruct (HL _ PA) as [L1 PA']. destruct (Nat.ltb_spec j (length args)); [|lia]. eapply IH; eauto. cbn. auto.
  - destruct fr as [q|t args]; cbn [frame_fits] in FF; [destruct FF; discriminate|]. destruct FF as (TH & PA). inversion TH; subst.
    eapply IH; eauto. cbn. auto.
  - match goal with H1 : ?a + ?b <= n |- _ => rename a into n1; rename b into n2; rename H1 into HL end.
    match goal with H1 : op_ok E P n1 o |- _ => rename H1 into HO end.
    match goal with H1 : forall r, r <> OExn XNoMore -> _ |- _ => rename H1 into HK end.
    assert (G : good own (b + n1) (rec o s)) by (apply REC; auto; [lia|eapply ready_less; eauto; lia]).
    assert (AF : affordable (b + n1 + n2)) by (pose proof (re_afford _ _ _ _ R); unfold affordable in *; lia).
    assert (L2 : n2 <= n) by lia. pose proof (after val own s n b (rec o) (b + n1) n2 R (KEEP o) (TIDY o) G L2 AF) as H.
    unfold sbind, sattempt. destruct (rec o s) as [s' v|s' x|].
    + destruct H as (own1 & R1 & RC & _). apply (good_more E P val own own1 (b + n1 + n2)); [|lia].
      apply (IH (OVal v) A this); auto; [apply HK; discriminate|lia|]. eapply frame_later; eauto.
    + destruct H as (own1 & R1 & RC & _). apply (good_more E P val own own1 (b + n1 + n2)); [|lia]. destruct G as [NX _].
      apply (IH (OExn x) A this); auto; [apply HK; congruence|lia|]. eapply frame_later; eauto.
    + contradiction.
Qed.

(** The initial behaviour of a method. *)
Definition room_for (s : sworld) (b : nat) : Prop := (s_started s + 1 <= 2 * Z.of_nat b)%Z.

Lemma start_good : forall s b, room_for s b -> affordable b ->
  sstart s = SOk (sset_started s (s_started s + 1)%Z) tt.
Proof.
  intros s b H A. unfold sstart, sbind, sgets, room_for, affordable in *. destruct (Z.ltb_spec (s_started s + 1) 4294967296); [reflexivity|lia].
Qed.

Lemma initial_good : forall own s b i x k d o slot args, ready own s (work i (entry_method d slot)) b -> room_for s b ->
  work i (entry_method d slot) < N -> pl_mocks P i = Some x -> class_at E P i = Some d -> slot < cl_size d ->
  object_ok E P i x o -> smock_ok E P i x k -> pl_args P i (entry_method d slot) args ->
  good own (b + work i (entry_method d slot)) (sinitial E rec k d o i slot args s).
Proof.
  intros own s b i x k d o slot args R RM LN X CL L (O1 & O2 & _) (_ & _ & K3 & _) PA. unfold sinitial. rewrite K3.
  destruct x as [c [cx|]]; cbn [snd] in *.
  - unfold sbody. destruct (proj1 PLAN i _ X) as (d0 & D0 & _ & dx & DX & SZ & BO). cbn [fst] in *.
    assert (d0 = d) by (unfold class_at in CL; rewrite X in CL; congruence). subst d0.
    rewrite O2. unfold sclass. rewrite DX. unfold sbind, sopt, sret. destruct (Nat.ltb_spec slot (cl_size dx)); [|lia].
    specialize (BO slot L). unfold body_ok in BO. eapply prog_good; eauto; [eapply prog_within; exact BO|]. cbn. auto.
  - destruct (is_dtor d slot); [cbn; eapply ready_later; eauto; lia|].
    assert (AF : affordable b) by (pose proof (re_afford _ _ _ _ R); unfold affordable in *; lia).
    rewrite (sbind_ok _ _ _ _ _ _ _ (start_good s b RM AF)). apply (good_more E P val own [] b); [|lia]. rewrite app_nil_r.
    apply unexpected_good; auto.
    + eapply inv_same; [apply R| | | | |]; reflexivity.
    + destruct (re_spent _ _ _ _ R) as (A1 & A2 & A3). unfold room_for in RM. repeat split; auto.
Qed.

Hypothesis ORIG : forall i e d me own s b args, class_at E P i = Some d -> e < cl_size d -> is_dtor d e = false ->
  method_at s i e = Some me -> me_bypass me = true -> pl_args P i e args -> work i e < N -> ready own s (work i e) b -> room_for s b ->
  good own (b + work i e) (rec (OCall i e args) s).

(** A method is changed but for its number and history. *)
Lemma ready_put : forall own s i e me me' b, ready own s (work i e) b -> method_at s i e = Some me ->
  meth_ok E P i e me' -> me_no me' = me_no me -> me_calls me' = me_calls me ->
  map st_no (me_stubs me') = map st_no (me_stubs me) -> ready own (put_method s i e me') (work i e) b.
Proof.
  intros own s i e me me' b [I NB T C SP AF] M MO NO CA ST. constructor; auto.
  - eapply inv_put; eauto.
  - destruct (NB _ _ _ M) as [ND FU]. eapply numbered_put; eauto; [now rewrite ST|].
    apply Forall_forall. intros st IN. rewrite Forall_forall in FU.
    assert (IN' : In (st_no st) (map st_no (me_stubs me))) by (rewrite <- ST; now apply in_map).
    apply in_map_iff in IN'. destruct IN' as (st0 & Q & IN0). specialize (FU _ IN0). unfold used in *. now rewrite <- Q.
  - apply (tidies_subs s); auto.
    + intros j c H. rewrite s_calls_put. eauto.
    + intros m' e' me0 M0. right. destruct (Nat.eq_dec i m') as [<-|N1]; [destruct (Nat.eq_dec e e') as [<-|N2]|].
      * rewrite (method_put _ _ _ _ _ M) in M0. inversion M0; subst. exists me. auto.
      * rewrite method_put_other in M0 by congruence. exists me0. auto.
      * rewrite method_put_other in M0 by congruence. exists me0. auto.
  - intros i' e' me0 M0 W. destruct (Nat.eq_dec i i') as [<-|N1]; [destruct (Nat.eq_dec e e') as [<-|N2]|].
    + lia.
    + rewrite method_put_other in M0 by congruence. eapply C; eauto.
    + rewrite method_put_other in M0 by congruence. eapply C; eauto.
  - now apply spent_put.
Qed.
Lemma call_at_put : forall own s i e me j i' e', call_at own s j i' e' -> call_at own (put_method s i e me) j i' e'.
Proof. intros own s i e me j i' e' (c & C & O). exists c. now rewrite s_calls_put. Qed.
Lemma room_put : forall s i e me b, room_for s b -> room_for (put_method s i e me) b.
Proof. intros s i e me b H. unfold put_method. now destruct (live (s_mocks s) i). Qed.

Lemma default_good : forall own s b n r, ready own s n b -> r <> RtRefNone -> good own (b + n) (sdefault r s).
Proof.
  intros own s b n r R NR. assert (L : later own (b + n) s) by (eapply ready_later; eauto; lia).
  destruct r; cbn; auto; try (split; [discriminate|exact L]).
Qed.

(** What happens after the bracket of a running action: the method is still there. *)
Lemma running : forall own1 s1 s2 i e me1, holds s1 s2 -> method_at s1 i e = Some me1 -> resting me1 = false -> inv own1 s2 ->
  exists me2, method_at s2 i e = Some me2 /\ grown me1 me2 /\ (pl_mocks P i <> None -> meth_ok E P i e me2).
Proof.
  intros own1 s1 s2 i e me1 (_ & _ & H) M RS I. destruct (H _ _ _ M RS) as (me2 & M2 & G). exists me2. split; auto. split; auto.
  intro T. eapply i_meths; eauto.
Qed.

Lemma callable_good : forall f i e j own s b me, pl_mocks P i <> None -> callable_held E P i e f -> work i e < N -> ready own s (work i e) b -> room_for s b ->
  method_at s i e = Some me -> me_bypass me = false -> call_at own s j i e ->
  good own (b + work i e) (srun_callable E rec f j s).
Proof.
  intros f i e j own s b me T H LN R RM M BY CA.
  destruct (call_at_args _ _ _ _ _ (re_inv _ _ _ _ R) T CA) as (c & G & C & O & PA & RT).
  assert (ASSIGN : forall (leave : list val -> list val) (act : mem -> list val -> outcome (mem * val)),
    (forall m args, pl_mem P m -> pl_args P i e args -> exists m' x, act m args = Def (m', x) /\ pl_mem P m') ->
    survives P i e leave ->
    good own (b + work i e)
      ((let? x := sget_call j in let? _ := sput_args j x (leave (ca_args x)) in let? mem := sgets s_mem in
        let? (mem', v) := slift (act mem (ca_args x)) in let? _ := smodify (fun s => sset_mem s mem') in sret v) s)).
  { intros leave act HA SV. rewrite (sbind_ok _ _ _ _ _ _ _ G).
    destruct (ready_args own s _ b j i e c (leave (ca_args c)) R C O (SV _ PA)) as (R' & _ & _).
    assert (Q : sput_args j c (leave (ca_args c)) s = SOk (new_args s j c (leave (ca_args c))) tt) by reflexivity.
    rewrite (sbind_ok _ _ _ _ _ _ _ Q). unfold sbind at 1, sgets. 
    destruct (HA (s_mem (new_args s j c (leave (ca_args c)))) (ca_args c)) as (m' & v & QA & PM); [apply (i_mem _ _ _ _ (re_inv _ _ _ _ R'))|exact PA|].
    unfold sbind at 1, slift. rewrite QA. unfold sbind, smodify, sret. cbn [good].
    apply later_here; [apply inv_mem; auto; apply R'|]. eapply spent_more; [exact (re_spent _ _ _ _ R')|lia]. }
  destruct H as [H|(fw & d & -> & CL & L & DT & SV)].
  - inversion H; subst; cbn [srun_callable].
    + eapply prog_good; eauto; [eapply prog_within; eauto|]. cbn. eauto 6.
    + rewrite (sbind_ok _ _ _ _ _ _ _ G). apply default_good; auto. intro Q. rewrite Q in RT. contradiction.
    + eapply (ASSIGN (positional_leaves (e_moved E)) (fun m args => assigner_positional m v vals args)); auto.
    + eapply (ASSIGN (placeholders_leave (e_moved E) 1 vals) (fun m args => assigner_placeholders m v vals args)); auto.
  - cbn [srun_callable]. destruct (class_planned E P _ _ CL) as (x & X & XC).
    destruct (i_mocks _ _ _ _ (re_inv _ _ _ _ R) i x X) as (k & K & (K1 & _)).
    rewrite (sbind_ok _ _ _ _ _ _ _ (sget_live _ _ _ _ _ K)). unfold sclass. rewrite K1, XC. unfold sbind at 1, sopt, sret. rewrite DT.
    rewrite (sbind_ok _ _ _ _ _ _ _ (smethod_at _ _ _ _ M)).
    set (me1 := mkMethod (me_no me) (me_id me) (me_ret me) (me_stubs me) (me_calls me) true).
    assert (B1 : sset_bypass i e (me_no me) (me_id me) false s = SOk (put_method s i e me1) tt).
    { unfold sset_bypass. rewrite (sbind_ok _ _ _ _ _ _ _ (smethod_at _ _ _ _ M)), Nat.eqb_refl, Z.eqb_refl, BY. cbn [Bool.eqb andb negb].
      apply (sset_method_at _ _ _ _ _ M). }
    rewrite (sbind_ok _ _ _ _ _ _ _ B1). set (s1 := put_method s i e me1) in *.
    assert (MO : meth_ok E P i e me1) by exact (i_meths _ _ _ _ (re_inv _ _ _ _ R) _ _ _ T M).
    assert (R1 : ready own s1 (work i e) b) by (eapply ready_put; eauto).
    assert (M1 : method_at s1 i e = Some me1) by (eapply method_put; eauto).
    assert (C1 : nth_error (s_calls s1) j = Some c) by (unfold s1; rewrite s_calls_put; exact C).
    assert (G1 : sget_call j s1 = SOk s1 c) by (unfold sget_call, sbind, sgets, sopt; now rewrite C1).
    set (body := let? x := sget_call j in
           let? _ := if fw then sput_args j x (map (moved_from (e_moved E)) (ca_args x)) else (fun s0 : sworld => SOk s0 tt) in
           rec (OCall i e (ca_args x))).
    assert (GB : good own (b + work i e) (body s1)).
    { unfold body. rewrite (sbind_ok _ _ _ _ _ _ _ G1). destruct fw.
      - destruct (ready_args own s1 _ b j i e c (map (moved_from (e_moved E)) (ca_args c)) R1 C1 O (SV eq_refl _ PA)) as (R2 & _ & _).
        assert (Q : sput_args j c (map (moved_from (e_moved E)) (ca_args c)) s1 = SOk (new_args s1 j c (map (moved_from (e_moved E)) (ca_args c))) tt) by reflexivity.
        rewrite (sbind_ok _ _ _ _ _ _ _ Q). eapply (ORIG i e d me1); eauto. apply (room_put s i e me1 b RM).
      - unfold sbind. eapply (ORIG i e d me1); eauto. now apply room_put. }
    assert (KB : keeps body).
    { unfold body. apply keeps_bind; [apply keeps_get_call|]. intro a. apply keeps_bind; [|intro; apply KEEP].
      destruct fw; [apply keeps_put_args|apply (keeps_ret unit tt)]. }
    pose proof (KB s1) as KS. fold body.
    assert (FIN : forall s2 (r : val + exn), later own (b + work i e) s2 -> (forall y, r = inr y -> y <> XNoMore) -> kept s1 s2 ->
      good own (b + work i e) ((let? _ := sset_bypass i e (me_no me) (me_id me) true in srethrow r) s2)).
    { intros s2 r (own2 & I2 & S2) NX K2. destruct (K2 (re_numbered _ _ _ _ R1)) as [N2 H2].
      destruct (running (own ++ own2) s1 s2 i e me1 H2 M1 eq_refl I2) as (me2 & M2 & G2 & MO2).
      destruct G2 as (E1 & E2 & E3 & E4 & _).
      set (me3 := mkMethod (me_no me2) (me_id me2) (me_ret me2) (me_stubs me2) (me_calls me2) false).
      assert (B2 : sset_bypass i e (me_no me) (me_id me) true s2 = SOk (put_method s2 i e me3) tt).
      { assert (CND : Nat.eqb (me_no me2) (me_no me) && Z.eqb (me_id me2) (me_id me) && Bool.eqb (me_bypass me2) true = true).
        { rewrite E1, E2, E4. unfold me1. cbn [me_no me_id me_bypass]. now rewrite Nat.eqb_refl, Z.eqb_refl. }
        unfold sset_bypass. rewrite (sbind_ok _ _ _ _ _ _ _ (smethod_at _ _ _ _ M2)), CND. apply (sset_method_at _ _ _ _ _ M2). }
      rewrite (sbind_ok _ _ _ _ _ _ _ B2).
      assert (LL : later own (b + work i e) (put_method s2 i e me3)).
      { exists own2. split; [eapply inv_put; eauto; reflexivity|now apply spent_put]. }
      destruct r as [v|y]; cbn; auto. }
    unfold sguarded. unfold sbind at 1, sattempt. destruct (body s1) as [s2 v|s2 y|]; cbn in GB.
    + apply (FIN s2 (inl v)); auto. discriminate.
    + destruct GB as [NX GB]. apply (FIN s2 (inr y)); auto. intros y' Q. now inversion Q; subst.
    + contradiction.
Qed.

Lemma play_good : forall i e j own s b me newer st older a rest, pl_mocks P i <> None -> work i e < N -> ready own s (work i e) b -> room_for s b ->
  method_at s i e = Some me -> me_bypass me = false -> me_stubs me = newer ++ st :: older -> st_todo st = a :: rest -> st_busy st = false ->
  call_at own s j i e -> good own (b + work i e) (splay E rec i e st j s).
Proof.
  intros i e j own s b me newer st older a rest T LN R RM M BY SPL TD IDL CA.
  destruct (i_meths _ _ _ _ (re_inv _ _ _ _ R) _ _ _ T M) as (MO2 & MO3 & MO4).
  assert (SO : stub_ok E P i e st) by (rewrite SPL in MO4; rewrite Forall_forall in MO4; apply MO4, in_or_app; right; now left).
  destruct SO as [ST HD]. specialize (HD IDL). rewrite TD in HD. inversion HD as [|? ? HA HR]; subst.
  unfold splay. rewrite TD. destruct a as [f n|f| |f|]; cbn [held] in HA.
  - destruct HA as [HC NP]. rewrite IDL. destruct (Z.ltb_spec n 1); [lia|]. cbn [orb].
    destruct (re_numbered _ _ _ _ R _ _ _ M) as [ND FU].
    assert (NI : ~ In (st_no st) (map st_no newer)) by (apply (nodup_mid newer st older); now rewrite <- SPL).
    set (st1 := mkStub (st_no st) (st_cond st) (ARepeat f (n - 1) :: rest) (st_used st) true).
    assert (BG : begin_action st = Some st1) by (unfold begin_action; now rewrite TD).
    rewrite (sbind_ok _ _ _ _ _ _ _ (change_stub_at _ _ _ _ _ _ _ begin_action st1 M SPL NI BG)).
    set (me1 := with_stubs me (newer ++ st1 :: older)). set (s1 := put_method s i e me1).
    rewrite SPL in MO4. apply Forall_app in MO4. destruct MO4 as [MN MO4]. inversion MO4 as [|? ? _ MOL]; subst.
    assert (MO : meth_ok E P i e me1).
    { split; [exact MO2|split; [exact MO3|]]. cbn. apply Forall_app. split; auto. constructor; auto.
      split; [exact ST|discriminate]. }
    assert (R1 : ready own s1 (work i e) b).
    { eapply ready_put; eauto. cbn. rewrite SPL, !map_app. reflexivity. }
    assert (M1 : method_at s1 i e = Some me1) by (eapply method_put; eauto).
    assert (RS : resting me1 = false).
    { unfold resting, quiet_method, me1. cbn. rewrite forallb_app. cbn. rewrite !andb_false_r. reflexivity. }
    assert (GB : good own (b + work i e) (srun_callable E rec f j s1)).
    { apply (callable_good f i e j own s1 b me1); auto; [now apply room_put|now apply call_at_put]. }
    pose proof (keeps_callable E rec KEEP f j s1) as KS.
    assert (FIN : forall s2 (r : val + exn), later own (b + work i e) s2 -> (forall y, r = inr y -> y <> XNoMore) -> kept s1 s2 ->
      good own (b + work i e) ((let? _ := schange_stub i e (st_no st) (end_action (st_used st)) in srethrow r) s2)).
    { intros s2 r (own2 & I2 & S2) NX K2. destruct (K2 (re_numbered _ _ _ _ R1)) as [N2 H2].
      destruct (running (own ++ own2) s1 s2 i e me1 H2 M1 RS I2) as (me2 & M2 & G2 & MO').
      destruct (N2 _ _ _ M2) as [ND2 FU2].
      destruct G2 as (_ & _ & _ & _ & new & old & ST2 & F & _). cbn in F.
      apply Forall2_app_inv_l in F. destruct F as (oa & ob & FA & FB & ->).
      inversion FB as [|? st1' ? ob' ADV FB' ]; subst.
      pose proof (busy_adv _ _ ADV eq_refl) as EQ1. subst st1'.
      assert (ST' : me_stubs me2 = (new ++ oa) ++ st1 :: ob') by (rewrite ST2; now rewrite <- app_assoc).
      assert (NI2 : ~ In (st_no st1) (map st_no (new ++ oa))) by (apply (nodup_mid _ st1 ob'); now rewrite <- ST').
      assert (EA : exists st3, end_action (st_used st) st1 = Some st3 /\ stub_ok E P i e st3).
      { unfold end_action, st1. cbn. rewrite Nat.eqb_refl. destruct (Z.eqb_spec (n - 1) 0).
        - eexists. split; [reflexivity|]. split; auto.
        - eexists. split; [reflexivity|]. split; auto. cbn. intros _. constructor; auto. cbn. split; auto. lia. }
      destruct EA as (st3 & EA & SO3).
      change (st_no st) with (st_no st1).
      rewrite (sbind_ok _ _ _ _ _ _ _ (change_stub_at s2 i e me2 (new ++ oa) st1 ob' _ st3 M2 ST' NI2 EA)).
      assert (LL : later own (b + work i e) (put_method s2 i e (with_stubs me2 ((new ++ oa) ++ st3 :: ob')))).
      { exists own2. split; [|now apply spent_put]. eapply inv_put; eauto. intros _. destruct (MO' T) as (Q2 & Q3 & Q4).
        split; [exact Q2|split; [exact Q3|]]. cbn. rewrite ST' in Q4. apply Forall_app in Q4. destruct Q4 as [Q4 Q5].
        inversion Q5; subst. apply Forall_app. split; auto. }
      destruct r as [v|y]; cbn; auto. }
    unfold sguarded. unfold sbind at 1, sattempt. destruct (srun_callable E rec f j s1) as [s2 v|s2 y|]; cbn in GB.
    + apply (FIN s2 (inl v)); auto. discriminate.
    + destruct GB as [NX GB]. apply (FIN s2 (inr y)); auto. intros y' Q. now inversion Q; subst.
    + contradiction.
  - eapply callable_good; eauto.
  - destruct (call_at_args _ _ _ _ _ (re_inv _ _ _ _ R) T CA) as (c & G & C & O & PA & RT).
    rewrite (sbind_ok _ _ _ _ _ _ _ G). apply default_good; auto. intro Q. rewrite Q in RT. contradiction.
  - eapply callable_good; eauto.
  - contradiction.
Qed.

Lemma finds : forall own s i e l args, inv own s -> pl_args P i e args -> Forall (stub_ok E P i e) l ->
  (exists newer st older, l = newer ++ st :: older /\ Forall (rejects s args) newer /\ accepts s args st) \/ Forall (rejects s args) l.
Proof.
  intros own s i e l args I PA F. induction F as [|st l [ST _] F IH]; [right; constructor|].
  destruct (ST (s_mem s) args (i_mem _ _ _ _ I) PA) as [A|A].
  - left. exists [], st, l. repeat split; auto.
  - destruct IH as [(newer & st' & older & -> & FN & AC)|FN].
    + left. exists (st :: newer), st', older. repeat split; auto.
    + right. constructor; auto.
Qed.

Lemma tidy_calling : forall s i e me args, method_at s i e = Some me -> tidy s -> tidy (calling s i e me args).
Proof.
  intros s i e me args M T. set (c := mkCall (me_no me) (me_ret me) args false).
  assert (SC : s_calls (calling s i e me args) = s_calls s ++ [c]) by (unfold calling; now rewrite s_calls_put).
  assert (RC : recs s (calling s i e me args)).
  { intros j x H. rewrite SC. exists x. split; auto. rewrite nth_error_app1; auto. apply nth_error_Some. congruence. }
  assert (M1 : method_at (recorded_call s me args) i e = Some me) by exact M.
  intros i' e' me' M'. unfold calling in M'. destruct (Nat.eq_dec i i') as [<-|N1]; [destruct (Nat.eq_dec e e') as [<-|N2]|].
  - rewrite (method_put _ _ _ _ _ M1) in M'. inversion M'; subst me'. destruct (T _ _ _ M) as (SO & HC). split; cbn.
    + apply sorted_snoc; auto. intros j IN. destruct (HC j IN) as (x & X & _). apply nth_error_Some. congruence.
    + intros j IN. apply in_app_or in IN. destruct IN as [IN|[<-|[]]].
      * destruct (HC j IN) as (x & X & Q). destruct (RC j x X) as (x' & X' & Q'). exists x'. split; auto. congruence.
      * exists c. rewrite SC, nth_error_app_last. auto.
  - rewrite method_put_other in M' by congruence. eapply tidy_recs; [exact RC|reflexivity|reflexivity|]. exact (T _ _ _ M').
  - rewrite method_put_other in M' by congruence. eapply tidy_recs; [exact RC|reflexivity|reflexivity|]. exact (T _ _ _ M').
Qed.

Lemma stubbed_good : forall i e args own s n b me, pl_mocks P i <> None -> S (work i e) <= n -> work i e < N -> ready own s n b -> method_at s i e = Some me ->
  pl_args P i e args -> good own (b + n) (sstubbed E rec i e args s).
Proof.
  intros i e args own s n b me T LN LW R M PA.
  pose proof (re_calm _ _ _ _ R _ _ _ M LN) as RS. unfold resting, quiet_method in RS. apply andb_prop in RS. destruct RS as [BY IDL].
  apply negb_true_iff in BY.
  destruct (i_meths _ _ _ _ (re_inv _ _ _ _ R) _ _ _ T M) as (MO2 & MO3 & MO4). pose proof (i_own _ _ _ _ (re_inv _ _ _ _ R) _ _ _ M) as MO1.
  pose proof (re_spent _ _ _ _ R) as (S1 & S2 & S3). pose proof (re_afford _ _ _ _ R) as AF.
  assert (RM : room s) by (unfold room, affordable in *; lia).
  set (c := mkCall (me_no me) (me_ret me) args false).
  assert (IC : inv own (sset_calls s (s_calls s ++ [c]))).
  { apply inv_calls; [apply R|]. apply Forall_app. split; [apply (i_calls _ _ _ _ (re_inv _ _ _ _ R))|]. constructor; auto.
    exists i, e. auto. }
  assert (IR : inv own (recorded_call s me args)) by (eapply inv_same; [exact IC| | | | |]; reflexivity).
  assert (SR : spent (recorded_call s me args) (S b)).
  { unfold recorded_call. repeat split; cbn; [lia| |lia]. rewrite app_length. cbn. lia. }
  destruct (finds own s i e (me_stubs me) args (re_inv _ _ _ _ R) PA MO4) as [(newer & st & older & SPL & FN & AC)|FN].
  - rewrite (stubbed_found E rec s i e me args newer st older M RM (conj SPL (conj FN AC))).
    assert (BZ : st_busy st = false).
    { rewrite forallb_forall in IDL. apply negb_true_iff. apply IDL. rewrite SPL. apply in_or_app. right. now left. }
    assert (M1 : method_at (recorded_call s me args) i e = Some me) by exact M.
    set (me1 := with_call me (length (s_calls s))). set (s1 := calling s i e me args).
    assert (MC : method_at s1 i e = Some me1) by (eapply method_put; eauto).
    assert (I1 : inv own s1) by (eapply inv_put; [exact IR|exact M1|reflexivity|]; intros _; repeat split; auto).
    assert (SP1 : spent s1 (S b)) by (now apply spent_put).
    destruct (st_todo st) as [|a rest] eqn:TD.
    + rewrite BZ. apply (good_more E P val own [] (S b)); [|lia]. rewrite app_nil_r. now apply unexpected_good.
    + assert (R1 : ready own s1 (work i e) (S b)).
      { constructor; auto.
        - destruct (re_numbered _ _ _ _ R _ _ _ M) as [ND FU]. eapply (numbered_put (recorded_call s me args)); eauto. exact (re_numbered _ _ _ _ R).
        - apply tidy_calling; auto. apply R.
        - intros i' e' me' M' W'. unfold s1, calling in M'. destruct (Nat.eq_dec i i') as [<-|N1]; [destruct (Nat.eq_dec e e') as [<-|N2]|].
          + lia.
          + rewrite method_put_other in M' by congruence. apply (re_calm _ _ _ _ R _ _ _ M'). lia.
          + rewrite method_put_other in M' by congruence. apply (re_calm _ _ _ _ R _ _ _ M'). lia.
        - unfold affordable in *. lia. }
      assert (RM1 : room_for s1 (S b)).
      { apply (room_put (recorded_call s me args) i e me1). unfold room_for. cbn. lia. }
      assert (CA : call_at own s1 (length (s_calls s)) i e).
      { exists c. split; [|exact MO1]. unfold s1, calling. rewrite s_calls_put. cbn. apply nth_error_app_last. }
      pose proof (play_good i e (length (s_calls s)) own s1 (S b) me1 newer st older a rest T LW R1 RM1 MC BY SPL TD BZ CA) as G.
      apply (good_more E P val own [] (S b + work i e)); [|lia]. rewrite app_nil_r.
      unfold sbind, sattempt. destruct (splay E rec i e st (length (s_calls s)) s1) as [s2 v|s2 y|]; auto.
      destruct y; auto. destruct G as [NX _]. congruence.
  - rewrite (stubbed_none E rec s i e me args M RM FN). apply (good_more E P val own [] (S b)); [|lia]. rewrite app_nil_r.
    now apply unexpected_good.
Qed.

(** Calls. *)
Lemma call_good : forall i slot d args own s n b, class_at E P i = Some d -> slot < cl_size d -> S (work i (entry_method d slot)) <= n -> n <= N ->
  pl_args P i (entry_method d slot) args -> ready own s n b -> good own (b + n) (scall E rec i slot args s).
Proof.
  intros i slot d args own s n b CL L LW LN PA R. destruct (class_planned E P _ _ CL) as (x & X & XC).
  destruct (i_objs _ _ _ _ (re_inv _ _ _ _ R) i x X) as (o & O & OK).
  destruct (i_mocks _ _ _ _ (re_inv _ _ _ _ R) i x X) as (k & K & KK).
  pose proof OK as (OM & _). pose proof KK as (KC & _).
  unfold scall. rewrite (sbind_ok _ _ _ _ _ _ _ (sget_live _ _ _ _ _ O)), OM.
  rewrite (sbind_ok _ _ _ _ _ _ _ (sget_live _ _ _ _ _ K)). unfold sclass. rewrite KC, XC. unfold sbind at 1, sopt, sret.
  destruct (Nat.ltb_spec slot (cl_size d)); [|lia].
  assert (INI : good own (b + n) (sinitial E rec k d o i slot args s)).
  { apply (good_more E P val own [] (S b + work i (entry_method d slot))); [|lia]. rewrite app_nil_r. eapply initial_good; eauto; [|unfold room_for|lia].
    - destruct R as [A B C D F G]. constructor; auto; [eapply calm_less; eauto; lia|eapply spent_more; eauto|unfold affordable in *; lia].
    - destruct (re_spent _ _ _ _ R) as (S1 & _). lia. }
  destruct (live (sk_meths k) (entry_method d slot)) as [me|] eqn:ME; auto.
  assert (M : method_at s i (entry_method d slot) = Some me) by (unfold method_at; now rewrite K).
  pose proof (re_calm _ _ _ _ R _ _ _ M LW) as RS. unfold resting, quiet_method in RS. apply andb_prop in RS. destruct RS as [BY _].
  apply negb_true_iff in BY. rewrite BY. eapply stubbed_good; eauto; [congruence|lia].
Qed.

(** Setting the data members to zero. *)
Lemma zero_good : forall own s b i x k, inv own s -> spent s b -> pl_mocks P i = Some x -> smock_ok E P i x k ->
  good own b (szero k s).
Proof.
  intros own s b i x k I SP X (K1 & K2 & K3 & _). unfold szero. destruct (sk_owner k); [|cbn; now apply later_here].
  destruct (i_objs _ _ _ _ I i x X) as (o & O & (O1 & O2 & d & O3 & O4)). rewrite K2.
  rewrite (sbind_ok _ _ _ _ _ _ _ (sget_live _ _ _ _ _ O)). unfold sput_obj, smodify. cbn [good].
  apply later_here; auto. eapply inv_obj; eauto. split; [exact O1|split; [exact O2|]]. exists d. split; auto. cbn. now rewrite map_length.
Qed.

Lemma unit_good : forall own b (m : SM unit) s, good own b (m s) -> good own b (sunit m s).
Proof. intros own b m s H. unfold sunit, sbind. destruct (m s); auto. Qed.

Lemma inv_mock : forall own s i x k k', inv own s -> pl_mocks P i = Some x -> live (s_mocks s) i = Some k -> smock_ok E P i x k' ->
  (forall e me, live (sk_meths k') e = Some me -> meth_ok E P i e me /\ nth_error own (me_no me) = Some (i, e)) -> inv own (sset_mocks s (upd (s_mocks s) i (Some k'))).
Proof.
  intros own s i x k k' [A B O C D F G RG] X K K' M. constructor; auto; [| | |cbn; now rewrite upd_length].
  - intros j y Y. destruct (B j y Y) as (kj & L & O'). cbn. destruct (Nat.eq_dec i j) as [->|NE].
    + exists k'. rewrite live_upd_in by (eapply live_lt; eauto). split; auto. congruence.
    + exists kj. rewrite live_upd_out by auto. auto.
  - intros j e me H. unfold method_at in H. cbn in H. destruct (Nat.eq_dec i j) as [->|NE].
    + rewrite live_upd_in in H by (eapply live_lt; eauto). now apply M.
    + rewrite live_upd_out in H by auto. apply O. exact H.
  - intros j e me T H. unfold method_at in H. cbn in H. destruct (Nat.eq_dec i j) as [->|NE].
    + rewrite live_upd_in in H by (eapply live_lt; eauto). now apply M.
    + rewrite live_upd_out in H by auto. apply C; auto.
Qed.

Lemma clear_good : forall own s n b i, ready own s n b -> pl_mocks P i <> None -> good own b (smock_clear i s).
Proof.
  intros own s n b i R L. destruct (pl_mocks P i) as [x|] eqn:X; [|congruence].
  destruct (i_mocks _ _ _ _ (re_inv _ _ _ _ R) i x X) as (k & K & KK). unfold smock_clear.
  rewrite (sbind_ok _ _ _ _ _ _ _ (sget_live _ _ _ _ _ K)). unfold sbind at 1, sput_mock, smodify.
  eapply zero_good; eauto; [|apply R]. eapply inv_mock; eauto; [apply R| |].
  - destruct KK as (A1 & A2 & A3 & A4 & d & A5 & A6). repeat split; auto. exists d. cbn. rewrite map_length. auto.
  - cbn. intros e me H. rewrite live_map in H by reflexivity. destruct (live (sk_meths k) e) as [me0|] eqn:Q; [|discriminate].
    cbn in H. inversion H; subst me.
    assert (M : method_at s i e = Some me0) by (unfold method_at; now rewrite K).
    assert (T : pl_mocks P i <> None) by congruence. destruct (i_meths _ _ _ _ (re_inv _ _ _ _ R) _ _ _ T M) as (B2 & B3 & B4).
    split; [repeat split; auto|exact (i_own _ _ _ _ (re_inv _ _ _ _ R) _ _ _ M)].
Qed.

Lemma reset_good : forall own s n b i, ready own s n b -> pl_mocks P i <> None -> pl_reset P i = true -> (forall e, S (work i e) <= n) ->
  good own b (smock_reset i s).
Proof.
  intros own s n b i R L RE W. destruct (pl_mocks P i) as [x|] eqn:X; [|congruence].
  destruct (i_mocks _ _ _ _ (re_inv _ _ _ _ R) i x X) as (k & K & KK). unfold smock_reset.
  rewrite (sbind_ok _ _ _ _ _ _ _ (sget_live _ _ _ _ _ K)).
  assert (Q : quiet k = true).
  { unfold quiet. apply forallb_forall. intros [me|] IN; auto. apply In_nth_error in IN. destruct IN as (e & NE).
    apply (re_calm _ _ _ _ R i e me); auto. unfold method_at. rewrite K. unfold live. now rewrite NE. }
  rewrite Q. unfold sbind at 1, sput_mock, smodify. eapply zero_good; eauto; [|apply R]. eapply inv_mock; eauto; [apply R| |].
  - destruct KK as (A1 & A2 & A3 & A4 & d & A5 & A6). split; [exact A1|split; [exact A2|split; [exact A3|split; [right; auto|]]]].
    exists d. cbn. rewrite map_length. auto.
  - cbn. intros e me H. rewrite live_map in H by reflexivity. destruct (live (sk_meths k) e); discriminate.
Qed.

(** All operations. *)
Theorem step_good : forall n o own s b, n <= N -> op_ok E P n o -> ready own s n b -> good own (b + n) (sstep E rec o s).
Proof.
  intros n o own s b LN OK R. pose proof (re_inv _ _ _ _ R) as I. pose proof (re_spent _ _ _ _ R) as SP.
  assert (SPN : spent s (b + n)) by (eapply spent_more; [exact SP|lia]).
  assert (HERE : later own (b + n) s) by (now apply later_here).
  inversion OK; subst; cbn [sstep].
  - eapply call_good; eauto.
  - destruct (pl_mocks P i) as [x|] eqn:X; [|congruence].
    destruct (i_objs _ _ _ _ I i x X) as (y & O & (OM & _)). destruct (i_mocks _ _ _ _ I i x X) as (k & K & _).
    rewrite (sbind_ok _ _ _ _ _ _ _ (sget_live _ _ _ _ _ O)), OM, (sbind_ok _ _ _ _ _ _ _ (sget_live _ _ _ _ _ K)). exact HERE.
  - destruct (pl_mocks P i) as [x|] eqn:X; [|congruence].
    destruct (i_mocks _ _ _ _ I i x X) as (k & K & _). rewrite (sbind_ok _ _ _ _ _ _ _ (sget_live _ _ _ _ _ K)). exact HERE.
  - assert (X : exists x, pl_mocks P i = Some x) by (unfold object_at in *; destruct (pl_mocks P i); [eauto|discriminate]).
    destruct X as (x & X). destruct (i_objs _ _ _ _ I i x X) as (y & O & (OM & OC & d' & OD & OL)).
    rewrite (sbind_ok _ _ _ _ _ _ _ (sget_live _ _ _ _ _ O)). assert (d' = d) by congruence. subst d'.
    unfold sopt. destruct (nth_error (so_data y) j) eqn:NJ; [exact HERE|]. apply nth_error_None in NJ. lia.
  - assert (X : exists x, pl_mocks P i = Some x) by (unfold object_at in *; destruct (pl_mocks P i); [eauto|discriminate]).
    destruct X as (x & X). destruct (i_objs _ _ _ _ I i x X) as (y & O & (OM & OC & d' & OD & OL)).
    rewrite (sbind_ok _ _ _ _ _ _ _ (sget_live _ _ _ _ _ O)). assert (d' = d) by congruence. subst d'.
    destruct (Nat.ltb_spec j (length (so_data y))); [|lia]. apply unit_good. cbn. apply later_here; auto.
    eapply inv_obj; eauto. split; [exact OM|split; [exact OC|]]. exists d. split; auto. cbn. now rewrite upd_length.
  - match goal with H : forall m, pl_mem P m -> _ |- _ => destruct (H (s_mem s) (i_mem _ _ _ _ I)) as (v & Q) end.
    unfold sbind, sgets, slift. rewrite Q. exact HERE.
  - match goal with H : forall m, pl_mem P m -> _ |- _ => destruct (H (s_mem s) (i_mem _ _ _ _ I)) as (m' & Q & PM) end.
    unfold sbind, sgets, slift. rewrite Q. unfold sunit, sbind, smodify, sret. apply later_here; auto. now apply inv_mem.
  - match goal with H : forall m, pl_mem P m -> _ |- _ => pose proof (H (s_mem s) (i_mem _ _ _ _ I)) as PM end.
    unfold sbind, sgets, smodify, sret. apply later_here; auto. now apply inv_mem.
  - match goal with H : forall m, pl_mem P m -> _ |- _ => destruct (H (s_mem s) (i_mem _ _ _ _ I)) as ((v & Q) & PM) end.
    unfold sbind, sgets, slift. rewrite Q. unfold sunit, sbind, smodify, sret. apply later_here; auto. now apply inv_mem.
  - apply unit_good. apply (good_more E P unit own [] b); [|lia]. rewrite app_nil_r. eapply clear_good; eauto.
  - apply unit_good. apply (good_more E P unit own [] b); [|lia]. rewrite app_nil_r. eapply reset_good; eauto.
  - apply stmt_good; auto; [apply R|apply R].
  - apply later_here; auto. eapply inv_same; eauto.
  - apply later_here; auto. eapply inv_same; eauto.
  - destruct l; (apply later_here; [eapply inv_same; eauto|auto]).
  - match goal with H : S ?a <= n |- _ => rename a into n1; rename H into HL end.
    match goal with H : op_ok E P n1 _ |- _ => rename H into HO end. match type of HO with op_ok E P n1 ?a => rename a into o' end.
    unfold sbind at 1, smodify. set (s1 := sset_uncaught s (S (s_uncaught s))).
    assert (R1 : ready own s1 n1 b) by (eapply ready_less; [eapply ready_same; [exact R| | | | | | |]; reflexivity|lia]).
    assert (G : good own (b + n1) (rec o' s1)) by (apply REC; auto; lia).
    assert (FIN : forall s2, later own (b + n1) s2 -> later own (b + n) (sset_uncaught s2 (pred (s_uncaught s2)))).
    { intros s2 (own2 & I2 & S2). exists own2. split; [eapply inv_same; eauto|]. eapply spent_more; [exact S2|lia]. }
    unfold sbind at 1, sattempt. destruct (rec o' s1) as [s2 v|s2 y|]; cbn in G; [| |contradiction].
    + apply FIN. exact G.
    + apply FIN. apply G.
Qed.

(** A spied original: the object's own behaviour. *)
Lemma orig_step : forall i e d me own s b args, class_at E P i = Some d -> e < cl_size d -> is_dtor d e = false ->
  method_at s i e = Some me -> me_bypass me = true -> pl_args P i e args -> work i e < N -> ready own s (work i e) b -> room_for s b ->
  good own (b + work i e) (sstep E rec (OCall i e args) s).
Proof.
  intros i e d me own s b args CL L DT M BY PA LN R RM. destruct (class_planned E P _ _ CL) as (x & X & XC).
  destruct (i_objs _ _ _ _ (re_inv _ _ _ _ R) i x X) as (o & O & OK).
  destruct (i_mocks _ _ _ _ (re_inv _ _ _ _ R) i x X) as (k & K & KK).
  pose proof OK as (OM & _). pose proof KK as (KC & _).
  assert (EM : entry_method d e = e).
  { unfold entry_method, is_dtor in *. destruct (cl_dtor d) as [q|]; auto. apply orb_false_iff in DT. destruct DT as [_ DT]. now rewrite DT. }
  cbn [sstep]. unfold scall. rewrite (sbind_ok _ _ _ _ _ _ _ (sget_live _ _ _ _ _ O)), OM.
  rewrite (sbind_ok _ _ _ _ _ _ _ (sget_live _ _ _ _ _ K)). unfold sclass. rewrite KC, XC. unfold sbind at 1, sopt, sret.
  destruct (Nat.ltb_spec e (cl_size d)); [|lia]. rewrite EM.
  assert (ME : live (sk_meths k) e = Some me) by (unfold method_at in M; now rewrite K in M). rewrite ME, BY.
  pose proof (initial_good own s b i x k d o e args) as G. rewrite EM in G. apply G; auto.
Qed.
End Open.

(** ** With enough fuel *)
Theorem exec_good : forall n f o own s b, 2 * n + 1 <= f -> op_ok E P n o -> ready own s n b -> good own (b + n) (sexec E f o s).
Proof.
  induction n as [n IH] using lt_wf_ind. intros f o own s b LF OK R. destruct f as [|f]; [lia|]. cbn [sexec].
  apply (step_good (sexec E f) n); auto.
  - intro. apply keeps_exec.
  - intro. apply ti_exec.
  - intros n1 o1 own1 s1 b1 L1 OK1 R1. apply IH; auto. lia.
  - intros i e d me own1 s1 b1 args CL L DT M BY PA LW R1 RM. destruct f as [|f]; [lia|]. cbn [sexec].
    eapply (orig_step (sexec E f) (S (work i e))); eauto.
    + intro. apply keeps_exec.
    + intro. apply ti_exec.
    + intros n1 o1 own2 s2 b2 L1 OK1 R2. apply IH; auto; lia.
Qed.

End S.
