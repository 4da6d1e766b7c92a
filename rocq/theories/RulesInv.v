(** The invariant of tests that keep to the rules (Spec_Rules.v). *)
From Coq Require Import Bool ZArith Lia List Permutation.
From Verif Require Import Base CInt Values ArgMatchers InvMatchers Spec_Conditions ConditionProofs ActionSeq Sequences MatchAnalysis
  Spec_Match Proxy Events EventsProofs Expectation Spec_Verify ReturnSet Syntax World Spec_World WorldRel WorldSimA WorldSimB WorldSimE
  Spec_View SpecFacts SpecKept Spec_Alike SpecFrame SpecHistory SpecLasting Spec_Verification Spec_Rules RulesMore.
Import ListNotations.
Open Scope nat_scope.

Section S.
Variable E : env.
Variable P : plan.
Hypothesis PLAN : plan_ok E P.

Local Notation designated := (designated E P).
Local Notation settles := (settles P).
Local Notation returns := (returns E P).
Local Notation callable_ok := (callable_ok E P).

(** ** Stubbings *)
Definition callable_held (i e : nat) (f : callable) : Prop :=
  callable_ok i e f \/
  exists fw d, f = FOrig i i e fw /\ class_at E P i = Some d /\ e < cl_size d /\ is_dtor d e = false /\
    (fw = true -> survives P i e (map (moved_from (e_moved E)))).
Definition held (i e : nat) (a : action callable) : Prop :=
  match a with
  | ARepeat f n => callable_held i e f /\ (1 <= n)%Z
  | AForever f | ADelegate f => callable_held i e f
  | ADefault => returns i e <> Some RtRefNone
  | ANoMore => False
  end.
Definition stub_ok (i e : nat) (st : stub) : Prop :=
  settles i e (st_cond st) /\ (st_busy st = false -> Forall (held i e) (st_todo st)).

Definition id_ok (i e : nat) (id : Z) : Prop :=
  (id = dtor_id /\ pl_reset P i = false /\ exists d, class_at E P i = Some d /\ cl_dtor d = Some e) \/
  (id <> 0%Z /\ id <> int_max /\ pl_name P i id = e).

(** [own]: the methods bound so far, by their numbers. *)
Definition meth_ok (i e : nat) (me : method) : Prop :=
  id_ok i e (me_id me) /\ returns i e = Some (me_ret me) /\
  Forall (stub_ok i e) (me_stubs me).
Definition call_ok (own : list (nat * nat)) (c : call) : Prop :=
  exists i e, nth_error own (ca_method c) = Some (i, e) /\
    (pl_mocks P i <> None -> returns i e = Some (ca_ret c) /\ pl_args P i e (ca_args c)).
Definition object_ok (i : nat) (x : nat * option nat) (o : sobj) : Prop :=
  so_mock o = Some i /\ so_class o = match snd x with Some c => c | None => fst x end /\
  exists d, object_at E P i = Some d /\ length (so_data o) = cl_cells d.
Definition fill_ok (i : nat) (z : Z) : Prop := z = int_max \/ (z = 0%Z /\ pl_reset P i = true).
Definition smock_ok (i : nat) (x : nat * option nat) (k : smock) : Prop :=
  sk_class k = fst x /\ sk_obj k = i /\ sk_owner k = match snd x with Some _ => false | None => true end /\
  fill_ok i (sk_fill k) /\ exists d, class_at E P i = Some d /\ length (sk_meths k) = cl_size d.

Record inv (own : list (nat * nat)) (s : sworld) : Prop := mkInv {
  i_objs : forall i x, pl_mocks P i = Some x -> exists o, live (s_objs s) i = Some o /\ object_ok i x o;
  i_mocks : forall i x, pl_mocks P i = Some x -> exists k, live (s_mocks s) i = Some k /\ smock_ok i x k;
  i_own : forall i e me, method_at s i e = Some me -> nth_error own (me_no me) = Some (i, e);
  i_meths : forall i e me, pl_mocks P i <> None -> method_at s i e = Some me -> meth_ok i e me;
  i_calls : Forall (call_ok own) (s_calls s);
  i_mem : pl_mem P (s_mem s);
  i_bound : length own = s_bound s;
  i_range : Forall (fun x => fst x < length (s_mocks s)) own
}.

(** ** It is kept *)
Lemma inv_same : forall own s s', inv own s -> s_objs s' = s_objs s -> s_mocks s' = s_mocks s -> s_bound s' = s_bound s ->
  s_calls s' = s_calls s -> s_mem s' = s_mem s -> inv own s'.
Proof.
  intros own s s' [A B O C D F G RG] H1 H2 H3 H4 H5. constructor; unfold method_at in *; rewrite ?H1, ?H2, ?H3, ?H4, ?H5; auto.
Qed.
Lemma inv_mem : forall own s m, inv own s -> pl_mem P m -> inv own (sset_mem s m).
Proof. intros own s m [A B O C D F G RG] H. constructor; auto. Qed.
Lemma inv_calls : forall own s l, inv own s -> Forall (call_ok own) l -> inv own (sset_calls s l).
Proof. intros own s l [A B O C D F G RG] H. constructor; auto. Qed.
Lemma inv_obj : forall own s i x o, inv own s -> pl_mocks P i = Some x -> object_ok i x o ->
  inv own (sset_objs s (upd (s_objs s) i (Some o))).
Proof.
  intros own s i x o I N O. destruct I as [A B OW C D F G RG]. constructor; auto. cbn. intros j y Y.
  destruct (A j y Y) as (o' & L & O'). destruct (Nat.eq_dec i j) as [->|NE].
  - exists o. rewrite live_upd_in by (eapply live_lt; eauto). split; auto. congruence.
  - exists o'. rewrite live_upd_out by auto. auto.
Qed.
Lemma inv_put : forall own s i e me me', inv own s -> method_at s i e = Some me -> me_no me' = me_no me ->
  (pl_mocks P i <> None -> meth_ok i e me') -> inv own (put_method s i e me').
Proof.
  intros own s i e me me' I M NO O. pose proof (i_meths _ _ I) as IM. destruct I as [A B OW C D F G RG].
  pose proof M as M0. unfold method_at in M. destruct (live (s_mocks s) i) as [k|] eqn:K; [|discriminate].
  assert (WHO : forall i' e' me0, method_at (put_method s i e me') i' e' = Some me0 ->
    (i' = i /\ e' = e /\ me0 = me') \/ ((i', e') <> (i, e) /\ method_at s i' e' = Some me0)).
  { intros i' e' me0 M'. destruct (Nat.eq_dec i i') as [<-|N1]; [destruct (Nat.eq_dec e e') as [<-|N2]|].
    + rewrite (method_put s i e me me' M0) in M'. inversion M'; subst. auto.
    + rewrite method_put_other in M' by congruence. right. split; congruence.
    + rewrite method_put_other in M' by congruence. right. split; congruence. }
  constructor; [| | | |now rewrite s_calls_put|now rewrite s_mem_put| |].
  - unfold put_method. rewrite K. exact A.
  - intros j y Y. destruct (B j y Y) as (k' & L & O'). unfold put_method. rewrite K. cbn. destruct (Nat.eq_dec i j) as [->|NE].
    + rewrite live_upd_in by (eapply live_lt; eauto). eexists. split; [reflexivity|]. rewrite K in L. inversion L; subst k'.
      destruct O' as (Q1 & Q2 & Q3 & Q4 & d & Q5 & Q6). repeat split; auto. exists d. cbn. rewrite upd_length. auto.
    + exists k'. rewrite live_upd_out by auto. auto.
  - intros i' e' me0 M'. destruct (WHO _ _ _ M') as [(-> & -> & ->)|[_ M1]]; [rewrite NO|]; eauto.
  - intros i' e' me0 T M'. destruct (WHO _ _ _ M') as [(-> & -> & ->)|[_ M1]]; eauto.
  - unfold put_method. rewrite K. exact G.
  - unfold put_method. rewrite K. cbn. now rewrite upd_length.
Qed.

Lemma own_more : forall own l j (x : nat * nat), nth_error own j = Some x -> nth_error (own ++ l) j = Some x.
Proof. intros own l j x A. rewrite nth_error_app1; auto. apply nth_error_Some. congruence. Qed.
Lemma call_ok_more : forall own l c, call_ok own c -> call_ok (own ++ l) c.
Proof. intros own l c (i & e & A & B). exists i, e. split; auto. now apply own_more. Qed.

Lemma planned : forall i x, pl_mocks P i = Some x -> exists d, nth_error (e_classes E) (fst x) = Some d /\
  class_at E P i = Some d /\ class_fits d = true.
Proof.
  intros i x N. destruct (proj1 PLAN i x N) as (d & D & F & _). exists d. split; auto. split; auto.
  unfold class_at. rewrite N. destruct x. exact D.
Qed.
Lemma class_planned : forall i d, class_at E P i = Some d -> exists x, pl_mocks P i = Some x /\ nth_error (e_classes E) (fst x) = Some d.
Proof.
  intros i d H. unfold class_at in H. destruct (pl_mocks P i) as [[c w]|]; [|discriminate]. exists (c, w). auto.
Qed.

(** A method expression designates a method of the world. *)
Lemma dtor_slot : forall d e, class_fits d = true -> cl_dtor d = Some e -> e < cl_size d /\ is_dtor d e = true.
Proof.
  intros d e F D. unfold class_fits in F. rewrite D in F. apply andb_prop in F. destruct F as [_ F]. apply Nat.ltb_lt in F.
  unfold is_dtor. rewrite D, Nat.eqb_refl. split; auto. lia.
Qed.
Lemma designates_ok : forall own s t i e, inv own s -> designated t i e -> exists r, designates E s t i e r /\ returns i e = Some r.
Proof.
  intros own s t i e I D. assert (C : exists d, class_at E P i = Some d) by (destruct D; eauto). destruct C as (d & C).
  destruct (class_planned _ _ C) as (x & X & XC). destruct (i_mocks _ _ I i x X) as (k & K & (K1 & K2 & K3 & K4 & d' & C' & KL)).
  rewrite C in C'. inversion C'; subst d'.
  assert (CF : class_fits d = true) by (destruct (planned i x X) as (d0 & _ & C0 & F); congruence).
  destruct D as [i slot c d0 H1 H2 H3 H4 H5 H6|i e d0 H1 H2 H3]; rewrite C in H1; inversion H1; subst d0.
  - exists (cl_ret d slot). split.
    + exists k, d. rewrite K1. cbn [target_mock]. split; [reflexivity|]. split; [exact K|]. split; [exact XC|]. split; [lia|]. auto.
    + unfold Spec_Rules.returns. now rewrite C, H3.
  - destruct (dtor_slot d e CF H2) as [L DT]. exists RtVoid. split.
    + exists k, d. rewrite K1. cbn [target_mock]. split; [reflexivity|]. split; [exact K|]. split; [exact XC|]. split; [lia|]. auto.
    + unfold Spec_Rules.returns. now rewrite C, DT.
Qed.
Lemma designated_fun : forall t i e i' e', designated t i e -> designated t i' e' -> i = i' /\ e = e'.
Proof. apply designated_only. Qed.
Lemma designated_id : forall t i e, designated t i e -> id_ok i e (target_id t).
Proof. intros t i e D. destruct D; cbn; [right|left]; eauto 10. Qed.

Lemma id_free_ok : forall own s t i e k, inv own s -> designated t i e -> live (s_mocks s) i = Some k -> live (sk_meths k) e = None ->
  id_free k (target_id t) = true.
Proof.
  intros own s t i e k I D K L.
  assert (C : exists d, class_at E P i = Some d) by (destruct D; eauto). destruct C as (d & C).
  destruct (class_planned _ _ C) as (x & X & XC). destruct (i_mocks _ _ I i x X) as (k' & K' & (K1 & K2 & K3 & K4 & _)).
  rewrite K in K'. inversion K'; subst k'. unfold id_free. apply andb_true_intro. split.
  - apply negb_true_iff, Z.eqb_neq. destruct D; cbn [target_id].
    + destruct K4 as [->|[-> _]]; auto.
    + destruct K4 as [->|[_ R]]; [unfold dtor_id, int_max; lia|congruence].
  - apply forallb_forall. intros [me|] IN; auto. apply negb_true_iff, Z.eqb_neq. intro Q.
    apply In_nth_error in IN. destruct IN as (e' & N).
    assert (M : method_at s i e' = Some me) by (unfold method_at; rewrite K; unfold live; now rewrite N).
    assert (T : pl_mocks P i <> None) by congruence. destruct (i_meths _ _ I i e' me T M) as (ID & _).
    assert (NE : e' <> e) by (intro; subst; unfold live in L; rewrite N in L; discriminate).
    rewrite <- Q in ID. destruct D as [i slot c d0 H1 H2 H3 H4 H5 H6|i e d0 H1 H2 H3]; cbn [target_id] in *.
    + destruct ID as [[Z _]|(_ & _ & Z)]; [contradiction|congruence].
    + destruct ID as [(_ & _ & d1 & Z1 & Z2)|(Z & _)]; [congruence|apply Z; reflexivity].
Qed.

(** Counters: at most [b] calls and method expressions so far. *)
Definition spent (s : sworld) (b : nat) : Prop :=
  (s_started s <= 2 * Z.of_nat b)%Z /\ length (s_calls s) <= b /\ s_bound s <= b.
Definition affordable (b : nat) : Prop := (Z.of_nat b <= 1073741824)%Z.

Lemma spent_more : forall s b b', spent s b -> b <= b' -> spent s b'.
Proof. intros s b b' (A & B & C) L. repeat split; lia. Qed.

Lemma inv_mention : forall own s t i e b, inv own s -> designated t i e -> spent s b -> affordable (S b) ->
  exists own1 me s', mentioned E s t i e me s' /\ inv (own ++ own1) s' /\ spent s' (S b).
Proof.
  intros own s t i e b I D SP AF. destruct (designates_ok own s t i e I D) as (r & DS & RT).
  pose proof DS as (k & d & DD). pose proof DD as (T & K & CL & L & _).
  destruct (method_at s i e) as [me|] eqn:M.
  - exists [], me, s. split; [exists r; split; [exact DS|now left]|]. rewrite app_nil_r. split; auto.
    eapply spent_more; eauto.
  - pose proof M as M'. unfold method_at in M'. rewrite K in M'.
    set (me := mkMethod (s_bound s) (target_id t) r [] [] false).
    exists [(i, e)], me, (put_method (sset_bound s (S (s_bound s))) i e me). split; [|split].
    + exists r. split; [exact DS|right]. split; auto. split; [exists k; split; auto; eapply id_free_ok; eauto|].
      split; [destruct SP as (_ & _ & SB); unfold affordable in AF; lia|]. split; reflexivity.
    + destruct I as [A B OW C0 F G H RG].
      assert (MO : meth_ok i e me).
      { split; [|split]; auto.
        - cbn. now apply designated_id.
        - cbn. constructor. }
      assert (MN : nth_error (own ++ [(i, e)]) (me_no me) = Some (i, e)).
      { cbn. rewrite nth_error_app2 by lia. rewrite H, Nat.sub_diag. reflexivity. }
      unfold put_method. cbn [s_mocks sset_bound]. rewrite K.
      assert (WHO : forall i' e' me0, method_at (sset_mocks (sset_bound s (S (s_bound s)))
          (upd (s_mocks s) i (Some (mkSmock (sk_class k) (sk_obj k) (sk_owner k) (sk_fill k) (upd (sk_meths k) e (Some me)))))) i' e' = Some me0 ->
        (i' = i /\ e' = e /\ me0 = me) \/ method_at s i' e' = Some me0).
      { intros i' e' me0 M0. unfold method_at in M0. cbn in M0. destruct (Nat.eq_dec i i') as [<-|N1].
        -- rewrite live_upd_in in M0 by (eapply live_lt; eauto). cbn in M0. destruct (Nat.eq_dec e e') as [<-|N2].
           ++ rewrite live_upd_in in M0 by auto. inversion M0; subst. auto.
           ++ rewrite live_upd_out in M0 by auto. right. unfold method_at. now rewrite K.
        -- rewrite live_upd_out in M0 by auto. now right. }
      constructor; cbn; auto.
      * intros j y Y. destruct (B j y Y) as (k' & L' & O'). destruct (Nat.eq_dec i j) as [->|NE].
        -- rewrite live_upd_in by (eapply live_lt; eauto). eexists. split; [reflexivity|]. rewrite K in L'. inversion L'; subst k'.
           destruct O' as (Q1 & Q2 & Q3 & Q4 & d' & Q5 & Q6). repeat split; auto. exists d'. cbn. rewrite upd_length. auto.
        -- exists k'. rewrite live_upd_out by auto. auto.
      * intros i' e' me0 M0. destruct (WHO _ _ _ M0) as [(-> & -> & ->)|M1]; auto. apply own_more. eauto.
      * intros i' e' me0 T' M0. destruct (WHO _ _ _ M0) as [(-> & -> & ->)|M1]; eauto.
      * eapply Forall_impl; [|exact F]. intro. apply call_ok_more.
      * rewrite app_length, H. cbn. lia.
      * apply Forall_app. rewrite upd_length. split; auto. constructor; [|constructor]. eapply live_lt; eauto.
    + destruct SP as (S1 & S2 & S3). unfold put_method. cbn [s_mocks sset_bound]. rewrite K. repeat split; cbn; lia.
Qed.

End S.
