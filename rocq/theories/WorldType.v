(** The dynamic type of objects, and the methods a derived class adds, in whole programs. *)
From Coq Require Import Bool ZArith Lia List.
From Verif Require Import Base CInt Values ArgMatchers InvMatchers ActionSeq Sequences MatchAnalysis
  SortInv VTable VTableProofs Proxy Events Expectation ReturnSet Ordinals Syntax World Spec_World WorldLogic WorldRel
  WorldSimA WorldSimB WorldSim Spec_View SpecFacts.
Import ListNotations.
Open Scope nat_scope.

Section T.
Variable E : env.
Hypothesis I : iterates E.

Lemma R_owner : forall w s m k x, R E w s -> live (s_mocks s) m = Some k -> live (s_objs s) (sk_obj k) = Some x ->
  sk_owner k = true -> so_class x = sk_class k.
Proof.
  intros w s m k x (own & tow & G) K X O.
  destruct (Rg_table E _ _ _ _ _ _ G K) as (k' & sx & d & vt & y & _ & SX & MR & _).
  assert (sx = x) by congruence. subst sx. now destruct (mr_own _ _ _ _ _ _ _ _ _ _ _ MR O).
Qed.

(** A wrapped object belongs to the mock it names. *)
Lemma R_mock_obj : forall w s o x m k, R E w s -> live (s_objs s) o = Some x -> so_mock x = Some m ->
  live (s_mocks s) m = Some k -> sk_obj k = o.
Proof.
  intros w s o x m k (own & tow & G) X M K.
  destruct (Rg_obj E _ _ _ _ _ _ G X) as (y & Y & (_ & _ & _ & O)). rewrite M in O. destruct O as (k0 & K0 & _ & KO).
  pose proof (proj2 (r_mck _ _ _ _ _ G) m) as MK. rewrite K0, K in MK. destruct MK as (sx & d & _ & MR).
  rewrite <- KO. symmetry. exact (mr_obj _ _ _ _ _ _ _ _ _ _ _ MR).
Qed.

Lemma R_mock_live : forall w s o x m, R E w s -> live (s_objs s) o = Some x -> so_mock x = Some m ->
  exists k, live (s_mocks s) m = Some k.
Proof.
  intros w s o x m (own & tow & G) X M.
  destruct (Rg_obj E _ _ _ _ _ _ G X) as (y & Y & (_ & _ & _ & O)). rewrite M in O. destruct O as (k0 & K0 & _ & KO).
  pose proof (proj2 (r_mck _ _ _ _ _ G) m) as MK. rewrite K0 in MK. destruct (live (s_mocks s) m) as [k|]; [|contradiction]. eauto.
Qed.

Lemma typeid_seen : forall f m0 os s rs o x c, leads E (S f) m0 os s rs -> live (s_objs s) o = Some x ->
  match so_mock x with
  | None => c = so_class x
  | Some m => exists k, live (s_mocks s) m = Some k /\ c = sk_class k
  end ->
  leads E (S f) m0 (os ++ [OTypeid o]) s (rs ++ [inl (id_val c)]).
Proof.
  intros f m0 os s rs o x c L X C. eapply leads_step; eauto. cbn [sexec sstep].
  unfold sbind at 1. rewrite sget_spec, X. destruct (so_mock x) as [m|].
  - destruct C as (k & K & ->). unfold sbind at 1. rewrite sget_spec, K. reflexivity.
  - subst c. reflexivity.
Qed.

Lemma own_type : forall f m0 os s rs o x, leads E (S f) m0 os s rs -> live (s_objs s) o = Some x ->
  (forall m k, so_mock x = Some m -> live (s_mocks s) m = Some k -> sk_owner k = true \/ sk_class k = so_class x) ->
  leads E (S f) m0 (os ++ [OTypeid o]) s (rs ++ [inl (id_val (so_class x))]).
Proof.
  intros f m0 os s rs o x L X H. eapply typeid_seen; eauto. destruct (so_mock x) as [m|] eqn:M; [|reflexivity].
  pose proof L as (w & _ & RR). destruct (R_mock_live _ _ _ _ _ RR X M) as (k & K). exists k. split; auto.
  destruct (H m k eq_refl K) as [O|C]; [|auto].
  pose proof (R_mock_obj _ _ _ _ _ _ RR X M K) as KO. subst o. eapply R_owner; eauto.
Qed.

Lemma mock_type : forall f m0 os s rs o x m k, leads E (S f) m0 os s rs -> live (s_objs s) o = Some x ->
  so_mock x = Some m -> live (s_mocks s) m = Some k ->
  leads E (S f) m0 (os ++ [OTypeid o]) s (rs ++ [inl (id_val (sk_class k))]).
Proof. intros f m0 os s rs o x m k L X M K. eapply typeid_seen; eauto. rewrite M. eauto. Qed.

(** Entries the class of the mock does not have are not in its table. *)
Lemma beyond_clone : forall w s o x m k d slot args f, R E w s -> live (s_objs s) o = Some x ->
  so_mock x = Some m -> live (s_mocks s) m = Some k -> nth_error (e_classes E) (sk_class k) = Some d ->
  cl_size d <= slot -> exec E (S f) (OCall o slot args) w = RUB.
Proof.
  intros w s o x m k d slot args f (own & tow & G) X M K C L.
  pose proof (R_mock_obj w s o x m k (ex_intro _ own (ex_intro _ tow G)) X M K) as KO.
  destruct (Rg_table E _ _ _ _ _ _ G K) as (k' & sx & d' & vt & y & _ & SX & MR & Y & VP & VT & (WF & _) & _).
  assert (d' = d) by (pose proof (mr_d _ _ _ _ _ _ _ _ _ _ _ MR); congruence). subst d'.
  rewrite KO in Y. cbn [exec step]. unfold call_object, bind.
  rewrite (obj_table_live w o y vt) by (rewrite ?VP; auto).
  unfold lift. rewrite (out_of_table Gcc (Z.of_nat (cl_size d))); auto. left. lia.
Qed.

Lemma beyond_program : forall f m0 os s rs o x m k d slot args, leads E (S f) m0 os s rs ->
  live (s_objs s) o = Some x -> so_mock x = Some m -> live (s_mocks s) m = Some k ->
  nth_error (e_classes E) (sk_class k) = Some d -> cl_size d <= slot ->
  exec_all E (S f) (os ++ [OCall o slot args]) (init_world E m0) = RUB.
Proof.
  intros f m0 os s rs o x m k d slot args (w & X & RR) O M K C L.
  rewrite exec_all_app, X. cbn [exec_all]. unfold bind at 1. unfold attempt.
  now rewrite (beyond_clone _ _ _ _ _ _ _ _ args f RR O M K C L).
Qed.
End T.
