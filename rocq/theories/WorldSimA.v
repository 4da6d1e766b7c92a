(** The simulation, part A: objects, memory, invocations, events, method
    expressions and the binding of methods. *)
From Coq Require Import Bool ZArith Lia List Permutation.
From Verif Require Import Base CInt Values ArgMatchers InvMatchers ActionSeq Sequences MatchAnalysis
  SortInv VTable Spec_Layout VTableProofs Proxy ProxyProofs Events Expectation ReturnSet Ordinals Syntax World Spec_World
  WorldLogic WorldRel.
Import ListNotations.
Open Scope nat_scope.

Section A.
Variable E : env.
Local Notation R := (R E).
Local Notation Rg := (Rg E).
Local Notation sim := (sim E).
Local Notation simw := (simw E).

(** ** Reading *)
Lemma Rg_mock : forall own tow w s m sk, Rg own tow w s -> live (s_mocks s) m = Some sk ->
  exists k sx d, live (w_mocks w) m = Some k /\ live (s_objs s) (sk_obj sk) = Some sx /\
    mock_rel E (w_tables w) m k (sk_class sk) (sk_obj sk) (sk_owner sk) (sk_fill sk) (map face (sk_meths sk)) sx d.
Proof.
  intros own tow w s m sk H L. destruct (r_mck _ _ _ _ _ H) as [_ M]. specialize (M m). rewrite L in M.
  destruct (live (w_mocks w) m) as [k|]; [|contradiction]. destruct M as (sx & d & M1 & M2). exists k, sx, d. auto.
Qed.

Lemma Rg_obj : forall own tow w s o sx, Rg own tow w s -> live (s_objs s) o = Some sx ->
  exists x, live (w_objs w) o = Some x /\ obj_rel E (w_mocks w) o x sx.
Proof.
  intros own tow w s o sx H L. destruct (r_obj _ _ _ _ _ H) as [_ M]. specialize (M o). rewrite L in M.
  destruct (live (w_objs w) o) as [x|]; [|contradiction]. exists x. auto.
Qed.

Lemma Rg_ctx : forall own tow w s c sx, Rg own tow w s -> live (s_ctxs s) c = Some sx ->
  exists x, live (w_ctxs w) c = Some x /\ ctx_rel own (w_matchers w) (w_seqs w) c x sx.
Proof.
  intros own tow w s c sx H L. destruct (r_ctx _ _ _ _ _ H) as (_ & _ & M). specialize (M c). rewrite L in M.
  destruct (live (w_ctxs w) c) as [x|]; [|contradiction]. exists x. auto.
Qed.

Lemma Forall2_len : forall A B (P : A -> B -> Prop) l l', Forall2 P l l' -> length l = length l'.
Proof. intros A B P l l' H. induction H; cbn; auto. Qed.

Lemma Forall2_nth : forall A B (P : A -> B -> Prop) l l' i b, Forall2 P l l' -> nth_error l' i = Some b ->
  exists a, nth_error l i = Some a /\ P a b.
Proof.
  intros A B P l l' i b H. revert i. induction H as [|x y l l' Hxy H IH]; intros [|i] Hi; cbn in *; try discriminate.
  - inversion Hi; subst. eauto.
  - auto.
Qed.

Lemma Forall2_upd : forall A B (P : A -> B -> Prop) l l' i a b, Forall2 P l l' -> P a b ->
  Forall2 P (upd l i a) (upd l' i b).
Proof.
  intros A B P l l' i a b H Hab. revert i. induction H as [|x y l l' Hxy H IH]; intros [|i]; cbn; constructor; auto.
Qed.

Lemma Rg_call : forall own tow w s i ca, Rg own tow w s -> nth_error (s_calls s) i = Some ca ->
  exists v, nth_error (w_invs w) i = Some v /\ inv_rel v ca.
Proof. intros own tow w s i ca H L. eapply Forall2_nth; eauto. apply (r_inv _ _ _ _ _ H). Qed.

Lemma Rg_ncalls : forall own tow w s, Rg own tow w s -> length (w_invs w) = length (s_calls s).
Proof. intros. eapply Forall2_len. apply (r_inv _ _ _ _ _ H). Qed.

(** Reading is simulated. *)
Lemma sget_spec : forall A (f : sworld -> list (option A)) i s,
  sget f i s = match live (f s) i with Some a => SOk s a | None => SUnspec end.
Proof. intros. unfold sget, sbind, sgets, sopt, sret, unspec. destruct (live (f s) i); reflexivity. Qed.

Lemma get_mock_live : forall w m k, live (w_mocks w) m = Some k -> get_mock m w = RVal w k.
Proof. intros. unfold get_mock, bind, gets. now apply hget_live. Qed.
Lemma get_obj_live : forall w m k, live (w_objs w) m = Some k -> get_obj m w = RVal w k.
Proof. intros. unfold get_obj, bind, gets. now apply hget_live. Qed.
Lemma get_table_live : forall w m k, live (w_tables w) m = Some k -> get_table m w = RVal w k.
Proof. intros. unfold get_table, bind, gets. now apply hget_live. Qed.
Lemma get_body_live : forall w m k, live (w_bodies w) m = Some k -> get_body m w = RVal w k.
Proof. intros. unfold get_body, bind, gets. now apply hget_live. Qed.
Lemma get_ctx_live : forall w m k, live (w_ctxs w) m = Some k -> get_ctx m w = RVal w k.
Proof. intros. unfold get_ctx, bind, gets. now apply hget_live. Qed.
Lemma get_matcher_live : forall w m k, live (w_matchers w) m = Some k -> get_matcher m w = RVal w k.
Proof. intros. unfold get_matcher, bind, gets. now apply hget_live. Qed.
Lemma get_exp_live : forall w m k, live (w_exps w) m = Some k -> get_exp m w = RVal w k.
Proof. intros. unfold get_exp, bind, gets. now apply hget_live. Qed.
Lemma get_inv_nth : forall w i v, nth_error (w_invs w) i = Some v -> get_inv i w = RVal w v.
Proof. intros. unfold get_inv, bind, gets. rewrite H. reflexivity. Qed.
Lemma get_seq_nth : forall w i v, nth_error (w_seqs w) i = Some v -> get_seq i w = RVal w v.
Proof. intros. unfold get_seq, bind, gets. rewrite H. reflexivity. Qed.

Lemma simw_intro_ok : forall A B (P : world -> sworld -> A -> B -> Prop) (m : M A) (sm : SM B) w s w' s' a b,
  sm s = SOk s' b -> m w = RVal w' a -> R w' s' -> P w' s' a b -> simw P m sm w s.
Proof. intros. unfold simw, WorldRel.simw. rewrite H. exists w', a. auto. Qed.

Definition mockP (m : nat) (w : world) (s : sworld) (k : mock) (sk : smock) : Prop :=
  live (w_mocks w) m = Some k /\ live (s_mocks s) m = Some sk /\
  exists sx d, live (s_objs s) (sk_obj sk) = Some sx /\
    mock_rel E (w_tables w) m k (sk_class sk) (sk_obj sk) (sk_owner sk) (sk_fill sk) (map face (sk_meths sk)) sx d.

Lemma simw_get_mock : forall m w s, R w s -> simw (mockP m) (get_mock m) (sget s_mocks m) w s.
Proof.
  intros m w s (own & tow & H). unfold simw, WorldRel.simw. rewrite sget_spec.
  destruct (live (s_mocks s) m) as [sk|] eqn:L; [|exact I].
  destruct (Rg_mock _ _ _ _ _ _ H L) as (k & sx & d & K1 & K2 & K3).
  exists w, k. rewrite (get_mock_live _ _ _ K1). split; [reflexivity|]. split; [exists own, tow; auto|].
  split; auto. split; auto. exists sx, d. auto.
Qed.

Definition objP (o : nat) (w : world) (s : sworld) (x : obj) (sx : sobj) : Prop :=
  live (w_objs w) o = Some x /\ live (s_objs s) o = Some sx /\ obj_rel E (w_mocks w) o x sx.

Lemma simw_get_obj : forall o w s, R w s -> simw (objP o) (get_obj o) (sget s_objs o) w s.
Proof.
  intros o w s (own & tow & H). unfold simw, WorldRel.simw. rewrite sget_spec.
  destruct (live (s_objs s) o) as [sx|] eqn:L; [|exact I].
  destruct (Rg_obj _ _ _ _ _ _ H L) as (x & K1 & K2).
  exists w, x. rewrite (get_obj_live _ _ _ K1). split; [reflexivity|]. split; [exists own, tow; auto|].
  split; auto.
Qed.

Definition callP (i : nat) (w : world) (s : sworld) (v : inv) (ca : call) : Prop :=
  nth_error (w_invs w) i = Some v /\ nth_error (s_calls s) i = Some ca /\ inv_rel v ca.

Lemma simw_get_call : forall i w s, R w s -> simw (callP i) (get_inv i) (sget_call i) w s.
Proof.
  intros i w s (own & tow & H). unfold simw, WorldRel.simw, sget_call, sbind, sgets, sopt.
  destruct (nth_error (s_calls s) i) as [ca|] eqn:L; [|exact I].
  destruct (Rg_call _ _ _ _ _ _ H L) as (v & K1 & K2).
  exists w, v. rewrite (get_inv_nth _ _ _ K1). split; [reflexivity|]. split; [exists own, tow; auto|].
  split; auto.
Qed.

Lemma sim_get_exp : forall x, sim (get_exp x) (sget s_exps x).
Proof.
  intros x w s (own & tow & H). unfold simw, WorldRel.simw. rewrite sget_spec.
  destruct (live (s_exps s) x) as [e|] eqn:L; [|exact I].
  rewrite <- (r_exp _ _ _ _ _ H) in L.
  exists w, e. rewrite (get_exp_live _ _ _ L). split; [reflexivity|]. split; [exists own, tow; auto|reflexivity].
Qed.

Lemma sim_get_mem : sim (gets w_mem) (sgets s_mem).
Proof. apply sim_gets. intros w s (own & tow & H). apply (r_mem _ _ _ _ _ H). Qed.
Lemma sim_get_uncaught : sim (gets w_uncaught) (sgets s_uncaught).
Proof. apply sim_gets. intros w s (own & tow & H). apply (r_unc _ _ _ _ _ H). Qed.
Lemma sim_get_fctx : sim (gets w_fctx) (sgets s_fctx).
Proof. apply sim_gets. intros w s (own & tow & H). apply (r_fct _ _ _ _ _ H). Qed.

(** ** Simple updates *)
Lemma sim_modify : forall f g, (forall w s, R w s -> R (f w) (g s)) -> sim (modify f) (smodify g).
Proof. intros f g H w s HR. unfold simw, WorldRel.simw, smodify, modify. exists (f w), tt. split; auto. split; auto. reflexivity. Qed.

Ltac rsame := match goal with |- R ?w ?s -> _ => intros (own & tow & H); exists own, tow; destruct H; constructor; cbn; auto end.

Lemma R_mem : forall w s m, R w s -> R (set_mem w m) (sset_mem s m).
Proof. intros w s m. rsame. Qed.
Lemma R_mem_f : forall w s f, R w s -> R (set_mem w (f (w_mem w))) (sset_mem s (f (s_mem s))).
Proof. intros w s f. rsame. all: now rewrite r_mem. Qed.
Lemma R_uncaught : forall w s f, R w s -> R (set_uncaught w (f (w_uncaught w))) (sset_uncaught s (f (s_uncaught s))).
Proof. intros w s f. rsame. all: now rewrite r_unc. Qed.
Lemma R_fctx : forall w s f, R w s -> R (set_fctx w (f (w_fctx w))) (sset_fctx s (f (s_fctx s))).
Proof. intros w s f. rsame. all: now rewrite r_fct. Qed.
Lemma R_log : forall w s l, R w s -> R (set_log w (w_log w ++ l)) (sset_log s (s_log s ++ l)).
Proof. intros w s l. rsame. all: now rewrite r_log. Qed.
Lemma R_exps : forall w s f, R w s -> R (set_exps w (f (w_exps w))) (sset_exps s (f (s_exps s))).
Proof. intros w s f. rsame. all: now rewrite r_exp. Qed.

Lemma sim_put_exp : forall x e, sim (put_exp x e) (sput_exp x e).
Proof.
  intros. apply sim_modify. intros w s H. apply (R_exps w s (fun h => upd h x (Some e)) H).
Qed.

Lemma sim_new_exp : forall e, sim (new_exp e) (snew_exp e).
Proof.
  intro e. unfold new_exp, snew_exp.
  apply sim_bind; [apply sim_gets; intros w s (own & tow & H); apply (r_exp _ _ _ _ _ H)|]. intro h.
  apply sim_bind; [|intros _; apply sim_ret]. apply sim_modify. intros w s H.
  apply (R_exps w s (fun h => h ++ [Some e]) H).
Qed.

Lemma sim_free_exp : forall x, sim (free_exp x) (sfree_exp x).
Proof.
  intro x. unfold free_exp, sfree_exp. apply sim_bind; [apply sim_get_exp|]. intros _.
  apply sim_modify. intros w s H. apply (R_exps w s (fun h => upd h x None) H).
Qed.

Lemma sim_report : forall e, sim (handle_event E e) (sreport E e).
Proof.
  intro e. unfold handle_event, sreport. apply sim_bind; [apply sim_get_fctx|]. intro c.
  destruct (ctx_handle _ _ _ _) as [done x]. apply sim_bind.
  - apply sim_modify. intros w s H. now apply R_log.
  - intros _. destruct x; [apply sim_throw|apply sim_ret].
Qed.

Lemma sim_unexpected : forall t m args, sim (unexpected E t m args) (sunexpected E t m args).
Proof.
  intros. unfold unexpected, sunexpected. apply sim_bind; [apply sim_report|]. intros _. apply sim_throw.
Qed.

Lemma sim_default : forall r, sim (default_value r) (sdefault r).
Proof. intros []; cbn; try apply sim_ret; [apply sim_throw|apply sim_unspec]. Qed.

(** ** Invocations *)
Lemma Rg_put_inv : forall own tow w s i v ca v' ca', Rg own tow w s ->
  nth_error (w_invs w) i = Some v -> nth_error (s_calls s) i = Some ca ->
  same_call v v' -> inv_rel v' ca' ->
  (forall mt, iv_matcher v' = Some mt -> iv_matcher v = Some mt \/
     (mt < length (w_matchers w) /\ own mt < length (s_ctxs s) /\ ~ unused (s_ctxs s) (own mt))) ->
  Rg own tow (set_invs w (upd (w_invs w) i v')) (sset_calls s (upd (s_calls s) i ca')).
Proof.
  intros own tow w s i v ca v' ca' H V C S I' K.
  pose proof (gr_ords _ _ (grows_put_inv w i v v' V S)) as O.
  destruct H; constructor; cbn; auto.
  - apply Forall2_upd; auto.
  - intros j x mt X1 X2. rewrite nth_error_upd in X1. destruct (Nat.eqb_spec i j) as [->|N].
    + destruct (Nat.ltb j (length (w_invs w))); [|discriminate]. inversion X1; subst x.
      destruct (K mt X2) as [K'|K']; [|exact K']. eapply r_idn; eauto.
    + eapply r_idn; eauto.
  - rewrite upd_length. exact r_his.
Qed.

Lemma sim_start_new : forall w s no r args i n w1 w2, R w s -> True ->
  nextInvocationOrdinal w = RVal w1 n ->
  new_inv (mkInv n (Z.of_nat (S no)) r args None false) w1 = RVal w2 i ->
  (s_started s + 1 < 4294967296)%Z ->
  i = length (s_calls s) /\
  R w2 (sset_calls (sset_started s (s_started s + 1)%Z) (s_calls s ++ [mkCall no r args false])).
Proof.
  intros w s no r args i n w1 w2 (own & tow & H) _ N I L.
  pose proof (gp_draw_inv _ (fun n => mkInv n (Z.of_nat (S no)) r args None false) (fun i => ret i)
    (fun _ => eq_refl) (fun i => pres_ret grows grows_refl _ i) w) as G.
  unfold presw in G. unfold bind at 1 in G. rewrite N in G. unfold bind in G. rewrite I in G. cbn in G.
  pose proof (gr_ords _ _ G (r_ord _ _ _ _ _ H)) as O. clear G.
  unfold nextInvocationOrdinal, bind, gets, modify, ret in N. inversion N; subst; clear N.
  unfold new_inv, bind, gets, modify, ret in I. inversion I; subst; clear I. cbn.
  pose proof (Rg_ncalls _ _ _ _ H) as NC.
  split; [exact NC|]. exists own, tow. destruct H; constructor; cbn; auto.
  - apply Forall2_app; auto. constructor; [|constructor]. repeat split.
  - intros j x mt X1 X2. destruct (Nat.lt_ge_cases j (length (w_invs w))) as [Lj|Lj].
    + rewrite nth_error_app1 in X1 by auto. eapply r_idn; eauto.
    + rewrite nth_error_app2 in X1 by auto. destruct (j - length (w_invs w)); cbn in X1.
      * inversion X1; subst x. discriminate.
      * destruct n; discriminate.
  - intros m slot me j A1 A2. rewrite app_length. cbn. specialize (r_his m slot me j A1 A2). lia.
  - destruct r_sta as [Q1 Q2]. split; [lia|exact L].
Qed.

Lemma simw_start : forall w s, R w s -> simw (fun _ _ _ _ => True) nextInvocationOrdinal sstart w s.
Proof.
  intros w s (own & tow & H). unfold simw, WorldRel.simw, sstart, sbind, sgets.
  destruct (Z.ltb_spec (s_started s + 1) 4294967296) as [L|L]; [|exact I].
  unfold smodify. pose proof (gp_nextInvocationOrdinal w) as G. unfold presw in G.
  unfold nextInvocationOrdinal, bind, gets, modify, ret in *. cbn in *.
  eexists _, _. split; [reflexivity|]. split; [|exact I].
  pose proof (gr_ords _ _ G (r_ord _ _ _ _ _ H)) as O.
  exists own, tow. destruct H; constructor; cbn; auto. destruct r_sta as [Q1 Q2]. split; [lia|exact L].
Qed.

(** ** Objects *)
Lemma OBJ_app : forall objs mocks sobjs x sx, OBJ E objs mocks sobjs -> obj_rel E mocks (length sobjs) x sx ->
  OBJ E (objs ++ [Some x]) mocks (sobjs ++ [Some sx]).
Proof.
  intros objs mocks sobjs x sx (L & H) HX. split; [rewrite !app_length; cbn; lia|].
  intro o. rewrite !live_app, <- L. destruct (Nat.eqb_spec o (length objs)) as [->|N]; [|apply H].
  now rewrite L.
Qed.

Lemma OBJ_upd : forall objs mocks sobjs o x sx, OBJ E objs mocks sobjs -> o < length sobjs ->
  match x, sx with Some a, Some b => obj_rel E mocks o a b | None, None => True | _, _ => False end ->
  OBJ E (upd objs o x) mocks (upd sobjs o sx).
Proof.
  intros objs mocks sobjs o x sx (L & H) HL HX. split; [now rewrite !upd_length|].
  intro j. rewrite !live_upd by lia. destruct (Nat.eqb_spec o j) as [->|N]; [exact HX|apply H].
Qed.

(** Mocks look at the class and the mock of their object only. *)
Definition same_obj (sx sx' : sobj) : Prop := so_class sx' = so_class sx /\ so_mock sx' = so_mock sx.

Lemma mock_rel_same : forall tabs m k c o owner fill fs sx sx' d, same_obj sx sx' ->
  mock_rel E tabs m k c o owner fill fs sx d -> mock_rel E tabs m k c o owner fill fs sx' d.
Proof.
  intros tabs m k c o owner fill fs sx sx' d [S1 S2] H. destruct H.
  constructor; auto; rewrite ?S1, ?S2; auto.
Qed.

Lemma MCK_objs : forall tabs mocks smocks sobjs sobjs', MCK E tabs mocks smocks sobjs ->
  (forall m sk sx, live smocks m = Some sk -> live sobjs (sk_obj sk) = Some sx ->
     exists sx', live sobjs' (sk_obj sk) = Some sx' /\ (so_mock sx = Some m -> same_obj sx sx')) ->
  MCK E tabs mocks smocks sobjs'.
Proof.
  intros tabs mocks smocks sobjs sobjs' (L & H) K. split; auto. intro m. specialize (H m).
  destruct (live mocks m) as [k|], (live smocks m) as [sk|] eqn:S; auto.
  destruct H as (sx & d & H1 & H2). destruct (K m sk sx S H1) as (sx' & K1 & K2).
  exists sx', d. split; auto. eapply mock_rel_same; [|exact H2]. apply K2. apply (mr_mock _ _ _ _ _ _ _ _ _ _ _ H2).
Qed.

(** Changing the members of an object. *)
Lemma R_data : forall w s o x sx data, R w s -> live (w_objs w) o = Some x -> live (s_objs s) o = Some sx ->
  R (set_objs w (upd (w_objs w) o (Some (mkObj (ob_vptr x) (ob_class x) data))))
    (sset_objs s (upd (s_objs s) o (Some (mkSobj (so_class sx) data (so_mock sx))))).
Proof.
  intros w s o x sx data (own & tow & H) X SX. exists own, tow.
  pose proof (live_lt _ _ _ _ SX) as LT.
  pose proof (r_obj _ _ _ _ _ H) as [OL OB]. pose proof (OB o) as OX. rewrite X, SX in OX.
  destruct H; constructor; cbn; auto.
  - apply OBJ_upd; auto. destruct OX as (O1 & O2 & O3 & O4). repeat split; cbn; auto.
  - eapply MCK_objs; [exact r_mck|]. intros m sk sx' SK SX'. rewrite live_upd by auto.
    destruct (Nat.eqb_spec o (sk_obj sk)) as [->|N].
    + eexists. split; [reflexivity|]. intros _. assert (sx' = sx) by congruence. subst. split; reflexivity.
    + exists sx'. split; auto. split; reflexivity.
Qed.

Lemma sim_new_obj : forall c, sim (let* d := class_of E c in nat_val (new_obj (mkObj c c (repeat (VInt 0) (cl_cells d)))))
  (let? d := sclass E c in
      let? h := sgets s_objs in
      let? _ := smodify (fun s => sset_objs s (s_objs s ++ [Some (mkSobj c (sfresh_data d) None)])) in
      sret (id_val (length h))).
Proof.
  intros c w s (own & tow & H). unfold simw, WorldRel.simw, sclass, sbind, sopt, sgets, smodify, sret, class_of.
  destruct (nth_error (e_classes E) c) as [d|] eqn:C; [|exact I].
  unfold nat_val, new_obj, bind, gets, modify, ret. eexists _, _. split; [reflexivity|].
  pose proof (r_obj _ _ _ _ _ H) as [OL OB].
  split; [|unfold eqP; now rewrite OL].
  exists own, tow. destruct H; constructor; cbn; auto.
  - apply OBJ_app; auto. repeat split; cbn; auto. apply nth_error_Some. congruence.
  - eapply MCK_objs; [exact r_mck|]. intros m sk sx SK SX. rewrite live_app.
    pose proof (live_lt _ _ _ _ SX). destruct (Nat.eqb_spec (sk_obj sk) (length (s_objs s))); [lia|].
    exists sx. split; auto. split; auto.
Qed.

Lemma sim_free_obj : forall o, sim (unit_val (free_obj o))
  (let? x := sget s_objs o in
      match so_mock x with
      | None => sunit (smodify (fun s => sset_objs s (upd (s_objs s) o None)))
      | Some _ => unspec
      end).
Proof.
  intros o w s (own & tow & H). unfold simw, WorldRel.simw. unfold sbind at 1. rewrite sget_spec.
  destruct (live (s_objs s) o) as [sx|] eqn:SX; [|exact I]. destruct (so_mock sx) eqn:SM; [exact I|].
  destruct (Rg_obj _ _ _ _ _ _ H SX) as (x & X & OX).
  unfold sunit, sbind, smodify, sret, unit_val, free_obj. unfold bind. rewrite (get_obj_live _ _ _ X).
  unfold modify, ret. eexists _, _. split; [reflexivity|]. split; [|reflexivity].
  pose proof (live_lt _ _ _ _ SX) as LT.
  exists own, tow. destruct H; constructor; cbn; auto.
  - apply OBJ_upd; auto.
  - eapply MCK_objs; [exact r_mck|]. intros m sk sx' SK SX'. rewrite live_upd by auto.
    destruct (Nat.eqb_spec o (sk_obj sk)) as [->|N].
    + assert (sx' = sx) by congruence. subst.
      destruct r_mck as [_ M]. specialize (M m). rewrite SK in M. destruct (live (w_mocks w) m); [|contradiction].
      destruct M as (sx' & d & M1 & M2). pose proof (mr_mock _ _ _ _ _ _ _ _ _ _ _ M2). congruence.
    + exists sx'. split; auto. split; reflexivity.
Qed.

End A.
