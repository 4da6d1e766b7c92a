(** Reset, ClearInvocationHistory, the destructor of a mock and verification: what they
    leave alone, and what programs cannot notice. *)
From Coq Require Import Bool ZArith Lia List Permutation.
From Verif Require Import Base CInt Values ArgMatchers InvMatchers ActionSeq Sequences MatchAnalysis
  Proxy Events Expectation ReturnSet Syntax World Spec_World WorldRel WorldSimA WorldSimB WorldSim Spec_View SpecFacts SpecKept
  SpecCalls Spec_Alike SpecAlike SpecFrame.
Import ListNotations.
Open Scope nat_scope.

Section S.
Variable E : env.
Hypothesis iter_perm : iterates E.
Local Notation leads := (leads E).

(** ** What a described world looks like *)
Lemma R_mock : forall w s m k, R E w s -> live (s_mocks s) m = Some k ->
  exists x d, live (s_objs s) (sk_obj k) = Some x /\ so_mock x = Some m /\ nth_error (e_classes E) (sk_class k) = Some d /\
    length (sk_meths k) = cl_size d /\ (sk_owner k = true -> so_class x = sk_class k).
Proof.
  intros w s m k (own & tow & HR) K. pose proof (r_mck _ _ _ _ _ HR) as (_ & M). specialize (M m). rewrite K in M.
  destruct (live (w_mocks w) m) as [k0|]; [|contradiction]. destruct M as (x & d & L & Q). exists x, d.
  destruct Q. rewrite map_length in mr_len. repeat split; auto. intro O. now apply mr_own.
Qed.

Lemma R_obj : forall w s o x m, R E w s -> live (s_objs s) o = Some x -> so_mock x = Some m ->
  exists k, live (s_mocks s) m = Some k /\ sk_obj k = o.
Proof.
  intros w s o x m (own & tow & HR) L M. pose proof (r_obj _ _ _ _ _ HR) as (_ & O). specialize (O o). rewrite L in O.
  destruct (live (w_objs w) o) as [x0|]; [|contradiction]. destruct O as (_ & _ & _ & O). rewrite M in O.
  destruct O as (k0 & K0 & _ & OB). pose proof (r_mck _ _ _ _ _ HR) as (_ & MK). specialize (MK m). rewrite K0 in MK.
  destruct (live (s_mocks s) m) as [k|] eqn:K; [|contradiction]. destruct MK as (x1 & d & L1 & Q). exists k. split; auto.
  rewrite <- OB. symmetry. apply Q.
Qed.

Lemma R_class : forall w s o x, R E w s -> live (s_objs s) o = Some x -> exists d, nth_error (e_classes E) (so_class x) = Some d.
Proof.
  intros w s o x (own & tow & HR) L. pose proof (r_obj _ _ _ _ _ HR) as (_ & O). specialize (O o). rewrite L in O.
  destruct (live (w_objs w) o) as [x0|]; [|contradiction]. destruct O as (_ & _ & O & _).
  destruct (nth_error (e_classes E) (so_class x)) eqn:N; eauto. apply nth_error_None in N. lia.
Qed.

(** ** Reset *)
Definition after_reset (s : sworld) (m : nat) (k : smock) (x : sobj) : sworld :=
  let s1 := sset_mocks s (upd (s_mocks s) m
              (Some (mkSmock (sk_class k) (sk_obj k) (sk_owner k) 0 (map (fun _ => None) (sk_meths k))))) in
  if sk_owner k then sset_objs s1 (upd (s_objs s) (sk_obj k) (Some (zeroed x))) else s1.

Lemma reset_runs : forall f s m k x, live (s_mocks s) m = Some k -> quiet k = true -> live (s_objs s) (sk_obj k) = Some x ->
  sexec E (S f) (OReset m) s = SOk (after_reset s m k x) VVoid.
Proof.
  intros f s m k x K Q X. cbn [sexec sstep]. unfold sunit, smock_reset.
  unfold sbind at 1. rewrite (sbind_ok _ _ _ _ _ _ _ (sget_live _ _ _ _ _ K)), Q. unfold sbind, sput_mock, smodify, szero.
  unfold after_reset. destruct (sk_owner k); [|reflexivity].
  unfold sget, sgets, sbind, sopt. cbn. rewrite X. reflexivity.
Qed.

Lemma reset_leads : forall f m0 os s rs m k, leads (S f) m0 os s rs -> live (s_mocks s) m = Some k -> quiet k = true ->
  exists x, live (s_objs s) (sk_obj k) = Some x /\ so_mock x = Some m /\
    leads (S f) m0 (os ++ [OReset m]) (after_reset s m k x) (rs ++ [inl VVoid]).
Proof.
  intros f m0 os s rs m k L K Q. destruct L as (w & X & HR). destruct (R_mock _ _ _ _ HR K) as (x & d & O & M & _).
  exists x. split; auto. split; auto. eapply leads_step; [exact iter_perm|exists w; eauto|]. cbn [sanswer]. now apply reset_runs.
Qed.

Lemma live_none : forall A B (l : list A) i, live (map (fun _ => @None B) l) i = None.
Proof.
  intros A B l i. unfold live. destruct (nth_error (map (fun _ => @None B) l) i) as [y|] eqn:N; auto.
  apply nth_error_In in N. apply in_map_iff in N. destruct N as (a & <- & _). reflexivity.
Qed.

Lemma reset_world : forall s m k x, live (s_mocks s) m = Some k -> live (s_objs s) (sk_obj k) = Some x ->
  let s' := after_reset s m k x in
  (forall e, method_at s' m e = None) /\
  (exists k', live (s_mocks s') m = Some k' /\ sk_class k' = sk_class k /\ sk_obj k' = sk_obj k /\ sk_owner k' = sk_owner k) /\
  (forall m', m' <> m -> live (s_mocks s') m' = live (s_mocks s) m') /\
  (forall o, o <> sk_obj k -> live (s_objs s') o = live (s_objs s) o) /\
  live (s_objs s') (sk_obj k) = Some (if sk_owner k then zeroed x else x) /\
  s_calls s' = s_calls s /\ s_mem s' = s_mem s /\ s_ctxs s' = s_ctxs s /\ s_exps s' = s_exps s /\ s_started s' = s_started s /\
  s_fctx s' = s_fctx s /\ s_log s' = s_log s.
Proof.
  intros s m k x K X. unfold after_reset. cbn zeta.
  assert (ML : forall k', live (upd (s_mocks s) m (Some k')) m = Some k') by (intro; apply live_upd_in; eapply live_lt; eauto).
  destruct (sk_owner k) eqn:OW; cbn; (split; [intro e; unfold method_at; cbn; rewrite ML; cbn; apply live_none|]);
    (split; [eexists; rewrite ML; split; [reflexivity|cbn; auto]|]);
    (split; [intros m' N; apply live_upd_out; auto|]); (split; [intros o N; try apply live_upd_out; auto|]); repeat split; auto.
  apply live_upd_in. eapply live_lt; eauto.
Qed.

(** ** A method nothing was said about *)
Lemma unsaid_unmocked : forall f s o slot m args, unmocked E s o slot m -> room s ->
  listeners_quiet E s (EvUnexpected Unmocked None []) ->
  sexec E (S f) (OCall o slot args) s =
  SExn (notified E (sset_started s (s_started s + 1)%Z) (EvUnexpected Unmocked None [])) (complaint E s (EvUnexpected Unmocked None [])).
Proof.
  intros f s o slot m args (x & k & d & O & M & K & OW & D & L & ND & ME) RM LQ. cbn [sexec sstep]. unfold scall.
  rewrite (sbind_ok _ _ _ _ _ _ _ (sget_live _ _ _ _ _ O)), M.
  rewrite (sbind_ok _ _ _ _ _ _ _ (sget_live _ _ _ _ _ K)). unfold sclass at 1. rewrite D. unfold sbind at 1, sopt at 1, sret at 1.
  rewrite (proj2 (Nat.ltb_lt _ _) L).
  assert (EM : entry_method d slot = slot).
  { unfold entry_method, is_dtor in *. destruct (cl_dtor d) as [j|]; auto. apply orb_false_iff in ND. destruct ND as [_ ND].
    now rewrite ND. }
  unfold method_at in ME. rewrite K in ME. rewrite EM, ME. unfold sinitial. rewrite OW, ND.
  unfold sstart, sbind, sgets. unfold room in RM. rewrite (proj2 (Z.ltb_lt _ _) RM). unfold smodify.
  rewrite (unexpected_quiet E) by exact LQ. reflexivity.
Qed.

Lemma unsaid_destructor : forall f s o slot m args x k d, live (s_objs s) o = Some x -> so_mock x = Some m ->
  live (s_mocks s) m = Some k -> sk_owner k = true -> nth_error (e_classes E) (sk_class k) = Some d -> slot < cl_size d ->
  is_dtor d slot = true -> method_at s m (entry_method d slot) = None ->
  sexec E (S f) (OCall o slot args) s = SOk s VVoid.
Proof.
  intros f s o slot m args x k d O M K OW D L DT ME. cbn [sexec sstep]. unfold scall.
  rewrite (sbind_ok _ _ _ _ _ _ _ (sget_live _ _ _ _ _ O)), M.
  rewrite (sbind_ok _ _ _ _ _ _ _ (sget_live _ _ _ _ _ K)). unfold sclass at 1. rewrite D. unfold sbind at 1, sopt at 1, sret at 1.
  rewrite (proj2 (Nat.ltb_lt _ _) L). unfold method_at in ME. rewrite K in ME. rewrite ME. unfold sinitial. now rewrite OW, DT.
Qed.

Lemma unsaid_original : forall f s o slot m args x k d dx, live (s_objs s) o = Some x -> so_mock x = Some m ->
  live (s_mocks s) m = Some k -> sk_owner k = false -> nth_error (e_classes E) (sk_class k) = Some d -> slot < cl_size d ->
  nth_error (e_classes E) (so_class x) = Some dx -> slot < cl_size dx -> method_at s m (entry_method d slot) = None ->
  sexec E (S f) (OCall o slot args) s = srun_prog (sexec E f) (FrStack o args) (cl_body dx slot) s.
Proof.
  intros f s o slot m args x k d dx O M K OW D L DX LX ME. cbn [sexec sstep]. unfold scall.
  rewrite (sbind_ok _ _ _ _ _ _ _ (sget_live _ _ _ _ _ O)), M.
  rewrite (sbind_ok _ _ _ _ _ _ _ (sget_live _ _ _ _ _ K)). unfold sclass at 1. rewrite D. unfold sbind at 1, sopt at 1, sret at 1.
  rewrite (proj2 (Nat.ltb_lt _ _) L). unfold method_at in ME. rewrite K in ME. rewrite ME. unfold sinitial. rewrite OW.
  unfold sbody, sclass, sbind, sopt. rewrite DX. cbn [sret]. unfold sret. now rewrite (proj2 (Nat.ltb_lt _ _) LX).
Qed.

(** An object without a mock. *)
Lemma unwrapped : forall f s o slot args x dx, live (s_objs s) o = Some x -> so_mock x = None ->
  nth_error (e_classes E) (so_class x) = Some dx -> slot < cl_size dx ->
  sexec E (S f) (OCall o slot args) s = srun_prog (sexec E f) (FrStack o args) (cl_body dx slot) s.
Proof.
  intros f s o slot args x dx O M DX LX. cbn [sexec sstep]. unfold scall.
  rewrite (sbind_ok _ _ _ _ _ _ _ (sget_live _ _ _ _ _ O)), M.
  unfold sbody, sclass, sbind, sopt. rewrite DX. unfold sret. now rewrite (proj2 (Nat.ltb_lt _ _) LX).
Qed.

(** ** Reset and a new mock *)
Definition fill_alike (a b : Z) : Prop := a = b \/ ((a = 0 \/ a = int_max)%Z /\ (b = 0 \/ b = int_max)%Z).

Lemma plain_id : forall t, plain_number t = true -> (0 < target_id t < int_max)%Z.
Proof.
  intros [m slot c|m] H; cbn in *; [|discriminate]. apply andb_true_iff in H. destruct H as [A B].
  apply Z.leb_le in A. apply Z.ltb_lt in B. unfold method_id, to_uint32, int_max.
  rewrite Z.mod_small by (unfold two32; lia). lia.
Qed.

Lemma fill_alike_ids : forall a b t, fill_alike a b -> plain_number t = true ->
  Z.eqb (target_id t) b = Z.eqb (target_id t) a.
Proof.
  intros a b t F P. apply plain_id in P. destruct F as [->|[A B]]; auto.
  transitivity false; [|symmetry]; apply Z.eqb_neq; lia.
Qed.

Lemma moved_0 : forall n c, moved n 0 c = c.
Proof. intros. unfold moved. destruct (Nat.ltb c n); lia. Qed.
Lemma moved_stubs_0 : forall n l, map (moved_stub n 0) l = l.
Proof. intros n l. induction l as [|[a b c d e] l IH]; cbn; auto. rewrite IH. unfold moved_stub. cbn. now rewrite moved_0. Qed.

Lemma same_method_refl : forall v n x, same_method v n 0 x x.
Proof. intros. repeat split; auto. now rewrite moved_stubs_0. Qed.
Lemma same_meths_refl : forall v n l, Forall2 (opt_rel (same_method v n 0)) l l.
Proof. intros v n l. induction l as [|[x|] l IH]; constructor; auto; constructor. apply same_method_refl. Qed.
Lemma same_mock_refl : forall v (F : Z -> Z -> Prop) n k, F (sk_fill k) (sk_fill k) -> same_mock v F n 0 k k.
Proof. intros. repeat split; auto. apply same_meths_refl. Qed.
Lemma same_mocks_refl : forall v (F : Z -> Z -> Prop) n l, (forall a, F a a) -> Forall2 (opt_rel (same_mock v F n 0)) l l.
Proof. intros v F n l H. induction l as [|[x|] l IH]; constructor; auto; constructor. now apply same_mock_refl. Qed.
Lemma same_records_refl : forall v l, Forall2 (same_record v) l l.
Proof. intros v l. induction l; constructor; auto. repeat split; auto. Qed.

Lemma reset_alike : forall s m k x, live (s_mocks s) m = Some k -> live (s_objs s) (sk_obj k) = Some x ->
  (forall c y, live (s_ctxs s) c = Some y -> plain_number (sx_target y) = true) ->
  alike true fill_alike plain_number 0 0 (as_new s m k) (after_reset s m k x).
Proof.
  intros s m k x K X OK. unfold as_new, after_reset. rewrite X.
  assert (MK : Forall2 (opt_rel (same_mock true fill_alike 0 0)) (upd (s_mocks s) m (Some (new_mock k)))
    (upd (s_mocks s) m (Some (mkSmock (sk_class k) (sk_obj k) (sk_owner k) 0 (map (fun _ => None) (sk_meths k)))))).
  { apply Forall2_upd'; [apply same_mocks_refl; intro; now left|]. constructor. repeat split; cbn; auto.
    - right. auto.
    - clear. induction (sk_meths k); cbn; constructor; auto. constructor. }
  destruct (sk_owner k); constructor; cbn; auto; try (intros; apply same_records_refl); try lia; intros; rewrite ?moved_0; eauto;
    apply same_records_refl.
Qed.

Lemma as_new_alike : forall s m k x, live (s_mocks s) m = Some k -> live (s_objs s) (sk_obj k) = Some x ->
  (forall c y, live (s_ctxs s) c = Some y -> plain_number (sx_target y) = true) ->
  alike true fill_alike plain_number 0 0 (after_reset s m k x) (as_new s m k).
Proof.
  intros s m k x K X OK. unfold as_new, after_reset. rewrite X.
  assert (MK : Forall2 (opt_rel (same_mock true fill_alike 0 0))
    (upd (s_mocks s) m (Some (mkSmock (sk_class k) (sk_obj k) (sk_owner k) 0 (map (fun _ => None) (sk_meths k)))))
    (upd (s_mocks s) m (Some (new_mock k)))).
  { apply Forall2_upd'; [apply same_mocks_refl; intro; now left|]. constructor. repeat split; cbn; auto.
    - right. auto.
    - clear. induction (sk_meths k); cbn; constructor; auto. constructor. }
  destruct (sk_owner k); constructor; cbn; auto; try (intros; apply same_records_refl); try lia; intros; rewrite ?moved_0; eauto;
    apply same_records_refl.
Qed.

Lemma reset_like_new : forall f m0 os s rs m k os' s' rs', leads (S f) m0 os s rs -> live (s_mocks s) m = Some k -> quiet k = true ->
  (forall c y, live (s_ctxs s) c = Some y -> plain_number (sx_target y) = true) ->
  nexec_all E true plain_number 0 (S f) os' (as_new s m k) = SOk s' rs' ->
  exists s2, leads (S f) m0 (os ++ OReset m :: os') s2 (rs ++ inl VVoid :: rs').
Proof.
  intros f m0 os s rs m k os' s' rs' L K Q OK X. destruct (reset_leads _ _ _ _ _ _ _ L K Q) as (x & XO & _ & L1).
  destruct (same_answers E true fill_alike plain_number 0 0 fill_alike_ids (or_introl eq_refl) (or_introl eq_refl)
    (S f) os' _ _ _ _ (reset_alike s m k x K XO OK) X) as (s2 & X2 & _).
  exists s2. pose proof (leads_more E iter_perm _ _ _ _ _ _ _ _ L1 X2) as Z. now rewrite <- !app_assoc in Z.
Qed.

Lemma new_like_reset : forall f s m k os' s1 s' rs', live (s_mocks s) m = Some k ->
  (forall c y, live (s_ctxs s) c = Some y -> plain_number (sx_target y) = true) ->
  sexec E (S f) (OReset m) s = SOk s1 VVoid -> nexec_all E true plain_number 0 (S f) os' s1 = SOk s' rs' ->
  exists s2, sexec_all E (S f) os' (as_new s m k) = SOk s2 rs'.
Proof.
  intros f s m k os' s1 s' rs' K OK X1 X2.
  assert (Q : quiet k = true /\ exists x, live (s_objs s) (sk_obj k) = Some x \/ sk_owner k = false).
  { cbn [sexec sstep] in X1. unfold sunit, smock_reset, sbind in X1.
    pose proof (sget_live _ s_mocks m s k K) as G. rewrite G in X1. destruct (quiet k); [split; auto|discriminate].
    unfold sput_mock, smodify, szero in X1. destruct (sk_owner k); [|exists (mkSobj 0 [] None); now right].
    unfold sget, sgets, sbind, sopt in X1. cbn in X1. destruct (live (s_objs s) (sk_obj k)) as [x|]; [exists x; auto|discriminate]. }
  destruct Q as (Q & x & H).
  destruct (live (s_objs s) (sk_obj k)) as [x0|] eqn:XO.
  - rewrite (reset_runs _ _ _ _ _ K Q XO) in X1. inversion X1; subst s1.
    destruct (same_answers E true fill_alike plain_number 0 0 fill_alike_ids (or_introl eq_refl) (or_introl eq_refl)
      (S f) os' _ _ _ _ (as_new_alike s m k x0 K XO OK) X2) as (s2 & X3 & _). eauto.
  - destruct H as [H|OW]; [discriminate|].
    assert (X1' : s1 = after_reset s m k (mkSobj 0 [] None)).
    { cbn [sexec sstep] in X1. unfold sunit, smock_reset, sbind in X1.
      pose proof (sget_live _ s_mocks m s k K) as G. rewrite G, Q in X1. unfold sput_mock, smodify, szero in X1. rewrite OW in X1.
      unfold after_reset. rewrite OW. cbn in X1. inversion X1. reflexivity. }
    subst s1. 
    assert (AL : alike true fill_alike plain_number 0 0 (after_reset s m k (mkSobj 0 [] None)) (as_new s m k)).
    { unfold as_new, after_reset. rewrite OW.
      constructor; cbn; auto; try (intros; apply same_records_refl); try lia; intros; rewrite ?moved_0; eauto; try apply same_records_refl.
      apply Forall2_upd'; [apply same_mocks_refl; intro; now left|]. constructor. repeat split; cbn; auto.
      - right. auto.
      - clear. induction (sk_meths k); cbn; constructor; auto. constructor. }
    destruct (same_answers E true fill_alike plain_number 0 0 fill_alike_ids (or_introl eq_refl) (or_introl eq_refl)
      (S f) os' _ _ _ _ AL X2) as (s2 & X3 & _). eauto.
Qed.

Lemma map_repeat' : forall A B (f : A -> B) a n, map f (repeat a n) = repeat (f a) n.
Proof. intros. induction n; cbn; congruence. Qed.
(** A mock that was just made is a new one. *)
Lemma made_new : forall f c s s' r, sexec E (S f) (OMock c) s = SOk s' r -> let m := length (s_mocks s) in
  r = id_val m /\ exists k, live (s_mocks s') m = Some k /\ sk_class k = c /\ sk_owner k = true /\ as_new s' m k = s'.
Proof.
  intros f c s s' r X. cbn [sexec sstep] in X. unfold snat, smock_new, sclass, sbind, sopt, sgets, smodify, sret in X.
  destruct (nth_error (e_classes E) c) as [d|]; [|discriminate]. destruct (class_fits d); [|discriminate]. inversion X; subst. clear X.
  split; auto. eexists. cbn. rewrite live_app, Nat.eqb_refl. split; [reflexivity|]. cbn. split; auto. split; auto.
  unfold as_new. cbn. rewrite live_app, Nat.eqb_refl. unfold sset_objs, sset_mocks, new_mock. cbn. f_equal.
  - rewrite upd_same; auto. rewrite nth_error_app2, Nat.sub_diag by lia. cbn. unfold zeroed, sfresh_data. cbn. rewrite map_repeat'. reflexivity.
  - rewrite upd_same; auto. rewrite nth_error_app2, Nat.sub_diag by lia. cbn. now rewrite repeat_length.
Qed.

Lemma made_spying : forall f c o s s' r, sexec E (S f) (OSpyMock c o) s = SOk s' r -> let m := length (s_mocks s) in
  r = id_val m /\ exists k, live (s_mocks s') m = Some k /\ sk_class k = c /\ sk_obj k = o /\ sk_owner k = false /\ as_new s' m k = s'.
Proof.
  intros f c o s s' r X. cbn [sexec sstep] in X.
  unfold snat, smock_spy, sclass, sbind, sopt, sget, sgets, sbind, smodify, sret, sput_obj, smodify in X.
  destruct (nth_error (e_classes E) c) as [d|]; [|discriminate]. destruct (live (s_objs s) o) as [x|]; [|discriminate]. cbn in X.
  destruct (nth_error (e_classes E) (so_class x)) as [dx|]; [|discriminate]. destruct (so_mock x); [discriminate|].
  destruct (class_fits d && _); [|discriminate]. cbn in X. inversion X; subst. clear X.
  split; auto. eexists. cbn. rewrite live_app, Nat.eqb_refl. split; [reflexivity|]. cbn. split; auto. split; auto. split; auto.
  unfold as_new. cbn. unfold sset_objs, sset_mocks, new_mock. cbn. f_equal.
  rewrite upd_same; auto. rewrite nth_error_app2, Nat.sub_diag by lia. cbn. now rewrite repeat_length.
Qed.

(** ** ClearInvocationHistory *)
Definition after_clear (s : sworld) (m : nat) (k : smock) (x : sobj) : sworld :=
  let s1 := sset_mocks s (upd (s_mocks s) m
              (Some (mkSmock (sk_class k) (sk_obj k) (sk_owner k) (sk_fill k) (map forget_calls (sk_meths k))))) in
  if sk_owner k then sset_objs s1 (upd (s_objs s) (sk_obj k) (Some (zeroed x))) else s1.

Lemma clear_runs : forall f s m k x, live (s_mocks s) m = Some k -> live (s_objs s) (sk_obj k) = Some x ->
  sexec E (S f) (OClear m) s = SOk (after_clear s m k x) VVoid.
Proof.
  intros f s m k x K X. cbn [sexec sstep]. unfold sunit, smock_clear.
  unfold sbind at 1. rewrite (sbind_ok _ _ _ _ _ _ _ (sget_live _ _ _ _ _ K)). unfold sbind, sput_mock, smodify, szero.
  unfold after_clear. destruct (sk_owner k); [|reflexivity].
  unfold sget, sgets, sbind, sopt. cbn. rewrite X. reflexivity.
Qed.

Lemma clear_leads : forall f m0 os s rs m k, leads (S f) m0 os s rs -> live (s_mocks s) m = Some k ->
  exists x, live (s_objs s) (sk_obj k) = Some x /\ so_mock x = Some m /\
    leads (S f) m0 (os ++ [OClear m]) (after_clear s m k x) (rs ++ [inl VVoid]).
Proof.
  intros f m0 os s rs m k L K. destruct L as (w & X & HR). destruct (R_mock _ _ _ _ HR K) as (x & d & O & M & _).
  exists x. split; auto. split; auto. eapply leads_step; [exact iter_perm|exists w; eauto|]. cbn [sanswer]. now apply clear_runs.
Qed.

Lemma live_map : forall A B (f : option A -> option B) l i, (forall x, f (Some x) <> None) -> f None = None ->
  live (map f l) i = match live l i with Some x => f (Some x) | None => None end.
Proof. intros A B f l i H N. unfold live. rewrite nth_error_map. destruct (nth_error l i) as [[x|]|]; cbn; auto. Qed.

Lemma clear_world : forall s m k x, live (s_mocks s) m = Some k -> live (s_objs s) (sk_obj k) = Some x ->
  let s' := after_clear s m k x in
  (forall e, method_at s' m e = forget_calls (method_at s m e)) /\
  (forall m', m' <> m -> live (s_mocks s') m' = live (s_mocks s) m') /\
  (forall o, o <> sk_obj k -> live (s_objs s') o = live (s_objs s) o) /\
  live (s_objs s') (sk_obj k) = Some (if sk_owner k then zeroed x else x) /\
  s_calls s' = s_calls s /\ s_mem s' = s_mem s /\ s_ctxs s' = s_ctxs s /\ s_exps s' = s_exps s /\ s_started s' = s_started s /\
  s_fctx s' = s_fctx s /\ s_log s' = s_log s.
Proof.
  intros s m k x K X. unfold after_clear. cbn zeta.
  assert (ML : forall k', live (upd (s_mocks s) m (Some k')) m = Some k') by (intro; apply live_upd_in; eapply live_lt; eauto).
  assert (ME : forall e, live (map forget_calls (sk_meths k)) e = forget_calls (live (sk_meths k) e)).
  { intro e. rewrite live_map by (cbn; congruence). now destruct (live (sk_meths k) e). }
  destruct (sk_owner k) eqn:OW; cbn; (split; [intro e; unfold method_at; cbn; rewrite ML, K; cbn; apply ME|]);
    (split; [intros m' N; apply live_upd_out; auto|]); (split; [intros o N; try apply live_upd_out; auto|]); repeat split; auto.
  apply live_upd_in. eapply live_lt; eauto.
Qed.

Lemma clear_alike : forall s m k x, live (s_mocks s) m = Some k -> live (s_objs s) (sk_obj k) = Some x ->
  (sk_owner k = true -> zeroed x = x) ->
  alike false eq (fun _ => true) 0 0 s (after_clear s m k x).
Proof.
  intros s m k x K X Z. unfold after_clear.
  assert (MK : Forall2 (opt_rel (same_mock false eq 0 0)) (s_mocks s)
    (upd (s_mocks s) m (Some (mkSmock (sk_class k) (sk_obj k) (sk_owner k) (sk_fill k) (map forget_calls (sk_meths k)))))).
  { rewrite <- (upd_same _ (s_mocks s) m (Some k)) at 1 by (now apply nth_live).
    apply Forall2_upd'; [now apply same_mocks_refl|]. constructor. repeat split; cbn; auto.
    clear. induction (sk_meths k) as [|[me|] l IH]; cbn; constructor; auto; constructor.
    repeat split; cbn; auto; [now rewrite moved_stubs_0|discriminate]. }
  destruct (sk_owner k); constructor; cbn; auto; try discriminate; try lia; intros; rewrite ?moved_0; auto; try apply same_records_refl.
  rewrite (Z eq_refl). apply upd_same. now apply nth_live.
Qed.

Lemma clear_unnoticed : forall f m0 os s rs m k os' s' rs', leads (S f) m0 os s rs -> live (s_mocks s) m = Some k ->
  (sk_owner k = true -> forall x, live (s_objs s) (sk_obj k) = Some x -> zeroed x = x) ->
  nexec_all E false (fun _ => true) 0 (S f) os' s = SOk s' rs' ->
  exists s2, leads (S f) m0 (os ++ OClear m :: os') s2 (rs ++ inl VVoid :: rs').
Proof.
  intros f m0 os s rs m k os' s' rs' L K Z X. destruct (clear_leads _ _ _ _ _ _ _ L K) as (x & XO & _ & L1).
  destruct (same_answers E false eq (fun _ => true) 0 0) with (f := S f) (os := os') (s := s) (s' := after_clear s m k x) (s1 := s') (rs := rs')
    as (s2 & X2 & _); auto.
  { intros a b t <- _. reflexivity. }
  { apply clear_alike; auto. }
  exists s2. pose proof (leads_more E iter_perm _ _ _ _ _ _ _ _ L1 X2) as Y. now rewrite <- !app_assoc in Y.
Qed.

(** ** The destructor of a mock *)
Definition after_destroy (s : sworld) (m : nat) (k : smock) (x : sobj) : sworld :=
  let s1 := sset_mocks s (upd (s_mocks s) m None) in
  sset_objs s1 (upd (s_objs s) (sk_obj k)
    (if sk_owner k then None else Some (mkSobj (so_class x) (so_data x) None))).

Lemma destroy_runs : forall f s m k x, live (s_mocks s) m = Some k -> quiet k = true -> live (s_objs s) (sk_obj k) = Some x ->
  sexec E (S f) (OMockDestroy m) s = SOk (after_destroy s m k x) VVoid.
Proof.
  intros f s m k x K Q X. cbn [sexec sstep]. unfold sunit, smock_destroy.
  unfold sbind at 1. rewrite (sbind_ok _ _ _ _ _ _ _ (sget_live _ _ _ _ _ K)).
  rewrite (sbind_ok _ _ _ _ _ _ _ (sget_live _ _ _ _ _ X)), Q. unfold sbind, smodify, after_destroy.
  destruct (sk_owner k); reflexivity.
Qed.

Lemma destroy_leads : forall f m0 os s rs m k, leads (S f) m0 os s rs -> live (s_mocks s) m = Some k -> quiet k = true ->
  exists x, live (s_objs s) (sk_obj k) = Some x /\ so_mock x = Some m /\
    leads (S f) m0 (os ++ [OMockDestroy m]) (after_destroy s m k x) (rs ++ [inl VVoid]).
Proof.
  intros f m0 os s rs m k L K Q. destruct L as (w & X & HR). destruct (R_mock _ _ _ _ HR K) as (x & d & O & M & _).
  exists x. split; auto. split; auto. eapply leads_step; [exact iter_perm|exists w; eauto|]. cbn [sanswer]. now apply destroy_runs.
Qed.

Lemma destroy_world : forall s m k x, live (s_mocks s) m = Some k -> live (s_objs s) (sk_obj k) = Some x ->
  let s' := after_destroy s m k x in
  live (s_mocks s') m = None /\
  (forall m', m' <> m -> live (s_mocks s') m' = live (s_mocks s) m') /\
  (forall o, o <> sk_obj k -> live (s_objs s') o = live (s_objs s) o) /\
  live (s_objs s') (sk_obj k) = (if sk_owner k then None else Some (mkSobj (so_class x) (so_data x) None)) /\
  s_calls s' = s_calls s /\ s_mem s' = s_mem s /\ s_ctxs s' = s_ctxs s /\ s_exps s' = s_exps s /\ s_started s' = s_started s /\
  s_fctx s' = s_fctx s /\ s_log s' = s_log s.
Proof.
  intros s m k x K X. unfold after_destroy. cbn.
  split; [apply live_upd_in; eapply live_lt; eauto|]. split; [intros; apply live_upd_out; auto|].
  split; [intros; apply live_upd_out; auto|]. split; [apply live_upd_in; eapply live_lt; eauto|]. repeat split; auto.
Qed.

(** An object that no living mock wraps runs the methods of its class. *)
Lemma unmocked_object : forall f m0 os s rs o slot args x dx, leads (S f) m0 os s rs -> live (s_objs s) o = Some x ->
  (forall m k, live (s_mocks s) m = Some k -> sk_obj k <> o) ->
  nth_error (e_classes E) (so_class x) = Some dx -> slot < cl_size dx ->
  sexec E (S f) (OCall o slot args) s = srun_prog (sexec E f) (FrStack o args) (cl_body dx slot) s.
Proof.
  intros f m0 os s rs o slot args x dx (w & X & HR) O N DX LX. eapply unwrapped; eauto.
  destruct (so_mock x) as [m|] eqn:M; auto. destruct (R_obj _ _ _ _ _ HR O M) as (k & K & Q). destruct (N m k K Q).
Qed.

(** ** Verification *)
Lemma free_made : forall news base tail s, s_ctxs s = base ++ map Some news ++ tail ->
  sfree_ctxs (rev (seq (length base) (length news))) s =
  SOk (sset_ctxs s (base ++ repeat None (length news) ++ tail)) tt.
Proof.
  intro news. induction news as [|y news IH] using rev_ind; intros base tail s C.
  - cbn in *. rewrite <- C. now destruct s.
  - rewrite app_length, Nat.add_1_r, seq_S, rev_app_distr. cbn [rev app sfree_ctxs]. rewrite map_app, <- app_assoc in C. cbn in C.
    assert (L : live (s_ctxs s) (length base + length news) = Some y).
    { unfold live. rewrite C, nth_error_app2 by lia. rewrite nth_error_app2 by (rewrite map_length; lia).
      replace (length base + length news - length base - length (map Some news)) with 0 by (rewrite map_length; lia). reflexivity. }
    unfold sctx_free. unfold sbind at 1. rewrite (sbind_ok _ _ _ _ _ _ _ (sget_live _ _ _ _ _ L)). unfold smodify.
    rewrite (IH base (None :: tail)).
    + destruct s. cbn. unfold sset_ctxs. cbn. do 2 f_equal. f_equal. clear. induction (length news); cbn; congruence.
    + cbn. rewrite C. clear.
      replace (length base + length news) with (length (base ++ map Some news) + 0) by (rewrite app_length, map_length; lia).
      rewrite !app_assoc. generalize (base ++ map Some news). intro l. induction l as [|b l IHl]; cbn; auto. now rewrite IHl.
Qed.

Lemma said_more : forall s s' t, s_mocks s' = s_mocks s -> said E s t -> said E s' t.
Proof.
  intros s s' t Q (m & e & me & M). pose proof (mentioned_at _ _ _ _ _ _ _ M) as ME. destruct M as (r & D & _).
  exists m, e, me, r. split; [eapply designates_more; eauto|]. left. split; auto. unfold method_at in *. now rewrite Q.
Qed.

Lemma looking_around : forall ts news s base body s' r, s_ctxs s = base ++ map Some news ->
  Forall (fun x => said E s (fst x)) ts -> (forall cs, always only_looked (body cs)) ->
  swith_ctxs E ts (rev (seq (length base) (length news))) body s = sanswer s' r ->
  s_ctxs s' = base ++ repeat None (length news + length ts) /\ only_looked s (sset_ctxs s' (s_ctxs s)).
Proof.
  induction ts as [|[t im] ts IH]; intros news s base body s' r C F B X; cbn [swith_ctxs] in X.
  - set (dn := rev (seq (length base) (length news))) in *. unfold sguarded, sbind in X. unfold sattempt in X at 1.
    specialize (B (rev dn) s).
    assert (Y : exists s1 r1, only_looked s s1 /\ sbind (sfree_ctxs dn) (fun _ => srethrow (r1 : val + exn)) s1 = sanswer s' r).
    { destruct (body (rev dn) s) as [s1 v|s1 x|]; [exists s1, (inl v)|exists s1, (inr x)|destruct r; discriminate]; split; auto. }
    destruct Y as (s1 & r1 & LK & Y). unfold sbind, dn in Y.
    rewrite (free_made news base [] s1) in Y by (rewrite (lo_ctxs _ _ LK), C, app_nil_r; reflexivity).
    assert (s' = sset_ctxs s1 (base ++ repeat None (length news) ++ [])) by (destruct r1, r; cbn in Y; inversion Y; reflexivity). subst s'.
    cbn. rewrite app_nil_r, Nat.add_0_r. split; auto. destruct LK. constructor; cbn; auto.
  - inversion F as [|? ? (m & e & me & M) F']; subst. cbn in M. unfold sbind, sattempt in X. rewrite (sctx_of_spec E s t im _ _ _ _ M) in X.
    set (x := mkSctx t (match im with Some i => i | None => IMDefault end) [] false) in X.
    specialize (IH (news ++ [x]) (sset_ctxs s (s_ctxs s ++ [Some x])) base body s' r).
    destruct IH as [A LK]; auto.
    + cbn. rewrite C, map_app, app_assoc. reflexivity.
    + eapply Forall_impl; [|exact F']. intros y Y. eapply said_more; [|exact Y]. reflexivity.
    + rewrite app_length, Nat.add_1_r, seq_S, rev_app_distr. cbn [rev app].
      replace (length base + length news) with (length (s_ctxs s)); auto. rewrite C, app_length, map_length. lia.
    + rewrite app_length in A. cbn in A. split; [rewrite A; do 2 f_equal; cbn; lia|].
      destruct LK. cbn in *. constructor; cbn; auto.
Qed.

Lemma looked_alike : forall w s s' n, R E w s -> only_looked s (sset_ctxs s' (s_ctxs s)) -> s_ctxs s' = s_ctxs s ++ repeat None n ->
  alike false eq (fun _ => true) (length (s_ctxs s)) n s s'.
Proof.
  intros w s s' n HR [A1 A2 A3 A4 A5 A6 A7 A8 A9] C. cbn in *. pose proof (R_numbered _ _ _ HR) as NB.
  constructor; auto; try discriminate.
  - rewrite C, app_length, repeat_length. reflexivity.
  - intro c. rewrite C. unfold moved, live. destruct (Nat.ltb_spec c (length (s_ctxs s))).
    + now rewrite nth_error_app1.
    + rewrite nth_error_app2 by lia. rewrite (proj2 (nth_error_None (s_ctxs s) c)) by lia.
      rewrite (proj2 (nth_error_None _ _)); auto. rewrite repeat_length. lia.
  - clear - A9. induction A9 as [|x y l l' (H1 & H2 & H3) H IH]; constructor; auto. repeat split; auto. discriminate.
  - rewrite A2. assert (G : forall m k e me st, live (s_mocks s) m = Some k -> live (sk_meths k) e = Some me -> In st (me_stubs me) ->
      moved_stub (length (s_ctxs s)) n st = st).
    { intros m k e me st K ME IN. destruct (NB m e me) as [_ U]; [unfold method_at; now rewrite K|].
      rewrite Forall_forall in U. destruct (U _ IN) as [L _]. unfold moved_stub, moved. rewrite (proj2 (Nat.ltb_lt _ _) L). now destruct st. }
    assert (H : forall l, (forall i k, nth_error l i = Some (Some k) -> exists m, live (s_mocks s) m = Some k) ->
      Forall2 (opt_rel (same_mock false eq (length (s_ctxs s)) n)) l l).
    { intro l. induction l as [|[k|] l IH]; intro H; constructor.
      - constructor. repeat split; auto. destruct (H 0 k eq_refl) as [m K].
        assert (H2 : forall ms, (forall i me, nth_error ms i = Some (Some me) -> exists e, live (sk_meths k) e = Some me) ->
          Forall2 (opt_rel (same_method false (length (s_ctxs s)) n)) ms ms).
        { intro ms. induction ms as [|[me|] ms IHm]; intro HM; constructor.
          - constructor. repeat split; auto. destruct (HM 0 me eq_refl) as [e ME].
            assert (Q : forall ss, (forall st, In st ss -> In st (me_stubs me)) -> ss = map (moved_stub (length (s_ctxs s)) n) ss).
            { intro ss. induction ss as [|st ss IHs]; intro I; cbn; auto. rewrite (G _ _ _ _ st K ME) by (apply I; now left).
              f_equal. apply IHs. intros. apply I. now right. }
            apply Q. auto.
          - apply IHm. intros i me0 N. apply (HM (S i) me0 N).
          - constructor.
          - apply IHm. intros i me0 N. apply (HM (S i) me0 N). }
        apply H2. intros i me N. exists i. unfold live. now rewrite N.
      - apply IH. intros i k0 N. apply (H (S i) k0 N).
      - constructor.
      - apply IH. intros i k0 N. apply (H (S i) k0 N). }
    apply H. intros i k N. exists i. unfold live. now rewrite N.
Qed.

Lemma verification_unnoticed : forall f m0 os s rs ts st s1 r os' s' rs', leads (S f) m0 os s rs -> verifies st = true ->
  Forall (fun x => said E s (fst x)) ts -> sexec E (S f) (OStmt ts st) s = sanswer s1 r ->
  nexec_all E false (fun _ => true) (length ts) (S f) os' s = SOk s' rs' ->
  exists s2, leads (S f) m0 (os ++ OStmt ts st :: os') s2 (rs ++ r :: rs').
Proof.
  intros f m0 os s rs ts st s1 r os' s' rs' L V F X Y.
  pose proof (leads_step E iter_perm _ _ _ _ _ _ _ _ L X) as L1. destruct L as (w & XW & HR).
  cbn [sexec sstep] in X. destruct (looking_around ts [] s (s_ctxs s) (srun_stmt E st) s1 r) as [C LK]; auto.
  { cbn. now rewrite app_nil_r. }
  { intro cs. now apply looks_stmt. }
  pose proof (looked_alike w s s1 (length ts) HR LK C) as AL.
  destruct (same_answers E false eq (fun _ => true) (length (s_ctxs s)) (length ts)) with (f := S f) (os := os') (s := s) (s' := s1) (s1 := s') (rs := rs')
    as (s2 & X2 & _); auto.
  { intros a b t <- _. reflexivity. }
  exists s2. pose proof (leads_more E iter_perm _ _ _ _ _ _ _ _ L1 X2) as Z. now rewrite <- !app_assoc in Z.
Qed.

Lemma objects_unnoticed : forall f m0 os s rs o s1 r os' s' rs', leads (S f) m0 os s rs -> verifies_op o = true ->
  sexec E (S f) o s = sanswer s1 r -> nexec_all E false (fun _ => true) 0 (S f) os' s = SOk s' rs' ->
  exists s2, leads (S f) m0 (os ++ o :: os') s2 (rs ++ r :: rs').
Proof.
  intros f m0 os s rs o s1 r os' s' rs' L V X Y.
  pose proof (leads_step E iter_perm _ _ _ _ _ _ _ _ L X) as L1. destruct L as (w & XW & HR).
  pose proof (looks_op E f o V s) as LK. rewrite X in LK.
  assert (LK' : only_looked s s1) by (destruct r; exact LK). clear LK.
  assert (AL : alike false eq (fun _ => true) (length (s_ctxs s)) 0 s s1).
  { apply (looked_alike w); auto.
    - destruct LK'. constructor; cbn; auto.
    - rewrite (lo_ctxs _ _ LK'), app_nil_r. reflexivity. }
  destruct (same_answers E false eq (fun _ => true) (length (s_ctxs s)) 0) with (f := S f) (os := os') (s := s) (s' := s1) (s1 := s') (rs := rs')
    as (s2 & X2 & _); auto.
  { intros a b t <- _. reflexivity. }
  exists s2. pose proof (leads_more E iter_perm _ _ _ _ _ _ _ _ L1 X2) as Z. now rewrite <- !app_assoc in Z.
Qed.

(** ** As theorems about whole programs *)
Lemma ran_leads : forall f m0 os s rs o s' r, sexec_all E f os (sinit m0) = SOk s rs -> sexec E f o s = sanswer s' r ->
  leads f m0 (os ++ [o]) s' (rs ++ [r]).
Proof. intros. eapply leads_step; [exact iter_perm|apply answered_leads; [exact iter_perm|eauto]|eauto]. Qed.

Lemma program_reset : forall f m0 os s rs m k, sexec_all E (S f) os (sinit m0) = SOk s rs -> live (s_mocks s) m = Some k ->
  exists s', leads (S f) m0 (os ++ [OReset m]) s' (rs ++ [inl VVoid]) /\
    (forall e, method_at s' m e = None /\ history_at s' m e = []) /\
    (exists k', live (s_mocks s') m = Some k' /\ sk_class k' = sk_class k /\ sk_obj k' = sk_obj k /\ sk_owner k' = sk_owner k) /\
    (forall m', m' <> m -> live (s_mocks s') m' = live (s_mocks s) m' /\ forall e, history_at s' m' e = history_at s m' e) /\
    (forall o, o <> sk_obj k -> live (s_objs s') o = live (s_objs s) o).
Proof.
  intros f m0 os s rs m k X K. pose proof (answered_leads E iter_perm _ _ _ _ _ X) as L.
  destruct (reset_leads _ _ _ _ _ _ _ L K (at_rest E _ _ _ _ _ X _ _ K)) as (x & XO & _ & L1).
  exists (after_reset s m k x). split; auto. destruct (reset_world _ _ _ _ K XO) as (A & B & C & D & _ & CL & _).
  split; [intro e; rewrite (A e); unfold history_at; now rewrite (A e)|]. split; auto. split; auto.
  intros m' N. specialize (C m' N). split; auto. intro e. unfold history_at, method_at, history. now rewrite C, CL.
Qed.

Lemma program_unmocked : forall f m0 os s rs o slot m args, leads (S f) m0 os s rs -> unmocked E s o slot m -> room s ->
  listeners_quiet E s (EvUnexpected Unmocked None []) ->
  exists s', leads (S f) m0 (os ++ [OCall o slot args]) s' (rs ++ [inr (complaint E s (EvUnexpected Unmocked None []))]) /\
    s_mocks s' = s_mocks s /\ s_calls s' = s_calls s.
Proof.
  intros f m0 os s rs o slot m args L U RM LQ. eexists. split; [eapply leads_step; [exact iter_perm|exact L|]|].
  - cbn [sanswer]. now apply unsaid_unmocked with (m := m).
  - split; reflexivity.
Qed.

Lemma program_destructor : forall f m0 os s rs o slot m args x k d, leads (S f) m0 os s rs ->
  live (s_objs s) o = Some x -> so_mock x = Some m ->
  live (s_mocks s) m = Some k -> sk_owner k = true -> nth_error (e_classes E) (sk_class k) = Some d -> slot < cl_size d ->
  is_dtor d slot = true -> method_at s m (entry_method d slot) = None ->
  leads (S f) m0 (os ++ [OCall o slot args]) s (rs ++ [inl VVoid]).
Proof. intros. eapply leads_step; [exact iter_perm|eauto|]. cbn [sanswer]. eapply unsaid_destructor; eauto. Qed.

Lemma program_original : forall f m0 os s rs o slot m args x k d dx s' r, leads (S f) m0 os s rs ->
  live (s_objs s) o = Some x -> so_mock x = Some m ->
  live (s_mocks s) m = Some k -> sk_owner k = false -> nth_error (e_classes E) (sk_class k) = Some d -> slot < cl_size d ->
  nth_error (e_classes E) (so_class x) = Some dx -> slot < cl_size dx -> method_at s m (entry_method d slot) = None ->
  srun_prog (sexec E f) (FrStack o args) (cl_body dx slot) s = sanswer s' r ->
  leads (S f) m0 (os ++ [OCall o slot args]) s' (rs ++ [r]).
Proof. intros. eapply leads_step; [exact iter_perm|eauto|]. erewrite unsaid_original; eauto. Qed.

Lemma program_like_new : forall f m0 os s rs m k os' s' rs', sexec_all E (S f) os (sinit m0) = SOk s rs ->
  live (s_mocks s) m = Some k ->
  (forall c y, live (s_ctxs s) c = Some y -> plain_number (sx_target y) = true) ->
  nexec_all E true plain_number 0 (S f) os' (as_new s m k) = SOk s' rs' ->
  exists s2, leads (S f) m0 (os ++ OReset m :: os') s2 (rs ++ inl VVoid :: rs').
Proof.
  intros f m0 os s rs m k os' s' rs' X K OK X2. eapply reset_like_new; eauto.
  - now apply answered_leads.
  - eapply at_rest; eauto.
Qed.

Lemma program_clear : forall f m0 os s rs m k, leads (S f) m0 os s rs -> live (s_mocks s) m = Some k ->
  exists s', leads (S f) m0 (os ++ [OClear m]) s' (rs ++ [inl VVoid]) /\
    (forall e, history_at s' m e = []) /\
    (forall e me, method_at s m e = Some me ->
       exists me', method_at s' m e = Some me' /\ me_stubs me' = me_stubs me /\ me_no me' = me_no me /\
         me_id me' = me_id me /\ me_ret me' = me_ret me /\ me_bypass me' = me_bypass me) /\
    (forall e, method_at s m e = None -> method_at s' m e = None) /\
    (forall m', m' <> m -> live (s_mocks s') m' = live (s_mocks s) m' /\ forall e, history_at s' m' e = history_at s m' e) /\
    (forall o, o <> sk_obj k -> live (s_objs s') o = live (s_objs s) o).
Proof.
  intros f m0 os s rs m k L K. destruct (clear_leads _ _ _ _ _ _ _ L K) as (x & XO & _ & L1).
  exists (after_clear s m k x). split; auto. destruct (clear_world _ _ _ _ K XO) as (A & C & D & _ & CL & _).
  split; [intro e; unfold history_at; rewrite (A e); now destruct (method_at s m e)|].
  split; [intros e me ME; rewrite (A e), ME; eexists; split; [reflexivity|]; repeat split; auto|].
  split; [intros e ME; now rewrite (A e), ME|]. split; auto.
  intros m' N. specialize (C m' N). split; auto. intro e. unfold history_at, method_at, history. now rewrite C, CL.
Qed.

Lemma program_destroy : forall f m0 os s rs m k, sexec_all E (S f) os (sinit m0) = SOk s rs -> live (s_mocks s) m = Some k ->
  sk_owner k = false ->
  exists s' x, leads (S f) m0 (os ++ [OMockDestroy m]) s' (rs ++ [inl VVoid]) /\
    live (s_objs s) (sk_obj k) = Some x /\ live (s_objs s') (sk_obj k) = Some (mkSobj (so_class x) (so_data x) None) /\
    (forall o, o <> sk_obj k -> live (s_objs s') o = live (s_objs s) o) /\
    (forall m', m' <> m -> live (s_mocks s') m' = live (s_mocks s) m') /\
    (forall m' k', live (s_mocks s') m' = Some k' -> sk_obj k' <> sk_obj k).
Proof.
  intros f m0 os s rs m k X K OW. pose proof (answered_leads E iter_perm _ _ _ _ _ X) as L.
  destruct (destroy_leads _ _ _ _ _ _ _ L K (at_rest E _ _ _ _ _ X _ _ K)) as (x & XO & _ & L1).
  exists (after_destroy s m k x), x. split; auto. split; auto. destruct (destroy_world _ _ _ _ K XO) as (A & B & C & D & _).
  rewrite OW in D. split; auto. split; auto. split; auto. intros m' k' K' Q. destruct L1 as (w & _ & HR).
  destruct (R_mock _ _ _ _ HR K') as (x' & d' & O' & M' & _). rewrite Q, D in O'. inversion O'; subst. discriminate.
Qed.

Lemma program_plain_object : forall f m0 os s rs o slot args x dx s' r, leads (S f) m0 os s rs -> live (s_objs s) o = Some x ->
  (forall m k, live (s_mocks s) m = Some k -> sk_obj k <> o) ->
  nth_error (e_classes E) (so_class x) = Some dx -> slot < cl_size dx ->
  srun_prog (sexec E f) (FrStack o args) (cl_body dx slot) s = sanswer s' r ->
  leads (S f) m0 (os ++ [OCall o slot args]) s' (rs ++ [r]).
Proof.
  intros f m0 os s rs o slot args x dx s' r L O N DX LX X. eapply leads_step; [exact iter_perm|eauto|].
  erewrite unmocked_object; eauto.
Qed.

Lemma class_stays : forall f os s s' rs o x x', sexec_all E f os s = SOk s' rs -> live (s_objs s) o = Some x ->
  live (s_objs s') o = Some x' -> so_class x' = so_class x.
Proof.
  intros f os s s' rs o x x' X O O'. pose proof (stay_exec_all E f os s) as H. rewrite X in H.
  destruct H as [_ H]. destruct (H o x' (live_lt _ _ _ _ O) O') as (x1 & O1 & Q). congruence.
Qed.
End S.
