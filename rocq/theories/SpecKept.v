(** What no operation of the abstract machine takes away: a method that stays mocked
    keeps its stubbings, newer ones come before them, and each advances only by being
    played; a running action or spied original is never lost. *)
From Coq Require Import Bool ZArith Lia List Permutation.
From Verif Require Import Base CInt Values ArgMatchers InvMatchers ActionSeq Sequences MatchAnalysis
  Proxy Events Expectation ReturnSet Syntax World Spec_World WorldRel WorldSimA WorldSimB WorldSimE Spec_View SpecFacts.
Import ListNotations.
Open Scope nat_scope.

Definition resting (me : method) : bool := quiet_method (Some me).

Definition holds (s s' : sworld) : Prop :=
  s_bound s <= s_bound s' /\
  (forall m e me', method_at s' m e = Some me' ->
     (s_bound s <= me_no me' /\ resting me' = true) \/ exists me, method_at s m e = Some me /\ grown me me') /\
  (forall m e me, method_at s m e = Some me -> resting me = false ->
     exists me', method_at s' m e = Some me' /\ grown me me').

(** The stubbings of a method have different numbers, which are numbers of used
    expressions. *)
Definition used (s : sworld) (st : stub) : Prop :=
  st_no st < length (s_ctxs s) /\ ~ unused (s_ctxs s) (st_no st).
Definition numbered (s : sworld) : Prop :=
  forall m e me, method_at s m e = Some me -> NoDup (map st_no (me_stubs me)) /\ Forall (used s) (me_stubs me).

Definition kept (s s' : sworld) : Prop := numbered s -> numbered s' /\ holds s s'.

(** ** Laws *)
Lemma played_busy : forall st, st_busy (played st) = st_busy st.
Proof. intros st. unfold played. now destruct (st_todo st). Qed.

Lemma iter_busy : forall n st, st_busy (times_played n st) = st_busy st.
Proof. induction n; intro st; cbn; auto. now rewrite played_busy. Qed.

Lemma advanced_refl : forall st, advanced st st.
Proof. intro st. exists 0. split; auto. Qed.

Lemma iter_add : forall n n' st, times_played (n' + n) st = times_played n' (times_played n st).
Proof. induction n'; intro; cbn; auto. now rewrite IHn'. Qed.

Lemma advanced_trans : forall a b c, advanced a b -> advanced b c -> advanced a c.
Proof.
  intros a b c (n & -> & B) (n' & -> & B'). exists (n' + n). rewrite iter_add. split; auto.
  intro Q. rewrite B in * by auto. cbn in B'. rewrite B' by auto. reflexivity.
Qed.

Lemma advanced_busy : forall a b, advanced a b -> st_busy b = st_busy a.
Proof. intros a b (n & -> & _). apply iter_busy. Qed.

Lemma Forall2_adv_refl : forall l, Forall2 advanced l l.
Proof. induction l; constructor; auto. apply advanced_refl. Qed.

Lemma Forall2_adv_trans : forall a b c, Forall2 advanced a b -> Forall2 advanced b c -> Forall2 advanced a c.
Proof.
  intros a b c H. revert c. induction H; intros c Q; inversion Q; subst; constructor; auto.
  eapply advanced_trans; eauto.
Qed.

Lemma Forall2_adv_busy : forall a b, Forall2 advanced a b -> map st_busy b = map st_busy a.
Proof. intros a b H. induction H; cbn; auto. f_equal; auto. now apply advanced_busy. Qed.

Lemma idle_adv : forall a b, Forall2 advanced a b -> Forall (fun st => st_busy st = false) a -> Forall (fun st => st_busy st = false) b.
Proof.
  intros a b H. induction H; intro F; inversion F; subst; constructor; auto.
  now rewrite (advanced_busy _ _ H).
Qed.

Lemma grown_refl : forall me, grown me me.
Proof. intro me. repeat split; auto. exists [], (me_stubs me). repeat split; auto. apply Forall2_adv_refl. Qed.

Lemma grown_trans : forall a b c, grown a b -> grown b c -> grown a c.
Proof.
  intros a b c (A1 & A2 & A3 & A4 & n & o & A5 & A6 & A7) (B1 & B2 & B3 & B4 & n' & o' & B5 & B6 & B7).
  repeat split; try congruence. rewrite A5 in B6. apply Forall2_app_inv_l in B6.
  destruct B6 as (l1 & l2 & F1 & F2 & ->). exists (n' ++ l1), l2. rewrite B5, app_assoc. repeat split; auto.
  - eapply Forall2_adv_trans; eauto.
  - apply Forall_app. split; auto. eapply idle_adv; eauto.
Qed.

Lemma forallb_busy : forall l, forallb (fun st => negb (st_busy st)) l = forallb negb (map st_busy l).
Proof. induction l; cbn; auto. now rewrite IHl. Qed.

Lemma idle_forallb : forall l, Forall (fun st => st_busy st = false) l -> forallb negb (map st_busy l) = true.
Proof. intros l H. induction H; cbn; auto. now rewrite H. Qed.

Lemma grown_resting : forall a b, grown a b -> resting b = resting a.
Proof.
  intros a b (A1 & A2 & A3 & A4 & n & o & A5 & A6 & A7). unfold resting, quiet_method.
  rewrite A4, A5, forallb_app, !forallb_busy, (idle_forallb _ A7), (Forall2_adv_busy _ _ A6). reflexivity.
Qed.

Lemma holds_refl : forall s, holds s s.
Proof.
  intro s. split; auto. split; intros m e me H; [right|intros _]; exists me; split; auto; apply grown_refl.
Qed.

Lemma kept_refl : forall s, kept s s.
Proof. intros s N. split; auto. apply holds_refl. Qed.

Lemma holds_trans : forall a b c, holds a b -> holds b c -> holds a c.
Proof.
  intros a b c (A1 & A2 & A3) (B1 & B2 & B3). split; [lia|]. split.
  - intros m e me'' H. destruct (B2 _ _ _ H) as [[L Q]|(me' & M' & G')]; [left; split; auto; lia|].
    destruct (A2 _ _ _ M') as [[L Q]|(me & M & G)].
    + left. rewrite (grown_resting _ _ G'). destruct G' as (N & _). split; auto. lia.
    + right. exists me. split; auto. eapply grown_trans; eauto.
  - intros m e me H Q. destruct (A3 _ _ _ H Q) as (me' & M' & G').
    destruct (B3 _ _ _ M') as (me'' & M'' & G''); [now rewrite (grown_resting _ _ G')|].
    exists me''. split; auto. eapply grown_trans; eauto.
Qed.

Lemma kept_trans : forall a b c, kept a b -> kept b c -> kept a c.
Proof.
  intros a b c A B N. destruct (A N) as [N' H]. destruct (B N') as [N'' H']. split; auto. eapply holds_trans; eauto.
Qed.

Lemma holds_same : forall s s', s_mocks s' = s_mocks s -> s_bound s' = s_bound s -> holds s s'.
Proof. intros s s' M B. unfold holds, method_at. rewrite M, B. apply (holds_refl s). Qed.

(** Expressions that were used stay so. *)
Definition ctxs_later (s s' : sworld) : Prop :=
  length (s_ctxs s) <= length (s_ctxs s') /\
  forall c, c < length (s_ctxs s) -> unused (s_ctxs s') c -> unused (s_ctxs s) c.

Lemma ctxs_later_refl : forall s, ctxs_later s s.
Proof. intro s. split; auto. Qed.

Lemma used_later : forall s s' st, ctxs_later s s' -> used s st -> used s' st.
Proof. intros s s' st (L & U) (A & B). split; [lia|]. intro X. apply B, U; auto. Qed.

Lemma used_later_all : forall s s' l, ctxs_later s s' -> Forall (used s) l -> Forall (used s') l.
Proof. intros s s' l L. apply Forall_impl. intro. now apply used_later. Qed.

Lemma kept_ctxs : forall s s', s_mocks s' = s_mocks s -> s_bound s' = s_bound s -> ctxs_later s s' -> kept s s'.
Proof.
  intros s s' M B L N. split; [|now apply holds_same].
  intros m e me H. unfold method_at in H. rewrite M in H. destruct (N m e me H) as [D F]. split; auto.
  eapply used_later_all; eauto.
Qed.

Lemma kept_same : forall s s', s_mocks s' = s_mocks s -> s_bound s' = s_bound s -> s_ctxs s' = s_ctxs s -> kept s s'.
Proof. intros s s' M B C. apply kept_ctxs; auto. unfold ctxs_later. rewrite C. auto. Qed.

(** ** Computations *)
Definition keeps {A} (m : SM A) : Prop := forall s,
  match m s with SOk s' _ => kept s s' | SExn s' _ => kept s s' | SUnspec => True end.

Lemma keeps_ret : forall A (a : A), keeps (sret a).
Proof. intros A a s. apply kept_refl. Qed.
Lemma keeps_throw : forall A e, keeps (@sthrow A e).
Proof. intros A a s. apply kept_refl. Qed.
Lemma keeps_unspec : forall A, keeps (@unspec A).
Proof. intros A s. exact I. Qed.
Lemma keeps_gets : forall A (f : sworld -> A), keeps (sgets f).
Proof. intros A f s. apply kept_refl. Qed.
Lemma keeps_lift : forall A (o : outcome A), keeps (slift o).
Proof. intros A o s. unfold slift. destruct o; auto. apply kept_refl. Qed.
Lemma keeps_opt : forall A (o : option A), keeps (sopt o).
Proof. intros A o s. destruct o; cbn; auto. apply kept_refl. Qed.
Lemma keeps_sget : forall A (f : sworld -> list (option A)) i, keeps (sget f i).
Proof. intros A f i s. unfold sget, sbind, sgets. destruct (live (f s) i); cbn; auto. apply kept_refl. Qed.
Lemma keeps_class : forall E c, keeps (sclass E c).
Proof. intros. apply keeps_opt. Qed.
Lemma keeps_bind : forall A B (m : SM A) (k : A -> SM B), keeps m -> (forall a, keeps (k a)) -> keeps (sbind m k).
Proof.
  intros A B m k M K s. unfold sbind. specialize (M s). destruct (m s) as [s' a|s' e|]; auto.
  specialize (K a s'). destruct (k a s'); auto; eapply kept_trans; eauto.
Qed.
Lemma keeps_attempt : forall A (m : SM A), keeps m -> keeps (sattempt m).
Proof. intros A m M s. unfold sattempt. specialize (M s). destruct (m s); auto. Qed.
Lemma keeps_rethrow : forall A (r : A + exn), keeps (srethrow r).
Proof. intros A [] s; apply kept_refl. Qed.
Lemma keeps_guarded : forall A (m : SM A) f, keeps m -> keeps f -> keeps (sguarded m f).
Proof.
  intros. unfold sguarded. apply keeps_bind; [now apply keeps_attempt|]. intro. apply keeps_bind; auto. intro. apply keeps_rethrow.
Qed.
Lemma keeps_modify : forall f, (forall s, s_mocks (f s) = s_mocks s) -> (forall s, s_bound (f s) = s_bound s) ->
  (forall s, s_ctxs (f s) = s_ctxs s) -> keeps (smodify f).
Proof. intros f M B C s. apply kept_same; auto. Qed.

Ltac kp := repeat match goal with
  | |- keeps (sret _) => apply keeps_ret
  | |- keeps (sthrow _) => apply keeps_throw
  | |- keeps unspec => apply keeps_unspec
  | |- keeps (sgets _) => apply keeps_gets
  | |- keeps (slift _) => apply keeps_lift
  | |- keeps (sopt _) => apply keeps_opt
  | |- keeps (sget _ _) => apply keeps_sget
  | |- keeps (sclass _ _) => apply keeps_class
  | |- keeps (srethrow _) => apply keeps_rethrow
  | |- keeps (sbind _ _) => apply keeps_bind; [|intro]
  | |- keeps (sattempt _) => apply keeps_attempt
  | |- keeps (sguarded _ _) => apply keeps_guarded
  | |- keeps (smodify _) => apply keeps_modify; intro; reflexivity
  | |- keeps (if ?b then _ else _) => destruct b
  | |- keeps (match ?b with _ => _ end) => destruct b
  | |- _ => assumption
  end.

Ltac inner H := repeat match type of H with
  | context[match ?x with _ => _ end] =>
      lazymatch x with context[match _ with _ => _ end] => fail | _ => destruct x; try discriminate end
  end.

Section S.
Variable E : env.

Lemma holds_put : forall s m e me me', method_at s m e = Some me -> grown me me' -> holds s (put_method s m e me').
Proof.
  intros s m e me me' M G. split; [unfold put_method; destruct (live (s_mocks s) m); cbn; auto|].
  split; intros m' e' x H.
  - destruct (Nat.eq_dec m m') as [<-|N]; [destruct (Nat.eq_dec e e') as [<-|N]|].
    + rewrite (method_put _ _ _ _ _ M) in H. inversion H; subst. eauto.
    + rewrite method_put_other in H by congruence. right. exists x. split; auto. apply grown_refl.
    + rewrite method_put_other in H by congruence. right. exists x. split; auto. apply grown_refl.
  - intros _. destruct (Nat.eq_dec m m') as [<-|N]; [destruct (Nat.eq_dec e e') as [<-|N]|].
    + rewrite M in H. inversion H; subst. exists me'. split; auto. eapply method_put; eauto.
    + exists x. rewrite method_put_other by congruence. split; auto. apply grown_refl.
    + exists x. rewrite method_put_other by congruence. split; auto. apply grown_refl.
Qed.

Lemma put_ctxs : forall s m e me, s_ctxs (put_method s m e me) = s_ctxs s.
Proof. intros. unfold put_method. now destruct (live (s_mocks s) m). Qed.

Lemma numbered_put : forall s m e me me', numbered s -> method_at s m e = Some me ->
  NoDup (map st_no (me_stubs me')) -> Forall (used s) (me_stubs me') -> numbered (put_method s m e me').
Proof.
  intros s m e me me' N M D F m' e' x H. unfold used. rewrite put_ctxs.
  destruct (Nat.eq_dec m m') as [<-|NM]; [destruct (Nat.eq_dec e e') as [<-|NM]|].
  - rewrite (method_put _ _ _ _ _ M) in H. inversion H; subst. auto.
  - rewrite method_put_other in H by congruence. eapply N; eauto.
  - rewrite method_put_other in H by congruence. eapply N; eauto.
Qed.

(** Other numbers stay. *)
Lemma kept_put : forall s m e me me', method_at s m e = Some me -> grown me me' ->
  me_stubs me' = me_stubs me -> kept s (put_method s m e me').
Proof.
  intros s m e me me' M G Q N. split; [|eapply holds_put; eauto].
  destruct (N _ _ _ M). eapply numbered_put; eauto; rewrite Q; auto.
Qed.

Lemma smethod_cases : forall m e s, (exists me, smethod m e s = SOk s me /\ method_at s m e = Some me) \/ smethod m e s = SUnspec.
Proof.
  intros m e s. unfold smethod, sbind, sget, sgets, method_at, sbind. destruct (live (s_mocks s) m) as [k|]; cbn; [|now right].
  destruct (live (sk_meths k) e) as [me|]; cbn; [left; exists me; auto|now right].
Qed.

Lemma keeps_smethod : forall m e, keeps (smethod m e).
Proof. intros. unfold smethod. kp. Qed.

Lemma keeps_mention : forall t, keeps (smention E t).
Proof.
  intros t s. unfold smention.
  assert (T : keeps (starget E t)).
  { unfold starget. kp. }
  unfold sbind at 1. pose proof (T s) as Ts. destruct (starget E t s) as [s0 [[[m slot] id] r]|s0 x|] eqn:Q; auto.
  assert (s0 = s).
  { clear Ts. cbv [starget sbind sget sgets sclass sopt sret sthrow unspec] in Q.
    inner Q;
    inversion Q; auto. }
  subst s0. clear Ts Q.
  unfold sbind at 1. unfold sget, sbind, sgets, sopt.
  destruct (live (s_mocks s) m) as [k|] eqn:K; cbn; auto.
  destruct (nth_error (sk_meths k) slot) as [[me|]|] eqn:N; cbn; [apply kept_refl| |exact I].
  destruct (id_free k id && (Z.of_nat (s_bound s) + 1 <? 4294967296)%Z); cbn; auto.
  unfold sset_method, sbind, sget, sgets, sbind, sopt. cbn. rewrite K. cbn.
  set (me := mkMethod (s_bound s) id r [] [] false).
  assert (EQ : forall m' e', method_at (sset_mocks (sset_bound s (S (s_bound s)))
      (upd (s_mocks s) m (Some (mkSmock (sk_class k) (sk_obj k) (sk_owner k) (sk_fill k) (upd (sk_meths k) slot (Some me)))))) m' e' =
      if Nat.eqb m m' && Nat.eqb slot e' then Some me else method_at s m' e').
  { intros m' e'. unfold method_at. cbn. destruct (Nat.eqb_spec m m') as [<-|NM].
    - rewrite live_upd_in by (eapply live_lt; eauto). rewrite K. cbn.
      destruct (Nat.eqb_spec slot e') as [<-|NE]; cbn.
      + apply live_upd_in. apply nth_error_Some. congruence.
      + now apply live_upd_out.
    - now rewrite live_upd_out. }
  intro NB. split.
  { intros m' e' x. rewrite EQ. intro H. destruct (Nat.eqb m m' && Nat.eqb slot e'); [inversion H; subst; cbn; split; constructor|].
    exact (NB _ _ _ H). }
  split; [cbn; lia|]. split; intros m' e' x; rewrite EQ; intro H.
  - destruct (Nat.eqb m m' && Nat.eqb slot e'); [inversion H; subst; left; cbn; auto|].
    right. exists x. split; auto. apply grown_refl.
  - intros _. exists x. split; [|apply grown_refl].
    destruct (Nat.eqb_spec m m') as [<-|NM]; auto. destruct (Nat.eqb_spec slot e') as [<-|NE]; auto.
    exfalso. unfold method_at in H. rewrite K in H. unfold live in H. rewrite N in H. discriminate.
Qed.

Lemma keeps_report : forall e, keeps (sreport E e).
Proof. intro e. unfold sreport. kp. Qed.
Lemma keeps_start : keeps sstart.
Proof. unfold sstart. kp. Qed.
Lemma keeps_unexpected : forall t n args, keeps (sunexpected E t n args).
Proof. intros. unfold sunexpected. kp; apply keeps_report. Qed.
Lemma keeps_default : forall r, keeps (sdefault r).
Proof. intros []; cbn; kp. Qed.
Lemma keeps_get_call : forall i, keeps (sget_call i).
Proof. intros. unfold sget_call. kp. Qed.
Lemma keeps_put_args : forall i c l, keeps (sput_args i c l).
Proof. intros. unfold sput_args. kp. Qed.
Lemma keeps_put_obj : forall i c, keeps (sput_obj i c).
Proof. intros. unfold sput_obj. kp. Qed.
Lemma keeps_put_exp : forall i c, keeps (sput_exp i c).
Proof. intros. unfold sput_exp. kp. Qed.
Lemma keeps_find : forall l args, keeps (sfind l args).
Proof. induction l; intros args; cbn [sfind]; kp; try apply IHl. Qed.

(** *** Mocks *)
Lemma keeps_mock_new : forall c, keeps (smock_new E c).
Proof.
  intros c. unfold smock_new. kp. intro s. unfold smodify.
  assert (EQ : forall m e, method_at (sset_mocks s (s_mocks s ++ [Some (mkSmock c (length a0) true int_max (repeat None (cl_size a)))])) m e = method_at s m e).
  { intros m e. unfold method_at. cbn. rewrite live_app. destruct (Nat.eqb_spec m (length (s_mocks s))) as [->|N]; auto.
    cbn. rewrite live_repeat_none. unfold live. rewrite (proj2 (nth_error_None (s_mocks s) (length (s_mocks s)))) by lia. reflexivity. }
  intro NB. split; [intros m e me H; rewrite EQ in H; exact (NB _ _ _ H)|]. split; [cbn; auto|].
  split; intros m e me H.
  - rewrite EQ in H. right. exists me. split; auto. apply grown_refl.
  - intros _. exists me. rewrite EQ. split; auto. apply grown_refl.
Qed.

Lemma keeps_mock_spy : forall c o, keeps (smock_spy E c o).
Proof.
  intros c o. unfold smock_spy. kp; try apply keeps_put_obj. intro s. unfold smodify.
  assert (EQ : forall m e, method_at (sset_mocks s (s_mocks s ++ [Some (mkSmock c o false int_max (repeat None (cl_size a)))])) m e = method_at s m e).
  { intros m e. unfold method_at. cbn. rewrite live_app. destruct (Nat.eqb_spec m (length (s_mocks s))) as [->|N]; auto.
    cbn. rewrite live_repeat_none. unfold live. rewrite (proj2 (nth_error_None (s_mocks s) (length (s_mocks s)))) by lia. reflexivity. }
  intro NB. split; [intros m e me H; rewrite EQ in H; exact (NB _ _ _ H)|]. split; [cbn; auto|].
  split; intros m e me H.
  - rewrite EQ in H. right. exists me. split; auto. apply grown_refl.
  - intros _. exists me. rewrite EQ. split; auto. apply grown_refl.
Qed.

Lemma keeps_zero : forall k, keeps (szero k).
Proof. intros. unfold szero. kp; try apply keeps_put_obj. Qed.

Lemma quiet_resting : forall k e me, quiet k = true -> live (sk_meths k) e = Some me -> resting me = true.
Proof.
  intros k e me Q L. unfold quiet in Q. rewrite forallb_forall in Q. apply (Q (Some me)).
  apply nth_live in L. now apply nth_error_In in L.
Qed.

(** A mock whose methods all rest loses them. *)
Lemma kept_lose : forall s m k x, live (s_mocks s) m = Some k -> quiet k = true ->
  (forall k', x = Some k' -> forall e, live (sk_meths k') e = None) -> kept s (sset_mocks s (upd (s_mocks s) m x)).
Proof.
  intros s m k x K Q X NB.
  assert (EQ : forall m' e' me, method_at (sset_mocks s (upd (s_mocks s) m x)) m' e' = Some me -> method_at s m' e' = Some me).
  { intros m' e' me H. unfold method_at in *. cbn in H. destruct (Nat.eq_dec m m') as [<-|N].
    + rewrite live_upd_in in H by (eapply live_lt; eauto). destruct x as [k'|]; [|discriminate].
      rewrite (X _ eq_refl) in H. discriminate.
    + rewrite live_upd_out in H by auto. exact H. }
  split; [intros m' e' me H; exact (NB _ _ _ (EQ _ _ _ H))|]. split; [cbn; auto|].
  split; intros m' e' me H.
  - right. exists me. split; [|apply grown_refl]. auto.
  - intro RS. unfold method_at in *. cbn. destruct (Nat.eq_dec m m') as [<-|N].
    + rewrite K in H. rewrite (quiet_resting _ _ _ Q H) in RS. discriminate.
    + rewrite live_upd_out by auto. exists me. split; auto. apply grown_refl.
Qed.

Lemma keeps_mock_reset : forall m, keeps (smock_reset m).
Proof.
  intros m s. unfold smock_reset, sbind at 1, sget, sbind at 1, sgets, sopt.
  destruct (live (s_mocks s) m) as [k|] eqn:K; cbn; auto.
  destruct (quiet k) eqn:Q; cbn; auto. unfold sbind, sput_mock, smodify.
  set (s1 := sset_mocks _ _).
  assert (K1 : kept s s1).
  { eapply kept_lose; eauto. intros k' X e. inversion X; subst. cbn. rewrite live_map by auto. now destruct (live (sk_meths k) e). }
  pose proof (keeps_zero k s1) as Z. destruct (szero k s1); auto; eapply kept_trans; eauto.
Qed.

Lemma keeps_mock_clear : forall m, keeps (smock_clear m).
Proof.
  intros m s. unfold smock_clear, sbind at 1, sget, sbind at 1, sgets, sopt.
  destruct (live (s_mocks s) m) as [k|] eqn:K; cbn; auto. unfold sbind, sput_mock, smodify.
  set (s1 := sset_mocks _ _).
  assert (GR : forall me, grown me (mkMethod (me_no me) (me_id me) (me_ret me) (me_stubs me) [] (me_bypass me))).
  { intro me. repeat split; auto. exists [], (me_stubs me). repeat split; auto. apply Forall2_adv_refl. }
  assert (EQ : forall m' e, method_at s1 m' e = if Nat.eqb m m' then forget_calls (method_at s m' e) else method_at s m' e).
  { intros m' e. unfold method_at, s1. cbn. destruct (Nat.eqb_spec m m') as [<-|N].
    - rewrite live_upd_in by (eapply live_lt; eauto). rewrite K. cbn. now rewrite live_map.
    - now rewrite live_upd_out. }
  assert (K1 : kept s s1).
  { intro NB. split.
    { intros m' e me H. rewrite EQ in H. destruct (Nat.eqb m m'); [|exact (NB _ _ _ H)].
      destruct (method_at s m' e) as [me0|] eqn:M0; [|discriminate]. cbn in H. inversion H; subst. exact (NB _ _ _ M0). }
    split; [cbn; auto|]. split; intros m' e me H.
    - rewrite EQ in H. right. destruct (Nat.eqb m m'); [|exists me; split; auto; apply grown_refl].
      destruct (method_at s m' e) as [me0|]; [|discriminate]. cbn in H. inversion H; subst. exists me0. split; auto.
    - intros _. rewrite EQ, H. destruct (Nat.eqb m m'); cbn; eexists; split; eauto; apply grown_refl. }
  pose proof (keeps_zero k s1) as Z. destruct (szero k s1); auto; eapply kept_trans; eauto.
Qed.

Lemma keeps_mock_destroy : forall m, keeps (smock_destroy m).
Proof.
  intros m s. unfold smock_destroy, sbind at 1, sget, sbind at 1, sgets, sopt.
  destruct (live (s_mocks s) m) as [k|] eqn:K; cbn; auto. unfold sbind at 1, sbind at 1, sret at 1.
  destruct (live (s_objs s) (sk_obj k)) as [x|]; cbn; auto.
  destruct (quiet k) eqn:Q; cbn; auto. unfold sbind, smodify.
  assert (K1 : kept s (sset_mocks s (upd (s_mocks s) m None))).
  { eapply kept_lose; eauto. intros k' X. discriminate. }
  destruct (sk_owner k); (eapply kept_trans; [exact K1|]); apply kept_same; reflexivity.
Qed.

(** *** Method expressions *)
Lemma keeps_ctx_free : forall c, keeps (sctx_free c).
Proof.
  intros c s. unfold sctx_free, sbind, sget, sgets, sbind, sopt. destruct (live (s_ctxs s) c) eqn:L; cbn; auto.
  apply kept_ctxs; auto. unfold ctxs_later. cbn. rewrite upd_length. split; auto. intros c' _ (x & X & U).
  destruct (Nat.eq_dec c c') as [<-|N].
  - rewrite live_upd_in in X by (eapply live_lt; eauto). discriminate.
  - rewrite live_upd_out in X by auto. exists x. auto.
Qed.

Lemma keeps_ctx_new : forall t, keeps (sctx_new E t).
Proof.
  intros. unfold sctx_new. kp; try apply keeps_mention; try apply keeps_ctx_free.
  intro s. unfold smodify. apply kept_ctxs; auto. unfold ctxs_later. cbn. rewrite app_length. split; [lia|].
  intros c L (x & X & U). exists x. rewrite live_app in X. destruct (Nat.eqb_spec c (length (s_ctxs s))); [lia|]. auto.
Qed.

Lemma sctx_unused_cases : forall c s, (exists x, sctx_unused c s = SOk s x /\ live (s_ctxs s) c = Some x /\ sx_committed x = false)
  \/ sctx_unused c s = SUnspec.
Proof.
  intros c s. unfold sctx_unused, sbind, sget, sgets, sbind, sopt. destruct (live (s_ctxs s) c) as [x|] eqn:L; cbn; [|now right].
  destruct (sx_committed x) eqn:C; cbn; [now right|]. left. exists x. auto.
Qed.

Lemma keeps_ctx_put : forall c (f : sctx -> sctx), keeps (let? x := sctx_unused c in sput_ctx c (f x)).
Proof.
  intros c f s. unfold sbind. destruct (sctx_unused_cases c s) as [(x & Q & L & U)|Q]; rewrite Q; auto. unfold sput_ctx, smodify.
  apply kept_ctxs; auto. unfold ctxs_later. cbn. rewrite upd_length. split; auto. intros c' _ (y & Y & UY).
  destruct (Nat.eq_dec c c') as [<-|N]; [exists x; auto|]. rewrite live_upd_out in Y by auto. exists y. auto.
Qed.

Lemma keeps_ctx_unused : forall c, keeps (sctx_unused c).
Proof. intros. unfold sctx_unused. kp. Qed.
Lemma keeps_ctx_cond : forall c im, keeps (sctx_cond c im).
Proof. intros. unfold sctx_cond. apply (keeps_ctx_put c (fun x => mkSctx (sx_target x) im (sx_todo x) false)). Qed.
Lemma keeps_ctx_append : forall c a, keeps (sctx_append c a).
Proof. intros. unfold sctx_append. apply (keeps_ctx_put c (fun x => mkSctx (sx_target x) (sx_cond x) (sx_todo x ++ [a]) false)). Qed.

Lemma mention_ctxs : forall t s s' a, smention E t s = SOk s' a -> s_ctxs s' = s_ctxs s.
Proof.
  intros t s s' a H. cbv [smention starget sbind sget sgets sclass sopt sset_method sput_mock smodify sret sthrow unspec] in H.
  inner H;
  inversion H; auto.
Qed.

Lemma keeps_ctx_commit : forall c, keeps (sctx_commit E c).
Proof.
  intros c s. unfold sctx_commit. unfold sbind at 1.
  destruct (sctx_unused_cases c s) as [(x & Q & L & U)|Q]; rewrite Q; auto.
  unfold sbind at 1. pose proof (keeps_mention (sx_target x) s) as KM.
  destruct (smention E (sx_target x) s) as [s1 [m slot]|s1 y|] eqn:SM; auto.
  pose proof (mention_ctxs _ _ _ _ SM) as CX.
  unfold sbind at 1. destruct (smethod_cases m slot s1) as [(me & QM & M)|QM]; rewrite QM; auto.
  unfold sbind. rewrite (sset_method_at _ _ _ _ _ M). unfold sput_ctx, smodify.
  set (st := mkStub c (sx_cond x) (sx_todo x) 0 false).
  set (me' := mkMethod _ _ _ _ _ _). set (s2 := sset_ctxs _ _).
  assert (GM : grown me me').
  { repeat split; auto. exists [st], (me_stubs me). repeat split; auto. apply Forall2_adv_refl. }
  intro NB. destruct (KM NB) as [N1 H1]. split.
  - assert (LT : c < length (s_ctxs s)) by (eapply live_lt; eauto).
    assert (CL : ctxs_later s1 s2).
    { unfold ctxs_later, s2. cbn. rewrite put_ctxs, upd_length. split; auto. intros c' _ (y & Y & UY).
      destruct (Nat.eq_dec c c') as [<-|NE].
      - rewrite live_upd_in in Y by (rewrite CX; auto). inversion Y; subst. discriminate.
      - rewrite live_upd_out in Y by auto. exists y. auto. }
    assert (US : used s2 st).
    { unfold used, s2, st. cbn. rewrite put_ctxs, upd_length, CX. split; auto. intros (y & Y & UY).
      rewrite live_upd_in in Y by auto. inversion Y; subst. discriminate. }
    destruct (N1 _ _ _ M) as [ND FU].
    intros m' e' z Z. change (method_at s2 m' e') with (method_at (put_method s1 m slot me') m' e') in Z.
    destruct (Nat.eq_dec m m') as [<-|NM]; [destruct (Nat.eq_dec slot e') as [<-|NM]|].
    + rewrite (method_put _ _ _ _ _ M) in Z. inversion Z; subst z. cbn. split.
      * constructor; auto. intro IN. apply in_map_iff in IN. destruct IN as (st0 & E0 & I0).
        rewrite Forall_forall in FU. destruct (FU _ I0) as [_ NU]. apply NU. rewrite E0, CX. exists x. auto.
      * constructor; auto. eapply used_later_all; eauto.
    + rewrite method_put_other in Z by congruence. destruct (N1 _ _ _ Z). split; auto. eapply used_later_all; eauto.
    + rewrite method_put_other in Z by congruence. destruct (N1 _ _ _ Z). split; auto. eapply used_later_all; eauto.
  - eapply holds_trans; [exact H1|]. eapply holds_trans; [eapply holds_put; eauto|]. apply holds_same; reflexivity.
Qed.

Lemma keeps_append_all : forall rs c, keeps (sappend_all c rs).
Proof. induction rs; intro c; cbn [sappend_all]; kp; [apply keeps_ctx_append|apply IHrs]. Qed.

Lemma keeps_do_when : forall c rs i, keeps (sdo_when E c rs i).
Proof. intros. unfold sdo_when. kp; try apply keeps_append_all. apply keeps_ctx_commit. Qed.
Lemma keeps_do_fake : forall c, keeps (sdo_fake E c).
Proof. intros. unfold sdo_fake. kp; [apply keeps_ctx_append|apply keeps_ctx_commit]. Qed.
Lemma keeps_do_spy : forall c fw, keeps (sdo_spy E c fw).
Proof. intros. unfold sdo_spy. kp; try apply keeps_ctx_unused; [apply keeps_ctx_append|apply keeps_ctx_commit]. Qed.
Lemma keeps_do_assign : forall c f, keeps (sdo_assign E c f).
Proof. intros. unfold sdo_assign. kp; [apply keeps_ctx_append|apply keeps_ctx_commit]. Qed.

(** *** Calls *)
Section Open.
Variable rec : op -> SM val.
Hypothesis REC : forall o, keeps (rec o).

Lemma keeps_prog : forall p fr, keeps (srun_prog rec fr p).
Proof.
  induction p as [v|e|i k IH|i v k IH|k IH|o k IH]; intro fr; cbn [srun_prog]; kp; try apply keeps_get_call; auto.
  apply keeps_put_args.
Qed.

Lemma keeps_body : forall c o slot args, keeps (sbody E rec c o slot args).
Proof. intros. unfold sbody. kp; try apply keeps_prog. Qed.

(** A bracket: a method is changed to a busy one, something keeps it, it is changed
    back. *)
Lemma holds_bracket : forall s m e me me1 s2 me2 me3,
  method_at s m e = Some me -> me_no me1 = me_no me -> resting me1 = false ->
  holds (put_method s m e me1) s2 -> method_at s2 m e = Some me2 -> grown me me3 ->
  holds s (put_method s2 m e me3).
Proof.
  intros s m e me me1 s2 me2 me3 M NO RS (B & K1 & K2) M2 G3.
  assert (SB : s_bound (put_method s m e me1) = s_bound s) by (unfold put_method; now destruct (live (s_mocks s) m)).
  rewrite SB in *.
  split; [unfold put_method; destruct (live (s_mocks s2) m); cbn; auto|].
  split; intros m' e' x H.
  - destruct (Nat.eq_dec m m') as [<-|N]; [destruct (Nat.eq_dec e e') as [<-|N]|].
    + rewrite (method_put _ _ _ _ _ M2) in H. inversion H; subst. right. exists me. split; auto.
    + rewrite method_put_other in H by congruence. destruct (K1 _ _ _ H) as [L|(y & Y & G)]; auto.
      rewrite method_put_other in Y by congruence. eauto.
    + rewrite method_put_other in H by congruence. destruct (K1 _ _ _ H) as [L|(y & Y & G)]; auto.
      rewrite method_put_other in Y by congruence. eauto.
  - intro Q. destruct (Nat.eq_dec m m') as [<-|N]; [destruct (Nat.eq_dec e e') as [<-|N]|].
    + rewrite M in H. inversion H; subst. exists me3. split; auto. eapply method_put; eauto.
    + destruct (K2 m e' x) as (y & Y & G); [rewrite method_put_other by congruence; exact H|exact Q|].
      exists y. rewrite method_put_other by congruence. auto.
    + destruct (K2 m' e' x) as (y & Y & G); [rewrite method_put_other by congruence; exact H|exact Q|].
      exists y. rewrite method_put_other by congruence. auto.
Qed.

Lemma keeps_orig : forall m slot (body : SM val), keeps body ->
  keeps (let? me := smethod m slot in
         let? _ := sset_bypass m slot (me_no me) (me_id me) false in
         sguarded body (sset_bypass m slot (me_no me) (me_id me) true)).
Proof.
  intros m slot body HB s. unfold sbind at 1. destruct (smethod_cases m slot s) as [(me & Q & M)|Q]; rewrite Q; auto.
  unfold sset_bypass at 1. unfold sbind at 1. rewrite (sbind_ok _ _ _ _ _ _ _ Q).
  rewrite Nat.eqb_refl, Z.eqb_refl. destruct (me_bypass me) eqn:BY; cbn [Bool.eqb andb]; [exact I|].
  rewrite (sset_method_at _ _ _ _ _ M). cbn [negb].
  set (me1 := mkMethod (me_no me) (me_id me) (me_ret me) (me_stubs me) (me_calls me) true).
  unfold sguarded. unfold sbind at 1. unfold sattempt.
  pose proof (HB (put_method s m slot me1)) as K.
  assert (RS : resting me1 = false) by reflexivity.
  assert (M1 : method_at (put_method s m slot me1) m slot = Some me1) by (eapply method_put; eauto).
  assert (FIN : forall s2 (r : val + exn), kept (put_method s m slot me1) s2 ->
     match (let? _ := sset_bypass m slot (me_no me) (me_id me) true in srethrow r) s2 with
     | SOk s' _ => kept s s' | SExn s' _ => kept s s' | SUnspec => True end).
  { intros s2 r K2. unfold sset_bypass. unfold sbind at 1. unfold sbind at 1.
    destruct (smethod_cases m slot s2) as [(me2 & Q2 & M2)|Q2]; rewrite Q2; auto.
    destruct (Nat.eqb (me_no me2) (me_no me) && Z.eqb (me_id me2) (me_id me) && Bool.eqb (me_bypass me2) true); [|exact I].
    rewrite (sset_method_at _ _ _ _ _ M2). cbn [negb].
    assert (KK : kept s (put_method s2 m slot (mkMethod (me_no me2) (me_id me2) (me_ret me2) (me_stubs me2) (me_calls me2) false))).
    { intro NB. destruct (NB _ _ _ M) as [ND FU].
      destruct (K2 (numbered_put _ _ _ _ me1 NB M ND FU)) as [N2 H2].
      destruct (proj2 (proj2 H2) _ _ _ M1 RS) as (me2' & M2' & G2). rewrite M2 in M2'. inversion M2'; subst me2'. clear M2'.
      split.
      - destruct (N2 _ _ _ M2). eapply numbered_put; eauto.
      - eapply holds_bracket; [exact M| |exact RS|exact H2|exact M2|]; [reflexivity|].
        destruct G2 as (N & ID & RT & BP & new & old & ST & F & IDL).
        repeat split; auto. exists new, old. cbn. auto. }
    destruct r; exact KK. }
  destruct (body (put_method s m slot me1)) as [s2 v|s2 x|]; auto; [apply (FIN s2 (inl v))|apply (FIN s2 (inr x))]; auto.
Qed.

Lemma keeps_callable : forall f i, keeps (srun_callable E rec f i).
Proof.
  intros f i. destruct f as [p| |r vals|r vals|m o slot fw]; cbn [srun_callable].
  - apply keeps_prog.
  - kp; [apply keeps_get_call|apply keeps_default].
  - kp; try apply keeps_put_args; apply keeps_get_call.
  - kp; try apply keeps_put_args; apply keeps_get_call.
  - apply keeps_bind; [apply keeps_sget|]. intro k. apply keeps_bind; [apply keeps_class|]. intro d.
    destruct (is_dtor d slot); [apply keeps_unspec|].
    apply keeps_orig. kp; [apply keeps_get_call|apply keeps_put_args|apply REC].
Qed.

Lemma nos_adv : forall a b, Forall2 advanced a b -> map st_no b = map st_no a.
Proof.
  intros a b H. induction H as [|x y l l' (n & -> & _) F IH]; cbn; auto. f_equal; auto.
  clear. induction n; cbn; auto. rewrite <- IHn. unfold played. destruct (st_todo (times_played n x)); auto.
Qed.

Lemma busy_adv : forall x y, advanced x y -> st_busy x = true -> y = x.
Proof. intros x y (n & -> & B) H. now rewrite (B H). Qed.

(** A counted action is played: whatever it does, and whether it returns or throws, the
    stubbing ends up played once, and the others keep their places. *)
Lemma play_counted : forall m e st i s me f n rest newer older s' r, method_at s m e = Some me ->
  numbered s -> me_stubs me = newer ++ st :: older -> st_todo st = ARepeat f n :: rest ->
  splay E rec m e st i s = sanswer s' r ->
  numbered s' /\ holds s s' /\ exists me', method_at s' m e = Some me' /\ grown me me' /\ moved_on newer st older (me_stubs me').
Proof.
  intros m e st i s me f n rest newer older s' r M NB SPL TD H. unfold splay in H. rewrite TD in H.
  destruct (st_busy st || (n <? 1)%Z) eqn:BN; [destruct r; discriminate|]. apply orb_false_iff in BN. destruct BN as [IDL NL].
  apply Z.ltb_ge in NL. destruct (NB _ _ _ M) as [ND FU].
  assert (NI : ~ In (st_no st) (map st_no newer)) by (apply (nodup_mid newer st older); now rewrite <- SPL).
  set (st1 := mkStub (st_no st) (st_cond st) (ARepeat f (n - 1) :: rest) (st_used st) true).
  assert (BG : begin_action st = Some st1) by (unfold begin_action; now rewrite TD).
  rewrite (sbind_ok _ _ _ _ _ _ _ (change_stub_at _ _ _ _ _ _ _ begin_action st1 M SPL NI BG)) in H.
  set (me1 := with_stubs me (newer ++ st1 :: older)) in H.
  unfold sguarded in H. unfold sbind at 1 in H. unfold sattempt in H.
  pose proof (keeps_callable f i (put_method s m e me1)) as K.
  assert (RS : resting me1 = false).
  { unfold resting, quiet_method, me1. cbn. rewrite forallb_app. cbn. rewrite !andb_false_r. reflexivity. }
  assert (M1 : method_at (put_method s m e me1) m e = Some me1) by (eapply method_put; eauto).
  assert (N1 : numbered (put_method s m e me1)).
  { eapply numbered_put; eauto; unfold me1; cbn.
    - rewrite SPL in ND. rewrite map_app in *. exact ND.
    - rewrite SPL in FU. apply Forall_app in FU. destruct FU as [F1 F2]. inversion F2; subst.
      apply Forall_app. split; auto. }
  assert (FIN : forall s2 (r2 : val + exn), kept (put_method s m e me1) s2 ->
     (let? _ := schange_stub m e (st_no st) (end_action (st_used st)) in srethrow r2) s2 = sanswer s' r ->
     numbered s' /\ holds s s' /\ exists me', method_at s' m e = Some me' /\ grown me me' /\ moved_on newer st older (me_stubs me')).
  { clear H. intros s2 r2 K2 H. destruct (K2 N1) as [N2 H2].
    destruct (proj2 (proj2 H2) _ _ _ M1 RS) as (me2 & M2 & G2).
    destruct (N2 _ _ _ M2) as [ND2 FU2].
    destruct G2 as (N & ID & RT & BP & new & old & ST & F & IDLE). cbn in F.
    apply Forall2_app_inv_l in F. destruct F as (oa & ob & FA & FB & ->).
    inversion FB as [|? st1' ? ob' ADV FB' ]; subst.
    pose proof (busy_adv _ _ ADV eq_refl) as EQ1. subst st1'.
    assert (EA : end_action (st_used st) st1 = Some (played st)).
    { unfold end_action, st1, played, left_of. cbn. rewrite TD, Nat.eqb_refl, IDL.
      destruct (Z.eqb_spec (n - 1) 0), (Z.eqb_spec n 1); try lia; cbn; subst; reflexivity. }
    assert (ST' : me_stubs me2 = (new ++ oa) ++ st1 :: ob') by (rewrite ST; now rewrite <- app_assoc).
    assert (NI2 : ~ In (st_no st1) (map st_no (new ++ oa))) by (apply (nodup_mid _ st1 ob'); now rewrite <- ST').
    change (st_no st) with (st_no st1) in H at 1.
    rewrite (sbind_ok _ _ _ _ _ _ _ (change_stub_at s2 m e me2 (new ++ oa) st1 ob' _ (played st) M2 ST' NI2 EA)) in H.
    set (me3 := with_stubs me2 ((new ++ oa) ++ played st :: ob')) in H.
    assert (s' = put_method s2 m e me3) by (unfold srethrow, sanswer in H; destruct r2, r; cbv beta iota delta [sret sthrow] in H; inversion H; reflexivity). subst s'.
    assert (G3 : grown me me3).
    { repeat split; auto. exists new, (oa ++ played st :: ob'). unfold me3. cbn. rewrite <- app_assoc. repeat split; auto.
      rewrite SPL. apply Forall2_app; auto. constructor; auto. exists 1. split; auto. congruence. }
    assert (PNO : st_no (played st) = st_no st) by (unfold played; now rewrite TD).
    split; [|split].
    - eapply numbered_put; eauto; unfold me3; cbn.
      + rewrite ST' in ND2. rewrite !map_app in *. cbn in *. now rewrite PNO.
      + rewrite ST' in FU2. apply Forall_app in FU2. destruct FU2 as [F1 F2]. inversion F2; subst.
        apply Forall_app. split; auto. constructor; auto. unfold used in *. now rewrite PNO.
    - eapply holds_bracket; [exact M| |exact RS|exact H2|exact M2|exact G3]. reflexivity.
    - exists me3. split; [eapply method_put; eauto|]. split; auto.
      exists new, oa, ob'. unfold me3. cbn. rewrite <- app_assoc. auto. }
  destruct (srun_callable E rec f i (put_method s m e me1)) as [s2 v|s2 x|]; [apply (FIN s2 (inl v))|apply (FIN s2 (inr x))|destruct r; discriminate]; auto.
Qed.

(** A stubbing of the method is played. *)
Lemma keeps_play : forall m e st i s me, method_at s m e = Some me -> In st (me_stubs me) ->
  match splay E rec m e st i s with SOk s' _ => kept s s' | SExn s' _ => kept s s' | SUnspec => True end.
Proof.
  intros m e st i s me M IN.
  destruct (st_todo st) as [|[f n|f| |f|] rest] eqn:TD.
  2:{ apply in_split in IN. destruct IN as (a & b & SPL).
      pose proof (fun s' r NB H => play_counted m e st i s me f n rest a b s' r M NB SPL TD H) as PC.
      destruct (splay E rec m e st i s) as [s' v|s' x|] eqn:Q; auto; intro NB.
      - destruct (PC s' (inl v) NB eq_refl) as (A & B & _). auto.
      - destruct (PC s' (inr x) NB eq_refl) as (A & B & _). auto. }
  all: unfold splay; rewrite TD; try exact I; try apply keeps_callable.
  exact (keeps_bind _ _ (sget_call i) (fun x => sdefault (ca_ret x)) (keeps_get_call i) (fun x => keeps_default _) s).
Qed.

Lemma find_in : forall l args s s' st, sfind l args s = SOk s' (Some st) -> In st l /\ s' = s.
Proof.
  induction l as [|y l IH]; intros args s s' st H; cbn in H; [discriminate|].
  unfold sbind, sgets, slift in H. destruct (im_matches_args (s_mem s) (st_cond y) args) as [[]| |]; try discriminate.
  - inversion H; subst. split; auto. now left.
  - destruct (IH _ _ _ _ H). split; auto. now right.
Qed.

Lemma keeps_stubbed : forall m e args, keeps (sstubbed E rec m e args).
Proof.
  intros m e args s. unfold sstubbed. unfold sbind at 1.
  destruct (smethod_cases m e s) as [(me & Q & M)|Q]; rewrite Q; auto.
  unfold sbind at 1. unfold sstart, sbind at 1, sgets. destruct (s_started s + 1 <? 4294967296)%Z; [|exact I].
  unfold smodify. unfold sbind at 1, sgets. unfold sbind at 1, smodify.
  set (s1 := sset_calls _ _).
  assert (K1 : kept s s1) by (apply kept_same; reflexivity).
  assert (M1 : method_at s1 m e = Some me) by exact M.
  unfold sbind at 1. destruct (sfind (me_stubs me) args s1) as [s2 [st|]|s2 x|] eqn:F.
  - apply find_in in F. destruct F as [IN ->].
    unfold sbind at 1. rewrite (sset_method_at _ _ _ _ _ M1).
    set (me1 := mkMethod _ _ _ _ _ _). set (s2 := put_method s1 m e me1).
    assert (K2 : kept s s2).
    { eapply kept_trans; [exact K1|]. eapply kept_put; eauto. repeat split; auto.
      exists [], (me_stubs me). repeat split; auto. apply Forall2_adv_refl. }
    assert (M2 : method_at s2 m e = Some me1) by (eapply method_put; eauto).
    destruct (st_todo st) eqn:TD.
    + destruct (st_busy st); [exact I|]. pose proof (keeps_unexpected Unmatched (Some (Z.of_nat (S (me_no me)))) args s2) as K.
      destruct (sunexpected E Unmatched (Some (Z.of_nat (S (me_no me)))) args s2); auto; eapply kept_trans; eauto.
    + pose proof (keeps_play m e st (length (s_calls (sset_started s (s_started s + 1)%Z))) s2 me1 M2 IN) as K.
      unfold sbind, sattempt.
      destruct (splay E rec m e st _ s2) as [s3 v|s3 x|]; [| |exact I].
      * cbn. eapply kept_trans; eauto.
      * destruct x; cbn; try exact I; eapply kept_trans; eauto.
  - pose proof (keeps_find (me_stubs me) args s1) as KF. rewrite F in KF.
    pose proof (keeps_unexpected Unmatched (Some (Z.of_nat (S (me_no me)))) args s2) as K.
    destruct (sunexpected E Unmatched (Some (Z.of_nat (S (me_no me)))) args s2); auto;
      (eapply kept_trans; [exact K1|]); (eapply kept_trans; [exact KF|]); assumption.
  - pose proof (keeps_find (me_stubs me) args s1) as KF. rewrite F in KF. eapply kept_trans; [exact K1|exact KF].
  - exact I.
Qed.

Lemma keeps_initial : forall k d x o slot args, keeps (sinitial E rec k d x o slot args).
Proof. intros. unfold sinitial. kp; try apply keeps_start; try apply keeps_unexpected. apply keeps_body. Qed.

Lemma keeps_call : forall o slot args, keeps (scall E rec o slot args).
Proof. intros. unfold scall. kp; try apply keeps_body; try apply keeps_initial; apply keeps_stubbed. Qed.

(** *** Verification *)
Lemma keeps_mark_all : forall is, keeps (smark_all is).
Proof. induction is; cbn [smark_all]; kp; apply keeps_get_call. Qed.

Lemma keeps_report_to : forall q e, keeps (sreport_to E q e).
Proof. intros. unfold sreport_to. kp. apply keeps_report. Qed.

Lemma keeps_verify : forall x q, keeps (sverify E x q).
Proof. intros. unfold sverify. kp; try apply keeps_put_exp; try apply keeps_mark_all; apply keeps_report_to. Qed.

Lemma keeps_exp_bool : forall x, keeps (sexp_bool E x).
Proof. intros. unfold sexp_bool. kp. apply keeps_verify. Qed.

Lemma keeps_free_exp : forall x, keeps (sfree_exp x).
Proof. intros. unfold sfree_exp. kp. Qed.

Lemma keeps_exp_free : forall x, keeps (sexp_free E x).
Proof. intros. unfold sexp_free. kp; [apply keeps_verify|apply keeps_free_exp]. Qed.

Lemma keeps_exp_quant : forall x q, keeps (sexp_quant x q).
Proof. intros. unfold sexp_quant. kp. apply keeps_put_exp. Qed.

Lemma keeps_new_exp : forall e, keeps (snew_exp e).
Proof. intros. unfold snew_exp. kp. Qed.

Lemma keeps_involved : forall cs, keeps (sinvolved cs).
Proof. induction cs; cbn [sinvolved]; kp. Qed.

Lemma keeps_exp_new : forall sc p, keeps (sexp_new sc p).
Proof. intros. unfold sexp_new. kp; try apply keeps_involved; apply keeps_new_exp. Qed.

(** *** Statements *)
Lemma keeps_ctx_of : forall t im, keeps (sctx_of E t im).
Proof. intros. unfold sctx_of. kp; [apply keeps_ctx_new|apply keeps_ctx_cond]. Qed.

Lemma keeps_free_ctxs : forall cs, keeps (sfree_ctxs cs).
Proof. induction cs; cbn [sfree_ctxs]; kp. apply keeps_ctx_free. Qed.

Lemma keeps_with_ctxs : forall ts done body, (forall cs, keeps (body cs)) -> keeps (swith_ctxs E ts done body).
Proof.
  induction ts as [|[t im] ts IH]; intros done body HB; cbn [swith_ctxs].
  - apply keeps_guarded; auto. apply keeps_free_ctxs.
  - kp; [apply keeps_ctx_of|now apply IH|apply keeps_free_ctxs].
Qed.

Lemma keeps_steps : forall steps x last, keeps (srun_steps E x steps last).
Proof. induction steps as [|[q|] steps IH]; intros x last; cbn [srun_steps]; kp; auto; [apply keeps_exp_quant|apply keeps_exp_bool]. Qed.

Lemma keeps_verify_stmt : forall mk steps, keeps mk -> keeps (sverify_stmt E mk steps).
Proof. intros. unfold sverify_stmt. kp; [apply keeps_steps|apply keeps_exp_free|apply keeps_free_exp]. Qed.

Lemma keeps_each : forall (f : nat -> SM unit) cs, (forall c, keeps (f c)) -> keeps (seach f cs).
Proof. intros f cs H. induction cs; cbn [seach]; kp; auto. Qed.

Lemma keeps_stmt : forall st cs, keeps (srun_stmt E st cs).
Proof.
  intros st cs. destruct st; cbn [srun_stmt]; kp; try apply keeps_do_when; try apply keeps_do_assign;
    try (apply keeps_each; intro; first [apply keeps_do_fake|apply keeps_do_spy]);
    try (apply keeps_verify_stmt; first [apply keeps_exp_new|apply keeps_new_exp]).
Qed.

Lemma keeps_unit : forall A (m : SM A), keeps m -> keeps (sunit m).
Proof. intros. unfold sunit. kp. Qed.
Lemma keeps_nat : forall m, keeps m -> keeps (snat m).
Proof. intros. unfold snat. kp. Qed.

Lemma keeps_step : forall o, keeps (sstep E rec o).
Proof.
  intro o. destruct o; cbn [sstep]; kp; try apply keeps_unit; try apply keeps_nat; kp;
    auto using keeps_call, keeps_mock_new, keeps_mock_spy, keeps_mock_destroy, keeps_mock_reset, keeps_mock_clear,
      keeps_ctx_new, keeps_ctx_cond, keeps_ctx_free, keeps_do_when, keeps_do_fake, keeps_do_spy, keeps_do_assign,
      keeps_exp_new, keeps_new_exp, keeps_exp_quant, keeps_exp_bool, keeps_exp_free, keeps_put_obj.
  apply keeps_with_ctxs. intro. apply keeps_stmt.
Qed.

End Open.
Lemma keeps_exec : forall f o, keeps (sexec E f o).
Proof. induction f as [|f IH]; intro o; [apply keeps_unspec|]. cbn [sexec]. apply keeps_step. exact IH. Qed.

Lemma keeps_exec_all : forall f os, keeps (sexec_all E f os).
Proof. intros f os. induction os as [|o os IH]; cbn [sexec_all]; kp. apply keeps_exec. Qed.

(** The world of a program is numbered. *)
Lemma R_numbered : forall w s, R E w s -> numbered s.
Proof.
  intros w s (own & tow & HR) m e me M. pose proof (r_uni _ _ _ _ _ HR) as U.
  assert (A : at_ (s_mocks s) m e me).
  { unfold method_at in M. destruct (live (s_mocks s) m) as [k|] eqn:K; [|discriminate]. exists k. eauto. }
  split; [eapply un_nodup; eauto|]. apply Forall_forall. intros st IN. eapply un_ctx; eauto.
Qed.

(** What a program finds, it leaves: any operations, user code inside included. *)
Lemma exec_all_holds : forall w s f os s' rs, R E w s -> sexec_all E f os s = SOk s' rs -> holds s s'.
Proof.
  intros w s f os s' rs HR H. pose proof (keeps_exec_all f os s) as K. rewrite H in K.
  apply K. eapply R_numbered; eauto.
Qed.

Lemma exec_holds : forall w s f o s' r, R E w s -> sexec E f o s = sanswer s' r -> holds s s'.
Proof.
  intros w s f os s' r HR H. pose proof (keeps_exec f os s) as K. rewrite H in K.
  destruct r; apply K; eapply R_numbered; eauto.
Qed.

(** Between the operations of a program nothing is running. *)
Lemma at_rest : forall m f os s rs, sexec_all E f os (sinit m) = SOk s rs ->
  forall i k, live (s_mocks s) i = Some k -> quiet k = true.
Proof.
  intros m f os s rs H i k K. pose proof (keeps_exec_all f os (sinit m)) as Q. rewrite H in Q.
  destruct Q as (_ & _ & HH & _).
  { intros m' e' me. unfold method_at, live. cbn. destruct m'; discriminate. }
  unfold quiet. apply forallb_forall. intros [me|] IN; auto. apply In_nth_error in IN. destruct IN as [e IN].
  destruct (HH i e me) as [[_ X]|(me0 & M0 & _)]; auto.
  - unfold method_at. rewrite K. unfold live. now rewrite IN.
  - unfold method_at, live in M0. cbn in M0. destruct i; discriminate.
Qed.

End S.
