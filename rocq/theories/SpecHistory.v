(** Histories: each method's history holds calls of that method only, in the order of the
    calls, whatever operations are run. *)
From Coq Require Import Bool ZArith Lia List Sorted.
From Verif Require Import Base CInt Values ArgMatchers InvMatchers ActionSeq Sequences MatchAnalysis
  Proxy Events Expectation ReturnSet Syntax World Spec_World WorldRel WorldSimA WorldSimB Spec_View SpecFacts Spec_Alike SpecFrame.
Import ListNotations.
Open Scope nat_scope.

Definition tidy_method (s : sworld) (me : method) : Prop :=
  StronglySorted lt (me_calls me) /\
  forall i, In i (me_calls me) -> exists c, nth_error (s_calls s) i = Some c /\ ca_method c = me_no me.
Definition tidy (s : sworld) : Prop := forall m e me, method_at s m e = Some me -> tidy_method s me.

Definition recs (s s' : sworld) : Prop :=
  forall i c, nth_error (s_calls s) i = Some c -> exists c', nth_error (s_calls s') i = Some c' /\ ca_method c' = ca_method c.
Definition tidies (s s' : sworld) : Prop := recs s s' /\ (tidy s -> tidy s').

Lemma recs_refl : forall s, recs s s.
Proof. intros s i c H. eauto. Qed.
Lemma recs_trans : forall a b c, recs a b -> recs b c -> recs a c.
Proof. intros a b c A B i x H. destruct (A i x H) as (y & H' & Q). destruct (B i y H') as (z & H'' & Q'). exists z. split; congruence. Qed.
Lemma tidies_refl : forall s, tidies s s.
Proof. intro s. split; auto. apply recs_refl. Qed.
Lemma tidies_trans : forall a b c, tidies a b -> tidies b c -> tidies a c.
Proof. intros a b c (A & A') (B & B'). split; auto. eapply recs_trans; eauto. Qed.

Lemma tidy_recs : forall s s' me me', recs s s' -> me_no me' = me_no me -> me_calls me' = me_calls me -> tidy_method s me -> tidy_method s' me'.
Proof.
  intros s s' me me' RC N C (A & B). split; [now rewrite C|]. intros i IN. rewrite C in IN. destruct (B i IN) as (c & H & Q).
  destruct (RC i c H) as (c' & H' & Q'). exists c'. split; congruence.
Qed.
Lemma tidy_empty : forall s me, me_calls me = [] -> tidy_method s me.
Proof. intros s me Q. split; rewrite Q; [constructor|intros i []]. Qed.

Lemma tidies_same : forall s s', s_mocks s' = s_mocks s -> s_calls s' = s_calls s -> tidies s s'.
Proof.
  intros s s' M C. assert (RC : recs s s') by (intros i c H; rewrite C; eauto). split; auto.
  intros T m e me H. unfold method_at in H. rewrite M in H. eapply tidy_recs; eauto.
Qed.

Lemma tidies_subs : forall s s', recs s s' ->
  (forall m e me', method_at s' m e = Some me' ->
     me_calls me' = [] \/ exists me, method_at s m e = Some me /\ me_no me' = me_no me /\ me_calls me' = me_calls me) ->
  tidies s s'.
Proof.
  intros s s' RC H. split; auto. intros T m e me' M. destruct (H m e me' M) as [Q|(me & M0 & N & C)]; [now apply tidy_empty|].
  eapply tidy_recs; eauto.
Qed.

Lemma tidies_upd : forall s s' m k k', live (s_mocks s) m = Some k -> s_mocks s' = upd (s_mocks s) m k' -> s_calls s' = s_calls s ->
  (forall e me' k'', k' = Some k'' -> live (sk_meths k'') e = Some me' ->
     me_calls me' = [] \/ exists me, live (sk_meths k) e = Some me /\ me_no me' = me_no me /\ me_calls me' = me_calls me) ->
  tidies s s'.
Proof.
  intros s s' m k k' K M C H. apply tidies_subs; [intros i c X; rewrite C; eauto|]. intros m' e me' X. unfold method_at in X. rewrite M in X.
  destruct (Nat.eq_dec m m') as [<-|N].
  - rewrite live_upd_in in X by (eapply live_lt; eauto). unfold method_at. rewrite K. destruct k'; [|discriminate]. eapply H; eauto.
  - rewrite live_upd_out in X by auto. right. exists me'. unfold method_at. auto.
Qed.

Section H.
Variable E : env.
Local Notation ti := (always tidies).
Ltac st := aw tidies_refl tidies_trans.
Ltac sm := apply aw_modify; intro; apply tidies_same; reflexivity.

Lemma ti_looks : forall A (m : SM A), always only_looked m -> ti m.
Proof.
  intros A m H s. specialize (H s).
  assert (X : forall s', only_looked s s' -> tidies s s').
  { intros s' L. apply tidies_subs.
    - intros i c N. pose proof (lo_calls _ _ L) as F. clear - F N. revert i N. induction F as [|x y l l' (Q & _) F IH]; intros [|i] N; cbn in *; try discriminate; eauto.
      inversion N; subst. eauto.
    - intros m' e me' M. right. exists me'. unfold method_at in *. rewrite (lo_mocks _ _ L) in M. auto. }
  destruct (m s); auto.
Qed.
Lemma ti_report : forall e, ti (sreport E e).
Proof. intros. unfold sreport. st. destruct (ctx_handle (e_react E) (e_builtin E) a e) as [dn x]. st. sm. Qed.
Lemma ti_put_obj : forall o x, ti (sput_obj o x).
Proof. intros. unfold sput_obj. sm. Qed.
Lemma ti_zero : forall k, ti (szero k).
Proof. intro k. unfold szero. st. apply ti_put_obj. Qed.
Lemma ti_reset : forall m, ti (smock_reset m).
Proof.
  intros m s. unfold smock_reset. unfold sbind at 1. unfold sget, sgets, sbind at 1, sopt. destruct (live (s_mocks s) m) as [k|] eqn:K; [|exact Logic.I].
  unfold sret. destruct (quiet k); [|exact Logic.I]. unfold sbind, sput_mock, smodify.
  set (s1 := sset_mocks s _).
  assert (T : tidies s s1).
  { eapply tidies_upd; [exact K|reflexivity|reflexivity|]. intros e me' k'' Q L. inversion Q; subst. cbn in L.
    unfold live in L. rewrite nth_error_map in L. destruct (nth_error (sk_meths k) e); discriminate. }
  pose proof (ti_zero k s1) as Z. destruct (szero k s1); auto; eapply tidies_trans; eauto.
Qed.
Lemma ti_clear : forall m, ti (smock_clear m).
Proof.
  intros m s. unfold smock_clear. unfold sbind at 1. unfold sget, sgets, sbind at 1, sopt. destruct (live (s_mocks s) m) as [k|] eqn:K; [|exact Logic.I].
  unfold sret. unfold sbind, sput_mock, smodify.
  set (s1 := sset_mocks s _).
  assert (T : tidies s s1).
  { eapply tidies_upd; [exact K|reflexivity|reflexivity|]. intros e me' k'' Q L. inversion Q; subst. cbn in L. left.
    unfold live in L. rewrite nth_error_map in L. destruct (nth_error (sk_meths k) e) as [[x|]|]; cbn in L; inversion L; reflexivity. }
  pose proof (ti_zero k s1) as Z. destruct (szero k s1); auto; eapply tidies_trans; eauto.
Qed.
Lemma ti_destroy : forall m, ti (smock_destroy m).
Proof.
  intros m s. unfold smock_destroy, sbind, sget, sgets, sbind, sopt.
  destruct (live (s_mocks s) m) as [k|] eqn:K; cbn; auto. destruct (live (s_objs s) (sk_obj k)) as [x|]; cbn; auto.
  destruct (quiet k); cbn; auto. destruct (sk_owner k); cbn; (eapply tidies_upd; [exact K|reflexivity|reflexivity|]); discriminate.
Qed.
Lemma ti_snoc : forall s s' k, s_mocks s' = s_mocks s ++ [Some k] -> s_calls s' = s_calls s ->
  (forall e, live (sk_meths k) e = None) -> tidies s s'.
Proof.
  intros s s' k M C H. apply tidies_subs; [intros i c X; rewrite C; eauto|]. intros m e me' X. right. exists me'.
  unfold method_at in *. rewrite M, live_app in X. destruct (Nat.eqb m (length (s_mocks s))); [rewrite H in X; discriminate|auto].
Qed.
Lemma live_repeat : forall A n i, live (repeat (@None A) n) i = None.
Proof.
  intros A n i. unfold live. destruct (nth_error (repeat (@None A) n) i) as [x|] eqn:N; auto. apply nth_error_In, repeat_spec in N. now subst.
Qed.
Lemma ti_new : forall c, ti (smock_new E c).
Proof.
  intros c s. unfold smock_new, sclass, sbind, sopt, sgets, smodify, sret.
  destruct (nth_error (e_classes E) c) as [d|]; [|exact Logic.I]. destruct (class_fits d); [|exact Logic.I].
  eapply ti_snoc; [reflexivity|reflexivity|]. intro. apply live_repeat.
Qed.
Lemma ti_spy : forall c o, ti (smock_spy E c o).
Proof.
  intros c o s. unfold smock_spy, sclass, sbind, sget, sgets, sbind, sopt.
  destruct (nth_error (e_classes E) c) as [d|]; cbn; auto. destruct (live (s_objs s) o) as [x|]; cbn; auto.
  destruct (nth_error (e_classes E) (so_class x)) as [dx|]; cbn; auto. destruct (so_mock x); cbn; auto.
  destruct (class_fits d && _); cbn; auto. eapply ti_snoc; [reflexivity|reflexivity|]. intro. apply live_repeat.
Qed.

Lemma set_method_tidies : forall s m e x k, live (s_mocks s) m = Some k ->
  (me_calls x = [] \/ exists me, live (sk_meths k) e = Some me /\ me_no x = me_no me /\ me_calls x = me_calls me) ->
  match sset_method m e x s with SOk s' _ => tidies s s' | SExn s' _ => tidies s s' | SUnspec => True end.
Proof.
  intros s m e x k K H. unfold sset_method, sget, sgets, sbind, sopt. rewrite K. cbn.
  eapply tidies_upd; [exact K|reflexivity|reflexivity|]. intros e' me' k'' Q L. inversion Q; subst. cbn in L.
  destruct (Nat.eq_dec e e') as [<-|N].
  - destruct (nth_error (sk_meths k) e) as [y|] eqn:NE.
    + rewrite live_upd_in in L by (eapply nth_error_Some; congruence). inversion L; subst. exact H.
    + rewrite upd_oob in L by (now apply nth_error_None). unfold live in L. rewrite NE in L. discriminate.
  - rewrite live_upd_out in L by auto. right. exists me'. auto.
Qed.
Lemma ti_mention : forall t, ti (smention E t).
Proof.
  intro t. unfold smention. apply aw_bind; [exact tidies_trans|unfold starget; st|]. intros [[[m e] id] r]. intro s. unfold sbind at 1. unfold sget, sgets, sbind at 1, sopt at 1.
  destruct (live (s_mocks s) m) as [k|] eqn:K; [|exact Logic.I]. unfold sret at 1. unfold sbind at 1, sopt at 1.
  destruct (nth_error (sk_meths k) e) as [[y|]|]; [apply tidies_refl| |exact Logic.I]. unfold sret at 1, sbind at 1.
  destruct (id_free k id && _); [|exact Logic.I]. unfold sbind at 1, smodify.
  set (s1 := sset_bound s (S (s_bound s))). assert (K1 : live (s_mocks s1) m = Some k) by exact K.
  assert (T1 : tidies s s1) by (apply tidies_same; reflexivity).
  pose proof (set_method_tidies s1 m e (mkMethod (s_bound s) id r [] [] false) k K1 (or_introl eq_refl)) as T2.
  unfold sbind. destruct (sset_method m e (mkMethod (s_bound s) id r [] [] false) s1); auto; eapply tidies_trans; eauto.
Qed.

(** Changing a method but for its number and its history. *)
Lemma ti_change : forall m e A (h : method -> SM A) (g : method -> A -> method),
  (forall me s, match h me s with SOk s' _ => s' = s | SExn _ _ => False | SUnspec => True end) ->
  (forall me a, me_no (g me a) = me_no me /\ me_calls (g me a) = me_calls me) ->
  ti (let? me := smethod m e in let? a := h me in sset_method m e (g me a)).
Proof.
  intros m e A h g HH HG s. unfold smethod. unfold sbind at 1 2. unfold sget, sgets, sbind at 1, sopt. destruct (live (s_mocks s) m) as [k|] eqn:K; [|exact Logic.I].
  unfold sret. destruct (live (sk_meths k) e) as [me|] eqn:ME; [|exact Logic.I]. unfold sbind, sret. specialize (HH me s).
  destruct (h me s) as [s' a|s' x|]; [subst s'|contradiction|auto]. destruct (HG me a) as [Q1 Q2].
  apply (set_method_tidies s m e (g me a) k K). right. exists me. auto.
Qed.
Lemma ti_method : forall m e, ti (smethod m e).
Proof. intros. unfold smethod. st. Qed.
Lemma ti_ctx_free : forall c, ti (sctx_free c).
Proof. intros. unfold sctx_free. st. sm. Qed.
Lemma ti_ctx_new : forall t, ti (sctx_new E t).
Proof. intros. unfold sctx_new. st; first [sm|apply ti_mention|apply ti_ctx_free]. Qed.
Lemma ti_unused : forall c, ti (sctx_unused c).
Proof. intros. unfold sctx_unused. st. Qed.
Lemma ti_put_ctx : forall c x, ti (sput_ctx c x).
Proof. intros. unfold sput_ctx. sm. Qed.
Lemma ti_ctx_cond : forall c im, ti (sctx_cond c im).
Proof. intros. unfold sctx_cond. st; [apply ti_unused|apply ti_put_ctx]. Qed.
Lemma ti_ctx_append : forall c a, ti (sctx_append c a).
Proof. intros. unfold sctx_append. st; [apply ti_unused|apply ti_put_ctx]. Qed.
Lemma ti_commit : forall c, ti (sctx_commit E c).
Proof.
  intros. unfold sctx_commit. apply aw_bind; [exact tidies_trans|apply ti_unused|]. intro x. apply aw_bind; [exact tidies_trans|apply ti_mention|].
  intros [m e]. cbn zeta. intro s.
  pose proof (ti_change m e unit (fun _ => sret tt) (fun me _ => mkMethod (me_no me) (me_id me) (me_ret me)
     (mkStub c (sx_cond x) (sx_todo x) 0 false :: me_stubs me) (me_calls me) (me_bypass me))
     (fun _ _ => eq_refl) (fun _ _ => conj eq_refl eq_refl) s) as T.
  unfold sbind in *. destruct (smethod m e s) as [s1 me|s1 x1|]; auto. unfold sret in T.
  destruct (sset_method m e _ s1) as [s2 u|s2 x2|]; auto.
Qed.
Lemma ti_append_all : forall rs c, ti (sappend_all c rs).
Proof. induction rs; intro c; cbn [sappend_all]; st; [apply ti_ctx_append|apply IHrs]. Qed.
Lemma ti_do_when : forall c rs i, ti (sdo_when E c rs i).
Proof. intros. unfold sdo_when. st; try apply ti_append_all. apply ti_commit. Qed.
Lemma ti_do_fake : forall c, ti (sdo_fake E c).
Proof. intros. unfold sdo_fake. st; [apply ti_ctx_append|apply ti_commit]. Qed.
Lemma ti_do_spy : forall c fw, ti (sdo_spy E c fw).
Proof. intros. unfold sdo_spy. st; try apply ti_unused; [apply ti_ctx_append|apply ti_commit]. Qed.
Lemma ti_do_assign : forall c f, ti (sdo_assign E c f).
Proof. intros. unfold sdo_assign. st; [apply ti_ctx_append|apply ti_commit]. Qed.
Lemma ti_start : ti sstart.
Proof. unfold sstart. st. sm. Qed.
Lemma ti_unexpected : forall t n args, ti (sunexpected E t n args).
Proof. intros. unfold sunexpected. st. apply ti_report. Qed.
Lemma ti_default : forall r, ti (sdefault r).
Proof. intros []; cbn; st. Qed.
Lemma ti_get_call : forall i, ti (sget_call i).
Proof. intros. unfold sget_call. st. Qed.
Lemma ti_get_put : forall A i (h : call -> SM A) (g : call -> A -> list val),
  (forall c s, match h c s with SOk s' _ => s' = s | SExn _ _ => False | SUnspec => True end) ->
  ti (let? c := sget_call i in let? a := h c in sput_args i c (g c a)).
Proof.
  intros A i h g HH s. unfold sbind, sget_call, sgets, sbind, sopt. destruct (nth_error (s_calls s) i) as [c|] eqn:N; cbn; auto.
  specialize (HH c s). destruct (h c s) as [s' a|s' x|]; [subst s'|contradiction|auto]. unfold sput_args, smodify.
  apply tidies_subs.
  - intros j c0 NJ. cbn. destruct (Nat.eq_dec i j) as [<-|D].
    + eexists. split; [apply nth_error_upd_same; eapply nth_error_Some; congruence|]. cbn. congruence.
    + rewrite nth_error_upd_other by auto. eauto.
  - intros m e me' M. right. exists me'. auto.
Qed.
Lemma find_same : forall l args s, match sfind l args s with SOk s' _ => s' = s | SExn _ _ => False | SUnspec => True end.
Proof.
  induction l as [|x l IH]; intros args s; cbn [sfind]; [reflexivity|]. unfold sbind, sgets, slift.
  destruct (im_matches_args (s_mem s) (st_cond x) args) as [[]| |]; [reflexivity|apply IH|exact Logic.I|exact Logic.I].
Qed.

Section Open.
Variable rec : op -> SM val.
Hypothesis IH : forall o, ti (rec o).

Lemma ti_put_args : forall i c l s, nth_error (s_calls s) i = Some c ->
  match sput_args i c l s with SOk s' _ => tidies s s' | SExn s' _ => tidies s s' | SUnspec => True end.
Proof.
  intros i c l s N. unfold sput_args, smodify. apply tidies_subs.
  - intros j c0 NJ. cbn. destruct (Nat.eq_dec i j) as [<-|D].
    + eexists. split; [apply nth_error_upd_same; eapply nth_error_Some; congruence|]. cbn. congruence.
    + rewrite nth_error_upd_other by auto. eauto.
  - intros m e me' M. right. exists me'. auto.
Qed.
Lemma ti_call_put : forall A i (g : call -> list val) (k : call -> SM A) (b : call -> bool), (forall c, ti (k c)) ->
  ti (let? c := sget_call i in if b c then (let? _ := sput_args i c (g c) in k c) else unspec).
Proof.
  intros A i g k b K s. unfold sbind at 1. unfold sget_call, sgets, sbind at 1, sopt. destruct (nth_error (s_calls s) i) as [c|] eqn:N; [|exact Logic.I].
  unfold sret. destruct (b c); [|exact Logic.I]. unfold sbind. pose proof (ti_put_args i c (g c) s N) as T.
  destruct (sput_args i c (g c) s) as [s' u|s' x|]; auto. specialize (K c s'). destruct (k c s'); auto; eapply tidies_trans; eauto.
Qed.
Lemma ti_prog : forall p fr, ti (srun_prog rec fr p).
Proof.
  induction p as [v|e|i k IHp|i v k IHp|k IHp|o k IHp]; intro fr; cbn [srun_prog]; try solve [st; auto using ti_get_call].
  destruct fr as [n|this args]; [|st; auto].
  apply (ti_call_put val n (fun x => upd (ca_args x) i v) (fun _ => srun_prog rec (FrInv n) k) (fun x => Nat.ltb i (length (ca_args x)))).
  intro. apply IHp.
Qed.
Lemma ti_set_bypass : forall m e no id b, ti (sset_bypass m e no id b).
Proof.
  intros m e no id b s.
  pose proof (ti_change m e unit (fun me => if Nat.eqb (me_no me) no && Z.eqb (me_id me) id && Bool.eqb (me_bypass me) b then sret tt else unspec)
    (fun me _ => mkMethod (me_no me) (me_id me) (me_ret me) (me_stubs me) (me_calls me) (negb b))) as T.
  specialize (T ltac:(intros me s0; cbn beta; destruct (Nat.eqb (me_no me) no && Z.eqb (me_id me) id && Bool.eqb (me_bypass me) b); [exact eq_refl|exact Logic.I])
    (fun _ _ => conj eq_refl eq_refl) s).
  unfold sset_bypass, sbind in *. destruct (smethod m e s) as [s1 me|s1 x1|]; auto.
  destruct (Nat.eqb (me_no me) no && Z.eqb (me_id me) id && Bool.eqb (me_bypass me) b); auto.
Qed.
Lemma ti_callable : forall f i, ti (srun_callable E rec f i).
Proof.
  intros f i. destruct f as [p| |r vals|r vals|m o slot fw]; cbn [srun_callable];
    try solve [st; auto using ti_prog, ti_get_call, ti_default; sm].
  1, 2: match goal with |- context [sbind (sget_call ?i) (fun x => sbind (sput_args _ x (@?g x)) (fun _ => @?k x))] =>
      let T := fresh in pose proof (ti_call_put val i g k (fun _ => true)) as T; cbn beta iota in T; apply T end;
    intro c; st; sm.
  apply aw_bind; [exact tidies_trans|st|intro k]. apply aw_bind; [exact tidies_trans|st|intro d].
  destruct (is_dtor d slot); [apply aw_unspec|]. apply aw_bind; [exact tidies_trans|apply ti_method|intro me].
  apply aw_bind; [exact tidies_trans|apply ti_set_bypass|intro]. apply aw_guarded; [exact tidies_refl|exact tidies_trans| |apply ti_set_bypass].
  intro s. unfold sbind at 1. unfold sget_call, sgets, sbind at 1, sopt.
  destruct (nth_error (s_calls s) i) as [c|] eqn:N; [|exact Logic.I]. unfold sret. unfold sbind at 1.
  assert (T : match (if fw then sput_args i c (map (moved_from (e_moved E)) (ca_args c)) else fun s0 : sworld => SOk s0 tt) s with
              | SOk s' _ => tidies s s' | SExn s' _ => tidies s s' | SUnspec => True end).
  { destruct fw; [now apply ti_put_args|apply tidies_refl]. }
  destruct ((if fw then sput_args i c (map (moved_from (e_moved E)) (ca_args c)) else fun s0 : sworld => SOk s0 tt) s) as [s1 u|s1 x|]; auto.
  pose proof (IH (OCall o slot (ca_args c)) s1) as T2. destruct (rec (OCall o slot (ca_args c)) s1); auto; eapply tidies_trans; eauto.
Qed.
Lemma ti_change_stub : forall m e n f, ti (schange_stub m e n f).
Proof.
  intros. unfold schange_stub.
  apply (ti_change m e (list stub) (fun me => sopt (replace_stub (me_stubs me) n f))
    (fun me l => mkMethod (me_no me) (me_id me) (me_ret me) l (me_calls me) (me_bypass me))).
  - intros me s. unfold sopt. destruct (replace_stub (me_stubs me) n f); cbn; auto.
  - auto.
Qed.
Lemma ti_play : forall m e x i, ti (splay E rec m e x i).
Proof. intros. unfold splay. st; auto using ti_callable, ti_change_stub, ti_get_call, ti_default. Qed.

Lemma sorted_snoc : forall l n, StronglySorted lt l -> (forall i, In i l -> i < n) -> StronglySorted lt (l ++ [n]).
Proof.
  intros l n S H. induction S as [|a l S IHl F]; cbn; [repeat constructor|]. constructor.
  - apply IHl. intros i IN. apply H. now right.
  - apply Forall_app. split; auto. constructor; auto. apply H. now left.
Qed.

Lemma ti_stubbed : forall m e args, ti (sstubbed E rec m e args).
Proof.
  intros m e args s. unfold sstubbed. unfold sbind at 1. unfold smethod, sget, sgets. unfold sbind at 1 2. unfold sopt.
  destruct (live (s_mocks s) m) as [k|] eqn:K; [|exact Logic.I]. unfold sret at 1.
  destruct (live (sk_meths k) e) as [me|] eqn:ME; [|exact Logic.I]. unfold sret at 1. unfold sstart, sgets.
  unfold sbind at 1. unfold sbind at 1. destruct (s_started s + 1 <? 4294967296)%Z; [|exact Logic.I]. unfold smodify at 1.
  unfold sbind at 1. unfold sbind at 1, smodify at 1. cbn zeta.
  set (s1 := sset_calls _ _).
  assert (C1 : s_calls s1 = s_calls s ++ [mkCall (me_no me) (me_ret me) args false]) by reflexivity.
  assert (M1 : s_mocks s1 = s_mocks s) by reflexivity.
  assert (RC1 : recs s s1).
  { intros i c N. exists c. split; auto. rewrite C1, nth_error_app1; auto. eapply nth_error_Some. congruence. }
  assert (T1 : tidies s s1).
  { apply tidies_subs; auto. intros m' e' me' M. right. exists me'. unfold method_at in *. rewrite M1 in M. auto. }
  unfold sbind at 1. pose proof (find_same (me_stubs me) args s1) as FS.
  destruct (sfind (me_stubs me) args s1) as [s2 [x|]|s2 x|]; [subst s2|subst s2|contradiction|exact Logic.I].
  2:{ pose proof (ti_unexpected Unmatched (Some (Z.of_nat (S (me_no me)))) args s1) as T2.
      destruct (sunexpected E Unmatched (Some (Z.of_nat (S (me_no me)))) args s1); auto; eapply tidies_trans; eauto. }
  unfold sbind at 1. unfold sset_method at 1, sget, sgets. unfold sbind at 1 2. unfold sopt. rewrite M1, K.
  unfold sret at 1, sput_mock, smodify.
  set (s3 := sset_mocks s1 _).
  assert (T3 : tidies s s3).
  { split; [exact RC1|]. intros T m' e' me' M. unfold method_at in M. cbn in M.
    destruct (Nat.eq_dec m m') as [<-|NM].
    - rewrite live_upd_in in M by (eapply live_lt; eauto). cbn in M. destruct (Nat.eq_dec e e') as [<-|NE].
      + rewrite live_upd_in in M by (eapply live_lt; eauto). inversion M; subst me'. clear M.
        destruct (T m e me) as [S O]; [unfold method_at; now rewrite K|]. split; cbn.
        * apply sorted_snoc; auto. intros i IN. destruct (O i IN) as (c & N & _). eapply nth_error_Some. congruence.
        * intros i IN. apply in_app_or in IN. destruct IN as [IN|[<-|[]]].
          -- destruct (O i IN) as (c & N & Q). destruct (RC1 i c N) as (c' & N' & Q'). exists c'. split; [exact N'|congruence].
          -- exists (mkCall (me_no me) (me_ret me) args false). split; [|reflexivity].
             change (nth_error (s_calls s ++ [mkCall (me_no me) (me_ret me) args false]) (length (s_calls s)) = Some (mkCall (me_no me) (me_ret me) args false)).
             now rewrite nth_error_app2, Nat.sub_diag by lia.
      + rewrite live_upd_out in M by auto. apply (tidy_recs s s3 me' me'); auto. apply (T m e'). unfold method_at. now rewrite K.
    - rewrite live_upd_out in M by auto. apply (tidy_recs s s3 me' me'); auto. apply (T m' e'). exact M. }
  assert (TR : forall A (k : SM A), ti k -> match k s3 with SOk s' _ => tidies s s' | SExn s' _ => tidies s s' | SUnspec => True end).
  { intros A k0 T4. specialize (T4 s3). destruct (k0 s3); auto; eapply tidies_trans; eauto. }
  apply TR. destruct (st_todo x) eqn:TD; [destruct (st_busy x); [apply aw_unspec|apply ti_unexpected]|].
  st. apply ti_play.
Qed.
Lemma ti_body : forall c o slot args, ti (sbody E rec c o slot args).
Proof. intros. unfold sbody. st. apply ti_prog. Qed.
Lemma ti_initial : forall k d x o slot args, ti (sinitial E rec k d x o slot args).
Proof. intros. unfold sinitial. st; auto using ti_start, ti_unexpected, ti_body. Qed.
Lemma ti_call : forall o slot args, ti (scall E rec o slot args).
Proof. intros. unfold scall. st; auto using ti_body, ti_initial, ti_stubbed. Qed.
Lemma ti_ctx_of : forall t im, ti (sctx_of E t im).
Proof. intros. unfold sctx_of. st; [apply ti_ctx_new|apply ti_ctx_cond]. Qed.
Lemma ti_free_ctxs : forall cs, ti (sfree_ctxs cs).
Proof. induction cs; cbn [sfree_ctxs]; st. apply ti_ctx_free. Qed.
Lemma ti_with_ctxs : forall ts dn body, (forall cs, ti (body cs)) -> ti (swith_ctxs E ts dn body).
Proof.
  induction ts as [|[t im] ts IHts]; intros dn body HB; cbn [swith_ctxs]; st; auto using ti_free_ctxs, ti_ctx_of.
Qed.
Lemma ti_each : forall (f : nat -> SM unit) cs, (forall c, ti (f c)) -> ti (seach f cs).
Proof. intros f cs H. induction cs; cbn [seach]; st; auto. Qed.
Lemma ti_stmt : forall x cs, ti (srun_stmt E x cs).
Proof.
  intros x cs. destruct (verifies x) eqn:V; [apply ti_looks; now apply looks_stmt|].
  destruct x; try discriminate; cbn [srun_stmt]; unfold sunit; st; auto using ti_do_when, ti_do_assign, ti_each, ti_do_fake, ti_do_spy.
Qed.
Lemma ti_step : forall o, ti (sstep E rec o).
Proof.
  intro o. destruct (verifies_op o) eqn:V; [apply ti_looks; destruct o; try discriminate; cbn [sstep]; unfold snat, sunit;
    aw looked_refl looked_trans; auto using looks_exp_new, looks_new_exp, looks_exp_quant, looks_exp_bool, looks_exp_free|].
  destruct o; try discriminate; cbn [sstep]; unfold snat, sunit;
    try solve [st; auto using ti_call, ti_new, ti_spy, ti_destroy, ti_reset, ti_clear, ti_ctx_new, ti_ctx_cond,
      ti_ctx_free, ti_do_when, ti_do_fake, ti_do_spy, ti_do_assign, ti_put_obj; sm].
  apply ti_with_ctxs. intro. apply ti_stmt.
Qed.
End Open.

Lemma ti_exec : forall f o, ti (sexec E f o).
Proof. induction f as [|f IH]; intro o; [apply aw_unspec|]. cbn [sexec]. apply ti_step. exact IH. Qed.
Lemma ti_exec_all : forall f os, ti (sexec_all E f os).
Proof. intros f os. induction os as [|o os IH]; cbn [sexec_all]; st. apply ti_exec. Qed.

(** Every method's history: calls of this method, in order, each once. *)
Lemma histories : forall m0 f os s rs, sexec_all E f os (sinit m0) = SOk s rs -> tidy s.
Proof.
  intros m0 f os s rs H. pose proof (ti_exec_all f os (sinit m0)) as T. rewrite H in T. apply T.
  intros m e me M. unfold method_at, live in M. cbn in M. destruct m; discriminate.
Qed.
End H.
