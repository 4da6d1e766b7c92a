(** Programs cannot tell alike worlds apart: whatever the abstract machine answers in
    one, it answers in the other. *)
From Coq Require Import Bool ZArith Lia List.
From Verif Require Import Base CInt Values ArgMatchers InvMatchers ActionSeq Sequences MatchAnalysis
  Proxy Events Expectation ReturnSet Syntax World Spec_World WorldRel WorldSimA WorldSimB WorldSimF Spec_View SpecFacts Spec_Alike.
Import ListNotations.
Open Scope nat_scope.

Section S.
Variable E : env.
Variable seen : bool.
Variable F : Z -> Z -> Prop.
Variable okt : target -> bool.
Variables first shift : nat.
Hypothesis fills : forall a b t, F a b -> okt t = true -> Z.eqb (target_id t) b = Z.eqb (target_id t) a.
Hypothesis zero : F 0%Z 0%Z.
Hypothesis full : F int_max int_max.
Local Notation alike := (alike seen F okt first shift).
Local Notation moved := (moved first shift).
Local Notation moved_stub := (moved_stub first shift).
Local Notation same_method := (same_method seen first shift).
Local Notation same_mock := (same_mock seen F first shift).
Local Notation same_record := (same_record seen).

Definition rsim {A B} (P : A -> B -> Prop) (m : SM A) (m' : SM B) : Prop := forall s s', alike s s' ->
  match m s with
  | SOk s1 a => exists s1' a', m' s' = SOk s1' a' /\ alike s1 s1' /\ P a a'
  | SExn s1 e => exists s1', m' s' = SExn s1' e /\ alike s1 s1'
  | SUnspec => True
  end.
Local Notation sim := (rsim eq).
Ltac ex := repeat match goal with |- exists _, _ => eexists | |- _ /\ _ => split; [try reflexivity|] end; eauto.

Lemma rsim_bind : forall A B A' B' (P : A -> A' -> Prop) (Q : B -> B' -> Prop) m m' k k',
  rsim P m m' -> (forall a a', P a a' -> rsim Q (k a) (k' a')) -> rsim Q (sbind m k) (sbind m' k').
Proof.
  intros A B A' B' P Q m m' k k' M K s s' H. unfold sbind. specialize (M s s' H). destruct (m s) as [s1 a|s1 e|]; auto.
  - destruct M as (s1' & a' & -> & H1 & PA). exact (K a a' PA s1 s1' H1).
  - destruct M as (s1' & -> & H1). eauto.
Qed.
Lemma sim_bind : forall A B B' (Q : B -> B' -> Prop) (m m' : SM A) k k',
  sim m m' -> (forall a, rsim Q (k a) (k' a)) -> rsim Q (sbind m k) (sbind m' k').
Proof. intros. eapply rsim_bind; eauto. intros a a' <-. auto. Qed.
Lemma sim_ret : forall A (a : A), sim (sret a) (sret a).
Proof. intros A a s s' H. cbn. exists s', a. auto. Qed.
Lemma rsim_ret : forall A B (P : A -> B -> Prop) a b, P a b -> rsim P (sret a) (sret b).
Proof. intros A B P a b H s s' AL. cbn. exists s', b. auto. Qed.
Lemma sim_throw : forall A B (P : A -> B -> Prop) e, rsim P (sthrow e) (sthrow e).
Proof. intros A B P e s s' H. cbn. ex. Qed.
Lemma sim_unspec : forall A B (P : A -> B -> Prop) m, rsim P (@unspec A) m.
Proof. intros A B P m s s' H. exact I. Qed.
Lemma sim_lift : forall A (o : outcome A), sim (slift o) (slift o).
Proof. intros A [a| |] s s' H; cbn; auto. exists s', a. auto. Qed.
Lemma sim_opt : forall A (o : option A), sim (sopt o) (sopt o).
Proof. intros A [a|]; [apply sim_ret|apply sim_unspec]. Qed.
Lemma sim_gets : forall A (f : sworld -> A), (forall s s', alike s s' -> f s' = f s) -> sim (sgets f) (sgets f).
Proof. intros A f H s s' AL. cbn. exists s', (f s'). split; [reflexivity|]. split; auto. symmetry. auto. Qed.
Lemma sim_attempt : forall A (m m' : SM A), sim m m' -> sim (sattempt m) (sattempt m').
Proof.
  intros A m m' M s s' H. unfold sattempt. specialize (M s s' H). destruct (m s) as [s1 a|s1 e|]; auto.
  - destruct M as (s1' & a' & -> & H1 & <-). eauto.
  - destruct M as (s1' & -> & H1). eauto.
Qed.
Lemma sim_rethrow : forall A (r : A + exn), sim (srethrow r) (srethrow r).
Proof. intros A [a|e]; [apply sim_ret|apply sim_throw]. Qed.
Lemma sim_guarded : forall A (m m' : SM A) f f', sim m m' -> sim f f' -> sim (sguarded m f) (sguarded m' f').
Proof.
  intros. unfold sguarded. apply sim_bind; [now apply sim_attempt|]. intro. apply sim_bind; auto. intro. apply sim_rethrow.
Qed.
Lemma sim_modify : forall f, (forall s s', alike s s' -> alike (f s) (f s')) -> sim (smodify f) (smodify f).
Proof. intros f H s s' AL. cbn. ex. Qed.
Lemma sim_class : forall c, sim (sclass E c) (sclass E c).
Proof. intros. apply sim_opt. Qed.

(** *** Lists *)
Lemma opt_live : forall A B (P : A -> B -> Prop) l l' i, Forall2 (opt_rel P) l l' ->
  opt_rel P (live l i) (live l' i).
Proof.
  intros A B P l l' i H. revert i. induction H as [|x y l l' X H IH]; intros [|i]; unfold live; cbn; try constructor.
  - exact X.
  - apply IH.
Qed.
Lemma Forall2_length' : forall A B (P : A -> B -> Prop) l l', Forall2 P l l' -> length l' = length l.
Proof. intros A B P l l' H. induction H; cbn; auto. Qed.
Lemma Forall2_nth : forall A B (P : A -> B -> Prop) l l' i x, Forall2 P l l' -> nth_error l i = Some x ->
  exists y, nth_error l' i = Some y /\ P x y.
Proof.
  intros A B P l l' i x H. revert i. induction H; intros [|i] N; cbn in *; try discriminate.
  - inversion N; subst. eauto.
  - auto.
Qed.
Lemma Forall2_snoc : forall A B (P : A -> B -> Prop) l l' x y, Forall2 P l l' -> P x y -> Forall2 P (l ++ [x]) (l' ++ [y]).
Proof. intros. apply Forall2_app; auto. Qed.
Lemma Forall2_upd' : forall A B (P : A -> B -> Prop) l l' i a b, Forall2 P l l' -> P a b -> Forall2 P (upd l i a) (upd l' i b).
Proof. intros. now apply Forall2_upd. Qed.

(** *** State *)
Lemma alike_call : forall s s' i c, alike s s' -> nth_error (s_calls s) i = Some c ->
  exists c', nth_error (s_calls s') i = Some c' /\ same_record c c'.
Proof. intros s s' i c H N. eapply Forall2_nth; eauto. apply H. Qed.

Lemma alike_mock : forall s s' m, alike s s' -> opt_rel same_mock (live (s_mocks s) m) (live (s_mocks s') m).
Proof. intros s s' m H. apply opt_live. apply H. Qed.

Lemma sim_get_obj : forall o, sim (sget s_objs o) (sget s_objs o).
Proof. intros o. unfold sget. apply sim_bind; [apply sim_gets; intros s s' H; apply H|]. intro. apply sim_opt. Qed.
Lemma sim_get_mock : forall m, rsim same_mock (sget s_mocks m) (sget s_mocks m).
Proof.
  intros m s s' H. unfold sget, sbind, sgets. pose proof (alike_mock _ _ m H) as O. inversion O as [|k k' K]; cbn; auto. ex.
Qed.
Lemma sim_get_call : forall i, rsim same_record (sget_call i) (sget_call i).
Proof.
  intros i s s' H. unfold sget_call, sbind, sgets. destruct (nth_error (s_calls s) i) as [c|] eqn:N; cbn; auto.
  destruct (alike_call _ _ _ _ H N) as (c' & -> & Q). cbn. ex.
Qed.
Lemma sim_get_ctx : forall c, rsim (fun x y => x = y /\ okt (sx_target x) = true) (sget s_ctxs c) (sget s_ctxs (moved c)).
Proof.
  intros c s s' H. unfold sget, sbind, sgets. rewrite (al_ctxs _ _ _ _ _ _ _ H).
  destruct (live (s_ctxs s) c) as [x|] eqn:L; cbn; auto. exists s', x. split; auto. split; auto. split; auto.
  exact (al_okt _ _ _ _ _ _ _ H _ _ L).
Qed.

Ltac al := match goal with H : Spec_Alike.alike _ _ _ _ _ _ _ |- _ => destruct H; constructor; cbn; auto; try congruence end.

Lemma sim_put_obj : forall o x, sim (sput_obj o x) (sput_obj o x).
Proof. intros. apply sim_modify. intros s s' H. al. Qed.
Lemma alike_put_mock : forall s s' m k k', alike s s' -> same_mock k k' ->
  alike (sset_mocks s (upd (s_mocks s) m (Some k))) (sset_mocks s' (upd (s_mocks s') m (Some k'))).
Proof. intros s s' m k k' H K. al. apply Forall2_upd'; auto. now constructor. Qed.
Lemma sim_put_mock : forall m k k', same_mock k k' -> sim (sput_mock m k) (sput_mock m k').
Proof. intros m k k' K s s' H. cbn. exists (sset_mocks s' (upd (s_mocks s') m (Some k'))), tt. split; auto. split; auto. now apply alike_put_mock. Qed.
Lemma live_upd_inv : forall A (h : list (option A)) i x j y, live (upd h i x) j = Some y -> live h j = Some y \/ x = Some y.
Proof.
  intros A h i x j y H. unfold live in *. rewrite nth_error_upd in H. destruct (Nat.eqb i j).
  - destruct (Nat.ltb i (length h)); auto; discriminate.
  - auto.
Qed.
Lemma moved_inj : forall a b, moved a = moved b -> a = b.
Proof.
  intros a b H. unfold Spec_Alike.moved in H. destruct (Nat.ltb_spec a first), (Nat.ltb_spec b first); lia.
Qed.
Lemma moved_eqb : forall a b, Nat.eqb (moved a) (moved b) = Nat.eqb a b.
Proof.
  intros a b. destruct (Nat.eqb_spec a b) as [<-|N]; [apply Nat.eqb_refl|]. apply Nat.eqb_neq. intro Q. apply N. now apply moved_inj.
Qed.
Lemma moved_length : forall s s', alike s s' -> length (s_ctxs s') = moved (length (s_ctxs s)).
Proof.
  intros s s' H. unfold Spec_Alike.moved. rewrite (al_length _ _ _ _ _ _ _ H).
  destruct (Nat.ltb_spec (length (s_ctxs s)) first); auto. pose proof (al_first _ _ _ _ _ _ _ H). lia.
Qed.
Lemma moved_lt : forall s s' c, alike s s' -> (moved c < length (s_ctxs s') <-> c < length (s_ctxs s)).
Proof.
  intros s s' c H. pose proof (al_length _ _ _ _ _ _ _ H). pose proof (al_first _ _ _ _ _ _ _ H).
  unfold Spec_Alike.moved. destruct (Nat.ltb_spec c first); lia.
Qed.
Lemma live_upd_eq : forall A (h : list (option A)) i x j,
  live (upd h i x) j = if Nat.eqb i j then (if Nat.ltb i (length h) then x else None) else live h j.
Proof.
  intros. unfold live. rewrite nth_error_upd. destruct (Nat.eqb i j); auto. destruct (Nat.ltb i (length h)); auto.
Qed.
Lemma alike_upd_ctx : forall s s' c x, alike s s' -> (forall y, x = Some y -> okt (sx_target y) = true) ->
  alike (sset_ctxs s (upd (s_ctxs s) c x)) (sset_ctxs s' (upd (s_ctxs s') (moved c) x)).
Proof.
  intros s s' c x H OK. pose proof (moved_lt _ _ c H) as LT. al.
  - now rewrite upd_length.
  - now rewrite !upd_length.
  - intro j. rewrite !live_upd_eq, moved_eqb, al_ctxs. destruct (Nat.eqb c j); auto.
    destruct (Nat.ltb_spec c (length (s_ctxs s))), (Nat.ltb_spec (moved c) (length (s_ctxs s'))); auto; lia.
  - intros j y L. destruct (live_upd_inv _ _ _ _ _ _ L) as [Q|Q]; [eauto|auto].
Qed.
Lemma sim_put_ctx : forall c x, okt (sx_target x) = true -> sim (sput_ctx c x) (sput_ctx (moved c) x).
Proof.
  intros c x OK s s' H. cbn. exists (sset_ctxs s' (upd (s_ctxs s') (moved c) (Some x))), tt. split; auto. split; auto.
  apply alike_upd_ctx; auto. intros y Q. congruence.
Qed.
Lemma sim_put_args : forall i c c' l, same_record c c' -> sim (sput_args i c l) (sput_args i c' l).
Proof.
  intros i c c' l (A & B & C & D) s s' H. unfold sput_args, smodify. eexists. eexists. split; [reflexivity|]. split; auto.
  al. apply Forall2_upd'; auto. repeat split; cbn; auto.
Qed.
Lemma sim_report : forall e, sim (sreport E e) (sreport E e).
Proof.
  intro e. unfold sreport. apply sim_bind; [apply sim_gets; intros s s' H; apply H|]. intro c.
  destruct (ctx_handle (e_react E) (e_builtin E) c e) as [dn x].
  apply sim_bind; [apply sim_modify; intros s s' H; al|]. intro. destruct x; [apply sim_throw|apply sim_ret].
Qed.
Lemma sim_start : sim sstart sstart.
Proof.
  unfold sstart. apply sim_bind; [apply sim_gets; intros s s' H; apply H|]. intro n. destruct (n + 1 <? 4294967296)%Z; [|apply sim_unspec].
  apply sim_modify. intros s s' H. al.
Qed.
Lemma sim_unexpected : forall t m args, sim (sunexpected E t m args) (sunexpected E t m args).
Proof. intros. unfold sunexpected. apply sim_bind; [apply sim_report|]. intro. apply sim_throw. Qed.

(** ** Mocks *)
Lemma none_rel : forall n, Forall2 (opt_rel same_method) (repeat None n) (repeat None n).
Proof. induction n; cbn; constructor; auto. constructor. Qed.

Lemma sim_mocks_len : sim (sgets (fun s => length (s_mocks s))) (sgets (fun s => length (s_mocks s))).
Proof. apply sim_gets. intros s s' H. eapply Forall2_length'. apply H. Qed.

Lemma sim_mock_new : forall c, sim (smock_new E c) (smock_new E c).
Proof.
  intro c. unfold smock_new. apply sim_bind; [apply sim_class|]. intro d. destruct (class_fits d); [|apply sim_unspec].
  intros s s' H. unfold sbind, sgets, smodify, sret. eexists. eexists. split; [reflexivity|].
  assert (L : length (s_mocks s') = length (s_mocks s)) by (eapply Forall2_length'; apply H).
  split; [|auto]. al.
  apply Forall2_snoc; auto. constructor. repeat split; cbn; auto; try congruence. apply none_rel.
Qed.

Lemma sim_mock_spy : forall c o, sim (smock_spy E c o) (smock_spy E c o).
Proof.
  intros c o. unfold smock_spy. apply sim_bind; [apply sim_class|]. intro d. apply sim_bind; [apply sim_get_obj|]. intro x.
  apply sim_bind; [apply sim_class|]. intro dx. destruct (so_mock x); [apply sim_unspec|].
  destruct (class_fits d && Nat.leb (cl_size d) (cl_size dx)); [|apply sim_unspec].
  intros s s' H. unfold sbind, sgets, smodify, sret, sput_obj, smodify. eexists. eexists. split; [reflexivity|].
  assert (L : length (s_mocks s') = length (s_mocks s)) by (eapply Forall2_length'; apply H).
  split; [|auto]. al.
  apply Forall2_snoc; auto. constructor. repeat split; cbn; auto; try congruence. apply none_rel.
Qed.

Lemma quiet_same : forall k k', same_mock k k' -> quiet k' = quiet k.
Proof.
  intros k k' (_ & _ & _ & _ & H). unfold quiet. induction H as [|x y l l' X H IH]; cbn; auto. rewrite IH. f_equal.
  inversion X as [|a b (A & B & C & D & G & _)]; auto. cbn. rewrite D, G. f_equal. clear. induction (me_stubs a); cbn; auto. now rewrite IHl.
Qed.

Lemma sim_zero : forall k k', same_mock k k' -> sim (szero k) (szero k').
Proof.
  intros k k' (A & B & C & D & H). unfold szero. rewrite B, C. destruct (sk_owner k); [|apply sim_ret].
  apply sim_bind; [apply sim_get_obj|]. intro. apply sim_put_obj.
Qed.

Lemma sim_reset : forall m, sim (smock_reset m) (smock_reset m).
Proof.
  intro m. unfold smock_reset. eapply rsim_bind; [apply sim_get_mock|]. intros k k' K. rewrite (quiet_same _ _ K).
  destruct (quiet k); [|apply sim_unspec]. apply sim_bind; [apply sim_put_mock|intro; now apply sim_zero].
  destruct K as (A & B & C & D & H). repeat split; cbn; auto.
  induction H; cbn; constructor; auto. constructor.
Qed.

Lemma sim_clear : forall m, sim (smock_clear m) (smock_clear m).
Proof.
  intro m. unfold smock_clear. eapply rsim_bind; [apply sim_get_mock|]. intros k k' K.
  apply sim_bind; [apply sim_put_mock|intro; now apply sim_zero].
  destruct K as (A & B & C & D & H). repeat split; cbn; auto.
  induction H as [|x y l l' X H IH]; cbn; constructor; auto.
  inversion X as [|a b (A1 & A2 & A3 & A4 & A5 & _)]; subst; constructor. repeat split; cbn; auto.
Qed.

Lemma sim_destroy : forall m, sim (smock_destroy m) (smock_destroy m).
Proof.
  intro m. unfold smock_destroy. eapply rsim_bind; [apply sim_get_mock|]. intros k k' K. rewrite (quiet_same _ _ K).
  destruct K as (A & B & C & D & H). rewrite B, C.
  apply sim_bind; [apply sim_get_obj|]. intro x. destruct (quiet k); [|apply sim_unspec].
  apply sim_bind.
  - apply sim_modify. intros s s' AL. al. apply Forall2_upd'; auto. constructor.
  - intro. destruct (sk_owner k); [|apply sim_put_obj]. apply sim_modify. intros s s' AL. al.
Qed.

(** ** Method expressions *)
Lemma sim_target : forall t, sim (starget E t) (starget E t).
Proof.
  intro t. unfold starget. eapply rsim_bind; [apply sim_get_mock|]. intros k k' (A & B & C & D & H). rewrite A.
  apply sim_bind; [apply sim_class|]. intro d. destruct t.
  - destruct (Nat.ltb slot (cl_size d) && negb (is_dtor d slot)); [apply sim_ret|apply sim_unspec].
  - destruct (cl_dtor d); [apply sim_ret|apply sim_throw].
Qed.

Lemma sim_set_method : forall m slot x x', same_method x x' -> sim (sset_method m slot x) (sset_method m slot x').
Proof.
  intros m slot x x' X. unfold sset_method. eapply rsim_bind; [apply sim_get_mock|]. intros k k' (A & B & C & D & H).
  apply sim_put_mock. repeat split; cbn; auto. apply Forall2_upd'; auto. now constructor.
Qed.

Lemma id_free_same : forall k k' t, same_mock k k' -> okt t = true -> id_free k' (target_id t) = id_free k (target_id t).
Proof.
  intros k k' t (_ & _ & _ & D & H) OK. unfold id_free. rewrite (fills _ _ _ D OK). f_equal.
  induction H as [|x y l l' X H IH]; cbn; auto. rewrite IH. f_equal.
  inversion X as [|a b (A & B & _)]; auto. cbn. now rewrite B.
Qed.

Lemma starget_id : forall t s s' m slot id r, starget E t s = SOk s' (m, slot, id, r) -> id = target_id t.
Proof.
  intros t s s' m slot id r H. unfold starget, sbind in H. destruct (sget s_mocks (target_mock t) s) as [s1 k| |]; try discriminate.
  destruct (sclass E (sk_class k) s1) as [s2 d| |]; try discriminate. destruct t.
  - destruct (Nat.ltb slot0 (cl_size d) && negb (is_dtor d slot0)); inversion H; reflexivity.
  - destruct (cl_dtor d); inversion H; reflexivity.
Qed.

Lemma sim_mention : forall t, okt t = true -> sim (smention E t) (smention E t).
Proof.
  intros t OK. unfold smention.
  apply rsim_bind with (P := fun a b => a = b /\ (let '(_, _, id, _) := a in id = target_id t)).
  - intros s s' H. pose proof (sim_target t s s' H) as T. destruct (starget E t s) as [s1 [[[m slot] id] r]|s1 e|] eqn:Q; auto.
    destruct T as (s1' & a' & Q' & H1 & <-). exists s1', (m, slot, id, r). split; auto. split; auto. split; auto.
    eapply starget_id; eauto.
  - intros [[[m slot] id] r] a' (<- & ID). eapply rsim_bind; [apply sim_get_mock|]. intros k k' K.
    apply rsim_bind with (P := opt_rel same_method).
    + intros s s' H. destruct K as (_ & _ & _ & _ & FM). destruct (nth_error (sk_meths k) slot) as [x|] eqn:N; cbn; auto.
      destruct (Forall2_nth _ _ _ _ _ _ _ FM N) as (y & -> & XY). cbn. ex.
    + intros x x' X. destruct X; [|apply sim_ret].
      apply sim_bind; [apply sim_gets; intros s s' H; apply H|]. intro n. subst id. rewrite (id_free_same _ _ _ K OK).
      destruct (id_free k (target_id t) && (Z.of_nat n + 1 <? 4294967296)%Z); [|apply sim_unspec].
      apply sim_bind; [apply sim_modify; intros s s' H; al|]. intro.
      apply sim_bind; [|intro; apply sim_ret]. apply sim_set_method. repeat split; auto.
Qed.

Lemma sim_ctx_free : forall c, sim (sctx_free c) (sctx_free (moved c)).
Proof.
  intro c. unfold sctx_free. eapply rsim_bind; [apply sim_get_ctx|]. intros x x' _ s s' H. cbn.
  exists (sset_ctxs s' (upd (s_ctxs s') (moved c) None)), tt. split; auto. split; auto. apply alike_upd_ctx; auto. discriminate.
Qed.

Lemma rsim_attempt : forall A B (P : A -> B -> Prop) m m', rsim P m m' ->
  rsim (fun x y => match x, y with inl a, inl b => P a b | inr e, inr e' => e' = e | _, _ => False end) (sattempt m) (sattempt m').
Proof.
  intros A B P m m' M s s' H. unfold sattempt. specialize (M s s' H). destruct (m s) as [s1 a|s1 e|]; auto.
  - destruct M as (s1' & a' & -> & H1 & Q). exists s1', (inl a'). auto.
  - destruct M as (s1' & -> & H1). exists s1', (inr e). auto.
Qed.

Local Notation handle := (fun a b => b = moved a).

Lemma sim_ctx_new : forall t, okt t = true -> rsim handle (sctx_new E t) (sctx_new E t).
Proof.
  intros t OK. unfold sctx_new. eapply rsim_bind; [apply sim_get_mock|]. intros k k' _.
  apply rsim_bind with (P := fun h h' => length h' = moved (length h)).
  - intros s s' H. cbn. exists s', (s_ctxs s'). split; auto. split; auto. now apply moved_length.
  - intros h h' ->. apply sim_bind.
    + apply sim_modify. intros s s' H. pose proof (moved_length _ _ H) as ML. al.
      * rewrite app_length. lia.
      * rewrite !app_length. cbn. lia.
      * intro c. rewrite !live_app, ML, moved_eqb. destruct (Nat.eqb c (length (s_ctxs s))); auto.
      * intros j y L. rewrite live_app in L. destruct (Nat.eqb j (length (s_ctxs s))); [|eauto]. inversion L; subst. exact OK.
    + intro. apply sim_bind; [apply sim_attempt; now apply sim_mention|]. intros [p|e]; [now apply rsim_ret|].
      apply sim_bind; [apply sim_ctx_free|]. intro. apply sim_throw.
Qed.

Lemma sim_unused : forall c, rsim (fun x y => x = y /\ okt (sx_target x) = true) (sctx_unused c) (sctx_unused (moved c)).
Proof.
  intro c. unfold sctx_unused. eapply rsim_bind; [apply sim_get_ctx|]. intros x y (<- & OK).
  destruct (sx_committed x); [apply sim_unspec|]. now apply rsim_ret.
Qed.

Lemma sim_ctx_cond : forall c im, sim (sctx_cond c im) (sctx_cond (moved c) im).
Proof. intros. unfold sctx_cond. eapply rsim_bind; [apply sim_unused|]. intros x y (<- & OK). now apply sim_put_ctx. Qed.
Lemma sim_ctx_append : forall c a, sim (sctx_append c a) (sctx_append (moved c) a).
Proof. intros. unfold sctx_append. eapply rsim_bind; [apply sim_unused|]. intros x y (<- & OK). now apply sim_put_ctx. Qed.

Lemma sim_method : forall m slot, rsim same_method (smethod m slot) (smethod m slot).
Proof.
  intros m slot. unfold smethod. eapply rsim_bind; [apply sim_get_mock|]. intros k k' (_ & _ & _ & _ & H) s s' AL.
  pose proof (opt_live _ _ _ _ _ slot H) as O. inversion O; cbn; auto. ex.
Qed.

Lemma sim_commit : forall c, sim (sctx_commit E c) (sctx_commit E (moved c)).
Proof.
  intro c. unfold sctx_commit. eapply rsim_bind; [apply sim_unused|]. intros x y (<- & OK).
  apply sim_bind; [now apply sim_mention|]. intros [m slot].
  eapply rsim_bind; [apply sim_method|]. intros me me' (A & B & C & D & G & K).
  apply sim_bind; [|intro; now apply sim_put_ctx]. apply sim_set_method. repeat split; cbn; auto. now rewrite D.
Qed.

Lemma sim_append_all : forall rs c, sim (sappend_all c rs) (sappend_all (moved c) rs).
Proof.
  induction rs as [|r rs IH]; intro c; cbn [sappend_all]; [apply sim_ret|]. apply sim_bind; [apply sim_ctx_append|]. intro. apply IH.
Qed.

Lemma sim_do_when : forall c rs i, sim (sdo_when E c rs i) (sdo_when E (moved c) rs i).
Proof.
  intros c rs [[n e]|]; unfold sdo_when.
  - apply sim_bind; [apply sim_append_all|]. intro. apply sim_throw.
  - apply sim_bind; [apply sim_append_all|]. intro. apply sim_bind; [apply sim_gets; intros s s' H; apply H|]. intro u.
    destruct (Nat.eqb u 0); [apply sim_commit|apply sim_ret].
Qed.
Lemma sim_do_fake : forall c, sim (sdo_fake E c) (sdo_fake E (moved c)).
Proof. intro. unfold sdo_fake. apply sim_bind; [apply sim_ctx_append|]. intro. apply sim_commit. Qed.
Lemma sim_do_assign : forall c f, sim (sdo_assign E c f) (sdo_assign E (moved c) f).
Proof. intros. unfold sdo_assign. apply sim_bind; [apply sim_ctx_append|]. intro. apply sim_commit. Qed.
Lemma sim_do_spy : forall c fw, sim (sdo_spy E c fw) (sdo_spy E (moved c) fw).
Proof.
  intros. unfold sdo_spy. eapply rsim_bind; [apply sim_unused|]. intros x y (<- & OK). apply sim_bind.
  - destruct (sx_target x); [|apply sim_ret]. eapply rsim_bind; [apply sim_get_mock|]. intros k k' (_ & B & _). rewrite B. apply sim_ret.
  - intro. apply sim_bind; [apply sim_ctx_append|]. intro. apply sim_commit.
Qed.

(** ** Calls *)
Lemma sim_default : forall r, sim (sdefault r) (sdefault r).
Proof. intros []; cbn; first [apply sim_ret|apply sim_throw|apply sim_unspec]. Qed.

Lemma sim_find : forall l args, rsim (fun a b => b = option_map moved_stub a) (sfind l args) (sfind (map moved_stub l) args).
Proof.
  induction l as [|st l IH]; intro args; cbn [sfind map]; [now apply rsim_ret|].
  apply sim_bind; [apply sim_gets; intros s s' H; apply H|]. intro mm. apply sim_bind; [apply sim_lift|]. intros []; [now apply rsim_ret|apply IH].
Qed.

Lemma replace_moved : forall f n l, (forall st, f (moved_stub st) = option_map moved_stub (f st)) ->
  replace_stub (map moved_stub l) (moved n) f = option_map (map moved_stub) (replace_stub l n f).
Proof.
  intros f n l H. induction l as [|st l IH]; cbn [replace_stub map]; auto. cbn [st_no Spec_Alike.moved_stub]. rewrite moved_eqb, IH.
  change (mkStub (moved (st_no st)) (st_cond st) (st_todo st) (st_used st) (st_busy st)) with (moved_stub st). rewrite H.
  destruct (Nat.eqb (st_no st) n); [destruct (f st); auto|]. destruct (replace_stub l n f); auto.
Qed.
Lemma begin_moved : forall st, begin_action (moved_stub st) = option_map moved_stub (begin_action st).
Proof. intros [a b c d e]. unfold begin_action. cbn. destruct c as [|[] c]; auto. Qed.
Lemma end_moved : forall u st, end_action u (moved_stub st) = option_map moved_stub (end_action u st).
Proof.
  intros u [a b c d e]. unfold end_action. cbn. repeat match goal with |- context [match ?x with _ => _ end] => destruct x; auto end.
Qed.

Lemma sim_change : forall m slot n f, (forall st, f (moved_stub st) = option_map moved_stub (f st)) ->
  sim (schange_stub m slot n f) (schange_stub m slot (moved n) f).
Proof.
  intros m slot n f H. unfold schange_stub. eapply rsim_bind; [apply sim_method|]. intros me me' (A & B & C & D & G & K).
  rewrite D, (replace_moved f n (me_stubs me) H).
  apply rsim_bind with (P := fun l l' => l' = map moved_stub l).
  - destruct (replace_stub (me_stubs me) n f) as [l|]; [now apply rsim_ret|apply sim_unspec].
  - intros l l' ->. apply sim_set_method. repeat split; auto.
Qed.

Lemma sim_set_bypass : forall m slot no id b, sim (sset_bypass m slot no id b) (sset_bypass m slot no id b).
Proof.
  intros. unfold sset_bypass. eapply rsim_bind; [apply sim_method|]. intros me me' (A & B & C & D & G & K). rewrite A, B, G.
  destruct (Nat.eqb (me_no me) no && Z.eqb (me_id me) id && Bool.eqb (me_bypass me) b); [|apply sim_unspec].
  apply sim_set_method. repeat split; cbn; auto.
Qed.

Section Open.
Variables rec rec' : op -> SM val.
Hypothesis REC : forall o, sim (rec o) (rec' o).

Lemma sim_prog : forall p fr, sim (srun_prog rec fr p) (srun_prog rec' fr p).
Proof.
  induction p as [v|e|i k IH|i v k IH|k IH|o k IH]; intro fr; cbn [srun_prog].
  - apply sim_ret.
  - apply sim_throw.
  - destruct fr.
    + eapply rsim_bind; [apply sim_get_call|]. intros c c' (_ & _ & C & _). rewrite C.
      destruct (nth_error (ca_args c) i); [apply IH|apply sim_unspec].
    + destruct (nth_error args i); [apply IH|apply sim_unspec].
  - destruct fr.
    + eapply rsim_bind; [apply sim_get_call|]. intros c c' Q. pose proof Q as (_ & _ & C & _). rewrite C.
      destruct (Nat.ltb i (length (ca_args c))); [|apply sim_unspec].
      apply sim_bind; [now apply sim_put_args|]. intro. apply IH.
    + destruct (Nat.ltb i (length args)); [apply IH|apply sim_unspec].
  - destruct fr; [apply sim_unspec|apply IH].
  - apply sim_bind; [apply sim_attempt, REC|]. intro. apply IH.
Qed.

Lemma sim_callable : forall f i, sim (srun_callable E rec f i) (srun_callable E rec' f i).
Proof.
  intros f i. destruct f as [p| |r vals|r vals|m o slot fw]; cbn [srun_callable].
  - apply sim_prog.
  - eapply rsim_bind; [apply sim_get_call|]. intros c c' (_ & B & _). rewrite B. apply sim_default.
  - eapply rsim_bind; [apply sim_get_call|]. intros c c' Q. pose proof Q as (_ & _ & C & _). rewrite C.
    apply sim_bind; [now apply sim_put_args|]. intro.
    apply sim_bind; [apply sim_gets; intros s s' H; apply H|]. intro mm. apply sim_bind; [apply sim_lift|]. intros [mm' v].
    apply sim_bind; [apply sim_modify; intros s s' H; al|]. intro. apply sim_ret.
  - eapply rsim_bind; [apply sim_get_call|]. intros c c' Q. pose proof Q as (_ & _ & C & _). rewrite C.
    apply sim_bind; [now apply sim_put_args|]. intro.
    apply sim_bind; [apply sim_gets; intros s s' H; apply H|]. intro mm. apply sim_bind; [apply sim_lift|]. intros [mm' v].
    apply sim_bind; [apply sim_modify; intros s s' H; al|]. intro. apply sim_ret.
  - eapply rsim_bind; [apply sim_get_mock|]. intros k k' (A & _). rewrite A. apply sim_bind; [apply sim_class|]. intro d.
    destruct (is_dtor d slot); [apply sim_unspec|].
    eapply rsim_bind; [apply sim_method|]. intros me me' (N & ID & _). rewrite N, ID.
    apply sim_bind; [apply sim_set_bypass|]. intro. apply sim_guarded; [|apply sim_set_bypass].
    eapply rsim_bind; [apply sim_get_call|]. intros c c' Q. pose proof Q as (_ & _ & C & _). rewrite C.
    apply sim_bind; [destruct fw; [now apply sim_put_args|apply sim_ret]|]. intro. apply REC.
Qed.

Lemma sim_play : forall m slot st i, sim (splay E rec m slot st i) (splay E rec' m slot (moved_stub st) i).
Proof.
  intros m slot st i. unfold splay. cbn [st_todo st_busy st_no st_used Spec_Alike.moved_stub]. destruct (st_todo st) as [|[f n|f| |f|] rest].
  - apply sim_unspec.
  - destruct (st_busy st || (n <? 1)%Z); [apply sim_unspec|]. apply sim_bind; [apply sim_change, begin_moved|]. intro.
    apply sim_guarded; [apply sim_callable|apply sim_change, end_moved].
  - apply sim_callable.
  - eapply rsim_bind; [apply sim_get_call|]. intros c c' (_ & B & _). rewrite B. apply sim_default.
  - apply sim_callable.
  - apply sim_unspec.
Qed.

Lemma sim_stubbed : forall m slot args, sim (sstubbed E rec m slot args) (sstubbed E rec' m slot args).
Proof.
  intros m slot args. unfold sstubbed. eapply rsim_bind; [apply sim_method|]. intros me me' (A & B & C & D & G & K).
  apply sim_bind; [apply sim_start|]. intro.
  apply rsim_bind with (P := fun (l l' : list call) => length l' = length l).
  - intros s s' H. cbn. exists s', (s_calls s'). split; auto. split; auto. eapply Forall2_length'. apply H.
  - intros l l' L. rewrite L, A, C, D.
    apply sim_bind.
    + apply sim_modify. intros s s' H. al. apply Forall2_snoc; auto. repeat split; auto.
    + intro. eapply rsim_bind; [apply sim_find|]. intros [st|] st' ->; cbn [option_map]; [|apply sim_unexpected].
      apply sim_bind; [apply sim_set_method; repeat split; cbn; auto; intro S; now rewrite (K S)|]. intro.
      cbn [st_todo st_busy Spec_Alike.moved_stub]. destruct (st_todo st).
      * destruct (st_busy st); [apply sim_unspec|apply sim_unexpected].
      * apply sim_bind; [apply sim_attempt, sim_play|]. intros [v|[]]; first [apply sim_unspec|apply sim_rethrow].
Qed.

Lemma sim_body : forall c o slot args, sim (sbody E rec c o slot args) (sbody E rec' c o slot args).
Proof.
  intros. unfold sbody. apply sim_bind; [apply sim_class|]. intro d. destruct (Nat.ltb slot (cl_size d)); [apply sim_prog|apply sim_unspec].
Qed.

Lemma sim_initial : forall k k' d x o slot args, same_mock k k' ->
  sim (sinitial E rec k d x o slot args) (sinitial E rec' k' d x o slot args).
Proof.
  intros k k' d x o slot args (A & B & C & _). unfold sinitial. rewrite C. destruct (sk_owner k); [|apply sim_body].
  destruct (is_dtor d slot); [apply sim_ret|]. apply sim_bind; [apply sim_start|]. intro. apply sim_unexpected.
Qed.

Lemma sim_call : forall o slot args, sim (scall E rec o slot args) (scall E rec' o slot args).
Proof.
  intros o slot args. unfold scall. apply sim_bind; [apply sim_get_obj|]. intro x. destruct (so_mock x) as [m|]; [|apply sim_body].
  eapply rsim_bind; [apply sim_get_mock|]. intros k k' K. pose proof K as (A & _ & _ & _ & FM). rewrite A.
  apply sim_bind; [apply sim_class|]. intro d. destruct (Nat.ltb slot (cl_size d)); [|apply sim_unspec].
  pose proof (opt_live _ _ _ _ _ (entry_method d slot) FM) as O. inversion O as [|me me' (_ & _ & _ & _ & G & _)]; [now apply sim_initial|].
  rewrite G. destruct (me_bypass me); [now apply sim_initial|apply sim_stubbed].
Qed.

(** ** Verification, if it is possible *)
Section Seen.
Hypothesis SEEN : seen = true.
Hypothesis SHIFT : shift = 0.

Lemma moved_id : forall c, moved c = c.
Proof. intro. unfold Spec_Alike.moved. rewrite SHIFT. destruct (Nat.ltb c first); lia. Qed.
Lemma map_id' : forall A (f : A -> A) l, (forall a, f a = a) -> map f l = l.
Proof. intros. induction l; cbn; congruence. Qed.
Lemma moved_stub_id : forall st, moved_stub st = st.
Proof. intros [a b c d e]. unfold Spec_Alike.moved_stub. cbn. now rewrite moved_id. Qed.
Lemma same_rec_eq : forall c c', same_record c c' -> c' = c.
Proof. intros [a b c d] [a' b' c' d'] (A & B & C & D). cbn in *. rewrite A, B, C, (D SEEN). reflexivity. Qed.
Lemma same_meth_eq : forall c c', same_method c c' -> c' = c.
Proof. intros [a b c d e f] [a' b' c' d' e' f'] (A & B & C & D & G & H). cbn in *.
  rewrite A, B, C, D, G, (H SEEN), (map_id' _ _ _ moved_stub_id). reflexivity. Qed.

Lemma calls_eq : forall s s', alike s s' -> s_calls s' = s_calls s.
Proof.
  intros s s' H. pose proof (al_calls _ _ _ _ _ _ _ H) as C. induction C; auto. f_equal; auto. now apply same_rec_eq.
Qed.
Lemma meths_eq : forall k k', same_mock k k' -> sk_meths k' = sk_meths k.
Proof.
  intros k k' (_ & _ & _ & _ & H). induction H as [|x y l l' X H IH]; auto. f_equal; auto.
  inversion X as [|a b X']; auto. f_equal. now apply same_meth_eq.
Qed.
Lemma sim_get_exp : forall x, sim (sget s_exps x) (sget s_exps x).
Proof. intros. unfold sget. apply sim_bind; [apply sim_gets; intros s s' H; now apply H|]. intro. apply sim_opt. Qed.
Lemma sim_put_exp : forall x e, sim (sput_exp x e) (sput_exp x e).
Proof. intros. apply sim_modify. intros s s' H. al. intro Q. now rewrite (al_exps Q). Qed.
Lemma sim_new_exp : forall e, sim (snew_exp e) (snew_exp e).
Proof.
  intros. unfold snew_exp. apply sim_bind; [apply sim_gets; intros s s' H; now apply H|]. intro h.
  apply sim_bind; [|intro; apply sim_ret]. apply sim_modify. intros s s' H. al. intro Q. now rewrite (al_exps Q).
Qed.
Lemma sim_free_exp : forall x, sim (sfree_exp x) (sfree_exp x).
Proof.
  intros. unfold sfree_exp. apply sim_bind; [apply sim_get_exp|]. intro. apply sim_modify. intros s s' H. al. intro Q. now rewrite (al_exps Q).
Qed.

Section Views.
Variables s s' : sworld.
Hypothesis AL : alike s s'.

Lemma v_cond : forall im i, scond_accepts s' im i = scond_accepts s im i.
Proof. intros. unfold scond_accepts. now rewrite (calls_eq _ _ AL), (al_mem _ _ _ _ _ _ _ AL). Qed.
Lemma v_verified : forall i, sverified s' i = sverified s i.
Proof. intros. unfold sverified. now rewrite (calls_eq _ _ AL). Qed.
Lemma v_method_of : forall t, smethod_of E s' t = smethod_of E s t.
Proof.
  intro t. unfold smethod_of. pose proof (alike_mock _ _ (target_mock t) AL) as O. inversion O as [|k k' K]; auto.
  pose proof K as (A & _). rewrite A, (meths_eq _ _ K). reflexivity.
Qed.
Lemma v_unused : forall c, sunused s' c = sunused s c.
Proof. intro c. unfold sunused. rewrite <- (moved_id c) at 1. now rewrite (al_ctxs _ _ _ _ _ _ _ AL). Qed.
Lemma v_matches : forall c i, sctx_matches E s' c i = sctx_matches E s c i.
Proof.
  intros. unfold sctx_matches. rewrite v_unused, (calls_eq _ _ AL). destruct (sunused s c) as [x| |]; cbn; auto.
  rewrite v_method_of. destruct (smethod_of E s (sx_target x)) as [me| |]; cbn; auto.
  destruct (of_option (nth_error (s_calls s) i)) as [v| |]; cbn; auto. now rewrite v_cond.
Qed.
Lemma v_filter : forall im l, sfilter (scond_accepts s' im) l = sfilter (scond_accepts s im) l.
Proof. intros im l. induction l as [|i l IH]; cbn; auto. now rewrite v_cond, IH. Qed.
Lemma v_source : forall x, ssource E s' x = ssource E s x.
Proof.
  fix IH 1. intros [m|c|l]; cbn.
  - pose proof (alike_mock _ _ m AL) as O. inversion O as [|k k' K]; auto. now rewrite (meths_eq _ _ K).
  - rewrite v_unused. destruct (sunused s c) as [x| |]; cbn; auto. rewrite v_method_of.
    destruct (smethod_of E s (sx_target x)); cbn; auto. apply v_filter.
  - match goal with |- obind ?a _ = obind ?b _ => assert (Q : a = b) end.
    { induction l as [|y r IHr]; auto. rewrite (IH y), IHr. reflexivity. }
    rewrite Q. match goal with |- obind ?a _ = _ => destruct a as [l'| |] end; cbn; auto. f_equal. clear IH Q. induction l' as [|i l' IHl]; cbn; auto.
    rewrite v_verified, IHl. reflexivity.
Qed.
Lemma v_sources : forall l, ssources E s' l = ssources E s l.
Proof. induction l as [|y l IH]; cbn; auto. now rewrite v_source, IH. Qed.
Lemma v_order : forall l, in_call_order s' l = in_call_order s l.
Proof. intro. unfold in_call_order. now rewrite (calls_eq _ _ AL). Qed.
Lemma v_unv : forall l, filter (fun i => negb (sverified s' i)) l = filter (fun i => negb (sverified s i)) l.
Proof. intro l. apply filter_ext. intro. now rewrite v_verified. Qed.
Lemma v_scope : forall u l, sscope E s' u l = sscope E s u l.
Proof.
  intros. unfold sscope. rewrite v_sources. destruct (ssources E s l); cbn; auto. rewrite v_order, v_unv. reflexivity.
Qed.
Lemma v_unused_all : forall cs, sunused_all E s' cs = sunused_all E s cs.
Proof.
  induction cs as [|c cs IH]; cbn; auto. rewrite v_unused. destruct (sunused s c) as [x| |]; cbn; auto.
  rewrite v_method_of. destruct (smethod_of E s (sx_target x)); cbn; auto.
Qed.
End Views.

Lemma v_analyse : forall s s' u l p r, alike s s' -> sanalyse E s u l p = Def r -> sanalyse E s' u l p = Def r.
Proof.
  intros s s' u l p r AL H. unfold sanalyse in *. rewrite (v_scope _ _ AL), (v_unused_all _ _ AL).
  apply obind_def in H as (a & A & H). rewrite A. cbn [obind].
  apply obind_def in H as (b & B & H). rewrite B. cbn [obind].
  apply obind_def in H as (c & C & H).
  rewrite (countMatches_mono (sctx_matches E s) (sctx_matches E s')) with (r := c); auto.
  intros ? ? ? Q. now rewrite (v_matches _ _ AL).
Qed.

Lemma sim_report_to : forall q e, sim (sreport_to E q e) (sreport_to E q e).
Proof. intros [] e; cbn; [apply sim_throw|apply sim_report]. Qed.

Lemma sim_mark_all : forall is, sim (smark_all is) (smark_all is).
Proof.
  induction is as [|i is IH]; cbn [smark_all]; [apply sim_ret|]. eapply rsim_bind; [apply sim_get_call|]. intros c c' Q.
  apply same_rec_eq in Q. subst c'. apply sim_bind; auto. apply sim_modify. intros s s' H. al. apply Forall2_upd'; auto. repeat split; auto.
Qed.

Lemma sim_verify : forall x q, sim (sverify E x q) (sverify E x q).
Proof.
  intros x q. unfold sverify. apply sim_bind; [apply sim_get_exp|]. intros [unv l pattern ex|l dn].
  - destruct (ex_done ex); [apply sim_ret|]. apply sim_bind; [apply sim_put_exp|]. intro.
    apply rsim_bind with (P := fun s s' => alike s s'); [intros s s' H; cbn; ex|]. intros s s' AL.
    apply rsim_bind with (P := eq).
    + intros t t' H. unfold slift. destruct (sanalyse E s unv l pattern) as [r| |] eqn:A; auto.
      rewrite (v_analyse _ _ _ _ _ _ AL A). eauto.
    + intros [[actual count] matched] a' <-. apply sim_bind; [apply sim_lift|]. intros [|t e n]; [apply sim_mark_all|apply sim_report_to].
  - destruct dn; [apply sim_ret|]. apply sim_bind; [apply sim_put_exp|]. intro.
    apply rsim_bind with (P := fun s s' => alike s s'); [intros s s' H; cbn; ex|]. intros s s' AL.
    rewrite (v_sources _ _ AL). apply sim_bind; [apply sim_lift|]. intro all. rewrite (v_order _ _ AL), (v_unv _ _ AL).
    destruct (filter (fun i => negb (sverified s i)) (in_call_order s all)); [apply sim_ret|apply sim_report_to].
Qed.

Lemma sim_exp_bool : forall x, sim (sexp_bool E x) (sexp_bool E x).
Proof.
  intro. unfold sexp_bool. apply sim_bind; [apply sim_attempt, sim_verify|]. intros [u|[]]; first [apply sim_ret|apply sim_throw].
Qed.
Lemma sim_exp_free : forall x, sim (sexp_free E x) (sexp_free E x).
Proof.
  intro. unfold sexp_free. apply sim_bind; [apply sim_gets; intros s s' H; apply H|]. intro u.
  apply sim_guarded; [destruct (Nat.eqb u 0); [apply sim_verify|apply sim_ret]|apply sim_free_exp].
Qed.
Lemma sim_exp_quant : forall x q, sim (sexp_quant x q) (sexp_quant x q).
Proof.
  intros. unfold sexp_quant. apply sim_bind; [apply sim_get_exp|]. intros []; [|apply sim_unspec].
  apply sim_bind; [apply sim_lift|]. intros []; [apply sim_put_exp|apply sim_throw].
Qed.
Lemma sim_involved : forall cs, sim (sinvolved cs) (sinvolved cs).
Proof.
  induction cs as [|c cs IH]; cbn [sinvolved]; [apply sim_ret|].
  eapply rsim_bind; [rewrite <- (moved_id c) at 2; apply sim_get_ctx|]. intros x y (<- & _).
  apply sim_bind; auto. intro. apply sim_ret.
Qed.
Lemma sim_exp_new : forall sc p, sim (sexp_new sc p) (sexp_new sc p).
Proof.
  intros. unfold sexp_new. destruct (forallb seq_valid p); [|apply sim_throw].
  destruct sc; first [apply sim_new_exp|apply sim_bind; [apply sim_involved|intro; apply sim_new_exp]].
Qed.
Lemma sim_steps : forall steps x last, sim (srun_steps E x steps last) (srun_steps E x steps last).
Proof.
  induction steps as [|[q|] steps IH]; intros x last; cbn [srun_steps]; [apply sim_ret| |].
  - apply sim_bind; [apply sim_exp_quant|]. intro. apply IH.
  - apply sim_bind; [apply sim_exp_bool|]. intro. apply IH.
Qed.
Lemma sim_verify_stmt : forall mk steps, sim mk mk -> sim (sverify_stmt E mk steps) (sverify_stmt E mk steps).
Proof.
  intros mk steps H. unfold sverify_stmt. apply sim_bind; auto. intro x. apply sim_bind; [apply sim_attempt, sim_steps|].
  intros [v|e].
  - apply sim_bind; [apply sim_exp_free|]. intro. apply sim_ret.
  - apply sim_bind; [apply sim_free_exp|]. intro. apply sim_throw.
Qed.
End Seen.

(** ** Statements *)
Lemma sim_ctx_of : forall t im, okt t = true -> rsim handle (sctx_of E t im) (sctx_of E t im).
Proof.
  intros. unfold sctx_of. eapply rsim_bind; [now apply sim_ctx_new|]. intros c c' ->. destruct im; [|now apply rsim_ret].
  apply sim_bind; [apply sim_ctx_cond|]. intro. now apply rsim_ret.
Qed.
Lemma sim_free_ctxs : forall cs, sim (sfree_ctxs cs) (sfree_ctxs (map moved cs)).
Proof. induction cs as [|c cs IH]; cbn [sfree_ctxs map]; [apply sim_ret|]. apply sim_bind; [apply sim_ctx_free|]. intro. apply IH. Qed.
Lemma sim_with_ctxs : forall ts dn body body', forallb (fun x => okt (fst x)) ts = true ->
  (forall cs, sim (body cs) (body' (map moved cs))) ->
  sim (swith_ctxs E ts dn body) (swith_ctxs E ts (map moved dn) body').
Proof.
  induction ts as [|[t im] ts IH]; intros dn body body' OK B; cbn [swith_ctxs].
  - apply sim_guarded; [rewrite <- map_rev; apply B|apply sim_free_ctxs].
  - cbn in OK. apply andb_true_iff in OK. destruct OK as [OK OKs].
    eapply rsim_bind; [apply rsim_attempt; now apply sim_ctx_of|]. intros [c|e] [c'|e'] Q; try contradiction.
    + subst c'. now apply (IH (c :: dn)).
    + subst e'. apply sim_bind; [apply sim_free_ctxs|]. intro. apply sim_throw.
Qed.
Lemma sim_each : forall f cs, (forall c, sim (f c) (f (moved c))) -> sim (seach f cs) (seach f (map moved cs)).
Proof. intros f cs H. induction cs; cbn [seach map]; [apply sim_ret|]. apply sim_bind; auto. Qed.

Lemma sim_unit : forall A (m m' : SM A), sim m m' -> sim (sunit m) (sunit m').
Proof. intros. unfold sunit. apply sim_bind; auto. intro. apply sim_ret. Qed.
Lemma sim_nat : forall m m', sim m m' -> sim (snat m) (snat m').
Proof. intros. unfold snat. apply sim_bind; auto. intro. apply sim_ret. Qed.

Lemma sim_stmt : forall st cs, (match st with SVerify _ _ _ | SNoOther _ _ => seen && Nat.eqb shift 0 | _ => true end) = true ->
  sim (srun_stmt E st cs) (srun_stmt E st (map moved cs)).
Proof.
  intros st cs OK. destruct st; cbn [srun_stmt].
  - destruct cs as [|c [|]]; try apply sim_unspec. cbn [map]. apply (sim_unit unit). apply sim_do_when.
  - apply (sim_unit unit). apply sim_each. apply sim_do_fake.
  - apply (sim_unit unit). apply sim_each. intro. apply sim_do_spy.
  - destruct cs as [|c [|]]; try apply sim_unspec. cbn [map]. apply (sim_unit unit). apply sim_do_assign.
  - apply andb_true_iff in OK. destruct OK as [OK SH]. apply Nat.eqb_eq in SH. rewrite (map_id' _ _ cs (moved_id SH)).
    destruct (place_scope cs s); [|apply sim_unspec]. destruct (place_all (place_seq cs) pattern); [|apply sim_unspec].
    apply sim_verify_stmt; auto. now apply sim_exp_new.
  - apply andb_true_iff in OK. destruct OK as [OK SH]. apply Nat.eqb_eq in SH. rewrite (map_id' _ _ cs (moved_id SH)).
    destruct (place_all (place_source cs) l); [|apply sim_unspec]. apply sim_verify_stmt; auto. now apply sim_new_exp.
Qed.

Lemma sim_step : forall o, admits seen okt shift o = true -> sim (sstep E rec o) (sstep E rec' o).
Proof.
  intros o OK. destruct o; cbn [sstep]; cbn [admits] in OK.
  - apply sim_call.
  - apply sim_bind; [apply sim_class|]. intro d. apply sim_bind; [apply sim_gets; intros s s' H; apply H|]. intro h.
    apply sim_bind; [apply sim_modify; intros s s' H; al|]. intro. apply sim_ret.
  - apply sim_bind; [apply sim_get_obj|]. intro x. destruct (so_mock x); [apply sim_unspec|]. apply sim_unit, sim_modify. intros s s' H. al.
  - apply sim_bind; [apply sim_get_obj|]. intro x. destruct (so_mock x) as [m|]; [|apply sim_ret].
    eapply rsim_bind; [apply sim_get_mock|]. intros k k' (B & _). rewrite B. apply sim_ret.
  - apply sim_bind; [apply sim_get_obj|]. intro x. apply sim_opt.
  - apply sim_bind; [apply sim_get_obj|]. intro x. destruct (Nat.ltb i (length (so_data x))); [|apply sim_unspec].
    apply sim_unit, sim_put_obj.
  - apply sim_bind; [apply sim_gets; intros s s' H; apply H|]. intro. apply sim_lift.
  - apply sim_bind; [apply sim_gets; intros s s' H; apply H|]. intro. apply sim_bind; [apply sim_lift|]. intro.
    apply sim_unit, sim_modify. intros s s' H. al.
  - apply sim_bind; [apply sim_gets; intros s s' H; apply H|]. intro. apply sim_bind; [|intro; apply sim_ret].
    apply sim_modify. intros s s' H. al.
  - apply sim_bind; [apply sim_gets; intros s s' H; apply H|]. intro. apply sim_bind; [apply sim_lift|]. intro.
    apply sim_unit, sim_modify. intros s s' H. al.
  - apply sim_nat, sim_mock_new.
  - apply sim_nat, sim_mock_spy.
  - eapply rsim_bind; [apply sim_get_mock|]. intros k k' (_ & B & _). rewrite B. apply sim_ret.
  - apply sim_unit, sim_destroy.
  - apply sim_unit, sim_reset.
  - apply sim_unit, sim_clear.
  - apply andb_true_iff in OK. destruct OK as [OK SH]. apply Nat.eqb_eq in SH. unfold snat.
    eapply rsim_bind; [now apply sim_ctx_new|]. intros a b ->. rewrite moved_id by exact SH. apply sim_ret.
  - apply Nat.eqb_eq in OK. rewrite <- (moved_id OK c) at 2. apply sim_unit, sim_ctx_cond.
  - apply Nat.eqb_eq in OK. rewrite <- (moved_id OK c) at 2. apply sim_unit, sim_ctx_free.
  - apply Nat.eqb_eq in OK. rewrite <- (moved_id OK c) at 2. apply sim_unit, sim_do_when.
  - apply Nat.eqb_eq in OK. rewrite <- (moved_id OK c) at 2. apply sim_unit, sim_do_fake.
  - apply Nat.eqb_eq in OK. rewrite <- (moved_id OK c) at 2. apply sim_unit, sim_do_spy.
  - apply Nat.eqb_eq in OK. rewrite <- (moved_id OK c) at 2. apply sim_unit, sim_do_assign.
  - apply andb_true_iff in OK. destruct OK as [OK SH]. apply Nat.eqb_eq in SH. apply sim_nat. now apply sim_exp_new.
  - apply andb_true_iff in OK. destruct OK as [OK SH]. apply sim_nat. now apply sim_new_exp.
  - apply andb_true_iff in OK. destruct OK as [OK SH]. apply sim_unit. now apply sim_exp_quant.
  - apply andb_true_iff in OK. destruct OK as [OK SH]. apply Nat.eqb_eq in SH. now apply sim_exp_bool.
  - apply andb_true_iff in OK. destruct OK as [OK SH]. apply Nat.eqb_eq in SH. apply sim_unit. now apply sim_exp_free.
  - apply andb_true_iff in OK. destruct OK as [OK1 OK2]. apply (sim_with_ctxs ts []); auto. intro. now apply sim_stmt.
  - apply sim_unit, sim_modify. intros s s' H. al.
  - apply sim_unit, sim_modify. intros s s' H. al.
  - destruct l; apply sim_unit, sim_modify; intros s s' H; al.
  - apply sim_bind; [apply sim_modify; intros s s' H; al|]. intro. apply sim_bind; [apply sim_attempt, REC|]. intro.
    apply sim_unit, sim_modify. intros s s' H. al.
Qed.
End Open.

Lemma sim_nexec : forall f o, sim (nexec E seen okt shift f o) (sexec E f o).
Proof.
  induction f as [|f IH]; intro o; cbn [nexec sexec]; [apply sim_unspec|].
  destruct (admits seen okt shift o) eqn:A; [|apply sim_unspec]. now apply sim_step.
Qed.

Lemma sim_nexec_all : forall f os, sim (nexec_all E seen okt shift f os) (sexec_all E f os).
Proof.
  intros f os. induction os as [|o os IH]; cbn [nexec_all sexec_all]; [apply sim_ret|].
  apply sim_bind; [apply sim_attempt, sim_nexec|]. intro. apply sim_bind; auto. intro. apply sim_ret.
Qed.

Lemma same_answers : forall f os s s' s1 rs, alike s s' -> nexec_all E seen okt shift f os s = SOk s1 rs ->
  exists s1', sexec_all E f os s' = SOk s1' rs /\ alike s1 s1'.
Proof.
  intros f os s s' s1 rs AL X. pose proof (sim_nexec_all f os s s' AL) as H. rewrite X in H.
  destruct H as (s1' & a' & H & AL1 & <-). eauto.
Qed.
End S.
