(** Reasoning about the computations of World.v: facts that hold between the state
    before and the state after any operation, and independence of the bound on
    nesting.  Models no code. *)
From Coq Require Import Bool ZArith Lia List.
From Verif Require Import Base CInt Values InvMatchers ActionSeq Sequences
  Expectation Ordinals Syntax World.
Import ListNotations.

(** ** What holds between before and after *)

Definition presw (R : world -> world -> Prop) {A} (m : M A) (w : world) : Prop :=
  match m w with RVal w' _ => R w w' | RExn w' _ => R w w' | _ => True end.

Definition pres (R : world -> world -> Prop) {A} (m : M A) : Prop := forall w, presw R m w.

Section Pres.
Variable R : world -> world -> Prop.
Hypothesis Rrefl : forall w, R w w.
Hypothesis Rtrans : forall w1 w2 w3, R w1 w2 -> R w2 w3 -> R w1 w3.

Lemma pres_ret : forall A (a : A), pres R (ret a).
Proof. intros A a w. apply Rrefl. Qed.
Lemma pres_throw : forall A e, pres R (@throw A e).
Proof. intros A e w. apply Rrefl. Qed.
Lemma pres_ub : forall A, pres R (@ub A).
Proof. intros A w. exact I. Qed.
Lemma pres_none : forall A, pres R (@none A).
Proof. intros A w. exact I. Qed.
Lemma pres_gets : forall A (f : world -> A), pres R (gets f).
Proof. intros A f w. apply Rrefl. Qed.
Lemma pres_lift : forall A (o : outcome A), pres R (lift o).
Proof. intros A [a| |] w; cbn; try exact I. apply Rrefl. Qed.
Lemma pres_modify : forall f, (forall w, R w (f w)) -> pres R (modify f).
Proof. intros f H w. apply H. Qed.

Lemma presw_bind : forall A B (m : M A) (k : A -> M B) w,
  presw R m w -> (forall a, pres R (k a)) -> presw R (bind m k) w.
Proof.
  intros A B m k w H K. unfold presw, bind in *.
  destruct (m w) as [w' a|w' e| |]; auto.
  specialize (K a w'). unfold presw in K. destruct (k a w'); auto; eapply Rtrans; eauto.
Qed.

Lemma pres_bind : forall A B (m : M A) (k : A -> M B),
  pres R m -> (forall a, pres R (k a)) -> pres R (bind m k).
Proof. intros A B m k H K w. apply presw_bind; auto. Qed.

Lemma pres_attempt : forall A (m : M A), pres R m -> pres R (attempt m).
Proof.
  intros A m H w. specialize (H w). unfold presw, attempt in *. destruct (m w); auto.
Qed.

Lemma pres_rethrow : forall A (r : A + exn), pres R (rethrow r).
Proof. intros A [a|e] w; apply Rrefl. Qed.

Lemma pres_guarded : forall A (m : M A) f, pres R m -> pres R f -> pres R (guarded m f).
Proof.
  intros A m f H F. unfold guarded. apply pres_bind; [now apply pres_attempt|].
  intro r. apply pres_bind; [exact F|]. intros _. apply pres_rethrow.
Qed.

Lemma pres_hget : forall A (h : list (option A)) i, pres R (hget h i).
Proof.
  intros A h i. unfold hget. destruct (nth_error h i) as [[a|]|]; try apply pres_ret; apply pres_ub.
Qed.
End Pres.

(** What every operation respects, whatever user code does and however it is
    nested.  Invocations keep their ordinal, method and type; verified ones stay
    verified; ordinals are drawn in order; nothing is taken back from the log of
    deliveries; handed-out identities are never handed out again; actions without a
    count stay what they are. *)
Definition uncounted {F} (a : action F) : Prop := match a with ARepeat _ _ => False | _ => True end.

Definition ords_good (w : world) : Prop :=
  w_ord w = to_uint32 (w_started w) /\ (0 <= w_started w)%Z /\
  ((w_started w < two32)%Z ->
   (forall i j x y, (i < j)%nat -> nth_error (w_invs w) i = Some x -> nth_error (w_invs w) j = Some y ->
      (iv_ord x < iv_ord y)%Z) /\
   (forall i x, nth_error (w_invs w) i = Some x -> (0 < iv_ord x <= w_started w)%Z)).

Record grows (w w' : world) : Prop := mkGrows {
  gr_invs : forall i x, nth_error (w_invs w) i = Some x ->
    exists y, nth_error (w_invs w') i = Some y /\ iv_ord y = iv_ord x /\ iv_method y = iv_method x /\
              iv_ret y = iv_ret x /\ (iv_verified x = true -> iv_verified y = true);
  gr_started : (w_started w <= w_started w')%Z;
  gr_ords : ords_good w -> ords_good w';
  gr_log : exists l, w_log w' = w_log w ++ l;
  gr_seqs : forall s q, nth_error (w_seqs w) s = Some q ->
    exists q', nth_error (w_seqs w') s = Some q' /\
      forall id a, nth_error (as_acts (sq_seq q)) id = Some a -> uncounted a ->
        nth_error (as_acts (sq_seq q')) id = Some a
}.

Lemma grows_refl : forall w, grows w w.
Proof.
  intro w. constructor; auto; try lia.
  - intros i x H. exists x. auto.
  - exists []. now rewrite app_nil_r.
  - intros s q H. exists q. auto.
Qed.

Lemma grows_trans : forall w1 w2 w3, grows w1 w2 -> grows w2 w3 -> grows w1 w3.
Proof.
  intros w1 w2 w3 [A1 A2 A3 [l1 A4] A5] [B1 B2 B3 [l2 B4] B5]. constructor; auto; try lia.
  - intros i x H. destruct (A1 i x H) as (y & Y & Y1 & Y2 & Y3 & Y4).
    destruct (B1 i y Y) as (z & Z & Z1 & Z2 & Z3 & Z4).
    exists z. repeat split; try congruence. auto.
  - exists (l1 ++ l2). now rewrite app_assoc, <- A4.
  - intros s q H. destruct (A5 s q H) as (q1 & Q1 & K1). destruct (B5 s q1 Q1) as (q2 & Q2 & K2).
    exists q2. auto.
Qed.

(** Changes that concern none of the above. *)
Lemma grows_same : forall w w',
  w_invs w' = w_invs w -> w_started w' = w_started w -> w_ord w' = w_ord w -> w_log w' = w_log w ->
  w_seqs w' = w_seqs w ->
  grows w w'.
Proof.
  intros w w' H1 H2 H3 H4 H5. constructor.
  - intros i x H. rewrite H1. exists x. auto.
  - lia.
  - unfold ords_good. now rewrite H1, H2, H3.
  - exists []. now rewrite app_nil_r.
  - rewrite H5. intros s q H. exists q. auto.
Qed.

Notation gp := (pres grows) (only parsing).

Lemma gp_modify_same : forall f,
  (forall w, w_invs (f w) = w_invs w) -> (forall w, w_started (f w) = w_started w) ->
  (forall w, w_ord (f w) = w_ord w) -> (forall w, w_log (f w) = w_log w) ->
  (forall w, w_seqs (f w) = w_seqs w) -> gp (modify f).
Proof. intros f H1 H2 H3 H4 H5. apply pres_modify. intro w. now apply grows_same. Qed.

Create HintDb gp.

Ltac gp_core :=
  intros;
  lazymatch goal with
  | |- pres grows (ret _) => apply pres_ret; exact grows_refl
  | |- pres grows (throw _) => apply pres_throw; exact grows_refl
  | |- pres grows ub => apply pres_ub
  | |- pres grows none => apply pres_none
  | |- pres grows (gets _) => apply pres_gets; exact grows_refl
  | |- pres grows (lift _) => apply pres_lift; exact grows_refl
  | |- pres grows (hget _ _) => apply pres_hget; exact grows_refl
  | |- pres grows (rethrow _) => apply pres_rethrow; exact grows_refl
  | |- pres grows (modify _) => solve [auto with gp | apply gp_modify_same; reflexivity]
  | |- pres grows (bind _ _) => apply pres_bind; [exact grows_trans| |]
  | |- pres grows (attempt _) => apply pres_attempt
  | |- pres grows (guarded _ _) => apply pres_guarded; [exact grows_refl|exact grows_trans| |]
  | |- pres grows (match ?x with _ => _ end) => destruct x
  end.
Ltac gp_tac := repeat first [ solve [auto with gp] | gp_core ].

Local Ltac go d := unfold d; gp_tac.

Lemma gp_get_table : forall t, gp (get_table t). Proof. go get_table. Qed.
Lemma gp_put_table : forall t x, gp (put_table t x). Proof. go put_table. Qed.
Lemma gp_new_table : forall x, gp (new_table x). Proof. go new_table. Qed.
Lemma gp_get_obj : forall t, gp (get_obj t). Proof. go get_obj. Qed.
Lemma gp_put_obj : forall t x, gp (put_obj t x). Proof. go put_obj. Qed.
Lemma gp_new_obj : forall x, gp (new_obj x). Proof. go new_obj. Qed.
Lemma gp_get_mock : forall t, gp (get_mock t). Proof. go get_mock. Qed.
Lemma gp_put_mock : forall t x, gp (put_mock t x). Proof. go put_mock. Qed.
Lemma gp_new_mock : forall x, gp (new_mock x). Proof. go new_mock. Qed.
Lemma gp_get_body : forall t, gp (get_body t). Proof. go get_body. Qed.
Lemma gp_put_body : forall t x, gp (put_body t x). Proof. go put_body. Qed.
Lemma gp_new_body : forall x, gp (new_body x). Proof. go new_body. Qed.
Lemma gp_get_seq : forall t, gp (get_seq t). Proof. go get_seq. Qed.
Lemma gp_new_seq : forall x, gp (new_seq x).
Proof.
  unfold new_seq. intros x w. unfold presw, bind, gets, modify, ret. cbn. constructor; cbn; auto; try lia.
  - intros i y H. exists y. auto.
  - exists []. now rewrite app_nil_r.
  - intros s q H. exists q. split; [|auto]. rewrite nth_error_app1; auto. eapply nth_error_Some_lt; eauto.
Qed.

(** Replacing an action sequence by one with the same uncounted actions. *)
Definition keeps (s s' : aseq callable) : Prop :=
  forall id a, nth_error (as_acts s) id = Some a -> uncounted a -> nth_error (as_acts s') id = Some a.

Lemma grows_put_seq : forall w s q q', nth_error (w_seqs w) s = Some q -> keeps (sq_seq q) (sq_seq q') ->
  grows w (set_seqs w (upd (w_seqs w) s q')).
Proof.
  intros w s q q' Q K. constructor; cbn; auto; try lia.
  - intros i y H. exists y. auto.
  - exists []. now rewrite app_nil_r.
  - intros s1 q1 H. rewrite nth_error_upd. destruct (Nat.eqb_spec s s1) as [->|N].
    + destruct (Nat.ltb_spec s1 (length (w_seqs w))) as [L|L].
      * exists q'. split; auto. assert (q1 = q) by congruence. subst q1. exact K.
      * apply nth_error_Some_lt in H. lia.
    + exists q1. auto.
Qed.

Lemma gp_seq_of : forall A s (k : seqcell -> M A),
  (forall q w, nth_error (w_seqs w) s = Some q -> presw grows (k q) w) ->
  gp (let* q := get_seq s in k q).
Proof.
  intros A s k K w. unfold get_seq, presw, gets. unfold bind at 1. unfold bind at 1.
  destruct (nth_error (w_seqs w) s) as [q|] eqn:Q; cbn; [|exact I]. apply (K q w Q).
Qed.

Lemma keeps_begin : forall (s s' : aseq callable) id srv, handle_begin s = Def (s', id, srv) -> keeps s s'.
Proof.
  intros s s' id srv H. unfold handle_begin in H. destruct (as_recorded s) as [|i r]; [discriminate|].
  destruct (nth_error (as_acts s) i) as [a|] eqn:A; cbn in H; [|discriminate].
  destruct (invoke a) as [[a' sv]| |] eqn:I; cbn in H; try discriminate.
  inversion H; subst; clear H. intros j b B U. cbn. rewrite nth_error_upd.
  destruct (Nat.eqb_spec id j) as [->|N]; [|exact B].
  destruct (Nat.ltb_spec j (length (as_acts s))) as [L|L]; [|apply nth_error_Some_lt in B; lia].
  assert (b = a) by congruence. subst b. destruct a; cbn in I, U; inversion I; subst; auto; contradiction.
Qed.

Lemma keeps_end : forall (s s' : aseq callable) id, handle_end s id = Def s' -> keeps s s'.
Proof.
  intros s s' id H. unfold handle_end in H. destruct (nth_error (as_acts s) id) as [a|]; cbn in H; [|discriminate].
  destruct (isDone a).
  - destruct (as_recorded s); inversion H; subst. intros j b B U. exact B.
  - inversion H; subst. intros j b B U. exact B.
Qed.

Lemma keeps_append : forall (s s' : aseq callable) a, append s a = Def s' -> keeps s s'.
Proof.
  intros s s' a H. unfold append in H. destruct (rev (as_recorded s)); inversion H; subst.
  intros j b B U. cbn. rewrite nth_error_app1; auto. eapply nth_error_Some_lt; eauto.
Qed.
Lemma gp_get_matcher : forall t, gp (get_matcher t). Proof. go get_matcher. Qed.
Lemma gp_new_matcher : forall x, gp (new_matcher x). Proof. go new_matcher. Qed.
Lemma gp_get_ctx : forall t, gp (get_ctx t). Proof. go get_ctx. Qed.
Lemma gp_put_ctx : forall t x, gp (put_ctx t x). Proof. go put_ctx. Qed.
Lemma gp_new_ctx : forall x, gp (new_ctx x). Proof. go new_ctx. Qed.
Lemma gp_get_exp : forall t, gp (get_exp t). Proof. go get_exp. Qed.
Lemma gp_put_exp : forall t x, gp (put_exp t x). Proof. go put_exp. Qed.
Lemma gp_new_exp : forall x, gp (new_exp x). Proof. go new_exp. Qed.
Lemma gp_get_inv : forall t, gp (get_inv t). Proof. go get_inv. Qed.
Lemma gp_class_of : forall E c, gp (class_of E c). Proof. go class_of. Qed.
#[export] Hint Resolve gp_get_table gp_put_table gp_new_table gp_get_obj gp_put_obj gp_new_obj
  gp_get_mock gp_put_mock gp_new_mock gp_get_body gp_put_body gp_new_body gp_get_seq
  gp_new_seq gp_get_matcher gp_new_matcher gp_get_ctx gp_put_ctx gp_new_ctx gp_get_exp gp_put_exp
  gp_new_exp gp_get_inv gp_class_of : gp.

Lemma gp_free_table : forall t, gp (free_table t). Proof. go free_table. Qed.
Lemma gp_free_obj : forall t, gp (free_obj t). Proof. go free_obj. Qed.
Lemma gp_free_seq : forall t, gp (free_seq t).
Proof.
  intro t. unfold free_seq. apply gp_seq_of. intros q w Q. destruct (sq_alive q); [|exact I].
  unfold presw, put_seq, modify. eapply grows_put_seq; [exact Q|]. intros j b B U. exact B.
Qed.
Lemma gp_free_matcher : forall t, gp (free_matcher t). Proof. go free_matcher. Qed.
Lemma gp_free_exp : forall t, gp (free_exp t). Proof. go free_exp. Qed.
Lemma gp_nextMethodOrdinal : gp nextMethodOrdinal. Proof. go nextMethodOrdinal. Qed.
#[export] Hint Resolve gp_free_table gp_free_obj gp_free_seq gp_free_matcher gp_free_exp
  gp_nextMethodOrdinal : gp.

Lemma next_ordinal_started : forall n, (0 <= n)%Z -> next_ordinal (to_uint32 n) = to_uint32 (n + 1).
Proof.
  intros n H. unfold next_ordinal, to_uint32. now rewrite Z.add_mod_idemp_l by (cbv; congruence).
Qed.

Lemma grows_draw : forall w,
  grows w (set_started (set_ord w (next_ordinal (w_ord w))) (w_started w + 1)).
Proof.
  intro w. constructor; cbn.
  - intros i x H. exists x; auto.
  - lia.
  - intros (H1 & H2 & H3). unfold ords_good; cbn. split; [|split; [lia|]].
    + rewrite H1. now apply next_ordinal_started.
    + intro L. destruct H3 as [H3 H4]; [lia|]. split; [exact H3|].
      intros i x X. specialize (H4 i x X). lia.
  - exists []. now rewrite app_nil_r.
  - intros s q H. exists q. auto.
Qed.

Lemma gp_nextInvocationOrdinal : gp nextInvocationOrdinal.
Proof.
  unfold nextInvocationOrdinal. intro w. unfold presw, bind, gets, modify, ret. cbn. apply grows_draw.
Qed.
#[export] Hint Resolve gp_nextInvocationOrdinal : gp.

(** Drawing an ordinal and making the invocation that carries it. *)
Lemma gp_draw_inv : forall A (g : Z -> inv) (k : nat -> M A),
  (forall n, iv_ord (g n) = n) -> (forall i, gp (k i)) ->
  gp (let* n := nextInvocationOrdinal in let* i := new_inv (g n) in k i).
Proof.
  intros A g k G K w. unfold nextInvocationOrdinal, new_inv, presw, bind, gets, modify, ret. cbn.
  match goal with |- match k ?i ?w' with _ => _ end => set (w1 := w') end.
  assert (grows w w1) as G1.
  { unfold w1. constructor; cbn.
    - intros i x H. exists x. rewrite nth_error_app1 by (eapply nth_error_Some_lt; eauto). auto.
    - lia.
    - intros (H1 & H2 & H3). unfold ords_good; cbn. split; [|split; [lia|]].
      + rewrite H1. now apply next_ordinal_started.
      + intro L. destruct H3 as [H3 H4]; [lia|].
        assert (N : next_ordinal (w_ord w) = (w_started w + 1)%Z).
        { rewrite H1, next_ordinal_started by lia. unfold to_uint32. apply Z.mod_small.
          unfold two32 in *; lia. }
        split.
        * intros i j x y IJ X Y.
          destruct (Nat.lt_ge_cases j (length (w_invs w))) as [Lj|Lj].
          -- rewrite nth_error_app1 in X by lia. rewrite nth_error_app1 in Y by lia. exact (H3 i j x y IJ X Y).
          -- assert (j = length (w_invs w)) as ->.
             { apply nth_error_Some_lt in Y. rewrite app_length in Y; cbn in Y. lia. }
             rewrite nth_error_app_last in Y. inversion Y; subst y.
             rewrite nth_error_app1 in X by lia. specialize (H4 i x X). rewrite G, N. lia.
        * intros i x X. destruct (Nat.lt_ge_cases i (length (w_invs w))) as [Li|Li].
          -- rewrite nth_error_app1 in X by lia. specialize (H4 i x X). lia.
          -- assert (i = length (w_invs w)) as ->.
             { apply nth_error_Some_lt in X. rewrite app_length in X; cbn in X. lia. }
             rewrite nth_error_app_last in X. inversion X; subst x. rewrite G, N. lia.
    - exists []. now rewrite app_nil_r.
    - intros s q H. exists q. auto. }
  specialize (K (length (w_invs w)) w1). unfold presw in K.
  destruct (k (length (w_invs w)) w1); auto; eapply grows_trans; eauto.
Qed.

(** Replacing an invocation by one with the same ordinal, method and type that is
    verified if the old one was. *)
Definition same_call (x y : inv) : Prop :=
  iv_ord y = iv_ord x /\ iv_method y = iv_method x /\ iv_ret y = iv_ret x /\
  (iv_verified x = true -> iv_verified y = true).

Lemma grows_put_inv : forall w i x y,
  nth_error (w_invs w) i = Some x -> same_call x y -> grows w (set_invs w (upd (w_invs w) i y)).
Proof.
  intros w i x y X (S1 & S2 & S3 & S4).
  assert (Li : (i < length (w_invs w))%nat) by (eapply nth_error_Some_lt; eauto).
  constructor; cbn.
  - intros j z Z. rewrite nth_error_upd. destruct (Nat.eqb_spec i j) as [->|N].
    + destruct (Nat.ltb_spec j (length (w_invs w))); [|lia]. exists y.
      assert (z = x) by congruence. subst. auto.
    + exists z; auto.
  - lia.
  - intros (H1 & H2 & H3). unfold ords_good; cbn. split; [exact H1|split; [exact H2|]].
    intro L. destruct (H3 L) as [H4 H5].
    assert (Q : forall j z, nth_error (upd (w_invs w) i y) j = Some z ->
                exists z', nth_error (w_invs w) j = Some z' /\ iv_ord z = iv_ord z').
    { intros j z Z. rewrite nth_error_upd in Z. destruct (Nat.eqb_spec i j) as [->|N].
      - destruct (Nat.ltb_spec j (length (w_invs w))); [|lia]. inversion Z; subst z. exists x; auto.
      - exists z; auto. }
    split.
    + intros a b u v AB U V. destruct (Q _ _ U) as (u' & U1 & U2). destruct (Q _ _ V) as (v' & V1 & V2).
      rewrite U2, V2. eapply H4; eauto.
    + intros a u U. destruct (Q _ _ U) as (u' & U1 & U2). rewrite U2. eapply H5; eauto.
  - exists []. now rewrite app_nil_r.
  - intros s q H. exists q. auto.
Qed.

Lemma gp_update_inv : forall A i (f : inv -> inv) (k : inv -> M A),
  (forall x, same_call x (f x)) -> (forall x, gp (k x)) ->
  gp (let* x := get_inv i in let* _ := put_inv i (f x) in k x).
Proof.
  intros A i f k F K w. unfold get_inv, put_inv, presw, bind, gets, modify, ret. cbn.
  destruct (nth_error (w_invs w) i) as [x|] eqn:X; cbn; [|exact I].
  pose proof (grows_put_inv w i x (f x) X (F x)) as G.
  specialize (K x (set_invs w (upd (w_invs w) i (f x)))). unfold presw in K.
  destruct (k x _); auto; eapply grows_trans; eauto.
Qed.

Lemma gp_handle_event : forall E e, gp (handle_event E e).
Proof.
  intros E e. unfold handle_event. apply pres_bind; [exact grows_trans|gp_tac|].
  intro c. destruct (Events.ctx_handle _ _ _ _) as [done x]. apply pres_bind; [exact grows_trans| |gp_tac].
  apply pres_modify. intro w. constructor; cbn.
  - intros i y H; exists y; auto.
  - lia.
  - auto.
  - eexists; reflexivity.
  - intros s q H. exists q. auto.
Qed.
#[export] Hint Resolve gp_handle_event : gp.

Lemma gp_obj_table : forall o, gp (obj_table o). Proof. go obj_table. Qed.
#[export] Hint Resolve gp_obj_table : gp.
Lemma gp_fake_setMethod : forall o i x, gp (fake_setMethod o i x). Proof. go fake_setMethod. Qed.
Lemma gp_fake_setDtor : forall o c i x, gp (fake_setDtor o c i x). Proof. go fake_setDtor. Qed.
Lemma gp_setVirtualTable : forall o t, gp (setVirtualTable o t). Proof. go setVirtualTable. Qed.
Lemma gp_initData : forall o, gp (initializeDataMembersArea o). Proof. go initializeDataMembersArea. Qed.
Lemma gp_build_table : forall c d, gp (build_table c d). Proof. go build_table. Qed.
#[export] Hint Resolve gp_fake_setMethod gp_fake_setDtor gp_setVirtualTable gp_initData gp_build_table : gp.
Lemma gp_createFakeInstance : forall E c, gp (createFakeInstance E c). Proof. go createFakeInstance. Qed.
Lemma gp_make_mock : forall E c o b, gp (make_mock E c o b). Proof. go make_mock. Qed.
#[export] Hint Resolve gp_createFakeInstance gp_make_mock : gp.
Lemma gp_mock_new : forall E c, gp (mock_new E c). Proof. go mock_new. Qed.
Lemma gp_mock_spy : forall E c o, gp (mock_spy E c o). Proof. go mock_spy. Qed.

Lemma gp_free_handlers : forall hs, gp (free_handlers hs).
Proof. induction hs as [|[mt sq] hs IH]; cbn; gp_tac. Qed.
#[export] Hint Resolve gp_free_handlers gp_mock_new gp_mock_spy : gp.
Lemma gp_free_body : forall b, gp (free_body b). Proof. go free_body. Qed.
#[export] Hint Resolve gp_free_body : gp.
Lemma gp_free_bodies : forall bs, gp (free_bodies bs).
Proof. induction bs as [|[b|] bs IH]; cbn; gp_tac. Qed.
Lemma gp_initDataMembersIfOwner : forall m, gp (initDataMembersIfOwner m). Proof. go initDataMembersIfOwner. Qed.
#[export] Hint Resolve gp_free_bodies gp_initDataMembersIfOwner : gp.
Lemma gp_proxy_reset : forall E m, gp (proxy_reset E m). Proof. go proxy_reset. Qed.
#[export] Hint Resolve gp_proxy_reset : gp.
Lemma gp_mock_reset : forall E m, gp (mock_reset E m). Proof. go mock_reset. Qed.
Lemma gp_clear_bodies : forall bs, gp (clear_bodies bs).
Proof. induction bs as [|[b|] bs IH]; cbn; gp_tac. Qed.
#[export] Hint Resolve gp_mock_reset gp_clear_bodies : gp.
Lemma gp_mock_clear : forall m, gp (mock_clear m). Proof. go mock_clear. Qed.
Lemma gp_mock_destroy : forall m, gp (mock_destroy m). Proof. go mock_destroy. Qed.
Lemma gp_ensure_bound : forall E m s i b, gp (ensure_bound E m s i b). Proof. go ensure_bound. Qed.
#[export] Hint Resolve gp_mock_clear gp_mock_destroy gp_ensure_bound : gp.
Lemma gp_getRecordedMethodBody : forall E t, gp (getRecordedMethodBody E t). Proof. go getRecordedMethodBody. Qed.
Lemma gp_ctx_free : forall c, gp (ctx_free c). Proof. go ctx_free. Qed.
#[export] Hint Resolve gp_getRecordedMethodBody gp_ctx_free : gp.
Lemma gp_ctx_new : forall E t, gp (ctx_new E t). Proof. go ctx_new. Qed.
Lemma gp_ctx_cond : forall c im, gp (ctx_cond c im). Proof. go ctx_cond. Qed.
Lemma gp_ctx_append : forall c a, gp (ctx_append c a).
Proof.
  intros c a. unfold ctx_append. apply pres_bind; [exact grows_trans|gp_tac|]. intro x.
  apply gp_seq_of. intros q w Q. destruct (sq_alive q); [|exact I].
  unfold presw, lift, bind. destruct (append (sq_seq q) a) as [s'| |] eqn:A; try exact I.
  cbn. eapply grows_put_seq; [exact Q|]. eapply keeps_append; eauto.
Qed.
Lemma gp_ctx_commit : forall E c, gp (ctx_commit E c). Proof. go ctx_commit. Qed.
#[export] Hint Resolve gp_ctx_new gp_ctx_cond gp_ctx_append gp_ctx_commit : gp.
Lemma gp_append_all : forall c rs, gp (append_all c rs).
Proof. induction rs as [|r rs IH]; cbn; gp_tac. Qed.
#[export] Hint Resolve gp_append_all : gp.
Lemma gp_do_when : forall E c rs i, gp (do_when E c rs i). Proof. go do_when. Qed.
Lemma gp_do_fake : forall E c, gp (do_fake E c). Proof. go do_fake. Qed.
Lemma gp_do_spy : forall E c f, gp (do_spy E c f). Proof. go do_spy. Qed.
Lemma gp_do_assign : forall E c f, gp (do_assign E c f). Proof. go do_assign. Qed.
Lemma gp_default_value : forall r, gp (default_value r). Proof. go default_value. Qed.
#[export] Hint Resolve gp_do_when gp_do_fake gp_do_spy gp_do_assign gp_default_value : gp.

Section Open.
Variable E : env.
Variable rec : op -> M val.
Hypothesis Hrec : forall o, gp (rec o).
Local Hint Resolve Hrec : gp.

Lemma gp_run_prog : forall p fr, gp (run_prog rec fr p).
Proof.
  fix IH 1. intros [v|e|i k|i v k|k|o k] fr; cbn [run_prog].
  - gp_tac.
  - gp_tac.
  - destruct fr as [n|this args].
    + apply pres_bind; [exact grows_trans|gp_tac|]. intro x.
      destruct (nth_error (iv_args x) i); [apply IH|gp_tac].
    + destruct (nth_error args i); [apply IH|gp_tac].
  - destruct fr as [n|this args].
    + intro w. unfold presw, get_inv, gets. unfold bind at 1. unfold bind at 1.
      destruct (nth_error (w_invs w) n) as [x|] eqn:X; [|exact I]. unfold ret at 1.
      destruct (Nat.ltb i (length (iv_args x))); [|exact I].
      assert (G : grows w (set_invs w (upd (w_invs w) n
        (mkInv (iv_ord x) (iv_method x) (iv_ret x) (upd (iv_args x) i v) (iv_matcher x) (iv_verified x))))).
      { eapply grows_put_inv; [exact X|]. repeat split; auto. }
      pose proof (IH k (FrInv n) (set_invs w (upd (w_invs w) n
        (mkInv (iv_ord x) (iv_method x) (iv_ret x) (upd (iv_args x) i v) (iv_matcher x) (iv_verified x))))) as P.
      unfold presw in P. unfold bind, put_inv, modify.
      destruct (run_prog rec (FrInv n) k _); auto; eapply grows_trans; eauto.
    + destruct (Nat.ltb i (length args)); [apply IH|gp_tac].
  - destruct fr as [n|this args]; [gp_tac|apply IH].
  - apply pres_bind; [exact grows_trans|gp_tac|]. intro r. apply IH.
Qed.
Local Hint Resolve gp_run_prog : gp.

Lemma gp_with_original : forall m slot run, gp run -> gp (with_original m slot run).
Proof. intros. unfold with_original. gp_tac. Qed.

Lemma gp_run_callable : forall f i, gp (run_callable E rec f i).
Proof.
  intros [p| |r vals|r vals|m o slot forward] i; cbn [run_callable]; try solve [gp_tac].
  - match goal with |- pres _ (bind _ (fun x => bind (put_inv _ (@?f x)) (fun _ => @?k x))) => apply (gp_update_inv _ i f k) end;
      intro x; [repeat split; auto|gp_tac].
  - match goal with |- pres _ (bind _ (fun x => bind (put_inv _ (@?f x)) (fun _ => @?k x))) => apply (gp_update_inv _ i f k) end;
      intro x; [repeat split; auto|gp_tac].
  - apply gp_with_original. destruct forward.
    + apply (gp_update_inv _ i (fun x => mkInv (iv_ord x) (iv_method x) (iv_ret x) (map (moved_from (e_moved E)) (iv_args x)) (iv_matcher x) (iv_verified x))
              (fun x => rec (OCall o slot (iv_args x)))).
      * intro x. repeat split; auto.
      * intro x. gp_tac.
    + gp_tac.
Qed.
Local Hint Resolve gp_run_callable : gp.

Lemma gp_serve : forall s i, gp (serve E rec s i). Proof. unfold serve; gp_tac. Qed.
Lemma gp_seq_end : forall s id, gp (seq_end s id).
Proof.
  intros s id. unfold seq_end. apply gp_seq_of. intros q w Q. unfold presw, lift. unfold bind at 1.
  destruct (of_option _) as [a| |]; try exact I. destruct (isDone a); [|apply grows_refl].
  destruct (sq_alive q); [|exact I]. unfold bind. destruct (handle_end (sq_seq q) id) as [s'| |] eqn:A; try exact I.
  cbn. eapply grows_put_seq; [exact Q|]. eapply keeps_end; eauto.
Qed.
Local Hint Resolve gp_serve gp_seq_end : gp.
Lemma gp_seq_handle : forall s i, gp (seq_handle E rec s i).
Proof.
  intros s i. unfold seq_handle. apply gp_seq_of. intros q w Q. destruct (sq_alive q); [|exact I].
  unfold presw, lift. unfold bind at 1.
  destruct (handle_begin (sq_seq q)) as [[[s1 id] srv]| |] eqn:B; try exact I.
  assert (G : grows w (set_seqs w (upd (w_seqs w) s (mkSeq true s1)))).
  { eapply grows_put_seq; [exact Q|]. eapply keeps_begin; eauto. }
  unfold put_seq, modify. unfold bind at 1.
  assert (P : gp (guarded (serve E rec srv i) (seq_end s id))) by gp_tac.
  specialize (P (set_seqs w (upd (w_seqs w) s (mkSeq true s1)))). unfold presw in P.
  destruct (guarded (serve E rec srv i) (seq_end s id) _); auto; eapply grows_trans; eauto.
Qed.
Lemma gp_find_handler : forall hs args a, gp (find_handler hs args a).
Proof. induction hs as [|[mt sq] hs IH]; intros args a; cbn [find_handler]; gp_tac. Qed.
Lemma gp_unexpected : forall t m args, gp (unexpected E t m args). Proof. unfold unexpected; gp_tac. Qed.
Local Hint Resolve gp_seq_handle gp_find_handler gp_unexpected : gp.

Lemma gp_handleMethodInvocation : forall b args, gp (handleMethodInvocation E rec b args).
Proof.
  intros b args. unfold handleMethodInvocation. apply pres_bind; [exact grows_trans|gp_tac|]. intro bd.
  apply (gp_draw_inv _ (fun n => mkInv n (bd_id bd) (bd_ret bd) args None false)); [reflexivity|].
  intro i. apply pres_bind; [exact grows_trans|gp_tac|]. intros [[mt sq]|]; [|gp_tac].
  apply (gp_update_inv _ i (fun x => mkInv (iv_ord x) (iv_method x) (iv_ret x) (iv_args x) (Some mt) (iv_verified x))).
  - intro x. repeat split; auto.
  - intro x. gp_tac.
Qed.
Local Hint Resolve gp_handleMethodInvocation : gp.

Lemma gp_run_unmocked : forall vt, gp (run_unmocked E vt). Proof. unfold run_unmocked; gp_tac. Qed.
Local Hint Resolve gp_run_unmocked : gp.
Lemma gp_run_code : forall o vt x args, gp (run_code E rec o vt x args). Proof. unfold run_code; gp_tac. Qed.
Local Hint Resolve gp_run_code : gp.
Lemma gp_call_object : forall o slot args, gp (call_object E rec o slot args). Proof. unfold call_object; gp_tac. Qed.
Local Hint Resolve gp_call_object : gp.

Lemma gp_mark_all : forall l, gp (mark_all l).
Proof.
  induction l as [|i l IH]; cbn [mark_all]; [gp_tac|].
  apply (gp_update_inv _ i (fun x => mkInv (iv_ord x) (iv_method x) (iv_ret x) (iv_args x) (iv_matcher x) true)).
  - intro x. repeat split; auto.
  - intro; exact IH.
Qed.
Lemma gp_report : forall q e, gp (report E q e). Proof. unfold report; gp_tac. Qed.
Local Hint Resolve gp_mark_all gp_report : gp.
Lemma gp_verify_exp : forall x q, gp (verify_exp E x q). Proof. unfold verify_exp; gp_tac. Qed.
Local Hint Resolve gp_verify_exp : gp.
Lemma gp_exp_bool : forall x, gp (exp_bool E x). Proof. unfold exp_bool; gp_tac. Qed.
Lemma gp_exp_free : forall x, gp (exp_free E x). Proof. unfold exp_free; gp_tac. Qed.
Lemma gp_exp_quant : forall x q, gp (exp_quant x q). Proof. unfold exp_quant; gp_tac. Qed.
Lemma gp_involved : forall cs, gp (involved cs). Proof. induction cs; cbn [involved]; gp_tac. Qed.
Local Hint Resolve gp_exp_bool gp_exp_free gp_exp_quant gp_involved : gp.
Lemma gp_exp_new_seq : forall s p, gp (exp_new_seq s p). Proof. unfold exp_new_seq; gp_tac. Qed.
Lemma gp_ctx_of : forall t im, gp (ctx_of E t im). Proof. unfold ctx_of; gp_tac. Qed.
Lemma gp_free_ctxs : forall cs, gp (free_ctxs cs). Proof. induction cs; cbn [free_ctxs]; gp_tac. Qed.
Local Hint Resolve gp_exp_new_seq gp_ctx_of gp_free_ctxs : gp.
Lemma gp_with_ctxs : forall ts done body, (forall cs, gp (body cs)) -> gp (with_ctxs E ts done body).
Proof. induction ts as [|[t im] ts IH]; intros done body B; cbn [with_ctxs]; gp_tac. Qed.
Lemma gp_run_steps : forall x steps last, gp (run_steps E x steps last).
Proof. induction steps as [|[q|] steps IH]; intro last; cbn [run_steps]; gp_tac. Qed.
Local Hint Resolve gp_with_ctxs gp_run_steps : gp.
Lemma gp_verify_stmt : forall mk steps, gp mk -> gp (verify_stmt E mk steps).
Proof. intros. unfold verify_stmt; gp_tac. Qed.
Lemma gp_each : forall f cs, (forall c, gp (f c)) -> gp (each f cs).
Proof. induction cs; intro F; cbn [each]; gp_tac. Qed.
Local Hint Resolve gp_verify_stmt gp_each : gp.
Lemma gp_run_stmt : forall s cs, gp (run_stmt E s cs). Proof. unfold run_stmt; gp_tac. Qed.
Local Hint Resolve gp_run_stmt : gp.
Lemma gp_unit_val : forall A (m : M A), gp m -> gp (unit_val m). Proof. intros. unfold unit_val; gp_tac. Qed.
Lemma gp_nat_val : forall m, gp m -> gp (nat_val m). Proof. intros. unfold nat_val; gp_tac. Qed.
Local Hint Resolve gp_unit_val gp_nat_val : gp.

Lemma gp_step : forall o, gp (step E rec o).
Proof.
  intros []; cbn [step];
    repeat first [progress gp_tac | intros; apply gp_unit_val | intros; apply gp_nat_val].
Qed.
End Open.

Theorem exec_grows : forall E fuel o, pres grows (exec E fuel o).
Proof.
  intros E fuel. induction fuel as [|f IH]; intro o; cbn [exec]; [apply pres_none|].
  apply gp_step. exact IH.
Qed.

Lemma exec_prog_grows : forall E fuel p, pres grows (exec_prog E fuel p).
Proof. intros. unfold exec_prog. apply gp_run_prog. apply exec_grows. Qed.

Lemma exec_all_grows : forall E fuel os, pres grows (exec_all E fuel os).
Proof.
  intros E fuel. induction os as [|o os IH]; cbn [exec_all]; [apply pres_ret; exact grows_refl|].
  apply pres_bind; [exact grows_trans|apply pres_attempt; apply exec_grows|]. intro x.
  apply pres_bind; [exact grows_trans|exact IH|]. intro xs. apply pres_ret. exact grows_refl.
Qed.

(** C09 *)
Theorem calls_ordered : forall E fuel m os w rs,
  exec_all E fuel os (init_world E m) = RVal w rs ->
  (w_started w < 4294967296)%Z ->
  forall i j x y, (i < j)%nat -> nth_error (w_invs w) i = Some x -> nth_error (w_invs w) j = Some y ->
  (iv_ord x < iv_ord y)%Z.
Proof.
  intros E fuel m os w rs H L.
  pose proof (exec_all_grows E fuel os (init_world E m)) as G. unfold presw in G. rewrite H in G.
  destruct G as [_ _ G _]. destruct G as (_ & _ & G).
  - unfold ords_good. cbn. split; [reflexivity|]. split; [lia|]. intros _. split.
    + intros i j x y _ X. destruct i; discriminate.
    + intros i x X. destruct i; discriminate.
  - destruct (G L) as [G1 _]. exact G1.
Qed.

(** C30 *)
Theorem verified_stays : forall E fuel o w w' i x,
  (exists v, exec E fuel o w = RVal w' v) \/ (exists e, exec E fuel o w = RExn w' e) ->
  nth_error (w_invs w) i = Some x -> iv_verified x = true ->
  exists y, nth_error (w_invs w') i = Some y /\ iv_verified y = true /\ iv_ord y = iv_ord x.
Proof.
  intros E fuel o w w' i x H X V. pose proof (exec_grows E fuel o w) as G. unfold presw in G.
  assert (G' : grows w w') by (destruct H as [[v H]|[e H]]; rewrite H in G; exact G).
  destruct G' as [G' _ _ _]. destruct (G' i x X) as (y & Y & Y1 & Y2 & Y3 & Y4).
  exists y. auto.
Qed.
