(** Unexpected calls are heard: an operation that reported one does not end normally,
    as long as the code around it does not catch what is not to be caught.  Models no
    code. *)
From Coq Require Import Bool ZArith Lia List.
From Verif Require Import Base CInt Values InvMatchers ActionSeq Sequences
  Expectation Ordinals Syntax Events World WorldLogic Spec_Heard.
Import ListNotations.

Section Heard.
Variable caught : exn -> bool.
Variable trusted : nat -> bool.
Variable bad : event -> bool.

Definition decent_action (a : action callable) : Prop :=
  match a with
  | ARepeat f _ | AForever f | ADelegate f => decent_callable caught trusted f
  | ADefault | ANoMore => True
  end.

Definition decent_seq (s : aseq callable) : Prop := Forall decent_action (as_acts s).

Definition trusted_adapter (c : fctx nat) : Prop :=
  match fc_adapter c with Some a => trusted a = true | None => True end.

Definition good (w : world) : Prop :=
  Forall (fun q => decent_seq (sq_seq q)) (w_seqs w) /\ trusted_adapter (w_fctx w).

(** Nothing reported, and still only decent actions. *)
Definition still (w w' : world) : Prop :=
  (good w -> good w') /\ complaints bad (w_log w') = complaints bad (w_log w).

Lemma still_refl : forall w, still w w.
Proof. intro w. split; auto. Qed.
Lemma still_trans : forall w1 w2 w3, still w1 w2 -> still w2 w3 -> still w1 w3.
Proof. intros w1 w2 w3 [A B] [C D]. split; [auto|congruence]. Qed.
Lemma still_same : forall w w', w_log w' = w_log w -> w_seqs w' = w_seqs w -> w_fctx w' = w_fctx w -> still w w'.
Proof. intros w w' H1 H2 H3. unfold still, good. rewrite H1, H2, H3. auto. Qed.

Notation hp := (pres still) (only parsing).

Lemma hp_modify_same : forall f,
  (forall w, w_log (f w) = w_log w) -> (forall w, w_seqs (f w) = w_seqs w) ->
  (forall w, w_fctx (f w) = w_fctx w) -> hp (modify f).
Proof. intros f H4 H5 H6. apply pres_modify. intro w. now apply still_same. Qed.

Create HintDb hp.

Ltac hp_core :=
  intros;
  lazymatch goal with
  | |- pres still (ret _) => apply pres_ret; exact still_refl
  | |- pres still (throw _) => apply pres_throw; exact still_refl
  | |- pres still ub => apply pres_ub
  | |- pres still none => apply pres_none
  | |- pres still (gets _) => apply pres_gets; exact still_refl
  | |- pres still (lift _) => apply pres_lift; exact still_refl
  | |- pres still (hget _ _) => apply pres_hget; exact still_refl
  | |- pres still (rethrow _) => apply pres_rethrow; exact still_refl
  | |- pres still (modify _) => solve [auto with hp | apply hp_modify_same; reflexivity]
  | |- pres still (bind _ _) => apply pres_bind; [exact still_trans| |]
  | |- pres still (attempt _) => apply pres_attempt
  | |- pres still (guarded _ _) => apply pres_guarded; [exact still_refl|exact still_trans| |]
  | |- pres still (match ?x with _ => _ end) => destruct x
  end.
Ltac hp_tac := repeat first [ solve [auto with hp] | hp_core ].

Local Ltac go d := unfold d; hp_tac.

Lemma hp_get_table : forall t, hp (get_table t). Proof. go get_table. Qed.
Lemma hp_put_table : forall t x, hp (put_table t x). Proof. go put_table. Qed.
Lemma hp_new_table : forall x, hp (new_table x). Proof. go new_table. Qed.
Lemma hp_get_obj : forall t, hp (get_obj t). Proof. go get_obj. Qed.
Lemma hp_put_obj : forall t x, hp (put_obj t x). Proof. go put_obj. Qed.
Lemma hp_new_obj : forall x, hp (new_obj x). Proof. go new_obj. Qed.
Lemma hp_get_mock : forall t, hp (get_mock t). Proof. go get_mock. Qed.
Lemma hp_put_mock : forall t x, hp (put_mock t x). Proof. go put_mock. Qed.
Lemma hp_new_mock : forall x, hp (new_mock x). Proof. go new_mock. Qed.
Lemma hp_get_body : forall t, hp (get_body t). Proof. go get_body. Qed.
Lemma hp_put_body : forall t x, hp (put_body t x). Proof. go put_body. Qed.
Lemma hp_new_body : forall x, hp (new_body x). Proof. go new_body. Qed.
Lemma hp_get_seq : forall t, hp (get_seq t). Proof. go get_seq. Qed.
Lemma hp_new_seq : hp (new_seq aseq_new).
Proof.
  unfold new_seq. intro w. unfold presw, bind, gets, modify, ret. cbn -[aseq_new]. split; cbn -[aseq_new]; auto.
  unfold good. cbn -[aseq_new]. intros [H T]. split; [|exact T]. apply Forall_app. split; [exact H|].
  constructor; [|constructor]. repeat constructor.
Qed.

Lemma still_put_seq : forall w s q', (good w -> decent_seq (sq_seq q')) ->
  still w (set_seqs w (upd (w_seqs w) s q')).
Proof.
  intros w s q' K. split; [|reflexivity]. intro G. specialize (K G). destruct G as [G T]. split; [|exact T]. cbn.
  apply Forall_forall. intros q Q. apply In_nth_error in Q. destruct Q as [i Q]. rewrite nth_error_upd in Q.
  destruct (Nat.eqb_spec s i) as [->|N].
  - destruct (Nat.ltb i (length (w_seqs w))); [|discriminate]. congruence.
  - rewrite Forall_forall in G. apply G. eapply nth_error_In; eauto.
Qed.

Lemma good_seq : forall w s q, good w -> nth_error (w_seqs w) s = Some q -> decent_seq (sq_seq q).
Proof.
  intros w s q [G _] Q. rewrite Forall_forall in G. apply G. eapply nth_error_In; eauto.
Qed.

Lemma hp_seq_of : forall A s (k : seqcell -> M A),
  (forall q w, nth_error (w_seqs w) s = Some q -> presw still (k q) w) ->
  hp (let* q := get_seq s in k q).
Proof.
  intros A s k K w. unfold get_seq, presw, gets. unfold bind at 1. unfold bind at 1.
  destruct (nth_error (w_seqs w) s) as [q|] eqn:Q; cbn; [|exact Logic.I]. apply (K q w Q).
Qed.

Definition decent_served (s : served callable) : Prop :=
  match s with SrvCall f => decent_callable caught trusted f | _ => True end.

Lemma decent_begin : forall (s s' : aseq callable) id srv, handle_begin s = Def (s', id, srv) ->
  decent_seq s -> decent_seq s' /\ decent_served srv.
Proof.
  intros s s' id srv H D. unfold handle_begin in H. destruct (as_recorded s) as [|i r]; [discriminate|].
  destruct (nth_error (as_acts s) i) as [a|] eqn:A; cbn in H; [|discriminate].
  destruct (invoke a) as [[a' sv]| |] eqn:I; cbn in H; try discriminate.
  inversion H; subst; clear H. unfold decent_seq in *. cbn.
  assert (Da : decent_action a) by (rewrite Forall_forall in D; apply D; eapply nth_error_In; eauto).
  assert (Db : decent_action a' /\ decent_served srv).
  { destruct a; cbn in I; try (inversion I; subst; cbn in *; now auto).
    destruct (long_dec times); cbn in I; inversion I; subst; cbn in *; auto. }
  destruct Db as [Db Ds]. split; [|exact Ds].
  apply Forall_forall. intros b B. apply In_nth_error in B. destruct B as [j B]. rewrite nth_error_upd in B.
  destruct (Nat.eqb_spec id j) as [->|N].
  - destruct (Nat.ltb j (length (as_acts s))); [|discriminate]. congruence.
  - rewrite Forall_forall in D. apply D. eapply nth_error_In; eauto.
Qed.

Lemma decent_end : forall (s s' : aseq callable) id, handle_end s id = Def s' -> decent_seq s -> decent_seq s'.
Proof.
  intros s s' id H D. unfold handle_end in H. destruct (nth_error (as_acts s) id) as [a|]; cbn in H; [|discriminate].
  destruct (isDone a).
  - destruct (as_recorded s); inversion H; subst. exact D.
  - inversion H; subst. exact D.
Qed.

Lemma decent_append : forall (s s' : aseq callable) a, append s a = Def s' -> decent_action a ->
  decent_seq s -> decent_seq s'.
Proof.
  intros s s' a H A D. unfold append in H. destruct (rev (as_recorded s)); inversion H; subst.
  unfold decent_seq in *. cbn. apply Forall_app. split; [exact D|]. constructor; [exact A|constructor].
Qed.

Lemma hp_get_matcher : forall t, hp (get_matcher t). Proof. go get_matcher. Qed.
Lemma hp_new_matcher : forall x, hp (new_matcher x). Proof. go new_matcher. Qed.
Lemma hp_get_ctx : forall t, hp (get_ctx t). Proof. go get_ctx. Qed.
Lemma hp_put_ctx : forall t x, hp (put_ctx t x). Proof. go put_ctx. Qed.
Lemma hp_new_ctx : forall x, hp (new_ctx x). Proof. go new_ctx. Qed.
Lemma hp_get_exp : forall t, hp (get_exp t). Proof. go get_exp. Qed.
Lemma hp_put_exp : forall t x, hp (put_exp t x). Proof. go put_exp. Qed.
Lemma hp_new_exp : forall x, hp (new_exp x). Proof. go new_exp. Qed.
Lemma hp_get_inv : forall t, hp (get_inv t). Proof. go get_inv. Qed.
Lemma hp_put_inv : forall t x, hp (put_inv t x). Proof. go put_inv. Qed.
Lemma hp_new_inv : forall x, hp (new_inv x). Proof. go new_inv. Qed.
Lemma hp_class_of : forall E c, hp (class_of E c). Proof. go class_of. Qed.
Local Hint Resolve hp_get_table hp_put_table hp_new_table hp_get_obj hp_put_obj hp_new_obj
  hp_get_mock hp_put_mock hp_new_mock hp_get_body hp_put_body hp_new_body hp_get_seq
  hp_new_seq hp_get_matcher hp_new_matcher hp_get_ctx hp_put_ctx hp_new_ctx hp_get_exp hp_put_exp
  hp_new_exp hp_get_inv hp_put_inv hp_new_inv hp_class_of : hp.

Lemma hp_free_table : forall t, hp (free_table t). Proof. go free_table. Qed.
Lemma hp_free_obj : forall t, hp (free_obj t). Proof. go free_obj. Qed.
Lemma hp_free_seq : forall t, hp (free_seq t).
Proof.
  intro t. unfold free_seq. apply hp_seq_of. intros q w Q. destruct (sq_alive q); [|exact Logic.I].
  unfold presw, put_seq, modify. apply still_put_seq. intro G. cbn. eapply good_seq; eauto.
Qed.
Lemma hp_free_matcher : forall t, hp (free_matcher t). Proof. go free_matcher. Qed.
Lemma hp_free_exp : forall t, hp (free_exp t). Proof. go free_exp. Qed.
Lemma hp_nextMethodOrdinal : hp nextMethodOrdinal. Proof. go nextMethodOrdinal. Qed.
Lemma hp_nextInvocationOrdinal : hp nextInvocationOrdinal. Proof. go nextInvocationOrdinal. Qed.
Local Hint Resolve hp_free_table hp_free_obj hp_free_seq hp_free_matcher hp_free_exp
  hp_nextMethodOrdinal hp_nextInvocationOrdinal : hp.

Lemma complaints_app : forall l l', complaints bad (l ++ l') = complaints bad l ++ complaints bad l'.
Proof. intros. unfold complaints. rewrite map_app. apply filter_app. Qed.

Lemma complaints_other : forall e (ls : list nat), bad e = false -> complaints bad (map (fun l => (l, e)) ls) = [].
Proof.
  intros e ls O. induction ls as [|l ls IH]; auto. unfold complaints in *. cbn. rewrite O. exact IH.
Qed.

Lemma hp_handle_event : forall E e, bad e = false -> hp (handle_event E e).
Proof.
  intros E e O. unfold handle_event. apply pres_bind; [exact still_trans|hp_tac|].
  intro c. destruct (Events.ctx_handle _ _ _ _) as [done x]. apply pres_bind; [exact still_trans| |hp_tac].
  apply pres_modify. intro w. split; [intro H; exact H|].
  change (complaints bad (w_log w ++ map (fun l => (l, e)) done) = complaints bad (w_log w)).
  rewrite complaints_app, complaints_other by exact O. apply app_nil_r.
Qed.

Lemma hp_obj_table : forall o, hp (obj_table o). Proof. go obj_table. Qed.
Local Hint Resolve hp_obj_table : hp.
Lemma hp_fake_setMethod : forall o i x, hp (fake_setMethod o i x). Proof. go fake_setMethod. Qed.
Lemma hp_fake_setDtor : forall o c i x, hp (fake_setDtor o c i x). Proof. go fake_setDtor. Qed.
Lemma hp_setVirtualTable : forall o t, hp (setVirtualTable o t). Proof. go setVirtualTable. Qed.
Lemma hp_initData : forall o, hp (initializeDataMembersArea o). Proof. go initializeDataMembersArea. Qed.
Lemma hp_build_table : forall c d, hp (build_table c d). Proof. go build_table. Qed.
Local Hint Resolve hp_fake_setMethod hp_fake_setDtor hp_setVirtualTable hp_initData hp_build_table : hp.
Lemma hp_createFakeInstance : forall E c, hp (createFakeInstance E c). Proof. go createFakeInstance. Qed.
Lemma hp_make_mock : forall E c o b, hp (make_mock E c o b). Proof. go make_mock. Qed.
Local Hint Resolve hp_createFakeInstance hp_make_mock : hp.
Lemma hp_mock_new : forall E c, hp (mock_new E c). Proof. go mock_new. Qed.
Lemma hp_mock_spy : forall E c o, hp (mock_spy E c o). Proof. go mock_spy. Qed.

Lemma hp_free_handlers : forall hs, hp (free_handlers hs).
Proof. induction hs as [|[mt sq] hs IH]; cbn; hp_tac. Qed.
Local Hint Resolve hp_free_handlers hp_mock_new hp_mock_spy : hp.
Lemma hp_free_body : forall b, hp (free_body b). Proof. go free_body. Qed.
Local Hint Resolve hp_free_body : hp.
Lemma hp_free_bodies : forall bs, hp (free_bodies bs).
Proof. induction bs as [|[b|] bs IH]; cbn; hp_tac. Qed.
Lemma hp_initDataMembersIfOwner : forall m, hp (initDataMembersIfOwner m). Proof. go initDataMembersIfOwner. Qed.
Local Hint Resolve hp_free_bodies hp_initDataMembersIfOwner : hp.
Lemma hp_proxy_reset : forall E m, hp (proxy_reset E m). Proof. go proxy_reset. Qed.
Local Hint Resolve hp_proxy_reset : hp.
Lemma hp_mock_reset : forall E m, hp (mock_reset E m). Proof. go mock_reset. Qed.
Lemma hp_clear_bodies : forall bs, hp (clear_bodies bs).
Proof. induction bs as [|[b|] bs IH]; cbn; hp_tac. Qed.
Local Hint Resolve hp_mock_reset hp_clear_bodies : hp.
Lemma hp_mock_clear : forall m, hp (mock_clear m). Proof. go mock_clear. Qed.
Lemma hp_mock_destroy : forall m, hp (mock_destroy m). Proof. go mock_destroy. Qed.
Lemma hp_ensure_bound : forall E m s i b, hp (ensure_bound E m s i b). Proof. go ensure_bound. Qed.
Local Hint Resolve hp_mock_clear hp_mock_destroy hp_ensure_bound : hp.
Lemma hp_getRecordedMethodBody : forall E t, hp (getRecordedMethodBody E t). Proof. go getRecordedMethodBody. Qed.
Lemma hp_ctx_free : forall c, hp (ctx_free c). Proof. go ctx_free. Qed.
Local Hint Resolve hp_getRecordedMethodBody hp_ctx_free : hp.
Lemma hp_ctx_new : forall E t, hp (ctx_new E t). Proof. go ctx_new. Qed.
Lemma hp_ctx_cond : forall c im, hp (ctx_cond c im). Proof. go ctx_cond. Qed.
Lemma hp_ctx_append : forall c a, decent_action a -> hp (ctx_append c a).
Proof.
  intros c a D. unfold ctx_append. apply pres_bind; [exact still_trans|hp_tac|]. intro x.
  apply hp_seq_of. intros q w Q. destruct (sq_alive q); [|exact Logic.I].
  unfold presw, lift, bind. destruct (append (sq_seq q) a) as [s'| |] eqn:A; try exact Logic.I.
  cbn. apply still_put_seq. intro G. cbn. eapply decent_append; eauto. eapply good_seq; eauto.
Qed.
Lemma hp_ctx_commit : forall E c, hp (ctx_commit E c). Proof. go ctx_commit. Qed.
Local Hint Resolve hp_ctx_new hp_ctx_cond hp_ctx_commit : hp.

Definition decent_recs (rs : list (recorded callable)) : Prop :=
  forall r, In r rs -> decent_callable caught trusted (callable_in r).

Lemma decent_action_of : forall r, decent_callable caught trusted (callable_in r) -> decent_action (action_of r).
Proof. intros [f|f q|f] H; exact H. Qed.

Lemma hp_append_all : forall c rs, decent_recs rs -> hp (append_all c rs).
Proof.
  induction rs as [|r rs IH]; intro D; cbn; [hp_tac|]. apply pres_bind; [exact still_trans| |].
  - apply hp_ctx_append, decent_action_of, D. now left.
  - intros _. apply IH. intros r' R'. apply D. now right.
Qed.
Lemma hp_do_when : forall E c rs i, decent_recs rs -> hp (do_when E c rs i).
Proof.
  intros E c rs i D. unfold do_when. destruct i as [[n e]|].
  - apply pres_bind; [exact still_trans| |hp_tac]. apply hp_append_all. intros r R. apply D.
    rewrite <- (firstn_skipn n rs). apply in_or_app. now left.
  - apply pres_bind; [exact still_trans| |hp_tac]. now apply hp_append_all.
Qed.
Lemma hp_do_fake : forall E c, hp (do_fake E c).
Proof. intros E c. unfold do_fake. apply pres_bind; [exact still_trans| |hp_tac]. now apply hp_ctx_append. Qed.
Lemma hp_do_spy : forall E c f, hp (do_spy E c f).
Proof.
  intros E c f. unfold do_spy. apply pres_bind; [exact still_trans|hp_tac|]. intro x.
  destruct (cx_target x) as [m slot cn|m].
  - intro w. unfold presw, bind at 1 2. pose proof (hp_get_mock m w) as G. unfold presw in G.
    destruct (get_mock m w) as [w' k|w' e| |]; auto. unfold ret at 1.
    match goal with |- match ?m' w' with _ => _ end =>
      assert (P : hp m') by (apply pres_bind; [exact still_trans| |hp_tac]; apply hp_ctx_append; constructor) end.
    specialize (P w'). unfold presw in P.
    match type of P with match ?x with _ => _ end => destruct x end; auto; eapply still_trans; eauto.
  - intro w. unfold presw, bind at 1, ret at 1.
    match goal with |- match ?m' w with _ => _ end =>
      assert (P : hp m') by (apply pres_bind; [exact still_trans| |hp_tac]; apply hp_ctx_append; do 2 constructor) end.
    exact (P w).
Qed.
Lemma hp_do_assign : forall E c f, decent_callable caught trusted f -> hp (do_assign E c f).
Proof. intros E c f D. unfold do_assign. apply pres_bind; [exact still_trans| |hp_tac]. now apply hp_ctx_append. Qed.
Lemma hp_default_value : forall r, hp (default_value r). Proof. go default_value. Qed.
Local Hint Resolve hp_do_fake hp_do_spy hp_default_value : hp.

Lemma hp_mark_all : forall l, hp (mark_all l).
Proof. induction l as [|i l IH]; cbn [mark_all]; hp_tac. Qed.
Lemma hp_report_quiet : forall E e, hp (report E true e). Proof. intros. cbn [report]. hp_tac. Qed.
Local Hint Resolve hp_mark_all hp_report_quiet : hp.
Lemma hp_verify_exp : forall E x, hp (verify_exp E x true). Proof. unfold verify_exp; hp_tac. Qed.
Local Hint Resolve hp_verify_exp : hp.
Lemma hp_exp_bool : forall E x, hp (exp_bool E x). Proof. unfold exp_bool; hp_tac. Qed.
Lemma hp_exp_quant : forall x q, hp (exp_quant x q). Proof. unfold exp_quant; hp_tac. Qed.
Lemma hp_involved : forall cs, hp (involved cs). Proof. induction cs; cbn [involved]; hp_tac. Qed.
Local Hint Resolve hp_exp_bool hp_exp_quant hp_involved : hp.
Lemma hp_exp_new_seq : forall s p, hp (exp_new_seq s p). Proof. unfold exp_new_seq; hp_tac. Qed.
Lemma hp_ctx_of : forall E t im, hp (ctx_of E t im). Proof. unfold ctx_of; hp_tac. Qed.
Lemma hp_free_ctxs : forall cs, hp (free_ctxs cs). Proof. induction cs; cbn [free_ctxs]; hp_tac. Qed.
Local Hint Resolve hp_exp_new_seq hp_ctx_of hp_free_ctxs : hp.
Lemma hp_run_steps : forall E x steps last, hp (run_steps E x steps last).
Proof. induction steps as [|[q|] steps IH]; intro last; cbn [run_steps]; hp_tac. Qed.
Local Hint Resolve hp_run_steps : hp.
Lemma hp_each : forall f cs, (forall c, hp (f c)) -> hp (each f cs).
Proof. induction cs; intro F; cbn [each]; hp_tac. Qed.
Local Hint Resolve hp_each : hp.

Lemma hp_unit_val : forall A (m : M A), hp m -> hp (unit_val m). Proof. intros. unfold unit_val; hp_tac. Qed.
Lemma hp_nat_val : forall m, hp m -> hp (nat_val m). Proof. intros. unfold nat_val; hp_tac. Qed.

(** ** Calls *)
Variable E : env.
Hypothesis Hbodies : forall c d slot, nth_error (e_classes E) c = Some d -> decent caught trusted (cl_body d slot).
Hypothesis Hloud : loud caught bad (e_react E).
Hypothesis Hstern : stern trusted bad (e_react E).
Hypothesis Hbuiltin : trusted (e_builtin E) = true.
Hypothesis Hnomore : caught XNoMore = true \/ forall t m args, bad (EvUnexpected t m args) = true.
Hypothesis Hthrown : forall t m args, bad (EvUnexpected t m args) = true -> caught (XUnexpected (EvUnexpected t m args)) = false.

(** What a call does: if it reports something, it ends with an exception that nothing
    catches. *)
Definition heardw {A} (m : M A) (w : world) : Prop :=
  good w ->
  match m w with
  | RVal w' _ => good w' /\ complaints bad (w_log w') = complaints bad (w_log w)
  | RExn w' e => good w' /\ (caught e = true -> complaints bad (w_log w') = complaints bad (w_log w))
  | _ => True
  end.
Definition heard {A} (m : M A) : Prop := forall w, heardw m w.

Lemma heardw_still : forall A (m : M A) w, presw still m w -> heardw m w.
Proof.
  intros A m w P G. unfold presw in P. destruct (m w); auto; destruct P as [P1 P2]; auto.
Qed.
Lemma heard_still : forall A (m : M A), hp m -> heard m.
Proof. intros A m P w. apply heardw_still, P. Qed.

Lemma heardw_bind_still : forall A B (m : M A) (k : A -> M B) w,
  presw still m w -> (forall a w', m w = RVal w' a -> heardw (k a) w') -> heardw (bind m k) w.
Proof.
  intros A B m k w P K G. unfold presw in P. unfold bind. destruct (m w) as [w' a|w' e| |] eqn:Em; auto.
  - destruct P as [P1 P2]. specialize (K a w' eq_refl (P1 G)). destruct (k a w') as [w2 b|w2 e| |]; auto.
    + rewrite <- P2. exact K.
    + rewrite <- P2. exact K.
  - destruct P as [P1 P2]. auto.
Qed.
Lemma heard_bind : forall A B (m : M A) (k : A -> M B), hp m -> (forall a, heard (k a)) -> heard (bind m k).
Proof. intros A B m k P K w. apply heardw_bind_still; auto. intros a w' _. apply K. Qed.

Lemma heard_bind2 : forall A B (m : M A) (k : A -> M B), heard m -> (forall a, heard (k a)) -> heard (bind m k).
Proof.
  intros A B m k P K w G. specialize (P w G). unfold bind. destruct (m w) as [w' a|w' e| |]; auto.
  destruct P as [G' Q]. specialize (K a w' G'). rewrite Q in K. exact K.
Qed.

(** Code that throws nothing of its own. *)
Definition nothrow {A} (m : M A) : Prop := forall w, match m w with RExn _ _ => False | _ => True end.

Lemma nothrow_bind : forall A B (m : M A) (k : A -> M B), nothrow m -> (forall a, nothrow (k a)) -> nothrow (bind m k).
Proof. intros A B m k P K w. unfold bind. specialize (P w). destruct (m w) as [w' a|w' e| |]; auto. apply K. Qed.
Lemma nothrow_ret : forall A (a : A), nothrow (ret a). Proof. intros A a w. exact Logic.I. Qed.
Lemma nothrow_ub : forall A, nothrow (@ub A). Proof. intros A w. exact Logic.I. Qed.
Lemma nothrow_gets : forall A (f : world -> A), nothrow (gets f). Proof. intros A f w. exact Logic.I. Qed.
Lemma nothrow_modify : forall f, nothrow (modify f). Proof. intros f w. exact Logic.I. Qed.
Lemma nothrow_lift : forall A (o : outcome A), nothrow (lift o). Proof. intros A [a| |] w; exact Logic.I. Qed.

Ltac nt := intros; repeat first
  [ apply nothrow_ret | apply nothrow_ub | apply nothrow_gets | apply nothrow_modify | apply nothrow_lift
  | apply nothrow_bind | match goal with |- forall _, _ => intro end
  | match goal with |- nothrow (match ?x with _ => _ end) => destruct x end ].

Lemma nothrow_seq_end : forall s id, nothrow (seq_end s id).
Proof. intros. unfold seq_end, get_seq, put_seq. nt. Qed.
Lemma nothrow_restore : forall m slot x,
  nothrow (let* k' := get_mock m in fake_setMethod (mk_obj k') (Z.of_nat slot) x).
Proof. intros. unfold get_mock, fake_setMethod, obj_table, get_obj, get_table, put_table, hget. nt. Qed.

Lemma heard_guarded : forall A (m : M A) f, heard m -> hp f -> nothrow f -> heard (guarded m f).
Proof.
  intros A m f H P N w G. specialize (H w G). unfold guarded, attempt, bind.
  destruct (m w) as [w' a|w' e| |]; auto; destruct H as [H1 H2]; specialize (P w'); specialize (N w');
    unfold presw in P; destruct (f w') as [w2 u|w2 e2| |]; try tauto; destruct P as [P1 P2]; cbn; split; auto.
  - congruence.
  - intro C. rewrite P2. auto.
Qed.

Lemma hp_seq_end : forall s id, hp (seq_end s id).
Proof.
  intros s id. unfold seq_end. apply hp_seq_of. intros q w Q. unfold presw, lift. unfold bind at 1.
  destruct (of_option _) as [a| |]; try exact Logic.I. destruct (isDone a); [|apply still_refl].
  destruct (sq_alive q); [|exact Logic.I]. unfold bind. destruct (handle_end (sq_seq q) id) as [s'| |] eqn:A; try exact Logic.I.
  cbn. apply still_put_seq. intro G. cbn. eapply decent_end; eauto. eapply good_seq; eauto.
Qed.
Lemma hp_find_handler : forall hs args a, hp (find_handler hs args a).
Proof. induction hs as [|[mt sq] hs IH]; intros args a; cbn [find_handler]; hp_tac. Qed.
Local Hint Resolve hp_seq_end hp_find_handler : hp.

(** Reporting. *)
Lemma fireEvent_loud : forall ls ev done e, bad ev = true ->
  fireEvent (e_react E) ls ev = (done, Some e) -> caught e = false.
Proof.
  induction ls as [|l ls IH]; intros ev done e B H; cbn in H; [discriminate|].
  destruct (e_react E l ev) as [x|] eqn:R.
  - inversion H; subst. eapply Hloud; eauto.
  - destruct (fireEvent (e_react E) ls ev) as [d x] eqn:F. inversion H; subst. eapply IH; eauto.
Qed.

Lemma ctx_handle_loud : forall c ev done e, bad ev = true ->
  ctx_handle (e_react E) (e_builtin E) c ev = (done, Some e) -> caught e = false.
Proof.
  intros c ev done e B C. unfold ctx_handle in C.
  destruct (fireEvent (e_react E) (fc_listeners c) ev) as [d [x|]] eqn:F; inversion C; subst; clear C.
  - exact (fireEvent_loud _ _ _ _ B F).
  - match goal with R : e_react E _ _ = Some e |- _ => exact (Hloud _ _ _ B R) end.
Qed.

Definition uproar {A} (m : M A) : Prop := forall w, good w ->
  match m w with
  | RVal _ _ => False
  | RExn w' e => good w' /\ caught e = false
  | _ => True
  end.

Lemma uproar_unexpected : forall t m args, bad (EvUnexpected t m args) = true -> uproar (unexpected E t m args).
Proof.
  intros t m args B w G. unfold unexpected, handle_event, bind, gets.
  destruct (ctx_handle (e_react E) (e_builtin E) (w_fctx w) (EvUnexpected t m args)) as [done x] eqn:C.
  unfold modify. destruct x as [e|]; unfold throw, ret; (split; [exact G|]).
  - exact (ctx_handle_loud _ _ _ _ B C).
  - now apply Hthrown.
Qed.

Definition verification (e : event) : Prop := match e with EvUnexpected _ _ _ => False | _ => True end.

Lemma uproar_verification : forall e, bad e = true -> verification e -> uproar (handle_event E e).
Proof.
  intros e B V w G. unfold handle_event, bind, gets.
  destruct (ctx_handle (e_react E) (e_builtin E) (w_fctx w) e) as [done x] eqn:C.
  unfold modify. destruct x as [x|]; unfold throw, ret.
  - split; [exact G|exact (ctx_handle_loud _ _ _ _ B C)].
  - unfold ctx_handle in C. destruct (fireEvent _ _ _) as [d [y|]]; inversion C.
    assert (T : trusted (getTestingFrameworkAdapter (e_builtin E) (w_fctx w)) = true).
    { destruct G as [_ G]. unfold trusted_adapter in G. unfold getTestingFrameworkAdapter.
      destruct (fc_adapter (w_fctx w)); auto. }
    pose proof (Hstern _ e B T) as S. destruct e; [contradiction V|congruence|congruence].
Qed.

Lemma heard_uproar : forall A (m : M A), uproar m -> heard m.
Proof.
  intros A m U w G. specialize (U w G). destruct (m w); auto; [contradiction|]. destruct U as [U1 U2].
  split; [exact U1|congruence].
Qed.

Lemma uproar_bind : forall A B (m : M A) (k : A -> M B), hp m -> nothrow m -> (forall a, uproar (k a)) -> uproar (bind m k).
Proof.
  intros A B m k P N K w G. specialize (P w). specialize (N w). unfold presw in P. unfold bind.
  destruct (m w) as [w' a|w' e| |]; auto; [|contradiction]. destruct P as [P _]. exact (K a w' (P G)).
Qed.

Lemma heard_unexpected : forall t m args, heard (unexpected E t m args).
Proof.
  intros t m args. destruct (bad (EvUnexpected t m args)) eqn:B.
  - now apply heard_uproar, uproar_unexpected.
  - apply heard_still. unfold unexpected. apply pres_bind; [exact still_trans| |hp_tac]. now apply hp_handle_event.
Qed.

(** Verification. *)
Lemma heard_report : forall q e, verification e -> heard (report E q e).
Proof.
  intros q e V. unfold report. destruct q; [apply heard_still; hp_tac|]. destruct (bad e) eqn:B.
  - now apply heard_uproar, uproar_verification.
  - now apply heard_still, hp_handle_event.
Qed.

Ltac hd := repeat first
  [ solve [apply heard_still; hp_tac]
  | apply heard_report; exact Logic.I
  | apply heard_bind; [solve [hp_tac]|intro]
  | match goal with |- heard (match ?x with _ => _ end) => destruct x end ].

Lemma heard_verify_exp : forall x q, heard (verify_exp E x q).
Proof. intros. unfold verify_exp. hd. Qed.
Lemma nothrow_free_exp : forall x, nothrow (free_exp x).
Proof. intro. unfold free_exp, get_exp, hget. nt. Qed.
Lemma heard_exp_free : forall x, heard (exp_free E x).
Proof.
  intro x. unfold exp_free. apply heard_bind; [hp_tac|]. intro u.
  apply heard_guarded; [|hp_tac|apply nothrow_free_exp].
  destruct (Nat.eqb u 0); [apply heard_verify_exp|apply heard_still; hp_tac].
Qed.
Lemma heard_verify_stmt : forall mk steps, hp mk -> heard (verify_stmt E mk steps).
Proof.
  intros mk steps H. unfold verify_stmt. apply heard_bind; [exact H|]. intro x. apply heard_bind; [hp_tac|].
  intros [v|e]; [|apply heard_still; hp_tac].
  apply heard_bind2; [apply heard_exp_free|]. intro. apply heard_still; hp_tac.
Qed.

Lemma nothrow_ctx_free : forall c, nothrow (ctx_free c).
Proof. intro c. unfold ctx_free, get_ctx, free_seq, free_matcher, get_seq, put_seq, get_matcher, hget. nt. Qed.
Lemma nothrow_free_ctxs : forall cs, nothrow (free_ctxs cs).
Proof.
  induction cs as [|c cs IH]; cbn [free_ctxs]; [nt|]. apply nothrow_bind; [apply nothrow_ctx_free|]. intros _. exact IH.
Qed.

Lemma heard_with_ctxs : forall ts done body, (forall cs, heard (body cs)) -> heard (with_ctxs E ts done body).
Proof.
  induction ts as [|[t im] ts IH]; intros done body B; cbn [with_ctxs].
  - apply heard_guarded; [apply B|hp_tac|apply nothrow_free_ctxs].
  - apply heard_bind; [hp_tac|]. intros [c|e]; [now apply IH|apply heard_still; hp_tac].
Qed.

Definition decent_stmt (s : stmt) : Prop :=
  match s with
  | SWhen rs _ => decent_recs rs
  | SAssign f => decent_callable caught trusted f
  | _ => True
  end.

Lemma heard_run_stmt : forall s cs, decent_stmt s -> heard (run_stmt E s cs).
Proof.
  intros [rs i| |f|f|sc p st|l st] cs D; cbn [run_stmt decent_stmt] in *.
  - destruct cs as [|c [|c' cs]]; try solve [apply heard_still; hp_tac].
    apply heard_still, pres_bind; [exact still_trans|now apply hp_do_when|hp_tac].
  - apply heard_still; hp_tac.
  - apply heard_still; hp_tac.
  - destruct cs as [|c [|c' cs]]; try solve [apply heard_still; hp_tac].
    apply heard_still, pres_bind; [exact still_trans|now apply hp_do_assign|hp_tac].
  - destruct (place_scope cs sc); [|apply heard_still; hp_tac].
    destruct (place_all (place_seq cs) p); [|apply heard_still; hp_tac]. apply heard_verify_stmt. hp_tac.
  - destruct (place_all (place_source cs) l); [|apply heard_still; hp_tac]. apply heard_verify_stmt. hp_tac.
Qed.

Section Open.
Variable rec : op -> M val.
(** Operations: those of destructors during unwinding may swallow a report. *)
Hypothesis Hrec : forall o, decent_op caught trusted o -> (forall o', o <> OUnwinding o') -> heard (rec o).
Hypothesis Hkeep : forall o, decent_op caught trusted o -> forall w, good w ->
  match rec o w with RVal w' _ | RExn w' _ => good w' | _ => True end.

Lemma passes_run : forall p e fr w, passes caught trusted e p -> good w ->
  match run_prog rec fr p w with
  | RVal _ _ => False
  | RExn w' e' => good w' /\ e' = e
  | _ => True
  end.
Proof.
  fix IH 1. intros [v|e'|i k|i v k|k|o k] e fr w P G; cbn [run_prog].
  - inversion P.
  - inversion P; subst. cbn. auto.
  - assert (K : forall v, passes caught trusted e (k v)) by (inversion P; auto).
    destruct fr as [n|this args].
    + unfold bind, get_inv, gets, bind, ret. destruct (nth_error (w_invs w) n) as [x|]; [|exact Logic.I].
      destruct (nth_error (iv_args x) i) as [v|]; [|exact Logic.I]. apply IH; auto.
    + destruct (nth_error args i) as [v|]; [|exact Logic.I]. apply IH; auto.
  - assert (K : passes caught trusted e k) by (inversion P; auto).
    destruct fr as [n|this args].
    + unfold bind, get_inv, gets, bind, ret. destruct (nth_error (w_invs w) n) as [x|]; [|exact Logic.I].
      destruct (Nat.ltb i (length (iv_args x))); [|exact Logic.I]. unfold put_inv, modify. apply IH; auto.
    + destruct (Nat.ltb i (length args)); [|exact Logic.I]. apply IH; auto.
  - assert (K : forall o, passes caught trusted e (k o)) by (inversion P; auto).
    destruct fr as [n|this args]; [exact Logic.I|]. apply IH; auto.
  - assert (K : forall r, passes caught trusted e (k r)) by (inversion P; auto).
    assert (D : decent_op caught trusted o) by (inversion P; auto).
    unfold bind, attempt. pose proof (Hkeep o D w G) as H. destruct (rec o w) as [w' v|w' x| |]; auto; apply IH; auto.
Qed.

Lemma heard_run_prog : forall p fr, decent caught trusted p -> heard (run_prog rec fr p).
Proof.
  fix IH 1. intros [v|e'|i k|i v k|k|o k] fr P; cbn [run_prog].
  - apply heard_still. hp_tac.
  - apply heard_still. hp_tac.
  - assert (K : forall v, decent caught trusted (k v)) by (inversion P; auto).
    destruct fr as [n|this args].
    + apply heard_bind; [hp_tac|]. intro x.
      destruct (nth_error (iv_args x) i) as [v|]; [apply IH; auto|apply heard_still; hp_tac].
    + destruct (nth_error args i) as [v|]; [apply IH; auto|apply heard_still; hp_tac].
  - assert (K : decent caught trusted k) by (inversion P; auto).
    destruct fr as [n|this args].
    + apply heard_bind; [hp_tac|]. intro x.
      destruct (Nat.ltb i (length (iv_args x))); [|apply heard_still; hp_tac].
      apply heard_bind; [hp_tac|]. intros _. apply IH; auto.
    + destruct (Nat.ltb i (length args)); [apply IH; auto|apply heard_still; hp_tac].
  - assert (K : forall o, decent caught trusted (k o)) by (inversion P; auto).
    destruct fr as [n|this args]; [apply heard_still; hp_tac|apply IH; auto].
  - assert (D : decent_op caught trusted o) by (inversion P; auto).
    assert (NU : forall o', o <> OUnwinding o') by (inversion P; auto).
    assert (K1 : forall v, decent caught trusted (k (OVal v))) by (inversion P; auto).
    assert (K2 : forall e, caught e = true -> decent caught trusted (k (OExn e))) by (inversion P; auto).
    assert (K3 : forall e, caught e = false -> passes caught trusted e (k (OExn e))) by (inversion P; auto).
    intros w G. unfold bind, attempt. pose proof (Hrec o D NU w G) as H.
    destruct (rec o w) as [w' v|w' e| |]; auto; destruct H as [G' Q].
    + pose proof (IH (k (OVal v)) fr (K1 v) w' G') as R. rewrite <- Q. exact R.
    + destruct (caught e) eqn:C.
      * pose proof (IH (k (OExn e)) fr (K2 e C) w' G') as R. rewrite <- (Q eq_refl). exact R.
      * pose proof (passes_run (k (OExn e)) e fr w' (K3 e C) G') as R.
        destruct (run_prog rec fr (k (OExn e)) w') as [w2 v2|w2 e2| |]; auto; [contradiction|].
        destruct R as [R ->]. split; [exact R|]. congruence.
Qed.

Lemma heard_with_original : forall m slot run, heard run -> heard (with_original m slot run).
Proof.
  intros m slot run H. unfold with_original.
  repeat (apply heard_bind; [hp_tac|]; intro).
  match goal with |- context [let (_, _) := ?p in _] => destruct p end.
  do 4 (apply heard_bind; [hp_tac|]; intro).
  apply heard_guarded; [exact H|hp_tac|apply nothrow_restore].
Qed.

Lemma decent_call : forall o slot args, decent_op caught trusted (OCall o slot args).
Proof. intros. apply DoOther. exact Logic.I. Qed.

Lemma heard_run_callable : forall f i, decent_callable caught trusted f -> heard (run_callable E rec f i).
Proof.
  intros [p| |r vals|r vals|m o slot forward] i D; cbn [run_callable].
  - apply heard_run_prog. now inversion D.
  - apply heard_still; hp_tac.
  - apply heard_still; hp_tac.
  - apply heard_still; hp_tac.
  - apply heard_with_original. apply heard_bind; [hp_tac|]. intro x. apply heard_bind; [hp_tac|]. intros _.
    apply Hrec; [apply decent_call|congruence].
Qed.

Lemma heard_serve : forall s i, decent_served s -> heard (serve E rec s i).
Proof.
  intros [f| |] i D; cbn [serve].
  - now apply heard_run_callable.
  - apply heard_still; hp_tac.
  - apply heard_still; hp_tac.
Qed.

Lemma heard_seq_handle : forall s i, heard (seq_handle E rec s i).
Proof.
  intros s i w G. unfold seq_handle, get_seq, gets. unfold bind at 1. unfold bind at 1.
  destruct (nth_error (w_seqs w) s) as [q|] eqn:Q; [|exact Logic.I]. unfold ret at 1.
  destruct (sq_alive q); [|exact Logic.I]. unfold lift. unfold bind at 1.
  destruct (handle_begin (sq_seq q)) as [[[s1 id] srv]| |] eqn:B; try exact Logic.I.
  destruct (decent_begin _ _ _ _ B (good_seq _ _ _ G Q)) as [D1 D2].
  pose proof (still_put_seq w s (mkSeq true s1) (fun _ => D1)) as [S1 S2].
  unfold put_seq, modify. unfold bind at 1.
  assert (H : heard (guarded (serve E rec srv i) (seq_end s id))).
  { apply heard_guarded; [now apply heard_serve|hp_tac|apply nothrow_seq_end]. }
  specialize (H _ (S1 G)). rewrite S2 in H. exact H.
Qed.

Lemma heard_handleMethodInvocation : forall b args, heard (handleMethodInvocation E rec b args).
Proof.
  intros b args. unfold handleMethodInvocation.
  apply heard_bind; [hp_tac|]. intro bd. apply heard_bind; [hp_tac|]. intro n.
  apply heard_bind; [hp_tac|]. intro i. apply heard_bind; [hp_tac|]. intros [[mt sq]|]; [|apply heard_unexpected].
  apply heard_bind; [hp_tac|]. intro x. apply heard_bind; [hp_tac|]. intros _. apply heard_bind; [hp_tac|]. intros _.
  intros w G. pose proof (heard_seq_handle sq i w G) as H. unfold bind at 1, attempt.
  destruct (seq_handle E rec sq i w) as [w' v|w' e| |]; auto; destruct H as [G' Q].
  destruct e; try exact (conj G' Q).
  destruct Hnomore as [S|S].
  - assert (R : heard (let* _ := get_body b in let* y := get_inv i in unexpected E Unmatched (Some (bd_id bd)) (iv_args y))).
    { apply heard_bind; [hp_tac|]. intros _. apply heard_bind; [hp_tac|]. intro y. apply heard_unexpected. }
    specialize (R w' G'). rewrite (Q S) in R. exact R.
  - assert (R : uproar (let* _ := get_body b in let* y := get_inv i in unexpected E Unmatched (Some (bd_id bd)) (iv_args y))).
    { apply uproar_bind; [hp_tac|unfold get_body, hget; nt|]. intros _.
      apply uproar_bind; [hp_tac|unfold get_inv; nt|]. intro y. now apply uproar_unexpected. }
    specialize (R w' G').
    match type of R with match ?x with _ => _ end =>
      change (match x with
              | RVal w' _ => good w' /\ complaints bad (w_log w') = complaints bad (w_log w)
              | RExn w' e => good w' /\ (caught e = true -> complaints bad (w_log w') = complaints bad (w_log w))
              | _ => True
              end);
      destruct x end; auto; [contradiction|]. destruct R as [R1 R2]. split; [exact R1|congruence].
Qed.

Lemma heard_run_unmocked : forall vt, heard (run_unmocked E vt).
Proof.
  intro vt. unfold run_unmocked. apply heard_bind; [hp_tac|]. intros _. apply heard_bind; [hp_tac|].
  intros [| | | |m]; try solve [apply heard_still; hp_tac]. apply heard_bind; [hp_tac|]. intros _. apply heard_unexpected.
Qed.

Lemma heard_run_code : forall o vt x args, heard (run_code E rec o vt x args).
Proof.
  intros o vt [| |id|c|c slot] args; cbn [run_code].
  - apply heard_run_unmocked.
  - apply heard_still; hp_tac.
  - apply heard_bind; [hp_tac|]. intros [| | |m|]; try solve [apply heard_still; hp_tac].
    apply heard_bind; [hp_tac|]. intro k. apply heard_bind; [hp_tac|]. intro b. apply heard_handleMethodInvocation.
  - apply heard_still; hp_tac.
  - unfold class_of. destruct (nth_error (e_classes E) c) as [d|] eqn:C.
    + intros w G. unfold bind, ret. apply heard_run_prog; [eapply Hbodies; eauto|exact G].
    + intros w G. exact Logic.I.
Qed.

Lemma heard_call_object : forall o slot args, heard (call_object E rec o slot args).
Proof.
  intros o slot args. unfold call_object. apply heard_bind; [hp_tac|]. intros [t vt].
  apply heard_bind; [hp_tac|]. intros [|c|[| |id|c|c s]|m|m]; try solve [apply heard_still; hp_tac]; try apply heard_run_code.
  apply heard_bind; [hp_tac|]. intro d. destruct (cl_dtor d) as [k|]; [|apply heard_still; hp_tac].
  apply heard_bind; [hp_tac|]. intros [| |z| |]; try solve [apply heard_still; hp_tac]. apply heard_run_code.
Qed.

Lemma heard_unit_val : forall A (m : M A), heard m -> heard (unit_val m).
Proof. intros. unfold unit_val. apply heard_bind2; [assumption|]. intro. apply heard_still; hp_tac. Qed.

Lemma hp_set_fctx : forall f, (forall w, trusted_adapter (w_fctx w) -> trusted_adapter (f (w_fctx w))) ->
  hp (modify (fun w => set_fctx w (f (w_fctx w)))).
Proof.
  intros f H. apply pres_modify. intro w. split; [|reflexivity]. intros [G T]. split; [exact G|exact (H w T)].
Qed.

Lemma heard_step : forall o, decent_op caught trusted o -> (forall o', o <> OUnwinding o') -> heard (step E rec o).
Proof.
  intros o D NU. destruct o; cbn [step]; try (exfalso; eapply NU; reflexivity); try apply heard_call_object;
    try solve [apply heard_still;
      repeat first [progress hp_tac | intros; apply hp_unit_val | intros; apply hp_nat_val]].
  - apply heard_still, hp_unit_val, hp_do_when. intros r R. inversion D; subst; auto. contradiction.
  - apply heard_still, hp_unit_val, hp_do_assign. inversion D; subst; auto. contradiction.
  - apply heard_unit_val, heard_exp_free.
  - apply heard_with_ctxs. intro cs. apply heard_run_stmt. inversion D; subst; cbn; auto.
    + destruct s; cbn; auto; [exfalso; eapply H1; reflexivity|exfalso; eapply H2; reflexivity].
    + contradiction.
  - apply heard_still. destruct l as [a|]; apply hp_unit_val.
    + apply (hp_set_fctx (fun c => setTestingFrameworkAdapter c a)). intros w _. cbn. inversion D; subst; auto; contradiction.
    + apply (hp_set_fctx resetTestingFrameworkAdapter). intros w _. exact Logic.I.
Qed.

Lemma keep_step : forall o, decent_op caught trusted o -> forall w, good w ->
  match step E rec o w with RVal w' _ | RExn w' _ => good w' | _ => True end.
Proof.
  intros o D w G.
  assert (C : (exists o', o = OUnwinding o') \/ (forall o', o <> OUnwinding o')).
  { destruct o; try (right; congruence). left; eauto. }
  destruct C as [[o' ->]|NU].
  - assert (D' : decent_op caught trusted o') by (inversion D; subst; auto; contradiction).
    cbn [step]. unfold bind at 1, modify at 1. unfold bind at 1, attempt.
    pose proof (Hkeep o' D' (set_uncaught w (S (w_uncaught w))) G) as H.
    destruct (rec o' (set_uncaught w (S (w_uncaught w)))); auto; exact H.
  - pose proof (heard_step o D NU w G) as H. destruct (step E rec o w); auto; destruct H; auto.
Qed.
End Open.

Lemma exec_heard_both : forall fuel,
  (forall o, decent_op caught trusted o -> (forall o', o <> OUnwinding o') -> heard (exec E fuel o)) /\
  (forall o, decent_op caught trusted o -> forall w, good w ->
     match exec E fuel o w with RVal w' _ | RExn w' _ => good w' | _ => True end).
Proof.
  induction fuel as [|f [IH1 IH2]]; cbn [exec].
  - split; intros; [intros w' G|]; exact Logic.I.
  - split; [now apply heard_step|now apply keep_step].
Qed.

Theorem exec_heard : forall fuel o, decent_op caught trusted o -> (forall o', o <> OUnwinding o') -> heard (exec E fuel o).
Proof. intro fuel. apply exec_heard_both. Qed.

Theorem exec_prog_heard : forall fuel p, decent caught trusted p -> heard (exec_prog E fuel p).
Proof. intros fuel p D. unfold exec_prog. apply heard_run_prog; auto; apply exec_heard_both. Qed.

Theorem complaints_heard : forall fuel m p w r,
  decent caught trusted p ->
  (exec_prog E fuel p (init_world E m) = RVal w r \/
   (exists e, caught e = true /\ exec_prog E fuel p (init_world E m) = RExn w e)) ->
  complaints bad (w_log w) = [].
Proof.
  intros fuel m p w r D H. assert (G : good (init_world E m)) by (split; constructor).
  pose proof (exec_prog_heard fuel p D (init_world E m) G) as P.
  destruct H as [H|[e [C H]]]; rewrite H in P; destruct P as [_ P]; [exact P|exact (P C)].
Qed.
End Heard.
