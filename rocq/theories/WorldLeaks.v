(** C89: what the library allocates belongs to a mock, an expression or a body after
    every operation, whatever user code does.  Models no code. *)
From Coq Require Import Bool ZArith Lia List.
From Verif Require Import Base CInt Values InvMatchers ActionSeq Sequences VTable Proxy Events
  Expectation Ordinals Syntax World WorldLogic Spec_Leaks LeakProofs.
Import ListNotations.
Open Scope nat_scope.

(** ** Steps of a triple *)
Lemma wp_bind : forall A B (m : M A) (k : A -> M B) P Q1 Q X,
  tri P m Q1 X -> (forall a, tri (Q1 a) (k a) Q X) -> tri P (bind m k) Q X.
Proof. exact tri_bind. Qed.
Lemma wp_mod : forall B f (k : unit -> M B) (P P' : world -> Prop) Q X,
  (forall w, P w -> P' (f w)) -> tri P' (k tt) Q X -> tri P (bind (modify f) k) Q X.
Proof. intros B f k P P' Q X H K w HP. unfold bind, modify. apply K. auto. Qed.
Lemma wp_last : forall f (P : world -> Prop) (Q : unit -> world -> Prop) X,
  (forall w, P w -> Q tt (f w)) -> tri P (modify f) Q X.
Proof. intros f P Q X H w HP. cbn. auto. Qed.
Lemma wp_ret : forall A (a : A) (P : world -> Prop) (Q : A -> world -> Prop) X, (forall w, P w -> Q a w) -> tri P (ret a) Q X.
Proof. intros A a P Q X H w HP. cbn. auto. Qed.
Lemma wp_throw : forall A e (P : world -> Prop) (Q : A -> world -> Prop) (X : world -> Prop), (forall w, P w -> X w) -> tri P (throw e) Q X.
Proof. intros A e P Q X H w HP. cbn. auto. Qed.
Lemma wp_ub : forall A (P : world -> Prop) (Q : A -> world -> Prop) X, tri P ub Q X.
Proof. intros A P Q X w HP. exact I. Qed.
Lemma wp_none : forall A (P : world -> Prop) (Q : A -> world -> Prop) X, tri P none Q X.
Proof. intros A P Q X w HP. exact I. Qed.
Lemma wp_lift : forall A B (o : outcome A) (k : A -> M B) (P : world -> Prop) Q X,
  (forall a, o = Def a -> tri P (k a) Q X) -> tri P (bind (lift o) k) Q X.
Proof. intros A B [a| |] k P Q X H w HP; cbn; auto. apply (H a eq_refl w HP). Qed.
Lemma wp_gets : forall A B (f : world -> A) (k : A -> M B) (P : world -> Prop) Q X,
  (forall a, tri (fun w => a = f w /\ P w) (k a) Q X) -> tri P (bind (gets f) k) Q X.
Proof. intros A B f k P Q X H w HP. apply (H (f w) w). auto. Qed.
Lemma wp_get_ctx : forall B c (k : ctx -> M B) (P : world -> Prop) Q X,
  (forall x, tri (fun w => live_expression w c x /\ P w) (k x) Q X) -> tri P (bind (get_ctx c) k) Q X.
Proof. intros. eapply tri_bind; [apply tri_get_ctx|exact H]. Qed.
Lemma wp_get_mock : forall B c (k : mock -> M B) (P : world -> Prop) Q X,
  (forall x, tri (fun w => live_mock w c x /\ P w) (k x) Q X) -> tri P (bind (get_mock c) k) Q X.
Proof. intros. eapply tri_bind; [apply tri_get_mock|exact H]. Qed.
Lemma wp_get_body : forall B c (k : body -> M B) (P : world -> Prop) Q X,
  (forall x, tri (fun w => live_body w c x /\ P w) (k x) Q X) -> tri P (bind (get_body c) k) Q X.
Proof. intros. eapply tri_bind; [apply tri_get_body|exact H]. Qed.
Lemma wp_get_table : forall B c (k : vtable word -> M B) (P : world -> Prop) Q X,
  (forall x, tri (fun w => live_table w c /\ P w) (k x) Q X) -> tri P (bind (get_table c) k) Q X.
Proof. intros B c k P Q X H. eapply tri_bind; [apply tri_get_table|exact H]. Qed.
Lemma wp_class_of : forall E B c (k : class_desc -> M B) (P : world -> Prop) Q X,
  (forall x, tri P (k x) Q X) -> tri P (bind (class_of E c) k) Q X.
Proof. intros E B c k P Q X H. eapply tri_bind; [apply tri_class_of|exact H]. Qed.
Lemma wp_get_obj : forall B c (k : obj -> M B) (P : world -> Prop) Q X,
  (forall x, tri (fun w => nth_error (w_objs w) c = Some (Some x) /\ P w) (k x) Q X) -> tri P (bind (get_obj c) k) Q X.
Proof.
  intros B c k P Q X H w HP. unfold get_obj, hget, gets, bind.
  destruct (nth_error (w_objs w) c) as [[x|]|] eqn:O; cbn; auto. apply (H x w). auto.
Qed.
Lemma wp_get_seq : forall B s (k : seqcell -> M B) (P : world -> Prop) Q X,
  (forall q, tri (fun w => nth_error (w_seqs w) s = Some q /\ P w) (k q) Q X) -> tri P (bind (get_seq s) k) Q X.
Proof.
  intros B c k P Q X H w HP. unfold get_seq, gets, bind.
  destruct (nth_error (w_seqs w) c) as [x|] eqn:O; cbn; auto. apply (H x w). auto.
Qed.
Lemma wp_get_matcher : forall B i (k : imatcher -> M B) (P : world -> Prop) Q X,
  (forall x, tri (fun w => live_condition w i /\ P w) (k x) Q X) -> tri P (bind (get_matcher i) k) Q X.
Proof.
  intros B c k P Q X H w HP. unfold get_matcher, hget, gets, bind.
  destruct (nth_error (w_matchers w) c) as [[x|]|] eqn:O; cbn; auto. apply (H x w). split; [now exists x|exact HP].
Qed.
Lemma tri_false : forall A (m : M A) (P : world -> Prop) Q X, (forall w, ~ P w) -> tri P m Q X.
Proof. intros A m P Q X H w HP. destruct (H w HP). Qed.
Lemma tri_pre : forall A (m : M A) (P P' : world -> Prop) Q X, (forall w, P w -> P' w) -> tri P' m Q X -> tri P m Q X.
Proof. intros A m P P' Q X H T w HP. apply T. auto. Qed.

Section Leaks.
Variable n : nat.
Local Notation inv := (inv_of n).
Local Notation I0 := (I0 n).
Local Notation ki := (pres (keeps_inv n)).

(** ** Virtual tables *)
Definition not_tables (F : world -> Prop) : Prop := forall w y, F w -> F (set_tables w y).

Lemma t_put_table : forall t x ps pm pc pb pt (F : world -> Prop) X, not_tables F ->
  tri (fun w => live_table w t /\ inv ps pm pc pb pt w /\ F w) (put_table t x) (fun _ w => live_table w t /\ inv ps pm pc pb pt w /\ F w) X.
Proof.
  intros t x ps pm pc pb pt F X NF. unfold put_table. apply wp_last. intros w (L & H & HF). split; [|split].
  - exists x. cbn. rewrite nth_error_upd, Nat.eqb_refl. destruct L as (y & L). apply nth_error_Some_lt in L. apply Nat.ltb_lt in L. now rewrite L.
  - now apply inv_put_table.
  - now apply NF.
Qed.
Lemma t_obj_table : forall B o (k : nat * vtable word -> M B) (P : world -> Prop) Q X,
  (forall x vt, tri (fun w => live_table w (ob_vptr x) /\ nth_error (w_objs w) o = Some (Some x) /\ P w) (k (ob_vptr x, vt)) Q X) ->
  tri P (bind (obj_table o) k) Q X.
Proof.
  intros B o k P Q X H w HP. unfold obj_table, get_obj, get_table, hget, gets, bind. cbn.
  destruct (nth_error (w_objs w) o) as [[x|]|] eqn:O; cbn; auto.
  destruct (nth_error (w_tables w) (ob_vptr x)) as [[t|]|] eqn:T; cbn; auto. apply (H x t w). split; [now exists t|auto].
Qed.
Lemma t_fake_setMethod : forall o i x ps pm pc pb pt (F : world -> Prop) X, not_tables F ->
  tri (fun w => inv ps pm pc pb pt w /\ F w) (fake_setMethod o i x) (fun _ w => inv ps pm pc pb pt w /\ F w) X.
Proof.
  intros o i x ps pm pc pb pt F X NF. unfold fake_setMethod. apply t_obj_table. intros y vt. apply wp_lift. intros vt' _.
  eapply tri_weaken; [apply (t_put_table (ob_vptr y) vt' ps pm pc pb pt F X NF)| | |]; cbn; intuition.
Qed.
Lemma t_fake_setDtor : forall o c i x ps pm pc pb pt (F : world -> Prop) X, not_tables F ->
  tri (fun w => inv ps pm pc pb pt w /\ F w) (fake_setDtor o c i x) (fun _ w => inv ps pm pc pb pt w /\ F w) X.
Proof.
  intros o c i x ps pm pc pb pt F X NF. unfold fake_setDtor. apply t_obj_table. intros y vt. apply wp_lift. intros vt' _.
  eapply tri_weaken; [apply (t_put_table (ob_vptr y) vt' ps pm pc pb pt F X NF)| | |]; cbn; intuition.
Qed.
Lemma t_build_table : forall c d ps pm pc pb pt (F : world -> Prop) X, not_tables F ->
  tri (fun w => inv ps pm pc pb pt w /\ F w) (build_table c d) (fun t w => inv ps pm pc pb (t :: pt) w /\ F w) X.
Proof.
  intros c d ps pm pc pb pt F X NF. unfold build_table. apply wp_lift. intros size _. apply wp_lift. intros vt _.
  unfold new_table. intros w (H & HF). unfold bind, gets, modify, ret. split; [now apply inv_new_table|now apply NF].
Qed.

Lemma table_dead : forall w t, ~ live_table (set_tables w (upd (w_tables w) t None)) t.
Proof.
  intros w t (x & L). cbn in L. rewrite nth_error_upd, Nat.eqb_refl in L. destruct (Nat.ltb t (length (w_tables w))); discriminate.
Qed.

Definition at_table (o t : nat) (w : world) : Prop := exists x, nth_error (w_objs w) o = Some (Some x) /\ ob_vptr x = t.
Lemma at_table_nt : forall o t, not_tables (at_table o t).
Proof. intros o t w y H. exact H. Qed.

Lemma t_createFakeInstance : forall E c X,
  tri I0 (createFakeInstance E c) (fun o w => exists t, inv [] [] [] [] [t] w /\ at_table o t w) X.
Proof.
  intros E c X. unfold createFakeInstance. apply wp_class_of. intro d.
  eapply tri_bind with (Q1 := fun t w => inv [] [] [] [] [t] w /\ True).
  { eapply tri_pre; [|apply (t_build_table c d [] [] [] [] [] (fun _ => True)); intros ? ? ?; exact Logic.I].
    intros w H. split; [exact H|exact Logic.I]. }
  intro t. cbv beta.
  eapply (tri_bind _ _ _ _ _ (fun o w => inv [] [] [] [] [t] w /\ at_table o t w)).
  { unfold new_obj. intros w (H & _). unfold bind, gets, modify, ret. split.
    - eapply inv_same; [|exact H]. repeat split.
    - exists (mkObj t c (repeat (VInt 0) (cl_cells d))). cbn. split; [apply nth_error_app_last|reflexivity]. }
  intro o. apply wp_get_table. intro vt. apply wp_lift. intros vt' _.
  eapply tri_bind; [apply (t_put_table t vt' [] [] [] [] [t] (at_table o t)); apply at_table_nt|]. intros []. cbv beta.
  eapply (tri_bind _ _ _ _ _ (fun _ w => inv [] [] [] [] [t] w /\ at_table o t w)).
  - destruct (cl_dtor d).
    + eapply tri_pre; [|apply t_fake_setDtor; apply at_table_nt]. intuition.
    + apply wp_ret. intuition.
  - intros []. apply wp_ret. intros w H. now exists t.
Qed.

Lemma t_make_mock : forall E c o (owner : bool) t X,
  tri (fun w => inv [] [] [] [] (if owner then [t] else []) w /\ (owner = true -> at_table o t w)) (make_mock E c o owner) (fun _ => I0) X.
Proof.
  intros E c o owner t X. unfold make_mock. apply wp_get_obj. intro x. apply wp_class_of. intro d.
  eapply tri_bind with (Q1 := fun cl w => inv [] [] [] [] (cl :: if owner then [ob_vptr x] else []) w).
  - eapply tri_weaken; [apply (t_build_table c d [] [] [] [] (if owner then [ob_vptr x] else []) (fun _ => True))| | |].
    + intros ? ? ?; exact Logic.I.
    + intros w (O & H & A). split; [|exact Logic.I]. destruct owner; [|exact H].
      destruct (A eq_refl) as (y & Y & V). assert (y = x) by congruence. subst y. now rewrite V.
    + cbn. intros a w (H & _). exact H.
    + intros w H. exact H.
  - intro cl. cbv beta.
    eapply tri_bind with (Q1 := fun _ (w : world) => I0 w).
    { unfold new_mock. intros w H. unfold bind, gets, modify, ret.
      apply inv_new_mock. cbn. destruct owner; exact H. }
    intro m. apply wp_get_table. intro src. apply wp_get_table. intro vt.
    apply wp_lift. intros vt1 _. apply wp_lift. intros vt2 _.
    eapply tri_bind with (Q1 := fun _ (w : world) => I0 w).
    { eapply tri_weaken; [apply (t_put_table cl vt2 [] [] [] [] [] (fun _ => True) X)| | |]; cbn; auto.
      - intros ? ? ?; exact Logic.I.
      - intros w (L & _ & H). auto.
      - intuition. }
    intros []. eapply tri_bind with (Q1 := fun _ (w : world) => I0 w).
    { unfold setVirtualTable. apply wp_get_obj. intro y. unfold put_obj. apply wp_last. intros w (_ & H).
      eapply inv_same; [|exact H]. repeat split. }
    intros []. apply wp_ret. auto.
Qed.

Lemma k_put_table_live : forall A o (f : vtable word -> outcome (vtable word)) (r : A),
  ki (let* (t, vt) := obj_table o in let* vt' := lift (f vt) in let* _ := put_table t vt' in ret r).
Proof.
  intros A o f r. apply tri_pres. apply t_obj_table. intros y vt. apply wp_lift. intros vt' _.
  eapply tri_bind with (Q1 := fun _ (w : world) => I0 w).
  - eapply tri_weaken; [apply (t_put_table (ob_vptr y) vt' [] [] [] [] [] (fun _ => True) I0)| | |]; cbn; auto.
    + intros ? ? ?; exact Logic.I.
    + intros w (L & _ & H). auto.
    + intuition.
  - intros []. apply wp_ret. auto.
Qed.

Lemma k_mock_new : forall E c, ki (mock_new E c).
Proof.
  intros E c. apply tri_pres. unfold mock_new. eapply tri_bind; [apply t_createFakeInstance|]. intro o. cbv beta.
  intros w (t & H & A).
  assert (T : tri (fun w => inv [] [] [] [] [t] w /\ (true = true -> at_table o t w))
    (let* m := make_mock E c o true in let* (t, vt) := obj_table o in let* vt' := lift (setCookie Gcc vt 1 (WMock m)) in
     let* _ := put_table t vt' in ret m) (fun _ => I0) I0).
  { eapply tri_bind; [apply (t_make_mock E c o true t)|]. intro m. cbv beta. apply pres_tri.
    apply (k_put_table_live _ o (fun vt => setCookie Gcc vt 1 (WMock m))). }
  apply T. auto.
Qed.
Lemma k_mock_spy : forall E c o, ki (mock_spy E c o).
Proof.
  intros E c o. apply tri_pres. unfold mock_spy. eapply tri_pre; [|apply (t_make_mock E c o false 0)].
  intros w H. split; [exact H|discriminate].
Qed.

(** ** Releasing bodies *)
Definition others (w0 w : world) : Prop :=
  w_mocks w = w_mocks w0 /\ w_objs w = w_objs w0 /\ w_tables w = w_tables w0 /\ w_ctxs w = w_ctxs w0.
Definition dies (b : nat) (w : world) : Prop := nth_error (w_bodies w) b = Some None.

Lemma t_free_matcher : forall i ps pm pc pb pt w0 X,
  tri (fun w => inv ps (i :: pm) (i :: pc) pb pt w /\ others w0 w)
      (free_matcher i) (fun _ w => inv ps pm pc pb pt w /\ others w0 w) X.
Proof.
  intros i ps pm pc pb pt w0 X. unfold free_matcher. apply wp_get_matcher. intro x. apply wp_last. intros w (L & H & O).
  split; [now apply inv_free_matcher|exact O].
Qed.
Lemma t_free_seq : forall s ps pm pc pb pt w0 X,
  tri (fun w => inv (s :: ps) pm pc pb pt w /\ others w0 w)
      (free_seq s) (fun _ w => inv ps pm pc pb pt w /\ others w0 w) X.
Proof.
  intros i ps pm pc pb pt w0 X. unfold free_seq. apply wp_get_seq. intro q. destruct (sq_alive q); [|apply wp_ub].
  unfold put_seq. apply wp_last. intros w (L & H & O). split; [now apply inv_free_seq|exact O].
Qed.
Lemma t_free_handlers : forall hs ps pm pc pb pt w0 X,
  tri (fun w => inv (map snd hs ++ ps) (map fst hs ++ pm) (map fst hs ++ pc) pb pt w /\ others w0 w)
      (free_handlers hs) (fun _ w => inv ps pm pc pb pt w /\ others w0 w) X.
Proof.
  induction hs as [|[i s] hs IH]; intros ps pm pc pb pt w0 X; cbn [free_handlers map app fst snd].
  - apply wp_ret. auto.
  - eapply tri_bind; [apply t_free_matcher|]. intros []. eapply tri_bind; [apply t_free_seq|]. intros []. apply IH.
Qed.
Lemma free_handlers_bodies : forall hs w w', free_handlers hs w = RVal w' tt -> w_bodies w' = w_bodies w.
Proof.
  induction hs as [|[i s] hs IH]; intros w w' H; cbn [free_handlers] in H.
  - unfold ret in H. congruence.
  - unfold free_matcher, get_matcher, hget, free_seq, get_seq, gets, put_seq, modify, bind in H. cbn in H.
    destruct (nth_error (w_matchers w) i) as [[x|]|]; cbn in H; try discriminate.
    destruct (nth_error (w_seqs w) s) as [q|]; cbn in H; try discriminate.
    destruct (sq_alive q); cbn in H; try discriminate. apply IH in H. exact H.
Qed.
Lemma free_handlers_dead : forall hs w i s, In (i, s) hs -> nth_error (w_matchers w) i = Some None ->
  forall w', free_handlers hs w <> RVal w' tt.
Proof.
  induction hs as [|[j u] hs IH]; intros w i s H D w' R; [destruct H|]. cbn [free_handlers] in R.
  unfold free_matcher, get_matcher, hget, free_seq, get_seq, gets, put_seq, modify, bind in R. cbn in R.
  destruct (nth_error (w_matchers w) j) as [[x|]|] eqn:J; cbn in R; try discriminate.
  destruct (nth_error (w_seqs w) u) as [q|]; cbn in R; try discriminate.
  destruct (sq_alive q); cbn in R; try discriminate. destruct H as [H|H].
  - inversion H; subst. congruence.
  - revert R. apply (IH _ i s H). cbn. rewrite nth_error_upd. destruct (Nat.eqb_spec j i) as [->|F]; [congruence|exact D].
Qed.
Lemma free_handlers_never : forall hs w w' e, free_handlers hs w <> RExn w' e.
Proof.
  induction hs as [|[j u] hs IH]; intros w w' e R; cbn [free_handlers] in R; [discriminate|].
  unfold free_matcher, get_matcher, hget, free_seq, get_seq, gets, put_seq, modify, bind in R. cbn in R.
  destruct (nth_error (w_matchers w) j) as [[x|]|] eqn:J; cbn in R; try discriminate.
  destruct (nth_error (w_seqs w) u) as [q|]; cbn in R; try discriminate.
  destruct (sq_alive q); cbn in R; try discriminate. revert R. apply IH.
Qed.

Lemma free_body_ok : forall b w w' ps pm pc pb pt, free_body b w = RVal w' tt -> inv ps pm pc pb pt w ->
  inv ps pm pc pb pt w' /\ others w w' /\ dies b w' /\ (forall c, dies c w -> dies c w').
Proof.
  intros b w w' ps pm pc pb pt H I. unfold free_body, get_body, hget, gets, bind, modify in H. cbn in H.
  destruct (nth_error (w_bodies w) b) as [[x|]|] eqn:B; cbn in H; try discriminate.
  pose proof (free_handlers_bodies _ _ _ H) as Bs. cbn in Bs.
  destruct (inv_drop_body n w b x ps pm pc pb pt B I) as [D|(i & s & D1 & D2)].
  - pose proof (t_free_handlers (bd_handlers x) ps pm pc pb pt w (fun _ => True) (set_bodies w (upd (w_bodies w) b None))) as T.
    rewrite H in T. destruct T as [T1 T2]; [split; [exact D|repeat split]|].
    split; [exact T1|split; [exact T2|]].
    unfold dies. rewrite Bs. split.
    + rewrite nth_error_upd, Nat.eqb_refl. apply nth_error_Some_lt in B. apply Nat.ltb_lt in B. now rewrite B.
    + intros c C. rewrite nth_error_upd. destruct (Nat.eqb_spec b c) as [->|F]; [congruence|exact C].
  - exfalso. revert H. exact (free_handlers_dead _ (set_bodies w (upd (w_bodies w) b None)) i s D1 D2 w').
Qed.
Lemma free_body_never : forall b w w' e, free_body b w <> RExn w' e.
Proof.
  intros b w w' e H. unfold free_body, get_body, hget, gets, bind, modify in H. cbn in H.
  destruct (nth_error (w_bodies w) b) as [[x|]|]; cbn in H; try discriminate. now apply free_handlers_never in H.
Qed.
Lemma free_bodies_ok : forall bs w ps pm pc pb pt, inv ps pm pc pb pt w ->
  match free_bodies bs w with
  | RVal w' _ => inv ps pm pc pb pt w' /\ others w w' /\ (forall b, In (Some b) bs -> dies b w') /\ (forall c, dies c w -> dies c w')
  | RExn _ _ => False
  | _ => True
  end.
Proof.
  induction bs as [|[b|] bs IH]; intros w ps pm pc pb pt I; cbn [free_bodies].
  - unfold ret. split; [exact I|split; [repeat split|split; [intros b []|auto]]].
  - unfold bind. destruct (free_body b w) as [w1 []|w1 e| |] eqn:F; auto; [|exact (free_body_never _ _ _ _ F)].
    destruct (free_body_ok _ _ _ _ _ _ _ _ F I) as (I1 & O1 & D1 & K1).
    specialize (IH w1 _ _ _ _ _ I1). destruct (free_bodies bs w1) as [w2 []|w2 e| |]; auto.
    destruct IH as (I2 & O2 & D2 & K2). split; [exact I2|split; [|split]].
    + destruct O1 as (A & B & C & D), O2 as (A' & B' & C' & D'). repeat split; congruence.
    + intros c [C|C]; [inversion C; subst; auto|auto].
    + auto.
  - specialize (IH w _ _ _ _ _ I). destruct (free_bodies bs w) as [w2 []|w2 e| |]; auto.
    destruct IH as (I2 & O2 & D2 & K2). split; [exact I2|split; [exact O2|split; [|exact K2]]].
    intros c [C|C]; [discriminate|auto].
Qed.
Lemma dies_dead : forall b w x, dies b w -> ~ live_body w b x.
Proof. intros b w x D L. unfold dies, live_body in *. congruence. Qed.

Lemma k_proxy_reset : forall E m, ki (proxy_reset E m).
Proof.
  intros E m. apply tri_pres. unfold proxy_reset. apply wp_get_mock. intro k. apply wp_class_of. intro d.
  eapply tri_bind with (Q1 := fun _ w => live_mock w m k /\ I0 w /\ forall b, In (Some b) (pt_mocks (mk_pt k)) -> dies b w).
  { intros w (K & H). pose proof (free_bodies_ok (pt_mocks (mk_pt k)) w _ _ _ _ _ H) as F.
    destruct (free_bodies _ w) as [w' []|w' e| |]; auto; [|destruct F].
    destruct F as (I1 & (O & _) & D & _). split; [|split; [exact I1|exact D]]. unfold live_mock. rewrite O. exact K. }
  intros []. unfold put_mock. eapply wp_mod with (P' := I0).
  { intros w (K & H & D). eapply inv_put_mock; [exact K|reflexivity|reflexivity|reflexivity| |exact H].
    intros b x L B. destruct (dies_dead _ _ _ (D b B) L). }
  apply wp_get_table. intro src. apply wp_get_table. intro vt. apply wp_lift. intros vt' _.
  eapply tri_weaken; [apply (t_put_table (mk_clone k) vt' [] [] [] [] [] (fun _ => True) I0)| | |]; cbn; auto.
  - intros ? ? ?; exact Logic.I.
  - intros w (L & _ & H). auto.
  - intuition.
Qed.

Lemma k_mock_destroy : forall m, ki (mock_destroy m).
Proof.
  intro m. apply tri_pres. unfold mock_destroy. apply wp_get_mock. intro k.
  set (P := fun w => live_mock w m k /\ I0 w /\ at_table (mk_obj k) (mk_orig k) w).
  eapply tri_bind with (Q1 := fun _ (w : world) => P w).
  { unfold setVirtualTable. apply wp_get_obj. intro y. unfold put_obj. apply wp_last. intros w (O & K & H).
    split; [exact K|split; [eapply inv_same; [|exact H]; repeat split|]].
    exists (mkObj (mk_orig k) (ob_class y) (ob_data y)). cbn. split; [|reflexivity].
    rewrite nth_error_upd, Nat.eqb_refl. apply nth_error_Some_lt in O. apply Nat.ltb_lt in O. now rewrite O. }
  intros []. apply wp_get_table. intro vt. apply wp_lift. intros ? _.
  eapply tri_bind with (Q1 := fun _ w => P w /\ ~ live_table w (mk_clone k)).
  { unfold free_table. apply wp_get_table. intro vt1. apply wp_last. intros w (_ & _ & K & H & A).
    split; [split; [exact K|split; [now apply inv_free_table|exact A]]|].
    now apply table_dead. }
  intros []. eapply wp_mod with (P' := fun w => inv [] [] [] (flat_map (fun o => match o with Some b => [b] | None => [] end) (pt_mocks (mk_pt k)))
      (if mk_owner k then [mk_orig k] else []) w /\ at_table (mk_obj k) (mk_orig k) w).
  { intros w ((K & H & A) & D). split; [|exact A]. apply (inv_gone_table n) with (t := mk_clone k); [exact D|].
    exact (inv_drop_mock n w m k [] [] [] [] [] K H). }
  eapply tri_bind with (Q1 := fun _ w => inv [] [] [] [] (if mk_owner k then [mk_orig k] else []) w /\ at_table (mk_obj k) (mk_orig k) w).
  { intros w (H & A). pose proof (free_bodies_ok (pt_mocks (mk_pt k)) w _ _ _ _ _ H) as F.
    destruct (free_bodies _ w) as [w' []|w' e| |]; auto; [|destruct F].
    destruct F as (I1 & (_ & O & _) & D & _). split.
    - eapply (inv_gone_bodies n w' _ [] [] [] []); [|exact I1]. intros b x B. apply dies_dead. apply D.
      apply in_flat_map in B. destruct B as ([c|] & B1 & B2); [|destruct B2]. destruct B2 as [->|[]]. exact B1.
    - unfold at_table. rewrite O. exact A. }
  intros []. destruct (mk_owner k).
  - apply t_obj_table. intros x vt'. apply wp_lift. intros ? _. eapply tri_bind with (Q1 := fun _ (w : world) => I0 w).
    { unfold free_table. apply wp_get_table. intro vt1. apply wp_last. intros w (_ & _ & O & H & (y & Y & V)).
      assert (y = x) by congruence. subst y. rewrite V. apply (inv_gone_table n) with (t := mk_orig k); [now apply table_dead|].
      now apply inv_free_table. }
    intros []. unfold free_obj. apply wp_get_obj. intro y. apply wp_last. intros w (_ & H). eapply inv_same; [|exact H]. repeat split.
  - apply wp_ret. intros w (H & _). exact H.
Qed.

(** ** Expressions *)
Lemma t_ensure_bound : forall E m slot id dt cs,
  tri (fun w => I0 w /\ w_ctxs w = cs) (ensure_bound E m slot id dt) (fun b w => (I0 w /\ w_ctxs w = cs)) I0.
Proof.
  intros E m slot id dt cs. unfold ensure_bound. apply wp_get_mock. intro k. apply wp_class_of. intro d. apply wp_lift. intros bound B.
  eapply tri_bind with (Q1 := fun _ w => I0 w /\ w_ctxs w = cs).
  - destruct bound; [apply wp_ret; intros w (_ & H); exact H|].
    assert (NB : nth_error (pt_mocks (mk_pt k)) slot = Some None).
    { unfold isBinded in B. destruct (nth_error (pt_mocks (mk_pt k)) slot) as [[y|]|]; cbn in B; congruence. }
    set (F := fun w => live_mock w m k /\ w_ctxs w = cs).
    eapply tri_bind with (Q1 := fun _ w => I0 w /\ F w).
    { unfold nextMethodOrdinal. apply wp_gets. intro a. eapply wp_mod with (P' := fun w => I0 w /\ F w); [|apply wp_ret; auto].
      intros w (_ & K & H & C). split; [eapply inv_same; [|exact H]; repeat split|split; [exact K|exact C]]. }
    intro o. eapply tri_bind with (Q1 := fun b w => inv [] [] [] [b] [] w /\ F w).
    { unfold new_body. intros w (H & K & C). unfold bind, gets, modify, ret. split; [now apply inv_new_body|split; [exact K|exact C]]. }
    intro b. eapply tri_bind with (Q1 := fun _ w => inv [] [] [] [b] [] w /\ F w).
    { destruct dt; [apply t_fake_setDtor|apply t_fake_setMethod]; intros w y H; exact H. }
    intros []. apply wp_lift. intros pt Pt. unfold put_mock. apply wp_last. intros w (H & K & C). split; [|exact C].
    assert (Ps : pt_mocks pt = upd (pt_mocks (mk_pt k)) slot (Some b) /\ slot < length (pt_mocks (mk_pt k))).
    { unfold pt_bind in Pt. destruct (Nat.ltb slot (length (pt_mocks (mk_pt k)))) eqn:L; cbn [andb] in Pt; [|discriminate].
      destruct (Nat.ltb slot (length (pt_offsets (mk_pt k)))); [|discriminate]. inversion Pt. apply Nat.ltb_lt in L. now split. }
    destruct Ps as [Ps Ls].
    apply inv_take_body with (b := b).
    + exists m. eexists. split.
      * unfold live_mock. cbn. rewrite nth_error_upd, Nat.eqb_refl. apply nth_error_Some_lt in K. apply Nat.ltb_lt in K. rewrite K. reflexivity.
      * cbn. rewrite Ps. apply nth_error_In with (n := slot). rewrite nth_error_upd, Nat.eqb_refl.
        apply Nat.ltb_lt in Ls. now rewrite Ls.
    + eapply inv_put_mock; [exact K|reflexivity|reflexivity|reflexivity| |exact H].
      intros c x _ C'. cbn. right. rewrite Ps. apply In_nth_error in C'. destruct C' as [i C'].
      apply nth_error_In with (n := i). rewrite nth_error_upd_other; [exact C'|congruence].
  - intros []. apply wp_get_mock. intro k'. destruct (nth_error _ _) as [[b|]|]; [apply wp_ret; intuition|apply wp_ub|apply wp_ub].
Qed.
Lemma t_getRecorded : forall E t cs,
  tri (fun w => I0 w /\ w_ctxs w = cs) (getRecordedMethodBody E t) (fun b w => I0 w /\ w_ctxs w = cs) I0.
Proof.
  intros E [m slot counter|m] cs; cbn [getRecordedMethodBody]; [apply t_ensure_bound|].
  apply wp_get_mock. intro k. apply wp_class_of. intro d. destruct (cl_dtor d).
  - eapply tri_pre; [|apply t_ensure_bound]. intros w (_ & H). exact H.
  - apply wp_throw. intros w (_ & H & _). exact H.
Qed.
Lemma k_getRecorded : forall E t, ki (getRecordedMethodBody E t).
Proof.
  intros E t. apply tri_pres. intros w H. pose proof (t_getRecorded E t (w_ctxs w) w (conj H eq_refl)) as T.
  destruct (getRecordedMethodBody E t w); auto. apply T.
Qed.

Lemma k_ctx_free : forall c, ki (ctx_free c).
Proof.
  intro c. apply tri_pres. unfold ctx_free. apply wp_get_ctx. intro x.
  eapply wp_mod with (P' := fun w => inv (if cx_committed x then [] else [cx_seq x]) (if cx_committed x then [] else [cx_matcher x]) [] [] [] w).
  { intros w (L & H). apply (inv_change_ctx n w c x None [] [] [] [] [] L); [intros x' E; discriminate|exact H]. }
  destruct (cx_committed x).
  - apply wp_ret. auto.
  - intros w H.
    assert (T : tri (fun w1 => inv [cx_seq x] [cx_matcher x] [cx_matcher x] [] [] w1 /\ others w w1)
      (let* _ := free_seq (cx_seq x) in free_matcher (cx_matcher x)) (fun _ w1 => I0 w1 /\ others w w1) (fun w1 => I0 w1)).
    { eapply tri_bind; [apply t_free_seq|]. intros []. apply t_free_matcher. }
    specialize (T w). destruct (bind (free_seq (cx_seq x)) _ w); auto; apply T;
      (split; [eapply inv_more; [..|exact H]; try apply incl_refl; intros ? []|repeat split]).
Qed.

Lemma k_attempt_free : forall E t c,
  ki (let* r := attempt (getRecordedMethodBody E t) in
      match r with inl _ => ret c | inr e => let* _ := ctx_free c in throw e end).
Proof.
  intros E t c. apply pres_bind; [apply ki_trans|apply pres_attempt; apply k_getRecorded|]. intros [b|e].
  - apply pres_ret. apply ki_refl.
  - apply pres_bind; [apply ki_trans|apply k_ctx_free|]. intros []. apply pres_throw. apply ki_refl.
Qed.
Lemma k_ctx_new : forall E t, ki (ctx_new E t).
Proof.
  intros E t. apply tri_pres. unfold ctx_new. apply wp_get_mock. intro k.
  eapply tri_bind with (Q1 := fun s w => inv [s] [] [] [] [] w).
  { unfold new_seq. intros w (_ & H). unfold bind, gets, modify, ret. now apply inv_new_seq. }
  intro s. eapply tri_bind with (Q1 := fun i w => inv [s] [i] [] [] [] w /\ i < length (w_matchers w)).
  { unfold new_matcher. intros w H. unfold bind, gets, modify, ret. split; [now apply inv_new_matcher|].
    cbn. rewrite app_length. cbn. lia. }
  intro i. eapply tri_bind with (Q1 := fun _ (w : world) => I0 w).
  { unfold new_ctx. intros w (H & L). unfold bind, gets, modify, ret. apply inv_new_ctx; cbn; auto. }
  intro c. apply pres_tri. apply k_attempt_free.
Qed.

Lemma k_ctx_cond : forall c im, ki (ctx_cond c im).
Proof.
  intros c im. apply tri_pres. unfold ctx_cond.
  eapply tri_bind with (Q1 := fun i w => inv [] [i] [] [] [] w /\ i < length (w_matchers w)).
  { unfold new_matcher. intros w H. unfold bind, gets, modify, ret. split; [now apply inv_new_matcher|].
    cbn. rewrite app_length. cbn. lia. }
  intro i. apply wp_get_ctx. intro x. destruct (cx_committed x) eqn:C.
  - eapply tri_bind with (Q1 := fun _ w => live_expression w c x /\ I0 w /\ doomed w /\ i < length (w_matchers w)).
    { unfold free_matcher. apply wp_get_matcher. intro y. apply wp_last. intros w (L & K & H & Lt).
      destruct (inv_doom n w c x [] [i] [] [] K C L H [] []) as [D1 D2]. split; [exact K|split; [exact D1|split; [exact D2|]]].
      cbn. now rewrite upd_length. }
    intros []. unfold put_ctx. apply wp_last. intros w (K & H & D & Lt).
    assert (J := inv_change_ctx n w c x (Some (mkCtx (cx_target x) (cx_seq x) i true)) [] [] [] [] [] K).
    rewrite C in J. apply J; [|exact H]. intros x' E. inversion E; subst. cbn. auto.
  - eapply tri_bind with (Q1 := fun _ w => live_expression w c x /\ inv [] [i] [] [] [] w /\ i < length (w_matchers w) /\ ~ live_condition w (cx_matcher x)).
    { unfold free_matcher. apply wp_get_matcher. intro y. apply wp_last. intros w (L & K & H & Lt).
      split; [exact K|split; [|split]].
      - apply inv_free_matcher; [exact L|]. eapply inv_more; [..|exact H]; try apply incl_refl; intros a A; [now right|destruct A].
      - cbn. now rewrite upd_length.
      - intro D. apply dead_condition in D. destruct D as [D _]. congruence. }
    intros []. unfold put_ctx. apply wp_last. intros w (K & H & Lt & D).
    set (x' := mkCtx (cx_target x) (cx_seq x) i false).
    assert (J := inv_change_ctx n w c x (Some x') [] [i] [] [] [] K).
    rewrite C in J.
    assert (X : live_expression (set_ctxs w (upd (w_ctxs w) c (Some x'))) c x').
    { unfold live_expression in *. cbn. rewrite nth_error_upd, Nat.eqb_refl. apply nth_error_Some_lt in K. apply Nat.ltb_lt in K. now rewrite K. }
    apply inv_take_seq with (s := cx_seq x); [left; exists c, x'; auto|].
    apply inv_take_matcher with (i := i); [left; exists c, x'; auto|].
    apply inv_gone_matcher with (i := cx_matcher x); [exact D|].
    apply J; [|exact H]. intros x1 E. inversion E; subst. cbn. split; [exact Lt|discriminate].
Qed.

Lemma k_put_seq : forall s q s', tri (fun w => nth_error (w_seqs w) s = Some q /\ I0 w)
  (if sq_alive q then put_seq s (mkSeq true s') else ub) (fun _ => I0) I0.
Proof.
  intros s q s'. destruct (sq_alive q) eqn:A; [|apply wp_ub]. unfold put_seq. apply wp_last. intros w (L & H).
  apply inv_put_seq; [|exact H]. exists q. auto.
Qed.
Lemma k_ctx_append : forall c a, ki (ctx_append c a).
Proof.
  intros c a. apply tri_pres. unfold ctx_append. apply wp_get_ctx. intro x. apply wp_get_seq. intro q.
  destruct (sq_alive q) eqn:A; [|apply wp_ub]. apply wp_lift. intros s' _. pose proof (k_put_seq (cx_seq x) q s') as P. rewrite A in P.
  eapply tri_pre; [|exact P]. intros w (L & _ & H). auto.
Qed.

Lemma k_ctx_commit : forall E c, ki (ctx_commit E c).
Proof.
  intros E c. apply tri_pres. unfold ctx_commit. apply wp_get_ctx. intro x.
  eapply tri_bind with (Q1 := fun _ w => live_expression w c x /\ I0 w).
  { intros w (L & H). pose proof (t_getRecorded E (cx_target x) (w_ctxs w) w (conj H eq_refl)) as T.
    destruct (getRecordedMethodBody E (cx_target x) w) as [w' b|w' e| |]; auto. destruct T as [T1 T2].
    split; [|exact T1]. unfold live_expression. rewrite T2. exact L. }
  intro b. apply wp_get_body. intro bd. 
  set (bd' := mkBody (bd_id bd) (bd_ret bd) (bd_handlers bd ++ [(cx_matcher x, cx_seq x)]) (bd_invs bd)).
  unfold put_body. eapply wp_mod with (P' := fun w => live_expression w c x /\ I0 w /\ live_body w b bd').
  { intros w (Bd & K & H). split; [exact K|split].
    - eapply inv_put_body; [exact Bd| |exact H]. intros h Hh. cbn. apply in_or_app. now left.
    - unfold live_body in *. cbn. rewrite nth_error_upd, Nat.eqb_refl. apply nth_error_Some_lt in Bd. apply Nat.ltb_lt in Bd. now rewrite Bd. }
  unfold put_ctx. apply wp_last. intros w (K & H & Bd).
  assert (Own : In (cx_matcher x, cx_seq x) (bd_handlers bd')) by (cbn; apply in_or_app; right; now left).
  set (x' := mkCtx (cx_target x) (cx_seq x) (cx_matcher x) true).
  assert (J := inv_change_ctx n w c x (Some x') [] [] [] [] [] K).
  assert (J' : inv (if cx_committed x then [] else [cx_seq x]) (if cx_committed x then [] else [cx_matcher x]) [] [] []
    (set_ctxs w (upd (w_ctxs w) c (Some x')))).
  { apply J; [|exact H]. intros x1 E1. inversion E1; subst. cbn. split.
    - destruct H as (_ & _ & _ & _ & _ & Q). exact (Q c x K).
    - intros _ _. left. exists b, bd', (cx_seq x). auto. }
  destruct (cx_committed x); [exact J'|].
  apply inv_take_seq with (s := cx_seq x); [right; exists b, bd', (cx_matcher x); auto|].
  apply inv_take_matcher with (i := cx_matcher x); [right; exists b, bd', (cx_seq x); auto|exact J'].
Qed.

(** ** Everything else *)
Lemma ki_same : forall f, (forall w, same_parts w (f w)) -> ki (modify f).
Proof. intros f H. apply ki_modify_same. exact H. Qed.
End Leaks.

Create HintDb ki.
Ltac ki_core :=
  intros;
  lazymatch goal with
  | |- pres (keeps_inv _) (ret _) => apply pres_ret; apply ki_refl
  | |- pres (keeps_inv _) (throw _) => apply pres_throw; apply ki_refl
  | |- pres (keeps_inv _) ub => apply pres_ub
  | |- pres (keeps_inv _) none => apply pres_none
  | |- pres (keeps_inv _) (gets _) => apply pres_gets; apply ki_refl
  | |- pres (keeps_inv _) (lift _) => apply pres_lift; apply ki_refl
  | |- pres (keeps_inv _) (hget _ _) => apply pres_hget; apply ki_refl
  | |- pres (keeps_inv _) (rethrow _) => apply pres_rethrow; apply ki_refl
  | |- pres (keeps_inv _) (modify _) => solve [apply ki_same; repeat split]
  | |- pres (keeps_inv _) (bind _ _) => apply pres_bind; [apply ki_trans| |]
  | |- pres (keeps_inv _) (attempt _) => apply pres_attempt
  | |- pres (keeps_inv _) (guarded _ _) => apply pres_guarded; [apply ki_refl|apply ki_trans| |]
  | |- pres (keeps_inv _) (match ?x with _ => _ end) => destruct x
  end.
Ltac ki_tac := repeat first [ solve [auto with ki] | ki_core ].
#[export] Hint Resolve k_mock_new k_mock_spy k_proxy_reset k_mock_destroy k_getRecorded k_ctx_free k_ctx_new k_ctx_cond
  k_ctx_append k_ctx_commit : ki.

Section Rest.
Variable n : nat.
Local Notation ki := (pres (keeps_inv n)).
Local Ltac go d := intros; unfold d; ki_tac.

Lemma k_get_table : forall t, ki (get_table t). Proof. go get_table. Qed.
Lemma k_get_obj : forall t, ki (get_obj t). Proof. go get_obj. Qed.
Lemma k_put_obj : forall t x, ki (put_obj t x). Proof. go put_obj. Qed.
Lemma k_new_obj : forall x, ki (new_obj x). Proof. go new_obj. Qed.
Lemma k_free_obj : forall t, ki (free_obj t). Proof. unfold free_obj, get_obj. ki_tac. Qed.
Lemma k_get_mock : forall t, ki (get_mock t). Proof. go get_mock. Qed.
Lemma k_get_body : forall t, ki (get_body t). Proof. go get_body. Qed.
Lemma k_get_seq : forall t, ki (get_seq t). Proof. go get_seq. Qed.
Lemma k_get_matcher : forall t, ki (get_matcher t). Proof. go get_matcher. Qed.
Lemma k_get_ctx : forall t, ki (get_ctx t). Proof. go get_ctx. Qed.
Lemma k_get_exp : forall t, ki (get_exp t). Proof. go get_exp. Qed.
Lemma k_put_exp : forall t x, ki (put_exp t x). Proof. go put_exp. Qed.
Lemma k_new_exp : forall x, ki (new_exp x). Proof. go new_exp. Qed.
Lemma k_free_exp : forall t, ki (free_exp t). Proof. unfold free_exp, get_exp. ki_tac. Qed.
Lemma k_get_inv : forall t, ki (get_inv t). Proof. go get_inv. Qed.
Lemma k_put_inv : forall t x, ki (put_inv t x). Proof. go put_inv. Qed.
Lemma k_new_inv : forall x, ki (new_inv x). Proof. go new_inv. Qed.
Lemma k_class_of : forall E c, ki (class_of E c). Proof. go class_of. Qed.
Lemma k_nextInvocationOrdinal : ki nextInvocationOrdinal. Proof. go nextInvocationOrdinal. Qed.
Local Hint Resolve k_get_table k_get_obj k_put_obj k_new_obj k_free_obj k_get_mock k_get_body k_get_seq k_get_matcher k_get_ctx
  k_get_exp k_put_exp k_new_exp k_free_exp k_get_inv k_put_inv k_new_inv k_class_of k_nextInvocationOrdinal : ki.
Lemma k_handle_event : forall E e, ki (handle_event E e). Proof. go handle_event. Qed.
Lemma k_obj_table : forall o, ki (obj_table o). Proof. go obj_table. Qed.
Lemma k_fake_setMethod : forall o i x, ki (fake_setMethod o i x).
Proof.
  intros o i x. apply tri_pres.
  eapply tri_weaken; [apply (t_fake_setMethod n o i x [] [] [] [] [] (fun _ => True) (I0 n))| | |]; cbn; auto.
  - intros ? ? ?; exact Logic.I.
  - intuition.
Qed.
Lemma k_initDataMembersIfOwner : forall m, ki (initDataMembersIfOwner m).
Proof. unfold initDataMembersIfOwner, initializeDataMembersArea. ki_tac. Qed.
Local Hint Resolve k_handle_event k_obj_table k_fake_setMethod k_initDataMembersIfOwner : ki.
Lemma k_mock_reset : forall E m, ki (mock_reset E m). Proof. go mock_reset. Qed.
Lemma k_clear_bodies : forall bs, ki (clear_bodies bs).
Proof.
  induction bs as [|[b|] bs IH]; cbn [clear_bodies]; [ki_tac| |exact IH].
  apply tri_pres. apply wp_get_body. intro x. unfold put_body. eapply wp_mod with (P' := I0 n); [|apply pres_tri; exact IH].
  intros w (L & H). eapply inv_put_body; [exact L|auto|exact H].
Qed.
Local Hint Resolve k_mock_reset k_clear_bodies : ki.
Lemma k_mock_clear : forall m, ki (mock_clear m). Proof. go mock_clear. Qed.
Lemma k_append_all : forall c rs, ki (append_all c rs).
Proof. induction rs as [|r rs IH]; cbn; ki_tac. Qed.
Local Hint Resolve k_mock_clear k_append_all : ki.
Lemma k_do_when : forall E c rs i, ki (do_when E c rs i). Proof. go do_when. Qed.
Lemma k_do_fake : forall E c, ki (do_fake E c). Proof. go do_fake. Qed.
Lemma k_do_spy : forall E c f, ki (do_spy E c f). Proof. go do_spy. Qed.
Lemma k_do_assign : forall E c f, ki (do_assign E c f). Proof. go do_assign. Qed.
Lemma k_default_value : forall r, ki (default_value r). Proof. go default_value. Qed.
Local Hint Resolve k_do_when k_do_fake k_do_spy k_do_assign k_default_value : ki.

Variable E : env.
Variable rec : op -> M val.
Hypothesis Hrec : forall o, ki (rec o).
Local Hint Resolve Hrec : ki.

Lemma k_run_prog : forall p fr, ki (run_prog rec fr p).
Proof.
  fix IH 1. intros [v|e|i k|i v k|k|o k] fr; cbn [run_prog].
  - ki_tac.
  - ki_tac.
  - destruct fr as [x|this args].
    + apply pres_bind; [apply ki_trans|ki_tac|]. intro y. destruct (nth_error (iv_args y) i); [apply IH|ki_tac].
    + destruct (nth_error args i); [apply IH|ki_tac].
  - destruct fr as [x|this args].
    + apply pres_bind; [apply ki_trans|ki_tac|]. intro y. destruct (Nat.ltb i (length (iv_args y))); [|ki_tac].
      apply pres_bind; [apply ki_trans|ki_tac|]. intros _. apply IH.
    + destruct (Nat.ltb i (length args)); [apply IH|ki_tac].
  - destruct fr as [x|this args]; [ki_tac|apply IH].
  - apply pres_bind; [apply ki_trans|ki_tac|]. intro r. apply IH.
Qed.
Local Hint Resolve k_run_prog : ki.
Lemma k_with_original : forall m slot run, ki run -> ki (with_original m slot run).
Proof. intros. unfold with_original. ki_tac. Qed.
Local Hint Resolve k_with_original : ki.
Lemma k_run_callable : forall f i, ki (run_callable E rec f i).
Proof.
  intros [p| |r vals|r vals|m o slot forward] i; cbn [run_callable]; try solve [ki_tac].
  apply k_with_original. ki_tac.
Qed.
Local Hint Resolve k_run_callable : ki.
Lemma k_serve : forall s i, ki (serve E rec s i). Proof. unfold serve; ki_tac. Qed.
Lemma k_seq_end : forall s id, ki (seq_end s id).
Proof.
  intros s id. apply tri_pres. unfold seq_end. apply wp_get_seq. intro q. apply wp_lift. intros a _.
  destruct (isDone a); [|apply wp_ret; intuition].
  destruct (sq_alive q) eqn:A; [|apply wp_ub]. apply wp_lift. intros s' _.
  pose proof (k_put_seq n s q s') as P. rewrite A in P. exact P.
Qed.
Local Hint Resolve k_serve k_seq_end : ki.
Lemma k_seq_handle : forall s i, ki (seq_handle E rec s i).
Proof.
  intros s i. apply tri_pres. unfold seq_handle. apply wp_get_seq. intro q.
  destruct (sq_alive q) eqn:A; [|apply wp_ub]. apply wp_lift. intros [[s1 id] srv] _.
  pose proof (k_put_seq n s q s1) as P. rewrite A in P. eapply tri_bind; [exact P|]. intros []. apply pres_tri. ki_tac.
Qed.
Lemma find_handler_same : forall hs args a w, match find_handler hs args a w with RVal w' _ => w' = w | RExn _ _ => False | _ => True end.
Proof.
  induction hs as [|[mt sq] hs IH]; intros args a w; cbn [find_handler]; [reflexivity|].
  unfold get_matcher, hget, gets, bind, lift. cbn. destruct (nth_error (w_matchers w) mt) as [[im|]|]; cbn; auto.
  destruct (im_matches _ _ _ _ _) as [[]| |]; cbn; auto. apply IH.
Qed.
Lemma k_unexpected : forall t m args, ki (unexpected E t m args). Proof. unfold unexpected; ki_tac. Qed.
Local Hint Resolve k_seq_handle k_unexpected : ki.
Lemma k_handleMethodInvocation : forall b args, ki (handleMethodInvocation E rec b args).
Proof.
  intros b args. apply tri_pres. unfold handleMethodInvocation. apply wp_get_body. intro bd.
  set (P := fun w => live_body w b bd /\ I0 n w).
  eapply tri_bind with (Q1 := fun _ (w : world) => P w).
  { unfold nextInvocationOrdinal. apply wp_gets. intro a. eapply wp_mod with (P' := P); [|apply wp_ret; auto].
    intros w (_ & L & H). split; [exact L|eapply inv_same; [|exact H]; repeat split]. }
  intro o. eapply tri_bind with (Q1 := fun _ (w : world) => P w).
  { unfold new_inv. apply wp_gets. intro a. eapply wp_mod with (P' := P); [|apply wp_ret; auto].
    intros w (_ & L & H). split; [exact L|eapply inv_same; [|exact H]; repeat split]. }
  intro i. eapply tri_bind with (Q1 := fun _ (w : world) => P w).
  { intros w H. pose proof (find_handler_same (rev (bd_handlers bd)) args None w) as F.
    destruct (find_handler _ _ _ w); auto; [now subst|destruct F]. }
  intros [[mt sq]|].
  - eapply tri_bind with (Q1 := fun _ (w : world) => P w).
    { intros w H. unfold get_inv, gets, bind. destruct (nth_error (w_invs w) i); cbn; auto. }
    intro x. unfold put_inv. eapply wp_mod with (P' := P).
    { intros w (L & H). split; [exact L|eapply inv_same; [|exact H]; repeat split]. }
    unfold put_body. eapply wp_mod with (P' := I0 n).
    { intros w (L & H). eapply inv_put_body; [exact L|auto|exact H]. }
    apply pres_tri. ki_tac.
  - eapply tri_pre; [|apply pres_tri; apply k_unexpected]. intros w (_ & H). exact H.
Qed.
Local Hint Resolve k_handleMethodInvocation : ki.
Lemma k_run_unmocked : forall vt, ki (run_unmocked E vt). Proof. unfold run_unmocked; ki_tac. Qed.
Local Hint Resolve k_run_unmocked : ki.
Lemma k_run_code : forall o vt x args, ki (run_code E rec o vt x args). Proof. unfold run_code; ki_tac. Qed.
Local Hint Resolve k_run_code : ki.
Lemma k_call_object : forall o slot args, ki (call_object E rec o slot args). Proof. unfold call_object; ki_tac. Qed.
Lemma k_mark_all : forall l, ki (mark_all l). Proof. induction l as [|i l IH]; cbn [mark_all]; ki_tac. Qed.
Lemma k_report : forall q e, ki (report E q e). Proof. unfold report; ki_tac. Qed.
Local Hint Resolve k_call_object k_mark_all k_report : ki.
Lemma k_verify_exp : forall x q, ki (verify_exp E x q). Proof. unfold verify_exp; ki_tac. Qed.
Local Hint Resolve k_verify_exp : ki.
Lemma k_exp_bool : forall x, ki (exp_bool E x). Proof. unfold exp_bool; ki_tac. Qed.
Lemma k_exp_free : forall x, ki (exp_free E x). Proof. unfold exp_free; ki_tac. Qed.
Lemma k_exp_quant : forall x q, ki (exp_quant x q). Proof. unfold exp_quant; ki_tac. Qed.
Lemma k_involved : forall cs, ki (involved cs). Proof. induction cs; cbn [involved]; ki_tac. Qed.
Local Hint Resolve k_exp_bool k_exp_free k_exp_quant k_involved : ki.
Lemma k_exp_new_seq : forall s p, ki (exp_new_seq s p). Proof. unfold exp_new_seq; ki_tac. Qed.
Lemma k_ctx_of : forall t im, ki (ctx_of E t im). Proof. unfold ctx_of; ki_tac. Qed.
Lemma k_free_ctxs : forall cs, ki (free_ctxs cs). Proof. induction cs; cbn [free_ctxs]; ki_tac. Qed.
Local Hint Resolve k_exp_new_seq k_ctx_of k_free_ctxs : ki.
Lemma k_with_ctxs : forall ts done body, (forall cs, ki (body cs)) -> ki (with_ctxs E ts done body).
Proof. induction ts as [|[t im] ts IH]; intros done body B; cbn [with_ctxs]; ki_tac. Qed.
Lemma k_run_steps : forall x steps last, ki (run_steps E x steps last).
Proof. induction steps as [|[q|] steps IH]; intro last; cbn [run_steps]; ki_tac. Qed.
Local Hint Resolve k_with_ctxs k_run_steps : ki.
Lemma k_verify_stmt : forall mk steps, ki mk -> ki (verify_stmt E mk steps).
Proof. intros. unfold verify_stmt; ki_tac. Qed.
Lemma k_each : forall f cs, (forall c, ki (f c)) -> ki (each f cs).
Proof. induction cs; intro F; cbn [each]; ki_tac. Qed.
Local Hint Resolve k_verify_stmt k_each : ki.
Lemma k_run_stmt : forall s cs, ki (run_stmt E s cs). Proof. unfold run_stmt; ki_tac. Qed.
Local Hint Resolve k_run_stmt : ki.
Lemma k_unit_val : forall A (m : M A), ki m -> ki (unit_val m). Proof. intros. unfold unit_val; ki_tac. Qed.
Lemma k_nat_val : forall m, ki m -> ki (nat_val m). Proof. intros. unfold nat_val; ki_tac. Qed.
Local Hint Resolve k_unit_val k_nat_val : ki.
Lemma k_step : forall o, ki (step E rec o).
Proof.
  intros []; cbn [step];
    repeat first [progress ki_tac | intros; apply k_unit_val | intros; apply k_nat_val].
Qed.
End Rest.

Lemma exec_keeps : forall n E fuel o, pres (keeps_inv n) (exec E fuel o).
Proof.
  intros n E fuel. induction fuel as [|f IH]; intro o; cbn [exec]; [apply pres_none|]. apply k_step. exact IH.
Qed.
Lemma exec_all_keeps : forall n E fuel os, pres (keeps_inv n) (exec_all E fuel os).
Proof.
  intros n E fuel. induction os as [|o os IH]; cbn [exec_all]; [apply pres_ret; apply ki_refl|].
  apply pres_bind; [apply ki_trans|apply pres_attempt; apply exec_keeps|]. intro x.
  apply pres_bind; [apply ki_trans|exact IH|]. intro xs. apply pres_ret. apply ki_refl.
Qed.

Lemma I0_init : forall E m, I0 (length (e_classes E)) (init_world E m).
Proof.
  intros E m. split; [|split; [|split; [|split; [|split]]]].
  - intros s (q & H & _). destruct s; discriminate.
  - left. split.
    + intros i (x & H). destruct i; discriminate.
    + intros c x H. unfold live_expression in H. destruct c; discriminate.
  - intros b x H. unfold live_body in H. destruct b; discriminate.
  - intros t (x & H). right. left. cbn in H. apply nth_error_Some_lt in H. unfold class_tables in H.
    rewrite map_length, combine_length, seq_length in H. lia.
  - cbn. unfold class_tables. rewrite map_length, combine_length, seq_length. lia.
  - intros c x H. unfold live_expression in H. destruct c; discriminate.
Qed.

Lemma owned_after : forall E fuel m os w rs, exec_all E fuel os (init_world E m) = RVal w rs ->
  (forall s, live_actions w s -> actions_owned w s) /\
  (forall b x, live_body w b x -> body_owned w b) /\
  (forall t, live_table w t -> table_owned (length (e_classes E)) w t) /\
  ((forall i, live_condition w i -> condition_owned w i) \/ doomed w).
Proof.
  intros E fuel m os w rs H. pose proof (exec_all_keeps (length (e_classes E)) E fuel os (init_world E m)) as K.
  unfold presw in K. rewrite H in K. destruct (K (I0_init E m)) as (S & M & B & T & _).
  split; [|split; [|split]].
  - intros s L. destruct (S s L) as [[]|S1]. exact S1.
  - intros b x L. destruct (B b x L) as [[]|S1]. exact S1.
  - intros t L. destruct (T t L) as [[]|S1]. exact S1.
  - destruct M as [[M _]|M]; [left|now right]. intros i L. destruct (M i L) as [[]|S1]. exact S1.
Qed.

Lemma released_after : forall E fuel m os w rs, exec_all E fuel os (init_world E m) = RVal w rs ->
  nothing_held w -> nothing_left (length (e_classes E)) w.
Proof.
  intros E fuel m os w rs H [NM NC]. destruct (owned_after _ _ _ _ _ _ H) as (S & B & T & M).
  assert (NB : forall b x, ~ live_body w b x).
  { intros b x L. destruct (B b x L) as (k & y & K & _). exact (NM k y K). }
  split; [exact NB|split; [|split]].
  - intros i L. destruct M as [M|(b & x & j & s & L' & _)]; [|exact (NB b x L')].
    destruct (M i L) as [(c & x & C & _)|(b & x & s & C & _)]; [exact (NC c x C)|exact (NB b x C)].
  - intros s L. destruct (S s L) as [(c & x & C & _)|(b & x & i & C & _)]; [exact (NC c x C)|exact (NB b x C)].
  - intros t L. destruct (T t L) as [T1|(k & y & K & _)]; [exact T1|destruct (NM k y K)].
Qed.

Lemma rest_after : forall E fuel m os w rs, exec_all E fuel os (init_world E m) = RVal w rs ->
  all_at_rest w -> (forall c x, ~ live_expression w c x) ->
  (forall b x, ~ live_body w b x) /\ (forall i, ~ live_condition w i) /\ (forall s, ~ live_actions w s).
Proof.
  intros E fuel m os w rs H NM NC. destruct (owned_after _ _ _ _ _ _ H) as (S & B & T & M).
  assert (NB : forall b x, ~ live_body w b x).
  { intros b x L. destruct (B b x L) as (k & y & K & I). specialize (NM k y K). rewrite Forall_forall in NM. specialize (NM _ I). discriminate. }
  split; [exact NB|split].
  - intros i L. destruct M as [M|(b & x & j & s & L' & _)]; [|exact (NB b x L')].
    destruct (M i L) as [(c & x & C & _)|(b & x & s & C & _)]; [exact (NC c x C)|exact (NB b x C)].
  - intros s L. destruct (S s L) as [(c & x & C & _)|(b & x & i & C & _)]; [exact (NC c x C)|exact (NB b x C)].
Qed.
