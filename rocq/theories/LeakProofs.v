(** Proofs about what belongs to whom (C89).  Models no code. *)
From Coq Require Import Bool ZArith Lia List.
From Verif Require Import Base CInt Values InvMatchers ActionSeq Sequences VTable Proxy
  Expectation Ordinals Syntax World WorldLogic Spec_Leaks.
Import ListNotations.
Open Scope nat_scope.

(** ** Triples *)
Definition tri {A} (P : world -> Prop) (m : M A) (Q : A -> world -> Prop) (X : world -> Prop) : Prop :=
  forall w, P w -> match m w with RVal w' a => Q a w' | RExn w' _ => X w' | _ => True end.

Lemma tri_bind : forall A B (m : M A) (k : A -> M B) P Q1 Q X,
  tri P m Q1 X -> (forall a, tri (Q1 a) (k a) Q X) -> tri P (bind m k) Q X.
Proof.
  intros A B m k P Q1 Q X H K w HP. specialize (H w HP). unfold bind.
  destruct (m w) as [w' a|w' e| |]; auto. apply K. exact H.
Qed.
Lemma tri_ret : forall A (a : A) (Q : A -> world -> Prop) X, tri (Q a) (ret a) Q X.
Proof. intros A a Q X w H. exact H. Qed.
Lemma tri_weaken : forall A (m : M A) (P P' : world -> Prop) (Q Q' : A -> world -> Prop) (X X' : world -> Prop),
  tri P' m Q' X' -> (forall w, P w -> P' w) -> (forall a w, Q' a w -> Q a w) -> (forall w, X' w -> X w) -> tri P m Q X.
Proof.
  intros A m P P' Q Q' X X' H HP HQ HX w H0. specialize (H w (HP w H0)). destruct (m w); auto.
Qed.
Lemma tri_lift : forall A (o : outcome A) (P : world -> Prop) X, tri P (lift o) (fun a w => o = Def a /\ P w) X.
Proof. intros A [a| |] P X w H; cbn; auto. Qed.
Lemma tri_gets : forall A (f : world -> A) (P : world -> Prop) X, tri P (gets f) (fun a w => a = f w /\ P w) X.
Proof. intros A f P X w H; cbn; auto. Qed.
Lemma tri_modify : forall f (Q : world -> Prop) X, tri (fun w => Q (f w)) (modify f) (fun _ => Q) X.
Proof. intros f Q X w H. exact H. Qed.
Lemma tri_hget : forall A (h : list (option A)) i (P : world -> Prop) X,
  tri P (hget h i) (fun a w => nth_error h i = Some (Some a) /\ P w) X.
Proof. intros A h i P X w H. unfold hget. destruct (nth_error h i) as [[a|]|]; cbn; auto. Qed.

Lemma tri_get_ctx : forall c (P : world -> Prop) X,
  tri P (get_ctx c) (fun x w => live_expression w c x /\ P w) X.
Proof.
  intros c P X w H. unfold get_ctx, hget, gets, bind. cbn.
  destruct (nth_error (w_ctxs w) c) as [[x|]|] eqn:C; cbn; auto.
Qed.
Lemma tri_get_mock : forall c (P : world -> Prop) X,
  tri P (get_mock c) (fun x w => live_mock w c x /\ P w) X.
Proof.
  intros c P X w H. unfold get_mock, hget, gets, bind. cbn.
  destruct (nth_error (w_mocks w) c) as [[x|]|] eqn:C; cbn; auto.
Qed.
Lemma tri_get_body : forall c (P : world -> Prop) X,
  tri P (get_body c) (fun x w => live_body w c x /\ P w) X.
Proof.
  intros c P X w H. unfold get_body, hget, gets, bind. cbn.
  destruct (nth_error (w_bodies w) c) as [[x|]|] eqn:C; cbn; auto.
Qed.
Lemma tri_get_table : forall c (P : world -> Prop) X,
  tri P (get_table c) (fun _ w => live_table w c /\ P w) X.
Proof.
  intros c P X w H. unfold get_table, hget, gets, bind. cbn.
  destruct (nth_error (w_tables w) c) as [[x|]|] eqn:C; cbn; auto. split; auto. now exists x.
Qed.
Lemma tri_class_of : forall E c (P : world -> Prop) X, tri P (class_of E c) (fun _ => P) X.
Proof. intros E c P X w H. unfold class_of. destruct (nth_error _ c); cbn; auto. Qed.
Lemma tri_get_obj : forall c (P : world -> Prop) X, tri P (get_obj c) (fun _ => P) X.
Proof.
  intros c P X w H. unfold get_obj, hget, gets, bind. cbn. destruct (nth_error (w_objs w) c) as [[x|]|]; cbn; auto.
Qed.
Lemma tri_obj_table : forall o (P : world -> Prop) X,
  tri P (obj_table o) (fun r w => live_table w (fst r) /\ P w) X.
Proof.
  intros o P X w H. unfold obj_table, get_obj, get_table, hget, gets, bind. cbn.
  destruct (nth_error (w_objs w) o) as [[x|]|]; cbn; auto.
  destruct (nth_error (w_tables w) (ob_vptr x)) as [[t|]|] eqn:T; cbn; auto. split; auto. now exists t.
Qed.

(** ** The invariant, with the exception of what the library is about to hand over or to release *)
Section Inv.
Variable n : nat.

Definition SI (p : list nat) (w : world) : Prop := forall s, live_actions w s -> In s p \/ actions_owned w s.
(** [q]: conditions of expressions whose statement took effect that the bodies do not have any more. *)
Definition MI (p q : list nat) (w : world) : Prop :=
  ((forall i, live_condition w i -> In i p \/ condition_owned w i) /\
   (forall c x, live_expression w c x -> cx_committed x = true -> live_condition w (cx_matcher x) ->
      In (cx_matcher x) q \/ exists b y s, live_body w b y /\ In (cx_matcher x, s) (bd_handlers y))) \/ doomed w.
Definition RI (w : world) : Prop := forall c x, live_expression w c x -> cx_matcher x < length (w_matchers w).
Definition BI (p : list nat) (w : world) : Prop := forall b x, live_body w b x -> In b p \/ body_owned w b.
Definition TI (p : list nat) (w : world) : Prop := forall t, live_table w t -> In t p \/ table_owned n w t.

Definition inv_of (ps pm pc pb pt : list nat) (w : world) : Prop :=
  SI ps w /\ MI pm pc w /\ BI pb w /\ TI pt w /\ n <= length (w_tables w) /\ RI w.
Definition I0 : world -> Prop := inv_of [] [] [] [] [].

Definition keeps_inv (w w' : world) : Prop := I0 w -> I0 w'.
Lemma ki_refl : forall w, keeps_inv w w. Proof. intros w H; exact H. Qed.
Lemma ki_trans : forall a b c, keeps_inv a b -> keeps_inv b c -> keeps_inv a c.
Proof. unfold keeps_inv; auto. Qed.

Lemma tri_pres : forall A (m : M A), tri I0 m (fun _ => I0) I0 -> pres keeps_inv m.
Proof.
  intros A m H w. unfold presw. destruct (m w) as [w' a|w' e| |] eqn:D; auto; intro H0; specialize (H w H0); now rewrite D in H.
Qed.
Lemma pres_tri : forall A (m : M A), pres keeps_inv m -> tri I0 m (fun _ => I0) I0.
Proof. intros A m H w H0. specialize (H w). unfold presw, keeps_inv in H. destruct (m w); auto. Qed.

(** The parts of a world the invariant looks at. *)
Definition same_parts (w w' : world) : Prop :=
  w_seqs w' = w_seqs w /\ w_matchers w' = w_matchers w /\ w_bodies w' = w_bodies w /\ w_tables w' = w_tables w /\
  w_ctxs w' = w_ctxs w /\ w_mocks w' = w_mocks w.

Lemma inv_same : forall w w' ps pm pc pb pt, same_parts w w' -> inv_of ps pm pc pb pt w -> inv_of ps pm pc pb pt w'.
Proof.
  intros w w' ps pm pc pb pt (A & B & C & D & F & G) (S & M & Bo & T & L).
  destruct L as (L & Q).
  unfold inv_of, SI, MI, BI, TI, RI, live_actions, live_condition, live_body, live_table, actions_owned, condition_owned, body_owned, table_owned,
    doomed, live_expression, live_body, live_mock in *.
  rewrite A, B, C, D, F, G. auto 12.
Qed.

Lemma ki_modify_same : forall f, (forall w, same_parts w (f w)) -> pres keeps_inv (modify f).
Proof. intros f H. apply pres_modify. intros w I. eapply inv_same; [apply H|exact I]. Qed.

(** *** Changes of single parts *)

(** Virtual tables. *)
Lemma live_table_upd : forall w t x u, live_table (set_tables w (upd (w_tables w) t x)) u ->
  live_table w u \/ (u = t /\ x <> None).
Proof.
  intros w t x u (y & H). cbn in H. rewrite nth_error_upd in H. destruct (Nat.eqb_spec t u) as [->|N].
  - destruct (Nat.ltb u (length (w_tables w))); [|discriminate]. inversion H; subst. right. split; auto. discriminate.
  - left. now exists y.
Qed.
Lemma inv_put_table : forall w t x ps pm pc pb pt, live_table w t -> inv_of ps pm pc pb pt w ->
  inv_of ps pm pc pb pt (set_tables w (upd (w_tables w) t (Some x))).
Proof.
  intros w t x ps pm pc pb pt L (S & M & B & T & N & Q). split; [exact S|split; [exact M|split; [exact B|split; [|split; [cbn; now rewrite upd_length|exact Q]]]]].
  intros u H. apply live_table_upd in H. apply T. destruct H as [H|[-> _]]; auto.
Qed.
Lemma inv_free_table : forall w t ps pm pc pb pt, inv_of ps pm pc pb pt w ->
  inv_of ps pm pc pb pt (set_tables w (upd (w_tables w) t None)).
Proof.
  intros w t ps pm pc pb pt (S & M & B & T & N & Q). split; [exact S|split; [exact M|split; [exact B|split; [|split; [cbn; now rewrite upd_length|exact Q]]]]].
  intros u H. apply live_table_upd in H. apply T. destruct H as [H|[_ H]]; [auto|congruence].
Qed.
Lemma inv_new_table : forall w x ps pm pc pb pt, inv_of ps pm pc pb pt w ->
  inv_of ps pm pc pb (length (w_tables w) :: pt) (set_tables w (w_tables w ++ [Some x])).
Proof.
  intros w x ps pm pc pb pt (S & M & B & T & N & Q). split; [exact S|split; [exact M|split; [exact B|split; [|split; [cbn; rewrite app_length; lia|exact Q]]]]].
  intros u (y & H). cbn in H. destruct (Nat.lt_ge_cases u (length (w_tables w))) as [L|L].
  - rewrite nth_error_app1 in H by exact L. destruct (T u) as [T1|T1]; [now exists y|left; now right|right; exact T1].
  - left. left. apply nth_error_Some_lt in H. rewrite app_length in H. cbn in H. lia.
Qed.

(** Mocks. *)
Lemma live_mock_new : forall w k m k', live_mock w m k' -> live_mock (set_mocks w (w_mocks w ++ [Some k])) m k'.
Proof. intros w k m k' H. unfold live_mock in *. cbn. rewrite nth_error_app1; auto. eapply nth_error_Some_lt; eauto. Qed.
Lemma inv_new_mock : forall w k ps pm pc pb pt, inv_of ps pm pc pb (mk_clone k :: (if mk_owner k then mk_orig k :: pt else pt)) w ->
  inv_of ps pm pc pb pt (set_mocks w (w_mocks w ++ [Some k])).
Proof.
  intros w k ps pm pc pb pt (S & M & B & T & N & Q). split; [exact S|split; [exact M|split; [|split; [|split; [exact N|exact Q]]]]].
  - intros b x H. destruct (B b x H) as [B1|(m & k' & K & B1)]; [now left|right].
    exists m, k'. split; [now apply live_mock_new|exact B1].
  - assert (X : live_mock (set_mocks w (w_mocks w ++ [Some k])) (length (w_mocks w)) k).
    { unfold live_mock. cbn. apply nth_error_app_last. }
    intros t H. destruct (T t H) as [T1|[T1|(m & k' & K & T1)]].
    + destruct T1 as [<-|T1].
      * right. right. exists (length (w_mocks w)), k. auto.
      * destruct (mk_owner k) eqn:O; [|now left]. destruct T1 as [<-|T1]; [|now left].
        right. right. exists (length (w_mocks w)), k. auto.
    + right. now left.
    + right. right. exists m, k'. split; [now apply live_mock_new|exact T1].
Qed.

(** A mock replaced by one with the same tables that has all the bodies of the old one. *)
Lemma inv_put_mock : forall w m k k' ps pm pc pb pt, live_mock w m k ->
  mk_clone k' = mk_clone k -> mk_owner k' = mk_owner k -> mk_orig k' = mk_orig k ->
  (forall b x, live_body w b x -> In (Some b) (pt_mocks (mk_pt k)) -> In b pb \/ In (Some b) (pt_mocks (mk_pt k'))) ->
  inv_of ps pm pc pb pt w -> inv_of ps pm pc pb pt (set_mocks w (upd (w_mocks w) m (Some k'))).
Proof.
  intros w m k k' ps pm pc pb pt K C O G Bs (S & M & B & T & N & Q).
  assert (Km : live_mock (set_mocks w (upd (w_mocks w) m (Some k'))) m k').
  { unfold live_mock in *. cbn. rewrite nth_error_upd, Nat.eqb_refl. apply nth_error_Some_lt in K.
    apply Nat.ltb_lt in K. now rewrite K. }
  assert (Ko : forall m1 k1, live_mock w m1 k1 -> m1 <> m -> live_mock (set_mocks w (upd (w_mocks w) m (Some k'))) m1 k1).
  { intros m1 k1 K1 D. unfold live_mock in *. cbn. rewrite nth_error_upd_other; auto. }
  split; [exact S|split; [exact M|split; [|split; [|split; [exact N|exact Q]]]]].
  - intros b x H. destruct (B b x H) as [B1|(m1 & k1 & K1 & B1)]; [now left|].
    destruct (Nat.eq_dec m1 m) as [->|D].
    + assert (k1 = k) by (unfold live_mock in *; congruence). subst k1. destruct (Bs b x H B1) as [B2|B2]; [now left|right].
      exists m, k'. auto.
    + right. exists m1, k1. auto.
  - intros t H. destruct (T t H) as [T1|[T1|(m1 & k1 & K1 & T1)]]; [now left|right; now left|].
    right. right. destruct (Nat.eq_dec m1 m) as [->|D].
    + assert (k1 = k) by (unfold live_mock in *; congruence). subst k1. exists m, k'. rewrite C, O, G. auto.
    + exists m1, k1. auto.
Qed.

(** A mock destroyed: its tables and its bodies are to be released. *)
Lemma inv_drop_mock : forall w m k ps pm pc pb pt, live_mock w m k -> inv_of ps pm pc pb pt w ->
  inv_of ps pm pc (pb ++ flat_map (fun o => match o with Some b => [b] | None => [] end) (pt_mocks (mk_pt k)))
    (mk_clone k :: (if mk_owner k then mk_orig k :: pt else pt)) (set_mocks w (upd (w_mocks w) m None)).
Proof.
  intros w m k ps pm pc pb pt K (S & M & B & T & N & Q).
  assert (Ko : forall m1 k1, live_mock w m1 k1 -> m1 <> m -> live_mock (set_mocks w (upd (w_mocks w) m None)) m1 k1).
  { intros m1 k1 K1 D. unfold live_mock in *. cbn. rewrite nth_error_upd_other; auto. }
  split; [exact S|split; [exact M|split; [|split; [|split; [exact N|exact Q]]]]].
  - intros b x H. destruct (B b x H) as [B1|(m1 & k1 & K1 & B1)]; [left; apply in_or_app; now left|].
    destruct (Nat.eq_dec m1 m) as [->|D].
    + assert (k1 = k) by (unfold live_mock in *; congruence). subst k1. left. apply in_or_app. right.
      apply in_flat_map. exists (Some b). split; [exact B1|now left].
    + right. exists m1, k1. auto.
  - intros t H. destruct (T t H) as [T1|[T1|(m1 & k1 & K1 & T1)]].
    + left. right. destruct (mk_owner k); [now right|exact T1].
    + right. now left.
    + destruct (Nat.eq_dec m1 m) as [->|D].
      * assert (k1 = k) by (unfold live_mock in *; congruence). subst k1. left. destruct T1 as [<-|[O <-]]; [now left|].
        right. rewrite O. now left.
      * right. right. exists m1, k1. auto.
Qed.

(** Bodies. *)
Lemma live_body_upd : forall w b x c y, live_body (set_bodies w (upd (w_bodies w) b (Some x))) c y ->
  (c <> b /\ live_body w c y) \/ (c = b /\ y = x).
Proof.
  intros w b x c y H. unfold live_body in *. cbn in H. rewrite nth_error_upd in H.
  destruct (Nat.eqb_spec b c) as [->|N].
  - destruct (Nat.ltb c (length (w_bodies w))); [|discriminate]. inversion H. auto.
  - left. auto.
Qed.
Lemma live_body_put : forall w b x0 x c y, live_body w b x0 -> live_body w c y ->
  exists y', live_body (set_bodies w (upd (w_bodies w) b (Some x))) c y' /\ ((c = b /\ y = x0 /\ y' = x) \/ (c <> b /\ y' = y)).
Proof.
  intros w b x0 x c y H K. unfold live_body in *. cbn. rewrite nth_error_upd. destruct (Nat.eqb_spec b c) as [->|N].
  - pose proof (nth_error_Some_lt _ _ _ _ H) as L. apply Nat.ltb_lt in L. rewrite L. exists x. split; auto. left. repeat split; congruence.
  - exists y. auto.
Qed.

(** A body replaced by one that has all the handlers of the old one. *)
Lemma inv_put_body : forall w b x x' ps pm pc pb pt, live_body w b x ->
  (forall h, In h (bd_handlers x) -> In h (bd_handlers x')) ->
  inv_of ps pm pc pb pt w -> inv_of ps pm pc pb pt (set_bodies w (upd (w_bodies w) b (Some x'))).
Proof.
  intros w b x x' ps pm pc pb pt Hb H (S & M & B & T & N & Q).
  assert (O : forall c y h, live_body w c y -> In h (bd_handlers y) ->
    exists y', live_body (set_bodies w (upd (w_bodies w) b (Some x'))) c y' /\ In h (bd_handlers y')).
  { intros c y h C D. destruct (live_body_put w b x x' c y Hb C) as (y' & L & [(-> & -> & ->)|(_ & ->)]).
    - exists x'. auto.
    - exists y. auto. }
  split; [|split; [|split; [|split; [exact T|split; [exact N|exact Q]]]]].
  - intros s L. destruct (S s L) as [S1|[S1|(c & y & i & C & D)]]; [now left|right; now left|].
    right. right. destruct (O c y _ C D) as (y' & L' & D'). exists c, y', i. auto.
  - destruct M as [[M M2]|(c & y & i & s & C & D & F)].
    + left. split.
      * intros i L. destruct (M i L) as [M1|[M1|(c & y & s & C & D)]]; [now left|right; now left|].
        right. right. destruct (O c y _ C D) as (y' & L' & D'). exists c, y', s. auto.
      * intros c z Z1 Z2 Z3. destruct (M2 c z Z1 Z2 Z3) as [M3|(d & y & s & C & D)]; [now left|right].
        destruct (O d y _ C D) as (y' & L' & D'). exists d, y', s. auto.
    + right. destruct (O c y _ C D) as (y' & L' & D'). exists c, y', i, s. auto.
  - intros c y L. apply live_body_upd in L. destruct L as [(_ & L)|(-> & ->)]; [exact (B c y L)|exact (B b x Hb)].
Qed.

Lemma live_body_new : forall w x c y, live_body w c y -> live_body (set_bodies w (w_bodies w ++ [Some x])) c y.
Proof. intros w x c y H. unfold live_body in *. cbn. rewrite nth_error_app1; auto. eapply nth_error_Some_lt; eauto. Qed.
Lemma inv_new_body : forall w x ps pm pc pb pt, inv_of ps pm pc pb pt w ->
  inv_of ps pm pc (length (w_bodies w) :: pb) pt (set_bodies w (w_bodies w ++ [Some x])).
Proof.
  intros w x ps pm pc pb pt (S & M & B & T & N & Q). split; [|split; [|split; [|split; [exact T|split; [exact N|exact Q]]]]].
  - intros s L. destruct (S s L) as [S1|[S1|(c & y & i & C & D)]]; [now left|right; now left|].
    right. right. exists c, y, i. split; [now apply live_body_new|exact D].
  - destruct M as [[M M2]|(c & y & i & s & C & D & F)].
    + left. split.
      * intros i L. destruct (M i L) as [M1|[M1|(c & y & s & C & D)]]; [now left|right; now left|].
        right. right. exists c, y, s. split; [now apply live_body_new|exact D].
      * intros c z Z1 Z2 Z3. destruct (M2 c z Z1 Z2 Z3) as [M3|(d & y & s & C & D)]; [now left|right].
        exists d, y, s. split; [now apply live_body_new|exact D].
    + right. exists c, y, i, s. split; [now apply live_body_new|auto].
  - intros c y L. unfold live_body in L. cbn in L. destruct (Nat.lt_ge_cases c (length (w_bodies w))) as [H|H].
    + rewrite nth_error_app1 in L by exact H. destruct (B c y L); [left; now right|now right].
    + left. left. apply nth_error_Some_lt in L. rewrite app_length in L. cbn in L. lia.
Qed.

(** A body dropped: what its handlers have is to be released; unless one of their conditions is gone already. *)
Lemma inv_drop_body : forall w b x ps pm pc pb pt, live_body w b x -> inv_of ps pm pc pb pt w ->
  inv_of (map snd (bd_handlers x) ++ ps) (map fst (bd_handlers x) ++ pm) (map fst (bd_handlers x) ++ pc) pb pt (set_bodies w (upd (w_bodies w) b None)) \/
  exists i s, In (i, s) (bd_handlers x) /\ nth_error (w_matchers w) i = Some None.
Proof.
  intros w b x ps pm pc pb pt Hb (S & M & B & T & N & Q).
  assert (O : forall c y, live_body w c y -> c <> b -> live_body (set_bodies w (upd (w_bodies w) b None)) c y).
  { intros c y H D. unfold live_body in *. cbn. rewrite nth_error_upd_other; auto. }
  assert (S' : SI (map snd (bd_handlers x) ++ ps) (set_bodies w (upd (w_bodies w) b None))).
  { intros s L. destruct (S s L) as [S1|[S1|(c & y & i & C & D)]]; [left; apply in_or_app; now right|right; now left|].
    destruct (Nat.eq_dec c b) as [->|F].
    - assert (y = x) by (unfold live_body in *; congruence). subst y. left. apply in_or_app. left. apply in_map_iff. exists (i, s). auto.
    - right. right. exists c, y, i. auto. }
  assert (B' : BI pb (set_bodies w (upd (w_bodies w) b None))).
  { intros c y L. unfold live_body in L. cbn in L. rewrite nth_error_upd in L. destruct (Nat.eqb_spec b c) as [->|F].
    - destruct (Nat.ltb c (length (w_bodies w))); discriminate.
    - exact (B c y L). }
  destruct M as [[M M2]|(c & y & i & s & C & D & F)].
  - left. split; [exact S'|split; [|split; [exact B'|split; [exact T|split; [exact N|exact Q]]]]].
    left. split.
    + intros i L. destruct (M i L) as [M1|[M1|(c & y & s & C & D)]]; [left; apply in_or_app; now right|right; now left|].
      destruct (Nat.eq_dec c b) as [->|F].
      * assert (y = x) by (unfold live_body in *; congruence). subst y. left. apply in_or_app. left. apply in_map_iff. exists (i, s). auto.
      * right. right. exists c, y, s. auto.
    + intros c z Z1 Z2 Z3. destruct (M2 c z Z1 Z2 Z3) as [M3|(d & y & s & C & D)]; [left; apply in_or_app; now right|].
      destruct (Nat.eq_dec d b) as [->|F].
      * assert (y = x) by (unfold live_body in *; congruence). subst y. left. apply in_or_app. left. apply in_map_iff. exists (cx_matcher z, s). auto.
      * right. exists d, y, s. auto.
  - destruct (Nat.eq_dec c b) as [->|G].
    + assert (y = x) by (unfold live_body in *; congruence). subst y. right. exists i, s. auto.
    + left. split; [exact S'|split; [|split; [exact B'|split; [exact T|split; [exact N|exact Q]]]]].
      right. exists c, y, i, s. auto.
Qed.

(** Conditions. *)
Lemma inv_new_matcher : forall w x ps pm pc pb pt, inv_of ps pm pc pb pt w ->
  inv_of ps (length (w_matchers w) :: pm) pc pb pt (set_matchers w (w_matchers w ++ [Some x])).
Proof.
  intros w x ps pm pc pb pt (S & M & B & T & N & Q).
  split; [exact S|split; [|split; [exact B|split; [exact T|split; [exact N|]]]]].
  - destruct M as [[M M2]|(c & y & i & s & C & D & F)].
    + left. split.
      * intros i (y & L). cbn in L. destruct (Nat.lt_ge_cases i (length (w_matchers w))) as [H|H].
        -- rewrite nth_error_app1 in L by exact H. destruct (M i) as [M1|M1]; [now exists y|left; now right|now right].
        -- left. left. apply nth_error_Some_lt in L. rewrite app_length in L. cbn in L. lia.
      * intros c z Z1 Z2 (y & L). apply (M2 c z Z1 Z2). cbn in L. rewrite nth_error_app1 in L by exact (Q c z Z1). now exists y.
    + right. exists c, y, i, s. split; [exact C|split; [exact D|]]. cbn. rewrite nth_error_app1; auto.
      eapply nth_error_Some_lt; eauto.
  - intros c z Z. specialize (Q c z Z). cbn. rewrite app_length. lia.
Qed.
Lemma dead_condition : forall w i j, live_condition (set_matchers w (upd (w_matchers w) i None)) j -> i <> j /\ live_condition w j.
Proof.
  intros w i j (y & L). cbn in L. rewrite nth_error_upd in L. destruct (Nat.eqb_spec i j) as [->|H].
  - destruct (Nat.ltb j (length (w_matchers w))); discriminate.
  - split; [exact H|now exists y].
Qed.
Lemma doomed_free : forall w i, live_condition w i -> doomed w -> doomed (set_matchers w (upd (w_matchers w) i None)).
Proof.
  intros w i (z & Li) (c & y & j & s & C & D & F). exists c, y, j, s. split; [exact C|split; [exact D|]].
  cbn. rewrite nth_error_upd. destruct (Nat.eqb_spec i j) as [->|H]; [congruence|exact F].
Qed.
Lemma RI_upd : forall w i, RI w -> RI (set_matchers w (upd (w_matchers w) i None)).
Proof. intros w i Q c x H. cbn. rewrite upd_length. exact (Q c x H). Qed.
Lemma inv_free_matcher : forall w i ps pm pc pb pt, live_condition w i -> inv_of ps (i :: pm) (i :: pc) pb pt w ->
  inv_of ps pm pc pb pt (set_matchers w (upd (w_matchers w) i None)).
Proof.
  intros w i ps pm pc pb pt Li (S & M & B & T & N & Q).
  split; [exact S|split; [|split; [exact B|split; [exact T|split; [exact N|now apply RI_upd]]]]].
  destruct M as [[M M2]|M].
  - left. split.
    + intros j L. apply dead_condition in L. destruct L as [H L].
      destruct (M j L) as [[M1|M1]|M1]; [congruence|now left|now right].
    + intros c x C D L. apply dead_condition in L. destruct L as [H L].
      destruct (M2 c x C D L) as [[M1|M1]|M1]; [congruence|now left|now right].
  - right. now apply doomed_free.
Qed.
(** Releasing the condition of an expression whose statement took effect. *)
Lemma inv_doom : forall w c x ps pm pb pt, live_expression w c x -> cx_committed x = true -> live_condition w (cx_matcher x) ->
  inv_of ps pm [] pb pt w -> forall pm' pc, inv_of ps pm' pc pb pt (set_matchers w (upd (w_matchers w) (cx_matcher x) None)) /\
    doomed (set_matchers w (upd (w_matchers w) (cx_matcher x) None)).
Proof.
  intros w c x ps pm pb pt C D L (S & M & B & T & N & Q) pm' pc.
  assert (X : doomed (set_matchers w (upd (w_matchers w) (cx_matcher x) None))).
  { destruct M as [[_ M]|M]; [|now apply doomed_free].
    destruct (M c x C D L) as [[]|(b & y & s & F & G)].
    exists b, y, (cx_matcher x), s. split; [exact F|split; [exact G|]]. cbn. rewrite nth_error_upd, Nat.eqb_refl.
    destruct L as [z L]. apply nth_error_Some_lt in L. apply Nat.ltb_lt in L. now rewrite L. }
  split; [|exact X].
  split; [exact S|split; [|split; [exact B|split; [exact T|split; [exact N|now apply RI_upd]]]]].
  now right.
Qed.

(** Lists of actions. *)
Lemma live_actions_upd : forall w s q u, live_actions (set_seqs w (upd (w_seqs w) s q)) u ->
  (u <> s /\ live_actions w u) \/ (u = s /\ sq_alive q = true).
Proof.
  intros w s q u (y & H & A). cbn in H. rewrite nth_error_upd in H. destruct (Nat.eqb_spec s u) as [->|N].
  - destruct (Nat.ltb u (length (w_seqs w))); [|discriminate]. inversion H; subst. right. auto.
  - left. split; [congruence|]. now exists y.
Qed.
Lemma inv_put_seq : forall w s q ps pm pc pb pt, live_actions w s -> inv_of ps pm pc pb pt w ->
  inv_of ps pm pc pb pt (set_seqs w (upd (w_seqs w) s q)).
Proof.
  intros w s q ps pm pc pb pt L (S & M & B & T & N & Q). split; [|split; [exact M|split; [exact B|split; [exact T|split; [exact N|exact Q]]]]].
  intros u H. apply live_actions_upd in H. apply S. destruct H as [(_ & H)|(-> & _)]; auto.
Qed.
Lemma inv_free_seq : forall w s q ps pm pc pb pt, inv_of (s :: ps) pm pc pb pt w ->
  inv_of ps pm pc pb pt (set_seqs w (upd (w_seqs w) s (mkSeq false q))).
Proof.
  intros w s q ps pm pc pb pt (S & M & B & T & N & Q). split; [|split; [exact M|split; [exact B|split; [exact T|split; [exact N|exact Q]]]]].
  intros u H. apply live_actions_upd in H. destruct H as [(F & H)|(_ & H)]; [|discriminate].
  destruct (S u H) as [[S1|S1]|S1]; [congruence|now left|now right].
Qed.
Lemma inv_new_seq : forall w q ps pm pc pb pt, inv_of ps pm pc pb pt w ->
  inv_of (length (w_seqs w) :: ps) pm pc pb pt (set_seqs w (w_seqs w ++ [q])).
Proof.
  intros w q ps pm pc pb pt (S & M & B & T & N & Q). split; [|split; [exact M|split; [exact B|split; [exact T|split; [exact N|exact Q]]]]].
  intros u (y & H & A). cbn in H. destruct (Nat.lt_ge_cases u (length (w_seqs w))) as [L|L].
  - rewrite nth_error_app1 in H by exact L. destruct (S u) as [S1|S1]; [now exists y|left; now right|right; exact S1].
  - left. left. apply nth_error_Some_lt in H. rewrite app_length in H. cbn in H. lia.
Qed.

(** Expressions. *)
Lemma live_ctx_new : forall w x c y, live_expression w c y -> live_expression (set_ctxs w (w_ctxs w ++ [Some x])) c y.
Proof. intros w x c y H. unfold live_expression in *. cbn. rewrite nth_error_app1; auto. eapply nth_error_Some_lt; eauto. Qed.
Lemma ctx_new_old : forall w x c y, live_expression (set_ctxs w (w_ctxs w ++ [Some x])) c y -> live_expression w c y \/ y = x.
Proof.
  intros w x c y L. unfold live_expression in *. cbn in L. destruct (Nat.lt_ge_cases c (length (w_ctxs w))) as [H|H].
  - rewrite nth_error_app1 in L by exact H. now left.
  - right. rewrite nth_error_app2 in L by exact H. destruct (c - length (w_ctxs w)) as [|k]; cbn in L; [congruence|].
    destruct k; discriminate.
Qed.
Lemma inv_new_ctx : forall w x ps pm pc pb pt, cx_committed x = false -> cx_matcher x < length (w_matchers w) ->
  inv_of (cx_seq x :: ps) (cx_matcher x :: pm) pc pb pt w ->
  inv_of ps pm pc pb pt (set_ctxs w (w_ctxs w ++ [Some x])).
Proof.
  intros w x ps pm pc pb pt U Lt (S & M & B & T & N & Q).
  assert (X : live_expression (set_ctxs w (w_ctxs w ++ [Some x])) (length (w_ctxs w)) x).
  { unfold live_expression. cbn. apply nth_error_app_last. }
  split; [|split; [|split; [exact B|split; [exact T|split; [exact N|]]]]].
  - intros s L. destruct (S s L) as [[<-|S1]|[(c & y & C & D)|S1]].
    + right. left. exists (length (w_ctxs w)), x. auto.
    + now left.
    + right. left. exists c, y. split; [now apply live_ctx_new|exact D].
    + right. now right.
  - destruct M as [[M M2]|M]; [left; split|right; exact M].
    + intros i L. destruct (M i L) as [[<-|M1]|[(c & y & C & D)|M1]].
      * right. left. exists (length (w_ctxs w)), x. auto.
      * now left.
      * right. left. exists c, y. split; [now apply live_ctx_new|exact D].
      * right. now right.
    + intros c y C D. apply ctx_new_old in C. destruct C as [C| ->]; [exact (M2 c y C D)|congruence].
  - intros c y C. apply ctx_new_old in C. destruct C as [C| ->]; [exact (Q c y C)|exact Lt].
Qed.
(** An expression changed or dropped: what it owned is pending. *)
Lemma inv_change_ctx : forall w c x o ps pm pc pb pt, live_expression w c x ->
  (forall x', o = Some x' -> cx_matcher x' < length (w_matchers w) /\
     (cx_committed x' = true -> live_condition w (cx_matcher x') ->
        (exists b y s, live_body w b y /\ In (cx_matcher x', s) (bd_handlers y)) \/ doomed w)) ->
  inv_of ps pm pc pb pt w ->
  inv_of (if cx_committed x then ps else cx_seq x :: ps) (if cx_committed x then pm else cx_matcher x :: pm) pc pb pt
    (set_ctxs w (upd (w_ctxs w) c o)).
Proof.
  intros w c x o ps pm pc pb pt X Ho (S & M & B & T & N & Q).
  assert (O : forall d y, live_expression w d y -> d <> c -> live_expression (set_ctxs w (upd (w_ctxs w) c o)) d y).
  { intros d y H D. unfold live_expression in *. cbn. rewrite nth_error_upd_other; auto. }
  assert (O' : forall d y, live_expression (set_ctxs w (upd (w_ctxs w) c o)) d y -> live_expression w d y \/ o = Some y).
  { intros d y H. unfold live_expression in *. cbn in H. rewrite nth_error_upd in H. destruct (Nat.eqb_spec c d) as [->|F]; [|now left].
    right. destruct (Nat.ltb d (length (w_ctxs w))); congruence. }
  split; [|split; [|split; [exact B|split; [exact T|split; [exact N|]]]]].
  - intros s L. destruct (S s L) as [S1|[(d & y & C & D & F)|S1]].
    + left. destruct (cx_committed x); [exact S1|now right].
    + destruct (Nat.eq_dec d c) as [->|G].
      * assert (y = x) by (unfold live_expression in *; congruence). subst y. rewrite D. left. now left.
      * right. left. exists d, y. auto.
    + right. now right.
  - destruct M as [[M M2]|M]; [|right; exact M].
    assert (Dx : doomed w \/ forall x', o = Some x' -> cx_committed x' = true -> live_condition w (cx_matcher x') ->
      exists b y s, live_body w b y /\ In (cx_matcher x', s) (bd_handlers y)).
    { destruct o as [x'|]; [|right; discriminate]. destruct (Ho x' eq_refl) as [_ H].
      destruct (cx_committed x') eqn:K; [|right; intros x1 E1 E2; congruence].
      destruct (nth_error (w_matchers w) (cx_matcher x')) as [[z|]|] eqn:Z.
      - destruct H as [H|H]; [reflexivity|now exists z| |now left]. right. intros x1 E1 _ _. now inversion E1; subst.
      - right. intros x1 E1 _ (z & L). inversion E1; subst. congruence.
      - right. intros x1 E1 _ (z & L). inversion E1; subst. congruence. }
    destruct Dx as [Dx|Dx]; [right; exact Dx|left; split].
    + intros i L. destruct (M i L) as [M1|[(d & y & C & D & F)|M1]].
      * left. destruct (cx_committed x); [exact M1|now right].
      * destruct (Nat.eq_dec d c) as [->|G].
        -- assert (y = x) by (unfold live_expression in *; congruence). subst y. rewrite D. left. now left.
        -- right. left. exists d, y. auto.
      * right. now right.
    + intros d y C D L. destruct (O' d y C) as [C'|C']; [exact (M2 d y C' D L)|right; exact (Dx y C' D L)].
  - intros d y C. destruct (O' d y C) as [C'|C']; [exact (Q d y C')|exact (proj1 (Ho y C'))].
Qed.
(** What is pending can be taken over. *)
Lemma inv_take_seq : forall w s ps pm pc pb pt, actions_owned w s -> inv_of (s :: ps) pm pc pb pt w -> inv_of ps pm pc pb pt w.
Proof.
  intros w s ps pm pc pb pt O (S & R). split; [|exact R].
  intros u L. destruct (S u L) as [[<-|S1]|S1]; [now right|now left|now right].
Qed.
Lemma inv_take_matcher : forall w i ps pm pc pb pt, condition_owned w i -> inv_of ps (i :: pm) pc pb pt w -> inv_of ps pm pc pb pt w.
Proof.
  intros w i ps pm pc pb pt O (S & M & R). split; [exact S|split; [|exact R]]. destruct M as [[M M2]|M]; [left; split; [|exact M2]|now right].
  intros u L. destruct (M u L) as [[<-|M1]|M1]; [now right|now left|now right].
Qed.
Lemma inv_gone_matcher : forall w i ps pm pc pb pt, ~ live_condition w i -> inv_of ps (i :: pm) pc pb pt w -> inv_of ps pm pc pb pt w.
Proof.
  intros w i ps pm pc pb pt O (S & M & R). split; [exact S|split; [|exact R]]. destruct M as [[M M2]|M]; [left; split; [|exact M2]|now right].
  intros u L. destruct (M u L) as [[<-|M1]|M1]; [contradiction|now left|now right].
Qed.
Lemma inv_more : forall w ps pm pc pb pt ps' pm' pc' pb' pt', incl ps ps' -> incl pm pm' -> incl pc pc' -> incl pb pb' -> incl pt pt' ->
  inv_of ps pm pc pb pt w -> inv_of ps' pm' pc' pb' pt' w.
Proof.
  intros w ps pm pc pb pt ps' pm' pc' pb' pt' Is Im Ic Ib It (S & M & B & T & R).
  split; [|split; [|split; [|split; [|exact R]]]].
  - intros s L. destruct (S s L); [left; auto|now right].
  - destruct M as [[M M2]|M]; [left; split|now right].
    + intros i L. destruct (M i L); [left; auto|now right].
    + intros c x C D L. destruct (M2 c x C D L); [left; auto|now right].
  - intros b x L. destruct (B b x L); [left; auto|now right].
  - intros t L. destruct (T t L); [left; auto|now right].
Qed.
Lemma inv_take_body : forall w b ps pm pc pb pt, body_owned w b -> inv_of ps pm pc (b :: pb) pt w -> inv_of ps pm pc pb pt w.
Proof.
  intros w b ps pm pc pb pt O (S & M & B & R). split; [exact S|split; [exact M|split; [|exact R]]].
  intros u x L. destruct (B u x L) as [[<-|B1]|B1]; [now right|now left|now right].
Qed.
(** What is pending and gone need not be. *)
Lemma inv_gone_bodies : forall w l ps pm pc pb pt, (forall b x, In b l -> ~ live_body w b x) ->
  inv_of ps pm pc (pb ++ l) pt w -> inv_of ps pm pc pb pt w.
Proof.
  intros w l ps pm pc pb pt G (S & M & B & R). split; [exact S|split; [exact M|split; [|exact R]]].
  intros u x L. destruct (B u x L) as [B1|B1]; [|now right]. apply in_app_or in B1. destruct B1 as [B1|B1]; [now left|].
  exfalso. exact (G u x B1 L).
Qed.
Lemma inv_gone_table : forall w t ps pm pc pb pt, ~ live_table w t -> inv_of ps pm pc pb (t :: pt) w -> inv_of ps pm pc pb pt w.
Proof.
  intros w t ps pm pc pb pt G (S & M & B & T & N & Q). split; [exact S|split; [exact M|split; [exact B|split; [|split; [exact N|exact Q]]]]].
  intros u L. destruct (T u L) as [[<-|T1]|T1]; [contradiction|now left|now right].
Qed.
End Inv.
