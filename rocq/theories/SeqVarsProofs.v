From Coq Require Import ZArith Lia List.
From Verif Require Import Base SeqVars Spec_SeqVars.
Import ListNotations.
Open Scope nat_scope.

Section Proofs.
Context {A : Type}.
Implicit Types (cells : list (option (node A))) (e : qexp A) (s : qstate A) (d : node A).

Definition live cells (c : nat) (d : node A) : Prop := nth_error cells c = Some (Some d).

Definition refs (d : node A) : list nat :=
  match d with NMethod _ => [] | NConcat c1 c2 => [c1; c2] | NRepeat c1 _ => [c1] end.

(** References go to older cells. *)
Definition older cells : Prop := forall c d r, live cells c d -> In r (refs d) -> r < c.

Inductive reads cells : nat -> list A -> Prop :=
| RdMethod : forall c a, live cells c (NMethod a) -> reads cells c [a]
| RdConcat : forall c c1 c2 l1 l2, live cells c (NConcat c1 c2) -> reads cells c1 l1 -> reads cells c2 l2 ->
    reads cells c (l1 ++ l2)
| RdRepeat : forall c c1 n l, live cells c (NRepeat c1 n) -> reads cells c1 l ->
    reads cells c (concat (repeat l (Z.to_nat n))).

Lemma alive_live : forall cells c d, live cells c d <-> alive cells c = Def d.
Proof.
  unfold live, alive. intros cells c d. destruct (nth_error cells c) as [[x|]|]; split; congruence.
Qed.

Lemma alive_not : forall cells c, (forall d, ~ live cells c d) -> alive cells c = UB.
Proof.
  unfold live, alive. intros cells c H. destruct (nth_error cells c) as [[x|]|]; auto. now elim (H x).
Qed.

Lemma live_length : forall cells c d, live cells c d -> c < length cells.
Proof. unfold live. intros cells c d H. apply nth_error_Some. congruence. Qed.

Lemma reads_qread : forall cells c l, older cells -> reads cells c l -> forall f, c < f -> qread f cells c = Def l.
Proof.
  intros cells c l O R. induction R as [c a L|c c1 c2 l1 l2 L R1 IH1 R2 IH2|c c1 n l L R IH]; intros [|f] F; try lia;
    cbn [qread]; rewrite (proj1 (alive_live _ _ _) L); cbn [obind]; auto.
  - pose proof (O _ _ c1 L (or_introl eq_refl)). pose proof (O _ _ c2 L (or_intror (or_introl eq_refl))).
    rewrite IH1, IH2 by lia. reflexivity.
  - pose proof (O _ _ c1 L (or_introl eq_refl)). rewrite IH by lia. reflexivity.
Qed.

Lemma reads_live : forall cells c l, reads cells c l -> exists d, live cells c d.
Proof. destruct 1; eauto. Qed.

Lemma reads_all : forall cells c l, older cells -> reads cells c l -> qread_all cells c = Def l.
Proof.
  intros cells c l O R. destruct (reads_live _ _ _ R) as [d L]. apply live_length in L. unfold qread_all.
  apply reads_qread; auto.
Qed.

(** Reading a cell depends on the cells up to it only. *)
Lemma reads_upto : forall cells cells' c l, older cells -> reads cells c l ->
  (forall i, i <= c -> nth_error cells' i = nth_error cells i) -> reads cells' c l.
Proof.
  intros cells cells' c l O R. induction R as [c a L|c c1 c2 l1 l2 L R1 IH1 R2 IH2|c c1 n l L R IH]; intro E.
  - apply RdMethod. unfold live. rewrite E; auto.
  - pose proof (O _ _ c1 L (or_introl eq_refl)). pose proof (O _ _ c2 L (or_intror (or_introl eq_refl))).
    eapply RdConcat; [unfold live; rewrite E; eauto| |]; [apply IH1|apply IH2]; intros; apply E; lia.
  - pose proof (O _ _ c1 L (or_introl eq_refl)).
    eapply RdRepeat; [unfold live; rewrite E; eauto|]. apply IH; intros; apply E; lia.
Qed.

Lemma live_app : forall cells more c d, live cells c d -> live (cells ++ more) c d.
Proof.
  unfold live. intros cells more c d H. rewrite nth_error_app1; auto. apply nth_error_Some. congruence.
Qed.

Lemma reads_app : forall cells more c l, reads cells c l -> reads (cells ++ more) c l.
Proof.
  intros cells more c l R. induction R; [apply RdMethod|eapply RdConcat|eapply RdRepeat]; eauto using live_app.
Qed.

Lemma live_new : forall cells d, live (cells ++ [Some d]) (length cells) d.
Proof. unfold live. intros. rewrite nth_error_app2, Nat.sub_diag by lia. reflexivity. Qed.

Lemma live_app_inv : forall cells more c d, live (cells ++ more) c d ->
  live cells c d \/ length cells <= c /\ nth_error more (c - length cells) = Some (Some d).
Proof.
  unfold live. intros cells more c d H. destruct (Nat.lt_ge_cases c (length cells)) as [L|L].
  - rewrite nth_error_app1 in H; auto.
  - rewrite nth_error_app2 in H; auto.
Qed.

Lemma older_new : forall cells d, older cells -> (forall r, In r (refs d) -> r < length cells) -> older (cells ++ [Some d]).
Proof.
  intros cells d O R c d' r L I. apply live_app_inv in L. destruct L as [L|[L N]]; [eapply O; eauto|].
  destruct (c - length cells) as [|k] eqn:E; cbn in N; [|now destruct k]. injection N as <-.
  apply R in I. lia.
Qed.

Lemma older_none : forall cells k, older cells -> older (cells ++ repeat None k).
Proof.
  intros cells k O c d r L I. apply live_app_inv in L. destruct L as [L|[L N]]; [eapply O; eauto|].
  apply nth_error_In in N. apply repeat_spec in N. discriminate.
Qed.

Lemma qend_app : forall cells more, qend (length cells) (cells ++ more) = cells ++ repeat None (length more).
Proof.
  intros. unfold qend. rewrite firstn_app, firstn_all, Nat.sub_diag, app_length. cbn [firstn].
  rewrite app_nil_r. f_equal. f_equal. lia.
Qed.

(** *** Every program *)

(** What holds of every state that a program reaches. *)
Definition sound (s : qstate A) : Prop :=
  older (q_cells s) /\ Forall (fun v => v_cell v < length (q_cells s)) (q_vars s).

Lemma qeval_makes : forall e vars cells c cells', older cells -> Forall (fun v => v_cell v < length cells) vars ->
  qeval e vars cells = Def (Some (c, cells')) ->
  (exists more, cells' = cells ++ more) /\ older cells' /\ c < length cells' /\
  ((forall x, e <> QVar x) -> length cells <= c /\ exists d, live cells' c d).
Proof.
  induction e as [x|a|e1 IH1 e2 IH2|e1 IH1 n]; intros vars cells c cells' O V H; cbn [qeval] in H.
  - destruct (nth_error vars x) as [v|] eqn:N; cbn in H; [|discriminate]. injection H as <- <-.
    split; [exists []; now rewrite app_nil_r|]. split; auto. split.
    + rewrite Forall_forall in V. apply V. eapply nth_error_In; eauto.
    + intro X. now elim (X x).
  - injection H as <- <-. split; [eauto|]. split; [apply older_new; auto; intros ? []|].
    rewrite app_length. cbn. split; [lia|]. intros _. split; [lia|]. eexists. apply live_new.
  - destruct (qeval e1 vars cells) as [[[c1 cells1]|]| |] eqn:E1; cbn in H; try discriminate.
    destruct (qeval e2 vars cells1) as [[[c2 cells2]|]| |] eqn:E2; cbn in H; try discriminate. injection H as <- <-.
    destruct (IH1 _ _ _ _ O V E1) as ([m1 ->] & O1 & L1 & _).
    assert (V1 : Forall (fun v => v_cell v < length (cells ++ m1)) vars)
      by (eapply Forall_impl; [|exact V]; cbn; intros; rewrite app_length; lia).
    destruct (IH2 _ _ _ _ O1 V1 E2) as ([m2 ->] & O2 & L2 & _).
    split; [rewrite <- !app_assoc; eauto|].
    split; [apply older_new; auto; intros r [<-|[<-|[]]]; auto; rewrite app_length; lia|].
    rewrite !app_length in *. cbn. split; [lia|]. intros _. split; [lia|]. eexists.
    rewrite <- (app_length cells), <- app_length. apply live_new.
  - destruct (qeval e1 vars cells) as [[[c1 cells1]|]| |] eqn:E1; cbn in H; try discriminate.
    destruct (n <=? 0)%Z; try discriminate. injection H as <- <-.
    destruct (IH1 _ _ _ _ O V E1) as ([m1 ->] & O1 & L1 & _).
    split; [rewrite <- app_assoc; eauto|].
    split; [apply older_new; auto; intros r [<-|[]]; auto|].
    rewrite !app_length in *. cbn. split; [lia|]. intros _. split; [lia|]. eexists.
    rewrite <- app_length. apply live_new.
Qed.

Lemma older_upd_none : forall cells c, older cells -> older (upd cells c None).
Proof.
  intros cells c O c' d r L I. unfold live in L. rewrite nth_error_upd in L. destruct (Nat.eqb c c'); [destruct (Nat.ltb _ _); discriminate|].
  eapply O; eauto.
Qed.

Lemma Forall_cells_le : forall (vars : list qvar) n m, n <= m -> Forall (fun v => v_cell v < n) vars -> Forall (fun v => v_cell v < m) vars.
Proof. intros vars n m L H. eapply Forall_impl; [|exact H]. cbn. intros. lia. Qed.

Lemma older_revive : forall cells cells' c d, older cells -> older cells' -> live cells' c d ->
  older (upd cells c (Some d)).
Proof.
  intros cells cells' c d O O' L c' d' r L' I. unfold live in L'. rewrite nth_error_upd in L'.
  destruct (Nat.eqb_spec c c') as [->|N].
  - destruct (Nat.ltb c' (length cells)); [|discriminate]. injection L' as <-. eapply O'; eauto.
  - eapply O; eauto.
Qed.

Lemma qrun1_sound : forall x s s', sound s -> qrun1 x s = Def (Some s') -> sound s'.
Proof.
  intros x s s' [O V] H. destruct x as [e|e|x|es]; cbn [qrun1] in H.
  - destruct (qeval e _ _) as [[[c cells]|]| |] eqn:E; cbn in H; try discriminate.
    destruct (alive cells c) as [d| |] eqn:D; cbn in H; try discriminate. injection H as <-.
    destruct (qeval_makes _ _ _ _ _ O V E) as ([m ->] & O' & L & _). apply alive_live in D.
    rewrite qend_app. split; cbn [q_cells q_vars].
    + apply older_new; [now apply older_none|]. intros r I. pose proof (O' _ _ _ D I). rewrite app_length, repeat_length. rewrite app_length in L. lia.
    + apply Forall_app. split; [eapply Forall_cells_le; [|exact V]; rewrite !app_length; lia|].
      repeat constructor. cbn. rewrite !app_length, repeat_length. cbn. lia.
  - destruct (qeval e _ _) as [[[c cells]|]| |] eqn:E; cbn in H; try discriminate.
    destruct (qeval_makes _ _ _ _ _ O V E) as ([m ->] & O' & L & Hc).
    rewrite qend_app in H.
    assert (S0 : sound (mkQ (q_cells s ++ repeat None (length m)) (q_vars s ++ [mkVar c false]) (q_seen s))).
    { split; cbn [q_cells q_vars]; [now apply older_none|]. apply Forall_app. split.
      - eapply Forall_cells_le; [|exact V]. rewrite app_length; lia.
      - repeat constructor. cbn. rewrite app_length, repeat_length. rewrite app_length in L. lia. }
    assert (S1 : forall d, alive (q_cells s ++ m) c = Def d ->
      sound (mkQ (upd (q_cells s ++ repeat None (length m)) c (Some d)) (q_vars s ++ [mkVar c true]) (q_seen s))).
    { intros d D. apply alive_live in D. split; cbn [q_cells q_vars].
      - eapply older_revive; [now apply older_none|exact O'|exact D].
      - apply Forall_app. split; [eapply Forall_cells_le; [|exact V]; rewrite upd_length, app_length; lia|].
        repeat constructor. cbn. rewrite upd_length, app_length, repeat_length. rewrite app_length in L. lia. }
    destruct e; try (injection H as <-; exact S0);
      (destruct (alive (q_cells s ++ m) c) as [d| |] eqn:D; cbn in H; try discriminate; injection H as <-; apply S1; reflexivity).
  - destruct (nth_error (q_vars s) x) as [v|]; cbn in H; try discriminate. injection H as <-.
    destruct (v_owns v); split; cbn [q_cells q_vars]; auto.
    + now apply older_upd_none.
    + now rewrite upd_length.
  - destruct (qeval_all es _ _) as [[[cs cells]|]| |] eqn:E; cbn in H; try discriminate.
    destruct (qread_each cells cs) as [ls| |]; cbn in H; try discriminate. injection H as <-.
    assert (X : exists more, cells = q_cells s ++ more).
    { clear - O V E. revert cs cells O V E. generalize (q_cells s) as c0. induction es as [|e es IH]; intros c0 cs cells O V E; cbn in E.
      - injection E as <- <-. exists []. now rewrite app_nil_r.
      - destruct (qeval e (q_vars s) c0) as [[[c c1]|]| |] eqn:Q; cbn in E; try discriminate.
        destruct (qeval_all es (q_vars s) c1) as [[[cs' c2]|]| |] eqn:Q2; cbn in E; try discriminate. injection E as <- <-.
        destruct (qeval_makes _ _ _ _ _ O V Q) as ([m ->] & O' & _).
        destruct (IH _ _ _ O' ltac:(eapply Forall_cells_le; [|exact V]; rewrite app_length; lia) Q2) as [m' ->].
        rewrite <- app_assoc. eauto. }
    destruct X as [m ->]. rewrite qend_app. split; cbn [q_cells q_vars]; [now apply older_none|].
    eapply Forall_cells_le; [|exact V]; rewrite app_length; lia.
Qed.

Lemma qrun_sound : forall l s s', sound s -> qrun l s = Def (Some s') -> sound s'.
Proof.
  induction l as [|x l IH]; intros s s' S H; cbn in H; [injection H as <-; auto|].
  destruct (qrun1 x s) as [[s1|]| |] eqn:E; cbn in H; try discriminate. eapply IH; [|exact H]. eapply qrun1_sound; eauto.
Qed.

Lemma sound_start : sound qstart.
Proof. split; cbn; [|constructor]. intros c d r L. unfold live in L. destruct c; discriminate. Qed.

Lemma qeval_all_makes : forall es vars cells cs cells', older cells -> Forall (fun v => v_cell v < length cells) vars ->
  qeval_all es vars cells = Def (Some (cs, cells')) -> (exists more, cells' = cells ++ more) /\ older cells'.
Proof.
  induction es as [|e es IH]; intros vars cells cs cells' O V E; cbn in E.
  - injection E as <- <-. split; auto. exists []. now rewrite app_nil_r.
  - destruct (qeval e vars cells) as [[[c c1]|]| |] eqn:Q; cbn in E; try discriminate.
    destruct (qeval_all es vars c1) as [[[cs' c2]|]| |] eqn:Q2; cbn in E; try discriminate. injection E as <- <-.
    destruct (qeval_makes _ _ _ _ _ O V Q) as ([m ->] & O' & _).
    destruct (IH _ _ _ _ O' ltac:(eapply Forall_cells_le; [|exact V]; rewrite app_length; lia) Q2) as [[m' ->] O2].
    split; auto. rewrite <- app_assoc. eauto.
Qed.

(** Dead cells stay dead, live cells stay what they are until they die, and variables stay. *)
Definition dead cells (c : nat) : Prop := nth_error cells c = Some None.

Definition later (s s' : qstate A) : Prop :=
  (forall c, dead (q_cells s) c -> dead (q_cells s') c) /\
  (forall c d, live (q_cells s) c d -> dead (q_cells s') c \/ live (q_cells s') c d) /\
  exists more, q_vars s' = q_vars s ++ more.

Lemma later_refl : forall s, later s s.
Proof. intro s. split; [auto|]. split; [auto|]. exists []. now rewrite app_nil_r. Qed.

Lemma later_trans : forall s1 s2 s3, later s1 s2 -> later s2 s3 -> later s1 s3.
Proof.
  intros s1 s2 s3 (D1 & L1 & m1 & V1) (D2 & L2 & m2 & V2). split; [auto|]. split.
  - intros c d H. apply L1 in H. destruct H as [H|H]; auto.
  - exists (m1 ++ m2). now rewrite V2, V1, app_assoc.
Qed.

Lemma dead_app : forall cells more c, dead cells c -> dead (cells ++ more) c.
Proof. unfold dead. intros. rewrite nth_error_app1; auto. apply nth_error_Some. congruence. Qed.

Lemma later_app : forall s more vars seen, later s (mkQ (q_cells s ++ more) (q_vars s ++ vars) seen).
Proof.
  intros. split; [|split]; cbn [q_cells q_vars]; eauto using dead_app, live_app.
Qed.

Lemma upd_app_r : forall T (l l' : list T) c x, length l <= c -> upd (l ++ l') c x = l ++ upd l' (c - length l) x.
Proof.
  induction l as [|h l IH]; intros l' c x H; cbn in *; [now rewrite Nat.sub_0_r|].
  destruct c; [lia|]. cbn. rewrite IH by lia. reflexivity.
Qed.

Lemma qrun1_later : forall x s s', sound s -> qrun1 x s = Def (Some s') -> later s s'.
Proof.
  intros x s s' [O V] H. destruct x as [e|e|x|es]; cbn [qrun1] in H.
  - destruct (qeval e _ _) as [[[c cells]|]| |] eqn:E; cbn in H; try discriminate.
    destruct (alive cells c) as [d| |] eqn:D; cbn in H; try discriminate. injection H as <-.
    destruct (qeval_makes _ _ _ _ _ O V E) as ([m ->] & _). rewrite qend_app, <- app_assoc. apply later_app.
  - destruct (qeval e _ _) as [[[c cells]|]| |] eqn:E; cbn in H; try discriminate.
    destruct (qeval_makes _ _ _ _ _ O V E) as ([m ->] & O' & L & Hc). rewrite qend_app in H.
    destruct e; try (injection H as <-; apply later_app);
      (destruct Hc as [Hc _]; [discriminate|];
       destruct (alive (q_cells s ++ m) c) as [d| |] eqn:D; cbn in H; try discriminate; injection H as <-;
       rewrite upd_app_r by exact Hc; apply later_app).
  - destruct (nth_error (q_vars s) x) as [v|]; cbn in H; try discriminate. injection H as <-.
    destruct (v_owns v); [|split; [|split]; cbn; eauto; exists []; now rewrite app_nil_r].
    split; [|split]; cbn [q_cells q_vars]; [| |exists []; now rewrite app_nil_r].
    + unfold dead. intros c D. rewrite nth_error_upd. destruct (Nat.eqb_spec (v_cell v) c) as [->|]; auto.
      assert (c < length (q_cells s)) by (apply nth_error_Some; congruence).
      destruct (Nat.ltb_spec c (length (q_cells s))); [auto|lia].
    + unfold dead, live. intros c d D. rewrite nth_error_upd. destruct (Nat.eqb_spec (v_cell v) c) as [->|]; auto.
      assert (c < length (q_cells s)) by (apply nth_error_Some; congruence).
      destruct (Nat.ltb_spec c (length (q_cells s))); [auto|lia].
  - destruct (qeval_all es _ _) as [[[cs cells]|]| |] eqn:E; cbn in H; try discriminate.
    destruct (qread_each cells cs) as [ls| |]; cbn in H; try discriminate. injection H as <-.
    destruct (qeval_all_makes _ _ _ _ _ O V E) as [[m ->] _]. rewrite qend_app.
    pose proof (later_app s (repeat None (length m)) [] (q_seen s ++ [ls])) as X. now rewrite app_nil_r in X.
Qed.

Lemma qrun_later : forall l s s', sound s -> qrun l s = Def (Some s') -> later s s'.
Proof.
  induction l as [|x l IH]; intros s s' S H; cbn in H; [injection H as <-; apply later_refl|].
  destruct (qrun1 x s) as [[s1|]| |] eqn:E; cbn in H; try discriminate.
  eapply later_trans; [eapply qrun1_later; eauto|]. eapply IH; [|exact H]. eapply qrun1_sound; eauto.
Qed.

Lemma dead_alive : forall cells c, dead cells c -> alive cells c = UB.
Proof. unfold dead, alive. intros cells c ->. reflexivity. Qed.

(** Reading is defined or undefined, never cut short. *)
Lemma qread_fuel : forall cells, older cells -> forall f c, c < f -> qread f cells c <> NoFuel.
Proof.
  intros cells O. induction f as [|f IH]; intros c F; [lia|]. cbn [qread].
  destruct (alive cells c) as [d| |] eqn:D; cbn; try discriminate.
  - apply alive_live in D. destruct d as [a|c1 c2|c1 n]; try discriminate.
    + pose proof (O _ _ c1 D (or_introl eq_refl)). pose proof (O _ _ c2 D (or_intror (or_introl eq_refl))).
      specialize (IH c1 ltac:(lia)) as I1. specialize (IH c2 ltac:(lia)) as I2.
      destruct (qread f cells c1); cbn; try congruence. destruct (qread f cells c2); cbn; congruence.
    + pose proof (O _ _ c1 D (or_introl eq_refl)). specialize (IH c1 ltac:(lia)) as I1.
      destruct (qread f cells c1); cbn; congruence.
  - unfold alive in D. destruct (nth_error cells c) as [[]|]; discriminate.
Qed.

(** An object with a dead part cannot be read. *)
Lemma dead_part : forall cells c d r, older cells -> live cells c d -> In r (refs d) -> dead cells r ->
  qread_all cells c = UB.
Proof.
  intros cells c d r O L I D. pose proof (live_length _ _ _ L) as LL. unfold qread_all. cbn [qread].
  rewrite (proj1 (alive_live _ _ _) L). cbn [obind].
  assert (X : forall f, r < f -> qread f cells r = UB).
  { intros [|f] F; [lia|]. cbn. now rewrite dead_alive. }
  destruct d as [a|c1 c2|c1 n]; cbn in I.
  - tauto.
  - pose proof (O _ _ c1 L (or_introl eq_refl)). pose proof (O _ _ c2 L (or_intror (or_introl eq_refl))).
    pose proof (qread_fuel cells O (length cells) c1 ltac:(lia)).
    destruct I as [<-|[<-|[]]]; rewrite X by lia; auto.
    destruct (qread (length cells) cells c1); cbn; congruence.
  - pose proof (O _ _ c1 L (or_introl eq_refl)). destruct I as [<-|[]]. rewrite X by lia. reflexivity.
Qed.

(** Using a variable whose object is dead or has a dead part is undefined. *)
Definition unusable (s : qstate A) (x : nat) : Prop :=
  exists v, nth_error (q_vars s) x = Some v /\
    (dead (q_cells s) (v_cell v) \/ exists d r, live (q_cells s) (v_cell v) d /\ In r (refs d) /\ dead (q_cells s) r).

Lemma unusable_verify : forall s x, sound s -> unusable s x -> qrun1 (QVerify [QVar x]) s = UB.
Proof.
  intros s x [O V] (v & N & H). cbn [qrun1 qeval_all qeval]. rewrite N. cbn [of_option obind qread_each].
  assert (R : qread_all (q_cells s) (v_cell v) = UB); [|now rewrite R].
  destruct H as [D|(d & r & L & I & D)].
  - unfold qread_all. cbn. now rewrite dead_alive.
  - eapply dead_part; eauto.
Qed.

Lemma unusable_later : forall s s' x, later s s' -> unusable s x -> unusable s' x.
Proof.
  intros s s' x (D & L & more & V) (v & N & H). exists v. split.
  - rewrite V, nth_error_app1; auto. apply nth_error_Some. congruence.
  - destruct H as [H|(d & r & Hl & I & Hd)]; auto. destruct (L _ _ Hl); auto. right. exists d, r. auto.
Qed.

(** *** A temporary as an operand *)

Lemma dead_none : forall cells m c, length cells <= c -> c < length (cells ++ repeat None m) -> dead (cells ++ repeat None m) c.
Proof.
  unfold dead. intros cells m c L H. rewrite app_length, repeat_length in H. rewrite nth_error_app2 by lia.
  rewrite nth_error_repeat by lia. reflexivity.
Qed.

Lemma operand_dead : forall e vars cells c cells', older cells -> Forall (fun v => v_cell v < length cells) vars ->
  has_temporary e -> qeval e vars cells = Def (Some (c, cells')) ->
  exists d r, live cells' c d /\ In r (refs d) /\ length cells <= r /\ r < c /\ S c = length cells'.
Proof.
  intros e vars cells c cells' O V T H. destruct e as [x|a|e1 e2|e1 n]; cbn in T; try tauto; cbn [qeval] in H.
  - destruct (qeval e1 vars cells) as [[[c1 cells1]|]| |] eqn:E1; cbn in H; try discriminate.
    destruct (qeval e2 vars cells1) as [[[c2 cells2]|]| |] eqn:E2; cbn in H; try discriminate. injection H as <- <-.
    destruct (qeval_makes _ _ _ _ _ O V E1) as ([m1 ->] & O1 & L1 & H1).
    assert (V1 : Forall (fun v => v_cell v < length (cells ++ m1)) vars)
      by (eapply Forall_cells_le; [|exact V]; rewrite app_length; lia).
    destruct (qeval_makes _ _ _ _ _ O1 V1 E2) as ([m2 ->] & O2 & L2 & H2).
    exists (NConcat c1 c2). rewrite !app_length in *. cbn.
    destruct T as [T|T]; [exists c1; destruct (H1 T)|exists c2; destruct (H2 T)];
      (split; [rewrite <- !app_length; apply live_new|]; cbn; repeat split; auto; lia).
  - destruct (qeval e1 vars cells) as [[[c1 cells1]|]| |] eqn:E1; cbn in H; try discriminate.
    destruct (n <=? 0)%Z; try discriminate. injection H as <- <-.
    destruct (qeval_makes _ _ _ _ _ O V E1) as ([m1 ->] & O1 & L1 & H1). destruct (H1 T) as [H2 _].
    exists (NRepeat c1 n), c1. split; [apply live_new|]. rewrite !app_length in *. cbn. repeat split; auto; lia.
Qed.

Lemma temporary_unusable : forall p e s s1 (x : qstmt A), sound s -> p = q_vars s -> has_temporary e -> x = QAuto e \/ x = QRef e ->
  qrun1 x s = Def (Some s1) -> unusable s1 (length p).
Proof.
  intros p e s s1 x [O V] -> T X H. destruct X as [->| ->]; cbn [qrun1] in H;
    destruct (qeval e _ _) as [[[c cells]|]| |] eqn:E; cbn in H; try discriminate;
    destruct (operand_dead _ _ _ _ _ O V T E) as (d & r & L & I & R1 & R2 & LC);
    destruct (qeval_makes _ _ _ _ _ O V E) as ([m ->] & _); rewrite qend_app in H.
  - rewrite (proj1 (alive_live _ _ _) L) in H. cbn in H. injection H as <-. eexists. cbn [q_vars q_cells]. split.
    + rewrite nth_error_app2, Nat.sub_diag by lia. reflexivity.
    + right. exists d, r. cbn [v_cell]. split; [|split; auto].
      * replace (length (q_cells s ++ m)) with (length (q_cells s ++ repeat (@None (node A)) (length m))) by (rewrite !app_length, repeat_length; reflexivity).
        apply live_new.
      * apply dead_app. apply dead_none; auto. rewrite app_length, repeat_length. rewrite app_length in LC. lia.
  - assert (H' : Def (Some (mkQ (upd (q_cells s ++ repeat None (length m)) c (Some d)) (q_vars s ++ [mkVar c true]) (q_seen s))) = Def (Some s1)).
    { destruct e; cbn in T; try tauto; rewrite (proj1 (alive_live _ _ _) L) in H; exact H. }
    clear H. injection H' as <-. eexists. cbn [q_vars q_cells]. split.
    + rewrite nth_error_app2, Nat.sub_diag by lia. reflexivity.
    + rewrite app_length in LC. right. exists d, r. cbn [v_cell]. split; [|split; auto].
      * unfold live. rewrite nth_error_upd_same; auto. rewrite app_length, repeat_length. lia.
      * unfold dead. rewrite nth_error_upd_other by lia. apply dead_none; auto. rewrite app_length, repeat_length. lia.
Qed.

Theorem temporary_operand : forall prog e s (x : qstmt A) l s', qrun prog qstart = Def (Some s) ->
  has_temporary e -> x = QAuto e \/ x = QRef e -> qrun (x :: l) s = Def (Some s') ->
  qrun1 (QVerify [QVar (length (q_vars s))]) s' = UB.
Proof.
  intros prog e s x l s' P T X H. pose proof (qrun_sound _ _ _ sound_start P) as S. cbn in H.
  destruct (qrun1 x s) as [[s1|]| |] eqn:E; cbn in H; try discriminate.
  pose proof (qrun1_sound _ _ _ S E) as S1.
  apply unusable_verify; [eapply qrun_sound; eauto|]. eapply unusable_later; [eapply qrun_later; eauto|].
  eapply (temporary_unusable (q_vars s) e s s1 x); auto.
Qed.

Theorem reference_to_method : forall prog a s l s', qrun prog qstart = Def (Some s) ->
  qrun (QRef (QMethod a) :: l) s = Def (Some s') ->
  qrun1 (QVerify [QVar (length (q_vars s))]) s' = UB.
Proof.
  intros prog a s l s' P H. pose proof (qrun_sound _ _ _ sound_start P) as S. cbn [qrun] in H.
  destruct (qrun1 (QRef (QMethod a)) s) as [[s1|]| |] eqn:E; cbn [obind] in H; try discriminate.
  pose proof (qrun1_sound _ _ _ S E) as S1.
  apply unusable_verify; [eapply qrun_sound; eauto|]. eapply unusable_later; [eapply qrun_later; eauto|].
  cbn [qrun1 qeval obind] in E. rewrite qend_app in E. injection E as <-. eexists. cbn [q_vars q_cells]. split.
  - rewrite nth_error_app2, Nat.sub_diag by lia. reflexivity.
  - left. cbn [v_cell]. apply (dead_none _ 1); auto. rewrite app_length. cbn. lia.
Qed.

(** *** An operand whose scope ends first *)

Lemma qrun_app : forall l l' s, qrun (l ++ l') s = (let! r := qrun l s in match r with None => Def None | Some s' => qrun l' s' end).
Proof.
  induction l as [|x l IH]; intros l' s; cbn; auto. destruct (qrun1 x s) as [[s1|]| |]; cbn; auto.
Qed.

Lemma end_kills : forall s s' x v, nth_error (q_vars s) x = Some v -> v_owns v = true -> v_cell v < length (q_cells s) ->
  qrun1 (QEnd x) s = Def (Some s') -> dead (q_cells s') (v_cell v).
Proof.
  intros s s' x v N W L H. cbn in H. rewrite N in H. cbn in H. rewrite W in H. injection H as <-. cbn.
  unfold dead. now apply nth_error_upd_same.
Qed.

Lemma operand_kept : forall e x v vars cells c cells', older cells -> Forall (fun v => v_cell v < length cells) vars ->
  has_operand e x -> nth_error vars x = Some v -> qeval e vars cells = Def (Some (c, cells')) ->
  exists d, live cells' c d /\ In (v_cell v) (refs d) /\ S c = length cells'.
Proof.
  intros e x v vars cells c cells' O V T N H. destruct e as [y|a|e1 e2|e1 n]; cbn in T; try tauto; cbn [qeval] in H.
  - destruct (qeval e1 vars cells) as [[[c1 cells1]|]| |] eqn:E1; cbn in H; try discriminate.
    destruct (qeval e2 vars cells1) as [[[c2 cells2]|]| |] eqn:E2; cbn in H; try discriminate. injection H as <- <-.
    eexists. split; [apply live_new|]. rewrite app_length. cbn. split; [|lia].
    destruct T as [->| ->]; [cbn in E1; rewrite N in E1; injection E1 as <- _|cbn in E2; rewrite N in E2; injection E2 as <- _]; auto.
  - subst e1. cbn in H. rewrite N in H. cbn in H. destruct (n <=? 0)%Z; try discriminate. injection H as <- <-.
    eexists. split; [apply live_new|]. rewrite app_length. cbn. split; [auto|lia].
Qed.

Theorem scope_ended : forall prog e s x v (d : qstmt A) l s', qrun prog qstart = Def (Some s) ->
  has_operand e x -> nth_error (q_vars s) x = Some v -> v_owns v = true ->
  d = QAuto e \/ d = QRef e -> In (QEnd x) l -> qrun (d :: l) s = Def (Some s') ->
  qrun1 (QVerify [QVar (length (q_vars s))]) s' = UB.
Proof.
  intros prog e s x v dd l s' P T N W D I H. pose proof (qrun_sound _ _ _ sound_start P) as S. pose proof S as [O V].
  cbn [qrun] in H. destruct (qrun1 dd s) as [[s1|]| |] eqn:E; cbn [obind] in H; try discriminate.
  pose proof (qrun1_sound _ _ _ S E) as S1.
  assert (X : exists v' d', nth_error (q_vars s1) (length (q_vars s)) = Some v' /\ live (q_cells s1) (v_cell v') d' /\ In (v_cell v) (refs d')).
  { destruct D as [->| ->]; cbn [qrun1] in E;
      destruct (qeval e _ _) as [[[c cells]|]| |] eqn:Q; cbn in E; try discriminate;
      destruct (operand_kept _ _ _ _ _ _ _ O V T N Q) as (d & L & R & LC);
      destruct (qeval_makes _ _ _ _ _ O V Q) as ([m ->] & _ & LL & _); rewrite qend_app in E.
    - rewrite (proj1 (alive_live _ _ _) L) in E. cbn in E. injection E as <-. eexists; exists d. cbn [q_vars q_cells]. split.
      + rewrite nth_error_app2, Nat.sub_diag by lia. reflexivity.
      + cbn [v_cell]. split; auto.
        replace (length (q_cells s ++ m)) with (length (q_cells s ++ repeat (@None (node A)) (length m))) by (rewrite !app_length, repeat_length; reflexivity).
        apply live_new.
    - assert (E' : Def (Some (mkQ (upd (q_cells s ++ repeat None (length m)) c (Some d)) (q_vars s ++ [mkVar c true]) (q_seen s))) = Def (Some s1)).
      { destruct e; cbn in T; try tauto; rewrite (proj1 (alive_live _ _ _) L) in E; exact E. }
      clear E. injection E' as <-. eexists; exists d. cbn [q_vars q_cells]. split.
      + rewrite nth_error_app2, Nat.sub_diag by lia. reflexivity.
      + cbn [v_cell]. split; auto. unfold live. rewrite nth_error_upd_same; auto.
        rewrite app_length, repeat_length. rewrite app_length in LL. lia. }
  destruct X as (v' & d' & N' & L' & R'). apply in_split in I. destruct I as (l1 & l2 & ->).
  rewrite qrun_app in H. destruct (qrun l1 s1) as [[s2|]| |] eqn:E2; cbn [obind] in H; try discriminate.
  cbn [qrun] in H. destruct (qrun1 (QEnd x) s2) as [[s3|]| |] eqn:E3; cbn [obind] in H; try discriminate.
  pose proof (qrun_sound _ _ _ S1 E2) as S2. pose proof (qrun1_sound _ _ _ S2 E3) as S3.
  pose proof (later_trans _ _ _ (qrun1_later _ _ _ S E) (qrun_later _ _ _ S1 E2)) as T2.
  pose proof (qrun_later _ _ _ S1 E2) as T12. pose proof (qrun1_later _ _ _ S2 E3) as T23.
  apply unusable_verify; [eapply qrun_sound; eauto|].
  eapply unusable_later; [eapply qrun_later; [exact S3|exact H]|].
  destruct T2 as (_ & _ & more & V2).
  assert (N2 : nth_error (q_vars s2) x = Some v)
    by (rewrite V2, nth_error_app1; auto; apply nth_error_Some; congruence).
  assert (K : dead (q_cells s3) (v_cell v)).
  { eapply end_kills; eauto. destruct S2 as [_ F]. rewrite Forall_forall in F. apply F. eapply nth_error_In; eauto. }
  destruct (later_trans _ _ _ T12 T23) as (_ & L13 & more' & V13). exists v'. split.
  - rewrite V13, nth_error_app1; auto. apply nth_error_Some. congruence.
  - destruct (L13 _ _ L') as [Z|Z]; auto. right. exists d', (v_cell v). auto.
Qed.

(** *** Sequences of variables *)

(** The state [s] keeps what the variables stand for. *)
Record keeps (s : qstate A) (vs : list (option (list A))) : Prop := mkKeeps {
  kp_sound : sound s;
  kp_length : length (q_vars s) = length vs;
  kp_refs : forall c d r, live (q_cells s) c d -> In r (refs d) -> exists d', live (q_cells s) r d';
  kp_reads : forall x v l, nth_error (q_vars s) x = Some v -> nth_error vs x = Some (Some l) -> reads (q_cells s) (v_cell v) l;
  kp_owned : forall c d, live (q_cells s) c d ->
    exists x v l, nth_error (q_vars s) x = Some v /\ v_owns v = true /\ v_cell v = c /\ nth_error vs x = Some (Some l);
  kp_order : forall x y v w, x < y -> nth_error (q_vars s) x = Some v -> nth_error (q_vars s) y = Some w ->
    v_owns w = true -> v_cell v < v_cell w }.

Lemma qeval_stands : forall e vs vars cells0 more l, older (cells0 ++ more) -> Forall (fun v => v_cell v < length cells0) vars ->
  length vars = length vs ->
  (forall x v l, nth_error vars x = Some v -> nth_error vs x = Some (Some l) -> reads cells0 (v_cell v) l) ->
  stands_for vs e l ->
  exists c more', qeval e vars (cells0 ++ more) = Def (Some (c, cells0 ++ more ++ more')) /\
    older (cells0 ++ more ++ more') /\ reads (cells0 ++ more ++ more') c l.
Proof.
  intros e vs vars cells0 more l O V LE R H. revert more O. induction H as [x l N|a|e1 e2 l1 l2 H1 IH1 H2 IH2|e n l P H IH]; intros more O; cbn [qeval].
  - destruct (nth_error vars x) as [v|] eqn:E.
    + cbn. exists (v_cell v), []. rewrite app_nil_r. split; auto. split; auto. apply reads_app. eapply R; eauto.
    + apply nth_error_None in E. assert (x < length vs) by (apply nth_error_Some; congruence). lia.
  - exists (length (cells0 ++ more)), [Some (NMethod a)]. rewrite app_assoc. split; auto. split.
    + apply older_new; auto. intros ? [].
    + apply RdMethod. apply live_new.
  - destruct (IH1 more O) as (c1 & m1 & E1 & O1 & R1). rewrite E1. cbn [obind].
    destruct (IH2 (more ++ m1) O1) as (c2 & m2 & E2 & O2 & R2). rewrite E2. cbn [obind].
    exists (length (cells0 ++ (more ++ m1) ++ m2)), (m1 ++ m2 ++ [Some (NConcat c1 c2)]).
    assert (Z : cells0 ++ more ++ m1 ++ m2 ++ [Some (NConcat c1 c2)] = (cells0 ++ (more ++ m1) ++ m2) ++ [Some (NConcat c1 c2)])
      by now rewrite <- !app_assoc.
    rewrite Z. split; auto.
    assert (R1' : reads (cells0 ++ (more ++ m1) ++ m2) c1 l1).
    { replace (cells0 ++ (more ++ m1) ++ m2) with ((cells0 ++ more ++ m1) ++ m2) by now rewrite <- !app_assoc. now apply reads_app. }
    split.
    + apply older_new; auto. intros r [<-|[<-|[]]]; [destruct (reads_live _ _ _ R1') as [d D]|destruct (reads_live _ _ _ R2) as [d D]]; eapply live_length; eauto.
    + eapply RdConcat; [apply live_new| |]; now apply reads_app.
  - destruct (IH more O) as (c1 & m1 & E1 & O1 & R1). rewrite E1. cbn [obind].
    destruct (Z.leb_spec n 0); [lia|].
    exists (length (cells0 ++ more ++ m1)), (m1 ++ [Some (NRepeat c1 n)]).
    assert (Z : cells0 ++ more ++ m1 ++ [Some (NRepeat c1 n)] = (cells0 ++ more ++ m1) ++ [Some (NRepeat c1 n)])
      by now rewrite <- !app_assoc.
    rewrite Z. split; auto. split.
    + apply older_new; auto. intros r [<-|[]]. destruct (reads_live _ _ _ R1) as [d D]. eapply live_length; eauto.
    + eapply RdRepeat; [apply live_new|]. now apply reads_app.
Qed.

Lemma qeval_all_stands : forall es vs vars cells0 more ls, older (cells0 ++ more) -> Forall (fun v => v_cell v < length cells0) vars ->
  length vars = length vs ->
  (forall x v l, nth_error vars x = Some v -> nth_error vs x = Some (Some l) -> reads cells0 (v_cell v) l) ->
  Forall2 (stands_for vs) es ls ->
  exists cs more', qeval_all es vars (cells0 ++ more) = Def (Some (cs, cells0 ++ more ++ more')) /\
    older (cells0 ++ more ++ more') /\ Forall2 (reads (cells0 ++ more ++ more')) cs ls.
Proof.
  induction es as [|e es IH]; intros vs vars cells0 more ls O V LE R H; inversion H as [|? l ? ls' He Hes]; subst; cbn [qeval_all].
  - exists [], []. rewrite app_nil_r. auto.
  - destruct (qeval_stands _ _ _ _ _ _ O V LE R He) as (c & m1 & E1 & O1 & R1). rewrite E1. cbn [obind].
    destruct (IH _ _ _ _ _ O1 V LE R Hes) as (cs & m2 & E2 & O2 & R2). rewrite E2. cbn [obind].
    exists (c :: cs), (m1 ++ m2). rewrite <- !app_assoc in *. split; auto. split; auto. constructor; auto.
    replace (cells0 ++ more ++ m1 ++ m2) with ((cells0 ++ more ++ m1) ++ m2) by now rewrite <- !app_assoc.
    now apply reads_app.
Qed.

Lemma qread_each_reads : forall cells cs ls, older cells -> Forall2 (reads cells) cs ls -> qread_each cells cs = Def ls.
Proof.
  intros cells cs ls O H. induction H as [|c l cs ls R H IH]; cbn [qread_each]; auto. rewrite (reads_all _ _ _ O R). cbn [obind]. now rewrite IH.
Qed.

Lemma live_none_inv : forall cells k c d, live (cells ++ repeat None k) c d -> live cells c d.
Proof.
  intros cells k c d H. apply live_app_inv in H. destruct H as [H|[L N]]; auto.
  apply nth_error_In in N. apply repeat_spec in N. discriminate.
Qed.

(** Dead cells at the end change nothing. *)
Lemma keeps_none : forall s vs k seen, keeps s vs -> keeps (mkQ (q_cells s ++ repeat None k) (q_vars s) seen) vs.
Proof.
  intros s vs k seen K. destruct K as [[O V] LE RF RD OW OR]. split; cbn [q_cells q_vars]; auto.
  - split; cbn; [now apply older_none|]. eapply Forall_cells_le; [|exact V]. rewrite app_length. lia.
  - intros c d r L I. apply live_none_inv in L. destruct (RF _ _ _ L I) as [d' D]. eauto using live_app.
  - intros. apply reads_app. eauto.
  - intros c d L. apply live_none_inv in L. eauto.
Qed.

Lemma nth_error_snoc : forall T (l : list T) a x y, nth_error (l ++ [a]) x = Some y ->
  x < length l /\ nth_error l x = Some y \/ x = length l /\ y = a.
Proof.
  intros T l a x y H. destruct (Nat.lt_ge_cases x (length l)) as [L|L].
  - rewrite nth_error_app1 in H; auto.
  - rewrite nth_error_app2 in H; auto. destruct (x - length l) as [|k] eqn:E; cbn in H; [|now destruct k].
    injection H as <-. right. split; [lia|auto].
Qed.

(** A new object at the end that a new variable owns. *)
Lemma keeps_new : forall s vs d l seen, keeps s vs ->
  (forall r, In r (refs d) -> exists d', live (q_cells s) r d') ->
  reads (q_cells s ++ [Some d]) (length (q_cells s)) l ->
  keeps (mkQ (q_cells s ++ [Some d]) (q_vars s ++ [mkVar (length (q_cells s)) true]) seen) (vs ++ [Some l]).
Proof.
  intros s vs d l seen K RD' R. destruct K as [[O V] LE RF RD OW OR]. split; cbn [q_cells q_vars].
  - split; cbn.
    + apply older_new; auto. intros r I. destruct (RD' _ I) as [d' D]. eapply live_length; eauto.
    + apply Forall_app. rewrite app_length. split; [eapply Forall_cells_le; [|exact V]; lia|]. repeat constructor. cbn. lia.
  - rewrite !app_length. cbn. lia.
  - intros c d0 r L I. apply live_app_inv in L. destruct L as [L|[L N]].
    + destruct (RF _ _ _ L I) as [d' D]. eauto using live_app.
    + destruct (c - length (q_cells s)) as [|k]; cbn in N; [|now destruct k]. injection N as <-.
      destruct (RD' _ I) as [d' D]. eauto using live_app.
  - intros x v l0 N E. apply nth_error_snoc in N. apply nth_error_snoc in E.
    destruct N as [[N1 N2]|[N1 ->]], E as [[E1 E2]|[E1 E2]]; try lia.
    + apply reads_app. eauto.
    + injection E2 as ->. exact R.
  - intros c d0 L. apply live_app_inv in L. destruct L as [L|[L N]].
    + destruct (OW _ _ L) as (x & v & l0 & N & W & C & E). exists x, v, l0.
      rewrite !nth_error_app1; auto; apply nth_error_Some; congruence.
    + destruct (c - length (q_cells s)) as [|k] eqn:Ec; cbn in N; [|now destruct k].
      exists (length (q_vars s)), (mkVar (length (q_cells s)) true), l. cbn.
      rewrite nth_error_app2, Nat.sub_diag by lia. rewrite LE. rewrite nth_error_app2, Nat.sub_diag by lia. repeat split. lia.
  - intros x y v w X N1 N2 W. apply nth_error_snoc in N1. apply nth_error_snoc in N2.
    destruct N1 as [[A1 A2]|[A1 ->]], N2 as [[B1 B2]|[B1 ->]]; try lia; cbn; eauto.
    rewrite Forall_forall in V. apply V. eapply nth_error_In; eauto.
Qed.

Lemma of_variables_node : forall s vs e l, keeps s vs -> of_variables e -> stands_for vs e l ->
  exists c more d, qeval e (q_vars s) (q_cells s) = Def (Some (c, q_cells s ++ more)) /\
    live (q_cells s ++ more) c d /\
    (forall r, In r (refs d) -> exists d', live (q_cells s) r d') /\
    (forall k, reads ((q_cells s ++ repeat None k) ++ [Some d]) (length (q_cells s) + k) l) /\
    match e with
    | QVar _ => more = [] /\ reads (q_cells s) c l
    | QMethod _ => True
    | _ => c = length (q_cells s) /\ more = [Some d]
    end.
Proof.
  intros s vs e l [[O V] LE RF RD OW OR] F H.
  assert (VX : forall x l0, nth_error vs x = Some (Some l0) -> exists v, nth_error (q_vars s) x = Some v /\ reads (q_cells s) (v_cell v) l0).
  { intros x l0 N. destruct (nth_error (q_vars s) x) as [v|] eqn:E; eauto.
    apply nth_error_None in E. assert (x < length vs) by (apply nth_error_Some; congruence). lia. }
  assert (LN : forall k d, live ((q_cells s ++ repeat None k) ++ [Some d]) (length (q_cells s) + k) d).
  { intros k d. replace (length (q_cells s) + k) with (length (q_cells s ++ repeat (@None (node A)) k)) by now rewrite app_length, repeat_length.
    apply live_new. }
  destruct e as [x|a|e1 e2|e1 n]; cbn in F.
  - inversion H as [? ? N| | |]; subst. destruct (VX _ _ N) as (v & Nv & R). destruct (reads_live _ _ _ R) as [d D].
    exists (v_cell v), [], d. cbn. rewrite Nv, app_nil_r. cbn. split; auto. split; auto. split; [intros; eapply RF; eauto|]. split; auto.
    intro k. specialize (LN k d). inversion R as [? a0 L|? c1 c2 l1 l2 L R1 R2|? c1 n l1 L R1]; subst; unfold live in D, L; rewrite D in L; injection L as ->.
    + now apply RdMethod.
    + eapply RdConcat; [exact LN| |]; do 2 apply reads_app; auto.
    + eapply RdRepeat; [exact LN|]; do 2 apply reads_app; auto.
  - inversion H; subst. exists (length (q_cells s)), [Some (NMethod a)], (NMethod a). cbn. split; auto.
    split; [apply live_new|]. split; [intros ? []|]. split; auto. intro k. apply RdMethod. apply LN.
  - destruct e1 as [x| | |]; try tauto. destruct e2 as [y| | |]; try tauto.
    inversion H as [| |? ? l1 l2 H1 H2|]; subst. inversion H1 as [? ? N1| | |]; subst. inversion H2 as [? ? N2| | |]; subst.
    destruct (VX _ _ N1) as (v1 & Nv1 & R1). destruct (VX _ _ N2) as (v2 & Nv2 & R2).
    exists (length (q_cells s)), [Some (NConcat (v_cell v1) (v_cell v2))], (NConcat (v_cell v1) (v_cell v2)). cbn.
    rewrite Nv1. cbn. rewrite Nv2. cbn. split; auto. split; [apply live_new|]. split.
    + intros r [<-|[<-|[]]]; eapply reads_live; eauto.
    + split; auto. intro k. eapply RdConcat; [apply LN| |]; do 2 apply reads_app; auto.
  - destruct e1 as [x| | |]; try tauto. inversion H as [| | |? ? l1 Pn H1]; subst. inversion H1 as [? ? N1| | |]; subst.
    destruct (VX _ _ N1) as (v1 & Nv1 & R1).
    exists (length (q_cells s)), [Some (NRepeat (v_cell v1) n)], (NRepeat (v_cell v1) n). cbn.
    rewrite Nv1. cbn. destruct (Z.leb_spec n 0); [lia|]. split; auto. split; [apply live_new|]. split.
    + intros r [<-|[]]; eapply reads_live; eauto.
    + split; auto. intro k. eapply RdRepeat; [apply LN|]; do 2 apply reads_app; auto.
Qed.

Lemma auto_keeps : forall s vs e l, keeps s vs -> of_variables e -> stands_for vs e l ->
  exists s', qrun1 (QAuto e) s = Def (Some s') /\ keeps s' (vs ++ [Some l]) /\ q_seen s' = q_seen s.
Proof.
  intros s vs e l K F H. destruct (of_variables_node _ _ _ _ K F H) as (c & more & d & E & L & RF & R & _).
  cbn [qrun1]. rewrite E. cbn [obind]. rewrite (proj1 (alive_live _ _ _) L). cbn [obind]. eexists. split; [reflexivity|].
  split; [|reflexivity]. rewrite qend_app.
  pose proof (keeps_none s vs (length more) (q_seen s) K) as K'.
  pose proof (keeps_new _ _ d l (q_seen s) K') as KN. cbn [q_cells q_vars] in KN.
  replace (length (q_cells s ++ more)) with (length (q_cells s ++ repeat (@None (node A)) (length more))) by (rewrite !app_length, repeat_length; reflexivity).
  apply KN.
  - intros r I. destruct (RF r I) as [d' D]. eauto using live_app.
  - rewrite app_length, repeat_length. apply R.
Qed.

Lemma ref_keeps : forall s vs e l, keeps s vs -> of_variables e -> ~ is_method e -> stands_for vs e l ->
  exists s', qrun1 (QRef e) s = Def (Some s') /\ keeps s' (vs ++ [Some l]) /\ q_seen s' = q_seen s.
Proof.
  intros s vs e l K F NM H. destruct (of_variables_node _ _ _ _ K F H) as (c & more & d & E & L & RF & R & C).
  cbn [qrun1]. rewrite E. cbn [obind].
  assert (FRESH : c = length (q_cells s) -> more = [Some d] ->
    keeps (mkQ (upd (qend (length (q_cells s)) (q_cells s ++ more)) c (Some d)) (q_vars s ++ [mkVar c true]) (q_seen s)) (vs ++ [Some l])).
  { intros -> ->. rewrite qend_app, upd_app_r, Nat.sub_diag by lia. cbn [length repeat upd].
    apply keeps_new; auto. specialize (R 0). cbn in R. now rewrite app_nil_r, Nat.add_0_r in R. }
  destruct e as [x|a|e1 e2|e1 n]; cbn in F.
  - destruct C as [-> C]. rewrite qend_app. cbn [length repeat]. rewrite app_nil_r. eexists. split; [reflexivity|]. split; [|reflexivity].
    destruct K as [[O V] LE RF' RD OW OR]. split; cbn [q_cells q_vars]; auto.
    + split; auto. cbn. apply Forall_app. split; auto. repeat constructor. cbn. destruct (reads_live _ _ _ C) as [d' D]. eapply live_length; eauto.
    + rewrite !app_length. cbn. lia.
    + intros y v l0 N N'. apply nth_error_snoc in N. apply nth_error_snoc in N'.
      destruct N as [[N1 N2]|[N1 ->]], N' as [[E1 E2]|[E1 E2]]; try lia; eauto. injection E2 as ->. exact C.
    + intros c0 d0 L0. destruct (OW _ _ L0) as (y & v & l0 & N & W & Cv & Ev). exists y, v, l0.
      rewrite !nth_error_app1; auto; apply nth_error_Some; congruence.
    + intros y z v w X N1 N2 W. apply nth_error_snoc in N1. apply nth_error_snoc in N2.
      destruct N1 as [[A1 A2]|[A1 ->]], N2 as [[B1 B2]|[B1 ->]]; try lia; cbn in *; eauto. discriminate.
  - elim NM. now exists a.
  - destruct C as [C1 C2]. rewrite (proj1 (alive_live _ _ _) L). cbn [obind]. eexists. split; [reflexivity|]. split; [|reflexivity]. auto.
  - destruct C as [C1 C2]. rewrite (proj1 (alive_live _ _ _) L). cbn [obind]. eexists. split; [reflexivity|]. split; [|reflexivity]. auto.
Qed.

Lemma end_keeps : forall s vs x, keeps s vs -> innermost vs x ->
  exists s', qrun1 (QEnd x) s = Def (Some s') /\ keeps s' (upd vs x None) /\ q_seen s' = q_seen s.
Proof.
  intros s vs x K [[l X] LAST]. pose proof K as [[O V] LE RF RD OW OR]. cbn [qrun1].
  assert (LX : x < length vs) by (apply nth_error_Some; congruence).
  destruct (nth_error (q_vars s) x) as [v|] eqn:E; [|apply nth_error_None in E; lia]. cbn [of_option obind].
  eexists. split; [reflexivity|]. split; [|reflexivity].
  assert (IVS : forall y l0, nth_error (upd vs x None) y = Some (Some l0) -> y < x /\ nth_error vs y = Some (Some l0)).
  { intros y l0 N. rewrite nth_error_upd in N. destruct (Nat.eqb_spec x y) as [->|NE]; [destruct (Nat.ltb _ _); discriminate|].
    split; auto. destruct (Nat.lt_ge_cases y x); auto. elim (LAST y l0); auto. lia. }
  destruct (v_owns v) eqn:W.
  - (* the newest object dies; no other one refers to it *)
    assert (TOP : forall c d, live (q_cells s) c d -> c <= v_cell v).
    { intros c d L. destruct (OW _ _ L) as (y & w & l0 & N & Wy & Cy & Ey).
      destruct (Nat.lt_trichotomy y x) as [Y|[->|Y]].
      - pose proof (OR _ _ _ _ Y N E W). lia.
      - assert (w = v) by congruence. subst w. lia.
      - now elim (LAST y l0). }
    assert (LB : forall c d, live (upd (q_cells s) (v_cell v) None) c d -> live (q_cells s) c d /\ c < v_cell v).
    { intros c d L. unfold live in L. rewrite nth_error_upd in L.
      destruct (Nat.eqb_spec (v_cell v) c) as [->|NE]; [destruct (Nat.ltb _ _); discriminate|]. split; auto. pose proof (TOP _ _ L). lia. }
    assert (LF : forall c d, live (q_cells s) c d -> c < v_cell v -> live (upd (q_cells s) (v_cell v) None) c d).
    { intros c d L C. unfold live. rewrite nth_error_upd_other by lia. exact L. }
    split; cbn [q_cells q_vars].
    + split; cbn; [now apply older_upd_none|]. now rewrite upd_length.
    + now rewrite upd_length.
    + intros c d r L I. apply LB in L. destruct L as [L C]. destruct (RF _ _ _ L I) as [d' D].
      exists d'. apply LF; auto. pose proof (O _ _ _ L I). lia.
    + intros y w l0 N N'. apply IVS in N'. destruct N' as [Y N']. pose proof (OR _ _ _ _ Y N E W).
      eapply reads_upto; [exact O|eapply RD; eauto|]. intros i I. rewrite nth_error_upd_other by lia. reflexivity.
    + intros c d L. apply LB in L. destruct L as [L C]. destruct (OW _ _ L) as (y & w & l0 & N & Wy & Cy & Ey).
      exists y, w, l0. repeat split; auto. rewrite nth_error_upd_other; auto. intros <-. assert (w = v) by congruence. subst w. lia.
    + auto.
  - (* a reference ends *)
    split; cbn [q_cells q_vars]; auto.
    + split; auto.
    + now rewrite upd_length.
    + intros y w l0 N N'. apply IVS in N'. destruct N' as [Y N']. eauto.
    + intros c d L. destruct (OW _ _ L) as (y & w & l0 & N & Wy & Cy & Ey). exists y, w, l0. repeat split; auto.
      rewrite nth_error_upd_other; auto. intros <-. assert (w = v) by congruence. congruence.
Qed.

Lemma verify_keeps : forall s vs es ls, keeps s vs -> Forall2 (stands_for vs) es ls ->
  exists s', qrun1 (QVerify es) s = Def (Some s') /\ keeps s' vs /\ q_seen s' = q_seen s ++ [ls].
Proof.
  intros s vs es ls K H. pose proof K as [[O V] LE RF RD OW OR]. cbn [qrun1].
  destruct (qeval_all_stands es vs (q_vars s) (q_cells s) [] ls) as (cs & m & E & O' & R); auto; [now rewrite app_nil_r|].
  rewrite app_nil_r in E. cbn [app] in *. rewrite E. cbn [obind]. rewrite (qread_each_reads _ _ _ O' R). cbn [obind].
  eexists. split; [reflexivity|]. split; [|reflexivity]. rewrite qend_app. now apply keeps_none.
Qed.

Lemma shows_run : forall vs seen prog seen', shows vs seen prog seen' -> forall s, keeps s vs -> q_seen s = seen ->
  exists s', qrun prog s = Def (Some s') /\ q_seen s' = seen'.
Proof.
  induction 1 as [vs seen|vs seen e l prog seen' F H SH IH|vs seen e l prog seen' F NM H SH IH|vs seen x prog seen' I SH IH|vs seen es ls prog seen' H SH IH];
    intros s K Q; cbn [qrun].
  - eauto.
  - destruct (auto_keeps _ _ _ _ K F H) as (s1 & E & K1 & Q1). rewrite E. cbn [obind]. apply IH; congruence.
  - destruct (ref_keeps _ _ _ _ K F NM H) as (s1 & E & K1 & Q1). rewrite E. cbn [obind]. apply IH; congruence.
  - destruct (end_keeps _ _ _ K I) as (s1 & E & K1 & Q1). rewrite E. cbn [obind]. apply IH; congruence.
  - destruct (verify_keeps _ _ _ _ K H) as (s1 & E & K1 & Q1). rewrite E. cbn [obind]. apply IH; congruence.
Qed.

Lemma keeps_start : keeps qstart [].
Proof.
  split; cbn; auto using sound_start; try (intros c d r L; destruct c; discriminate); try (intros c d L; destruct c; discriminate).
Qed.

Theorem sequences_of_variables : forall prog seen, shows [] [] prog seen ->
  exists s, qrun prog qstart = Def (Some s) /\ q_seen s = seen.
Proof. intros prog seen H. eapply shows_run; eauto using keeps_start. Qed.

(** *** Factors *)

Lemma qeval_factor : forall e vars cells,
  (forall x, nth_error vars x = None -> ~ uses_variable e x) ->
  (exists r, qeval e vars cells = Def r) /\ (bad_factor e -> qeval e vars cells = Def None).
Proof.
  induction e as [x|a|e1 IH1 e2 IH2|e1 IH1 n]; intros vars cells U; cbn [qeval bad_factor uses_variable] in *.
  - destruct (nth_error vars x) as [v|] eqn:E; cbn; [split; eauto; tauto|]. elim (U x); auto.
  - split; eauto. tauto.
  - destruct (IH1 vars cells ltac:(intros x N X; eapply U; eauto)) as [[r1 E1] B1]. rewrite E1. cbn [obind].
    destruct r1 as [[c1 cells1]|].
    + destruct (IH2 vars cells1 ltac:(intros x N X; eapply U; eauto)) as [[r2 E2] B2]. rewrite E2. cbn [obind].
      destruct r2 as [[c2 cells2]|]; split; eauto. intros [B|B]; [apply B1 in B; congruence|apply B2 in B; congruence].
    + split; eauto.
  - destruct (IH1 vars cells ltac:(intros x N X; eapply U; eauto)) as [[r1 E1] B1]. rewrite E1. cbn [obind].
    destruct r1 as [[c1 cells1]|]; [|split; eauto].
    destruct (Z.leb_spec n 0); split; eauto. intros [B|B]; [apply B1 in B; congruence|lia].
Qed.

Theorem factor_refused : forall e s, (forall x, uses_variable e x -> x < length (q_vars s)) -> bad_factor e ->
  qrun1 (QAuto e) s = Def None /\ qrun1 (QRef e) s = Def None /\ qrun1 (QVerify [e]) s = Def None.
Proof.
  intros e s U B.
  destruct (qeval_factor e (q_vars s) (q_cells s)) as [_ H].
  { intros x N X. apply U in X. apply nth_error_None in N. lia. }
  cbn [qrun1 qeval_all]. rewrite (H B). auto.
Qed.

End Proofs.
