(** Proofs about objects with static storage duration. *)
From Coq Require Import Bool Arith Lia List.
From Verif Require Import Globals Spec_Globals.
Import ListNotations.
Open Scope nat_scope.

Lemma code_ind' : forall (P : code -> Prop),
  (forall c, P (LMake c)) -> (forall c, P (LUnexpected c)) -> (forall c, P (LUnmocked c)) ->
  (forall b, P (LVerify b)) -> (forall t, P (LDefault t)) -> (forall n c, P (LStatic n c)) ->
  (forall f i, P (LVar f i)) -> (forall g l, Forall P l -> P (LIn g l)) -> forall x, P x.
Proof.
  intros P H1 H2 H3 H4 H5 H6 H7 H8. fix IH 1.
  intros [c|c|c|b|t|n c|f i|g l]; [apply H1|apply H2|apply H3|apply H4|apply H5|apply H6|apply H7|].
  apply H8. induction l as [|y r IHr]; constructor; [apply IH|exact IHr].
Qed.

Lemma grun_in : forall p f g l s, grun p f (LIn g l) s = grun_all p g l s.
Proof.
  intros p f g l. cbn [grun]. induction l as [|y r IH]; intro s; [reflexivity|].
  cbn [grun_all]. destruct (grun p g y s); cbn [gbind]; auto.
Qed.

Lemma key_eqb_spec : forall a b, reflect (a = b) (key_eqb a b).
Proof.
  intros [| |t|n|f i] [| |u|m|g j]; cbn; try (constructor; congruence).
  - destruct (Nat.eqb_spec t u); constructor; congruence.
  - destruct (Nat.eqb_spec n m); constructor; congruence.
  - destruct (Nat.eqb_spec f g), (Nat.eqb_spec i j); constructor; congruence.
Qed.

Lemma has_spec : forall l k, reflect (In k l) (has l k).
Proof.
  intros l k. unfold has. destruct (existsb (key_eqb k) l) eqn:E; constructor.
  - apply existsb_exists in E. destruct E as (x & I & E). now destruct (key_eqb_spec k x) as [-> |].
  - intro I. assert (X : existsb (key_eqb k) l = true); [|congruence].
    apply existsb_exists. exists k. split; [exact I|]. now destruct (key_eqb_spec k k).
Qed.

Lemma ready_spec : forall l f, reflect (In f l) (existsb (Nat.eqb f) l).
Proof.
  intros l f. destruct (existsb (Nat.eqb f) l) eqn:E; constructor.
  - apply existsb_exists in E. destruct E as (x & I & E). apply Nat.eqb_eq in E. now subst.
  - intro I. assert (X : existsb (Nat.eqb f) l = true); [|congruence].
    apply existsb_exists. exists f. split; [exact I|apply Nat.eqb_refl].
Qed.

Lemma var_in_spec : forall p f i v, var_in p f i = Some v <-> variable p f i v.
Proof.
  intros p f i v. unfold var_in, variable. destruct (nth_error (p_files p) f) as [x|]; split.
  - intro E. exists x. auto.
  - intros (y & E & V). congruence.
  - discriminate.
  - intros (y & E & _). discriminate.
Qed.

Lemma mock_in_spec : forall p f i c, mock_in p f i = Some c -> is_mock p (KVar f i).
Proof.
  intros p f i c. unfold mock_in. destruct (var_in p f i) as [v|] eqn:E; [|discriminate].
  intro M. apply var_in_spec in E. exists v, c. auto.
Qed.

Section Prog.
Variable p : gprog.

(** *** What may be below an object in the stack *)

(** [need k k']: while k is alive, k' is. *)
Variable need : key -> key -> Prop.

Inductive piled : list key -> Prop :=
| piled_nil : piled []
| piled_cons : forall k r, (forall k', need k k' -> In k' r) -> ~ In k r -> piled r -> piled (k :: r).

Hypothesis need_inst : forall k, is_mock p k -> need k KInst.
Hypothesis need_local : forall n k, need (KLocal n) k -> k = KInst.
Hypothesis need_val : forall t k, ~ need (KDefault t) k.
Hypothesis need_unknown : forall k, ~ need KUnknown k.
Hypothesis need_kinst : forall k, ~ need KInst k.

Lemma piled_need : forall l k k', piled l -> In k l -> need k k' -> In k' l.
Proof.
  induction l as [|x l IH]; intros k k' H I N; [contradiction|].
  inversion H; subst. destruct I as [-> |I]; [right; auto|right; eapply IH; eauto].
Qed.

(** The state fits. *)
Record fit (s : gstate) : Prop := mkFit {
  ft_piled : piled (g_stack s);
  ft_apart : forall k, In k (g_stack s) -> ~ In k (g_dead s);
  ft_closing : forall k k', In k (g_closing s) -> need k k' -> In k' (g_stack s) }.

(** What running code leaves as it is. *)
Definition grows (s s' : gstate) : Prop :=
  g_ready s' = g_ready s /\ g_dead s' = g_dead s /\ g_closing s' = g_closing s /\
  incl (g_stack s) (g_stack s') /\
  (forall f i, In (KVar f i) (g_stack s') -> In (KVar f i) (g_stack s)).

Lemma grows_refl : forall s, grows s s.
Proof. intro s. unfold grows. repeat split; auto. apply incl_refl. Qed.

Lemma grows_trans : forall a b c, grows a b -> grows b c -> grows a c.
Proof.
  unfold grows. intros a b c (R & D & C & I & V) (R' & D' & C' & I' & V').
  split; [congruence|]. split; [congruence|]. split; [congruence|]. split; [eapply incl_tran; eauto|auto].
Qed.

Lemma push_fit : forall s k, fit s -> ~ In k (g_stack s) -> ~ In k (g_dead s) -> (forall k', need k k' -> In k' (g_stack s)) ->
  fit (mkG (g_ready s) (k :: g_stack s) (g_closing s) (g_dead s)).
Proof.
  intros s k F N D NE. constructor; cbn.
  - constructor; auto. apply F.
  - intros x [<-|I]; auto. now apply (ft_apart _ F).
  - intros x y I Ny. right. eapply (ft_closing _ F); eauto.
Qed.

Lemma push_grows : forall s k, (forall f i, k <> KVar f i) -> grows s (mkG (g_ready s) (k :: g_stack s) (g_closing s) (g_dead s)).
Proof.
  intros s k H. unfold grows. cbn. split; [reflexivity|]. split; [reflexivity|]. split; [reflexivity|].
  split; [apply incl_tl, incl_refl|]. intros f i [E|I]; [exfalso; exact (H f i E)|exact I].
Qed.

(** Code may run: what it reads is ready, it may report, the values it uses are alive or none is
    dead. *)
Definition may (s : gstate) (rd : list nat) (vs : list key) : Prop :=
  incl rd (g_ready s) /\ (rd <> [] -> In KInst (g_stack s)) /\
  (forall k, In k vs -> In k (g_stack s) \/ ~ In k (g_dead s)).

Lemma may_grows : forall s s' rd vs, may s rd vs -> grows s s' -> may s' rd vs.
Proof.
  intros s s' rd vs (A & B & C) (R & D & _ & I & _). unfold may. rewrite R, D. repeat split; auto.
  intros k K. destruct (C k K); auto.
Qed.

Definition good (s : gstate) (vs : list key) (o : gout) : Prop :=
  match o with
  | GOk s' => fit s' /\ grows s s' /\ incl vs (g_stack s')
  | GUB | GFuel => False
  | GOwn => True
  end.

Lemma pass_good : forall s k, fit s -> (In k (g_stack s) \/ ~ In k (g_dead s)) -> (forall k', ~ need k k') -> (forall f i, k <> KVar f i) ->
  good s [k] (pass_static k s).
Proof.
  intros s k F H N V. unfold pass_static.
  destruct (has_spec (g_dead s) k) as [D|D].
  - exfalso. destruct H as [H|H]; [exact (ft_apart _ F k H D)|exact (H D)].
  - destruct (has_spec (g_stack s) k) as [I|I]; cbn.
    + split; [exact F|]. split; [apply grows_refl|]. intros x [<-|[]]. exact I.
    + split; [apply push_fit; auto; intros k' K; exfalso; exact (N k' K)|]. split; [apply push_grows; exact V|].
      intros x [<-|[]]. now left.
Qed.

Lemma ready_ok : forall s f, In f (g_ready s) -> need_ready f s = GOk s.
Proof. intros s f I. unfold need_ready. now destruct (ready_spec (g_ready s) f). Qed.

Lemma report_ok : forall s, In KInst (g_stack s) -> report s = GOk s.
Proof. intros s I. unfold report. now destruct (has_spec (g_stack s) KInst). Qed.

Lemma good_here : forall s, fit s -> good s [] (GOk s).
Proof. intros s F. cbn. split; [exact F|]. split; [apply grows_refl|]. intros x []. Qed.

Lemma good_bind : forall s vs vs' o k, good s vs o ->
  (forall s', fit s' -> grows s s' -> incl vs (g_stack s') -> good s' vs' (k s')) ->
  good s (vs ++ vs') (gbind o k).
Proof.
  intros s vs vs' o k G K. destruct o as [s'| | |]; cbn in *; auto; try contradiction.
  destruct G as (F & W & I). specialize (K s' F W I). destruct (k s') as [s2| | |]; cbn in *; auto; try contradiction.
  destruct K as (F2 & W2 & I2). split; [exact F2|]. split; [eapply grows_trans; eauto|].
  apply incl_app; [|exact I2]. eapply incl_tran; [exact I|]. apply W2.
Qed.

Lemma run_good : forall x f s, fit s -> may s (reads p f x) (values p x) -> good s (values p x) (grun p f x s).
Proof.
  induction x as [c|c|c|b|t|n c|g i|g l IH] using code_ind'; intros f s F (RD & RP & VS).
  - cbn [grun values reads] in *. rewrite ready_ok by (apply RD; now left). apply good_here, F.
  - cbn [grun values reads] in *. rewrite ready_ok by (apply RD; now left). cbn [gbind].
    rewrite report_ok by (apply RP; discriminate). apply good_here, F.
  - cbn [grun values reads] in *. rewrite ready_ok by (apply RD; now left). cbn [gbind].
    change [KUnknown] with ([KUnknown] ++ []). apply good_bind.
    + apply pass_good; [exact F|apply VS; now left|exact need_unknown|discriminate].
    + intros s' F' W _. rewrite report_ok; [apply good_here, F'|]. apply W. apply RP. discriminate.
  - cbn [grun values reads] in *. rewrite ready_ok by (apply RD; now left). cbn [gbind].
    destruct b; [|apply good_here, F]. rewrite report_ok by (apply RP; discriminate). apply good_here, F.
  - cbn [grun values] in *. destruct (p_trivial p t); [apply good_here, F|].
    apply pass_good; [exact F|apply VS; now left|exact (need_val t)|discriminate].
  - cbn [grun values reads] in *.
    assert (KI : In KInst (g_stack s)) by (apply RP; discriminate).
    destruct (has_spec (g_dead s) (KLocal n)) as [D|D]; [exact Logic.I|].
    destruct (has_spec (g_stack s) (KLocal n)) as [I|I]; cbn [gbind].
    + rewrite report_ok by exact KI. apply good_here, F.
    + rewrite ready_ok by (apply RD; now left). cbn [gbind]. rewrite report_ok by (cbn; now right).
      cbn. split; [|split; [apply push_grows; discriminate|intros x []]].
      apply push_fit; auto. intros k' K. now rewrite (need_local n k' K).
  - cbn [grun values].
    destruct (has_spec (g_stack s) (KVar g i)) as [I|I]; cbn [orb].
    + destruct (mock_in p g i) as [c|] eqn:M; [|apply good_here, F].
      rewrite report_ok; [apply good_here, F|].
      eapply piled_need; [apply F|exact I|]. apply need_inst, (mock_in_spec p g i c M).
    + destruct (has_spec (g_closing s) (KVar g i)) as [C|C]; [|exact Logic.I].
      destruct (mock_in p g i) as [c|] eqn:M; [|apply good_here, F].
      rewrite report_ok; [apply good_here, F|].
      eapply (ft_closing _ F); [exact C|]. apply need_inst, (mock_in_spec p g i c M).
  - rewrite grun_in. cbn [values reads] in *.
    assert (MAY : may s (flat_map (reads p g) l) (flat_map (values p) l)) by (split; [exact RD|split; [exact RP|exact VS]]).
    clear RD RP VS. revert s F MAY. induction IH as [|y r Hy Hr IHr]; intros s F MAY; cbn [grun_all flat_map].
    + apply good_here, F.
    + apply good_bind.
      * apply Hy; [exact F|]. destruct MAY as (A & B & C). cbn [flat_map] in *. split; [|split].
        -- intros z Z. apply A, in_or_app. now left.
        -- intro NE. apply B. destruct (reads p g y); [congruence|discriminate].
        -- intros k K. apply C, in_or_app. now left.
      * intros s' F' W _. apply IHr; [exact F'|]. apply (may_grows s s'); [|exact W].
        destruct MAY as (A & B & C). cbn [flat_map] in *. split; [|split].
        -- intros z Z. apply A, in_or_app. now right.
        -- intro NE. apply B. destruct (reads p g y); [exact NE|discriminate].
        -- intros k K. apply C, in_or_app. now right.
Qed.

Lemma run_all_good : forall l f s, fit s -> may s (all_reads p f l) (all_values p l) -> good s (all_values p l) (grun_all p f l s).
Proof.
  intros l f s F M. rewrite <- (grun_in p 0). 
  change (all_values p l) with (values p (LIn f l)). apply run_good; [exact F|exact M].
Qed.

End Prog.


(** *** What the objects of an orderly program need *)

Definition needs (p : gprog) (k k' : key) : Prop :=
  match k with
  | KVar f i =>
      (k' = KInst /\ (is_mock p (KVar f i) \/ exists g, g <= f /\ includes p g)) \/
      (exists f' i' v', variable p f' i' v' /\ not_after f' i' f i /\ In k' (all_values p (v_init v')))
  | KLocal _ => k' = KInst
  | _ => False
  end.

Lemma needs_inst : forall p k, is_mock p k -> needs p k KInst.
Proof. intros p [| |t|n|f i] M; cbn in *; try contradiction; auto. Qed.

Definition fine (P : gstate -> Prop) (o : gout) : Prop :=
  match o with GOk s => P s | GOwn => True | GUB | GFuel => False end.

Lemma fine_bind : forall (P Q : gstate -> Prop) o k, fine P o -> (forall s, P s -> fine Q (k s)) -> fine Q (gbind o k).
Proof. intros P Q [s| | |] k H K; cbn in *; auto. Qed.

Lemma fine_weak : forall (P Q : gstate -> Prop) o, fine P o -> (forall s, P s -> Q s) -> fine Q o.
Proof. intros P Q [s| | |] H K; cbn in *; auto. Qed.

Lemma needs_run_all : forall p l f s, fit (needs p) s -> may s (all_reads p f l) (all_values p l) ->
  fine (fun s' => fit (needs p) s' /\ grows s s' /\ incl (all_values p l) (g_stack s')) (grun_all p f l s).
Proof.
  intros p l f s F M.
  assert (G : good (needs p) s (all_values p l) (grun_all p f l s)).
  { apply run_all_good; auto; cbn; auto. apply needs_inst. }
  unfold good in G. destruct (grun_all p f l s); auto.
Qed.

(** Before variable i of file f; the library variables of f are initialised. *)
Record begun (p : gprog) (f i : nat) (s : gstate) : Prop := mkBegun {
  bg_fit : fit (needs p) s;
  bg_dead : g_dead s = [];
  bg_closing : g_closing s = [];
  bg_ready : forall g, includes p g -> g <= f -> In g (g_ready s);
  bg_inst : g_ready s <> [] -> In KInst (g_stack s);
  bg_vars : forall f' i', In (KVar f' i') (g_stack s) -> f' < f \/ (f' = f /\ i' < i);
  bg_values : forall f' i' v', variable p f' i' v' -> f' < f \/ (f' = f /\ i' < i) ->
    incl (all_values p (v_init v')) (g_stack s) }.

Lemma init_var_ok : forall p f i v s, orderly p -> variable p f i v -> begun p f i s ->
  fine (begun p f (S i)) (init_var p f i v s).
Proof.
  intros p f i v s O V B. unfold init_var.
  assert (R : forall g, In g (all_reads p f (v_init v)) -> In g (g_ready s)).
  { intros g I. destruct (o_init p O f i v g V (or_introl I)) as (L & N). exact (bg_ready _ _ _ _ B g N L). }
  assert (MAY : may s (all_reads p f (v_init v)) (all_values p (v_init v))).
  { split; [exact R|]. split.
    - intro NE. apply (bg_inst _ _ _ _ B). destruct (all_reads p f (v_init v)) as [|g r]; [congruence|].
      intro E. specialize (R g (or_introl eq_refl)). rewrite E in R. exact R.
    - intros k _. right. rewrite (bg_dead _ _ _ _ B). auto. }
  apply (fine_bind _ _ _ _ (needs_run_all p (v_init v) f s (bg_fit _ _ _ _ B) MAY)).
  intros s1 (F1 & (RD & DD & CL & IN & VR) & VA).
  assert (MK : fine (fun s2 => s2 = s1) (match v_mock v with Some c => need_ready (p_kept p f c) s1 | None => GOk s1 end)).
  { destruct (v_mock v) as [c|] eqn:M; [|reflexivity].
    rewrite ready_ok; [reflexivity|]. rewrite RD.
    destruct (o_init p O f i v (p_kept p f c) V) as (L & N); [right; exists c; auto|].
    exact (bg_ready _ _ _ _ B _ N L). }
  apply (fine_bind _ _ _ _ MK). intros s2 ->. cbn.
  assert (VALS : forall f' i' v', variable p f' i' v' -> f' < f \/ (f' = f /\ i' <= i) ->
    incl (all_values p (v_init v')) (g_stack s1)).
  { intros f' i' v' V' L. destruct (Nat.eq_dec f' f) as [-> |NF].
    - destruct (Nat.eq_dec i' i) as [-> |NI].
      + apply var_in_spec in V, V'. rewrite V in V'. injection V' as <-. exact VA.
      + eapply incl_tran; [|exact IN]. apply (bg_values _ _ _ _ B f i' v' V'). right. lia.
    - eapply incl_tran; [|exact IN]. apply (bg_values _ _ _ _ B f' i' v' V'). left. lia. }
  assert (FRESH : ~ In (KVar f i) (g_stack s1)).
  { intro I. apply VR in I. apply (bg_vars _ _ _ _ B) in I. lia. }
  assert (DEAD : g_dead s1 = []) by (rewrite DD; apply B).
  constructor; cbn.
  - apply push_fit; auto.
    + rewrite DEAD. auto.
    + intros k' [(-> & N)|(f' & i' & v' & V' & L & I)].
      * apply IN, (bg_inst _ _ _ _ B). intro E.
        destruct N as [(v' & c & V' & M)|(g & L & N)].
        -- apply var_in_spec in V, V'. rewrite V in V'. injection V' as <-. apply var_in_spec in V.
           destruct (o_init p O f i v (p_kept p f c) V) as (L & N); [right; exists c; auto|].
           apply (bg_ready _ _ _ _ B) in N; [|exact L]. rewrite E in N. exact N.
        -- apply (bg_ready _ _ _ _ B) in N; [|exact L]. rewrite E in N. exact N.
      * apply (VALS f' i' v' V'); [|exact I]. unfold not_after in L. lia.
  - exact DEAD.
  - rewrite CL. apply B.
  - rewrite RD. apply B.
  - intro NE. right. apply IN, (bg_inst _ _ _ _ B). congruence.
  - intros f' i' [E|I]; [injection E as <- <-; right; lia|].
    apply VR, (bg_vars _ _ _ _ B) in I. lia.
  - intros f' i' v' V' L. apply incl_tl. apply (VALS f' i' v' V'). lia.
Qed.

Lemma init_vars_ok : forall p f l i s, orderly p ->
  (forall j v, nth_error l j = Some v -> variable p f (i + j) v) -> begun p f i s ->
  fine (begun p f (i + length l)) (init_vars p f i l s).
Proof.
  intros p f l. induction l as [|v l IH]; intros i s O V B; cbn [init_vars length].
  - cbn. now rewrite Nat.add_0_r.
  - apply (fine_bind (begun p f (S i))).
    + apply init_var_ok; auto. specialize (V 0 v eq_refl). now rewrite Nat.add_0_r in V.
    + intros s' B'. replace (i + S (length l)) with (S i + length l) by lia. apply IH; auto.
      intros j w E. specialize (V (S j) w E). now replace (S i + j) with (i + S j) by lia.
Qed.

(** Before file f. *)
Record reached_file (p : gprog) (f : nat) (s : gstate) : Prop := mkRf {
  rf_fit : fit (needs p) s;
  rf_dead : g_dead s = [];
  rf_closing : g_closing s = [];
  rf_ready : forall g, includes p g -> g < f -> In g (g_ready s);
  rf_inst : g_ready s <> [] -> In KInst (g_stack s);
  rf_vars : forall f' i', In (KVar f' i') (g_stack s) -> f' < f;
  rf_values : forall f' i' v', variable p f' i' v' -> f' < f -> incl (all_values p (v_init v')) (g_stack s) }.

Lemma init_file_ok : forall p f x s, orderly p -> nth_error (p_files p) f = Some x -> reached_file p f s ->
  fine (reached_file p (S f)) (init_file p f x s).
Proof.
  intros p f x s O N R. unfold init_file.
  apply (fine_bind (begun p f 0)).
  - destruct (gf_includes x) eqn:I.
    + unfold init_headers.
      assert (G : good (needs p) s [KInst] (pass_static KInst s)).
      { apply pass_good; [apply R| |cbn; auto|discriminate]. right. rewrite (rf_dead _ _ _ R). auto. }
      destruct (pass_static KInst s) as [s1| | |]; cbn in *; try contradiction; auto.
      destruct G as (F1 & (RD & DD & CL & IN & VR) & VA).
      constructor; cbn.
      * constructor; cbn; apply F1.
      * rewrite DD. apply R.
      * rewrite CL. apply R.
      * intros g G L. destruct (Nat.eq_dec f g) as [-> |NE]; [now left|]. right. rewrite RD. apply (rf_ready _ _ _ R); auto. lia.
      * intros _. apply VA. now left.
      * intros f' i' I'. left. eapply (rf_vars _ _ _ R), VR, I'.
      * intros f' i' v' V' L. eapply incl_tran; [|exact IN]. apply (rf_values _ _ _ R f' i' v' V'). lia.
    + cbn. constructor; try apply R.
      * intros g G L. apply (rf_ready _ _ _ R); auto.
        destruct (Nat.eq_dec g f) as [-> |]; [|lia]. destruct G as (y & E & G). congruence.
      * intros f' i' I'. left. eapply (rf_vars _ _ _ R), I'.
      * intros f' i' v' V' L. apply (rf_values _ _ _ R f' i' v' V'). lia.
  - intros s1 B. apply (fine_weak (begun p f (0 + length (gf_vars x)))).
    + apply init_vars_ok; auto. intros j v E. exists x. auto.
    + intros s2 B2. constructor; try apply B2.
      * intros g G L. apply (bg_ready _ _ _ _ B2); auto. lia.
      * intros f' i' I. apply (bg_vars _ _ _ _ B2) in I. lia.
      * intros f' i' v' V' L. destruct (Nat.eq_dec f' f) as [-> |].
        -- apply (bg_values _ _ _ _ B2 f i' v' V'). right. split; [reflexivity|].
           destruct V' as (y & E & V'). rewrite N in E. injection E as <-. simpl.
           apply nth_error_Some. congruence.
        -- apply (bg_values _ _ _ _ B2 f' i' v' V'). left. lia.
Qed.

Lemma init_files_ok : forall p l f s, orderly p ->
  (forall j x, nth_error l j = Some x -> nth_error (p_files p) (f + j) = Some x) -> reached_file p f s ->
  fine (reached_file p (f + length l)) (init_files p f l s).
Proof.
  intros p l. induction l as [|x l IH]; intros f s O V R; cbn [init_files length].
  - cbn. now rewrite Nat.add_0_r.
  - apply (fine_bind (reached_file p (S f))).
    + apply init_file_ok; auto. specialize (V 0 x eq_refl). now rewrite Nat.add_0_r in V.
    + intros s' R'. replace (f + S (length l)) with (S f + length l) by lia. apply IH; auto.
      intros j w E. specialize (V (S j) w E). now replace (S f + j) with (f + S j) by lia.
Qed.

Lemma includes_bound : forall p g, includes p g -> g < length (p_files p).
Proof. intros p g (x & E & _). apply nth_error_Some. congruence. Qed.

(** *** From main to the end *)

(** At the end of the program. *)
Record ending (p : gprog) (s : gstate) : Prop := mkEnding {
  en_fit : fit (needs p) s;
  en_ready : forall g, includes p g -> In g (g_ready s) }.

Lemma until_exit_ok : forall p, orderly p -> fine (ending p) (until_exit p).
Proof.
  intros p O. unfold until_exit, before_main.
  apply (fine_bind (reached_file p (0 + length (p_files p)))).
  - apply init_files_ok; auto. constructor; cbn; auto; try contradiction; try lia.
    constructor; cbn; try contradiction. constructor.
  - intros s R. cbn [plus] in R.
    assert (RD : forall g, includes p g -> In g (g_ready s)).
    { intros g G. apply (rf_ready _ _ _ R); auto. now apply includes_bound. }
    assert (M : may s (all_reads p 0 (p_main p)) (all_values p (p_main p))).
    { split; [|split].
      - intros g I. apply RD, (o_main p O g I).
      - intro NE. apply (rf_inst _ _ _ R). destruct (all_reads p 0 (p_main p)) as [|g r] eqn:E; [congruence|].
        assert (I : In g (g_ready s)) by (apply RD, (o_main p O); rewrite E; now left).
        intro Z. rewrite Z in I. exact I.
      - intros k _. right. rewrite (rf_dead _ _ _ R). auto. }
    apply (fine_weak _ _ _ (needs_run_all p (p_main p) 0 s (rf_fit _ _ _ R) M)).
    intros s' (F & (R' & _) & _). constructor; [exact F|]. intros g G. rewrite R'. auto.
Qed.

Lemma fini_may : forall p k r s, orderly p -> ending p s -> g_stack s = k :: r ->
  may (mkG (g_ready s) r [k] (g_dead s)) (all_reads p (file_of k) (fini_of p k)) (all_values p (fini_of p k)).
Proof.
  intros p k r s O E S'. 
  assert (N : forall k', needs p k k' -> In k' r).
  { pose proof (ft_piled _ _ (en_fit _ _ E)) as P. rewrite S' in P. inversion P; auto. }
  destruct k as [| |t|n|f i]; cbn [fini_of file_of]; try (split; [intros x []|split; [intro X; now contradiction X|intros x []]]).
  destruct (var_in p f i) as [v|] eqn:V; [|split; [intros x []|split; [intro X; now contradiction X|intros x []]]].
  apply var_in_spec in V. split; [|split]; cbn [g_ready g_stack g_dead].
  - intros g I. apply (en_ready _ _ E). apply (o_fini p O f i v g V I).
  - intro NE. apply N. left. split; [reflexivity|]. right.
    destruct (all_reads p f (v_fini v)) as [|g q] eqn:R; [congruence|].
    apply (o_fini p O f i v g V). rewrite R. now left.
  - intros k I. left. apply N. right. exact (o_values p O f i v k V I).
Qed.

Lemma popped_fit : forall p k r s, fit (needs p) s -> g_stack s = k :: r -> fit (needs p) (mkG (g_ready s) r [k] (g_dead s)).
Proof.
  intros p k r s F E. pose proof (ft_piled _ _ F) as P. rewrite E in P. inversion P; subst.
  constructor; cbn; auto.
  - intros x I. apply (ft_apart _ _ F). rewrite E. now right.
  - intros x y [<-|[]] N. auto.
Qed.

(** *** The shape of runs *)

Fixpoint brings (x : code) : list key :=
  match x with
  | LUnmocked _ => [KUnknown]
  | LDefault t => [KDefault t]
  | LStatic n _ => [KLocal n]
  | LIn _ l => flat_map brings l
  | _ => []
  end.

Record extends (ks : list key) (s s' : gstate) (new : list key) : Prop := mkExt {
  ex_stack : g_stack s' = new ++ g_stack s;
  ex_ready : g_ready s' = g_ready s;
  ex_closing : g_closing s' = g_closing s;
  ex_dead : g_dead s' = g_dead s;
  ex_nodup : NoDup new;
  ex_fresh : forall k, In k new -> ~ In k (g_stack s) /\ ~ In k (g_dead s);
  ex_kind : forall k, In k new -> (forall f i, k <> KVar f i) /\ k <> KInst;
  ex_incl : incl new ks;
  ex_local : forall n, In (KLocal n) new -> In KInst (g_stack s) }.

Lemma ext_refl : forall ks s, extends ks s s [].
Proof. intros ks s. constructor; cbn; auto; try contradiction; [constructor|intros x []]. Qed.

Lemma ext_push : forall ks s k, In k ks -> ~ In k (g_stack s) -> ~ In k (g_dead s) ->
  (forall f i, k <> KVar f i) -> k <> KInst -> (forall n, k = KLocal n -> In KInst (g_stack s)) ->
  extends ks s (mkG (g_ready s) (k :: g_stack s) (g_closing s) (g_dead s)) [k].
Proof.
  intros ks s k IK NS ND NV NI L. constructor; cbn; auto.
  - constructor; [auto|constructor].
  - intros x [<-|[]]; auto.
  - intros x [<-|[]]; auto.
  - intros x [<-|[]]; auto.
  - intros n [E|[]]. eauto.
Qed.

Lemma ext_trans : forall ks ks' a b c n n', extends ks a b n -> extends ks' b c n' -> extends (ks ++ ks') a c (n' ++ n).
Proof.
  intros ks ks' a b c n n' A B. constructor.
  - rewrite (ex_stack _ _ _ _ B), (ex_stack _ _ _ _ A). now rewrite app_assoc.
  - rewrite (ex_ready _ _ _ _ B). apply A.
  - rewrite (ex_closing _ _ _ _ B). apply A.
  - rewrite (ex_dead _ _ _ _ B). apply A.
  - assert (D : forall k, In k n' -> ~ In k n).
    { intros k I J. apply (proj1 (ex_fresh _ _ _ _ B k I)). rewrite (ex_stack _ _ _ _ A). apply in_or_app. now left. }
    pose proof (ex_nodup _ _ _ _ B) as NB. pose proof (ex_nodup _ _ _ _ A) as NA. clear - D NA NB.
    induction n' as [|x r IH]; [exact NA|]. inversion NB; subst. cbn. constructor.
    + intro I. apply in_app_or in I. destruct I as [I|I]; [contradiction|]. exact (D x (or_introl eq_refl) I).
    + apply IH; auto. intros k I. apply D. now right.
  - intros k I. apply in_app_or in I. destruct I as [I|I]; [|exact (ex_fresh _ _ _ _ A k I)].
    destruct (ex_fresh _ _ _ _ B k I) as (X & Y). rewrite (ex_stack _ _ _ _ A) in X. rewrite (ex_dead _ _ _ _ A) in Y.
    split; [|exact Y]. intro J. apply X, in_or_app. now right.
  - intros k I. apply in_app_or in I. destruct I as [I|I]; [exact (ex_kind _ _ _ _ B k I)|exact (ex_kind _ _ _ _ A k I)].
  - intros k I. apply in_or_app. apply in_app_or in I. destruct I as [I|I]; [right; exact (ex_incl _ _ _ _ B k I)|left; exact (ex_incl _ _ _ _ A k I)].
  - intros m I. apply in_app_or in I. destruct I as [I|I]; [|exact (ex_local _ _ _ _ A m I)].
    pose proof (ex_local _ _ _ _ B m I) as J. rewrite (ex_stack _ _ _ _ A) in J. apply in_app_or in J.
    destruct J as [J|J]; [|exact J]. exfalso. apply (proj2 (ex_kind _ _ _ _ A KInst J)). reflexivity.
Qed.

Lemma need_ready_inv : forall f s s', need_ready f s = GOk s' -> s' = s /\ In f (g_ready s).
Proof. intros f s s'. unfold need_ready. destruct (ready_spec (g_ready s) f); [|discriminate]. intro E. injection E as <-. auto. Qed.

Lemma report_inv : forall s s', report s = GOk s' -> s' = s /\ In KInst (g_stack s).
Proof. intros s s'. unfold report. destruct (has_spec (g_stack s) KInst); [|discriminate]. intro E. injection E as <-. auto. Qed.

Lemma pass_inv : forall ks k s s', In k ks -> (forall f i, k <> KVar f i) -> k <> KInst -> (forall n, k <> KLocal n) ->
  pass_static k s = GOk s' -> exists new, extends ks s s' new.
Proof.
  intros ks k s s' IK NV NI NL. unfold pass_static. destruct (has_spec (g_dead s) k); [discriminate|].
  destruct (has_spec (g_stack s) k); intro E; injection E as <-; [exists []; apply ext_refl|].
  exists [k]. apply ext_push; auto. intros m E. exfalso. exact (NL m E).
Qed.

Lemma gbind_inv : forall o k s, gbind o k = GOk s -> exists s1, o = GOk s1 /\ k s1 = GOk s.
Proof. intros [s1| | |] k s E; cbn in E; try discriminate. eauto. Qed.

Lemma shape : forall p x f s s', grun p f x s = GOk s' -> exists new, extends (brings x) s s' new.
Proof.
  intros p. induction x as [c|c|c|b|t|n c|g i|g l IH] using code_ind'; intros f s s' E.
  - cbn in E. apply need_ready_inv in E. destruct E as (-> & _). exists []. apply ext_refl.
  - cbn in E. apply gbind_inv in E. destruct E as (s1 & E1 & E). apply need_ready_inv in E1. destruct E1 as (-> & _).
    apply report_inv in E. destruct E as (-> & _). exists []. apply ext_refl.
  - cbn in E. apply gbind_inv in E. destruct E as (s1 & E1 & E). apply need_ready_inv in E1. destruct E1 as (-> & _).
    apply gbind_inv in E. destruct E as (s2 & E2 & E). apply report_inv in E. destruct E as (-> & _).
    apply (pass_inv [KUnknown] KUnknown s s2); auto; try discriminate. now left.
  - cbn in E. apply gbind_inv in E. destruct E as (s1 & E1 & E). apply need_ready_inv in E1. destruct E1 as (-> & _).
    destruct b; [apply report_inv in E; destruct E as (-> & _)|injection E as ->]; exists []; apply ext_refl.
  - cbn in E. destruct (p_trivial p t); [injection E as ->; exists []; apply ext_refl|].
    apply (pass_inv [KDefault t] (KDefault t) s s'); auto; try discriminate. now left.
  - cbn in E. destruct (has_spec (g_dead s) (KLocal n)) as [D|D]; [discriminate|].
    apply gbind_inv in E. destruct E as (s1 & E1 & E). apply report_inv in E. destruct E as (-> & KI).
    destruct (has_spec (g_stack s) (KLocal n)) as [I|I]; [injection E1 as ->; exists []; apply ext_refl|].
    apply gbind_inv in E1. destruct E1 as (s2 & E2 & E1). apply need_ready_inv in E2. destruct E2 as (-> & _).
    injection E1 as <-. exists [KLocal n]. apply ext_push; auto; try discriminate; [now left|].
    intros _ _. cbn in KI. destruct KI as [X|X]; [discriminate|exact X].
  - cbn in E. destruct (_ || _); [|discriminate].
    destruct (mock_in p g i); [apply report_inv in E; destruct E as (-> & _)|injection E as ->]; exists []; apply ext_refl.
  - rewrite grun_in in E. cbn [brings]. revert s s' E. induction IH as [|y r Hy Hr IHr]; intros s s' E; cbn [grun_all] in E.
    + injection E as ->. exists []. apply ext_refl.
    + apply gbind_inv in E. destruct E as (s1 & E1 & E). destruct (Hy g s s1 E1) as (n1 & X1).
      destruct (IHr s1 s' E) as (n2 & X2). exists (n2 ++ n1). cbn [flat_map]. exact (ext_trans _ _ _ _ _ _ _ X1 X2).
Qed.

Lemma shape_all : forall p l f s s', grun_all p f l s = GOk s' -> exists new, extends (flat_map brings l) s s' new.
Proof. intros p l f s s' E. rewrite <- (grun_in p 0) in E. exact (shape p (LIn f l) 0 s s' E). Qed.

(** *** The end of orderly programs *)

Lemma exit_ok : forall p fuel s, orderly p -> ending p s -> at_exit p fuel s <> GUB.
Proof.
  intros p fuel. induction fuel as [|fuel IH]; intros s O E; cbn [at_exit].
  - destruct (g_stack s); discriminate.
  - destruct (g_stack s) as [|k r] eqn:S'; [discriminate|].
    pose proof (needs_run_all p (fini_of p k) (file_of k) _ (popped_fit p k r s (en_fit _ _ E) S') (fini_may p k r s O E S')) as G.
    destruct (grun_all p (file_of k) (fini_of p k) (mkG (g_ready s) r [k] (g_dead s))) as [s1| | |] eqn:R;
      cbn [gbind fine] in *; try discriminate; try contradiction.
    apply IH; [exact O|]. destruct G as (F & (RD & DD & CL & IN & VR) & _). cbn in RD, DD, CL, VR.
    destruct (shape_all _ _ _ _ _ R) as (new & X).
    constructor.
    + constructor; cbn.
      * apply F.
      * intros x I [<-|D]; [|apply (ft_apart _ _ F x I); rewrite DD in *; exact D].
        rewrite (ex_stack _ _ _ _ X) in I. cbn in I. apply in_app_or in I. destruct I as [I|I].
        -- destruct k as [| |t|m|f i]; try (destruct new; [contradiction|]; pose proof (ex_incl _ _ _ _ X _ I) as []).
           exact (proj1 (ex_kind _ _ _ _ X _ I) f i eq_refl).
        -- pose proof (ft_piled _ _ (en_fit _ _ E)) as P. rewrite S' in P. inversion P; contradiction.
      * intros x y [].
    + cbn. rewrite RD. apply E.
Qed.

Theorem orderly_ok : forall p fuel, orderly p -> whole p fuel <> GUB.
Proof.
  intros p fuel O. unfold whole. pose proof (until_exit_ok p O) as H.
  destruct (until_exit p) as [s| | |]; cbn in *; try discriminate; try contradiction.
  apply exit_ok; auto.
Qed.
