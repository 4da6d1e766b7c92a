From Coq Require Import Ascii String ZArith Lia List.
From Verif Require Import Base Values ArgMatchers Creators Spec_Creators.
Import ListNotations.
Open Scope nat_scope.

Section Left.
Variable left : string -> string.

Lemma put_length : forall l a c, length (put l a c) = length l.
Proof. induction l as [|x l IH]; intros [|a] c; cbn; auto. Qed.

Lemma put_other : forall l a b c, a <> b -> nth_error (put l a c) b = nth_error l b.
Proof. induction l as [|x l IH]; intros [|a] [|b] c H; cbn; auto; try lia. Qed.

Lemma put_same : forall l a c, a < length l -> nth_error (put l a c) a = Some c.
Proof. induction l as [|x l IH]; intros [|a] c H; cbn in *; auto; try lia. apply IH. lia. Qed.

Lemma put_app : forall l l' a c, a < length l -> put (l ++ l') a c = put l a c ++ l'.
Proof. induction l as [|x l IH]; intros l' [|a] c H; cbn in *; try lia; auto. now rewrite IH by lia. Qed.

Lemma build_denotes : forall k es m, build k es = Def m <-> denotes k es m.
Proof.
  intros k es m. split.
  - destruct k, es as [|[[]|] [|[] [|]]]; cbn; try discriminate; intro H; injection H as <-; constructor.
  - now destruct 1.
Qed.

(** [dead l a]: the cell was there and its lifetime is over. *)
Definition dead (l : list (option expected)) (a : nat) : Prop := nth_error l a = Some None.

Lemma dead_put_alive : forall l a b e, dead l b -> (exists x, nth_error l a = Some (Some x)) -> dead (put l a e) b.
Proof.
  unfold dead. intros l a b e D [x X]. destruct (Nat.eq_dec a b) as [->|N]; [congruence|]. now rewrite put_other.
Qed.

Lemma dead_put_none : forall l a b, dead l b -> dead (put l a None) b.
Proof.
  unfold dead. intros l a b D. destruct (Nat.eq_dec a b) as [->|N]; [|now rewrite put_other].
  apply put_same. apply nth_error_Some. congruence.
Qed.

Lemma take_length : forall refs cells es cells', take left refs cells = Def (es, cells') -> length cells' = length cells.
Proof.
  induction refs as [|r refs IH]; intros cells es cells' H; cbn [take] in H; [injection H as <- <-; auto|].
  destruct (nth_error cells (or_cell r)) as [[e|]|] eqn:N; try discriminate.
  destruct (take left refs _) as [[es' c']| |] eqn:T; cbn [obind] in H; try discriminate. injection H as <- <-.
  apply IH in T. cbn [snd]. rewrite T. destruct (or_rvalue r); auto. apply put_length.
Qed.

Lemma take_dead_kept : forall refs cells es cells' b, take left refs cells = Def (es, cells') -> dead cells b -> dead cells' b.
Proof.
  induction refs as [|r refs IH]; intros cells es cells' b H D; cbn [take] in H; [injection H as <- <-; auto|].
  destruct (nth_error cells (or_cell r)) as [[e|]|] eqn:N; try discriminate.
  destruct (take left refs _) as [[es' c']| |] eqn:T; cbn [obind] in H; try discriminate. injection H as <- <-.
  cbn [snd]. eapply IH; [exact T|]. destruct (or_rvalue r); auto. apply dead_put_alive; eauto.
Qed.

(** A creator one of whose operands is dead cannot be used. *)
Lemma take_dead : forall refs cells r, In r refs -> dead cells (or_cell r) -> take left refs cells = UB.
Proof.
  induction refs as [|q refs IH]; intros cells r I D; [contradiction|]. cbn [take].
  destruct I as [->|I].
  - unfold dead in D. now rewrite D.
  - destruct (nth_error cells (or_cell q)) as [[e|]|] eqn:N; auto.
    rewrite (IH _ r I); auto. destruct (or_rvalue q); auto. apply dead_put_alive; eauto.
Qed.

Lemma end_dead : forall n cells b, n <= length cells -> dead (firstn n cells) b -> dead (end_temporaries n cells) b.
Proof.
  unfold dead, end_temporaries. intros n cells b L D. rewrite nth_error_app1; auto. apply nth_error_Some. congruence.
Qed.

Lemma firstn_dead : forall n cells b, b < n -> dead cells b -> dead (firstn n cells) b.
Proof.
  unfold dead. intros n cells b L D. rewrite <- (firstn_skipn n cells) in D.
  rewrite nth_error_app1 in D; auto. rewrite firstn_length.
  assert (b < length cells). { rewrite firstn_skipn in D. apply nth_error_Some. congruence. } lia.
Qed.

Lemma bind_extends : forall ops cells rs cells', bind_refs ops cells = (rs, cells') -> exists more, cells' = cells ++ more.
Proof.
  induction ops as [|o ops IH]; intros cells rs cells' H; cbn [bind_refs] in H.
  - injection H as <- <-. exists []. now rewrite app_nil_r.
  - destruct o as [a|a|e].
    + destruct (bind_refs ops cells) as [rs' c'] eqn:B. injection H as <- <-. eauto.
    + destruct (bind_refs ops cells) as [rs' c'] eqn:B. injection H as <- <-. eauto.
    + destruct (bind_refs ops (cells ++ [Some e])) as [rs' c'] eqn:B. injection H as <- <-.
      destruct (IH _ _ _ B) as [more ->]. exists (Some e :: more). now rewrite <- app_assoc.
Qed.

Lemma dead_app : forall l l' b, dead l b -> dead (l ++ l') b.
Proof. unfold dead. intros l l' b D. rewrite nth_error_app1; auto. apply nth_error_Some. congruence. Qed.

Lemma dead_lt : forall l b, dead l b -> b < length l.
Proof. unfold dead. intros l b D. apply nth_error_Some. congruence. Qed.

(** What is dead stays dead. *)
Lemma step_dead : forall x s s' b, cstep_run left x s = Def s' -> dead (cs_cells s) b -> dead (cs_cells s') b.
Proof.
  intros x s s' b H D. pose proof (dead_lt _ _ D) as L. destruct x as [e|a e|a|k ops|c|k ops]; cbn [cstep_run] in H.
  - injection H as <-. now apply dead_app.
  - destruct (nth_error (cs_cells s) a) as [[y|]|] eqn:N; try discriminate. injection H as <-. apply dead_put_alive; eauto.
  - injection H as <-. now apply dead_put_none.
  - destruct (bind_refs ops (cs_cells s)) as [rs cells] eqn:B. injection H as <-. cbn [cs_cells].
    destruct (bind_extends _ _ _ _ B) as [more ->]. apply end_dead; [rewrite app_length; lia|].
    apply firstn_dead; auto. now apply dead_app.
  - destruct (nth_error (cs_named s) c) as [cr|]; try discriminate. unfold create in H.
    destruct (take left (cr_refs cr) (cs_cells s)) as [[es c']| |] eqn:T; cbn [obind fst snd] in H; try discriminate.
    destruct (build (cr_kind cr) es); cbn [obind] in H; try discriminate. injection H as <-. cbn. eapply take_dead_kept; eauto.
  - destruct (bind_refs ops (cs_cells s)) as [rs cells] eqn:B. destruct (bind_extends _ _ _ _ B) as [more M].
    unfold create in H. cbn [cr_refs cr_kind cs_cells cs_named cs_made] in H.
    destruct (take left rs cells) as [[es c']| |] eqn:T; cbn [obind fst snd] in H; try discriminate.
    destruct (build k es); cbn [obind] in H; try discriminate. injection H as <-. cbn [cs_cells].
    pose proof (take_length _ _ _ _ T) as LL. subst cells. rewrite app_length in LL.
    apply end_dead; [lia|]. apply firstn_dead; auto. eapply take_dead_kept; eauto. now apply dead_app.
Qed.

Lemma run_dead : forall l s s' b, crun left l s = Def s' -> dead (cs_cells s) b -> dead (cs_cells s') b.
Proof.
  induction l as [|x l IH]; intros s s' b H D; cbn [crun] in H; [now injection H as <-|].
  destruct (cstep_run left x s) as [s1| |] eqn:E; cbn [obind] in H; try discriminate. eapply IH; eauto. eapply step_dead; eauto.
Qed.

(** What was made and what was named stays. *)
Lemma step_kept : forall x s s', cstep_run left x s = Def s' ->
  (exists m, cs_made s' = cs_made s ++ m) /\ (exists n, cs_named s' = cs_named s ++ n).
Proof.
  assert (Z : forall A (l : list A), exists m, l = l ++ m) by (intros A l; exists []; now rewrite app_nil_r).
  intros x s s' H. destruct x as [e|a e|a|k ops|c|k ops]; cbn [cstep_run] in H.
  - injection H as <-. cbn. auto.
  - destruct (nth_error (cs_cells s) a) as [[y|]|] eqn:N; try discriminate. injection H as <-. cbn. auto.
  - injection H as <-. cbn. auto.
  - destruct (bind_refs ops (cs_cells s)) as [rs cells]. injection H as <-. cbn. eauto.
  - destruct (nth_error (cs_named s) c) as [cr|]; try discriminate. unfold create in H.
    destruct (take left (cr_refs cr) (cs_cells s)) as [[es c']| |]; cbn [obind fst snd] in H; try discriminate.
    destruct (build (cr_kind cr) es); cbn [obind] in H; try discriminate. injection H as <-. cbn. eauto.
  - destruct (bind_refs ops (cs_cells s)) as [rs cells]. unfold create in H. cbn [cr_refs cr_kind cs_cells cs_named cs_made] in H.
    destruct (take left rs cells) as [[es c']| |]; cbn [obind fst snd] in H; try discriminate.
    destruct (build k es); cbn [obind] in H; try discriminate. injection H as <-. cbn. eauto.
Qed.

Lemma run_kept : forall l s s', crun left l s = Def s' ->
  (exists m, cs_made s' = cs_made s ++ m) /\ (exists n, cs_named s' = cs_named s ++ n).
Proof.
  induction l as [|x l IH]; intros s s' H; cbn [crun] in H.
  - injection H as <-. split; exists []; now rewrite app_nil_r.
  - destruct (cstep_run left x s) as [s1| |] eqn:E; cbn [obind] in H; try discriminate.
    destruct (step_kept _ _ _ E) as [[m1 M1] [n1 N1]]. destruct (IH _ _ H) as [[m2 M2] [n2 N2]].
    rewrite M2, M1, N2, N1, <- !app_assoc. eauto.
Qed.

Theorem conditions_stay : forall l s s' i m, crun left l s = Def s' -> nth_error (cs_made s) i = Some m ->
  nth_error (cs_made s') i = Some m.
Proof.
  intros l s s' i m R H. destruct (run_kept _ _ _ R) as [[q ->] _]. rewrite nth_error_app1; auto.
  apply nth_error_Some. congruence.
Qed.

(** The creator that a declaration makes. *)
Lemma named_at : forall k ops l s s', crun left (CName k ops :: l) s = Def s' ->
  nth_error (cs_named s') (length (cs_named s)) = Some (mkCreator k (fst (bind_refs ops (cs_cells s)))).
Proof.
  intros k ops l s s' H. cbn [crun cstep_run] in H. destruct (bind_refs ops (cs_cells s)) as [rs cells] eqn:B.
  cbn [obind] in H. destruct (run_kept _ _ _ H) as [_ [n ->]]. cbn [cs_named].
  rewrite <- app_assoc. rewrite nth_error_app2 by lia. now rewrite Nat.sub_diag.
Qed.

(** A temporary operand gets a cell past those of the program. *)
Lemma temp_cell : forall ops cells rs cells' e, bind_refs ops cells = (rs, cells') -> In (OpTemp e) ops ->
  exists r, In r rs /\ length cells <= or_cell r < length cells'.
Proof.
  induction ops as [|o ops IH]; intros cells rs cells' e H I; [contradiction|]. cbn [bind_refs] in H.
  destruct I as [->|I].
  - destruct (bind_refs ops (cells ++ [Some e])) as [rs' c'] eqn:B. injection H as <- <-.
    destruct (bind_extends _ _ _ _ B) as [more ->]. exists (mkRef (length cells) true). split; [now left|].
    cbn. rewrite !app_length. cbn. lia.
  - destruct o as [a|a|x].
    + destruct (bind_refs ops cells) as [rs' c'] eqn:B. injection H as <- <-. destruct (IH _ _ _ _ B I) as (r & R & X). exists r. split; [now right|auto].
    + destruct (bind_refs ops cells) as [rs' c'] eqn:B. injection H as <- <-. destruct (IH _ _ _ _ B I) as (r & R & X). exists r. split; [now right|auto].
    + destruct (bind_refs ops (cells ++ [Some x])) as [rs' c'] eqn:B. injection H as <- <-.
      destruct (IH _ _ _ _ B I) as (r & R & X). exists r. split; [now right|]. rewrite app_length in X. cbn in X. lia.
Qed.

Lemma nth_repeat : forall (A : Type) (x : A) n i, i < n -> nth_error (repeat x n) i = Some x.
Proof. induction n as [|n IH]; intros [|i] H; cbn; try lia; auto. apply IH. lia. Qed.

Lemma ended : forall n cells b, n <= b < length cells -> dead (end_temporaries n cells) b.
Proof.
  intros n cells b H. unfold dead, end_temporaries. assert (L : length (firstn n cells) = n) by (rewrite firstn_length; lia).
  rewrite nth_error_app2 by lia. rewrite L. apply nth_repeat. lia.
Qed.

Theorem temporary_named : forall k ops l s s', Exists is_temp ops -> crun left (CName k ops :: l) s = Def s' ->
  cstep_run left (CUse (length (cs_named s))) s' = UB.
Proof.
  intros k ops l s s' T R. pose proof (named_at _ _ _ _ _ R) as N. cbn [cstep_run]. rewrite N. unfold create. cbn [cr_refs].
  apply Exists_exists in T. destruct T as (o & I & [e ->]).
  cbn [crun cstep_run] in R. destruct (bind_refs ops (cs_cells s)) as [rs cells] eqn:B. cbn [obind fst] in *.
  destruct (temp_cell _ _ _ _ _ B I) as (r & Ir & C). rewrite (take_dead rs (cs_cells s') r Ir); [reflexivity|].
  eapply run_dead; [exact R|]. cbn [cs_cells]. apply ended. exact C.
Qed.

(** Taking from lvalues. *)
Lemma take_vars : forall ops s es, Forall2 (has_value s) ops es -> Forall (fun o => ~ is_move o) ops -> Forall (fun o => ~ is_temp o) ops ->
  exists rs, (forall cells, bind_refs ops cells = (rs, cells)) /\ take left rs (cs_cells s) = Def (es, cs_cells s).
Proof.
  intros ops s es H. induction H as [|o e ops es V H IH]; intros M T.
  - exists []. split; reflexivity.
  - inversion M as [|o1 l1 M1 M2]; inversion T as [|o2 l2 T1 T2]; subst. destruct (IH M2 T2) as (rs & B & K).
    destruct V as [a e V|a e V|e]; [|exfalso; apply M1; now exists a|exfalso; apply T1; now exists e].
    exists (mkRef a false :: rs). split.
    + intro cells. cbn [bind_refs]. now rewrite B.
    + cbn [take or_cell or_rvalue]. unfold holds in V. rewrite V. cbv zeta. now rewrite K.
Qed.

Theorem variable_named : forall k ops l s s' es m,
  Forall (fun o => ~ is_move o) ops -> Forall (fun o => ~ is_temp o) ops ->
  crun left (CName k ops :: l) s = Def s' -> Forall2 (has_value s') ops es -> denotes k es m ->
  cstep_run left (CUse (length (cs_named s))) s' = Def (mkCS (cs_cells s') (cs_named s') (cs_made s' ++ [m])).
Proof.
  intros k ops l s s' es m M T R V D. pose proof (named_at _ _ _ _ _ R) as N. cbn [cstep_run]. rewrite N. unfold create. cbn [cr_refs cr_kind].
  destruct (take_vars ops s' es V M T) as (rs & B & K). rewrite B. cbn [fst]. rewrite K. cbn [obind fst snd].
  apply build_denotes in D. now rewrite D.
Qed.

(** Inline creators. *)
Lemma take_app : forall refs cells more es, take left refs cells = Def (es, cells) -> Forall (fun r => or_rvalue r = false) refs ->
  take left refs (cells ++ more) = Def (es, cells ++ more).
Proof.
  induction refs as [|r refs IH]; intros cells more es H F; cbn [take] in *; [now injection H as <-|].
  inversion F as [|r1 l1 F1 F2]; subst. rewrite F1 in *.
  destruct (nth_error cells (or_cell r)) as [[e|]|] eqn:N; try discriminate.
  rewrite nth_error_app1 by (apply nth_error_Some; congruence). rewrite N. cbv zeta in *.
  destruct (take left refs cells) as [[es' c']| |] eqn:K; cbn [obind fst snd] in H; try discriminate. injection H as <- ->.
  now rewrite (IH cells more es' K F2).
Qed.

(** The references of inline operands read the values; only cells past [n] change. *)
Lemma take_inline : forall ops s es cells, Forall2 (has_value s) ops es -> Forall (fun o => ~ is_move o) ops ->
  (exists ext, cells = cs_cells s ++ ext) ->
  forall cells2 rs cells3, bind_refs ops cells = (rs, cells3) ->
  length cells2 = length cells3 ->
  (forall i, length cells <= i -> nth_error cells2 i = nth_error cells3 i) ->
  (forall i, i < length (cs_cells s) -> nth_error cells2 i = nth_error (cs_cells s) i) ->
  exists cells4, take left rs cells2 = Def (es, cells4) /\ length cells4 = length cells2 /\
    (forall i, i < length (cs_cells s) -> nth_error cells4 i = nth_error (cs_cells s) i).
Proof.
  intros ops s es cells V. revert cells. induction V as [|o e ops es V F IH]; intros cells M [ext X] cells2 rs cells3 B L P Q.
  - cbn in B. injection B as <- <-. exists cells2. auto.
  - inversion M as [|o1 l1 M1 M2]; subst o1 l1. cbn [bind_refs] in B. destruct V as [a e V|a e V|e].
    + destruct (bind_refs ops cells) as [rs' c'] eqn:Bo. injection B as <- <-.
      destruct (IH cells M2 (ex_intro _ ext X) cells2 rs' c' Bo L P Q) as (c4 & T & T1 & T2).
      exists c4. split; [|auto]. cbn [take or_cell or_rvalue].
      rewrite Q by (apply nth_error_Some; unfold holds in V; congruence). unfold holds in V. rewrite V. cbv zeta. now rewrite T.
    + exfalso. apply M1. now exists a.
    + destruct (bind_refs ops (cells ++ [Some e])) as [rs' c'] eqn:Bo. injection B as <- <-.
      destruct (bind_extends _ _ _ _ Bo) as [more E]. cbn [take or_cell or_rvalue].
      assert (N : nth_error cells2 (length cells) = Some (Some e)).
      { rewrite P by lia. rewrite E, <- app_assoc, nth_error_app2 by lia. now rewrite Nat.sub_diag. }
      rewrite N. cbv zeta.
      assert (LC : length (cs_cells s) <= length cells) by (rewrite X, app_length; lia).
      destruct (IH (cells ++ [Some e]) M2) with (cells2 := put cells2 (length cells) (Some (leave left e))) (rs := rs') (cells3 := c')
        as (c4 & T & T1 & T2); auto.
      * exists (ext ++ [Some e]). now rewrite X, app_assoc.
      * now rewrite put_length.
      * intros i Hi. rewrite app_length in Hi. cbn in Hi. rewrite put_other by lia. apply P. lia.
      * intros i Hi. rewrite put_other by lia. now apply Q.
      * exists c4. rewrite T. split; [reflexivity|]. rewrite put_length in T1. auto.
Qed.

Lemma same_cells : forall (l l' : list (option expected)), (forall i, i < length l -> nth_error l' i = nth_error l i) ->
  length l <= length l' -> firstn (length l) l' = l.
Proof.
  induction l as [|x l IH]; intros l' H L; [reflexivity|]. destruct l' as [|y l']; cbn in L; [lia|].
  cbn. pose proof (H 0 ltac:(cbn; lia)) as Z. cbn in Z. injection Z as ->. f_equal. apply IH; [|lia].
  intros i Hi. apply (H (S i)). cbn. lia.
Qed.

Theorem inline_used : forall k ops s es m, Forall (fun o => ~ is_move o) ops ->
  Forall2 (has_value s) ops es -> denotes k es m ->
  exists s', cstep_run left (CInline k ops) s = Def s' /\ cs_made s' = cs_made s ++ [m] /\
    cs_named s' = cs_named s /\ untouched s s'.
Proof.
  intros k ops s es m M V D. cbn [cstep_run]. destruct (bind_refs ops (cs_cells s)) as [rs cells] eqn:B.
  destruct (bind_extends _ _ _ _ B) as [more E].
  destruct (take_inline ops s es (cs_cells s) V M) with (cells2 := cells) (rs := rs) (cells3 := cells) as (c4 & T & L & Q); auto.
  - exists []. now rewrite app_nil_r.
  - intros i Hi. rewrite E. now rewrite nth_error_app1.
  - unfold create. cbn [cr_refs cr_kind cs_cells cs_named cs_made]. rewrite T. cbn [obind fst snd].
    apply build_denotes in D. rewrite D. cbn [obind]. eexists. split; [reflexivity|]. cbn. repeat split.
    unfold untouched, end_temporaries. cbn. eexists. rewrite same_cells; [reflexivity|auto|].
    rewrite L, E, app_length. lia.
Qed.

(** A moved operand. *)
Theorem moved_twice : forall k a s1 s t m1 m2, nth_error (cs_named s) k = Some (mkCreator s1 [mkRef a true]) ->
  holds s a (XVal (VStr t)) -> denotes s1 [XVal (VStr t)] m1 -> denotes s1 [XVal (VStr (left t))] m2 ->
  exists s', crun left [CUse k; CUse k] s = Def s' /\ cs_made s' = cs_made s ++ [m1; m2].
Proof.
  intros k a s1 s t m1 m2 N H D1 D2. apply build_denotes in D1. apply build_denotes in D2.
  cbn [crun cstep_run]. rewrite N. unfold create. cbn [cr_refs cr_kind take or_cell or_rvalue]. unfold holds in H. rewrite H. cbv zeta.
  cbn [obind fst snd]. rewrite D1. cbn [obind cs_named cs_cells cs_made]. rewrite N. cbn [cr_refs cr_kind take or_cell or_rvalue].
  rewrite put_same by (apply nth_error_Some; congruence). cbv zeta. cbn [leave obind fst snd]. rewrite D2.
  eexists. split; [reflexivity|]. cbn. now rewrite <- app_assoc.
Qed.

Theorem moved_named : forall k a l s s' t m1 m2, crun left (CName k [OpMove a] :: l) s = Def s' ->
  holds s' a (XVal (VStr t)) -> denotes k [XVal (VStr t)] m1 -> denotes k [XVal (VStr (left t))] m2 ->
  exists s'', crun left [CUse (length (cs_named s)); CUse (length (cs_named s))] s' = Def s'' /\ cs_made s'' = cs_made s' ++ [m1; m2].
Proof.
  intros k a l s s' t m1 m2 R H D1 D2. pose proof (named_at _ _ _ _ _ R) as N. cbn in N. eapply moved_twice; eauto.
Qed.
End Left.

(** Variables are what the program last put into them. *)
Lemma variables_change : forall left s,
  (forall e, exists s', cstep_run left (CVar e) s = Def s' /\ holds s' (length (cs_cells s)) e /\
     (forall a x, holds s a x -> holds s' a x) /\ cs_named s' = cs_named s /\ cs_made s' = cs_made s) /\
  (forall a e0 e, holds s a e0 -> exists s', cstep_run left (CSet a e) s = Def s' /\ holds s' a e /\
     (forall b x, b <> a -> (holds s' b x <-> holds s b x)) /\ cs_named s' = cs_named s /\ cs_made s' = cs_made s) /\
  (forall a e0 e, holds s a e0 -> exists s', cstep_run left (CEnd a) s = Def s' /\ (forall x, ~ holds s' a x) /\
     cstep_run left (CSet a e) s' = UB /\
     (forall b x, b <> a -> (holds s' b x <-> holds s b x)) /\ cs_named s' = cs_named s /\ cs_made s' = cs_made s).
Proof.
  intros left s. unfold holds. split; [|split].
  - intro e. eexists. split; [reflexivity|]. cbn [cs_cells cs_named cs_made]. split.
    { rewrite nth_error_app2 by lia. now rewrite Nat.sub_diag. }
    split; [|auto]. intros a x H. rewrite nth_error_app1; auto. apply nth_error_Some. congruence.
  - intros a e0 e H. cbn [cstep_run]. rewrite H. eexists. split; [reflexivity|]. cbn [cs_cells cs_named cs_made].
    assert (L : a < length (cs_cells s)) by (apply nth_error_Some; congruence).
    split; [now apply put_same|]. split; [|auto]. intros b x N. rewrite put_other by auto. tauto.
  - intros a e0 e H. eexists. split; [reflexivity|]. cbn [cstep_run cs_cells cs_named cs_made].
    assert (L : a < length (cs_cells s)) by (apply nth_error_Some; congruence).
    rewrite put_same by auto. split; [discriminate|]. split; [reflexivity|]. split; [|auto]. intros b x N. rewrite put_other by auto. tauto.
Qed.
