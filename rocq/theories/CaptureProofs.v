(** Facts about Capture.v. *)
From Coq Require Import Bool ZArith Lia List Permutation.
From Verif Require Import Base CInt Values ArgMatchers InvMatchers ActionSeq Spec_Actions Sequences MatchAnalysis
  Proxy Events Expectation ReturnSet Syntax World Spec_World WorldRel Spec_View SpecFacts SpecCalls SpecLasting
  Spec_Play SpecPlay Capture Spec_Capture.
From Verif Require Import Spec_Conditions.
Import ListNotations.
Open Scope nat_scope.

Definition answering (x : val * option Z) : callable * option Z := (FProg (PRet (fst x)), snd x).

Lemma capture_value : forall mm a g, capture false mm a = Def g -> g = FProg (PRet (value_at mm a)).
Proof.
  intros mm a g. unfold capture, value_at, load. destruct (nth_error mm a) as [[v|]|]; cbn; congruence.
Qed.

Lemma items_meant : forall mm is rs, Return_items false mm is = Def rs ->
  map meant rs = map answering (map (item_values mm) is).
Proof.
  intros mm. induction is as [|i is IH]; intros rs H; cbn in H; [now inversion H|].
  destruct (Return_item false mm i) as [r| |] eqn:RI; cbn in H; try discriminate.
  destruct (Return_items false mm is) as [rs'| |]; cbn in H; try discriminate. inversion H; subst. cbn.
  rewrite (IH rs' eq_refl). f_equal. destruct i as [a|q]; cbn [Return_item] in RI.
  - unfold Return in RI. destruct (capture false mm a) as [g| |] eqn:C; cbn [obind] in RI; inversion RI.
    now rewrite (capture_value _ _ _ C).
  - unfold ReturnQuantifier, load in RI. unfold item_values, value_at.
    destruct (nth_error mm (q_value q)) as [[v|]|]; cbn in RI; inversion RI. reflexivity.
Qed.

Lemma links_meant : forall mm ls rs, links false mm ls = Def rs -> map meant rs = map answering (values mm ls).
Proof.
  intros mm. induction ls as [|l ls IH]; intros rs H; cbn [links] in H; [now inversion H|].
  destruct l as [is|a].
  - destruct (Return_items false mm is) as [r| |] eqn:RI; cbn [obind] in H; try discriminate.
    destruct (links false mm ls) as [rs'| |]; cbn [obind] in H; inversion H; subst.
    rewrite map_app. cbn [values flat_map link_values]. rewrite map_app. f_equal; [now apply items_meant|now apply IH].
  - unfold AlwaysReturn in H. destruct (capture false mm a) as [g| |] eqn:C; cbn [obind] in H; try discriminate.
    destruct (links false mm ls) as [rs'| |]; cbn [obind] in H; inversion H; subst.
    cbn. f_equal; [|now apply IH]. now rewrite (capture_value _ _ _ C).
Qed.

Lemma items_positive : forall b mm is rs, Return_items b mm is = Def rs ->
  Forall (fun i => match i with IQuantifier q => (1 <= q_quantity q)%Z | _ => True end) is ->
  Forall (fun x : recorded callable => match x with RecTimes _ q => (1 <= q)%Z | _ => True end) rs.
Proof.
  intros b mm. induction is as [|i is IH]; intros rs H F; cbn in H; [inversion H; constructor|].
  inversion F as [|? ? P F']; subst.
  destruct (Return_item b mm i) as [r| |] eqn:RI; cbn in H; try discriminate.
  destruct (Return_items b mm is) as [rs'| |]; cbn in H; inversion H; subst. constructor; auto.
  destruct i as [a|q]; cbn [Return_item] in RI.
  - unfold Return in RI. destruct (capture b mm a); cbn [obind] in RI; inversion RI. exact Logic.I.
  - unfold ReturnQuantifier in RI. destruct (load mm (q_value q)); cbn [obind] in RI; inversion RI. exact P.
Qed.

Lemma links_positive : forall b mm ls rs, links b mm ls = Def rs -> Forall positive ls ->
  Forall (fun x : recorded callable => match x with RecTimes _ q => (1 <= q)%Z | _ => True end) rs.
Proof.
  intros b mm. induction ls as [|l ls IH]; intros rs H F; cbn [links] in H; [inversion H; constructor|].
  inversion F as [|? ? P F']; subst. destruct l as [is|a].
  - destruct (Return_items b mm is) as [r| |] eqn:RI; cbn [obind] in H; try discriminate.
    destruct (links b mm ls) as [rs'| |]; cbn [obind] in H; inversion H; subst.
    apply Forall_app. split; [eapply items_positive; eauto|now apply IH].
  - unfold AlwaysReturn in H. destruct (capture b mm a) as [g| |] eqn:C; cbn [obind] in H; try discriminate.
    destruct (links b mm ls) as [rs'| |]; cbn [obind] in H; inversion H; subst.
    constructor; [exact Logic.I|now apply IH].
Qed.

Lemma nth_answering : forall (p : plan val) k,
  nth_answer (map answering p) k = option_map (fun v => FProg (PRet v)) (nth_answer p k).
Proof.
  induction p as [|[v [n|]] p IH]; intro k; cbn; auto. destruct (k <? n)%Z; auto.
Qed.

Section S.
Variable E : env.
Hypothesis iter_perm : iterates E.
Local Notation leads := (leads E).

Lemma returned_values : forall f m0 os s rs t im ls recs m e me s1,
  leads (S f) m0 os s rs -> mentioned E s t m e me s1 -> s_uncaught s = 0 ->
  links false (s_mem s) ls = Def recs -> Forall positive ls ->
  exists s2, leads (S f) m0 (os ++ [OStmt [(t, im)] (SWhen recs None)]) s2 (rs ++ [inl VVoid]) /\
  forall ds s3, story E s2 ds s3 -> Forall (fun d => accepted_call im (dd_op d)) (concerning m e ds) ->
  leads (S f) m0 (os ++ OStmt [(t, im)] (SWhen recs None) :: map dd_op ds) s3 (rs ++ inl VVoid :: map dd_result ds) /\
  forall i d, nth_error (concerning m e ds) i = Some d ->
  match nth_answer (values (s_mem s) ls) (Z.of_nat i) with
  | Some v => dd_result d = inl v
  | None => complains E s (me_no me) (dd_op d) (dd_result d)
  end.
Proof.
  intros f m0 os s rs t im ls recs m e me s1 L M U LK PO.
  destruct (chain_program E iter_perm f m0 os s rs t im recs m e me s1 L M U (links_positive _ _ _ _ LK PO)) as (s2 & L2 & H).
  exists s2. split; [exact L2|]. intros ds s3 ST AC. destruct (H ds s3 ST AC) as (L3 & A). split; [exact L3|].
  intros i d NE. specialize (A i d NE). rewrite (links_meant _ _ _ LK), nth_answering in A.
  destruct (nth_answer (values (s_mem s) ls) (Z.of_nat i)) as [v|]; cbn in A; [|exact A].
  apply A. rewrite Forall_forall in AC. destruct (AC d (nth_error_In _ _ NE)) as (obj & slot & args & EQ & _).
  exists obj, slot, args. split; [exact EQ|]. intro mm. exists mm, args. reflexivity.
Qed.

Lemma assigned_value : forall f m0 os s rs t im a g m e me s1,
  leads (S f) m0 os s rs -> mentioned E s t m e me s1 -> assigned false (s_mem s) a = Def g ->
  exists s2 me2, leads (S f) m0 (os ++ [OStmt [(t, im)] (SAssign g)]) s2 (rs ++ [inl VVoid]) /\
  method_at s2 m e = Some me2 /\
  forall ops rs' s3 o slot args, still_decides E (S f) s2 m e me2 ops rs' s3 o slot args ->
  satisfied (s_mem s3) (cond_of im) args ->
  exists s4, leads (S f) m0 ((os ++ [OStmt [(t, im)] (SAssign g)]) ++ ops ++ [OCall o slot args]) s4
               ((rs ++ [inl VVoid]) ++ rs' ++ [inl (value_at (s_mem s) a)]).
Proof.
  intros f m0 os s rs t im a g m e me s1 L M A. apply capture_value in A. subst g.
  destruct (assign_forever E iter_perm f m0 os s rs t im (FProg (PRet (value_at (s_mem s) a))) m e me s1 L M) as (s2 & me2 & L2 & M2 & H).
  exists s2, me2. split; [exact L2|]. split; [exact M2|]. intros ops rs' s3 o slot args SD IM.
  eapply H; eauto; [reflexivity|discriminate].
Qed.

End S.
