(** * Proofs about destroyed values (Departing.v) *)
From Coq Require Import Bool Arith Lia List.
From Verif Require Import Departing Spec_Departing.
Import ListNotations.
Open Scope nat_scope.

Lemma upd_length {A} (l : list A) i x : length (upd l i x) = length l.
Proof. revert i. induction l; intros [|i]; cbn; auto. Qed.
Lemma upd_same {A} (l : list A) i x y : nth_error l i = Some y -> nth_error (upd l i x) i = Some x.
Proof. revert i. induction l; intros [|i]; cbn; try discriminate; auto. Qed.
Lemma upd_other {A} (l : list A) i j x : i <> j -> nth_error (upd l i x) j = nth_error l j.
Proof. revert i j. induction l; intros [|i] [|j]; cbn; auto; try congruence. Qed.
Lemma repeat_snoc {A} (x : A) n : repeat x n ++ [x] = repeat x (S n).
Proof. induction n; cbn; [reflexivity|]. now rewrite IHn. Qed.
Lemma answered_app m i a b : answered m i (a ++ b) = answered m i a + answered m i b.
Proof. induction a as [|[p q|p q] a IH]; cbn; auto. rewrite IH. lia. Qed.
Lemma nth_some_lt {A} (l : list A) i x : nth_error l i = Some x -> i < length l.
Proof. intros H. apply nth_error_Some. congruence. Qed.

Section Sim.
  Variable w0 : world.
  Variable fr : option nat.
  Variable m : nat.

  Definition like (dead cleared : bool) (cnt : nat) (s0 s : slot) : Prop :=
    if dead then s = Dead
    else match s0, s with
         | Empty, Empty => True
         | Dead, Dead => True
         | Body b0, Body b =>
             b_answers b = b_answers b0 /\ b_held b = b_held b0 /\
             (if cleared then exists x, x <= cnt /\ b_calls b = repeat [] x
              else b_calls b = b_calls b0 ++ repeat [] cnt)
         | _, _ => False
         end.

  Definition stage_now (n : nat) (k0 : mock) : stage :=
    match fr with Some f => if Nat.eqb f n then Detached else mk_stage k0 | None => mk_stage k0 end.

  Definition mlike (D C : nat -> bool) (c : option nat) (em : list seen) (n : nat) (k0 k : mock) : Prop :=
    mk_stage k = stage_now n k0 /\ mk_own k = mk_own k0 /\ mk_dtor k = mk_dtor k0 /\ mk_entries k = mk_entries k0 /\
    mk_clearing k = (if Nat.eqb n m then c else mk_clearing k0) /\
    length (mk_slots k) = length (mk_slots k0) /\
    forall i s0, nth_error (mk_slots k0) i = Some s0 ->
      exists s, nth_error (mk_slots k) i = Some s /\
                like (Nat.eqb n m && D i) (Nat.eqb n m && C i) (answered n i em) s0 s.

  Definition sim (D C : nat -> bool) (c : option nat) (em : list seen) (w : world) : Prop :=
    w_seen w = w_seen w0 ++ em /\ length (w_mocks w) = length (w_mocks w0) /\
    forall n k0, nth_error (w_mocks w0) n = Some k0 ->
      exists k, nth_error (w_mocks w) n = Some k /\ mlike D C c em n k0 k.

  Hypothesis REST : at_rest w0.

  (** The act does not come upon something that is being taken apart. *)
  Definition clear_of (D : nat -> bool) (c : option nat) (a : act) : Prop :=
    forall i x, means w0 a m i -> stubbed w0 fr m i x -> D i = false /\ (x = true -> c <> Some i).

  Definition reaches (a : act) (n i : nat) : Prop := means w0 a n i.

  Lemma step_enter D C c em w a n i :
    sim D C c em w -> means w0 a n i -> nth_error (w_mocks w0) n <> None -> step w a = enter w n i.
  Proof.
    intros (_ & _ & S) R NN. destruct a as [m' i'|m']; cbn in R.
    - destruct R as [-> ->]. reflexivity.
    - destruct R as [-> (k0 & O & DT)]. cbn [step]. destruct (S n k0 O) as (k & -> & L).
      destruct L as (_ & _ & -> & _). now rewrite DT.
  Qed.

  Lemma sim_see D C c em w n i k0 k :
    sim D C c em w -> nth_error (w_mocks w0) n = Some k0 -> nth_error (w_mocks w) n = Some k ->
    sim D C c (em ++ [Original n i]) (see w (Original n i)).
  Proof.
    intros (S1 & S2 & S3) _ _. split; [cbn; rewrite S1; now rewrite <- app_assoc|].
    split; [exact S2|]. intros n' k0' O. destruct (S3 n' k0' O) as (k' & O' & L).
    exists k'. split; [exact O'|]. destruct L as (A1 & A2 & A3 & A4 & A5 & A6 & A7).
    do 6 (split; [assumption|]). intros j s0 J. destruct (A7 j s0 J) as (s & J' & K).
    exists s. split; [exact J'|]. rewrite answered_app. cbn [answered]. now rewrite Nat.add_0_r.
  Qed.

  Lemma sim_answer D C c em w n i k0 k b :
    sim D C c em w -> nth_error (w_mocks w0) n = Some k0 -> nth_error (w_mocks w) n = Some k ->
    nth_error (mk_slots k) i = Some (Body b) -> b_answers b = true ->
    sim D C c (em ++ [Answered n i])
        (see (set_mock w n (set_slot k i (Body (mkBody true (b_held b) (b_calls b ++ [[]]))))) (Answered n i)).
  Proof.
    intros (S1 & S2 & S3) O0 O B BA. split; [cbn; rewrite S1; now rewrite <- app_assoc|].
    split; [cbn; now rewrite upd_length|]. intros n' k0' O'. cbn [w_mocks see set_mock].
    destruct (Nat.eq_dec n n') as [<-|NE].
    - rewrite O0 in O'. injection O' as <-. eexists. split; [eapply upd_same; exact O|].
      destruct (S3 n k0 O0) as (k' & OK & L). rewrite O in OK. injection OK as <-.
      destruct L as (A1 & A2 & A3 & A4 & A5 & A6 & A7).
      split; [exact A1|]. split; [exact A2|]. split; [exact A3|]. split; [exact A4|]. split; [exact A5|].
      split; [cbn; rewrite upd_length; exact A6|].
      intros j s0 J. destruct (A7 j s0 J) as (s & J' & K). cbn [mk_slots set_slot].
      destruct (Nat.eq_dec i j) as [<-|NJ].
      + eexists. split; [eapply upd_same; exact J'|]. rewrite B in J'. injection J' as <-.
        rewrite answered_app. cbn [answered]. rewrite !Nat.eqb_refl. cbn [andb]. rewrite Nat.add_0_r.
        unfold like in *. destruct (Nat.eqb n m && D i); [discriminate K|].
        destruct s0 as [|b0|]; try contradiction. destruct K as (K1 & K2 & K3). cbn [b_answers b_held b_calls].
        split; [congruence|]. split; [exact K2|]. destruct (Nat.eqb n m && C i).
        * destruct K3 as (x & X & ->). exists (S x). split; [lia|]. apply repeat_snoc.
        * rewrite K3, <- app_assoc, repeat_snoc. now rewrite Nat.add_1_r.
      + exists s. split; [now rewrite upd_other|]. rewrite answered_app. cbn [answered].
        replace (Nat.eqb i j) with false by (symmetry; now apply Nat.eqb_neq). rewrite andb_false_r, !Nat.add_0_r. exact K.
    - destruct (S3 n' k0' O') as (k' & OK & L). exists k'. split; [now rewrite upd_other|].
      destruct L as (A1 & A2 & A3 & A4 & A5 & A6 & A7). do 6 (split; [assumption|]).
      intros j s0 J. destruct (A7 j s0 J) as (s & J' & K). exists s. split; [exact J'|].
      rewrite answered_app. cbn [answered]. replace (Nat.eqb n n') with false by (symmetry; now apply Nat.eqb_neq).
      cbn [andb]. now rewrite !Nat.add_0_r.
  Qed.

  Lemma stage_same n k0 : fr <> Some n -> stage_now n k0 = mk_stage k0.
  Proof.
    intros H. unfold stage_now. destruct fr as [f|]; [|reflexivity].
    destruct (Nat.eqb f n) eqn:E; [apply Nat.eqb_eq in E; congruence|reflexivity].
  Qed.

  Lemma enter_stubbed D C c em w a n i x :
    sim D C c em w -> means w0 a n i -> stubbed w0 fr n i x -> clear_of D c a ->
    if x then exists w', enter w n i = Ok w' /\ sim D C c (em ++ [Answered n i]) w' else enter w n i = Ends.
  Proof.
    intros S R (NF & k0 & b0 & O0 & ST & EN & SL & BA) CL. pose proof S as (S1 & S2 & S3).
    unfold of_mock in O0. destruct (S3 n k0 O0) as (k & O & L). pose proof L as (A1 & A2 & A3 & A4 & A5 & A6 & A7).
    destruct (A7 i _ SL) as (s & SL' & K). rewrite stage_same in A1 by exact NF.
    unfold enter. rewrite O, A4, EN, A1, ST, SL'.
    assert (DF : Nat.eqb n m && D i = false).
    { destruct (Nat.eqb n m) eqn:E; [|reflexivity]. apply Nat.eqb_eq in E. subst n. cbn.
      apply (CL i x R). split; [exact NF|]. now exists k0, b0. }
    unfold like in K. rewrite DF in K. destruct s as [|b|]; try contradiction. destruct K as (K1 & K2 & K3).
    rewrite K1, BA. destruct x; [|reflexivity].
    assert (CF : is_clearing k i = false).
    { unfold is_clearing. rewrite A5. destruct (Nat.eqb n m) eqn:E.
      - apply Nat.eqb_eq in E. subst n. destruct c as [j|]; [|reflexivity]. apply Nat.eqb_neq. intros ->.
        assert (Q : stubbed w0 fr m j true) by (split; [exact NF|now exists k0, b0]).
        destruct (CL j true R Q) as [_ Z]. now apply Z.
      - destruct (REST n k0 O0) as (-> & _). reflexivity. }
    rewrite CF. eexists. split; [reflexivity|]. eapply sim_answer; eauto.
  Qed.

  Lemma enter_plain D C c em w n i own d :
    sim D C c em w -> plain w0 fr n i own d ->
    exists k, nth_error (w_mocks w) n = Some k /\ mk_own k = own /\ mk_dtor k = d /\ enter w n i = original w n k i.
  Proof.
    intros (S1 & S2 & S3) (k0 & O0 & OW & DT & LT & ST). unfold of_mock in O0.
    destruct (S3 n k0 O0) as (k & O & (A1 & A2 & A3 & A4 & A5 & A6 & A7)).
    exists k. split; [exact O|]. split; [congruence|]. split; [congruence|].
    unfold enter. rewrite O, A4. destruct (nth_error (mk_entries k0) i) as [e|] eqn:EN.
    2:{ apply nth_error_None in EN. lia. }
    rewrite A1. unfold stage_now. destruct fr as [f|] eqn:FR.
    - destruct (Nat.eqb f n) eqn:E; [reflexivity|]. apply Nat.eqb_neq in E.
      destruct ST as [[ST|[ST|[ST W]]]|[ST W]]; try congruence; rewrite ST; try reflexivity.
      + rewrite A2, OW, W. reflexivity.
      + injection W as ->. reflexivity.
    - destruct ST as [[ST|[ST|[ST W]]]|[ST W]]; try congruence; rewrite ST; try reflexivity.
      + rewrite A2, OW, W. reflexivity.
      + injection W as ->. reflexivity.
  Qed.

  Lemma stub_mock n i x : stubbed w0 fr n i x -> nth_error (w_mocks w0) n <> None.
  Proof. intros (_ & k & b & O & _). unfold of_mock in O. congruence. Qed.
  Lemma plain_mock n i o d : plain w0 fr n i o d -> nth_error (w_mocks w0) n <> None.
  Proof. intros (k & O & _). unfold of_mock in O. congruence. Qed.

  Lemma step_told D C c em w a l :
    sim D C c em w -> clear_of D c a -> told w0 fr a l ->
    exists w', step w a = Ok w' /\ sim D C c (em ++ l) w'.
  Proof.
    intros S CL T. destruct T as [n i M ST|n i d M P|n i M P].
    - rewrite (step_enter D C c em w a n i S M (stub_mock _ _ _ ST)).
      exact (enter_stubbed D C c em w a n i true S M ST CL).
    - rewrite (step_enter D C c em w a n i S M (plain_mock _ _ _ _ P)).
      destruct (enter_plain D C c em w n i false d S P) as (k & O & OW & DT & ->).
      unfold original. rewrite OW. eexists. split; [reflexivity|].
      destruct P as (k0 & O0 & _). eapply sim_see; eauto.
    - rewrite (step_enter D C c em w a n i S M (plain_mock _ _ _ _ P)).
      destruct (enter_plain D C c em w n i true (Some i) S P) as (k & O & OW & DT & ->).
      unfold original. rewrite OW, DT, Nat.eqb_refl. eexists. split; [reflexivity|]. now rewrite app_nil_r.
  Qed.

  Lemma step_fails D C c em w a :
    sim D C c em w -> clear_of D c a -> fails w0 fr a -> step w a = Ends.
  Proof.
    intros S CL T. destruct T as [n i M ST|n i d M P ND].
    - rewrite (step_enter D C c em w a n i S M (stub_mock _ _ _ ST)).
      exact (enter_stubbed D C c em w a n i false S M ST CL).
    - rewrite (step_enter D C c em w a n i S M (plain_mock _ _ _ _ P)).
      destruct (enter_plain D C c em w n i true d S P) as (k & O & OW & DT & ->).
      unfold original. rewrite OW, DT. destruct d as [d|]; [|reflexivity].
      destruct (Nat.eqb i d) eqn:E; [|reflexivity]. apply Nat.eqb_eq in E. congruence.
  Qed.

  (** Coming upon it. *)
  Lemma step_bad D C c em w a j x :
    sim D C c em w -> means w0 a m j -> stubbed w0 fr m j x -> (D j = true \/ D j = false /\ x = true /\ c = Some j) ->
    step w a = UB.
  Proof.
    intros S M ST BAD. rewrite (step_enter D C c em w a m j S M (stub_mock _ _ _ ST)).
    destruct ST as (NF & k0 & b0 & O0 & ST & EN & SL & BA). pose proof S as (S1 & S2 & S3).
    destruct (S3 m k0 O0) as (k & O & (A1 & A2 & A3 & A4 & A5 & A6 & A7)).
    destruct (A7 j _ SL) as (s & SL' & K). rewrite stage_same in A1 by exact NF.
    unfold enter. rewrite O, A4, EN, A1, ST, SL'. unfold like in K. rewrite Nat.eqb_refl in K, A5. cbn [andb] in K.
    destruct BAD as [BAD|(BAD & -> & ->)]; rewrite BAD in K.
    - now rewrite K.
    - destruct s as [|b|]; try contradiction. destruct K as (K1 & _). rewrite K1, BA.
      unfold is_clearing. rewrite A5, Nat.eqb_refl. reflexivity.
  Qed.

  Lemma possible_told a : possible w0 fr a -> (exists l, told w0 fr a l) \/ fails w0 fr a.
  Proof.
    intros (n & i & M & [([|] & ST)|(o & d & P)]).
    - left. eexists. eapply t_answered; eauto.
    - right. eapply f_unmatched; eauto.
    - destruct o.
      + destruct d as [d|]; [destruct (Nat.eq_dec d i) as [->|NE]|].
        * left. eexists. eapply t_ignored; eauto.
        * right. eapply f_unmocked; eauto. congruence.
        * right. eapply f_unmocked; eauto. congruence.
      + left. eexists. eapply t_original; eauto.
  Qed.
End Sim.

(** ** Lists of acts *)

Lemma bind_ok r : bind r Ok = r.
Proof. now destruct r. Qed.
Lemma bind_bind r f g : bind (bind r f) g = bind r (fun w => bind (f w) g).
Proof. now destruct r. Qed.
Lemma bind_ext r f g : (forall w, f w = g w) -> bind r f = bind r g.
Proof. intros H. destruct r; cbn; auto. Qed.

Lemma steps_app w a b : steps w (a ++ b) = bind (steps w a) (fun w => steps w b).
Proof.
  revert w. induction a as [|x a IH]; intros w; cbn [steps app]; [reflexivity|].
  rewrite bind_bind. apply bind_ext. exact IH.
Qed.

Lemma destroy_values_steps w l : destroy_values w l = steps w (concat l).
Proof.
  revert w. induction l as [|v l IH]; intros w; cbn [destroy_values concat]; [reflexivity|].
  rewrite steps_app. apply bind_ext. exact IH.
Qed.

Lemma destroy_vector_steps fw w l : destroy_vector fw w l = steps w (concat (turn fw l)).
Proof. apply destroy_values_steps. Qed.

Lemma concat_nils {A} n : concat (repeat (@nil A) n) = [].
Proof. induction n; auto. Qed.
Lemma rev_repeat {A} (x : A) n : rev (repeat x n) = repeat x n.
Proof. induction n; cbn; [reflexivity|]. rewrite IHn. apply repeat_snoc. Qed.

Lemma turn_nils fw (l : list value) n : concat (turn fw (l ++ repeat [] n)) = concat (turn fw l).
Proof.
  destruct fw; cbn [turn].
  - rewrite concat_app. transitivity (concat l ++ []); [f_equal; apply concat_nils|apply app_nil_r].
  - rewrite rev_app_distr, rev_repeat, concat_app. transitivity ([] ++ concat (rev l)); [f_equal; apply concat_nils|reflexivity].
Qed.

Definition prefix (em : list seen) (o : outcome) : outcome :=
  match o with Fine l => Fine (em ++ l) | Stops => Stops | Undefined => Undefined end.

Lemma prefix_app a b o : prefix a (prefix b o) = prefix (a ++ b) o.
Proof. destruct o; cbn; [now rewrite app_assoc| |]; reflexivity. Qed.
Lemma prefix_nil o : prefix [] o = o.
Proof. now destruct o. Qed.

Section Walk.
  Variable w0 : world.
  Variable fr : option nat.
  Variable m : nat.
  Variable bad : nat -> act -> Prop.
  Hypothesis REST : at_rest w0.
  Notation sim := (sim w0 fr m).
  Notation goes := (goes w0 fr bad).

  Definition matches_bad (D : nat -> bool) (c : option nat) (i : nat) : Prop :=
    forall a, bad i a <-> exists j x, means w0 a m j /\ stubbed w0 fr m j x /\
                                      (D j = true \/ D j = false /\ x = true /\ c = Some j).

  Definition follows (D C : nat -> bool) (c : option nat) (em : list seen) (r : list (nat * act)) (o : outcome) (res : result) : Prop :=
    match res with
    | Ok w' => exists em' o', sim D C c (em ++ em') w' /\ goes r o' /\ o = prefix em' o'
    | Ends => o = Stops
    | UB => o = Undefined
    end.

  Lemma steps_goes D C c i l r : matches_bad D c i -> forall em w o,
    sim D C c em w -> goes (map (pair i) l ++ r) o -> follows D C c em r o (steps w l).
  Proof.
    intros MB. induction l as [|a l IH]; intros em w o S G; cbn [steps map app] in *.
    - exists [], o. rewrite app_nil_r, prefix_nil. auto.
    - assert (CL : ~ bad i a -> clear_of w0 fr m D c a).
      { intros NB j x M ST. split.
        - destruct (D j) eqn:E; [|reflexivity]. exfalso. apply NB, MB. exists j, x. auto.
        - intros -> ->. apply NB, MB. exists j, true. split; [exact M|]. split; [exact ST|].
          destruct (D j); auto. }
      inversion G as [|? ? ? l0 l' NB T G'|? ? ? l0 o1 NB T G' NF|? ? ? NB F|? ? ? B]; subst.
      + destruct (step_told w0 fr m REST D C c em w a l0 S (CL NB) T) as (w' & -> & S').
        cbn [bind]. specialize (IH _ _ _ S' G'). unfold follows in *.
        destruct (steps w' l); [|discriminate IH|discriminate IH].
        destruct IH as (em' & o' & S'' & G2 & E). exists (l0 ++ em'), o'. rewrite app_assoc.
        split; [exact S''|]. split; [exact G2|]. rewrite <- prefix_app, <- E. reflexivity.
      + destruct (step_told w0 fr m REST D C c em w a l0 S (CL NB) T) as (w' & -> & S').
        cbn [bind]. specialize (IH _ _ _ S' G'). unfold follows in *.
        destruct (steps w' l); [|exact IH|exact IH].
        destruct IH as (em' & o' & S'' & G2 & E). exists (l0 ++ em'), o'. rewrite app_assoc.
        split; [exact S''|]. split; [exact G2|]. rewrite <- prefix_app, <- E.
        destruct o as [l1| |]; [now destruct (NF l1)| |]; reflexivity.
      + rewrite (step_fails w0 fr m REST D C c em w a S (CL NB) F). reflexivity.
      + destruct (proj1 (MB a) B) as (j & x & M & ST & Q).
        rewrite (step_bad w0 fr m D C c em w a j x S M ST Q). reflexivity.
  Qed.

  (** *** Taking the methods apart *)

  Definition dies (D : nat -> bool) (i : nat) : nat -> bool := fun j => D j || Nat.eqb j i.

  Lemma sim_dead D C c em w i k0 k s0 :
    sim D C c em w -> nth_error (w_mocks w0) m = Some k0 -> nth_error (w_mocks w) m = Some k ->
    nth_error (mk_slots k0) i = Some s0 ->
    sim (dies D i) C c em (set_mock w m (set_slot k i Dead)).
  Proof.
    intros (S1 & S2 & S3) O0 O I0. split; [exact S1|]. split; [cbn; now rewrite upd_length|].
    intros n' k0' O'. cbn [w_mocks set_mock]. destruct (Nat.eq_dec m n') as [<-|NE].
    - rewrite O0 in O'. injection O' as <-. eexists. split; [eapply upd_same; exact O|].
      destruct (S3 m k0 O0) as (k' & OK & L). rewrite O in OK. injection OK as <-.
      destruct L as (A1 & A2 & A3 & A4 & A5 & A6 & A7). do 5 (split; [assumption|]).
      split; [cbn; rewrite upd_length; exact A6|].
      intros j s1 J. destruct (A7 j s1 J) as (s & J' & K). cbn [mk_slots set_slot]. unfold dies.
      destruct (Nat.eq_dec i j) as [<-|NJ].
      + exists Dead. split; [eapply upd_same; exact J'|]. rewrite !Nat.eqb_refl, orb_true_r. reflexivity.
      + exists s. split; [now rewrite upd_other|].
        replace (Nat.eqb j i) with false by (symmetry; apply Nat.eqb_neq; congruence). now rewrite orb_false_r.
    - destruct (S3 n' k0' O') as (k' & OK & L). exists k'. split; [now rewrite upd_other|].
      destruct L as (A1 & A2 & A3 & A4 & A5 & A6 & A7). do 6 (split; [assumption|]).
      intros j s1 J. destruct (A7 j s1 J) as (s & J' & K). exists s. split; [exact J'|].
      replace (Nat.eqb n' m) with false in * by (symmetry; apply Nat.eqb_neq; congruence). exact K.
  Qed.

  Definition kept_for (fw : bool) (p : nat * slot) : list (nat * act) :=
    match snd p with
    | Body b => acts_of fw (fst p) (b_calls b) ++ acts_of fw (fst p) (b_held b)
    | _ => []
    end.

  Lemma destroy_slot_goes fw D i s0 k0 r em w o :
    nth_error (w_mocks w0) m = Some k0 -> nth_error (mk_slots k0) i = Some s0 -> s0 <> Dead -> D i = false ->
    matches_bad (dies D i) None i ->
    sim D (fun _ => false) None em w -> goes (kept_for fw (i, s0) ++ r) o ->
    follows (dies D i) (fun _ => false) None em r o (destroy_slot fw m i w).
  Proof.
    intros O0 I0 ND DF MB S G. pose proof S as (S1 & S2 & S3).
    destruct (S3 m k0 O0) as (k & O & L). pose proof L as (A1 & A2 & A3 & A4 & A5 & A6 & A7).
    destruct (A7 i s0 I0) as (s & I & K). rewrite DF, andb_false_r in K. unfold like in K.
    unfold destroy_slot. rewrite O, I.
    pose proof (sim_dead D _ None em w i k0 k s0 S O0 O I0) as SD.
    destruct s0 as [|b0|]; destruct s as [|b|]; try contradiction; try congruence.
    - cbn in G. exists [], o. rewrite app_nil_r, prefix_nil. auto.
    - destruct K as (K1 & K2 & K3). unfold destroy_body.
      erewrite bind_ext by (intros w'; apply destroy_vector_steps).
      rewrite destroy_vector_steps, <- steps_app, K2, K3, turn_nils.
      eapply steps_goes; [exact MB|exact SD|].
      cbn [kept_for fst snd] in G. unfold acts_of in G. now rewrite map_app.
  Qed.

  Definition among (l : list nat) : nat -> bool := fun j => existsb (Nat.eqb j) l.

  Lemma among_snoc l i : forall j, among (l ++ [i]) j = dies (among l) i j.
  Proof. intros j. unfold among, dies. rewrite existsb_app. cbn. now rewrite orb_false_r. Qed.

  Lemma sim_ext D D' C C' c em w :
    (forall j, D j = D' j) -> (forall j, C j = C' j) -> sim D C c em w -> sim D' C' c em w.
  Proof.
    intros E E' (S1 & S2 & S3). split; [exact S1|]. split; [exact S2|]. intros n k0 O.
    destruct (S3 n k0 O) as (k & OK & (A1 & A2 & A3 & A4 & A5 & A6 & A7)). exists k. split; [exact OK|].
    do 6 (split; [assumption|]). intros j s J. rewrite <- E, <- E'. exact (A7 j s J).
  Qed.

  Lemma matches_ext D D' c i : (forall j, D j = D' j) -> matches_bad D c i -> matches_bad D' c i.
  Proof.
    intros E MB a. rewrite (MB a). split; intros (j & x & M & ST & Q); exists j, x; (split; [exact M|]; split; [exact ST|]).
    - rewrite <- E. exact Q.
    - rewrite E. exact Q.
  Qed.

  Lemma destroy_slots_goes fw k0 :
    nth_error (w_mocks w0) m = Some k0 ->
    forall ps pre em w o,
    (forall i s, In (i, s) ps -> nth_error (mk_slots k0) i = Some s /\ s <> Dead) ->
    NoDup (pre ++ map fst ps) ->
    (forall p1 i p2, map fst ps = p1 ++ i :: p2 -> matches_bad (among (pre ++ p1 ++ [i])) None i) ->
    sim (among pre) (fun _ => false) None em w ->
    goes (flat_map (kept_for fw) ps) o ->
    follows (among (pre ++ map fst ps)) (fun _ => false) None em [] o (destroy_slots fw m (map fst ps) w).
  Proof.
    intros O0. induction ps as [|[i s] ps IH]; intros pre em w o IN ND MB S G; cbn [map fst destroy_slots flat_map] in *.
    - rewrite app_nil_r. exists [], o. rewrite app_nil_r, prefix_nil. auto.
    - destruct (IN i s (or_introl eq_refl)) as [I0 NDead].
      assert (DF : among pre i = false).
      { unfold among. destruct (existsb (Nat.eqb i) pre) eqn:E; [|reflexivity].
        apply existsb_exists in E. destruct E as (j & J & E). apply Nat.eqb_eq in E. subst j.
        apply NoDup_remove_2 in ND. exfalso. apply ND, in_or_app. now left. }
      assert (MB1 : matches_bad (dies (among pre) i) None i).
      { eapply matches_ext; [apply among_snoc|]. exact (MB [] i (map fst ps) eq_refl). }
      pose proof (destroy_slot_goes fw (among pre) i s k0 _ em w o O0 I0 NDead DF MB1 S G) as F.
      destruct (destroy_slot fw m i w) as [w'| |]; cbn [bind]; [|exact F|exact F].
      destruct F as (em' & o' & S' & G' & ->).
      assert (S'' : sim (among (pre ++ [i])) (fun _ => false) None (em ++ em') w').
      { eapply sim_ext; [|reflexivity|exact S']. intros j. symmetry. apply among_snoc. }
      replace (pre ++ i :: map fst ps) with ((pre ++ [i]) ++ map fst ps) in * by now rewrite <- app_assoc.
      assert (F2 := IH (pre ++ [i]) (em ++ em') w' o'). unfold follows in *.
      assert (F3 : match destroy_slots fw m (map fst ps) w' with
                   | Ok w'0 => exists em'0 o'0, sim (among ((pre ++ [i]) ++ map fst ps)) (fun _ => false) None ((em ++ em') ++ em'0) w'0 /\ goes [] o'0 /\ o' = prefix em'0 o'0
                   | Ends => o' = Stops | UB => o' = Undefined end).
      { apply F2; [| | |exact S''|exact G'].
        - intros j t J. apply IN. now right.
        - exact ND.
        - intros p1 j p2 E. specialize (MB (i :: p1) j p2). cbn [app] in MB. rewrite <- app_assoc. cbn [app]. apply MB.
          now rewrite E. }
      destruct (destroy_slots fw m (map fst ps) w') as [w''| |]; [|now rewrite F3|now rewrite F3].
      destruct F3 as (em2 & o2 & S3 & G3 & ->). exists (em' ++ em2), o2.
      rewrite app_assoc. split; [exact S3|]. split; [exact G3|]. apply prefix_app.
  Qed.
End Walk.

Lemma numbered_in {A} (l : list A) i x : In (i, x) (numbered l) -> nth_error l i = Some x.
Proof.
  unfold numbered. enough (H : forall b, In (i, x) (combine (seq b (length l)) l) -> b <= i /\ nth_error l (i - b) = Some x).
  { intros I. destruct (H 0 I) as [_ E]. now rewrite Nat.sub_0_r in E. }
  induction l as [|y l IH]; intros b; cbn; [tauto|]. intros [E|I].
  - injection E as <- <-. split; [lia|]. now rewrite Nat.sub_diag.
  - destruct (IH _ I) as [L E]. split; [lia|]. replace (i - b) with (S (i - S b)) by lia. exact E.
Qed.

Lemma combine_fst {A} (l : list A) : forall b, map fst (combine (seq b (length l)) l) = seq b (length l).
Proof. induction l as [|x l IH]; intros b; cbn; [reflexivity|]. now rewrite IH. Qed.
Lemma numbered_fst {A} (l : list A) : map fst (numbered l) = seq 0 (length l).
Proof. apply combine_fst. Qed.

Lemma turn_fst {A} fw (l : list A) : map fst (turn fw (numbered l)) = order fw (length l).
Proof. destruct fw; cbn; [|rewrite map_rev]; now rewrite numbered_fst. Qed.

Lemma in_turn {A} fw (l : list A) x : In x (turn fw l) -> In x l.
Proof. destruct fw; cbn; [auto|]. apply in_rev. Qed.

Lemma order_nodup fw n : NoDup (order fw n).
Proof. destruct fw; cbn; [|apply NoDup_rev]; apply seq_NoDup. Qed.

Lemma among_in l j : among l j = true <-> In j l.
Proof.
  unfold among. rewrite existsb_exists. split.
  - intros (x & I & E). apply Nat.eqb_eq in E. now subst.
  - intros I. exists j. split; [exact I|apply Nat.eqb_refl].
Qed.

Lemma in_order fw n j : In j (order fw n) <-> j < n.
Proof. destruct fw; cbn; [|rewrite <- in_rev]; rewrite in_seq; lia. Qed.

(** The indices up to and with [i] in either order. *)
Lemma seq_split_at b n p1 i p2 : seq b n = p1 ++ i :: p2 -> forall j, In j (p1 ++ [i]) <-> b <= j <= i.
Proof.
  revert b p1. induction n as [|n IH]; intros b p1 E j; [destruct p1; discriminate|].
  cbn in E. destruct p1 as [|x p1]; cbn in *.
  - injection E as <- _. split; [intros [<-|[]]; lia|intros; left; lia].
  - injection E as <- E. rewrite (IH _ _ E j). split; [intros [<-|H]; [|lia]|].
    + assert (In i (seq (S b) n)) by (rewrite E; apply in_or_app; right; now left). apply in_seq in H. lia.
    + intros [H1 H2]. destruct (Nat.eq_dec b j); [now left|right; lia].
Qed.

Lemma order_split fw n p1 i p2 : order fw n = p1 ++ i :: p2 ->
  forall j, j < n -> (In j (p1 ++ [i]) <-> if fw then j <= i else i <= j).
Proof.
  destruct fw; cbn; intros E j J.
  - rewrite (seq_split_at _ _ _ _ _ E j). lia.
  - assert (E' : seq 0 n = rev p2 ++ i :: rev p1).
    { rewrite <- (rev_involutive (seq 0 n)), E, rev_app_distr. cbn. now rewrite <- app_assoc. }
    pose proof (seq_split_at _ _ _ _ _ E' j) as Q. pose proof (seq_NoDup n 0) as ND. rewrite E' in ND.
    assert (IJ : In j (rev p2 ++ i :: rev p1)) by (rewrite <- E'; apply in_seq; lia).
    rewrite !in_app_iff in *. cbn in *. rewrite <- !in_rev in *.
    destruct (Nat.eq_dec i j) as [<-|NE]; [split; [lia|auto]|].
    split.
    + intros [I|[I|[]]]; [|lia]. destruct (le_lt_dec i j); [assumption|]. exfalso.
      assert (I2 : In j p2 \/ i = j \/ False) by (apply Q; lia). destruct I2 as [I2|[I2|[]]]; [|congruence].
      clear - ND I I2. apply NoDup_remove_1 in ND.
      induction (rev p2) as [|x l IH] eqn:R in ND, I2 |- *.
      * apply (f_equal (@rev nat)) in R. rewrite rev_involutive in R. subst p2. contradiction.
      * clear IH. assert (In j (rev p2)) by (apply in_rev in I2; exact I2). rewrite R in H.
        apply in_split in H. destruct H as (l1 & l2 & H). rewrite H in ND. rewrite <- app_assoc in ND. cbn in ND.
        apply NoDup_remove_2 in ND. apply ND. rewrite !in_app_iff. right. right. now apply -> in_rev.
    + intros L. destruct IJ as [I|[I|I]]; [|congruence|now left].
      exfalso. assert (In j p2 \/ i = j \/ False) by now left. apply Q in H. lia.
Qed.

(** ** Destroying a mock, resetting it *)

Section Theorems.
  Variable w : world.
  Variable m : nat.
  Variable k : mock.
  Hypothesis REST : at_rest w.
  Hypothesis MK : nth_error (w_mocks w) m = Some k.
  Hypothesis AT : mk_stage k = Attached.

  Lemma sim_start fr :
    fr = None -> sim w fr m (among []) (fun _ => false) None [] w.
  Proof.
    intros ->. split; [now rewrite app_nil_r|]. split; [reflexivity|]. intros n k0 O. exists k0. split; [exact O|].
    do 4 (split; [reflexivity|]). split; [destruct (REST n k0 O) as (-> & _); now destruct (Nat.eqb n m)|].
    split; [reflexivity|]. intros i s I. exists s. split; [exact I|]. cbn. rewrite !andb_false_r. cbn.
    destruct s; auto. split; [reflexivity|]. split; [reflexivity|]. now rewrite app_nil_r.
  Qed.

  Lemma sim_start_free :
    sim w (Some m) m (among []) (fun _ => false) None [] (set_mock w m (set_stage k Detached)).
  Proof.
    split; [cbn; now rewrite app_nil_r|]. split; [cbn; now rewrite upd_length|]. intros n k0 O. cbn [w_mocks set_mock].
    destruct (Nat.eq_dec m n) as [<-|NE].
    - rewrite MK in O. injection O as <-. eexists. split; [eapply upd_same; exact MK|].
      split; [cbn; now rewrite Nat.eqb_refl|]. do 3 (split; [reflexivity|]).
      split; [rewrite Nat.eqb_refl; apply (REST m k MK)|].
      split; [reflexivity|]. intros i s I. exists s. split; [exact I|]. cbn. rewrite !andb_false_r. cbn.
      destruct s; auto. split; [reflexivity|]. split; [reflexivity|]. now rewrite app_nil_r.
    - exists k0. split; [now rewrite upd_other|].
      split; [cbn; replace (Nat.eqb m n) with false by (symmetry; now apply Nat.eqb_neq); reflexivity|].
      do 3 (split; [reflexivity|]).
      split; [now replace (Nat.eqb n m) with false by (symmetry; apply Nat.eqb_neq; congruence)|].
      split; [reflexivity|]. intros i s I. exists s. split; [exact I|]. cbn. rewrite !andb_false_r. cbn.
      destruct s; auto. split; [reflexivity|]. split; [reflexivity|]. now rewrite app_nil_r.
  Qed.

  Lemma slots_alive : forall i s, In (i, s) (numbered (mk_slots k)) -> nth_error (mk_slots k) i = Some s /\ s <> Dead.
  Proof.
    intros i s I. apply numbered_in in I. split; [exact I|]. intros ->.
    destruct (REST m k MK) as (_ & _ & R). specialize (R AT i). rewrite I in R. exact R.
  Qed.

  Lemma stubbed_lt fr j x : stubbed w fr m j x -> j < length (mk_slots k).
  Proof.
    intros (_ & k' & b & O & _ & _ & S & _). unfold of_mock in O. rewrite MK in O. injection O as <-.
    eapply nth_some_lt; eauto.
  Qed.

  Lemma settled_other fr D C c em n k0 k' :
    mlike fr m D C c em n k0 k' -> n <> m -> fr <> Some n -> settled k0 -> settled k'.
  Proof.
    intros (A1 & A2 & A3 & A4 & A5 & A6 & A7) NM NF (R1 & R2 & R3).
    replace (Nat.eqb n m) with false in * by (symmetry; now apply Nat.eqb_neq).
    rewrite stage_same in A1 by exact NF. split; [congruence|]. split; [congruence|]. intros ST i. rewrite A1 in ST.
    specialize (R3 ST i). rewrite A4. destruct (nth_error (mk_slots k0) i) as [s0|] eqn:E.
    - destruct (A7 i s0 E) as (s & -> & K). cbn in K. destruct s0, s; try contradiction; exact R3.
    - apply nth_error_None in E. destruct (nth_error (mk_slots k') i) eqn:E'; [|exact Logic.I].
      apply nth_some_lt in E'. lia.
  Qed.

  Lemma grew fr D C c em w' : sim w fr m D C c em w' -> others_grew w w' m em.
  Proof.
    intros (S1 & S2 & S3) n i h NM (k0 & b & O & I & <-). destruct (S3 n k0 O) as (k' & O' & (A1 & A2 & A3 & A4 & A5 & A6 & A7)).
    destruct (A7 i _ I) as (s & I' & K). replace (Nat.eqb n m) with false in K by (symmetry; now apply Nat.eqb_neq).
    cbn in K. destruct s as [|b'|]; try contradiction. destruct K as (_ & _ & K). exists k', b'. auto.
  Qed.

  Lemma grew_set w1 l k1 : others_grew w w1 m l -> others_grew w (set_mock w1 m k1) m l.
  Proof.
    intros G n i h NM H. destruct (G n i h NM H) as (k' & b & O & I & E). exists k', b.
    split; [|auto]. cbn [w_mocks set_mock]. rewrite upd_other; [exact O|congruence].
  Qed.

  Lemma rest_set fr D C c em w1 k1 :
    (fr = None \/ fr = Some m) -> sim w fr m D C c em w1 -> settled k1 -> at_rest (set_mock w1 m k1).
  Proof.
    intros FR S K1 n k' O. pose proof S as (S1 & S2 & S3). cbn [w_mocks set_mock] in O.
    destruct (Nat.eq_dec m n) as [<-|NE].
    - destruct (S3 m k MK) as (k2 & O2 & _). erewrite upd_same in O by exact O2. injection O as <-. exact K1.
    - rewrite upd_other in O by exact NE. destruct (nth_error (w_mocks w) n) as [k0|] eqn:O0.
      + destruct (S3 n k0 O0) as (k2 & O2 & L). rewrite O in O2. injection O2 as <-.
        eapply settled_other; [exact L|congruence|destruct FR; congruence|exact (REST n k0 O0)].
      + apply nth_error_None in O0. apply nth_some_lt in O. lia.
  Qed.

  Lemma goes_nil fr bad o : goes w fr bad [] o -> o = Fine [].
  Proof. intros G. now inversion G. Qed.

  Theorem destroyed fw o :
    goes w (Some m) (fun _ _ => False) (all_kept fw k) o ->
    match o with
    | Fine l => exists w' k', destroy_mock fw m w = Ok w' /\ w_seen w' = w_seen w ++ l /\ at_rest w' /\
                              nth_error (w_mocks w') m = Some k' /\ mk_stage k' = Gone /\ others_grew w w' m l
    | Stops => destroy_mock fw m w = Ends
    | Undefined => False
    end.
  Proof.
    intros G.
    assert (NU : o <> Undefined).
    { clear - G. intros ->. remember Undefined as u. induction G; try discriminate; auto. }
    unfold destroy_mock. rewrite MK. unfold empty_slots. cbn [w_mocks set_mock].
    erewrite upd_same by exact MK. cbn [mk_slots set_stage].
    rewrite <- turn_fst.
    assert (F : follows w (Some m) m (fun _ _ => False) (among ([] ++ map fst (turn fw (numbered (mk_slots k))))) (fun _ => false) None [] [] o
                        (destroy_slots fw m (map fst (turn fw (numbered (mk_slots k)))) (set_mock w m (set_stage k Detached)))).
    { eapply destroy_slots_goes; [exact REST|exact MK| | | |exact sim_start_free|exact G].
      - intros i s I. apply slots_alive. now apply in_turn in I.
      - cbn [app]. rewrite turn_fst. apply order_nodup.
      - intros p1 i p2 _ a. split; [tauto|]. intros (j & x & _ & (NF & _) & _). now apply NF. }
    destruct (destroy_slots fw m _ _) as [w'| |]; cbn [follows bind] in *; [|now subst|congruence].
    destruct F as (em' & o' & S & G' & ->). apply goes_nil in G'. subst o'. cbn [prefix app] in *.
    rewrite app_nil_r. pose proof S as (S1 & S2 & S3).
    destruct (S3 m k MK) as (k' & O' & (A1 & A2 & A3 & A4 & A5 & A6 & A7)). rewrite O'.
    exists (set_mock w' m (set_stage k' Gone)), (set_stage k' Gone).
    split; [reflexivity|]. split; [exact S1|]. split; [|split; [|split; [reflexivity|]]].
    - eapply rest_set; [right; reflexivity|exact S|]. split; [cbn; rewrite A5, Nat.eqb_refl; reflexivity|].
      split; [cbn; rewrite A6, A4; apply (REST m k MK)|]. cbn. discriminate.
    - cbn. eapply upd_same; exact O'.
    - apply grew_set. eapply grew; exact S.
  Qed.

  Theorem resets fw o :
    goes w None (bad_reset w fw m) (all_kept fw k) o ->
    match o with
    | Fine l => exists w' k', reset fw m w = Ok w' /\ w_seen w' = w_seen w ++ l /\ at_rest w' /\
                              nth_error (w_mocks w') m = Some k' /\ mk_stage k' = Attached /\
                              length (mk_entries k') = length (mk_entries k) /\
                              (forall e, In e (mk_entries k') -> e = Orig) /\ others_grew w w' m l
    | Stops => reset fw m w = Ends
    | Undefined => reset fw m w = UB
    end.
  Proof.
    intros G. unfold reset, empty_slots. rewrite MK. rewrite <- turn_fst.
    assert (F : follows w None m (bad_reset w fw m) (among ([] ++ map fst (turn fw (numbered (mk_slots k))))) (fun _ => false) None [] [] o
                        (destroy_slots fw m (map fst (turn fw (numbered (mk_slots k)))) w)).
    { eapply destroy_slots_goes; [exact REST|exact MK| | | |apply sim_start; reflexivity|exact G].
      - intros i s I. apply slots_alive. now apply in_turn in I.
      - cbn [app]. rewrite turn_fst. apply order_nodup.
      - intros p1 i p2 E a. rewrite turn_fst in E. cbn [app]. unfold bad_reset.
        split; intros (j & x & M & ST & Q); exists j, x; (split; [exact M|]; split; [exact ST|]).
        + left. apply among_in. eapply order_split; [exact E|eapply stubbed_lt; exact ST|exact Q].
        + destruct Q as [Q|(_ & _ & Q)]; [|discriminate]. apply among_in in Q.
          eapply order_split; [exact E|eapply stubbed_lt; exact ST|exact Q]. }
    destruct (destroy_slots fw m _ _) as [w'| |]; cbn [follows bind] in *; [|now subst|now subst].
    destruct F as (em' & o' & S & G' & ->). apply goes_nil in G'. subst o'. cbn [prefix app] in *.
    rewrite app_nil_r. pose proof S as (S1 & S2 & S3).
    destruct (S3 m k MK) as (k' & O' & (A1 & A2 & A3 & A4 & A5 & A6 & A7)). rewrite O'.
    eexists _, _. split; [reflexivity|]. split; [exact S1|]. split; [|split; [cbn; eapply upd_same; exact O'|]].
    - eapply rest_set; [left; reflexivity|exact S|]. split; [cbn; rewrite A5, Nat.eqb_refl; reflexivity|].
      split; [cbn; rewrite !map_length, A6, A4; apply (REST m k MK)|]. cbn [mk_stage mk_slots mk_entries].
      intros _ i. destruct (nth_error (map (fun _ => Empty) (mk_slots k')) i) as [s|] eqn:E; [|exact Logic.I].
      pose proof (nth_some_lt _ _ _ E) as LT. apply nth_error_In in E. apply in_map_iff in E. destruct E as (? & <- & _).
      rewrite map_length, A6, (proj1 (proj2 (REST m k MK))) in LT. rewrite A4.
      destruct (nth_error (map (fun _ => Orig) (mk_entries k)) i) as [e|] eqn:E.
      + apply nth_error_In in E. apply in_map_iff in E. destruct E as (? & <- & _). reflexivity.
      + apply nth_error_None in E. rewrite map_length in E. lia.
    - cbn [mk_stage mk_entries]. split; [rewrite A1; exact AT|]. split; [now rewrite map_length, A4|]. split.
      + intros e E. apply in_map_iff in E. now destruct E as (? & <- & _).
      + apply grew_set. eapply grew; exact S.
  Qed.
End Theorems.

(** ** Clearing the history *)

Section Clear.
  Variable w : world.
  Variable m : nat.
  Variable k : mock.
  Hypothesis REST : at_rest w.
  Hypothesis MK : nth_error (w_mocks w) m = Some k.
  Hypothesis AT : mk_stage k = Attached.
  Notation sim := (sim w None m).
  Notation none := (fun _ : nat => false).

  Lemma sim_clearing C c em w' k' c' :
    sim none C c em w' -> nth_error (w_mocks w') m = Some k' -> sim none C c' em (set_mock w' m (set_clearing k' c')).
  Proof.
    intros (S1 & S2 & S3) O. split; [exact S1|]. split; [cbn; now rewrite upd_length|].
    intros n k0 O0. cbn [w_mocks set_mock]. destruct (Nat.eq_dec m n) as [<-|NE].
    - destruct (S3 m k0 O0) as (k2 & O2 & L). rewrite O in O2. injection O2 as <-.
      exists (set_clearing k' c'). split; [eapply upd_same; exact O|].
      destruct L as (A1 & A2 & A3 & A4 & A5 & A6 & A7). do 4 (split; [assumption|]).
      split; [now rewrite Nat.eqb_refl|]. split; [exact A6|exact A7].
    - destruct (S3 n k0 O0) as (k2 & O2 & L). exists k2. split; [now rewrite upd_other|].
      destruct L as (A1 & A2 & A3 & A4 & A5 & A6 & A7). do 4 (split; [assumption|]).
      replace (Nat.eqb n m) with false in * by (symmetry; apply Nat.eqb_neq; congruence). auto.
  Qed.

  Lemma sim_cleared C c em w' k' i b0 b :
    sim none C c em w' -> nth_error (w_mocks w') m = Some k' ->
    nth_error (mk_slots k) i = Some (Body b0) -> b_answers b = b_answers b0 -> b_held b = b_held b0 -> b_calls b = [] ->
    sim none (dies C i) None em (set_mock w' m (set_clearing (set_slot k' i (Body b)) None)).
  Proof.
    intros S O I0 B1 B2 B3. pose proof S as (S1 & S2 & S3). split; [exact S1|]. split; [cbn; now rewrite upd_length|].
    intros n k0 O0. cbn [w_mocks set_mock]. destruct (Nat.eq_dec m n) as [<-|NE].
    - rewrite MK in O0. injection O0 as <-. destruct (S3 m k MK) as (k2 & O2 & L). rewrite O in O2. injection O2 as <-.
      eexists. split; [eapply upd_same; exact O|].
      destruct L as (A1 & A2 & A3 & A4 & A5 & A6 & A7). do 4 (split; [assumption|]).
      split; [now rewrite Nat.eqb_refl|]. split; [cbn; rewrite upd_length; exact A6|].
      intros j s0 J. destruct (A7 j s0 J) as (s & J' & K). cbn [mk_slots set_slot set_clearing]. unfold dies.
      destruct (Nat.eq_dec i j) as [<-|NJ].
      + exists (Body b). split; [eapply upd_same; exact J'|]. rewrite I0 in J. injection J as <-.
        rewrite !Nat.eqb_refl, orb_true_r. cbn. split; [exact B1|]. split; [exact B2|]. exists 0. split; [lia|exact B3].
      + exists s. split; [now rewrite upd_other|].
        replace (Nat.eqb j i) with false by (symmetry; apply Nat.eqb_neq; congruence). now rewrite orb_false_r.
    - destruct (S3 n k0 O0) as (k2 & O2 & L). exists k2. split; [now rewrite upd_other|].
      destruct L as (A1 & A2 & A3 & A4 & A5 & A6 & A7). do 4 (split; [assumption|]).
      unfold dies. replace (Nat.eqb n m) with false in * by (symmetry; apply Nat.eqb_neq; congruence). auto.
  Qed.

  Lemma sim_skip C c em w' i :
    sim none C c em w' -> (forall b, nth_error (mk_slots k) i <> Some (Body b)) -> sim none (dies C i) c em w'.
  Proof.
    intros S NB. pose proof S as (S1 & S2 & S3). split; [exact S1|]. split; [exact S2|].
    intros n k0 O0. destruct (S3 n k0 O0) as (k2 & O2 & L). exists k2. split; [exact O2|].
    destruct L as (A1 & A2 & A3 & A4 & A5 & A6 & A7). do 6 (split; [assumption|]). intros j s0 J.
    destruct (A7 j s0 J) as (s & J' & K). exists s. split; [exact J'|]. unfold dies.
    destruct (Nat.eq_dec i j) as [<-|NJ].
    - destruct (Nat.eq_dec n m) as [->|NM].
      + rewrite MK in O0. injection O0 as <-. unfold like in *. rewrite andb_false_r in *.
        destruct s0 as [|b|]; [exact K| |exact K]. now destruct (NB b).
      + replace (Nat.eqb n m) with false in * by (symmetry; now apply Nat.eqb_neq). exact K.
    - replace (Nat.eqb j i) with false by (symmetry; apply Nat.eqb_neq; congruence). now rewrite orb_false_r.
  Qed.

  Definition recorded_for (fw : bool) (p : nat * slot) : list (nat * act) :=
    match snd p with Body b => acts_of fw (fst p) (b_calls b) | _ => [] end.

  Lemma clear_slot_goes fw C i s0 r em w' o :
    nth_error (mk_slots k) i = Some s0 -> s0 <> Dead -> C i = false ->
    sim none C None em w' -> goes w None (bad_clear w m) (recorded_for fw (i, s0) ++ r) o ->
    follows w None m (bad_clear w m) none (dies C i) None em r o (clear_slot fw m i w').
  Proof.
    intros I0 ND CF S G. pose proof S as (S1 & S2 & S3).
    destruct (S3 m k MK) as (k' & O & L). pose proof L as (A1 & A2 & A3 & A4 & A5 & A6 & A7).
    destruct (A7 i s0 I0) as (s & I & K). rewrite CF, andb_false_r in K. unfold like in K.
    unfold clear_slot. rewrite O, I.
    destruct s0 as [|b0|]; destruct s as [|b|]; try contradiction; try congruence.
    - cbn in G. exists [], o. rewrite app_nil_r, prefix_nil. split; [|auto].
      apply sim_skip; [exact S|]. intros b. congruence.
    - destruct K as (K1 & K2 & K3). rewrite destroy_vector_steps, K3, turn_nils.
      assert (F : follows w None m (bad_clear w m) none C (Some i) em r o
                    (steps (set_mock w' m (set_clearing k' (Some i))) (concat (turn fw (b_calls b0))))).
      { eapply steps_goes with (i := i); [exact REST| |eapply sim_clearing; [exact S|exact O]|exact G].
        intros a. unfold bad_clear. split.
        - intros [M ST]. exists i, true. auto 10.
        - intros (j & x & M & ST & [Q|(_ & -> & Q)]); [discriminate|]. injection Q as <-. auto. }
      destruct (steps _ _) as [w2| |]; cbn [bind follows] in *; [|exact F|exact F].
      destruct F as (em' & o' & S' & G' & E). pose proof S' as (T1 & T2 & T3).
      destruct (T3 m k MK) as (k2 & O2 & _). rewrite O2. cbn [follows].
      exists em', o'. split; [|auto]. eapply sim_cleared; [exact S'|exact O2|exact I0|exact K1|exact K2|reflexivity].
  Qed.

  Lemma clear_slots_goes fw :
    forall ps pre em w' o,
    (forall i s, In (i, s) ps -> nth_error (mk_slots k) i = Some s /\ s <> Dead) ->
    NoDup (pre ++ map fst ps) ->
    sim none (among pre) None em w' ->
    goes w None (bad_clear w m) (flat_map (recorded_for fw) ps) o ->
    follows w None m (bad_clear w m) none (among (pre ++ map fst ps)) None em [] o (clear_slots fw m (map fst ps) w').
  Proof.
    induction ps as [|[i s] ps IH]; intros pre em w' o IN ND S G; cbn [map fst clear_slots flat_map] in *.
    - rewrite app_nil_r. exists [], o. rewrite app_nil_r, prefix_nil. auto.
    - destruct (IN i s (or_introl eq_refl)) as [I0 NDead].
      assert (DF : among pre i = false).
      { destruct (among pre i) eqn:E; [|reflexivity]. apply among_in in E.
        apply NoDup_remove_2 in ND. exfalso. apply ND, in_or_app. now left. }
      pose proof (clear_slot_goes fw (among pre) i s _ em w' o I0 NDead DF S G) as F.
      destruct (clear_slot fw m i w') as [w2| |]; cbn [bind]; [|exact F|exact F].
      destruct F as (em' & o' & S' & G' & ->).
      assert (S'' : sim none (among (pre ++ [i])) None (em ++ em') w2).
      { eapply sim_ext; [reflexivity| |exact S']. intros j. symmetry. apply among_snoc. }
      replace (pre ++ i :: map fst ps) with ((pre ++ [i]) ++ map fst ps) in * by now rewrite <- app_assoc.
      assert (F3 := IH (pre ++ [i]) (em ++ em') w2 o' (fun j t J => IN j t (or_intror J)) ND S'' G').
      unfold follows in *. destruct (clear_slots fw m (map fst ps) w2) as [w3| |]; [|now rewrite F3|now rewrite F3].
      destruct F3 as (em2 & o2 & S3 & G3 & ->). exists (em' ++ em2), o2.
      rewrite app_assoc. split; [exact S3|]. split; [exact G3|]. apply prefix_app.
  Qed.

  Theorem clears fw o :
    goes w None (bad_clear w m) (all_recorded fw k) o ->
    match o with
    | Fine l => exists w', clear_history fw m w = Ok w' /\ w_seen w' = w_seen w ++ l /\ at_rest w' /\
                           (forall i x, stubbed w None m i x -> stubbed w' None m i x) /\
                           (forall i h, history w m i h -> exists x, x <= answered m i l /\ history w' m i (repeat [] x)) /\
                           others_grew w w' m l
    | Stops => clear_history fw m w = Ends
    | Undefined => clear_history fw m w = UB
    end.
  Proof.
    intros G. unfold clear_history. rewrite MK. rewrite <- numbered_fst.
    assert (F : follows w None m (bad_clear w m) none (among ([] ++ map fst (numbered (mk_slots k)))) None [] [] o
                        (clear_slots fw m (map fst (numbered (mk_slots k))) w)).
    { apply clear_slots_goes; [| |apply (sim_start w m REST None eq_refl)|exact G].
      - exact (slots_alive w m k REST MK AT).
      - cbn [app]. rewrite numbered_fst. apply seq_NoDup. }
    destruct (clear_slots fw m _ _) as [w'| |]; cbn [follows] in *; [|now subst|now subst].
    destruct F as (em' & o' & S & G' & ->). apply (goes_nil w) in G'. subst o'. cbn [prefix app] in *.
    rewrite app_nil_r. pose proof S as (S1 & S2 & S3). exists w'. split; [reflexivity|]. split; [exact S1|].
    split; [|split; [|split; [|eapply grew; exact S]]].
    - intros n k' O. destruct (nth_error (w_mocks w) n) as [k0|] eqn:O0.
      2:{ apply nth_error_None in O0. apply nth_some_lt in O. lia. }
      destruct (S3 n k0 O0) as (k2 & O2 & L). rewrite O in O2. injection O2 as <-.
      destruct (REST n k0 O0) as (R1 & R2 & R3). destruct L as (A1 & A2 & A3 & A4 & A5 & A6 & A7).
      split; [rewrite A5, R1; now destruct (Nat.eqb n m)|]. split; [congruence|]. intros ST i. rewrite A1 in ST.
      specialize (R3 ST i). rewrite A4. destruct (nth_error (mk_slots k0) i) as [s0|] eqn:E.
      + destruct (A7 i s0 E) as (s & -> & K). unfold like in K. rewrite andb_false_r in K.
        destruct s0, s; try contradiction; exact R3.
      + apply nth_error_None in E. destruct (nth_error (mk_slots k') i) eqn:E'; [|exact Logic.I].
        apply nth_some_lt in E'. lia.
    - intros i x (NF & k0 & b0 & O0 & ST & EN & SL & BA). split; [exact NF|]. unfold of_mock in *.
      destruct (S3 m k0 O0) as (k' & O & (A1 & A2 & A3 & A4 & A5 & A6 & A7)).
      destruct (A7 i _ SL) as (s & I & K). unfold like in K. rewrite andb_false_r in K.
      destruct s as [|b|]; try contradiction. destruct K as (K1 & _). exists k', b.
      split; [exact O|]. split; [rewrite A1; exact ST|]. split; [congruence|]. split; [exact I|]. congruence.
    - intros i h (k0 & b0 & O0 & I0 & <-). rewrite MK in O0. injection O0 as <-.
      destruct (S3 m k MK) as (k' & O & (A1 & A2 & A3 & A4 & A5 & A6 & A7)).
      destruct (A7 i _ I0) as (s & I & K). unfold like in K. rewrite andb_false_r, Nat.eqb_refl in K. cbn [andb] in K.
      destruct s as [|b|]; try contradiction. destruct K as (_ & _ & K).
      assert (AM : among (map fst (numbered (mk_slots k))) i = true).
      { apply among_in. rewrite numbered_fst. apply in_seq. apply nth_some_lt in I0. lia. }
      rewrite AM in K. destruct K as (x & X & K). exists x. split; [exact X|]. exists k', b. auto.
  Qed.
End Clear.

(** ** There is always a story *)

Lemma stubbed_dec w fr m j : (exists x, stubbed w fr m j x) \/ (forall x, ~ stubbed w fr m j x).
Proof.
  assert (FD : fr = Some m \/ fr <> Some m).
  { destruct fr as [f|]; [destruct (Nat.eq_dec f m); [left|right]; congruence|right; discriminate]. }
  destruct FD as [F|F]; [right; intros x (N & _); contradiction|].
  destruct (nth_error (w_mocks w) m) as [k|] eqn:O; [|right; intros x (_ & k & b & O' & _); unfold of_mock in O'; congruence].
  destruct (mk_stage k) eqn:ST;
    try (right; intros x (_ & k' & b & O' & ST' & _); unfold of_mock in O'; rewrite O in O'; injection O' as <-; congruence).
  destruct (nth_error (mk_entries k) j) as [[|]|] eqn:EN;
    try (right; intros x (_ & k' & b & O' & _ & EN' & _); unfold of_mock in O'; rewrite O in O'; injection O' as <-; congruence).
  destruct (nth_error (mk_slots k) j) as [[|b|]|] eqn:SL;
    try (right; intros x (_ & k' & b' & O' & _ & _ & SL' & _); unfold of_mock in O'; rewrite O in O'; injection O' as <-; congruence).
  left. exists (b_answers b). split; [exact F|]. exists k, b. auto.
Qed.

Lemma means_dec w a m : (exists i, means w a m i) \/ (forall i, ~ means w a m i).
Proof.
  destruct a as [n i|n]; cbn.
  - destruct (Nat.eq_dec n m) as [->|N]; [left; now exists i|right; intros j [E _]; contradiction].
  - destruct (Nat.eq_dec n m) as [->|N]; [|right; intros j [E _]; contradiction].
    unfold of_mock. destruct (nth_error (w_mocks w) m) as [k|]; [|right; intros j (_ & k & E & _); discriminate].
    destruct (mk_dtor k) as [d|] eqn:D; [left; exists d; split; [reflexivity|]; now exists k|].
    right. intros j (_ & k' & E & D'). injection E as <-. congruence.
Qed.

Lemma means_one w a m i j : means w a m i -> means w a m j -> i = j.
Proof.
  destruct a as [n x|n]; cbn.
  - intros [_ <-] [_ <-]. reflexivity.
  - intros (_ & k & O & D) (_ & k' & O' & D'). unfold of_mock in *. congruence.
Qed.

Lemma stubbed_one w fr m j x y : stubbed w fr m j x -> stubbed w fr m j y -> x = y.
Proof. intros (_ & k & b & O & _ & _ & S & <-) (_ & k' & b' & O' & _ & _ & S' & <-). unfold of_mock in *. congruence. Qed.

Lemma bad_reset_dec w fw m i a : bad_reset w fw m i a \/ ~ bad_reset w fw m i a.
Proof.
  destruct (means_dec w a m) as [(j & M)|N]; [|right; intros (j & x & M & _); exact (N j M)].
  destruct (stubbed_dec w None m j) as [(x & ST)|N].
  - assert (L : (if fw then j <= i else i <= j) \/ ~ (if fw then j <= i else i <= j)) by (destruct fw; lia).
    destruct L as [L|L]; [left; exists j, x; auto|]. right. intros (j' & x' & M' & _ & L').
    rewrite (means_one w a m j j' M M') in L. contradiction.
  - right. intros (j' & x' & M' & ST & _). rewrite <- (means_one w a m j j' M M') in ST. exact (N x' ST).
Qed.

Lemma bad_clear_dec w m i a : bad_clear w m i a \/ ~ bad_clear w m i a.
Proof.
  destruct (means_dec w a m) as [(j & M)|N]; [|right; intros (M & _); exact (N i M)].
  destruct (Nat.eq_dec j i) as [->|NE]; [|right; intros (M' & _); apply NE; eapply means_one; eauto].
  destruct (stubbed_dec w None m i) as [([|] & ST)|N].
  - left. split; assumption.
  - right. intros (_ & ST'). pose proof (stubbed_one _ _ _ _ _ _ ST ST'). discriminate.
  - right. intros (_ & ST). exact (N true ST).
Qed.

Lemma goes_total w fr bad :
  (forall i a, bad i a \/ ~ bad i a) ->
  forall l, (forall i a, In (i, a) l -> possible w fr a) -> exists o, goes w fr bad l o.
Proof.
  intros DEC. induction l as [|[i a] l IH]; intros P; [exists (Fine []); constructor|].
  destruct (IH (fun j b J => P j b (or_intror J))) as (o & G).
  destruct (DEC i a) as [B|NB]; [exists Undefined; now apply g_bad|].
  destruct (possible_told w fr a (P i a (or_introl eq_refl))) as [(e & T)|F].
  - destruct o as [l'| |].
    + exists (Fine (e ++ l')). now apply g_fine.
    + exists Stops. eapply g_later; eauto. discriminate.
    + exists Undefined. eapply g_later; eauto. discriminate.
  - exists Stops. now apply g_fails.
Qed.

Lemma goes_defined w fr bad l o : goes w fr bad l o -> (forall i a, In (i, a) l -> ~ bad i a) -> o <> Undefined.
Proof.
  intros G. induction G; intros HH; try discriminate.
  - apply IHG. intros. apply HH. now right.
  - exfalso. eapply HH; [now left|eassumption].
Qed.

Lemma goes_fine w fr bad l :
  (forall i a, In (i, a) l -> ~ bad i a /\ exists e, told w fr a e) -> exists e, goes w fr bad l (Fine e).
Proof.
  induction l as [|[i a] l IH]; intros H; [exists []; constructor|].
  destruct (IH (fun j b J => H j b (or_intror J))) as (e & G).
  destruct (H i a (or_introl eq_refl)) as (NB & t & T). exists (t ++ e). now apply g_fine.
Qed.

Lemma goes_fine_seen w fr bad l e : goes w fr bad l (Fine e) ->
  exists es, Forall2 (fun p e => told w fr (snd p) e) l es /\ e = concat es.
Proof.
  intros G. remember (Fine e) as o eqn:E. revert e E. induction G; intros e E; try discriminate.
  - injection E as <-. exists []. split; [constructor|reflexivity].
  - injection E as <-. destruct (IHG l' eq_refl) as (es & F & ->). exists (l :: es). split; [now constructor|reflexivity].
  - subst o. now destruct (H1 e).
Qed.

(** ** The statements *)

(** Destroying a mock is defined whatever its values do. *)
Theorem end_defined fw w m k :
  at_rest w -> nth_error (w_mocks w) m = Some k -> mk_stage k = Attached ->
  (forall i a, In (i, a) (all_kept fw k) -> possible w (Some m) a) ->
  destroy_mock fw m w <> UB.
Proof.
  intros R MK AT P. destruct (goes_total w (Some m) (fun _ _ => False) (fun _ _ => or_intror (fun x => x)) _ P) as (o & G).
  pose proof (destroyed w m k R MK AT fw o G) as D. destruct o as [l| |].
  - destruct D as (w' & k' & -> & _). discriminate.
  - rewrite D. discriminate.
  - contradiction.
Qed.

(** Values that delete the mock's own object. *)
Theorem end_own fw w m k d :
  at_rest w -> nth_error (w_mocks w) m = Some k -> mk_stage k = Attached ->
  mk_own k = true -> mk_dtor k = Some d -> d < length (mk_entries k) ->
  (forall i a, In (i, a) (all_kept fw k) -> a = Delete m) ->
  exists w', destroy_mock fw m w = Ok w' /\ w_seen w' = w_seen w.
Proof.
  intros R MK AT OW DT LT P.
  assert (T : forall a, a = Delete m -> told w (Some m) a []).
  { intros a ->. eapply t_ignored with (m := m) (i := d).
    - split; [reflexivity|]. exists k. split; assumption.
    - exists k. split; [exact MK|]. split; [exact OW|]. split; [exact DT|]. split; [exact LT|]. left. now left. }
  assert (G : goes w (Some m) (fun _ _ => False) (all_kept fw k) (Fine [])).
  { induction (all_kept fw k) as [|[i a] l IH]; [constructor|].
    change (@nil seen) with (@nil seen ++ []). apply g_fine; [tauto|apply T; apply (P i); now left|].
    apply IH. intros j b J. apply (P j). now right. }
  destruct (destroyed w m k R MK AT fw _ G) as (w' & k' & D & S & _). exists w'. split; [exact D|].
  now rewrite app_nil_r in S.
Qed.

Theorem reset_defined fw w m k :
  at_rest w -> nth_error (w_mocks w) m = Some k -> mk_stage k = Attached ->
  (forall i a, In (i, a) (all_kept fw k) -> possible w None a /\ ~ bad_reset w fw m i a) ->
  reset fw m w <> UB.
Proof.
  intros R MK AT P. destruct (goes_total w None (bad_reset w fw m) (bad_reset_dec w fw m) (all_kept fw k)) as (o & G).
  { intros i a I. apply (P i a I). }
  pose proof (goes_defined _ _ _ _ _ G (fun i a I => proj2 (P i a I))) as NU.
  pose proof (resets w m k R MK AT fw o G) as D. destruct o as [l| |].
  - destruct D as (w' & k' & -> & _). discriminate.
  - rewrite D. discriminate.
  - congruence.
Qed.

Theorem clear_defined fw w m k :
  at_rest w -> nth_error (w_mocks w) m = Some k -> mk_stage k = Attached ->
  (forall i a, In (i, a) (all_recorded fw k) -> possible w None a /\ ~ bad_clear w m i a) ->
  clear_history fw m w <> UB.
Proof.
  intros R MK AT P. destruct (goes_total w None (bad_clear w m) (bad_clear_dec w m) (all_recorded fw k)) as (o & G).
  { intros i a I. apply (P i a I). }
  pose proof (goes_defined _ _ _ _ _ G (fun i a I => proj2 (P i a I))) as NU.
  pose proof (clears w m k R MK AT fw o G) as D. destruct o as [l| |].
  - destruct D as (w' & -> & _). discriminate.
  - rewrite D. discriminate.
  - congruence.
Qed.

(** Values that leave the mock alone: nothing remains. *)
Lemma no_answers w fr m l es :
  Forall2 (fun p e => told w fr (snd p) e) l es ->
  (forall (i : nat) a j, In (i, a) l -> ~ means w a m j) -> forall j, answered m j (concat es) = 0.
Proof.
  intros F. induction F as [|[i a] e l es T F IH]; intros H j; [reflexivity|].
  cbn [concat]. rewrite answered_app, IH by (intros i' a' j' I; apply (H i'); now right). rewrite Nat.add_0_r.
  cbn [snd] in T. destruct T as [n x M _|n x d M _|n x M _]; try reflexivity. cbn.
  destruct (Nat.eqb n m) eqn:E; [|reflexivity]. apply Nat.eqb_eq in E. subst n.
  exfalso. exact (H i a x (or_introl eq_refl) M).
Qed.

Theorem clear_empty fw w m k w' :
  at_rest w -> nth_error (w_mocks w) m = Some k -> mk_stage k = Attached ->
  (forall i a, In (i, a) (all_recorded fw k) -> possible w None a /\ forall j, ~ means w a m j) ->
  clear_history fw m w = Ok w' ->
  forall i h, history w m i h -> history w' m i [].
Proof.
  intros R MK AT P C i h H.
  destruct (goes_total w None (bad_clear w m) (bad_clear_dec w m) (all_recorded fw k)) as (o & G).
  { intros j a I. apply (P j a I). }
  pose proof (clears w m k R MK AT fw o G) as D. destruct o as [l| |]; [|congruence|congruence].
  destruct D as (w2 & C2 & _ & _ & _ & HI & _). rewrite C in C2. injection C2 as <-.
  destruct (HI i h H) as (x & X & HX). destruct (goes_fine_seen _ _ _ _ _ G) as (es & F & ->).
  rewrite (no_answers w None m _ es F) in X; [|intros i' a' j' I; apply (P i' a' I)].
  assert (x = 0) by lia. subst x. exact HX.
Qed.
