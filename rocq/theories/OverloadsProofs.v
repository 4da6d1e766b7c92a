(** * Proofs about overloaded names (C96) *)
From Coq Require Import Bool List Arith Lia.
From Verif Require Import Overloads Spec_Overloads.
Import ListNotations.

Lemma qual_eqb_eq : forall a b, qual_eqb a b = true <-> a = b.
Proof.
  intros [c v r] [c' v' r']. unfold qual_eqb; cbn. split.
  - destruct c, c', v, v', r, r'; cbn; intro; try discriminate; reflexivity.
  - intros [= -> -> ->]. destruct c', v', r'; reflexivity.
Qed.

Lemma pars_eqb_eq : forall a b, pars_eqb a b = true <-> a = b.
Proof.
  induction a as [|x a IH]; intros [|y b]; cbn; try (split; [discriminate|discriminate]); [split; reflexivity|].
  rewrite andb_true_iff, Nat.eqb_eq, IH. split; [intros (-> & ->); reflexivity|intros [= -> ->]; auto].
Qed.

Lemma filter_one : forall (A : Type) (f : A -> bool) (l : list A) x, NoDup l ->
  (filter f l = [x] <-> In x l /\ f x = true /\ forall y, In y l -> f y = true -> y = x).
Proof.
  intros A f l x N. split.
  - intro E. assert (I : In x (filter f l)) by (rewrite E; now left). apply filter_In in I. destruct I as (I & F).
    split; [exact I|]. split; [exact F|]. intros y Iy Fy.
    assert (J : In y (filter f l)) by (apply filter_In; auto). rewrite E in J. destruct J as [J|[]]. now symmetry.
  - intros (I & F & U). induction N as [|z l Nz N IH]; [destruct I|]. cbn.
    destruct (f z) eqn:Z.
    + assert (z = x) by (apply U; [now left|exact Z]). subst z. f_equal.
      assert (G : forall k, (forall y, In y k -> f y = false) -> filter f k = []).
      { induction k as [|y k IHk]; intro H; cbn; [reflexivity|]. rewrite (H y) by now left. apply IHk. intros w W. apply H. now right. }
      apply G. intros y Iy. destruct (f y) eqn:E; [|reflexivity].
      assert (y = x) by (apply U; [now right|exact E]). subst y. contradiction.
    + destruct I as [-> |I]; [congruence|]. apply IH; [exact I|]. intros y Iy. apply U. now right.
Qed.

Lemma deduces_lone : forall s q o, NoDup s -> (deduces s q = Some o <-> lone s o /\ o_qual o = q).
Proof.
  intros s q o N. unfold deduces.
  pose proof (filter_one _ (fun o => qual_eqb (o_qual o) q) s o N) as F. cbn beta in F. rewrite qual_eqb_eq in F.
  split.
  - intro E. destruct (filter _ s) as [|y [|]] eqn:L; try discriminate. injection E as ->.
    destruct F as (F & _). specialize (F eq_refl). destruct F as (I & Q & U).
    split; [|exact Q]. split; [exact I|]. intros p Ip Qp. apply U; [exact Ip|]. apply qual_eqb_eq. congruence.
  - intros ((I & U) & Q). destruct F as (_ & F). rewrite F; [reflexivity|].
    split; [exact I|]. split; [exact Q|]. intros y Iy Qy. apply U; [exact Iy|]. apply qual_eqb_eq in Qy. congruence.
Qed.

Lemma mockable_templates : forall o, mockable o <-> In (o_qual o) stub_templates.
Proof.
  intros [r p [c v k] e]. unfold mockable; cbn. split.
  - destruct c, v, k; intro H; try (specialize (H eq_refl)); try discriminate; tauto.
  - intros H V. subst v. repeat (destruct H as [H|H]; [congruence|]). destruct H.
Qed.

Lemma templates_nodup : NoDup stub_templates.
Proof. unfold stub_templates. repeat constructor; cbn; intuition discriminate. Qed.

Lemma candidates_in : forall s qs o, NoDup s -> (In o (candidates s qs) <-> lone s o /\ In (o_qual o) qs).
Proof.
  intros s qs o N. induction qs as [|q qs IH]; cbn; [tauto|].
  destruct (deduces s q) as [p|] eqn:D.
  - apply (deduces_lone s q p N) in D. destruct D as (L & Q). cbn. rewrite IH. split.
    + intros [<- |(X & Y)]; auto.
    + intros (X & [Y|Y]); [|auto]. left. destruct X as (I & U). destruct L as (I' & U'). apply U; congruence.
  - rewrite IH. split; [tauto|]. intros (X & [Y|Y]); [|auto].
    assert (deduces s q = Some o) by (apply deduces_lone; auto). congruence.
Qed.

Lemma candidates_nodup : forall s qs, NoDup s -> NoDup qs -> NoDup (candidates s qs).
Proof.
  intros s qs N. induction 1 as [|q qs Nq Nqs IH]; cbn; [constructor|].
  destruct (deduces s q) as [p|] eqn:D; [|exact IH]. constructor; [|exact IH].
  rewrite (candidates_in s qs p N). intros (_ & I). apply (deduces_lone s q p N) in D. destruct D as (_ & <-). contradiction.
Qed.

Lemma single_list : forall (A : Type) (l : list A) x, NoDup l -> (l = [x] <-> In x l /\ forall y, In y l -> y = x).
Proof.
  intros A l x N. split.
  - intros ->. split; [now left|]. intros y [H|[]]. now symmetry.
  - intros (I & U). destruct N as [|y l Ny N]; [destruct I|].
    assert (y = x) by (apply U; now left). subst y. destruct l as [|z l]; [reflexivity|].
    exfalso. apply Ny. assert (z = x) by (apply U; right; now left). subst z. now left.
Qed.

Lemma stub_of_means : forall s o, NoDup s ->
  (stub_of s = Means o <-> lone s o /\ mockable o /\ forall p, lone s p -> mockable p -> p = o).
Proof.
  intros s o N. unfold stub_of.
  pose proof (single_list _ (candidates s stub_templates) o (candidates_nodup s _ N templates_nodup)) as S1.
  rewrite (candidates_in s stub_templates o N) in S1.
  transitivity (candidates s stub_templates = [o]).
  - destruct (candidates s stub_templates) as [|x [|y l]]; split; congruence.
  - rewrite S1. split.
    + intros ((L & I) & U). split; [exact L|]. split; [now apply mockable_templates|].
      intros p Lp Mp. apply U. apply candidates_in; [exact N|]. split; [exact Lp|]. now apply mockable_templates.
    + intros (L & M & U). split; [split; [exact L|now apply mockable_templates]|].
      intros p Ip. apply candidates_in in Ip; [|exact N]. destruct Ip as (Lp & Ip). apply U; [exact Lp|]. now apply mockable_templates.
Qed.

Lemma lone_single : forall o, lone [o] o.
Proof. intro o. split; [now left|]. intros p [H|[]] _. now symmetry. Qed.

Lemma nodup_single : forall o : overload, NoDup [o].
Proof. intro o. constructor; [intros []|constructor]. Qed.

Lemma method_single : forall o, method_macro [o] = Means o <-> mockable o.
Proof.
  intro o. unfold method_macro. rewrite (stub_of_means [o] o (nodup_single o)). split; [tauto|].
  intro M. split; [apply lone_single|]. split; [exact M|]. intros p (I & _) _. destruct I as [H|[]]. now symmetry.
Qed.

Lemma single_not_mockable : forall o, ~ mockable o -> method_macro [o] = NoMatch.
Proof.
  intros o M. unfold method_macro, stub_of. destruct (candidates [o] stub_templates) as [|x l] eqn:E; [reflexivity|].
  assert (I : In x (candidates [o] stub_templates)) by (rewrite E; now left).
  apply candidates_in in I; [|apply nodup_single]. destruct I as ((I & _) & T). destruct I as [<- |[]].
  exfalso. apply M. now apply mockable_templates.
Qed.

(** Two mockable methods of one name: Method is refused. *)
Lemma two_overloads : forall o p x, o <> p -> mockable o -> mockable p -> method_macro [o; p] <> Means x.
Proof.
  intros o p x D Mo Mp. unfold method_macro.
  assert (N : NoDup [o; p]) by (constructor; [intros [H|[]]; congruence|apply nodup_single]).
  rewrite (stub_of_means [o; p] x N). intros (Lx & _ & U).
  destruct (qual_eqb (o_qual o) (o_qual p)) eqn:Q.
  - apply qual_eqb_eq in Q. destruct Lx as (I & Ux). destruct I as [<- |[<- |[]]].
    + apply D. symmetry. apply Ux; [right; now left|now symmetry].
    + apply D. apply Ux; [now left|exact Q].
  - assert (Q' : o_qual o <> o_qual p) by (intro H; apply qual_eqb_eq in H; congruence).
    assert (Lo : lone [o; p] o) by (split; [now left|intros y [<- |[<- |[]]] H; congruence]).
    assert (Lp : lone [o; p] p) by (split; [right; now left|intros y [<- |[<- |[]]] H; congruence]).
    apply D. rewrite (U o Lo Mo). symmetry. now apply U.
Qed.

Lemma has_type_spec : forall r ps q o, has_type r ps q o = true <-> o_ret o = r /\ o_pars o = ps /\ o_qual o = q.
Proof.
  intros r ps q o. unfold has_type. rewrite !andb_true_iff, Nat.eqb_eq, pars_eqb_eq, qual_eqb_eq. tauto.
Qed.

Lemma get_qual_mockable : forall m o, o_qual o = get_qual m -> mockable o.
Proof. intros m o E. unfold mockable. rewrite E. destruct m; cbn; congruence. Qed.

Lemma prototype_means : forall m r ps s o, admitted s ->
  (prototype_macro m r ps s = Means o <-> In o s /\ o_ret o = r /\ o_pars o = ps /\ o_qual o = get_qual m).
Proof.
  intros m r ps s o (N & U & _). unfold prototype_macro.
  pose proof (fun x => filter_one _ (has_type r ps (get_qual m)) s x N) as F.
  split.
  - intro E. destruct (filter _ s) as [|x [|]] eqn:L; try discriminate.
    specialize (F x). destruct F as (F & _). specialize (F eq_refl). destruct F as (I & T & _).
    apply has_type_spec in T. destruct T as (T1 & T2 & T3).
    assert (M : mockable x) by (apply (get_qual_mockable m); exact T3).
    apply (proj2 (method_single x)) in M. unfold method_macro in M. rewrite M in E. injection E as <-. auto.
  - intros (I & T1 & T2 & T3).
    assert (E : filter (has_type r ps (get_qual m)) s = [o]).
    { apply F. split; [exact I|]. split; [apply has_type_spec; auto|].
      intros y Iy Ty. apply has_type_spec in Ty. destruct Ty as (_ & Ty2 & Ty3). apply U; congruence. }
    rewrite E. apply method_single. apply (get_qual_mockable m). exact T3.
Qed.

Lemma every_named : forall s o, admitted s -> In o s -> q_volatile (o_qual o) = false ->
  exists! m, prototype_macro m (o_ret o) (o_pars o) s = Means o.
Proof.
  intros s o A I V.
  assert (E : exists m, o_qual o = get_qual m).
  { destruct (o_qual o) as [c v k]. cbn in V. subst v. destruct c, k.
    - now exists ConstOverloadedMethod. - now exists ConstRefOverloadedMethod. - now exists ConstRValRefOverloadedMethod.
    - now exists OverloadedMethod. - now exists RefOverloadedMethod. - now exists RValRefOverloadedMethod. }
  destruct E as (m & E). exists m. split.
  - apply prototype_means; auto.
  - intros m' H. apply prototype_means in H; [|exact A]. destruct H as (_ & _ & _ & H).
    rewrite E in H. destruct m, m'; cbn in H; congruence.
Qed.

Lemma volatile_unnamed : forall m r ps s o, admitted s -> q_volatile (o_qual o) = true -> prototype_macro m r ps s <> Means o.
Proof.
  intros m r ps s o A V H. apply prototype_means in H; [|exact A]. destruct H as (_ & _ & _ & H).
  rewrite H in V. destruct m; discriminate.
Qed.

Lemma prototype_written : forall m r ps s o, admitted s ->
  (prototype_macro m r ps s = Means o <-> In o s /\ written m r ps o).
Proof.
  intros m r ps s o A. rewrite (prototype_means m r ps s o A). unfold written.
  assert (E : o_qual o = get_qual m <-> q_volatile (o_qual o) = false /\ q_const (o_qual o) = says_const m /\ q_ref (o_qual o) = says_ref m).
  { destruct (o_qual o) as [c v k]. cbn. split.
    - intro H. destruct m; cbn in H; injection H as -> -> ->; auto.
    - intros (-> & -> & ->). destruct m; reflexivity. }
  rewrite E. tauto.
Qed.
