(** Proofs about SortInv.v. *)
From Coq Require Import ZArith Lia List Sorting.Permutation Sorting.Sorted.
From Verif Require Import Base SortInv.
Import ListNotations.
Open Scope Z_scope.

Section P.
Context {I : Type}.
Variable eqb : I -> I -> bool.
Variable verified : I -> bool.
Variable iter : list I -> list I.
Hypothesis eqb_spec : forall x y, eqb x y = true <-> x = y.
Hypothesis iter_perm : forall l, Permutation (iter l) l.

(** *** unordered sets *)
Lemma uset_insert_in : forall x s y, In y (uset_insert eqb x s) <-> y = x \/ In y s.
Proof.
  intros x s y. unfold uset_insert. destruct (existsb (eqb x) s) eqn:E.
  - apply existsb_exists in E as [z [Hz Hxz]]. apply eqb_spec in Hxz. subst z.
    split; auto. intros [->|H]; auto.
  - rewrite in_app_iff. simpl. intuition.
Qed.

Lemma uset_insert_nodup : forall x s, NoDup s -> NoDup (uset_insert eqb x s).
Proof.
  intros x s H. unfold uset_insert. destruct (existsb (eqb x) s) eqn:E; auto.
  apply Permutation_NoDup with (l := x :: s).
  - apply Permutation_cons_append.
  - constructor; auto. intro Hin.
    assert (existsb (eqb x) s = true) by (apply existsb_exists; exists x; split; auto; now apply eqb_spec).
    congruence.
Qed.

Lemma uset_insert_all_in : forall xs s y, In y (uset_insert_all eqb xs s) <-> In y xs \/ In y s.
Proof.
  unfold uset_insert_all. induction xs as [|x xs IH]; intros s y; simpl.
  - tauto.
  - rewrite IH, uset_insert_in. intuition.
Qed.

Lemma uset_insert_all_nodup : forall xs s, NoDup s -> NoDup (uset_insert_all eqb xs s).
Proof.
  unfold uset_insert_all. induction xs as [|x xs IH]; intros s H; simpl; auto.
  apply IH. now apply uset_insert_nodup.
Qed.

Lemma collect_in : forall sources actual y,
  In y (collectActualInvocations eqb actual sources) <->
  In y actual \/ exists src, In src sources /\ In y src.
Proof.
  unfold collectActualInvocations. induction sources as [|src sources IH]; intros actual y; simpl.
  - split; [auto|]. intros [H|[s [[] _]]]; auto.
  - rewrite IH, uset_insert_all_in. split.
    + intros [[H|H]|[s [Hs Hy]]]; eauto.
    + intros [H|[s [[->|Hs] Hy]]]; eauto.
Qed.

Lemma collect_nodup : forall sources actual, NoDup actual ->
  NoDup (collectActualInvocations eqb actual sources).
Proof.
  unfold collectActualInvocations. induction sources as [|src sources IH]; intros actual H; simpl; auto.
  apply IH. now apply uset_insert_all_nodup.
Qed.

Lemma iter_in : forall l y, In y (iter l) <-> In y l.
Proof.
  intros l y. split; intro H.
  - eapply Permutation_in; [apply iter_perm|exact H].
  - eapply Permutation_in; [apply Permutation_sym, iter_perm|exact H].
Qed.

Lemma aggregate_in : forall sources into y,
  In y (aggregate eqb iter sources into) <->
  In y into \/ exists src, In src sources /\ In y src.
Proof.
  intros. unfold aggregate. rewrite uset_insert_all_in, iter_in, collect_in. simpl. intuition.
Qed.

Lemma select_in : forall actual into y,
  In y (selectNonVerifiedInvocations eqb verified iter actual into) <->
  In y into \/ (In y actual /\ verified y = false).
Proof.
  intros. unfold selectNonVerifiedInvocations.
  rewrite uset_insert_all_in, filter_In, iter_in.
  destruct (verified y); simpl; intuition congruence.
Qed.

Lemma select_nodup : forall actual into, NoDup into ->
  NoDup (selectNonVerifiedInvocations eqb verified iter actual into).
Proof. intros. unfold selectNonVerifiedInvocations. now apply uset_insert_all_nodup. Qed.

Lemma unverified_in : forall actual into y,
  In y (unverified_source eqb verified iter actual into) <->
  In y into \/ (In y actual /\ verified y = false).
Proof. exact select_in. Qed.

End P.

(** *** std::set by ordinal *)
Section Q.
Context {I : Type}.
Variable ord : I -> Z.
Variable iter : list I -> list I.
Hypothesis iter_perm : forall l, Permutation (iter l) l.

Definition olt (x y : I) : Prop := ord x < ord y.

Lemma set_insert_sorted : forall x s, StronglySorted olt s -> StronglySorted olt (set_insert ord x s).
Proof.
  intros x s H. induction H as [|y s Hs IH Hall]; simpl.
  - constructor; constructor.
  - destruct (Z.ltb_spec (ord x) (ord y)) as [Hlt|Hge].
    + constructor; [now constructor|]. constructor; auto.
      eapply Forall_impl; [|exact Hall]. unfold olt. intros; lia.
    + destruct (Z.ltb_spec (ord y) (ord x)) as [Hlt'|Hge'].
      * constructor; auto.
        apply Forall_forall. intros z Hz.
        assert (Hz' : z = x \/ In z s).
        { clear - Hz. induction s as [|w s IH]; simpl in *.
          - intuition.
          - destruct (ord x <? ord w); [simpl in Hz; intuition|].
            destruct (ord w <? ord x); [|simpl in Hz; intuition].
            simpl in Hz. destruct Hz as [->|Hz]; auto. destruct (IH Hz); auto. }
        rewrite Forall_forall in Hall. destruct Hz' as [->|Hz']; [exact Hlt'|now apply Hall].
      * now constructor.
Qed.

Lemma sorted_fold : forall xs s, StronglySorted olt s ->
  StronglySorted olt (fold_left (fun acc x => set_insert ord x acc) xs s).
Proof. induction xs as [|x xs IH]; intros s H; simpl; auto. apply IH. now apply set_insert_sorted. Qed.

Lemma set_insert_in_ne : forall x s y, (forall z, In z s -> ord z <> ord x) ->
  (In y (set_insert ord x s) <-> y = x \/ In y s).
Proof.
  intros x s y. induction s as [|w s IH]; intro H; simpl.
  - intuition.
  - destruct (Z.ltb_spec (ord x) (ord w)); [simpl; intuition|].
    destruct (Z.ltb_spec (ord w) (ord x)).
    + simpl. rewrite IH by (intros; apply H; now right). intuition.
    + exfalso. apply (H w); [now left|lia].
Qed.

Definition distinct_ords (l : list I) : Prop :=
  forall x y, In x l -> In y l -> ord x = ord y -> x = y.

Lemma fold_in : forall xs s y, NoDup xs -> (forall x, In x xs -> ~ In x s) ->
  distinct_ords (xs ++ s) ->
  (In y (fold_left (fun acc x => set_insert ord x acc) xs s) <-> In y xs \/ In y s).
Proof.
  induction xs as [|x xs IH]; intros s y Hnd Hdis Hord; simpl.
  - tauto.
  - inversion Hnd as [|? ? Hx Hnd']; subst.
    assert (Hins : forall z, In z (set_insert ord x s) <-> z = x \/ In z s).
    { intro z. apply set_insert_in_ne. intros w Hw He.
      apply (Hdis x); [now left|].
      replace x with w; auto. apply Hord; auto; rewrite in_app_iff; simpl; auto. }
    rewrite IH; auto.
    + rewrite Hins. intuition.
    + intros z Hz Hin. apply Hins in Hin as [->|Hin]; auto. apply (Hdis z); auto. now right.
    + intros a b Ha Hb. apply Hord; rewrite in_app_iff in *; simpl; rewrite Hins in *; intuition.
Qed.

Lemma sort_in : forall l y, NoDup l -> distinct_ords l ->
  (In y (sortByInvocationOrder ord iter l) <-> In y l).
Proof.
  intros l y Hnd Hord. unfold sortByInvocationOrder. rewrite fold_in.
  - rewrite (iter_in iter iter_perm). simpl. tauto.
  - eapply Permutation_NoDup; [apply Permutation_sym, iter_perm|exact Hnd].
  - intros x Hx [].
  - intros a b Ha Hb. rewrite app_nil_r in *. rewrite (iter_in iter iter_perm) in Ha, Hb. now apply Hord.
Qed.

Lemma sort_sorted : forall l, StronglySorted olt (sortByInvocationOrder ord iter l).
Proof. intro l. unfold sortByInvocationOrder. apply sorted_fold. constructor. Qed.

Lemma sorted_nodup : forall l, StronglySorted olt l -> NoDup l.
Proof.
  induction 1 as [|a l H IH Hall]; constructor; auto.
  intro Hin. rewrite Forall_forall in Hall. specialize (Hall a Hin). unfold olt in Hall. lia.
Qed.

Lemma sorted_unique : forall l1 l2, StronglySorted olt l1 -> StronglySorted olt l2 ->
  (forall x, In x l1 <-> In x l2) -> l1 = l2.
Proof.
  induction l1 as [|a l1 IH]; intros [|b l2] H1 H2 Hin; auto.
  - exfalso. apply (proj2 (Hin b)). now left.
  - exfalso. apply (proj1 (Hin a)). now left.
  - inversion H1 as [|? ? S1 A1]; inversion H2 as [|? ? S2 A2]; subst.
    rewrite Forall_forall in A1, A2.
    assert (a = b).
    { destruct (proj1 (Hin a)) as [->|Ha]; [now left|auto|].
      destruct (proj2 (Hin b)) as [->|Hb]; [now left|auto|].
      specialize (A1 _ Hb). specialize (A2 _ Ha). unfold olt in *. lia. }
    subst b. f_equal. apply IH; auto. intro x. split; intro Hx.
    + destruct (proj1 (Hin x)) as [->|]; [now right| |auto].
      specialize (A1 _ Hx). unfold olt in A1. lia.
    + destruct (proj2 (Hin x)) as [->|]; [now right| |auto].
      specialize (A2 _ Hx). unfold olt in A2. lia.
Qed.

End Q.

(** C32: two iteration orders give the same result. *)
Lemma sort_iter_independent : forall I (ord : I -> Z) iter1 iter2 l1 l2,
  (forall l, Permutation (iter1 l) l) -> (forall l, Permutation (iter2 l) l) ->
  NoDup l1 -> NoDup l2 -> distinct_ords ord l1 -> (forall x, In x l1 <-> In x l2) ->
  sortByInvocationOrder ord iter1 l1 = sortByInvocationOrder ord iter2 l2.
Proof.
  intros I ord iter1 iter2 l1 l2 P1 P2 N1 N2 D Hin.
  apply (sorted_unique ord); try apply sort_sorted.
  assert (D2 : distinct_ords ord l2) by (intros a b Ha Hb; apply D; now apply Hin).
  intro x. rewrite (sort_in ord iter1 P1 l1 x N1 D), (sort_in ord iter2 P2 l2 x N2 D2). apply Hin.
Qed.

Lemma sorted_actuals : forall (I : Type) (eqb : I -> I -> bool) (ord : I -> Z)
    (iter : list I -> list I) (sources : list (list I)),
  (forall a b, eqb a b = true <-> a = b) -> (forall l, Permutation (iter l) l) ->
  (forall a b s1 s2, In s1 sources -> In a s1 -> In s2 sources -> In b s2 -> ord a = ord b -> a = b) ->
  let r := sortByInvocationOrder ord iter (collectActualInvocations eqb [] sources) in
  StronglySorted (fun a b => ord a < ord b) r /\
  (forall x, In x r <-> exists s, In s sources /\ In x s).
Proof.
  intros I eqb ord iter sources HE HP HO r. split; [apply sort_sorted|]. intro x. unfold r.
  rewrite (sort_in ord iter HP).
  - rewrite (collect_in eqb (fun _ => true) HE). cbn. intuition.
  - apply (collect_nodup eqb HE). constructor.
  - intros a b Ha Hb. rewrite (collect_in eqb (fun _ => true) HE) in Ha, Hb. cbn in Ha, Hb.
    destruct Ha as [[]|(s1 & A1 & A2)], Hb as [[]|(s2 & B1 & B2)]. eauto.
Qed.

Lemma sorted_actuals_unique : forall (I : Type) (eqb : I -> I -> bool) (ord : I -> Z)
    (iter1 iter2 : list I -> list I) (sources1 sources2 : list (list I)),
  (forall a b, eqb a b = true <-> a = b) ->
  (forall l, Permutation (iter1 l) l) -> (forall l, Permutation (iter2 l) l) ->
  (forall a b s1 s2, In s1 sources1 -> In a s1 -> In s2 sources1 -> In b s2 -> ord a = ord b -> a = b) ->
  (forall x, (exists s, In s sources1 /\ In x s) <-> (exists s, In s sources2 /\ In x s)) ->
  sortByInvocationOrder ord iter1 (collectActualInvocations eqb [] sources1) =
  sortByInvocationOrder ord iter2 (collectActualInvocations eqb [] sources2).
Proof.
  intros I eqb ord iter1 iter2 s1 s2 HE P1 P2 HO HS. apply sort_iter_independent; auto.
  - apply (collect_nodup eqb HE). constructor.
  - apply (collect_nodup eqb HE). constructor.
  - intros a b Ha Hb. rewrite (collect_in eqb (fun _ => true) HE) in Ha, Hb. cbn in Ha, Hb.
    destruct Ha as [[]|(t1 & A1 & A2)], Hb as [[]|(t2 & B1 & B2)]. eauto.
  - intro x. rewrite !(collect_in eqb (fun _ => true) HE). cbn. pose proof (HS x). intuition.
Qed.
