(** * Proofs about typeid and dynamic_cast (Rtti.v) *)
From Coq Require Import Bool ZArith Lia List.
From Verif Require Import Base VTable Rtti Spec_Rtti.
Import ListNotations.
Open Scope nat_scope.

(** ** The structures *)

Fixpoint filled (l : list nat) : list (option base) :=
  match l with [] => [] | t :: r => Some (mkBase t (length r) new_pmd 0) :: filled r end.
Lemma filled_length l : length (filled l) = length l.
Proof. induction l; cbn; auto. Qed.

Lemma bump_filled p t r : bump (length p) (filled p ++ Some (mkBase t 0 new_pmd 0) :: r) = Def (filled (p ++ [t]) ++ r).
Proof.
  induction p as [|x p IH]; cbn [length bump filled app]; [reflexivity|].
  rewrite IH. cbn. rewrite app_length. cbn. now rewrite Nat.add_1_r.
Qed.

Lemma upd_mid {A} (a : list A) x y r : upd (a ++ x :: r) (length a) y = a ++ y :: r.
Proof. induction a as [|z a IH]; cbn; [reflexivity|]. now rewrite IH. Qed.

Lemma add_ok p t k : add_base (mkHierarchy 0 (length p) (filled p ++ repeat None (S k))) t =
  Def (mkHierarchy 0 (length (p ++ [t])) (filled (p ++ [t]) ++ repeat None k)).
Proof.
  unfold add_base. cbn [hi_count hi_array hi_attributes].
  replace (length p <? length (filled p ++ repeat None (S k))) with true
    by (symmetry; apply Nat.ltb_lt; rewrite app_length, filled_length, repeat_length; lia).
  cbn [repeat]. replace (length p) with (length (filled p)) at 2 by apply filled_length.
  rewrite upd_mid, bump_filled. cbn. rewrite app_length. cbn. now rewrite Nat.add_1_r.
Qed.

Lemma adds_ok l : forall p, add_bases (mkHierarchy 0 (length p) (filled p ++ repeat None (length l))) l =
  Def (mkHierarchy 0 (length (p ++ l)) (filled (p ++ l))).
Proof.
  induction l as [|t l IH]; intros p.
  - cbn. now rewrite !app_nil_r.
  - cbn [add_bases length]. rewrite add_ok. cbn [obind]. rewrite IH, <- !app_assoc. reflexivity.
Qed.

Lemma hierarchy_ok c bases : new_hierarchy c bases = Def (mkHierarchy 0 (S (length bases)) (filled (c :: bases))).
Proof. exact (adds_ok (c :: bases) []). Qed.

(** ** Searching them *)

Lemma element_at a n pre t r : element (mkHierarchy a n (pre ++ filled (t :: r))) (length pre) = Def (mkBase t (length r) new_pmd 0).
Proof. unfold element. cbn [hi_array]. rewrite nth_error_app2, Nat.sub_diag by lia. reflexivity. Qed.

Lemma step_pre pre t r : pre ++ filled (t :: r) = (pre ++ [Some (mkBase t (length r) new_pmd 0)]) ++ filled r.
Proof. rewrite <- app_assoc. reflexivity. Qed.
Lemma step_len {A} (pre : list A) x : length (pre ++ [x]) = S (length pre).
Proof. rewrite app_length. cbn. lia. Qed.

Lemma among_ok a n src l : forall pre,
  among (mkHierarchy a n (pre ++ filled l)) src (length pre) (length l) = Def (existsb (fun t => t =? src) l).
Proof.
  induction l as [|t r IH]; intros pre; [reflexivity|]. cbn [length among existsb].
  rewrite element_at. cbn [obind ba_type]. destruct (t =? src); [reflexivity|].
  rewrite step_pre, <- (step_len pre (Some (mkBase t (length r) new_pmd 0))). apply IH.
Qed.

Fixpoint look (src target : nat) (l : list nat) : option base :=
  match l with
  | [] => None
  | t :: r => if t =? target then if existsb (fun t => t =? src) r then Some (mkBase t (length r) new_pmd 0) else None
              else look src target r
  end.

Lemma search_ok a n src target l : forall pre,
  search (mkHierarchy a n (pre ++ filled l)) src target (length pre) (length l) = Def (look src target l).
Proof.
  induction l as [|t r IH]; intros pre; [reflexivity|]. cbn [length search look].
  rewrite element_at. cbn [obind ba_type ba_contained].
  destruct (t =? target).
  - rewrite step_pre, <- (step_len pre (Some (mkBase t (length r) new_pmd 0))), among_ok. reflexivity.
  - rewrite step_pre, <- (step_len pre (Some (mkBase t (length r) new_pmd 0))). apply IH.
Qed.

Lemma locator_32 c bases : new_locator false c bases = Def (Loc32 0 0 c (mkHierarchy 0 (S (length bases)) (filled (c :: bases)))).
Proof. unfold new_locator. now rewrite hierarchy_ok. Qed.

Lemma cast_ok c bases src target :
  obind (new_locator false c bases) (fun l => cast l src target) =
  Def (match look src target (c :: bases) with Some _ => Object 0 | None => Null end).
Proof.
  rewrite locator_32. cbn [obind cast hi_attributes Nat.eqb hi_count].
  pose proof (search_ok 0 (S (length bases)) src target (c :: bases) []) as S0. cbn [length app] in S0.
  rewrite S0. cbn [obind].
  assert (L : forall l b, look src target l = Some b -> ba_where b = new_pmd).
  { induction l as [|t r IH]; cbn; [discriminate|]. intros b. destruct (t =? target); [|apply IH].
    destruct (existsb _ r); [|discriminate]. intros [= <-]. reflexivity. }
  destruct (look src target (c :: bases)) as [b|] eqn:E; [|reflexivity].
  rewrite (L _ _ E). reflexivity.
Qed.

(** Found: the target is listed, and the source behind it. *)
Lemma look_spec src target l : (exists b, look src target l = Some b) <-> exists l1 l2 l3, l = l1 ++ target :: l2 ++ src :: l3.
Proof.
  induction l as [|t r IH]; cbn.
  - split; [intros [b B]; discriminate|]. intros (l1 & l2 & l3 & H). destruct l1; discriminate.
  - destruct (Nat.eqb_spec t target) as [->|NE].
    + destruct (existsb (fun t => t =? src) r) eqn:E.
      * split; [|eauto]. intros _. apply existsb_exists in E. destruct E as (x & I & X). apply Nat.eqb_eq in X. subst x.
        apply in_split in I. destruct I as (l2 & l3 & ->). now exists [], l2, l3.
      * split; [intros [b B]; discriminate|]. intros (l1 & l2 & l3 & H).
        assert (I : In src r).
        { destruct l1 as [|y l1]; apply (f_equal (@tl nat)) in H; cbn in H; rewrite H.
          - apply in_or_app. right. now left.
          - apply in_or_app. right. right. apply in_or_app. right. now left. }
        assert (X : existsb (fun t => t =? src) r = true) by (apply existsb_exists; exists src; split; [exact I|apply Nat.eqb_refl]). congruence.
    + rewrite IH. split.
      * intros (l1 & l2 & l3 & ->). now exists (t :: l1), l2, l3.
      * intros (l1 & l2 & l3 & H). destruct l1 as [|y l1]; cbn in H; injection H as H1 H2; [congruence|]. now exists l1, l2, l3.
Qed.

Lemma listed c bases src target :
  (exists l1 l2 l3, c :: bases = l1 ++ target :: l2 ++ src :: l3) <->
  obind (new_locator false c bases) (fun l => cast l src target) = Def (Object 0).
Proof.
  rewrite cast_ok. rewrite <- look_spec. destruct (look src target (c :: bases)) as [b|].
  - split; eauto.
  - split; [intros [b B]; discriminate|]. discriminate.
Qed.
Lemma object_or_null c bases src target :
  obind (new_locator false c bases) (fun l => cast l src target) = Def (Object 0) \/
  obind (new_locator false c bases) (fun l => cast l src target) = Def Null.
Proof. rewrite cast_ok. destruct (look src target (c :: bases)); auto. Qed.

Section Classes.
Variable parent : nat -> option nat.
Notation derives := (derives parent).

Lemma derives_trans a b c : derives a b -> derives b c -> derives a c.
Proof.
  induction 1 as [c' b' H|c' b' a' H D IH]; intros B; [exact (DMore _ _ _ _ H B)|]. exact (DMore _ _ _ _ H (IH B)).
Qed.
(** One base at most: bases of a class are bases of each other. *)
Lemma comparable a b c : derives c a -> derives c b -> a = b \/ derives a b \/ derives b a.
Proof.
  intros A. revert b. induction A as [c' a H|c' m a H D IH]; intros b B.
  - destruct B as [c' b H2|c' m b H2 B]; rewrite H in H2; injection H2 as ->; auto.
  - destruct B as [c' b H2|c' m' b H2 B]; rewrite H in H2; injection H2 as ->; auto.
Qed.

Variable f : nat -> nat -> bool.
Hypothesis IB : is_base parent f.

Lemma asserted_later c l : forall h, asserted f c h l = true -> forall x, In x l -> h = x \/ derives h x.
Proof.
  induction l as [|b r IH]; intros h A x X; [destruct X|]. cbn in A.
  apply andb_true_iff in A. destruct A as (_ & A). apply andb_true_iff in A. destruct A as (A1 & A2).
  apply IB in A1. assert (HB : h = b \/ derives h b) by (destruct A1; auto).
  destruct X as [<-|X]; [exact HB|]. specialize (IH b A2 x X).
  destruct HB as [<-|HB]; [exact IH|]. destruct IH as [<-|IH]; [right; exact HB|]. right. exact (derives_trans _ _ _ HB IH).
Qed.
Lemma asserted_tail c l1 : forall h x l2, asserted f c h (l1 ++ x :: l2) = true -> asserted f c x l2 = true.
Proof.
  induction l1 as [|b l1 IH]; intros h x l2 A.
  - cbn [app asserted] in A. apply andb_true_iff in A. destruct A as (_ & A). apply andb_true_iff in A. apply A.
  - apply (IH b). cbn in A. apply andb_true_iff in A. destruct A as (_ & A). apply andb_true_iff in A. apply A.
Qed.
Lemma accepted_order c bases l1 l2 x y : accepted f c bases = true -> c :: bases = l1 ++ x :: l2 -> In y l2 -> x = y \/ derives x y.
Proof.
  intros A E Y. destruct l1 as [|z l1]; cbn in E; injection E as E1 E2.
  - subst. exact (asserted_later _ _ _ A _ Y).
  - subst. exact (asserted_later _ _ _ (asserted_tail _ _ _ _ _ A) _ Y).
Qed.

(** What is accepted. *)
Lemma asserted_chain c l : forall h, (c = h \/ derives c h) ->
  (forall l1 x y l2, h :: l = l1 ++ x :: y :: l2 -> x = y \/ derives x y) -> asserted f c h l = true.
Proof.
  induction l as [|b r IH]; intros h CH H; cbn [asserted]; apply andb_true_iff; split.
  - apply IB. destruct CH; auto.
  - reflexivity.
  - apply IB. destruct CH; auto.
  - pose proof (H [] h b r eq_refl) as HB. apply andb_true_iff. split; [apply IB; destruct HB; auto|].
    apply IH.
    + destruct CH as [<-|CH]; [exact HB|]. destruct HB as [<-|HB]; [auto|]. right. exact (derives_trans _ _ _ CH HB).
    + intros l1 x y l2 E. apply (H (h :: l1) x y l2). cbn. rewrite E. reflexivity.
Qed.
Lemma accepted_iff c bases : accepted f c bases = true <->
  (forall l1 x y l2, c :: bases = l1 ++ x :: y :: l2 -> x = y \/ derives x y).
Proof.
  split.
  - intros A l1 x y l2 E. exact (accepted_order c bases l1 (y :: l2) x y A E (or_introl eq_refl)).
  - intros H. apply asserted_chain; auto.
Qed.

(** All bases listed: as C++ says. *)
Lemma casts c bases src target : acyclic parent -> accepted f c bases = true -> (forall b, derives c b -> In b bases) ->
  at_run_time parent c src target ->
  exists a, obind (new_locator false c bases) (fun l => cast l src target) = Def a /\
            (succeeds parent c target -> a = Object 0) /\ (~ succeeds parent c target -> a = Null).
Proof.
  intros AC A ALL (SRC & NE & ND).
  destruct (object_or_null c bases src target) as [H|H]; rewrite H; eexists; (split; [reflexivity|]).
  - split; [auto|]. intros NS. exfalso. apply NS.
    apply listed in H. destruct H as (l1 & l2 & l3 & E). destruct l1 as [|z l1]; injection E as E1 E2; [left; exact E1|]. right.
    assert (T : c = target \/ derives c target).
    { subst z. apply (accepted_order c bases [] bases c target A eq_refl). rewrite E2. apply in_or_app. right. now left. }
    destruct T as [T|T]; [|exact T]. exfalso. apply NS. left. exact T.
  - split; [|auto]. intros SU. exfalso.
    assert (SI : In src bases).
    { destruct SRC as [<-|SRC]; [|exact (ALL _ SRC)]. exfalso. destruct SU as [SU|SU]; [exact (NE (eq_sym SU))|exact (ND SU)]. }
    assert (X : exists l1 l2 l3, c :: bases = l1 ++ target :: l2 ++ src :: l3).
    { destruct SU as [<-|SU].
      - apply in_split in SI. destruct SI as (l2 & l3 & ->). now exists [], l2, l3.
      - pose proof (ALL _ SU) as TI. apply in_split in TI. destruct TI as (l1 & l2 & ->).
        apply in_app_or in SI. destruct SI as [SI|SI].
        + exfalso. apply in_split in SI. destruct SI as (k1 & k2 & ->).
          destruct (accepted_order c _ (c :: k1) (k2 ++ target :: l2) src target A) as [Q|Q].
          * cbn. rewrite <- app_assoc. reflexivity.
          * apply in_or_app. right. now left.
          * exact (NE (eq_sym Q)).
          * exact (ND Q).
        + destruct SI as [SI|SI]; [exfalso; exact (NE SI)|]. apply in_split in SI. destruct SI as (k1 & k2 & ->).
          now exists (c :: l1), k1, k2. }
    apply listed in X. rewrite H in X. discriminate.
Qed.

(** A base that is not listed. *)
Lemma unlisted c bases b : acyclic parent -> derives c b -> ~ In b bases ->
  at_run_time parent c b c /\ succeeds parent c c /\ obind (new_locator false c bases) (fun l => cast l b c) = Def Null.
Proof.
  intros AC D NI. split; [|split; [left; reflexivity|]].
  - split; [right; exact D|]. split; [intros ->; exact (AC _ D)|]. intros Q. exact (AC _ (derives_trans _ _ _ D Q)).
  - destruct (object_or_null c bases b c) as [H|H]; [|exact H]. exfalso. apply listed in H.
    destruct H as (l1 & l2 & l3 & E). destruct l1 as [|z l1]; apply (f_equal (@tl nat)) in E; cbn in E; apply NI; rewrite E; apply in_or_app; right.
    + now left.
    + right. apply in_or_app. right. now left.
Qed.
End Classes.

(** ** The tables *)

Open Scope Z_scope.
Section Tables.
Context {W : Type}.

Lemma upd_len {A} (l : list A) i x : length (upd l i x) = length l.
Proof. revert i. induction l as [|y l IH]; intros [|i]; cbn; auto. Qed.
Lemma upd_other {A} (l : list A) i j x : i <> j -> nth_error (upd l i x) j = nth_error l j.
Proof. revert i j. induction l as [|y l IH]; intros [|i] [|j] H; cbn; try reflexivity; try congruence. apply IH. congruence. Qed.

(** A table like [t], with the same word before the entries. *)
Definition like (t t' : vtable W) : Prop :=
  length (vt_arr t') = length (vt_arr t) /\ vt_first t' = vt_first t /\
  nth_error (vt_arr t') (Z.to_nat (vt_first t - 1)) = nth_error (vt_arr t) (Z.to_nat (vt_first t - 1)).

Lemma like_refl t : like t t. Proof. repeat split. Qed.
Lemma like_trans a b c : like a b -> like b c -> like a c.
Proof. intros (A1 & A2 & A3) (B1 & B2 & B3). split; [congruence|]. split; [congruence|]. rewrite A2 in B3. congruence. Qed.

Lemma set_like t i w : i <> -1 -> - vt_first t <= i < Z.of_nat (length (vt_arr t)) - vt_first t -> 1 <= vt_first t ->
  exists t', vt_set t i w = Def t' /\ like t t'.
Proof.
  intros N R F. unfold vt_set.
  replace ((vt_first t + i <? 0) || (Z.of_nat (length (vt_arr t)) <=? vt_first t + i)) with false
    by (symmetry; apply orb_false_iff; split; [apply Z.ltb_ge|apply Z.leb_gt]; lia).
  eexists. split; [reflexivity|]. split; [apply upd_len|]. split; [reflexivity|]. cbn. apply upd_other. lia.
Qed.

Lemma get_in (t : vtable W) i : - vt_first t <= i < Z.of_nat (length (vt_arr t)) - vt_first t -> exists w, vt_get t i = Def w.
Proof.
  intros R. unfold vt_get.
  replace (vt_first t + i <? 0) with false by (symmetry; apply Z.ltb_ge; lia).
  destruct (nth_error (vt_arr t) (Z.to_nat (vt_first t + i))) as [w|] eqn:E; [exists w; reflexivity|].
  exfalso. apply nth_error_None in E. lia.
Qed.

Lemma like_fits l size t t' : like t t' -> fits l size t -> fits l size t'.
Proof. intros (A & B & _) (C & D). split; congruence. Qed.

Lemma fits_facts l size (t : vtable W) : fits l size t ->
  Z.of_nat (length (vt_arr t)) = vt_first t + Z.of_nat size /\ vt_first t = numOfCookies l + (match l with Gcc => 2 | Msc => 1 end).
Proof. intros (A & B). destruct l; unfold alloc_size, cookie_pos, numOfCookies in *; lia. Qed.

Lemma set_fits l size t i w : fits l size t -> 0 <= i < Z.of_nat size -> exists t', vt_set t i w = Def t' /\ like t t'.
Proof.
  intros F R. destruct (fits_facts _ _ _ F) as (A & B). apply set_like; [lia| |]; destruct l; unfold alloc_size, cookie_pos, numOfCookies in *; lia.
Qed.
Lemma cookie_fits l size t i w : fits l size t -> 0 <= i < numOfCookies l -> exists t', setCookie l t i w = Def t' /\ like t t'.
Proof.
  intros F R. destruct (fits_facts _ _ _ F) as (A & B). unfold setCookie. apply set_like; destruct l; unfold alloc_size, cookie_pos, numOfCookies in *; lia.
Qed.

Lemma init_like l size n : forall i t w, fits l size t -> 0 <= i -> i + Z.of_nat n <= Z.of_nat size ->
  exists t', init_loop n i t w = Def t' /\ like t t'.
Proof.
  induction n as [|n IH]; intros i t w F I R; cbn [init_loop].
  - exists t. split; [reflexivity|apply like_refl].
  - destruct (set_fits l size t i w F) as (t1 & E1 & L1); [lia|]. unfold setMethod. rewrite E1. cbn [obind].
    destruct (IH (i + 1) t1 w (like_fits _ _ _ _ L1 F)) as (t2 & E2 & L2); [lia|lia|].
    exists t2. split; [exact E2|exact (like_trans _ _ _ L1 L2)].
Qed.

Lemma copy_like l size n : forall i t s, fits l size t -> fits l size s -> 0 <= i -> i + Z.of_nat n <= Z.of_nat size ->
  exists t', copy_loop n i t s = Def t' /\ like t t'.
Proof.
  induction n as [|n IH]; intros i t s F FS I R; cbn [copy_loop].
  - exists t. split; [reflexivity|apply like_refl].
  - destruct (get_in s i) as (w & G). { destruct (fits_facts _ _ _ FS). destruct l; unfold alloc_size, cookie_pos, numOfCookies in *; lia. }
    unfold getMethod. rewrite G. cbn [obind].
    destruct (set_fits l size t i w F) as (t1 & E1 & L1); [lia|]. rewrite E1. cbn [obind].
    destruct (IH (i + 1) t1 s (like_fits _ _ _ _ L1 F) FS) as (t2 & E2 & L2); [lia|lia|].
    exists t2. split; [exact E2|exact (like_trans _ _ _ L1 L2)].
Qed.

Lemma one_like l size t d : fits l size t -> proper l size d -> exists t', do_one l size t d = Def t' /\ like t t'.
Proof.
  intros F P. destruct d as [i w|i w|i h w|w|dt s]; cbn [do_one proper] in *.
  - exact (set_fits _ _ _ _ _ F P).
  - exact (cookie_fits _ _ _ _ _ F P).
  - destruct P as (P0 & P). unfold setDtor. destruct l.
    + destruct (set_fits _ _ t i w F) as (t1 & E1 & L1); [lia|]. rewrite E1. cbn [obind].
      destruct (set_fits _ _ t1 (i + 1) h (like_fits _ _ _ _ L1 F)) as (t2 & E2 & L2); [lia|].
      exists t2. split; [exact E2|exact (like_trans _ _ _ L1 L2)].
    + destruct (set_fits _ _ t i h F) as (t1 & E1 & L1); [lia|]. rewrite E1. cbn [obind].
      destruct (cookie_fits _ _ t1 dtorCookieIndex w (like_fits _ _ _ _ L1 F)) as (t2 & E2 & L2); [cbn; lia|].
      exists t2. split; [exact E2|exact (like_trans _ _ _ L1 L2)].
  - unfold initAll. apply (init_like l size); [exact F|lia|lia].
  - unfold copyFrom. destruct (copy_like l size size 0 t s F P) as (t1 & E1 & L1); [lia|lia|]. rewrite E1. cbn [obind].
    destruct l; [exists t1; auto|]. destruct dt; [|exists t1; auto].
    destruct (get_in s (cookie_pos Msc dtorCookieIndex)) as (w & G). { destruct (fits_facts _ _ _ P). cbn in *. lia. }
    unfold getCookie. rewrite G. cbn [obind].
    destruct (cookie_fits _ _ t1 dtorCookieIndex w (like_fits _ _ _ _ L1 F)) as (t2 & E2 & L2); [cbn; lia|].
    exists t2. split; [exact E2|exact (like_trans _ _ _ L1 L2)].
Qed.

Lemma all_like l size ds : forall t, fits l size t -> Forall (proper l size) ds -> exists t', do_all l size t ds = Def t' /\ like t t'.
Proof.
  induction ds as [|d ds IH]; intros t F P; cbn [do_all].
  - exists t. split; [reflexivity|apply like_refl].
  - inversion P as [|x y P1 P2]; subst. destruct (one_like l size t d F P1) as (t1 & E1 & L1). rewrite E1. cbn [obind].
    destruct (IH t1 (like_fits _ _ _ _ L1 F) P2) as (t2 & E2 & L2). exists t2. split; [exact E2|exact (like_trans _ _ _ L1 L2)].
Qed.

Lemma nth_upd_same {A} (l : list A) i x : (i < length l)%nat -> nth_error (upd l i x) i = Some x.
Proof. revert i. induction l as [|y l IH]; intros [|i] H; cbn in *; try lia; [reflexivity|]. apply IH. lia. Qed.

Lemma built_word l (null ti : W) size : exists t, buildVTArray l null ti (Z.of_nat size) = Def t /\ fits l size t /\
  nth_error (vt_arr t) (Z.to_nat (vt_first t - 1)) = Some ti.
Proof.
  unfold buildVTArray, fits. destruct l; unfold vt_set; cbn [vt_first vt_arr alloc_size numOfCookies].
  - replace ((2 + 1 + 0 <? 0) || (Z.of_nat (length (repeat null (Z.to_nat (Z.of_nat size + 2 + 2)))) <=? 2 + 1 + 0)) with false
      by (symmetry; apply orb_false_iff; split; [reflexivity|apply Z.leb_gt; rewrite repeat_length; lia]).
    cbn [obind vt_arr]. eexists. split; [reflexivity|]. cbn [vt_arr vt_first]. split; [split|].
    + rewrite upd_len, repeat_length. lia.
    + lia.
    + apply nth_upd_same. rewrite repeat_length. lia.
  - replace ((3 + 0 <? 0) || (Z.of_nat (length (repeat null (Z.to_nat (Z.of_nat size + 3 + 1)))) <=? 3 + 0)) with false
      by (symmetry; apply orb_false_iff; split; [reflexivity|apply Z.leb_gt; rewrite repeat_length; lia]).
    cbn [obind vt_arr]. eexists. split; [reflexivity|]. cbn [vt_arr vt_first]. split; [split|].
    + rewrite upd_len, repeat_length. lia.
    + lia.
    + apply nth_upd_same. rewrite repeat_length. lia.
Qed.

Lemma found l (null ti : W) size ds : Forall (proper l size) ds ->
  exists t t', buildVTArray l null ti (Z.of_nat size) = Def t /\ do_all l size t ds = Def t' /\ rtti_word t' = Def ti.
Proof.
  intros P. destruct (built_word l null ti size) as (t & B & F & T).
  destruct (all_like l size ds t F P) as (t' & E & L & L1 & L2). exists t, t'. split; [exact B|]. split; [exact E|].
  unfold rtti_word, vt_get. destruct (fits_facts _ _ _ F) as (_ & V). rewrite L1.
  replace (vt_first t + -1) with (vt_first t - 1) by lia.
  replace (vt_first t - 1 <? 0) with false by (symmetry; apply Z.ltb_ge; destruct l; unfold alloc_size, cookie_pos, numOfCookies in *; lia).
  rewrite L2, T. reflexivity.
Qed.
End Tables.
