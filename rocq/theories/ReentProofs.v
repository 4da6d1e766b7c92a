(** Re-entrant calls that are all answered by one action. *)
From Coq Require Import ZArith Lia List Arith.
From Verif Require Import Base CInt ActionSeq Spec_Actions ActionSeqProofs.
Import ListNotations.
Open Scope Z_scope.

Section R.
Context {F : Type}.
Variable nested : F -> nat -> nat.
Variable f : F.

(** The action in front after [k] more starts. *)
Definition after (a : action F) (k : nat) : action F :=
  match a with ARepeat g t => ARepeat g (t - Z.of_nat k) | _ => a end.
Definition lasts (a : action F) (k : nat) : Prop :=
  a = AForever f \/ exists t, a = ARepeat f t /\ Z.of_nat k < t <= long_max.

Definition state (acts : list (action F)) (id : nat) (rest used : list nat) : aseq F := mkAseq acts (id :: rest) used.

Lemma after_0 : forall a, after a 0 = a.
Proof. intros []; cbn; auto. f_equal. lia. Qed.
Lemma after_after : forall a j k, after (after a j) k = after a (j + k).
Proof. intros [] j k; cbn; auto. f_equal. lia. Qed.
Lemma lasts_after : forall a j k, lasts a (j + k) -> lasts (after a j) k.
Proof.
  intros a j k [->|(t & -> & L)]; [left; reflexivity|]. right. exists (t - Z.of_nat j). split; [reflexivity|]. lia.
Qed.
Lemma lasts_le : forall a j k, lasts a k -> (j <= k)%nat -> lasts a j.
Proof. intros a j k [->|(t & -> & L)] H; [now left|]. right. exists t. split; auto. lia. Qed.

Lemma upd_upd : forall A (l : list A) i x y, upd (upd l i x) i y = upd l i y.
Proof. induction l as [|h l IH]; intros [|i] x y; cbn; auto. now rewrite IH. Qed.

Lemma repeat_app_nat : forall A (x : A) m n, repeat x m ++ repeat x n = repeat x (m + n).
Proof. intros. now rewrite repeat_app. Qed.

Lemma begin_front : forall acts id rest used a, nth_error acts id = Some a -> lasts a 1 ->
  handle_begin (state acts id rest used) = Def (state (upd acts id (after a 1)) id rest used, id, SrvCall f).
Proof.
  intros acts id rest used a A L. unfold handle_begin, state. cbn [as_recorded as_acts as_used]. rewrite A. cbn [of_option obind].
  destruct L as [->|(t & -> & L)].
  - reflexivity.
  - cbn [invoke]. unfold long_dec. destruct (Z.eqb_spec t long_min); [unfold long_min in *; lia|]. reflexivity.
Qed.

Lemma end_front : forall acts id rest used a, nth_error acts id = Some a -> lasts a 0 ->
  handle_end (state acts id rest used) id = Def (state acts id rest used).
Proof.
  intros acts id rest used a A L. unfold handle_end, state. cbn [as_recorded as_acts as_used]. rewrite A. cbn [of_option obind].
  destruct L as [->|(t & -> & L)]; [reflexivity|]. cbn [isDone]. destruct (Z.eqb_spec t 0); [lia|reflexivity].
Qed.

Lemma nest : forall more d, (forall e, (d + more <= e)%nat -> nested f e = 0%nat) ->
  exists N, forall fuel, (N <= fuel)%nat -> forall acts id rest used a, nth_error acts id = Some a ->
    lasts a (tree_size (nested f) more d) ->
    reent_call nested fuel d (state acts id rest used) =
      Def (state (upd acts id (after a (tree_size (nested f) more d))) id rest used,
           repeat (Some f) (tree_size (nested f) more d)).
Proof.
  assert (CALLS : forall d k, (exists N, forall fuel, (N <= fuel)%nat -> forall acts id rest used a, nth_error acts id = Some a ->
      lasts a k -> reent_call nested fuel d (state acts id rest used) =
        Def (state (upd acts id (after a k)) id rest used, repeat (Some f) k)) ->
    forall n, exists N, forall fuel, (N <= fuel)%nat -> forall acts id rest used a, nth_error acts id = Some a ->
      lasts a (n * k) -> reent_calls nested fuel d n (state acts id rest used) =
        Def (state (upd acts id (after a (n * k))) id rest used, repeat (Some f) (n * k))).
  { intros d k (N & C). induction n as [|n (M & IH)].
    - exists 1%nat. intros [|fuel] L acts id rest used a A LA; [lia|]. cbn [reent_calls Nat.mul repeat].
      rewrite after_0, upd_same by exact A. reflexivity.
    - exists (S (Nat.max N M)). intros [|fuel] L acts id rest used a A LA; [lia|]. cbn [reent_calls].
      assert (AL : (id < length acts)%nat) by (eapply nth_error_Some_lt; eauto).
      rewrite (C fuel) with (a := a); [|lia|exact A|eapply lasts_le; [exact LA|cbn [Nat.mul]; lia]]. cbn [obind].
      rewrite (IH fuel) with (a := after a k); [|lia|now rewrite nth_error_upd_same|now apply lasts_after].
      cbn [obind]. rewrite upd_upd, after_after, repeat_app_nat. reflexivity. }
  induction more as [|more IH]; intros d Z0.
  - exists 2%nat. intros [|[|fuel]] L acts id rest used a A LA; try lia. cbn [tree_size] in *. cbn [reent_call].
    assert (AL : (id < length acts)%nat) by (eapply nth_error_Some_lt; eauto).
    rewrite (begin_front _ _ _ _ a) by auto. cbn [obind]. rewrite Z0 by lia. cbn [reent_calls obind].
    rewrite (end_front _ _ _ _ (after a 1)); [reflexivity|now rewrite nth_error_upd_same|].
    apply lasts_after. exact LA.
  - set (k := tree_size (nested f) more (S d)). set (n := nested f d).
    destruct (CALLS (S d) k) with (n := n) as (N & C).
    { apply IH. intros e L. apply Z0. lia. }
    exists (S N). intros [|fuel] L acts id rest used a A LA; [lia|]. cbn [tree_size] in *. fold k n in LA |- *. cbn [reent_call].
    assert (AL : (id < length acts)%nat) by (eapply nth_error_Some_lt; eauto).
    rewrite (begin_front _ _ _ _ a); [|auto|eapply lasts_le; [exact LA|lia]]. cbn [obind]. fold n.
    rewrite (C fuel) with (a := after a 1); [|lia|now rewrite nth_error_upd_same|now apply lasts_after].
    cbn [obind]. rewrite upd_upd, after_after. cbn [Nat.add].
    rewrite (end_front _ _ _ _ (after a (S (n * k)))); [reflexivity|now rewrite nth_error_upd_same|].
    apply lasts_after. now rewrite Nat.add_0_r.
Qed.

(** The whole statement: the chain starts with an action that lasts longer than all the calls. *)
Lemma reent_within : forall rs q D, Forall (@rec_ok F) rs ->
  match q with Some n => Z.of_nat (tree_size (nested f) D 0) < n <= int_max | None => True end ->
  (forall e, (D <= e)%nat -> nested f e = 0%nat) ->
  exists s s' N, record_all aseq_new (match q with Some n => RecTimes f n | None => RecAlways f end :: rs) = Def s /\
    (forall fuel, (N <= fuel)%nat -> reent_call nested fuel 0 s = Def (s', repeat (Some f) (tree_size (nested f) D 0))) /\
    forall k, exists s2, play k s' =
      Def (map (fun i => shown (nth_answer (map meant (match q with Some n => RecTimes f n | None => RecAlways f end :: rs))
                                  (Z.of_nat i + Z.of_nat (tree_size (nested f) D 0)))) (seq 0 k), s2).
Proof.
  intros rs q D OK Q Z0. set (r := match q with Some n => RecTimes f n | None => RecAlways f end).
  set (K := tree_size (nested f) D 0) in *.
  destruct (rep_record_all (r :: rs) aseq_new [] rep_new) as [s [RA RP]]. cbn [app] in RP.
  exists s. destruct s as [acts recd used]. pose proof RP as [ND MP]. cbn [as_recorded as_acts] in ND, MP.
  destruct recd as [|id rest]; [discriminate|]. cbn [map app] in MP. injection MP as A MP.
  set (a := plan_act (meant r)) in *.
  assert (LA : lasts a K).
  { unfold a, r. destruct q as [n|]; cbn; [|now left]. right. exists n. split; [reflexivity|]. unfold int_max, long_max in *. lia. }
  destruct (nest D 0) as (N & C). { intros e L. apply Z0. lia. }
  exists (state (upd acts id (after a K)) id rest used), N. split; [exact RA|]. split.
  { intros fuel L. apply (C fuel L acts id rest used a A LA). }
  assert (NI : ~ In id rest) by now inversion ND.
  set (e := match q with Some n => (f, Some (n - Z.of_nat K)) | None => (f, None) end).
  assert (RP' : rep (state (upd acts id (after a K)) id rest used) (e :: map meant rs)).
  { split; [exact ND|]. cbn [state as_acts as_recorded map app].
    rewrite nth_error_upd_same by (eapply nth_error_Some_lt; eauto). rewrite map_nth_upd by exact NI. rewrite MP. f_equal.
    unfold e, a, r. destruct q; reflexivity. }
  assert (EO : Forall entry_ok (e :: map meant rs)).
  { constructor; [|now apply meant_ok]. unfold e, entry_ok. destruct q as [n|]; cbn; auto. unfold int_max, long_max in *. lia. }
  intro k. destruct (rep_play k _ _ RP' EO) as (s2 & P & _). exists s2. rewrite P. do 2 f_equal. apply map_ext. intro i. f_equal.
  unfold e, r. destruct q as [n|]; cbn; [|reflexivity].
  destruct (Z.ltb_spec (Z.of_nat i) (n - Z.of_nat K)); destruct (Z.ltb_spec (Z.of_nat i + Z.of_nat K) n); try lia; auto.
  f_equal. lia.
Qed.
End R.
