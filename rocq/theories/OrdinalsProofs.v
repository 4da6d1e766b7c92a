From Coq Require Import ZArith Lia List Sorting.Sorted.
From Verif Require Import Base CInt Ordinals.
Import ListNotations.
Open Scope Z_scope.

Lemma next_small : forall c, 0 <= c -> c + 1 < two32 -> next_ordinal c = c + 1.
Proof. intros. unfold next_ordinal. apply to_uint32_id. lia. Qed.

Lemma ord_run_nth : forall sched c i th, 0 <= c -> c + Z.of_nat (length sched) < two32 ->
  nth_error sched i = Some th -> nth_error (ord_run c sched) i = Some (th, c + Z.of_nat i + 1).
Proof.
  induction sched as [|t sched IH]; intros c [|i] th Hc Hb E; cbn [nth_error ord_run] in *; try discriminate.
  - injection E as ->. rewrite next_small by (cbn [length] in Hb; lia). do 2 f_equal. lia.
  - rewrite next_small by (cbn [length] in Hb; lia). rewrite IH with (th := th); auto.
    + do 2 f_equal. lia.
    + lia.
    + cbn [length] in Hb. lia.
Qed.

Lemma ord_run_threads : forall sched c, map fst (ord_run c sched) = sched.
Proof. induction sched as [|t s IH]; intro c; cbn; auto. now rewrite IH. Qed.

Lemma ord_run_sorted : forall sched c, 0 <= c -> c + Z.of_nat (length sched) < two32 ->
  StronglySorted Z.lt (map snd (ord_run c sched)) /\ Forall (fun o => c < o) (map snd (ord_run c sched)).
Proof.
  induction sched as [|t sched IH]; intros c Hc Hb; cbn [ord_run map].
  - split; constructor.
  - cbn [length] in Hb. rewrite next_small by lia.
    destruct (IH (c + 1) ltac:(lia) ltac:(lia)) as [S F]. cbn [snd]. split.
    + constructor; auto.
    + constructor; [lia|]. eapply Forall_impl; [|exact F]. cbn. intros. lia.
Qed.

(** C10 *)
Theorem ordinals_distinct : forall sched c, 0 <= c -> c + Z.of_nat (length sched) < two32 ->
  NoDup (map snd (ord_run c sched)) /\
  (forall i j th o1 o2, (i < j)%nat ->
     nth_error (ord_run c sched) i = Some (th, o1) ->
     nth_error (ord_run c sched) j = Some (th, o2) -> o1 < o2) /\
  map fst (ord_run c sched) = sched.
Proof.
  intros sched c Hc Hb. split; [|split].
  - destruct (ord_run_sorted sched c Hc Hb) as [S _]. induction S as [|a l S IH F]; constructor; auto.
    intro X. rewrite Forall_forall in F. specialize (F _ X). lia.
  - intros i j th o1 o2 Hij E1 E2.
    assert (G : forall k th' o, nth_error (ord_run c sched) k = Some (th', o) -> o = c + Z.of_nat k + 1).
    { intros k th' o E.
      assert (T : nth_error sched k = Some th').
      { rewrite <- (ord_run_threads sched c). rewrite nth_error_map, E. reflexivity. }
      rewrite (ord_run_nth sched c k th' Hc Hb T) in E. congruence. }
    rewrite (G _ _ _ E1), (G _ _ _ E2). lia.
  - apply ord_run_threads.
Qed.

(** At the 2^32-th increment the order breaks: the ordinal is smaller than its
    predecessors (and ordinals start to repeat). *)
Theorem ordinal_wraps : next_ordinal (two32 - 1) = 0.
Proof. reflexivity. Qed.

Lemma ordinal_order_breaks : exists c, 0 <= c < two32 /\
  exists o1 o2, ord_run c [0; 0]%nat = [(0%nat, o1); (0%nat, o2)] /\ o2 < o1.
Proof. exists (two32 - 2). split; [cbv; split; congruence|]. exists (two32 - 1), 0. split; reflexivity. Qed.
