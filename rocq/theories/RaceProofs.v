(** Proofs about races. *)
From Coq Require Import Bool ZArith Lia List Relations.
From Verif Require Import Spec_Race Race Spec_Threads.
Import ListNotations.
Open Scope nat_scope.

(** The accesses an operation can make. *)
Definition touches (o : t_op) (a : access loc) : Prop :=
  match o with
  | TCall c =>
      match a with
      | Rd (LVptr m) | Rd (LCookie m) => m = c_mock c
      | Rd (LEntry m k) | Wr (LEntry m k) | Rd (LBody m k) | At (LBodyCount m k) | Rd (LStubs m k) | At (LStubCount m k _)
      | Rd (LHistory m k) | Wr (LHistory m k) | At (LInvCount m k) | Rd (LActions m k _) | Wr (LActions m k _)
      | At (LActionCount m k _) | Rd (LTimes m k _) | Wr (LTimes m k _) | Rd (LName m k) => m = c_mock c /\ k = c_entry c
      | Rd (LOffset m j) => m = c_mock c /\ j <= c_entry c
      | At LOrdinal | Rd LContext => True
      | Rd (LUser _) | Wr (LUser _) | At (LUser _) => In a (c_user c)
      | _ => False
      end
  | TMention m k first | TStub m k first =>
      match a with
      | Rd (LVptr m') => m' = m
      | Wr (LEntry m' k') | Wr (LBody m' k') | Wr (LOffset m' k') => first = true /\ m' = m /\ k' = k
      | Rd (LBody m' k') | At (LBodyCount m' k') | Wr (LName m' k') | Rd (LStubs m' k') | Wr (LStubs m' k') => m' = m /\ k' = k
      | At LMethodNo => True
      | _ => False
      end
  | TVerify m _ ks =>
      match a with
      | Rd (LBody m' _) | At (LBodyCount m' _) => m' = m
      | Rd (LHistory m' k) | At (LInvCount m' k) | Wr (LMarks m' k) => m' = m /\ In k ks
      | _ => False
      end
  end.

Ltac crack := repeat match goal with
  | H : In _ (_ ++ _) |- _ => apply in_app_or in H; destruct H
  | H : In _ (flat_map _ _) |- _ => apply in_flat_map in H; destruct H as [? [? H]]
  | H : In _ (map _ _) |- _ => apply in_map_iff in H; destruct H as [? [? ?]]
  | H : In _ (seq _ _) |- _ => apply in_seq in H
  | H : In _ [] |- _ => destruct H
  | H : In _ (_ :: _) |- _ => destruct H as [H|H]
  | H : In _ (match ?x with _ => _ end) |- _ => destruct x eqn:?
  end; subst.

Lemma user_touches : forall c a, Forall of_user (c_user c) -> In a (c_user c) -> touches (TCall c) a.
Proof.
  intros c a HF HI. rewrite Forall_forall in HF. pose proof (HF a HI) as HU.
  destruct a as [[]|[]|[]]; cbn in HU |- *; try contradiction; exact HI.
Qed.

Lemma accesses_touch : forall o a, Forall of_user (user_accesses o) -> In a (op_accesses o) -> touches o a.
Proof.
  intros o a HU HI. destruct o as [c|m k first|m k first|m size ks]; cbn [op_accesses user_accesses] in *;
    unfold call_accesses, lookup, handle, act, complain, stub_accesses, mention_accesses, verify_accesses in HI.
  - crack; try (apply user_touches; assumption); cbn; intuition lia.
  - crack; cbn; intuition lia.
  - crack; cbn; intuition lia.
  - crack; cbn; intuition lia.
Qed.

Lemma apart_no_conflict : forall o o' a b,
  keep_apart o o' -> touches o a -> touches o' b ->
  (of_user a -> of_user b -> ~ conflict a b) -> ~ conflict a b.
Proof.
  intros o o' a b [H1 H2] Ha Hb HU HC.
  destruct a as [l|l|l]; destruct b as [l'|l'|l']; cbn in HC; try contradiction; subst l';
    destruct l; destruct o as [c|m1 k1 f1|m1 k1 f1|m1 z1 ks1]; cbn in Ha; try contradiction;
    destruct o' as [d|m2 k2 f2|m2 k2 f2|m2 z2 ks2]; cbn in Hb; try contradiction; cbn in H1, H2;
    try (apply HU; [exact Logic.I|exact Logic.I|reflexivity]);
    repeat match goal with H : _ /\ _ |- _ => destruct H end; subst;
    try (match goal with H : _ <> _ |- _ => apply H; congruence end);
    try (match goal with H : ?x = ?x -> ~ In _ _ |- _ => apply (H eq_refl); assumption end);
    try (match goal with H : ?x = ?x -> true = false |- _ => discriminate (H eq_refl) end);
    try (match goal with H : true = true -> _ = _ -> _ < _ |- _ => specialize (H eq_refl); lia end); try congruence.
Qed.

(** An access of a thread belongs to one of its operations. *)
Lemma in_execution : forall (ps : list (list (access loc))) tr i t a,
  runs ps tr -> nth_error tr i = Some (t, a) -> In a (nth t ps []).
Proof.
  intros ps tr i t a HR HI. rewrite <- (HR t). apply in_map_iff. exists (t, a). split; [reflexivity|].
  apply filter_In. split; [eapply nth_error_In; exact HI|]. apply Nat.eqb_refl.
Qed.

Lemma in_thread : forall ts t a, In a (nth t (map thread_accesses ts) []) ->
  exists o, In o (nth t ts []) /\ In a (op_accesses o).
Proof.
  intros ts t a H. change (@nil (access loc)) with (thread_accesses []) in H. rewrite map_nth in H.
  apply in_flat_map in H. exact H.
Qed.

Lemma apart_no_race : forall ts,
  (forall t u o o', t <> u -> In o (nth t ts []) -> In o' (nth u ts []) ->
     keep_apart o o' /\
     forall a b, In a (user_accesses o) -> In b (user_accesses o') -> ~ conflict a b) ->
  (forall t o, In o (nth t ts []) -> Forall of_user (user_accesses o)) ->
  forall tr, runs (map thread_accesses ts) tr -> ~ race tr.
Proof.
  intros ts HA HU tr HR (i & j & t & a & u & b & _ & Hi & Hj & Htu & HC & _).
  destruct (in_thread _ _ _ (in_execution _ _ _ _ _ HR Hi)) as [o [Ho Ia]].
  destruct (in_thread _ _ _ (in_execution _ _ _ _ _ HR Hj)) as [o' [Ho' Ib]].
  destruct (HA _ _ _ _ Htu Ho Ho') as [K KU].
  pose proof (accesses_touch _ _ (HU _ _ Ho) Ia) as Ta.
  pose proof (accesses_touch _ _ (HU _ _ Ho') Ib) as Tb.
  apply (apart_no_conflict o o' a b K Ta Tb); [|exact HC].
  intros Ua Ub. apply KU.
  - destruct a as [[]|[]|[]]; cbn in Ua; try contradiction; destruct o; cbn in Ta; try contradiction; exact Ta.
  - destruct b as [[]|[]|[]]; cbn in Ub; try contradiction; destruct o'; cbn in Tb; try contradiction; exact Tb.
Qed.

(** *** Races *)

(** One thread after the other. *)
Definition one_after_other (p q : list (access loc)) : execution := map (pair 0) p ++ map (pair 1) q.

Lemma filter_pair : forall (p : list (access loc)) n t, filter (fun x => Nat.eqb (fst x) t) (map (pair n) p) = if Nat.eqb n t then map (pair n) p else [].
Proof.
  induction p as [|a p IH]; intros n t; cbn; [destruct (Nat.eqb n t); reflexivity|].
  rewrite IH. destruct (Nat.eqb n t); reflexivity.
Qed.

Lemma one_after_other_runs : forall p q, runs [p; q] (one_after_other p q).
Proof.
  intros p q t. unfold one_after_other. rewrite filter_app, map_app, !filter_pair.
  assert (M : forall n (l : list (access loc)), map (@snd nat (access loc)) (map (pair n) l) = l)
    by (intros n l; rewrite map_map; cbn; apply map_id).
  destruct t as [|[|t]]; cbn [Nat.eqb nth]; rewrite ?M; cbn; rewrite ?app_nil_r; try reflexivity.
  destruct t; reflexivity.
Qed.

Lemma nth_one_after_other : forall p q i t a,
  nth_error (one_after_other p q) i = Some (t, a) ->
  (t = 0 /\ nth_error p i = Some a) \/ (t = 1 /\ length p <= i /\ nth_error q (i - length p) = Some a).
Proof.
  intros p q i t a H. unfold one_after_other in H. destruct (Nat.lt_ge_cases i (length p)) as [L|L].
  - rewrite nth_error_app1 in H by (rewrite map_length; exact L). rewrite nth_error_map in H.
    destruct (nth_error p i) eqn:E; cbn in H; inversion H; subst. left. split; reflexivity.
  - rewrite nth_error_app2 in H by (rewrite map_length; exact L). rewrite map_length, nth_error_map in H.
    destruct (nth_error q (i - length p)) eqn:E; cbn in H; inversion H; subst. right. split; [reflexivity|]. split; [exact L|reflexivity].
Qed.

(** Two conflicting accesses [x] and [y] race if no atomic location is used both from [x] on
    by the first thread and before [y] by the second. *)
Lemma race_intro : forall p1 x p2 q1 y q2,
  conflict x y -> (forall l, In (At l) (x :: p2) -> ~ In (At l) (q1 ++ [y])) ->
  race (one_after_other (p1 ++ x :: p2) (q1 ++ y :: q2)).
Proof.
  intros p1 x p2 q1 y q2 HC HS. set (p := p1 ++ x :: p2). set (q := q1 ++ y :: q2).
  assert (Lp : length p1 < length p) by (unfold p; rewrite app_length; cbn; lia).
  exists (length p1), (length p + length q1), 0, x, 1, y. split; [lia|].
  assert (Hi : nth_error (one_after_other p q) (length p1) = Some (0, x)).
  { unfold one_after_other. rewrite nth_error_app1 by (rewrite map_length; exact Lp). rewrite nth_error_map.
    unfold p. rewrite nth_error_app2 by lia. rewrite Nat.sub_diag. reflexivity. }
  assert (Hj : nth_error (one_after_other p q) (length p + length q1) = Some (1, y)).
  { unfold one_after_other. rewrite nth_error_app2 by (rewrite map_length; lia). rewrite map_length, nth_error_map.
    replace (length p + length q1 - length p) with (length q1) by lia.
    unfold q. rewrite nth_error_app2 by lia. rewrite Nat.sub_diag. reflexivity. }
  split; [exact Hi|]. split; [exact Hj|]. split; [discriminate|]. split; [exact HC|].
  set (P := fun k => (length p1 <= k < length p) \/ length p + length q1 < k).
  assert (S1 : forall a b, before1 (one_after_other p q) a b -> P a -> P b).
  { intros a b [Lab (t & u & t' & u' & Ea & Eb & Hor)] Pa.
    apply nth_one_after_other in Ea. apply nth_one_after_other in Eb.
    assert (Bp : forall k z, nth_error p k = Some z -> k < length p) by (intros k z Hk; apply nth_error_Some; congruence).
    destruct Ea as [[-> Ea]|[-> [La Ea]]]; destruct Eb as [[-> Eb]|[-> [Lb Eb]]].
    - left. apply Bp in Eb. apply Bp in Ea. destruct Pa; lia.
    - destruct Hor as [Ht|[l [-> ->]]]; [discriminate|].
      destruct (Nat.lt_ge_cases (length p + length q1) b) as [G|G]; [right; exact G|exfalso].
      apply (HS l).
      + pose proof (Bp _ _ Ea) as Ba. destruct Pa as [Pa|Pa]; [|lia]. unfold p in Ea.
        rewrite nth_error_app2 in Ea by lia. eapply nth_error_In. exact Ea.
      + unfold q in Eb. change (y :: q2) with ([y] ++ q2) in Eb. rewrite app_assoc in Eb.
        rewrite nth_error_app1 in Eb by (rewrite app_length; cbn; lia). eapply nth_error_In. exact Eb.
    - apply Bp in Eb. lia.
    - right. destruct Pa; lia. }
  intros HB. assert (SP : forall a b, clos_trans nat (before1 (one_after_other p q)) a b -> P a -> P b).
  { intros a b H. induction H; intros Pa; [eapply S1; eassumption|auto]. }
  destruct (SP _ _ HB) as [G|G]; [left; lia|lia|lia].
Qed.

Ltac no_sync := let l := fresh "l" in let A := fresh "A" in let B := fresh "B" in
  intros l A B; crack; try discriminate; congruence.

Lemma call_split : forall c i f, c_found c = Some (i, f) ->
  exists p2, call_accesses c =
    (lookup (c_mock c) (c_entry c) ++ [At LOrdinal; Rd (LStubs (c_mock c) (c_entry c))] ++
     flat_map (fun i => [At (LStubCount (c_mock c) (c_entry c) i); At (LStubCount (c_mock c) (c_entry c) i)]) (c_tried c) ++
     [Rd (LHistory (c_mock c) (c_entry c))]) ++ Wr (LHistory (c_mock c) (c_entry c)) :: p2 /\
    forall l, In (At l) p2 -> l = LActionCount (c_mock c) (c_entry c) i \/ l = LInvCount (c_mock c) (c_entry c)
      \/ In (At l) (c_user c).
Proof.
  intros c i f Hf. unfold call_accesses, handle. rewrite Hf. eexists. split.
  - rewrite <- !app_assoc. cbn [app]. reflexivity.
  - intros l A. unfold act, complain in A. destruct f; crack; try discriminate;
      try (right; right; assumption);
      match goal with H : At _ = At _ |- _ => inversion H; subst end; auto.
Qed.

(** Two threads that each call the same method once race, whatever the calls find. *)
Lemma same_method_race : forall c d, c_mock c = c_mock d -> c_entry c = c_entry d ->
  c_found c <> None -> c_found d <> None -> Forall of_user (c_user c) ->
  exists tr, runs [call_accesses c; call_accesses d] tr /\ race tr.
Proof.
  intros c d Hm Hk Fc Fd HU.
  destruct (c_found c) as [[i f]|] eqn:Ec; [|congruence]. destruct (c_found d) as [[i' f']|] eqn:Ed; [|congruence].
  destruct (call_split _ _ _ Ec) as [p2 [Cc Sc]]. destruct (call_split _ _ _ Ed) as [q2 [Cd _]].
  exists (one_after_other (call_accesses c) (call_accesses d)). split; [apply one_after_other_runs|].
  rewrite Cc, Cd. apply race_intro; [cbn; congruence|].
  intros l A B. destruct A as [A|A]; [discriminate|].
  assert (HB : (exists k, l = LBodyCount (c_mock d) k) \/ l = LOrdinal \/ exists k, l = LStubCount (c_mock d) (c_entry d) k).
  { unfold lookup in B. crack; try discriminate;
      try (match goal with H : At _ = At _ |- _ => inversion H; subst end); eauto. }
  destruct (Sc l A) as [->|[->|U]].
  - destruct HB as [[k H]|[H|[k H]]]; discriminate.
  - destruct HB as [[k H]|[H|[k H]]]; discriminate.
  - rewrite Forall_forall in HU. specialize (HU _ U). cbn in HU. destruct HB as [[k ->]|[->|[k ->]]]; exact HU.
Qed.

(** So do a call and a verification that involves its mock. *)
Lemma verify_race : forall c size ks, c_found c <> None -> Forall of_user (c_user c) -> NoDup ks -> In (c_entry c) ks ->
  exists tr, runs [call_accesses c; verify_accesses (c_mock c) size ks] tr /\ race tr.
Proof.
  intros c size ks Fc HU ND HI.
  destruct (c_found c) as [[i f]|] eqn:Ec; [|congruence].
  destruct (call_split _ _ _ Ec) as [p2 [Cc Sc]].
  destruct (in_split _ _ HI) as [k1 [k2 Hks]].
  assert (Nk : ~ In (c_entry c) k1).
  { rewrite Hks in ND. apply NoDup_remove_2 in ND. intros Hin. apply ND. apply in_or_app. left. exact Hin. }
  exists (one_after_other (call_accesses c) (verify_accesses (c_mock c) size ks)). split; [apply one_after_other_runs|].
  assert (Cv : exists q2, verify_accesses (c_mock c) size ks =
    (flat_map (fun k => [Rd (LBody (c_mock c) k); At (LBodyCount (c_mock c) k); At (LBodyCount (c_mock c) k)]) (seq 0 size) ++
     flat_map (fun k => [Rd (LHistory (c_mock c) k); At (LInvCount (c_mock c) k); At (LInvCount (c_mock c) k)]) k1) ++
    Rd (LHistory (c_mock c) (c_entry c)) :: q2).
  { eexists. unfold verify_accesses. rewrite Hks at 1. rewrite flat_map_app. cbn [flat_map]. rewrite <- !app_assoc. cbn [app]. reflexivity. }
  destruct Cv as [q2 Cv]. rewrite Cc, Cv. apply race_intro; [reflexivity|].
  intros l A B. destruct A as [A|A]; [discriminate|].
  assert (HB : (exists k, l = LBodyCount (c_mock c) k) \/ exists k, l = LInvCount (c_mock c) k /\ In k k1).
  { crack; try discriminate; try (match goal with H : At _ = At _ |- _ => inversion H; subst end); eauto. }
  destruct (Sc l A) as [->|[->|U]].
  - destruct HB as [[k H]|[k [H _]]]; discriminate.
  - destruct HB as [[k H]|[k [H J]]]; [discriminate|]. inversion H; subst. exact (Nk J).
  - rewrite Forall_forall in HU. specialize (HU _ U). cbn in HU. destruct HB as [[k ->]|[k [-> _]]]; exact HU.
Qed.

(** So do a call and a statement that mentions, for the first time, a method whose entry
    comes before that of the called method. *)
Lemma mention_race : forall c k, k < c_entry c ->
  exists tr, runs [mention_accesses (c_mock c) k true; call_accesses c] tr /\ race tr.
Proof.
  intros c k Hk. exists (one_after_other (mention_accesses (c_mock c) k true) (call_accesses c)).
  split; [apply one_after_other_runs|].
  unfold mention_accesses, call_accesses, lookup. set (m := c_mock c).
  replace (seq 0 (S (c_entry c))) with (seq 0 k ++ k :: seq (S k) (c_entry c - k)).
  2:{ change (k :: seq (S k) (c_entry c - k)) with (seq (0 + k) (S (c_entry c - k))).
      rewrite <- seq_app. f_equal. lia. }
  rewrite map_app. cbn [map app]. rewrite <- !app_assoc. cbn [app].
  match goal with |- race (one_after_other [?a; ?b; ?d; ?e; ?g; ?h; ?i; ?x; ?j; ?q; ?r; ?s] ?Q) =>
    change (race (one_after_other ([a; b; d; e; g; h; i] ++ x :: [j; q; r; s]) Q)) end.
  match goal with |- race (one_after_other _ (?a :: ?b :: ?d :: ?e :: ?P ++ ?y :: ?Q)) =>
    change (race (one_after_other ([Rd (LBody m k); At (LBodyCount m k); At (LBodyCount m k); At LMethodNo; Rd (LVptr m); Wr (LEntry m k); Wr (LBody m k)] ++ Wr (LOffset m k) :: [Rd (LBody m k); At (LBodyCount m k); At (LBodyCount m k); Wr (LName m k)]) (([a; b; d; e] ++ P) ++ y :: Q))) end.
  apply race_intro; [reflexivity|].
  intros l A B. crack; discriminate.
Qed.

(** So do a call and a statement that stubs the called method. *)
Lemma stub_race : forall c first,
  exists tr, runs [stub_accesses (c_mock c) (c_entry c) first; call_accesses c] tr /\ race tr.
Proof.
  intros c first. exists (one_after_other (stub_accesses (c_mock c) (c_entry c) first) (call_accesses c)).
  split; [apply one_after_other_runs|].
  assert (S1 : exists p1, stub_accesses (c_mock c) (c_entry c) first = p1 ++ [Wr (LStubs (c_mock c) (c_entry c))]).
  { unfold stub_accesses. eexists. change [Rd (LStubs (c_mock c) (c_entry c)); Wr (LStubs (c_mock c) (c_entry c))]
      with ([Rd (LStubs (c_mock c) (c_entry c))] ++ [Wr (LStubs (c_mock c) (c_entry c))]). rewrite app_assoc. reflexivity. }
  assert (S2 : exists q1 q2, call_accesses c = q1 ++ Rd (LStubs (c_mock c) (c_entry c)) :: q2).
  { exists (lookup (c_mock c) (c_entry c) ++ [At LOrdinal]). eexists.
    unfold call_accesses, handle. rewrite <- app_assoc. cbn [app]. reflexivity. }
  destruct S1 as [p1 ->], S2 as (q1 & q2 & ->). apply race_intro; [reflexivity|].
  intros l [A|[]]. discriminate.
Qed.

(** And two statements that stub one method. *)
Lemma stubs_race : forall m k first first',
  exists tr, runs [stub_accesses m k first; stub_accesses m k first'] tr /\ race tr.
Proof.
  intros m k first first'. exists (one_after_other (stub_accesses m k first) (stub_accesses m k first')).
  split; [apply one_after_other_runs|].
  assert (S1 : forall f, exists p1, stub_accesses m k f = p1 ++ [Wr (LStubs m k)]).
  { intro f. unfold stub_accesses. eexists. change [Rd (LStubs m k); Wr (LStubs m k)]
      with ([Rd (LStubs m k)] ++ [Wr (LStubs m k)]). rewrite app_assoc. reflexivity. }
  destruct (S1 first) as [p1 ->], (S1 first') as [q1 ->]. apply race_intro; [reflexivity|].
  intros l [A|[]]. discriminate.
Qed.
