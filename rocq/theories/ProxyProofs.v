From Coq Require Import Bool ZArith Lia List.
From Verif Require Import Base CInt Proxy Spec_Layout.
Import ListNotations.
Open Scope Z_scope.

Section P.
Context {H : Type}.

(** Invariant: [done] are the stubbings made so far, [fill] the offset value of
    slots not bound yet. *)
Definition pt_inv (size : nat) (fill : Z) (done : list (nat * Z * H)) (t : ptables H) : Prop :=
  length (pt_mocks t) = size /\ length (pt_offsets t) = size /\
  forall k, (k < size)%nat ->
    match first_for k done with
    | Some (id, h) => nth_error (pt_mocks t) k = Some (Some h) /\ nth_error (pt_offsets t) k = Some id
    | None => nth_error (pt_mocks t) k = Some None /\ nth_error (pt_offsets t) k = Some fill
    end.

Lemma first_for_app : forall k (a b : list (nat * Z * H)),
  first_for k (a ++ b) = match first_for k a with Some x => Some x | None => first_for k b end.
Proof.
  induction a as [|[[s id] h] a IH]; intro b; cbn; auto. destruct (Nat.eqb s k); auto.
Qed.

Lemma stub_inv : forall size fill done t s id h, pt_inv size fill done t -> (s < size)%nat ->
  exists t', pt_stub t s id h = Def t' /\ pt_inv size fill (done ++ [(s, id, h)]) t'.
Proof.
  intros size fill done t s id h (L1 & L2 & I) Hs.
  unfold pt_stub, isBinded. pose proof (I s Hs) as Is.
  destruct (first_for s done) as [[id0 h0]|] eqn:F.
  - destruct Is as [M O]. rewrite M. cbn. exists t. split; auto. repeat split; auto.
    intros k Hk. rewrite first_for_app. specialize (I k Hk). cbn.
    destruct (first_for k done) as [[? ?]|] eqn:Fk; auto.
    destruct (Nat.eqb_spec s k); [congruence|auto].
  - destruct Is as [M O]. rewrite M. cbn. unfold pt_bind. rewrite L1, L2.
    assert (B : (s <? size)%nat = true) by (apply Nat.ltb_lt; auto). rewrite B. cbn.
    eexists. split; [reflexivity|]. split; [|split]; cbn; try (rewrite upd_length; auto).
    intros k Hk. rewrite first_for_app. cbn. specialize (I k Hk).
    destruct (Nat.eqb_spec s k) as [<-|N].
    + rewrite F. rewrite !nth_error_upd_same by lia. auto.
    + rewrite !nth_error_upd_other by auto. destruct (first_for k done) as [[? ?]|]; auto.
Qed.

Lemma stub_all_inv : forall size fill ops done t, pt_inv size fill done t ->
  Forall (fun o => (fst (fst o) < size)%nat) ops ->
  exists t', pt_stub_all t ops = Def t' /\ pt_inv size fill (done ++ ops) t'.
Proof.
  induction ops as [|[[s id] h] ops IH]; intros done t I V; cbn [pt_stub_all].
  - exists t. rewrite app_nil_r. auto.
  - inversion V as [|? ? Vs Vr]; subst. cbn in Vs.
    destruct (stub_inv size fill done t s id h I Vs) as (t1 & E1 & I1). rewrite E1. cbn [obind].
    destruct (IH _ t1 I1 Vr) as (t2 & E2 & I2). exists t2. rewrite <- app_assoc in I2. auto.
Qed.

Lemma offset_of_unique : forall offs id k,
  nth_error offs k = Some id ->
  (forall j, (j < k)%nat -> nth_error offs j <> Some id) -> offset_of offs id = k.
Proof.
  induction offs as [|o offs IH]; intros id [|k] E U; cbn in *; try discriminate.
  - injection E as ->. now rewrite Z.eqb_refl.
  - destruct (Z.eqb_spec o id) as [->|N].
    + exfalso. apply (U 0%nat); [lia|reflexivity].
    + f_equal. apply IH; auto. intros j Hj. apply (U (S j)). lia.
Qed.

Lemma dispatch_inv : forall size fill done t k id h, pt_inv size fill done t -> (k < size)%nat ->
  first_for k done = Some (id, h) -> id <> fill ->
  (forall j id' h', j <> k -> first_for j done = Some (id', h') -> id' <> id) ->
  dispatch t id = Def h.
Proof.
  intros size fill done t k id h (L1 & L2 & I) Hk F NF D.
  pose proof (I k Hk) as Ik. rewrite F in Ik. destruct Ik as [M O].
  unfold dispatch, handler_by_id.
  rewrite (offset_of_unique (pt_offsets t) id k O).
  - rewrite M. reflexivity.
  - intros j Hj X. specialize (I j ltac:(lia)). destruct (first_for j done) as [[id' h']|] eqn:Fj.
    + destruct I as [_ O']. rewrite O' in X. injection X as ->. apply (D j id h'); auto. lia.
    + destruct I as [_ O']. rewrite O' in X. congruence.
Qed.

Lemma pt_new_inv : forall size, pt_inv size int_max [] (pt_new size).
Proof.
  intro size. unfold pt_new. split; [|split]; cbn; try (now rewrite repeat_length).
  intros k Hk. now rewrite !nth_error_repeat_lt.
Qed.

Lemma pt_reset_inv : forall size, pt_inv size 0 [] (pt_reset size).
Proof.
  intro size. unfold pt_reset. split; [|split]; cbn; try (now rewrite repeat_length).
  intros k Hk. now rewrite !nth_error_repeat_lt.
Qed.

(** Distinct positions have distinct ids. *)
Definition ids_distinct (ops : list (nat * Z * H)) : Prop :=
  forall s1 id1 h1 s2 id2 h2, In (s1, id1, h1) ops -> In (s2, id2, h2) ops -> s1 <> s2 -> id1 <> id2.

Lemma first_for_in : forall k (ops : list (nat * Z * H)) id h, first_for k ops = Some (id, h) -> In (k, id, h) ops.
Proof.
  induction ops as [|[[s id0] h0] ops IH]; intros id h; cbn; [discriminate|].
  destruct (Nat.eqb_spec s k) as [<-|N].
  - intro E. injection E as -> ->. auto.
  - auto.
Qed.

(** C45 and the method part of C13. *)
Theorem dispatch_ok : forall size fill (t0 : ptables H) ops,
  (t0 = pt_new size /\ fill = int_max \/ t0 = pt_reset size /\ fill = 0) ->
  Forall (fun o => (fst (fst o) < size)%nat) ops ->
  Forall (fun o => snd (fst o) <> fill) ops ->
  ids_distinct ops ->
  exists t, pt_stub_all t0 ops = Def t /\
    forall k id h, first_for k ops = Some (id, h) -> dispatch t id = Def h.
Proof.
  intros size fill t0 ops Ht V NF D.
  assert (I0 : pt_inv size fill [] t0).
  { destruct Ht as [[-> ->]|[-> ->]]; [apply pt_new_inv|apply pt_reset_inv]. }
  destruct (stub_all_inv size fill ops [] t0 I0 V) as (t & E & I). cbn in I.
  exists t. split; [exact E|]. intros k id h F.
  pose proof (first_for_in _ _ _ _ F) as IN.
  rewrite Forall_forall in V, NF. pose proof (V _ IN) as Vk. pose proof (NF _ IN) as Nk. cbn in Vk, Nk.
  apply (dispatch_inv size fill ops t k id h I Vk F Nk).
  intros j id' h' Nj Fj X. apply first_for_in in Fj.
  exact (D j id' h' k id h Fj IN Nj X).
Qed.

(** After a reset, a destructor (id 0) behind the first position is not found. *)
Theorem dtor_after_reset : forall size k (h : H), (0 < k < size)%nat ->
  exists t, pt_stub_all (pt_reset size) [(k, dtor_id, h)] = Def t /\ dispatch t dtor_id = UB.
Proof.
  intros size k h Hk.
  destruct (stub_all_inv size 0 [(k, dtor_id, h)] [] (pt_reset size) (pt_reset_inv size)) as (t & E & I).
  { constructor; [cbn; lia|constructor]. }
  exists t. split; [exact E|]. destruct I as (L1 & L2 & I).
  specialize (I 0%nat ltac:(lia)). cbn [first_for app] in I. destruct (Nat.eqb_spec k 0); [lia|].
  unfold dispatch, handler_by_id. rewrite (offset_of_unique _ _ 0).
  - destruct I as [-> _]. reflexivity.
  - apply I.
  - lia.
Qed.

(** The same id at two positions: the later position in the table is answered by
    the handler of the earlier one. *)
Theorem same_id_collides : forall size i j id (h1 h2 : H), (i < j < size)%nat -> id <> int_max ->
  exists t, pt_stub_all (pt_new size) [(j, id, h2); (i, id, h1)] = Def t /\ dispatch t id = Def h1.
Proof.
  intros size i j id h1 h2 Hij NI.
  destruct (stub_all_inv size int_max [(j, id, h2); (i, id, h1)] [] (pt_new size) (pt_new_inv size)) as (t & E & I).
  { repeat constructor; cbn; lia. }
  exists t. split; [exact E|]. destruct I as (L1 & L2 & I).
  unfold dispatch, handler_by_id. rewrite (offset_of_unique _ _ i).
  - specialize (I i ltac:(lia)). cbn in I. destruct (Nat.eqb_spec j i); [lia|]. rewrite Nat.eqb_refl in I.
    destruct I as [-> _]. reflexivity.
  - specialize (I i ltac:(lia)). cbn in I. destruct (Nat.eqb_spec j i); [lia|]. rewrite Nat.eqb_refl in I. apply I.
  - intros q Hq X. specialize (I q ltac:(lia)). cbn in I.
    destruct (Nat.eqb_spec j q); [lia|]. destruct (Nat.eqb_spec i q); [lia|]. destruct I as [_ O]. congruence.
Qed.

(** An id bound through no slot of this table: the lookup leaves the vector. *)
Theorem foreign_id : forall size ops id,
  Forall (fun o : nat * Z * H => (fst (fst o) < size)%nat) ops ->
  Forall (fun o => snd (fst o) <> id) ops -> id <> int_max ->
  exists t, pt_stub_all (pt_new size) ops = Def t /\ dispatch t id = UB.
Proof.
  intros size ops id V N NI.
  destruct (stub_all_inv size int_max ops [] (pt_new size) (pt_new_inv size) V) as (t & E & I).
  exists t. split; [exact E|]. destruct I as (L1 & L2 & I). cbn in I.
  assert (G : offset_of (pt_offsets t) id = length (pt_offsets t)).
  { assert (A : forall j, nth_error (pt_offsets t) j <> Some id).
    { intros j X. pose proof (nth_error_Some_lt _ _ _ _ X) as Hj. specialize (I j ltac:(lia)).
      destruct (first_for j ops) as [[id' h']|] eqn:F.
      - apply first_for_in in F. rewrite Forall_forall in N. specialize (N _ F). cbn in N. destruct I. congruence.
      - destruct I. congruence. }
    revert A. generalize (pt_offsets t). induction l as [|o l IH]; intros A; cbn; auto.
    destruct (Z.eqb_spec o id) as [->|]; [exfalso; now apply (A 0%nat)|].
    f_equal. apply IH. intro j. apply (A (S j)). }
  unfold dispatch, handler_by_id. rewrite G.
  replace (nth_error (pt_mocks t) (length (pt_offsets t))) with (@None (option H)); auto.
  symmetry. apply nth_error_None. lia.
Qed.

End P.
