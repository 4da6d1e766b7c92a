(** Proofs about mocks used in several source files. *)
From Coq Require Import Bool ZArith Lia List.
From Verif Require Import Base CInt Proxy SourceFiles Spec_SourceFiles.
Import ListNotations.
Open Scope nat_scope.

Lemma nth_repeat_some : forall A (x : A) n i, i < n -> nth_error (repeat x n) i = Some x.
Proof. induction n; intros [|i] H; simpl; try lia; auto. apply IHn. lia. Qed.

Lemma method_id_pos : forall p, (Z.of_nat p < 2147483646)%Z ->
  method_id (Z.of_nat p) = (Z.of_nat p + 1)%Z.
Proof.
  intros p H. unfold method_id, to_uint32, two32. rewrite Z.mod_small; lia.
Qed.

(** The state of the mock after some mentions: [g s] is the number of the expansion under which
    entry [s] was bound. *)
Record agrees (c : sclass) (m : smock) (g : nat -> option nat) : Prop := mkAgrees {
  ag_tab : length (sm_table m) = length c;
  ag_mocks : length (pt_mocks (sm_pt m)) = length c;
  ag_offs : length (pt_offsets (sm_pt m)) = length c;
  ag_some : forall s p, g s = Some p -> s < length c /\ (Z.of_nat p < 2147483646)%Z /\
    nth_error (pt_mocks (sm_pt m)) s = Some (Some s) /\
    nth_error (pt_offsets (sm_pt m)) s = Some (Z.of_nat p + 1)%Z /\
    exists sig, nth_error c s = Some sig /\ nth_error (sm_table m) s = Some (ProxyX sig (Z.of_nat p + 1)%Z);
  ag_none : forall s, g s = None -> s < length c ->
    nth_error (pt_mocks (sm_pt m)) s = Some None /\ nth_error (sm_table m) s = Some Initial /\
    (nth_error (pt_offsets (sm_pt m)) s = Some 0%Z \/ nth_error (pt_offsets (sm_pt m)) s = Some int_max) }.

Lemma agrees_new : forall c, agrees c (sm_new c) (fun _ => None).
Proof.
  intro c. unfold sm_new, pt_new. constructor; cbn [sm_table sm_pt pt_mocks pt_offsets];
    try apply repeat_length; [discriminate|].
  intros s _ L. rewrite !nth_repeat_some by exact L. auto.
Qed.

Lemma agrees_reset : forall c, agrees c (sm_reset c) (fun _ => None).
Proof.
  intro c. unfold sm_reset, pt_reset. constructor; cbn [sm_table sm_pt pt_mocks pt_offsets];
    try apply repeat_length; [discriminate|].
  intros s _ L. rewrite !nth_repeat_some by exact L. auto.
Qed.

Definition setg (g : nat -> option nat) (s p : nat) : nat -> option nat :=
  fun x => match g x with Some q => Some q | None => if Nat.eqb x s then Some p else None end.

Lemma agrees_mention : forall c m g s p, agrees c m g -> s < length c -> (Z.of_nat p < 2147483646)%Z ->
  exists m', sm_mention c m s (Z.of_nat p) = Def m' /\ agrees c m' (setg g s p).
Proof.
  intros c m g s p A L P. unfold sm_mention, isBinded.
  destruct (g s) as [q|] eqn:G.
  - destruct (ag_some _ _ _ A s q G) as (_ & _ & M & _ & _). rewrite M. cbn.
    exists m. split; [reflexivity|].
    constructor; try apply A.
    + intros x r. unfold setg. destruct (g x) eqn:Gx.
      * intro E. injection E as E. subst. exact (ag_some _ _ _ A x _ Gx).
      * destruct (Nat.eqb_spec x s) as [-> |]; [congruence|discriminate].
    + intros x. unfold setg. destruct (g x) eqn:Gx; [discriminate|].
      intros _ Lx. exact (ag_none _ _ _ A x Gx Lx).
  - destruct (ag_none _ _ _ A s G L) as (M & T & O). rewrite M. cbn.
    destruct (nth_error c s) as [sig|] eqn:C; [|apply nth_error_None in C; lia]. cbn.
    unfold pt_bind. rewrite (ag_mocks _ _ _ A), (ag_offs _ _ _ A), !(proj2 (Nat.ltb_lt _ _) L). cbn.
    eexists. split; [reflexivity|].
    rewrite (method_id_pos p P).
    constructor; cbn [sm_table sm_pt pt_mocks pt_offsets]; rewrite ?upd_length; try apply A.
    + intros x r. unfold setg. destruct (g x) eqn:Gx.
      * intro E. injection E as E. subst.
        assert (x <> s) by congruence.
        rewrite !nth_error_upd_other by congruence. exact (ag_some _ _ _ A x _ Gx).
      * destruct (Nat.eqb_spec x s) as [-> |]; [|discriminate].
        intro E. injection E as E. subst r.
        rewrite !nth_error_upd_same by (rewrite ?(ag_tab _ _ _ A), ?(ag_mocks _ _ _ A), ?(ag_offs _ _ _ A); exact L).
        repeat split; auto. exists sig. split; auto.
    + intros x. unfold setg. destruct (g x) eqn:Gx; [discriminate|].
      destruct (Nat.eqb_spec x s) as [-> |N]; [discriminate|].
      intros _ Lx. rewrite !nth_error_upd_other by congruence. exact (ag_none _ _ _ A x Gx Lx).
Qed.

Lemma offset_least : forall offs id n,
  nth_error offs n = Some id -> (forall k x, k < n -> nth_error offs k = Some x -> x <> id) ->
  offset_of offs id = n.
Proof.
  induction offs as [|o r IH]; intros id [|n] E K; simpl in *; try discriminate.
  - injection E as ->. now rewrite Z.eqb_refl.
  - destruct (Z.eqb_spec o id) as [-> |_].
    + exfalso. apply (K 0 id); [lia|reflexivity|reflexivity].
    + f_equal. apply IH; auto. intros k x Hk Hx. apply (K (S k) x); [lia|exact Hx].
Qed.

(** A call reaches the first entry that was bound under the number of the called one. *)
Lemma call_reaches : forall c m g s p k, agrees c m g -> g s = Some p ->
  g k = Some p -> (forall x, x < k -> g x <> Some p) ->
  sm_call c m s = if match nth_error c s, nth_error c k with Some a, Some b => Nat.eqb a b | _, _ => false end
                  then Def (StubbingsOf k) else UB.
Proof.
  intros c m g s p k A Gs Gk Min.
  destruct (ag_some _ _ _ A s p Gs) as (_ & P & _ & _ & sig & C & T).
  destruct (ag_some _ _ _ A k p Gk) as (Lk & _ & Mk & Ok & sigk & Ck & _).
  unfold sm_call. rewrite T. cbn. unfold dispatch, handler_by_id.
  assert (OF : offset_of (pt_offsets (sm_pt m)) (Z.of_nat p + 1) = k).
  { apply offset_least; [exact Ok|]. intros x y Lx Ex Y. subst y.
    destruct (g x) as [q|] eqn:Gx.
    - destruct (ag_some _ _ _ A x q Gx) as (_ & Q & _ & Oq & _).
      rewrite Ex in Oq. injection Oq as Oq. apply (Min x Lx). rewrite Gx. f_equal. lia.
    - destruct (ag_none _ _ _ A x Gx ltac:(lia)) as (_ & _ & [O|O]); rewrite Ex in O; injection O as O;
        unfold int_max in O; lia. }
  rewrite OF, Mk. cbn. rewrite Ck, C. cbn. reflexivity.
Qed.

Lemma call_unstubbed : forall c m g s, agrees c m g -> s < length c -> g s = None -> sm_call c m s = Def Unstubbed.
Proof.
  intros c m g s A L G. destruct (ag_none _ _ _ A s G L) as (_ & T & _).
  unfold sm_call. now rewrite T.
Qed.

(** *** No clash: as expected *)

Lemma run_expected : forall c files l m g mentioned,
  agrees c m g -> within (length c) files l -> countable l ->
  (forall s, g s = None <-> ~ In s mentioned) ->
  (* numbers bound so far and those still to come do not clash *)
  (forall s s' p, g s = Some p -> g s' = Some p -> s = s') ->
  (forall o s s', executes l o -> designates files o = Some s -> g s' = Some (oc_pos o) -> s = s') ->
  no_clash files l ->
  srun c files m l = Def (expected files mentioned l).
Proof.
  intros c files l. induction l as [|e l IH]; intros m g mentioned A W K GM INJ LATER NC; [reflexivity|].
  assert (W' : within (length c) files l).
  { destruct W as (W1 & W2). split; [intros s I; apply W1; now right|].
    intros o s I. apply W2. now right. }
  assert (K' : countable l) by (intros o I; apply K; now right).
  assert (LATER' : forall o s s', executes l o -> designates files o = Some s -> g s' = Some (oc_pos o) -> s = s')
    by (intros o s s' I; apply LATER; now right).
  assert (NC' : no_clash files l).
  { intros o o' s s' I I'. apply NC; now right. }
  destruct e as [o|s|]; cbn [srun expected].
  - destruct (designates files o) as [s|] eqn:D.
    + assert (L : s < length c) by (destruct W as (_ & W2); apply (W2 o s); [now left|exact D]).
      destruct (agrees_mention c m g s (oc_pos o) A L (K o (or_introl eq_refl))) as (m' & E & A').
      unfold counter_of. rewrite E. cbn [obind].
      apply (IH m' (setg g s (oc_pos o))); auto.
      * intro x. unfold setg. destruct (g x) as [q|] eqn:Gx.
        -- split; [discriminate|]. intro N. exfalso. apply N. right.
           destruct (in_dec Nat.eq_dec x mentioned) as [I|I]; [exact I|]. apply GM in I. congruence.
        -- apply GM in Gx. destruct (Nat.eqb_spec x s) as [-> |N].
           ++ split; [discriminate|]. intro H. exfalso. apply H. now left.
           ++ split; [|reflexivity]. intros _ [E'|I]; [congruence|]. exact (Gx I).
      * intros x y p. unfold setg. destruct (g x) as [q|] eqn:Gx; destruct (g y) as [r|] eqn:Gy.
        -- intros E1 E2. injection E1 as ->. injection E2 as ->. exact (INJ x y p Gx Gy).
        -- destruct (Nat.eqb_spec y s) as [-> |]; [|discriminate]. intros E1 E2. injection E1 as ->. injection E2 as <-.
           symmetry. apply (LATER o s x); [now left|exact D|exact Gx].
        -- destruct (Nat.eqb_spec x s) as [-> |]; [|discriminate]. intros E1 E2. injection E1 as <-. injection E2 as ->.
           apply (LATER o s y); [now left|exact D|exact Gy].
        -- destruct (Nat.eqb_spec x s); [|discriminate]. destruct (Nat.eqb_spec y s); [|discriminate]. congruence.
      * intros o' x y I D'. unfold setg. destruct (g y) as [r|] eqn:Gy.
        -- intro E1. injection E1 as ->. apply (LATER' o' x y); auto.
        -- destruct (Nat.eqb_spec y s) as [-> |]; [|discriminate]. intro E1. injection E1 as E1.
           apply (NC o' o x s); auto; [now right|now left].
    + apply (IH m g); auto.
  - assert (L : s < length c) by (destruct W as (W1 & _); apply W1; now left).
    assert (R : sm_call c m s = Def (if existsb (Nat.eqb s) mentioned then StubbingsOf s else Unstubbed)).
    { destruct (g s) as [p|] eqn:G.
      - assert (X : existsb (Nat.eqb s) mentioned = true).
        { apply existsb_exists. exists s. split; [|apply Nat.eqb_refl].
          destruct (in_dec Nat.eq_dec s mentioned) as [I|I]; [exact I|]. apply GM in I. congruence. }
        rewrite X.
        assert (Min : forall x, x < s -> g x <> Some p) by (intros x Lx Gx; specialize (INJ x s p Gx G); lia).
        rewrite (call_reaches c m g s p s A G G Min).
        destruct (ag_some _ _ _ A s p G) as (_ & _ & _ & _ & sig & C & _). rewrite C, Nat.eqb_refl. reflexivity.
      - assert (X : existsb (Nat.eqb s) mentioned = false).
        { destruct (existsb (Nat.eqb s) mentioned) eqn:X; [|reflexivity]. exfalso.
          apply existsb_exists in X. destruct X as (y & I & E). apply Nat.eqb_eq in E. subst y.
          apply GM in G. exact (G I). }
        rewrite X. exact (call_unstubbed c m g s A L G). }
    rewrite R. cbn [obind]. rewrite (IH m g mentioned); auto.
  - apply (IH (sm_reset c) (fun _ => None) []); auto.
    + apply agrees_reset.
    + intro s. split; auto.
    + discriminate.
    + discriminate.
Qed.

Lemma files_expected : forall c files l,
  within (length c) files l -> countable l -> no_clash files l ->
  srun_new c files l = Def (expected files [] l).
Proof.
  intros c files l W K NC. unfold srun_new.
  apply (run_expected c files l (sm_new c) (fun _ => None)); auto.
  - apply agrees_new.
  - intro s. split; auto.
  - discriminate.
  - discriminate.
Qed.

(** *** One file *)

Lemma one_file : forall c files l f,
  within (length c) files l -> countable l ->
  (forall o, executes l o -> oc_file o = f) ->
  (forall src, nth_error files f = Some src -> plain src) ->
  srun_new c files l = Def (expected files [] l).
Proof.
  intros c files l f W K F P. apply files_expected; auto.
  intros o o' s s' I I' D D' E. unfold designates in D, D'. rewrite (F o I) in D. rewrite (F o' I') in D'.
  destruct (nth_error files f) as [src|] eqn:S'; [|discriminate]. specialize (P src eq_refl).
  rewrite <- E in D'. destruct (nth_error src (oc_pos o)) as [[|sl]|] eqn:N; try discriminate.
  specialize (P _ _ N).
  destruct sl as [|x [|y r]]; simpl in P; try lia.
  - destruct (oc_inst o); discriminate.
  - destruct (oc_inst o) as [|n]; [|destruct n; discriminate].
    destruct (oc_inst o') as [|n']; [|destruct n'; discriminate]. simpl in *. congruence.
Qed.

(** *** A clash *)

Lemma two_bound : forall c i j p m g, agrees c m g -> g = (fun _ => None) -> i < j -> j < length c ->
  (Z.of_nat p < 2147483646)%Z ->
  forall first second, (first = i /\ second = j) \/ (first = j /\ second = i) ->
  exists m1 m2, sm_mention c m first (Z.of_nat p) = Def m1 /\ sm_mention c m1 second (Z.of_nat p) = Def m2 /\
    sm_call c m2 j = if match nth_error c j, nth_error c i with Some a, Some b => Nat.eqb a b | _, _ => false end
                     then Def (StubbingsOf i) else UB.
Proof.
  intros c i j p m g A -> IJ L P first second O.
  destruct (agrees_mention c m (fun _ => None) first p A) as (m1 & E1 & A1); [destruct O as [[-> ->]|[-> ->]]; lia|exact P|].
  destruct (agrees_mention c m1 _ second p A1) as (m2 & E2 & A2); [destruct O as [[-> ->]|[-> ->]]; lia|exact P|].
  exists m1, m2. split; [exact E1|]. split; [exact E2|].
  apply (call_reaches c m2 _ j p i A2); unfold setg.
  - destruct O as [[-> ->]|[-> ->]]; rewrite ?Nat.eqb_refl; [destruct (Nat.eqb_spec j i)|]; auto.
  - destruct O as [[-> ->]|[-> ->]]; rewrite ?Nat.eqb_refl; [|destruct (Nat.eqb_spec i j)]; auto.
  - intros x Lx. destruct O as [[-> ->]|[-> ->]]; destruct (Nat.eqb_spec x i); try lia; destruct (Nat.eqb_spec x j); try lia; discriminate.
Qed.

Lemma clash : forall c files i j o o' ,
  i < j -> j < length c -> designates files o = Some i -> designates files o' = Some j -> oc_pos o = oc_pos o' ->
  (Z.of_nat (oc_pos o) < 2147483646)%Z ->
  (nth_error c i = nth_error c j ->
     srun_new c files [Mention o; Mention o'; CallOf j] = Def [StubbingsOf i] /\
     srun_new c files [Mention o'; Mention o; CallOf j] = Def [StubbingsOf i]) /\
  (nth_error c i <> nth_error c j ->
     srun_new c files [Mention o; Mention o'; CallOf j] = UB /\
     srun_new c files [Mention o'; Mention o; CallOf j] = UB).
Proof.
  intros c files i j o o' IJ L D D' E P. unfold srun_new. cbn [srun]. rewrite D, D'. unfold counter_of. rewrite <- E.
  destruct (two_bound c i j (oc_pos o) (sm_new c) _ (agrees_new c) eq_refl IJ L P i j (or_introl (conj eq_refl eq_refl)))
    as (m1 & m2 & E1 & E2 & R).
  destruct (two_bound c i j (oc_pos o) (sm_new c) _ (agrees_new c) eq_refl IJ L P j i (or_intror (conj eq_refl eq_refl)))
    as (m3 & m4 & E3 & E4 & R').
  rewrite E1. cbn [obind]. rewrite E2. cbn [obind]. rewrite E3. cbn [obind]. rewrite E4. cbn [obind]. rewrite R, R'.
  destruct (nth_error c j) as [a|] eqn:Ca; [|apply nth_error_None in Ca; lia].
  destruct (nth_error c i) as [b|] eqn:Cb; [|apply nth_error_None in Cb; lia].
  split; intro H.
  - injection H as ->. rewrite Nat.eqb_refl. cbn. auto.
  - destruct (Nat.eqb_spec a b) as [-> |]; [congruence|]. cbn. auto.
Qed.
