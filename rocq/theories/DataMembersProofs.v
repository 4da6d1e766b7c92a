(** Facts about DataMembers.v. *)
From Coq Require Import Bool ZArith Lia List.
From Verif Require Import Base Values DataMembers Spec_DataMembers.
Import ListNotations.
Open Scope nat_scope.

Definition alive_at (ms : list (option val)) (i : nat) : bool :=
  match nth_error ms i with Some (Some _) => true | _ => false end.

Definition Inv (s : dstate) (alive : bool) (ms : list (option val)) : Prop :=
  dm_cells s = ms /\ dm_owner s = true /\ dm_mock s = alive /\ NoDup (dm_members s) /\
  (forall i, In i (dm_members s) <-> alive_at ms i = true) /\
  forall i, once_each i (alive_at ms i) (happened i (dm_log s)).

Lemma happened_app : forall i a b, happened i (a ++ b) = happened i a ++ happened i b.
Proof. intros. unfold happened. apply filter_app. Qed.

Lemma destroy_all : forall is s, NoDup is -> (forall i, In i is -> alive_at (dm_cells s) i = true) ->
  exists s', destroy_cells s is = Def s' /\ dm_owner s' = dm_owner s /\ dm_mock s' = dm_mock s /\
    length (dm_cells s') = length (dm_cells s) /\
    dm_log s' = dm_log s ++ map Gone is /\
    (forall i, In i is -> nth_error (dm_cells s') i = Some None) /\
    forall i, ~ In i is -> nth_error (dm_cells s') i = nth_error (dm_cells s) i.
Proof.
  induction is as [|i is IH]; intros s ND AL; cbn [destroy_cells].
  - exists s. rewrite app_nil_r. repeat split; auto. intros i [].
  - inversion ND as [|? ? NI ND']; subst. pose proof (AL i (or_introl eq_refl)) as A.
    unfold destroy_cell. unfold alive_at in A. destruct (nth_error (dm_cells s) i) as [[v|]|] eqn:N; try discriminate.
    cbn [obind]. set (s1 := mkDm _ _ _ _ _).
    assert (LI : i < length (dm_cells s)) by (eapply nth_error_Some_lt; eauto).
    destruct (IH s1 ND') as (s' & R & O & M & LE & LG & G1 & G2).
    { intros j J. unfold s1, alive_at. cbn [dm_cells]. rewrite nth_error_upd_other by (intros ->; contradiction).
      apply (AL j). now right. }
    exists s'. rewrite R. repeat split; auto.
    + rewrite LE. unfold s1. cbn. apply upd_length.
    + rewrite LG. unfold s1. cbn [dm_log map]. now rewrite <- app_assoc.
    + intros j [<-|J]; [|auto]. rewrite G2 by auto. unfold s1. cbn [dm_cells]. now apply nth_error_upd_same.
    + intros j NJ. rewrite G2 by (intro; apply NJ; now right). unfold s1. cbn [dm_cells].
      apply nth_error_upd_other. intros ->. apply NJ. now left.
Qed.

Lemma happened_gone : forall i is, NoDup is -> happened i (map Gone is) = if in_dec Nat.eq_dec i is then [Gone i] else [].
Proof.
  intros i is ND. induction ND as [|j is NJ ND IH]; [reflexivity|].
  cbn [map happened filter]. fold (happened i (map Gone is)). rewrite IH. destruct (Nat.eqb_spec j i) as [->|NE].
  - destruct (in_dec Nat.eq_dec i (i :: is)) as [_|F]; [|exfalso; apply F; now left].
    destruct (in_dec Nat.eq_dec i is); [contradiction|reflexivity].
  - destruct (in_dec Nat.eq_dec i is) as [J|J], (in_dec Nat.eq_dec i (j :: is)) as [K|K]; auto.
    + exfalso. apply K. now right.
    + destruct K; [congruence|contradiction].
Qed.

Lemma concat_snoc : forall A (l : list A) k, concat (repeat l k) ++ l = concat (repeat l (S k)).
Proof.
  intros A l. induction k as [|k IH]; cbn; [now rewrite app_nil_r|]. rewrite <- app_assoc. f_equal. exact IH.
Qed.

Lemma NoDup_snoc : forall A (l : list A) x, NoDup l -> ~ In x l -> NoDup (l ++ [x]).
Proof.
  intros A l x ND NI. induction ND as [|y l NY ND IH]; cbn; [repeat constructor; auto|].
  constructor.
  - intro J. apply in_app_or in J. destruct J as [J|[->|[]]]; [contradiction|apply NI; now left].
  - apply IH. intro. apply NI. now right.
Qed.

Lemma ends_once : forall i l, once_each i true l -> once_each i false (l ++ [Gone i]).
Proof.
  intros i l (k & ->). exists (S k). rewrite <- concat_snoc, app_nil_r, <- app_assoc. reflexivity.
Qed.
Lemma starts_once : forall i l, once_each i false l -> once_each i true (l ++ [Built i]).
Proof. intros i l (k & ->). exists k. now rewrite app_nil_r. Qed.

Lemma alive_none : forall (ms : list (option val)) i, alive_at (map (fun _ => None) ms) i = false.
Proof.
  intros ms i. unfold alive_at. rewrite nth_error_map. now destruct (nth_error ms i).
Qed.

(** Releasing the wrappers ends the life of everything that was stubbed. *)
Lemma released : forall s alive ms, Inv s alive ms ->
  exists s', release_members s = Def s' /\ dm_owner s' = true /\ dm_mock s' = alive /\ dm_members s' = [] /\
    dm_cells s' = map (fun _ => None) ms /\ forall i, once_each i false (happened i (dm_log s')).
Proof.
  intros s alive ms (C & O & M & ND & IN & LG). unfold release_members.
  destruct (destroy_all (dm_members s) s ND) as (s' & R & O' & M' & LE & L' & G1 & G2).
  { intros i J. rewrite C. now apply IN. }
  rewrite R. cbn [obind]. eexists. split; [reflexivity|]. cbn [dm_owner dm_mock dm_members dm_cells dm_log]. rewrite O', M'. repeat split; auto.
  - apply nth_error_ext. intro i. rewrite nth_error_map.
    destruct (in_dec Nat.eq_dec i (dm_members s)) as [J|J].
    + rewrite (G1 i J). apply IN in J. unfold alive_at in J. now destruct (nth_error ms i) as [[v|]|].
    + rewrite (G2 i J), C. destruct (nth_error ms i) as [[v|]|] eqn:N; auto.
      exfalso. apply J. apply IN. unfold alive_at. now rewrite N.
  - intro i. rewrite L', happened_app, happened_gone by auto. specialize (LG i).
    destruct (in_dec Nat.eq_dec i (dm_members s)) as [J|J].
    + apply IN in J. rewrite J in LG. now apply ends_once.
    + rewrite app_nil_r. destruct (alive_at ms i) eqn:A; [exfalso; apply J; now apply IN|exact LG].
Qed.

Lemma emptied : forall ms cells log alive, cells = map (fun _ : option val => None) ms ->
  (forall i, once_each i false (happened i log)) ->
  Inv (mkDm cells [] true alive log) alive (map (fun _ => None) ms).
Proof.
  intros ms cells log alive -> L. unfold Inv. cbn [dm_owner dm_mock dm_members dm_cells dm_log].
  split; [auto|]. split; [auto|]. split; [auto|]. split; [constructor|]. split.
  - intro i. rewrite alive_none. split; [contradiction|discriminate].
  - intro i. rewrite alive_none. apply L.
Qed.

Lemma map_none_none : forall (l : list (option val)),
  map (fun _ : option val => @None val) (map (fun _ : option val => @None val) l) = map (fun _ : option val => @None val) l.
Proof. intro. now rewrite map_map. Qed.

Lemma step_ok : forall s alive ms o a ms' v, Inv s alive ms -> step_members alive ms o = Some (a, ms', v) ->
  exists s', dm_step s o = Def (s', v) /\ Inv s' a ms'.
Proof.
  intros s alive ms o a ms' v I H. destruct alive; [|discriminate].
  pose proof I as (C & O & M & ND & IN & LG). destruct o as [i x|i|i x| | | | |i x y]; cbn [step_members] in H; cbn [dm_step].
  - destruct (nth_error ms i) as [[y|]|] eqn:N; inversion H; subst a ms' v. rewrite M. unfold stubDataMember. rewrite C.
    assert (LI : i < length ms) by (eapply nth_error_Some_lt; eauto).
    destruct (Nat.ltb_spec i (length ms)); [|lia]. cbn [obind]. eexists. split; [reflexivity|].
    assert (NA : alive_at ms i = false) by (unfold alive_at; now rewrite N).
    assert (AT : forall j, alive_at (upd ms i (Some x)) j = if Nat.eqb i j then true else alive_at ms j).
    { intro j. unfold alive_at. rewrite nth_error_upd. destruct (Nat.eqb i j); auto.
      destruct (Nat.ltb_spec i (length ms)); [auto|lia]. }
    unfold Inv. cbn [dm_owner dm_mock dm_members dm_cells dm_log]. repeat split; auto.
    + apply NoDup_snoc; auto. intro J. apply IN in J. congruence.
    + intro J. rewrite AT. apply in_app_or in J. destruct J as [J|[->|[]]].
      * destruct (Nat.eqb i i0); auto. now apply IN.
      * now rewrite Nat.eqb_refl.
    + rewrite AT. intro J. apply in_or_app. destruct (Nat.eqb_spec i i0) as [->|NE]; [right; now left|left; now apply IN].
    + intro j. rewrite AT, happened_app. cbn. destruct (Nat.eqb_spec i j) as [->|NE].
      * apply starts_once. rewrite <- NA. apply LG.
      * rewrite app_nil_r. apply LG.
  - destruct (nth_error ms i) as [[y|]|] eqn:N; inversion H; subst. rewrite N. eexists. split; [reflexivity|exact I].
  - destruct (nth_error ms i) as [[y|]|] eqn:N; inversion H; subst a ms' v. rewrite C, N. eexists. split; [reflexivity|].
    assert (AT : forall j, alive_at (upd ms i (Some x)) j = alive_at ms j).
    { intro j. unfold alive_at. rewrite nth_error_upd. destruct (Nat.eqb_spec i j) as [->|]; auto.
      rewrite N. destruct (Nat.ltb_spec j (length ms)); auto. apply nth_error_Some_lt in N. lia. }
    unfold Inv. cbn [dm_owner dm_mock dm_members dm_cells dm_log]. repeat split; auto; intros; rewrite ?AT in *; try apply IN; auto. 
  - destruct (forallb _ ms) eqn:F; inversion H; subst a ms' v. rewrite M. eexists. split; [reflexivity|].
    unfold dm_clear, initDataMembersIfOwner. rewrite O.
    assert (NN : map (fun _ : option val => @None val) ms = ms).
    { clear - F. induction ms as [|[y|] ms IH]; cbn in *; try discriminate; auto. now rewrite IH. }
    rewrite C, NN. unfold Inv. cbn. repeat split; auto; apply IN.
  - inversion H; subst a ms' v. rewrite M. destruct (released _ _ _ I) as (s' & R & O' & M' & E' & C' & L').
    unfold dm_reset. rewrite R. cbn [obind]. eexists. split; [reflexivity|]. unfold initDataMembersIfOwner. rewrite O', E', M'.
    apply emptied; auto. now rewrite C', map_none_none.
  - inversion H; subst a ms' v. rewrite M. destruct (released _ _ _ I) as (s' & R & O' & M' & E' & C' & L').
    unfold dm_destroy. rewrite R. cbn [obind]. eexists. split; [reflexivity|]. rewrite O', E'.
    apply emptied; auto. now rewrite C', map_none_none.
  - discriminate.
  - discriminate.
Qed.

Lemma run_ok : forall os s alive ms a ms' vs, Inv s alive ms -> members alive ms os = Some (a, ms', vs) ->
  exists s', dm_run s os = Def (s', vs) /\ Inv s' a ms'.
Proof.
  induction os as [|o os IH]; intros s alive ms a ms' vs I H; cbn [members dm_run] in *.
  - inversion H; subst. eauto.
  - destruct (step_members alive ms o) as [[[a1 ms1] v]|] eqn:S; [|discriminate].
    destruct (members a1 ms1 os) as [[[a2 ms2] vs']|] eqn:R; inversion H; subst.
    destruct (step_ok _ _ _ _ _ _ _ I S) as (s1 & -> & I1). cbn [obind].
    destruct (IH _ _ _ _ _ _ I1 R) as (s2 & -> & I2). cbn [obind]. eauto.
Qed.

Lemma alive_new : forall n i, alive_at (repeat None n) i = false.
Proof.
  intros n i. unfold alive_at. destruct (nth_error (repeat None n) i) as [[v|]|] eqn:N; auto.
  apply nth_error_In, repeat_spec in N. discriminate.
Qed.

Lemma members_kept : forall n os a ms vs, members true (repeat None n) os = Some (a, ms, vs) ->
  exists s, dm_run (dm_new n) os = Def (s, vs) /\
    forall i, once_each i (match nth_error ms i with Some (Some _) => true | _ => false end) (happened i (dm_log s)).
Proof.
  intros n os a ms vs H. destruct (run_ok os (dm_new n) true (repeat None n) a ms vs) as (s & R & I); auto.
  - unfold Inv, dm_new. cbn [dm_owner dm_mock dm_members dm_cells dm_log].
    split; [auto|]. split; [auto|]. split; [auto|]. split; [constructor|]. split.
    + intro i. rewrite alive_new. split; [contradiction|discriminate].
    + intro i. rewrite alive_new. now exists 0.
  - exists s. split; auto. apply I.
Qed.

Lemma Inv_new : forall n, Inv (dm_new n) true (repeat None n).
Proof.
  intro n. unfold Inv, dm_new. cbn [dm_owner dm_mock dm_members dm_cells dm_log].
  split; [auto|]. split; [auto|]. split; [auto|]. split; [constructor|]. split.
  - intro i. rewrite alive_new. split; [contradiction|discriminate].
  - intro i. rewrite alive_new. now exists 0.
Qed.

Lemma dm_run_app : forall os s s1 vs os', dm_run s os = Def (s1, vs) ->
  dm_run s (os ++ os') = let! (s2, vs2) := dm_run s1 os' in Def (s2, vs ++ vs2).
Proof.
  induction os as [|o os IH]; intros s s1 vs os' H; cbn [dm_run app] in *.
  - inversion H; subst. destruct (dm_run s1 os') as [[? ?]| |]; reflexivity.
  - destruct (dm_step s o) as [[sa v]| |]; cbn [obind] in *; try discriminate.
    destruct (dm_run sa os) as [[sb vb]| |] eqn:R; cbn [obind] in *; try discriminate. inversion H; subst.
    rewrite (IH _ _ _ os' R). destruct (dm_run s1 os') as [[? ?]| |]; reflexivity.
Qed.

Lemma members_misused : forall n os a ms vs o, members true (repeat None n) os = Some (a, ms, vs) ->
  misused a ms o -> dm_run (dm_new n) (os ++ [o]) = UB.
Proof.
  intros n os a ms vs o H B. destruct (run_ok _ _ _ _ _ _ _ (Inv_new n) H) as (s & R & C & O & M & _).
  rewrite (dm_run_app _ _ _ _ _ R). cbn [dm_run].
  assert (E : dm_step s o = UB).
  { destruct o as [i x|i|i x| | | | |i x y]; cbn [misused] in B; cbn [dm_step]; rewrite ?M, ?C, ?O, ?B; try reflexivity.
    - destruct (nth_error ms i) as [[v|]|]; auto. now contradiction (B v).
    - destruct (nth_error ms i) as [[v|]|]; auto. now contradiction (B v). }
  rewrite E. reflexivity.
Qed.

(** *** Objects of the user without stubbed members *)
Definition Wrapped (s : dstate) (alive : bool) (vs : list val) : Prop :=
  dm_cells s = map Some vs /\ dm_members s = [] /\ dm_owner s = false /\ dm_mock s = alive /\ dm_log s = [].

Lemma plain_step : forall s alive vs o a vs' v, Wrapped s alive vs -> step_plain alive vs o = Some (a, vs', v) ->
  exists s', dm_step s o = Def (s', v) /\ Wrapped s' a vs'.
Proof.
  intros s alive vs o a vs' v (C & E & O & M & L) H.
  assert (U : forall i x, map Some (upd vs i x) = upd (map Some vs) i (Some x)).
  { clear. induction vs as [|y vs IH]; intros [|i] x; cbn; auto. now rewrite IH. }
  destruct o as [i x|i|i x| | | | |i x y]; cbn [step_plain] in H; cbn [dm_step]; try discriminate.
  - rewrite C, nth_error_map. destruct (nth_error vs i); inversion H; subst. cbn [option_map]. exists s. split; [reflexivity|]. split; [exact C|]. now split.
  - rewrite C, nth_error_map. destruct (nth_error vs i); inversion H; subst. cbn [option_map]. eexists. split; [reflexivity|].
    unfold Wrapped. cbn [dm_cells dm_members dm_owner dm_mock dm_log]. rewrite U. auto.
  - destruct alive; inversion H; subst. rewrite M. eexists. split; [reflexivity|]. unfold dm_clear, initDataMembersIfOwner.
    rewrite O. now repeat split.
  - destruct alive; inversion H; subst. rewrite M. unfold dm_reset, release_members. rewrite E. cbn [destroy_cells obind].
    eexists. split; [reflexivity|]. unfold initDataMembersIfOwner. cbn. rewrite O. repeat split; auto.
  - destruct alive; inversion H; subst. rewrite M. unfold dm_destroy, release_members. rewrite E. cbn [destroy_cells obind].
    eexists. split; [reflexivity|]. cbn. rewrite O. repeat split; auto.
Qed.

Lemma plain_run : forall os s alive vs a vs' rs, Wrapped s alive vs -> plain alive vs os = Some (a, vs', rs) ->
  exists s', dm_run s os = Def (s', rs) /\ Wrapped s' a vs'.
Proof.
  induction os as [|o os IH]; intros s alive vs a vs' rs W H; cbn [plain dm_run] in *.
  - inversion H; subst. eauto.
  - destruct (step_plain alive vs o) as [[[a1 vs1] v]|] eqn:S; [|discriminate].
    destruct (plain a1 vs1 os) as [[[a2 vs2] rs']|] eqn:R; inversion H; subst.
    destruct (plain_step _ _ _ _ _ _ _ W S) as (s1 & -> & W1). cbn [obind].
    destruct (IH _ _ _ _ _ _ W1 R) as (s2 & -> & W2). cbn [obind]. eauto.
Qed.

Lemma wrapped_kept : forall vs os a vs' rs, plain true vs os = Some (a, vs', rs) ->
  exists s s', dm_run (dm_wrap vs) os = Def (s, rs) /\ dm_log s = [] /\
    dm_run (dm_wrap vs) (os ++ [DObjectEnds]) = Def (s', rs ++ [VVoid]) /\
    forall i, happened i (dm_log s') = if Nat.ltb i (length vs') then [Gone i] else [].
Proof.
  intros vs os a vs' rs H. destruct (plain_run os (dm_wrap vs) true vs a vs' rs) as (s & R & C & E & O & M & L); auto.
  { repeat split. }
  destruct (destroy_all (seq 0 (length (dm_cells s))) s) as (s' & D & _ & _ & _ & L' & _).
  { apply seq_NoDup. }
  { intros i I. apply in_seq in I. unfold alive_at. rewrite C, nth_error_map.
    destruct (nth_error vs' i) eqn:N; [reflexivity|]. apply nth_error_None in N. rewrite C, map_length in I. lia. }
  exists s, s'. split; [exact R|]. split; [exact L|]. split.
  - rewrite (dm_run_app _ _ _ _ _ R). cbn [dm_run dm_step]. rewrite O, D. reflexivity.
  - intro i. rewrite L', L. cbn [app]. rewrite happened_gone by apply seq_NoDup. rewrite C, map_length.
    destruct (in_dec Nat.eq_dec i (seq 0 (length vs'))) as [J|J]; rewrite in_seq in J;
      destruct (Nat.ltb_spec i (length vs')); try reflexivity; exfalso; lia.
Qed.
