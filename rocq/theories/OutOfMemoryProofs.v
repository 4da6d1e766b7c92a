(** Proofs about statements and calls that run out of memory. *)
From Coq Require Import Bool Arith ZArith Lia Permutation List.
From Verif Require Import Base OutOfMemory Spec_OutOfMemory.
Import ListNotations.
Open Scope nat_scope.

(** * The objects of a heap *)
Definition obj_at (h : list (option thing)) (i : nat) : list (nat * thing) :=
  match nth_error h i with Some (Some t) => [(i, t)] | _ => [] end.
Definition objs (h : list (option thing)) : list (nat * thing) := flat_map (obj_at h) (seq 0 (length h)).

Lemma objects_objs : forall s, objects s = objs (st_heap s).
Proof. reflexivity. Qed.

Lemma in_objs : forall h i t, In (i, t) (objs h) <-> nth_error h i = Some (Some t).
Proof.
  intros h i t. unfold objs. rewrite in_flat_map. split.
  - intros [j [_ K]]. unfold obj_at in K. destruct (nth_error h j) as [[t'|]|] eqn:E; cbn in K; try contradiction.
    destruct K as [K|K]; [inversion K; subst; auto | contradiction].
  - intros K. exists i. split.
    + apply in_seq. assert (i < length h) by (apply nth_error_Some; congruence). lia.
    + unfold obj_at. rewrite K. now left.
Qed.

Lemma objs_nodup : forall h, NoDup (map fst (objs h)).
Proof.
  intros h. unfold objs.
  assert (N := seq_NoDup (length h) 0). induction (seq 0 (length h)) as [|i l IH]; cbn; [constructor|].
  inversion N as [|? ? A B]; subst. rewrite map_app.
  assert (K : forall j, In j (map fst (flat_map (obj_at h) l)) -> In j l).
  { intros j J. apply in_map_iff in J as [[j' t] [E J]]. cbn in E. subst. apply in_flat_map in J as [k [K1 K2]].
    unfold obj_at in K2. destruct (nth_error h k) as [[t'|]|]; cbn in K2; try contradiction.
    destruct K2 as [K2|[]]. now inversion K2; subst. }
  unfold obj_at at 1. destruct (nth_error h i) as [[t|]|]; cbn; auto.
  constructor; auto.
Qed.

Lemma objs_nodup' : forall h, NoDup (objs h).
Proof. intros h. apply (NoDup_map_inv fst). apply objs_nodup. Qed.

Lemma objs_one : forall h i t t', In (i, t) (objs h) -> In (i, t') (objs h) -> t = t'.
Proof. intros h i t t' A B. apply in_objs in A, B. congruence. Qed.

Lemma objs_snoc : forall h t, Permutation (objs (h ++ [Some t])) ((length h, t) :: objs h).
Proof.
  intros h t. apply NoDup_Permutation; [apply objs_nodup'| |].
  - constructor; [|apply objs_nodup']. intros K. apply in_objs in K.
    assert (length h < length h) by (apply nth_error_Some; congruence). lia.
  - intros [i u]. cbn. rewrite !in_objs. split.
    + intros K. destruct (Nat.lt_ge_cases i (length h)) as [L|L].
      * right. now rewrite nth_error_app1 in K.
      * left. rewrite nth_error_app2 in K by auto. destruct (i - length h) as [|k] eqn:E; cbn in K.
        -- inversion K. f_equal. lia.
        -- destruct k; discriminate K.
    + intros [K|K].
      * inversion K; subst. rewrite nth_error_app2, Nat.sub_diag; auto.
      * rewrite nth_error_app1; auto. apply nth_error_Some. congruence.
Qed.

Lemma objs_free : forall h i t R, Permutation (objs h) ((i, t) :: R) -> Permutation (objs (upd h i None)) R.
Proof.
  intros h i t R P.
  assert (N : NoDup (map fst ((i, t) :: R))) by (eapply Permutation_NoDup; [apply Permutation_map; exact P | apply objs_nodup]).
  cbn in N. inversion N as [|? ? NI N']; subst.
  apply NoDup_Permutation; [apply objs_nodup' | now apply (NoDup_map_inv fst) |].
  intros [j u]. rewrite in_objs. destruct (Nat.eq_dec i j) as [->|D].
  - split.
    + intros K. rewrite nth_error_upd, Nat.eqb_refl in K. destruct (j <? length h); discriminate K.
    + intros K. contradict NI. apply in_map_iff. now exists (j, u).
  - rewrite nth_error_upd_other by auto. rewrite <- in_objs. split; intros K.
    + apply (Permutation_in _ P) in K. destruct K as [K|K]; auto. congruence.
    + apply (Permutation_in _ (Permutation_sym P)). now right.
Qed.

Lemma objs_put : forall h i t t' R, Permutation (objs h) ((i, t) :: R) -> Permutation (objs (upd h i (Some t'))) ((i, t') :: R).
Proof.
  intros h i t t' R P.
  assert (N : NoDup (map fst ((i, t) :: R))) by (eapply Permutation_NoDup; [apply Permutation_map; exact P | apply objs_nodup]).
  cbn in N. inversion N as [|? ? NI N']; subst.
  assert (L : i < length h).
  { assert (In (i, t) (objs h)) as K by (apply (Permutation_in _ (Permutation_sym P)); now left).
    apply in_objs in K. apply nth_error_Some. congruence. }
  apply NoDup_Permutation; [apply objs_nodup' | constructor; [|now apply (NoDup_map_inv fst)] |].
  - intros K. contradict NI. apply in_map_iff. now exists (i, t').
  - intros [j u]. rewrite in_objs. cbn. destruct (Nat.eq_dec i j) as [->|D].
    + rewrite nth_error_upd_same by auto. split.
      * intros K. left. congruence.
      * intros [K|K]; [congruence|]. contradict NI. apply in_map_iff. now exists (j, u).
    + rewrite nth_error_upd_other by auto. rewrite <- in_objs. split; intros K.
      * apply (Permutation_in _ P) in K. destruct K as [K|K]; [congruence | now right].
      * destruct K as [K|K]; [congruence|]. apply (Permutation_in _ (Permutation_sym P)). now right.
Qed.

(** * Permutations of a few groups of objects *)
Lemma pick_cons : forall A (x y : A) r r', Permutation r (x :: r') -> Permutation (y :: r) (x :: y :: r').
Proof. intros A x y r r' P. rewrite P. apply perm_swap. Qed.
Lemma pick_app : forall A (x : A) l r r', Permutation r (x :: r') -> Permutation (l ++ r) (x :: l ++ r').
Proof. intros A x l r r' P. rewrite P. symmetry. apply Permutation_middle. Qed.
Lemma block_cons : forall A (l : list A) y r r', Permutation r (l ++ r') -> Permutation (y :: r) (l ++ y :: r').
Proof. intros A l y r r' P. rewrite P. apply Permutation_middle. Qed.
Lemma block_app : forall A (l k : list A) r r', Permutation r (l ++ r') -> Permutation (k ++ r) (l ++ k ++ r').
Proof. intros A l k r r' P. rewrite P, !app_assoc. apply Permutation_app_tail, Permutation_app_comm. Qed.
Lemma block_end : forall A (l : list A), Permutation l (l ++ []).
Proof. intros. now rewrite app_nil_r. Qed.
Ltac pick := first [apply Permutation_refl
  | lazymatch goal with |- Permutation (_ ++ _) _ => eapply pick_app | |- Permutation (_ :: _) _ => eapply pick_cons end; pick].
Ltac block := first [apply Permutation_refl | apply block_end
  | lazymatch goal with |- Permutation (_ ++ _) _ => eapply block_app | |- Permutation (_ :: _) _ => eapply block_cons end; block].
Ltac perm_loop :=
  match goal with
  | |- Permutation ?l ?l => apply Permutation_refl
  | |- Permutation (?x :: ?l) ?r => eapply Permutation_trans; [apply perm_skip | apply Permutation_sym; pick]; perm_loop
  | |- Permutation (?x ++ ?l) ?r => eapply Permutation_trans; [apply Permutation_app_head | apply Permutation_sym; block]; perm_loop
  | |- Permutation [] ?r => fail 1
  | |- Permutation ?l ?r => eapply Permutation_trans; [apply block_end |]; perm_loop
  end.
Ltac perm := repeat (progress (cbn [app]; rewrite <- ?app_assoc)); rewrite ?app_nil_r; perm_loop.

(** * Assertions *)
Definition st (R : list (nat * thing)) (e : bool) (b : option body) (s : state) : Prop :=
  Permutation (objects s) R /\ st_entry s = e /\ st_body s = b.

Lemma st_here : forall s, st (objects s) (st_entry s) (st_body s) s.
Proof. intros s. repeat split; auto. Qed.

Lemma st_perm : forall R R' e b s, Permutation R R' -> st R e b s -> st R' e b s.
Proof. intros R R' e b s P [A [B C]]. split; auto. now rewrite A. Qed.

Lemma st_in : forall R e b s i t, st R e b s -> (In (i, t) R <-> nth_error (st_heap s) i = Some (Some t)).
Proof.
  intros R e b s i t [A _]. rewrite <- in_objs, <- objects_objs. split; apply Permutation_in; auto. now symmetry.
Qed.

Lemma st_keys : forall R e b s, st R e b s -> NoDup (map fst R).
Proof. intros R e b s [A _]. eapply Permutation_NoDup; [apply Permutation_map; exact A | apply objs_nodup]. Qed.

Lemma st_one : forall R e b s i t t', st R e b s -> In (i, t) R -> In (i, t') R -> t = t'.
Proof. intros R e b s i t t' S0 A B. apply (st_in _ _ _ _ _ _ S0) in A, B. congruence. Qed.

Definition tri {A} (P : state -> Prop) (m : AM A) (Q : A -> state -> Prop) (X : error -> state -> Prop) : Prop :=
  forall s, P s -> match m s with AVal s' a => Q a s' | AExn s' e => X e s' | _ => False end.

Lemma tri_bind : forall A B (P : state -> Prop) (m : AM A) (k : A -> AM B) Q Q' X,
  tri P m Q X -> (forall a, tri (Q a) (k a) Q' X) -> tri P (abind m k) Q' X.
Proof.
  intros A B P m k Q Q' X M K s PS. specialize (M s PS). unfold abind. destruct (m s); auto. now apply K.
Qed.

Lemma tri_guard : forall A (P : state -> Prop) (m : AM A) clean Q X Y,
  tri P m Q Y -> (forall e, tri (Y e) clean (fun _ => X e) (fun _ _ => False)) -> tri P (aguard m clean) Q X.
Proof.
  intros A P m clean Q X Y M K s PS. specialize (M s PS). unfold aguard. destruct (m s); auto.
  specialize (K e s0 M). destruct (clean s0); auto.
Qed.

Lemma tri_weak : forall A (P P' : state -> Prop) (m : AM A) (Q Q' : A -> state -> Prop) (X X' : error -> state -> Prop),
  tri P m Q X -> (forall s, P' s -> P s) -> (forall a s, Q a s -> Q' a s) -> (forall e s, X e s -> X' e s) -> tri P' m Q' X'.
Proof. intros A P P' m Q Q' X X' M HP HQ HX s PS. specialize (M s (HP s PS)). destruct (m s); auto. Qed.

Lemma tri_pre : forall A (P P' : state -> Prop) (m : AM A) Q X,
  (forall s, P' s -> P s) -> tri P m Q X -> tri P' m Q X.
Proof. intros. eapply tri_weak; eauto. Qed.

Lemma tri_ret : forall A (a : A) (P : state -> Prop) (Q : A -> state -> Prop) X,
  (forall s, P s -> Q a s) -> tri P (aret a) Q X.
Proof. intros A a P Q X H s PS. cbn. now apply H. Qed.

Lemma tri_ex : forall A B (P : B -> state -> Prop) (m : AM A) Q X,
  (forall b, tri (P b) m Q X) -> tri (fun s => exists b, P b s) m Q X.
Proof. intros A B P m Q X H s [b PS]. now apply (H b). Qed.

Lemma tri_prop : forall A (F : Prop) (P : state -> Prop) (m : AM A) Q X,
  (F -> tri P m Q X) -> tri (fun s => F /\ P s) m Q X.
Proof. intros A F P m Q X H s [f PS]. now apply (H f). Qed.

Section Rules.
Variable fails : nat -> bool.
Notation new := (new fails).
Notation try_alloc := (try_alloc fails).

Lemma tri_try : forall R e b,
  tri (st R e b) try_alloc (fun _ => st R e b) (fun x s => x = OutOfMemory /\ st R e b s).
Proof.
  intros R e b s [A [B C]]. unfold OutOfMemory.try_alloc.
  destruct (fails (st_tries s)); repeat split; auto.
Qed.

Lemma tri_new : forall R e b t,
  tri (st R e b) (new t) (fun i => st ((i, t) :: R) e b) (fun x s => x = OutOfMemory /\ st R e b s).
Proof.
  intros R e b t. unfold OutOfMemory.new. eapply tri_bind; [apply tri_try|].
  intros _ s [A [B C]].
  change (st ((length (st_heap s), t) :: R) e b (mkState (st_tries s) (st_heap s ++ [Some t]) (st_entry s) (st_body s))).
  split; [|split]; auto. rewrite objects_objs. cbn [st_heap]. rewrite objs_snoc. now constructor.
Qed.

Lemma tri_peek : forall R e b i t, In (i, t) R ->
  tri (st R e b) (peek i) (fun t' s => t' = t /\ st R e b s) (fun _ _ => False).
Proof.
  intros R e b i t I s S0. unfold peek. apply (st_in _ _ _ _ _ _ S0) in I. rewrite I. auto.
Qed.

Lemma peek_in : forall R e b i t s, st R e b s -> In (i, t) R -> peek i s = AVal s t.
Proof. intros R e b i t s S0 I. unfold peek. apply (st_in _ _ _ _ _ _ S0) in I. now rewrite I. Qed.

Lemma tri_free : forall R e b i t, tri (st ((i, t) :: R) e b) (free i) (fun _ => st R e b) (fun _ _ => False).
Proof.
  intros R e b i t s S0. unfold free, abind. rewrite (peek_in _ _ _ _ t _ S0) by now left.
  change (st R e b (mkState (st_tries s) (upd (st_heap s) i None) (st_entry s) (st_body s))).
  destruct S0 as [A [B C]]. split; [|split]; auto. rewrite objects_objs in *. cbn [st_heap]. eapply objs_free, A.
Qed.

Lemma tri_put : forall R e b i t t', tri (st ((i, t) :: R) e b) (put i t') (fun _ => st ((i, t') :: R) e b) (fun _ _ => False).
Proof.
  intros R e b i t t' s S0. unfold put, abind. rewrite (peek_in _ _ _ _ t _ S0) by now left.
  change (st ((i, t') :: R) e b (mkState (st_tries s) (upd (st_heap s) i (Some t')) (st_entry s) (st_body s))).
  destruct S0 as [A [B C]]. split; [|split]; auto. rewrite objects_objs in *. cbn [st_heap]. eapply objs_put, A.
Qed.

(** * Deleting *)
Fixpoint tree (d i : nat) (T : list (nat * thing)) : Prop :=
  match d with
  | O => False
  | S d => exists t Ts, T = (i, t) :: concat Ts /\ Forall2 (tree d) (children t) Ts
  end.

Lemma tri_delete : forall d i T R e b, tree d i T ->
  tri (st (T ++ R) e b) (delete d i) (fun _ => st R e b) (fun _ _ => False).
Proof.
  induction d as [|d IH]; intros i T R e b; cbn [tree]; [contradiction|].
  intros (t & Ts & -> & F). cbn [delete]. rewrite <- app_comm_cons.
  eapply tri_bind; [apply tri_peek; now left|]. intros t'. apply tri_prop. intros ->.
  eapply tri_bind; [apply tri_free|]. intros u0; cbn beta; clear u0.
  induction F as [|c T cs Ts C F IH2]; cbn [each concat].
  - apply tri_ret. auto.
  - eapply tri_bind; [|intros u0; exact IH2]. rewrite <- app_assoc. now apply IH.
Qed.

Lemma tree_leaf : forall d i t, children t = [] -> tree (S d) i [(i, t)].
Proof. intros d i t C. exists t, []. rewrite C. split; auto. Qed.

Lemma tree_leaves : forall d l (f : nat -> thing), (forall i, children (f i) = []) ->
  Forall2 (tree (S d)) l (map (fun i => [(i, f i)]) l).
Proof. intros d l f C. induction l; cbn; constructor; auto. now apply tree_leaf. Qed.

Lemma tree_pairs : forall d ids ts, length ids = length ts -> (forall t, In t ts -> children t = []) ->
  Forall2 (tree (S d)) ids (map (fun p => [p]) (combine ids ts)).
Proof.
  induction ids as [|i ids IH]; intros [|t ts] L C; cbn in *; try discriminate; constructor.
  - apply tree_leaf. apply C. now left.
  - apply IH; auto.
Qed.

Lemma concat_single : forall A (l : list A), concat (map (fun p => [p]) l) = l.
Proof. induction l; cbn; congruence. Qed.

(** The sequence and the matcher of an expression. *)
Definition seq_objs (q last : nat) (ids : list nat) (acts : list (option Z)) : list (nat * thing) :=
  (q, ASeq (ids ++ [last]) []) :: combine ids (map AAction acts) ++ [(last, ALast)].
Definition mat_objs (m : nat) (mids : list nat) : list (nat * thing) :=
  (m, AMatcher mids) :: map (fun i => (i, AArg)) mids.

Lemma tree_seq : forall d q last ids acts, length ids = length acts -> tree (S (S d)) q (seq_objs q last ids acts).
Proof.
  intros d q last ids acts L. cbn [tree]. exists (ASeq (ids ++ [last]) []).
  exists (map (fun p => [p]) (combine ids (map AAction acts)) ++ [[(last, ALast)]]). split.
  - unfold seq_objs. rewrite concat_app, concat_single. reflexivity.
  - cbn [children]. rewrite app_nil_r. apply Forall2_app.
    + apply tree_pairs; [now rewrite map_length|]. intros t K. apply in_map_iff in K as [a [<- _]]. reflexivity.
    + constructor; auto. now apply tree_leaf.
Qed.

Lemma tree_mat : forall d m mids, tree (S (S d)) m (mat_objs m mids).
Proof.
  intros d m mids. cbn [tree]. exists (AMatcher mids), (map (fun i => [(i, AArg)]) mids). split.
  - unfold mat_objs. f_equal. induction mids; cbn; congruence.
  - cbn [children]. apply tree_leaves. reflexivity.
Qed.

Lemma tree_handler : forall d h q m last ids acts mids, length ids = length acts ->
  tree (S (S (S d))) h ((h, AHandler [q; m]) :: seq_objs q last ids acts ++ mat_objs m mids).
Proof.
  intros d h q m last ids acts mids L. cbn [tree]. exists (AHandler [q; m]), [seq_objs q last ids acts; mat_objs m mids].
  cbn [concat]. rewrite app_nil_r. split; auto.
  constructor; [now apply (tree_seq d)|]. constructor; [apply (tree_mat d) | constructor].
Qed.

Lemma tri_del : forall i T R R' e b, tree 3 i T -> Permutation R (T ++ R') ->
  tri (st R e b) (del i) (fun _ => st R' e b) (fun _ _ => False).
Proof.
  intros i T R R' e b K P. eapply tri_pre; [intros s; apply (st_perm _ (T ++ R')), P |]. now apply tri_delete.
Qed.

Lemma tri_free' : forall i t R R' e b, Permutation R ((i, t) :: R') ->
  tri (st R e b) (free i) (fun _ => st R' e b) (fun _ _ => False).
Proof. intros. eapply tri_pre; [intros s; apply st_perm; eassumption |]. apply tri_free. Qed.

Lemma tri_put' : forall i t t' R R' e b, Permutation R ((i, t) :: R') ->
  tri (st R e b) (put i t') (fun _ => st ((i, t') :: R') e b) (fun _ _ => False).
Proof. intros. eapply tri_pre; [intros s; apply st_perm; eassumption |]. apply tri_put. Qed.

Lemma tri_holding : forall i T R R' e b, tree 3 i T -> Permutation R (T ++ R') ->
  tri (st R e b) (holding fails i) (fun _ => st R e b) (fun x s => x = OutOfMemory /\ st R' e b s).
Proof.
  intros i T R R' e b K P. unfold holding. eapply tri_guard; [apply tri_try|].
  intros x. apply tri_prop. intros ->. eapply tri_weak; [apply (tri_del i T R R' e b K P) | auto | cbn; auto | contradiction].
Qed.

Lemma tri_hold_free : forall i t R R' e b, Permutation R ((i, t) :: R') ->
  tri (st R e b) (aguard try_alloc (free i)) (fun _ => st R e b) (fun x s => x = OutOfMemory /\ st R' e b s).
Proof.
  intros i t R R' e b P. eapply tri_guard; [apply tri_try|].
  intros x. apply tri_prop. intros ->. eapply tri_weak; [apply (tri_free' i t R R' e b P) | auto | cbn; auto | contradiction].
Qed.

(** * Statements *)
Definition expr_objs (x : expr) (last : nat) (ids : list nat) (acts : list (option Z)) (mids : list nat) : list (nat * thing) :=
  (x_ctx x, ACtx) :: (x_impl x, AImpl) :: seq_objs (x_seq x) last ids acts ++ mat_objs (x_matcher x) mids.

Ltac next := let u := fresh in intros u; cbn beta; try clear u.

Lemma tri_destroy : forall x last ids acts mids R e b, length ids = length acts ->
  tri (st (expr_objs x last ids acts mids ++ R) e b) (destroy false x) (fun _ => st R e b) (fun _ _ => False).
Proof.
  intros x last ids acts mids R e b L. unfold destroy, expr_objs. cbn [app]. rewrite <- app_assoc.
  eapply tri_bind; [eapply tri_del; [exact (tree_leaf 2 _ ACtx eq_refl) | apply Permutation_refl]|]. next. cbv iota.
  eapply tri_bind; [eapply tri_bind; [|next]|next].
  - eapply tri_del; [exact (tree_seq 1 _ last ids acts L)|]. block.
  - eapply tri_del; [exact (tree_mat 1 _ mids)|]. block.
  - eapply tri_free'. pick.
Qed.

Lemma tri_destroy_done : forall x R e b,
  tri (st ((x_ctx x, ACtx) :: (x_impl x, AImpl) :: R) e b) (destroy true x) (fun _ => st R e b) (fun _ _ => False).
Proof.
  intros x R e b. unfold destroy.
  eapply tri_bind; [eapply tri_del; [exact (tree_leaf 2 _ ACtx eq_refl) | cbn [app]; apply Permutation_refl]|]. next.
  eapply tri_bind with (Q := fun _ => st ((x_impl x, AImpl) :: R) e b); [apply tri_ret; auto|]. next. apply tri_free.
Qed.

Notation oom P := (fun x s => x = OutOfMemory /\ P s).

(** A rule used where an exception leads to more than it says. *)
Lemma tri_exn : forall A (P : state -> Prop) (m : AM A) (Q : A -> state -> Prop) (X X' : error -> state -> Prop),
  tri P m Q X -> (forall e s, X e s -> X' e s) -> tri P m Q X'.
Proof. intros. eapply tri_weak; eauto. Qed.

Lemma tri_sequence : forall R e b,
  tri (st R e b) (new_sequence fails) (fun q s => exists last, st (seq_objs q last [] [] ++ R) e b s) (oom (st R e b)).
Proof.
  intros R e b. unfold new_sequence.
  eapply tri_bind; [apply tri_new|]. intros q; cbn beta.
  eapply tri_guard with (Y := oom (st ((q, ASeq [] []) :: R) e b)).
  - eapply tri_bind; [apply tri_new|]. intros a; cbn beta.
    eapply tri_bind; [eapply tri_holding; [exact (tree_leaf 2 _ ALast eq_refl) | apply Permutation_refl]|]. next.
    eapply tri_bind; [eapply tri_holding; [exact (tree_leaf 2 _ ALast eq_refl) | apply Permutation_refl]|]. next.
    eapply tri_bind; [eapply tri_exn; [eapply (tri_put' q); pick | contradiction]|]. next.
    apply tri_ret. intros s K. exists a. exact K.
  - intros x. apply tri_prop. intros ->. eapply tri_weak; [apply tri_free | intros s K; exact K | cbn; auto | contradiction].
Qed.

Lemma tri_impl : forall c R e b,
  tri (st R e b) (new_impl fails c)
    (fun x s => x_ctx x = c /\ exists last, st ((x_impl x, AImpl) :: seq_objs (x_seq x) last [] [] ++ mat_objs (x_matcher x) [] ++ R) e b s)
    (oom (fun s => exists J, st (J ++ R) e b s)).
Proof.
  intros c R e b. unfold new_impl.
  eapply tri_bind; [eapply tri_exn; [apply tri_new|]|].
  - intros x s [-> K]. split; auto. now exists [].
  - intros i; cbn beta.
    eapply tri_guard with (Y := oom (fun s => exists J, st ((i, AImpl) :: J ++ R) e b s)).
    + eapply tri_bind; [eapply tri_exn; [apply tri_sequence|]|].
      * intros x s [-> K]. split; auto. now exists [].
      * intros q; cbn beta. apply tri_ex. intros last.
        eapply tri_bind; [eapply tri_exn; [apply tri_new|]|].
        -- intros x s [-> K]. split; auto. exists (seq_objs q last [] []). eapply st_perm; [|exact K]. perm.
        -- intros m; cbn beta. apply tri_ret. intros s K. cbn [x_ctx x_impl x_seq x_matcher]. split; auto.
           exists last. eapply st_perm; [|exact K]. unfold mat_objs. cbn [map]. perm.
    + intros x. apply tri_prop. intros ->. apply tri_ex. intros J.
      eapply tri_weak; [apply tri_free | intros s K; exact K | | contradiction]. cbn. intros _ s K. split; auto. now exists J.
Qed.

Inductive bodied (b : option body) (e : bool) : list (nat * thing) -> option body -> bool -> Prop :=
| bd_same : bodied b e [] b e
| bd_entry : b = None -> bodied b e [] b true
| bd_new : forall i, b = None -> bodied b e [(i, ABody)] (Some (mkBody i [] [])) true.

Lemma tri_set_entry : forall R e b v, tri (st R e b) (set_entry v) (fun _ => st R v b) (fun _ _ => False).
Proof. intros R e b v s [A [B C]]. cbn. repeat split; auto. Qed.
Lemma tri_set_body : forall R e b v, tri (st R e b) (set_body v) (fun _ => st R e (Some v)) (fun _ _ => False).
Proof. intros R e b v s [A [B C]]. cbn. repeat split; auto. Qed.

Lemma tri_get_body : forall R e b,
  tri (st R e b) (get_body fails)
    (fun bo s => exists Lb e', bodied b e Lb (Some bo) e' /\ st (Lb ++ R) e' (Some bo) s)
    (oom (fun s => exists e', bodied b e [] b e' /\ st R e' b s)).
Proof.
  intros R e b. unfold get_body.
  eapply tri_bind with (Q := fun o s => o = b /\ st R e b s).
  { intros s S0. cbn. split; auto. apply S0. }
  intros o. apply tri_prop. intros ->. destruct b as [bo|].
  { apply tri_ret. intros s K. exists [], e. split; [constructor | exact K]. }
  assert (SAME : forall x s, x = OutOfMemory /\ st R e None s ->
    x = OutOfMemory /\ exists e', bodied None e [] None e' /\ st R e' None s).
  { intros x s [-> K]. split; auto. exists e. split; [constructor | auto]. }
  eapply tri_bind; [eapply tri_exn; [apply tri_try | exact SAME]|]. next.
  eapply tri_bind; [eapply tri_exn; [apply tri_new | exact SAME]|]. intros i; cbn beta.
  eapply tri_bind; [eapply tri_exn; [eapply tri_hold_free; apply Permutation_refl | exact SAME]|]. next.
  eapply tri_bind; [eapply tri_exn; [apply tri_set_entry | contradiction]|]. next.
  eapply tri_bind; [eapply tri_exn; [eapply tri_holding; [exact (tree_leaf 2 _ ABody eq_refl) | apply Permutation_refl]|]|].
  { intros x s [-> K]. split; auto. exists true. split; [now constructor | exact K]. }
  next.
  eapply tri_bind; [eapply tri_exn; [apply tri_set_body | contradiction]|]. next.
  apply tri_ret. intros s K. exists [(i, ABody)], true. split; [now constructor | exact K].
Qed.

Lemma bodied_trans : forall b e L1 b1 e1 L2 b2 e2,
  bodied b e L1 b1 e1 -> bodied b1 e1 L2 b2 e2 -> bodied b e (L2 ++ L1) b2 e2.
Proof.
  intros b e L1 b1 e1 L2 b2 e2 A B. inversion A; subst; inversion B; subst; cbn; try congruence; try (now constructor).
Qed.

(** Left as it was, but for [J] and a first mention. *)
Definition near (b : option body) (e : bool) (R : list (nat * thing)) (s : state) : Prop :=
  exists J Lb b' e', bodied b e Lb b' e' /\ st (J ++ Lb ++ R) e' b' s.
Definition snug (b : option body) (e : bool) (R : list (nat * thing)) (s : state) : Prop :=
  exists Lb b' e', bodied b e Lb b' e' /\ st (Lb ++ R) e' b' s.

Lemma snug_near : forall b e R s, snug b e R s -> near b e R s.
Proof. intros b e R s (Lb & b' & e' & A & B). exists [], Lb, b', e'. auto. Qed.

Lemma tri_destroy_snug : forall x last ids acts mids R Lb b e b' e', length ids = length acts -> bodied b e Lb b' e' ->
  tri (st (expr_objs x last ids acts mids ++ Lb ++ R) e' b') (destroy false x) (fun _ => snug b e R) (fun _ _ => False).
Proof.
  intros x last ids acts mids R Lb b e b' e' L B. eapply tri_weak; [apply (tri_destroy x last ids acts mids (Lb ++ R) e' b' L) | intros s K; exact K | | contradiction].
  cbn. intros _ s K. now exists Lb, b', e'.
Qed.

Lemma tri_method_expr : forall R e b,
  tri (st R e b) (method_expr fails)
    (fun x s => exists last Lb bo e', bodied b e Lb (Some bo) e' /\ st (expr_objs x last [] [] [] ++ Lb ++ R) e' (Some bo) s)
    (oom (near b e R)).
Proof.
  intros R e b. unfold method_expr.
  assert (NEAR : forall J s, st (J ++ R) e b s -> near b e R s).
  { intros J s K. exists J, [], b, e. split; [constructor | exact K]. }
  eapply tri_bind; [eapply tri_exn; [apply tri_new|]|].
  { intros x s [-> K]. split; auto. now apply (NEAR []). }
  intros c; cbn beta.
  eapply tri_bind; [eapply tri_exn; [apply tri_impl|]|].
  { intros x s [-> [J K]]. split; auto. apply (NEAR (J ++ [(c, ACtx)])). eapply st_perm; [|exact K]. perm. }
  intros x; cbn beta. apply tri_prop. intros <-. apply tri_ex. intros last.
  eapply tri_pre with (P := st (expr_objs x last [] [] [] ++ R) e b).
  { intros s. apply st_perm. unfold expr_objs. perm. }
  eapply tri_bind with (Q := fun _ => st (expr_objs x last [] [] [] ++ R) e b).
  { eapply tri_guard; [apply tri_try|]. intros y. apply tri_prop. intros ->.
    eapply tri_weak; [eapply (tri_destroy x last [] [] []); reflexivity | intros s K; exact K | | contradiction].
    cbn. intros _ s K. split; auto. now apply (NEAR []). }
  next.
  eapply tri_bind with (Q := fun _ s => exists Lb bo e', bodied b e Lb (Some bo) e' /\ st (expr_objs x last [] [] [] ++ Lb ++ R) e' (Some bo) s).
  - eapply tri_guard with (Y := oom (fun s => exists Lb b' e', bodied b e Lb b' e' /\ st (expr_objs x last [] [] [] ++ Lb ++ R) e' b' s)).
    + eapply tri_bind; [eapply tri_exn; [apply tri_try|]|].
      { intros y s [-> K]. split; auto. exists [], b, e. split; [constructor | exact K]. }
      next. eapply tri_bind; [eapply tri_exn; [apply tri_get_body|]|].
      { intros y s [-> [e' [A K]]]. split; auto. exists [], b, e'. auto. }
      intros bo; cbn beta. apply tri_ex. intros Lb. apply tri_ex. intros e'. apply tri_prop. intros B.
      eapply tri_weak; [apply tri_try | intros s K; exact K | |].
      * cbn. intros _ s K. exists Lb, bo, e'. split; auto. eapply st_perm; [|exact K]. perm.
      * cbn. intros y s [-> K]. split; auto. exists Lb, (Some bo), e'. split; auto. eapply st_perm; [|exact K]. perm.
    + intros y. apply tri_prop. intros ->. apply tri_ex. intros Lb. apply tri_ex. intros b'. apply tri_ex. intros e'.
      apply tri_prop. intros B. eapply tri_weak; [eapply (tri_destroy_snug x last [] [] []); [reflexivity | exact B] | intros s K; exact K | | contradiction].
      cbn. intros _ s K. split; auto. now apply snug_near.
  - next. apply tri_ret. intros s K. now exists last.
Qed.

Lemma tri_collect : forall n acc R e b,
  tri (st (map (fun i => (i, AArg)) acc ++ R) e b) (collect fails n acc)
    (fun l s => length l = n + length acc /\ st (map (fun i => (i, AArg)) l ++ R) e b s)
    (oom (fun s => exists J, st (J ++ R) e b s)).
Proof.
  induction n as [|n IH]; intros acc R e b; cbn [collect].
  - apply tri_ret. auto.
  - eapply tri_bind; [eapply tri_exn; [apply tri_new|]|].
    { intros x s [-> K]. split; auto. eexists. exact K. }
    intros d; cbn beta.
    eapply tri_bind; [eapply tri_exn; [apply tri_try|]|].
    { intros x s [-> K]. split; auto. exists ((d, AArg) :: map (fun i => (i, AArg)) acc). exact K. }
    next. eapply tri_weak; [apply IH | | | intros x s K; exact K].
    + intros s. apply st_perm. rewrite map_app. cbn [map]. perm.
    + cbn. intros l s [A B]. split; auto. rewrite A, app_length. cbn. lia.
Qed.

Definition count (args : option nat) : nat := match args with Some n => n | None => 0 end.

Lemma tri_use : forall args x last R e b,
  tri (st (expr_objs x last [] [] [] ++ R) e b) (use fails args x)
    (fun y s => exists mids, length mids = count args /\ st (expr_objs y last [] [] mids ++ R) e b s)
    (oom (fun s => exists J, st (expr_objs x last [] [] [] ++ J ++ R) e b s)).
Proof.
  intros [n|] x last R e b; cbn [use count].
  2: { apply tri_ret. intros s K. now exists []. }
  eapply tri_bind; [eapply tri_weak; [apply (tri_collect n []) | intros s K; exact K | intros l s K; exact K |]|].
  { cbn. intros y s [-> [J K]]. split; auto. exists J. eapply st_perm; [|exact K]. perm. }
  intros l; cbn beta. apply tri_prop. intros L. cbn in L.
  eapply tri_bind; [eapply tri_exn; [apply tri_new|]|].
  { intros y s [-> K]. split; auto. exists (map (fun i => (i, AArg)) l). eapply st_perm; [|exact K]. perm. }
  intros m; cbn beta.
  eapply tri_bind; [eapply tri_exn; [eapply tri_hold_free; apply Permutation_refl|]|].
  { intros y s [-> K]. split; auto. exists (map (fun i => (i, AArg)) l). eapply st_perm; [|exact K]. perm. }
  next. eapply tri_bind; [eapply tri_exn; [apply tri_put | contradiction]|]. next.
  eapply tri_bind; [eapply tri_exn; [eapply (tri_del (x_matcher x)); [apply (tree_mat 1 _ []) |] | contradiction]|].
  { unfold expr_objs. cbn [app]. rewrite <- app_assoc. block. }
  next. apply tri_ret. intros s K. exists l. split; [lia|]. eapply st_perm; [|exact K].
  unfold expr_objs. cbn [x_ctx x_impl x_seq x_matcher]. unfold mat_objs at 1. perm.
Qed.

Lemma seq_grow : forall ids (last a : nat),
  removelast (ids ++ [last]) ++ [a] ++ skipn (length (ids ++ [last]) - 1) (ids ++ [last]) = (ids ++ [a]) ++ [last].
Proof.
  intros ids last a. rewrite removelast_last, app_length, Nat.add_sub, skipn_app, skipn_all, Nat.sub_diag.
  cbn. now rewrite <- app_assoc.
Qed.

Lemma combine_snoc : forall A B (l : list A) (r : list B) a b, length l = length r ->
  combine (l ++ [a]) (r ++ [b]) = combine l r ++ [(a, b)].
Proof. induction l as [|x l IH]; intros [|y r] a b L; cbn in *; try discriminate; auto. rewrite IH; auto. Qed.

Lemma tri_append : forall k x last ids acts mids R e b, length ids = length acts ->
  tri (st (expr_objs x last ids acts mids ++ R) e b) (append fails k x)
    (fun _ s => exists a, st (expr_objs x last (ids ++ [a]) (acts ++ [k]) mids ++ R) e b s)
    (oom (st (expr_objs x last ids acts mids ++ R) e b)).
Proof.
  intros k x last ids acts mids R e b L. unfold append.
  eapply tri_bind; [apply tri_try|]. next.
  eapply tri_bind; [apply tri_new|]. intros a; cbn beta.
  eapply tri_bind; [eapply tri_hold_free; apply Permutation_refl|]. next.
  eapply tri_bind; [eapply tri_holding; [exact (tree_leaf 2 _ (AAction k) eq_refl) | apply Permutation_refl]|]. next.
  eapply tri_bind; [eapply tri_holding; [exact (tree_leaf 2 _ (AAction k) eq_refl) | apply Permutation_refl]|]. next.
  eapply tri_bind; [eapply tri_exn; [eapply (tri_peek _ _ _ (x_seq x) (ASeq (ids ++ [last]) [])) | contradiction]|].
  { right. apply in_or_app. left. right. right. apply in_or_app. left. now left. }
  intros t. apply tri_prop. intros ->. rewrite seq_grow.
  eapply tri_weak; [eapply (tri_put' (x_seq x)) | intros s K; exact K | | contradiction].
  - unfold expr_objs, seq_objs. cbn [app]. pick.
  - cbn beta. intros _ s K. exists a. eapply st_perm; [|exact K].
    unfold expr_objs, seq_objs. rewrite map_app. cbn [map].
    rewrite combine_snoc by now rewrite map_length. perm.
Qed.

Lemma tri_each : forall acts x last ids done mids R e b, length ids = length done ->
  tri (st (expr_objs x last ids done mids ++ R) e b) (each (fun a => append fails a x) acts)
    (fun _ s => exists ids', length ids' = length (done ++ acts) /\ st (expr_objs x last ids' (done ++ acts) mids ++ R) e b s)
    (oom (fun s => exists ids' acts', length ids' = length acts' /\ st (expr_objs x last ids' acts' mids ++ R) e b s)).
Proof.
  induction acts as [|k acts IH]; intros x last ids done mids R e b L; cbn [each].
  - apply tri_ret. intros s K. rewrite app_nil_r. now exists ids.
  - eapply tri_bind; [eapply tri_exn; [apply (tri_append k x last ids done mids R e b L)|]|].
    { intros y s [-> K]. split; auto. now exists ids, done. }
    next. apply tri_ex. intros a.
    eapply tri_weak; [apply (IH x last (ids ++ [a]) (done ++ [k]) mids R e b); rewrite !app_length; cbn; lia | intros s K; exact K | | intros y s K; exact K].
    cbn beta. intros _ s (ids' & A & B). exists ids'. rewrite <- app_assoc in A, B. auto.
Qed.

Lemma tri_start : forall args R e b,
  tri (st R e b) (start fails args)
    (fun p s => exists last mids Lb bo e', length mids = count args /\ bodied b e Lb (Some bo) e' /\
       st (expr_objs (fst p) last [] [] mids ++ (snd p, AChange) :: Lb ++ R) e' (Some bo) s)
    (oom (near b e R)).
Proof.
  intros args R e b. unfold start.
  eapply tri_bind; [apply tri_method_expr|]. intros x; cbn beta.
  apply tri_ex; intros last. apply tri_ex; intros Lb. apply tri_ex; intros bo. apply tri_ex; intros e'.
  apply tri_prop; intros B.
  eapply tri_bind with (Q := fun y s => exists mids, length mids = count args /\ st (expr_objs y last [] [] mids ++ Lb ++ R) e' (Some bo) s).
  { eapply tri_guard; [apply tri_use|]. intros y. apply tri_prop. intros ->. apply tri_ex. intros J.
    eapply tri_weak; [eapply (tri_destroy x last [] [] []); reflexivity | intros s K; exact K | | contradiction].
    cbn. intros _ s K. split; auto. exists J, Lb, (Some bo), e'. auto. }
  intros y; cbn beta. apply tri_ex; intros mids. apply tri_prop; intros L.
  eapply tri_guard with (Y := oom (fun s => exists J, st (expr_objs y last [] [] mids ++ J ++ Lb ++ R) e' (Some bo) s)).
  - eapply tri_bind; [eapply tri_exn; [apply tri_new|]|].
    { intros z s [-> K]. split; auto. now exists []. }
    intros ch; cbn beta. eapply tri_bind; [eapply tri_exn; [apply tri_try|]|].
    { intros z s [-> K]. split; auto. exists [(ch, AChange)]. eapply st_perm; [|exact K]. perm. }
    next. apply tri_ret. intros s K. cbn [fst snd]. exists last, mids, Lb, bo, e'. split; [exact L|]. split; [exact B|].
    eapply st_perm; [|exact K]. perm.
  - intros z. apply tri_prop. intros ->. apply tri_ex. intros J.
    eapply tri_weak; [eapply (tri_destroy y last [] [] mids); reflexivity | intros s K; exact K | | contradiction].
    cbn. intros _ s K. split; auto. exists J, Lb, (Some bo), e'. auto.
Qed.

(** Giving up an expression before it was committed. *)
Lemma tri_give_up : forall x ch last ids acts mids R Lb b e b' e', length ids = length acts -> bodied b e Lb b' e' ->
  tri (st (expr_objs x last ids acts mids ++ (ch, AChange) :: Lb ++ R) e' b') (del ch ;;! destroy false x)
    (fun _ => snug b e R) (fun _ _ => False).
Proof.
  intros x ch last ids acts mids R Lb b e b' e' L B.
  eapply tri_bind; [eapply tri_del; [exact (tree_leaf 2 _ AChange eq_refl) | cbn [app]; pick]|]. next.
  now apply tri_destroy_snug.
Qed.

Lemma tri_rest : forall acts x ch last mids R Lb b e bo e', bodied b e Lb (Some bo) e' ->
  tri (st (expr_objs x last [] [] mids ++ (ch, AChange) :: Lb ++ R) e' (Some bo))
    (aguard (each (fun a => append fails a x) acts) (del ch ;;! destroy false x))
    (fun _ s => exists ids, length ids = length acts /\ st (expr_objs x last ids acts mids ++ (ch, AChange) :: Lb ++ R) e' (Some bo) s)
    (oom (snug b e R)).
Proof.
  intros acts x ch last mids R Lb b e bo e' B. eapply tri_guard; [apply (tri_each acts x last [] [] mids ((ch, AChange) :: Lb ++ R) e' (Some bo) eq_refl)|].
  intros z. apply tri_prop. intros ->. apply tri_ex; intros ids. apply tri_ex; intros acts'. apply tri_prop; intros L.
  eapply tri_weak; [apply (tri_give_up x ch last ids acts' mids R Lb b e (Some bo) e' L B) | intros s K; exact K | | contradiction].
  cbn. auto.
Qed.

Lemma near_kept : forall s s', near (st_body s) (st_entry s) (objects s) s' -> kept s s'.
Proof.
  intros s s' (J & Lb & b' & e' & B & [P [_ Q]]). split; [|split; [|split]].
  - intros p I. apply (Permutation_in _ (Permutation_sym P)). apply in_or_app. right. apply in_or_app. now right.
  - unfold answers. rewrite Q. inversion B as [|N|i N]; subst; try rewrite N; auto.
  - unfold history. rewrite Q. inversion B as [|N|i N]; subst; try rewrite N; auto.
  - intros bo K. rewrite Q. inversion B; subst; congruence.
Qed.

Lemma first_mention_bodied : forall s s' Lb e', bodied (st_body s) (st_entry s) Lb (st_body s') e' -> first_mention s s' = Lb.
Proof.
  intros s s' Lb e' B. unfold first_mention. inversion B as [E|N E|i N]; subst.
  - now destruct (st_body s).
  - now rewrite N.
  - now rewrite N.
Qed.

Lemma snug_tidy : forall s s', snug (st_body s) (st_entry s) (objects s) s' -> kept s s' /\ tidy s s'.
Proof.
  intros s s' K. split; [now apply near_kept, snug_near|]. destruct K as (Lb & b' & e' & B & [P [_ Q]]).
  unfold tidy. subst b'. now rewrite (first_mention_bodied _ _ _ _ B).
Qed.

(** What there is when a statement is about to end. *)
Definition prepared (s : state) (args : option nat) (acts : list (option Z)) (p : expr * nat) (s' : state) : Prop :=
  exists last ids mids Lb bo e', length ids = length acts /\ length mids = count args /\
    bodied (st_body s) (st_entry s) Lb (Some bo) e' /\
    st (expr_objs (fst p) last ids acts mids ++ (snd p, AChange) :: Lb ++ objects s) e' (Some bo) s'.

Lemma start_outcome : forall args s,
  match start fails args s with
  | AVal s' p => prepared s args [] p s'
  | AExn s' x => x = OutOfMemory /\ near (st_body s) (st_entry s) (objects s) s'
  | _ => False
  end.
Proof.
  intros args s. assert (T := tri_start args _ _ _ s (st_here s)). destruct (start fails args s) as [s' p|s' x| |]; auto.
  - destruct T as (last & mids & Lb & bo & e' & A & B & C). exists last, [], mids, Lb, bo, e'. repeat (split; [assumption || reflexivity|]). exact C.
Qed.

Lemma rest_outcome : forall args acts s s0 p, start fails args s = AVal s0 p ->
  match prepare fails args acts s with
  | AVal s' p' => p' = p /\ prepared s args acts p s'
  | AExn s' x => x = OutOfMemory /\ snug (st_body s) (st_entry s) (objects s) s'
  | _ => False
  end.
Proof.
  intros args acts s s0 p E. assert (T := start_outcome args s). rewrite E in T.
  destruct T as (last & ids & mids & Lb & bo & e' & A & B & C & D). destruct ids; [|discriminate A].
  unfold prepare, abind at 1. rewrite E. unfold abind.
  assert (K := tri_rest acts (fst p) (snd p) last mids _ _ _ _ _ _ C s0 D).
  destruct (aguard _ _ s0) as [s' u|s' x| |]; auto.
  - destruct K as (ids & K1 & K2). cbn. split; auto. exists last, ids, mids, Lb, bo, e'. auto.
Qed.

Lemma prepare_outcome : forall args acts s,
  match prepare fails args acts s with
  | AVal s' p => prepared s args acts p s'
  | AExn s' x => x = OutOfMemory /\ near (st_body s) (st_entry s) (objects s) s'
  | _ => False
  end.
Proof.
  intros args acts s. destruct (start fails args s) as [s0 p|s0 x| |] eqn:E.
  - assert (T := rest_outcome args acts _ _ _ E). destruct (prepare fails args acts s) as [s' p'|s' x| |]; auto.
    + now destruct T as [-> T].
    + destruct T as [-> T]. split; auto. now apply snug_near.
  - assert (T := start_outcome args s). rewrite E in T. unfold prepare, abind. rewrite E. exact T.
  - assert (T := start_outcome args s). rewrite E in T. contradiction.
  - assert (T := start_outcome args s). rewrite E in T. contradiction.
Qed.

(** * Undefined *)
Definition bad {A} (P : state -> Prop) (m : AM A) : Prop := forall s, P s -> m s = AUb.

Lemma bad_here : forall A B (P : state -> Prop) (m : AM A) (k : A -> AM B), bad P m -> bad P (abind m k).
Proof. intros A B P m k M s K. unfold abind. now rewrite M. Qed.
Lemma bad_then : forall A B (P : state -> Prop) (m : AM A) (k : A -> AM B) Q,
  tri P m Q (fun _ _ => False) -> (forall a, bad (Q a) (k a)) -> bad P (abind m k).
Proof. intros A B P m k Q M K s PS. unfold abind. specialize (M s PS). destruct (m s); try contradiction. now apply K. Qed.

Lemma bad_del : forall i R e b, ~ In i (map fst R) -> bad (st R e b) (del i).
Proof.
  intros i R e b N. apply bad_here. intros s K. unfold peek.
  destruct (nth_error (st_heap s) i) as [[t|]|] eqn:E; auto. contradict N.
  apply (st_in _ _ _ _ _ _ K) in E. apply in_map_iff. now exists (i, t).
Qed.

Lemma bad_give_up : forall x ch R R1 e b,
  Permutation R ((ch, AChange) :: (x_ctx x, ACtx) :: R1) ->
  (~ In (x_seq x) (map fst R1) \/
   exists last ids acts R2, length ids = length acts /\ Permutation R1 (seq_objs (x_seq x) last ids acts ++ R2) /\ ~ In (x_matcher x) (map fst R2)) ->
  bad (st R e b) (del ch ;;! destroy false x).
Proof.
  intros x ch R R1 e b P H.
  eapply bad_then; [eapply tri_del; [exact (tree_leaf 2 _ AChange eq_refl) | exact P]|]. next. unfold destroy.
  eapply bad_then; [eapply tri_del; [exact (tree_leaf 2 _ ACtx eq_refl) | apply Permutation_refl]|]. next.
  apply bad_here. cbv iota. destruct H as [N | (last & ids & acts & R2 & L & P2 & N)].
  - apply bad_here. now apply bad_del.
  - eapply bad_then; [eapply tri_del; [exact (tree_seq 1 _ last ids acts L) | exact P2]|]. next. now apply bad_del.
Qed.

(** The body of the method, if there is one. *)
Definition body_obj (s : state) : list (nat * thing) := match st_body s with Some b => [(bo_id b, ABody)] | None => [] end.

(** * The end of a statement *)
Definition tick (s : state) : state := mkState (S (st_tries s)) (st_heap s) (st_entry s) (st_body s).

Lemma st_tick : forall R e b s, st R e b s -> st R e b (tick s).
Proof. intros R e b s K. exact K. Qed.

Lemma try_eq : forall s, try_alloc s = if fails (st_tries s) then AExn (tick s) OutOfMemory else AVal (tick s) tt.
Proof. reflexivity. Qed.

Lemma guard_eq : forall clean s,
  aguard try_alloc clean s =
  if fails (st_tries s)
  then match clean (tick s) with AVal s2 _ => AExn s2 OutOfMemory | AExn _ _ => ATerminate | ATerminate => ATerminate | AUb => AUb end
  else AVal (tick s) tt.
Proof. intros clean s. unfold aguard. rewrite try_eq. now destruct (fails (st_tries s)). Qed.

Lemma new_outcome : forall R e b t s, st R e b s ->
  (fails (st_tries s) = true /\ new t s = AExn (tick s) OutOfMemory) \/
  (fails (st_tries s) = false /\ exists s' i, new t s = AVal s' i /\ st ((i, t) :: R) e b s' /\ st_tries s' = S (st_tries s)).
Proof.
  intros R e b t s K. assert (T := tri_new R e b t s K). unfold OutOfMemory.new, abind in *. rewrite try_eq in *.
  destruct (fails (st_tries s)); [now left | right]. split; auto. cbn in *. do 2 eexists. split; [reflexivity|]. split; auto.
Qed.

Lemma put_outcome : forall R R' e b i t t' s, st R e b s -> Permutation R ((i, t) :: R') ->
  exists s', put i t' s = AVal s' tt /\ st ((i, t') :: R') e b s' /\ st_tries s' = st_tries s.
Proof.
  intros R R' e b i t t' s K P. assert (T := tri_put' i t t' R R' e b P s K).
  apply (st_perm _ _ _ _ _ P) in K. unfold put, abind in *. rewrite (peek_in _ _ _ _ t _ K) in * by now left.
  cbn [get set_heap] in *. eexists. split; [reflexivity|]. split; auto.
Qed.

Lemma nodup_app_not : forall A (a b : list A) x, NoDup (a ++ b) -> In x a -> ~ In x b.
Proof.
  induction a as [|y a IH]; intros b x N I; [contradiction|]. cbn in N. inversion N as [|? ? N1 N2]; subst.
  destruct I as [->|I]; [|now apply IH]. intros K. apply N1. apply in_or_app. now right.
Qed.

Lemma not_key : forall R e b s l r i, st R e b s -> Permutation R (l ++ r) -> In i (map fst l) -> ~ In i (map fst r).
Proof.
  intros R e b s l r i K P I. assert (N := st_keys _ _ _ _ K).
  apply (Permutation_NoDup (Permutation_map fst P)) in N. rewrite map_app in N. now apply (nodup_app_not _ (map fst l)).
Qed.

Notation commit_fails := (commit_fails fails).

Lemma bind_val : forall A B (m : AM A) (k : A -> AM B) s s' a, m s = AVal s' a -> abind m k s = k a s'.
Proof. intros A B m k s s' a E. unfold abind. now rewrite E. Qed.
Lemma bind_exn : forall A B (m : AM A) (k : A -> AM B) s s' x, m s = AExn s' x -> abind m k s = AExn s' x.
Proof. intros A B m k s s' a E. unfold abind. now rewrite E. Qed.

(** A step that fails while something is cleaned up. *)
Lemma guard_outcome : forall (clean : AM unit) s (P Q : state -> Prop), P s -> (forall s, P s -> P (tick s)) ->
  tri P clean (fun _ => Q) (fun _ _ => False) ->
  if fails (st_tries s) then exists s', aguard try_alloc clean s = AExn s' OutOfMemory /\ Q s'
  else aguard try_alloc clean s = AVal (tick s) tt.
Proof.
  intros clean s P Q K T C. rewrite guard_eq. destruct (fails (st_tries s)); auto.
  specialize (C _ (T _ K)). destruct (clean (tick s)) as [s' u| | |]; try contradiction. now exists s'.
Qed.

Definition handler_objs (x : expr) (h last : nat) (ids : list nat) (acts : list (option Z)) (mids : list nat) : list (nat * thing) :=
  (h, AHandler [x_seq x; x_matcher x]) :: seq_objs (x_seq x) last ids acts ++ mat_objs (x_matcher x) mids.

Lemma commit_outcome : forall x ch last ids acts mids R e bo s,
  length ids = length acts -> st (expr_objs x last ids acts mids ++ (ch, AChange) :: R) e (Some bo) s ->
  if fails (st_tries s) then commit fails x s = AExn (tick s) OutOfMemory
  else if commit_fails (st_tries s)
  then exists s', commit fails x s = AExn s' OutOfMemory /\ (del ch ;;! destroy false x) s' = AUb
  else exists s' h, commit fails x s = AVal s' tt /\
    st (handler_objs x h last ids acts mids ++ (ch, AChange) :: (x_ctx x, ACtx) :: (x_impl x, AImpl) :: R) e
       (Some (mkBody (bo_id bo) (bo_handlers bo ++ [h]) (bo_calls bo))) s'.
Proof.
  intros x ch last ids acts mids R e bo s L D. unfold commit.
  assert (GB : get_body fails s = AVal s bo).
  { unfold get_body, abind, get. rewrite (proj2 (proj2 D)). reflexivity. }
  rewrite (bind_val _ _ _ _ _ _ _ GB). clear GB.
  assert (NQ : ~ In (x_seq x) (map fst ((x_impl x, AImpl) :: R))).
  { eapply (not_key _ _ _ _ (seq_objs (x_seq x) last ids acts ++ mat_objs (x_matcher x) mids ++ [(x_ctx x, ACtx); (ch, AChange)])); [exact D | unfold expr_objs; perm |].
    now left. }
  assert (NM : ~ In (x_matcher x) (map fst ((x_impl x, AImpl) :: R))).
  { eapply (not_key _ _ _ _ (mat_objs (x_matcher x) mids ++ (x_ctx x, ACtx) :: (ch, AChange) :: seq_objs (x_seq x) last ids acts)); [exact D | unfold expr_objs; perm |].
    now left. }
  destruct (new_outcome _ _ _ (AHandler []) s D) as [[F E] | [F (s2 & h & E & D2 & T2)]]; rewrite F.
  { now rewrite (bind_exn _ _ _ _ _ _ _ E). }
  rewrite (bind_val _ _ _ _ _ _ _ E). clear E F. unfold Spec_OutOfMemory.commit_fails.
  (* the matcher *)
  assert (G : if fails (st_tries s2)
    then exists s', aguard try_alloc (del (x_matcher x) ;;! free h) s2 = AExn s' OutOfMemory /\
      st ((ch, AChange) :: (x_ctx x, ACtx) :: (x_impl x, AImpl) :: seq_objs (x_seq x) last ids acts ++ R) e (Some bo) s'
    else aguard try_alloc (del (x_matcher x) ;;! free h) s2 = AVal (tick s2) tt).
  { eapply guard_outcome; [exact D2 | intros s0 K; exact K |].
    eapply tri_bind; [eapply tri_del; [exact (tree_mat 1 _ mids) | unfold expr_objs; cbn [app]; rewrite <- app_assoc; block]|]. next.
    eapply (tri_free' _ (AHandler [])). perm. }
  rewrite T2 in G. change (1 + st_tries s) with (S (st_tries s)). destruct (fails (S (st_tries s))); cbn [orb].
  { destruct G as (s3 & E & K). rewrite (bind_exn _ _ _ _ _ _ _ E). exists s3. split; auto.
    eapply (bad_give_up x ch _ _ _ _ (Permutation_refl _)); [|exact K].
    right. exists last, ids, acts, ((x_impl x, AImpl) :: R). split; [exact L|]. split; [perm | exact NM]. }
  rewrite (bind_val _ _ _ _ _ _ _ G). clear G.
  (* the sequence *)
  assert (G : if fails (st_tries (tick s2))
    then exists s', aguard try_alloc (del (x_seq x) ;;! (del (x_matcher x) ;;! free h)) (tick s2) = AExn s' OutOfMemory /\
      st ((ch, AChange) :: (x_ctx x, ACtx) :: (x_impl x, AImpl) :: R) e (Some bo) s'
    else aguard try_alloc (del (x_seq x) ;;! (del (x_matcher x) ;;! free h)) (tick s2) = AVal (tick (tick s2)) tt).
  { eapply guard_outcome; [exact (st_tick _ _ _ _ D2) | intros s0 K; exact K |].
    eapply tri_bind; [eapply tri_del; [exact (tree_seq 1 _ last ids acts L) | unfold expr_objs; cbn [app]; rewrite <- app_assoc; block]|]. next.
    eapply tri_bind; [eapply tri_del; [exact (tree_mat 1 _ mids) | block]|]. next.
    eapply (tri_free' _ (AHandler [])). perm. }
  change (st_tries (tick s2)) with (S (st_tries s2)) in G. rewrite T2 in G.
  change (2 + st_tries s) with (S (S (st_tries s))). destruct (fails (S (S (st_tries s)))); cbn [orb].
  { destruct G as (s3 & E & K). rewrite (bind_exn _ _ _ _ _ _ _ E). exists s3. split; auto.
    eapply (bad_give_up x ch _ _ _ _ (Permutation_refl _)); [left; exact NQ | exact K]. }
  rewrite (bind_val _ _ _ _ _ _ _ G). clear G.
  destruct (put_outcome _ _ _ _ h (AHandler []) (AHandler [x_seq x; x_matcher x]) _
              (st_tick _ _ _ _ (st_tick _ _ _ _ D2)) (Permutation_refl _)) as (s3 & E & D3 & T3).
  change (st_tries (tick (tick s2))) with (S (S (st_tries s2))) in T3. rewrite T2 in T3.
  rewrite (bind_val _ _ _ _ _ _ _ E). clear E.
  set (H := handler_objs x h last ids acts mids). set (R2 := (ch, AChange) :: (x_ctx x, ACtx) :: (x_impl x, AImpl) :: R).
  apply (st_perm _ (H ++ R2)) in D3. 2: { unfold H, R2, handler_objs, expr_objs. perm. }
  assert (HOLD : forall s4, st (H ++ R2) e (Some bo) s4 ->
    if fails (st_tries s4) then exists s', holding fails h s4 = AExn s' OutOfMemory /\ st R2 e (Some bo) s'
    else holding fails h s4 = AVal (tick s4) tt).
  { intros s4 K. unfold holding. eapply guard_outcome; [exact K | intros s0 K0; exact K0 |].
    eapply tri_del; [exact (tree_handler 0 h (x_seq x) (x_matcher x) last ids acts mids L) | apply Permutation_refl]. }
  assert (G := HOLD _ D3). rewrite T3 in G.
  change (3 + st_tries s) with (S (S (S (st_tries s)))). destruct (fails (S (S (S (st_tries s))))); cbn [orb].
  { destruct G as (s4 & E & K). rewrite (bind_exn _ _ _ _ _ _ _ E). exists s4. split; auto.
    eapply (bad_give_up x ch _ _ _ _ (Permutation_refl _)); [left; exact NQ | exact K]. }
  rewrite (bind_val _ _ _ _ _ _ _ G). clear G.
  assert (G := HOLD _ (st_tick _ _ _ _ D3)). change (st_tries (tick s3)) with (S (st_tries s3)) in G. rewrite T3 in G.
  change (4 + st_tries s) with (S (S (S (S (st_tries s))))). destruct (fails (S (S (S (S (st_tries s)))))); cbn [orb].
  { destruct G as (s4 & E & K). rewrite (bind_exn _ _ _ _ _ _ _ E). exists s4. split; auto.
    eapply (bad_give_up x ch _ _ _ _ (Permutation_refl _)); [left; exact NQ | exact K]. }
  rewrite (bind_val _ _ _ _ _ _ _ G). clear G HOLD.
  assert (E : get st_body (tick (tick s3)) = AVal (tick (tick s3)) (Some bo)).
  { unfold get. f_equal. apply D3. }
  rewrite (bind_val _ _ _ _ _ _ _ E). clear E.
  exists (mkState (st_tries (tick (tick s3))) (st_heap s3) (st_entry s3) (Some (mkBody (bo_id bo) (bo_handlers bo ++ [h]) (bo_calls bo)))), h.
  split; [reflexivity|]. destruct D3 as (A & B & _). split; [exact A | split; [exact B | reflexivity]].
Qed.

Lemma when_outcome : forall args acts s s1 p, prepare fails args acts s = AVal s1 p ->
  if fails (st_tries s1) then exists s', when fails args acts s = AExn s' OutOfMemory /\ snug (st_body s) (st_entry s) (objects s) s'
  else if commit_fails (st_tries s1) then when fails args acts s = AUb
  else exists s' h l, when fails args acts s = AVal s' tt /\
       answers s' = answers s ++ [h] /\ history s' = history s /\ st_body s' <> None /\
       body_obj s' = first_mention s s' ++ body_obj s /\
       answer h args acts l /\ Permutation (objects s') (l ++ first_mention s s' ++ objects s).
Proof.
  intros args acts s s1 p E. assert (T := prepare_outcome args acts s). rewrite E in T.
  destruct T as (last & ids & mids & Lb & bo & e' & L1 & L2 & B & D). destruct p as [x ch]. cbn [fst snd] in D.
  unfold when. rewrite (bind_val _ _ _ _ _ _ _ E). cbn [fst snd].
  assert (C := commit_outcome x ch last ids acts mids _ _ _ _ L1 D).
  assert (GUARD : forall m k, @abind unit unit (aguard (commit fails x) m) k s1 =
    match commit fails x s1 with
    | AVal s' a => k a s'
    | AExn s' y => match m s' with AVal s2 _ => AExn s2 y | AExn _ _ => ATerminate | ATerminate => ATerminate | AUb => AUb end
    | ATerminate => ATerminate | AUb => AUb end).
  { intros m k. unfold abind, aguard. destruct (commit fails x s1) as [| s' y | |]; auto. now destruct (m s'). }
  rewrite GUARD. clear GUARD.
  destruct (fails (st_tries s1)).
  { rewrite C. assert (K := tri_give_up x ch last ids acts mids _ _ _ _ _ _ L1 B (tick s1) (st_tick _ _ _ _ D)).
    destruct ((del ch ;;! destroy false x) (tick s1)) as [s' u| | |]; try contradiction.
    now exists s'. }
  destruct (commit_fails (st_tries s1)).
  { destruct C as (s2 & -> & K). now rewrite K. }
  destruct C as (s2 & h & -> & D2).
  set (b2 := mkBody (bo_id bo) (bo_handlers bo ++ [h]) (bo_calls bo)) in *.
  set (H := handler_objs x h last ids acts mids) in *.
  assert (K : tri (st (H ++ (ch, AChange) :: (x_ctx x, ACtx) :: (x_impl x, AImpl) :: Lb ++ objects s) e' (Some b2))
                (del ch ;;! destroy true x) (fun _ => st (H ++ Lb ++ objects s) e' (Some b2)) (fun _ _ => False)).
  { eapply tri_bind; [eapply tri_del; [exact (tree_leaf 2 _ AChange eq_refl) | cbn [app]; pick]|]. next.
    eapply tri_pre; [|apply (tri_destroy_done x (H ++ Lb ++ objects s))]. intros s0. apply st_perm. perm. }
  specialize (K _ D2). destruct ((del ch ;;! destroy true x) s2) as [s5 [] | | |]; try contradiction.
  destruct K as (P5 & E5 & B5).
  assert (FM : first_mention s s5 = Lb /\ bo_handlers bo = answers s /\ bo_calls bo = history s /\ body_obj s5 = Lb ++ body_obj s).
  { unfold first_mention, answers, history, body_obj. rewrite B5. remember (Some bo) as o eqn:EO in B.
    destruct B as [|N|i N]; try congruence.
    - now rewrite EO.
    - inversion EO; subst. now rewrite N. }
  destruct FM as (FM & FA & FH & FB).
  exists s5, h, ([(h, AHandler [x_seq x; x_matcher x]); (x_seq x, ASeq (ids ++ [last]) []); (last, ALast); (x_matcher x, AMatcher mids)]
        ++ combine ids (map AAction acts) ++ map (fun i => (i, AArg)) mids).
  split; [reflexivity|]. split; [|split; [|split; [|split; [|split]]]].
  - unfold answers at 1. rewrite B5. cbn. now rewrite FA.
  - unfold history at 1. rewrite B5. exact FH.
  - rewrite B5. discriminate.
  - now rewrite FB, FM.
  - exists (x_seq x), (x_matcher x), last, ids, mids. split; auto.
  - rewrite P5, FM. unfold H, handler_objs, seq_objs, mat_objs. perm.
Qed.
End Rules.

(** * Calls *)
Definition playable_in (R : list (nat * thing)) (h : nat) : Prop :=
  exists q m ids last used,
    In (h, AHandler [q; m]) R /\ In (q, ASeq (ids ++ [last]) used) R /\
    In (last, ALast) R /\ forall i, In i ids -> exists k, In (i, AAction k) R.

Lemma playable_incl : forall R R' h, incl R R' -> playable_in R h -> playable_in R' h.
Proof.
  intros R R' h I (q & m & ids & last & used & A & B & C & D). exists q, m, ids, last, used.
  split; [now apply I|]. split; [now apply I|]. split; [now apply I|].
  intros i K. destruct (D i K) as [k E]. exists k. now apply I.
Qed.

Lemma perm_incl : forall A (l r : list A), Permutation l r -> incl l r.
Proof. intros A l r P x I. now apply (Permutation_in _ P). Qed.

Lemma playable_st : forall R e b s h, st R e b s -> (playable s h <-> playable_in R h).
Proof.
  intros R e b s h [P _]. split; apply playable_incl; apply perm_incl; [exact P | now symmetry].
Qed.

Section Played.
Variable R0 : list (nat * thing).
Variables a q : nat.
Variables t t' u u' : thing.
Let R := (a, t) :: (q, u) :: R0.
Let R' := (a, t') :: (q, u') :: R0.
Hypothesis N : NoDup (map fst R).

Lemma other_in : forall i x, In (i, x) R -> i <> a -> i <> q -> In (i, x) R'.
Proof.
  intros i x [K|[K|K]] NA NQ; try (inversion K; congruence). right. now right.
Qed.

Lemma one_in : forall i x y, In (i, x) R -> In (i, y) R -> x = y.
Proof.
  clear R'. intros i x y. revert N. generalize R. intros l. induction l as [|[j z] l IH]; intros M A B; [contradiction|].
  cbn in M. inversion M as [|? ? M1 M2]; subst.
  assert (OUT : forall w, In (j, w) l -> False) by (intros w K; apply M1, in_map_iff; now exists (j, w)).
  destruct A as [A|A], B as [B|B].
  - congruence.
  - inversion A; subst. destruct (OUT _ B).
  - inversion B; subst. destruct (OUT _ A).
  - now apply IH.
Qed.
End Played.

Lemma playable_same : forall R0 a q k k' u h,
  NoDup (map fst ((a, AAction k) :: (q, u) :: R0)) ->
  playable_in ((a, AAction k) :: (q, u) :: R0) h -> playable_in ((a, AAction k') :: (q, u) :: R0) h.
Proof.
  intros R0 a q k k' u h N (q2 & m & ids & last & used & A & B & C & D).
  exists q2, m, ids, last, used.
  assert (T : forall i x, In (i, x) ((a, AAction k) :: (q, u) :: R0) -> (forall z, x <> AAction z) -> In (i, x) ((a, AAction k') :: (q, u) :: R0)).
  { intros i x [K|K] X; [inversion K; subst; now destruct (X k) | now right]. }
  split; [apply T; [exact A | discriminate]|]. split; [apply T; [exact B | discriminate]|]. split; [apply T; [exact C | discriminate]|].
  intros i K. destruct (D i K) as [z E]. destruct E as [E|E]; [inversion E; subst; exists k'; now left | exists z; now right].
Qed.

Lemma playable_used : forall R0 a q k k' r used0 h,
  NoDup (map fst ((a, AAction k) :: (q, ASeq (a :: r) used0) :: R0)) ->
  playable_in ((a, AAction k) :: (q, ASeq (a :: r) used0) :: R0) h ->
  playable_in ((a, AAction k') :: (q, ASeq r (used0 ++ [a])) :: R0) h.
Proof.
  intros R0 a q k k' r used0 h N (q2 & m & ids & last & used & A & B & C & D).
  set (R := (a, AAction k) :: (q, ASeq (a :: r) used0) :: R0) in *.
  set (R' := (a, AAction k') :: (q, ASeq r (used0 ++ [a])) :: R0).
  assert (IA : In (a, AAction k) R) by now left. assert (IQ : In (q, ASeq (a :: r) used0) R) by (right; now left).
  assert (ONE := one_in R0 a q (AAction k) (ASeq (a :: r) used0) N). fold R in ONE.
  assert (OTHER : forall i x, In (i, x) R -> i <> a -> i <> q -> In (i, x) R').
  { intros i x. apply (other_in R0 a q (AAction k) (AAction k') (ASeq (a :: r) used0) (ASeq r (used0 ++ [a]))). }
  assert (ACT : forall i z, In (i, AAction z) R -> exists z', In (i, AAction z') R').
  { intros i z K. destruct (Nat.eq_dec i a) as [->|NA]; [exists k'; now left|]. exists z. apply OTHER; auto.
    intros ->. specialize (ONE _ _ _ K IQ). discriminate. }
  assert (HA : In (h, AHandler [q2; m]) R').
  { apply OTHER; auto; intros ->; [specialize (ONE _ _ _ A IA) | specialize (ONE _ _ _ A IQ)]; discriminate. }
  assert (LA : In (last, ALast) R').
  { apply OTHER; auto; intros ->; [specialize (ONE _ _ _ C IA) | specialize (ONE _ _ _ C IQ)]; discriminate. }
  destruct (Nat.eq_dec q2 q) as [->|NQ].
  - assert (E := ONE _ _ _ B IQ). inversion E as [[E1 E2]].
    destruct ids as [|i ids]; cbn in E1; inversion E1; subst.
    + specialize (ONE _ _ _ C IA). discriminate.
    + exists q, m, ids, last, (used0 ++ [a]). split; [exact HA|]. split; [right; now left|]. split; [exact LA|].
      intros j J. destruct (D j) as [z Z]; [now right|]. now apply ACT in Z.
  - exists q2, m, ids, last, used. split; [exact HA|]. split.
    { apply OTHER; auto. intros ->. specialize (ONE _ _ _ B IA). discriminate. }
    split; [exact LA|]. intros j J. destruct (D j J) as [z Z]. now apply ACT in Z.
Qed.

Lemma split_two : forall (R : list (nat * thing)) x y, In x R -> In y R -> x <> y ->
  exists R0, Permutation R (x :: y :: R0).
Proof.
  intros R x y A B D. apply in_split in A as (l & r & ->).
  assert (K : In y (l ++ r)).
  { apply in_app_or in B as [B|[B|B]]; [apply in_or_app; now left | congruence | apply in_or_app; now right]. }
  apply in_split in K as (l2 & r2 & K). exists (l2 ++ r2).
  rewrite <- Permutation_middle, K. constructor. now rewrite <- Permutation_middle.
Qed.

Section Calls.
Variable fails : nat -> bool.

Lemma playable_next : forall R h, playable_in R h ->
  exists q m a r used t, In (h, AHandler [q; m]) R /\ In (q, ASeq (a :: r) used) R /\ In (a, t) R /\
    (t = ALast \/ exists k, t = AAction k).
Proof.
  intros R h (q & m & ids & last & used & A & B & C & D). destruct ids as [|i ids]; cbn in B.
  - exists q, m, last, [], used, ALast. auto 10.
  - destruct (D i) as [k E]; [now left|]. exists q, m, i, (ids ++ [last]), used, (AAction k). eauto 10.
Qed.

(** An action of [h] was taken. *)
Definition taken (R R' : list (nat * thing)) (h : nat) : Prop :=
  exists q m a r used, In (h, AHandler [q; m]) R /\
    ((In (q, ASeq (a :: r) used) R /\ In (a, AAction None) R /\ R' = R) \/
     exists k rest, Permutation R ((a, AAction (Some k)) :: (q, ASeq (a :: r) used) :: rest) /\
       R' = (a, AAction (Some (k - 1)%Z)) :: (q, if (k =? 1)%Z then ASeq r (used ++ [a]) else ASeq (a :: r) used) :: rest).

(** How [play] ends, from a state whose objects are [R]. *)
Lemma play_outcome : forall R e b s h ok, st R e b s -> playable_in R h ->
  match play fails h ok s with
  | AVal s' true | AExn s' UserError =>
      exists R', st R' e b s' /\ taken R R' h /\ forall h2, playable_in R h2 -> playable_in R' h2
  | AVal s' false => st R e b s' /\ exists q m a r used, In (h, AHandler [q; m]) R /\ In (q, ASeq (a :: r) used) R /\ In (a, ALast) R
  | AExn s' OutOfMemory => st R e b s'
  | AExn _ _ => False
  | ATerminate => fails (1 + st_tries s) = true /\
      exists q m a r used, In (h, AHandler [q; m]) R /\ In (q, ASeq (a :: r) used) R /\ In (a, AAction (Some 1%Z)) R
  | AUb => False
  end.
Proof.
  intros R e b s h ok D P. destruct (playable_next _ _ P) as (q & m & a & r & used & t & IH & IQ & IA & T).
  unfold play. rewrite (bind_val _ _ _ _ _ _ _ (peek_in _ _ _ _ _ _ D IH)). cbv iota.
  rewrite (bind_val _ _ _ _ _ _ _ (peek_in _ _ _ _ _ _ D IQ)). cbv iota.
  destruct (fails (st_tries s)) eqn:F.
  { rewrite (bind_exn _ _ _ _ s (tick s) OutOfMemory); [|rewrite try_eq, F; reflexivity]. exact D. }
  rewrite (bind_val _ _ _ _ s (tick s) tt); [|rewrite try_eq, F; reflexivity].
  apply st_tick in D. rewrite (bind_val _ _ _ _ _ _ _ (peek_in _ _ _ _ _ _ D IA)).
  destruct T as [-> | [[k|] ->]]; cbv iota; [split; [exact D | now exists q, m, a, r, used] | |].
  2: { assert (SAME : exists R', st R' e b (tick s) /\ taken R R' h /\ forall h2, playable_in R h2 -> playable_in R' h2).
       { exists R. split; [exact D|]. split; auto. exists q, m, a, r, used. split; auto. }
       destruct ok; exact SAME. }
  destruct (split_two R (a, AAction (Some k)) (q, ASeq (a :: r) used) IA IQ) as [R0 P0]; [discriminate|].
  assert (N : NoDup (map fst ((a, AAction (Some k)) :: (q, ASeq (a :: r) used) :: R0))).
  { eapply Permutation_NoDup; [apply Permutation_map; exact P0 | exact (st_keys _ _ _ _ D)]. }
  destruct (put_outcome _ _ _ _ a _ (AAction (Some (k - 1)%Z)) _ D P0) as (s2 & E & D2 & T2).
  rewrite (bind_val _ _ _ _ _ _ _ E). clear E.
  destruct (k - 1 =? 0)%Z eqn:Z.
  - apply Z.eqb_eq in Z. assert (k = 1%Z) by lia. subst k.
    destruct (put_outcome _ _ _ _ q _ (ASeq r used) _ D2 (perm_swap _ _ _)) as (s3 & E & D3 & T3).
    destruct (fails (S (st_tries s))) eqn:F2.
    + assert (X : (put q (ASeq r used);;! (fun s0 => match try_alloc fails s0 with AExn _ _ => ATerminate | r0 => r0 end);;! put q (ASeq r (used ++ [a]))) s2 = ATerminate).
      { rewrite (bind_val _ _ _ _ _ _ _ E). unfold abind. rewrite try_eq, T3, T2. change (st_tries (tick s)) with (S (st_tries s)). now rewrite F2. }
      unfold abind at 1. rewrite X. split; [exact F2|]. exists q, m, a, r, used. auto.
    + destruct (put_outcome _ _ _ _ q _ (ASeq r (used ++ [a])) _ (st_tick _ _ _ _ D3) (Permutation_refl _)) as (s4 & E4 & D4 & T4).
      assert (X : (put q (ASeq r used);;! (fun s0 => match try_alloc fails s0 with AExn _ _ => ATerminate | r0 => r0 end);;! put q (ASeq r (used ++ [a]))) s2 = AVal s4 tt).
      { rewrite (bind_val _ _ _ _ _ _ _ E). unfold abind. rewrite try_eq, T3, T2. change (st_tries (tick s)) with (S (st_tries s)). now rewrite F2. }
      rewrite (bind_val _ _ _ _ _ _ _ X).
      assert (G : exists R', st R' e b s4 /\ taken R R' h /\ forall h2, playable_in R h2 -> playable_in R' h2).
      { exists ((a, AAction (Some (1 - 1)%Z)) :: (q, ASeq r (used ++ [a])) :: R0).
        split; [eapply st_perm; [apply perm_swap | exact D4]|].
        split; [exists q, m, a, r, used; split; [exact IH|]; right; exists 1%Z, R0; split; [exact P0 | reflexivity]|].
        intros h2 K. eapply playable_used; [exact N|]. eapply playable_incl; [apply perm_incl, P0 | exact K]. }
      destruct ok; exact G.
  - rewrite (bind_val _ _ (aret tt) _ s2 s2 tt eq_refl).
    assert (G : exists R', st R' e b s2 /\ taken R R' h /\ forall h2, playable_in R h2 -> playable_in R' h2).
    { exists ((a, AAction (Some (k - 1)%Z)) :: (q, ASeq (a :: r) used) :: R0). split; [exact D2|].
      split; [exists q, m, a, r, used; split; [exact IH|]; right; exists k, R0; split; [exact P0|]|].
      { apply Z.eqb_neq in Z. replace (k =? 1)%Z with false; [reflexivity|]. symmetry. apply Z.eqb_neq. lia. }
      intros h2 K. eapply playable_same; [exact N|]. eapply playable_incl; [apply perm_incl, P0 | exact K]. }
    destruct ok; exact G.
Qed.

Lemma call_outcome : forall pick ok s, sound s -> (forall h, pick = Some h -> In h (answers s)) ->
  match call fails pick ok s with
  | AVal s' _ | AExn s' UserError =>
      sound s' /\ answers s' = answers s /\ (exists h, pick = Some h /\ answered s s' h) /\ body_obj s' = body_obj s
  | AExn s' OutOfMemory => sound s' /\ answers s' = answers s /\ starved s s' /\ body_obj s' = body_obj s
  | AExn s' Unexpected => (sound s' /\ answers s' = answers s /\ starved s s' /\ body_obj s' = body_obj s) /\
      (st_entry s = false \/ pick = None \/ exists h a, pick = Some h /\ next s h a ALast)
  | AExn _ _ => False
  | ATerminate => fails (5 + st_tries s) = true /\ exists h a, pick = Some h /\ next s h a (AAction (Some 1%Z))
  | AUb => False
  end.
Proof.
  intros pick ok s [SE SP] HP. unfold call.
  rewrite (bind_val _ _ _ _ s s (st_entry s) eq_refl).
  assert (D := st_here s).
  assert (STILL : forall s', st (objects s) (st_entry s) (st_body s) s' -> sound s' /\ answers s' = answers s /\ starved s s' /\ body_obj s' = body_obj s).
  { intros s' K. assert (AE : answers s' = answers s) by (unfold answers; now rewrite (proj2 (proj2 K))).
    split; [|split; [exact AE|split; [|unfold body_obj; now rewrite (proj2 (proj2 K))]]].
    - split; [rewrite (proj1 (proj2 K)), (proj2 (proj2 K)); exact SE|]. intros h I. rewrite AE in I.
      apply (playable_st _ _ _ _ h K). now apply (playable_st _ _ _ _ h D), SP.
    - left. split; [unfold history; now rewrite (proj2 (proj2 K)) | apply K]. }
  destruct (st_entry s) eqn:EN; cbn [negb].
  2: { unfold abind. rewrite try_eq. destruct (fails (st_tries s)); [|split; [|now left]]; apply STILL, st_tick; exact D. }
  rewrite (bind_val _ _ _ _ s s (st_body s) eq_refl).
  destruct (st_body s) as [bo|] eqn:BO; [|now destruct (SE eq_refl)].
  destruct (new_outcome fails _ _ _ (ACall false) s D) as [[F E] | [F (s2 & i & E & D2 & T2)]].
  { rewrite (bind_exn _ _ _ _ _ _ _ E). apply STILL, st_tick. exact D. }
  rewrite (bind_val _ _ _ _ _ _ _ E). clear E.
  assert (HOLD : forall s', st ((i, ACall false) :: objects s) true (Some bo) s' ->
    if fails (st_tries s') then exists s2, holding fails i s' = AExn s2 OutOfMemory /\ st (objects s) true (Some bo) s2
    else holding fails i s' = AVal (tick s') tt).
  { intros s' K. unfold holding. eapply guard_outcome; [exact K | intros s0 K0; exact K0 |].
    eapply tri_del; [exact (tree_leaf 2 _ (ACall false) eq_refl) | apply Permutation_refl]. }
  assert (G : if fails (st_tries s2) then exists s', aguard (try_alloc fails) (free i) s2 = AExn s' OutOfMemory /\ st (objects s) true (Some bo) s'
              else aguard (try_alloc fails) (free i) s2 = AVal (tick s2) tt).
  { eapply guard_outcome; [exact D2 | intros s0 K0; exact K0 | apply tri_free]. }
  destruct (fails (st_tries s2)).
  { destruct G as (s3 & E & K). rewrite (bind_exn _ _ _ _ _ _ _ E). now apply STILL. }
  rewrite (bind_val _ _ _ _ _ _ _ G). clear G. apply st_tick in D2.
  assert (G := HOLD _ D2). destruct (fails (st_tries (tick s2))).
  { destruct G as (s3 & E & K). rewrite (bind_exn _ _ _ _ _ _ _ E). now apply STILL. }
  rewrite (bind_val _ _ _ _ _ _ _ G). clear G. apply st_tick in D2.
  destruct pick as [h|].
  2: { assert (K : tri (st ((i, ACall false) :: objects s) true (Some bo)) (aguard (try_alloc fails;;! @athrow unit Unexpected) (del i))
             (fun _ _ => False) (fun x s' => (x = OutOfMemory \/ x = Unexpected) /\ st (objects s) true (Some bo) s')).
       { eapply tri_guard with (Y := fun x s' => (x = OutOfMemory \/ x = Unexpected) /\ st ((i, ACall false) :: objects s) true (Some bo) s').
         - intros s0 K. unfold abind. rewrite try_eq. destruct (fails (st_tries s0)); cbn; split; auto.
         - intros x. apply tri_prop. intros X. eapply tri_weak; [eapply tri_del; [exact (tree_leaf 2 _ (ACall false) eq_refl) | apply Permutation_refl] | intros s0 K; exact K | | contradiction].
           cbn. auto. }
       specialize (K _ D2). destruct (aguard _ _ _) as [s3 u|s3 x| |]; try contradiction.
       destruct K as [[-> | ->] K]; [now apply STILL | split; [now apply STILL | right; now left]]. }
  assert (G := HOLD _ D2). destruct (fails (st_tries (tick (tick s2)))).
  { destruct G as (s3 & E & K). rewrite (bind_exn _ _ _ _ _ _ _ E). now apply STILL. }
  rewrite (bind_val _ _ _ _ _ _ _ G). clear G HOLD. apply st_tick in D2.
  set (s3 := tick (tick (tick s2))) in *. set (b2 := mkBody (bo_id bo) (bo_handlers bo) (bo_calls bo ++ [i])).
  set (s4 := mkState (st_tries s3) (st_heap s3) (st_entry s3) (Some b2)).
  rewrite (bind_val _ _ _ _ s3 s4 tt eq_refl).
  assert (D4 : st ((i, ACall false) :: objects s) true (Some b2) s4) by (destruct D2 as (A & B & _); split; [exact A | split; [exact B | reflexivity]]).
  assert (AN : answers s = bo_handlers bo) by (unfold answers; now rewrite BO).
  assert (HI : history s = bo_calls bo) by (unfold history; now rewrite BO).
  assert (PL : forall h2, In h2 (answers s) -> playable_in ((i, ACall false) :: objects s) h2).
  { intros h2 I. apply (playable_incl (objects s)); [intros p K; now right|]. now apply (playable_st _ _ _ _ h2 D), SP. }
  assert (DONE : forall R' s', st R' true (Some b2) s' -> (forall h2, In h2 (answers s) -> playable_in R' h2) ->
    sound s' /\ answers s' = answers s /\ history s' = history s ++ [i] /\ body_obj s' = body_obj s).
  { intros R' s' K P. assert (AE : answers s' = answers s) by (unfold answers at 1; rewrite (proj2 (proj2 K)), AN; reflexivity).
    split; [|split; [exact AE|split]].
    - split; [rewrite (proj2 (proj2 K)); discriminate|]. intros h2 I2. rewrite AE in I2. apply (playable_st _ _ _ _ h2 K). auto.
    - unfold history at 1. now rewrite (proj2 (proj2 K)), HI.
    - unfold body_obj. now rewrite (proj2 (proj2 K)), BO. }
  assert (STARVED : forall s', st ((i, ACall false) :: objects s) true (Some b2) s' -> sound s' /\ answers s' = answers s /\ starved s s' /\ body_obj s' = body_obj s).
  { intros s' K. destruct (DONE _ _ K PL) as (A & B & C & E). split; [exact A|]. split; [exact B|]. split; [|exact E].
    right. exists i. split; [exact C | apply K]. }
  assert (TAKEN : forall R' s', st R' true (Some b2) s' -> taken ((i, ACall false) :: objects s) R' h ->
    (forall h2, playable_in ((i, ACall false) :: objects s) h2 -> playable_in R' h2) ->
    sound s' /\ answers s' = answers s /\ (exists h0, Some h = Some h0 /\ answered s s' h0) /\ body_obj s' = body_obj s).
  { intros R' s' K T P. destruct (DONE R' s' K) as (A & B & C & E); [auto|]. split; [exact A|]. split; [exact B|]. split; [|exact E].
    exists h. split; [reflexivity|]. destruct T as (q & m & a & r & used & IH & T). exists i, q, m, a, r, used. split; [exact C|].
    destruct IH as [IH|IH]; [discriminate IH|]. split; [exact IH|].
    destruct T as [(I1 & I2 & ->) | (k & rest & P0 & ->)].
    - left. destruct I1 as [I1|I1]; [discriminate I1|]. destruct I2 as [I2|I2]; [discriminate I2|].
      split; [exact I1|]. split; [exact I2 | apply K].
    - right. exists k.
      assert (In (i, ACall false) rest) as IR.
      { assert (X : In (i, ACall false) ((a, AAction (Some k)) :: (q, ASeq (a :: r) used) :: rest)) by (apply (Permutation_in _ P0); now left).
        destruct X as [X|[X|X]]; [discriminate X | discriminate X | exact X]. }
      apply in_split in IR as (l1 & l2 & ->). exists (l1 ++ l2). split.
      + apply (Permutation_cons_inv (a := (i, ACall false))). rewrite P0. perm.
      + rewrite (proj1 K). perm. }
  assert (O := play_outcome _ _ _ _ h ok D4 (PL h (HP h eq_refl))).
  assert (T4 : st_tries s4 = 4 + st_tries s) by (cbn; now rewrite T2).
  destruct (play fails h ok s4) as [s5 [|]|s5 x| |] eqn:E.
  - rewrite (bind_val _ _ _ _ _ _ _ E). cbn. destruct O as (R' & K & T & P). exact (TAKEN R' _ K T P).
  - rewrite (bind_val _ _ _ _ _ _ _ E). cbv iota. unfold abind. rewrite try_eq.
    destruct O as (O & q & m & a & r & used & A & B & C).
    destruct (fails (st_tries s5)); [|split]; try (apply STARVED, st_tick; exact O).
    right. right. exists h, a. split; [reflexivity|]. exists q, m, r, used.
    destruct A as [A|A]; [discriminate A|]. destruct B as [B|B]; [discriminate B|]. destruct C as [C|C]; [discriminate C|]. auto.
  - rewrite (bind_exn _ _ _ _ _ _ _ E). destruct x; [now apply STARVED | contradiction | | contradiction..].
    destruct O as (R' & K & T & P). exact (TAKEN R' _ K T P).
  - unfold abind. rewrite E. destruct O as (F5 & q & m & a & r & used & A & B & C). rewrite T4 in F5. split; [exact F5|].
    exists h, a. split; auto. exists q, m, r, used.
    destruct A as [A|A]; [discriminate A|]. destruct B as [B|B]; [discriminate B|]. destruct C as [C|C]; [discriminate C|]. auto.
  - contradiction.
Qed.
End Calls.

(** * Mocks stay callable *)
Lemma answer_playable : forall h args acts l, answer h args acts l -> playable_in l h.
Proof.
  intros h args acts l (q & m & last & ids & mids & L1 & L2 & ->). exists q, m, ids, last, [].
  split; [now left|]. split; [right; now left|]. split; [right; right; now left|].
  intros i I. apply In_nth_error in I as [n N].
  assert (n < length acts) as K by (rewrite <- L1; apply nth_error_Some; congruence).
  destruct (nth_error acts n) as [k|] eqn:E; [|apply nth_error_None in E; lia].
  exists k. apply in_or_app. right. apply in_or_app. left.
  clear L2. revert acts n N E K L1. induction ids as [|j ids IH]; intros [|k' acts] [|n] N E K L; cbn in *; try discriminate; try lia.
  - left. congruence.
  - right. eapply IH; eauto. lia.
Qed.

Lemma when_sound : forall fails args acts s, sound s ->
  match when fails args acts s with
  | AVal s' _ => sound s'
  | AExn s' _ => st_body s <> None -> sound s'
  | _ => True
  end.
Proof.
  intros fails args acts s [SE SP].
  assert (KEPT : forall s', kept s s' -> st_body s <> None -> sound s').
  { intros s' (I & AE & _ & B) N. split.
    - intros _. destruct (st_body s) as [b|]; [|congruence]. rewrite (B b eq_refl). discriminate.
    - intros h K. rewrite AE in K. exact (playable_incl _ _ h I (SP h K)). }
  assert (T := prepare_outcome fails args acts s). destruct (prepare fails args acts s) as [s1 p|s1 x| |] eqn:E; try contradiction.
  - assert (W := when_outcome fails args acts s s1 p E). destruct (fails (st_tries s1)).
    + destruct W as (s' & -> & K). apply KEPT. now apply near_kept, snug_near.
    + destruct (commit_fails fails (st_tries s1)); [now rewrite W|].
      destruct W as (s' & h & l & -> & AE & _ & B & _ & A & P). split; [auto|].
      intros h2 I. rewrite AE in I. apply in_app_or in I as [I|[<-|[]]].
      * apply (playable_incl (objects s)); [|exact (SP h2 I)]. intros y K. apply (Permutation_in _ (Permutation_sym P)).
        apply in_or_app. right. apply in_or_app. now right.
      * apply (playable_incl l); [|exact (answer_playable _ _ _ _ A)]. intros y K. apply (Permutation_in _ (Permutation_sym P)).
        apply in_or_app. now left.
  - unfold when. rewrite (bind_exn _ _ _ _ _ _ _ E). apply KEPT, near_kept. apply T.
Qed.

Lemma when_all : forall fails args acts s,
  match when fails args acts s with
  | AVal s' _ => exists h l, answers s' = answers s ++ [h] /\ history s' = history s /\
      answer h args acts l /\ Permutation (objects s') (l ++ first_mention s s' ++ objects s)
  | AExn s' x => x = OutOfMemory /\ kept s s'
  | ATerminate => False
  | AUb => exists s1 p, prepare fails args acts s = AVal s1 p /\ fails (st_tries s1) = false /\ commit_fails fails (st_tries s1) = true
  end.
Proof.
  intros fails args acts s.
  assert (T := prepare_outcome fails args acts s). destruct (prepare fails args acts s) as [s1 p|s1 x| |] eqn:E; try contradiction.
  - assert (W := when_outcome fails args acts s s1 p E). destruct (fails (st_tries s1)) eqn:F.
    + destruct W as (s' & -> & K). split; auto. now apply near_kept, snug_near.
    + destruct (commit_fails fails (st_tries s1)) eqn:C; [rewrite W; eauto|].
      destruct W as (s' & h & l & -> & AE & HI & _ & _ & A & P). exists h, l. auto.
  - unfold when. rewrite (bind_exn _ _ _ _ _ _ _ E). destruct T as [-> T]. split; auto. now apply near_kept.
Qed.

Lemma when_undefined : forall fails args acts s s1 p,
  prepare fails args acts s = AVal s1 p -> fails (st_tries s1) = false -> commit_fails fails (st_tries s1) = true ->
  when fails args acts s = AUb.
Proof.
  intros fails args acts s s1 p E F C. assert (W := when_outcome fails args acts s s1 p E). now rewrite F, C in W.
Qed.

Lemma when_tidy : forall fails args acts s s0 p s' x,
  start fails args s = AVal s0 p -> when fails args acts s = AExn s' x -> tidy s s'.
Proof.
  intros fails args acts s s0 p s' x E W.
  assert (T := rest_outcome fails args acts s s0 p E). destruct (prepare fails args acts s) as [s1 p1|s1 y| |] eqn:P; try contradiction.
  - assert (O := when_outcome fails args acts s s1 p1 P). destruct (fails (st_tries s1)).
    + destruct O as (s2 & O & K). rewrite W in O. inversion O; subst. now apply snug_tidy.
    + destruct (commit_fails fails (st_tries s1)); [congruence|]. destruct O as (s2 & h & l & O & _). congruence.
  - unfold when in W. rewrite (bind_exn _ _ _ _ _ _ _ P) in W. inversion W; subst. now apply snug_tidy.
Qed.

(** The memory of the expression cannot be had: its context is forgotten. *)
Lemma when_leaks : forall fails args acts s,
  fails (st_tries s) = false -> fails (S (st_tries s)) = true ->
  exists s' i, when fails args acts s = AExn s' OutOfMemory /\ st_body s' = st_body s /\
    Permutation (objects s') ((i, ACtx) :: objects s).
Proof.
  intros fails args acts s F1 F2. assert (D := st_here s).
  destruct (new_outcome fails _ _ _ ACtx s D) as [[F E] | [_ (s2 & c & E & D2 & T2)]]; [congruence|].
  destruct (new_outcome fails _ _ _ AImpl s2 D2) as [[F E2] | [F _]]; [|rewrite T2 in F; congruence].
  exists (tick s2), c. split; [|split; [apply D2 | apply D2]].
  unfold when, prepare, start, method_expr, new_impl. unfold abind at 1 2 3 4. rewrite E. unfold abind at 1 2. now rewrite E2.
Qed.

(** * The end of the mock *)
Definition calls_of (cs : list (nat * bool)) : list (nat * thing) := map (fun p => (fst p, ACall (snd p))) cs.
Definition whole (J : list (nat * thing)) (s : state) : Prop :=
  (forall h, In h (answers s) -> playable s h) /\
  exists Ts cs, Forall2 (tree 3) (answers s) Ts /\ map fst cs = history s /\
    Permutation (objects s) (J ++ body_obj s ++ calls_of cs ++ concat Ts).

Lemma objects_one : forall s i t t', In (i, t) (objects s) -> In (i, t') (objects s) -> t = t'.
Proof. intros s i t t'. rewrite objects_objs. apply objs_one. Qed.

Lemma when_whole : forall fails args acts s J, whole J s ->
  match when fails args acts s with
  | AVal s' _ => whole J s'
  | AExn s' _ => exists J', whole J' s'
  | _ => True
  end.
Proof.
  intros fails args acts s J (SP & Ts & cs & F & CS & P).
  assert (KEPT : forall s', near (st_body s) (st_entry s) (objects s) s' -> exists J', whole J' s').
  { intros s' N. destruct (near_kept _ _ N) as (I & AE & HE & _). destruct N as (J' & Lb & b' & e' & B & K).
    exists (J' ++ J). split.
    - intros h K2. rewrite AE in K2. exact (playable_incl _ _ h I (SP h K2)).
    - exists Ts, cs. rewrite AE, HE. split; [exact F|]. split; [exact CS|].
      assert (BB : body_obj s' = Lb ++ body_obj s).
      { unfold body_obj. rewrite (proj2 (proj2 K)). destruct B as [|E|i E]; try reflexivity. now rewrite E. }
      rewrite (proj1 K), P, BB. perm. }
  assert (T := prepare_outcome fails args acts s). destruct (prepare fails args acts s) as [s1 p|s1 x| |] eqn:E; try contradiction.
  - assert (W := when_outcome fails args acts s s1 p E). destruct (fails (st_tries s1)).
    + destruct W as (s' & -> & K). now apply KEPT, snug_near.
    + destruct (commit_fails fails (st_tries s1)); [now rewrite W|].
      destruct W as (s' & h & l & -> & AE & HE & B & BO & A & P2). split.
      * intros h2 I. rewrite AE in I. apply in_app_or in I as [I|[<-|[]]].
        -- apply (playable_incl (objects s)); [|exact (SP h2 I)]. intros y K. apply (Permutation_in _ (Permutation_sym P2)).
           apply in_or_app. right. apply in_or_app. now right.
        -- apply (playable_incl l); [|exact (answer_playable _ _ _ _ A)]. intros y K. apply (Permutation_in _ (Permutation_sym P2)).
           apply in_or_app. now left.
      * destruct A as (q & m & last & ids & mids & L1 & L2 & ->).
        exists (Ts ++ [(h, AHandler [q; m]) :: seq_objs q last ids acts ++ mat_objs m mids]), cs. rewrite AE, HE. split; [|split; [exact CS|]].
        -- apply Forall2_app; [exact F|]. constructor; [|constructor]. now apply (tree_handler 0).
        -- rewrite BO, P2, P, concat_app. cbn [concat]. unfold seq_objs, mat_objs. perm.
  - unfold when. rewrite (bind_exn _ _ _ _ _ _ _ E). apply KEPT, T.
Qed.

Lemma answered_whole : forall s s' h J, whole J s -> In h (answers s) -> answered s s' h ->
  answers s' = answers s -> body_obj s' = body_obj s -> (forall h2, In h2 (answers s') -> playable s' h2) -> whole J s'.
Proof.
  intros s s' h J (SP & Ts & cs & F & CS & P) IH A AE BE SP'. split; [exact SP'|].
  destruct A as (i & q & m & a & r & used & HE & HH & A).
  assert (CE : calls_of (cs ++ [(i, false)]) = calls_of cs ++ [(i, ACall false)]) by (unfold calls_of; rewrite map_app; reflexivity).
  assert (CE2 : map fst (cs ++ [(i, false)]) = history s') by (rewrite map_app, CS, HE; reflexivity).
  rewrite AE, BE.
  destruct A as [(_ & _ & P2) | (k & rest & P1 & P2)].
  { exists Ts, (cs ++ [(i, false)]). split; [exact F|]. split; [exact CE2|]. rewrite CE, P2, P. perm. }
  apply in_split in IH as (l1 & l2 & EA). rewrite EA in F |- *.
  apply Forall2_app_inv_l in F as (T1 & T2' & F1 & F2 & ->).
  inversion F2 as [|h0 T l20 T2 TR F3 X Y]; subst h0 l20 T2'. clear F2.
  rewrite concat_app in P. cbn [concat] in P.
  assert (IN : forall y, In y T -> In y (objects s)).
  { intros y K. apply (Permutation_in _ (Permutation_sym P)). do 3 (apply in_or_app; right). apply in_or_app; right. apply in_or_app; now left. }
  destruct TR as (t & Us & -> & FU).
  assert (t = AHandler [q; m]) by (eapply objects_one; [apply IN; now left | exact HH]). subst t.
  cbn [children] in FU. inversion FU as [|q0 Uq ms Um0 TQ FM X Y]; subst q0 ms Us. inversion FM as [|m0 Um ms Un TM FN X Y]; subst m0 ms Um0. inversion FN; subst Un. clear FU FM FN.
  destruct TQ as (t & Vs & -> & FV).
  assert (HQ : In (q, ASeq (a :: r) used) (objects s)) by (apply (Permutation_in _ (Permutation_sym P1)); right; now left).
  assert (HA : In (a, AAction (Some k)) (objects s)) by (apply (Permutation_in _ (Permutation_sym P1)); now left).
  assert (t = ASeq (a :: r) used) by (eapply objects_one; [apply IN; right; cbn; now left | exact HQ]). subst t.
  cbn [children app] in FV. inversion FV as [|a0 Va rs Vr TA FR X Y]; subst a0 rs Vs. clear FV.
  destruct TA as (t & Ws & -> & FW).
  assert (t = AAction (Some k)) by (eapply objects_one; [apply IN; right; cbn; right; now left | exact HA]). subst t.
  inversion FW; subst Ws. cbn [concat app] in *.
  set (a' := (a, AAction (Some (k - 1)%Z))) in *.
  assert (TA : tree 1 a [a']) by (exists (AAction (Some (k - 1)%Z)), []; split; [reflexivity | constructor]).
  assert (PR : Permutation rest (J ++ body_obj s ++ calls_of cs ++ concat T1 ++ (h, AHandler [q; m]) :: concat Vr ++ Um ++ concat T2)).
  { apply (Permutation_cons_inv (a := (q, ASeq (a :: r) used))), (Permutation_cons_inv (a := (a, AAction (Some k)))).
    rewrite <- P1, P. perm. }
  destruct (k =? 1)%Z.
  - exists (T1 ++ ((h, AHandler [q; m]) :: concat [(q, ASeq r (used ++ [a])) :: concat (Vr ++ [[a']]); Um]) :: T2), (cs ++ [(i, false)]). split; [|split; [exact CE2|]].
    + apply Forall2_app; [exact F1|]. constructor; [|exact F3]. exists (AHandler [q; m]), [(q, ASeq r (used ++ [a])) :: concat (Vr ++ [[a']]); Um].
      split; [reflexivity|]. constructor; [|constructor; [exact TM | constructor]].
      exists (ASeq r (used ++ [a])), (Vr ++ [[a']]). split; [reflexivity|]. cbn [children]. rewrite app_assoc.
      apply Forall2_app; [exact FR|]. constructor; [exact TA | constructor].
    + rewrite CE, P2, PR, concat_app. cbn [concat]. rewrite concat_app. cbn [concat]. perm.
  - exists (T1 ++ ((h, AHandler [q; m]) :: concat [(q, ASeq (a :: r) used) :: concat ([a'] :: Vr); Um]) :: T2), (cs ++ [(i, false)]). split; [|split; [exact CE2|]].
    + apply Forall2_app; [exact F1|]. constructor; [|exact F3]. exists (AHandler [q; m]), [(q, ASeq (a :: r) used) :: concat ([a'] :: Vr); Um].
      split; [reflexivity|]. constructor; [|constructor; [exact TM | constructor]].
      exists (ASeq (a :: r) used), ([a'] :: Vr). split; [reflexivity|]. cbn [children app]. constructor; [exact TA | exact FR].
    + rewrite CE, P2, PR, concat_app. cbn [concat]. perm.
Qed.

Lemma call_whole : forall fails pick ok s J, whole J s -> (forall h, pick = Some h -> In h (answers s)) ->
  match call fails pick ok s with
  | AVal s' _ | AExn s' _ => whole J s'
  | _ => True
  end.
Proof.
  intros fails pick ok s J W HP.
  destruct (st_entry s) eqn:EN; [destruct (st_body s) eqn:BO|].
  2: { unfold call. rewrite (bind_val _ _ _ _ s s (st_entry s) eq_refl), EN. cbn [negb].
       rewrite (bind_val _ _ _ _ s s (st_body s) eq_refl), BO. exact Logic.I. }
  all: assert (S0 : sound s) by (split; [congruence | apply W]).
  all: assert (O := call_outcome fails pick ok s S0 HP).
  all: assert (ST : forall s', sound s' /\ answers s' = answers s /\ starved s s' /\ body_obj s' = body_obj s -> whole J s')
    by (intros s' ((_ & SP) & AE & SV & BE); split; [exact SP|]; destruct W as (_ & Ts & cs & F & CS & P);
        destruct SV as [(HE & P2) | (i & HE & P2)]; [exists Ts, cs | exists Ts, (cs ++ [(i, false)])]; rewrite AE, BE; split; [exact F | | exact F |];
        (split; [rewrite HE, ?map_app, CS; reflexivity|]); unfold calls_of; rewrite ?map_app; rewrite P2, P; cbn [map]; unfold calls_of; perm).
  all: assert (AN : forall s', sound s' /\ answers s' = answers s /\ (exists h, pick = Some h /\ answered s s' h) /\ body_obj s' = body_obj s -> whole J s')
    by (intros s' ((_ & SP) & AE & (h & PH & A) & BE); exact (answered_whole s s' h J W (HP h PH) A AE BE SP)).
  all: destruct (call fails pick ok s) as [s' u|s' []| |]; auto; try contradiction.
  all: apply ST, O.
Qed.

Lemma session_whole : forall fails l quiet s J s' q, whole J s -> session fails l quiet s = AVal s' q ->
  exists J', whole J' s' /\ (q = true -> quiet = true /\ J' = J).
Proof.
  induction l as [|[args acts|n ok] l IH]; intros quiet s J s' q W E; cbn [session] in E.
  - inversion E; subst. exists J. auto.
  - assert (K := when_whole fails args acts s J W). destruct (when fails args acts s) as [s1 u|s1 x| |]; try discriminate E.
    + exact (IH _ _ _ _ _ K E).
    + destruct K as (J1 & K). destruct (IH _ _ _ _ _ K E) as (J' & W' & Q). exists J'. split; [exact W'|].
      intros QT. destruct (Q QT) as [Q' _]. discriminate Q'.
  - assert (K : forall pick, (forall h, pick = Some h -> In h (answers s)) ->
      match call fails pick ok s with AVal s' _ | AExn s' _ => session fails l quiet s' | ATerminate => ATerminate | AUb => AUb end = AVal s' q ->
      exists J', whole J' s' /\ (q = true -> quiet = true /\ J' = J)).
    { intros pick HP E2. assert (K := call_whole fails pick ok s J W HP).
      destruct (call fails pick ok s) as [s1 u|s1 x| |]; try discriminate E2; exact (IH _ _ _ _ _ K E2). }
    apply (K _) in E; [exact E|]. intros h. unfold answers. destruct n as [n|]; [|discriminate].
    destruct (st_body s) as [b|]; [|discriminate]. apply nth_error_In.
Qed.

Lemma tri_each_del : forall l Ts R e b, Forall2 (tree 3) l Ts ->
  tri (st (concat Ts ++ R) e b) (each del l) (fun _ => st R e b) (fun _ _ => False).
Proof.
  intros l Ts R e b F. induction F as [|i T l Ts K F IH]; cbn [each concat].
  - apply tri_ret. auto.
  - rewrite <- app_assoc. eapply tri_bind; [apply (tri_delete 3 i T _ e b K)|]. intros u; exact IH.
Qed.

Lemma concat_calls : forall l, calls_of l = concat (map (fun p => [(fst p, ACall (snd p))]) l).
Proof. unfold calls_of. induction l; cbn; congruence. Qed.
Lemma calls_trees : forall n l, Forall2 (tree (S n)) (map fst l) (map (fun p => [(fst p, ACall (snd p))]) l).
Proof. induction l as [|[i v] l IH]; cbn; constructor; auto. exact (tree_leaf n i (ACall v) eq_refl). Qed.

Lemma destroy_whole : forall J s, whole J s -> exists s', destroy_mock s = AVal s' tt /\ Permutation (objects s') J.
Proof.
  intros J s (_ & Ts & cs & F & CS & P). unfold destroy_mock, get. unfold abind at 1.
  unfold body_obj in P. unfold history in CS. unfold answers in F. destruct (st_body s) as [b|] eqn:B.
  2: { inversion F; subst Ts. destruct cs; [|discriminate CS]. exists s. split; [reflexivity|]. rewrite P. cbn [concat map app calls_of]. now rewrite app_nil_r. }
  assert (T : tri (st (concat (map (fun p => [(fst p, ACall (snd p))]) cs) ++ concat Ts ++ (bo_id b, ABody) :: J) (st_entry s) (Some b))
    (each del (bo_calls b) ;;! each del (bo_handlers b) ;;! free (bo_id b)) (fun _ => st J (st_entry s) (Some b)) (fun _ _ => False)).
  { rewrite <- CS. eapply tri_bind; [apply tri_each_del, calls_trees|]. intros u; cbn beta; clear u.
    eapply tri_bind; [apply tri_each_del; exact F|]. intros u; cbn beta; clear u. apply tri_free. }
  specialize (T s). destruct ((each del (bo_calls b) ;;! each del (bo_handlers b) ;;! free (bo_id b)) s) as [s' []| | |].
  1: exists s'; split; [reflexivity|].
  1: apply T.
  2-4: exfalso; apply T.
  all: split; [|split; [reflexivity | exact B]]; rewrite P.
  all: rewrite <- concat_calls.
  all: perm.
Qed.

Lemma session_end : forall fails l s quiet, session fails l true no_mock = AVal s quiet ->
  exists s', destroy_mock s = AVal s' tt /\ (quiet = true -> objects s' = []).
Proof.
  intros fails l s quiet E.
  assert (W : whole [] no_mock) by (split; [contradiction|]; exists [], []; repeat split; [constructor | apply perm_nil]).
  destruct (session_whole _ _ _ _ _ _ _ W E) as (J & K & Q).
  destruct (destroy_whole J s K) as (s' & E' & P). exists s'. split; [exact E'|].
  intros QT. destruct (Q QT) as [_ ->]. now apply Permutation_nil, Permutation_sym.
Qed.

(** Whether a call that is answered returns is up to the action. *)
Definition calm {A} (m : AM A) : Prop := forall s, match m s with AExn _ UserError => False | _ => True end.
Definition agrees (ok : bool) (m : AM bool) : Prop :=
  forall s, match m s with AVal _ true => ok = true | AExn _ UserError => ok = false | _ => True end.

Lemma calm_bind : forall A B (m : AM A) (k : A -> AM B), calm m -> (forall a, calm (k a)) -> calm (abind m k).
Proof.
  intros A B m k M K s. specialize (M s). unfold abind. destruct (m s) as [s' a|s' e| |]; auto. exact (K a s').
Qed.
Lemma agrees_bind : forall A ok (m : AM A) k, calm m -> (forall a, agrees ok (k a)) -> agrees ok (abind m k).
Proof.
  intros A ok m k M K s. specialize (M s). unfold abind. destruct (m s) as [s' a|s' []| |]; auto; try contradiction. exact (K a s').
Qed.
Lemma calm_peek : forall i, calm (peek i).
Proof. intros i s. unfold peek. destruct (nth_error (st_heap s) i) as [[t|]|]; exact Logic.I. Qed.
Lemma calm_put : forall i t, calm (put i t).
Proof. intros i t. apply calm_bind; [apply calm_peek|]. intros _ s. exact Logic.I. Qed.
Lemma calm_try : forall fails, calm (try_alloc fails).
Proof. intros fails s. unfold try_alloc. destruct (fails (st_tries s)); exact Logic.I. Qed.
Lemma calm_ret : forall A (a : A), calm (aret a).
Proof. intros A a s. exact Logic.I. Qed.
Lemma agrees_ub : forall ok, agrees ok (fun _ => AUb).
Proof. intros ok s. exact Logic.I. Qed.
Lemma agrees_end : forall ok, agrees ok (if ok then aret true else athrow UserError).
Proof. intros [|] s; reflexivity. Qed.

Lemma play_agrees : forall fails h ok, agrees ok (play fails h ok).
Proof.
  intros fails h ok. unfold play. apply agrees_bind; [apply calm_peek|]. intros t.
  destruct t as [| | | | | | |[|q ps]| | | | | |]; try apply agrees_ub. apply agrees_bind; [apply calm_peek|]. intros t.
  destruct t as [| |[|a r] used| | | | | | | | | | |]; try apply agrees_ub. apply agrees_bind; [apply calm_try|]. intros _.
  apply agrees_bind; [apply calm_peek|]. intros t.
  destruct t as [| | | |[k|]| | | | | | | | |]; try apply agrees_ub; [intros s; exact Logic.I | | apply agrees_end].
  apply agrees_bind; [apply calm_put|]. intros _. apply agrees_bind; [|intros _; apply agrees_end].
  destruct (k - 1 =? 0)%Z; [|apply calm_ret].
  apply calm_bind; [apply calm_put|]. intros _. apply calm_bind; [|intros _; apply calm_put].
  intros s. assert (K := calm_try fails s). destruct (try_alloc fails s); auto.
Qed.

Lemma calm_guard : forall A (m : AM A) clean, calm m -> calm (aguard m clean).
Proof.
  intros A m clean M s. specialize (M s). unfold aguard. destruct (m s) as [s' a|s' e| |]; auto.
  destruct (clean s'); auto.
Qed.

Lemma call_agrees : forall fails pick ok s,
  match call fails pick ok s with AVal _ _ => ok = true | AExn _ UserError => ok = false | _ => True end.
Proof.
  intros fails pick ok s.
  assert (U : calm (A := unit) (try_alloc fails ;;! athrow Unexpected)) by (apply calm_bind; [apply calm_try|]; intros _ s0; exact Logic.I).
  assert (L : agrees ok (call fails pick ok ;;! aret true)).
  2: { specialize (L s). unfold abind in L. destruct (call fails pick ok s) as [s' u|s' []| |]; auto. }
  assert (N : forall m : AM unit, calm m -> (forall s, match m s with AVal _ _ => False | _ => True end) -> agrees ok (m ;;! aret true)).
  { intros m C V s0. specialize (C s0). specialize (V s0). unfold abind. destruct (m s0) as [s' u|s' []| |]; auto; contradiction. }
  assert (UV : forall s, match (try_alloc fails ;;! athrow Unexpected) s : run unit with AVal _ _ => False | _ => True end).
  { intros s0. unfold abind, try_alloc. destruct (fails (st_tries s0)); exact Logic.I. }
  assert (A : forall (X Y : Type) (m : AM X) (k : X -> AM Y) (f : Y -> AM bool),
    agrees ok (do! x := m in do! y := k x in f y) -> agrees ok (do! y := (do! x := m in k x) in f y)).
  { intros X Y m k f K s0. specialize (K s0). unfold abind in *. destruct (m s0); auto. }
  unfold call. apply A. apply agrees_bind; [intros s0; exact Logic.I|]. intros e.
  destruct e; [|now apply N]. cbn [negb]. apply A. apply agrees_bind; [intros s0; exact Logic.I|]. intros [b|]; [|apply agrees_ub].
  apply A. apply agrees_bind.
  { apply calm_bind; [apply calm_try|]. intros _ s0. exact Logic.I. }
  intros i. apply A. apply agrees_bind; [apply calm_guard, calm_try|]. intros _.
  apply A. apply agrees_bind; [apply calm_guard, calm_try|]. intros _.
  destruct pick as [h|].
  - apply A. apply agrees_bind; [apply calm_guard, calm_try|]. intros _.
    apply A. apply agrees_bind; [intros s0; exact Logic.I|]. intros _.
    intros s0. unfold abind. assert (K := play_agrees fails h ok s0).
    destruct (play fails h ok s0) as [s1 [|]|s1 []| |]; auto.
    specialize (U s1). specialize (UV s1). unfold abind in U, UV.
    destruct (try_alloc fails s1) as [s2 u|s2 x| |]; auto. destruct x; auto; contradiction.
  - apply N; [now apply calm_guard|]. intros s0. specialize (UV s0). unfold aguard.
    destruct ((try_alloc fails ;;! athrow Unexpected) s0) as [| s1 x| |]; auto. destruct (del i s1); auto.
Qed.

Lemma call_all : forall fails pick ok s, sound s -> (forall h, pick = Some h -> In h (answers s)) ->
  match call fails pick ok s with
  | AVal s' _ => ok = true /\ sound s' /\ answers s' = answers s /\ exists h, pick = Some h /\ answered s s' h
  | AExn s' UserError => ok = false /\ sound s' /\ answers s' = answers s /\ exists h, pick = Some h /\ answered s s' h
  | AExn s' OutOfMemory => sound s' /\ answers s' = answers s /\ starved s s'
  | AExn s' Unexpected => sound s' /\ answers s' = answers s /\ starved s s' /\
      (st_entry s = false \/ pick = None \/ exists h a, pick = Some h /\ next s h a ALast)
  | AExn _ _ => False
  | ATerminate => fails (5 + st_tries s) = true /\ exists h a, pick = Some h /\ next s h a (AAction (Some 1%Z))
  | AUb => False
  end.
Proof.
  intros fails pick ok s S0 HP. assert (O := call_outcome fails pick ok s S0 HP).
  assert (G := call_agrees fails pick ok s).
  destruct (call fails pick ok s) as [s' u|s' []| |]; try exact O.
  - destruct O as (A & B & C & _). auto.
  - destruct O as (A & B & C & _). auto.
  - destruct O as ((A & B & C & _) & E). auto.
  - destruct O as (A & B & C & _). auto.
Qed.

(** * Nothing throws for want of memory if there is enough *)
Section Honest.
Variable fails : nat -> bool.
Definition honest {A} (m : AM A) : Prop := forall s,
  match m s with
  | AExn s' OutOfMemory => exists n, st_tries s <= n < st_tries s' /\ fails n = true
  | AVal s' _ | AExn s' _ => st_tries s <= st_tries s'
  | _ => True
  end.

Lemma honest_later : forall A (m : AM A) s s', st_tries s <= st_tries s' -> honest m ->
  match m s' with
  | AExn s2 OutOfMemory => exists n, st_tries s <= n < st_tries s2 /\ fails n = true
  | AVal s2 _ | AExn s2 _ => st_tries s <= st_tries s2
  | _ => True
  end.
Proof.
  intros A m s s' L H. specialize (H s'). destruct (m s') as [s2 a|s2 []| |]; auto; try lia.
  destruct H as (n & N & F). exists n. split; [lia | exact F].
Qed.
Lemma ho_bind : forall A B (m : AM A) (k : A -> AM B), honest m -> (forall a, honest (k a)) -> honest (abind m k).
Proof.
  intros A B m k M K s. specialize (M s). unfold abind. destruct (m s) as [s' a|s' e| |]; auto.
  exact (honest_later _ (k a) s s' M (K a)).
Qed.
Lemma ho_guard : forall A (m : AM A) clean, honest m -> honest clean -> honest (aguard m clean).
Proof.
  intros A m clean M C s. specialize (M s). unfold aguard. destruct (m s) as [s' a|s' e| |]; auto.
  specialize (C s'). destruct (clean s') as [s2 u|s2 x| |]; auto. destruct e; try lia.
  destruct M as (n & N & F). exists n. split; [lia | exact F].
Qed.
Lemma ho_quiet : forall A (m : AM A), (forall s, match m s with AVal s' _ => st_tries s' = st_tries s | AExn s' e => st_tries s' = st_tries s /\ e <> OutOfMemory | _ => True end) -> honest m.
Proof.
  intros A m H s. specialize (H s). destruct (m s) as [s' a|s' []| |]; auto; try lia. destruct H as [_ H]. now destruct H.
Qed.
Lemma ho_ret : forall A (a : A), honest (aret a).
Proof. intros A a. now apply ho_quiet. Qed.
Lemma ho_ub : forall A, honest (fun _ => @AUb A).
Proof. intros A s. exact Logic.I. Qed.
Lemma ho_throw : forall A e, e <> OutOfMemory -> honest (@athrow A e).
Proof. intros A e N. apply ho_quiet. intros s. split; [reflexivity | exact N]. Qed.
Lemma ho_get : forall A (f : state -> A), honest (get f).
Proof. intros A f. now apply ho_quiet. Qed.
Lemma ho_set_heap : forall h, honest (set_heap h).
Proof. intros h. now apply ho_quiet. Qed.
Lemma ho_set_entry : forall e, honest (set_entry e).
Proof. intros h. now apply ho_quiet. Qed.
Lemma ho_set_body : forall b, honest (set_body b).
Proof. intros b. now apply ho_quiet. Qed.
Lemma ho_peek : forall i, honest (peek i).
Proof. intros i. apply ho_quiet. intros s. unfold peek. destruct (nth_error (st_heap s) i) as [[t|]|]; auto. Qed.
Lemma ho_try : honest (try_alloc fails).
Proof. intros s. unfold try_alloc. destruct (fails (st_tries s)) eqn:F; cbn; [exists (st_tries s); split; [lia | exact F] | lia]. Qed.

Ltac ho := repeat match goal with
  | |- honest (abind _ _) => apply ho_bind; [|intros ?]
  | |- honest (aguard _ _) => apply ho_guard
  | |- honest (aret _) => apply ho_ret
  | |- honest (fun _ => AUb) => apply ho_ub
  | |- honest (get _) => apply ho_get
  | |- honest (set_heap _) => apply ho_set_heap
  | |- honest (set_entry _) => apply ho_set_entry
  | |- honest (set_body _) => apply ho_set_body
  | |- honest (peek _) => apply ho_peek
  | |- honest (try_alloc _) => apply ho_try
  | |- honest (athrow _) => apply ho_throw; discriminate
  | |- honest (match ?x with _ => _ end) => destruct x
  end.

Lemma ho_put : forall i t, honest (put i t). Proof. intros. unfold put. ho. Qed.
Lemma ho_free : forall i, honest (free i). Proof. intros. unfold free. ho. Qed.
Lemma ho_each : forall A (f : A -> AM unit) l, (forall a, honest (f a)) -> honest (each f l).
Proof. intros A f l F. induction l; cbn [each]; ho; auto. Qed.
Lemma ho_delete : forall d i, honest (delete d i).
Proof. induction d as [|d IH]; intros i; cbn [delete]; ho; try apply ho_free; now apply ho_each. Qed.
Lemma ho_del : forall i, honest (del i). Proof. apply ho_delete. Qed.
Lemma ho_new : forall t, honest (new fails t). Proof. intros. unfold new. ho. Qed.
Lemma ho_holding : forall i, honest (holding fails i). Proof. intros. unfold holding. ho; apply ho_del. Qed.
Ltac ho2 := ho; repeat first [apply ho_put | apply ho_free | apply ho_del | apply ho_new | apply ho_holding | progress ho].
Lemma ho_sequence : honest (new_sequence fails). Proof. unfold new_sequence. ho2. Qed.
Lemma ho_destroy : forall c x, honest (destroy c x). Proof. intros [|] x; unfold destroy; ho2. Qed.
Lemma ho_impl : forall c, honest (new_impl fails c). Proof. intros c. unfold new_impl. ho2; apply ho_sequence. Qed.
Lemma ho_get_body : honest (get_body fails). Proof. unfold get_body. ho2. Qed.
Ltac ho3 := ho2; repeat first [apply ho_sequence | apply ho_destroy | apply ho_impl | apply ho_get_body | progress ho2].
Lemma ho_method_expr : honest (method_expr fails). Proof. unfold method_expr. ho3. Qed.
Lemma ho_collect : forall n acc, honest (collect fails n acc).
Proof. induction n; intros acc; cbn [collect]; ho3; apply IHn. Qed.
Lemma ho_use : forall args x, honest (use fails args x). Proof. intros [n|] x; unfold use; ho3; apply ho_collect. Qed.
Lemma ho_append : forall t x, honest (append fails t x). Proof. intros. unfold append. ho3. Qed.
Lemma ho_commit : forall x, honest (commit fails x). Proof. intros. unfold commit. ho3. Qed.
Lemma ho_start : forall args, honest (start fails args). Proof. intros. unfold start. ho3; first [apply ho_method_expr | apply ho_use]. Qed.
Lemma ho_prepare : forall args acts, honest (prepare fails args acts).
Proof. intros. unfold prepare. ho3; first [apply ho_start | apply ho_each; intros; apply ho_append]. Qed.
Lemma ho_when : forall args acts, honest (when fails args acts).
Proof. intros. unfold when. ho3; first [apply ho_prepare | apply ho_commit]. Qed.
Lemma ho_play : forall h ok, honest (play fails h ok).
Proof.
  intros h ok. unfold play. ho3.
  intros s. assert (K := ho_try s). destruct (try_alloc fails s); auto.
Qed.
Lemma ho_call : forall pick ok, honest (call fails pick ok).
Proof. intros. unfold call. ho3; apply ho_play. Qed.

Lemma when_memory : forall args acts s s', when fails args acts s = AExn s' OutOfMemory ->
  exists n, st_tries s <= n < st_tries s' /\ fails n = true.
Proof. intros args acts s s' E. assert (K := ho_when args acts s). now rewrite E in K. Qed.
Lemma call_memory : forall pick ok s s', call fails pick ok s = AExn s' OutOfMemory ->
  exists n, st_tries s <= n < st_tries s' /\ fails n = true.
Proof. intros pick ok s s' E. assert (K := ho_call pick ok s). now rewrite E in K. Qed.
End Honest.
