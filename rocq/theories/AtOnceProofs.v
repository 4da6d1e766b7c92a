(** Proofs about Fake, Spy and assignments that run out of memory. *)
From Coq Require Import Bool Arith ZArith Lia Permutation List.
From Verif Require Import Base OutOfMemory Spec_OutOfMemory OutOfMemoryProofs AtOnce Spec_AtOnce.
Import ListNotations.
Open Scope nat_scope.

Ltac next := let u := fresh in intros u; cbn beta; try clear u.
Notation oom P := (fun x s => x = OutOfMemory /\ P s).

(** An expression that is there: itself, the last action of its sequence and its matchers of arguments. *)
Definition pending := (expr * nat * list nat)%type.
Definition p_expr (z : pending) : expr := fst (fst z).
Definition p_objs (z : pending) : list (nat * thing) := expr_objs (fst (fst z)) (snd (fst z)) [] [] (snd z).
Definition all_objs (zs : list pending) : list (nat * thing) := flat_map p_objs zs.

Section Statement.
Variable fails : nat -> bool.

(** * What is lost *)
Definition nearly (args : option nat) (b : option body) (e : bool) (R : list (nat * thing)) (s : state) : Prop :=
  exists J Lb b' e', lost args J /\ bodied b e Lb b' e' /\ st (J ++ Lb ++ R) e' b' s.

Lemma tri_impl_lost : forall c R e b,
  tri (st R e b) (new_impl fails c)
    (fun x s => x_ctx x = c /\ exists last, st ((x_impl x, AImpl) :: seq_objs (x_seq x) last [] [] ++ mat_objs (x_matcher x) [] ++ R) e b s)
    (oom (fun s => st R e b s \/ exists q a, st ((q, ASeq [a] []) :: (a, ALast) :: R) e b s)).
Proof.
  intros c R e b. unfold new_impl.
  eapply tri_bind; [eapply tri_exn; [apply tri_new|]|].
  - intros x s [-> K]. auto.
  - intros i; cbn beta.
    eapply tri_guard with (Y := oom (fun s => st ((i, AImpl) :: R) e b s \/ exists q a, st ((i, AImpl) :: (q, ASeq [a] []) :: (a, ALast) :: R) e b s)).
    + eapply tri_bind; [eapply tri_exn; [apply tri_sequence|]|].
      * intros x s [-> K]. auto.
      * intros q; cbn beta. apply tri_ex. intros last.
        eapply tri_bind; [eapply tri_exn; [apply tri_new|]|].
        -- intros x s [-> K]. split; auto. right. exists q, last. eapply st_perm; [|exact K].
           unfold seq_objs. cbn [map combine app]. perm.
        -- intros m; cbn beta. apply tri_ret. intros s K. cbn [x_ctx x_impl x_seq x_matcher]. split; auto.
           exists last. eapply st_perm; [|exact K]. unfold mat_objs. cbn [map]. perm.
    + intros x. apply tri_prop. intros ->. intros s [K | (q & a & K)].
      * assert (T := tri_free R e b i AImpl s K). destruct (free i s); try contradiction. auto.
      * assert (T := tri_free _ e b i AImpl s K). destruct (free i s); try contradiction. split; auto. right. now exists q, a.
Qed.

Lemma tri_method_lost : forall R e b,
  tri (st R e b) (method_expr fails)
    (fun x s => exists last Lb bo e', bodied b e Lb (Some bo) e' /\ st (expr_objs x last [] [] [] ++ Lb ++ R) e' (Some bo) s)
    (oom (nearly None b e R)).
Proof.
  intros R e b. unfold method_expr.
  assert (NEAR : forall J s, lost None J -> st (J ++ R) e b s -> nearly None b e R s).
  { intros J s L K. exists J, [], b, e. split; [exact L|]. split; [constructor | exact K]. }
  eapply tri_bind; [eapply tri_exn; [apply tri_new|]|].
  { intros x s [-> K]. split; auto. apply (NEAR []); [now left | exact K]. }
  intros c; cbn beta.
  eapply tri_bind; [eapply tri_exn; [apply tri_impl_lost|]|].
  { intros x s [-> [K | (q & a & K)]]; split; auto.
    - apply (NEAR [(c, ACtx)]); [right; left; now exists c | exact K].
    - apply (NEAR [(c, ACtx); (q, ASeq [a] []); (a, ALast)]); [right; right; left; now exists c, q, a|].
      eapply st_perm; [|exact K]. perm. }
  intros x; cbn beta. apply tri_prop. intros <-. apply tri_ex. intros last.
  eapply tri_pre with (P := st (expr_objs x last [] [] [] ++ R) e b).
  { intros s. apply st_perm. unfold expr_objs. perm. }
  assert (SNUG : forall s, snug b e R s -> nearly None b e R s).
  { intros s (Lb & b' & e' & B & K). exists [], Lb, b', e'. split; [now left|]. auto. }
  eapply tri_bind with (Q := fun _ => st (expr_objs x last [] [] [] ++ R) e b).
  { eapply tri_guard; [apply tri_try|]. intros y. apply tri_prop. intros ->.
    eapply tri_weak; [eapply (tri_destroy x last [] [] []); reflexivity | intros s K; exact K | | contradiction].
    cbn. intros _ s K. split; auto. apply (NEAR []); [now left | exact K]. }
  next.
  eapply tri_bind with (Q := fun _ s => exists Lb bo e', bodied b e Lb (Some bo) e' /\ st (expr_objs x last [] [] [] ++ Lb ++ R) e' (Some bo) s).
  - eapply tri_guard with (Y := oom (fun s => exists Lb b' e', bodied b e Lb b' e' /\ st (expr_objs x last [] [] [] ++ Lb ++ R) e' b' s)).
    + eapply tri_bind; [eapply tri_exn; [apply tri_try|]|].
      { intros y s [-> K]. split; auto. exists [], b, e. split; [constructor | exact K]. }
      next. eapply tri_bind; [eapply tri_exn; [apply tri_get_body|]|].
      { intros y s [-> [e' [A K]]]. split; auto. exists [], b, e'. auto. }
      intros bo; cbn beta. apply tri_ex. intros Lb. apply tri_ex. intros e'. apply tri_prop. intros B.
      eapply tri_weak; [apply tri_try | intros s K; exact K | |].
      * cbn. intros _ s K. exists Lb, bo, e'. split; auto. eapply st_perm; [|exact K]. perm.
      * cbn. intros y s [-> K]. split; auto. exists Lb, (Some bo), e'. split; auto. eapply st_perm; [|exact K]. perm.
    + intros y. apply tri_prop. intros ->. apply tri_ex. intros Lb. apply tri_ex. intros b'. apply tri_ex. intros e'.
      apply tri_prop. intros B. eapply tri_weak; [eapply (tri_destroy_snug x last [] [] []); [reflexivity | exact B] | intros s K; exact K | | contradiction].
      cbn. intros _ s K. split; auto.
  - next. apply tri_ret. intros s K. now exists last.
Qed.

Lemma tri_collect_lost : forall n acc R e b,
  tri (st (map (fun i => (i, AArg)) acc ++ R) e b) (collect fails n acc)
    (fun l s => length l = n + length acc /\ st (map (fun i => (i, AArg)) l ++ R) e b s)
    (oom (fun s => exists l, length l <= n + length acc /\ st (map (fun i => (i, AArg)) l ++ R) e b s)).
Proof.
  induction n as [|n IH]; intros acc R e b; cbn [collect].
  - apply tri_ret. auto.
  - eapply tri_bind; [eapply tri_exn; [apply tri_new|]|].
    { intros x s [-> K]. split; auto. exists acc. split; [lia | exact K]. }
    intros d; cbn beta.
    eapply tri_bind; [eapply tri_exn; [apply tri_try|]|].
    { intros x s [-> K]. split; auto. exists (d :: acc). split; [cbn; lia | exact K]. }
    next. eapply tri_weak; [apply (IH (acc ++ [d]) R e b) | | |].
    + intros s. apply st_perm. rewrite map_app. cbn [map]. perm.
    + cbn. intros l s [A B]. split; auto. rewrite A, app_length. cbn. lia.
    + cbn. intros x s [-> (l & A & B)]. split; auto. exists l. split; [|exact B]. rewrite app_length in A. cbn in A. lia.
Qed.

Lemma tri_use_lost : forall args x last R e b,
  tri (st (expr_objs x last [] [] [] ++ R) e b) (use fails args x)
    (fun y s => exists mids, length mids = count args /\ st (expr_objs y last [] [] mids ++ R) e b s)
    (oom (fun s => exists J, lost args J /\ st (expr_objs x last [] [] [] ++ J ++ R) e b s)).
Proof.
  intros [n|] x last R e b; cbn [use count].
  2: { apply tri_ret. intros s K. now exists []. }
  assert (ARGS : forall l s, length l <= n -> st (expr_objs x last [] [] [] ++ map (fun i => (i, AArg)) l ++ R) e b s ->
    exists J, lost (Some n) J /\ st (expr_objs x last [] [] [] ++ J ++ R) e b s).
  { intros l s L K. exists (map (fun i => (i, AArg)) l). split; [|exact K]. do 3 right. now exists l. }
  eapply tri_bind; [eapply tri_weak; [apply (tri_collect_lost n []) | intros s K; exact K | intros l s K; exact K |]|].
  { cbn. intros y s [-> (l & L & K)]. split; auto. apply (ARGS l); [lia|]. eapply st_perm; [|exact K]. perm. }
  intros l; cbn beta. apply tri_prop. intros L. cbn in L.
  eapply tri_bind; [eapply tri_exn; [apply tri_new|]|].
  { intros y s [-> K]. split; auto. apply (ARGS l); [lia|]. eapply st_perm; [|exact K]. perm. }
  intros m; cbn beta.
  eapply tri_bind; [eapply tri_exn; [eapply tri_hold_free; apply Permutation_refl|]|].
  { intros y s [-> K]. split; auto. apply (ARGS l); [lia|]. eapply st_perm; [|exact K]. perm. }
  next. eapply tri_bind; [eapply tri_exn; [apply tri_put | contradiction]|]. next.
  eapply tri_bind; [eapply tri_exn; [eapply (tri_del (x_matcher x)); [apply (tree_mat 1 _ []) |] | contradiction]|].
  { unfold expr_objs. cbn [app]. rewrite <- app_assoc. block. }
  next. apply tri_ret. intros s K. exists l. split; [lia|]. eapply st_perm; [|exact K].
  unfold expr_objs. cbn [x_ctx x_impl x_seq x_matcher]. unfold mat_objs at 1. perm.
Qed.

Lemma lost_none : forall args J, lost None J -> lost args J.
Proof.
  intros args J [H|[H|[H|([|i ids] & L & H)]]]; [now left | right; now left | right; right; now left | left; exact H | cbn in L; lia].
Qed.
Lemma nearly_none : forall args b e R s, nearly None b e R s -> nearly args b e R s.
Proof. intros args b e R s (J & Lb & b' & e' & L & K). exists J, Lb, b', e'. split; [now apply lost_none | exact K]. Qed.

(** * The expressions *)
Lemma tri_give_up_all : forall zs R e b,
  tri (st (all_objs zs ++ R) e b) (give_up (map p_expr zs)) (fun _ => st R e b) (fun _ _ => False).
Proof.
  induction zs as [|z zs IH]; intros R e b; cbn [all_objs flat_map map give_up].
  - apply tri_ret. auto.
  - eapply tri_bind; [eapply tri_pre; [|apply (IH (p_objs z ++ R))]|].
    + intros s. apply st_perm. unfold all_objs. perm.
    + next. unfold p_objs. now apply tri_destroy.
Qed.

Lemma tri_one_more : forall args R e b,
  tri (st R e b) (do! x := method_expr fails in aguard (use fails args x) (destroy false x))
    (fun y s => exists last mids Lb bo e', length mids = count args /\ bodied b e Lb (Some bo) e' /\
       st (expr_objs y last [] [] mids ++ Lb ++ R) e' (Some bo) s)
    (oom (nearly args b e R)).
Proof.
  intros args R e b.
  eapply tri_bind; [eapply tri_exn; [apply tri_method_lost|]|].
  { intros x s [-> K]. split; auto. now apply nearly_none. }
  intros x; cbn beta.
  apply tri_ex; intros last. apply tri_ex; intros Lb. apply tri_ex; intros bo. apply tri_ex; intros e'.
  apply tri_prop; intros B.
  eapply tri_guard.
  - eapply tri_weak; [apply (tri_use_lost args x last (Lb ++ R) e' (Some bo)) | auto | | intros y s K; exact K].
    cbn beta. intros y s (mids & L & K). exists last, mids, Lb, bo, e'. auto.
  - intros y. apply tri_prop. intros ->. apply tri_ex. intros J. apply tri_prop. intros LJ.
    eapply tri_weak; [eapply (tri_destroy x last [] [] []); reflexivity | intros s K; exact K | | contradiction].
    cbn. intros _ s K. split; auto. exists J, Lb, (Some bo), e'. auto.
Qed.

Lemma expressions_eq : forall args r s,
  expressions fails (args :: r) s =
  (do! y := (do! x := method_expr fails in aguard (use fails args x) (destroy false x)) in
   do! ys := aguard (expressions fails r) (destroy false y) in aret (y :: ys)) s.
Proof.
  intros args r s. cbn [expressions]. unfold abind. destruct (method_expr fails s) as [s1 x| | |]; auto.
Qed.

Lemma tri_expressions : forall l R e b,
  tri (st R e b) (expressions fails l)
    (fun ys s => exists zs Lb b' e', ys = map p_expr zs /\ Forall2 (fun args z => length (snd z) = count args) l zs /\
       bodied b e Lb b' e' /\ (l <> [] -> b' <> None) /\ st (all_objs zs ++ Lb ++ R) e' b' s)
    (oom (fun s => exists args, In args l /\ nearly args b e R s)).
Proof.
  induction l as [|args r IH]; intros R e b.
  - cbn [expressions]. apply tri_ret. intros s K. exists [], [], b, e. split; [reflexivity|]. split; [constructor|].
    split; [constructor|]. split; [congruence | exact K].
  - intros s K0. rewrite expressions_eq. revert s K0.
    eapply tri_bind; [eapply tri_exn; [apply (tri_one_more args)|]|].
    { intros x s [-> K]. split; auto. exists args. split; [now left | exact K]. }
    intros y; cbn beta.
    apply tri_ex; intros last. apply tri_ex; intros mids. apply tri_ex; intros Lb. apply tri_ex; intros bo. apply tri_ex; intros e'.
    apply tri_prop; intros L. apply tri_prop; intros B.
    eapply tri_bind.
    + eapply tri_guard; [apply IH|].
      intros x. apply tri_prop. intros ->. intros s (args2 & IN & J & Lb2 & b2 & e2 & LJ & B2 & K).
      assert (T := tri_destroy y last [] [] mids (J ++ Lb2 ++ Lb ++ R) e2 b2 eq_refl s).
      destruct (destroy false y s); try (apply T; eapply st_perm; [|exact K]; perm).
      split; auto. exists args2. split; [now right|]. exists J, (Lb2 ++ Lb), b2, e2. split; [exact LJ|]. split; [eapply bodied_trans; eassumption|].
      eapply st_perm; [|apply T; eapply st_perm; [|exact K]; perm]. perm.
    + intros ys; cbn beta. apply tri_ret.
      intros s (zs & Lb2 & b2 & e2 & -> & F & B2 & N & K).
      exists ((y, last, mids) :: zs), (Lb2 ++ Lb), b2, e2. split; [reflexivity|].
      split; [constructor; auto|]. split; [eapply bodied_trans; eassumption|].
      split; [|eapply st_perm; [|exact K]; cbn [all_objs flat_map]; unfold p_objs; cbn [fst snd]; perm].
      intros _. inversion B2; subst; congruence.
Qed.

(** * Commits *)
Lemma commit_outcome : forall x last ids acts mids R e bo s,
  length ids = length acts -> st (expr_objs x last ids acts mids ++ R) e (Some bo) s ->
  if fails (st_tries s) then commit fails x s = AExn (tick s) OutOfMemory
  else if commit_fails fails (st_tries s)
  then exists s', commit fails x s = AExn s' OutOfMemory /\
    ((~ In (x_matcher x) (map fst ((x_impl x, AImpl) :: R)) /\
      st ((x_ctx x, ACtx) :: (x_impl x, AImpl) :: seq_objs (x_seq x) last ids acts ++ R) e (Some bo) s') \/
     (~ In (x_seq x) (map fst ((x_impl x, AImpl) :: R)) /\
      st ((x_ctx x, ACtx) :: (x_impl x, AImpl) :: R) e (Some bo) s'))
  else exists s' h, commit fails x s = AVal s' tt /\
    st (handler_objs x h last ids acts mids ++ (x_ctx x, ACtx) :: (x_impl x, AImpl) :: R) e
       (Some (mkBody (bo_id bo) (bo_handlers bo ++ [h]) (bo_calls bo))) s'.
Proof.
  intros x last ids acts mids R e bo s L D. unfold commit.
  assert (GB : get_body fails s = AVal s bo).
  { unfold get_body, abind, get. rewrite (proj2 (proj2 D)). reflexivity. }
  rewrite (bind_val _ _ _ _ _ _ _ GB). clear GB.
  assert (NQ : ~ In (x_seq x) (map fst ((x_impl x, AImpl) :: R))).
  { eapply (not_key _ _ _ _ (seq_objs (x_seq x) last ids acts ++ mat_objs (x_matcher x) mids ++ [(x_ctx x, ACtx)])); [exact D | unfold expr_objs; perm |].
    now left. }
  assert (NM : ~ In (x_matcher x) (map fst ((x_impl x, AImpl) :: R))).
  { eapply (not_key _ _ _ _ (mat_objs (x_matcher x) mids ++ (x_ctx x, ACtx) :: seq_objs (x_seq x) last ids acts)); [exact D | unfold expr_objs; perm |].
    now left. }
  destruct (new_outcome fails _ _ _ (AHandler []) s D) as [[F E] | [F (s2 & h & E & D2 & T2)]]; rewrite F.
  { now rewrite (bind_exn _ _ _ _ _ _ _ E). }
  rewrite (bind_val _ _ _ _ _ _ _ E). clear E F. unfold Spec_OutOfMemory.commit_fails.
  (* the matcher *)
  assert (G : if fails (st_tries s2)
    then exists s', aguard (try_alloc fails) (del (x_matcher x) ;;! free h) s2 = AExn s' OutOfMemory /\
      st ((x_ctx x, ACtx) :: (x_impl x, AImpl) :: seq_objs (x_seq x) last ids acts ++ R) e (Some bo) s'
    else aguard (try_alloc fails) (del (x_matcher x) ;;! free h) s2 = AVal (tick s2) tt).
  { eapply guard_outcome; [exact D2 | intros s0 K; exact K |].
    eapply tri_bind; [eapply tri_del; [exact (tree_mat 1 _ mids) | unfold expr_objs; cbn [app]; rewrite <- app_assoc; block]|]. next.
    eapply (tri_free' _ (AHandler [])). perm. }
  rewrite T2 in G. change (1 + st_tries s) with (S (st_tries s)). destruct (fails (S (st_tries s))); cbn [orb].
  { destruct G as (s3 & E & K). rewrite (bind_exn _ _ _ _ _ _ _ E). exists s3. split; auto. }
  rewrite (bind_val _ _ _ _ _ _ _ G). clear G.
  (* the sequence *)
  assert (G : if fails (st_tries (tick s2))
    then exists s', aguard (try_alloc fails) (del (x_seq x) ;;! (del (x_matcher x) ;;! free h)) (tick s2) = AExn s' OutOfMemory /\
      st ((x_ctx x, ACtx) :: (x_impl x, AImpl) :: R) e (Some bo) s'
    else aguard (try_alloc fails) (del (x_seq x) ;;! (del (x_matcher x) ;;! free h)) (tick s2) = AVal (tick (tick s2)) tt).
  { eapply guard_outcome; [exact (st_tick _ _ _ _ D2) | intros s0 K; exact K |].
    eapply tri_bind; [eapply tri_del; [exact (tree_seq 1 _ last ids acts L) | unfold expr_objs; cbn [app]; rewrite <- app_assoc; block]|]. next.
    eapply tri_bind; [eapply tri_del; [exact (tree_mat 1 _ mids) | block]|]. next.
    eapply (tri_free' _ (AHandler [])). perm. }
  change (st_tries (tick s2)) with (S (st_tries s2)) in G. rewrite T2 in G.
  change (2 + st_tries s) with (S (S (st_tries s))). destruct (fails (S (S (st_tries s)))); cbn [orb].
  { destruct G as (s3 & E & K). rewrite (bind_exn _ _ _ _ _ _ _ E). exists s3. split; auto. }
  rewrite (bind_val _ _ _ _ _ _ _ G). clear G.
  destruct (put_outcome _ _ _ _ h (AHandler []) (AHandler [x_seq x; x_matcher x]) _
              (st_tick _ _ _ _ (st_tick _ _ _ _ D2)) (Permutation_refl _)) as (s3 & E & D3 & T3).
  change (st_tries (tick (tick s2))) with (S (S (st_tries s2))) in T3. rewrite T2 in T3.
  rewrite (bind_val _ _ _ _ _ _ _ E). clear E.
  set (H := handler_objs x h last ids acts mids). set (R2 := (x_ctx x, ACtx) :: (x_impl x, AImpl) :: R).
  apply (st_perm _ (H ++ R2)) in D3. 2: { unfold H, R2, handler_objs, expr_objs. perm. }
  assert (HOLD : forall s4, st (H ++ R2) e (Some bo) s4 ->
    if fails (st_tries s4) then exists s', holding fails h s4 = AExn s' OutOfMemory /\ st R2 e (Some bo) s'
    else holding fails h s4 = AVal (tick s4) tt).
  { intros s4 K. unfold holding. eapply guard_outcome; [exact K | intros s0 K0; exact K0 |].
    eapply tri_del; [exact (tree_handler 0 h (x_seq x) (x_matcher x) last ids acts mids L) | apply Permutation_refl]. }
  assert (G := HOLD _ D3). rewrite T3 in G.
  change (3 + st_tries s) with (S (S (S (st_tries s)))). destruct (fails (S (S (S (st_tries s))))); cbn [orb].
  { destruct G as (s4 & E & K). rewrite (bind_exn _ _ _ _ _ _ _ E). exists s4. split; auto. }
  rewrite (bind_val _ _ _ _ _ _ _ G). clear G.
  assert (G := HOLD _ (st_tick _ _ _ _ D3)). change (st_tries (tick s3)) with (S (st_tries s3)) in G. rewrite T3 in G.
  change (4 + st_tries s) with (S (S (S (S (st_tries s))))). destruct (fails (S (S (S (S (st_tries s)))))); cbn [orb].
  { destruct G as (s4 & E & K). rewrite (bind_exn _ _ _ _ _ _ _ E). exists s4. split; auto. }
  rewrite (bind_val _ _ _ _ _ _ _ G). clear G HOLD.
  assert (E : get st_body (tick (tick s3)) = AVal (tick (tick s3)) (Some bo)).
  { unfold get. f_equal. apply D3. }
  rewrite (bind_val _ _ _ _ _ _ _ E). clear E.
  exists (mkState (st_tries (tick (tick s3))) (st_heap s3) (st_entry s3) (Some (mkBody (bo_id bo) (bo_handlers bo ++ [h]) (bo_calls bo)))), h.
  split; [reflexivity|]. destruct D3 as (A & B & _). split; [exact A | split; [exact B | reflexivity]].
Qed.

(** What a failed commit leaves cannot be destroyed. *)
Lemma bad_destroy : forall x R e b,
  (~ In (x_seq x) (map fst ((x_impl x, AImpl) :: R)) -> bad (st ((x_ctx x, ACtx) :: (x_impl x, AImpl) :: R) e b) (destroy false x)) /\
  (forall last ids acts, length ids = length acts -> ~ In (x_matcher x) (map fst ((x_impl x, AImpl) :: R)) ->
     bad (st ((x_ctx x, ACtx) :: (x_impl x, AImpl) :: seq_objs (x_seq x) last ids acts ++ R) e b) (destroy false x)).
Proof.
  intros x R e b. split.
  - intros N. unfold destroy.
    eapply bad_then; [eapply tri_del; [exact (tree_leaf 2 _ ACtx eq_refl) | apply Permutation_refl]|]. next.
    apply bad_here. cbv iota. apply bad_here. now apply bad_del.
  - intros last ids acts L N. unfold destroy.
    eapply bad_then; [eapply tri_del; [exact (tree_leaf 2 _ ACtx eq_refl) | apply Permutation_refl]|]. next.
    apply bad_here. cbv iota.
    eapply bad_then; [eapply tri_del; [exact (tree_seq 1 _ last ids acts L) |]|].
    { instantiate (1 := (x_impl x, AImpl) :: R). perm. }
    next. now apply bad_del.
Qed.

Lemma not_in_app : forall (i : nat) (p : nat * thing) (A B : list (nat * thing)), ~ In i (map fst (p :: A ++ B)) -> ~ In i (map fst (p :: B)).
Proof. intros i p A B N K. apply N. cbn in *. destruct K as [K|K]; [now left | right]. rewrite map_app. apply in_or_app. now right. Qed.

(** The objects of the answer of an expression. *)
Lemma handler_answer : forall x h last a mids args, length mids = count args ->
  exists o, answer h args [None] o /\ Permutation (handler_objs x h last [a] [None] mids) o.
Proof.
  intros x h last a mids args L. eexists. split.
  - exists (x_seq x), (x_matcher x), last, [a], mids. split; [reflexivity|]. split; [exact L | reflexivity].
  - unfold handler_objs, seq_objs, mat_objs. cbn [combine map]. perm.
Qed.

(** * All of them *)
Definition grown (bo : body) (hs : list nat) : body := mkBody (bo_id bo) (bo_handlers bo ++ hs) (bo_calls bo).

(** The first [k] of [l] are in, nothing else is new. *)
Definition in_part (l : list (option nat)) (X : list (nat * thing)) (e : bool) (bo : body) (s' : state) : Prop :=
  exists k hs objs, k < length l /\ answers_for (firstn k l) hs objs /\ st (objs ++ X) e (Some (grown bo hs)) s'.
Definition in_full (l : list (option nat)) (X : list (nat * thing)) (e : bool) (bo : body) (s' : state) : Prop :=
  exists hs objs, answers_for l hs objs /\ st (objs ++ X) e (Some (grown bo hs)) s'.

Lemma grown_nil : forall bo, grown bo [] = bo.
Proof. intros [i h c]. unfold grown. cbn. now rewrite app_nil_r. Qed.
Lemma grown_cons : forall bo h hs, grown (mkBody (bo_id bo) (bo_handlers bo ++ [h]) (bo_calls bo)) hs = grown bo (h :: hs).
Proof. intros [i l c] h hs. unfold grown. cbn. now rewrite <- app_assoc. Qed.

Lemma tries_append : forall k x s, match append fails k x s with AVal s' _ => st_tries s <= st_tries s' | _ => True end.
Proof. intros k x s. assert (H := ho_append fails k x s). destruct (append fails k x s); auto. Qed.
Lemma tries_commit : forall x s, match commit fails x s with AVal s' _ => st_tries s <= st_tries s' | _ => True end.
Proof. intros x s. assert (H := ho_commit fails x s). destruct (commit fails x s); auto. Qed.

Lemma all_outcome : forall l zs X e bo s,
  Forall2 (fun args z => length (snd z) = count args) l zs -> st (all_objs zs ++ X) e (Some bo) s ->
  match at_once_all fails (map p_expr zs) s with
  | AVal s' _ => in_full l X e bo s'
  | AExn s' x => x = OutOfMemory /\ in_part l X e bo s'
  | ATerminate => False
  | AUb => exists n, st_tries s <= n /\ fails n = false /\ commit_fails fails n = true
  end.
Proof.
  induction l as [|args l IH]; intros zs X e bo s F D; inversion F as [|a0 z l0 zs0 L F2]; subst.
  { cbn. exists [], []. split; [constructor|]. now rewrite grown_nil. }
  rename zs0 into zs. destruct z as [[x last] mids]. cbn [snd] in L.
  assert (D1 : st (expr_objs x last [] [] mids ++ all_objs zs ++ X) e (Some bo) s).
  { eapply st_perm; [|exact D]. cbn [all_objs flat_map]. unfold p_objs. cbn [fst snd]. unfold all_objs. perm. }
  assert (NONE : forall s', st X e (Some bo) s' -> in_part (args :: l) X e bo s').
  { intros s' K. exists 0, [], []. split; [cbn; lia|]. split; [constructor|]. now rewrite grown_nil. }
  (* giving up the expressions, with what was appended *)
  assert (GIVE : forall ids acts, length ids = length acts ->
    tri (st (expr_objs x last ids acts mids ++ all_objs zs ++ X) e (Some bo)) (give_up (x :: map p_expr zs)) (fun _ => st X e (Some bo)) (fun _ _ => False)).
  { intros ids acts LI. cbn [give_up].
    eapply tri_bind; [eapply tri_pre; [|apply (tri_give_up_all zs (expr_objs x last ids acts mids ++ X))]|].
    - intros s0. apply st_perm. perm.
    - next. now apply tri_destroy. }
  cbn [map at_once_all]. change (p_expr (x, last, mids)) with x. unfold abind at 1, aguard at 1, at_once_one.
  unfold abind at 1.
  assert (TA := tri_append fails None x last [] [] mids (all_objs zs ++ X) e (Some bo) eq_refl s D1).
  assert (NA := tries_append None x s).
  destruct (append fails None x s) as [s1 u|s1 y| |]; try contradiction.
  2: { destruct TA as [-> TA]. assert (G := GIVE [] [] eq_refl s1 TA).
       destruct (give_up (x :: map p_expr zs) s1) as [s2 u| | |]; try contradiction. split; auto. }
  destruct TA as [a D2]. cbn [app] in D2.
  assert (C := commit_outcome x last [a] [None] mids (all_objs zs ++ X) e bo s1 eq_refl D2).
  assert (NC := tries_commit x s1).
  destruct (fails (st_tries s1)) eqn:F1.
  { rewrite C. assert (G := GIVE [a] [None] eq_refl (tick s1) (st_tick _ _ _ _ D2)).
    destruct (give_up (x :: map p_expr zs) (tick s1)) as [s2 v| | |]; try contradiction. split; auto. }
  destruct (commit_fails fails (st_tries s1)) eqn:F3.
  { destruct C as (s2 & -> & [(N & K) | (N & K)]).
    - assert (G := tri_give_up_all zs ((x_ctx x, ACtx) :: (x_impl x, AImpl) :: seq_objs (x_seq x) last [a] [None] ++ X) e (Some bo) s2).
      cbn [give_up]. unfold abind.
      destruct (give_up (map p_expr zs) s2) as [s3 v| | |]; try (exfalso; apply G; eapply st_perm; [|exact K]; perm).
      rewrite (proj2 (bad_destroy x X e (Some bo)) last [a] [None] eq_refl (not_in_app _ _ _ _ N)).
      + exists (st_tries s1). auto.
      + apply G. eapply st_perm; [|exact K]. perm.
    - assert (G := tri_give_up_all zs ((x_ctx x, ACtx) :: (x_impl x, AImpl) :: X) e (Some bo) s2).
      cbn [give_up]. unfold abind.
      destruct (give_up (map p_expr zs) s2) as [s3 v| | |]; try (exfalso; apply G; eapply st_perm; [|exact K]; perm).
      rewrite (proj1 (bad_destroy x X e (Some bo)) (not_in_app _ _ _ _ N)).
      + exists (st_tries s1). auto.
      + apply G. eapply st_perm; [|exact K]. perm. }
  destruct C as (s2 & h & C & D3). rewrite C in *. clear C.
  set (b2 := mkBody (bo_id bo) (bo_handlers bo ++ [h]) (bo_calls bo)) in *.
  set (H := handler_objs x h last [a] [None] mids) in *.
  assert (D4 : st (all_objs zs ++ (x_ctx x, ACtx) :: (x_impl x, AImpl) :: H ++ X) e (Some b2) s2).
  { eapply st_perm; [|exact D3]. perm. }
  assert (I := IH zs _ e b2 s2 F2 D4). unfold abind, aguard.
  destruct (handler_answer x h last a mids args L) as (o & AO & PO). fold H in PO.
  assert (DONE : forall objs hs s5, st (objs ++ (x_ctx x, ACtx) :: (x_impl x, AImpl) :: H ++ X) e (Some (grown b2 hs)) s5 ->
    match destroy true x s5 with AVal s' _ => st ((o ++ objs) ++ X) e (Some (grown bo (h :: hs))) s' | _ => False end).
  { intros objs hs s5 K. assert (T := tri_destroy_done x (H ++ objs ++ X) e (Some (grown b2 hs)) s5).
    destruct (destroy true x s5); try (apply T; eapply st_perm; [|exact K]; perm).
    rewrite <- grown_cons. fold b2. eapply st_perm; [|apply T; eapply st_perm; [|exact K]; perm].
    rewrite <- app_assoc. now apply Permutation_app_tail. }
  destruct (at_once_all fails (map p_expr zs) s2) as [s3 u3|s3 y3| |].
  - destruct I as (hs & objs & A & K). assert (G := DONE objs hs s3 K).
    destruct (destroy true x s3) as [s4 v| | |]; try contradiction.
    exists (h :: hs), (o ++ objs). split; [now constructor | exact G].
  - destruct I as (-> & k & hs & objs & LT & A & K). assert (G := DONE objs hs s3 K).
    destruct (destroy true x s3) as [s4 v| | |]; try contradiction. split; auto.
    exists (S k), (h :: hs), (o ++ objs). split; [cbn; lia|]. split; [now constructor | exact G].
  - contradiction.
  - destruct I as (n & N & F4). exists n. split; [lia | exact F4].
Qed.

(** * The statement *)
Lemma body_words : forall s Lb bo e' s' hs R, bodied (st_body s) (st_entry s) Lb (Some bo) e' ->
  st R e' (Some (grown bo hs)) s' ->
  first_mention s s' = Lb /\ answers s' = answers s ++ hs /\ history s' = history s /\ st_body s' <> None /\
  body_obj s' = Lb ++ body_obj s /\
  (forall b, st_body s = Some b -> exists b', st_body s' = Some b' /\ bo_id b' = bo_id b).
Proof.
  intros s Lb bo e' s' hs R B (_ & _ & K).
  unfold first_mention, answers, history, body_obj. rewrite K. cbn [grown bo_handlers bo_calls bo_id].
  remember (Some bo) as o eqn:EO in B. destruct B as [|N|i N].
  - rewrite EO. cbn. repeat split; try discriminate. intros b E. exists (grown bo hs). split; auto. cbn. congruence.
  - congruence.
  - rewrite N. inversion EO; subst bo. cbn. repeat split; try discriminate.
Qed.

(** Whatever became of it: complete, or thrown with the first [k] of the expressions in, and [J] left over. *)
Lemma statement_outcome : forall l s,
  match at_once fails l s with
  | AVal s' _ => exists objs, added l objs s s' /\ body_obj s' = first_mention s s' ++ body_obj s /\ (l <> [] -> st_body s' <> None) /\
      Permutation (objects s') (objs ++ first_mention s s' ++ objects s)
  | AExn s' x => x = OutOfMemory /\ exists k objs J, k < length l /\ added (firstn k l) objs s s' /\
      body_obj s' = first_mention s s' ++ body_obj s /\ (st_body s <> None -> st_body s' <> None) /\
      Permutation (objects s') (J ++ objs ++ first_mention s s' ++ objects s) /\
      (J = [] \/ k = 0 /\ exists args, In args l /\ lost args J) /\
      ((exists s0 ys, expressions fails l s = AVal s0 ys) -> J = [])
  | ATerminate => False
  | AUb => exists n, st_tries s <= n /\ fails n = false /\ commit_fails fails n = true
  end.
Proof.
  intros l s. unfold at_once, abind.
  assert (T := tri_expressions l _ _ _ s (st_here s)). assert (NE : forall s' ys, expressions fails l s = AVal s' ys -> st_tries s <= st_tries s').
  { intros s' ys E. assert (H : honest fails (expressions fails l)).
    { clear. induction l as [|args l IH]; cbn [expressions]; [apply ho_ret|].
      apply ho_bind; [apply ho_method_expr|]. intros x. apply ho_bind; [apply ho_guard; [apply ho_use | apply ho_destroy]|]. intros y.
      apply ho_bind; [apply ho_guard; [exact IH | apply ho_destroy]|]. intros ys. apply ho_ret. }
    specialize (H s). now rewrite E in H. }
  destruct (expressions fails l s) as [s0 ys|s0 x| |] eqn:E; try contradiction.
  - destruct T as (zs & Lb & b' & e' & -> & F & B & NN & K).
    destruct l as [|args l].
    { inversion F; subst zs. cbn. cbn in K. exists []. destruct K as (P & EN & BO).
      assert (FM : first_mention s s0 = Lb) by (apply (first_mention_bodied s s0 Lb e'); now rewrite BO).
      assert (A : answers s0 = answers s /\ history s0 = history s /\ body_obj s0 = Lb ++ body_obj s /\
                  forall b, st_body s = Some b -> st_body s0 = Some b).
      { unfold answers, history, body_obj. rewrite BO. destruct B as [|N|i N]; cbn; try rewrite N; repeat split; auto; try discriminate. }
      destruct A as (A1 & A2 & A3 & A4). rewrite FM. split; [|split; [exact A3 | split; [congruence | exact P]]].
      exists []. split; [constructor|]. rewrite app_nil_r. split; [exact A1|]. split; [exact A2|].
      intros b H. exists b. split; auto. }
    destruct b' as [bo|]; [|exfalso; apply NN; [discriminate | reflexivity]].
    assert (O := all_outcome (args :: l) zs _ _ _ _ F K).
    destruct (at_once_all fails (map p_expr zs) s0) as [s' u|s' x| |].
    + destruct O as (hs & objs & A & D). destruct (body_words _ _ _ _ _ _ _ B D) as (W1 & W2 & W3 & W4 & W5 & W6).
      exists objs. rewrite W1. split; [exists hs; auto|]. split; [exact W5|]. split; [auto | apply D].
    + destruct O as (-> & k & hs & objs & LT & A & D). split; auto.
      destruct (body_words _ _ _ _ _ _ _ B D) as (W1 & W2 & W3 & W4 & W5 & W6).
      exists k, objs, []. rewrite W1. split; [exact LT|]. split; [exists hs; auto|]. split; [exact W5|]. split; [auto|].
      split; [apply D|]. split; auto.
    + contradiction.
    + destruct O as (n & N & Q). exists n. split; [|exact Q]. specialize (NE s0 _ eq_refl). lia.
  - destruct T as [-> (args & IN & J & Lb & b' & e' & LJ & B & K0)]. split; auto.
    assert (KE : kept s s0) by (apply near_kept; exists J, Lb, b', e'; auto). destruct K0 as (P & EN & BO).
    assert (FM : first_mention s s0 = Lb) by (apply (first_mention_bodied s s0 Lb e'); now rewrite BO).
    assert (A3 : body_obj s0 = Lb ++ body_obj s).
    { unfold body_obj. rewrite BO. destruct B as [|N|i N]; cbn; try rewrite N; auto. }
    destruct KE as (_ & A1 & A2 & A4).
    exists 0, [], J. rewrite FM. split.
    { destruct l; [cbn in E; discriminate E | cbn; lia]. }
    split; [|split; [exact A3|]; split; [|split; [exact P|]; split; [right; split; [reflexivity | now exists args]|]]].
    + exists []. split; [constructor|]. rewrite app_nil_r. split; [exact A1|]. split; [exact A2|].
      intros b H. exists b. split; auto.
    + destruct (st_body s) as [b|]; [|congruence]. intros _. rewrite (A4 b eq_refl). discriminate.
    + intros (s1 & ys & H). discriminate H.
Qed.

Lemma ho_expressions : forall l, honest fails (expressions fails l).
Proof.
  induction l as [|args l IH]; cbn [expressions]; [apply ho_ret|].
  apply ho_bind; [apply ho_method_expr|]. intros x. apply ho_bind; [apply ho_guard; [apply ho_use | apply ho_destroy]|]. intros y.
  apply ho_bind; [apply ho_guard; [exact IH | apply ho_destroy]|]. intros ys. apply ho_ret.
Qed.
Lemma ho_give_up : forall l, honest fails (give_up l).
Proof. induction l as [|y l IH]; cbn [give_up]; [apply ho_ret|]. apply ho_bind; [exact IH|]. intros _. apply ho_destroy. Qed.
Lemma ho_all : forall l, honest fails (at_once_all fails l).
Proof.
  induction l as [|y l IH]; cbn [at_once_all]; [apply ho_ret|].
  apply ho_bind; [apply ho_guard; [apply ho_bind; [apply ho_append | intros _; apply ho_commit] | apply ho_give_up]|].
  intros _. apply ho_bind; [apply ho_guard; [exact IH | apply ho_destroy]|]. intros _. apply ho_destroy.
Qed.

Lemma at_once_memory : forall l s s', at_once fails l s = AExn s' OutOfMemory ->
  exists n, st_tries s <= n < st_tries s' /\ fails n = true.
Proof.
  intros l s s' E. assert (H : honest fails (at_once fails l)).
  { apply ho_bind; [apply ho_expressions|]. intros ys. apply ho_all. }
  specialize (H s). now rewrite E in H.
Qed.

Lemma answers_for_in : forall l hs objs h, answers_for l hs objs -> In h hs -> playable_in objs h.
Proof.
  intros l hs objs h A. induction A as [|args l h0 hs o objs A1 A2 IH]; [contradiction|].
  intros [<-|I].
  - apply (playable_incl o); [intros y K; apply in_or_app; now left | exact (answer_playable _ _ _ _ A1)].
  - apply (playable_incl objs); [intros y K; apply in_or_app; now right | now apply IH].
Qed.

Lemma added_playable : forall l objs J s s', added l objs s s' -> Permutation (objects s') (J ++ objs ++ first_mention s s' ++ objects s) ->
  (forall h, In h (answers s) -> playable s h) -> forall h, In h (answers s') -> playable s' h.
Proof.
  intros l objs J s s' (hs & A & AE & _) P SP h I. rewrite AE in I. apply in_app_or in I as [I|I].
  - apply (playable_incl (objects s)); [|exact (SP h I)]. intros y K. apply (Permutation_in _ (Permutation_sym P)).
    do 2 (apply in_or_app; right). apply in_or_app; now right.
  - apply (playable_incl objs); [|exact (answers_for_in _ _ _ _ A I)]. intros y K. apply (Permutation_in _ (Permutation_sym P)).
    apply in_or_app; right. apply in_or_app; now left.
Qed.

Lemma at_once_sound : forall l s, sound s ->
  match at_once fails l s with
  | AVal s' _ => sound s'
  | AExn s' _ => st_body s <> None -> sound s'
  | _ => True
  end.
Proof.
  intros l s [SE SP]. assert (O := statement_outcome l s). destruct (at_once fails l s) as [s' u|s' x| |] eqn:E; auto.
  - destruct O as (objs & A & _ & N & P). split; [|apply (added_playable l objs [] s s' A); [exact P | exact SP]].
    destruct l; [|intros _; apply N; discriminate]. cbn in E. inversion E; subst. exact SE.
  - destruct O as (_ & k & objs & J & _ & A & _ & N & P & _). intros B. split; [intros _; auto|].
    exact (added_playable _ objs J s s' A P SP).
Qed.

Lemma added_whole : forall l objs J J0 s s', added l objs s s' -> body_obj s' = first_mention s s' ++ body_obj s ->
  Permutation (objects s') (J ++ objs ++ first_mention s s' ++ objects s) -> whole J0 s -> whole (J ++ J0) s'.
Proof.
  intros l objs J J0 s s' A BO P (SP & Ts & cs & F & CS & P0). split; [exact (added_playable l objs J s s' A P SP)|].
  destruct A as (hs & A & AE & HE & _).
  assert (U : exists Us, Forall2 (tree 3) hs Us /\ Permutation objs (concat Us)).
  { clear - A. induction A as [|args l h hs o objs A1 A2 IH].
    - exists []. split; [constructor | apply perm_nil].
    - destruct IH as (Us & F & P). destruct A1 as (q & m & last & ids & mids & L1 & L2 & ->).
      exists (((h, AHandler [q; m]) :: seq_objs q last ids [None] ++ mat_objs m mids) :: Us). split.
      + constructor; [now apply (tree_handler 0) | exact F].
      + cbn [concat]. rewrite P. unfold seq_objs, mat_objs. perm. }
  destruct U as (Us & FU & PU). exists (Ts ++ Us), cs. rewrite AE, HE. split; [now apply Forall2_app|]. split; [exact CS|].
  rewrite P, P0, BO, PU, concat_app. perm.
Qed.

Lemma at_once_whole : forall l s J, whole J s ->
  match at_once fails l s with
  | AVal s' _ => whole J s'
  | AExn s' _ => exists J', whole J' s'
  | _ => True
  end.
Proof.
  intros l s J W. assert (O := statement_outcome l s). destruct (at_once fails l s) as [s' u|s' x| |]; auto.
  - destruct O as (objs & A & BO & _ & P). exact (added_whole l objs [] J s s' A BO P W).
  - destruct O as (_ & k & objs & J1 & _ & A & BO & _ & P & _). exists (J1 ++ J). exact (added_whole _ objs J1 J s s' A BO P W).
Qed.

Lemma mixed_whole : forall l quiet s J s' q, whole J s -> mixed fails l quiet s = AVal s' q ->
  exists J', whole J' s' /\ (q = true -> quiet = true /\ J' = J).
Proof.
  induction l as [|[t|args] l IH]; intros quiet s J s' q W E; cbn [mixed] in E.
  - inversion E; subst. exists J. auto.
  - destruct (session fails [t] quiet s) as [s1 q1| | |] eqn:E1; try discriminate E.
    destruct (session_whole _ _ _ _ _ _ _ W E1) as (J1 & W1 & Q1).
    destruct (IH _ _ _ _ _ W1 E) as (J2 & W2 & Q2). exists J2. split; [exact W2|].
    intros QT. destruct (Q2 QT) as [Q3 ->]. now apply Q1.
  - assert (K := at_once_whole args s J W). destruct (at_once fails args s) as [s1 u|s1 x| |]; try discriminate E.
    + exact (IH _ _ _ _ _ K E).
    + destruct K as (J1 & K). destruct (IH _ _ _ _ _ K E) as (J' & W' & Q). exists J'. split; [exact W'|].
      intros QT. destruct (Q QT) as [Q' _]. discriminate Q'.
Qed.

Lemma mixed_end : forall l s quiet, mixed fails l true no_mock = AVal s quiet ->
  exists s', destroy_mock s = AVal s' tt /\ (quiet = true -> objects s' = []).
Proof.
  intros l s quiet E.
  assert (W : whole [] no_mock) by (split; [contradiction|]; exists [], []; repeat split; [constructor | apply perm_nil]).
  destruct (mixed_whole _ _ _ _ _ _ W E) as (J & K & Q).
  destruct (destroy_whole J s K) as (s' & E' & P). exists s'. split; [exact E'|].
  intros QT. destruct (Q QT) as [_ ->]. now apply Permutation_nil, Permutation_sym.
Qed.
End Statement.

Lemma first_undefined : forall fails l s s0 y ys s1, expressions fails l s = AVal s0 (y :: ys) -> append fails None y s0 = AVal s1 tt ->
  fails (st_tries s1) = false -> commit_fails fails (st_tries s1) = true -> at_once fails l s = AUb.
Proof.
  intros fails l s s0 y ys s1 E A F C.
  assert (T := tri_expressions fails l _ _ _ s (st_here s)). unfold at_once, abind at 1. rewrite E in T |- *.
  destruct T as (zs & Lb & b' & e' & EY & FF & B & NN & K).
  destruct zs as [|[[x last] mids] zs]; [discriminate EY|]. cbn [map] in EY. injection EY as -> ->.
  change (p_expr (x, last, mids)) with x in *.
  destruct l as [|args l]; [inversion FF|]. destruct b' as [bo|]; [|exfalso; apply NN; [discriminate | reflexivity]].
  set (X := Lb ++ objects s) in *.
  assert (D1 : st (expr_objs x last [] [] mids ++ all_objs zs ++ X) e' (Some bo) s0).
  { eapply st_perm; [|exact K]. cbn [all_objs flat_map]. unfold p_objs. cbn [fst snd]. unfold all_objs. perm. }
  assert (TA := tri_append fails None x last [] [] mids (all_objs zs ++ X) e' (Some bo) eq_refl s0 D1). rewrite A in TA.
  destruct TA as [a D2]. cbn [app] in D2.
  assert (O := commit_outcome fails x last [a] [None] mids (all_objs zs ++ X) e' bo s1 eq_refl D2). rewrite F, C in O.
  cbn [at_once_all]. unfold abind at 1, aguard at 1, at_once_one. rewrite (bind_val _ _ _ _ _ _ _ A).
  destruct O as (s2 & -> & [(N & K2) | (N & K2)]).
  - assert (G := tri_give_up_all zs ((x_ctx x, ACtx) :: (x_impl x, AImpl) :: seq_objs (x_seq x) last [a] [None] ++ X) e' (Some bo) s2).
    cbn [give_up]. unfold abind.
    destruct (give_up (map p_expr zs) s2) as [s3 v| | |]; try (exfalso; apply G; eapply st_perm; [|exact K2]; perm).
    rewrite (proj2 (bad_destroy x X e' (Some bo)) last [a] [None] eq_refl (not_in_app _ _ _ _ N)); [reflexivity|].
    apply G. eapply st_perm; [|exact K2]. perm.
  - assert (G := tri_give_up_all zs ((x_ctx x, ACtx) :: (x_impl x, AImpl) :: X) e' (Some bo) s2).
    cbn [give_up]. unfold abind.
    destruct (give_up (map p_expr zs) s2) as [s3 v| | |]; try (exfalso; apply G; eapply st_perm; [|exact K2]; perm).
    rewrite (proj1 (bad_destroy x X e' (Some bo)) (not_in_app _ _ _ _ N)); [reflexivity|].
    apply G. eapply st_perm; [|exact K2]. perm.
Qed.

Lemma at_once_all_or_part : forall fails l s,
  match at_once fails l s with
  | AVal s' _ => exists objs, added l objs s s' /\ Permutation (objects s') (objs ++ first_mention s s' ++ objects s)
  | AExn s' x => x = OutOfMemory /\ exists k objs J, k < length l /\ added (firstn k l) objs s s' /\
      Permutation (objects s') (J ++ objs ++ first_mention s s' ++ objects s) /\
      (J = [] \/ k = 0 /\ exists args, In args l /\ lost args J)
  | ATerminate => False
  | AUb => exists n, st_tries s <= n /\ fails n = false /\ commit_fails fails n = true
  end.
Proof.
  intros fails l s. assert (O := statement_outcome fails l s). destruct (at_once fails l s) as [s' u|s' x| |]; auto.
  - destruct O as (objs & A & _ & _ & P). now exists objs.
  - destruct O as (-> & k & objs & J & L & A & _ & _ & P & LJ & _). split; auto. exists k, objs, J. auto.
Qed.

Lemma at_once_tidy : forall fails l s s0 ys s' x, expressions fails l s = AVal s0 ys -> at_once fails l s = AExn s' x ->
  exists k objs, k < length l /\ added (firstn k l) objs s s' /\ Permutation (objects s') (objs ++ first_mention s s' ++ objects s).
Proof.
  intros fails l s s0 ys s' x E A. assert (O := statement_outcome fails l s). rewrite A in O.
  destruct O as (_ & k & objs & J & L & AD & _ & _ & P & _ & N). exists k, objs. split; [exact L|]. split; [exact AD|].
  rewrite (N (ex_intro _ s0 (ex_intro _ ys E))) in P. exact P.
Qed.

(** * What a statement with When loses *)
Lemma start_lost : forall fails args s,
  match start fails args s with
  | AExn s' x => x = OutOfMemory /\ exists J Lb b' e', (lost args J \/ exists ch, J = [(ch, AChange)]) /\
      bodied (st_body s) (st_entry s) Lb b' e' /\ st (J ++ Lb ++ objects s) e' b' s'
  | _ => True
  end.
Proof.
  intros fails args s.
  assert (E : start fails args s =
    (do! y := (do! x := method_expr fails in aguard (use fails args x) (destroy false x)) in
     aguard (do! ch := new fails AChange in try_alloc fails ;;! aret (y, ch)) (destroy false y)) s).
  { unfold start, abind. destruct (method_expr fails s) as [s1 x| | |]; auto. }
  rewrite E. clear E. unfold abind at 1.
  assert (T := tri_one_more fails args _ _ _ s (st_here s)).
  destruct ((do! x := method_expr fails in aguard (use fails args x) (destroy false x)) s) as [s1 y|s1 x| |]; auto.
  2: { destruct T as [-> (J & Lb & b' & e' & L & K)]. split; auto. exists J, Lb, b', e'. split; [now left | exact K]. }
  destruct T as (last & mids & Lb & bo & e' & L & B & K).
  assert (G : tri (st (expr_objs y last [] [] mids ++ Lb ++ objects s) e' (Some bo))
    (aguard (do! ch := new fails AChange in try_alloc fails ;;! aret (y, ch)) (destroy false y)) (fun _ _ => True)
    (oom (fun s' => exists J, (J = [] \/ exists ch, J = [(ch, AChange)]) /\ st (J ++ Lb ++ objects s) e' (Some bo) s'))).
  { eapply tri_guard with (Y := oom (fun s' => exists J, (J = [] \/ exists ch, J = [(ch, AChange)]) /\
      st (expr_objs y last [] [] mids ++ J ++ Lb ++ objects s) e' (Some bo) s')).
    - eapply tri_bind; [eapply tri_exn; [apply tri_new|]|].
      { intros z s0 [-> K0]. split; auto. exists []. auto. }
      intros ch; cbn beta. eapply tri_bind; [eapply tri_exn; [apply tri_try|]|].
      { intros z s0 [-> K0]. split; auto. exists [(ch, AChange)]. split; [right; now exists ch|]. eapply st_perm; [|exact K0]. perm. }
      next. apply tri_ret. auto.
    - intros z. apply tri_prop. intros ->. apply tri_ex. intros J. apply tri_prop. intros LJ.
      eapply tri_weak; [eapply (tri_destroy y last [] [] mids); reflexivity | intros s0 K0; exact K0 | | contradiction].
      cbn. intros _ s0 K0. split; auto. now exists J. }
  specialize (G s1 K).
  destruct (aguard (do! ch := new fails AChange in try_alloc fails ;;! aret (y, ch)) (destroy false y) s1) as [s2 p|s2 x| |]; auto.
  destruct G as [-> (J & LJ & K2)]. split; auto. exists J, Lb, (Some bo), e'.
  split; [|auto]. destruct LJ as [-> | LJ]; [left; now left | now right].
Qed.

Lemma when_lost : forall fails args acts s s' x, when fails args acts s = AExn s' x ->
  exists J, (lost args J \/ exists ch, J = [(ch, AChange)]) /\ Permutation (objects s') (J ++ first_mention s s' ++ objects s).
Proof.
  intros fails args acts s s' x W. assert (T := start_lost fails args s).
  destruct (start fails args s) as [s0 p|s0 y| |] eqn:E.
  - exists []. split; [left; now left | exact (when_tidy _ _ _ _ _ _ _ _ E W)].
  - unfold when, prepare in W. unfold abind at 1 2 in W. rewrite E in W. inversion W; subst.
    destruct T as (_ & J & Lb & b' & e' & LJ & B & (P & EN & BO)). exists J. split; [exact LJ|].
    rewrite (first_mention_bodied s s' Lb e'); [exact P | now rewrite BO].
  - unfold when, prepare in W. unfold abind at 1 2 in W. rewrite E in W. discriminate W.
  - unfold when, prepare in W. unfold abind at 1 2 in W. rewrite E in W. discriminate W.
Qed.
