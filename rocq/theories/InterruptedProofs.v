(** Proofs about verifications that are interrupted. *)
From Coq Require Import Bool Arith ZArith Lia Permutation List.
From Verif Require Import Base OutOfMemory Expectation Interrupted Spec_Match Spec_OutOfMemory Spec_Interrupted OutOfMemoryProofs.
Import ListNotations.
Open Scope nat_scope.

Ltac next := let u := fresh in intros u; cbn beta; try clear u.
Notation objs_of := (list (nat * thing)).

(** * The search *)
Definition there (R : objs_of) (act : list nat) : Prop := forall i, In i act -> exists v, In (i, ACall v) R.
Definition has (R : objs_of) (xs : list expr) : Prop := forall x, In x xs -> exists l, In (x_matcher x, AMatcher l) R.
Definition thrown (ck : check) (n : nat) (act : list nat) : Prop :=
  exists m i, m < n /\ In i act /\ ck_asks ck m i = None.

Section Search.
Variable fails : nat -> bool.
Variable ck : check.
Variable xs : list expr.
Variable act : list nat.
Variable R : objs_of.
Variable e : bool.
Variable b : option body.
Hypothesis THERE : there R act.
Hypothesis HAS : has R xs.
Variable acc : nat -> nat -> Prop.
Hypothesis FITS : fits ck acc.
Notation here F := (fun a s => F a /\ st R e b s).
Notation broke := (fun x s => (x = OutOfMemory \/ x = UserError /\ thrown ck (length xs) act) /\ st R e b s).

Lemma tri_alloc : tri (st R e b) (try_alloc fails) (fun _ => st R e b) broke.
Proof. eapply tri_exn; [apply tri_try|]. intros x s [-> K]. auto. Qed.

Lemma tri_read : forall i X, In i act ->
  tri (st R e b) (read_call i) (here (fun v => In (i, ACall v) R)) X.
Proof.
  intros i X I. destruct (THERE i I) as [v V]. unfold read_call.
  eapply tri_bind; [eapply tri_exn; [apply (tri_peek _ _ _ _ _ V) | contradiction]|].
  intros t. apply tri_prop. intros ->. apply tri_ret. auto.
Qed.

Lemma tri_fill : forall l, incl l act -> tri (st R e b) (fill fails l) (fun _ => st R e b) broke.
Proof.
  unfold fill. induction l as [|i l IH]; intros I; cbn [each]; [apply tri_ret; auto|].
  eapply tri_bind; [|intros u; apply IH; intros j J; apply I; now right].
  eapply tri_bind; [apply tri_read, I; now left|]. intros v. apply tri_prop. intros _. apply tri_alloc.
Qed.

Lemma tri_asked : forall m i, m < length xs -> In i act ->
  tri (st R e b) (asked fails ck xs m i) (here (fun v => ck_asks ck m i = Some v)) broke.
Proof.
  intros m i M I. unfold asked. destruct (nth_error xs m) as [x|] eqn:X; [|apply nth_error_None in X; lia].
  destruct (HAS x (nth_error_In _ _ X)) as [l L].
  eapply tri_bind; [eapply tri_exn; [apply (tri_peek _ _ _ _ _ L) | contradiction]|].
  intros t. apply tri_prop. intros ->.
  eapply tri_bind; [now apply tri_read|]. intros v. apply tri_prop. intros _.
  eapply tri_bind; [apply tri_alloc|]. next.
  destruct (ck_asks ck m i) as [v'|] eqn:A.
  - apply tri_ret. auto.
  - intros s K. cbn. split; auto. right. split; auto. exists m, i. auto.
Qed.

Lemma tri_is_match : forall ms p, (forall m, In m ms -> m < length xs) -> p + length ms <= length act ->
  tri (st R e b) (is_match fails ck xs act ms p) (here (fun r => r = true <-> block_at acc ms act p)) broke.
Proof.
  induction ms as [|m ms IH]; intros p M L; cbn [is_match].
  - apply tri_ret. intros s K. split; auto. split; auto. intros _. split; [exact L|]. intros [|j] ? ? E; discriminate E.
  - cbn [length] in L. destruct (nth_error act p) as [i|] eqn:N; [|apply nth_error_None in N; lia].
    eapply tri_bind; [apply tri_asked; [apply M; now left | exact (nth_error_In _ _ N)]|].
    intros v. apply tri_prop. intros A. destruct v.
    + eapply tri_weak; [apply (IH (S p)); [intros k K; apply M; now right | lia] | auto | | auto].
      cbn beta. intros r s [E K]. split; auto. rewrite E. split; intros [B1 B2].
      * split; [cbn; lia|]. intros [|j] m' i' E1 E2; cbn in E1.
        -- rewrite Nat.add_0_r in E2. inversion E1; subst. rewrite N in E2. inversion E2; subst. now apply (FITS m' i' true A).
        -- apply (B2 j); auto. now rewrite <- Nat.add_succ_comm in E2.
      * split; [cbn in B1; lia|]. intros j m' i' E1 E2. apply (B2 (S j)); auto. now rewrite <- Nat.add_succ_comm.
    + apply tri_ret. intros s K. split; auto. split; [discriminate|]. intros [_ B].
      specialize (B 0 m i eq_refl). rewrite Nat.add_0_r in B. specialize (B N). apply (FITS m i false A) in B. discriminate B.
Qed.

Lemma tri_find_block : forall ms n i, (forall m, In m ms -> m < length xs) -> n = length act + 1 - length ms - i ->
  tri (st R e b) (find_block fails ck xs act ms n i)
    (here (fun r => match r with
                    | Some p => i <= p /\ block_at acc ms act p /\ forall r, i <= r < p -> ~ block_at acc ms act r
                    | None => forall r, i <= r -> ~ block_at acc ms act r
                    end)) broke.
Proof.
  intros ms n. induction n as [|n IH]; intros i M N; cbn [find_block].
  - apply tri_ret. intros s K. split; auto. intros r L [B _]. lia.
  - eapply tri_bind; [apply tri_is_match; auto; lia|]. intros v. apply tri_prop. intros V. destruct v.
    + apply tri_ret. intros s K. split; auto. split; auto. split; [now apply V|]. intros r L. lia.
    + assert (V' : ~ block_at acc ms act i) by (intros B; apply V in B; discriminate B).
      eapply tri_weak; [apply (IH (S i)); auto; lia | auto | | auto].
      cbn beta. intros [p|] s [E K]; split; auto.
      * destruct E as (E1 & E2 & E3). split; [lia|]. split; auto. intros r L.
        destruct (Nat.eq_dec r i) as [->|D]; auto. apply E3. lia.
      * intros r L. destruct (Nat.eq_dec r i) as [->|D]; auto. apply E. lia.
Qed.

Lemma tri_allocs : forall A (l : list A), tri (st R e b) (each (fun _ => try_alloc fails) l) (fun _ => st R e b) broke.
Proof.
  induction l; cbn [each]; [apply tri_ret; auto|]. eapply tri_bind; [apply tri_alloc|]. next. auto.
Qed.

Definition searched (pat : list (list nat)) (start : nat) (matched : list nat) (r : option nat * list nat) : Prop :=
  match fst r with
  | Some e => exists ps, leftmost acc act pat start ps e /\ snd r = matched ++ occ_items act pat ps
  | None => exists pre ps, gives_up acc act pat start pre ps /\ snd r = matched ++ occ_items act pre ps
  end.

Lemma tri_find_pattern : forall pat start matched, (forall ms m, In ms pat -> In m ms -> m < length xs) ->
  tri (st R e b) (find_pattern fails ck xs act pat start matched) (here (searched pat start matched)) broke.
Proof.
  induction pat as [|ms pat IH]; intros start matched M; cbn [find_pattern].
  - apply tri_ret. intros s K. split; auto. exists []. split; [constructor|]. cbn. now rewrite app_nil_r.
  - eapply tri_bind; [apply tri_alloc|]. next.
    eapply tri_bind; [apply tri_find_block; [intros m; apply M; now left | reflexivity]|].
    intros [p|]; cbn beta; apply tri_prop; intros F.
    + destruct F as (F1 & F2 & F3). cbv zeta. eapply tri_bind; [apply tri_allocs|]. next.
      eapply tri_weak; [apply IH; intros ms' m I; apply M; now right | auto | | auto].
      cbn beta. intros [[e'|] l] s [S0 K]; split; auto; unfold searched in *; cbn [fst snd] in *.
      * destruct S0 as (ps & S1 & ->). exists (p :: ps). split; [now constructor|]. cbn. now rewrite app_assoc.
      * destruct S0 as (pre & ps & (ms' & post & e' & -> & S1 & S2) & ->). exists (ms :: pre), (p :: ps).
        split; [|cbn; now rewrite app_assoc]. exists ms', post, e'. split; auto. split; auto. now constructor.
    + apply tri_ret. intros s K. split; auto. exists [], []. cbn. rewrite app_nil_r. split; auto.
      exists ms, pat, start. split; auto. split; auto. constructor.
Qed.

Lemma leftmost_le : forall pat s0 ps e0, leftmost acc act pat s0 ps e0 ->
  s0 <= e0 /\ (s0 <= length act -> e0 <= length act) /\ (pat <> [] -> (forall ms, In ms pat -> ms <> []) -> s0 < e0).
Proof.
  induction 1 as [s0|ms rest s0 p ps e0 L B _ _ IH]; [split; [lia|split; [auto | congruence]]|].
  destruct IH as (I1 & I2 & _). destruct B as [B _]. split; [lia|]. split; [intros _; apply I2; lia|].
  intros _ N. destruct ms as [|m ms]; [now destruct (N [] (or_introl eq_refl))|]. cbn in *. lia.
Qed.

Definition counted_by (start n : nat) (matched : list nat) (r : nat * list nat) : Prop :=
  exists occs e pre ps,
    in_a_row acc act (ck_pattern ck) start occs e /\ gives_up acc act (ck_pattern ck) e pre ps /\
    fst r = n + length occs /\
    snd r = matched ++ flat_map (occ_items act (ck_pattern ck)) occs ++ occ_items act pre ps.

Lemma tri_count : forall fuel start n matched,
  ck_pattern ck <> [] -> (forall ms, In ms (ck_pattern ck) -> ms <> []) ->
  (forall ms m, In ms (ck_pattern ck) -> In m ms -> m < length xs) ->
  start <= length act -> length act - start < fuel ->
  tri (st R e b) (count_matches fails fuel ck xs act start n matched) (here (counted_by start n matched)) broke.
Proof.
  induction fuel as [|fuel IH]; intros start n matched N1 N2 M L F; [lia|]. cbn [count_matches].
  eapply tri_bind; [now apply tri_find_pattern|].
  intros [[e'|] l]; cbn beta; apply tri_prop; unfold searched; cbn [fst snd].
  - intros (ps & S1 & ->). destruct (leftmost_le _ _ _ _ S1) as (L1 & L2 & L3). specialize (L2 L). specialize (L3 N1 N2).
    eapply tri_weak; [apply (IH e' (S n)); auto; lia | auto | | auto].
    cbn beta. intros r s [(occs & e0 & pre & qs & A & B & C & D) K]. split; auto.
    exists (ps :: occs), e0, pre, qs. split; [econstructor; eauto|]. split; auto. split; [cbn; lia|].
    rewrite D. cbn [flat_map]. now rewrite <- !app_assoc.
  - intros (pre & ps & S1 & ->). apply tri_ret. intros s K. split; auto. exists [], start, pre, ps.
    split; [constructor|]. split; [exact S1|]. cbn. split; [lia | reflexivity].
Qed.

Lemma tri_analyse_by : act = match b with Some bo => bo_calls bo | None => [] end ->
  ck_pattern ck <> [] -> (forall ms, In ms (ck_pattern ck) -> ms <> []) ->
  (forall ms m, In ms (ck_pattern ck) -> In m ms -> m < length xs) ->
  tri (st R e b) (analyse fails ck xs) (here (counted_by 0 0 [])) broke.
Proof.
  intros A N1 N2 M. unfold analyse.
  eapply tri_bind with (Q := fun l s => l = act /\ st R e b s).
  { intros s K. cbn. split; auto. rewrite A. now rewrite (proj2 (proj2 K)). }
  intros l. apply tri_prop. intros ->.
  do 4 (eapply tri_bind; [apply tri_fill; intros i I; exact I|]; next).
  apply tri_count; auto; lia.
Qed.
End Search.

Definition counted (ck : check) (act : list nat) (start n : nat) (matched : list nat) (r : nat * list nat) : Prop :=
  forall acc, fits ck acc -> counted_by ck act acc start n matched r.
Lemma fits_self : forall ck, fits ck (fun m i => ck_asks ck m i = Some true).
Proof. intros ck m i b E. rewrite E. split; congruence. Qed.

Lemma tri_analyse : forall fails ck xs act R e b, there R act -> has R xs ->
  act = match b with Some bo => bo_calls bo | None => [] end ->
  ck_pattern ck <> [] -> (forall ms, In ms (ck_pattern ck) -> ms <> []) ->
  (forall ms m, In ms (ck_pattern ck) -> In m ms -> m < length xs) ->
  tri (st R e b) (analyse fails ck xs) (fun r s => counted ck act 0 0 [] r /\ st R e b s)
    (fun x s => (x = OutOfMemory \/ x = UserError /\ thrown ck (length xs) act) /\ st R e b s).
Proof.
  intros fails ck xs act R e b T H A N1 N2 M s K.
  assert (ONE := fun acc F => tri_analyse_by fails ck xs act R e b T H acc F A N1 N2 M s K).
  assert (SELF := ONE _ (fits_self ck)). destruct (analyse fails ck xs s) as [s' r|s' y| |]; auto.
  split; [|exact (proj2 SELF)]. intros acc F. exact (proj1 (ONE acc F)).
Qed.


(** * Marks *)
Lemma mark_key : forall M p, fst (mark M p) = fst p.
Proof. intros M [i []]; reflexivity. Qed.
Lemma mark_keys : forall M R, map fst (map (mark M) R) = map fst R.
Proof. intros M R. rewrite map_map. apply map_ext, mark_key. Qed.
Lemma mark_nil : forall R, map (mark []) R = R.
Proof. induction R as [|[i []] R IH]; cbn; rewrite ?orb_false_r, ?IH; auto. Qed.
Lemma mark_cons : forall i M p, mark (i :: M) p = mark M (mark [i] p).
Proof. intros i M [j []]; cbn; auto. now rewrite orb_false_r, orb_assoc. Qed.
Lemma mark_not : forall M R, (forall i, In i M -> ~ In i (map fst R)) -> map (mark M) R = R.
Proof.
  intros M R N. rewrite <- (map_id R) at 2. apply map_ext_in. intros [j t] I. destruct t; try reflexivity. cbn. f_equal. f_equal.
  destruct (existsb (Nat.eqb j) M) eqn:E; [|now rewrite orb_false_r]. apply existsb_exists in E as (k & K & E).
  apply Nat.eqb_eq in E. subst k. destruct (N j K). apply in_map_iff. now exists (j, ACall verified).
Qed.

Lemma tri_mark_one : forall i R e b, (exists v, In (i, ACall v) R) ->
  tri (st R e b) (do! _ := read_call i in put i (ACall true)) (fun _ => st (map (mark [i]) R) e b) (fun _ _ => False).
Proof.
  intros i R e b [v I] s K. unfold read_call.
  assert (K0 := K). assert (ND := st_keys _ _ _ _ K).
  apply in_split in I as (l & r & ->).
  assert (T : tri (st (l ++ (i, ACall v) :: r) e b) (do! _ := read_call i in put i (ACall true)) (fun _ => st ((i, ACall true) :: l ++ r) e b) (fun _ _ => False)).
  { unfold read_call. eapply tri_bind; [eapply tri_bind; [apply (tri_peek _ _ _ i (ACall v)); apply in_or_app; right; now left|]|].
    - intros t. apply tri_prop. intros ->. apply (tri_ret _ _ _ (fun _ => st (l ++ (i, ACall v) :: r) e b)). auto.
    - next. eapply tri_put'. symmetry. apply Permutation_middle. }
  specialize (T s K0). unfold read_call in T. destruct ((do! _ := do! t := peek i in match t with ACall v0 => aret v0 | _ => fun _ => AUb end in put i (ACall true)) s); auto.
  eapply st_perm; [|exact T]. rewrite map_app in *. cbn [map] in *. cbn [fst] in ND.
  assert (NI : ~ In i (map fst l ++ map fst r)) by now apply NoDup_remove_2.
  rewrite !mark_not.
  - cbn [mark existsb]. rewrite Nat.eqb_refl, orb_true_r. apply Permutation_middle.
  - intros j [<-|[]] J. apply NI, in_or_app. now right.
  - intros j [<-|[]] J. apply NI, in_or_app. now left.
Qed.

Lemma there_mark : forall M R act, there R act -> there (map (mark M) R) act.
Proof.
  intros M R act T i I. destruct (T i I) as [v V]. exists (v || existsb (Nat.eqb i) M).
  apply in_map_iff. now exists (i, ACall v).
Qed.

Lemma tri_mark : forall M R e b, there R M ->
  tri (st R e b) (each (fun i => do! _ := read_call i in put i (ACall true)) M) (fun _ => st (map (mark M) R) e b) (fun _ _ => False).
Proof.
  induction M as [|i M IH]; intros R e b T; cbn [each].
  - apply tri_ret. intros s. now rewrite mark_nil.
  - eapply tri_bind; [apply tri_mark_one, T; now left|]. next.
    eapply tri_weak; [apply (IH (map (mark [i]) R) e b) | intros s K; exact K | | contradiction].
    + apply there_mark. intros j J. apply T. now right.
    + cbn beta. intros _ s K. rewrite map_map in K. now rewrite (map_ext _ _ (mark_cons i M)).
Qed.

(** * One verification *)
Definition enough (any : bool) (c : Z) (n : nat) : Prop :=
  any = true \/ (c < 0 /\ - c <= Z.of_nat n)%Z \/ (0 <= c /\ Z.of_nat n = c)%Z.

Lemma enough_spec : forall a c n,
  (negb a && (((c <? 0) && (Z.of_nat n <? - c)) || ((0 <=? c) && negb (Z.of_nat n =? c))))%Z = false <-> enough a c n.
Proof.
  intros [] c n; unfold enough; cbn [negb andb]; [split; auto|].
  assert (E : forall x y, (x || y = false)%bool <-> x = false /\ y = false) by (intros [] []; cbn; intuition congruence).
  rewrite E, !andb_false_iff, Z.ltb_ge, Z.ltb_ge, Z.leb_gt, negb_false_iff, Z.eqb_eq. clear E.
  split; [intros [A B]; lia | intros [A|A]; [discriminate A | lia]].
Qed.

Section Verifying.
Variable fails : nat -> bool.
Variable ck : check.
Variable xs : list expr.
Hypothesis WRITTEN1 : ck_pattern ck <> [].
Hypothesis WRITTEN2 : forall ms, In ms (ck_pattern ck) -> ms <> [].
Hypothesis WRITTEN3 : forall ms m, In ms (ck_pattern ck) -> In m ms -> m < length xs.

Definition calls (b : option body) : list nat := match b with Some bo => bo_calls bo | None => [] end.

Lemma counted_in : forall act n M, counted ck act 0 0 [] (n, M) -> incl M act.
Proof.
  intros act n M C i I. destruct (C _ (fits_self ck)) as (occs & e & pre & ps & _ & _ & _ & E). cbn [snd app] in E. subst M.
  assert (OI : forall (pat : list (list nat)) qs, In i (occ_items act pat qs) -> In i act).
  { induction pat as [|ms pat IH]; intros [|q qs] J; cbn in J; try contradiction.
    apply in_app_or in J as [J|J]; [|eauto]. rewrite <- (firstn_skipn q act). apply in_or_app. right.
    rewrite <- (firstn_skipn (length ms) (skipn q act)). apply in_or_app. now left. }
  apply in_app_or in I as [I|I]; [|eauto]. apply in_flat_map in I as (q & _ & I). eauto.
Qed.

Lemma tri_verify_now : forall soft x g d a c R e b, there R (calls b) -> has R xs ->
  tri (st ((x, ACheck g d a c) :: R) e b) (verify_now fails ck xs soft x)
    (fun v s => (d = true /\ v = true /\ st ((x, ACheck g true a c) :: R) e b s) \/
       exists n M, d = false /\ counted ck (calls b) 0 0 [] (n, M) /\
         ((enough a c n /\ v = true /\ st ((x, ACheck g true a c) :: map (mark M) R) e b s) \/
          (~ enough a c n /\ v = false /\ soft = true /\ st ((x, ACheck g true a c) :: R) e b s)))
    (fun y s => (d = false /\ (y = OutOfMemory \/ y = UserError /\ thrown ck (length xs) (calls b) \/
                 y = Failed /\ soft = false /\ exists n M, counted ck (calls b) 0 0 [] (n, M) /\ ~ enough a c n)) /\
       st ((x, ACheck g true a c) :: R) e b s).
Proof.
  intros soft x g d a c R e b T H. unfold verify_now.
  eapply tri_bind; [eapply tri_exn; [apply (tri_peek _ _ _ x (ACheck g d a c)); now left | contradiction]|].
  intros t. apply tri_prop. intros ->. destruct d; [apply tri_ret; auto|].
  eapply tri_bind; [eapply tri_exn; [apply tri_put | contradiction]|]. next.
  set (R1 := (x, ACheck g true a c) :: R).
  assert (T1 : there R1 (calls b)) by (intros i I; destruct (T i I) as [v V]; exists v; now right).
  assert (H1 : has R1 xs) by (intros y I; destruct (H y I) as [l L]; exists l; now right).
  eapply tri_bind.
  { eapply tri_exn; [apply (tri_analyse fails ck xs (calls b)); auto|].
    cbn beta. intros y s [Y K]. split; [|exact K]. split; auto. destruct Y as [Y|Y]; auto. }
  intros [n M]; cbn beta. apply tri_prop. intros C. cbn [fst snd].
  destruct (_ && _)%Z eqn:E.
  - assert (NE : ~ enough a c n) by (rewrite <- enough_spec; congruence).
    eapply tri_bind; [eapply tri_exn; [apply tri_try|]|].
    { cbn beta. intros y s [-> K]. split; auto. }
    next. destruct soft.
    + apply tri_ret. intros s K. right. exists n, M. split; [reflexivity|]. split; [exact C|]. right. auto.
    + intros s K. cbn. split; [|exact K]. split; auto. right. right. split; auto. split; auto. exists n, M. auto.
  - apply enough_spec in E. eapply tri_bind.
    { eapply tri_exn; [apply tri_mark | contradiction]. intros i I. apply T1. now apply (counted_in _ _ _ C). }
    next. apply tri_ret. intros s K. right. exists n, M. split; auto.
Qed.

Lemma tree_check : forall x g d a c, tree 3 x [(x, ACheck g d a c); (g, AGroup)].
Proof.
  intros. exists (ACheck g d a c), [[(g, AGroup)]]. split; auto. cbn [children]. constructor; auto.
  exact (tree_leaf 1 g AGroup eq_refl).
Qed.

Lemma tri_del_check : forall x g d a c R R' e b, Permutation R ((x, ACheck g d a c) :: (g, AGroup) :: R') ->
  tri (st R e b) (del x) (fun _ => st R' e b) (fun _ _ => False).
Proof. intros. eapply tri_del; [apply (tree_check x g d a c)|]. assumption. Qed.

Lemma tri_open : forall R e b,
  tri (st R e b) (open_check fails)
    (fun x s => exists g, st ((x, ACheck g false false (-1)) :: (g, AGroup) :: R) e b s)
    (fun y s => y = OutOfMemory /\ exists J, st (J ++ R) e b s).
Proof.
  intros R e b. unfold open_check.
  assert (NONE : forall y s, y = OutOfMemory /\ st R e b s -> y = OutOfMemory /\ exists J, st (J ++ R) e b s).
  { intros y s [-> K]. split; auto. now exists []. }
  eapply tri_bind; [eapply tri_exn; [apply tri_try | exact NONE]|]. next.
  eapply tri_bind; [eapply tri_exn; [apply tri_try | exact NONE]|]. next.
  eapply tri_bind; [eapply tri_exn; [apply tri_new | exact NONE]|]. intros g; cbn beta.
  eapply tri_bind; [eapply tri_exn; [eapply tri_hold_free; apply Permutation_refl | exact NONE]|]. next.
  eapply tri_bind; [eapply tri_exn; [eapply tri_holding; [exact (tree_leaf 2 g AGroup eq_refl) | apply Permutation_refl] | exact NONE]|]. next.
  eapply tri_bind with (Q := fun x => st ((x, ACheck g false false (-1)) :: (g, AGroup) :: R) e b).
  - eapply tri_guard with (Y := fun y s => y = OutOfMemory /\ st ((g, AGroup) :: R) e b s).
    + eapply tri_bind; [apply tri_try|]. next.
      eapply tri_bind; [apply tri_new|]. intros x; cbn beta.
      eapply tri_bind; [eapply tri_hold_free; apply Permutation_refl|]. next.
      apply tri_ret. auto.
    + intros y. apply tri_prop. intros ->. eapply tri_weak; [apply tri_free | intros s K; exact K | | contradiction].
      cbn. intros _ s K. apply NONE. auto.
  - intros x; cbn beta. eapply tri_bind; [eapply tri_exn; [apply tri_try|]|].
    + cbn beta. intros y s [-> K]. split; auto. exists [(x, ACheck g false false (-1)); (g, AGroup)]. exact K.
    + next. apply tri_ret. intros s K. exists g. exact K.
Qed.

(** What a quantifier does to what is expected, and what is refused. *)
Definition after (q : quant) (a : bool) (c : Z) : bool * Z :=
  match q with
  | QAny => (true, c) | QNever => (a, 0%Z) | QOnce => (a, 1%Z) | QTwice => (a, 2%Z) | QAtLeastOnce => (a, (-1)%Z)
  | QExactly n => (a, n) | QAtLeast n => (a, (- n)%Z)
  end.

Lemma tri_limit : forall n x g d a c R e b X,
  tri (st ((x, ACheck g d a c) :: R) e b) (limit n x) (fun _ => st ((x, ACheck g d a n) :: R) e b) X.
Proof.
  intros n x g d a c R e b X. unfold limit. eapply tri_bind; [eapply tri_exn; [apply (tri_peek _ _ _ x (ACheck g d a c)); now left | contradiction]|].
  intros t. apply tri_prop. intros ->. eapply tri_exn; [apply tri_put | contradiction].
Qed.

Lemma tri_quantify : forall q x g d a c R e b,
  tri (st ((x, ACheck g d a c) :: R) e b) (quantify fails q x)
    (fun _ s => ~ refused (Some q) /\ st ((x, ACheck g d (fst (after q a c)) (snd (after q a c))) :: R) e b s)
    (fun y s => ((y = OutOfMemory \/ y = Invalid) /\ refused (Some q)) /\ st ((x, ACheck g d a c) :: R) e b s).
Proof.
  intros q x g d a c R e b.
  assert (LIM : forall n, ~ refused (Some q) -> after q a c = (a, n) -> tri (st ((x, ACheck g d a c) :: R) e b) (limit n x)
    (fun _ s => ~ refused (Some q) /\ st ((x, ACheck g d (fst (after q a c)) (snd (after q a c))) :: R) e b s)
    (fun y s => ((y = OutOfMemory \/ y = Invalid) /\ refused (Some q)) /\ st ((x, ACheck g d a c) :: R) e b s)).
  { intros n NR E. rewrite E. cbn [fst snd]. eapply tri_weak; [apply (tri_limit n x g d a c R e b (fun _ _ => False)) | auto | auto | contradiction]. }
  assert (INV : refused (Some q) -> tri (st ((x, ACheck g d a c) :: R) e b) (try_alloc fails ;;! athrow Invalid)
    (fun (_ : unit) s => ~ refused (Some q) /\ st ((x, ACheck g d (fst (after q a c)) (snd (after q a c))) :: R) e b s)
    (fun y s => ((y = OutOfMemory \/ y = Invalid) /\ refused (Some q)) /\ st ((x, ACheck g d a c) :: R) e b s)).
  { intros RF. eapply tri_bind; [eapply tri_exn; [apply tri_try|]|].
    - cbn beta. intros y s [-> K]. auto.
    - next. intros s K. cbn. auto. }
  assert (NO : forall q', (forall n, q' <> QExactly n /\ q' <> QAtLeast n) -> ~ refused (Some q')).
  { intros q' D (n & _ & [E|E]); inversion E; subst; destruct (D n); congruence. }
  destruct q; cbn [quantify]; unfold exactly.
  - eapply tri_bind; [eapply tri_exn; [apply (tri_peek _ _ _ x (ACheck g d a c)); now left | contradiction]|].
    intros t. apply tri_prop. intros ->. eapply tri_weak; [apply tri_put | intros s K; exact K | | contradiction].
    cbn beta. intros _ s K. split; [apply NO; split; discriminate | exact K].
  - apply LIM; [apply NO; split; discriminate | reflexivity].
  - apply LIM; [apply NO; split; discriminate | reflexivity].
  - apply LIM; [apply NO; split; discriminate | reflexivity].
  - apply LIM; [apply NO; split; discriminate | reflexivity].
  - destruct (Z.ltb_spec n 0); [apply INV; exists n; auto|].
    apply LIM; [intros (k & L & [E|E]); inversion E; lia | reflexivity].
  - destruct (Z.ltb_spec n 0); [apply INV; exists n; auto|].
    apply LIM; [intros (k & L & [E|E]); inversion E; lia | reflexivity].
Qed.
End Verifying.

Lemma meets_enough : forall q n, ~ refused q ->
  enough (match q with Some q => fst (after q false (-1)) | None => false end)
         (match q with Some q => snd (after q false (-1)) | None => -1%Z end) n <-> meets q n.
Proof.
  intros q n NR. unfold enough.
  destruct q as [[]|]; cbn [after fst snd meets]; try (split; [intros [K|[K|K]]; [discriminate K | lia | lia] | intros K; try (right; left; lia); right; right; lia]).
  - split; auto.
  - assert (0 <= n0)%Z by (destruct (Z.ltb_spec n0 0); auto; destruct NR; exists n0; auto).
    split; [intros [K|[K|K]]; [discriminate K | lia | lia] | intros K; right; right; lia].
  - assert (0 <= n0)%Z by (destruct (Z.ltb_spec n0 0); auto; destruct NR; exists n0; auto).
    destruct (Z.eqb_spec n0 0); (split; [intros [K|[K|K]]; [discriminate K | lia | lia] | intros K; try (right; left; lia); right; right; lia]).
Qed.
