From Coq Require Import ZArith Lia List.
From Verif Require Import Base CInt Values ReturnSet Spec_ReturnSet.
Import ListNotations.
Open Scope nat_scope.

Lemma load_store : forall m a v m' b, store m a v = Def m' ->
  load m' b = if Nat.eqb a b then Def v else load m b.
Proof.
  unfold store, load. intros m a v m' b H. destruct (nth_error m a) as [[w|]|] eqn:E; try discriminate.
  injection H as <-. rewrite nth_error_upd. pose proof (nth_error_Some_lt _ _ _ _ E) as L.
  destruct (Nat.eqb_spec a b); auto. destruct (Nat.ltb_spec a (length m)); auto; lia.
Qed.

Lemma store_ok : forall m a v w, load m a = Def w -> exists m', store m a v = Def m'.
Proof.
  unfold store, load. intros m a v w H. destruct (nth_error m a) as [[x|]|]; try discriminate. eauto.
Qed.

Lemma designates_fun : forall p a b, designates p a -> designates p b -> a = b.
Proof. intros p a b [->|[->| ->]] [H|[H|H]]; congruence. Qed.

Lemma assign_spec : forall m p v a, designates p a -> (exists w, load m a = Def w) ->
  exists m', assign_to m p (SVal v) = Def m' /\
    forall b, load m' b = if Nat.eqb a b then Def v else load m b.
Proof.
  intros m p v a D [w L]. destruct (store_ok m a v w L) as [m' S]. exists m'.
  split; [|intro b; now apply load_store].
  unfold assign_to. cbn. destruct D as [->|[->| ->]]; cbn; exact S.
Qed.

Definition live_as (m m' : mem) : Prop := forall a, (exists w, load m a = Def w) -> exists w, load m' a = Def w.

(** Positional walk: the leftmost parameter designating a cell decides. *)
Lemma walker_spec : forall vals pre m params,
  length vals <= length params ->
  (forall i p, i < length vals -> nth_error params i = Some p -> assignable m p) ->
  exists m', ParamWalker (length vals) m (pre ++ map SVal vals) params = Def m' /\ live_as m m' /\
    (forall a, untouched (nth_error vals) params a -> load m' a = load m a) /\
    (forall a i p v, nth_error params i = Some p -> designates p a -> nth_error vals i = Some v ->
       (forall j q, j < i -> nth_error params j = Some q -> ~ designates q a) -> load m' a = Def v).
Proof.
  induction vals as [|v vals IH]; intros pre m params L A; cbn [length ParamWalker map].
  - exists m. split; auto. split; [intros a H; exact H|]. split; auto. intros a [|i] p v E D N; discriminate.
  - destruct params as [|p params]; cbn [length] in L; [lia|].
    destruct (IH (pre ++ [SVal v]) m params ltac:(lia)) as (m1 & E1 & LV & U & G).
    { intros i q Hi Ei. apply (A (S i) q); auto. cbn. lia. }
    rewrite <- app_assoc in E1. cbn [app] in E1. rewrite E1. cbn [obind].
    assert (NE : nth_error (pre ++ SVal v :: map SVal vals) (length (pre ++ SVal v :: map SVal vals) - S (length vals)) = Some (SVal v)).
    { rewrite app_length. cbn [length]. rewrite map_length.
      replace (length pre + S (length vals) - S (length vals)) with (length pre) by lia.
      rewrite nth_error_app2 by lia. now rewrite Nat.sub_diag. }
    rewrite NE. cbn [of_option obind].
    destruct (A 0 p ltac:(cbn; lia) eq_refl) as (a & w & D & La).
    destruct (assign_spec m1 p v a D (LV a (ex_intro _ w La))) as (m2 & E2 & R2).
    exists m2. split; [exact E2|]. split; [|split].
    + intros b Hb. rewrite R2. destruct (Nat.eqb a b); eauto.
    + intros b Ub. rewrite R2. destruct (Nat.eqb_spec a b) as [E|E].
      * subst b. specialize (Ub 0 p eq_refl D). discriminate.
      * apply U. intros i q Ei Di. apply (Ub (S i) q Ei Di).
    + intros b i q x Ei Di Vi F. rewrite R2. destruct i as [|i]; cbn in Ei, Vi.
      * injection Ei as <-. injection Vi as <-. rewrite (designates_fun _ _ _ D Di), Nat.eqb_refl. reflexivity.
      * destruct (Nat.eqb_spec a b) as [E|E].
        -- exfalso. subst b. apply (F 0 p ltac:(lia) eq_refl D).
        -- apply (G b i q x Ei Di Vi). intros j q' Hj Ej. apply (F (S j) q' ltac:(lia) Ej).
Qed.

(** C43 *)
Theorem return_and_set : forall m (r : option val) vals params,
  length vals <= length params ->
  (forall i p, i < length vals -> nth_error params i = Some p -> assignable m p) ->
  exists m', assigner_positional m (option_map SVal r) (map SVal vals) params =
               Def (m', match r with Some x => x | None => VVoid end) /\
    (forall a, untouched (nth_error vals) params a -> load m' a = load m a) /\
    (forall a i p v, nth_error params i = Some p -> designates p a -> nth_error vals i = Some v ->
       (forall j q, j < i -> nth_error params j = Some q -> ~ designates q a) -> load m' a = Def v).
Proof.
  intros m r vals params L A. destruct r as [x|]; cbn [assigner_positional option_map].
  - destruct (walker_spec vals [SVal x] m params L A) as (m' & E & _ & U & G).
    rewrite map_length. cbn [app] in E. rewrite E. cbn. eauto.
  - destruct (walker_spec vals [] m params L A) as (m' & E & _ & U & G).
    rewrite map_length. cbn [app] in E. rewrite E. cbn. eauto.
Qed.

(** ** Placeholders *)
Definition src_list (vals : list (nat * val)) : list (nat * vsrc) := map (fun x => (fst x, SVal (snd x))) vals.

Lemma locator_spec : forall vals n m p c, c <= length vals ->
  ArgLocator n c m p (src_list vals) =
  match named (firstn c vals) n with
  | Some v => assign_to m p (SVal v)
  | None => Def m
  end.
Proof.
  intros vals n m p. induction c as [|c IH]; intro L; [reflexivity|].
  cbn [ArgLocator].
  destruct (nth_error vals c) as [[k v]|] eqn:E; [|apply nth_error_None in E; lia].
  unfold src_list at 1. rewrite nth_error_map, E. cbn [option_map of_option obind fst snd].
  assert (F : firstn (S c) vals = firstn c vals ++ [(k, v)]).
  { clear IH. revert vals L E. induction c as [|c IHc]; intros [|y t] L E; cbn in *; try discriminate; try lia.
    - congruence.
    - f_equal. apply IHc; auto; lia. }
  rewrite F, IH by lia.
  assert (NA : forall l k v, named (l ++ [(k, v)]) n = if Nat.eqb k n then Some v else named l n).
  { clear. induction l as [|[k' v'] l IH]; intros k v; cbn.
    - destruct (Nat.eqb k n); auto.
    - rewrite IH. destruct (Nat.eqb k n); auto. }
  rewrite NA. destruct (Nat.eqb k n); auto.
Qed.

Lemma Assign_spec : forall vals params k m,
  (forall i p v, nth_error params i = Some p -> named vals (k + i) = Some v -> assignable m p) ->
  exists m', Assign k m (src_list vals) params = Def m' /\ live_as m m' /\
    (forall a, untouched (fun i => named vals (k + i)) params a -> load m' a = load m a) /\
    (forall a i p v, nth_error params i = Some p -> designates p a -> named vals (k + i) = Some v ->
       (forall j q w, i < j -> nth_error params j = Some q -> named vals (k + j) = Some w -> ~ designates q a) -> load m' a = Def v).
Proof.
  intros vals. induction params as [|p params IH]; intros k m A; cbn [Assign].
  - exists m. split; auto. split; [intros a H; exact H|]. split; auto. intros a [|i] p v E; discriminate.
  - rewrite locator_spec by (unfold src_list; rewrite map_length; auto).
    unfold src_list at 1. rewrite map_length, firstn_all.
    assert (S1 : exists m1, match named vals k with Some v => assign_to m p (SVal v) | None => Def m end = Def m1 /\
       live_as m m1 /\
       (named vals k = None -> m1 = m) /\
       forall v a, named vals k = Some v -> designates p a ->
          forall b, load m1 b = if Nat.eqb a b then Def v else load m b).
    { destruct (named vals k) as [v|] eqn:N.
      - destruct (A 0 p v eq_refl) as (a & w & D & La); [now rewrite Nat.add_0_r|].
        destruct (assign_spec m p v a D (ex_intro _ w La)) as (m1 & E1 & R1).
        exists m1. split; [exact E1|]. split; [|split].
        + intros b Hb. rewrite R1. destruct (Nat.eqb a b); eauto.
        + discriminate.
        + intros v' a' X D' b. injection X as <-. rewrite (designates_fun _ _ _ D' D). apply R1.
      - exists m. repeat split; auto; try discriminate. intros a H; exact H. }
    destruct S1 as (m1 & E1 & LV1 & N1 & R1). rewrite E1. cbn [obind].
    destruct (IH (S k) m1) as (m2 & E2 & LV2 & U2 & G2).
    { intros i q v Ei Nv. destruct (A (S i) q v Ei) as (a & w & D & La).
      - now replace (k + S i) with (S k + i) by lia.
      - destruct (LV1 a (ex_intro _ w La)) as [w' La']. exists a, w'. auto. }
    exists m2. split; [exact E2|]. split; [|split].
    + intros b Hb. apply LV2. now apply LV1.
    + intros b Ub. rewrite U2.
      * destruct (named vals k) as [v|] eqn:N.
        -- destruct (A 0 p v eq_refl) as (a & w & D & La); [now rewrite Nat.add_0_r|].
           rewrite (R1 v a eq_refl D). destruct (Nat.eqb_spec a b) as [E|E]; auto. subst b.
           specialize (Ub 0 p eq_refl D). cbn beta in Ub. rewrite Nat.add_0_r in Ub. congruence.
        -- now rewrite N1.
      * intros i q Ei Di. specialize (Ub (S i) q Ei Di). cbn beta in *. now replace (S k + i) with (k + S i) by lia.
    + intros b i q v Ei Di Nv F. destruct i as [|i]; cbn in Ei.
      * injection Ei as <-. rewrite Nat.add_0_r in Nv. rewrite U2.
        -- rewrite (R1 v b Nv Di), Nat.eqb_refl. reflexivity.
        -- intros j q' Ej Dj. cbn beta. destruct (named vals (S k + j)) as [w|] eqn:W; auto. exfalso.
           apply (F (S j) q' w ltac:(lia) Ej); auto. now replace (k + S j) with (S k + j) by lia.
      * apply (G2 b i q v Ei Di).
        -- now replace (S k + i) with (k + S i) by lia.
        -- intros j q' w Hj Ej W. apply (F (S j) q' w ltac:(lia) Ej). now replace (k + S j) with (S k + j) by lia.
Qed.

(** C44 *)
Theorem return_and_set_named : forall m (r : option val) vals params,
  (forall i p v, nth_error params i = Some p -> named vals (S i) = Some v -> assignable m p) ->
  exists m', assigner_placeholders m (option_map SVal r) (src_list vals) params =
               Def (m', match r with Some x => x | None => VVoid end) /\
    (forall a, untouched (fun i => named vals (S i)) params a -> load m' a = load m a) /\
    (forall a i p v, nth_error params i = Some p -> designates p a -> named vals (S i) = Some v ->
       (forall j q w, i < j -> nth_error params j = Some q -> named vals (S j) = Some w -> ~ designates q a) -> load m' a = Def v).
Proof.
  intros m r vals params A. unfold assigner_placeholders.
  destruct (Assign_spec vals params 1 m A) as (m' & E & _ & U & G). rewrite E. cbn [obind].
  exists m'. destruct r; cbn; auto.
Qed.

Lemma lvalue_by_reference : exists (m m' : mem) (a : addr),
  load m a = Def (VInt 1) /\ store m a (VInt 2) = Def m' /\
  assigner_positional m' (Some (SRef a)) [] [] = Def (m', VInt 2).
Proof. exists [Some (VInt 1)], [Some (VInt 2)], 0. repeat split. Qed.

(** The result given as a variable: the assignments are those made without a result, and
    the variable is read after them. *)
Lemma walker_result : forall r vals n m params, n <= length vals ->
  ParamWalker n m (r :: vals) params = ParamWalker n m vals params.
Proof.
  intros r vals. induction n as [|n IH]; intros m params L; [reflexivity|].
  cbn [ParamWalker]. destruct params as [|p rest]; [reflexivity|]. rewrite IH by lia.
  destruct (ParamWalker n m vals rest) as [m'| |]; cbn [obind]; try reflexivity.
  replace (length (r :: vals) - S n) with (S (length vals - S n)) by (cbn [length]; lia). reflexivity.
Qed.

Lemma variable_result : forall m a vals params m' v,
  assigner_positional m (Some (SRef a)) vals params = Def (m', v) <->
  assigner_positional m None vals params = Def (m', VVoid) /\ load m' a = Def v.
Proof.
  intros m a vals params m' v. unfold assigner_positional. rewrite walker_result by lia.
  destruct (ParamWalker (length vals) m vals params) as [m1| |]; cbn [obind src_read].
  - destruct (load m1 a) as [w| |] eqn:E; cbn [obind].
    + split; [intros H; inversion H; subst; auto|intros [H1 H2]; inversion H1; subst; congruence].
    + split; [discriminate|intros [H1 H2]; inversion H1; subst; congruence].
    + split; [discriminate|intros [H1 H2]; inversion H1; subst; congruence].
  - split; [discriminate|intros [H _]; discriminate].
  - split; [discriminate|intros [H _]; discriminate].
Qed.

Lemma variable_result_named : forall m a vals params m' v,
  assigner_placeholders m (Some (SRef a)) vals params = Def (m', v) <->
  assigner_placeholders m None vals params = Def (m', VVoid) /\ load m' a = Def v.
Proof.
  intros m a vals params m' v. unfold assigner_placeholders.
  destruct (Assign 1 m vals params) as [m1| |]; cbn [obind src_read].
  - destruct (load m1 a) as [w| |] eqn:E; cbn [obind].
    + split; [intros H; inversion H; subst; auto|intros [H1 H2]; inversion H1; subst; congruence].
    + split; [discriminate|intros [H1 H2]; inversion H1; subst; congruence].
    + split; [discriminate|intros [H1 H2]; inversion H1; subst; congruence].
  - split; [discriminate|intros [H _]; discriminate].
  - split; [discriminate|intros [H _]; discriminate].
Qed.

(** ** Parameters that must not be assigned through *)

Lemma load_def : forall m a, load m a = UB \/ exists v, load m a = Def v.
Proof. intros m a. unfold load. destruct (nth_error m a) as [[v|]|]; eauto. Qed.

Lemma store_def : forall m a v, store m a v = UB \/ exists m', store m a v = Def m' /\ forall b, load m' b = UB <-> load m b = UB.
Proof.
  intros m a v. unfold store. destruct (nth_error m a) as [[w|]|] eqn:E; auto. right. eexists. split; [reflexivity|].
  intro b. assert (S : store m a v = Def (upd m a (Some v))) by (unfold store; now rewrite E).
  rewrite (load_store m a v _ b S). destruct (Nat.eqb_spec a b) as [<-|N]; [|tauto].
  unfold load. rewrite E. split; discriminate.
Qed.

Lemma src_def : forall m s, src_read m s = UB \/ exists v, src_read m s = Def v.
Proof. intros m [v|a]; cbn; [right; eauto|apply load_def]. Qed.

Lemma assign_def : forall m p s, assign_to m p s = UB \/
  exists m', assign_to m p s = Def m' /\ ~ hazardous m p /\ forall b, load m' b = UB <-> load m b = UB.
Proof.
  intros m p s. unfold assign_to. destruct (src_def m s) as [-> |[v ->]]; [auto|]. cbn [obind].
  assert (H : GetArg p = UB \/ (exists a, GetArg p = Def (TCell a) /\ designates p a) \/
    (GetArg p = Def TTemp /\ forall a, ~ designates p a)).
  { unfold designates. destruct p as [| | | | | |[a|]|[a|]|a|]; cbn; auto;
    try (right; left; eexists; split; [reflexivity|auto]; fail);
    right; right; (split; [reflexivity|]); intros a' [X|[X|X]]; discriminate. }
  destruct H as [-> |[(a & G & D)|[G D]]]; [auto| |].
  - rewrite G. cbn [obind]. destruct (store_def m a v) as [-> |(m' & S & L)]; [auto|]. right. exists m'.
    split; [exact S|]. split; [|exact L]. intros [X|[X|(b & X & Y)]].
    + subst p. destruct D as [D|[D|D]]; discriminate.
    + subst p. destruct D as [D|[D|D]]; discriminate.
    + rewrite (designates_fun p b a X D) in Y. unfold store in S. unfold load in Y.
      destruct (nth_error m a) as [[w|]|]; discriminate.
  - rewrite G. right. exists m. split; [reflexivity|]. split; [|tauto]. intros [X|[X|(b & X & _)]].
    + subst p. discriminate.
    + subst p. discriminate.
    + exact (D b X).
Qed.

Lemma hazardous_same : forall m m' p, (forall b, load m' b = UB <-> load m b = UB) -> hazardous m p <-> hazardous m' p.
Proof.
  intros m m' p L. unfold hazardous.
  split; intros [X|[X|(a & D & X)]]; auto; right; right; exists a; split; auto; now apply L.
Qed.

Lemma walker_def : forall vals n m params, ParamWalker n m vals params = UB \/
  exists m', ParamWalker n m vals params = Def m' /\ (forall b, load m' b = UB <-> load m b = UB) /\
    forall i p, i < n -> nth_error params i = Some p -> ~ hazardous m p.
Proof.
  intros vals. induction n as [|n IH]; intros m params; cbn [ParamWalker].
  - right. exists m. split; [reflexivity|]. split; [tauto|]. intros i p L. lia.
  - destruct params as [|p0 rest]; [auto|]. destruct (IH m rest) as [-> |(m1 & E & L & H)]; [auto|].
    rewrite E. cbn [obind]. destruct (nth_error vals (length vals - Datatypes.S n)) as [s|]; [|auto]. cbn [of_option obind].
    destruct (assign_def m1 p0 s) as [-> |(m2 & A & NH & L2)]; [auto|]. right. exists m2.
    split; [exact A|]. split; [intro b; rewrite L2; apply L|]. intros [|i] p I N.
    + cbn in N. injection N as <-. rewrite (hazardous_same m m1) by exact L. exact NH.
    + apply (H i); [lia|exact N].
Qed.

Theorem positional_undefined : forall m r vals params i p, i < length vals -> nth_error params i = Some p -> hazardous m p ->
  assigner_positional m r vals params = UB.
Proof.
  intros m r vals params i p I N H. unfold assigner_positional. destruct r as [r0|].
  - destruct (walker_def (r0 :: vals) (length vals) m params) as [-> |(m' & _ & _ & X)]; [reflexivity|].
    destruct (X i p I N H).
  - destruct (walker_def vals (length vals) m params) as [-> |(m' & _ & _ & X)]; [reflexivity|].
    destruct (X i p I N H).
Qed.

Lemma locator_def : forall vals k c m p, c <= length vals -> ArgLocator k c m p vals = UB \/
  exists m', ArgLocator k c m p vals = Def m' /\ (forall b, load m' b = UB <-> load m b = UB) /\
    ((exists j s, j < c /\ nth_error vals j = Some (k, s)) -> ~ hazardous m p).
Proof.
  intros vals k. induction c as [|c IH]; intros m p L; cbn [ArgLocator].
  - right. exists m. split; [reflexivity|]. split; [tauto|]. intros (j & s & J & _). lia.
  - destruct (nth_error vals c) as [[pos s]|] eqn:E; [|apply nth_error_None in E; lia]. cbn [of_option obind].
    destruct (Nat.eqb_spec pos k) as [-> |NE].
    + destruct (assign_def m p s) as [-> |(m' & A & NH & L')]; [auto|]. right. exists m'. auto.
    + destruct (IH m p) as [-> |(m' & A & L' & X)]; [lia|auto|]. right. exists m'. split; [exact A|]. split; [exact L'|].
      intros (j & s' & J & F). apply X. exists j, s'. split; [|exact F].
      assert (j <> c) by (intros ->; rewrite E in F; congruence). lia.
Qed.

Lemma Assign_def : forall vals params k m, Assign k m vals params = UB \/
  exists m', Assign k m vals params = Def m' /\ (forall b, load m' b = UB <-> load m b = UB) /\
    forall i p s, nth_error params i = Some p -> In (k + i, s) vals -> ~ hazardous m p.
Proof.
  intros vals. induction params as [|p0 rest IH]; intros k m; cbn [Assign].
  - right. exists m. split; [reflexivity|]. split; [tauto|]. intros [|i] p s N; discriminate.
  - destruct (locator_def vals k (length vals) m p0 (le_n _)) as [-> |(m1 & A & L1 & X)]; [auto|].
    rewrite A. cbn [obind]. destruct (IH (Datatypes.S k) m1) as [-> |(m2 & B & L2 & Y)]; [auto|].
    right. exists m2. split; [exact B|]. split; [intro b; rewrite L2; apply L1|]. intros [|i] p s N J.
    + cbn in N. injection N as <-. apply X. rewrite Nat.add_0_r in J. apply In_nth_error in J as (j & J).
      exists j, s. split; [apply nth_error_Some; congruence|exact J].
    + rewrite (hazardous_same m m1) by exact L1. apply (Y i p s N). replace (Datatypes.S k + i) with (k + Datatypes.S i) by lia. exact J.
Qed.

Theorem placeholders_undefined : forall m r vals params i p s, nth_error params i = Some p -> In (Datatypes.S i, s) vals -> hazardous m p ->
  assigner_placeholders m r vals params = UB.
Proof.
  intros m r vals params i p s N J H. unfold assigner_placeholders.
  destruct (Assign_def vals params 1 m) as [-> |(m' & _ & _ & X)]; [reflexivity|]. destruct (X i p s N J H).
Qed.
