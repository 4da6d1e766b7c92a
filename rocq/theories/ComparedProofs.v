(** Proofs about Compared.v. *)
From Coq Require Import Bool Arith Lia List.
From Verif Require Import Base Asked Compared Spec_Compared.
Import ListNotations.

Section Proofs.
Context {T A E K P : Type}.
Variable compare : T -> op -> A -> E -> T * reply.
Variable other : K -> A -> outcome bool.
Variable predicate : T -> P -> list A -> T * reply.
Local Notation ran := (@ran T A E P compare predicate).
Local Notation passed := (@passed A E K P other).
Local Notation refused := (@refused A E K P other).
Local Notation for_each := (@for_each T A E K P compare other).
Local Notation weigh := (@weigh T A E K P compare other predicate).

Lemma ran_app : forall qs t t1 qs' t', ran t qs t1 -> ran t1 qs' t' -> ran t (qs ++ qs') t'.
Proof.
  induction qs as [|q qs IH]; intros t t1 qs' t' H1 H2; inversion H1; subst; cbn; [assumption|].
  econstructor; [eassumption|]. eapply IH; eassumption.
Qed.

Lemma passed_mono : forall qs qs' ms args p, incl qs qs' -> passed qs ms args p -> passed qs' ms args p.
Proof.
  intros qs qs' ms args p S (m & a & H1 & H2 & H3). exists m, a. split; [assumption|]. split; [assumption|].
  destruct m; try assumption. destruct H3 as (q & I1 & I2). exists q. split; [apply S; assumption|assumption].
Qed.

Lemma refused_mono : forall qs qs' ms args p, incl qs qs' -> refused qs ms args p -> refused qs' ms args p.
Proof.
  intros qs qs' ms args p S (m & a & H1 & H2 & H3). exists m, a. split; [assumption|]. split; [assumption|].
  destruct m; try assumption. destruct H3 as (q & I1 & I2). exists q. split; [apply S; assumption|assumption].
Qed.

(** After a refusal nothing happens any more. *)
Lemma for_each_false : forall rank ms args i t, i + length args <= length ms -> for_each rank ms i args false t = Def (t, [], No).
Proof.
  intros rank ms. induction args as [|a args IH]; intros i t L; cbn; [reflexivity|].
  cbn in L. destruct (nth_error ms i) eqn:N; [|apply nth_error_None in N; lia]. apply IH. lia.
Qed.

(** What was compared from position i on. *)
Definition from (i rank : nat) (ms : list (matcher E K)) (full : list A) (qs : list (entry A E P)) (x : reply) : Prop :=
  Forall (fun q => i <= e_pos q /\ e_rank q = rank /\ of_position ms full q) qs /\ sorted lt (map e_pos qs) /\
  (forall q p, In q qs -> i <= p -> p < e_pos q -> passed qs ms full p) /\
  match x with
  | Yes => forall p, i <= p -> p < length full -> passed qs ms full p
  | No => exists p, i <= p /\ refused qs ms full p /\ (forall p', i <= p' -> p' < p -> passed qs ms full p') /\ Forall (fun q => e_pos q <= p) qs
  | Raise => ends_raised qs
  end.

Lemma for_each_from : forall rank ms args pre t t' qs x, length (pre ++ args) = length ms ->
  for_each rank ms (length pre) args true t = Def (t', qs, x) -> ran t qs t' /\ from (length pre) rank ms (pre ++ args) qs x.
Proof.
  intros rank ms. induction args as [|a args IH]; intros pre t t' qs x L H.
  - cbn in H. inversion H; subst. split; [constructor|]. repeat split; try constructor; try (intros; easy).
    intros p L1 L2. rewrite app_nil_r in L2. lia.
  - cbn [Compared.for_each] in H. destruct (nth_error ms (length pre)) as [m|] eqn:N; [|discriminate].
    assert (nth_error (pre ++ a :: args) (length pre) = Some a) as NA by (rewrite nth_error_app2, Nat.sub_diag; [reflexivity|lia]).
    assert (pre ++ a :: args = (pre ++ [a]) ++ args) as EA by (rewrite <- app_assoc; reflexivity).
    assert (length (pre ++ [a]) = S (length pre)) as LA by (rewrite app_length; cbn; lia).
    rewrite app_length in L. cbn in L.
    destruct (weigh_one compare other rank (length pre) t m a) as [[[t1 q] y]| |] eqn:W; cbn [obind] in H; try discriminate.
    assert (ran t q t1 /\ Forall (fun z => e_pos z = length pre /\ e_rank z = rank /\ of_position ms (pre ++ a :: args) z) q /\
      match y with
      | Yes => passed q ms (pre ++ a :: args) (length pre)
      | No => refused q ms (pre ++ a :: args) (length pre)
      | Raise => exists z, q = [z] /\ e_said z = Raise
      end /\ (length q <= 1)) as (R1 & F1 & Y1 & L1).
    { destruct m as [|o e|k]; cbn in W.
      - inversion W; subst. split; [constructor|]. split; [constructor|]. split; [|cbn; lia]. exists MAny, a. auto.
      - destruct (compare t o a e) as [t2 y2] eqn:C. inversion W; subst. split; [econstructor; [exact C|constructor]|].
        split; [|split; [|cbn; lia]].
        + repeat constructor; cbn. exists o, e, a. auto.
        + destruct y.
          * exists (MCmp o e), a. repeat (split; [assumption|]). eexists. split; [left; reflexivity|]. auto.
          * exists (MCmp o e), a. repeat (split; [assumption|]). eexists. split; [left; reflexivity|]. auto.
          * eexists. split; reflexivity.
      - destruct (other k a) as [b| |] eqn:O; cbn in W; try discriminate. inversion W; subst. split; [constructor|].
        split; [constructor|]. split; [|cbn; lia]. destruct b; exists (MOther k), a; auto. }
    destruct y.
    + destruct (for_each rank ms (S (length pre)) args true t1) as [[[t2 qs2] y2]| |] eqn:F; cbn [obind] in H; try discriminate.
      inversion H; subst. clear H. rewrite <- LA in F. apply IH in F; [|rewrite <- EA, app_length; cbn; lia].
      destruct F as (R2 & F2 & S2 & P2 & X2). rewrite <- EA in *. rewrite LA in *. split; [eapply ran_app; eassumption|].
      assert (forall p, length pre <= p -> (S (length pre) <= p -> passed qs2 ms (pre ++ a :: args) p) -> passed (q ++ qs2) ms (pre ++ a :: args) p) as PP.
      { intros p Lp Hp. destruct (Nat.eq_dec p (length pre)) as [->|D].
        - eapply passed_mono; [|exact Y1]. intros z Hz. apply in_or_app. auto.
        - eapply passed_mono; [|apply Hp; lia]. intros z Hz. apply in_or_app. auto. }
      split; [|split; [|split]].
      * apply Forall_app. split; eapply Forall_impl; try eassumption; cbn; intros z Hz.
        -- destruct Hz as (Z1 & Z2 & Z3). repeat split; try assumption. lia.
        -- destruct Hz as (Z1 & Z2 & Z3). repeat split; try assumption. lia.
      * destruct q as [|z [|? ?]]; cbn in L1; [exact S2| |lia]. cbn. split; [|exact S2].
        inversion F1 as [|? ? (Z1 & _) _]; subst. apply Forall_map. eapply Forall_impl; [|exact F2]. cbn. intros w (W1 & _). lia.
      * intros z p Hz Lp Lz. apply in_app_or in Hz. destruct Hz as [Hz|Hz].
        -- rewrite Forall_forall in F1. destruct (F1 _ Hz) as (Z1 & _). lia.
        -- apply PP; [assumption|]. intros Lp'. eapply P2; eassumption.
      * destruct x.
        -- intros p Lp Lp'. apply PP; [assumption|]. intros. apply X2; assumption.
        -- destruct X2 as (p & G1 & G2 & G3 & G4). exists p. split; [lia|]. split; [|split].
           ++ eapply refused_mono; [|exact G2]. intros z Hz. apply in_or_app. auto.
           ++ intros p' Lp1 Lp2. apply PP; [assumption|]. intros. apply G3; assumption.
           ++ apply Forall_app. split; [|assumption]. eapply Forall_impl; [|exact F1]. cbn. intros z (Z1 & _). lia.
        -- destruct X2 as (l & z & -> & Z1 & Z2). exists (q ++ l), z. rewrite app_assoc. split; [reflexivity|]. split; [assumption|].
           apply Forall_app. split; [|assumption].
           destruct Y1 as (m' & a' & M1 & M2 & M3). rewrite N in M1. inversion M1; subst m'.
           destruct q as [|w [|? ?]]; cbn in L1; [constructor| |lia].
           inversion F1 as [|? ? (W1 & W2 & W3) _]; subst. destruct W3 as (o & e & a2 & V1 & V2 & V3).
           rewrite W1, N in V1. inversion V1; subst m.
           destruct M3 as (u & U1 & U2 & U3 & U4). destruct U1 as [->|[]]. constructor; [assumption|constructor].
    + rewrite for_each_false in H; [|lia]. cbn [obind] in H. inversion H; subst. rewrite app_nil_r. split; [assumption|].
      split; [|split; [|split]].
      * eapply Forall_impl; [|exact F1]. cbn. intros z (Z1 & Z2 & Z3). repeat split; try assumption. lia.
      * destruct q as [|z [|? ?]]; cbn in L1 |- *; auto; lia.
      * intros z p Hz Lp Lz. rewrite Forall_forall in F1. destruct (F1 _ Hz) as (Z1 & _). lia.
      * exists (length pre). split; [lia|]. split; [assumption|]. split; [intros; lia|].
        eapply Forall_impl; [|exact F1]. cbn. intros z (Z1 & _). lia.
    + inversion H; subst. split; [assumption|]. destruct Y1 as (z & -> & Z).
      split; [|split; [|split]].
      * eapply Forall_impl; [|exact F1]. cbn. intros w (Z1 & Z2 & Z3). repeat split; try assumption. lia.
      * cbn. auto.
      * intros w p Hz Lp Lz. rewrite Forall_forall in F1. destruct (F1 _ Hz) as (Z1 & _). lia.
      * exists [], z. auto.
Qed.

Lemma weigh_spec : forall rank c args t t' qs x, fits (length args) c -> weigh rank c args t = Def (t', qs, x) ->
  ran t qs t' /\ Forall (fun q => e_rank q = rank) qs /\ weighed other c args qs x.
Proof.
  intros rank c args t t' qs x F H. destruct c as [ms|p|]; cbn in F, H.
  - apply (for_each_from rank ms args []) in H; [|cbn; symmetry; exact F]. cbn [length app] in H.
    destruct H as (R & F1 & S1 & P1 & X1). split; [assumption|]. split.
    + eapply Forall_impl; [|exact F1]. cbn. tauto.
    + split; [eapply Forall_impl; [|exact F1]; cbn; tauto|]. split; [assumption|]. split.
      * intros q p Hq Lp. eapply P1; [eassumption|lia|assumption].
      * destruct x.
        -- intros p Lp. apply X1; [lia|assumption].
        -- destruct X1 as (p & _ & G2 & G3 & G4). exists p. repeat split; try assumption. intros. apply G3; [lia|assumption].
        -- assumption.
  - destruct (predicate t p args) as [t1 y] eqn:Q. inversion H; subst. split; [econstructor; [exact Q|constructor]|].
    split; [repeat constructor|]. eexists. repeat split.
  - inversion H; subst. repeat split; constructor.
Qed.

Lemma for_each_total : forall rank ms args i t, i + length args <= length ms ->
  (forall p m a, nth_error ms (i + p) = Some m -> nth_error args p = Some a -> safe_at other m a) ->
  exists t' qs x, for_each rank ms i args true t = Def (t', qs, x).
Proof.
  intros rank ms. induction args as [|a args IH]; intros i t L S; cbn; [eauto|]. cbn in L.
  destruct (nth_error ms i) as [m|] eqn:N; [|apply nth_error_None in N; lia].
  assert (exists t1 q y, weigh_one (P:=P) compare other rank i t m a = Def (t1, q, y)) as (t1 & q & y & W).
  { destruct m as [|o e|k]; cbn; [eauto| |].
    - destruct (compare t o a e); eauto.
    - destruct (S 0 (MOther k) a) as [b B]; [rewrite Nat.add_0_r; assumption|reflexivity|]. rewrite B. cbn. eauto. }
  rewrite W. cbn [obind]. destruct y.
  - destruct (IH (Datatypes.S i) t1) as (t2 & qs & x & F); [lia| |].
    + intros p m' a' Hm Ha. apply (S (Datatypes.S p)); [rewrite Nat.add_succ_r; exact Hm|exact Ha].
    + rewrite F. cbn. eauto.
  - rewrite for_each_false by lia. cbn. eauto.
  - eauto.
Qed.

Lemma weigh_total : forall rank c args t, fits (length args) c -> safe other c args ->
  exists t' qs x, weigh rank c args t = Def (t', qs, x).
Proof.
  intros rank c args t F S. destruct c as [ms|p|]; cbn in *.
  - apply for_each_total; [lia|]. exact S.
  - destruct (predicate t p args); eauto.
  - eauto.
Qed.

(** A refusing element on the left. *)
Lemma for_each_guard : forall rank ms args i t g, i + length args <= length ms ->
  (exists m a, nth_error ms (i + g) = Some m /\ nth_error args g = Some a /\ never compare other m a) ->
  (forall p m a, p < g -> nth_error ms (i + p) = Some m -> nth_error args p = Some a -> safe_at other m a) ->
  exists t' qs x, for_each rank ms i args true t = Def (t', qs, x) /\ x <> Yes /\ Forall (fun q => e_pos q <= i + g) qs.
Proof.
  intros rank ms. induction args as [|a args IH]; intros i t g L (m0 & a0 & M0 & A0 & N0) S; [destruct g; discriminate|].
  cbn in L. cbn [Compared.for_each].
  destruct (nth_error ms i) as [m|] eqn:N; [|apply nth_error_None in N; lia].
  assert (exists t1 q y, weigh_one (P:=P) compare other rank i t m a = Def (t1, q, y) /\ Forall (fun q => e_pos q = i) q /\ (g = 0 -> y <> Yes)) as (t1 & q & y & W & Q & G).
  { destruct g as [|g].
    - rewrite Nat.add_0_r, N in M0. inversion M0; subst m0. cbn in A0. inversion A0; subst a0.
      destruct m as [|o e|k]; cbn in N0 |- *; [contradiction| |].
      + specialize (N0 t). destruct (compare t o a e) as [t1 y]. do 3 eexists. split; [reflexivity|]. split; [repeat constructor|auto].
      + rewrite N0. cbn. do 3 eexists. split; [reflexivity|]. split; [constructor|discriminate].
    - destruct m as [|o e|k]; cbn.
      + do 3 eexists. split; [reflexivity|]. split; [constructor|discriminate].
      + destruct (compare t o a e) as [t1 y]. do 3 eexists. split; [reflexivity|]. split; [repeat constructor|discriminate].
      + destruct (S 0 (MOther k) a) as [b B]; [lia|rewrite Nat.add_0_r; assumption|reflexivity|]. rewrite B. cbn.
        do 3 eexists. split; [reflexivity|]. split; [constructor|discriminate]. }
  assert (Forall (fun q => e_pos q <= i + g) q) as Q' by (eapply Forall_impl; [|exact Q]; cbn; intros; lia).
  rewrite W. cbn [obind]. destruct y.
  - destruct g as [|g]; [exfalso; apply G; reflexivity|].
    destruct (IH (Datatypes.S i) t1 g) as (t2 & qs & x & F & F1 & F2); [lia| | |].
    + exists m0, a0. split; [rewrite Nat.add_succ_r in M0; exact M0|]. split; [exact A0|exact N0].
    + intros p m' a' Lp Hm Ha. apply (S (Datatypes.S p)); [lia|rewrite Nat.add_succ_r; exact Hm|exact Ha].
    + rewrite F. cbn [obind]. do 3 eexists. split; [reflexivity|]. split; [assumption|]. apply Forall_app. split; [assumption|].
      eapply Forall_impl; [|exact F2]. cbn. intros; lia.
  - rewrite for_each_false by lia. cbn [obind]. do 3 eexists. split; [reflexivity|]. split; [discriminate|].
    rewrite app_nil_r. assumption.
  - do 3 eexists. split; [reflexivity|]. split; [discriminate|assumption].
Qed.

Lemma guard : forall rank ms args t g, length ms = length args -> guarded compare other ms args g ->
  exists t' qs x, weigh rank (CUsing ms) args t = Def (t', qs, x) /\ x <> Yes /\ Forall (fun q => e_pos q <= g) qs.
Proof. intros rank ms args t g L (G1 & G2). apply (for_each_guard rank ms args 0 t g); [cbn; lia|exact G1|exact G2]. Qed.

(** The search of a call. *)
Lemma find_decided : forall stubs args rank t t' qs r, Forall (fun s => fits (length args) (snd s)) stubs ->
  find compare other predicate rank stubs args t = Def (t', qs, r) -> decided compare other predicate args rank t stubs qs r t'.
Proof.
  induction stubs as [|[id c] stubs IH]; intros args rank t t' qs r F H; cbn [find] in H.
  - inversion H; subst. constructor.
  - inversion F as [|? ? F1 F2]; subst. cbn in F1.
    replace (matches compare other predicate rank id c None args t) with (weigh rank c args t) in H by (destruct c; reflexivity).
    destruct (weigh rank c args t) as [[[t1 q] x]| |] eqn:W; cbn [obind] in H; try discriminate.
    apply weigh_spec in W; [|assumption]. destruct W as (W1 & W2 & W3). destruct x.
    + inversion H; subst. eapply DYes; eassumption.
    + destruct (find compare other predicate (S rank) stubs args t1) as [[[t2 q2] r2]| |] eqn:G; cbn [obind] in H; try discriminate.
      inversion H; subst. eapply DNo; try eassumption. apply IH; assumption.
    + inversion H; subst. eapply DRaise; eassumption.
Qed.

Lemma find_total : forall stubs args rank t, Forall (fun s => fits (length args) (snd s) /\ safe other (snd s) args) stubs ->
  exists t' qs r, find compare other predicate rank stubs args t = Def (t', qs, r).
Proof.
  induction stubs as [|[id c] stubs IH]; intros args rank t F; cbn [find]; [eauto|].
  inversion F as [|? ? (F1 & F2) F3]; subst. cbn in F1, F2.
  replace (matches compare other predicate rank id c None args t) with (weigh rank c args t) by (destruct c; reflexivity).
  destruct (weigh_total rank c args t F1 F2) as (t1 & q & x & W). rewrite W. cbn [obind]. destruct x; eauto.
  destruct (IH args (S rank) t1 F3) as (t2 & q2 & r & G). rewrite G. cbn. eauto.
Qed.

Lemma weighed_sorted : forall (c : cond E K P) (args : list A) (qs : list (entry A E P)) x rank, Forall (fun q => e_rank q = rank) qs -> weighed other c args qs x -> sorted earlier qs.
Proof.
  intros c args qs x rank F W. destruct c as [ms|p|]; cbn in W.
  - destruct W as (_ & S & _). induction qs as [|q qs IH]; cbn in *; [auto|]. inversion F as [|? ? F1 F2]; subst. destruct S as (S1 & S2).
    split; [|apply IH; assumption]. rewrite Forall_map in S1. rewrite Forall_forall in *. intros z Hz. right.
    split; [symmetry; apply F2; assumption|apply S1; assumption].
  - destruct W as (q & -> & _). cbn. auto.
  - destruct W as (-> & _). cbn. auto.
Qed.

Lemma sorted_app : forall (l l' : list (entry A E P)), sorted earlier l -> sorted earlier l' ->
  (forall a b, In a l -> In b l' -> earlier a b) -> sorted earlier (l ++ l').
Proof.
  induction l as [|q l IH]; intros l' S1 S2 H; cbn; [assumption|]. destruct S1 as (S1 & S3). split.
  - apply Forall_app. split; [assumption|]. apply Forall_forall. intros z Hz. apply H; [left; reflexivity|assumption].
  - apply IH; try assumption. intros a b Ha Hb. apply H; [right; assumption|assumption].
Qed.

Lemma decided_sorted : forall args rank t stubs qs r t', decided compare other predicate args rank t stubs qs r t' ->
  ran t qs t' /\ sorted earlier qs /\ Forall (fun q => rank <= e_rank q < rank + length stubs) qs.
Proof.
  induction 1 as [rank t|rank t id c older qs t1 qs' r t' R F W D (R2 & S2 & F2)|rank t id c older qs t' R F W|rank t id c older qs t' R F W].
  - repeat constructor.
  - split; [eapply ran_app; eassumption|]. split.
    + apply sorted_app; [eapply weighed_sorted; eassumption|assumption|]. intros a b Ha Hb. left.
      rewrite Forall_forall in *. rewrite (F _ Ha). specialize (F2 _ Hb). lia.
    + cbn. apply Forall_app. split; eapply Forall_impl; try eassumption; cbn; intros; lia.
  - split; [assumption|]. split; [eapply weighed_sorted; eassumption|]. cbn. eapply Forall_impl; [|exact F]. cbn. intros; lia.
  - split; [assumption|]. split; [eapply weighed_sorted; eassumption|]. cbn. eapply Forall_impl; [|exact F]. cbn. intros; lia.
Qed.

Lemma call_decided : forall m args t m' t' qs r, Forall (fun s => fits (length args) (snd s)) (m_stubs m) ->
  call compare other predicate m args t = Def (m', t', qs, r) ->
  decided compare other predicate args 0 t (rev (m_stubs m)) qs r t' /\ m_stubs m' = m_stubs m /\ m_next m' = S (m_next m) /\
  m_calls m' = m_calls m ++ match r with Answered id => [mkRec (m_next m) id args] | _ => [] end.
Proof.
  intros m args t m' t' qs r F H. unfold call in H.
  destruct (find compare other predicate 0 (rev (m_stubs m)) args t) as [[[t1 q] r1]| |] eqn:G; cbn [obind] in H; try discriminate.
  apply find_decided in G; [|apply Forall_rev; assumption].
  destruct r1; inversion H; subst; cbn; rewrite ?app_nil_r; auto.
Qed.

Lemma call_total : forall m args t, Forall (fun s => fits (length args) (snd s) /\ safe other (snd s) args) (m_stubs m) ->
  exists m' t' qs r, call compare other predicate m args t = Def (m', t', qs, r).
Proof.
  intros m args t F. unfold call. destruct (find_total (rev (m_stubs m)) args 0 t (Forall_rev F)) as (t' & qs & r & G).
  rewrite G. cbn [obind]. destruct r; do 4 eexists; reflexivity.
Qed.

Lemma call_once : forall m args t m' t' qs r, Forall (fun s => fits (length args) (snd s)) (m_stubs m) ->
  call compare other predicate m args t = Def (m', t', qs, r) ->
  ran t qs t' /\ sorted earlier qs /\ NoDup (map (fun q => (e_rank q, e_pos q)) qs) /\ Forall (fun q => e_rank q < length (m_stubs m)) qs.
Proof.
  intros m args t m' t' qs r F H. apply call_decided in H; [|assumption]. destruct H as (H & _). apply decided_sorted in H.
  destruct H as (H1 & H2 & H3). split; [assumption|]. split; [assumption|]. split.
  - clear H1 H3. induction qs as [|q qs IH]; cbn in *; [constructor|]. destruct H2 as (H2 & H3). constructor; [|apply IH; assumption].
    intros I1. apply in_map_iff in I1. destruct I1 as (z & Z1 & Z2). inversion Z1. rewrite Forall_forall in H2. specialize (H2 _ Z2).
    unfold earlier in H2. lia.
  - rewrite rev_length in H3. eapply Forall_impl; [|exact H3]. cbn. intros; lia.
Qed.

(** Collecting calls. *)
Definition is_own (self : nat) (c : cond E K P) (r : call_rec (A:=A)) : bool := match c with CAll => true | _ => r_by r =? self end.

Lemma matches_own : forall rank self c args t, matches compare other predicate rank self c (Some self) args t = Def (t, [], Yes).
Proof. intros. destruct c; cbn; rewrite ?Nat.eqb_refl; reflexivity. Qed.

Lemma collect_spec : forall self c calls rank t t' qs o, Forall (fun r => fits (length (r_args r)) c) calls ->
  collect compare other predicate rank self c calls t = Def (t', qs, o) ->
  ran t qs t' /\ sorted earlier qs /\ Forall (fun q => rank <= e_rank q < rank + length calls) qs /\
  match o with
  | None => exists l q, qs = l ++ [q] /\ e_said q = Raise
  | Some chosen => exists keep, chosen = map fst (filter snd (combine calls keep)) /\ length keep = length calls /\
      forall i r b, nth_error calls i = Some r -> nth_error keep i = Some b ->
        let qi := filter (fun q => e_rank q =? rank + i) qs in
        if r_by r =? self then qi = [] /\ b = true else weighed other c (r_args r) qi (if b then Yes else No)
  end.
Proof.
  intros self c. induction calls as [|r calls IH]; intros rank t t' qs o F H; cbn [collect] in H.
  - inversion H; subst. repeat split; try constructor. exists []. repeat split. intros i r b N. destruct i; discriminate.
  - inversion F as [|? ? F1 F2]; subst.
    destruct (matches compare other predicate rank self c (Some (r_by r)) (r_args r) t) as [[[t1 q] x]| |] eqn:M; cbn [obind] in H; try discriminate.
    assert (ran t q t1 /\ Forall (fun z => e_rank z = rank) q /\ sorted earlier q /\
      (if r_by r =? self then q = [] /\ x = Yes else weighed other c (r_args r) q x) /\ (x = Raise -> exists l z, q = l ++ [z] /\ e_said z = Raise)) as (R1 & K1 & S1 & W1 & X1).
    { destruct (r_by r =? self) eqn:Q.
      - apply Nat.eqb_eq in Q. rewrite Q in M. rewrite matches_own in M. inversion M; subst. repeat split; try constructor. discriminate.
      - assert (weigh rank c (r_args r) t = Def (t1, q, x)) as W by (destruct c; cbn [matches] in M; rewrite ?Q in M; exact M).
        apply weigh_spec in W; [|assumption]. destruct W as (W1 & W2 & W3). repeat (split; [assumption|]).
        split; [eapply weighed_sorted; eassumption|]. split; [assumption|]. intros ->.
        destruct c as [ms|p|]; cbn in W3.
        + destruct W3 as (_ & _ & _ & l & z & Z1 & Z2 & _). eauto.
        + destruct W3 as (z & -> & _ & Z). exists [], z. auto.
        + destruct W3 as (_ & W3). discriminate. }
    assert (forall q2 t2 o2, collect compare other predicate (S rank) self c calls t1 = Def (t2, q2, o2) ->
      ran t (q ++ q2) t2 /\ sorted earlier (q ++ q2) /\ Forall (fun z => rank <= e_rank z < rank + length (r :: calls)) (q ++ q2)) as B.
    { intros q2 t2 o2 C. destruct (IH _ _ _ _ _ F2 C) as (R2 & S2 & K2 & _). split; [eapply ran_app; eassumption|]. split.
      - apply sorted_app; try assumption. intros a b Ha Hb. left. rewrite Forall_forall in *. rewrite (K1 _ Ha). specialize (K2 _ Hb). lia.
      - cbn. apply Forall_app. split; eapply Forall_impl; try eassumption; cbn; intros; lia. }
    assert (forall l n, Forall (fun z : entry A E P => n <= e_rank z) l -> forall k, k < n -> filter (fun z => e_rank z =? k) l = []) as FN.
    { intros l n Hl k Hk. induction Hl as [|z l Hz Hl IHl]; cbn; [reflexivity|]. destruct (Nat.eqb_spec (e_rank z) k); [lia|assumption]. }
    assert (forall k, k <> rank -> filter (fun z => e_rank z =? k) q = []) as FK.
    { intros k Hk. clear - K1 Hk. induction K1 as [|z l Hz Hl IHl]; cbn; [reflexivity|]. destruct (Nat.eqb_spec (e_rank z) k); [lia|assumption]. }
    assert (filter (fun z => e_rank z =? rank) q = q) as FQ.
    { clear - K1. induction K1 as [|z l Hz Hl IHl]; cbn; [reflexivity|]. destruct (Nat.eqb_spec (e_rank z) rank); [f_equal; assumption|lia]. }
    assert (forall b, x = (if b : bool then Yes else No) -> forall q2 t2 o2, collect compare other predicate (S rank) self c calls t1 = Def (t2, q2, o2) ->
      match o2 with
      | None => exists l z, q ++ q2 = l ++ [z] /\ e_said z = Raise
      | Some chosen => exists keep, (if b then r :: chosen else chosen) = map fst (filter snd (combine (r :: calls) (b :: keep))) /\ length (b :: keep) = length (r :: calls) /\
          forall i r' b', nth_error (r :: calls) i = Some r' -> nth_error (b :: keep) i = Some b' ->
            let qi := filter (fun z => e_rank z =? rank + i) (q ++ q2) in
            if r_by r' =? self then qi = [] /\ b' = true else weighed other c (r_args r') qi (if b' then Yes else No)
      end) as V.
    { intros b Hb q2 t2 o2 C. destruct (IH _ _ _ _ _ F2 C) as (R2 & S2 & K2 & V2). destruct o2 as [chosen|].
      - destruct V2 as (keep & V1 & V3 & V4). exists keep. split; [destruct b; cbn; rewrite V1; reflexivity|]. split; [cbn; rewrite V3; reflexivity|].
        intros i r' b' N1 N2. cbn zeta. rewrite filter_app. destruct i as [|i].
        + cbn in N1, N2. inversion N1; inversion N2; subst r' b'. rewrite Nat.add_0_r, FQ.
          rewrite (FN q2 (S rank)); [|eapply Forall_impl; [|exact K2]; cbn; intros; lia|lia]. rewrite app_nil_r.
          destruct (r_by r =? self).
          * destruct W1 as (W1 & W2). split; [assumption|]. rewrite Hb in W2. destruct b; [reflexivity|discriminate].
          * rewrite Hb in W1. exact W1.
        + cbn in N1, N2. rewrite FK by lia. cbn [app]. specialize (V4 _ _ _ N1 N2). cbn zeta in V4. rewrite <- Nat.add_succ_comm. exact V4.
      - destruct V2 as (l & z & -> & Z). exists (q ++ l), z. rewrite app_assoc. auto. }
    destruct x.
    + destruct (collect compare other predicate (S rank) self c calls t1) as [[[t2 q2] o2]| |] eqn:C; cbn [obind] in H; try discriminate.
      inversion H; subst. destruct (B _ _ _ eq_refl) as (B1 & B2 & B3). repeat (split; [assumption|]).
      specialize (V true eq_refl _ _ _ eq_refl). destruct o2 as [chosen|]; [|exact V].
      destruct V as (keep & V). exists (true :: keep). exact V.
    + destruct (collect compare other predicate (S rank) self c calls t1) as [[[t2 q2] o2]| |] eqn:C; cbn [obind] in H; try discriminate.
      inversion H; subst. destruct (B _ _ _ eq_refl) as (B1 & B2 & B3). repeat (split; [assumption|]).
      specialize (V false eq_refl _ _ _ eq_refl). destruct o as [chosen|]; [|exact V].
      destruct V as (keep & V). exists (false :: keep). exact V.
    + inversion H; subst. repeat (split; [assumption|]). split; [|apply X1; reflexivity].
      eapply Forall_impl; [|exact K1]. cbn. intros; lia.
Qed.

End Proofs.
