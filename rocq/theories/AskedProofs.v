(** Proofs for C112. *)
From Coq Require Import Bool Arith Lia List.
From Verif Require Import Base Spec_Match Asked Spec_Asked.
Import ListNotations.

Section Proofs.
Context {T M I : Type}.
Variable ask : T -> M -> I -> T * reply.
Notation question := (@question M I).
Implicit Types (qs log : list question).

Lemma dialogue_app t qs t1 qs' t2 : dialogue ask t qs t1 -> dialogue ask t1 qs' t2 -> dialogue ask t (qs ++ qs') t2.
Proof. intros D. induction D as [t|t q t1' qs t' A D IH]; intros E; cbn; [exact E|]. econstructor; [exact A|]. apply IH. exact E. Qed.

Lemma ordered_app {X} (R : X -> X -> Prop) a b :
  ordered R a -> ordered R b -> (forall x y, In x a -> In y b -> R x y) -> ordered R (a ++ b).
Proof.
  induction a as [|x a IH]; cbn; intros A B H; [exact B|]. destruct A as [F A]. split.
  - apply Forall_app. split; [exact F|]. apply Forall_forall. intros y Y. apply H; [left; reflexivity|exact Y].
  - apply IH; [exact A|exact B|]. intros y z Y Z. apply H; [right; exact Y|exact Z].
Qed.

(** How a log ends: with an exception or without any. *)
Definition quiet qs : Prop := Forall (fun q => q_said q <> Raise) qs.
Definition broken qs : Prop := exists l q, qs = l ++ [q] /\ q_said q = Raise /\ quiet l.
Definition ends {X} qs (r : option X) : Prop := match r with Some _ => quiet qs | None => broken qs end.

Lemma quiet_broken qs qs' : quiet qs -> broken qs' -> broken (qs ++ qs').
Proof.
  intros Q (l & q & -> & R & Q'). exists (qs ++ l), q. split; [rewrite app_assoc; reflexivity|]. split; [exact R|].
  apply Forall_app. split; assumption.
Qed.
Lemma quiet_ends {X} qs qs' (r : option X) : quiet qs -> ends qs' r -> ends (qs ++ qs') r.
Proof. intros Q. destruct r; cbn; [intros Q'; apply Forall_app; split; assumption|apply quiet_broken; exact Q]. Qed.

(** The log of a search between two starts. *)
Definition within (P : question -> Prop) (lo hi : nat) qs : Prop :=
  ordered before qs /\ Forall (fun q => lo <= q_start q /\ q_start q < hi /\ P q) qs.

Lemma within_app P lo mid mid' hi a b : within P lo mid a -> within P mid' hi b -> mid <= mid' -> lo <= mid' -> mid <= hi -> within P lo hi (a ++ b).
Proof.
  intros [OA FA] [OB FB] L1 L2 L3. rewrite Forall_forall in FA, FB. split.
  - apply ordered_app; [exact OA|exact OB|]. intros x y X Y. left. apply FA in X. apply FB in Y. lia.
  - apply Forall_forall. intros q Q. apply in_app_or in Q. destruct Q as [Q|Q]; [apply FA in Q|apply FB in Q]; intuition lia.
Qed.
Lemma within_nil P lo hi : within P lo hi [].
Proof. split; [exact Logic.I|constructor]. Qed.
Lemma within_weaken P (Q : question -> Prop) lo hi lo' hi' qs : within P lo hi qs -> lo' <= lo -> hi <= hi' -> (forall q, P q -> Q q) -> within Q lo' hi' qs.
Proof.
  intros [O F] L H PQ. split; [exact O|]. eapply Forall_impl; [|exact F]. intros q (A & B & C). repeat split; [lia|lia|apply PQ; exact C].
Qed.

(** [is_match] *)
Definition of_seq (all : list M) (actual : list I) (q : question) : Prop :=
  nth_error actual (q_start q + q_off q) = Some (q_call q) /\ nth_error all (q_off q) = Some (q_who q).

Lemma is_match_spec actual all : forall ms pre start t, all = pre ++ ms -> start + length all <= length actual ->
  exists t' qs b, is_match ask actual ms start (length pre) t = Def (t', qs, b) /\ dialogue ask t qs t' /\ ends qs b /\
    ordered before qs /\ Forall (fun q => q_start q = start /\ length pre <= q_off q /\ of_seq all actual q) qs.
Proof.
  induction ms as [|m ms IH]; intros pre start t E L; cbn [is_match].
  - exists t, [], (Some true). repeat split; constructor.
  - assert (length all = length pre + S (length ms)) as La by (rewrite E, app_length; reflexivity).
    destruct (nth_error actual (start + length pre)) as [a|] eqn:A; [|apply nth_error_None in A; lia].
    assert (nth_error all (length pre) = Some m) as Am by (rewrite E, nth_error_app2, Nat.sub_diag by lia; reflexivity).
    destruct (ask t m a) as [t1 x] eqn:Q. destruct x.
    + destruct (IH (pre ++ [m]) start t1) as (t2 & qs & b & R & D & N & O & F); [rewrite <- app_assoc; exact E|exact L|].
      rewrite app_length, Nat.add_1_r in R, F. cbn [length] in R, F. rewrite R. cbn [obind].
      do 3 eexists. split; [reflexivity|]. split; [econstructor; [exact Q|exact D]|]. split.
      { change (mkQ start (length pre) m a Yes :: qs) with ([mkQ start (length pre) m a Yes] ++ qs).
        apply quiet_ends; [constructor; [discriminate|constructor]|exact N]. }
      split.
      { cbn. split; [|exact O]. eapply Forall_impl; [|exact F]. intros q (S1 & S2 & _). right. cbn. lia. }
      constructor; [cbn; repeat split; [lia|exact A|exact Am]|]. eapply Forall_impl; [|exact F]. intros q (S1 & S2 & S3). repeat split; try apply S3; lia.
    + do 3 eexists. split; [reflexivity|]. split; [econstructor; [exact Q|constructor]|]. split; [cbn; constructor; [discriminate|constructor]|].
      split; [cbn; split; constructor|]. constructor; [|constructor]. cbn. repeat split; [lia|exact A|exact Am].
    + do 3 eexists. split; [reflexivity|]. split; [econstructor; [exact Q|constructor]|].
      split; [cbn; exists [], (mkQ start (length pre) m a Raise); repeat split; constructor|].
      split; [cbn; split; constructor|]. constructor; [|constructor]. cbn. repeat split; [lia|exact A|exact Am].
Qed.

Lemma is_match_within actual ms start t : start + length ms <= length actual ->
  exists t' qs b, is_match ask actual ms start 0 t = Def (t', qs, b) /\ dialogue ask t qs t' /\ ends qs b /\
    within (of_seq ms actual) start (S start) qs.
Proof.
  intros L. destruct (is_match_spec actual ms ms [] start t eq_refl L) as (t' & qs & b & R & D & N & O & F).
  exists t', qs, b. repeat split; try assumption. eapply Forall_impl; [|exact F]. intros q (S1 & S2 & S3). repeat split; try apply S3; lia.
Qed.

Lemma find_one_spec actual ms : forall todo i t, i + todo + length ms <= length actual + 1 ->
  exists t' qs r, find_one ask todo actual ms i t = Def (t', qs, r) /\ dialogue ask t qs t' /\ ends qs r /\
    match r with
    | Some (Some p) => i <= p /\ p + length ms <= length actual /\ within (of_seq ms actual) i (S p) qs
    | _ => within (of_seq ms actual) i (i + todo) qs
    end.
Proof.
  induction todo as [|todo IH]; intros i t L; cbn [find_one].
  - exists t, [], (Some None). split; [reflexivity|]. split; [constructor|]. split; [constructor|apply within_nil].
  - destruct (is_match_within actual ms i t) as (t1 & qs & b & R & D & N & W); [lia|]. rewrite R. cbn [obind].
    destruct b as [[|]|].
    + exists t1, qs, (Some (Some i)). split; [reflexivity|]. split; [exact D|]. split; [exact N|]. split; [lia|]. split; [lia|exact W].
    + destruct (IH (S i) t1) as (t2 & qs' & r & R' & D' & N' & W'); [lia|]. rewrite R'. cbn [obind].
      exists t2, (qs ++ qs'), r. split; [reflexivity|]. split; [eapply dialogue_app; eassumption|]. split; [apply quiet_ends; assumption|].
      destruct r as [[p|]|].
      * destruct W' as (A & B & W'). split; [lia|]. split; [exact B|]. eapply within_app; [exact W|exact W'|lia|lia|lia].
      * eapply within_weaken; [eapply within_app; [exact W|exact W'|lia|lia|lia]|lia|lia|auto].
      * eapply within_weaken; [eapply within_app; [exact W|exact W'|lia|lia|lia]|lia|lia|auto].
    + exists t1, qs, None. split; [reflexivity|]. split; [exact D|]. split; [exact N|]. eapply within_weaken; [exact W|lia|lia|auto].
Qed.

Lemma find_all_spec actual all : forall pattern start t, incl pattern all -> Forall (fun ms => ms <> []) pattern -> start <= length actual ->
  exists t' qs r, find_all ask pattern actual start t = Def (t', qs, r) /\ dialogue ask t qs t' /\ ends qs r /\
    match r with
    | Some (Some e) => start <= e /\ e <= length actual /\ (pattern <> [] -> start < e) /\ within (sensible all actual) start e qs
    | _ => within (sensible all actual) start (length actual + 1) qs
    end.
Proof.
  induction pattern as [|ms rest IH]; intros start t Inc NE L; cbn [find_all].
  - exists t, [], (Some (Some start)). split; [reflexivity|]. split; [constructor|]. split; [constructor|]. split; [lia|]. split; [lia|].
    split; [intros H; contradiction H; reflexivity|apply within_nil].
  - inversion NE as [|ms' rest' NEm NEr E].
    assert (0 < length ms) as Lm by (destruct ms; [contradiction NEm; reflexivity|cbn; lia]).
    assert (forall q, of_seq ms actual q -> sensible all actual q) as SS.
    { intros q [A B]. split; [exact A|]. exists ms. split; [apply Inc; left; reflexivity|exact B]. }
    destruct (Nat.le_gt_cases (length actual + 1 - length ms) start) as [C|C].
    + replace (length actual + 1 - length ms - start) with 0 by lia. cbn [find_one obind].
      exists t, [], (Some None). split; [reflexivity|]. split; [constructor|]. split; [constructor|apply within_nil].
    + destruct (find_one_spec actual ms (length actual + 1 - length ms - start) start t) as (t1 & qs & r & R & D & N & W); [lia|]. rewrite R. cbn [obind].
      destruct r as [[p|]|].
      * destruct W as (A & B & W). destruct (IH (p + length ms) t1) as (t2 & qs' & r' & R' & D' & N' & W'); [intros x X; apply Inc; right; exact X|exact NEr|lia|].
        rewrite R'. cbn [obind]. exists t2, (qs ++ qs'), r'. split; [reflexivity|]. split; [eapply dialogue_app; eassumption|]. split; [apply quiet_ends; assumption|].
        assert (within (sensible all actual) start (S p) qs) as W1 by (eapply within_weaken; [exact W|lia|lia|exact SS]).
        destruct r' as [[e|]|].
        -- destruct W' as (A' & B' & _ & W'). split; [lia|]. split; [lia|]. split; [lia|]. eapply within_app; [exact W1|exact W'|lia|lia|lia].
        -- eapply within_app; [exact W1|exact W'|lia|lia|lia].
        -- eapply within_app; [exact W1|exact W'|lia|lia|lia].
      * exists t1, qs, (Some None). split; [reflexivity|]. split; [exact D|]. split; [exact N|]. eapply within_weaken; [exact W|lia|lia|exact SS].
      * exists t1, qs, None. split; [reflexivity|]. split; [exact D|]. split; [exact N|]. eapply within_weaken; [exact W|lia|lia|exact SS].
Qed.

Lemma count_loop_spec actual pattern : proper pattern -> forall fuel start count t, start <= length actual -> length actual - start < fuel ->
  exists t' qs r, count_loop ask fuel pattern actual start count t = Def (t', qs, r) /\ dialogue ask t qs t' /\ ends qs r /\
    within (sensible pattern actual) start (length actual + 1) qs.
Proof.
  intros [NE F]. induction fuel as [|fuel IH]; intros start count t L Fu; [lia|]. cbn [count_loop].
  destruct (find_all_spec actual pattern pattern start t (incl_refl _) F L) as (t1 & qs & r & R & D & N & W). rewrite R. cbn [obind].
  destruct r as [[e|]|].
  - destruct W as (A & B & C & W). specialize (C NE). destruct (IH e (S count) t1) as (t2 & qs' & r' & R' & D' & N' & W'); [lia|lia|].
    rewrite R'. cbn [obind]. exists t2, (qs ++ qs'), r'. split; [reflexivity|]. split; [eapply dialogue_app; eassumption|]. split; [apply quiet_ends; assumption|].
    eapply within_app; [exact W|exact W'|lia|lia|lia].
  - exists t1, qs, (Some count). split; [reflexivity|]. split; [exact D|]. split; [exact N|exact W].
  - exists t1, qs, None. split; [reflexivity|]. split; [exact D|]. split; [exact N|exact W].
Qed.

Theorem verify_ends pattern actual t : proper pattern ->
  exists t' qs r, verify ask pattern actual t = Def (t', qs, r) /\ dialogue ask t qs t' /\ Forall (sensible pattern actual) qs /\ ordered before qs /\
    match r with
    | Some _ => Forall (fun q => q_said q <> Raise) qs
    | None => exists l q, qs = l ++ [q] /\ q_said q = Raise /\ Forall (fun q => q_said q <> Raise) l
    end.
Proof.
  intros P. destruct (count_loop_spec actual pattern P (S (length actual)) 0 0 t) as (t' & qs & r & R & D & N & O & F); [lia|lia|].
  exists t', qs, r. split; [exact R|]. split; [exact D|]. split; [eapply Forall_impl; [|exact F]; intros q (_ & _ & H); exact H|].
  split; [exact O|]. destruct r; exact N.
Qed.

(** Counting *)
Lemma ordered_nodup (qs : list question) : ordered before qs -> NoDup (map (fun q => (q_start q, q_off q)) qs).
Proof.
  induction qs as [|q qs IH]; cbn; [constructor|]. intros [F O]. constructor; [|apply IH; exact O].
  intros H. apply in_map_iff in H. destruct H as (x & E & X). rewrite Forall_forall in F. specialize (F x X). injection E as E1 E2.
  destruct F as [F|F]; lia.
Qed.

Lemma off_bound pattern actual k (q : question) : no_longer k pattern -> sensible pattern actual q -> q_off q < k /\ q_start q + q_off q < length actual.
Proof.
  intros K (A & ms & Im & B). unfold no_longer in K. rewrite Forall_forall in K. specialize (K ms Im).
  assert (q_off q < length ms) by (apply nth_error_Some; congruence).
  split; [lia|]. apply nth_error_Some. congruence.
Qed.

Lemma nodup_pairs (l : list (nat * nat)) n k : NoDup l -> (forall x, In x l -> fst x < n /\ snd x < k) -> length l <= n * k.
Proof.
  intros N H. rewrite <- (seq_length n 0), <- (seq_length k 0) at 1. rewrite <- prod_length. apply NoDup_incl_length; [exact N|].
  intros [a b] X. apply H in X. cbn in X. apply in_prod; apply in_seq; lia.
Qed.

Theorem verify_bound pattern actual t t' qs r k : proper pattern -> no_longer k pattern -> verify ask pattern actual t = Def (t', qs, r) ->
  length qs <= length actual * k /\
  forall c, length (filter (fun q => place q =? c) qs) <= k.
Proof.
  intros P K R. destruct (verify_ends pattern actual t P) as (t1 & qs1 & r1 & R1 & _ & Sn & O & _). rewrite R in R1. injection R1 as <- <- <-.
  rewrite Forall_forall in Sn. split.
  - rewrite <- (map_length (fun q => (q_start q, q_off q)) qs). apply nodup_pairs; [apply ordered_nodup; exact O|].
    intros x X. apply in_map_iff in X. destruct X as (q & <- & Q). cbn. destruct (off_bound pattern actual k q K (Sn q Q)). lia.
  - intros c. rewrite <- (map_length (@q_off M I)). rewrite <- (seq_length k 0). apply NoDup_incl_length.
    + clear R. induction qs as [|q qs IH]; cbn; [constructor|]. destruct O as [F O]. 
      assert (NoDup (map (@q_off M I) (filter (fun q0 => place q0 =? c) qs))) as N by (apply IH; try exact O; intros x X; apply Sn; right; exact X).
      destruct (place q =? c) eqn:E; [|exact N]. cbn. constructor; [|exact N]. intros H. apply in_map_iff in H. destruct H as (x & Ex & X).
      apply filter_In in X. destruct X as [X C]. rewrite Forall_forall in F. specialize (F x X). apply Nat.eqb_eq in E, C. unfold place in E, C.
      destruct F as [F|F]; lia.
    + intros o H. apply in_map_iff in H. destruct H as (q & <- & Q). apply filter_In in Q. destruct Q as [Q _].
      apply in_seq. destruct (off_bound pattern actual k q K (Sn q Q)). lia.
Qed.

Theorem verify_single pattern actual t t' qs r : proper pattern -> no_longer 1 pattern -> verify ask pattern actual t = Def (t', qs, r) ->
  ordered lt (map place qs).
Proof.
  intros P K R. destruct (verify_ends pattern actual t P) as (t1 & qs1 & r1 & R1 & _ & Sn & O & _). rewrite R in R1. injection R1 as <- <- <-.
  clear R. induction qs as [|q qs IH]; cbn; [exact Logic.I|]. destruct O as [F O]. inversion Sn as [|x l S1 S2 E]. split; [|apply IH; assumption].
  apply Forall_forall. intros p X. apply in_map_iff in X. destruct X as (y & <- & Y). rewrite Forall_forall in F, S2. specialize (F y Y). specialize (S2 y Y).
  destruct (off_bound pattern actual 1 q K S1). destruct (off_bound pattern actual 1 y K S2). unfold place. destruct F as [F|F]; lia.
Qed.

(** One condition alone. *)
Definition is_yes (q : question) : bool := match q_said q with Yes => true | _ => false end.

Lemma one_find actual m : forall todo i t t' qs r, i + todo = length actual -> find_one ask todo actual [m] i t = Def (t', qs, Some r) ->
  match r with
  | Some p => i <= p /\ p < length actual /\ map place qs = seq i (S p - i) /\ length (filter is_yes qs) = 1
  | None => map place qs = seq i todo /\ filter is_yes qs = []
  end.
Proof.
  induction todo as [|todo IH]; intros i t t' qs r L H; cbn [find_one] in H.
  - injection H as <- <- <-. split; reflexivity.
  - cbn [is_match] in H. rewrite Nat.add_0_r in H. destruct (nth_error actual i) as [a|] eqn:A; [|discriminate H].
    destruct (ask t m a) as [t1 x]. destruct x; cbn [obind] in H.
    + injection H as <- <- <-. split; [lia|]. split; [lia|]. replace (S i - i) with 1 by lia. cbn. unfold place. cbn. rewrite Nat.add_0_r. split; reflexivity.
    + destruct (find_one ask todo actual [m] (S i) t1) as [[[t2 qs'] r']| |] eqn:E; cbn [obind] in H; try discriminate H.
      injection H as <- <- ->. apply IH in E; [|lia]. cbn [app map filter]. unfold place at 1. cbn [q_start q_off is_yes q_said]. rewrite Nat.add_0_r.
      unfold is_yes at 1. cbn [q_said]. destruct r as [p|].
      * destruct E as (E1 & E2 & E3 & E4). split; [lia|]. split; [lia|]. rewrite E3. split; [|exact E4].
        replace (S p - i) with (S (S p - S i)) by lia. cbn [seq]. f_equal; unfold place; cbn; lia.
      * destruct E as (E1 & E2). rewrite E1. split; [cbn [seq]; f_equal; unfold place; cbn; lia|exact E2].
    + discriminate H.
Qed.

Lemma one_count actual m : forall fuel start count t t' qs n, start <= length actual ->
  count_loop ask fuel [[m]] actual start count t = Def (t', qs, Some n) ->
  map place qs = seq start (length actual - start) /\ n = count + length (filter is_yes qs).
Proof.
  induction fuel as [|fuel IH]; intros start count t t' qs n L H; [discriminate H|]. cbn [count_loop find_all] in H.
  cbn [length] in H. replace (length actual + 1 - 1 - start) with (length actual - start) in H by lia.
  destruct (find_one ask (length actual - start) actual [m] start t) as [[[t1 qs1] r]| |] eqn:E; cbn [obind] in H; try discriminate H.
  destruct r as [r|]; [|discriminate H]. apply one_find in E; [|lia]. destruct r as [p|]; cbn [obind] in H.
  - destruct E as (E1 & E2 & E3 & E4). rewrite app_nil_r in H.
    destruct (count_loop ask fuel [[m]] actual (p + 1) (S count) t1) as [[[t2 qs2] c]| |] eqn:E5; cbn [obind] in H; try discriminate H.
    injection H as <- <- ->. apply IH in E5; [|lia]. destruct E5 as (E5 & E6). rewrite map_app, filter_app, app_length, E3, E5, E4. split; [|lia].
    replace (p + 1) with (start + (S p - start)) by lia. rewrite <- seq_app. f_equal. lia.
  - destruct E as (E1 & E2). injection H as <- <- <-. split; [exact E1|]. rewrite E2. cbn. lia.
Qed.

Theorem verify_one m actual t t' qs n : verify ask [[m]] actual t = Def (t', qs, Some n) ->
  map place qs = seq 0 (length actual) /\ n = length (filter (fun q => match q_said q with Yes => true | _ => false end) qs).
Proof.
  intros H. apply one_count in H; [|lia]. rewrite Nat.sub_0_r in H. exact H.
Qed.

(** Conditions whose answers do not depend on their memory. *)
Section Steady.
Variable f : M -> I -> bool.
Hypothesis steady : forall t m i, snd (ask t m i) = if f m i then Yes else No.
Notation acc := (fun m i => f m i = true).

Lemma steady_match actual : forall ms start j t t' qs r, is_match ask actual ms start j t = Def (t', qs, r) ->
  exists b, r = Some b /\
    (b = true -> forall k m i, nth_error ms k = Some m -> nth_error actual (start + j + k) = Some i -> f m i = true) /\
    (b = false -> exists k m i, nth_error ms k = Some m /\ nth_error actual (start + j + k) = Some i /\ f m i = false).
Proof.
  induction ms as [|e ms IH]; intros start j t t' qs r H; cbn [is_match] in H.
  - injection H as <- <- <-. exists true. split; [reflexivity|]. split; [|discriminate]. intros _ [|k] m i K; discriminate K.
  - destruct (nth_error actual (start + j)) as [a|] eqn:A; [|discriminate H].
    pose proof (steady t e a) as St. destruct (ask t e a) as [t1 x]. cbn in St. destruct (f e a) eqn:Fa; subst x.
    + destruct (is_match ask actual ms start (S j) t1) as [[[t2 qs'] b']| |] eqn:E; cbn [obind] in H; try discriminate H.
      injection H as <- <- <-. apply IH in E. destruct E as (b & -> & E1 & E2). exists b. split; [reflexivity|]. split.
      * intros B k m i K N. destruct k as [|k]; cbn in K.
        -- injection K as <-. rewrite Nat.add_0_r in N. rewrite A in N. injection N as <-. exact Fa.
        -- apply (E1 B k m i K). replace (start + S j + k) with (start + j + S k) by lia. exact N.
      * intros B. destruct (E2 B) as (k & m & i & K & N & X). exists (S k), m, i. split; [exact K|]. split; [|exact X].
        replace (start + j + S k) with (start + S j + k) by lia. exact N.
    + injection H as <- <- <-. exists false. split; [reflexivity|]. split; [discriminate|]. intros _. exists 0, e, a. rewrite Nat.add_0_r. repeat split; assumption.
Qed.

Lemma steady_one actual ms : forall todo i t t' qs r, i + todo + length ms <= length actual + 1 -> find_one ask todo actual ms i t = Def (t', qs, r) ->
  match r with
  | None => False
  | Some (Some p) => i <= p /\ block_at acc ms actual p /\ forall q, i <= q -> q < p -> ~ block_at acc ms actual q
  | Some None => forall q, i <= q -> q < i + todo -> ~ block_at acc ms actual q
  end.
Proof.
  induction todo as [|todo IH]; intros i t t' qs r L H; cbn [find_one] in H.
  - injection H as <- <- <-. intros q Q1 Q2. lia.
  - destruct (is_match ask actual ms i 0 t) as [[[t1 qs1] b]| |] eqn:E; cbn [obind] in H; try discriminate H.
    apply steady_match in E. rewrite Nat.add_0_r in E. destruct E as (x & -> & E1 & E2). destruct x.
    + injection H as <- <- <-. split; [lia|]. split; [split; [lia|exact (E1 eq_refl)]|]. intros q Q1 Q2. lia.
    + assert (~ block_at acc ms actual i) as NB.
      { intros [_ B]. destruct (E2 eq_refl) as (k & m & a & K & N & X). specialize (B k m a K N). cbv beta in B. congruence. }
      destruct (find_one ask todo actual ms (S i) t1) as [[[t2 qs'] r']| |] eqn:E; cbn [obind] in H; try discriminate H.
      injection H as <- <- <-. apply IH in E; [|lia]. destruct r' as [[p|]|].
      * destruct E as (E3 & E4 & E5). split; [lia|]. split; [exact E4|]. intros q Q1 Q2. destruct (Nat.eq_dec q i) as [->|Q]; [exact NB|apply E5; lia].
      * intros q Q1 Q2. destruct (Nat.eq_dec q i) as [->|Q]; [exact NB|apply E; lia].
      * exact E.
Qed.

Lemma steady_all actual : forall pattern start t t' qs r, find_all ask pattern actual start t = Def (t', qs, r) ->
  match r with
  | None => False
  | Some (Some e) => (exists ps, occurs acc actual pattern start ps e) /\ forall s' ps' e', start <= s' -> occurs acc actual pattern s' ps' e' -> e <= e'
  | Some None => forall s' ps' e', start <= s' -> ~ occurs acc actual pattern s' ps' e'
  end.
Proof.
  induction pattern as [|ms rest IH]; intros start t t' qs r H; cbn [find_all] in H.
  - injection H as <- <- <-. split; [exists []; constructor|]. intros s' ps' e' L O. inversion O. lia.
  - destruct (find_one ask (length actual + 1 - length ms - start) actual ms start t) as [[[t1 qs1] r1]| |] eqn:E; cbn [obind] in H; try discriminate H.
    assert (forall q, block_at acc ms actual q -> q + length ms <= length actual) as BB by (intros q [B _]; exact B).
    assert (match r1 with
            | None => False
            | Some (Some p) => start <= p /\ block_at acc ms actual p /\ forall q, start <= q -> q < p -> ~ block_at acc ms actual q
            | Some None => forall q, start <= q -> ~ block_at acc ms actual q
            end) as F.
    { destruct (Nat.le_gt_cases (length actual + 1 - length ms) start) as [C|C].
      - replace (length actual + 1 - length ms - start) with 0 in E by lia. cbn [find_one] in E. injection E as <- <- <-.
        intros q Q B. apply BB in B. lia.
      - apply steady_one in E; [|lia]. destruct r1 as [[p|]|]; try exact E.
        intros q Q B. pose proof (BB q B). apply (E q Q); [lia|exact B]. }
    destruct r1 as [[p|]|]; [|injection H as <- <- <-|contradiction F].
    + destruct F as (F1 & F2 & F3).
      destruct (find_all ask rest actual (p + length ms) t1) as [[[t2 qs2] r2]| |] eqn:E2; cbn [obind] in H; try discriminate H.
      injection H as <- <- <-. apply IH in E2.
      assert (forall s' ps' e', start <= s' -> occurs acc actual (ms :: rest) s' ps' e' -> exists q ps, p <= q /\ occurs acc actual rest (q + length ms) ps e') as G.
      { intros s' ps' e' L O. inversion O as [|ms0 rest0 s0 q ps e0 Lq Bq Oq]. subst. exists q, ps. split; [|exact Oq].
        destruct (Nat.le_gt_cases p q) as [Q|Q]; [exact Q|]. exfalso. apply (F3 q); [lia|exact Q|exact Bq]. }
      destruct r2 as [[e|]|].
      * destruct E2 as ((ps & O) & Min). split; [exists (p :: ps); constructor; assumption|].
        intros s' ps' e' L O'. destruct (G s' ps' e' L O') as (q & ps0 & Q & O0). apply (Min (q + length ms) ps0 e'); [lia|exact O0].
      * intros s' ps' e' L O'. destruct (G s' ps' e' L O') as (q & ps0 & Q & O0). apply (E2 (q + length ms) ps0 e'); [lia|exact O0].
      * exact E2.
    + intros s' ps' e' L O. inversion O as [|ms0 rest0 s0 q ps e0 Lq Bq Oq]. subst. apply (F q); [lia|exact Bq].
Qed.

Lemma steady_loop actual pattern : forall fuel start count t t' qs r, count_loop ask fuel pattern actual start count t = Def (t', qs, r) ->
  exists occs, r = Some (count + length occs) /\ series acc actual pattern start occs /\
    forall s' occs', start <= s' -> series acc actual pattern s' occs' -> length occs' <= length occs.
Proof.
  induction fuel as [|fuel IH]; intros start count t t' qs r H; [discriminate H|]. cbn [count_loop] in H.
  destruct (find_all ask pattern actual start t) as [[[t1 qs1] r1]| |] eqn:E; cbn [obind] in H; try discriminate H.
  apply steady_all in E. destruct r1 as [[e|]|]; [| |contradiction E].
  - destruct E as ((ps & O) & Min).
    destruct (count_loop ask fuel pattern actual e (S count) t1) as [[[t2 qs2] r2]| |] eqn:E2; cbn [obind] in H; try discriminate H.
    injection H as <- <- <-. apply IH in E2. destruct E2 as (occs & -> & Se & Max). exists (ps :: occs). split; [f_equal; cbn; lia|].
    split; [econstructor; eassumption|]. intros s' occs' L Se'. inversion Se' as [|s0 ps0 e0 occs0 O0 Se0]; subst; cbn; [lia|].
    apply le_n_S. apply (Max e0); [apply (Min s' ps0 e0 L O0)|exact Se0].
  - injection H as <- <- <-. exists []. split; [f_equal; cbn; lia|]. split; [constructor|].
    intros s' occs' L Se'. inversion Se' as [|s0 ps0 e0 occs0 O0 Se0]; subst; cbn; [lia|]. exfalso. exact (E s' ps0 e0 L O0).
Qed.

Theorem verify_steady pattern actual t : proper pattern ->
  exists t' qs n, verify ask pattern actual t = Def (t', qs, Some n) /\ max_occurrences acc actual pattern n.
Proof.
  intros P. destruct (verify_ends pattern actual t P) as (t' & qs & r & R & _). pose proof R as R0. apply steady_loop in R0.
  destruct R0 as (occs & -> & Se & Max). exists t', qs, (length occs). split; [exact R|]. split; [exists occs; split; [exact Se|reflexivity]|].
  intros occs' Se'. apply (Max 0 occs'); [lia|exact Se'].
Qed.
End Steady.
End Proofs.
