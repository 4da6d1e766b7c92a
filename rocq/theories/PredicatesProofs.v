From Coq Require Import List Arith Bool Lia Permutation Sorted.
From Verif Require Import Base Predicates Spec_Predicates.
Import ListNotations.
Open Scope nat_scope.

Section Proofs.
Context {P A X : Type}.
Variable code : list (P * A) -> P -> A -> list (pact P A) * pend X.
Variable unexpected : X.
Variable grown : nat -> nat.
Local Notation pst := (pstate P A).
Local Notation ask := (ask code grown).
Local Notation find_stub := (find_stub code grown).
Local Notation pcall_run := (pcall_run code unexpected grown).
Local Notation perform_acts := (perform_acts (X := X) grown).

(** *** Conditions that only make calls *)

Section Calm.
Variable rank : A -> nat.

(** Same stubbings; the calls and questions in between satisfy [C] and [Q]. *)
Definition moves (C : pcall P A -> Prop) (Q : P * A -> Prop) (s s' : pst) : Prop :=
  ps_mocked s' = ps_mocked s /\ ps_stubs s' = ps_stubs s /\ ps_room s' = ps_room s /\
  ps_pushed s' = ps_pushed s /\ ps_moved s' = ps_moved s /\ ps_cleared s' = ps_cleared s /\
  ps_resets s' = ps_resets s /\ ps_next s <= ps_next s' /\
  (exists cs, ps_calls s' = ps_calls s ++ cs /\ Forall C cs) /\
  (exists qs, ps_asked s' = ps_asked s ++ qs /\ Forall Q qs).

Lemma moves_refl : forall C Q s, moves C Q s s.
Proof. intros. repeat split; auto; exists []; rewrite app_nil_r; auto. Qed.

Lemma moves_trans : forall C Q s1 s2 s3, moves C Q s1 s2 -> moves C Q s2 s3 -> moves C Q s1 s3.
Proof.
  unfold moves. intros C Q s1 s2 s3 (a1 & a2 & a3 & a4 & a5 & a6 & a7 & a8 & (cs & a9 & a10) & (qs & a11 & a12))
    (b1 & b2 & b3 & b4 & b5 & b6 & b7 & b8 & (cs' & b9 & b10) & (qs' & b11 & b12)).
  repeat split; try congruence; try lia.
  - exists (cs ++ cs'). split; [now rewrite b9, a9, app_assoc|now apply Forall_app].
  - exists (qs ++ qs'). split; [now rewrite b11, a11, app_assoc|now apply Forall_app].
Qed.

Lemma moves_impl : forall (C C' : pcall P A -> Prop) (Q Q' : P * A -> Prop) s s',
  (forall c, C c -> C' c) -> (forall q, Q q -> Q' q) -> moves C Q s s' -> moves C' Q' s s'.
Proof.
  unfold moves. intros C C' Q Q' s s' HC HQ (a1 & a2 & a3 & a4 & a5 & a6 & a7 & a8 & (cs & a9 & a10) & (qs & a11 & a12)).
  repeat split; auto.
  - exists cs. split; auto. eapply Forall_impl; eauto.
  - exists qs. split; auto. eapply Forall_impl; eauto.
Qed.

Definition below (n : nat) (r : nat) (c : pcall P A) : Prop := n <= pc_ord c /\ rank (pc_args c) < r.
Definition asked_below (r : nat) (q : P * A) : Prop := rank (snd q) < r.

Definition inner_ok (stubs : list P) (r : nat) (inner : pst -> A -> outcome (pst * presult P X)) : Prop :=
  forall s a, ps_mocked s = true -> ps_stubs s = stubs -> rank a < r -> exists s' res,
    inner s a = Def (s', res) /\ moves (below (ps_next s) r) (asked_below r) s s'.

Lemma perform_calm : forall stubs a inner acts s, inner_ok stubs (rank a) inner ->
  Forall (calls_below rank a) acts -> ps_mocked s = true -> ps_stubs s = stubs ->
  exists s', perform_acts inner acts s = Def (s', None) /\ moves (below (ps_next s) (rank a)) (asked_below (rank a)) s s'.
Proof.
  intros stubs a inner acts s HI HF. revert s. induction HF as [|o acts (a' & -> & R) HF IH]; intros s M S; cbn [Predicates.perform_acts].
  - exists s. split; auto. apply moves_refl.
  - destruct (HI s a' M S R) as (s1 & res & E & V). rewrite E. cbn [obind].
    assert (M1 : ps_mocked s1 = true) by (destruct V as (v & _); congruence).
    assert (S1 : ps_stubs s1 = stubs) by (destruct V as (_ & v & _); congruence).
    destruct (IH s1 M1 S1) as (s2 & E2 & V2). exists s2. split; [destruct res; exact E2|].
    eapply moves_trans; [exact V|]. revert V2. apply moves_impl; auto.
    intros c [C1 C2]. split; auto. destruct V as (_ & _ & _ & _ & _ & _ & _ & v & _). lia.
Qed.

(** One question. *)
Lemma ask_calm : forall stubs p a inner s ends, inner_ok stubs (rank a) inner ->
  (forall log, Forall (calls_below rank a) (fst (code log p a)) /\ snd (code log p a) = ends) ->
  ps_mocked s = true -> ps_stubs s = stubs ->
  exists s', ask inner p a s = Def (s', ends) /\
    moves (below (ps_next s) (rank a)) (asked_below (rank a)) (note_asked p a s) s'.
Proof.
  intros stubs p a inner s ends HI HC M S. unfold Predicates.ask. destruct (HC (ps_asked s)) as [C1 C2].
  destruct (code (ps_asked s) p a) as [acts e]. cbn in C1, C2. subst e.
  destruct (perform_calm stubs a inner acts (note_asked p a s) HI C1 M S) as (s' & E & V).
  rewrite E. cbn [obind]. exists s'. split; auto.
Qed.

Lemma asked_at_app : forall a l l', asked_at (P := P) rank a (l ++ l') = asked_at rank a l ++ asked_at rank a l'.
Proof. intros. apply filter_app. Qed.
Lemma asked_at_below : forall a l, Forall (asked_below (rank a)) l -> asked_at (P := P) rank a l = [].
Proof.
  intros a l H. induction H as [|q l H _ IH]; cbn; auto. unfold asked_below in H.
  destruct (Nat.eqb_spec (rank (snd q)) (rank a)); [lia|exact IH].
Qed.

(** A state after questions about [a]: [asked] in order, among others below. *)
Definition walked (s0 : pst) (a : A) (asked : list P) (s : pst) : Prop :=
  moves (below (ps_next s0) (rank a)) (fun q => rank (snd q) <= rank a) s0 s /\
  exists qs, ps_asked s = ps_asked s0 ++ qs /\ asked_at rank a qs = map (fun p => (p, a)) asked.

Lemma walked_ask : forall s0 a asked s p s', walked s0 a asked s ->
  moves (below (ps_next s) (rank a)) (asked_below (rank a)) (note_asked p a s) s' ->
  walked s0 a (asked ++ [p]) s'.
Proof.
  intros s0 a asked s p s' (W & qs & W1 & W2) V.
  pose proof W as (_ & _ & _ & _ & _ & _ & _ & N & _).
  pose proof V as (_ & _ & _ & _ & _ & _ & _ & _ & _ & (qs' & V1 & V2)). cbn in V1.
  split.
  - eapply moves_trans; [exact W|].
    assert (V' : moves (below (ps_next s0) (rank a)) (fun q => rank (snd q) <= rank a) (note_asked p a s) s').
    { revert V. apply moves_impl; [intros c [? ?]; split; auto; lia|unfold asked_below; intros; lia]. }
    destruct V' as (b1 & b2 & b3 & b4 & b5 & b6 & b7 & b8 & b9 & (qs2 & b11 & b12)).
    repeat split; auto. exists ((p, a) :: qs2). split; [rewrite b11; cbn; now rewrite <- app_assoc|]. constructor; auto.
  - exists (qs ++ (p, a) :: qs'). split; [rewrite V1, W1; now rewrite <- !app_assoc|].
    rewrite asked_at_app, W2, map_app. f_equal. cbn. rewrite Nat.eqb_refl. f_equal. apply asked_at_below, V2.
Qed.

Lemma find_calm : forall stubs a inner s0 (ends : P -> A -> pend X), inner_ok stubs (rank a) inner ->
  ps_mocked s0 = true -> ps_stubs s0 = stubs ->
  forall ps first s done,
  (forall p log, In p ps -> Forall (calls_below rank a) (fst (code log p a)) /\ snd (code log p a) = ends p a) ->
  walked s0 a done s ->
  exists s' asked r, find_stub inner s0 first ps a s = Def (s', r) /\ walked s0 a (done ++ asked) s' /\
    match r with
    | Some (Answered p) => exists nw old, ps = nw ++ p :: old /\ asked = nw ++ [p] /\ Forall (fun q => ends q a = Reject) nw /\ ends p a = Accept
    | Some (Threw x) => exists nw p old, ps = nw ++ p :: old /\ asked = nw ++ [p] /\ Forall (fun q => ends q a = Reject) nw /\ ends p a = Throw x
    | None => asked = ps /\ Forall (fun q => ends q a = Reject) ps
    end.
Proof.
  intros stubs a inner s0 ends HI M0 S0 ps. induction ps as [|p ps IH]; intros first s done HC W; cbn [Predicates.find_stub].
  - exists s, [], None. rewrite app_nil_r. auto.
  - pose proof W as ((w1 & w2 & _ & w4 & w5 & _ & w7 & _) & _).
    destruct (ask_calm stubs p a inner s (ends p a) HI (fun log => HC p log (or_introl eq_refl)) ltac:(congruence) ltac:(congruence))
      as (s1 & E & V). rewrite E. cbn [obind].
    pose proof (walked_ask s0 a done s p s1 W V) as W1.
    pose proof W1 as ((v1 & v2 & _ & v4 & v5 & _ & v7 & _) & _).
    destruct (ends p a) as [| |x] eqn:EP.
    + rewrite v7, Nat.eqb_refl. exists s1, [p], (Some (Answered p)). split; [reflexivity|]. split; [exact W1|]. exists [], ps. auto.
    + rewrite v7, v5, v4, !Nat.eqb_refl, orb_true_r. cbn [andb].
      destruct (IH false s1 (done ++ [p]) (fun q log Hq => HC q log (or_intror Hq)) W1) as (s2 & asked & r & E2 & W2 & R).
      exists s2, (p :: asked), r. split; auto. split; [now rewrite <- app_assoc in W2|].
      destruct r as [[q|x]|].
      * destruct R as (nw & old & -> & -> & R1 & R2). exists (p :: nw), old. repeat split; auto.
      * destruct R as (nw & q & old & -> & -> & R1 & R2). exists (p :: nw), q, old. repeat split; auto.
      * destruct R as [-> R]. auto.
    + exists s1, [p], (Some (Threw x)). split; [reflexivity|]. split; [exact W1|]. exists [], p, ps. auto.
Qed.

Lemma rev_split : forall (l nw old : list P) p, rev l = nw ++ p :: old -> l = rev old ++ p :: rev nw.
Proof. intros l nw old p H. rewrite <- (rev_involutive l), H, rev_app_distr. cbn. now rewrite <- app_assoc. Qed.

Lemma call_calm : forall stubs (ends : P -> A -> pend X),
  (forall p log a, In p stubs -> Forall (calls_below rank a) (fst (code log p a)) /\ snd (code log p a) = ends p a) ->
  forall fuel s a, ps_mocked s = true -> ps_stubs s = stubs -> rank a < fuel ->
  exists s' asked r more qs, pcall_run fuel s a = Def (s', r) /\ decided ends unexpected stubs a asked r /\
    ps_mocked s' = true /\ ps_stubs s' = stubs /\ ps_room s' = ps_room s /\ ps_pushed s' = ps_pushed s /\
    ps_moved s' = ps_moved s /\ ps_cleared s' = ps_cleared s /\ ps_resets s' = ps_resets s /\ ps_next s < ps_next s' /\
    ps_calls s' = ps_calls s ++ more ++ recorded (ps_next s) a r /\
    Forall (fun c => ps_next s < pc_ord c /\ rank (pc_args c) < rank a) more /\
    ps_asked s' = ps_asked s ++ qs /\ asked_at rank a qs = map (fun p => (p, a)) asked /\
    Forall (fun q => rank (snd q) <= rank a) qs.
Proof.
  intros stubs ends HC fuel. induction fuel as [|fuel IH]; intros s a M S R; [lia|].
  cbn [Predicates.pcall_run]. unfold call_body. rewrite M. cbn [negb].
  assert (HI : inner_ok stubs (rank a) (pcall_run fuel)).
  { intros s1 a1 M1 S1 R1. destruct (IH s1 a1 M1 S1 ltac:(lia)) as
      (s' & asked & r & more & qs & E & _ & b1 & b2 & b3 & b4 & b5 & b6 & b7 & b8 & b9 & b10 & b11 & _ & b12).
    exists s', r. split; auto. repeat split; try congruence; try lia.
    - exists (more ++ recorded (ps_next s1) a1 r). split; auto. apply Forall_app. split.
      + eapply Forall_impl; [|exact b10]. intros c [? ?]. split; lia.
      + destruct r; cbn; repeat constructor; cbn; auto.
    - exists qs. split; auto. eapply Forall_impl; [|exact b12]. unfold asked_below. intros; cbn in *; lia. }
  set (s1 := draw_ordinal s).
  assert (W0 : walked s1 a [] s1).
  { split; [apply moves_refl|]. exists []. rewrite app_nil_r. auto. }
  destruct (find_calm stubs a (pcall_run fuel) s1 ends HI M S (rev (ps_stubs s1)) true s1 []
              (fun p log Hp => HC p log a ltac:(rewrite <- S; apply in_rev; exact Hp)) W0) as (s2 & asked & r & E & W & D).
  rewrite E. cbn [obind]. cbn [app] in W.
  destruct W as ((a1 & a2 & a3 & a4 & a5 & a6 & a7 & a8 & (cs & a9 & a10) & (qs & a11 & a12)) & (qs' & a13 & a14)).
  assert (qs' = qs) as -> by (rewrite a11 in a13; now apply app_inv_head in a13).
  cbn in a1, a2, a3, a4, a5, a6, a7, a8, a9, a11, a10. change (ps_stubs s1) with (ps_stubs s) in D. rewrite S in D.
  destruct r as [[p|x]|].
  - destruct D as (nw & old & D1 & -> & D2 & D3). apply rev_split in D1.
    exists (record_call (mkPcall (ps_next s) a p) s2), (nw ++ [p]), (Answered p), cs, qs.
    cbn. repeat split; try congruence; try lia; auto.
    + rewrite <- (rev_involutive nw). eapply decided_accept; [exact D1| |exact D3]. now apply Forall_rev.
    + now rewrite a9, <- app_assoc.
  - destruct D as (nw & p & old & D1 & -> & D2 & D3). apply rev_split in D1.
    exists s2, (nw ++ [p]), (Threw x), cs, qs. cbn. rewrite app_nil_r. repeat split; try congruence; try lia; auto.
    rewrite <- (rev_involutive nw). eapply decided_throw; [exact D1| |exact D3]. now apply Forall_rev.
  - destruct D as [-> D]. exists s2, (rev stubs), (Threw unexpected), cs, qs. cbn. rewrite app_nil_r.
    repeat split; try congruence; try lia; auto.
    apply decided_none. rewrite <- (rev_involutive stubs). now apply Forall_rev.
Qed.

Lemma decided_fun : forall (ends : P -> A -> pend X) stubs a q1 r1 q2 r2,
  decided ends unexpected stubs a q1 r1 -> decided ends unexpected stubs a q2 r2 -> q1 = q2 /\ r1 = r2.
Proof.
  intros ends stubs a.
  assert (U : forall o1 p1 n1 o2 p2 n2, stubs = o1 ++ p1 :: n1 -> stubs = o2 ++ p2 :: n2 ->
     Forall (fun q => ends q a = Reject) n1 -> Forall (fun q => ends q a = Reject) n2 ->
     ends p1 a <> Reject -> ends p2 a <> Reject -> p1 = p2 /\ n1 = n2).
  { intros o1 p1 n1 o2 p2 n2 E1 E2 F1 F2 R1 R2. rewrite E1 in E2. clear E1. apply (f_equal (@rev P)) in E2.
    rewrite !rev_app_distr in E2. cbn in E2. rewrite <- !app_assoc in E2. cbn in E2.
    apply Forall_rev in F1. apply Forall_rev in F2.
    enough (p1 = p2 /\ rev n1 = rev n2) as [-> H]; [split; auto; now rewrite <- (rev_involutive n1), H, rev_involutive|].
    revert F1 F2 E2. generalize (rev n1) (rev n2). intros l1. induction l1 as [|x l1 IH]; intros [|y l2] F1 F2 E; cbn in E; injection E as E0 E.
    - auto.
    - subst. apply Forall_inv in F2. contradiction.
    - subst. apply Forall_inv in F1. contradiction.
    - subst. apply Forall_inv_tail in F1. apply Forall_inv_tail in F2. destruct (IH l2 F1 F2 E) as [-> ->]. auto. }
  assert (N : forall o p n, stubs = o ++ p :: n -> Forall (fun q => ends q a = Reject) stubs -> ends p a <> Reject -> False).
  { intros o p n E F R. rewrite E in F. apply Forall_app in F as [_ F]. apply Forall_inv in F. contradiction. }
  intros q1 r1 q2 r2 D1 D2.
  destruct D1 as [o1 p1 n1 E1 F1 R1|o1 p1 n1 x1 E1 F1 R1|F1]; destruct D2 as [o2 p2 n2 E2 F2 R2|o2 p2 n2 x2 E2 F2 R2|F2];
    try (destruct (U _ _ _ _ _ _ E1 E2 F1 F2) as [-> ->]; congruence || (split; congruence));
    try (exfalso; eapply N; eauto; congruence); auto.
Qed.

(** *** Verification with a condition that only makes calls *)

Lemma length_insert : forall (f : pcall P A -> bool) c l,
  length (filter f (insert_call c l)) = length (filter f (c :: l)).
Proof.
  intros f c l. induction l as [|d l IH]; cbn [insert_call]; auto.
  destruct (pc_ord c <? pc_ord d); auto. cbn in *. destruct (f d); cbn; rewrite IH; destruct (f c); reflexivity.
Qed.

Lemma length_sorted : forall (f : pcall P A -> bool) l, length (filter f (by_ordinal l)) = length (filter f l).
Proof.
  intros f l. induction l as [|c l IH]; auto. unfold by_ordinal in *. cbn [fold_right]. rewrite length_insert.
  cbn. destruct (f c); cbn; now rewrite IH.
Qed.

Lemma in_insert : forall x (c : pcall P A) l, In x (insert_call c l) <-> x = c \/ In x l.
Proof.
  intros x c l. induction l as [|d l IH]; cbn [insert_call In]; [split; intros [H|[]]; auto|].
  destruct (pc_ord c <? pc_ord d); cbn [In]; [|rewrite IH]; intuition congruence.
Qed.
Lemma in_sorted : forall x (l : list (pcall P A)), In x (by_ordinal l) <-> In x l.
Proof.
  intros x l. unfold by_ordinal. induction l as [|c l IH]; cbn; [tauto|]. rewrite in_insert, IH. intuition congruence.
Qed.

Lemma count_calm : forall stubs (ends : P -> A -> pend X) q (good : A -> bool) fuel s0,
  (forall p log a, In p stubs -> Forall (calls_below rank a) (fst (code log p a)) /\ snd (code log p a) = ends p a) ->
  forall cs, (forall c log, In c cs -> Forall (calls_below rank (pc_args c)) (fst (code log q (pc_args c))) /\
    snd (code log q (pc_args c)) = if good (pc_args c) then Accept else Reject) ->
  (forall c, In c cs -> rank (pc_args c) <= fuel) ->
  forall n s, ps_mocked s = true -> ps_stubs s = stubs -> ps_cleared s = ps_cleared s0 ->
  exists s', count_matches code grown (pcall_run fuel) s0 q cs n s =
      Def (s', inl (n + length (filter (fun c => good (pc_args c)) cs))) /\
    ps_mocked s' = true /\ ps_stubs s' = stubs /\ ps_cleared s' = ps_cleared s0 /\
    exists more, ps_calls s' = ps_calls s ++ more.
Proof.
  intros stubs ends q good fuel s0 HC cs. induction cs as [|c cs IH]; intros HQ HR n s M S C; cbn [count_matches filter].
  - exists s. rewrite Nat.add_0_r. repeat split; auto. exists []. now rewrite app_nil_r.
  - rewrite C, Nat.eqb_refl.
    assert (HI : inner_ok stubs (rank (pc_args c)) (pcall_run fuel)).
    { intros s1 a1 M1 S1 R1. pose proof (HR c (or_introl eq_refl)) as RC.
      destruct (call_calm stubs ends HC fuel s1 a1 M1 S1 ltac:(lia)) as
        (s' & asked & r & more & qs & E & _ & b1 & b2 & b3 & b4 & b5 & b6 & b7 & b8 & b9 & b10 & b11 & _ & b12).
      exists s', r. split; auto. repeat split; try congruence; try lia.
      - exists (more ++ recorded (ps_next s1) a1 r). split; auto. apply Forall_app. split.
        + eapply Forall_impl; [|exact b10]. intros c' [? ?]. split; lia.
        + destruct r; cbn; repeat constructor; cbn; auto.
      - exists qs. split; auto. eapply Forall_impl; [|exact b12]. unfold asked_below. intros; cbn in *; lia. }
    destruct (ask_calm stubs q (pc_args c) (pcall_run fuel) s (if good (pc_args c) then Accept else Reject) HI
                (fun log => HQ c log (or_introl eq_refl)) M S) as (s1 & E & V). rewrite E. cbn [obind].
    destruct V as (a1 & a2 & _ & _ & _ & a6 & _ & _ & (cs1 & a9 & _) & _). cbn in a1, a2, a6, a9.
    destruct (IH (fun c' log H => HQ c' log (or_intror H)) (fun c' H => HR c' (or_intror H))
                (if good (pc_args c) then Datatypes.S n else n) s1 ltac:(congruence) ltac:(congruence) ltac:(congruence))
      as (s2 & E2 & M2 & S2 & C2 & (more & A2)).
    exists s2. split; [|repeat split; auto; exists (cs1 ++ more); now rewrite A2, a9, app_assoc].
    destruct (good (pc_args c)); rewrite E2; cbn [length]; do 3 f_equal; lia.
Qed.

Lemma verify_calm : forall stubs (ends : P -> A -> pend X) q (good : A -> bool) fuel s k,
  (forall p log a, In p stubs -> Forall (calls_below rank a) (fst (code log p a)) /\ snd (code log p a) = ends p a) ->
  (forall log a, Forall (calls_below rank a) (fst (code log q a)) /\ snd (code log q a) = if good a then Accept else Reject) ->
  ps_mocked s = true -> ps_stubs s = stubs -> Forall (fun c => rank (pc_args c) <= fuel) (ps_calls s) ->
  exists s' more, pverify code unexpected grown fuel s q k =
      Def (s', inl (length (filter (fun c => good (pc_args c)) (ps_calls s)) =? k)) /\
    ps_stubs s' = ps_stubs s /\ ps_calls s' = ps_calls s ++ more.
Proof.
  intros stubs ends q good fuel s k HC HQ M S F. unfold pverify.
  destruct (count_calm stubs ends q good fuel s HC (by_ordinal (ps_calls s)) (fun c log _ => HQ log (pc_args c))
    ltac:(intros c Hc; rewrite in_sorted in Hc; revert c Hc; now apply Forall_forall) 0 s M S eq_refl)
    as (s' & E & M' & S' & C' & more & A'). rewrite E. cbn [obind]. rewrite C', Nat.eqb_refl. cbn [orb].
  exists s', more. rewrite length_sorted. repeat split; auto. congruence.
Qed.
End Calm.

(** *** Conditions that stub the method or reset the mock *)

Definition note_all (a : A) (ps : list P) (s : pst) : pst := fold_left (fun s p => note_asked p a s) ps s.

Lemma note_all_eq : forall a ps s, note_all a ps s =
  mkPs (ps_mocked s) (ps_stubs s) (ps_room s) (ps_pushed s) (ps_moved s) (ps_calls s) (ps_cleared s) (ps_next s) (ps_resets s)
    (ps_asked s ++ map (fun p => (p, a)) ps).
Proof.
  intros a ps. induction ps as [|p ps IH]; intro s; [cbn; now rewrite app_nil_r; destruct s|unfold note_all in *; cbn [fold_left map]].
  rewrite IH. cbn. now rewrite <- app_assoc.
Qed.

Lemma ask_code : forall inner p a s acts e, (forall log, code log p a = (acts, e)) ->
  ask inner p a s = obind (perform_acts inner acts (note_asked p a s)) (fun r => match snd r with
    | Some x => Def (fst r, Throw x) | None => Def (fst r, e) end).
Proof.
  intros inner p a s acts e H. unfold Predicates.ask. rewrite H. destruct (perform_acts inner acts _) as [[s' x]| |]; reflexivity.
Qed.

Lemma find_quiet : forall inner s0 a rest nw first s, Forall (quietly_rejects code a) nw ->
  ps_resets s = ps_resets s0 -> ps_moved s = ps_moved s0 -> (first = true -> ps_pushed s = ps_pushed s0) ->
  find_stub inner s0 first (nw ++ rest) a s =
  find_stub inner s0 (match nw with [] => first | _ => false end) rest a (note_all a nw s).
Proof.
  intros inner s0 a rest nw. induction nw as [|p nw IH]; intros first s F R V U; auto.
  apply Forall_cons_iff in F as [F1 F]. cbn [app Predicates.find_stub].
  rewrite (ask_code inner p a s [] Reject F1). cbn [Predicates.perform_acts obind snd fst]. cbn.
  rewrite R, V, !Nat.eqb_refl. cbn.
  assert (negb first || (ps_pushed s =? ps_pushed s0) = true) as ->.
  { destruct first; auto. cbn. rewrite U; auto. apply Nat.eqb_refl. }
  rewrite IH; auto; [destruct nw; reflexivity|discriminate].
Qed.

Definition stub_all (ps : list P) (s : pst) : pst := fold_left (fun s p => add_stub grown p s) ps s.

Lemma perform_stubs : forall inner ps s, perform_acts inner (map PaStub ps) s = Def (stub_all ps s, None).
Proof. intros inner ps. induction ps as [|p ps IH]; intro s; cbn; auto. Qed.

Lemma stub_all_keeps : forall ps s, ps_stubs (stub_all ps s) = ps_stubs s ++ ps /\ ps_calls (stub_all ps s) = ps_calls s /\
  ps_resets (stub_all ps s) = ps_resets s /\ ps_next (stub_all ps s) = ps_next s /\ ps_asked (stub_all ps s) = ps_asked s /\
  ps_pushed (stub_all ps s) = ps_pushed s + length ps /\ ps_moved s <= ps_moved (stub_all ps s).
Proof.
  intros ps. induction ps as [|p ps IH]; intro s; cbn; [rewrite app_nil_r, Nat.add_0_r; repeat split; auto|].
  destruct (IH (add_stub grown p s)) as (b1 & b2 & b3 & b4 & b5 & b6 & b7). unfold stub_all in *. cbn [length].
  rewrite b1, b2, b3, b4, b5, b6. cbn. rewrite <- app_assoc. repeat split; auto; try lia.
  etransitivity; [|exact b7]. cbn [add_stub ps_moved]. destruct (_ <? _); lia.
Qed.

Lemma stub_all_mocked : forall ps s, ps_mocked (stub_all ps s) = match ps with [] => ps_mocked s | _ => true end.
Proof.
  assert (T : forall ps s, ps_mocked s = true -> ps_mocked (stub_all ps s) = true).
  { induction ps as [|p ps IH]; intros s M; [exact M|]. cbn. apply IH. reflexivity. }
  intros [|p ps] s; [reflexivity|]. cbn. apply T. reflexivity.
Qed.
Lemma stub_all_fits : (forall n, n <= grown n) -> forall ps s, length (ps_stubs s) <= ps_room s ->
  length (ps_stubs (stub_all ps s)) <= ps_room (stub_all ps s).
Proof.
  intros G. induction ps as [|p ps IH]; intros s F; [exact F|]. cbn. apply IH. unfold add_stub. cbn [ps_stubs ps_room].
  rewrite app_length, Nat.add_1_r. destruct (Nat.ltb_spec (ps_room s) (S (length (ps_stubs s)))); [apply G|lia].
Qed.
Lemma stub_all_room : forall ps s, length (ps_stubs s) + length ps <= ps_room s ->
  ps_moved (stub_all ps s) = ps_moved s.
Proof.
  intros ps. induction ps as [|p ps IH]; intros s H; cbn [stub_all fold_left]; auto. cbn [length] in H.
  assert (E : (ps_room s <? S (length (ps_stubs s))) = false) by (apply Nat.ltb_ge; lia).
  unfold stub_all in IH. rewrite IH; unfold add_stub; rewrite E; cbn; auto. rewrite app_length; cbn. lia.
Qed.

Lemma stub_all_full : forall ps s, ps_room s < length (ps_stubs s) + length ps -> 0 < length ps ->
  ps_moved s < ps_moved (stub_all ps s).
Proof.
  intros ps. induction ps as [|p ps IH]; intros s H L; cbn [length] in *; [lia|]. cbn [stub_all fold_left].
  destruct (Nat.ltb_spec (ps_room s) (S (length (ps_stubs s)))) as [E|E].
  - destruct (stub_all_keeps ps (add_stub grown p s)) as (_ & _ & _ & _ & _ & _ & b7). unfold stub_all in b7.
    eapply Nat.lt_le_trans; [|exact b7]. unfold add_stub. apply Nat.ltb_lt in E. rewrite E. cbn [ps_moved]. lia.
  - unfold stub_all in IH.
    assert (E' : ps_moved (add_stub grown p s) = ps_moved s /\ ps_room (add_stub grown p s) = ps_room s).
    { unfold add_stub. apply Nat.ltb_ge in E. rewrite E. auto. }
    destruct E' as [E1 E2]. rewrite <- E1. apply IH; [|destruct ps; cbn in *; lia].
    rewrite E2. cbn. rewrite app_length. cbn. lia.
Qed.

Section Acting.
Variables (s : pst) (a : A) (older newer : list P) (p : P) (fuel : nat).
Hypothesis mocked : ps_mocked s = true.
Hypothesis stubs : ps_stubs s = older ++ p :: newer.
Hypothesis quiet : Forall (quietly_rejects code a) newer.

Let s1 := note_all a (rev newer) (draw_ordinal s).

Lemma call_to : pcall_run (S fuel) s a =
  obind (find_stub (pcall_run fuel) (draw_ordinal s) (match rev newer with [] => true | _ => false end) (p :: rev older) a s1)
    (fun r => match snd r with
      | Some (Threw x) => Def (fst r, Threw x)
      | Some (Answered q) => Def (record_call (mkPcall (ps_next s) a q) (fst r), Answered q)
      | None => Def (fst r, Threw unexpected) end).
Proof.
  cbn [Predicates.pcall_run]. unfold call_body. rewrite mocked. cbn [negb]. change (ps_stubs (draw_ordinal s)) with (ps_stubs s).
  rewrite stubs, rev_app_distr. cbn [rev]. rewrite <- app_assoc. cbn [app].
  rewrite find_quiet by (auto; now apply Forall_rev). fold s1.
  destruct (find_stub _ _ _ (p :: rev older) a s1) as [[s' r]| |]; reflexivity.
Qed.

Lemma s1_fields : ps_stubs s1 = ps_stubs s /\ ps_calls s1 = ps_calls s /\ ps_resets s1 = ps_resets s /\ ps_room s1 = ps_room s /\
  ps_pushed s1 = ps_pushed s /\ ps_moved s1 = ps_moved s /\ ps_next s1 = S (ps_next s).
Proof. unfold s1. rewrite note_all_eq. cbn. auto 10. Qed.

Lemma stub_and_accept : forall qs, (forall log, code log p a = (map PaStub qs, Accept)) ->
  exists s', pcall_run (S fuel) s a = Def (s', Answered p) /\ ps_stubs s' = ps_stubs s ++ qs /\
    ps_calls s' = ps_calls s ++ [mkPcall (ps_next s) a p] /\ ps_mocked s' = true /\
    ((forall n, n <= grown n) -> length (ps_stubs s) <= ps_room s -> length (ps_stubs s') <= ps_room s').
Proof.
  intros qs H. rewrite call_to. cbn [Predicates.find_stub]. rewrite (ask_code _ p a s1 _ _ H), perform_stubs. cbn [obind snd fst].
  destruct (stub_all_keeps qs (note_asked p a s1)) as (b1 & b2 & b3 & _). destruct s1_fields as (f1 & f2 & f3 & _).
  rewrite b3. cbn [ps_resets note_asked draw_ordinal]. rewrite f3, Nat.eqb_refl. cbn [obind snd fst].
  eexists. split; [reflexivity|]. cbn [ps_stubs ps_calls record_call]. rewrite b1, b2. cbn. rewrite f1, f2.
  split; [reflexivity|]. split; [reflexivity|]. split.
  - rewrite stub_all_mocked. destruct qs; auto. cbn. unfold s1. rewrite note_all_eq. exact mocked.
  - intros G F. pose proof (stub_all_fits G qs (note_asked p a s1)) as B. rewrite b1 in B. cbn [ps_stubs ps_room note_asked] in B.
    destruct s1_fields as (_ & _ & _ & f4 & _). rewrite f1, f4 in B. apply B. exact F.
Qed.

Lemma stub_and_reject : forall qs, qs <> [] -> (forall log, code log p a = (map PaStub qs, Reject)) ->
  newer = [] \/ ps_room s < length (ps_stubs s) + length qs ->
  pcall_run (S fuel) s a = UB.
Proof.
  intros qs N H D. rewrite call_to. cbn [Predicates.find_stub]. rewrite (ask_code _ p a s1 _ _ H), perform_stubs. cbn [obind snd fst].
  destruct (stub_all_keeps qs (note_asked p a s1)) as (b1 & b2 & b3 & b4 & b5 & b6 & b7).
  destruct s1_fields as (f1 & f2 & f3 & f4 & f5 & f6 & _).
  assert (L : 0 < length qs) by (destruct qs; cbn; [congruence|lia]).
  rewrite b3, b6. cbn [ps_resets ps_pushed note_asked draw_ordinal ps_moved]. rewrite f3, f5, Nat.eqb_refl.
  destruct D as [->|D].
  - cbn [rev negb]. assert ((ps_pushed s + length qs =? ps_pushed s) = false) as -> by (apply Nat.eqb_neq; lia).
    now rewrite andb_false_r.
  - assert (F : ps_moved s < ps_moved (stub_all qs (note_asked p a s1))).
    { pose proof (stub_all_full qs (note_asked p a s1)) as B. cbn in B. rewrite f1, f4, f6 in B. auto. }
    assert ((ps_moved (stub_all qs (note_asked p a s1)) =? ps_moved s) = false) as -> by (apply Nat.eqb_neq; lia).
    reflexivity.
Qed.

(** With room, and asked later than the newest, the search goes on. *)
Lemma stub_with_room : forall qs older' q mid, older = older' ++ q :: mid -> newer <> [] ->
  (forall log, code log p a = (map PaStub qs, Reject)) -> length (ps_stubs s) + length qs <= ps_room s ->
  Forall (quietly_rejects code a) mid -> (forall log, code log q a = ([], Accept)) ->
  exists s', pcall_run (S fuel) s a = Def (s', Answered q) /\ ps_stubs s' = ps_stubs s ++ qs /\
    ps_calls s' = ps_calls s ++ [mkPcall (ps_next s) a q].
Proof.
  intros qs older' q mid EO NN H RM QM HQ. rewrite call_to. cbn [Predicates.find_stub].
  rewrite (ask_code _ p a s1 _ _ H), perform_stubs. cbn [obind snd fst].
  destruct s1_fields as (f1 & f2 & f3 & f4 & f5 & f6 & _).
  destruct (stub_all_keeps qs (note_asked p a s1)) as (b1 & b2 & b3 & _).
  set (s2 := stub_all qs (note_asked p a s1)) in *.
  assert (b7 : ps_moved s2 = ps_moved s).
  { unfold s2. rewrite stub_all_room; cbn; [auto|]. now rewrite f1, f4. }
  cbn in b1, b2, b3.
  assert ((match rev newer with [] => true | _ => false end) = false) as ->.
  { destruct (rev newer) eqn:E; auto. apply (f_equal (@rev P)) in E. rewrite rev_involutive in E. contradiction. }
  change (ps_resets (draw_ordinal s)) with (ps_resets s). change (ps_moved (draw_ordinal s)) with (ps_moved s).
  rewrite b3, b7, f3, !Nat.eqb_refl. cbn [negb orb andb].
  rewrite EO, rev_app_distr. cbn [rev]. rewrite <- app_assoc. cbn [app].
  rewrite find_quiet; [|now apply Forall_rev|cbn; congruence|cbn; congruence|discriminate].
  cbn [Predicates.find_stub]. rewrite (ask_code _ q a _ _ _ HQ). cbn [Predicates.perform_acts obind snd fst].
  rewrite note_all_eq. cbn. rewrite b3, f3, Nat.eqb_refl. cbn.
  eexists. split; [reflexivity|]. cbn. now rewrite b1, b2, f1, f2.
Qed.

Lemma reset_and_end : forall qs e, (forall log, code log p a = (PaReset :: map PaStub qs, e)) ->
  match e with
  | Throw x => exists s', pcall_run (S fuel) s a = Def (s', Threw x) /\
      ps_mocked s' = (match qs with [] => false | _ => true end) /\ ps_stubs s' = qs /\ ps_calls s' = []
  | _ => pcall_run (S fuel) s a = UB
  end.
Proof.
  intros qs e H. rewrite call_to. cbn [Predicates.find_stub]. rewrite (ask_code _ p a s1 _ _ H). cbn [Predicates.perform_acts].
  rewrite perform_stubs. cbn [obind snd fst].
  destruct s1_fields as (f1 & f2 & f3 & _).
  destruct (stub_all_keeps qs (reset_mock (note_asked p a s1))) as (b1 & b2 & b3 & _).
  assert (N : ps_resets (stub_all qs (reset_mock (note_asked p a s1))) =? ps_resets (draw_ordinal s) = false).
  { apply Nat.eqb_neq. rewrite b3. cbn. rewrite f3. lia. }
  destruct e; [now rewrite N|now rewrite N|].
  cbn. eexists. split; [reflexivity|]. rewrite stub_all_mocked. split; [now destruct qs|]. now rewrite b1, b2.
Qed.

(** A condition that lets the exception of a call inside through. *)
Lemma call_uncaught : forall b rest e s2 x,
  (forall log, code log p a = (PaCall b false :: rest, e)) ->
  pcall_run fuel (mkPs true (ps_stubs s) (ps_room s) (ps_pushed s) (ps_moved s) (ps_calls s) (ps_cleared s)
                    (S (ps_next s)) (ps_resets s) (ps_asked s ++ map (fun q => (q, a)) (rev newer ++ [p]))) b = Def (s2, Threw x) ->
  pcall_run (S fuel) s a = Def (s2, Threw x).
Proof.
  intros b rest e s2 x H R. rewrite call_to. cbn [Predicates.find_stub]. rewrite (ask_code _ p a s1 _ _ H).
  cbn [Predicates.perform_acts].
  replace (note_asked p a s1) with (mkPs true (ps_stubs s) (ps_room s) (ps_pushed s) (ps_moved s) (ps_calls s) (ps_cleared s)
                    (S (ps_next s)) (ps_resets s) (ps_asked s ++ map (fun q => (q, a)) (rev newer ++ [p]))).
  2: { unfold s1. rewrite note_all_eq. unfold note_asked. cbn. rewrite mocked, map_app, app_assoc. reflexivity. }
  rewrite R. reflexivity.
Qed.
End Acting.

(** *** A verification whose condition throws the record away *)
Lemma verify_clears : forall fuel (s : pst) q k (good : A -> bool) act,
  act = PaClear \/ act = PaReset ->
  (forall log a, code log q a = ([act], if good a then Accept else Reject)) ->
  ps_calls s <> [] -> k <> 0 \/ 1 < length (ps_calls s) \/ Exists (fun c => good (pc_args c) = true) (ps_calls s) ->
  pverify code unexpected grown fuel s q k = UB.
Proof.
  intros fuel s q k good act HA H N D. unfold pverify.
  assert (L : length (by_ordinal (ps_calls s)) = length (ps_calls s)).
  { pose proof (length_sorted (fun _ => true) (ps_calls s)) as B.
    assert (T : forall l : list (pcall P A), filter (fun _ => true) l = l)
      by (intro l; induction l; cbn; congruence). now rewrite !T in B. }
  assert (W : match ps_cleared s with 0 => false | S m' => ps_cleared s =? m' end = false).
  { destruct (ps_cleared s); auto. apply Nat.eqb_neq. lia. }
  destruct (by_ordinal (ps_calls s)) as [|c [|c' cs]] eqn:B; [destruct (ps_calls s); cbn in L; congruence| |];
    cbn [count_matches]; rewrite Nat.eqb_refl, (ask_code _ q (pc_args c) s _ _ (fun log => H log _));
    destruct HA as [-> | ->]; cbn [Predicates.perform_acts obind snd fst]; cbn;
    try (destruct (good (pc_args c)); cbn; rewrite W; reflexivity).
  - assert (D' : k <> 0 \/ good (pc_args c) = true).
    { destruct D as [D|[D|D]]; [auto|cbn in L; lia|]. right. apply Exists_exists in D as (d & I & G).
      apply in_sorted in I. rewrite B in I. destruct I as [->|[]]. exact G. }
    destruct k as [|k]; destruct (good (pc_args c)); cbn; rewrite W; try reflexivity. destruct D' as [D'|D']; [lia|discriminate].
  - assert (D' : k <> 0 \/ good (pc_args c) = true).
    { destruct D as [D|[D|D]]; [auto|cbn in L; lia|]. right. apply Exists_exists in D as (d & I & G).
      apply in_sorted in I. rewrite B in I. destruct I as [->|[]]. exact G. }
    destruct k as [|k]; destruct (good (pc_args c)); cbn; rewrite W; try reflexivity. destruct D' as [D'|D']; [lia|discriminate].
Qed.

Lemma verify_cleared : forall fuel (s : pst) q (good : A -> bool) act c,
  act = PaClear \/ act = PaReset ->
  (forall log a, code log q a = ([act], if good a then Accept else Reject)) ->
  ps_calls s = [c] -> good (pc_args c) = false ->
  exists s', pverify code unexpected grown fuel s q 0 = Def (s', inl true) /\ ps_calls s' = [].
Proof.
  intros fuel s q good act c HA H N G. unfold pverify. rewrite N. cbn [by_ordinal fold_right insert_call].
  cbn [count_matches]. rewrite Nat.eqb_refl, (ask_code _ q (pc_args c) s _ _ (fun log => H log _)), G.
  destruct HA as [-> | ->]; cbn [Predicates.perform_acts obind snd fst]; cbn; rewrite orb_true_r; eexists; split; reflexivity.
Qed.

(** *** The order in which a verification asks *)
Lemma insert_perm : forall (c : pcall P A) l, Permutation (c :: l) (insert_call c l).
Proof.
  intros c l. induction l as [|d l IH]; cbn [insert_call]; auto. destruct (pc_ord c <? pc_ord d); auto.
  rewrite perm_swap. now constructor.
Qed.
Lemma sorted_perm : forall l : list (pcall P A), Permutation l (by_ordinal l).
Proof.
  intro l. unfold by_ordinal. induction l as [|c l IH]; cbn [fold_right]; auto. rewrite <- insert_perm. now constructor.
Qed.
Lemma insert_sorted : forall (c : pcall P A) l, StronglySorted (fun x y => pc_ord x <= pc_ord y) l ->
  StronglySorted (fun x y => pc_ord x <= pc_ord y) (insert_call c l).
Proof.
  intros c l H. induction H as [|d l H IH F]; cbn [insert_call]; [repeat constructor|].
  destruct (Nat.ltb_spec (pc_ord c) (pc_ord d)).
  - constructor; [now constructor|]. constructor; [lia|]. eapply Forall_impl; [|exact F]. cbn. intros; lia.
  - constructor; auto. apply Forall_forall. intros x Hx. apply in_insert in Hx as [->|Hx]; auto.
    revert x Hx. now apply Forall_forall.
Qed.
Lemma sorted_sorted : forall l : list (pcall P A), StronglySorted (fun x y => pc_ord x <= pc_ord y) (by_ordinal l).
Proof. intro l. unfold by_ordinal. induction l as [|c l IH]; cbn [fold_right]; [constructor|now apply insert_sorted]. Qed.

Lemma count_quiet : forall inner q (ends : A -> pend X) s0, (forall log a, code log q a = ([], ends a)) ->
  forall cs n s, ps_cleared s = ps_cleared s0 ->
  (Forall (fun c => forall x, ends (pc_args c) <> Throw x) cs /\
   exists m, count_matches code grown inner s0 q cs n s = Def (fold_left (fun s c => note_asked q (pc_args c) s) cs s, inl m)) \/
  (exists pre c post x, cs = pre ++ c :: post /\ Forall (fun c => forall x, ends (pc_args c) <> Throw x) pre /\
     ends (pc_args c) = Throw x /\
     count_matches code grown inner s0 q cs n s = Def (fold_left (fun s c => note_asked q (pc_args c) s) (pre ++ [c]) s, inr x)).
Proof.
  intros inner q ends s0 H cs. induction cs as [|c cs IH]; intros n s C; cbn [count_matches].
  - left. split; auto. exists n. reflexivity.
  - rewrite C, Nat.eqb_refl, (ask_code _ q (pc_args c) s _ _ (fun log => H log _)). cbn [Predicates.perform_acts obind snd fst].
    destruct (ends (pc_args c)) as [| |x] eqn:E.
    + destruct (IH (S n) (note_asked q (pc_args c) s) C) as [(F & m & R)|(pre & d & post & x & -> & F & T & R)].
      * left. split; [constructor; auto; congruence|exists m; exact R].
      * right. exists (c :: pre), d, post, x. repeat split; auto. constructor; auto. congruence.
    + destruct (IH n (note_asked q (pc_args c) s) C) as [(F & m & R)|(pre & d & post & x & -> & F & T & R)].
      * left. split; [constructor; auto; congruence|exists m; exact R].
      * right. exists (c :: pre), d, post, x. repeat split; auto. constructor; auto. congruence.
    + right. exists [], c, cs, x. repeat split; auto.
Qed.

Lemma noted_asked : forall q (cs : list (pcall P A)) (s : pst), let s' := fold_left (fun s c => note_asked q (pc_args c) s) cs s in
  ps_asked s' = ps_asked s ++ map (fun c => (q, pc_args c)) cs /\ ps_calls s' = ps_calls s /\ ps_stubs s' = ps_stubs s /\
  ps_cleared s' = ps_cleared s.
Proof.
  intros q cs. induction cs as [|c cs IH]; intro s; cbn; [now rewrite app_nil_r|].
  destruct (IH (note_asked q (pc_args c) s)) as (b1 & b2 & b3 & b4). rewrite b1, b2, b3, b4. cbn. now rewrite <- app_assoc.
Qed.

Lemma verify_order : forall fuel (s : pst) q k (ends : A -> pend X), (forall log a, code log q a = ([], ends a)) ->
  exists cs s' r, Permutation (ps_calls s) cs /\ StronglySorted (fun x y => pc_ord x <= pc_ord y) cs /\
    pverify code unexpected grown fuel s q k = Def (s', r) /\ ps_calls s' = ps_calls s /\ ps_stubs s' = ps_stubs s /\
    match r with
    | inl _ => Forall (fun c => forall x, ends (pc_args c) <> Throw x) cs /\
        ps_asked s' = ps_asked s ++ map (fun c => (q, pc_args c)) cs
    | inr x => exists pre c post, cs = pre ++ c :: post /\ Forall (fun c => forall x, ends (pc_args c) <> Throw x) pre /\
        ends (pc_args c) = Throw x /\ ps_asked s' = ps_asked s ++ map (fun c => (q, pc_args c)) (pre ++ [c])
    end.
Proof.
  intros fuel s q k ends H. exists (by_ordinal (ps_calls s)). unfold pverify.
  destruct (count_quiet (pcall_run fuel) q ends s H (by_ordinal (ps_calls s)) 0 s eq_refl)
    as [(F & m & R)|(pre & c & post & x & E & F & T & R)]; rewrite R; cbn [obind].
  - destruct (noted_asked q (by_ordinal (ps_calls s)) s) as (b1 & b2 & b3 & b4). rewrite b4, Nat.eqb_refl. cbn [orb].
    eexists _, _. split; [apply sorted_perm|]. split; [apply sorted_sorted|]. split; [reflexivity|]. split; [exact b2|]. split; [exact b3|]. split; assumption.
  - destruct (noted_asked q (pre ++ [c]) s) as (b1 & b2 & b3 & b4).
    eexists _, _. split; [apply sorted_perm|]. split; [apply sorted_sorted|]. split; [reflexivity|]. split; [exact b2|]. split; [exact b3|].
    exists pre, c, post. repeat split; assumption.
Qed.

End Proofs.
