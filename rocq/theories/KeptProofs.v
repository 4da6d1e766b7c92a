(** Every test that keeps to the rules of Spec_Kept.v runs defined and tells what its text says. *)
From Coq Require Import Bool String NArith Arith Lia List.
From Verif Require Import Base Kept Spec_Kept.
Import ListNotations.
Open Scope list_scope.
Open Scope nat_scope.

Lemma same_iff m k m' k' : same m k m' k' = true <-> m = m' /\ k = k'.
Proof. unfold same. rewrite andb_true_iff, !Nat.eqb_eq. tauto. Qed.

Lemma same_refl m k : same m k m k = true.
Proof. apply same_iff; auto. Qed.

Lemma same_sym m k m' k' : same m k m' k' = same m' k' m k.
Proof. unfold same. rewrite (Nat.eqb_sym m), (Nat.eqb_sym k). reflexivity. Qed.

Section Proofs.
Variable A : Type.
Variable show : A -> string.
Variable cname : nat -> nat -> string.
Variable around : nat -> bool.

Notation kstate := (kstate A).
Notation rec := (rec A).
Notation bodyof := (body_of A cname).
Notation kbodies := (k_bodies A).
Notation kcalls := (k_calls A).
Notation kexprs := (k_exprs A).
Notation knext := (k_next A).

Definition idof (s : kstate) (m k : nat) : nat := match kbodies s m k with Some b => kb_id b | None => 0 end.
Definition conc (s : kstate) (c : rec) : call A :=
  mkCall A (r_mock A c) (r_slot A c) (idof s (r_mock A c) (r_slot A c)) (r_args A c) (r_seen A c).

Record Rep (K : nat -> nat -> bool) (N : nat -> nat -> string) (S : nat -> nat -> list nat) (H : list rec)
           (W : list (nat * nat * cond A)) (F : nat -> bool) (s : kstate) : Prop := mkRep {
  rp_body : forall m k, match kbodies s m k with
              | Some b => K m k = true /\ kb_name b = N m k /\ kb_stubs b = rev (S m k) /\ kb_id b < knext s
              | None => K m k = false end;
  rp_inj : forall m k m' k' b b', kbodies s m k = Some b -> kbodies s m' k' = Some b' ->
             kb_id b = kb_id b' -> m = m' /\ k = k';
  rp_calls : kcalls s = map (conc s) H;
  rp_exprs : forall e, nth_error (kexprs s) e =
               match nth_error W e with Some (m, k, c) => Some (mkExpr A m k c (F e)) | None => None end;
  rp_fresh : forall m k, K m k = false -> N m k = cname m k /\ S m k = [];
  rp_hist : forall c, In c H -> K (r_mock A c) (r_slot A c) = true;
  rp_stubs : forall m k e, In e (S m k) -> exists c, nth_error W e = Some (m, k, c);
  rp_flag : forall e, F e = true -> e < length W
}.

Lemma rep_ext K N S H W F s K' N' S' F' :
  Rep K N S H W F s -> (forall m k, K m k = K' m k) -> (forall m k, N m k = N' m k) ->
  (forall m k, S m k = S' m k) -> (forall e, F e = F' e) -> Rep K' N' S' H W F' s.
Proof.
  intros [B I C E Fr Hi St Fl] EK EN ES EF. constructor.
  - intros m k. specialize (B m k). rewrite <- EK, <- EN, <- ES. exact B.
  - exact I.
  - exact C.
  - intros e. rewrite E. destruct (nth_error W e) as [[[m k] c]|]; rewrite <- ?EF; reflexivity.
  - intros m k X. rewrite <- EK in X. rewrite <- EN, <- ES. apply Fr, X.
  - intros c X. rewrite <- EK. apply Hi, X.
  - intros m k e X. rewrite <- ES in X. apply St, X.
  - intros e X. rewrite <- EF in X. apply Fl, X.
Qed.

Lemma put_at (s : kstate) m k b m' k' :
  kbodies (put_body A s m k b) m' k' = if same m k m' k' then b else kbodies s m' k'.
Proof. reflexivity. Qed.

(** ** Looking a record up *)

Definition touch (s : kstate) m k : kstate := fst (bodyof s m k).

Lemma touch_has s m k : exists b, kbodies (touch s m k) m k = Some b /\ bodyof s m k = (touch s m k, b).
Proof.
  unfold touch, body_of. destruct (kbodies s m k) as [b|] eqn:E; cbn [fst].
  - exists b. auto.
  - eexists. rewrite put_at, same_refl. auto.
Qed.

Lemma touch_idem s m k : touch (touch s m k) m k = touch s m k.
Proof.
  destruct (touch_has s m k) as [b [B _]]. unfold touch at 1. unfold body_of. rewrite B. reflexivity.
Qed.

Lemma touch_calls s m k : kcalls (touch s m k) = kcalls s.
Proof. unfold touch, body_of. destruct (kbodies s m k); reflexivity. Qed.

Lemma touch_exprs s m k : kexprs (touch s m k) = kexprs s.
Proof. unfold touch, body_of. destruct (kbodies s m k); reflexivity. Qed.

Lemma conc_ext s s' H : (forall c, In c H -> idof s (r_mock A c) (r_slot A c) = idof s' (r_mock A c) (r_slot A c)) ->
  map (conc s) H = map (conc s') H.
Proof. intros X. apply map_ext_in. intros c I. unfold conc. rewrite X by exact I. reflexivity. Qed.

Lemma rep_touch K N S H W F s m k : Rep K N S H W F s ->
  Rep (fun m' k' => same m' k' m k || K m' k') N S H W F (touch s m k).
Proof.
  intros [B I C E Fr Hi St Fl].
  destruct (kbodies s m k) as [b|] eqn:Kb.
  - assert (T : touch s m k = s) by (unfold touch, body_of; rewrite Kb; reflexivity). rewrite T.
    assert (X : K m k = true) by (pose proof (B m k) as Q; rewrite Kb in Q; tauto).
    apply rep_ext with (K := K) (N := N) (S := S) (F := F); auto; [constructor; auto|].
    intros m' k'. destruct (same m' k' m k) eqn:Q; cbn; auto. apply same_iff in Q. destruct Q as [-> ->]. exact X.
  - assert (X : K m k = false) by (pose proof (B m k) as Q; rewrite Kb in Q; tauto).
    set (b := mkBody (knext s) (cname m k) []).
    assert (T : touch s m k = put_body A (mkState A (kbodies s) (kcalls s) (kexprs s) (Datatypes.S (knext s))) m k (Some b))
      by (unfold touch, body_of; rewrite Kb; reflexivity).
    rewrite T. constructor.
    + intros m' k'. rewrite put_at. rewrite (same_sym m' k').
      destruct (same m k m' k') eqn:Q; cbn [orb].
      * apply same_iff in Q. destruct Q as [<- <-]. destruct (Fr m k X) as [f g]. rewrite f, g. cbn. auto with arith.
      * cbn. specialize (B m' k'). destruct (kbodies s m' k'); auto. intuition.
    + intros m1 k1 m2 k2 b1 b2. rewrite !put_at.
      pose proof (B m1 k1) as B1. pose proof (B m2 k2) as B2.
      destruct (same m k m1 k1) eqn:Q1, (same m k m2 k2) eqn:Q2; cbn.
      * apply same_iff in Q1, Q2. intros. intuition congruence.
      * intros X1 X2 X3. injection X1 as <-. rewrite X2 in B2. cbn in X3. lia.
      * intros X1 X2 X3. injection X2 as <-. rewrite X1 in B1. cbn in X3. lia.
      * apply I.
    + cbn [k_calls put_body]. rewrite C. apply conc_ext. intros c Ic. unfold idof. rewrite put_at.
      destruct (same m k (r_mock A c) (r_slot A c)) eqn:Q; [|reflexivity].
      apply same_iff in Q. destruct Q as [Q1 Q2]. pose proof (Hi c Ic) as Y. rewrite <- Q1, <- Q2 in Y. congruence.
    + exact E.
    + intros m' k' Y. apply orb_false_iff in Y. apply Fr, Y.
    + intros c Ic. rewrite (Hi c Ic). apply orb_true_r.
    + exact St.
    + exact Fl.
Qed.

(** Naming a method, adding a stubbing. *)
Lemma rep_put K N S H W F s m k b N' S' b' : Rep K N S H W F s -> kbodies s m k = Some b -> kb_id b' = kb_id b ->
  kb_name b' = N' m k -> kb_stubs b' = rev (S' m k) ->
  (forall m' k', same m k m' k' = false -> N' m' k' = N m' k' /\ S' m' k' = S m' k') ->
  (forall e, In e (S' m k) -> exists c, nth_error W e = Some (m, k, c)) ->
  Rep K N' S' H W F (put_body A s m k (Some b')).
Proof.
  intros [B I C E Fr Hi St Fl] Kb Eid En Es Eo Est.
  assert (X : K m k = true) by (pose proof (B m k) as Q; rewrite Kb in Q; tauto).
  assert (Id : forall m' k', idof (put_body A s m k (Some b')) m' k' = idof s m' k').
  { intros m' k'. unfold idof. rewrite put_at. destruct (same m k m' k') eqn:Q; [|reflexivity].
    apply same_iff in Q. destruct Q as [<- <-]. rewrite Kb. exact Eid. }
  constructor.
  - intros m' k'. rewrite put_at. specialize (B m' k'). destruct (same m k m' k') eqn:Q.
    + apply same_iff in Q. destruct Q as [<- <-]. rewrite Kb in B. rewrite Eid. tauto.
    + destruct (Eo m' k' Q) as [-> ->]. exact B.
  - assert (Y : forall m' k' c, kbodies (put_body A s m k (Some b')) m' k' = Some c ->
        exists c', kbodies s m' k' = Some c' /\ kb_id c' = kb_id c).
    { intros m' k' c. rewrite put_at. destruct (same m k m' k') eqn:Q.
      - apply same_iff in Q. destruct Q as [<- <-]. intros Z. injection Z as <-. eauto.
      - eauto. }
    intros m1 k1 m2 k2 b1 b2 X1 X2 X3.
    destruct (Y _ _ _ X1) as [c1 [U1 V1]]. destruct (Y _ _ _ X2) as [c2 [U2 V2]].
    apply (I _ _ _ _ _ _ U1 U2). congruence.
  - cbn [k_calls put_body]. rewrite C. apply conc_ext. intros. symmetry. apply Id.
  - exact E.
  - intros m' k' Y. destruct (same m k m' k') eqn:Q.
    + apply same_iff in Q. destruct Q as [<- <-]. congruence.
    + destruct (Eo m' k' Q) as [-> ->]. apply Fr, Y.
  - exact Hi.
  - intros m' k' e Y. destruct (same m k m' k') eqn:Q.
    + apply same_iff in Q. destruct Q as [<- <-]. apply Est, Y.
    + destruct (Eo m' k' Q) as [_ Z]. rewrite Z in Y. apply St, Y.
  - exact Fl.
Qed.

(** ** Conditions *)

Lemma cond_ok K N S H W F s e m k c : Rep K N S H W F s -> nth_error W e = Some (m, k, c) ->
  F e = false \/ In e (S m k) -> cond_of A s e = Def c.
Proof.
  intros R X Y. unfold cond_of. rewrite (rp_exprs _ _ _ _ _ _ _ R), X. cbn.
  destruct (F e) eqn:Fe; [|reflexivity]. destruct Y as [Y|Y]; [discriminate|].
  pose proof (rp_body _ _ _ _ _ _ _ R m k) as B. destruct (kbodies s m k) as [b|] eqn:Kb.
  - destruct B as (_ & _ & B & _). rewrite B.
    assert (Z : existsb (Nat.eqb e) (rev (S m k)) = true).
    { apply existsb_exists. exists e. split; [apply -> in_rev; exact Y|apply Nat.eqb_refl]. }
    rewrite Z. reflexivity.
  - destruct (rp_fresh _ _ _ _ _ _ _ R m k B) as [_ Z]. rewrite Z in Y. destruct Y.
Qed.

Definition acc (W : list (nat * nat * cond A)) (e : nat) (a : A) : bool :=
  match nth_error W e with Some (_, _, c) => c_ok A c a | None => false end.

Lemma find_stub_ok K N S H W F s m k a : Rep K N S H W F s -> forall es, incl es (S m k) ->
  find_stub A s es a = Def (find (fun e => acc W e a) es).
Proof.
  intros R. induction es as [|e r IH]; intros L; [reflexivity|].
  cbn [find_stub find].
  assert (In e (S m k)) as Ie by (apply L; left; reflexivity).
  destruct (rp_stubs _ _ _ _ _ _ _ R _ _ _ Ie) as [c X].
  rewrite (cond_ok _ _ _ _ _ _ _ _ _ _ _ R X (or_intror Ie)). cbn. unfold acc at 1. rewrite X.
  destruct (c_ok A c a); [reflexivity|]. apply IH. intros z Hz. apply L. right; exact Hz.
Qed.

(** ** Texts *)

Definition txt (N : nat -> nat -> string) (c : rec) : string :=
  (N (r_mock A c) (r_slot A c) ++ show (r_args A c))%string.

Lemma call_texts_ok K N S H W F s : Rep K N S H W F s -> forall l, incl l H ->
  call_texts A show s (map (conc s) l) = Def (map (txt N) l).
Proof.
  intros R. induction l as [|c r IH]; intros L; [reflexivity|].
  cbn [map call_texts]. assert (In c H) as Ic by (apply L; left; reflexivity).
  pose proof (rp_hist _ _ _ _ _ _ _ R c Ic) as X. pose proof (rp_body _ _ _ _ _ _ _ R (r_mock A c) (r_slot A c)) as B.
  unfold call_text at 1. cbn [cl_mock cl_slot cl_meth cl_args conc]. unfold idof.
  destruct (kbodies s (r_mock A c) (r_slot A c)) as [b|]; [|congruence].
  rewrite Nat.eqb_refl. cbn. rewrite IH by (intros z Hz; apply L; right; exact Hz). cbn.
  destruct B as (_ & -> & _). reflexivity.
Qed.

(** ** Matching *)

Definition hitW (W : list (nat * nat * cond A)) (e : nat) (c : rec) : bool :=
  match nth_error W e with
  | Some (m, k, cd) => same (r_mock A c) (r_slot A c) m k && c_ok A cd (r_args A c)
  | None => false
  end.

Lemma hitW_hit h e c : hit A h e c = hitW (written A h) e c.
Proof.
  unfold hit, hitW, about, accepts. destruct (nth_error (written A h) e) as [[[m k] cd]|]; [|reflexivity]. reflexivity.
Qed.

Lemma match_all_ok N S H W F e m k cd : nth_error W e = Some (m, k, cd) ->
  F e = false \/ In e (S m k) -> forall l K s, Rep K N S H W F s -> incl l H ->
  match_all A cname s e (mkExpr A m k cd (F e)) (map (conc s) l) =
    Def (match l with [] => s | _ => touch s m k end, map (hitW W e) l).
Proof.
  intros X Y. induction l as [|c r IH]; intros K s R L; [reflexivity|].
  cbn [map match_all ke_mock ke_slot].
  destruct (touch_has s m k) as [b [Hb ->]].
  pose proof (rep_touch _ _ _ _ _ _ _ m k R) as R1.
  assert (In c H) as Ic by (apply L; left; reflexivity).
  assert (Rl : map (conc s) r = map (conc (touch s m k)) r).
  { apply conc_ext. intros z Hz. assert (In z H) as Iz by (apply L; right; exact Hz).
    pose proof (rp_hist _ _ _ _ _ _ _ R z Iz) as Q. pose proof (rp_body _ _ _ _ _ _ _ R (r_mock A z) (r_slot A z)) as B.
    unfold idof, touch, body_of. destruct (kbodies s m k) eqn:E; [reflexivity|]. cbn [fst]. rewrite put_at.
    destruct (same m k (r_mock A z) (r_slot A z)) eqn:G; [|reflexivity].
    apply same_iff in G. destruct G as [G1 G2]. rewrite <- G1, <- G2 in B. rewrite E in B. rewrite <- G1, <- G2 in Q. congruence. }
  rewrite Rl.
  assert (Idc : cl_meth A (conc s c) = idof (touch s m k) (r_mock A c) (r_slot A c)).
  { cbn [cl_meth conc].
    pose proof (rp_hist _ _ _ _ _ _ _ R c Ic) as Q1. pose proof (rp_body _ _ _ _ _ _ _ R (r_mock A c) (r_slot A c)) as B.
    unfold idof, touch, body_of. destruct (kbodies s m k) eqn:E; [reflexivity|]. cbn [fst]. rewrite put_at.
    destruct (same m k (r_mock A c) (r_slot A c)) eqn:G; [|reflexivity].
    apply same_iff in G. destruct G as [G1 G2]. rewrite <- G1, <- G2 in B. rewrite E in B. rewrite <- G1, <- G2 in Q1. congruence. }
  assert (T : Nat.eqb (cl_meth A (conc s c)) (kb_id b) = same (r_mock A c) (r_slot A c) m k).
  { rewrite Idc. unfold idof.
    pose proof (rp_body _ _ _ _ _ _ _ R1 (r_mock A c) (r_slot A c)) as B.
    pose proof (rp_hist _ _ _ _ _ _ _ R1 c Ic) as Q.
    destruct (kbodies (touch s m k) (r_mock A c) (r_slot A c)) as [b'|] eqn:E; [|congruence].
    apply eq_iff_eq_true. rewrite same_iff, Nat.eqb_eq. split.
    - intros Z. exact (rp_inj _ _ _ _ _ _ _ R1 _ _ _ _ _ _ E Hb Z).
    - intros [G1 G2]. rewrite G1, G2 in E. congruence. }
  rewrite T.
  rewrite (cond_ok _ _ _ _ _ _ _ _ _ _ _ R1 X Y).
  rewrite (IH _ _ R1) by (intros z Hz; apply L; right; exact Hz).
  rewrite touch_idem. unfold hitW at 2. rewrite X.
  destruct (same (r_mock A c) (r_slot A c) m k); cbn; destruct r; reflexivity.
Qed.

Lemma calls_of_ok K N S H W F s m : Rep K N S H W F s -> calls_of A s m = map (conc s) (on_mock A m H).
Proof.
  intros R. unfold calls_of, on_mock. rewrite (rp_calls _ _ _ _ _ _ _ R).
  generalize H at 1 2. intros l. clear R. induction l as [|c r IH]; [reflexivity|]. cbn [map filter].
  change (cl_mock A (conc s c)) with (r_mock A c). destruct (r_mock A c =? m); cbn [map]; rewrite IH; reflexivity.
Qed.

Lemma count_ok W e m k cd H : nth_error W e = Some (m, k, cd) ->
  length (filter (fun b => b) (map (hitW W e) (on_mock A m H))) = length (filter (hitW W e) H).
Proof.
  intros X. induction H as [|c r IH]; [reflexivity|]. cbn [on_mock filter].
  destruct (r_mock A c =? m) eqn:Q.
  - cbn [map filter]. change (filter (fun c0 => r_mock A c0 =? m) r) with (on_mock A m r).
    destruct (hitW W e c); cbn [length]; rewrite IH; reflexivity.
  - change (filter (fun c0 => r_mock A c0 =? m) r) with (on_mock A m r).
    assert (Z : hitW W e c = false) by (unfold hitW; rewrite X; unfold same; rewrite Q; reflexivity).
    rewrite Z. exact IH.
Qed.

Definition seen (W : list (nat * nat * cond A)) (e : nat) (c : rec) : rec :=
  mkRec A (r_mock A c) (r_slot A c) (r_args A c) (hitW W e c || r_seen A c).

Lemma mark_ok W e m k cd s H : nth_error W e = Some (m, k, cd) ->
  mark A m (map (conc s) H) (map (hitW W e) (on_mock A m H)) = map (conc s) (map (seen W e) H).
Proof.
  intros X. induction H as [|c r IH]; [reflexivity|]. cbn [on_mock filter map mark].
  change (filter (fun c0 => r_mock A c0 =? m) r) with (on_mock A m r).
  change (cl_mock A (conc s c)) with (r_mock A c).
  destruct (r_mock A c =? m) eqn:Q.
  - cbn [map]. rewrite IH. reflexivity.
  - assert (Z : hitW W e c = false) by (unfold hitW; rewrite X; unfold same; rewrite Q; reflexivity).
    rewrite IH. unfold seen at 2. rewrite Z. destruct c; reflexivity.
Qed.

Lemma scan_ok K N S H W F s e m k cd : Rep K N S H W F s -> nth_error W e = Some (m, k, cd) ->
  F e = false \/ In e (S m k) -> forall l,
  scan A s e m k (map (conc s) l) = Def (map (conc s) (filter (hitW W e) l)).
Proof.
  intros R X Y. induction l as [|c r IH]; [reflexivity|]. cbn [map scan filter].
  change (cl_mock A (conc s c)) with (r_mock A c). change (cl_slot A (conc s c)) with (r_slot A c).
  fold (same (r_mock A c) (r_slot A c) m k). unfold hitW at 1. rewrite X.
  destruct (same (r_mock A c) (r_slot A c) m k); cbn [andb]; [|exact IH].
  rewrite (cond_ok _ _ _ _ _ _ _ _ _ _ _ R X Y), IH. cbn.
  destruct (c_ok A cd (r_args A c)); reflexivity.
Qed.

Lemma met_enough q n : q <> AtLeast 0 -> met q n = enough_b q n.
Proof. destruct q as [x|[|x]]; intros Q; [reflexivity|destruct Q; reflexivity|reflexivity]. Qed.

Lemma enough_iff q n : enough_b q n = true <-> enough q n.
Proof. destruct q; cbn; [apply Nat.eqb_eq|apply Nat.leb_le]. Qed.

(** ** One statement *)

Definition Inv (h : list (kop A)) (s : kstate) : Prop :=
  Rep (known A h) (name A cname h) (stubs A h) (history A h) (written A h) (stubbed A h) s.

Lemma about_iff h e m k : about A h e m k = true <-> exists c, nth_error (written A h) e = Some (m, k, c).
Proof.
  unfold about. destruct (nth_error (written A h) e) as [[[m' k'] c]|].
  - rewrite same_iff. split; [intros [-> ->]; eauto|intros [c' X]; injection X; auto].
  - split; [discriminate|intros [c X]; discriminate].
Qed.

Lemma about_same h e m' k' c : nth_error (written A h) e = Some (m', k', c) ->
  forall m k, about A h e m k = same m k m' k'.
Proof. intros X m k. unfold about. rewrite X. reflexivity. Qed.

Lemma count_hitW h e H : count A h e H = length (filter (hitW (written A h) e) H).
Proof. unfold count. f_equal. apply filter_ext. intros c. apply hitW_hit. Qed.

Lemma written_some h e : (e <? length (written A h)) = true ->
  exists m k c, nth_error (written A h) e = Some (m, k, c).
Proof.
  intros X. apply Nat.ltb_lt in X. apply nth_error_Some in X.
  destruct (nth_error (written A h) e) as [[[m k] c]|]; [eauto|congruence].
Qed.

Lemma usable h e m k c : nth_error (written A h) e = Some (m, k, c) ->
  negb (stubbed A h e) || in_force A h e = true -> stubbed A h e = false \/ In e (stubs A h m k).
Proof.
  intros X Y. apply orb_true_iff in Y. destruct Y as [Y|Y]; [left; apply negb_true_iff, Y|right].
  unfold in_force in Y. rewrite X in Y. apply existsb_exists in Y. destruct Y as [e' [I Q]].
  apply Nat.eqb_eq in Q. subst. exact I.
Qed.

Lemma on_mock_incl m H : incl (on_mock A m H) H.
Proof. intros c X. apply filter_In in X. apply X. Qed.

Lemma step_mention h s m k mock method c : Inv h s ->
  exists s', k_step A show cname around (KMention A m k mock method c) s = Def (s', KDone) /\
             Inv (KMention A m k mock method c :: h) s'.
Proof.
  intros R. cbn [k_step]. destruct (touch_has s m k) as [b [Hb ->]]. eexists. split; [reflexivity|].
  pose proof (rep_touch _ _ _ _ _ _ _ m k R) as R1.
  set (N' := fun m' k' => if same m' k' m k then (mock ++ "." ++ method)%string else name A cname h m' k').
  pose proof (rep_put _ _ _ _ _ _ _ m k b N' (stubs A h)
    (mkBody (kb_id b) (mock ++ "." ++ method)%string (kb_stubs b)) R1 Hb eq_refl) as R2.
  assert (R3 : Rep (fun m' k' => same m' k' m k || known A h m' k') N' (stubs A h) (history A h) (written A h) (stubbed A h)
     (put_body A (touch s m k) m k (Some (mkBody (kb_id b) (mock ++ "." ++ method)%string (kb_stubs b))))).
  { apply R2.
    - unfold N'. rewrite same_refl. reflexivity.
    - cbn [kb_stubs]. pose proof (rp_body _ _ _ _ _ _ _ R1 m k) as B. rewrite Hb in B. apply B.
    - intros m' k' Q. unfold N'. rewrite same_sym, Q. auto.
    - intros e I. apply (rp_stubs _ _ _ _ _ _ _ R _ _ _ I). }
  clear R1 R2. set (s2 := put_body A (touch s m k) m k _) in *. clearbody s2.
  destruct R3 as [B I C E Fr Hi St Fl]. constructor; auto.
  - intros e. cbn [k_exprs written stubbed existsb].
    assert (L : length (kexprs s2) = length (written A h)).
    { apply Nat.le_antisymm.
      - apply Nat.nlt_ge. intros Q. apply nth_error_Some in Q. rewrite E in Q.
        destruct (nth_error (written A h) (length (written A h))) eqn:Z; [|auto].
        assert (nth_error (written A h) (length (written A h)) <> None) as Z' by congruence.
        apply nth_error_Some in Z'. lia.
      - apply Nat.nlt_ge. intros Q. apply nth_error_Some in Q. apply Q.
        pose proof (E (length (kexprs s2))) as Z.
        destruct (nth_error (written A h) (length (kexprs s2))) as [[[? ?] ?]|]; [|reflexivity].
        assert (nth_error (kexprs s2) (length (kexprs s2)) <> None) as Z' by congruence.
        apply nth_error_Some in Z'. lia. }
    destruct (Nat.lt_ge_cases e (length (written A h))) as [Q|Q].
    + rewrite !nth_error_app1 by lia. apply E.
    + rewrite !nth_error_app2 by lia. rewrite L.
      destruct (e - length (written A h)) as [|n] eqn:Z; cbn.
      * change (existsb _ h) with (stubbed A h e). destruct (stubbed A h e) eqn:G; [|reflexivity]. apply Fl in G. lia.
      * destruct n; reflexivity.
  - intros m' k' e X. cbn [stubs] in X. destruct (St m' k' e X) as [c' Y]. exists c'. cbn [written].
    rewrite nth_error_app1; [exact Y|]. apply nth_error_Some. congruence.
  - intros e X. cbn [stubbed existsb orb] in X. cbn [written]. rewrite app_length. apply Fl in X. lia.
Qed.

Lemma step_fake h s e : Inv h s -> allowed A h (KFake A e) = true ->
  exists s', k_step A show cname around (KFake A e) s = Def (s', KDone) /\ Inv (KFake A e :: h) s'.
Proof.
  intros R X. cbn [allowed] in X. apply andb_true_iff in X. destruct X as [X Y]. apply negb_true_iff in Y.
  destruct (written_some _ _ X) as (m & k & c & W). cbn [k_step].
  rewrite (rp_exprs _ _ _ _ _ _ _ R), W, Y. cbn [ke_committed ke_mock ke_slot ke_cond].
  destruct (touch_has s m k) as [b [Hb ->]]. eexists. split; [reflexivity|].
  pose proof (rep_touch _ _ _ _ _ _ _ m k R) as R1.
  set (S' := fun m' k' => if same m' k' m k then e :: stubs A h m' k' else stubs A h m' k').
  assert (R3 : Rep (fun m' k' => same m' k' m k || known A h m' k') (name A cname h) S' (history A h) (written A h) (stubbed A h)
     (put_body A (touch s m k) m k (Some (mkBody (kb_id b) (kb_name b) (kb_stubs b ++ [e]))))).
  { pose proof (rp_body _ _ _ _ _ _ _ R1 m k) as B. rewrite Hb in B. destruct B as (B1 & B2 & B3 & B4).
    apply (rep_put _ _ _ _ _ _ _ m k b _ _ (mkBody (kb_id b) (kb_name b) (kb_stubs b ++ [e])) R1 Hb eq_refl).
    - exact B2.
    - cbn [kb_stubs]. rewrite B3. unfold S'. rewrite same_refl. reflexivity.
    - intros m' k' Q. unfold S'. rewrite same_sym, Q. auto.
    - intros e' I. unfold S' in I. rewrite same_refl in I. destruct I as [<-|I]; [eauto|].
      apply (rp_stubs _ _ _ _ _ _ _ R _ _ _ I). }
  clear R1. set (s2 := put_body A (touch s m k) m k _) in *. clearbody s2.
  assert (R4 : Rep (fun m' k' => same m' k' m k || known A h m' k') (name A cname h) S' (history A h) (written A h)
     (stubbed A (KFake A e :: h))
     (mkState A (kbodies s2) (kcalls s2) (upd (kexprs s2) e (mkExpr A m k c true)) (knext s2))).
  { destruct R3 as [B I C E Fr Hi St Fl]. constructor; auto.
    - intros e'. cbn [k_exprs stubbed existsb].
      destruct (Nat.eqb_spec e' e) as [->|Q].
      + rewrite nth_error_upd_same; [rewrite W; reflexivity|]. apply nth_error_Some. rewrite E, W. discriminate.
      + rewrite nth_error_upd_other by congruence. apply E.
    - intros x Z. cbn [stubbed existsb] in Z. apply orb_true_iff in Z. destruct Z as [Z|Z].
      + apply Nat.eqb_eq in Z. rewrite Z. apply nth_error_Some. rewrite W. discriminate.
      + apply Fl, Z. }
  apply (rep_ext _ _ _ _ _ _ _ _ _ _ _ R4); auto.
  - intros m' k'. cbn [known]. rewrite (about_same _ _ _ _ _ W). reflexivity.
  - intros m' k'. cbn [stubs]. rewrite (about_same _ _ _ _ _ W). reflexivity.
Qed.

Lemma answer_answered h m k a : answered A h m k a = match answer A h m k a with Some _ => true | None => false end.
Proof.
  unfold answered, answer. generalize (stubs A h m k). induction l as [|e r IH]; [reflexivity|]. cbn [existsb find].
  destruct (accepts A h e a); [reflexivity|exact IH].
Qed.

Lemma step_call h s m k a : Inv h s ->
  exists s', k_step A show cname around (KCall A m k a) s = Def (s', tells A show cname around h (KCall A m k a)) /\
             Inv (KCall A m k a :: h) s'.
Proof.
  intros R. cbn [k_step]; unfold tells; cbn [tells_by]. unfold invoke.
  pose proof (rp_body _ _ _ _ _ _ _ R m k) as B. destruct (kbodies s m k) as [b|] eqn:Kb.
  - destruct B as (B1 & B2 & B3 & B4). rewrite B3, rev_involutive.
    rewrite (find_stub_ok _ _ _ _ _ _ _ m k a R) by apply incl_refl. cbn [obind].
    change (find (fun e => acc (written A h) e a) (stubs A h m k)) with (answer A h m k a).
    rewrite B1, B2. pose proof (answer_answered h m k a) as An.
    destruct (answer A h m k a) as [e|] eqn:Ae; cbn.
    + eexists. split; [reflexivity|]. destruct R as [B I C E Fr Hi St Fl]. constructor; auto.
      * cbn [k_calls history]. rewrite An, C, map_app. cbn [map].
        match goal with |- _ = map (conc ?s') _ ++ _ => change (map (conc s')) with (map (conc s)) end.
        f_equal. unfold conc. cbn [r_mock r_slot r_args r_seen]. unfold idof. cbn [k_bodies]. rewrite Kb. reflexivity.
      * cbn [history known]. rewrite An. intros c Ic. apply in_app_iff in Ic.
        destruct Ic as [Ic|[<-|[]]]; [apply Hi, Ic|exact B1].
    + exists s. split; [reflexivity|]. destruct R as [B I C E Fr Hi St Fl]. constructor; auto; cbn [history]; rewrite An; auto.
  - rewrite B. destruct (rp_fresh _ _ _ _ _ _ _ R m k B) as [_ Z].
    assert (An : answered A h m k a = false) by (unfold answered; rewrite Z; reflexivity).
    assert (Ae : answer A h m k a = None) by (unfold answer; rewrite Z; reflexivity). rewrite Ae.
    exists s. split; [destruct (around m); reflexivity|].
    destruct R as [B' I C E Fr Hi St Fl]. constructor; auto; cbn [history]; rewrite An; auto.
Qed.

Lemma step_verify h s e q : Inv h s -> allowed A h (KVerify A e q) = true ->
  exists s', k_step A show cname around (KVerify A e q) s = Def (s', tells A show cname around h (KVerify A e q)) /\
             Inv (KVerify A e q :: h) s'.
Proof.
  intros R X. assert (Q0 : q <> AtLeast 0) by (intros ->; discriminate X).
  assert (X' : (e <? length (written A h)) && (negb (stubbed A h e) || in_force A h e) = true)
    by (destruct q as [x|[|x]]; [exact X|discriminate X|exact X]).
  clear X. rename X' into X. apply andb_true_iff in X. destruct X as [X Y].
  destruct (written_some _ _ X) as (m & k & c & W). pose proof (usable _ _ _ _ _ W Y) as U.
  cbn [k_step]; unfold tells; cbn [tells_by]. unfold verify. rewrite (rp_exprs _ _ _ _ _ _ _ R), W. cbn [ke_mock ke_slot].
  rewrite (calls_of_ok _ _ _ _ _ _ _ m R).
  rewrite (match_all_ok _ _ _ _ _ _ _ _ _ W U _ _ _ R (on_mock_incl m _)). cbn [obind].
  rewrite (count_ok _ _ _ _ _ _ W), (met_enough _ _ Q0), <- count_hitW.
  set (n := count A h e (history A h)).
  destruct (enough_b q n) eqn:Q.
  - eexists. split; [reflexivity|].
    set (s1 := match on_mock A m (history A h) with [] => s | _ :: _ => touch s m k end).
    assert (R1 : Rep (fun m' k' => same m' k' m k && negb (length (on_mock A m (history A h)) =? 0) || known A h m' k')
        (name A cname h) (stubs A h) (history A h) (written A h) (stubbed A h) s1).
    { unfold s1. destruct (on_mock A m (history A h)) as [|c0 r0]; cbn [length Nat.eqb negb].
      - apply (rep_ext _ _ _ _ _ _ _ _ _ _ _ R); auto. intros m' k'. rewrite andb_false_r. reflexivity.
      - apply (rep_ext _ _ _ _ _ _ _ _ _ _ _ (rep_touch _ _ _ _ _ _ _ m k R)); auto.
        intros m' k'. rewrite andb_true_r. reflexivity. }
    assert (Cc : kcalls s1 = map (conc s1) (history A h)) by apply (rp_calls _ _ _ _ _ _ _ R1).
    assert (R2 : Rep (fun m' k' => same m' k' m k && negb (length (on_mock A m (history A h)) =? 0) || known A h m' k')
        (name A cname h) (stubs A h) (map (seen (written A h) e) (history A h)) (written A h) (stubbed A h)
        (mkState A (kbodies s1) (mark A m (kcalls s1) (map (hitW (written A h) e) (on_mock A m (history A h))))
           (kexprs s1) (knext s1))).
    { rewrite Cc, (mark_ok _ _ _ _ _ _ _ W). destruct R1 as [B I C E Fr Hi St Fl]. constructor; auto.
      intros c' Ic. apply in_map_iff in Ic. destruct Ic as [c0 [<- Ic]]. apply (Hi _ Ic). }
    unfold Inv. cbn [history]. fold n. rewrite Q.
    assert (HH : map (fun c0 => mkRec A (r_mock A c0) (r_slot A c0) (r_args A c0) (hit A h e c0 || r_seen A c0)) (history A h)
      = map (seen (written A h) e) (history A h)).
    { apply map_ext. intros c0. unfold seen. rewrite hitW_hit. reflexivity. }
    rewrite HH. apply (rep_ext _ _ _ _ _ _ _ _ _ _ _ R2); auto.
    intros m' k'. cbn [known]. fold n. rewrite Q, (about_same _ _ _ _ _ W). cbn [negb orb].
    destruct (same m' k' m k) eqn:G; [|reflexivity]. apply same_iff in G. destruct G as [-> ->]. reflexivity.
  - set (s1 := match on_mock A m (history A h) with [] => s | _ :: _ => touch s m k end).
    assert (T : touch s1 m k = touch s m k).
    { unfold s1. destruct (on_mock A m (history A h)); [reflexivity|apply touch_idem]. }
    destruct (touch_has s1 m k) as [b [Hb Eb]]. rewrite T in Hb, Eb. rewrite Eb. clear Eb T s1.
    pose proof (rep_touch _ _ _ _ _ _ _ m k R) as R1.
    rewrite (cond_ok _ _ _ _ _ _ _ _ _ _ _ R1 W U). cbn [obind].
    rewrite (calls_of_ok _ _ _ _ _ _ _ m R1), (call_texts_ok _ _ _ _ _ _ _ R1) by apply on_mock_incl. cbn [obind].
    eexists. split.
    + pose proof (rp_body _ _ _ _ _ _ _ R1 m k) as B. rewrite Hb in B. destruct B as (_ & -> & _). reflexivity.
    + unfold Inv. cbn [history]. fold n. rewrite Q.
      apply (rep_ext _ _ _ _ _ _ _ _ _ _ _ R1); auto.
      intros m' k'. cbn [known]. fold n. rewrite Q, (about_same _ _ _ _ _ W). cbn [negb orb]. rewrite andb_true_r. reflexivity.
Qed.

Lemma step_no_other h s e : Inv h s -> allowed A h (KNoOther A e) = true ->
  exists s', k_step A show cname around (KNoOther A e) s = Def (s', tells A show cname around h (KNoOther A e)) /\
             Inv (KNoOther A e :: h) s'.
Proof.
  intros R X. cbn [allowed] in X. apply andb_true_iff in X. destruct X as [X Y].
  destruct (written_some _ _ X) as (m & k & c & W). pose proof (usable _ _ _ _ _ W Y) as U.
  cbn [k_step]; unfold tells; cbn [tells_by]. unfold no_other. rewrite (rp_exprs _ _ _ _ _ _ _ R), W. cbn [ke_mock ke_slot].
  destruct (touch_has s m k) as [b [Hb ->]]. pose proof (rep_touch _ _ _ _ _ _ _ m k R) as R1.
  rewrite (rp_calls _ _ _ _ _ _ _ R1), (scan_ok _ _ _ _ _ _ _ _ _ _ _ R1 W U). cbn [obind].
  assert (Fi : forall l, filter (fun c0 => negb (cl_seen A c0)) (map (conc (touch s m k)) (filter (hitW (written A h) e) l)) =
     map (conc (touch s m k)) (filter (fun c0 => hit A h e c0 && negb (r_seen A c0)) l)).
  { induction l as [|c0 r IH]; [reflexivity|]. cbn [filter]. rewrite hitW_hit.
    destruct (hitW (written A h) e c0); cbn [map filter andb]; [|exact IH].
    change (cl_seen A (conc (touch s m k) c0)) with (r_seen A c0).
    destruct (r_seen A c0); cbn [negb map]; rewrite IH; reflexivity. }
  rewrite Fi.
  assert (R2 : Inv (KNoOther A e :: h) (touch s m k)).
  { apply (rep_ext _ _ _ _ _ _ _ _ _ _ _ R1); auto. intros m' k'. cbn [known]. rewrite (about_same _ _ _ _ _ W). reflexivity. }
  set (l := filter (fun c0 => hit A h e c0 && negb (r_seen A c0)) (history A h)) in *.
  assert (L : incl l (history A h)) by (intros z Hz; apply filter_In in Hz; apply Hz).
  exists (touch s m k). split; [|exact R2].
  destruct l as [|c0 r] eqn:El; [reflexivity|].
  rewrite <- El in *. clearbody l.
  pose proof (call_texts_ok _ _ _ _ _ _ _ R1 l L) as Tx. rewrite El in Tx |- *. cbn [map] in Tx |- *. rewrite Tx. reflexivity.
Qed.

Lemma step_reset h s m : Inv h s ->
  exists s', k_step A show cname around (KReset A m) s = Def (s', KDone) /\ Inv (KReset A m :: h) s'.
Proof.
  intros R. eexists. split; [reflexivity|]. destruct R as [B I C E Fr Hi St Fl]. constructor.
  - intros m' k'. cbn. rewrite (Nat.eqb_sym m' m). destruct (m =? m'); [reflexivity|apply B].
  - cbn. intros m1 k1 m2 k2 b1 b2. destruct (m =? m1); [discriminate|]. destruct (m =? m2); [discriminate|]. apply I.
  - cbn [k_calls history]. rewrite C.
    transitivity (map (conc s) (filter (fun c => negb (r_mock A c =? m)) (history A h))).
    + generalize (history A h). induction l as [|c r IH]; [reflexivity|]. cbn [map filter].
      change (cl_mock A (conc s c)) with (r_mock A c). destruct (r_mock A c =? m); cbn [negb map]; rewrite IH; reflexivity.
    + apply conc_ext. intros c Ic. apply filter_In in Ic. destruct Ic as [_ Ic]. unfold idof. cbn.
      rewrite Nat.eqb_sym in Ic. destruct (m =? r_mock A c); [discriminate|reflexivity].
  - exact E.
  - intros m' k'. cbn. destruct (m' =? m); [auto|apply Fr].
  - intros c. cbn [history]. intros Ic. apply filter_In in Ic. destruct Ic as [Ic Q]. cbn.
    destruct (r_mock A c =? m); [discriminate|]. apply Hi, Ic.
  - intros m' k' e. cbn. destruct (m' =? m); [intros []|apply St].
  - exact Fl.
Qed.

Lemma step_clear h s m : Inv h s ->
  exists s', k_step A show cname around (KClear A m) s = Def (s', KDone) /\ Inv (KClear A m :: h) s'.
Proof.
  intros R. eexists. split; [reflexivity|]. destruct R as [B I C E Fr Hi St Fl]. constructor; auto.
  - cbn [k_calls history]. rewrite C. generalize (history A h). induction l as [|c r IH]; [reflexivity|]. cbn [map filter].
    change (cl_mock A (conc s c)) with (r_mock A c). destruct (r_mock A c =? m); cbn [negb map]; rewrite IH; reflexivity.
  - intros c. cbn [history]. intros Ic. apply filter_In in Ic. apply Hi, Ic.
Qed.

Lemma step_ok h s o : Inv h s -> allowed A h o = true ->
  exists s', k_step A show cname around o s = Def (s', tells A show cname around h o) /\ Inv (o :: h) s'.
Proof.
  intros R X. destruct o.
  - apply step_mention, R.
  - apply step_fake; assumption.
  - apply step_call, R.
  - apply step_verify; assumption.
  - apply step_no_other; assumption.
  - apply step_reset, R.
  - apply step_clear, R.
Qed.

Lemma run_ok os : forall h s, Inv h s -> keeps A h os = true ->
  exists s', k_run A show cname around os s = Def (s', story A show cname around h os).
Proof.
  induction os as [|o r IH]; intros h s R X; [exists s; reflexivity|].
  cbn [keeps] in X. apply andb_true_iff in X. destruct X as [X Y].
  destruct (step_ok h s o R X) as [s1 [E R1]]. destruct (IH _ _ R1 Y) as [s2 E2].
  exists s2. unfold story; cbn [k_run story_by]; fold (story A show cname around); fold (tells A show cname around). rewrite E. cbn [obind]. rewrite E2. reflexivity.
Qed.

Lemma init_ok : Inv [] (k_init A).
Proof.
  constructor.
  - intros m k. reflexivity.
  - intros m k m' k' b b' X. discriminate X.
  - reflexivity.
  - intros [|e]; reflexivity.
  - intros m k _. split; reflexivity.
  - intros c [].
  - intros m k e [].
  - intros e X. discriminate X.
Qed.

Theorem kept_story os : keeps A [] os = true ->
  exists s, k_run A show cname around os (k_init A) = Def (s, story A show cname around [] os).
Proof. apply run_ok, init_ok. Qed.

End Proofs.
