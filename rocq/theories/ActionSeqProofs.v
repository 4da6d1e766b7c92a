(** Proofs about ActionSeq.v. *)
From Coq Require Import ZArith Lia List Arith Sorting.Permutation.
From Verif Require Import Base CInt ActionSeq Spec_Actions.
Import ListNotations.
Open Scope Z_scope.

Section P.
Context {F : Type}.

Definition plan_act (e : F * option Z) : action F :=
  match snd e with
  | Some n => ARepeat (fst e) n
  | None => AForever (fst e)
  end.

(** The vector of recorded actions shows the plan followed by the sentinel. *)
Definition rep (s : aseq F) (p : plan F) : Prop :=
  NoDup (as_recorded s) /\
  map (nth_error (as_acts s)) (as_recorded s) = map Some (map plan_act p ++ [ANoMore]).

Definition entry_ok (e : F * option Z) : Prop :=
  match snd e with Some n => 1 <= n <= long_max | None => True end.

Definition advance (p : plan F) : plan F :=
  match p with
  | [] => []
  | (f, None) :: _ => p
  | (f, Some n) :: p' => if n =? 1 then p' else (f, Some (n - 1)) :: p'
  end.

Lemma rep_new : rep aseq_new [].
Proof. split; simpl; auto. constructor; auto. constructor. Qed.

Lemma rep_ids : forall s p id, rep s p -> In id (as_recorded s) -> (id < length (as_acts s))%nat.
Proof.
  intros s p id [_ H] Hin. apply (in_map (nth_error (as_acts s))) in Hin. rewrite H in Hin.
  apply in_map_iff in Hin. destruct Hin as [x [Hx _]]. symmetry in Hx.
  now apply nth_error_Some_lt in Hx.
Qed.

Lemma rep_append : forall s p r, rep s p ->
  exists s', append s (action_of r) = Def s' /\ rep s' (p ++ [meant r]).
Proof.
  intros s p r [Hnd Hmap].
  assert (Hid := fun id => rep_ids s p id (conj Hnd Hmap)).
  unfold append.
  destruct (rev (as_recorded s)) as [|lst before] eqn:Hrev.
  { apply (f_equal (@rev nat)) in Hrev. rewrite rev_involutive in Hrev. simpl in Hrev.
    rewrite Hrev in Hmap. simpl in Hmap. symmetry in Hmap. apply map_eq_nil in Hmap.
    now apply app_eq_nil in Hmap as [_ ?]. }
  assert (Hrec : as_recorded s = rev before ++ [lst]).
  { apply (f_equal (@rev nat)) in Hrev. now rewrite rev_involutive in Hrev. }
  eexists. split; [reflexivity|]. rewrite Hrec in *.
  set (pre := rev before) in *. clearbody pre. clear Hrev before.
  rewrite map_app in Hmap. simpl in Hmap. rewrite map_app in Hmap. simpl in Hmap.
  apply app_inj_tail in Hmap as [Hpre Hlast].
  split; simpl.
  - apply NoDup_remove in Hnd as [Hnd Hni]. rewrite app_nil_r in *.
    assert (Hfresh : forall x, In x (pre ++ [lst]) -> (x < length (as_acts s))%nat).
    { intros x Hx. apply Hid. exact Hx. }
    apply Permutation_NoDup with (l := length (as_acts s) :: lst :: pre).
    + change (length (as_acts s) :: lst :: pre) with ([length (as_acts s); lst] ++ pre).
      apply Permutation_app_comm.
    + constructor.
      * intros [He|Hin].
        -- assert (lst < length (as_acts s))%nat by (apply Hfresh; rewrite in_app_iff; simpl; auto). lia.
        -- assert (length (as_acts s) < length (as_acts s))%nat by (apply Hfresh; rewrite in_app_iff; auto). lia.
      * constructor; auto.
  - rewrite map_app. simpl.
    rewrite nth_error_app_last.
    rewrite nth_error_app1 by (apply nth_error_Some_lt in Hlast; exact Hlast).
    rewrite Hlast.
    rewrite !map_app. simpl. rewrite <- app_assoc. simpl. f_equal.
    + rewrite <- Hpre. apply map_ext_in. intros x Hx. apply nth_error_app1.
      apply Hid. rewrite in_app_iff. auto.
    + f_equal. destruct r; reflexivity.
Qed.

Lemma rep_record_all : forall rs s p, rep s p ->
  exists s', record_all s rs = Def s' /\ rep s' (p ++ map meant rs).
Proof.
  induction rs as [|r rs IH]; intros s p H; simpl.
  - exists s. rewrite app_nil_r. auto.
  - destruct (rep_append s p r H) as [s1 [E H1]]. rewrite E. cbn [obind].
    destruct (IH _ _ H1) as [s2 [E2 H2]]. exists s2. split; auto.
    now rewrite <- app_assoc in H2.
Qed.

Lemma map_nth_upd : forall (acts : list (action F)) ids id a,
  ~ In id ids -> map (nth_error (upd acts id a)) ids = map (nth_error acts) ids.
Proof.
  intros acts ids id a Hn. apply map_ext_in. intros x Hx.
  apply nth_error_upd_other. intro; subst; auto.
Qed.

(** One call, general form: the head entry of the plan decides. *)
Lemma rep_call_step : forall s f n p, rep s ((f, Some n) :: p) -> n <> long_min ->
  exists s', handle_call s = Def (s', SrvCall f) /\
    rep s' (if n =? 1 then p else (f, Some (n - 1)) :: p).
Proof.
  intros s f n p H Hmin. destruct H as [Hnd Hmap].
  unfold handle_call, handle_begin.
  destruct (as_recorded s) as [|id rest] eqn:Hrec; [discriminate|].
  simpl in Hmap. injection Hmap as Hid Hrest.
  inversion Hnd as [|? ? Hni Hnd']; subst.
  rewrite Hid. unfold plan_act. cbn [of_option obind fst snd]. unfold invoke, long_dec.
  destruct (Z.eqb_spec n long_min) as [|_]; [contradiction|]. cbn [obind].
  unfold handle_end. simpl as_acts. simpl as_recorded.
  rewrite nth_error_upd_same by (eapply nth_error_Some_lt; eauto). cbn [of_option obind isDone].
  destruct (Z.eqb_spec (n - 1) 0) as [Hz|Hnz].
  - eexists. split; [reflexivity|]. destruct (Z.eqb_spec n 1); [|lia].
    split; simpl; auto. rewrite map_nth_upd by auto. exact Hrest.
  - eexists. split; [reflexivity|]. destruct (Z.eqb_spec n 1); [lia|].
    split; simpl; auto.
    rewrite nth_error_upd_same by (eapply nth_error_Some_lt; eauto).
    unfold plan_act. simpl. f_equal. rewrite map_nth_upd by auto. exact Hrest.
Qed.

Lemma rep_call_forever : forall s f p, rep s ((f, None) :: p) -> handle_call s = Def (s, SrvCall f).
Proof.
  intros [acts recd used] f p [Hnd Hmap]. unfold handle_call, handle_begin. simpl in *.
  destruct recd as [|id rest]; [discriminate|].
  simpl in Hmap. injection Hmap as Hid Hrest. rewrite Hid. unfold plan_act. simpl.
  unfold handle_end. simpl. rewrite upd_same by exact Hid. rewrite Hid. reflexivity.
Qed.

Lemma rep_call_nil : forall s, rep s [] -> handle_call s = Def (s, SrvNoMore).
Proof.
  intros [acts recd used] [Hnd Hmap]. unfold handle_call, handle_begin. simpl in *.
  destruct recd as [|id rest]; [discriminate|].
  simpl in Hmap. injection Hmap as Hid Hrest. rewrite Hid. simpl.
  unfold handle_end. simpl. rewrite upd_same by exact Hid. rewrite Hid. reflexivity.
Qed.

Lemma rep_call : forall s p, rep s p -> Forall entry_ok p ->
  exists s', handle_call s = Def (s', shown (nth_answer p 0)) /\
             rep s' (advance p) /\ Forall entry_ok (advance p) /\
             (forall k, 0 <= k -> nth_answer (advance p) k = nth_answer p (k + 1)).
Proof.
  intros s [|[f [n|]] p] Hrep Hok.
  - exists s. rewrite (rep_call_nil _ Hrep). simpl. auto.
  - inversion Hok as [|? ? He Hok']; subst. unfold entry_ok in He. simpl in He.
    destruct (rep_call_step s f n p Hrep) as [s' [E R]]; [unfold long_min; lia|].
    exists s'. simpl nth_answer. destruct (Z.ltb_spec 0 n); [|lia]. simpl shown.
    split; [exact E|]. simpl advance. split; [exact R|].
    destruct (Z.eqb_spec n 1) as [->|Hn1].
    + split; auto. intros k Hk. simpl.
      destruct (Z.ltb_spec (k + 1) 1); [lia|]. f_equal. lia.
    + split.
      * constructor; auto. unfold entry_ok; simpl. unfold long_max in *. lia.
      * intros k Hk. simpl. destruct (Z.ltb_spec k (n - 1)); destruct (Z.ltb_spec (k + 1) n); try lia; auto.
        f_equal. lia.
  - exists s. rewrite (rep_call_forever _ _ _ Hrep). simpl. auto.
Qed.

Lemma rep_play : forall k s p, rep s p -> Forall entry_ok p ->
  exists s', play k s = Def (map (fun i => shown (nth_answer p (Z.of_nat i))) (seq 0 k), s') /\
    exists p', rep s' p' /\ Forall entry_ok p' /\
      (forall j, 0 <= j -> nth_answer p' j = nth_answer p (j + Z.of_nat k)).
Proof.
  induction k as [|k IH]; intros s p Hrep Hok.
  - exists s. split; auto. exists p. split; [|split]; auto. intros. f_equal. lia.
  - destruct (rep_call s p Hrep Hok) as [s1 [E [R1 [Ok1 Hsh]]]].
    destruct (IH s1 _ R1 Ok1) as [s2 [E2 [p2 [R2 [Ok2 H2]]]]].
    exists s2. simpl play. rewrite E. cbn [obind]. rewrite E2. cbn [obind]. split.
    + simpl. do 3 f_equal. rewrite <- seq_shift, map_map. apply map_ext_in. intros i _.
      rewrite Hsh by lia. do 2 f_equal. lia.
    + exists p2. split; [|split]; auto. intros j Hj. rewrite H2 by lia. rewrite Hsh by lia. f_equal. lia.
Qed.

(** Quantities the API can pass on: a positive [int]. *)
Definition rec_ok (r : recorded F) : Prop :=
  match r with RecTimes _ q => 1 <= q <= int_max | _ => True end.

Lemma meant_ok : forall rs, Forall rec_ok rs -> Forall entry_ok (map meant rs).
Proof.
  intros rs H. rewrite Forall_map. eapply Forall_impl; [|exact H].
  intros [f|f q|f]; unfold entry_ok, rec_ok, int_max, long_max; simpl; lia.
Qed.

(** C02. *)
Lemma playback : forall rs k, Forall rec_ok rs ->
  exists s s',
    record_all aseq_new rs = Def s /\
    play k s = Def (map (fun i => shown (nth_answer (map meant rs) (Z.of_nat i))) (seq 0 k), s').
Proof.
  intros rs k Hok.
  destruct (rep_record_all rs aseq_new [] rep_new) as [s [E R]]. simpl in R.
  destruct (rep_play k s _ R (meant_ok _ Hok)) as [s' [E' _]].
  exists s, s'. auto.
Qed.

(** C04: once an unlimited action is next, the state is a fixed point. *)
Lemma always_absorbs : forall pre f rest k j, Forall rec_ok (pre ++ RecAlways f :: rest) ->
  (forall i, (i < k)%nat -> nth_answer (map meant pre) (Z.of_nat i) <> None) ->
  nth_answer (map meant pre) (Z.of_nat k) = None ->
  exists s s1 srv1,
    record_all aseq_new (pre ++ RecAlways f :: rest) = Def s /\
    play k s = Def (srv1, s1) /\
    play j s1 = Def (repeat (SrvCall f) j, s1).
Proof.
  intros pre f rest k j Hok Hlt Hk.
  destruct (rep_record_all (pre ++ RecAlways f :: rest) aseq_new [] rep_new) as [s [E R]]. simpl in R.
  rewrite map_app in R. simpl in R.
  (* walk through the plan *)
  assert (W : forall k p s, rep s (p ++ (f, None) :: map meant rest) -> Forall entry_ok p ->
            (forall i, (i < k)%nat -> nth_answer p (Z.of_nat i) <> None) ->
            nth_answer p (Z.of_nat k) = None ->
            exists s1 srv, play k s = Def (srv, s1) /\ rep s1 ((f, None) :: map meant rest)).
  { clear. induction k as [|k IH]; intros p s R Hok Hlt Hk.
    - exists s, []. split; auto.
      destruct p as [|[g [n|]] p]; simpl in *; auto.
      + inversion Hok as [|? ? He ?]; subst. unfold entry_ok in He. simpl in He.
        destruct (Z.ltb_spec 0 n); [discriminate|lia].
      + discriminate.
    - destruct p as [|[g [n|]] p].
      + exfalso. apply (Hlt 0%nat); [lia|reflexivity].
      + inversion Hok as [|? ? He Hok']; subst. unfold entry_ok in He. simpl in He.
        rewrite <- app_comm_cons in R.
        destruct (rep_call_step s g n _ R) as [s1 [E1 R1]]; [unfold long_min; lia|].
        assert (exists p1, (if n =? 1 then p ++ (f, None) :: map meant rest
                            else (g, Some (n - 1)) :: p ++ (f, None) :: map meant rest)
                           = p1 ++ (f, None) :: map meant rest /\
                           Forall entry_ok p1 /\
                           (forall i, 0 <= i -> nth_answer p1 i = nth_answer ((g, Some n) :: p) (i + 1)))
          as [p1 [Hp1 [Hok1 Hsh]]].
        { destruct (Z.eqb_spec n 1) as [->|Hn1].
          - exists p. split; [|split]; auto. intros i Hi. simpl.
            destruct (Z.ltb_spec (i + 1) 1); [lia|]. f_equal. lia.
          - exists ((g, Some (n - 1)) :: p). split; [|split]; auto.
            + constructor; auto. unfold entry_ok; simpl. unfold long_max in *. lia.
            + intros i Hi. simpl.
              destruct (Z.ltb_spec i (n - 1)); destruct (Z.ltb_spec (i + 1) n); try lia; auto.
              f_equal. lia. }
        assert (R1' : rep s1 (p1 ++ (f, None) :: map meant rest)) by (rewrite <- Hp1; exact R1).
        destruct (IH p1 s1 R1' Hok1) as [s2 [srv [E2 R2]]].
        * intros i Hi. rewrite Hsh by lia. replace (Z.of_nat i + 1) with (Z.of_nat (S i)) by lia.
          apply Hlt. lia.
        * rewrite Hsh by lia. replace (Z.of_nat k + 1) with (Z.of_nat (S k)) by lia. exact Hk.
        * exists s2, (SrvCall g :: srv). split; auto. simpl. rewrite E1. cbn [obind]. rewrite E2. reflexivity.
      + exfalso. simpl in Hk. discriminate. }
  destruct (W k (map meant pre) s R) as [s1 [srv [E1 R1]]]; auto.
  { apply meant_ok. apply Forall_app in Hok. tauto. }
  exists s, s1, srv. split; [|split]; auto.
  clear - R1. induction j as [|j IH]; simpl; auto.
  rewrite (rep_call_forever _ _ _ R1). cbn [obind]. rewrite IH. reflexivity.
Qed.

(** C03: exhaustion is permanent. *)
Lemma exhausted_forever : forall rs k j, Forall rec_ok rs ->
  nth_answer (map meant rs) (Z.of_nat k) = None ->
  exists s s1 srv1,
    record_all aseq_new rs = Def s /\ play k s = Def (srv1, s1) /\
    play j s1 = Def (repeat SrvNoMore j, s1).
Proof.
  intros rs k j Hok Hk.
  destruct (rep_record_all rs aseq_new [] rep_new) as [s [E R]]. simpl in R.
  destruct (rep_play k s _ R (meant_ok _ Hok)) as [s1 [E1 [p1 [R1 [Ok1 H1]]]]].
  exists s, s1. eexists. split; [|split]; eauto.
  assert (Hn : p1 = []).
  { specialize (H1 0 ltac:(lia)). simpl in H1. rewrite Hk in H1.
    destruct p1 as [|[g [n|]] p1]; simpl in H1; auto; try discriminate.
    inversion Ok1 as [|? ? He ?]; subst. unfold entry_ok in He. simpl in He.
    destruct (Z.ltb_spec 0 n); [discriminate|lia]. }
  subst p1. clear - R1. induction j as [|j IH]; simpl; auto.
  rewrite (rep_call_nil _ R1). cbn [obind]. rewrite IH. reflexivity.
Qed.

(** C05 is false: a non-positive quantity answers every call. *)
Lemma nonpositive_forever : forall (f : F) q rest k, int_min <= q <= 0 -> (Z.of_nat k <= int_max) ->
  exists s s', record_all aseq_new (RecTimes f q :: rest) = Def s /\
               play k s = Def (repeat (SrvCall f) k, s').
Proof.
  intros f q rest k Hq Hk.
  destruct (rep_record_all (RecTimes f q :: rest) aseq_new [] rep_new) as [s [E R]]. simpl in R.
  exists s. cut (exists s', play k s = Def (repeat (SrvCall f) k, s')).
  { intros [s' H]. exists s'. auto. }
  clear E.
  assert (Hq' : long_min + Z.of_nat k < q <= 0) by (unfold int_min, int_max, long_min in *; lia).
  clear Hq Hk. revert s q R Hq'. induction k as [|k IH]; intros s q R Hq.
  - exists s. reflexivity.
  - destruct (rep_call_step s f q _ R) as [s1 [E1 R1]]; [lia|].
    destruct (Z.eqb_spec q 1); [lia|].
    destruct (IH s1 (q - 1) R1) as [s2 E2]; [lia|].
    exists s2. simpl. rewrite E1. cbn [obind]. rewrite E2. reflexivity.
Qed.

End P.

(** ** Literals *)
Lemma lit_Times_exact : forall n, 0 <= n <= int_max -> lit_Times n = n.
Proof. intros n H. apply to_int32_id. unfold int_min, int_max in *. lia. Qed.

Lemma lit_Times_wrong : forall n, int_max < n -> lit_Times n <> n.
Proof. intros n H E. pose proof (to_int32_range n). unfold lit_Times in E. lia. Qed.

Lemma lit_Time_spec : forall n, 0 <= n -> lit_Time n = if n =? 1 then Some 1 else None.
Proof. intros n H. unfold lit_Time. destruct (Z.eqb_spec n 1) as [->|]; reflexivity. Qed.
