(** Proofs about SmartPtr.v. *)
From Coq Require Import ZArith Lia List Arith Bool.
From Verif Require Import Base CInt SmartPtr Spec_Shared.
Import ListNotations.
Open Scope Z_scope.

(** Number of handles that hold object [o]. *)
Definition holders (hs : list (option nat)) (o : nat) : nat :=
  length (filter (fun h => match h with Some x => Nat.eqb x o | None => false end) hs).

Definition cell (o : nat) (h : option nat) : nat :=
  match h with Some x => if Nat.eqb x o then 1 else 0 | None => 0 end.

Lemma holders_nil : forall o, holders [] o = 0%nat.
Proof. reflexivity. Qed.

Lemma holders_cons : forall h hs o, holders (h :: hs) o = (cell o h + holders hs o)%nat.
Proof. intros [x|] hs o; unfold holders, cell; simpl; auto. destruct (Nat.eqb x o); auto. Qed.

Lemma holders_snoc : forall hs h o, holders (hs ++ [h]) o = (holders hs o + cell o h)%nat.
Proof.
  induction hs as [|a hs IH]; intros h o; simpl.
  - rewrite holders_cons. unfold holders; simpl. lia.
  - rewrite !holders_cons, IH. lia.
Qed.

Lemma holders_upd : forall hs i x y o, nth_error hs i = Some x ->
  (holders (upd hs i y) o + cell o x = holders hs o + cell o y)%nat.
Proof.
  induction hs as [|a hs IH]; intros [|i] x y o H; simpl in *; try discriminate.
  - injection H as ->. rewrite !holders_cons. lia.
  - rewrite !holders_cons. specialize (IH _ _ y o H). lia.
Qed.

Lemma holders_pos : forall hs o, (0 < holders hs o)%nat <-> In (Some o) hs.
Proof.
  induction hs as [|a hs IH]; intro o.
  - rewrite holders_nil. simpl. split; [lia|tauto].
  - rewrite holders_cons. simpl. rewrite <- IH. unfold cell. destruct a as [x|].
    + destruct (Nat.eqb_spec x o) as [->|Hne]; split; intros; try lia; auto.
      destruct H as [H|H]; [congruence|lia].
    + split; intros; [right; lia|]. destruct H; [discriminate|lia].
Qed.

Lemma holders_le : forall hs o, (holders hs o <= length hs)%nat.
Proof.
  intros. unfold holders. induction hs as [|[x|] hs IH]; simpl; try lia.
  destruct (Nat.eqb x o); simpl; lia.
Qed.

(** Each object has the counter with the same index. *)
Record sp_ok (s : sp_state) (hs : list (option nat)) (n : nat) : Prop := {
  ok_handles : sp_handles s = map (option_map (fun o => (o, o))) hs;
  ok_range : forall o, In (Some o) hs -> (o < n)%nat;
  ok_refs_len : length (sp_refs s) = n;
  ok_objs_len : length (sp_objs s) = n;
  ok_alive : forall o, (o < n)%nat -> (0 < holders hs o)%nat ->
     nth_error (sp_refs s) o = Some (Some (Z.of_nat (holders hs o))) /\
     exists t, nth_error (sp_objs s) o = Some (Some t);
  ok_dead : forall o, (o < n)%nat -> holders hs o = 0%nat ->
     nth_error (sp_refs s) o = Some None /\ nth_error (sp_objs s) o = Some None;
  ok_log_nodup : NoDup (sp_log s);
  ok_log : forall o, In o (sp_log s) <-> (o < n)%nat /\ holders hs o = 0%nat
}.

Lemma ok_handle : forall s hs n h o, sp_ok s hs n -> nth_error hs h = Some (Some o) ->
  sp_handle s h = Def (o, o) /\ (o < n)%nat /\ (0 < holders hs o)%nat.
Proof.
  intros s hs n h o H E. unfold sp_handle. rewrite (ok_handles _ _ _ H).
  rewrite nth_error_map, E. simpl. split; auto.
  assert (In (Some o) hs) by (eapply nth_error_In; eauto).
  split; [eapply ok_range; eauto|now apply holders_pos].
Qed.

Lemma upd_map : forall A B (f : A -> B) l i x, upd (map f l) i (f x) = map f (upd l i x).
Proof. induction l as [|a l IH]; intros [|i] x; simpl; auto. now rewrite IH. Qed.

Lemma NoDup_app_snoc_helper : forall A (l : list A) x, NoDup l -> ~ In x l -> NoDup (l ++ [x]).
Proof.
  induction l as [|a l IH]; intros x H Hx; simpl.
  - repeat constructor; auto.
  - inversion H; subst. simpl in Hx. constructor.
    + rewrite in_app_iff. simpl. intuition congruence.
    + apply IH; auto.
Qed.

(** Giving one reference back. *)
Lemma sp_drop_spec : forall s hs n o c, sp_ok s hs n -> (o < n)%nat ->
  holders hs o = S c -> Z.of_nat (length hs) <= int_max ->
  exists s1 t, sp_drop s o o = Def (s1, t) /\
    sp_handles s1 = sp_handles s /\
    (t = true -> exists o', nth_error (sp_objs s) o' = Some (Some true)) /\
    length (sp_refs s1) = n /\ length (sp_objs s1) = n /\
    (forall o', (o' < n)%nat -> o' <> o ->
        nth_error (sp_refs s1) o' = nth_error (sp_refs s) o' /\
        nth_error (sp_objs s1) o' = nth_error (sp_objs s) o') /\
    (c <> 0%nat -> t = false /\ nth_error (sp_refs s1) o = Some (Some (Z.of_nat c)) /\
        sp_objs s1 = sp_objs s /\ sp_log s1 = sp_log s) /\
    (c = 0%nat -> nth_error (sp_refs s1) o = Some None /\ nth_error (sp_objs s1) o = Some None /\
        sp_log s1 = sp_log s ++ [o]) /\
    (forall t', (forall o' b, nth_error (sp_objs s) o' = Some (Some b) -> b = t') -> forall o' b, nth_error (sp_objs s1) o' = Some (Some b) -> b = t').
Proof.
  intros s hs n o c H Ho Hc Hlen.
  destruct (ok_alive _ _ _ H o Ho ltac:(lia)) as [Hr [t Hobj]].
  pose proof (holders_le hs o) as Hle.
  unfold sp_drop, sp_release. rewrite Hr, Hc. unfold isub.
  rewrite int_ck_ok by (unfold int_min, int_max in *; lia). cbn [obind].
  destruct (Z.eqb_spec (Z.of_nat (S c) - 1) 0) as [Hz|Hnz].
  - unfold sp_delete. simpl.
    rewrite nth_error_upd_same by (rewrite (ok_refs_len _ _ _ H); lia). rewrite Hobj.
    eexists _, t. split; [reflexivity|]. simpl. rewrite upd_upd.
    split; auto. split; [intros ->; eauto|].
    rewrite !upd_length. split; [apply (ok_refs_len _ _ _ H)|]. split; [apply (ok_objs_len _ _ _ H)|].
    split. { intros o' _ Hne. rewrite !nth_error_upd_other by auto. auto. }
    split; [intros; lia|]. split.
    { intros _. rewrite !nth_error_upd_same by (rewrite ?(ok_refs_len _ _ _ H), ?(ok_objs_len _ _ _ H); lia). auto. }
    intros t' Hall o' b. rewrite nth_error_upd.
    destruct (Nat.eqb o o'); [destruct (Nat.ltb o (length (sp_objs s))); discriminate|]. apply Hall.
  - eexists _, false. split; [reflexivity|]. cbn [sp_refs sp_objs sp_handles sp_log].
    split; auto. split; [discriminate|].
    rewrite upd_length. split; [apply (ok_refs_len _ _ _ H)|]. split; [apply (ok_objs_len _ _ _ H)|].
    split. { intros o' _ Hne. rewrite !nth_error_upd_other by auto. auto. }
    split. { intros _. rewrite nth_error_upd_same by (rewrite (ok_refs_len _ _ _ H); lia).
             repeat split; auto. do 2 f_equal. lia. }
    split; [intros; lia|]. auto.
Qed.

Definition objs_throw (t : bool) (s : sp_state) : Prop :=
  forall o b, nth_error (sp_objs s) o = Some (Some b) -> b = t.

Definition quiet_ok (quiet : bool) (s : sp_state) : Prop := quiet = true -> objs_throw false s.

Lemma sp_step_ok : forall quiet op s hs n hs' n', sp_ok s hs n -> quiet_ok quiet s -> benign quiet op ->
  Z.of_nat (length hs) < int_max ->
  own_step (hs, n) op = Some (hs', n') ->
  exists s' t, sp_step s op = Def (s', t) /\ sp_ok s' hs' n' /\ quiet_ok quiet s' /\
    (length hs' <= S (length hs))%nat.
Proof.
  intros quiet op s hs n hs' n' H Hq Hben Hlen Hown.
  destruct op as [throws|h|d src|h|h]; simpl in Hown.
  - (* new *)
    injection Hown as <- <-.
    assert (Hfresh : holders hs n = 0%nat).
    { destruct (holders hs n) eqn:E; auto. exfalso.
      assert (Hin : In (Some n) hs) by (apply holders_pos; lia).
      apply (ok_range _ _ _ H) in Hin. lia. }
    unfold sp_step, sp_addref. simpl.
    rewrite nth_error_app_last. cbn [obind]. unfold iadd.
    rewrite int_ck_ok by (unfold int_min, int_max in *; lia). cbn [obind].
    eexists _, false. split; [reflexivity|]. split; [|split].
    + constructor; simpl.
      * rewrite (ok_handles _ _ _ H), map_app. simpl.
        rewrite (ok_objs_len _ _ _ H), (ok_refs_len _ _ _ H). reflexivity.
      * intros o Ho. apply in_app_iff in Ho as [Ho|[Ho|[]]].
        -- apply (ok_range _ _ _ H) in Ho. lia.
        -- injection Ho as <-. lia.
      * rewrite upd_length, app_length. simpl. rewrite (ok_refs_len _ _ _ H). lia.
      * rewrite app_length. simpl. rewrite (ok_objs_len _ _ _ H). lia.
      * intros o Ho Hp. rewrite holders_snoc in *. simpl cell in *.
        destruct (Nat.eqb_spec n o) as [<-|Hne].
        -- rewrite Hfresh. rewrite (ok_refs_len _ _ _ H).
           rewrite nth_error_upd_same by (rewrite app_length; simpl; rewrite (ok_refs_len _ _ _ H); lia).
           split; [reflexivity|]. exists throws.
           rewrite <- (ok_objs_len _ _ _ H). apply nth_error_app_last.
        -- rewrite Nat.add_0_r in *. rewrite (ok_refs_len _ _ _ H), nth_error_upd_other by auto.
           rewrite !nth_error_app1 by (rewrite ?(ok_refs_len _ _ _ H), ?(ok_objs_len _ _ _ H); lia).
           apply (ok_alive _ _ _ H); lia.
      * intros o Ho Hz. rewrite holders_snoc in Hz. simpl cell in Hz.
        destruct (Nat.eqb_spec n o) as [<-|Hne]; [lia|].
        rewrite (ok_refs_len _ _ _ H), nth_error_upd_other by auto.
        rewrite !nth_error_app1 by (rewrite ?(ok_refs_len _ _ _ H), ?(ok_objs_len _ _ _ H); lia).
        apply (ok_dead _ _ _ H); lia.
      * apply (ok_log_nodup _ _ _ H).
      * intro o. rewrite holders_snoc. simpl cell. rewrite (ok_log _ _ _ H).
        destruct (Nat.eqb_spec n o) as [<-|Hne]; split; intros; lia.
    + intros Hqt o b. simpl. specialize (Hq Hqt). simpl in Hben. specialize (Hben Hqt). subst throws.
      intro Hn. destruct (Nat.lt_ge_cases o (length (sp_objs s))) as [Hlt|Hge].
      * rewrite nth_error_app1 in Hn by auto. eapply Hq; eauto.
      * rewrite nth_error_app2 in Hn by auto. destruct (o - length (sp_objs s))%nat; simpl in Hn.
        -- congruence.
        -- destruct n0; discriminate.
    + rewrite app_length. simpl. lia.
  - (* copy *)
    destruct (nth_error hs h) as [[o|]|] eqn:Eh; try discriminate. injection Hown as <- <-.
    destruct (ok_handle _ _ _ _ _ H Eh) as [Hh [Ho Hp]].
    destruct (ok_alive _ _ _ H o Ho Hp) as [Hr [t Hobj]].
    pose proof (holders_le hs o) as Hle.
    unfold sp_step. rewrite Hh. cbn [obind]. unfold sp_addref. rewrite Hr. unfold iadd.
    rewrite int_ck_ok by (unfold int_min, int_max in *; lia). cbn [obind].
    eexists _, false. split; [reflexivity|]. simpl. split; [|split].
    + constructor; simpl.
      * rewrite (ok_handles _ _ _ H), map_app. reflexivity.
      * intros o' Ho'. apply in_app_iff in Ho' as [Ho'|[Ho'|[]]]; [now apply (ok_range _ _ _ H)|congruence].
      * rewrite upd_length. apply (ok_refs_len _ _ _ H).
      * apply (ok_objs_len _ _ _ H).
      * intros o' Ho' Hp'. rewrite holders_snoc in *. simpl cell in *.
        destruct (Nat.eqb_spec o o') as [<-|Hne].
        -- rewrite nth_error_upd_same by (rewrite (ok_refs_len _ _ _ H); lia).
           split; [do 2 f_equal; lia|eauto].
        -- rewrite Nat.add_0_r in *. rewrite nth_error_upd_other by auto. apply (ok_alive _ _ _ H); auto.
      * intros o' Ho' Hz. rewrite holders_snoc in Hz. simpl cell in Hz.
        destruct (Nat.eqb_spec o o') as [<-|Hne]; [lia|].
        rewrite nth_error_upd_other by auto. apply (ok_dead _ _ _ H); lia.
      * apply (ok_log_nodup _ _ _ H).
      * intro o'. rewrite holders_snoc. simpl cell. rewrite (ok_log _ _ _ H).
        destruct (Nat.eqb_spec o o') as [<-|Hne]; split; intros; lia.
    + intros Hqt. exact (Hq Hqt).
    + rewrite app_length. simpl. lia.
  - (* assign *)
    destruct (nth_error hs d) as [[o1|]|] eqn:Ed; try discriminate.
    destruct (nth_error hs src) as [[o2|]|] eqn:Es; try discriminate. injection Hown as <- <-.
    destruct (ok_handle _ _ _ _ _ H Ed) as [Hh1 [Ho1 Hp1]].
    destruct (ok_handle _ _ _ _ _ H Es) as [Hh2 [Ho2 Hp2]].
    unfold sp_step. rewrite Hh1. cbn [obind]. rewrite Hh2. cbn [obind].
    destruct (Nat.eqb_spec d src) as [->|Hne].
    + exists s, false. split; auto. rewrite Es in Ed. injection Ed as ->.
      rewrite upd_same by exact Es. split; [exact H|]. split; [exact Hq|lia].
    + destruct (holders hs o1) as [|c] eqn:Ec; [lia|].
      destruct (sp_drop_spec s hs n o1 c H Ho1 Ec ltac:(lia))
        as [s1 [t [Ed1 [Hhs [Hthrow [Hlr [Hlo [Hoth [Hc1 [Hc0 Hthr]]]]]]]]]].
      rewrite Ed1. cbn [obind].
      assert (t = false) as ->.
      { destruct t; auto. exfalso. simpl in Hben. destruct (Hthrow eq_refl) as [o' Ho'].
        apply (Hq Hben) in Ho'. discriminate. }
      pose proof (holders_upd hs d (Some o1) (Some o2)) as Hupd.
      (* the other object stays alive *)
      assert (Hr2 : exists k, nth_error (sp_refs s1) o2 = Some (Some (Z.of_nat k)) /\
                    (k + 1 = holders (upd hs d (Some o2)) o2)%nat).
      { specialize (Hupd o2 Ed). simpl cell in Hupd. rewrite Nat.eqb_refl in Hupd.
        destruct (Nat.eqb_spec o1 o2) as [->|Hno].
        - (* same object: at least two holders *)
          assert (c <> 0%nat).
          { intro Hc. subst c.
            pose proof (holders_upd hs d (Some o2) None o2 Ed) as Hx. simpl cell in Hx.
            rewrite Nat.eqb_refl in Hx.
            assert (0 < holders (upd hs d None) o2)%nat.
            { apply holders_pos. apply nth_error_In with (n := src). now rewrite nth_error_upd_other. }
            lia. }
          destruct (Hc1 H0) as [_ [Hr _]]. exists c. split; auto. lia.
        - destruct (Hoth o2 Ho2 (fun e => Hno (eq_sym e))) as [Hr _].
          rewrite Hr. destruct (ok_alive _ _ _ H o2 Ho2 Hp2) as [-> _].
          exists (holders hs o2). split; auto. lia. }
      destruct Hr2 as [k [Hr2 Hk]].
      unfold sp_addref. rewrite Hr2. unfold iadd.
      pose proof (holders_le (upd hs d (Some o2)) o2) as Hle. rewrite upd_length in Hle.
      rewrite int_ck_ok by (unfold int_min, int_max in *; lia). cbn [obind].
      eexists _, false. split; [reflexivity|]. simpl. split; [|split].
      * constructor; simpl.
        -- rewrite Hhs, (ok_handles _ _ _ H). apply (upd_map _ _ (option_map (fun o => (o, o))) hs d (Some o2)).
        -- intros o Hin. apply In_nth_error in Hin as [j Hj]. rewrite nth_error_upd in Hj.
           destruct (Nat.eqb d j); [destruct (Nat.ltb d (length hs)); congruence|].
           apply (ok_range _ _ _ H). eapply nth_error_In; eauto.
        -- rewrite upd_length. exact Hlr.
        -- exact Hlo.
        -- intros o Ho Hp. specialize (Hupd o Ed). simpl cell in Hupd.
           destruct (Nat.eq_dec o o2) as [->|Hn2].
           ++ rewrite nth_error_upd_same by lia. split; [do 2 f_equal; lia|].
              destruct (Nat.eq_dec o1 o2) as [->|Hn12].
              ** rewrite Nat.eqb_refl in Hupd.
                 assert (c <> 0%nat) by (destruct (Nat.eq_dec c 0); auto; destruct (Hc0 e) as [Hx _]; congruence).
                 destruct (Hc1 H0) as [_ [_ [-> _]]]. apply (ok_alive _ _ _ H); auto.
              ** destruct (Hoth o2 Ho2 ltac:(auto)) as [_ ->]. apply (ok_alive _ _ _ H); auto.
           ++ rewrite nth_error_upd_other by auto.
              destruct (Nat.eqb_spec o2 o) as [|_]; [congruence|].
              destruct (Nat.eqb_spec o1 o) as [->|Hn1].
              ** assert (c <> 0%nat) by lia. destruct (Hc1 H0) as [_ [-> [-> _]]].
                 split; [do 2 f_equal; lia|]. apply (ok_alive _ _ _ H); lia.
              ** destruct (Hoth o Ho ltac:(auto)) as [-> ->].
                 replace (holders (upd hs d (Some o2)) o) with (holders hs o) by lia.
                 apply (ok_alive _ _ _ H); lia.
        -- intros o Ho Hz. specialize (Hupd o Ed). simpl cell in Hupd.
           destruct (Nat.eqb_spec o2 o) as [->|Hn2]; [lia|].
           rewrite nth_error_upd_other by auto.
           destruct (Nat.eqb_spec o1 o) as [->|Hn1].
           ++ assert (c = 0%nat) by lia. destruct (Hc0 H0) as [-> [-> _]]. auto.
           ++ destruct (Hoth o Ho ltac:(auto)) as [-> ->]. apply (ok_dead _ _ _ H); lia.
        -- destruct (Nat.eq_dec c 0) as [Hcz|Hcn].
           ++ destruct (Hc0 Hcz) as [_ [_ ->]].
              apply NoDup_app_snoc_helper; [apply (ok_log_nodup _ _ _ H)|].
              rewrite (ok_log _ _ _ H). lia.
           ++ destruct (Hc1 Hcn) as [_ [_ [_ ->]]]. apply (ok_log_nodup _ _ _ H).
        -- intro o. specialize (Hupd o Ed). simpl cell in Hupd.
           destruct (Nat.eq_dec c 0) as [Hcz|Hcn].
           ++ destruct (Hc0 Hcz) as [Hdead [_ ->]]. rewrite in_app_iff, (ok_log _ _ _ H). simpl.
              assert (o1 <> o2) by congruence.
              destruct (Nat.eqb_spec o1 o) as [E1|Hn1]; destruct (Nat.eqb_spec o2 o) as [E2|Hn2];
                try (exfalso; lia); try subst o;
                (split; [intros [?|[?|[]]]; lia|intros; try lia]); auto; left; lia.
           ++ destruct (Hc1 Hcn) as [_ [_ [_ ->]]]. rewrite (ok_log _ _ _ H).
              destruct (Nat.eqb_spec o1 o) as [E1|Hn1]; destruct (Nat.eqb_spec o2 o) as [E2|Hn2];
                try subst o1; try subst o2; split; intros; lia.
      * intros Hqt o b. simpl. apply (Hthr false). exact (Hq Hqt).
      * rewrite upd_length. lia.
  - (* destroy *)
    destruct (nth_error hs h) as [[o1|]|] eqn:Ed; try discriminate. injection Hown as <- <-.
    destruct (ok_handle _ _ _ _ _ H Ed) as [Hh1 [Ho1 Hp1]].
    unfold sp_step. rewrite Hh1. cbn [obind].
    destruct (holders hs o1) as [|c] eqn:Ec; [lia|].
    destruct (sp_drop_spec s hs n o1 c H Ho1 Ec ltac:(lia))
      as [s1 [t [Ed1 [Hhs [_ [Hlr [Hlo [Hoth [Hc1 [Hc0 Hthr]]]]]]]]]].
    rewrite Ed1. cbn [obind]. eexists _, t. split; [reflexivity|]. simpl.
    pose proof (holders_upd hs h (Some o1) None) as Hupd.
    split; [|split].
    + constructor; simpl.
      * rewrite Hhs, (ok_handles _ _ _ H). apply (upd_map _ _ (option_map (fun o => (o, o))) hs h None).
      * intros o Hin. apply In_nth_error in Hin as [j Hj]. rewrite nth_error_upd in Hj.
        destruct (Nat.eqb h j); [destruct (Nat.ltb h (length hs)); congruence|].
        apply (ok_range _ _ _ H). eapply nth_error_In; eauto.
      * exact Hlr.
      * exact Hlo.
      * intros o Ho Hp. specialize (Hupd o Ed). simpl cell in Hupd.
        destruct (Nat.eqb_spec o1 o) as [->|Hn1].
        -- assert (c <> 0%nat) by lia. destruct (Hc1 H0) as [_ [-> [-> _]]].
           split; [do 2 f_equal; lia|]. apply (ok_alive _ _ _ H); lia.
        -- destruct (Hoth o Ho ltac:(auto)) as [-> ->].
           replace (holders (upd hs h None) o) with (holders hs o) by lia.
           apply (ok_alive _ _ _ H); lia.
      * intros o Ho Hz. specialize (Hupd o Ed). simpl cell in Hupd.
        destruct (Nat.eqb_spec o1 o) as [->|Hn1].
        -- assert (c = 0%nat) by lia. destruct (Hc0 H0) as [-> [-> _]]. auto.
        -- destruct (Hoth o Ho ltac:(auto)) as [-> ->]. apply (ok_dead _ _ _ H); lia.
      * destruct (Nat.eq_dec c 0) as [Hcz|Hcn].
        -- destruct (Hc0 Hcz) as [_ [_ ->]].
           apply NoDup_app_snoc_helper; [apply (ok_log_nodup _ _ _ H)|].
           rewrite (ok_log _ _ _ H). lia.
        -- destruct (Hc1 Hcn) as [_ [_ [_ ->]]]. apply (ok_log_nodup _ _ _ H).
      * intro o. specialize (Hupd o Ed). simpl cell in Hupd.
        destruct (Nat.eq_dec c 0) as [Hcz|Hcn].
        -- destruct (Hc0 Hcz) as [_ [_ ->]]. rewrite in_app_iff, (ok_log _ _ _ H). simpl.
           destruct (Nat.eqb_spec o1 o) as [E1|Hn1]; try subst o;
             (split; [intros [?|[?|[]]]; lia|intros; try lia]); auto; left; lia.
        -- destruct (Hc1 Hcn) as [_ [_ [_ ->]]]. rewrite (ok_log _ _ _ H).
           destruct (Nat.eqb_spec o1 o) as [->|Hn1]; split; intros; lia.
    + intros Hqt o b. simpl. apply (Hthr false). exact (Hq Hqt).
    + rewrite upd_length. lia.
  - (* deref *)
    destruct (nth_error hs h) as [[o1|]|] eqn:Ed; try discriminate. injection Hown as <- <-.
    destruct (ok_handle _ _ _ _ _ H Ed) as [Hh1 [Ho1 Hp1]].
    destruct (ok_alive _ _ _ H o1 Ho1 Hp1) as [_ [t Hobj]].
    unfold sp_step. rewrite Hh1. cbn [obind]. rewrite Hobj. exists s, false. auto.
Qed.

Lemma sp_run_ok : forall quiet ops s hs n hs' n', sp_ok s hs n -> quiet_ok quiet s ->
  Forall (benign quiet) ops -> Z.of_nat (length hs + length ops) <= int_max ->
  own_run (hs, n) ops = Some (hs', n') ->
  exists s', sp_run s ops = Def s' /\ sp_ok s' hs' n'.
Proof.
  intros quiet ops. induction ops as [|op ops IH]; intros s hs n hs' n' H Hq Hb Hlen Hown.
  - simpl in Hown. injection Hown as <- <-. exists s. auto.
  - cbn [own_run] in Hown. destruct (own_step (hs, n) op) as [[hs1 n1]|] eqn:E; [|discriminate].
    inversion Hb as [|? ? Hb1 Hb2]; subst. simpl length in Hlen.
    destruct (sp_step_ok quiet op s hs n hs1 n1 H Hq Hb1 ltac:(lia) E) as [s1 [t [Es [H1 [Hq1 Hl1]]]]].
    cbn [sp_run]. rewrite Es. cbn [obind]. apply (IH s1 hs1 n1); auto. lia.
Qed.

Lemma sp_init_ok : sp_ok sp_init [] 0.
Proof.
  constructor; simpl; auto; try lia; try tauto; try constructor; try tauto; try lia.
Qed.

(** C52. *)
Lemma shared_ownership : forall ops hs n,
  (Forall (benign true) ops \/ Forall (benign false) ops) ->
  Z.of_nat (length ops) <= int_max ->
  own_run ([], 0%nat) ops = Some (hs, n) ->
  exists s, sp_run sp_init ops = Def s /\
    NoDup (sp_log s) /\
    (forall o, In o (sp_log s) <-> (o < n)%nat /\ ~ In (Some o) hs) /\
    (forall o, In (Some o) hs -> exists t, nth_error (sp_objs s) o = Some (Some t)).
Proof.
  intros ops hs n Hb Hlen Hown.
  assert (exists s, sp_run sp_init ops = Def s /\ sp_ok s hs n) as [s [Es Hs]].
  { destruct Hb as [Hb|Hb].
    - eapply (sp_run_ok true); eauto using sp_init_ok.
      intros _ o b Ho. destruct o; discriminate.
    - eapply (sp_run_ok false); eauto using sp_init_ok. discriminate. }
  exists s. split; auto. split; [apply Hs|]. split.
  - intro o. rewrite (ok_log _ _ _ Hs). rewrite <- holders_pos. lia.
  - intros o Hin. pose proof (ok_range _ _ _ Hs _ Hin) as Ho.
    apply holders_pos in Hin. apply (ok_alive _ _ _ Hs); auto.
Qed.

Lemma throwing_assignment : exists ops hs n,
  own_run ([], 0%nat) ops = Some (hs, n) /\ sp_run sp_init ops = UB.
Proof.
  exists [SpNew true; SpNew false; SpAssign 0 1; SpDeref 0]. do 2 eexists. split; reflexivity.
Qed.

Lemma sp_run_app : forall a b s, sp_run s (a ++ b) = let! s' := sp_run s a in sp_run s' b.
Proof.
  induction a as [|op a IH]; intros b s; [reflexivity|]. cbn [app sp_run].
  destruct (sp_step s op) as [[s' t]| |]; auto. cbn [obind]. apply IH.
Qed.

Lemma dead_handle : forall ops op hs n, (Forall (benign true) ops \/ Forall (benign false) ops) ->
  Z.of_nat (length ops) <= int_max -> own_run ([], 0%nat) ops = Some (hs, n) -> own_step (hs, n) op = None ->
  sp_run sp_init (ops ++ [op]) = UB.
Proof.
  intros ops op hs n Hb Hlen Hown Hnone.
  assert (exists s, sp_run sp_init ops = Def s /\ sp_ok s hs n) as [s [Es Hs]].
  { destruct Hb as [Hb|Hb].
    - eapply (sp_run_ok true); eauto using sp_init_ok. intros _ o b Ho. destruct o; discriminate.
    - eapply (sp_run_ok false); eauto using sp_init_ok. discriminate. }
  rewrite sp_run_app, Es. cbn [obind sp_run].
  assert (G : forall h, (nth_error hs h = Some None \/ nth_error hs h = None) -> sp_handle s h = UB).
  { intros h E. unfold sp_handle. rewrite (ok_handles _ _ _ Hs), nth_error_map. now destruct E as [-> | ->]. }
  destruct op as [b|h|d src|h|h]; cbn in Hnone; try discriminate; cbn [sp_step].
  - destruct (nth_error hs h) as [[o|]|] eqn:E; try discriminate; rewrite G; auto.
  - destruct (nth_error hs d) as [[o|]|] eqn:E; [|rewrite G; auto|rewrite G; auto].
    destruct (ok_handle _ _ _ _ _ Hs E) as [-> _]. cbn [obind].
    destruct (nth_error hs src) as [[o'|]|] eqn:E'; try discriminate; rewrite G; auto.
  - destruct (nth_error hs h) as [[o|]|] eqn:E; try discriminate; rewrite G; auto.
  - destruct (nth_error hs h) as [[o|]|] eqn:E; try discriminate; rewrite G; auto.
Qed.

Lemma after_throwing_assignment : exists s s', sp_run sp_init [SpNew true; SpNew false] = Def s /\
  sp_step s (SpAssign 0 1) = Def (s', true) /\
  Forall (fun op => sp_step s' op = UB) [SpCopy 0; SpAssign 0 1; SpAssign 1 0; SpDestroy 0; SpDeref 0].
Proof. do 2 eexists. split; [reflexivity|]. split; [reflexivity|]. repeat constructor. Qed.
