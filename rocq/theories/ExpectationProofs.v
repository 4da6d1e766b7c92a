From Coq Require Import Bool ZArith Lia List.
From Verif Require Import Base CInt Expectation Spec_Verify.
Import ListNotations.
Open Scope Z_scope.

(** The quantifier arguments are ints. *)
Definition rep (e : expectation) (r : requirement) : Prop :=
  match r with
  | ReqAny => ex_any e = true
  | ReqExactly n => ex_any e = false /\ ex_count e = n /\ 0 <= n <= int_max
  | ReqAtLeast n => ex_any e = false /\ ex_count e = - n /\ 0 <= n <= int_max
  end /\ - int_max <= ex_count e <= int_max.

Lemma rep_new : rep exp_new (ReqAtLeast 1).
Proof. unfold rep, exp_new, int_max; cbn; lia. Qed.

Lemma ineg_ok : forall n, - int_max <= n <= int_max -> ineg n = Def (- n).
Proof. intros. apply int_ck_ok. unfold int_min, int_max in *. lia. Qed.

(** The verdict: exactly as the requirement says, AtLeast(0) excepted. *)
Lemma decide_spec : forall e r c, rep e r -> r <> ReqAtLeast 0 ->
  exists v, decide e c = Def v /\ (v = VOk <-> accepts r c).
Proof.
  intros e r c [R B] NZ. unfold decide, isAtLeastVerification, atLeastLimitNotReached, exactLimitNotMatched.
  rewrite (ineg_ok (ex_count e)) by auto. cbn [obind].
  destruct r as [|n|n].
  - rewrite R. cbn. eexists. split; [reflexivity|]. tauto.
  - destruct R as (A & C & N). rewrite A, C. cbn [negb].
    destruct (Z.ltb_spec n 0); [lia|]. cbn [accepts]. destruct (Z.eqb_spec c n); cbn [negb];
      (eexists; split; [reflexivity|split; intro; try discriminate; auto; lia]).
  - destruct R as (A & C & N). rewrite A, C. cbn [negb].
    assert (n <> 0) by congruence.
    destruct (Z.ltb_spec (-n) 0); [|lia]. rewrite Z.opp_involutive. cbn [accepts].
    destruct (Z.ltb_spec c n); (eexists; split; [reflexivity|split; intro; try discriminate; auto; lia]).
Qed.

Lemma decide_total : forall e r c, rep e r -> exists v, decide e c = Def v.
Proof.
  intros e r c [R B]. unfold decide, atLeastLimitNotReached. rewrite (ineg_ok (ex_count e)) by auto. cbn [obind].
  destruct (ex_any e); cbn; eauto. destruct (isAtLeastVerification e).
  - destruct (c <? - ex_count e); eauto.
  - destruct (exactLimitNotMatched e c); eauto.
Qed.

(** A failure shows the required and the found number. *)
Lemma decide_fail : forall e r c t n a, rep e r -> decide e c = Def (VFail t n a) ->
  a = c /\ match t with VtExact => r = ReqExactly n \/ (r = ReqAtLeast 0 /\ n = 0) | VtAtLeast => r = ReqAtLeast n end.
Proof.
  intros e r c t n a [R B]. unfold decide, isAtLeastVerification, atLeastLimitNotReached, exactLimitNotMatched.
  rewrite (ineg_ok (ex_count e)) by auto. cbn [obind].
  destruct (ex_any e) eqn:A; cbn [negb]; [discriminate|].
  destruct r as [|k|k].
  - congruence.
  - destruct R as (_ & C & N). rewrite C. destruct (Z.ltb_spec k 0); [lia|].
    destruct (negb (c =? k)); [|discriminate]. intro X. injection X as <- <- <-. auto.
  - destruct R as (_ & C & N). rewrite C. destruct (Z.ltb_spec (-k) 0).
    + destruct (c <? - - k); [|discriminate]. intro X. injection X as <- <- <-. rewrite Z.opp_involutive. auto.
    + assert (k = 0) by lia. subst k. destruct (negb (c =? - 0)); [|discriminate].
      intro X. injection X as <- <- <-. auto.
Qed.

Definition combine (r : requirement) (q : quant) : requirement :=
  match requirement_of q, r with
  | Some ReqAny, _ => ReqAny
  | _, ReqAny => ReqAny
  | Some r', _ => r'
  | None, _ => r
  end.

Lemma set_quant_spec : forall e r q, rep e r -> quant_int q ->
  exists o, set_quant e q = Def o /\
    match o with
    | Some e' => requirement_of q <> None /\ rep e' (combine r q) /\ ex_done e' = ex_done e
    | None => requirement_of q = None /\ combine r q = r
    end.
Proof.
  intros e r q [R B] Q. unfold combine. unfold int_min, int_max in *.
  destruct q; cbn [set_quant requirement_of quant_int] in *; unfold Exactly, AtLeast, verifyInvocations, int_min, int_max in *.
  1-5: eexists; split; [reflexivity|]; split; [discriminate|]; split; auto;
       destruct r; unfold rep; cbn [ex_any ex_count ex_done] in *; unfold int_max; repeat split; auto; try tauto; try lia.
  - destruct (Z.ltb_spec n 0); eexists; (split; [reflexivity|]).
    + destruct r; auto.
    + split; [discriminate|]. split; auto. destruct r; unfold rep; cbn [ex_any ex_count ex_done] in *; unfold int_max; repeat split; auto; try tauto; try lia.
  - destruct (Z.ltb_spec n 0).
    + eexists. split; [reflexivity|]. destruct r; auto.
    + rewrite ineg_ok by (unfold int_max; lia). cbn [obind]. eexists. split; [reflexivity|].
      split; [discriminate|]. split; auto. destruct r; unfold rep; cbn [ex_any ex_count ex_done] in *; unfold int_max; repeat split; auto; try tauto; try lia.
Qed.

Lemma in_force_cons : forall r q os, in_force r (LQuant q :: os) = in_force (combine r q) os.
Proof. reflexivity. Qed.

(** After the check was made nothing else happens. *)
Lemma life_run_done : forall os e r, rep e r -> ex_done e = true -> Forall op_int os ->
  exists e' l, life_run e os = Def (e', l) /\ ex_done e' = true /\
    checks_in l = [] /\ reports_in l = [] /\
    answers_in l = map (fun _ => true) (conversions os).
Proof.
  induction os as [|o os IH]; intros e r R D F; cbn [life_run].
  - exists e, []. cbn. auto.
  - inversion F as [|? ? Fo Fs]; subst. destruct o as [q|c]; cbn [life_step].
    + destruct (set_quant_spec e r q R Fo) as (o & E & S). rewrite E. cbn [obind].
      destruct o as [e1|].
      * destruct S as (_ & R1 & D1). rewrite D in D1.
        destruct (IH e1 _ R1 D1 Fs) as (e' & l & E' & D' & C' & P' & A'). rewrite E'. cbn [obind].
        exists e', l. cbn. auto.
      * destruct (IH e r R D Fs) as (e' & l & E' & D' & C' & P' & A'). rewrite E'. cbn [obind].
        exists e', (EvInvalid :: l). cbn. auto.
    + unfold toBool, VerifyExpectation. rewrite D. cbn [obind].
      destruct (IH e r R D Fs) as (e' & l & E' & D' & C' & P' & A'). rewrite E'. cbn [obind].
      exists e', (EvAnswer true :: l). unfold checks_in, reports_in, answers_in in *. cbn [flat_map app filter map]. rewrite A'. auto.
Qed.

Lemma life_run_fresh : forall os e r, rep e r -> ex_done e = false -> Forall op_int os ->
  exists e' l, life_run e os = Def (e', l) /\ reports_in l = [] /\
  match first_bool os with
  | None => ex_done e' = false /\ rep e' (in_force r os) /\ checks_in l = [] /\ answers_in l = []
  | Some (pre, c, post) => ex_done e' = true /\ checks_in l = [c] /\
      exists b, answers_in l = b :: map (fun _ => true) (conversions post) /\
        (in_force r pre <> ReqAtLeast 0 -> (b = true <-> accepts (in_force r pre) c))
  end.
Proof.
  induction os as [|o os IH]; intros e r R D F; cbn [life_run].
  - exists e, []. split; [reflexivity|]. split; [reflexivity|]. cbn [first_bool in_force].
    split; [exact D|]. split; [exact R|]. split; reflexivity.
  - inversion F as [|? ? Fo Fs]; subst. destruct o as [q|c]; cbn [life_step first_bool].
    + destruct (set_quant_spec e r q R Fo) as (o & E & S). rewrite E. cbn [obind].
      assert (G : exists e1 l1, match o with Some e' => (e', []) | None => (e, [EvInvalid]) end = (e1, l1) /\
         rep e1 (combine r q) /\ ex_done e1 = false /\ reports_in l1 = [] /\ checks_in l1 = [] /\ answers_in l1 = []).
      { destruct o as [e1|].
        - destruct S as (_ & R1 & D1). exists e1, []. rewrite D1. cbn; auto 10.
        - destruct S as (_ & C). rewrite C. exists e, [EvInvalid]. cbn. auto 10. }
      destruct G as (e1 & l1 & EQ & R1 & D1 & P1 & C1 & A1). rewrite EQ.
      destruct (IH e1 _ R1 D1 Fs) as (e' & l & E' & P' & B'). rewrite E'. cbn [obind].
      exists e', (l1 ++ l). split; [reflexivity|].
      unfold reports_in, checks_in, answers_in in *. rewrite !flat_map_app, P1, C1, A1, P'. cbn [app].
      split; [reflexivity|]. destruct (first_bool os) as [[[pre c] post]|]; exact B'.
    + unfold toBool, VerifyExpectation. rewrite D.
      set (e1 := mkExp (ex_count e) (ex_any e) true).
      assert (R1 : rep e1 r) by (unfold rep in *; exact R).
      destruct (decide_total e1 r c R1) as [v V]. rewrite V. cbn [obind].
      destruct (life_run_done os e1 r R1 eq_refl Fs) as (e' & l & E' & D' & C' & P' & A').
      rewrite E'. cbn [obind checked].
      eexists e', _. split; [reflexivity|].
      split; [destruct v; cbn; exact P'|]. split; [exact D'|].
      split; [unfold checks_in in *; cbn; rewrite C'; reflexivity|].
      eexists. split; [unfold answers_in in *; cbn; rewrite A'; reflexivity|].
      cbn [in_force]. intro NZ. destruct (decide_spec e1 r c R1 NZ) as (v' & V' & I). rewrite V in V'. injection V' as <-.
      rewrite <- I. destruct v; split; intro; auto; discriminate.
Qed.

(** C33, C49 and the verdict part of C35/C22: the whole life of a verification. *)
Theorem life_spec : forall os inflight count, Forall op_int os ->
  exists l, life os inflight count = Def l /\
  match first_bool os with
  | Some (pre, c, post) =>
      checks_in l = [c] /\ reports_in l = [] /\
      exists b, answers_in l = b :: map (fun _ => true) (conversions post) /\
        (in_force (ReqAtLeast 1) pre <> ReqAtLeast 0 ->
         (b = true <-> accepts (in_force (ReqAtLeast 1) pre) c))
  | None =>
      answers_in l = [] /\
      if inflight then checks_in l = [] /\ reports_in l = []
      else checks_in l = [count] /\
           (reports_in l = [] \/ exists t n, reports_in l = [VFail t n count] /\ told (in_force (ReqAtLeast 1) os) t n) /\
           (in_force (ReqAtLeast 1) os <> ReqAtLeast 0 ->
            (reports_in l = [] <-> accepts (in_force (ReqAtLeast 1) os) count))
  end.
Proof.
  intros os inflight count F. unfold life.
  destruct (life_run_fresh os exp_new (ReqAtLeast 1) rep_new eq_refl F) as (e & l & E & P & B).
  rewrite E. cbn [obind]. unfold exp_destroy.
  destruct (first_bool os) as [[[pre c] post]|].
  - destruct B as (D & C & b & A & I).
    assert (X : (if inflight then Def (e, None) else VerifyExpectation e count) = Def (e, None)).
    { destruct inflight; auto. unfold VerifyExpectation. now rewrite D. }
    rewrite X. cbn [obind checked]. eexists. split; [reflexivity|]. rewrite !app_nil_r. eauto 10.
  - destruct B as (D & R & C & A). destruct inflight.
    + cbn [obind checked]. eexists. split; [reflexivity|]. rewrite !app_nil_r. auto.
    + unfold VerifyExpectation. rewrite D. set (e1 := mkExp (ex_count e) (ex_any e) true).
      assert (R1 : rep e1 (in_force (ReqAtLeast 1) os)) by (unfold rep in *; exact R).
      destruct (decide_total e1 _ count R1) as [v V]. rewrite V. cbn [obind checked].
      eexists. split; [reflexivity|].
      unfold checks_in, reports_in, answers_in in *. rewrite !flat_map_app, A, C, P. cbn [app flat_map].
      split; [destruct v; reflexivity|]. split; [destruct v; reflexivity|].
      split.
      * destruct v as [|t n a]; cbn; auto. right. destruct (decide_fail _ _ _ _ _ _ R1 V) as [-> T]. exists t, n. split; [reflexivity|]. destruct t; exact T.
      * intro NZ. destruct (decide_spec e1 _ count R1 NZ) as (v' & V' & I). rewrite V in V'. injection V' as <-.
        rewrite <- I. destruct v; cbn; split; intro; auto; discriminate.
Qed.

Lemma second_conversion : exists count, life [LBool count; LBool count] false count =
  Def [EvCheck count; EvAnswer false; EvAnswer true].
Proof. exists 0. reflexivity. Qed.

Lemma life_verdict : forall q r count, quant_int q -> requirement_of q = Some r -> r <> ReqAtLeast 0 ->
  exists l, life [LQuant q] false count = Def l /\ (reports_in l = [] <-> accepts r count).
Proof.
  intros q r count Q R NZ.
  destruct (life_spec [LQuant q] false count) as (l & E & H); [now repeat constructor|].
  cbn [first_bool in_force] in H. rewrite R in H. exists l. split; auto.
  destruct H as (_ & _ & _ & H).
  destruct r; apply H; exact NZ.
Qed.

Lemma at_least_verdict : forall n count, 1 <= n <= int_max ->
  exists l, life [LQuant (QAtLeast n)] false count = Def l /\ (reports_in l = [] <-> n <= count).
Proof.
  intros n count H. apply (life_verdict (QAtLeast n) (ReqAtLeast n)).
  - cbn. unfold int_min. lia.
  - cbn. destruct (Z.ltb_spec n 0); [lia|reflexivity].
  - intro X. injection X as ->. lia.
Qed.

Lemma exact_verdict : forall n count, 0 <= n <= int_max ->
  exists l, life [LQuant (QExactly n)] false count = Def l /\ (reports_in l = [] <-> count = n).
Proof.
  intros n count H. apply (life_verdict (QExactly n) (ReqExactly n)).
  - cbn. unfold int_min. lia.
  - cbn. destruct (Z.ltb_spec n 0); [lia|reflexivity].
  - discriminate.
Qed.

Lemma default_verdict : forall count,
  exists l, life [] false count = Def l /\ (reports_in l = [] <-> 1 <= count).
Proof.
  intro count. destruct (life_spec [] false count) as (l & E & H); [constructor|].
  exists l. split; auto. destruct H as (_ & _ & _ & H). apply H. discriminate.
Qed.

Lemma at_least_zero : forall count, 0 < count ->
  exists l, life [LQuant (QAtLeast 0)] false count = Def l /\ reports_in l = [VFail VtExact 0 count].
Proof.
  intros count H.
  exists [EvCheck count; EvReport (VFail VtExact 0 count)]. split; [|reflexivity].
  cbn. destruct count; try lia; reflexivity.
Qed.

Lemma negative_rejected : forall e n, n < 0 ->
  life_step e (LQuant (QExactly n)) = Def (e, [EvInvalid]) /\
  life_step e (LQuant (QAtLeast n)) = Def (e, [EvInvalid]).
Proof.
  intros e n H. cbn [life_step set_quant]. unfold Exactly, AtLeast.
  destruct (Z.ltb_spec n 0); [split; reflexivity|lia].
Qed.
