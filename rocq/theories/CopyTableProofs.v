(** Copying virtual tables. *)
From Coq Require Import Bool ZArith Lia List.
From Verif Require Import Base CInt VTable Spec_Layout VTableProofs.
Import ListNotations.
Open Scope Z_scope.

Section P.
Context {W : Type}.

Lemma compiled_get : forall l (top ti : W) entries i w, nth_error entries i = Some w ->
  getMethod (compiled l top ti entries) (Z.of_nat i) = Def w.
Proof.
  intros l top ti entries i w N. destruct l; unfold getMethod; cbn [compiled].
  - rewrite (vt_get_at _ _ (2 + i)) by (cbn [vt_first]; lia). cbn. now rewrite N.
  - rewrite (vt_get_at _ _ (1 + i)) by (cbn [vt_first]; lia). cbn. now rewrite N.
Qed.

Lemma copy_below : forall n i (t t' src : vtable W) j, copy_loop n i t src = Def t' -> j < i -> vt_get t' j = vt_get t j.
Proof.
  induction n as [|n IH]; cbn; intros i t t' src j H L; [now injection H as <-|].
  destruct (getMethod src i) as [x| |]; try discriminate. cbn [obind] in H.
  destruct (vt_set t i x) as [t1| |] eqn:S1; try discriminate. cbn [obind] in H.
  rewrite (IH _ _ _ _ j H) by lia. unfold vt_set in S1.
  destruct (Z.ltb_spec (vt_first t + i) 0); [discriminate|].
  destruct (Z.leb_spec (Z.of_nat (length (vt_arr t))) (vt_first t + i)); [discriminate|]. cbn [orb] in S1. injection S1 as <-.
  unfold vt_get. cbn [vt_first vt_arr]. destruct (Z.ltb_spec (vt_first t + j) 0); auto.
  rewrite nth_error_upd_other by lia. reflexivity.
Qed.

Theorem wrapped : forall l (null ti top cti : W) (b : bool) entries, l = Gcc \/ b = false ->
  exists t0 t, buildVTArray l null ti (Z.of_nat (length entries)) = Def t0 /\
    copyFrom l (length entries) b t0 (compiled l top cti entries) = Def t /\
    (forall i w, nth_error entries i = Some w -> getMethod t (Z.of_nat i) = Def w) /\
    (forall i, 0 <= i < numOfCookies l -> getCookie l t i = Def null) /\
    vt_get t (-1) = Def ti /\ (l = Gcc -> vt_get t (-2) = Def null) /\ dispose l t = Def tt.
Proof.
  intros l null ti top cti b entries H. set (size := Z.of_nat (length entries)).
  destruct (build_spec l null ti size) as (t0 & B & WF & R & T1 & T2); [lia|]. exists t0.
  assert (S : forall j, 0 <= j < size -> getMethod (compiled l top cti entries) j = Def (nth (Z.to_nat j) entries null)).
  { intros j J. rewrite <- (Z2Nat.id j) at 1 by lia. apply compiled_get. apply nth_error_nth'. lia. }
  destruct (copy_loop_spec l size _ _ S (length entries) 0 t0 WF) as (t & C & WF' & R'); [lia|lia|].
  exists t. split; [exact B|].
  assert (CF : copyFrom l (length entries) b t0 (compiled l top cti entries) = Def t).
  { unfold copyFrom. rewrite C. cbn [obind]. destruct H as [->| ->]; [reflexivity|]. destruct l; reflexivity. }
  split; [exact CF|]. split; [|split; [|split; [|split]]].
  - intros i w N. assert (L : (i < length entries)%nat) by (apply nth_error_Some; congruence).
    specialize (R' (EMethod (Z.of_nat i))). cbn [read_entry valid_entry] in R'. rewrite R' by lia.
    destruct (Z.leb_spec 0 (Z.of_nat i)); [|lia]. destruct (Z.ltb_spec (Z.of_nat i) (0 + Z.of_nat (length entries))); [|lia].
    cbn [andb]. rewrite Nat2Z.id. f_equal. now apply nth_error_nth.
  - intros i I. specialize (R' (ECookie i)). cbn [read_entry valid_entry] in R'. rewrite R' by exact I.
    apply (R (ECookie i)). exact I.
  - rewrite <- T1. eapply copy_below; [exact C|lia].
  - intro G. rewrite <- (T2 G). eapply copy_below; [exact C|lia].
  - eapply dispose_wf; eauto.
Qed.

Theorem read_outside : forall (t0 : vtable W) (top cti : W) entries,
  (exists null ti, buildVTArray Msc null ti (Z.of_nat (length entries)) = Def t0) ->
  copyFrom Msc (length entries) true t0 (compiled Msc top cti entries) = UB.
Proof.
  intros t0 top cti entries (null & ti & B). set (size := Z.of_nat (length entries)) in *.
  destruct (build_spec Msc null ti size) as (t0' & B' & WF & R & T1 & T2); [lia|].
  rewrite B in B'. injection B' as <-.
  assert (S : forall j, 0 <= j < size -> getMethod (compiled Msc top cti entries) j = Def (nth (Z.to_nat j) entries null)).
  { intros j J. rewrite <- (Z2Nat.id j) at 1 by lia. apply compiled_get. apply nth_error_nth'. lia. }
  destruct (copy_loop_spec Msc size _ _ S (length entries) 0 t0 WF) as (t & C & WF' & R'); [lia|lia|].
  unfold copyFrom. rewrite C. reflexivity.
Qed.

(** The table of an object made by the library, copied when the mock is made or reset. *)
Theorem own_copied : forall l (null ti stub helper dtor : W) (size : nat) (index : Z),
  0 <= index -> index + 1 < Z.of_nat size ->
  exists t0 f1 f2 f3 t, buildVTArray l null ti (Z.of_nat size) = Def t0 /\ buildVTArray l null ti (Z.of_nat size) = Def f1 /\
    initAll size f1 stub = Def f2 /\ setDtor l f2 index helper dtor = Def f3 /\
    copyFrom l size true t0 f3 = Def t /\
    (forall i, 0 <= i < Z.of_nat size -> getMethod t i = getMethod f3 i) /\
    dtor_helper_target l t index = Def dtor /\
    (forall i, 0 <= i < 2 -> getCookie l t i = Def null).
Proof.
  intros l null ti stub helper dtor size index I0 I1.
  destruct (build_spec l null ti (Z.of_nat size)) as (t0 & B & WF & R & T1 & T2); [lia|].
  destruct (init_loop_spec l (Z.of_nat size) size 0 t0 stub WF) as (f2 & IN & WF2 & R2); [lia|lia|].
  destruct (dtor_entries l f2 (Z.of_nat size) index helper dtor WF2 I0 I1) as (f3 & D & D1 & D2 & D3 & D4 & WF3).
  assert (S : exists f, forall j, 0 <= j < Z.of_nat size -> getMethod f3 j = Def (f j)).
  { exists (fun j => match getMethod f3 j with Def w => w | _ => null end). intros j J.
    pose proof (read_pos l (Z.of_nat size) f3 (EMethod j) WF3) as P. cbn [read_entry] in P. rewrite P by (cbn; lia).
    destruct (nth_error (vt_arr f3) (Z.to_nat (pos_of l (EMethod j)))) eqn:N; [reflexivity|].
    apply nth_error_None in N. destruct WF3 as (_ & LN & _). pose proof (pos_range l (Z.of_nat size) (EMethod j) ltac:(lia) J). lia. }
  destruct S as (f & S).
  destruct (copy_loop_spec l (Z.of_nat size) f3 f S size 0 t0 WF) as (t & C & WFt & Rt); [lia|lia|].
  assert (M : forall i, 0 <= i < Z.of_nat size -> getMethod t i = getMethod f3 i).
  { intros i I. specialize (Rt (EMethod i)). cbn [read_entry valid_entry] in Rt. rewrite Rt by lia.
    destruct (Z.leb_spec 0 i); [|lia]. destruct (Z.ltb_spec i (0 + Z.of_nat size)); [|lia]. cbn [andb]. symmetry. now apply S. }
  assert (K : forall i, 0 <= i < numOfCookies l -> getCookie l t i = Def null).
  { intros i I. specialize (Rt (ECookie i)). cbn [read_entry valid_entry] in Rt. rewrite Rt by exact I. apply (R (ECookie i)). exact I. }
  exists t0, t0, f2, f3.
  destruct l.
  - exists t. split; [exact B|]. split; [exact B|]. split; [exact IN|]. split; [exact D|].
    split; [unfold copyFrom; rewrite C; reflexivity|]. split; [exact M|]. split; [|intros i I; apply K; cbn; lia].
    cbn [dtor_helper_target] in *. rewrite M by lia. exact D2.
  - cbn [dtor_helper_target] in D2.
    assert (V : valid_entry (Z.of_nat size) (numOfCookies Msc) (ECookie dtorCookieIndex)) by (cbn; lia).
    pose proof (write_pos Msc (Z.of_nat size) t (ECookie dtorCookieIndex) dtor WFt V) as WP. cbn [write_entry] in WP.
    eexists. split; [exact B|]. split; [exact B|]. split; [exact IN|]. split; [exact D|].
    split; [unfold copyFrom; rewrite C; cbn [obind]; rewrite D2; cbn [obind]; exact WP|].
    assert (RW : forall e, valid_entry (Z.of_nat size) (numOfCookies Msc) e -> _) by
      (exact (fun e => read_write Msc (Z.of_nat size) t (ECookie dtorCookieIndex) dtor e WFt V)).
    split; [|split].
    + intros i I. rewrite <- M by exact I. apply (RW (EMethod i)). cbn. lia.
    + cbn [dtor_helper_target]. apply (RW (ECookie dtorCookieIndex)). exact V.
    + intros i I. transitivity (getCookie Msc t i); [|apply K; cbn; lia].
      rewrite (RW (ECookie i)) at 1 by (cbn; lia). cbn [entry_eqb].
      destruct (Z.eqb_spec dtorCookieIndex i) as [X|X]; [|reflexivity]. unfold dtorCookieIndex in X. cbn in X. lia.
Qed.
End P.
