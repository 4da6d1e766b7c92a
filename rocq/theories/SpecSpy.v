(** Spied methods and interrupted statements: the facts behind C16 and C19 in P_Calls.v. *)
From Coq Require Import Bool ZArith Lia List Permutation.
From Verif Require Import Base CInt Values ArgMatchers InvMatchers ActionSeq Sequences MatchAnalysis
  Proxy Events Expectation ReturnSet Syntax World Spec_World WorldRel WorldSimA WorldSimB WorldSimE WorldSim
  Spec_View SpecFacts SpecKept SpecCalls SpecLasting.
Import ListNotations.
Open Scope nat_scope.

Section S.
Variable E : env.
Hypothesis iter_perm : iterates E.
Local Notation leads := (leads E).

(** ** C16 *)
Lemma interrupted : forall f m0 os s rs t im acts n x m e me s1, leads (S f) m0 os s rs -> mentioned E s t m e me s1 ->
  leads (S f) m0 (os ++ [OStmt [(t, im)] (SWhen acts (Some (n, x)))]) (one_expression s1) (rs ++ [inr x]).
Proof.
  intros f m0 os s rs t im acts n x m e me s1 L M. eapply (leads_step E iter_perm); eauto.
  erewrite stmt_when_interrupted by eauto. cbn. unfold one_expression.
  destruct (mentioned_ctxs _ _ _ _ _ _ _ M) as (-> & _). reflexivity.
Qed.

Lemma mentioned_uncaught : forall s t m e me s' n, mentioned E s t m e me s' ->
  mentioned E (sset_uncaught s n) t m e me (sset_uncaught s' n).
Proof.
  intros s t m e me s' n (r & D & H). exists r. split; [exact D|].
  destruct H as [[A ->]|(A & B & C & -> & ->)]; [now left|right]. repeat split; auto.
  unfold put_method. cbn. destruct (live (s_mocks s) m); reflexivity.
Qed.

Lemma unwinding : forall f m0 os s rs t im acts m e me s1, leads (S (S f)) m0 os s rs -> mentioned E s t m e me s1 ->
  leads (S (S f)) m0 (os ++ [OUnwinding (OStmt [(t, im)] (SWhen acts None))]) (one_expression s1) (rs ++ [inl VVoid]).
Proof.
  intros f m0 os s rs t im acts m e me s1 L M. eapply (leads_step E iter_perm); eauto.
  change (sexec E (S (S f)) (OUnwinding (OStmt [(t, im)] (SWhen acts None))) s) with
    ((let? _ := sattempt (sexec E (S f) (OStmt [(t, im)] (SWhen acts None))) in
      sunit (smodify (fun s => sset_uncaught s (pred (s_uncaught s))))) (sset_uncaught s (S (s_uncaught s)))).
  pose proof (mentioned_uncaught _ _ _ _ _ _ (S (s_uncaught s)) M) as M'.
  assert (Q : sattempt (sexec E (S f) (OStmt [(t, im)] (SWhen acts None))) (sset_uncaught s (S (s_uncaught s))) =
    SOk (sset_ctxs (sset_uncaught s1 (S (s_uncaught s))) (s_ctxs s ++ [None])) (inl VVoid)).
  { unfold sattempt. erewrite stmt_when_unwinding; [|exact M'|cbn; discriminate]. reflexivity. }
  rewrite (sbind_ok _ _ _ _ _ _ _ Q). cbn. unfold one_expression.
  destruct (mentioned_ctxs _ _ _ _ _ _ _ M) as (-> & U & _). rewrite <- U. now destruct s1.
Qed.

(** ** C19 *)

(** Calls of a method whose original is running. *)
Lemma self_call : forall f s o slot m me args dx, wrapped E s o slot m dx -> method_at s m slot = Some me -> me_bypass me = true ->
  sexec E (S f) (OCall o slot args) s = srun_prog (sexec E f) (FrStack o args) (cl_body dx slot) s.
Proof.
  intros f s o slot m me args dx (x & k & d & O & SM & K & OW & OB & D & L & DT & DX & LX) ME BP.
  cbn [sexec sstep]. unfold scall.
  rewrite (sbind_ok _ _ _ _ _ _ _ (sget_live _ _ _ _ _ O)), SM.
  rewrite (sbind_ok _ _ _ _ _ _ _ (sget_live _ _ _ _ _ K)).
  unfold sclass at 1. rewrite D. unfold sbind at 1, sopt, sret.
  destruct (Nat.ltb_spec slot (cl_size d)); [|lia]. rewrite (entry_plain _ _ DT).
  unfold method_at in ME. rewrite K in ME. rewrite ME, BP. unfold sinitial. rewrite OW. unfold sbody, sclass. rewrite DX.
  unfold sbind at 1, sopt, sret. destruct (Nat.ltb_spec slot (cl_size dx)); [reflexivity|lia].
Qed.

Lemma set_bypass_at : forall s m e me b, method_at s m e = Some me -> me_bypass me = b ->
  sset_bypass m e (me_no me) (me_id me) b s = SOk (put_method s m e (intercepting me b)) tt.
Proof.
  intros s m e me b ME B. unfold sset_bypass. rewrite (sbind_ok _ _ _ _ _ _ _ (smethod_at _ _ _ _ ME)).
  rewrite Nat.eqb_refl, Z.eqb_refl, B, Bool.eqb_reflx. cbn [andb].
  rewrite (sset_method_at _ _ _ _ _ ME). reflexivity.
Qed.

Lemma wrapped_put : forall s o slot m dx e me, wrapped E s o slot m dx -> wrapped E (put_method s m e me) o slot m dx.
Proof.
  intros s o slot m dx e me (x & k & d & O & SM & K & H). unfold put_method. rewrite K. exists x. eexists. exists d. cbn.
  rewrite live_upd_in by (eapply live_lt; eauto). repeat split; try apply H; auto.
Qed.

Lemma spied_call : forall f m0 os s rs o slot args m me newer st older fw dx s' r,
  leads (S (S f)) m0 os s rs -> wrapped E s o slot m dx -> reaches E s o slot m slot me -> room s ->
  newest s me args newer st older -> st_todo st = [ADelegate (FOrig m o slot fw)] ->
  srun_prog (sexec E f) (FrStack o args) (cl_body dx slot) (running_original E s m slot me fw args) = sanswer s' r ->
  r <> inr XNoMore ->
  exists me', method_at s' m slot = Some me' /\
    leads (S (S f)) m0 (os ++ [OCall o slot args]) (put_method s' m slot (intercepting me' true)) (rs ++ [r]) /\
    exists new old, me_stubs me' = new ++ old /\ Forall2 advanced (me_stubs me) old /\ In st old.
Proof.
  intros f m0 os s rs o slot args m me newer st older fw dx s' r L W RE RM NW TD H NX.
  pose proof (reaches_at _ _ _ _ _ _ _ RE) as ME.
  destruct (leads_R _ _ _ _ _ _ L) as (w & HR).
  set (i := length (s_calls s)). set (s1 := calling s m slot me args).
  assert (ME1 : method_at s1 m slot = Some (with_call me i)) by (unfold s1, calling; eapply method_put; exact ME).
  assert (BP : me_bypass me = false) by (destruct RE as (? & ? & ? & ? & ? & ? & ? & ? & ? & ? & BP); exact BP).
  set (s2 := put_method s1 m slot (intercepting (with_call me i) false)).
  assert (W2 : wrapped E s2 o slot m dx).
  { unfold s2. apply wrapped_put. unfold s1, calling. apply wrapped_put. exact W. }
  assert (C2 : s_calls s2 = s_calls s ++ [mkCall (me_no me) (me_ret me) args false]).
  { unfold s2, s1, calling. rewrite !s_calls_put. reflexivity. }
  assert (G2 : sget_call i s2 = SOk s2 (mkCall (me_no me) (me_ret me) args false)).
  { unfold sget_call, sbind, sgets, sopt. rewrite C2. unfold i. rewrite nth_error_app2, Nat.sub_diag by lia. reflexivity. }
  set (s3 := running_original E s m slot me fw args) in *.
  assert (ME3 : method_at s3 m slot = Some (intercepting (with_call me i) false)).
  { unfold s3, running_original. eapply method_put. exact ME. }
  assert (FW : (if fw then sput_args i (mkCall (me_no me) (me_ret me) args false) (map (moved_from (e_moved E)) args) else sret tt) s2 = SOk s3 tt).
  { unfold s3, running_original. destruct fw.
    - unfold sput_args, smodify. rewrite C2. unfold i. rewrite upd_app_last. cbn [ca_method ca_ret ca_verified].
      unfold s2, s1, calling. rewrite put_put, <- put_calls. reflexivity.
    - unfold s2, s1, calling. rewrite put_put. reflexivity. }
  (* the original *)
  assert (W3 : wrapped E s3 o slot m dx).
  { unfold s3, running_original. apply wrapped_put. exact W. }
  pose proof (self_call f s3 o slot m _ args dx W3 ME3 eq_refl) as SC. rewrite H in SC.
  pose proof (keeps_exec E (S f) (OCall o slot args) s3) as K3. rewrite SC in K3.
  assert (K3' : kept s3 s') by (destruct r; exact K3).
  assert (N3 : numbered s3).
  { assert (N1 : numbered s1) by (apply calling_numbered; auto; eapply R_numbered; eauto).
    destruct (N1 _ _ _ ME1) as [A B].
    unfold s3, running_original. intros m' e' me' M'. 
    destruct (Nat.eq_dec m m') as [<-|Q]; [destruct (Nat.eq_dec slot e') as [<-|Q]|].
    - rewrite (method_put _ _ _ me) in M' by exact ME. inversion M'; subst me'. cbn. split; auto.
      revert B. apply Forall_impl. intros z [U1 U2]. unfold used in *. unfold s1, calling in U1, U2. rewrite s_ctxs_put in *. cbn in *. auto.
    - rewrite method_put_other in M' by congruence. destruct (R_numbered _ _ _ HR m e' me') as [A' B']; [exact M'|]. split; auto.
      revert B'. apply Forall_impl. intros z [U1 U2]. unfold used in *. rewrite s_ctxs_put in *. cbn in *. auto.
    - rewrite method_put_other in M' by congruence. destruct (R_numbered _ _ _ HR m' e' me') as [A' B']; [exact M'|]. split; auto.
      revert B'. apply Forall_impl. intros z [U1 U2]. unfold used in *. rewrite s_ctxs_put in *. cbn in *. auto. }
  destruct (K3' N3) as [_ (_ & _ & HH)].
  destruct (HH _ _ _ ME3) as (me' & ME' & (NO & ID & RT & BPE & new & old & ST & F & IDL)).
  { unfold resting, quiet_method. cbn. reflexivity. }
  cbn in NO, ID, RT, BPE, F.
  exists me'. split; auto. split.
  - eapply (leads_step E iter_perm); eauto.
    change (sexec E (S (S f)) (OCall o slot args) s) with (scall E (sexec E (S f)) o slot args s).
    rewrite (call_reaches _ _ _ _ _ _ _ _ _ RE), (stubbed_found _ _ _ _ _ _ _ _ _ _ ME RM NW), TD.
    assert (PL : splay E (sexec E (S f)) m slot st (length (s_calls s)) (calling s m slot me args) =
                 sanswer (put_method s' m slot (intercepting me' true)) r).
    { unfold splay. rewrite TD. cbn [srun_callable]. fold i s1.
      destruct W2 as (x & k & d & O & SM & K & OW & OB & D & LL & DT & DX & LX).
      assert (K1 : exists k1, live (s_mocks s1) m = Some k1 /\ sk_class k1 = sk_class k).
      { unfold s2, put_method in K. destruct (live (s_mocks s1) m) as [k1|] eqn:K1; [|congruence].
        cbn in K. rewrite live_upd_in in K by (eapply live_lt; eauto). inversion K; subst k. cbn. eauto. }
      destruct K1 as (k1 & K1 & CK).
      rewrite (sbind_ok _ _ _ _ _ _ _ (sget_live _ _ _ _ _ K1)). unfold sclass. rewrite CK, D. unfold sbind at 1, sopt, sret at 1.
      rewrite DT. rewrite (sbind_ok _ _ _ _ _ _ _ (smethod_at _ _ _ _ ME1)).
      rewrite (sbind_ok _ _ _ _ _ _ _ (set_bypass_at _ _ _ _ _ ME1 BP)). fold s2.
      unfold sguarded.
      assert (BD : (let? x0 := sget_call i in
                    let? _ := if fw then sput_args i x0 (map (moved_from (e_moved E)) (ca_args x0)) else sret tt in
                    sexec E (S f) (OCall o slot (ca_args x0))) s2 = sanswer s' r).
      { rewrite (sbind_ok _ _ _ _ _ _ _ G2). cbn [ca_args]. rewrite (sbind_ok _ _ _ _ _ _ _ FW). exact SC. }
      rewrite (sbind_ok _ _ _ _ _ _ _ (sattempt_answer _ _ _ _ BD)).
      cbn [me_no me_id with_call]. rewrite <- NO, <- ID.
      rewrite (sbind_ok _ _ _ _ _ _ _ (set_bypass_at _ _ _ _ _ ME' BPE)). destruct r; reflexivity. }
    unfold sbind. rewrite (sattempt_answer _ _ _ _ PL). destruct r as [v|[]]; try reflexivity. congruence.
  - exists new, old. split; auto. split; auto. destruct NW as (NW & _). rewrite NW in F.
    apply Forall2_app_inv_l in F. destruct F as (oa & ob & FA & FB & ->). inversion FB as [|? st' ? ob' AD FB']; subst.
    rewrite (advanced_endless st st' _ TD Logic.I AD). apply in_or_app. right. now left.
Qed.

(** The Spy statement. *)
Lemma spy_installs : forall f s xs ms s1 fw, mentioned_all E s (map fst xs) ms s1 -> NoDup ms ->
  Forall (fun x => is_method (fst x)) xs ->
  exists s2 obj, sexec E (S f) (OStmt xs (SSpy fw)) s = SOk s2 VVoid /\
    (forall m k, live (s_mocks s1) m = Some k -> obj m = sk_obj k) /\
    Forall2 (fun x p => installed s2 (fst p) (snd p) (cond_of (snd x)) (spy_action obj fw p)) xs ms.
Proof.
  intros f s xs ms s1 fw M ND IM.
  set (obj := fun m => match live (s_mocks s1) m with Some k => sk_obj k | None => 0 end).
  destruct (each_stmt E (fun c => sdo_spy E c fw) (spy_action obj fw)
              (fun s => forall m k, live (s_mocks s) m = Some k -> sk_obj k = obj m) is_method) with (f := f) (st := SSpy fw) (xs := xs) (ms := ms) (s := s) (s1 := s1)
    as (s2 & Q & F); auto.
  - intros s0 m e me H m' k. unfold put_method. destruct (live (s_mocks s0) m) as [k0|] eqn:K; [|apply H]. cbn.
    destruct (Nat.eq_dec m m') as [<-|N].
    + rewrite live_upd_in by (eapply live_lt; eauto). intro Q. inversion Q; subst. cbn. now apply H.
    + rewrite live_upd_out by auto. apply H.
  - intros s0 c t im m e IT HJ (me & r & D & ME) LC. unfold sdo_spy, sctx_unused. unfold sbind at 1.
    rewrite (sbind_ok _ _ _ _ _ _ _ (sget_live _ _ _ _ _ LC)). cbn [sx_committed]. unfold sret at 1. cbn [sx_target].
    destruct t as [m1 sl cn|m1]; [|contradiction]. destruct D as (k & d & TM & K & DD & LE & -> & _). cbn in TM. subst m1.
    unfold sbind at 1. rewrite (sbind_ok _ _ _ _ _ _ _ (sget_live _ _ _ _ _ K)). unfold sret at 1.
    unfold spy_action. cbn [fst snd]. rewrite (HJ _ _ K). reflexivity.
  - intros l m k H. unfold obj. cbn in H. now rewrite H.
  - exists s2, obj. split; auto. split; auto. intros m k K. unfold obj. now rewrite K.
Qed.

Lemma interrupted_first : forall f m0 os s rs t im acts n x m e me s1,
  leads (S (S f)) m0 os s rs -> mentioned E s t m e me s1 -> method_at s m e = None ->
  leads (S (S f)) m0 (os ++ [OStmt [(t, im)] (SWhen acts (Some (n, x)))]) (one_expression s1) (rs ++ [inr x]) /\
  leads (S (S f)) m0 (os ++ [OUnwinding (OStmt [(t, im)] (SWhen acts None))]) (one_expression s1) (rs ++ [inl VVoid]) /\
  me_stubs me = [] /\ method_at (one_expression s1) m e = Some me /\
  forall m' e', (m, e) <> (m', e') -> method_at (one_expression s1) m' e' = method_at s m' e'.
Proof.
  intros f m0 os s rs t im acts n x m e me s1 L M N. split; [eapply interrupted; eauto|].
  split; [eapply unwinding; eauto|]. split.
  - destruct M as (r & _ & [[Q _]|(_ & _ & _ & -> & _)]); [congruence|reflexivity].
  - split; [exact (mentioned_at _ _ _ _ _ _ _ M)|]. intros m' e' NE. exact (mentioned_other E _ _ _ _ _ _ _ _ M NE).
Qed.

Lemma spy_statement : forall f m0 os s rs xs ms s1 fw,
  leads (S f) m0 os s rs -> mentioned_all E s (map fst xs) ms s1 -> NoDup ms -> Forall (fun x => is_method (fst x)) xs ->
  exists s2 obj, leads (S f) m0 (os ++ [OStmt xs (SSpy fw)]) s2 (rs ++ [inl VVoid]) /\
    (forall m k, live (s_mocks s1) m = Some k -> obj m = sk_obj k) /\
    Forall2 (fun x p => installed s2 (fst p) (snd p) (cond_of (snd x)) (spy_action obj fw p)) xs ms.
Proof.
  intros f m0 os s rs xs ms s1 fw L M ND IM.
  destruct (spy_installs f s xs ms s1 fw M ND IM) as (s2 & obj & X & A & B). exists s2, obj. split; auto.
  eapply (leads_step E iter_perm); eauto.
Qed.

End S.
