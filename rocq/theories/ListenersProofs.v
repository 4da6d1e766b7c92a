From Coq Require Import List Arith Lia.
From Verif Require Import Base Events Spec_Events EventsProofs Listeners Spec_Listeners.
Import ListNotations.
Open Scope nat_scope.

Section Proofs.
Context {E L X : Type}.
Variable reaction : list (L * E) -> L -> E -> list (act E L X).
Variable builtin : L.
Local Notation lst := (lstate E L).
Local Notation deliver := (deliver reaction builtin).
Local Notation notify := (notify reaction).
Local Notation fire := (fire reaction).

(** *** Configuration from inside *)

Definition after (os : list (fc_op L)) (s : lst) : lst := fold_left (fun s o => configure o s) os s.

Lemma perform_conf : forall inner (os : list (fc_op L)) tail (s : lst),
  perform (X := X) inner (map AConf os ++ tail) s = perform inner tail (after os s).
Proof. intros inner os. induction os as [|o os IH]; intros tail s; cbn; auto. Qed.

Lemma after_ctx : forall os (s : lst), ls_ctx (after os s) = fc_run (ls_ctx s) os.
Proof. unfold after, fc_run. induction os as [|o os IH]; intro s; cbn; auto. now rewrite IH. Qed.

Lemma after_log : forall os (s : lst), ls_log (after os s) = ls_log s.
Proof. unfold after. induction os as [|o os IH]; intro s; cbn; auto. now rewrite IH. Qed.

Lemma after_changes : forall os (s : lst), ls_changes s <= ls_changes (after os s) /\
  (ls_changes (after os s) = ls_changes s <-> ~ Exists changes_listeners os).
Proof.
  unfold after. induction os as [|o os IH]; intro s; cbn.
  - split; auto. split; auto. intros _ H. inversion H.
  - destruct (IH (configure o s)) as [I1 I2]. rewrite Exists_cons.
    destruct o; cbn [configure ls_changes] in *; cbn [changes_listeners]; split; try lia; intuition lia.
Qed.

Lemma fc_run_app : forall (c : fctx L) os os', fc_run c (os ++ os') = fc_run (fc_run c os) os'.
Proof. unfold fc_run. intros. apply fold_left_app. Qed.

Section Config.
Variable ops : L -> list (fc_op L).
Variable e : E.

Lemma notify_conf : forall inner l (s : lst), (forall log, reaction log l e = map AConf (ops l)) ->
  notify inner l s e = Def (after (ops l) (mkLs (ls_ctx s) (ls_changes s) (ls_log s ++ [(l, e)])), None).
Proof.
  intros inner l s H. unfold Listeners.notify. rewrite H, <- (app_nil_r (map AConf (ops l))), perform_conf. reflexivity.
Qed.

Lemma fire_conf : forall inner ls (s : lst), (forall l log, In l ls -> reaction log l e = map AConf (ops l)) ->
  (forall l, In l ls -> ~ Exists changes_listeners (ops l)) ->
  exists s', fire inner ls (ls_changes s) s e = Def (s', None) /\
    ls_ctx s' = fc_run (ls_ctx s) (concat (map ops ls)) /\ ls_changes s' = ls_changes s /\
    ls_log s' = ls_log s ++ map (fun l => (l, e)) ls.
Proof.
  intros inner ls. induction ls as [|l ls IH]; intros s H N; cbn [Listeners.fire map concat].
  - exists s. rewrite app_nil_r. auto.
  - rewrite notify_conf by (intro; apply H; now left). cbn [obind].
    set (s1 := after (ops l) _). assert (C1 : ls_changes s1 = ls_changes s).
    { apply (proj2 (proj2 (after_changes (ops l) (mkLs (ls_ctx s) (ls_changes s) (ls_log s ++ [(l, e)]))))). apply N. now left. }
    rewrite C1, Nat.eqb_refl. destruct (IH s1) as (s2 & F & C & CH & LG); [intros; apply H; now right|intros; apply N; now right|].
    rewrite C1 in F. exists s2. split; auto. rewrite C, CH, LG. unfold s1. rewrite after_ctx, after_log. cbn.
    rewrite fc_run_app, <- app_assoc. auto.
Qed.

Lemma fire_conf_ub : forall inner ls before (s : lst), (forall l log, In l ls -> reaction log l e = map AConf (ops l)) ->
  before <= ls_changes s -> (exists l, In l ls /\ Exists changes_listeners (ops l)) ->
  fire inner ls before s e = UB.
Proof.
  intros inner ls. induction ls as [|l ls IH]; intros before s H B (k & I & K); [destruct I|]. cbn [Listeners.fire].
  rewrite notify_conf by (intro; apply H; now left). cbn [obind].
  set (s1 := after (ops l) _). destruct (after_changes (ops l) (mkLs (ls_ctx s) (ls_changes s) (ls_log s ++ [(l, e)]))) as [A1 A2].
  fold s1 in A1, A2. cbn in A1, A2.
  destruct (Nat.eqb_spec (ls_changes s1) before) as [Q|Q]; auto.
  apply IH; [intros; apply H; now right|lia|]. destruct I as [<-|I]; [|eauto].
  exfalso. assert (ls_changes s1 = ls_changes s) by lia. tauto.
Qed.
End Config.

Theorem listeners_configure : forall (ops : L -> list (fc_op L)) (throws : option X) (e : E) (s : lst) (fuel : nat),
  let ls := fc_listeners (ls_ctx s) in
  let c := fc_run (ls_ctx s) (concat (map ops ls)) in
  let a := getTestingFrameworkAdapter builtin c in
  (forall l log, In l ls -> reaction log l e = map AConf (ops l)) ->
  (forall l, In l ls -> ~ Exists changes_listeners (ops l)) ->
  (forall log, reaction log a e = map AConf (ops a) ++ match throws with Some x => [AThrow x] | None => [] end) ->
  exists n, deliver (S fuel) s e =
    Def (mkLs (fc_run c (ops a)) n (ls_log s ++ map (fun l => (l, e)) (ls ++ [a])), throws).
Proof.
  intros ops throws e s fuel ls c a H N A. cbn [Listeners.deliver]. unfold deliver_body.
  destruct (fire_conf ops e (deliver fuel) ls s H N) as (s1 & F & C & CH & LG). fold ls. rewrite F. cbn [obind].
  unfold Listeners.notify. rewrite C. fold c a. rewrite A, perform_conf.
  set (s2 := after (ops a) _). exists (ls_changes s2).
  assert (Q : s2 = mkLs (fc_run c (ops a)) (ls_changes s2) (ls_log s ++ map (fun l => (l, e)) (ls ++ [a]))).
  { destruct s2 as [c2 n2 l2] eqn:E2.
    assert (ls_ctx s2 = fc_run c (ops a)) as Q1 by (unfold s2; rewrite after_ctx; cbn; reflexivity).
    assert (ls_log s2 = ls_log s ++ map (fun l => (l, e)) (ls ++ [a])) as Q2
      by (unfold s2; rewrite after_log; cbn; rewrite LG, map_app, <- app_assoc; reflexivity).
    rewrite E2 in Q1, Q2. cbn in *. congruence. }
  rewrite Q at 1. destruct throws; cbn; now rewrite Q at 1.
Qed.

Theorem listeners_registered : forall (ops : L -> list (fc_op L)) (e : E) (s : lst) (fuel : nat),
  (forall l log, In l (fc_listeners (ls_ctx s)) -> reaction log l e = map AConf (ops l)) ->
  (exists l, In l (fc_listeners (ls_ctx s)) /\ Exists changes_listeners (ops l)) ->
  deliver (S fuel) s e = UB.
Proof.
  intros ops e s fuel H X'. cbn [Listeners.deliver]. unfold deliver_body. rewrite (fire_conf_ub ops e); auto.
Qed.

Lemma fire_app : forall inner pre post before (s s' : lst) e,
  fire inner pre before s e = Def (s', None) -> fire inner (pre ++ post) before s e = fire inner post before s' e.
Proof.
  intros inner pre. induction pre as [|l pre IH]; intros post before s s' e H; cbn [Listeners.fire app] in *; [congruence|].
  destruct (notify inner l s e) as [[s1 [x|]]| |]; cbn [obind] in *; try discriminate.
  destruct (ls_changes s1 =? before); [now apply IH|discriminate].
Qed.

Theorem listener_throws : forall (ops : L -> list (fc_op L)) (e : E) (s : lst) (fuel : nat) pre l post x,
  fc_listeners (ls_ctx s) = pre ++ l :: post ->
  (forall k log, In k pre -> reaction log k e = map AConf (ops k)) ->
  (forall k, In k pre -> ~ Exists changes_listeners (ops k)) ->
  (forall log, reaction log l e = map AConf (ops l) ++ [AThrow x]) ->
  exists n, deliver (S fuel) s e =
    Def (mkLs (fc_run (ls_ctx s) (concat (map ops (pre ++ [l])))) n (ls_log s ++ map (fun l => (l, e)) (pre ++ [l])), Some x).
Proof.
  intros ops e s fuel pre l post x LS H N A. cbn [Listeners.deliver]. unfold deliver_body. rewrite LS.
  destruct (fire_conf ops e (deliver fuel) pre s H N) as (s1 & F & C & CH & LG).
  rewrite (fire_app _ _ (l :: post) _ _ _ _ F). cbn [Listeners.fire]. unfold Listeners.notify at 1. rewrite A, perform_conf.
  cbn [perform obind]. set (s2 := after (ops l) _). exists (ls_changes s2).
  assert (Q1 : ls_ctx s2 = fc_run (ls_ctx s) (concat (map ops (pre ++ [l])))).
  { unfold s2. rewrite after_ctx, map_app, concat_app, fc_run_app, <- C. cbn. now rewrite app_nil_r. }
  assert (Q2 : ls_log s2 = ls_log s ++ map (fun l => (l, e)) (pre ++ [l])).
  { unfold s2. rewrite after_log. cbn. now rewrite LG, map_app, <- app_assoc. }
  rewrite <- Q1, <- Q2. now destruct s2.
Qed.

(** A handler that does not catch what an event raised by it ends with. *)
Theorem listener_uncaught : forall (e e' : E) (s s' : lst) (fuel : nat) pre l post rest x,
  fc_listeners (ls_ctx s) = pre ++ l :: post ->
  (forall k log, In k pre -> reaction log k e = []) ->
  (forall log, reaction log l e = AEvent e' false :: rest) ->
  deliver fuel (mkLs (ls_ctx s) (ls_changes s) (ls_log s ++ map (fun k => (k, e)) (pre ++ [l]))) e' = Def (s', Some x) ->
  deliver (S fuel) s e = Def (s', Some x).
Proof.
  intros e e' s s' fuel pre l post rest x LS H A D. cbn [Listeners.deliver]. unfold deliver_body. rewrite LS.
  destruct (fire_conf (fun _ => []) e (deliver fuel) pre s H) as (s1 & F & C & CH & LG).
  { intros k _ I. inversion I. }
  rewrite (fire_app _ _ (l :: post) _ _ _ _ F). cbn [Listeners.fire]. unfold Listeners.notify at 1. rewrite A.
  assert (C' : ls_ctx s1 = ls_ctx s).
  { rewrite C. clear. induction pre; auto. }
  cbn [perform]. rewrite C', CH, LG, <- app_assoc. rewrite map_app in D. cbn [map] in D. rewrite D. reflexivity.
Qed.

(** *** Events from inside *)

Section Nested.
Variable rank : E -> nat.
Variable ctx : fctx L.
Local Notation ls := (fc_listeners ctx).
Local Notation a := (getTestingFrameworkAdapter builtin ctx).
Hypothesis down : forall log l e, In l ls -> Forall (calls_down rank e) (reaction log l e).
Hypothesis adapter : forall log e, Forall (calls_down_or_throws rank e) (reaction log a e).

(** What delivering [e] adds to the log. *)
Definition told (e : E) (s s' : lst) : Prop :=
  ls_ctx s' = ctx /\ ls_changes s' = ls_changes s /\
  exists more, ls_log s' = ls_log s ++ more /\ of_rank rank e more = map (fun l => (l, e)) (ls ++ [a]) /\
    Forall (fun p => rank (snd p) <= rank e) more.

Lemma perform_down : forall inner e (acts : list (act E L X)) (s : lst), ls_ctx s = ctx ->
  (forall e' s, rank e' < rank e -> ls_ctx s = ctx -> exists s' x, inner s e' = Def (s', x) /\ told e' s s') ->
  Forall (calls_down_or_throws rank e) acts ->
  exists s' x, perform inner acts s = Def (s', x) /\ ls_ctx s' = ctx /\ ls_changes s' = ls_changes s /\
    (Forall (calls_down rank e) acts -> x = None) /\
    exists more, ls_log s' = ls_log s ++ more /\ Forall (fun p => rank (snd p) < rank e) more.
Proof.
  intros inner e acts. induction acts as [|t acts IH]; intros s C IN F; cbn [perform].
  - exists s, None. repeat split; auto. exists []. rewrite app_nil_r. auto.
  - inversion F as [|? ? Ft Fr]; subst. destruct Ft as [(e' & -> & R)|[x ->]].
    + destruct (IN e' s R C) as (s1 & x1 & E1 & C1 & CH1 & more1 & L1 & _ & F1). rewrite E1. cbn [obind].
      destruct (IH s1 C1 IN Fr) as (s2 & x2 & E2 & C2 & CH2 & T2 & more2 & L2 & F2).
      exists s2, x2. split; [destruct x1; exact E2|]. split; auto. split; [congruence|]. split.
      * intro D. inversion D; auto.
      * exists (more1 ++ more2). rewrite L2, L1, app_assoc. split; auto. apply Forall_app. split; auto.
        eapply Forall_impl; [|exact F1]. cbn. intros. lia.
    + exists s, (Some x). repeat split; auto.
      * intro D. inversion D as [|? ? (e' & Q & _) _]. discriminate.
      * exists []. rewrite app_nil_r. auto.
Qed.

Lemma of_rank_lower : forall e (more : list (L * E)), Forall (fun p => rank (snd p) < rank e) more -> of_rank rank e more = [].
Proof.
  intros e more H. induction H as [|p more P H IH]; cbn; auto. destruct (Nat.eqb_spec (rank (snd p)) (rank e)); [lia|auto].
Qed.

Lemma of_rank_app : forall e (l l' : list (L * E)), of_rank rank e (l ++ l') = of_rank rank e l ++ of_rank rank e l'.
Proof. intros. unfold of_rank. apply filter_app. Qed.

Lemma of_rank_one : forall e (l : L), of_rank rank e [(l, e)] = [(l, e)].
Proof. intros. cbn. now rewrite Nat.eqb_refl. Qed.

Lemma notify_down : forall inner e l (s : lst), ls_ctx s = ctx ->
  (forall e' s, rank e' < rank e -> ls_ctx s = ctx -> exists s' x, inner s e' = Def (s', x) /\ told e' s s') ->
  Forall (calls_down_or_throws rank e) (reaction (ls_log s) l e) ->
  exists s' x, notify inner l s e = Def (s', x) /\ ls_ctx s' = ctx /\ ls_changes s' = ls_changes s /\
    (Forall (calls_down rank e) (reaction (ls_log s) l e) -> x = None) /\
    exists more, ls_log s' = ls_log s ++ more /\ of_rank rank e more = [(l, e)] /\ Forall (fun p => rank (snd p) <= rank e) more.
Proof.
  intros inner e l s C IN F. unfold Listeners.notify.
  destruct (perform_down inner e _ (mkLs (ls_ctx s) (ls_changes s) (ls_log s ++ [(l, e)])) C IN F) as (s1 & x & E1 & C1 & CH1 & T1 & more & L1 & F1).
  exists s1, x. split; auto. split; auto. split; auto. split; auto. exists ((l, e) :: more). cbn in L1. rewrite L1, <- app_assoc. split; auto.
  split.
  - change ((l, e) :: more) with ([(l, e)] ++ more). rewrite of_rank_app, of_rank_one, of_rank_lower; auto.
  - constructor; [cbn; lia|]. eapply Forall_impl; [|exact F1]. cbn. intros. lia.
Qed.

Lemma fire_down : forall inner e ks (s : lst), ls_ctx s = ctx -> incl ks ls ->
  (forall e' s, rank e' < rank e -> ls_ctx s = ctx -> exists s' x, inner s e' = Def (s', x) /\ told e' s s') ->
  exists s', fire inner ks (ls_changes s) s e = Def (s', None) /\ ls_ctx s' = ctx /\ ls_changes s' = ls_changes s /\
    exists more, ls_log s' = ls_log s ++ more /\ of_rank rank e more = map (fun l => (l, e)) ks /\
      Forall (fun p => rank (snd p) <= rank e) more.
Proof.
  intros inner e ks. induction ks as [|l ks IH]; intros s C I IN; cbn [Listeners.fire].
  - exists s. repeat split; auto. exists []. rewrite app_nil_r. auto.
  - assert (D : Forall (calls_down rank e) (reaction (ls_log s) l e)) by (apply down; apply I; now left).
    destruct (notify_down inner e l s C IN) as (s1 & x & E1 & C1 & CH1 & T1 & more1 & L1 & R1 & F1).
    { eapply Forall_impl; [|exact D]. intros t T. now left. }
    rewrite E1. cbn [obind]. rewrite (T1 D), CH1, Nat.eqb_refl.
    destruct (IH s1 C1 ltac:(intros k K; apply I; now right) IN) as (s2 & E2 & C2 & CH2 & more2 & L2 & R2 & F2).
    rewrite CH1 in E2. exists s2. split; auto. split; auto. split; [congruence|]. exists (more1 ++ more2).
    rewrite L2, L1, app_assoc. split; auto. rewrite of_rank_app, R1, R2. split; auto. now apply Forall_app.
Qed.

Lemma deliver_down : forall fuel e (s : lst), rank e < fuel -> ls_ctx s = ctx ->
  exists s' x, deliver fuel s e = Def (s', x) /\ told e s s'.
Proof.
  induction fuel as [|fuel IH]; intros e s R C; [lia|]. cbn [Listeners.deliver]. unfold deliver_body.
  assert (IN : forall e' s, rank e' < rank e -> ls_ctx s = ctx -> exists s' x, deliver fuel s e' = Def (s', x) /\ told e' s s')
    by (intros e' s0 R' C0; apply IH; auto; lia).
  rewrite C. destruct (fire_down (deliver fuel) e ls s C (incl_refl _) IN) as (s1 & E1 & C1 & CH1 & more1 & L1 & R1 & F1).
  rewrite E1. cbn [obind]. rewrite C1.
  destruct (notify_down (deliver fuel) e a s1 C1 IN (adapter _ _)) as (s2 & x & E2 & C2 & CH2 & _ & more2 & L2 & R2 & F2).
  exists s2, x. split; auto. split; auto. split; [congruence|]. exists (more1 ++ more2). rewrite L2, L1, app_assoc. split; auto.
  rewrite of_rank_app, R1, R2, map_app. split; auto. now apply Forall_app.
Qed.
End Nested.

Theorem listeners_raise : forall (rank : E -> nat) (s : lst) (e : E) (fuel : nat),
  let ls := fc_listeners (ls_ctx s) in
  let a := getTestingFrameworkAdapter builtin (ls_ctx s) in
  (forall log l e, In l ls -> Forall (calls_down rank e) (reaction log l e)) ->
  (forall log e, Forall (calls_down_or_throws rank e) (reaction log a e)) ->
  rank e < fuel ->
  exists s' x more, deliver fuel s e = Def (s', x) /\ ls_ctx s' = ls_ctx s /\ ls_log s' = ls_log s ++ more /\
    of_rank rank e more = map (fun l => (l, e)) (ls ++ [a]) /\ Forall (fun p => rank (snd p) <= rank e) more.
Proof.
  intros rank s e fuel ls a D A F.
  destruct (deliver_down rank (ls_ctx s) D A fuel e s F eq_refl) as (s' & x & E1 & C & _ & more & R).
  exists s', x, more. tauto.
Qed.

(** A listener that raises the event it is notified of never comes back. *)
Theorem listener_forever : forall (e : E) (l : L) (caught : bool) (rest : list (act E L X)) (fuel : nat) (s : lst) (post : list L),
  (forall log, reaction log l e = AEvent e caught :: rest) -> fc_listeners (ls_ctx s) = l :: post ->
  deliver fuel s e = NoFuel.
Proof.
  intros e l caught rest fuel. induction fuel as [|fuel IH]; intros s post H C; auto.
  cbn [Listeners.deliver]. unfold deliver_body. rewrite C. cbn [Listeners.fire]. unfold Listeners.notify at 1. rewrite H. cbn [perform].
  rewrite (IH _ post H); auto.
Qed.
End Proofs.
