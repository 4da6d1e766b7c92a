(** Verification objects in the world model: what a check does to the invocations
    and to the log. *)
From Coq Require Import Bool ZArith Lia List.
From Verif Require Import Base CInt Values Sequences MatchAnalysis SortInv Events Expectation Syntax World.
Import ListNotations.
Open Scope nat_scope.

Lemma mark_all_spec : forall l w,
  match mark_all l w with
  | RVal w' _ => w_log w' = w_log w /\ length (w_invs w') = length (w_invs w) /\
      forall i x, nth_error (w_invs w) i = Some x ->
        nth_error (w_invs w') i =
          Some (if existsb (Nat.eqb i) l
                then mkInv (iv_ord x) (iv_method x) (iv_ret x) (iv_args x) (iv_matcher x) true
                else x)
  | RExn _ _ => False
  | _ => True
  end.
Proof.
  induction l as [|j l IH]; intro w; cbn [mark_all].
  - cbn. split; [|split]; auto.
  - unfold bind at 1. unfold get_inv, gets, bind at 1.
    destruct (nth_error (w_invs w) j) as [y|] eqn:Y; [|exact I]. unfold ret at 1.
    unfold bind, put_inv, modify.
    set (w1 := set_invs w (upd (w_invs w) j (mkInv (iv_ord y) (iv_method y) (iv_ret y) (iv_args y) (iv_matcher y) true))).
    specialize (IH w1). destruct (mark_all l w1) as [w' []| | |]; auto.
    destruct IH as (L & N & IH). split; [exact L|]. split.
    { rewrite N. unfold w1; cbn. apply upd_length. }
    intros i x X. cbn [existsb].
    assert (Lj : j < length (w_invs w)) by (eapply nth_error_Some_lt; eauto).
    destruct (Nat.eqb_spec i j) as [->|NE].
    + assert (x = y) by congruence. subst y.
      rewrite (IH j (mkInv (iv_ord x) (iv_method x) (iv_ret x) (iv_args x) (iv_matcher x) true)).
      * cbn. now destruct (existsb (Nat.eqb j) l).
      * unfold w1; cbn. now apply nth_error_upd_same.
    + cbn [orb]. apply IH. unfold w1; cbn. rewrite nth_error_upd_other by auto. exact X.
Qed.

Lemma handle_event_spec : forall E e w,
  match handle_event E e w with
  | RVal w' _ | RExn w' _ => w_invs w' = w_invs w /\ exists d, d <> [] /\ w_log w' = w_log w ++ d
  | _ => False
  end.
Proof.
  intros E e w. unfold handle_event, bind, gets, modify.
  destruct (ctx_handle (e_react E) (e_builtin E) (w_fctx w) e) as [done x] eqn:H.
  assert (D : done <> []).
  { unfold ctx_handle in H. destruct (fireEvent (e_react E) (fc_listeners (w_fctx w)) e) as [d y] eqn:F.
    destruct y as [y|].
    - inversion H; subst. destruct (fc_listeners (w_fctx w)) as [|l ls]; cbn in F; [discriminate|].
      destruct (e_react E l e); [inversion F; discriminate|].
      destruct (fireEvent (e_react E) ls e); inversion F; discriminate.
    - inversion H; subst. intro K. now apply app_eq_nil in K as [_ K]. }
  assert (D' : map (fun l => (l, e)) done <> []) by (intro K; apply map_eq_nil in K; contradiction).
  destruct x; cbn; split; eauto.
Qed.

(** A check that fails (throws, or hands an event to somebody) marks nothing. *)
Lemma verify_exp_fails : forall E x q w,
  match verify_exp E x q w with
  | RVal w' _ => w_log w' <> w_log w -> w_invs w' = w_invs w
  | RExn w' _ => w_invs w' = w_invs w
  | _ => True
  end.
Proof.
  intros E x q w. unfold verify_exp. unfold bind at 1. unfold get_exp, gets, bind at 1.
  unfold hget. destruct (nth_error (w_exps w) x) as [[e|]|]; try exact I. unfold ret at 1.
  assert (REP : forall w1 ev, w_invs w1 = w_invs w -> w_log w1 = w_log w ->
    match report E q ev w1 with
    | RVal w' _ => w_log w' <> w_log w -> w_invs w' = w_invs w
    | RExn w' _ => w_invs w' = w_invs w
    | _ => True
    end).
  { intros w1 ev H1 H2. unfold report. destruct q; [exact H1|].
    pose proof (handle_event_spec E ev w1) as S. destruct (handle_event E ev w1); auto; destruct S as [S _]; congruence. }
  destruct e as [unv l p ex|l d].
  - destruct (ex_done ex); [cbn; congruence|].
    unfold bind, put_exp, modify, gets, lift.
    match goal with |- context [analyse E ?w1 _ _ _] => set (w2 := w1) end.
    destruct (analyse E w2 unv l p) as [[[actual count] matched]| |]; auto.
    destruct (decide _ count) as [v| |]; auto.
    destruct v as [|t n a].
    + pose proof (mark_all_spec matched w2) as MA. destruct (mark_all matched w2) as [w' []|w' e0| |]; auto.
      * destruct MA as (L & _). intro K. rewrite L in K. now contradiction K.
      * contradiction.
    + now apply REP.
  - destruct d; [cbn; congruence|].
    unfold bind, put_exp, modify, gets, lift.
    match goal with |- context [sources_invs E ?w1 _ _] => set (w2 := w1) end.
    destruct (sources_invs E w2 l []) as [all| |]; auto.
    destruct (selectNonVerifiedInvocations _ _ _ _ _); [cbn; congruence|].
    now apply REP.
Qed.

(** A conversion to bool says nothing to anybody; false marks nothing. *)
Lemma verify_exp_quiet : forall E x w,
  match verify_exp E x true w with
  | RVal w' _ => w_log w' = w_log w
  | RExn w' e => w_log w' = w_log w /\ w_invs w' = w_invs w /\ e = XFalse
  | _ => True
  end.
Proof.
  intros E x w. unfold verify_exp. unfold bind at 1. unfold get_exp, gets, bind at 1.
  unfold hget. destruct (nth_error (w_exps w) x) as [[e|]|]; try exact I. unfold ret at 1.
  destruct e as [unv l p ex|l d].
  - destruct (ex_done ex); [reflexivity|].
    unfold bind, put_exp, modify, gets, lift.
    match goal with |- context [analyse E ?w1 _ _ _] => set (w2 := w1) end.
    destruct (analyse E w2 unv l p) as [[[actual count] matched]| |]; auto.
    destruct (decide _ count) as [v| |]; auto.
    destruct v as [|t n a].
    + pose proof (mark_all_spec matched w2) as MA. destruct (mark_all matched w2) as [w' []|w' e0| |]; auto.
      * destruct MA as (L & _). exact L.
      * contradiction.
    + cbn. auto.
  - destruct d; [reflexivity|].
    unfold bind, put_exp, modify, gets, lift.
    match goal with |- context [sources_invs E ?w1 _ _] => set (w2 := w1) end.
    destruct (sources_invs E w2 l []) as [all| |]; auto.
    destruct (selectNonVerifiedInvocations _ _ _ _ _); cbn; auto.
Qed.

Lemma exec_bool : forall E f x w,
  match exec E (S f) (OBool x) w with
  | RVal w' v => w_log w' = w_log w /\ (v = VBool true \/ (v = VBool false /\ w_invs w' = w_invs w))
  | RExn _ _ => False
  | _ => True
  end.
Proof.
  intros E f x w. cbn [exec step]. unfold exp_bool, bind, attempt.
  pose proof (verify_exp_quiet E x w) as H. destruct (verify_exp E x true w) as [w' []|w' e| |]; auto.
  - cbn. auto.
  - destruct H as (H1 & H2 & ->). cbn. auto.
Qed.

Lemma free_exp_spec : forall x w,
  match free_exp x w with
  | RVal w' _ => w_invs w' = w_invs w /\ w_log w' = w_log w
  | RExn _ _ => False
  | _ => True
  end.
Proof.
  intros x w. unfold free_exp, bind, get_exp, gets, bind, hget.
  destruct (nth_error (w_exps w) x) as [[e|]|]; cbn; auto.
Qed.

Lemma exec_expfree : forall E f x w,
  match exec E (S f) (OExpFree x) w with
  | RVal w' _ => w_log w' <> w_log w -> w_invs w' = w_invs w
  | RExn w' _ => w_invs w' = w_invs w
  | _ => True
  end.
Proof.
  intros E f x w. cbn [exec step]. unfold unit_val, exp_free, guarded, bind, attempt, gets.
  destruct (Nat.eqb (w_uncaught w) 0).
  - pose proof (verify_exp_fails E x false w) as H. destruct (verify_exp E x false w) as [w1 []|w1 e| |]; auto.
    + pose proof (free_exp_spec x w1) as F. destruct (free_exp x w1) as [w2 []|w2 e| |]; cbn in *; auto.
      * destruct F as [F1 F2]. intro K. rewrite F1. apply H. congruence.
      * contradiction.
    + pose proof (free_exp_spec x w1) as F. destruct (free_exp x w1) as [w2 []|w2 e'| |]; cbn in *; auto.
      * destruct F as [F1 F2]. congruence.
      * contradiction.
  - cbn. pose proof (free_exp_spec x w) as F. destruct (free_exp x w) as [w2 []|w2 e'| |]; cbn in *; auto.
    + intro; tauto.
    + contradiction.
Qed.
