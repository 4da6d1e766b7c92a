(** C89: the temporary objects of a statement are gone when it is over.  Models no code. *)
From Coq Require Import Bool ZArith Lia List.
From Verif Require Import Base CInt Values InvMatchers ActionSeq Sequences VTable Proxy Events
  Expectation Ordinals Syntax World WorldLogic Spec_Leaks LeakProofs WorldLeaks.
Import ListNotations.
Open Scope nat_scope.

(** Neither the expressions nor the verifications change. *)
Definition keep_held (w w' : world) : Prop := w_ctxs w' = w_ctxs w /\ w_exps w' = w_exps w.
Lemma kh_refl : forall w, keep_held w w. Proof. split; reflexivity. Qed.
Lemma kh_trans : forall a b c, keep_held a b -> keep_held b c -> keep_held a c.
Proof. intros a b c [A B] [C D]. split; congruence. Qed.

Create HintDb kh.
Ltac kh_core :=
  intros;
  lazymatch goal with
  | |- pres keep_held (ret _) => apply pres_ret; exact kh_refl
  | |- pres keep_held (throw _) => apply pres_throw; exact kh_refl
  | |- pres keep_held ub => apply pres_ub
  | |- pres keep_held none => apply pres_none
  | |- pres keep_held (gets _) => apply pres_gets; exact kh_refl
  | |- pres keep_held (lift _) => apply pres_lift; exact kh_refl
  | |- pres keep_held (hget _ _) => apply pres_hget; exact kh_refl
  | |- pres keep_held (rethrow _) => apply pres_rethrow; exact kh_refl
  | |- pres keep_held (modify _) => solve [apply pres_modify; split; reflexivity]
  | |- pres keep_held (bind _ _) => apply pres_bind; [exact kh_trans| |]
  | |- pres keep_held (attempt _) => apply pres_attempt
  | |- pres keep_held (guarded _ _) => apply pres_guarded; [exact kh_refl|exact kh_trans| |]
  | |- pres keep_held (match ?x with _ => _ end) => destruct x
  end.
Ltac kh_tac := repeat first [ solve [auto with kh] | kh_core ].
Local Ltac go d := intros; unfold d; kh_tac.
Local Notation kh := (pres keep_held).

Lemma kh_getRecorded : forall E t, kh (getRecordedMethodBody E t).
Proof.
  intros E t. unfold getRecordedMethodBody, ensure_bound, get_mock, class_of, nextMethodOrdinal, new_body, put_mock,
    fake_setDtor, fake_setMethod, obj_table, get_obj, get_table, put_table. kh_tac.
Qed.
Lemma kh_append : forall c a, kh (ctx_append c a).
Proof. intros c a. unfold ctx_append, get_ctx, get_seq, put_seq. kh_tac. Qed.
Lemma kh_append_all : forall c rs, kh (append_all c rs).
Proof. induction rs as [|r rs IH]; cbn [append_all]; [kh_tac|]. apply pres_bind; [exact kh_trans|apply kh_append|]. intros _. exact IH. Qed.
Lemma kh_free_seq : forall s, kh (free_seq s). Proof. intro s. unfold free_seq, get_seq, put_seq. kh_tac. Qed.
Lemma kh_free_matcher : forall s, kh (free_matcher s). Proof. intro s. unfold free_matcher, get_matcher. kh_tac. Qed.
Lemma kh_get_ctx : forall c, kh (get_ctx c). Proof. go get_ctx. Qed.
Lemma kh_get_mock : forall c, kh (get_mock c). Proof. go get_mock. Qed.
Lemma kh_get_exp : forall c, kh (get_exp c). Proof. go get_exp. Qed.
Lemma kh_get_body : forall c, kh (get_body c). Proof. go get_body. Qed.
Lemma kh_put_body : forall c x, kh (put_body c x). Proof. go put_body. Qed.
Lemma kh_new_seq : forall x, kh (new_seq x). Proof. go new_seq. Qed.
Lemma kh_new_matcher : forall x, kh (new_matcher x). Proof. go new_matcher. Qed.
Lemma kh_mark_all : forall l, kh (mark_all l).
Proof. induction l as [|i l IH]; cbn [mark_all]; [kh_tac|]. unfold get_inv, put_inv. kh_tac. Qed.
Lemma kh_handle_event : forall E e, kh (handle_event E e). Proof. go handle_event. Qed.
#[export] Hint Resolve kh_getRecorded kh_append kh_append_all kh_free_seq kh_free_matcher kh_get_ctx kh_get_mock kh_get_exp
  kh_get_body kh_put_body kh_new_seq kh_new_matcher kh_mark_all kh_handle_event : kh.
Lemma kh_report : forall E q e, kh (report E q e). Proof. go report. Qed.
Lemma kh_involved : forall cs, kh (involved cs). Proof. induction cs; cbn [involved]; kh_tac. Qed.
#[export] Hint Resolve kh_report kh_involved : kh.

(** What does not change these keeps what is known of them. *)
Lemma kh_tri : forall A (m : M A) (P : world -> Prop), kh m -> (forall w w', keep_held w w' -> P w -> P w') ->
  tri P m (fun _ => P) P.
Proof. intros A m P K HP w H. specialize (K w). unfold presw in K. destruct (m w); auto; eapply HP; eauto. Qed.

(** ** The expressions of a statement *)
Section Temps.
Variable w0 : world.
Local Notation base := (length (w_ctxs w0)).

(** [l]: the expressions of the statement that are still there. *)
Definition temps (l : list nat) (w : world) : Prop :=
  (forall c, c < base -> nth_error (w_ctxs w) c = nth_error (w_ctxs w0) c) /\ base <= length (w_ctxs w) /\
  (forall c x, base <= c -> live_expression w c x -> In c l) /\ Forall (le base) l.
Definition exps0 (w : world) : Prop := forall x, live_verification w x <-> live_verification w0 x.
Definition tm (l : list nat) (w : world) : Prop := temps l w /\ exps0 w.

Lemma tm_keep : forall l w w', keep_held w w' -> tm l w -> tm l w'.
Proof. intros l w w' [A B] H. unfold tm, temps, exps0, live_expression, live_verification in *. rewrite A, B. exact H. Qed.
Lemma tm_kh : forall A (m : M A) l, kh m -> tri (tm l) m (fun _ => tm l) (tm l).
Proof. intros A m l K. apply kh_tri; [exact K|]. intros w w'. apply tm_keep. Qed.

Lemma tm_put : forall c x l, In c l -> tri (tm l) (put_ctx c x) (fun _ => tm l) (tm l).
Proof.
  intros c x l C. unfold put_ctx. apply wp_last. intros w ((A & B & D & F) & G).
  assert (Lc : base <= c) by (rewrite Forall_forall in F; auto).
  split; [split; [|split; [|split; [|exact F]]]|exact G]; cbn.
  - intros d Ld. rewrite nth_error_upd_other by lia. auto.
  - now rewrite upd_length.
  - intros d y Ld L. unfold live_expression in L. cbn in L. rewrite nth_error_upd in L. destruct (Nat.eqb_spec c d) as [->|N]; [exact C|].
    exact (D d y Ld L).
Qed.
Lemma tm_drop : forall c l w, tm (c :: l) w -> tm l (set_ctxs w (upd (w_ctxs w) c None)).
Proof.
  intros c l w ((A & B & D & F) & G). inversion F as [|c' l' Lc Fl]; subst.
  split; [split; [|split; [|split; [|exact Fl]]]|exact G]; cbn.
  - intros d Ld. rewrite nth_error_upd_other by lia. auto.
  - now rewrite upd_length.
  - intros d y Ld L. unfold live_expression in L. cbn in L. rewrite nth_error_upd in L. destruct (Nat.eqb_spec c d) as [->|N].
    + destruct (Nat.ltb d (length (w_ctxs w))); discriminate.
    + destruct (D d y Ld L) as [E|E]; [congruence|exact E].
Qed.
Lemma tm_free : forall c l X, tri (tm (c :: l)) (ctx_free c) (fun _ => tm l) X.
Proof.
  intros c l X. unfold ctx_free. apply wp_get_ctx. intro x. eapply wp_mod with (P' := tm l).
  { intros w (_ & H). now apply tm_drop. }
  intros w H. 
  destruct (cx_committed x); [exact H|].
  assert (K : kh (let* _ := free_seq (cx_seq x) in free_matcher (cx_matcher x))) by kh_tac.
  pose proof (tm_kh _ _ l K w H) as T.
  assert (N : forall w' e, (let* _ := free_seq (cx_seq x) in free_matcher (cx_matcher x)) w <> RExn w' e).
  { intros w' e. unfold free_seq, free_matcher, get_seq, get_matcher, hget, gets, put_seq, modify, bind. cbn.
    destruct (nth_error (w_seqs w) (cx_seq x)) as [q|]; cbn; [|discriminate]. destruct (sq_alive q); cbn; [|discriminate].
    destruct (nth_error (w_matchers w) (cx_matcher x)) as [[y|]|]; cbn; discriminate. }
  destruct (bind (free_seq (cx_seq x)) _ w) as [w1 a|w1 e| |] eqn:D; auto. destruct (N w1 e eq_refl).
Qed.
Lemma tm_free_all : forall l X, tri (tm l) (free_ctxs l) (fun _ => tm []) X.
Proof.
  induction l as [|c l IH]; intro X; cbn [free_ctxs]; [apply wp_ret; auto|].
  eapply tri_bind; [apply tm_free|]. intros []. apply IH.
Qed.
Lemma tm_new : forall E t l, tri (tm l) (ctx_new E t) (fun c => tm (c :: l)) (tm l).
Proof.
  intros E t l. unfold ctx_new.
  eapply tri_bind; [apply (tm_kh _ _ l); kh_tac|]. intro k.
  eapply tri_bind; [apply (tm_kh _ _ l); kh_tac|]. intro s.
  eapply tri_bind; [apply (tm_kh _ _ l); kh_tac|]. intro i.
  eapply tri_bind with (Q1 := fun c => tm (c :: l)).
  { unfold new_ctx. intros w ((A & B & D & F) & G). unfold bind, gets, modify, ret.
    split; [split; [|split; [|split]]|exact G]; cbn.
    - intros c L. rewrite nth_error_app1 by lia. auto.
    - rewrite app_length. lia.
    - intros c x Lc L. unfold live_expression in L. cbn in L. destruct (Nat.lt_ge_cases c (length (w_ctxs w))) as [H|H].
      + rewrite nth_error_app1 in L by exact H. right. exact (D c x Lc L).
      + left. apply nth_error_Some_lt in L. rewrite app_length in L. cbn in L. lia.
    - constructor; [exact B|exact F]. }
  intro c. intros w H. pose proof (tm_kh _ _ (c :: l) (kh_getRecorded E t) w H) as T.
  unfold bind, attempt. destruct (getRecordedMethodBody E t w) as [w1 b|w1 e| |]; auto.
  pose proof (tm_free c l (fun _ => True) w1 T) as F.
  assert (N : forall w' e', ctx_free c w1 <> RExn w' e').
  { intros w' e'. unfold ctx_free, get_ctx, free_seq, free_matcher, get_seq, get_matcher, hget, gets, put_seq, modify, bind. cbn.
    destruct (nth_error (w_ctxs w1) c) as [[x|]|]; cbn; try discriminate. destruct (cx_committed x); [discriminate|]. unfold ub, ret. cbn.
    destruct (nth_error (w_seqs w1) (cx_seq x)) as [q|]; cbn; [|discriminate]. destruct (sq_alive q); cbn; [|discriminate].
    destruct (nth_error (w_matchers w1) (cx_matcher x)) as [[y|]|]; cbn; discriminate. }
  destruct (ctx_free c w1) as [w2 []|w2 e2| |] eqn:D; auto. destruct (N w2 e2 eq_refl).
Qed.
Lemma tm_cond : forall c im l X, In c l -> tri (tm l) (ctx_cond c im) (fun _ => tm l) X.
Proof.
  intros c im l X C w H. unfold ctx_cond.
  assert (T : tri (tm l) (ctx_cond c im) (fun _ => tm l) (tm l)).
  { unfold ctx_cond. eapply tri_bind; [apply (tm_kh _ _ l); kh_tac|]. intro i.
    eapply tri_bind; [apply (tm_kh _ _ l); kh_tac|]. intro x.
    eapply tri_bind; [apply (tm_kh _ _ l); kh_tac|]. intros []. now apply tm_put. }
  specialize (T w H). unfold ctx_cond in T.
  assert (N : forall w' e', ctx_cond c im w <> RExn w' e').
  { intros w' e'. unfold ctx_cond, new_matcher, get_ctx, free_matcher, get_matcher, hget, gets, put_ctx, modify, ret, bind. cbn.
    destruct (nth_error (w_ctxs w) c) as [[x|]|]; cbn; try discriminate.
    destruct (nth_error (w_matchers w ++ [Some im]) (cx_matcher x)) as [[y|]|]; cbn; discriminate. }
  unfold ctx_cond in N.
  match goal with |- match ?r with _ => _ end => destruct r as [w1 a|w1 e| |] eqn:D end; auto.
  exfalso. exact (N w1 e eq_refl).
Qed.
Lemma tm_of : forall E t im l, tri (tm l) (ctx_of E t im) (fun c => tm (c :: l)) (tm l).
Proof.
  intros E t im l. unfold ctx_of. eapply tri_bind; [apply tm_new|]. intro c. cbv beta.
  destruct im as [im|]; [|apply wp_ret; auto].
  eapply tri_bind; [apply tm_cond; now left|]. intros []. apply wp_ret. auto.
Qed.
Lemma tm_commit : forall E c l, In c l -> tri (tm l) (ctx_commit E c) (fun _ => tm l) (tm l).
Proof.
  intros E c l C. unfold ctx_commit. eapply tri_bind; [apply (tm_kh _ _ l); kh_tac|]. intro x.
  eapply tri_bind; [apply (tm_kh _ _ l); kh_tac|]. intro b.
  eapply tri_bind; [apply (tm_kh _ _ l); kh_tac|]. intro bd.
  eapply tri_bind; [apply (tm_kh _ _ l); kh_tac|]. intros []. now apply tm_put.
Qed.

(** ** The verification of a statement *)
Definition one_exp (x : nat) (l : list nat) (w : world) : Prop :=
  temps l w /\ x < length (w_exps w) /\ (forall y, y <> x -> (live_verification w y <-> live_verification w0 y)) /\ ~ live_verification w0 x.
Lemma oe_keep : forall x l w w', keep_held w w' -> one_exp x l w -> one_exp x l w'.
Proof. intros x l w w' [A B] H. unfold one_exp, temps, live_expression, live_verification in *. rewrite A, B. exact H. Qed.
Lemma oe_kh : forall A (m : M A) x l, kh m -> tri (one_exp x l) m (fun _ => one_exp x l) (one_exp x l).
Proof. intros A m x l K. apply kh_tri; [exact K|]. intros w w'. apply oe_keep. Qed.
Lemma oe_put : forall x l e, tri (one_exp x l) (put_exp x e) (fun _ => one_exp x l) (one_exp x l).
Proof.
  intros x l e. unfold put_exp. apply wp_last. intros w (T & L & H & N). split; [exact T|split; [|split; [|exact N]]].
  - cbn. now rewrite upd_length.
  - intros y D. rewrite <- (H y D). unfold live_verification. cbn. rewrite nth_error_upd_other by congruence. reflexivity.
Qed.
Lemma oe_new : forall e l, tri (tm l) (new_exp e) (fun x => one_exp x l) (tm l).
Proof.
  intros e l. unfold new_exp. intros w (T & G). unfold bind, gets, modify, ret. split; [exact T|].
  assert (N : ~ live_verification w0 (length (w_exps w))).
  { rewrite <- (G (length (w_exps w))). intros (y & Y). apply nth_error_Some_lt in Y. lia. }
  split; [cbn; rewrite app_length; cbn; lia|split; [|exact N]].
  intros y D. rewrite <- (G y). unfold live_verification. cbn. split; intros (z & Z).
  - destruct (Nat.lt_ge_cases y (length (w_exps w))) as [H|H]; [rewrite nth_error_app1 in Z by exact H; now exists z|].
    apply nth_error_Some_lt in Z. rewrite app_length in Z. cbn in Z. lia.
  - exists z. rewrite nth_error_app1; [exact Z|]. eapply nth_error_Some_lt; eauto.
Qed.
Lemma oe_free : forall x l X, tri (one_exp x l) (free_exp x) (fun _ => tm l) X.
Proof.
  intros x l X w H. unfold free_exp, get_exp, hget, gets, bind, modify. cbn.
  destruct (nth_error (w_exps w) x) as [[e|]|]; cbn; auto. destruct H as (T & L & H & N). split; [exact T|].
  intro y. destruct (Nat.eq_dec y x) as [->|D].
  - split; [|intro Y; contradiction]. intros (z & Z). cbn in Z. rewrite nth_error_upd, Nat.eqb_refl in Z.
    destruct (Nat.ltb x (length (w_exps w))); discriminate.
  - rewrite <- (H y D). unfold live_verification. cbn. rewrite nth_error_upd_other by congruence. reflexivity.
Qed.
Lemma oe_verify : forall E x q l, tri (one_exp x l) (verify_exp E x q) (fun _ => one_exp x l) (one_exp x l).
Proof.
  intros E x q l. unfold verify_exp. eapply tri_bind; [apply (oe_kh _ _ x l); kh_tac|]. intros [unv s p ex|s d].
  - destruct (ex_done ex); [apply wp_ret; auto|]. cbv zeta. eapply tri_bind; [apply oe_put|]. intros []. apply (oe_kh _ _ x l). kh_tac.
  - destruct d; [apply wp_ret; auto|]. eapply tri_bind; [apply oe_put|]. intros []. apply (oe_kh _ _ x l). kh_tac.
Qed.
Lemma tri_attempt : forall A (m : M A) (P Q : world -> Prop) X, tri P m (fun _ => Q) Q -> tri P (attempt m) (fun _ => Q) X.
Proof. intros A m P Q X H w HP. specialize (H w HP). unfold attempt. destruct (m w); auto. Qed.
Lemma oe_bool : forall E x l, tri (one_exp x l) (exp_bool E x) (fun _ => one_exp x l) (one_exp x l).
Proof.
  intros E x l. unfold exp_bool. eapply tri_bind; [apply tri_attempt; apply oe_verify|]. intro r. apply (oe_kh _ _ x l). kh_tac.
Qed.
Lemma oe_quant : forall x q l, tri (one_exp x l) (exp_quant x q) (fun _ => one_exp x l) (one_exp x l).
Proof.
  intros x q l. unfold exp_quant. eapply tri_bind; [apply (oe_kh _ _ x l); kh_tac|]. intros [unv s p ex|s d]; [|apply wp_none].
  apply wp_lift. intros [ex'|] _; [apply oe_put|apply wp_throw; auto].
Qed.
Lemma oe_steps : forall E x steps last l, tri (one_exp x l) (run_steps E x steps last) (fun _ => one_exp x l) (one_exp x l).
Proof.
  intros E x steps. induction steps as [|[q|] steps IH]; intros last l; cbn [run_steps].
  - apply wp_ret. auto.
  - eapply tri_bind; [apply oe_quant|]. intros []. apply IH.
  - eapply tri_bind; [apply oe_bool|]. intro b. apply IH.
Qed.
Lemma tri_guarded : forall A (m : M A) f (P Q R : world -> Prop), tri P m (fun _ => Q) Q -> tri Q f (fun _ => R) R ->
  tri P (guarded m f) (fun _ => R) R.
Proof.
  intros A m f P Q R H F. unfold guarded. eapply tri_bind; [apply tri_attempt; exact H|]. intro r.
  eapply tri_bind; [exact F|]. intros []. destruct r; [apply wp_ret|apply wp_throw]; auto.
Qed.
Lemma oe_exp_free : forall E x l, tri (one_exp x l) (exp_free E x) (fun _ => tm l) (tm l).
Proof.
  intros E x l. unfold exp_free. apply wp_gets. intro u. apply tri_pre with (P' := one_exp x l); [intuition|].
  apply tri_guarded with (Q := one_exp x l); [|apply oe_free]. destruct (Nat.eqb u 0); [apply oe_verify|apply wp_ret; auto].
Qed.

Lemma tm_verify_stmt : forall E mk steps l, tri (tm l) mk (fun x => one_exp x l) (tm l) ->
  tri (tm l) (verify_stmt E mk steps) (fun _ => tm l) (tm l).
Proof.
  intros E mk steps l H. unfold verify_stmt. eapply tri_bind; [exact H|]. intro x. cbv beta.
  eapply tri_bind; [apply tri_attempt; apply oe_steps|]. intros [v|e]; cbv beta.
  - eapply tri_bind; [apply oe_exp_free|]. intros []. apply wp_ret. auto.
  - eapply tri_bind; [apply oe_free|]. intros []. apply wp_throw. auto.
Qed.
Lemma tm_exp_new_seq : forall s p l, tri (tm l) (exp_new_seq s p) (fun x => one_exp x l) (tm l).
Proof.
  intros s p l. unfold exp_new_seq. destruct (forallb seq_valid p); [|apply wp_throw; auto].
  destruct s; [| |apply oe_new]; (eapply tri_bind; [apply (tm_kh _ _ l); kh_tac|]; intro v; apply oe_new).
Qed.
Lemma tm_each : forall (f : nat -> M unit) cs l, (forall c, In c l -> tri (tm l) (f c) (fun _ => tm l) (tm l)) -> incl cs l ->
  tri (tm l) (each f cs) (fun _ => tm l) (tm l).
Proof.
  intros f cs l F. induction cs as [|c cs IH]; intro H; cbn [each]; [apply wp_ret; auto|].
  eapply tri_bind; [apply F; apply H; now left|]. intros []. apply IH. intros d D. apply H. now right.
Qed.
Lemma tm_run_stmt : forall E s cs l, incl cs l -> tri (tm l) (run_stmt E s cs) (fun _ => tm l) (tm l).
Proof.
  intros E s cs l Hl. destruct s as [rs interrupt| |fw|f|sc p steps|srcs steps]; cbn [run_stmt].
  - destruct cs as [|c [|]]; try apply wp_none. assert (C : In c l) by (apply Hl; now left).
    eapply tri_bind with (Q1 := fun _ => tm l); [|intros []; apply wp_ret; auto]. unfold do_when. destruct interrupt as [[k e]|].
    + apply (tm_kh _ _ l). kh_tac.
    + eapply tri_bind; [apply (tm_kh _ _ l); kh_tac|]. intros []. apply wp_gets. intro u. apply tri_pre with (P' := tm l); [intuition|].
      destruct (Nat.eqb u 0); [now apply tm_commit|apply wp_ret; auto].
  - eapply tri_bind; [apply tm_each; [|exact Hl]|intros []; apply wp_ret; auto].
    intros c C. unfold do_fake. eapply tri_bind; [apply (tm_kh _ _ l); kh_tac|]. intros []. now apply tm_commit.
  - eapply tri_bind; [apply tm_each; [|exact Hl]|intros []; apply wp_ret; auto].
    intros c C. unfold do_spy. eapply tri_bind; [apply (tm_kh _ _ l); kh_tac|]. intro x.
    eapply tri_bind; [apply (tm_kh _ _ l); kh_tac|]. intro g.
    eapply tri_bind; [apply (tm_kh _ _ l); kh_tac|]. intros []. now apply tm_commit.
  - destruct cs as [|c [|]]; try apply wp_none. assert (C : In c l) by (apply Hl; now left).
    eapply tri_bind with (Q1 := fun _ => tm l); [|intros []; apply wp_ret; auto].
    unfold do_assign. eapply tri_bind; [apply (tm_kh _ _ l); kh_tac|]. intros []. now apply tm_commit.
  - destruct (place_scope cs sc); [|apply wp_none]. destruct (place_all (place_seq cs) p); [|apply wp_none].
    apply tm_verify_stmt. apply tm_exp_new_seq.
  - destruct (place_all (place_source cs) srcs); [|apply wp_none]. apply tm_verify_stmt. apply oe_new.
Qed.
Lemma tm_with_ctxs : forall E s ts l, tri (tm l) (with_ctxs E ts l (run_stmt E s)) (fun _ => tm []) (tm []).
Proof.
  intros E s. induction ts as [|[t im] ts IH]; intro l; cbn [with_ctxs].
  - eapply tri_guarded; [apply tm_run_stmt|apply tm_free_all]. intros c C. now apply in_rev.
  - intros w H. pose proof (tm_of E t im l w H) as T. unfold bind, attempt.
    destruct (ctx_of E t im w) as [w1 c|w1 e| |]; auto; [now apply IH|].
    pose proof (tm_free_all l (tm []) w1 T) as F. destruct (free_ctxs l w1); auto.
Qed.
End Temps.

Lemma tm_start : forall w, tm w [] w.
Proof.
  intro w. split; [|intro x; reflexivity]. split; [auto|split; [lia|split; [|constructor]]].
  intros c x L H. apply nth_error_Some_lt in H. lia.
Qed.
Lemma tm_end : forall w w', tm w [] w' -> same_held w w'.
Proof.
  intros w w' ((A & B & D & _) & G). split; [|exact G]. intros c x.
  destruct (Nat.lt_ge_cases c (length (w_ctxs w))) as [L|L].
  - unfold live_expression. rewrite (A c L). reflexivity.
  - split; intro H; [destruct (D c x L H)|]. apply nth_error_Some_lt in H. lia.
Qed.

Lemma stmt_temporaries : forall E fuel ts s w,
  match exec E fuel (OStmt ts s) w with
  | RVal w' _ => same_held w w'
  | RExn w' _ => same_held w w'
  | _ => True
  end.
Proof.
  intros E [|fuel] ts s w; cbn [exec]; [exact I|]. cbn [step].
  pose proof (tm_with_ctxs w E s ts [] w (tm_start w)) as T. destruct (with_ctxs E ts [] (run_stmt E s) w); auto; now apply tm_end.
Qed.
