(** What operations of the abstract machine leave alone. *)
From Coq Require Import Bool ZArith Lia List.
From Verif Require Import Base CInt Values ArgMatchers InvMatchers ActionSeq Sequences MatchAnalysis
  Proxy Events Expectation ReturnSet Syntax World Spec_World WorldRel WorldSimA WorldSimB Spec_View SpecFacts Spec_Alike.
Import ListNotations.
Open Scope nat_scope.

Definition always (P : sworld -> sworld -> Prop) {A} (m : SM A) : Prop := forall s,
  match m s with SOk s' _ => P s s' | SExn s' _ => P s s' | SUnspec => True end.

Section Laws.
Variable P : sworld -> sworld -> Prop.
Hypothesis refl : forall s, P s s.
Hypothesis trans : forall a b c, P a b -> P b c -> P a c.

Lemma aw_ret : forall A (a : A), always P (sret a).
Proof. intros A a s. apply refl. Qed.
Lemma aw_throw : forall A e, always P (@sthrow A e).
Proof. intros A a s. apply refl. Qed.
Lemma aw_unspec : forall A, always P (@unspec A).
Proof. intros A s. exact I. Qed.
Lemma aw_gets : forall A (f : sworld -> A), always P (sgets f).
Proof. intros A f s. apply refl. Qed.
Lemma aw_lift : forall A (o : outcome A), always P (slift o).
Proof. intros A o s. unfold slift. destruct o; auto. Qed.
Lemma aw_opt : forall A (o : option A), always P (sopt o).
Proof. intros A o s. destruct o; cbn; auto. Qed.
Lemma aw_sget : forall A (f : sworld -> list (option A)) i, always P (sget f i).
Proof. intros A f i s. unfold sget, sbind, sgets. destruct (live (f s) i); cbn; auto. Qed.
Lemma aw_class : forall E c, always P (sclass E c).
Proof. intros. apply aw_opt. Qed.
Lemma aw_bind : forall A B (m : SM A) (k : A -> SM B), always P m -> (forall a, always P (k a)) -> always P (sbind m k).
Proof.
  intros A B m k M K s. unfold sbind. specialize (M s). destruct (m s) as [s' a|s' e|]; auto.
  specialize (K a s'). destruct (k a s'); auto; eapply trans; eauto.
Qed.
Lemma aw_attempt : forall A (m : SM A), always P m -> always P (sattempt m).
Proof. intros A m M s. unfold sattempt. specialize (M s). destruct (m s); auto. Qed.
Lemma aw_rethrow : forall A (r : A + exn), always P (srethrow r).
Proof. intros A [] s; apply refl. Qed.
Lemma aw_guarded : forall A (m : SM A) f, always P m -> always P f -> always P (sguarded m f).
Proof.
  intros. unfold sguarded. apply aw_bind; [now apply aw_attempt|]. intro. apply aw_bind; auto. intro. apply aw_rethrow.
Qed.
Lemma aw_modify : forall f, (forall s, P s (f s)) -> always P (smodify f).
Proof. intros f H s. apply H. Qed.
End Laws.

Ltac aw refl trans := repeat match goal with
  | |- always _ (sret _) => apply aw_ret; exact refl
  | |- always _ (sthrow _) => apply aw_throw; exact refl
  | |- always _ unspec => apply aw_unspec
  | |- always _ (sgets _) => apply aw_gets; exact refl
  | |- always _ (slift _) => apply aw_lift; exact refl
  | |- always _ (sopt _) => apply aw_opt; exact refl
  | |- always _ (sget _ _) => apply aw_sget; exact refl
  | |- always _ (sclass _ _) => apply aw_class; exact refl
  | |- always _ (srethrow _) => apply aw_rethrow; exact refl
  | |- always _ (sbind _ _) => apply aw_bind; [exact trans| |intro]
  | |- always _ (sattempt _) => apply aw_attempt
  | |- always _ (sguarded _ _) => apply aw_guarded; [exact refl|exact trans| |]
  | |- always _ (if ?b then _ else _) => destruct b
  | |- always _ (match ?b with _ => _ end) => destruct b
  | |- _ => assumption
  end.

(** ** Verification only looks *)
Lemma rec_refl : forall x, as_recorded x x.
Proof. repeat split. Qed.
Lemma rec_refl_all : forall l, Forall2 as_recorded l l.
Proof. induction l; constructor; auto. apply rec_refl. Qed.
Lemma looked_refl : forall s, only_looked s s.
Proof. intro s. constructor; auto. apply rec_refl_all. Qed.
Lemma looked_trans : forall a b c, only_looked a b -> only_looked b c -> only_looked a c.
Proof.
  intros a b c [A1 A2 A3 A4 A5 A6 A7 A8 A9] [B1 B2 B3 B4 B5 B6 B7 B8 B9]. constructor; try congruence.
  clear - A9 B9. revert B9. generalize (s_calls c). induction A9 as [|x y l l' (H1 & H2 & H3) A9 IH]; intros l2 B9; inversion B9 as [|? z ? ? (H4 & H5 & H6)]; subst; constructor; auto.
  repeat split; congruence.
Qed.

Section V.
Variable E : env.
Local Notation looks := (always only_looked).
Ltac lk := aw looked_refl looked_trans.
Ltac lm := apply aw_modify; intro; constructor; cbn; auto using rec_refl_all.

Lemma looks_report_to : forall q e, looks (sreport_to E q e).
Proof.
  intros. unfold sreport_to, sreport. lk. destruct (ctx_handle (e_react E) (e_builtin E) a e) as [dn x]. lk. lm.
Qed.
Lemma looks_put_exp : forall x e, looks (sput_exp x e).
Proof. intros. unfold sput_exp. lm. Qed.
Lemma looks_get_call : forall i, looks (sget_call i).
Proof. intros. unfold sget_call. lk. Qed.
Lemma looks_mark_all : forall is, looks (smark_all is).
Proof.
  induction is as [|i is IH]; cbn [smark_all]; [lk|].
  intro s. unfold sbind, sget_call, sgets, sbind, sopt. destruct (nth_error (s_calls s) i) as [c|] eqn:N; cbn; auto.
  specialize (IH (sset_calls s (upd (s_calls s) i (mkCall (ca_method c) (ca_ret c) (ca_args c) true)))).
  assert (X : only_looked s (sset_calls s (upd (s_calls s) i (mkCall (ca_method c) (ca_ret c) (ca_args c) true)))).
  { constructor; cbn; auto. clear IH. revert i N. induction (s_calls s) as [|y l IH]; intros [|i] N; cbn in *; try discriminate; constructor; auto using rec_refl_all, rec_refl.
    inversion N; subst. repeat split. }
  cbv [smodify].
  destruct (smark_all is (sset_calls s (upd (s_calls s) i (mkCall (ca_method c) (ca_ret c) (ca_args c) true)))); auto; eapply looked_trans; eauto.
Qed.
Lemma looks_verify : forall x q, looks (sverify E x q).
Proof. intros. unfold sverify. lk; try apply looks_put_exp; try apply looks_mark_all; apply looks_report_to. Qed.
Lemma looks_exp_bool : forall x, looks (sexp_bool E x).
Proof. intros. unfold sexp_bool. lk. apply looks_verify. Qed.
Lemma looks_free_exp : forall x, looks (sfree_exp x).
Proof. intros. unfold sfree_exp. lk. lm. Qed.
Lemma looks_exp_free : forall x, looks (sexp_free E x).
Proof. intros. unfold sexp_free. lk; [apply looks_verify|apply looks_free_exp]. Qed.
Lemma looks_exp_quant : forall x q, looks (sexp_quant x q).
Proof. intros. unfold sexp_quant. lk. apply looks_put_exp. Qed.
Lemma looks_new_exp : forall e, looks (snew_exp e).
Proof. intros. unfold snew_exp. lk. lm. Qed.
Lemma looks_involved : forall cs, looks (sinvolved cs).
Proof. induction cs; cbn [sinvolved]; lk. Qed.
Lemma looks_exp_new : forall sc p, looks (sexp_new sc p).
Proof. intros. unfold sexp_new. lk; try apply looks_involved; apply looks_new_exp. Qed.
Lemma looks_steps : forall steps x last, looks (srun_steps E x steps last).
Proof. induction steps as [|[q|] steps IH]; intros x last; cbn [srun_steps]; lk; auto; [apply looks_exp_quant|apply looks_exp_bool]. Qed.
Lemma looks_verify_stmt : forall mk steps, looks mk -> looks (sverify_stmt E mk steps).
Proof. intros. unfold sverify_stmt. lk; [apply looks_steps|apply looks_exp_free|apply looks_free_exp]. Qed.

Lemma looks_stmt : forall st cs, verifies st = true -> looks (srun_stmt E st cs).
Proof.
  intros st cs V. destruct st; try discriminate; cbn [srun_stmt]; lk; apply looks_verify_stmt; [apply looks_exp_new|apply looks_new_exp].
Qed.
Lemma looks_op : forall f o, verifies_op o = true -> looks (sexec E (S f) o).
Proof.
  intros f o V. destruct o; try discriminate; cbn [sexec sstep]; unfold snat, sunit; lk;
    auto using looks_exp_new, looks_new_exp, looks_exp_quant, looks_exp_bool, looks_exp_free.
Qed.
End V.

(** ** Objects stay of their class *)
Definition objects_stay (s s' : sworld) : Prop :=
  length (s_objs s) <= length (s_objs s') /\
  forall o x', o < length (s_objs s) -> live (s_objs s') o = Some x' ->
    exists x, live (s_objs s) o = Some x /\ so_class x' = so_class x.

Lemma ostay_refl : forall s, objects_stay s s.
Proof. intro s. split; auto. intros. eauto. Qed.
Lemma ostay_trans : forall a b c, objects_stay a b -> objects_stay b c -> objects_stay a c.
Proof.
  intros a b c (A & A') (B & B'). split; [lia|]. intros o x'' L H. destruct (B' o x'') as (x' & H' & Q); auto; [lia|].
  destruct (A' o x') as (x & H0 & Q'); auto. exists x. split; auto. congruence.
Qed.
Lemma ostay_same : forall s s', s_objs s' = s_objs s -> objects_stay s s'.
Proof. intros s s' Q. unfold objects_stay. rewrite Q. apply ostay_refl. Qed.
Lemma ostay_upd : forall s s' o x y, live (s_objs s) o = Some x -> s_objs s' = upd (s_objs s) o y ->
  (forall z, y = Some z -> so_class z = so_class x) -> objects_stay s s'.
Proof.
  intros s s' o x y L Q H. split; [rewrite Q, upd_length; auto|]. intros o' x' LT L'. rewrite Q in L'.
  destruct (Nat.eq_dec o o') as [<-|N].
  - rewrite live_upd_in in L' by (eapply live_lt; eauto). exists x. split; auto.
  - rewrite live_upd_out in L' by auto. eauto.
Qed.
Lemma ostay_snoc : forall s s' y, s_objs s' = s_objs s ++ [y] -> objects_stay s s'.
Proof.
  intros s s' y Q. split; [rewrite Q, app_length; lia|]. intros o x' LT L'. rewrite Q in L'. exists x'. split; auto.
  unfold live in *. now rewrite nth_error_app1 in L'.
Qed.

Section O.
Variable E : env.
Local Notation stay := (always objects_stay).
Ltac st := aw ostay_refl ostay_trans.
Ltac sm := apply aw_modify; intro; apply ostay_same; reflexivity.

Lemma stay_report : forall e, stay (sreport E e).
Proof. intros. unfold sreport. st. destruct (ctx_handle (e_react E) (e_builtin E) a e) as [dn x]. st. sm. Qed.
Lemma stay_put_obj : forall o (f : sobj -> sobj), (forall x, so_class (f x) = so_class x) ->
  stay (let? x := sget s_objs o in sput_obj o (f x)).
Proof.
  intros o f H s. unfold sbind, sget, sgets, sbind, sopt. destruct (live (s_objs s) o) as [x|] eqn:L; cbn; auto.
  eapply ostay_upd; [exact L|reflexivity|]. intros z Q. inversion Q; subst. apply H.
Qed.
Lemma stay_zero : forall k, stay (szero k).
Proof. intro k. unfold szero. destruct (sk_owner k); [apply (stay_put_obj (sk_obj k) zeroed); auto|st]. Qed.
Lemma stay_put_mock : forall m k, stay (sput_mock m k).
Proof. intros. unfold sput_mock. sm. Qed.
Lemma stay_reset : forall m, stay (smock_reset m).
Proof. intro. unfold smock_reset. st; [apply stay_put_mock|apply stay_zero]. Qed.
Lemma stay_clear : forall m, stay (smock_clear m).
Proof. intro. unfold smock_clear. st; [apply stay_put_mock|apply stay_zero]. Qed.
Lemma stay_destroy : forall m, stay (smock_destroy m).
Proof.
  intro m. intro s. unfold smock_destroy, sbind, sget, sgets, sbind, sopt.
  destruct (live (s_mocks s) m) as [k|]; cbn; auto. destruct (live (s_objs s) (sk_obj k)) as [x|] eqn:L; cbn; auto.
  destruct (quiet k); cbn; auto. destruct (sk_owner k); cbn; (eapply ostay_upd; [exact L|reflexivity|]).
  - discriminate.
  - intros z Q. inversion Q; reflexivity.
Qed.
Lemma stay_new : forall c, stay (smock_new E c).
Proof. intro c. unfold smock_new. st; first [sm|apply aw_modify; intro; eapply ostay_snoc; reflexivity]. Qed.
Lemma stay_spy : forall c o, stay (smock_spy E c o).
Proof.
  intros c o s. unfold smock_spy, sclass, sbind, sget, sgets, sbind, sopt.
  destruct (nth_error (e_classes E) c) as [d|]; cbn; auto. destruct (live (s_objs s) o) as [x|] eqn:L; cbn; auto.
  destruct (nth_error (e_classes E) (so_class x)) as [dx|]; cbn; auto. destruct (so_mock x); cbn; auto.
  destruct (class_fits d && _); cbn; auto. eapply ostay_upd; [exact L|reflexivity|]. intros z Q. inversion Q; reflexivity.
Qed.
Lemma stay_set_method : forall m e x, stay (sset_method m e x).
Proof. intros. unfold sset_method. st. apply stay_put_mock. Qed.
Lemma stay_method : forall m e, stay (smethod m e).
Proof. intros. unfold smethod. st. Qed.
Lemma stay_mention : forall t, stay (smention E t).
Proof. intros. unfold smention, starget. st; first [sm|apply stay_set_method]. Qed.
Lemma stay_ctx_free : forall c, stay (sctx_free c).
Proof. intros. unfold sctx_free. st. sm. Qed.
Lemma stay_ctx_new : forall t, stay (sctx_new E t).
Proof. intros. unfold sctx_new. st; [sm|apply stay_mention|apply stay_ctx_free]. Qed.
Lemma stay_unused : forall c, stay (sctx_unused c).
Proof. intros. unfold sctx_unused. st. Qed.
Lemma stay_put_ctx : forall c x, stay (sput_ctx c x).
Proof. intros. unfold sput_ctx. sm. Qed.
Lemma stay_ctx_cond : forall c im, stay (sctx_cond c im).
Proof. intros. unfold sctx_cond. st; [apply stay_unused|apply stay_put_ctx]. Qed.
Lemma stay_ctx_append : forall c im, stay (sctx_append c im).
Proof. intros. unfold sctx_append. st; [apply stay_unused|apply stay_put_ctx]. Qed.
Lemma stay_commit : forall c, stay (sctx_commit E c).
Proof. intros. unfold sctx_commit. st; [apply stay_unused|apply stay_mention|apply stay_method|apply stay_set_method|apply stay_put_ctx]. Qed.
Lemma stay_append_all : forall rs c, stay (sappend_all c rs).
Proof. induction rs; intro c; cbn [sappend_all]; st; [apply stay_ctx_append|apply IHrs]. Qed.
Lemma stay_do_when : forall c rs i, stay (sdo_when E c rs i).
Proof. intros. unfold sdo_when. st; try apply stay_append_all. apply stay_commit. Qed.
Lemma stay_do_fake : forall c, stay (sdo_fake E c).
Proof. intros. unfold sdo_fake. st; [apply stay_ctx_append|apply stay_commit]. Qed.
Lemma stay_do_spy : forall c fw, stay (sdo_spy E c fw).
Proof. intros. unfold sdo_spy. st; try apply stay_unused; [apply stay_ctx_append|apply stay_commit]. Qed.
Lemma stay_do_assign : forall c f, stay (sdo_assign E c f).
Proof. intros. unfold sdo_assign. st; [apply stay_ctx_append|apply stay_commit]. Qed.
Lemma stay_start : stay sstart.
Proof. unfold sstart. st. sm. Qed.
Lemma stay_unexpected : forall t n args, stay (sunexpected E t n args).
Proof. intros. unfold sunexpected. st. apply stay_report. Qed.
Lemma stay_default : forall r, stay (sdefault r).
Proof. intros []; cbn; st. Qed.
Lemma stay_get_call : forall i, stay (sget_call i).
Proof. intros. unfold sget_call. st. Qed.
Lemma stay_put_args : forall i c l, stay (sput_args i c l).
Proof. intros. unfold sput_args. sm. Qed.
Lemma stay_find : forall l args, stay (sfind l args).
Proof. induction l; intros args; cbn [sfind]; st; try apply IHl. Qed.
Lemma stay_looks : forall A (m : SM A), always only_looked m -> stay m.
Proof. intros A m H s. specialize (H s). destruct (m s); auto; apply ostay_same, H. Qed.

Section Open.
Variable rec : op -> SM val.
Hypothesis REC : forall o, stay (rec o).

Lemma stay_prog : forall p fr, stay (srun_prog rec fr p).
Proof.
  induction p as [v|e|i k IH|i v k IH|k IH|o k IH]; intro fr; cbn [srun_prog]; st; try apply stay_get_call; auto.
  apply stay_put_args.
Qed.
Lemma stay_set_bypass : forall m e no id b, stay (sset_bypass m e no id b).
Proof. intros. unfold sset_bypass. st; [apply stay_method|apply stay_set_method]. Qed.
Lemma stay_callable : forall f i, stay (srun_callable E rec f i).
Proof.
  intros f i. destruct f as [p| |r vals|r vals|m o slot fw]; cbn [srun_callable]; st;
    auto using stay_prog, stay_get_call, stay_default, stay_method, stay_set_bypass, stay_put_args; sm.
Qed.
Lemma stay_change : forall m e n f, stay (schange_stub m e n f).
Proof. intros. unfold schange_stub. st; [apply stay_method|apply stay_set_method]. Qed.
Lemma stay_play : forall m e x i, stay (splay E rec m e x i).
Proof. intros. unfold splay. st; auto using stay_callable, stay_change, stay_get_call, stay_default. Qed.
Lemma stay_stubbed : forall m e args, stay (sstubbed E rec m e args).
Proof.
  intros. unfold sstubbed. st; auto using stay_method, stay_start, stay_find, stay_unexpected, stay_set_method, stay_play. sm.
Qed.
Lemma stay_body : forall c o slot args, stay (sbody E rec c o slot args).
Proof. intros. unfold sbody. st. apply stay_prog. Qed.
Lemma stay_initial : forall k d x o slot args, stay (sinitial E rec k d x o slot args).
Proof. intros. unfold sinitial. st; auto using stay_start, stay_unexpected, stay_body. Qed.
Lemma stay_call : forall o slot args, stay (scall E rec o slot args).
Proof. intros. unfold scall. st; auto using stay_body, stay_initial, stay_stubbed. Qed.
Lemma stay_ctx_of : forall t im, stay (sctx_of E t im).
Proof. intros. unfold sctx_of. st; [apply stay_ctx_new|apply stay_ctx_cond]. Qed.
Lemma stay_free_ctxs : forall cs, stay (sfree_ctxs cs).
Proof. induction cs; cbn [sfree_ctxs]; st. apply stay_ctx_free. Qed.
Lemma stay_with_ctxs : forall ts dn body, (forall cs, stay (body cs)) -> stay (swith_ctxs E ts dn body).
Proof.
  induction ts as [|[t im] ts IH]; intros dn body HB; cbn [swith_ctxs]; st; auto using stay_free_ctxs, stay_ctx_of.
Qed.
Lemma stay_each : forall (f : nat -> SM unit) cs, (forall c, stay (f c)) -> stay (seach f cs).
Proof. intros f cs H. induction cs; cbn [seach]; st; auto. Qed.
Lemma stay_stmt : forall x cs, stay (srun_stmt E x cs).
Proof.
  intros x cs. destruct (verifies x) eqn:V; [apply stay_looks; now apply looks_stmt|].
  destruct x; try discriminate; cbn [srun_stmt]; unfold sunit; st; auto using stay_do_when, stay_do_assign, stay_each, stay_do_fake, stay_do_spy.
Qed.
Lemma stay_step : forall o, stay (sstep E rec o).
Proof.
  intro o. destruct (verifies_op o) eqn:V; [apply stay_looks; destruct o; try discriminate; cbn [sstep]; unfold snat, sunit;
    aw looked_refl looked_trans; auto using looks_exp_new, looks_new_exp, looks_exp_quant, looks_exp_bool, looks_exp_free|].
  destruct o; try discriminate; cbn [sstep]; unfold snat, sunit;
    try solve [st; auto using stay_call, stay_new, stay_spy, stay_destroy, stay_reset, stay_clear, stay_ctx_new, stay_ctx_cond,
      stay_ctx_free, stay_do_when, stay_do_fake, stay_do_spy, stay_do_assign; sm].
  - st. apply aw_modify. intro. eapply ostay_snoc. reflexivity.
  - intro s. unfold sbind, sget, sgets, sbind, sopt. destruct (live (s_objs s) o) as [x|] eqn:L; cbn; auto.
    destruct (so_mock x); cbn; auto. eapply ostay_upd; [exact L|reflexivity|discriminate].
  - intro s. unfold sbind, sget, sgets, sbind, sopt. destruct (live (s_objs s) o) as [x|] eqn:L; cbn -[Nat.ltb]; auto.
    destruct (Nat.ltb i (length (so_data x))); cbn; auto. eapply ostay_upd; [exact L|reflexivity|]. intros z Q. inversion Q; reflexivity.
  - apply stay_with_ctxs. intro. apply stay_stmt.
Qed.
End Open.

Lemma stay_exec : forall f o, stay (sexec E f o).
Proof. induction f as [|f IH]; intro o; [apply aw_unspec|]. cbn [sexec]. apply stay_step. exact IH. Qed.
Lemma stay_exec_all : forall f os, stay (sexec_all E f os).
Proof. intros f os. induction os as [|o os IH]; cbn [sexec_all]; st. apply stay_exec. Qed.
End O.
