(** A recorded call keeps its method and its arguments once the action that answers it
    is over, whatever the program does; its verified-status only goes up.  The facts
    behind C42 in P_Calls.v. *)
From Coq Require Import Bool ZArith Lia List Permutation.
From Verif Require Import Base CInt Values ArgMatchers InvMatchers ActionSeq Sequences MatchAnalysis
  Proxy Events Expectation ReturnSet Syntax World Spec_World WorldRel Spec_View SpecFacts.
Import ListNotations.
Open Scope nat_scope.

Definition same_call (c c' : call) : Prop :=
  ca_method c' = ca_method c /\ ca_ret c' = ca_ret c /\ ca_args c' = ca_args c /\
  (ca_verified c = true -> ca_verified c' = true).

(** The calls below [b] are kept. *)
Definition cstay (b : nat) (s s' : sworld) : Prop :=
  length (s_calls s) <= length (s_calls s') /\
  forall i c, i < b -> nth_error (s_calls s) i = Some c ->
    exists c', nth_error (s_calls s') i = Some c' /\ same_call c c'.

Lemma cstay_refl : forall b s, cstay b s s.
Proof. intros b s. split; auto. intros i c _ H. exists c. split; auto. repeat split; auto. Qed.

Lemma cstay_trans : forall b x y z, cstay b x y -> cstay b y z -> cstay b x z.
Proof.
  intros b x y z (L1 & H1) (L2 & H2). split; [lia|]. intros i c LT N.
  destruct (H1 i c LT N) as (c' & N' & A1 & A2 & A3 & A4). destruct (H2 i c' LT N') as (c'' & N'' & B1 & B2 & B3 & B4).
  exists c''. split; auto. repeat split; try congruence. auto.
Qed.

Lemma cstay_same : forall b s s', s_calls s' = s_calls s -> cstay b s s'.
Proof. intros b s s' C. unfold cstay. rewrite C. apply cstay_refl. Qed.

Definition stays {A} (b : nat) (m : SM A) : Prop := forall s, b <= length (s_calls s) ->
  match m s with SOk s' _ => cstay b s s' | SExn s' _ => cstay b s s' | SUnspec => True end.

Section S.
Variable E : env.
Variable b : nat.

Lemma stays_ret : forall A (a : A), SpecArgs.stays b (sret a).
Proof. intros A a s _. apply cstay_refl. Qed.
Lemma stays_throw : forall A e, SpecArgs.stays b (@sthrow A e).
Proof. intros A a s _. apply cstay_refl. Qed.
Lemma stays_unspec : forall A, SpecArgs.stays b (@unspec A).
Proof. intros A s _. exact I. Qed.
Lemma stays_gets : forall A (f : sworld -> A), SpecArgs.stays b (sgets f).
Proof. intros A f s _. apply cstay_refl. Qed.
Lemma stays_lift : forall A (o : outcome A), SpecArgs.stays b (slift o).
Proof. intros A o s _. unfold slift. destruct o; auto. apply cstay_refl. Qed.
Lemma stays_opt : forall A (o : option A), SpecArgs.stays b (sopt o).
Proof. intros A o s _. destruct o; cbn; auto. apply cstay_refl. Qed.
Lemma stays_sget : forall A (f : sworld -> list (option A)) i, SpecArgs.stays b (sget f i).
Proof. intros A f i s _. unfold sget, sbind, sgets. destruct (live (f s) i); cbn; auto. apply cstay_refl. Qed.
Lemma stays_class : forall c, SpecArgs.stays b (sclass E c).
Proof. intros. apply stays_opt. Qed.
Lemma stays_bind : forall A B (m : SM A) (k : A -> SM B),
  SpecArgs.stays b m -> (forall a, SpecArgs.stays b (k a)) -> SpecArgs.stays b (sbind m k).
Proof.
  intros A B m k M K s LE. unfold sbind. specialize (M s LE). destruct (m s) as [s' a|s' e|]; auto.
  assert (LE' : b <= length (s_calls s')) by (destruct M; lia).
  specialize (K a s' LE'). destruct (k a s'); auto; eapply cstay_trans; eauto.
Qed.
Lemma stays_attempt : forall A (m : SM A), SpecArgs.stays b m -> SpecArgs.stays b (sattempt m).
Proof. intros A m M s LE. unfold sattempt. specialize (M s LE). destruct (m s); auto. Qed.
Lemma stays_rethrow : forall A (r : A + exn), SpecArgs.stays b (srethrow r).
Proof. intros A [] s _; apply cstay_refl. Qed.
Lemma stays_guarded : forall A (m : SM A) f, SpecArgs.stays b m -> SpecArgs.stays b f -> SpecArgs.stays b (sguarded m f).
Proof.
  intros. unfold sguarded. apply stays_bind; [now apply stays_attempt|]. intro. apply stays_bind; auto. intro. apply stays_rethrow.
Qed.
Lemma stays_modify : forall f, (forall s, s_calls (f s) = s_calls s) -> SpecArgs.stays b (smodify f).
Proof. intros f C s _. apply cstay_same; auto. Qed.

Ltac kp := repeat match goal with
  | |- SpecArgs.stays _ (sret _) => apply stays_ret
  | |- SpecArgs.stays _ (sthrow _) => apply stays_throw
  | |- SpecArgs.stays _ unspec => apply stays_unspec
  | |- SpecArgs.stays _ (sgets _) => apply stays_gets
  | |- SpecArgs.stays _ (slift _) => apply stays_lift
  | |- SpecArgs.stays _ (sopt _) => apply stays_opt
  | |- SpecArgs.stays _ (sget _ _) => apply stays_sget
  | |- SpecArgs.stays _ (sclass _ _) => apply stays_class
  | |- SpecArgs.stays _ (srethrow _) => apply stays_rethrow
  | |- SpecArgs.stays _ (sbind _ _) => apply stays_bind; [|intro]
  | |- SpecArgs.stays _ (sattempt _) => apply stays_attempt
  | |- SpecArgs.stays _ (sguarded _ _) => apply stays_guarded
  | |- SpecArgs.stays _ (smodify _) => apply stays_modify; intro; reflexivity
  | |- SpecArgs.stays _ (if ?x then _ else _) => destruct x
  | |- SpecArgs.stays _ (match ?x with _ => _ end) => destruct x
  | |- SpecArgs.stays _ (sput_obj _ _) => unfold sput_obj
  | |- SpecArgs.stays _ (sput_mock _ _) => unfold sput_mock
  | |- SpecArgs.stays _ (sput_ctx _ _) => unfold sput_ctx
  | |- SpecArgs.stays _ (sput_exp _ _) => unfold sput_exp
  | |- SpecArgs.stays _ (snew_exp _) => unfold snew_exp
  | |- SpecArgs.stays _ (sfree_exp _) => unfold sfree_exp
  | |- SpecArgs.stays _ (sget_call _) => unfold sget_call
  | |- SpecArgs.stays _ (smethod _ _) => unfold smethod
  | |- SpecArgs.stays _ (sset_method _ _ _) => unfold sset_method
  | |- SpecArgs.stays _ (starget _ _) => unfold starget
  | |- SpecArgs.stays _ (smention _ _) => unfold smention
  | |- SpecArgs.stays _ (sctx_free _) => unfold sctx_free
  | |- SpecArgs.stays _ (sctx_new _ _) => unfold sctx_new
  | |- SpecArgs.stays _ (sctx_unused _) => unfold sctx_unused
  | |- SpecArgs.stays _ (sctx_cond _ _) => unfold sctx_cond
  | |- SpecArgs.stays _ (sctx_append _ _) => unfold sctx_append
  | |- SpecArgs.stays _ (sctx_commit _ _) => unfold sctx_commit
  | |- SpecArgs.stays _ (sreport _ _) => unfold sreport
  | |- SpecArgs.stays _ (sreport_to _ _ _) => unfold sreport_to
  | |- SpecArgs.stays _ sstart => unfold sstart
  | |- SpecArgs.stays _ (sunexpected _ _ _ _) => unfold sunexpected
  | |- SpecArgs.stays _ (sset_bypass _ _ _ _ _) => unfold sset_bypass
  | |- SpecArgs.stays _ (schange_stub _ _ _ _) => unfold schange_stub
  | |- SpecArgs.stays _ (szero _) => unfold szero
  | |- SpecArgs.stays _ (smock_new _ _) => unfold smock_new
  | |- SpecArgs.stays _ (smock_spy _ _ _) => unfold smock_spy
  | |- SpecArgs.stays _ (smock_reset _) => unfold smock_reset
  | |- SpecArgs.stays _ (smock_clear _) => unfold smock_clear
  | |- SpecArgs.stays _ (smock_destroy _) => unfold smock_destroy
  | |- SpecArgs.stays _ (sunit _) => unfold sunit
  | |- SpecArgs.stays _ (snat _) => unfold snat
  | |- _ => assumption
  end.

(** The parameters of a call that is running. *)
Lemma stays_put_args : forall i c l, b <= i -> SpecArgs.stays b (sput_args i c l).
Proof.
  intros i c l LE s _. unfold sput_args, smodify. split; cbn; [now rewrite upd_length|].
  intros j x LT N. exists x. split; [|repeat split; auto].
  rewrite nth_error_upd_other; auto. lia.
Qed.

Lemma stays_default : forall r, SpecArgs.stays b (sdefault r).
Proof. intros []; cbn [sdefault]; kp. Qed.

Lemma stays_find : forall l args, SpecArgs.stays b (sfind l args).
Proof. induction l; intros args; cbn [sfind]; kp; try apply IHl. Qed.

Lemma stays_append_all : forall rs c, SpecArgs.stays b (sappend_all c rs).
Proof. induction rs; intro c; cbn [sappend_all]; kp; apply IHrs. Qed.
Lemma stays_do_when : forall c rs i, SpecArgs.stays b (sdo_when E c rs i).
Proof. intros. unfold sdo_when. kp; apply stays_append_all. Qed.
Lemma stays_do_fake : forall c, SpecArgs.stays b (sdo_fake E c).
Proof. intros. unfold sdo_fake. kp. Qed.
Lemma stays_do_spy : forall c fw, SpecArgs.stays b (sdo_spy E c fw).
Proof. intros. unfold sdo_spy. kp. Qed.
Lemma stays_do_assign : forall c f, SpecArgs.stays b (sdo_assign E c f).
Proof. intros. unfold sdo_assign. kp. Qed.

Section Open.
Variable rec : op -> SM val.
Hypothesis REC : forall o, SpecArgs.stays b (rec o).

Definition frame_above (fr : frame) : Prop := match fr with FrInv n => b <= n | FrStack _ _ => True end.

Lemma stays_prog : forall p fr, frame_above fr -> SpecArgs.stays b (srun_prog rec fr p).
Proof.
  induction p as [v|e|i k IH|i v k IH|k IH|o k IH]; intros fr FA; cbn [srun_prog]; try (kp; fail).
  - destruct fr; kp; now apply IH.
  - destruct fr; kp; try (now apply stays_put_args); now apply IH.
  - destruct fr; kp. now apply IH.
  - kp; auto.
Qed.

Lemma stays_callable : forall f i, b <= i -> SpecArgs.stays b (srun_callable E rec f i).
Proof.
  intros f i LE. destruct f as [p| |r vals|r vals|m o slot fw]; cbn [srun_callable]; try (kp; fail).
  - now apply stays_prog.
  - kp. apply stays_default.
  - kp; now apply stays_put_args.
  - kp; now apply stays_put_args.
  - kp; try (now apply stays_put_args); apply REC.
Qed.

Lemma stays_play : forall m e st i, b <= i -> SpecArgs.stays b (splay E rec m e st i).
Proof.
  intros m e st i LE. unfold splay. destruct (st_todo st) as [|[] ?]; kp; try (now apply stays_callable). apply stays_default.
Qed.

Lemma stays_append_call : forall c, SpecArgs.stays b (smodify (fun s => sset_calls s (s_calls s ++ [c]))).
Proof.
  intros c s LE. unfold smodify. split; cbn; [rewrite app_length; lia|].
  intros i x LT N. exists x. split; [|repeat split; auto]. rewrite nth_error_app1; auto. lia.
Qed.

Lemma stays_stubbed : forall m e args, SpecArgs.stays b (sstubbed E rec m e args).
Proof.
  intros m e args. unfold sstubbed. apply stays_bind; [kp|]. intro me. apply stays_bind; [kp|]. intros _.
  intros s LE. unfold sbind at 1, sgets.
  set (i := length (s_calls s)). assert (LI : b <= i) by exact LE. clearbody i.
  match goal with |- match ?g s with _ => _ end => assert (G : SpecArgs.stays b g); [|exact (G s LE)] end.
  clear s LE.
  apply stays_bind; [apply stays_append_call|]. intros _.
  apply stays_bind; [apply stays_find|]. intros [st|]; [|kp].
  kp. now apply stays_play.
Qed.

Lemma stays_body : forall c o slot args, SpecArgs.stays b (sbody E rec c o slot args).
Proof. intros. unfold sbody. kp. now apply stays_prog. Qed.

Lemma stays_initial : forall k d x o slot args, SpecArgs.stays b (sinitial E rec k d x o slot args).
Proof. intros. unfold sinitial. kp. apply stays_body. Qed.

Lemma stays_call : forall o slot args, SpecArgs.stays b (scall E rec o slot args).
Proof. intros. unfold scall. kp; try apply stays_body; try apply stays_initial; apply stays_stubbed. Qed.

Lemma stays_mark_all : forall is, SpecArgs.stays b (smark_all is).
Proof.
  induction is as [|i is IH]; cbn [smark_all]; [kp|]. intros s LE. unfold sget_call, sbind at 1, sgets at 1, sbind at 1, sopt.
  destruct (nth_error (s_calls s) i) as [c|] eqn:N; [|exact I]. unfold sret at 1. unfold sbind, smodify.
  set (s1 := sset_calls _ _).
  assert (C1 : cstay b s s1).
  { unfold s1. split; cbn; [now rewrite upd_length|]. intros j x LT NJ. destruct (Nat.eq_dec i j) as [<-|NE].
    - rewrite N in NJ. inversion NJ; subst. eexists. split; [apply nth_error_upd_same; apply nth_error_Some; congruence|].
      repeat split; auto.
    - exists x. rewrite nth_error_upd_other by auto. split; auto. repeat split; auto. }
  assert (L1 : b <= length (s_calls s1)) by (destruct C1; lia).
  specialize (IH s1 L1). destruct (smark_all is s1); auto; eapply cstay_trans; eauto.
Qed.

Lemma stays_verify : forall x q, SpecArgs.stays b (sverify E x q).
Proof. intros. unfold sverify. kp; apply stays_mark_all. Qed.
Lemma stays_exp_bool : forall x, SpecArgs.stays b (sexp_bool E x).
Proof. intros. unfold sexp_bool. kp. apply stays_verify. Qed.
Lemma stays_exp_free : forall x, SpecArgs.stays b (sexp_free E x).
Proof. intros. unfold sexp_free. kp. apply stays_verify. Qed.
Lemma stays_exp_quant : forall x q, SpecArgs.stays b (sexp_quant x q).
Proof. intros. unfold sexp_quant. kp. Qed.
Lemma stays_involved : forall cs, SpecArgs.stays b (sinvolved cs).
Proof. induction cs; cbn [sinvolved]; kp. Qed.
Lemma stays_exp_new : forall sc p, SpecArgs.stays b (sexp_new sc p).
Proof. intros. unfold sexp_new. kp; apply stays_involved. Qed.

Lemma stays_ctx_of : forall t im, SpecArgs.stays b (sctx_of E t im).
Proof. intros. unfold sctx_of. kp. Qed.
Lemma stays_free_ctxs : forall cs, SpecArgs.stays b (sfree_ctxs cs).
Proof. induction cs; cbn [sfree_ctxs]; kp. Qed.
Lemma stays_with_ctxs : forall ts done body, (forall cs, SpecArgs.stays b (body cs)) -> SpecArgs.stays b (swith_ctxs E ts done body).
Proof.
  induction ts as [|[t im] ts IH]; intros done body HB; cbn [swith_ctxs].
  - apply stays_guarded; auto. apply stays_free_ctxs.
  - kp; [apply stays_ctx_of|now apply IH|apply stays_free_ctxs].
Qed.
Lemma stays_steps : forall steps x last, SpecArgs.stays b (srun_steps E x steps last).
Proof. induction steps as [|[q|] steps IH]; intros x last; cbn [srun_steps]; kp; auto; [apply stays_exp_quant|apply stays_exp_bool]. Qed.
Lemma stays_verify_stmt : forall mk steps, SpecArgs.stays b mk -> SpecArgs.stays b (sverify_stmt E mk steps).
Proof. intros. unfold sverify_stmt. kp; [apply stays_steps|apply stays_exp_free]. Qed.
Lemma stays_each : forall (f : nat -> SM unit) cs, (forall c, SpecArgs.stays b (f c)) -> SpecArgs.stays b (seach f cs).
Proof. intros f cs H. induction cs; cbn [seach]; kp; auto. Qed.

Lemma stays_stmt : forall st cs, SpecArgs.stays b (srun_stmt E st cs).
Proof.
  intros st cs. destruct st; cbn [srun_stmt]; kp; try apply stays_do_when; try apply stays_do_assign;
    try (apply stays_each; intro; first [apply stays_do_fake|apply stays_do_spy]);
    try (apply stays_verify_stmt; first [apply stays_exp_new|kp]).
Qed.

Lemma stays_step : forall o, SpecArgs.stays b (sstep E rec o).
Proof.
  intro o. destruct o; cbn [sstep]; kp;
    auto using stays_call, stays_do_when, stays_do_fake, stays_do_spy, stays_do_assign,
      stays_exp_new, stays_exp_quant, stays_exp_bool, stays_exp_free.
  apply stays_with_ctxs. intro. apply stays_stmt.
Qed.

End Open.
Lemma stays_exec : forall f o, SpecArgs.stays b (sexec E f o).
Proof. induction f as [|f IH]; intro o; [apply stays_unspec|]. cbn [sexec]. apply stays_step. exact IH. Qed.

Lemma stays_exec_all : forall f os, SpecArgs.stays b (sexec_all E f os).
Proof. intros f os. induction os as [|o os IH]; cbn [sexec_all]; kp. apply stays_exec. Qed.
End S.

(** Every call recorded before stays what it was. *)
Lemma recorded_stays : forall E f os s s' rs i c, sexec_all E f os s = SOk s' rs ->
  nth_error (s_calls s) i = Some c -> exists c', nth_error (s_calls s') i = Some c' /\ same_call c c'.
Proof.
  intros E f os s s' rs i c H N. pose proof (stays_exec_all E (length (s_calls s)) f os s (le_n _)) as K.
  rewrite H in K. apply K; auto. apply nth_error_Some. congruence.
Qed.

Lemma record_stays : forall E, iterates E -> forall f m0 os s rs ops s' rs' i c,
  leads E f m0 os s rs -> sexec_all E f ops s = SOk s' rs' -> nth_error (s_calls s) i = Some c ->
  leads E f m0 (os ++ ops) s' (rs ++ rs') /\
  exists c', nth_error (s_calls s') i = Some c' /\ ca_args c' = ca_args c /\ ca_method c' = ca_method c /\
    (ca_verified c = true -> ca_verified c' = true).
Proof.
  intros E IT f m0 os s rs ops s' rs' i c L X N. split; [eapply leads_more; eauto|].
  destruct (recorded_stays _ _ _ _ _ _ _ _ X N) as (c' & N' & A & B & C & D). exists c'. auto.
Qed.

Lemma plain_same : forall p, assigns_nothing p -> forall args args' x, plain p args = Some (args', x) -> args' = args.
Proof.
  intros p H. induction H as [v|e|i k H IH]; intros args args' x Q; cbn in Q.
  - now inversion Q.
  - now inversion Q.
  - destruct (nth_error args i); [|discriminate]. eauto.
Qed.

Lemma moved_kept : forall l v, is_object v = false -> moved_from l v = v.
Proof. intros l v H. destruct v; try discriminate; reflexivity. Qed.

Lemma positional_kept : forall l args, Forall (fun v => is_object v = false) args -> positional_leaves l args = args.
Proof. intros l args H. induction H; cbn; auto. rewrite moved_kept by auto. unfold positional_leaves in IHForall. now rewrite IHForall. Qed.

Lemma placeholders_kept : forall l vals args k,
  (forall i v, nth_error args i = Some v -> is_object v = true -> ~ In (k + i) (map fst vals)) ->
  placeholders_leave l k vals args = args.
Proof.
  intros l vals args. induction args as [|a args IH]; intros k H; cbn [placeholders_leave]; auto.
  rewrite IH by (intros i v N O; rewrite Nat.add_succ_comm; now apply (H (S i) v)). f_equal.
  destruct (existsb _ vals) eqn:X; auto. destruct (is_object a) eqn:O; [|now apply moved_kept].
  exfalso. apply (H 0 a); auto. apply existsb_exists in X. destruct X as (y & Y & Z). apply Nat.eqb_eq in Z.
  rewrite Nat.add_0_r. apply in_map_iff. exists y. auto.
Qed.

Lemma recorded_as_passed : forall E mm r a f args mm' args' x,
  plain_action E mm r a args = Some (mm', args', x) -> runs a f ->
  (forall p, f = FProg p -> assigns_nothing p) ->
  (forall v vals, f = FSet v vals -> Forall (fun v => is_object v = false) args) ->
  (forall v vals, f = FSetNamed v vals ->
     forall i v, nth_error args i = Some v -> is_object v = true -> ~ In (S i) (map fst vals)) ->
  args' = args.
Proof.
  assert (C : forall E mm r f args mm' args' x, plain_callable E mm r f args = Some (mm', args', x) ->
    (forall p, f = FProg p -> assigns_nothing p) ->
    (forall v vals, f = FSet v vals -> Forall (fun v => is_object v = false) args) ->
    (forall v vals, f = FSetNamed v vals ->
       forall i v, nth_error args i = Some v -> is_object v = true -> ~ In (S i) (map fst vals)) -> args' = args).
  { intros E mm r f args mm' args' x Q H HS HN. destruct f as [p| |v vals|v vals|]; cbn in Q; try discriminate.
    - destruct (plain p args) as [[a y]|] eqn:P; [|discriminate]. inversion Q; subst. eapply plain_same; eauto.
    - destruct (default_of r); [|discriminate]. now inversion Q.
    - destruct (assigner_positional mm v vals args) as [[]| |]; try discriminate. inversion Q; subst.
      apply positional_kept. eauto.
    - destruct (assigner_placeholders mm v vals args) as [[]| |]; try discriminate. inversion Q; subst.
      apply placeholders_kept. eauto. }
  intros E mm r a f args mm' args' x Q RU H HS HN. destruct a as [g n|g| |g|]; cbn in Q; try discriminate.
  - assert (g = f) as -> by (destruct RU as [(? & RU)|[RU|RU]]; now inversion RU).
    destruct (1 <=? n)%Z; [|discriminate]. eapply C; eauto.
  - assert (g = f) as -> by (destruct RU as [(? & RU)|[RU|RU]]; now inversion RU). eapply C; eauto.
  - destruct RU as [(? & RU)|[RU|RU]]; discriminate.
  - assert (g = f) as -> by (destruct RU as [(? & RU)|[RU|RU]]; now inversion RU). eapply C; eauto.
Qed.

Lemma positional_nth : forall l args i v, nth_error args i = Some v -> is_object v = false ->
  nth_error (positional_leaves l args) i = Some v.
Proof. intros l args i v N O. unfold positional_leaves. rewrite nth_error_map, N. cbn. now rewrite moved_kept. Qed.

Lemma placeholders_nth : forall l vals args k i v, nth_error args i = Some v -> is_object v = false \/ ~ In (k + i) (map fst vals) ->
  nth_error (placeholders_leave l k vals args) i = Some v.
Proof.
  intros l vals args. induction args as [|a args IH]; intros k [|i] v N O; cbn [placeholders_leave nth_error] in *; try discriminate.
  - injection N as ->. f_equal. destruct (existsb _ vals) eqn:X; auto. destruct O as [O|O]; [now apply moved_kept|].
    exfalso. apply O. apply existsb_exists in X. destruct X as (y & Y & Z). apply Nat.eqb_eq in Z.
    rewrite Nat.add_0_r. apply in_map_iff. exists y. auto.
  - apply IH; auto. rewrite Nat.add_succ_comm. exact O.
Qed.

(** What ReturnAndSet leaves in the record. *)
Lemma recorded_by_set : forall E mm r v vals args mm' args' x,
  plain_callable E mm r (FSet v vals) args = Some (mm', args', x) ->
  forall i a, nth_error args i = Some a -> is_object a = false -> nth_error args' i = Some a.
Proof.
  intros E mm r v vals args mm' args' x Q i a N O. cbn in Q.
  destruct (assigner_positional mm v vals args) as [[]| |]; try discriminate. inversion Q; subst. now apply positional_nth.
Qed.

Lemma recorded_by_set_named : forall E mm r v vals args mm' args' x,
  plain_callable E mm r (FSetNamed v vals) args = Some (mm', args', x) ->
  forall i a, nth_error args i = Some a -> is_object a = false \/ ~ In (S i) (map fst vals) -> nth_error args' i = Some a.
Proof.
  intros E mm r v vals args mm' args' x Q i a N O. cbn in Q.
  destruct (assigner_placeholders mm v vals args) as [[]| |]; try discriminate. inversion Q; subst. now apply placeholders_nth.
Qed.
