(** The simulation, last part: statements, operations and whole programs. *)
From Coq Require Import Bool ZArith Lia List Permutation.
From Verif Require Import Base CInt Values ArgMatchers InvMatchers ActionSeq Sequences MatchAnalysis
  SortInv VTable Spec_Layout VTableProofs Proxy ProxyProofs Events Expectation ReturnSet Ordinals Syntax World Spec_World
  WorldLogic WorldRel WorldSimA WorldSimB WorldSimC WorldSimD WorldSimE WorldSimF.
Import ListNotations.
Open Scope nat_scope.

Section S.
Variable E : env.
Hypothesis iter_perm : forall l, Permutation (e_iter E l) l.
Local Notation R := (R E).
Local Notation Rg := (Rg E).
Local Notation sim := (sim E).
Local Notation simw := (simw E).
Local Notation classes := (e_classes E).

Lemma sim_unit : forall A (m : M A) sm, sim m sm -> sim (unit_val m) (sunit sm).
Proof. intros. unfold unit_val, sunit. apply sim_bind; auto. intros _. apply sim_ret. Qed.
Lemma sim_nat : forall (m : M nat) sm, sim m sm -> sim (nat_val m) (snat sm).
Proof. intros. unfold nat_val, snat. apply sim_bind; auto. intro n. apply sim_ret. Qed.

(** ** Statements *)
Lemma sim_ctx_of : forall t im, sim (ctx_of E t im) (sctx_of E t im).
Proof.
  intros t im. unfold ctx_of, sctx_of. apply sim_bind; [apply sim_ctx_new|]. intro c. destruct im; [|apply sim_ret].
  apply sim_bind; [apply sim_ctx_cond|]. intros _. apply sim_ret.
Qed.

Lemma sim_free_ctxs : forall cs, sim (free_ctxs cs) (sfree_ctxs cs).
Proof.
  induction cs as [|c cs IH]; [apply sim_ret|]. cbn. apply sim_bind; [apply sim_ctx_free|]. intros _. exact IH.
Qed.

Lemma sim_with_ctxs : forall ts done body sbody, (forall cs, sim (body cs) (sbody cs)) ->
  sim (with_ctxs E ts done body) (swith_ctxs E ts done sbody).
Proof.
  induction ts as [|[t im] ts IH]; intros done body sbody HB; cbn [with_ctxs swith_ctxs].
  - apply sim_guarded; [apply HB|apply sim_free_ctxs].
  - apply sim_bind; [apply sim_attempt, sim_ctx_of|]. intros [c|e]; [now apply IH|].
    apply sim_bind; [apply sim_free_ctxs|]. intros _. apply sim_throw.
Qed.

Lemma sim_run_steps : forall x steps last, sim (run_steps E x steps last) (srun_steps E x steps last).
Proof.
  intro x. induction steps as [|[q|] steps IH]; intro last; cbn [run_steps srun_steps].
  - apply sim_ret.
  - apply sim_bind; [apply sim_exp_quant|]. intros _. apply IH.
  - apply sim_bind; [now apply sim_exp_bool|]. intro b. apply IH.
Qed.

Lemma sim_verify_stmt : forall mk smk steps, sim mk smk -> sim (verify_stmt E mk steps) (sverify_stmt E smk steps).
Proof.
  intros mk smk steps H. unfold verify_stmt, sverify_stmt. apply sim_bind; auto. intro x.
  apply sim_bind; [apply sim_attempt, sim_run_steps|]. intros [v|e].
  - apply sim_bind; [now apply sim_exp_free|]. intros _. apply sim_ret.
  - apply sim_bind; [apply sim_free_exp|]. intros _. apply sim_throw.
Qed.

Lemma sim_each : forall f sf, (forall c, sim (f c) (sf c)) -> forall cs, sim (each f cs) (seach sf cs).
Proof.
  intros f sf H. induction cs as [|c cs IH]; [apply sim_ret|]. cbn. apply sim_bind; auto.
Qed.

Lemma sim_stmt : forall st cs, sim (run_stmt E st cs) (srun_stmt E st cs).
Proof.
  intros st cs. destruct st as [rs i| |fw|f|sc pattern steps|l steps]; cbn [run_stmt srun_stmt].
  - destruct cs as [|c [|]]; try apply sim_unspec. apply sim_bind; [apply sim_do_when|]. intros _. apply sim_ret.
  - apply sim_bind; [apply sim_each; intro; apply sim_do_fake|]. intros _. apply sim_ret.
  - apply sim_bind; [apply sim_each; intro; apply sim_do_spy|]. intros _. apply sim_ret.
  - destruct cs as [|c [|]]; try apply sim_unspec. apply sim_bind; [apply sim_do_assign|]. intros _. apply sim_ret.
  - destruct (place_scope cs sc); [|apply sim_unspec]. destruct (place_all (place_seq cs) pattern); [|apply sim_unspec].
    apply sim_verify_stmt, sim_exp_new.
  - destruct (place_all (place_source cs) l); [|apply sim_unspec]. apply sim_verify_stmt, sim_new_exp.
Qed.

(** ** Operations *)
Lemma sim_get_member : forall o i, sim
  (let* x := get_obj o in match nth_error (ob_data x) i with Some v => ret v | None => ub end)
  (let? x := sget s_objs o in sopt (nth_error (so_data x) i)).
Proof.
  intros o i w s HR. eapply simw_bind; [apply simw_get_obj; auto|]. intros w' s' x sx HR' (_ & _ & (_ & D & _)).
  rewrite D. destruct (nth_error (so_data sx) i); [now apply sim_ret|exact I].
Qed.

Lemma sim_set_member : forall o i v, sim
  (let* x := get_obj o in
      if Nat.ltb i (length (ob_data x)) then
        unit_val (put_obj o (mkObj (ob_vptr x) (ob_class x) (upd (ob_data x) i v)))
      else ub)
  (let? x := sget s_objs o in
      if Nat.ltb i (length (so_data x)) then
        sunit (sput_obj o (mkSobj (so_class x) (upd (so_data x) i v) (so_mock x)))
      else unspec).
Proof.
  intros o i v w s HR. eapply simw_bind; [apply simw_get_obj; auto|]. intros w' s' x sx HR' (X & SX & (_ & D & _)).
  rewrite D. destruct (Nat.ltb i (length (so_data sx))); [|exact I].
  eapply simw_w; [reflexivity|]. eapply simw_s; [reflexivity|]. apply sim_ret. now apply R_data.
Qed.

Lemma sim_typeid : forall o, sim
  (let* (_, vt) := obj_table o in
   let* x := lift (vt_get vt (-1)) in
   match x with WTypeInfo c => ret (id_val c) | _ => ub end)
  (let? x := sget s_objs o in
   match so_mock x with
   | None => sret (id_val (so_class x))
   | Some m => let? k := sget s_mocks m in sret (id_val (sk_class k))
   end).
Proof.
  intros o w s HR. pose proof HR as (own & tow & H).
  destruct (live (s_objs s) o) as [sx|] eqn:SX; [|apply simw_u; rewrite sget_spec, SX; reflexivity].
  eapply simw_s; [rewrite sget_spec, SX; reflexivity|].
  destruct (Rg_obj E _ _ _ _ _ _ H SX) as (x & X & (O1 & O2 & O3 & O4)).
  destruct (so_mock sx) as [m|] eqn:SM.
  - destruct O4 as (k & K & VP & KO). pose proof (proj2 (r_mck _ _ _ _ _ H) m) as MK. rewrite K in MK.
    destruct (live (s_mocks s) m) as [sk|] eqn:SK; [|contradiction]. destruct MK as (sx' & d & _ & MR).
    destruct (mr_clone _ _ _ _ _ _ _ _ _ _ _ MR) as (vt & VT & _ & _ & _ & T).
    eapply simw_s; [rewrite sget_spec, SK; reflexivity|].
    eapply simw_w; [apply (obj_table_live w o x vt); [exact X|rewrite VP; exact VT]|]. cbv beta iota.
    eapply simw_w; [unfold lift; rewrite T; reflexivity|]. now apply sim_ret.
  - destruct (nth_error (e_classes E) (so_class sx)) as [dx|] eqn:DX; [|apply nth_error_None in DX; lia].
    eapply simw_w; [apply (obj_table_live w o x (class_table (so_class sx) dx)); [exact X|rewrite O4; apply (r_cls _ _ _ _ _ H _ _ DX)]|].
    cbv beta iota. eapply simw_w; [reflexivity|]. now apply sim_ret.
Qed.

Lemma sim_step : forall rec srec, (forall o, sim (rec o) (srec o)) -> (forall o, pres grows (rec o)) ->
  forall o, sim (step E rec o) (sstep E srec o).
Proof.
  intros rec srec HS HG o. destruct o; cbn [step sstep].
  - now apply sim_call.
  - apply sim_new_obj.
  - apply sim_free_obj.
  - apply sim_typeid.
  - apply sim_get_member.
  - apply sim_set_member.
  - apply sim_bind; [apply sim_get_mem|]. intro m. apply sim_lift_same.
  - apply sim_bind; [apply sim_get_mem|]. intro m. apply sim_bind; [apply sim_lift_same|]. intro m'.
    apply sim_unit, sim_modify. intros w s H. now apply R_mem.
  - apply sim_bind; [apply sim_get_mem|]. intro m. apply sim_bind; [|intros _; apply sim_ret].
    apply sim_modify. intros w s H. apply (R_mem_f E w s (fun m => m ++ [Some v]) H).
  - apply sim_bind; [apply sim_get_mem|]. intro m. apply sim_bind; [apply sim_lift_same|]. intros _.
    apply sim_unit, sim_modify. intros w s H. apply (R_mem_f E w s (fun m => upd m a None) H).
  - apply sim_nat, sim_mock_new.
  - apply sim_nat, sim_mock_spy.
  - intros w s HR. eapply simw_bind; [apply simw_get_mock; auto|]. intros w' s' k sk HR' (_ & _ & sx & d & _ & MR).
    rewrite (mr_obj _ _ _ _ _ _ _ _ _ _ _ MR). now apply sim_ret.
  - apply sim_unit, sim_mock_destroy.
  - apply sim_unit, sim_mock_reset.
  - apply sim_unit, sim_mock_clear.
  - apply sim_nat, sim_ctx_new.
  - apply sim_unit, sim_ctx_cond.
  - apply sim_unit, sim_ctx_free.
  - apply sim_unit, sim_do_when.
  - apply sim_unit, sim_do_fake.
  - apply sim_unit, sim_do_spy.
  - apply sim_unit, sim_do_assign.
  - apply sim_nat, sim_exp_new.
  - apply sim_nat, sim_new_exp.
  - apply sim_unit, sim_exp_quant.
  - now apply sim_exp_bool.
  - now apply sim_unit, sim_exp_free.
  - apply sim_with_ctxs. intro. apply sim_stmt.
  - apply sim_unit, sim_modify. intros w s H. apply (R_fctx E w s (fun c => addEventHandler c l) H).
  - apply sim_unit, sim_modify. intros w s H. apply (R_fctx E w s clearEventHandlers H).
  - destruct l as [l|]; apply sim_unit, sim_modify; intros w s H.
    + apply (R_fctx E w s (fun c => setTestingFrameworkAdapter c l) H).
    + apply (R_fctx E w s resetTestingFrameworkAdapter H).
  - apply sim_bind; [apply sim_modify; intros w s H; apply (R_uncaught E w s S H)|]. intros _.
    apply sim_bind; [apply sim_attempt, HS|]. intros _.
    apply sim_unit, sim_modify. intros w s H. apply (R_uncaught E w s pred H).
Qed.

(** ** Programs *)
Lemma sim_exec : forall f o, sim (exec E f o) (sexec E f o).
Proof.
  induction f as [|f IH]; intro o; [apply sim_unspec|]. cbn [exec sexec]. apply sim_step; auto. apply exec_grows.
Qed.

Lemma sim_exec_all : forall f os, sim (exec_all E f os) (sexec_all E f os).
Proof.
  intros f os. induction os as [|o os IH]; cbn; [apply sim_ret|].
  apply sim_bind; [apply sim_attempt, sim_exec|]. intro x. apply sim_bind; auto. intro xs. apply sim_ret.
Qed.

Lemma class_tables_live : forall c d, nth_error classes c = Some d -> live (class_tables E) c = Some (class_table c d).
Proof.
  intros c d C. unfold class_tables.
  assert (G : forall l a i, nth_error l i = Some d ->
     nth_error (map (fun p => Some (class_table (fst p) (snd p))) (combine (seq a (length l)) l)) i =
     Some (Some (class_table (a + i) d))).
  { induction l as [|y l IH]; intros a [|i] N; cbn in *; try discriminate.
    - inversion N; subst. now rewrite Nat.add_0_r.
    - rewrite IH by auto. now rewrite <- plus_n_Sm. }
  apply live_nth. now rewrite (G _ 0 c C).
Qed.

Lemma R_init : forall m, R (init_world E m) (sinit m).
Proof.
  intro m. exists (fun _ => 0), (fun _ => 0).
  assert (NA : forall mm slot me, ~ at_ [] mm slot me).
  { intros mm slot me (k & K & _). unfold live in K. destruct mm; discriminate. }
  assert (NL : forall A i, live (@nil (option A)) i = None) by (intros; unfold live; destruct i; reflexivity).
  constructor; cbn; auto.
  - intros c d C. now apply class_tables_live.
  - split; auto. intro o. rewrite !NL. exact I.
  - split; auto. intro k. rewrite !NL. exact I.
  - intros k x X. rewrite NL in X. discriminate.
  - intros mm slot me A. exfalso. eapply NA; eauto.
  - constructor; intros; exfalso; eapply NA; eauto.
  - split; auto. split; auto. intro c. rewrite !NL. exact I.
  - constructor.
  - intros i v mt V. destruct i; discriminate.
  - split; auto. split; auto. lia.
  - intros mm slot me i A. exfalso. eapply NA; eauto.
  - split; [reflexivity|]. split; [apply Z.le_refl|]. intros _. split; intros i; [intros j x y _ X|intros x X]; destruct i; discriminate.
  - split; auto. reflexivity.
Qed.

(** What the abstract machine promises is what happens. *)
Theorem exec_all_refines : forall fuel m os s rs, sexec_all E fuel os (sinit m) = SOk s rs ->
  exists w, exec_all E fuel os (init_world E m) = RVal w rs /\ R w s.
Proof.
  intros fuel m os s rs H. pose proof (sim_exec_all fuel os _ _ (R_init m)) as S. unfold simw, WorldRel.simw in S.
  rewrite H in S. destruct S as (w & a & S1 & S2 & S3). unfold eqP in S3. subst a. eauto.
Qed.

Theorem exec_refines : forall fuel o w s, R w s ->
  match sexec E fuel o s with
  | SOk s' v => exists w', exec E fuel o w = RVal w' v /\ R w' s'
  | SExn s' e => exists w', exec E fuel o w = RExn w' e /\ R w' s'
  | SUnspec => True
  end.
Proof.
  intros fuel o w s H. pose proof (sim_exec fuel o _ _ H) as S. unfold simw, WorldRel.simw in S.
  destruct (sexec E fuel o s); auto. destruct S as (w' & a' & S1 & S2 & S3). unfold eqP in S3. subst. eauto.
Qed.

End S.
