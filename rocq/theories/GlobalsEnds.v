(** More about objects with static storage duration: the end comes, nothing is destroyed twice,
    no mock outlives what it reports to; special cases and counterexamples. *)
From Coq Require Import Bool Arith Lia List.
From Verif Require Import Globals Spec_Globals GlobalsProofs.
Import ListNotations.
Open Scope nat_scope.

(** *** The end comes *)

Lemma grun_nofuel : forall p x f s, grun p f x s <> GFuel.
Proof.
  intros p. induction x as [c|c|c|b|t|n c|g i|g l IH] using code_ind'; intros f s; cbn [grun];
    unfold need_ready, report, pass_static.
  - destruct (existsb _ _); discriminate.
  - destruct (existsb _ _); cbn; [|discriminate]. destruct (has _ _); discriminate.
  - destruct (existsb _ _); cbn; [|discriminate]. destruct (has _ _); cbn; [discriminate|].
    destruct (has (g_stack s) KUnknown); cbn [gbind]; destruct (has _ _); discriminate.
  - destruct (existsb _ _); cbn; [|discriminate]. destruct b; [|discriminate]. destruct (has _ _); discriminate.
  - destruct (p_trivial p t); [discriminate|]. destruct (has _ _); [discriminate|]. destruct (has (g_stack s) _); discriminate.
  - destruct (has _ _); [discriminate|]. destruct (has (g_stack s) _); cbn [gbind].
    + destruct (has _ _); discriminate.
    + destruct (existsb _ _); cbn [gbind]; [|discriminate]. destruct (has _ _); discriminate.
  - destruct (_ || _); [|discriminate]. destruct (mock_in p g i); [|discriminate]. destruct (has _ _); discriminate.
  - revert s. induction IH as [|y r Hy Hr IHr]; intro s; [discriminate|].
    specialize (Hy g s). destruct (grun p g y s); cbn [gbind]; try discriminate; [apply IHr|congruence].
Qed.

Lemma grun_all_nofuel : forall p l f s, grun_all p f l s <> GFuel.
Proof. intros p l f s. rewrite <- (grun_in p 0). apply grun_nofuel. Qed.

Lemma until_exit_nofuel : forall p, until_exit p <> GFuel.
Proof.
  intro p. unfold until_exit, before_main.
  assert (V : forall f i v s, init_var p f i v s <> GFuel).
  { intros f i v s. unfold init_var. pose proof (grun_all_nofuel p (v_init v) f s) as N.
    destruct (grun_all p f (v_init v) s); cbn [gbind]; try discriminate; [|congruence].
    unfold need_ready. destruct (v_mock v); [destruct (existsb _ _)|]; discriminate. }
  assert (VS : forall l f i s, init_vars p f i l s <> GFuel).
  { induction l as [|v l IH]; intros f i s; cbn [init_vars]; [discriminate|].
    specialize (V f i v s). destruct (init_var p f i v s); cbn [gbind]; try discriminate; [apply IH|congruence]. }
  assert (F : forall f x s, init_file p f x s <> GFuel).
  { intros f x s. unfold init_file, init_headers, pass_static. destruct (gf_includes x); cbn [gbind]; [|apply VS].
    destruct (has _ _); cbn [gbind]; [discriminate|]. destruct (has (g_stack s) _); cbn [gbind]; apply VS. }
  assert (FS : forall l f s, init_files p f l s <> GFuel).
  { induction l as [|x l IH]; intros f s; cbn [init_files]; [discriminate|].
    specialize (F f x s). destruct (init_file p f x s); cbn [gbind]; try discriminate; [apply IH|congruence]. }
  specialize (FS (p_files p) 0 (mkG [] [] [] [])).
  destruct (init_files p 0 (p_files p) (mkG [] [] [] [])); cbn [gbind]; try discriminate; [apply grun_all_nofuel|congruence].
Qed.

Definition work (p : gprog) (l : list key) : nat :=
  list_sum (map (fun k => S (length (flat_map brings (fini_of p k)))) l).

Lemma work_new : forall p new, (forall k, In k new -> forall f i, k <> KVar f i) -> work p new = length new.
Proof.
  intros p new. induction new as [|k r IH]; intro H; [reflexivity|].
  unfold work in *. cbn [map list_sum fold_right length]. unfold list_sum in IH. rewrite IH by (intros x I; apply H; now right).
  destruct k as [| |t|n|f i]; cbn; try lia. exfalso. exact (H (KVar f i) (or_introl eq_refl) f i eq_refl).
Qed.

Lemma work_app : forall p a b, work p (a ++ b) = work p a + work p b.
Proof. intros. unfold work. now rewrite map_app, list_sum_app. Qed.

Lemma exit_ends : forall p fuel s, work p (g_stack s) <= fuel -> at_exit p fuel s <> GFuel.
Proof.
  intros p fuel. induction fuel as [|fuel IH]; intros s W; cbn [at_exit].
  - destruct (g_stack s) as [|k r]; [discriminate|]. unfold work in W. cbn in W. lia.
  - destruct (g_stack s) as [|k r] eqn:S'; [discriminate|].
    destruct (grun_all p (file_of k) (fini_of p k) (mkG (g_ready s) r [k] (g_dead s))) as [s1| | |] eqn:R;
      cbn [gbind]; try discriminate; [|exact (fun _ => grun_all_nofuel _ _ _ _ R)].
    apply IH. cbn [g_stack].
    destruct (shape_all _ _ _ _ _ R) as (new & X). rewrite (ex_stack _ _ _ _ X), work_app. cbn [g_stack].
    rewrite work_new by (intros x I; exact (proj1 (ex_kind _ _ _ _ X x I))).
    pose proof (NoDup_incl_length (ex_nodup _ _ _ _ X) (ex_incl _ _ _ _ X)) as L.
    unfold work in *. cbn [map list_sum fold_right] in W. unfold list_sum. lia.
Qed.

Lemma whole_ends : forall p, exists n, forall fuel, n <= fuel -> whole p fuel <> GFuel.
Proof.
  intro p. unfold whole. pose proof (until_exit_nofuel p) as N. destruct (until_exit p) as [s| | |] eqn:E.
  - exists (work p (g_stack s)). intros fuel L. cbn. now apply exit_ends.
  - exists 0. intros fuel _. discriminate.
  - exists 0. intros fuel _. discriminate.
  - congruence.
Qed.

(** *** No mock outlives what it reports to *)

Definition mneed (p : gprog) (k k' : key) : Prop := is_mock p k /\ k' = KInst.

Record sound (p : gprog) (s : gstate) : Prop := mkSound {
  sd_piled : piled (mneed p) (g_stack s);
  sd_apart : forall k, In k (g_stack s) -> ~ In k (g_dead s);
  sd_dead : NoDup (g_dead s);
  sd_gone : forall k, is_mock p k -> In k (g_dead s) -> In KInst (g_stack s) \/ went_before (g_dead s) k KInst }.

Lemma ext_sound : forall p ks s s' new, sound p s -> extends ks s s' new -> sound p s'.
Proof.
  intros p ks s s' new S' X. constructor.
  - rewrite (ex_stack _ _ _ _ X).
    pose proof (ex_nodup _ _ _ _ X) as N. pose proof (ex_fresh _ _ _ _ X) as FR. pose proof (ex_kind _ _ _ _ X) as K.
    pose proof (ex_local _ _ _ _ X) as L. pose proof (sd_piled _ _ S') as P. clear - N FR K L P.
    induction new as [|k r IH]; [exact P|]. inversion N; subst. cbn. constructor.
    + intros k' (M & ->). apply in_or_app. right.
      destruct k as [| |t|n|f i]; cbn in M; try contradiction; [apply (L n); now left|].
      exfalso. exact (proj1 (K _ (or_introl eq_refl)) f i eq_refl).
    + intro I. apply in_app_or in I. destruct I as [I|I]; [contradiction|]. exact (proj1 (FR k (or_introl eq_refl)) I).
    + apply IH; auto; intros x I; [apply FR|apply K|apply (L x)]; now right.
  - rewrite (ex_stack _ _ _ _ X), (ex_dead _ _ _ _ X). intros k I. apply in_app_or in I.
    destruct I as [I|I]; [exact (proj2 (ex_fresh _ _ _ _ X k I))|exact (sd_apart _ _ S' k I)].
  - rewrite (ex_dead _ _ _ _ X). apply S'.
  - rewrite (ex_stack _ _ _ _ X), (ex_dead _ _ _ _ X). intros k M I.
    destruct (sd_gone _ _ S' k M I) as [J|J]; [left; apply in_or_app; now right|now right].
Qed.

(** Before variable i of file f. *)
Record fresh_at (f i : nat) (s : gstate) : Prop := mkFr {
  fr_dead : g_dead s = [];
  fr_inst : g_ready s <> [] -> In KInst (g_stack s);
  fr_vars : forall f' i', In (KVar f' i') (g_stack s) -> f' < f \/ (f' = f /\ i' < i) }.

Lemma ext_fresh : forall ks f i s s' new, fresh_at f i s -> extends ks s s' new -> fresh_at f i s'.
Proof.
  intros ks f i s s' new F X. constructor.
  - rewrite (ex_dead _ _ _ _ X). apply F.
  - rewrite (ex_ready _ _ _ _ X), (ex_stack _ _ _ _ X). intro N. apply in_or_app. right. now apply F.
  - rewrite (ex_stack _ _ _ _ X). intros f' i' I. apply in_app_or in I. destruct I as [I|I]; [|now apply F].
    exfalso. exact (proj1 (ex_kind _ _ _ _ X _ I) f' i' eq_refl).
Qed.

Lemma init_var_sound : forall p f i v s s', variable p f i v -> sound p s -> fresh_at f i s ->
  init_var p f i v s = GOk s' -> sound p s' /\ fresh_at f (S i) s'.
Proof.
  intros p f i v s s' V SO FR E. unfold init_var in E.
  apply gbind_inv in E. destruct E as (s1 & E1 & E). destruct (shape_all _ _ _ _ _ E1) as (new & X).
  pose proof (ext_sound _ _ _ _ _ SO X) as SO1. pose proof (ext_fresh _ _ _ _ _ _ FR X) as FR1. clear SO FR X E1.
  apply gbind_inv in E. destruct E as (s2 & E2 & E).
  assert (K : s2 = s1 /\ (v_mock v <> None -> In KInst (g_stack s1))).
  { destruct (v_mock v) as [c|]; [|injection E2 as <-; split; [reflexivity|congruence]].
    apply need_ready_inv in E2. destruct E2 as (-> & R). split; [reflexivity|]. intros _. apply (fr_inst _ _ _ FR1).
    intro Z. rewrite Z in R. exact R. }
  destruct K as (-> & K). injection E as <-.
  assert (NI : ~ In (KVar f i) (g_stack s1)) by (intro I; apply (fr_vars _ _ _ FR1) in I; lia).
  split; constructor; cbn.
  - constructor; [|exact NI|apply SO1]. intros k' ((v' & c & V' & M) & ->). apply K.
    apply var_in_spec in V, V'. rewrite V in V'. injection V' as <-. congruence.
  - intros k _. rewrite (fr_dead _ _ _ FR1). auto.
  - apply SO1.
  - intros k M I. rewrite (fr_dead _ _ _ FR1) in I. contradiction.
  - apply FR1.
  - intro N. right. now apply FR1.
  - intros f' i' [Z|I]; [injection Z as <- <-; right; lia|]. apply (fr_vars _ _ _ FR1) in I. lia.
Qed.

Lemma init_vars_sound : forall p f l i s s',
  (forall j v, nth_error l j = Some v -> variable p f (i + j) v) -> sound p s -> fresh_at f i s ->
  init_vars p f i l s = GOk s' -> sound p s' /\ fresh_at f (i + length l) s'.
Proof.
  intros p f l. induction l as [|v l IH]; intros i s s' V SO FR E; cbn [init_vars length] in *.
  - injection E as <-. rewrite Nat.add_0_r. auto.
  - apply gbind_inv in E. destruct E as (s1 & E1 & E).
    assert (V0 : variable p f i v) by (specialize (V 0 v eq_refl); now rewrite Nat.add_0_r in V).
    destruct (init_var_sound p f i v s s1 V0 SO FR E1) as (SO1 & FR1).
    replace (i + S (length l)) with (S i + length l) by lia. apply (IH (S i) s1 s'); auto.
    intros j w Z. specialize (V (S j) w Z). now replace (S i + j) with (i + S j) by lia.
Qed.

Lemma init_files_sound : forall p l f s s',
  (forall j x, nth_error l j = Some x -> nth_error (p_files p) (f + j) = Some x) -> sound p s -> fresh_at f 0 s ->
  init_files p f l s = GOk s' -> sound p s' /\ fresh_at (f + length l) 0 s'.
Proof.
  intros p l. induction l as [|x l IH]; intros f s s' V SO FR E; cbn [init_files length] in *.
  - injection E as <-. rewrite Nat.add_0_r. auto.
  - apply gbind_inv in E. destruct E as (s1 & E1 & E). unfold init_file in E1.
    apply gbind_inv in E1. destruct E1 as (s0 & E0 & E1).
    assert (V0 : nth_error (p_files p) f = Some x) by (specialize (V 0 x eq_refl); now rewrite Nat.add_0_r in V).
    assert (S0 : sound p s0 /\ fresh_at f 0 s0).
    { destruct (gf_includes x); [|injection E0 as <-; auto].
      unfold init_headers, pass_static in E0. rewrite (fr_dead _ _ _ FR) in E0. cbn [has existsb] in E0.
      destruct (has_spec (g_stack s) KInst) as [I|I]; cbn [gbind g_stack g_ready g_closing g_dead] in E0; injection E0 as <-.
      - split; constructor; cbn; try apply SO; try apply FR; auto.
      - split; constructor; cbn; try apply SO.
        + constructor; [|exact I|apply SO]. intros k' (M & _). contradiction.
        + auto.
        + constructor.
        + contradiction.
        + reflexivity.
        + auto.
        + intros f' i' [Z|J]; [discriminate|]. now apply FR. }
    destruct S0 as (SO0 & FR0).
    destruct (init_vars_sound p f (gf_vars x) 0 s0 s1) as (SO1 & FR1); auto.
    { intros j v Z. exists x. auto. }
    replace (f + S (length l)) with (S f + length l) by lia. apply (IH (S f) s1 s'); auto.
    + intros j w Z. specialize (V (S j) w Z). now replace (S f + j) with (f + S j) by lia.
    + constructor; try apply FR1. intros f' i' I. apply (fr_vars _ _ _ FR1) in I. lia.
Qed.

Lemma exit_sound : forall p fuel s s', sound p s -> at_exit p fuel s = GOk s' -> sound p s' /\ g_stack s' = [].
Proof.
  intros p fuel. induction fuel as [|fuel IH]; intros s s' SO E; cbn [at_exit] in E.
  - destruct (g_stack s) eqn:S'; [|discriminate]. injection E as <-. auto.
  - destruct (g_stack s) as [|k r] eqn:S'; [injection E as <-; auto|].
    apply gbind_inv in E. destruct E as (s1 & R & E). eapply IH; [|exact E].
    pose proof (sd_piled _ _ SO) as P. rewrite S' in P. inversion P as [|k0 r0 NE NI PR]; subst.
    destruct (shape_all _ _ _ _ _ R) as (new & X).
    assert (NEW : ~ In k new).
    { intro I. destruct k as [| |t|m|f i]; try (pose proof (ex_incl _ _ _ _ X _ I) as []).
      exact (proj1 (ex_kind _ _ _ _ X _ I) f i eq_refl). }
    (* what would be without the object being destroyed *)
    assert (NOTD : ~ In k (g_dead s)) by (apply (sd_apart _ _ SO); rewrite S'; now left).
    assert (PN : piled (mneed p) (new ++ r)).
    { pose proof (ex_nodup _ _ _ _ X) as N. pose proof (ex_fresh _ _ _ _ X) as FR. pose proof (ex_kind _ _ _ _ X) as KD.
      pose proof (ex_local _ _ _ _ X) as L. cbn in FR, L. clear - N FR KD L PR.
      induction new as [|x q IHn]; [exact PR|]. inversion N; subst. cbn. constructor.
      - intros k' (M & ->). apply in_or_app. right.
        destruct x as [| |t|n|f i]; cbn in M; try contradiction; [apply (L n); now left|].
        exfalso. exact (proj1 (KD _ (or_introl eq_refl)) f i eq_refl).
      - intro I. apply in_app_or in I. destruct I as [I|I]; [contradiction|]. exact (proj1 (FR x (or_introl eq_refl)) I).
      - apply IHn; auto; intros y I; [apply FR|apply KD|apply (L y)]; now right. }
    assert (ST : g_stack s1 = new ++ r) by apply X. assert (DD : g_dead s1 = g_dead s) by apply X.
    constructor; cbn [g_stack g_dead].
    + rewrite ST. exact PN.
    + rewrite ST, DD. intros x I [<-|D].
      * apply in_app_or in I. tauto.
      * apply in_app_or in I. destruct I as [I|I].
        -- exact (proj2 (ex_fresh _ _ _ _ X x I) D).
        -- apply (sd_apart _ _ SO x); [rewrite S'; now right|exact D].
    + rewrite DD. constructor; [exact NOTD|apply SO].
    + rewrite ST, DD. intros x M [<-|I].
      * left. apply in_or_app. right. apply NE. split; [exact M|reflexivity].
      * destruct (sd_gone _ _ SO x M I) as [J|(a & b & EQ & J)].
        -- rewrite S' in J. destruct J as [-> |J].
           ++ right. apply in_split in I. destruct I as (a & b & EQ). exists (KInst :: a), b. rewrite EQ. split; [reflexivity|now left].
           ++ left. apply in_or_app. now right.
        -- right. exists (k :: a), b. rewrite EQ. split; [reflexivity|now right].
Qed.

Lemma outlived : forall p fuel s, whole p fuel = GOk s ->
  g_stack s = [] /\ NoDup (g_dead s) /\ forall k, is_mock p k -> In k (g_dead s) -> went_before (g_dead s) k KInst.
Proof.
  intros p fuel s E. unfold whole in E. apply gbind_inv in E. destruct E as (s1 & E1 & E).
  unfold until_exit, before_main in E1. apply gbind_inv in E1. destruct E1 as (s0 & E0 & E1).
  destruct (init_files_sound p (p_files p) 0 (mkG [] [] [] []) s0) as (SO0 & _); auto.
  - constructor; cbn; auto; try contradiction; constructor.
  - constructor; cbn; auto; try contradiction.
  - destruct (shape_all _ _ _ _ _ E1) as (new & X). pose proof (ext_sound _ _ _ _ _ SO0 X) as SO1.
    destruct (exit_sound p fuel s1 s SO1 E) as (SO & N). split; [exact N|]. split; [apply SO|].
    intros k M I. destruct (sd_gone _ _ SO k M I) as [J|J]; [rewrite N in J; contradiction|exact J].
Qed.

(** *** Special cases *)

Lemma one_file_ok : forall p vars fuel,
  p_files p = [mkFile true vars] ->
  (forall f c, p_kept p f c = 0) ->
  (forall v g, In v vars -> In g (all_reads p 0 (v_init v)) \/ In g (all_reads p 0 (v_fini v)) -> g = 0) ->
  (forall g, In g (all_reads p 0 (p_main p)) -> g = 0) ->
  (forall v, In v vars -> all_values p (v_fini v) = []) ->
  whole p fuel <> GUB.
Proof.
  intros p vars fuel F K R M V. apply orderly_ok.
  assert (INC : includes p 0) by (exists (mkFile true vars); rewrite F; auto).
  assert (VAR : forall f i v, variable p f i v -> f = 0 /\ In v vars).
  { intros f i v (x & E & N). rewrite F in E. destruct f as [|[|f]]; cbn in E; try discriminate.
    injection E as <-. split; [reflexivity|]. exact (nth_error_In _ _ N). }
  constructor.
  - intros f i v g H I. destruct (VAR f i v H) as (-> & HV).
    assert (g = 0) as ->; [|auto]. destruct I as [I|(c & _ & ->)]; [apply (R v); auto|apply K].
  - intros g I. now rewrite (M g I).
  - intros f i v g H I. destruct (VAR f i v H) as (-> & HV).
    rewrite (R v g HV (or_intror I)). split; [exact INC|]. exists 0. auto.
  - intros f i v k H I. destruct (VAR f i v H) as (-> & HV). rewrite (V v HV) in I. contradiction.
Qed.

Lemma no_variables_ok : forall p fuel,
  (forall x, In x (p_files p) -> gf_vars x = []) ->
  (forall g, In g (all_reads p 0 (p_main p)) -> includes p g) ->
  whole p fuel <> GUB.
Proof.
  intros p fuel N M. apply orderly_ok.
  assert (VAR : forall f i v, ~ variable p f i v).
  { intros f i v (x & E & W). rewrite (N x (nth_error_In _ _ E)) in W. destruct i; discriminate. }
  constructor; auto; intros f i v g V; destruct (VAR f i v V).
Qed.

(** *** Counterexamples *)

Lemma clash_of_files : forall kept trivial vars1 more c vars fuel main,
  kept 0 c = 1 ->
  whole (mkProg (mkFile true (mkVar [] [] (Some c) :: vars1) :: mkFile true vars :: more) trivial kept main) fuel = GUB.
Proof.
  intros kept trivial vars1 more c vars fuel main K. unfold whole, until_exit, before_main.
  cbn [p_files init_files]. unfold init_file, init_headers. cbn [gf_includes gf_vars pass_static has existsb g_dead g_stack gbind].
  cbn [init_vars]. unfold init_var. cbn [v_init v_mock grun_all gbind p_kept]. rewrite K. reflexivity.
Qed.

Lemma exit_default : forall kept trivial t fuel,
  trivial t = false ->
  whole (mkProg [mkFile true [mkVar [] [LDefault t] None]] trivial kept [LDefault t]) (S (S fuel)) = GUB /\
  whole (mkProg [mkFile true [mkVar [] [LDefault t] None; mkVar [] [LDefault t] None]] trivial kept []) (S (S (S fuel))) = GUB.
Proof.
  intros kept trivial t fuel T. unfold whole, until_exit, before_main, init_file, init_headers, pass_static, init_var.
  split; cbn; repeat (first [rewrite T | unfold pass_static, has; cbn; rewrite Nat.eqb_refl | progress unfold pass_static, has]; cbn); reflexivity.
Qed.

Lemma exit_unmocked : forall trivial c fuel,
  whole (mkProg [mkFile true [mkVar [] [LUnmocked c] None]] trivial (fun _ _ => 0) [LUnmocked c]) (S (S fuel)) = GUB.
Proof. intros. reflexivity. Qed.

Lemma exit_early : forall kept trivial fuel fails,
  whole (mkProg [mkFile false [mkVar [] [LIn 1 [LVerify true]] None]; mkFile true []] trivial kept [LIn 1 [LVerify fails]]) (S (S fuel)) = GUB.
Proof. intros kept trivial fuel []; reflexivity. Qed.

(** *** Programs that use no variable of the user run to their end *)

Lemma grun_own : forall p x f s, no_own x = true -> grun p f x s <> GOwn.
Proof.
  intros p. induction x as [c|c|c|b|t|n c|g i|g l IH] using code_ind'; intros f s N; cbn [grun no_own] in *;
    unfold need_ready, report, pass_static; try discriminate.
  - destruct (existsb _ _); discriminate.
  - destruct (existsb _ _); cbn; [|discriminate]. destruct (has _ _); discriminate.
  - destruct (existsb _ _); cbn; [|discriminate]. destruct (has _ _); cbn; [discriminate|].
    destruct (has (g_stack s) KUnknown); cbn [gbind]; destruct (has _ _); discriminate.
  - destruct (existsb _ _); cbn; [|discriminate]. destruct b; [|discriminate]. destruct (has _ _); discriminate.
  - destruct (p_trivial p t); [discriminate|]. destruct (has _ _); [discriminate|]. destruct (has (g_stack s) _); discriminate.
  - revert s. induction IH as [|y r Hy Hr IHr]; intro s; [discriminate|].
    cbn in N. apply andb_true_iff in N. destruct N as (Ny & Nr).
    specialize (Hy g s Ny). destruct (grun p g y s); cbn [gbind]; try discriminate; [apply IHr; exact Nr|congruence].
Qed.

Lemma grun_all_own : forall p l f s, forallb no_own l = true -> grun_all p f l s <> GOwn.
Proof. intros p l f s N. rewrite <- (grun_in p 0). apply grun_own. exact N. Qed.

Lemma until_exit_own : forall p, without_own p -> until_exit p <> GOwn.
Proof.
  intros p (NM & NV). unfold until_exit, before_main.
  assert (V : forall f i v s, variable p f i v -> init_var p f i v s <> GOwn).
  { intros f i v s VV. unfold init_var. pose proof (grun_all_own p (v_init v) f s (proj1 (NV f i v VV))) as N.
    destruct (grun_all p f (v_init v) s); cbn [gbind]; try discriminate; [|congruence].
    unfold need_ready. destruct (v_mock v); [destruct (existsb _ _)|]; discriminate. }
  assert (VS : forall l f i s, (forall j v, nth_error l j = Some v -> variable p f (i + j) v) -> init_vars p f i l s <> GOwn).
  { induction l as [|v l IH]; intros f i s H; cbn [init_vars]; [discriminate|].
    assert (V0 : variable p f i v) by (specialize (H 0 v eq_refl); now rewrite Nat.add_0_r in H).
    specialize (V f i v s V0). destruct (init_var p f i v s); cbn [gbind]; try discriminate; [|congruence].
    apply IH. intros j w Z. specialize (H (S j) w Z). now replace (S i + j) with (i + S j) by lia. }
  assert (F : forall f x s, nth_error (p_files p) f = Some x -> init_file p f x s <> GOwn).
  { intros f x s E. assert (X : forall s, init_vars p f 0 (gf_vars x) s <> GOwn).
    { intro s0. apply VS. intros j v Z. exists x. auto. }
    unfold init_file, init_headers, pass_static. destruct (gf_includes x); cbn [gbind]; [|apply X].
    destruct (has _ _); cbn [gbind]; [discriminate|]. destruct (has (g_stack s) _); cbn [gbind]; apply X. }
  assert (FS : forall l f s, (forall j x, nth_error l j = Some x -> nth_error (p_files p) (f + j) = Some x) -> init_files p f l s <> GOwn).
  { induction l as [|x l IH]; intros f s H; cbn [init_files]; [discriminate|].
    assert (V0 : nth_error (p_files p) f = Some x) by (specialize (H 0 x eq_refl); now rewrite Nat.add_0_r in H).
    specialize (F f x s V0). destruct (init_file p f x s); cbn [gbind]; try discriminate; [|congruence].
    apply IH. intros j w Z. specialize (H (S j) w Z). now replace (S f + j) with (f + S j) by lia. }
  specialize (FS (p_files p) 0 (mkG [] [] [] []) (fun j x E => E)).
  destruct (init_files p 0 (p_files p) (mkG [] [] [] [])); cbn [gbind]; try discriminate; [now apply grun_all_own|congruence].
Qed.

Lemma fini_own : forall p k, without_own p -> forallb no_own (fini_of p k) = true.
Proof.
  intros p [| |t|n|f i] (_ & NV); try reflexivity. cbn [fini_of].
  destruct (var_in p f i) as [v|] eqn:E; [|reflexivity]. apply var_in_spec in E. apply (NV f i v E).
Qed.

Lemma exit_own : forall p fuel s, without_own p -> at_exit p fuel s <> GOwn.
Proof.
  intros p fuel. induction fuel as [|fuel IH]; intros s N; cbn [at_exit].
  - destruct (g_stack s); discriminate.
  - destruct (g_stack s) as [|k r]; [discriminate|].
    pose proof (grun_all_own p (fini_of p k) (file_of k) (mkG (g_ready s) r [k] (g_dead s)) (fini_own p k N)) as X.
    destruct (grun_all p (file_of k) (fini_of p k) (mkG (g_ready s) r [k] (g_dead s))); cbn [gbind]; try discriminate; [|congruence].
    apply IH, N.
Qed.

Lemma runs_through : forall p, orderly p -> without_own p -> exists n, forall fuel, n <= fuel -> exists s, whole p fuel = GOk s.
Proof.
  intros p O N. destruct (whole_ends p) as (n & E). exists n. intros fuel L.
  specialize (E fuel L). pose proof (orderly_ok p fuel O) as U.
  assert (W : whole p fuel <> GOwn).
  { unfold whole. pose proof (until_exit_own p N). destruct (until_exit p); cbn [gbind]; try discriminate; [|congruence]. now apply exit_own. }
  destruct (whole p fuel) as [s| | |]; try congruence. eauto.
Qed.
