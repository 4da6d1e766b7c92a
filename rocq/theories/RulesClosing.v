(** Operations other than declarations leave no expression behind and add neither mocks nor objects.  Nor do they destroy any. *)
From Coq Require Import Bool ZArith Lia List Permutation.
From Verif Require Import Base CInt Values ArgMatchers InvMatchers Spec_Conditions ConditionProofs ActionSeq Sequences MatchAnalysis
  Spec_Match Proxy Events EventsProofs Expectation Spec_Verify ReturnSet Syntax World Spec_World WorldRel WorldSimA WorldSimB WorldSimE
  Spec_View SpecFacts SpecKept Spec_Alike SpecFrame SpecHistory SpecLasting Spec_Verification SpecVerify Spec_Rules.
Import ListNotations.
Open Scope nat_scope.

(** ** The machine without stored expressions and declarations *)
Definition stores (o : op) : bool := match o with OCtx _ | ONewObj _ | OMock _ | OSpyMock _ _ | OMockDestroy _ | OFreeObj _ => true | _ => false end.
Fixpoint cexec (E : env) (fuel : nat) (o : op) : SM val :=
  match fuel with
  | O => unspec
  | S f => if stores o then unspec else sstep E (cexec E f) o
  end.

Definition leS {A} (m m' : SM A) : Prop := forall s, m s = SUnspec \/ m s = m' s.
Lemma leS_refl : forall A (m : SM A), leS m m.
Proof. intros A m s. now right. Qed.
Lemma leS_bind : forall A B (m m' : SM A) (k k' : A -> SM B),
  leS m m' -> (forall a, leS (k a) (k' a)) -> leS (sbind m k) (sbind m' k').
Proof.
  intros A B m m' k k' H K s. unfold sbind. destruct (H s) as [->| <-]; [now left|].
  destruct (m s) as [s' a|s' e|]; auto. apply K.
Qed.
Lemma leS_attempt : forall A (m m' : SM A), leS m m' -> leS (sattempt m) (sattempt m').
Proof. intros A m m' H s. unfold sattempt. destruct (H s) as [->| <-]; auto. Qed.
Lemma leS_guarded : forall A (m m' : SM A) f, leS m m' -> leS (sguarded m f) (sguarded m' f).
Proof. intros A m m' f H. unfold sguarded. apply leS_bind; [now apply leS_attempt|]. intro; apply leS_refl. Qed.

Section Mono.
Variable E : env.
Variables rec rec' : op -> SM val.
Hypothesis Hrec : forall o, leS (rec o) (rec' o).
Ltac le :=
  repeat (intros; lazymatch goal with
  | |- leS ?m ?m => apply leS_refl
  | |- leS (sbind _ _) (sbind _ _) => apply leS_bind
  | |- leS (sattempt _) (sattempt _) => apply leS_attempt
  | |- leS (sguarded _ _) (sguarded _ _) => apply leS_guarded
  | |- leS (match ?x with _ => _ end) _ => destruct x
  | |- leS (rec _) (rec' _) => apply Hrec
  end).
Lemma le_srun_prog : forall p fr, leS (srun_prog rec fr p) (srun_prog rec' fr p).
Proof. fix IH 1. intros [v|e|i k|i v k|k|o k] fr; cbn [srun_prog]; le; intros; apply IH. Qed.
Lemma le_srun_callable : forall f i, leS (srun_callable E rec f i) (srun_callable E rec' f i).
Proof. intros [p| |r vals|r vals|m o slot forward] i; cbn [srun_callable]; le; intros; apply le_srun_prog. Qed.
Lemma le_splay : forall m e st i, leS (splay E rec m e st i) (splay E rec' m e st i).
Proof. intros. unfold splay; le; intros; apply le_srun_callable. Qed.
Lemma le_sstubbed : forall m e args, leS (sstubbed E rec m e args) (sstubbed E rec' m e args).
Proof. intros. unfold sstubbed; cbn zeta; le; intros; apply le_splay. Qed.
Lemma le_sbody : forall c o slot args, leS (sbody E rec c o slot args) (sbody E rec' c o slot args).
Proof. intros. unfold sbody; le; intros; apply le_srun_prog. Qed.
Lemma le_sinitial : forall k d x o slot args, leS (sinitial E rec k d x o slot args) (sinitial E rec' k d x o slot args).
Proof. intros. unfold sinitial; le; intros; apply le_sbody. Qed.
Lemma le_sstep : forall o, leS (sstep E rec o) (sstep E rec' o).
Proof.
  intros []; cbn [sstep]; le. unfold scall; le; intros; first [apply le_sbody|apply le_sinitial|apply le_sstubbed].
Qed.
End Mono.

Lemma cexec_le : forall E f o, leS (cexec E f o) (sexec E f o).
Proof.
  intros E. induction f as [|f IH]; intro o; [apply leS_refl|]. cbn [cexec sexec]. destruct (stores o); [intro; now left|].
  apply le_sstep. exact IH.
Qed.
Lemma always_le : forall P A (m m' : SM A), leS m m' -> always P m' -> always P m.
Proof. intros P A m m' L H s. destruct (L s) as [->| ->]; [exact Logic.I|apply H]. Qed.

(** ** It leaves no expression behind and adds neither mocks nor objects *)
(* Which mocks and objects there are, and the objects of the mocks. *)
Definition outline (s : sworld) : list (option nat) * list (option unit) :=
  (map (option_map sk_obj) (s_mocks s), map (option_map (fun _ => tt)) (s_objs s)).
Lemma outline_upd : forall A B (f : A -> B) (l : list (option A)) i x y, live l i = Some x -> f y = f x ->
  map (option_map f) (upd l i (Some y)) = map (option_map f) l.
Proof.
  intros A B f l. induction l as [|z l IH]; intros [|i] x y L Q; auto.
  - cbn in *. unfold live in L. cbn in L. subst z. cbn. now rewrite Q.
  - cbn [upd map]. f_equal. eapply IH; eauto.
Qed.
Definition shown (s : sworld) (t : nat + list (option nat) * list (option unit)) : Prop :=
  match t with inl c => live (s_ctxs s) c <> None | inr p => outline s = p end.
Definition closing (s s' : sworld) : Prop := forall c, shown s' c -> shown s c.
Lemma closing_outline : forall s s', closing s s' -> outline s' = outline s.
Proof. intros s s' H. symmetry. exact (H (inr (outline s')) eq_refl). Qed.
Lemma closing_refl : forall s, closing s s.
Proof. intros s c H. exact H. Qed.
Lemma closing_trans : forall a b c, closing a b -> closing b c -> closing a c.
Proof. intros a b c H K x X. auto. Qed.
Lemma closing_same : forall s s', s_ctxs s' = s_ctxs s -> outline s' = outline s -> closing s s'.
Proof. intros s s' Q L [c|i]; unfold shown; [now rewrite Q|now rewrite L]. Qed.

Section C.
Variable E : env.
Local Notation cl := (always closing).
Ltac st := aw closing_refl closing_trans.
Ltac sm := apply aw_modify; intro; apply closing_same; [reflexivity|reflexivity].

Lemma cl_looks : forall A (m : SM A), always only_looked m -> cl m.
Proof.
  intros A m H s. specialize (H s). destruct (m s); auto; apply closing_same; try apply H; unfold outline; now rewrite (lo_mocks _ _ H), (lo_objs _ _ H).
Qed.
Lemma cl_report : forall e, cl (sreport E e).
Proof. intros. unfold sreport. st. destruct (ctx_handle (e_react E) (e_builtin E) a e) as [dn x]. st. sm. Qed.
(** What was looked up is changed. *)
Lemma same_put_mock : forall s m k k', live (s_mocks s) m = Some k -> sk_obj k' = sk_obj k -> outline (sset_mocks s (upd (s_mocks s) m (Some k'))) = outline s.
Proof. intros s m k k' L Q. unfold outline. cbn. now rewrite (outline_upd _ _ sk_obj _ _ _ _ L Q). Qed.
Lemma same_put_obj : forall s o x x', live (s_objs s) o = Some x -> outline (sset_objs s (upd (s_objs s) o (Some x'))) = outline s.
Proof. intros s o x x' L. unfold outline. cbn. now rewrite (outline_upd sobj unit (fun _ => tt) _ _ _ _ L eq_refl). Qed.
Lemma cl_get_mock : forall A m (K : smock -> SM A),
  (forall s k, live (s_mocks s) m = Some k -> match K k s with SOk s' _ | SExn s' _ => closing s s' | SUnspec => True end) ->
  cl (let? k := sget s_mocks m in K k).
Proof.
  intros A m K H s. unfold sbind, sget, sgets, sopt. unfold sbind. destruct (live (s_mocks s) m) as [k|] eqn:L; [|exact Logic.I]. cbn. now apply H.
Qed.
Lemma cl_get_obj : forall A m (K : sobj -> SM A),
  (forall s k, live (s_objs s) m = Some k -> match K k s with SOk s' _ | SExn s' _ => closing s s' | SUnspec => True end) ->
  cl (let? k := sget s_objs m in K k).
Proof.
  intros A m K H s. unfold sbind, sget, sgets, sopt. unfold sbind. destruct (live (s_objs s) m) as [k|] eqn:L; [|exact Logic.I]. cbn. now apply H.
Qed.
Lemma cl_zero : forall k, cl (szero k).
Proof.
  intro k. unfold szero. destruct (sk_owner k); [|st]. apply cl_get_obj. intros s x L. apply closing_same; [reflexivity|].
  eapply same_put_obj; eauto.
Qed.
Lemma cl_put_then : forall A m k k' (K : SM A) s, live (s_mocks s) m = Some k -> sk_obj k' = sk_obj k -> cl K ->
  match (let? _ := sput_mock m k' in K) s with SOk s' _ | SExn s' _ => closing s s' | SUnspec => True end.
Proof.
  intros A m k k' K s L Q H. unfold sbind, sput_mock, smodify. specialize (H (sset_mocks s (upd (s_mocks s) m (Some k')))).
  assert (C : closing s (sset_mocks s (upd (s_mocks s) m (Some k')))) by (apply closing_same; [reflexivity|eapply same_put_mock; eauto]).
  destruct (K (sset_mocks s (upd (s_mocks s) m (Some k')))); auto; eapply closing_trans; eauto.
Qed.
Lemma cl_reset : forall m, cl (smock_reset m).
Proof.
  intro m. unfold smock_reset. apply cl_get_mock. intros s k L. destruct (quiet k); [|exact Logic.I].
  eapply cl_put_then; eauto using cl_zero.
Qed.
Lemma cl_clear : forall m, cl (smock_clear m).
Proof. intro m. unfold smock_clear. apply cl_get_mock. intros s k L. eapply cl_put_then; eauto using cl_zero. Qed.
Lemma cl_method : forall m e, cl (smethod m e).
Proof. intros. unfold smethod. st. Qed.
Lemma cl_set_method : forall m e x, cl (sset_method m e x).
Proof.
  intros. unfold sset_method. apply cl_get_mock. intros s k L. apply closing_same; [reflexivity|]. eapply same_put_mock; eauto.
Qed.
Lemma cl_mention : forall t, cl (smention E t).
Proof.
  intro t. unfold smention. apply aw_bind; [exact closing_trans|unfold starget; st|]. intros [[[m e] id] r].
  st; auto using cl_set_method. sm.
Qed.
Lemma cl_ctx_free : forall c, cl (sctx_free c).
Proof.
  intros c. unfold sctx_free. st. apply aw_modify. intros s [c'|i'] H; [|exact H]. unfold shown in *. cbn in H.
  destruct (Nat.eq_dec c c') as [<-|N].
  - intro X. apply H. unfold live in *. destruct (nth_error (s_ctxs s) c) as [y|] eqn:NE.
    + now rewrite nth_error_upd_same by (apply nth_error_Some; congruence).
    + now rewrite upd_oob, NE by (now apply nth_error_None).
  - now rewrite live_upd_out in H by auto.
Qed.
Definition same_ctxs (s s' : sworld) : Prop := s_ctxs s' = s_ctxs s /\ outline s' = outline s.
Lemma same_refl : forall s, same_ctxs s s.
Proof. split; reflexivity. Qed.
Lemma same_trans : forall a b c, same_ctxs a b -> same_ctxs b c -> same_ctxs a c.
Proof. unfold same_ctxs. intros a b c [A1 A2] [B1 B2]. split; congruence. Qed.
Lemma sc_set_method : forall m e x, always same_ctxs (sset_method m e x).
Proof.
  intros m e x s. unfold sset_method, sbind, sget, sgets, sopt. unfold sbind. destruct (live (s_mocks s) m) as [k|] eqn:L; [|exact Logic.I].
  cbn. split; [reflexivity|]. eapply same_put_mock; eauto.
Qed.
Lemma sc_mention : forall t, always same_ctxs (smention E t).
Proof.
  intro t. unfold smention. apply aw_bind; [exact same_trans|unfold starget; aw same_refl same_trans|]. intros [[[m e] id] r].
  aw same_refl same_trans; auto using sc_set_method. apply aw_modify. intro. split; [reflexivity|reflexivity].
Qed.
(** Between looking an expression up and changing it nothing is created. *)
Lemma cl_put_after : forall A c (k : sctx -> SM A) (g : sctx -> A -> sctx), (forall x, always same_ctxs (k x)) ->
  cl (let? x := sctx_unused c in let? a := k x in sput_ctx c (g x a)).
Proof.
  intros A c k g K s. unfold sctx_unused. unfold sbind at 1 2. unfold sget, sgets, sbind at 1, sopt.
  destruct (live (s_ctxs s) c) as [x|] eqn:L; [|exact Logic.I]. unfold sret at 1. destruct (sx_committed x); [exact Logic.I|].
  unfold sret, sbind. specialize (K x s). destruct (k x s) as [s1 a|s1 e|]; [|apply closing_same; apply K|exact Logic.I].
  destruct K as [K KL]. unfold sput_ctx, smodify. intros [c'|i'] H; [|exact (eq_trans (eq_sym KL) H)]. unfold shown in *.
  cbn in H. rewrite K in H. destruct (Nat.eq_dec c c') as [<-|N]; [congruence|].
  now rewrite live_upd_out in H by auto.
Qed.
Lemma cl_ctx_append : forall c a, cl (sctx_append c a).
Proof.
  intros c a s. pose proof (cl_put_after unit c (fun _ => sret tt) (fun x _ => mkSctx (sx_target x) (sx_cond x) (sx_todo x ++ [a]) false)
    (fun _ s0 => same_refl s0) s) as H. exact H.
Qed.
Lemma cl_ctx_cond : forall c im, cl (sctx_cond c im).
Proof.
  intros c im s. pose proof (cl_put_after unit c (fun _ => sret tt) (fun x _ => mkSctx (sx_target x) im (sx_todo x) false)
    (fun _ s0 => same_refl s0) s) as H. exact H.
Qed.
Lemma cl_commit : forall c, cl (sctx_commit E c).
Proof.
  intros c s.
  pose proof (cl_put_after unit c (fun x => let? (m, slot) := smention E (sx_target x) in let? me := smethod m slot in
    sset_method m slot (mkMethod (me_no me) (me_id me) (me_ret me) (mkStub c (sx_cond x) (sx_todo x) 0 false :: me_stubs me) (me_calls me) (me_bypass me)))
    (fun x _ => mkSctx (sx_target x) (sx_cond x) (sx_todo x) true)) as H.
  assert (K : forall x, always same_ctxs (let? (m, slot) := smention E (sx_target x) in let? me := smethod m slot in
    sset_method m slot (mkMethod (me_no me) (me_id me) (me_ret me) (mkStub c (sx_cond x) (sx_todo x) 0 false :: me_stubs me) (me_calls me) (me_bypass me)))).
  { intro x. apply aw_bind; [exact same_trans|apply sc_mention|]. intros [m e]. unfold smethod. aw same_refl same_trans. apply sc_set_method. }
  specialize (H K s). unfold sctx_commit. unfold sbind in *. destruct (sctx_unused c s) as [s1 x|s1 x|]; auto.
  destruct (smention E (sx_target x) s1) as [s2 [m e]|s2 y|]; auto. cbn zeta. destruct (smethod m e s2) as [s3 me|s3 y|]; auto.
Qed.
Lemma cl_append_all : forall rs c, cl (sappend_all c rs).
Proof. induction rs; intro c; cbn [sappend_all]; st; [apply cl_ctx_append|apply IHrs]. Qed.
Lemma cl_unused : forall c, cl (sctx_unused c).
Proof. intros. unfold sctx_unused. st. Qed.
Lemma cl_do_when : forall c rs i, cl (sdo_when E c rs i).
Proof. intros. unfold sdo_when. st; try apply cl_append_all. apply cl_commit. Qed.
Lemma cl_do_fake : forall c, cl (sdo_fake E c).
Proof. intros. unfold sdo_fake. st; [apply cl_ctx_append|apply cl_commit]. Qed.
Lemma cl_do_spy : forall c fw, cl (sdo_spy E c fw).
Proof. intros. unfold sdo_spy. st; try apply cl_unused; [apply cl_ctx_append|apply cl_commit]. Qed.
Lemma cl_do_assign : forall c f, cl (sdo_assign E c f).
Proof. intros. unfold sdo_assign. st; [apply cl_ctx_append|apply cl_commit]. Qed.
Lemma cl_start : cl sstart.
Proof. unfold sstart. st. sm. Qed.
Lemma cl_unexpected : forall t n args, cl (sunexpected E t n args).
Proof. intros. unfold sunexpected. st. apply cl_report. Qed.
Lemma cl_default : forall r, cl (sdefault r).
Proof. intros []; cbn; st. Qed.
Lemma cl_get_call : forall i, cl (sget_call i).
Proof. intros. unfold sget_call. st. Qed.
Lemma cl_put_args : forall i c l, cl (sput_args i c l).
Proof. intros. unfold sput_args. sm. Qed.
Lemma cl_find : forall l args, cl (sfind l args).
Proof. induction l as [|x l IH]; intro args; cbn [sfind]; st. apply IH. Qed.

(** A statement: its expressions are gone when it is over. *)
Lemma ctx_of_new : forall t im s,
  match sctx_of E t im s with
  | SOk s' c => forall c', shown s' c' -> shown s c' \/ c' = inl c
  | SExn s' _ => closing s s'
  | SUnspec => True
  end.
Proof.
  intros t im s.
  assert (N : match sctx_new E t s with
              | SOk s' c => forall c', shown s' c' -> shown s c' \/ c' = inl c
              | SExn s' _ => closing s s'
              | SUnspec => True
              end).
  { unfold sctx_new. unfold sbind at 1. unfold sget, sgets at 1, sbind at 1, sopt. destruct (live (s_mocks s) (target_mock t)); [|exact Logic.I].
    unfold sret at 1. unfold sbind at 1, sgets. unfold sbind at 1, smodify. set (s1 := sset_ctxs s _).
    assert (C1 : s_ctxs s1 = s_ctxs s ++ [Some (mkSctx t IMDefault [] false)]) by reflexivity.
    pose proof (sc_mention t s1) as M. unfold sbind, sattempt.
    assert (IN : forall s2 c', same_ctxs s1 s2 -> shown s2 c' -> shown s c' \/ c' = inl (length (s_ctxs s))).
    { intros s2 [c'|i'] [Q QL] H; unfold shown in *; [|left; exact (eq_trans (eq_sym QL) H)]. rewrite Q, C1, live_app in H.
      destruct (Nat.eqb_spec c' (length (s_ctxs s))) as [->|]; auto. }
    destruct (smention E t s1) as [s2 a|s2 e|]; [|
      |exact Logic.I].
    - intros c' H. eapply IN; eauto.
    - unfold sctx_free, sbind, sget, sgets, sbind, sopt. rewrite (proj1 M), C1, live_app, Nat.eqb_refl. cbn. intros [c'|i'] H.
      2:{ destruct (IN s2 (inr i') M H) as [?|?]; [auto|discriminate]. }
      unfold shown in H. cbn in H. destruct (Nat.eq_dec (length (s_ctxs s)) c') as [<-|NE].
      + exfalso. apply H. rewrite (proj1 M), C1. unfold live. rewrite nth_error_upd_same by (rewrite app_length; cbn; lia). reflexivity.
      + rewrite live_upd_out in H by auto. destruct (IN s2 (inl c') M H) as [?|Q]; [auto|]. congruence. }
  unfold sctx_of, sbind. destruct (sctx_new E t s) as [s1 c|s1 e|]; auto. destruct im as [im|]; [|exact N].
  pose proof (cl_ctx_cond c im s1) as K. destruct (sctx_cond c im s1) as [s2 u|s2 e|] eqn:QC; auto; cbn.
  - intros c' H. apply N. now apply K.
  - exfalso. revert QC. unfold sctx_cond, sctx_unused, sget, sbind, sgets, sopt. destruct (live (s_ctxs s1) c) as [x|]; [|discriminate].
    unfold sret. destruct (sx_committed x); discriminate.
Qed.

Lemma free_all_shown : forall cs s,
  match sfree_ctxs cs s with
  | SOk s' _ => forall c, shown s' c -> shown s c /\ ~ In c (map inl cs)
  | SExn _ _ => False
  | SUnspec => True
  end.
Proof.
  induction cs as [|c cs IH]; intro s; cbn [sfree_ctxs]; [cbn; auto|].
  unfold sctx_free. unfold sbind at 1 2. unfold sget, sgets, sbind at 1, sopt. destruct (live (s_ctxs s) c) as [x|] eqn:L; [|exact Logic.I].
  unfold sret at 1, smodify. set (s1 := sset_ctxs s _). specialize (IH s1). destruct (sfree_ctxs cs s1) as [s2 u|s2 e|]; auto.
  intros [c'|i'] H; destruct (IH _ H) as [S1 NI]; [|split; [exact S1|intros [Q|Q]; [discriminate|auto]]].
  unfold shown, s1 in S1. cbn in S1. destruct (Nat.eq_dec c c') as [<-|NE].
  - exfalso. apply S1. apply live_upd_in. eapply live_lt; eauto.
  - rewrite live_upd_out in S1 by auto. split; auto. intros [Q|Q]; auto. congruence.
Qed.

Lemma cl_with_ctxs : forall ts dn body, (forall cs, cl (body cs)) -> forall s0 s, (forall c, shown s c -> shown s0 c \/ In c (map inl dn)) ->
  match swith_ctxs E ts dn body s with SOk s' _ | SExn s' _ => closing s0 s' | SUnspec => True end.
Proof.
  induction ts as [|[t im] ts IH]; intros dn body HB s0 s HS; cbn [swith_ctxs].
  - unfold sguarded. unfold sbind at 1, sattempt.
    assert (F : forall s1 (r : val + exn), closing s s1 ->
      match sbind (sfree_ctxs dn) (fun _ => srethrow r) s1 with SOk s' _ | SExn s' _ => closing s0 s' | SUnspec => True end).
    { intros s1 r C. unfold sbind. pose proof (free_all_shown dn s1) as K. destruct (sfree_ctxs dn s1) as [s2 u|s2 e|]; [|contradiction|auto].
      assert (G : closing s0 s2) by (intros c H; destruct (K c H) as [H1 H2]; destruct (HS c (C c H1)); [auto|contradiction]).
      destruct r; exact G. }
    specialize (HB (rev dn) s). destruct (body (rev dn) s) as [s1 v|s1 e|]; [apply (F s1 (inl v)); auto|apply (F s1 (inr e)); auto|exact Logic.I].
  - unfold sbind, sattempt. pose proof (ctx_of_new t im s) as K. destruct (sctx_of E t im s) as [s1 c|s1 e|]; [| |exact Logic.I].
    + apply IH; auto. intros c' H. destruct (K c' H) as [Q| ->]; [|right; now left]. destruct (HS c' Q); [auto|right; now right].
    + pose proof (free_all_shown dn s1) as F. destruct (sfree_ctxs dn s1) as [s2 u|s2 e'|]; [|contradiction|exact Logic.I].
      cbn. intros c' H. destruct (F c' H) as [H1 H2]. destruct (HS c' (K c' H1)); [auto|contradiction].
Qed.
Lemma cl_each : forall (f : nat -> SM unit) cs, (forall c, cl (f c)) -> cl (seach f cs).
Proof. intros f cs H. induction cs; cbn [seach]; st; auto. Qed.
(** Verifications in a statement. *)
Lemma cl_verify_stmt : forall mk steps, cl mk -> cl (sverify_stmt E mk steps).
Proof.
  intros mk steps H. unfold sverify_stmt. st; auto; try (apply cl_looks; first [apply looks_exp_free|apply looks_free_exp]).
  revert a. generalize VVoid. induction steps as [|[q|] r IH]; intros v x; cbn [srun_steps]; st; auto;
    apply cl_looks; first [apply looks_exp_quant|apply looks_exp_bool].
Qed.
Lemma cl_stmt : forall x cs, cl (srun_stmt E x cs).
Proof.
  intros x cs. destruct x; cbn [srun_stmt]; st; auto using cl_do_when, cl_do_assign, cl_each, cl_do_fake, cl_do_spy;
    apply cl_verify_stmt, cl_looks; first [apply looks_exp_new|apply looks_new_exp].
Qed.

Section Open.
Variable rec : op -> SM val.
Hypothesis IH : forall o, cl (rec o).
Lemma cl_prog : forall p fr, cl (srun_prog rec fr p).
Proof. induction p as [v|e|i k IHp|i v k IHp|k IHp|o k IHp]; intro fr; cbn [srun_prog]; st; auto using cl_get_call, cl_put_args. Qed.
Lemma cl_set_bypass : forall m e no id b, cl (sset_bypass m e no id b).
Proof. intros. unfold sset_bypass. st; auto using cl_method, cl_set_method. Qed.
Lemma cl_callable : forall f i, cl (srun_callable E rec f i).
Proof.
  intros f i. destruct f as [p| |r vals|r vals|m o slot fw]; cbn [srun_callable]; st;
    auto using cl_prog, cl_get_call, cl_default, cl_put_args, cl_set_bypass, cl_method; sm.
Qed.
Lemma cl_change_stub : forall m e n f, cl (schange_stub m e n f).
Proof. intros. unfold schange_stub. st; auto using cl_method, cl_set_method. Qed.
Lemma cl_play : forall m e x i, cl (splay E rec m e x i).
Proof. intros. unfold splay. st; auto using cl_callable, cl_change_stub, cl_get_call, cl_default. Qed.
Lemma cl_stubbed : forall m e args, cl (sstubbed E rec m e args).
Proof.
  intros. unfold sstubbed. cbn zeta. st; auto using cl_method, cl_start, cl_find, cl_unexpected, cl_set_method, cl_play. sm.
Qed.
Lemma cl_body : forall c o slot args, cl (sbody E rec c o slot args).
Proof. intros. unfold sbody. st. apply cl_prog. Qed.
Lemma cl_initial : forall k d x o slot args, cl (sinitial E rec k d x o slot args).
Proof. intros. unfold sinitial. st; auto using cl_start, cl_unexpected, cl_body. Qed.
Lemma cl_call : forall o slot args, cl (scall E rec o slot args).
Proof. intros. unfold scall. st; auto using cl_body, cl_initial, cl_stubbed. Qed.
Lemma cl_step : forall o, stores o = false -> cl (sstep E rec o).
Proof.
  intros o SO. destruct (verifies_op o) eqn:V; [apply cl_looks; destruct o; try discriminate; cbn [sstep]; unfold snat, sunit;
    aw looked_refl looked_trans; auto using looks_exp_new, looks_new_exp, looks_exp_quant, looks_exp_bool, looks_exp_free|].
  destruct o; try discriminate; cbn [sstep]; unfold snat, sunit;
    try solve [st; auto using cl_call, cl_reset, cl_clear, cl_ctx_cond,
      cl_ctx_free, cl_do_when, cl_do_fake, cl_do_spy, cl_do_assign; sm].
  { apply cl_get_obj. intros s x L. destruct (Nat.ltb i (length (so_data x))); [|exact Logic.I]. cbn. apply closing_same; [reflexivity|].
    eapply same_put_obj; eauto. }
  intro s1. match goal with |- context [swith_ctxs E ?l [] (srun_stmt E ?x)] =>
    pose proof (cl_with_ctxs l [] (srun_stmt E x) (cl_stmt x) s1 s1 (fun c H => or_introl H)) as H;
    destruct (swith_ctxs E l [] (srun_stmt E x) s1); auto end.
Qed.
End Open.

Lemma cl_cexec : forall f o, cl (cexec E f o).
Proof.
  induction f as [|f IH]; intro o; [apply aw_unspec|]. cbn [cexec]. destruct (stores o) eqn:SO; [apply aw_unspec|]. now apply cl_step.
Qed.
End C.

