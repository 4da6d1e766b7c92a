(** The two entries of a destructor, in whole programs. *)
From Coq Require Import Bool ZArith Lia List.
From Verif Require Import Base CInt Values ArgMatchers InvMatchers ActionSeq Sequences MatchAnalysis
  SortInv VTable VTableProofs Proxy Events Expectation ReturnSet Ordinals Syntax World Spec_World WorldLogic WorldRel
  Spec_View.
Import ListNotations.
Open Scope nat_scope.

Section D.
Variable E : env.

Lemma dtor_entries : forall w s o x m k d j, R E w s ->
  live (s_objs s) o = Some x -> so_mock x = Some m -> live (s_mocks s) m = Some k ->
  nth_error (e_classes E) (sk_class k) = Some d -> cl_dtor d = Some j ->
  sk_owner k = true \/ method_at s m j <> None ->
  forall f args, exec E f (OCall o (S j) args) w = exec E f (OCall o j args) w.
Proof.
  intros w s o x m k d j (own & tow & G) O SM K C J W [|f] args; [reflexivity|]. cbn [exec step].
  pose proof (proj2 (r_obj _ _ _ _ _ G) o) as OB. rewrite O in OB.
  destruct (live (w_objs w) o) as [y|] eqn:Y; [|contradiction].
  destruct OB as (_ & _ & _ & OB). rewrite SM in OB. destruct OB as (k0 & K0 & VP & MO).
  pose proof (proj2 (r_mck _ _ _ _ _ G) m) as MC. rewrite K0, K in MC. destruct MC as (sx & d' & SX & MR).
  pose proof (mr_d _ _ _ _ _ _ _ _ _ _ _ MR) as D'. assert (d' = d) by congruence. subst d'.
  destruct (mr_clone _ _ _ _ _ _ _ _ _ _ _ MR) as (vt & VT & (WF & SH) & _).
  pose proof (mr_fits _ _ _ _ _ _ _ _ _ _ _ MR) as FT. unfold class_fits in FT. rewrite J in FT.
  apply andb_prop in FT. destruct FT as [_ FT]. apply Nat.ltb_lt in FT.
  assert (OT : obj_table o w = RVal w (mk_clone k0, vt)).
  { unfold obj_table, get_obj, get_table, bind, gets, ret. rewrite (hget_live _ _ _ _ _ Y). rewrite VP. rewrite (hget_live _ _ _ _ _ VT). reflexivity. }
  unfold call_object, bind. rewrite OT.
  pose proof (SH j ltac:(lia)) as Ej. pose proof (SH (S j) ltac:(lia)) as Es.
  pose proof (mr_dtor _ _ _ _ _ _ _ _ _ _ _ MR j J) as N.
  assert (HH : cur_word (sk_owner k) (sk_class k) d (so_class sx) (map face (sk_meths k)) (S j) = WCode (CDtorHelper (sk_class k))).
  { unfold cur_word at 1. rewrite N, J, Nat.eqb_refl.
    destruct (live (map face (sk_meths k)) j) eqn:L; [reflexivity|].
    destruct W as [W|W].
    - unfold init_word. rewrite W, J, Nat.eqb_refl. destruct (Nat.eqb_spec (S j) j); [lia|reflexivity].
    - exfalso. unfold method_at in W. rewrite K in W. rewrite live_map in L by reflexivity.
      destruct (live (sk_meths k) j); [discriminate|congruence]. }
  rewrite HH in Es. rewrite Es, Ej. unfold lift.
  assert (NH : exists z, cur_word (sk_owner k) (sk_class k) d (so_class sx) (map face (sk_meths k)) j = WCode z /\ forall c, z <> CDtorHelper c).
  { unfold cur_word. destruct (live (map face (sk_meths k)) j) as [[[no id] b]|] eqn:L.
    - destruct b; [exfalso; eapply (mr_bypass _ _ _ _ _ _ _ _ _ _ _ MR); eauto|]. eexists. split; [reflexivity|discriminate].
    - rewrite J. destruct (Nat.eqb_spec j (S j)); [lia|]. destruct W as [W|W].
      + unfold init_word. rewrite W, J, Nat.eqb_refl. eexists. split; [reflexivity|discriminate].
      + exfalso. unfold method_at in W. rewrite K in W. rewrite live_map in L by reflexivity.
        destruct (live (sk_meths k) j); [discriminate|congruence]. }
  destruct NH as (z & Z & NZ). rewrite Z.
  unfold class_of. rewrite C. unfold ret. rewrite J. cbn [dtor_helper_target]. rewrite Ej, Z.
  destruct z; try reflexivity. exfalso. eapply NZ; reflexivity.
Qed.

Lemma program_dtor_entries : forall f m0 os s rs w o x m k d j,
  leads E f m0 os s rs -> exec_all E f os (init_world E m0) = RVal w rs ->
  live (s_objs s) o = Some x -> so_mock x = Some m -> live (s_mocks s) m = Some k ->
  nth_error (e_classes E) (sk_class k) = Some d -> cl_dtor d = Some j ->
  sk_owner k = true \/ method_at s m j <> None ->
  forall g args, exec E g (OCall o (S j) args) w = exec E g (OCall o j args) w.
Proof.
  intros f m0 os s rs w o x m k d j (w' & X & RR) Y. rewrite X in Y. injection Y as <-.
  intros; eapply dtor_entries; eauto.
Qed.
End D.
