(** Tests that keep to the rules (Spec_Rules.v) and destroy all their mocks leave nothing behind. *)
From Coq Require Import Bool ZArith Lia List Permutation.
From Verif Require Import Base CInt Values ArgMatchers InvMatchers Spec_Conditions ActionSeq Sequences MatchAnalysis
  Proxy Events Expectation ReturnSet Syntax World Spec_World WorldRel WorldSimA WorldSimB WorldSimE
  Spec_View SpecFacts Spec_Verification Spec_Rules RulesProofs Spec_Leaks LeakProofs WorldLeaks.
Import ListNotations.
Open Scope nat_scope.

Theorem rules_released : forall E P m n os fuel, iterates E -> pl_mem P m -> whole_test E P n os -> all_go os ->
  (Z.of_nat n <= 2 ^ 30)%Z -> 2 * n + 1 <= fuel ->
  exists w rs, exec_all E fuel os (init_world E m) = RVal w rs /\
    nothing_held w /\ nothing_left (length (e_classes E)) w.
Proof.
  intros E P m n os fuel IT PM T AG L LF. destruct (rules E P m n os fuel PM T L LF) as (s & rs & Q & _ & NM & NC). specialize (NM AG).
  destruct (answered_leads E IT fuel m _ s rs Q) as (w & X & (ow & tow & HR)). exists w, rs. split; auto.
  assert (NH : nothing_held w).
  { destruct (r_mck _ _ _ _ _ HR) as [_ MC]. destruct (r_ctx _ _ _ _ _ HR) as (_ & _ & CC). split.
    - intros i k K. specialize (MC i). rewrite NM in MC. unfold live_mock in K. unfold live in MC. now rewrite K in MC.
    - intros c x C. specialize (CC c). rewrite NC in CC. unfold live_expression in C. unfold live in CC. now rewrite C in CC. }
  split; auto. eapply released_after; eauto.
Qed.
