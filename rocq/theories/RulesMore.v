(** A plan with more mocks (Spec_Rules.v): what keeps to the rules still does. *)
From Coq Require Import Bool ZArith Lia List.
From Verif Require Import Base CInt Values ArgMatchers InvMatchers Spec_Conditions ActionSeq Sequences MatchAnalysis
  Spec_Match Proxy Events Expectation Spec_Verify ReturnSet Syntax World Spec_World Spec_View Spec_Verification Spec_Rules.
Import ListNotations.
Open Scope nat_scope.

Record below (P Q : plan) : Prop := mkBelow {
  bw_mocks : forall i x, pl_mocks P i = Some x -> pl_mocks Q i = Some x;
  bw_uses : pl_uses Q = pl_uses P;
  bw_work : pl_work Q = pl_work P;
  bw_args : pl_args Q = pl_args P;
  bw_mem : pl_mem Q = pl_mem P;
  bw_name : pl_name Q = pl_name P;
  bw_reset : pl_reset Q = pl_reset P
}.

Lemma below_refl : forall P, below P P.
Proof. intro P. constructor; auto. Qed.
Lemma below_only : forall L P, below (only L P) P.
Proof. intros L P. constructor; auto. cbn. intros i x. destruct (L i); [auto|discriminate]. Qed.
Lemma below_within : forall P Q i, below P Q -> below (within P i) (within Q i).
Proof.
  intros P Q i [A B C D F G H]. constructor; auto. cbn. rewrite B. intros j x. destruct (pl_uses P i j); auto.
Qed.
(** All that is used remains. *)
Lemma below_remain : forall P L L' i j, remain P i L L' -> L' j = true -> below (within (only L P) j) (within (only L' P) j).
Proof.
  intros P L L' i j (_ & _ & C) J. constructor; auto. cbn. intros j' x. destruct (pl_uses P j j') eqn:U; [|discriminate].
  destruct (L j') eqn:LJ; [|discriminate]. intro X. now rewrite (C j j' J U LJ).
Qed.
Lemma below_more : forall P (L L' : nat -> bool), (forall j, L j = true -> L' j = true) -> below (only L P) (only L' P).
Proof. intros P L L' H. constructor; auto. cbn. intros j x. destruct (L j) eqn:Q; [|discriminate]. now rewrite (H j Q). Qed.
(* What is left of a plan is as it was. *)
Lemma only_some : forall L P i x, pl_mocks (only L P) i = Some x -> L i = true /\ pl_mocks P i = Some x.
Proof. intros L P i x. cbn. destruct (L i); [auto|discriminate]. Qed.

Section S.
Variable E : env.

Lemma there_mono : forall P Q i, below P Q -> pl_mocks P i <> None -> pl_mocks Q i <> None.
Proof. intros P Q i B H. destruct (pl_mocks P i) as [x|] eqn:X; [|congruence]. rewrite (bw_mocks _ _ B _ _ X). discriminate. Qed.
Lemma class_mono : forall P Q i d, below P Q -> class_at E P i = Some d -> class_at E Q i = Some d.
Proof.
  intros P Q i d B H. unfold class_at in *. destruct (pl_mocks P i) as [x|] eqn:X; [|discriminate]. now rewrite (bw_mocks _ _ B _ _ X).
Qed.
Lemma object_mono : forall P Q i d, below P Q -> object_at E P i = Some d -> object_at E Q i = Some d.
Proof.
  intros P Q i d B H. unfold object_at in *. destruct (pl_mocks P i) as [x|] eqn:X; [|discriminate]. now rewrite (bw_mocks _ _ B _ _ X).
Qed.
Lemma class_same : forall P Q i, below P Q -> pl_mocks P i <> None -> class_at E Q i = class_at E P i.
Proof.
  intros P Q i B H. unfold class_at in *. destruct (pl_mocks P i) as [x|] eqn:X; [|congruence]. now rewrite (bw_mocks _ _ B _ _ X).
Qed.
Lemma returns_same : forall P Q i e, below P Q -> pl_mocks P i <> None -> returns E Q i e = returns E P i e.
Proof. intros P Q i e B H. unfold returns. now rewrite (class_same P Q i B H). Qed.
Lemma designated_there : forall P t i e, designated E P t i e -> pl_mocks P i <> None.
Proof. intros P t i e D Q. assert (C : exists d, class_at E P i = Some d) by (destruct D; eauto). destruct C as (d & C). unfold class_at in C. now rewrite Q in C. Qed.
Lemma designated_mono : forall P Q t i e, below P Q -> designated E P t i e -> designated E Q t i e.
Proof.
  intros P Q t i e B D. destruct D.
  - eapply DeMethod; eauto using class_mono. now rewrite (bw_name _ _ B).
  - eapply DeDtor; eauto using class_mono. now rewrite (bw_reset _ _ B).
Qed.
Lemma designated_only : forall P t i e i' e', designated E P t i e -> designated E P t i' e' -> i = i' /\ e = e'.
Proof. intros P t i e i' e' A B. inversion A; subst; inversion B; subst; split; congruence. Qed.
Lemma designated_back : forall P Q t i e i' e', below P Q -> designated E P t i e -> designated E Q t i' e' -> designated E P t i' e'.
Proof. intros P Q t i e i' e' B D D'. destruct (designated_only Q t i e i' e'); [eapply designated_mono; eauto|auto|]. now subst. Qed.
Lemma settles_mono : forall P Q i e c, below P Q -> settles P i e c -> settles Q i e c.
Proof. intros P Q i e c B S m args. rewrite (bw_mem _ _ B), (bw_args _ _ B). apply S. Qed.
Lemma survives_mono : forall P Q i e f, below P Q -> survives P i e f -> survives Q i e f.
Proof. intros P Q i e f B S args. rewrite (bw_args _ _ B). apply S. Qed.
Lemma expression_mono : forall P Q x, below P Q -> expression_ok E P x -> expression_ok E Q x.
Proof. intros P Q x B (i & e & D & S). exists i, e. split; [eapply designated_mono; eauto|eapply settles_mono; eauto]. Qed.
Lemma source_mono : forall P Q n, below P Q -> forall y, source_ok P n y -> source_ok Q n y.
Proof.
  intros P Q n B. fix F 1. intros [m|j|l]; cbn [source_ok].
  - now apply there_mono.
  - auto.
  - revert l. fix G 1. intros [|y l]; cbn; [auto|]. intros [H1 H2]. split; [exact (F y H1)|exact (G l H2)].
Qed.
Lemma scope_mono : forall P Q n sc, below P Q -> scope_ok P n sc -> scope_ok Q n sc.
Proof.
  intros P Q n sc B. destruct sc; cbn; auto. intro H. eapply Forall_impl; [|exact H]. intros y. now apply source_mono.
Qed.

Fixpoint prog_mono (P : plan) A this n p (H : prog_ok E P A this n p) {struct H} : forall Q, below P Q -> prog_ok E Q A this n p
with op_mono (P : plan) n o (H : op_ok E P n o) {struct H} : forall Q, below P Q -> op_ok E Q n o
with stmt_mono (P : plan) xs st (H : stmt_ok E P xs st) {struct H} : forall Q, below P Q -> Forall (expression_ok E P) xs -> stmt_ok E Q xs st
with callable_mono (P : plan) i e f (H : callable_ok E P i e f) {struct H} : forall Q, below P Q -> pl_mocks P i <> None -> callable_ok E Q i e f
with recorded_mono (P : plan) i e r (H : recorded_ok E P i e r) {struct H} : forall Q, below P Q -> pl_mocks P i <> None -> recorded_ok E Q i e r.
Proof.
  - destruct H as [A this n v|A this n e N|A this n j k H1 H2|A this n j v k H1 H2|A i n k H1|A this n n1 n2 o k L O K]; intros Q B.
    + apply OkRet.
    + now apply OkThrow.
    + apply OkArg; auto. intros args v AA V. exact (prog_mono _ _ _ _ _ (H2 args v AA V) Q B).
    + apply OkSetArg; auto. exact (prog_mono _ _ _ _ _ H2 Q B).
    + apply OkThis. exact (prog_mono _ _ _ _ _ H1 Q B).
    + apply OkDo with (n1 := n1) (n2 := n2); auto; [exact (op_mono _ _ _ O Q B)|]. intros r R. exact (prog_mono _ _ _ _ _ (K r R) Q B).
  - destruct H; intros Q B.
    + eapply OkCall; [eapply class_mono; eauto|auto| |]; [rewrite (bw_work _ _ B)|rewrite (bw_args _ _ B)]; auto.
    + apply OkTypeid. eapply there_mono; eauto.
    + apply OkGet. eapply there_mono; eauto.
    + eapply OkGetMember; eauto using object_mono.
    + eapply OkSetMember; eauto using object_mono.
    + apply OkRead. now rewrite (bw_mem _ _ B).
    + apply OkWrite. now rewrite (bw_mem _ _ B).
    + apply OkAlloc. now rewrite (bw_mem _ _ B).
    + apply OkFree. now rewrite (bw_mem _ _ B).
    + apply OkClear. eapply there_mono; eauto.
    + apply OkReset; [eapply there_mono; eauto|now rewrite (bw_reset _ _ B)|now rewrite (bw_work _ _ B)].
    + apply OkStmt; auto; [|exact (stmt_mono _ _ _ H1 Q B H0)].
      eapply Forall_impl; [|exact H0]. intros y. now apply expression_mono.
    + apply OkListener.
    + apply OkClearListeners.
    + apply OkAdapter.
    + apply OkUnwinding with (n1 := n1); auto. exact (op_mono _ _ _ H0 Q B).
  - destruct H as [t im i e rs x D R X|xs R|xs fw R|t im i e f D F|xs sc pattern steps SC NE SO QI|xs sc pattern steps n q SC WR IN RE LT|xs l steps SO NQ]; intros Q B XS.
    + apply OkWhen with (i := i) (e := e); auto; [eapply designated_mono; eauto|].
      assert (T : pl_mocks P i <> None) by (eapply designated_there; eauto).
      exact ((fix go l (F : Forall (recorded_ok E P i e) l) : Forall (recorded_ok E Q i e) l :=
                match F with
                | Forall_nil _ => Forall_nil _
                | Forall_cons r H1 H2 => Forall_cons r (recorded_mono _ _ _ _ H1 Q B T) (go _ H2)
                end) rs R).
    + apply OkFake. intros x i e IN D. rewrite Forall_forall in XS. destruct (XS x IN) as (i0 & e0 & D0 & _).
      pose proof (designated_back P Q _ _ _ _ _ B D0 D) as DP. rewrite (returns_same P Q i e B); eauto using designated_there.
    + apply OkSpy. intros FW x i e IN D. rewrite Forall_forall in XS. destruct (XS x IN) as (i0 & e0 & D0 & _).
      pose proof (designated_back P Q _ _ _ _ _ B D0 D) as DP. eapply survives_mono; eauto.
    + apply OkAssign with (i := i) (e := e); [eapply designated_mono; eauto|].
      exact (callable_mono _ _ _ _ F Q B (designated_there _ _ _ _ D)).
    + apply OkVerify; auto. eapply scope_mono; eauto.
    + eapply OkVerifyInvalid; eauto. eapply scope_mono; eauto.
    + apply OkNoOther; auto. eapply Forall_impl; [|exact SO]. intros y. now apply source_mono.
  - destruct H as [i e p H|i e R|i e v vals H SV|i e v vals H SV]; intros Q B T.
    + apply OkProg. rewrite (bw_args _ _ B), (bw_work _ _ B). exact (prog_mono _ _ _ _ _ H _ (below_within P Q i B)).
    + apply OkDefault. now rewrite (returns_same P Q i e B T).
    + apply OkSet; [|eapply survives_mono; eauto]. rewrite (bw_args _ _ B), (bw_mem _ _ B). exact H.
    + apply OkSetNamed; [|eapply survives_mono; eauto]. rewrite (bw_args _ _ B), (bw_mem _ _ B). exact H.
  - destruct H as [i e f F|i e f n F L|i e f F]; intros Q B T.
    + apply OkOnce. exact (callable_mono _ _ _ _ F Q B T).
    + apply OkTimes; auto. exact (callable_mono _ _ _ _ F Q B T).
    + apply OkAlways. exact (callable_mono _ _ _ _ F Q B T).
Qed.

(** What answers calls of a mock depends on the mocks that it may use only. *)
Lemma callable_within : forall P Q i e f, below (within P i) (within Q i) -> pl_mocks P i <> None -> pl_mocks Q i = pl_mocks P i ->
  callable_ok E P i e f -> callable_ok E Q i e f.
Proof.
  intros P Q i e f B T S H. destruct H as [i e p H|i e R|i e v vals H SV|i e v vals H SV].
  - apply OkProg. pose proof (bw_args _ _ B) as BA. pose proof (bw_work _ _ B) as BW. cbn in BA, BW. rewrite BA, BW. eapply prog_mono; eauto.
  - apply OkDefault. unfold returns, class_at in *. now rewrite S.
  - pose proof (bw_args _ _ B) as BA. pose proof (bw_mem _ _ B) as BM. cbn in BA, BM. apply OkSet; [rewrite BA, BM; exact H|].
    unfold survives. rewrite BA. exact SV.
  - pose proof (bw_args _ _ B) as BA. pose proof (bw_mem _ _ B) as BM. cbn in BA, BM. apply OkSetNamed; [rewrite BA, BM; exact H|].
    unfold survives. rewrite BA. exact SV.
Qed.
(** The code may run in the whole plan. *)
Lemma prog_within : forall P A this n i p, prog_ok E (within P i) A this n p -> prog_ok E P A this n p.
Proof. intros P A this n i p H. eapply prog_mono; [exact H|apply below_only]. Qed.

Lemma mock_mono : forall P Q i x, below (within P i) (within Q i) -> mock_ok E P i x -> mock_ok E Q i x.
Proof.
  intros P Q i x B (d & D & F & H). exists d. split; auto. split; auto. destruct (snd x) as [c|]; auto.
  destruct H as (dx & DX & SZ & H). exists dx. split; auto. split; auto. intros slot L. specialize (H slot L). unfold body_ok in *.
  pose proof (bw_args _ _ B) as BA. pose proof (bw_work _ _ B) as BW. cbn in BA, BW. rewrite BA, BW. eapply prog_mono; eauto.
Qed.
End S.
