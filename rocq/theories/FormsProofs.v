(** Proofs for C109-C111. *)
From Coq Require Import Bool Arith Lia List.
From Verif Require Import Base Forms Spec_Forms.
Import ListNotations.

Lemma to_type_direct t e : (exists c, to_type t e = Some c /\ c <> User) <-> directly t e.
Proof.
  split.
  - intros (c & H & N). destruct e as [b|[[|]|]| | | | |f cp]; destruct t as [| | |k]; cbn in H;
      repeat match type of H with context [if ?b then _ else _] => destruct b end; try discriminate H;
      try (injection H as <-; contradiction N; reflexivity); constructor.
  - intros H. destruct H; cbn; eexists; (split; [reflexivity|discriminate]).
Qed.

Lemma to_type_user t e : to_type t e = Some User <-> by_class t e.
Proof.
  split.
  - intros H. destruct e as [b|[[|]|]| | | | |f cp]; destruct t as [| | |k]; cbn in H;
      try discriminate H; try (constructor; fail).
    + destruct (c_null k) eqn:N; [apply BNull; exact N|]. destruct (c_any k) eqn:A; [apply BNullAny; exact A|discriminate H].
    + destruct (c_null k) eqn:N; [apply BZeroNull; exact N|]. destruct (c_int k) eqn:I; [apply BZeroInt; exact I|].
      destruct (c_any k) eqn:A; [apply BZeroAny; exact A|discriminate H].
    + destruct (c_braces k) eqn:B; [apply BBraces; exact B|discriminate H].
    + destruct (c_any k) eqn:A; [apply BFunction; exact A|discriminate H].
    + destruct cp; [discriminate H|constructor].
    + destruct (c_any k) eqn:A; [apply BLambda; exact A|discriminate H].
  - intros H. destruct H as [t|c E|c E|c E|c E|c E|c E|c E|c f cp E|f]; cbn; try rewrite E; rewrite ?orb_true_r; reflexivity.
Qed.

Lemma direct_not_class t e : directly t e -> ~ by_class t e.
Proof. intros D B. destruct D; inversion B. Qed.
Lemma direct_not_callable t e : directly t e -> ~ callable e.
Proof. intros D [->|(c & ->)]; inversion D. Qed.

(** The three ways to convert, for each goal by cases. *)
Inductive how (t : ty) (e : expr) : option conv -> Prop :=
| HExact : directly t e -> ~ by_class t e -> ~ callable e -> how t e (Some Exact)
| HStandard : directly t e -> ~ by_class t e -> ~ callable e -> how t e (Some Standard)
| HUser : by_class t e -> ~ directly t e -> how t e (Some User)
| HNone : ~ directly t e -> ~ by_class t e -> how t e None.

Lemma how_it t e : how t e (to_type t e).
Proof.
  destruct (to_type t e) as [c|] eqn:E.
  - destruct c.
    + assert (directly t e) as D by (apply to_type_direct; exists Exact; split; [exact E|discriminate]).
      constructor; [exact D|apply direct_not_class; exact D|apply (direct_not_callable t); exact D].
    + assert (directly t e) as D by (apply to_type_direct; exists Standard; split; [exact E|discriminate]).
      constructor; [exact D|apply direct_not_class; exact D|apply (direct_not_callable t); exact D].
    + constructor; [apply to_type_user; exact E|]. intros D. apply to_type_direct in D. destruct D as (c & E' & N). congruence.
  - constructor.
    + intros D. apply to_type_direct in D. destruct D as (c & E' & N). congruence.
    + intros D. apply to_type_user in D. congruence.
Qed.

(** What an expression is to a function. *)
Inductive to_f (e : expr) : option conv -> condition -> Prop :=
| FNothing : nothing e -> ~ callable e -> to_f e (Some User) CEmpty
| FExact : e = EFunction -> callable e -> ~ nothing e -> to_f e (Some Exact) CPredicate
| FLambda : callable e -> ~ nothing e -> e <> EFunction -> to_f e (Some User) CPredicate
| FNone : ~ nothing e -> ~ callable e -> to_f e None CPredicate.

Lemma to_f_it e : to_f e (to_function e) (as_predicate e).
Proof.
  assert (forall b, ~ callable (EOwn b)) as C1 by (intros b [H|(c & H)]; discriminate H).
  assert (forall b, ~ callable (EOther b)) as C2 by (intros b [H|(c & H)]; discriminate H).
  assert (forall b, ~ nothing (EOwn b)) as N1 by (intros b [H|[H|H]]; discriminate H).
  assert (forall b, ~ nothing (EOther b)) as N2 by (intros b [H|[H|H]]; discriminate H).
  destruct e as [b|s| | | | |[|] cp]; cbn.
  - apply FNone; auto.
  - apply FNone; auto.
  - apply FNothing; [left; reflexivity|]. intros [H|(c & H)]; discriminate H.
  - apply FNothing; [right; left; reflexivity|]. intros [H|(c & H)]; discriminate H.
  - apply FNothing; [right; right; reflexivity|]. intros [H|(c & H)]; discriminate H.
  - apply FExact; [reflexivity|left; reflexivity|]. intros [H|[H|H]]; discriminate H.
  - apply FLambda; [right; exists cp; reflexivity| |discriminate]. intros [H|[H|H]]; discriminate H.
  - apply FNone; [intros [H|[H|H]]; discriminate H|]. intros [H|(c & H)]; discriminate H.
Qed.

(** The two candidates of operator(). *)
Lemma one_table p e :
  (in_parentheses [p] [e] = CArguments <-> directly_p p e \/ (by_class_p p e /\ ~ callable e /\ ~ nothing e)) /\
  (in_parentheses [p] [e] = CPredicate <-> callable e /\ (e = EFunction \/ ~ by_class_p p e)) /\
  (in_parentheses [p] [e] = CEmpty <-> nothing e /\ ~ directly_p p e /\ ~ by_class_p p e).
Proof.
  unfold in_parentheses, directly_p, by_class_p, to_param. destruct p as [t [|]]; cbn [p_ref p_type].
  - assert (~ (true = false /\ by_class t e)) as NB by (intros [H _]; discriminate H).
    assert ((e = EOwn true /\ ~ callable e /\ ~ nothing e) \/ (e <> EOwn true /\ match e with EOwn true => Some Exact | _ => None end = None)) as [(-> & NC & NN)|(NE & ->)].
    { destruct e as [[|]|s| | | | |f cp]; try (right; split; [discriminate|reflexivity]). left. split; [reflexivity|].
      split; [intros [H|(c & H)]; discriminate H|intros [H|[H|H]]; discriminate H]. }
    + cbn. split; [|split]; (split; intros HH); try discriminate HH; try reflexivity; try tauto. 
    + destruct (to_f_it e) as [N C'|E C' N|C' N E|N C']; cbn;
      (split; [|split]); (split; [intros HH|intros HH]); try discriminate HH; try reflexivity; try tauto.
  - destruct (how_it t e) as [D B C|D B C|B D|D B]; destruct (to_f_it e) as [N C'|E C' N|C' N E|N C']; cbn;
      try (contradiction (C C'));
      (split; [|split]); (split; [intros HH|intros HH]); try discriminate HH; try reflexivity; try tauto.
    all: try (subst e; split; [assumption|left; reflexivity]).
Qed.

Lemma other_number ps e : length ps <> 1 -> in_parentheses ps [e] =
  match to_function e with Some _ => as_predicate e | None => CError end.
Proof.
  intros L. unfold in_parentheses. destruct ps as [|p [|q r]]; [|contradiction L; reflexivity|];
    destruct (to_f_it e); reflexivity.
Qed.

Lemma predicate_table e :
  (match to_function e with Some _ => as_predicate e | None => CError end = CPredicate <-> callable e) /\
  (match to_function e with Some _ => as_predicate e | None => CError end = CEmpty <-> nothing e) /\
  (match to_function e with Some _ => as_predicate e | None => CError end = CError <-> value e \/ exists captures, e = ELambda false captures) /\
  match to_function e with Some _ => as_predicate e | None => CError end <> CArguments.
Proof.
  unfold callable, nothing, value.
  destruct e as [b|s| | | | |[|] cp]; cbn; repeat split; try discriminate; intros HH;
    repeat (match goal with
            | H : _ \/ _ |- _ => destruct H as [H|H]
            | H : exists _, _ |- _ => destruct H as [? H]
            end); try discriminate; try reflexivity; eauto.
Qed.

Theorem other_table ps e : length ps <> 1 ->
  (in_parentheses ps [e] = CPredicate <-> callable e) /\
  (in_parentheses ps [e] = CEmpty <-> nothing e) /\
  in_parentheses ps [e] <> CArguments.
Proof.
  intros L. rewrite (other_number ps e L). destruct (predicate_table e) as (A & B & _ & C). auto.
Qed.

Theorem matching_table e : (in_matching e = CPredicate <-> callable e) /\ (in_matching e = CEmpty <-> nothing e) /\ in_matching e <> CArguments.
Proof. unfold in_matching. destruct (predicate_table e) as (A & B & _ & C). auto. Qed.

Lemma to_param_iff p e : (exists c, to_param p e = Some c) <-> directly_p p e \/ by_class_p p e.
Proof.
  unfold to_param, directly_p, by_class_p. destruct p as [t [|]]; cbn [p_ref p_type].
  - split.
    + intros (c & H). destruct e as [[|]|s| | | | |f cp]; try discriminate H. left. reflexivity.
    + intros [->|[H _]]; [eexists; reflexivity|discriminate H].
  - destruct (how_it t e) as [D B C|D B C|B D|D B]; split; try (intros _; eexists; reflexivity).
    + intros _. left. exact D.
    + intros _. left. exact D.
    + intros _. right. split; [reflexivity|exact B].
    + intros (c & H). discriminate H.
    + intros [H|[_ H]]; contradiction.
Qed.

Theorem several_table ps es : length es <> 1 ->
  (in_parentheses ps es = CArguments <-> Forall2 (fun p e => directly_p p e \/ by_class_p p e) ps es) /\
  (in_parentheses ps es = CArguments \/ in_parentheses ps es = CError).
Proof.
  intros L. assert (in_parentheses ps es = if all_convert ps es then CArguments else CError) as ->.
  { unfold in_parentheses. destruct es as [|e [|e' r]]; [reflexivity|contradiction L; reflexivity|reflexivity]. }
  split; [|destruct (all_convert ps es); auto].
  assert (all_convert ps es = true <-> Forall2 (fun p e => directly_p p e \/ by_class_p p e) ps es) as <-;
    [|destruct (all_convert ps es); split; intros; congruence].
  clear L. revert es. induction ps as [|p ps IH]; intros [|e es]; cbn.
  - split; [constructor|reflexivity].
  - split; [discriminate|intros H; inversion H].
  - split; [discriminate|intros H; inversion H].
  - pose proof (to_param_iff p e) as P. destruct (to_param p e) as [c|].
    + rewrite IH. split; [intros H; constructor; [apply P; eauto|exact H]|intros H; inversion H; assumption].
    + split; [discriminate|]. intros H. inversion H as [|p' e' ps' es' C R]. apply P in C. destruct C as (c & C). discriminate C.
Qed.

Theorem never_misread ps es : (Forall value es -> in_parentheses ps es = CArguments \/ in_parentheses ps es = CError) /\
  (forall e, es = [e] -> callable e -> in_parentheses ps es = CPredicate \/ in_parentheses ps es = CError).
Proof.
  split.
  - intros V. destruct es as [|e [|e' r]]; [apply (several_table ps []); discriminate| |apply (several_table ps (e :: e' :: r)); discriminate].
    inversion V as [|e' r Ve _ E]. destruct ps as [|p [|q ps]].
    + rewrite other_number by discriminate. right. apply predicate_table. left. exact Ve.
    + destruct (one_table p e) as (A & B & C). destruct (in_parentheses [p] [e]) eqn:R; auto.
      * destruct (proj1 B eq_refl) as [Cc _]. destruct Ve as [(b & ->)|(s & ->)]; destruct Cc as [Q|(c & Q)]; discriminate Q.
      * destruct (proj1 C eq_refl) as [N _]. destruct Ve as [(b & ->)|(s & ->)]; destruct N as [Q|[Q|Q]]; discriminate Q.
    + rewrite other_number by discriminate. right. apply predicate_table. left. exact Ve.
  - intros e -> F. destruct ps as [|p [|q ps]].
    + rewrite other_number by discriminate. destruct F as [->|(c & ->)]; cbn; auto.
    + destruct (one_table p e) as (A & B & C). destruct (in_parentheses [p] [e]) eqn:R; auto.
      * destruct (proj1 A eq_refl) as [D|(Bc & NC & _)]; [|contradiction (NC F)].
        exfalso. unfold directly_p in D. destruct (p_ref p); [subst e; destruct F as [Q|(c & Q)]; discriminate Q|].
        apply (direct_not_callable _ _ D F).
      * destruct (proj1 C eq_refl) as [N _]. destruct F as [->|(c & ->)]; destruct N as [Q|[Q|Q]]; discriminate Q.
    + rewrite other_number by discriminate. destruct F as [->|(c & ->)]; cbn; auto.
Qed.

Lemma collects_iff p e : collects p e = true <-> compares (p_type p) e.
Proof.
  destruct p as [t r]. unfold collects. cbn [p_type]. split.
  - intros H. destruct e as [b|[[|]|]| | | | |f cp]; try discriminate H; destruct t as [| | |k]; try discriminate H; try (constructor; fail).
    + apply andb_true_iff in H. destruct H as [H1 H2]. constructor; assumption.
    + constructor. exact H.
  - intros H. destruct H as [t b|t b| |c N Q| | |c I]; cbn; rewrite ?N, ?Q, ?I; reflexivity.
Qed.

Theorem using_table ps es : length es = length ps ->
  (in_using ps es = CArguments <-> Forall2 (fun p e => compares (p_type p) e) ps es) /\
  (in_using ps es = CArguments \/ in_using ps es = CError).
Proof.
  intros L. unfold in_using. rewrite (proj2 (Nat.eqb_eq _ _) L). split; [|destruct (all_collect ps es); auto].
  assert (all_collect ps es = true <-> Forall2 (fun p e => compares (p_type p) e) ps es) as <-;
    [|destruct (all_collect ps es); split; intros; congruence].
  clear L. revert es. induction ps as [|p ps IH]; intros [|e es]; cbn.
  - split; [constructor|reflexivity].
  - split; [discriminate|intros H; inversion H].
  - split; [discriminate|intros H; inversion H].
  - rewrite andb_true_iff, IH, collects_iff. split; [intros [A B]; constructor; assumption|intros H; inversion H; split; assumption].
Qed.

Theorem using_other ps e : length ps <> 1 ->
  (in_using ps [e] = CPredicate <-> callable e) /\ (in_using ps [e] = CEmpty <-> e = ENull) /\ in_using ps [e] <> CArguments.
Proof.
  intros L. unfold in_using. cbn [length]. destruct (1 =? length ps) eqn:E; [apply Nat.eqb_eq in E; symmetry in E; contradiction|].
  destruct (predicate_table e) as (A & B & _ & C). fold (in_matching e) in A, B, C.
  destruct e as [b|s| | | | |f cp]; try (split; [exact A|]; split; [|exact C]; rewrite B; split; [intros [H|[H|H]]; discriminate H|discriminate]).
  - split; [exact A|]. split; [split; reflexivity|discriminate].
  - split; [split; [discriminate|intros [H|(c & H)]; discriminate H]|]. split; [split; discriminate|discriminate].
  - split; [split; [discriminate|intros [H|(c & H)]; discriminate H]|]. split; [split; discriminate|discriminate].
Qed.

(** ** Assignments *)
Lemma nothing_cases e : nothing e -> e = EBraces \/ ((e = ENull \/ e = EZero) /\ to_context e = Some User).
Proof. intros [-> | [-> | ->]]; auto. Qed.

Theorem assign_table t e :
  (assign (Some t) e = AValue <-> directly t e \/ (by_class t e /\ ~ callable e /\ ~ nothing e)) /\
  (assign (Some t) e = AFunction <-> callable e) /\
  (assign (Some t) e = AEmpty <-> e = EBraces /\ exists c, t = TClass c).
Proof.
  pose proof (how_it t e) as Hw. unfold assign.
  assert (nothing ENull /\ nothing EZero /\ nothing EBraces) as (N1 & N2 & N3) by (unfold nothing; auto).
  assert (forall x, nothing x -> ~ callable x) as NC by (intros x [-> | [-> | ->]] [H|(c & H)]; discriminate H).
  destruct e as [b|s| | | | |[|] cp]; cbn [to_context to_function].
  - cbn. split; [split; [intros _; left; constructor|reflexivity]|].
    split; (split; [discriminate|]); [intros [H|(c & H)]; discriminate H|intros [H _]; discriminate H].
  - assert (~ callable (EOther s)) as C by (intros [H|(c & H)]; discriminate H).
    assert (~ nothing (EOther s)) as N by (intros [H|[H|H]]; discriminate H).
    destruct Hw as [D B C'|D B C'|B D|D B]; cbn; (split; [|split]); (split; intros HH); try discriminate HH; try reflexivity; try tauto;
      destruct HH as [HH _]; discriminate HH.
  - assert (~ callable ENull) as C by (apply NC; assumption).
    destruct Hw as [D B C'|D B C'|B D|D B]; cbn; (split; [|split]); (split; intros HH); try discriminate HH; try reflexivity; try tauto;
      destruct HH as [HH _]; discriminate HH.
  - assert (~ callable EZero) as C by (apply NC; assumption).
    destruct Hw as [D B C'|D B C'|B D|D B]; cbn; (split; [|split]); (split; intros HH); try discriminate HH; try reflexivity; try tauto;
      destruct HH as [HH _]; discriminate HH.
  - assert (~ callable EBraces) as C by (apply NC; assumption).
    destruct t as [| | |k]; cbn; [| | |destruct (c_braces k) eqn:Bk; cbn];
      (split; [|split]); (split; intros HH); try discriminate HH; try reflexivity; try (contradiction (C HH)).
    + left. constructor.
    + destruct HH as [_ (c & H)]. discriminate H.
    + left. constructor.
    + destruct HH as [_ (c & H)]. discriminate H.
    + left. constructor.
    + destruct HH as [_ (c & H)]. discriminate H.
    + destruct HH as [D|(_ & _ & N)]; [inversion D|contradiction].
    + split; [reflexivity|exists k; reflexivity].
    + destruct HH as [D|(_ & _ & N)]; [inversion D|contradiction].
    + split; [reflexivity|exists k; reflexivity].
  - assert (callable EFunction) as C by (left; reflexivity).
    destruct Hw as [D B C'|D B C'|B D|D B]; try (contradiction (C' C)); cbn; (split; [|split]); (split; intros HH); try discriminate HH; try reflexivity; try tauto;
      destruct HH as [HH _]; discriminate HH.
  - assert (callable (ELambda true cp)) as C by (right; exists cp; reflexivity).
    destruct Hw as [D B C'|D B C'|B D|D B]; try (contradiction (C' C)); cbn; (split; [|split]); (split; intros HH); try discriminate HH; try reflexivity; try tauto;
      destruct HH as [HH _]; discriminate HH.
  - assert (~ callable (ELambda false cp)) as C by (intros [H|(c & H)]; discriminate H).
    assert (~ nothing (ELambda false cp)) as N by (intros [H|[H|H]]; discriminate H).
    destruct Hw as [D B C'|D B C'|B D|D B]; cbn; (split; [|split]); (split; intros HH); try discriminate HH; try reflexivity; try tauto;
      destruct HH as [HH _]; discriminate HH.
Qed.

Theorem assign_void e : (assign None e = AFunction <-> callable e) /\ (assign None e = AEmpty <-> e = EBraces) /\ assign None e <> AValue.
Proof.
  unfold callable.
  destruct e as [b|s| | | | |[|] cp]; cbn; (split; [|split]); try discriminate; (split; intros HH); try discriminate HH; try reflexivity;
    try (destruct HH as [HH|(c & HH)]; discriminate HH); eauto.
Qed.

Theorem assign_calls {V} r e (v f : V) :
  (callable e -> assigned_call (assign r e) v f = Some (Returned f)) /\
  (forall t, r = Some t -> value e -> (directly t e \/ by_class t e) -> assigned_call (assign r e) v f = Some (Returned v)).
Proof.
  split.
  - intros C. assert (assign r e = AFunction) as ->; [|reflexivity].
    destruct r as [t|]; [apply assign_table|apply assign_void]; exact C.
  - intros t -> Ve D. assert (assign (Some t) e = AValue) as ->; [|reflexivity]. apply assign_table.
    destruct D as [D|B]; [left; exact D|right]. split; [exact B|].
    destruct Ve as [(b & ->)|(s & ->)]; (split; [intros [H|(c & H)]; discriminate H|intros [H|[H|H]]; discriminate H]).
Qed.

(** ** Return *)
Theorem pair_table whole second :
  (return_pair whole second = RValue <-> whole = true /\ second = false) /\
  (return_pair whole second = RTimes <-> second = true) /\
  (return_pair whole second = RError <-> whole = false /\ second = false).
Proof. destruct whole, second; cbn; repeat split; intros; try discriminate; try reflexivity; try tauto; destruct H; discriminate. Qed.

Theorem pair_calls {V} n (w s : V) k second :
  (second = false -> returned_call (return_pair true second) false n w s k = Some (if k =? 0 then Returned w else WasUnexpected)) /\
  (second = true -> returned_call (return_pair true second) false n w s k = Some (if k <? n then Returned s else WasUnexpected)) /\
  returned_call (always_return_pair true) true n w s k = Some (Returned w).
Proof.
  split; [intros ->|split; [intros ->; reflexivity|reflexivity]]. cbn. destruct k as [|k]; reflexivity.
Qed.
