(** * C97: values given to a mock may use mocked objects when they are destroyed *)
From Coq Require Import Bool Arith Lia List.
From Verif Require Import Departing Spec_Departing DepartingProofs.
Import ListNotations.
Open Scope nat_scope.

(** Destroying a mock is defined, whatever the destructors of the values do with objects that exist,
    the mock's own object among them. *)
Theorem C97_end fw w m k :
  at_rest w -> nth_error (w_mocks w) m = Some k -> mk_stage k = Attached ->
  (forall i a, In (i, a) (all_kept fw k) -> possible w (Some m) a) ->
  destroy_mock fw m w <> UB.
Proof. exact (end_defined fw w m k). Qed.

(** And exactly this happens: the methods of the mock's own object are those of its class by then. *)
Theorem C97_end_story fw w m k o :
  at_rest w -> nth_error (w_mocks w) m = Some k -> mk_stage k = Attached ->
  goes w (Some m) (fun _ _ => False) (all_kept fw k) o ->
  match o with
  | Fine l => exists w' k', destroy_mock fw m w = Ok w' /\ w_seen w' = w_seen w ++ l /\ at_rest w' /\
                            nth_error (w_mocks w') m = Some k' /\ mk_stage k' = Gone /\ others_grew w w' m l
  | Stops => destroy_mock fw m w = Ends
  | Undefined => False
  end.
Proof. exact (fun R M A => destroyed w m k R M A fw o). Qed.

(** Values that own the mock's own object and delete it: ignored. *)
Theorem C97_end_own fw w m k d :
  at_rest w -> nth_error (w_mocks w) m = Some k -> mk_stage k = Attached ->
  mk_own k = true -> mk_dtor k = Some d -> d < length (mk_entries k) ->
  (forall i a, In (i, a) (all_kept fw k) -> a = Delete m) ->
  exists w', destroy_mock fw m w = Ok w' /\ w_seen w' = w_seen w.
Proof. exact (end_own fw w m k d). Qed.

(** Reset is defined if no value goes through a stubbed method that Reset has emptied. *)
Theorem C97_reset fw w m k :
  at_rest w -> nth_error (w_mocks w) m = Some k -> mk_stage k = Attached ->
  (forall i a, In (i, a) (all_kept fw k) -> possible w None a /\ ~ bad_reset w fw m i a) ->
  reset fw m w <> UB.
Proof. exact (reset_defined fw w m k). Qed.

Theorem C97_reset_story fw w m k o :
  at_rest w -> nth_error (w_mocks w) m = Some k -> mk_stage k = Attached ->
  goes w None (bad_reset w fw m) (all_kept fw k) o ->
  match o with
  | Fine l => exists w' k', reset fw m w = Ok w' /\ w_seen w' = w_seen w ++ l /\ at_rest w' /\
                            nth_error (w_mocks w') m = Some k' /\ mk_stage k' = Attached /\
                            length (mk_entries k') = length (mk_entries k) /\
                            (forall e, In e (mk_entries k') -> e = Orig) /\ others_grew w w' m l
  | Stops => reset fw m w = Ends
  | Undefined => reset fw m w = UB
  end.
Proof. exact (fun R M A => resets w m k R M A fw o). Qed.

(** ClearInvocationHistory is defined if no value recorded with a call of a method calls that method. *)
Theorem C97_clear fw w m k :
  at_rest w -> nth_error (w_mocks w) m = Some k -> mk_stage k = Attached ->
  (forall i a, In (i, a) (all_recorded fw k) -> possible w None a /\ ~ bad_clear w m i a) ->
  clear_history fw m w <> UB.
Proof. exact (clear_defined fw w m k). Qed.

Theorem C97_clear_story fw w m k o :
  at_rest w -> nth_error (w_mocks w) m = Some k -> mk_stage k = Attached ->
  goes w None (bad_clear w m) (all_recorded fw k) o ->
  match o with
  | Fine l => exists w', clear_history fw m w = Ok w' /\ w_seen w' = w_seen w ++ l /\ at_rest w' /\
                         (forall i x, stubbed w None m i x -> stubbed w' None m i x) /\
                         (forall i h, history w m i h -> exists x, x <= answered m i l /\ history w' m i (repeat [] x)) /\
                         others_grew w w' m l
  | Stops => clear_history fw m w = Ends
  | Undefined => clear_history fw m w = UB
  end.
Proof. exact (fun R M A => clears w m k R M A fw o). Qed.

(** Nothing is left of the history if the values leave the mock alone. *)
Theorem C97_clear_empty fw w m k w' :
  at_rest w -> nth_error (w_mocks w) m = Some k -> mk_stage k = Attached ->
  (forall i a, In (i, a) (all_recorded fw k) -> possible w None a /\ forall j, ~ means w a m j) ->
  clear_history fw m w = Ok w' ->
  forall i h, history w m i h -> history w' m i [].
Proof. exact (clear_empty fw w m k w'). Qed.

(** ** Examples *)

(** Two mocks. The first one's object is made by the library, with a method 0 and a virtual
    destructor 1; the second one wraps an object with methods 0 and 1. *)
Definition mock_a (calls : list value) : mock := mkMock Attached true (Some 1) [Bound; Orig] [Body (mkBody true [] calls); Empty] None.
Definition mock_b (held calls : list value) : mock :=
  mkMock Attached false None [Bound; Orig] [Body (mkBody true held calls); Empty] None.
Definition world_of (a b : mock) : world := mkWorld [a; b] [].

Lemma rest_ab ca hb cb : at_rest (world_of (mock_a ca) (mock_b hb cb)).
Proof.
  intros [|[|m]] k H; cbn in H; [| |now destruct m]; injection H as <-;
    (split; [reflexivity|]; split; [reflexivity|]; intros _ [|[|i]]; cbn; try reflexivity; now destruct i).
Qed.

(** A recorded argument owns the object of the mock (issue 153), another uses the second mock. *)
Definition w_own := world_of (mock_a [[Delete 0]; []; [Delete 0]]) (mock_b [] []).
Example C97_example_own :
  at_rest w_own /\ (forall i a, In (i, a) (all_kept true (mock_a [[Delete 0]; []; [Delete 0]])) -> a = Delete 0) /\
  all_kept true (mock_a [[Delete 0]; []; [Delete 0]]) = [(0, Delete 0); (0, Delete 0)].
Proof. split; [apply rest_ab|]. split; [|reflexivity]. cbn. intros i a [E|[E|[]]]; now injection E. Qed.

Definition w_mixed := world_of (mock_a [[Delete 0; Call 1 0]; [Call 1 1; Call 1 0]]) (mock_b [] []).
Lemma stub_b0 hb cb ca fr : fr <> Some 1 -> stubbed (world_of (mock_a ca) (mock_b hb cb)) fr 1 0 true.
Proof. intros F. split; [exact F|]. exists (mock_b hb cb), (mkBody true hb cb). repeat split. Qed.
Lemma plain_b1 hb cb ca fr : plain (world_of (mock_a ca) (mock_b hb cb)) fr 1 1 false None.
Proof.
  exists (mock_b hb cb). split; [reflexivity|]. split; [reflexivity|]. split; [reflexivity|]. split; [cbn; lia|].
  right. split; reflexivity.
Qed.
Example C97_example_story :
  goes w_mixed (Some 0) (fun _ _ => False) (all_kept true (mock_a [[Delete 0; Call 1 0]; [Call 1 1; Call 1 0]]))
       (Fine [Answered 1 0; Original 1 1; Answered 1 0]) /\
  (forall i a, In (i, a) (all_kept true (mock_a [[Delete 0; Call 1 0]; [Call 1 1; Call 1 0]])) -> possible w_mixed (Some 0) a) /\
  destroy_mock true 0 w_mixed =
    Ok (mkWorld [mkMock Gone true (Some 1) [Bound; Orig] [Dead; Dead] None; mock_b [] [[]; []]]
                [Answered 1 0; Original 1 1; Answered 1 0]).
Proof.
  assert (T1 : told w_mixed (Some 0) (Delete 0) []).
  { apply t_ignored with (m := 0) (i := 1).
    - split; [reflexivity|]. eexists. split; reflexivity.
    - eexists. split; [reflexivity|]. split; [reflexivity|]. split; [reflexivity|]. split; [cbn; lia|]. left. now left. }
  assert (T2 : told w_mixed (Some 0) (Call 1 0) [Answered 1 0]).
  { apply t_answered; [split; reflexivity|]. apply stub_b0. discriminate. }
  assert (T3 : told w_mixed (Some 0) (Call 1 1) [Original 1 1]).
  { eapply t_original; [split; reflexivity|]. apply plain_b1. }
  split; [|split; [|reflexivity]].
  - cbn. change (Fine [Answered 1 0; Original 1 1; Answered 1 0]) with (Fine ([] ++ [Answered 1 0] ++ [Original 1 1] ++ [Answered 1 0] ++ [])).
    apply g_fine; [tauto|exact T1|]. apply g_fine; [tauto|exact T2|]. apply g_fine; [tauto|exact T3|].
    apply g_fine; [tauto|exact T2|]. constructor.
  - cbn. intros i a [E|[E|[E|[E|[]]]]]; injection E as <- <-.
    + exists 0, 1. split; [split; [reflexivity|]; eexists; split; reflexivity|]. right. exists true, (Some 1).
      eexists. split; [reflexivity|]. split; [reflexivity|]. split; [reflexivity|]. split; [cbn; lia|]. left. now left.
    + exists 1, 0. split; [split; reflexivity|]. left. exists true. apply stub_b0. discriminate.
    + exists 1, 1. split; [split; reflexivity|]. right. exists false, None. apply plain_b1.
    + exists 1, 0. split; [split; reflexivity|]. left. exists true. apply stub_b0. discriminate.
Qed.

(** Reset and ClearInvocationHistory of the first mock with the same values: what they delete is not
    stubbed, and they call another mock. *)
Example C97_example_reset :
  (forall i a, In (i, a) (all_kept true (mock_a [[Delete 0; Call 1 0]; [Call 1 1; Call 1 0]])) ->
     possible w_mixed None a /\ ~ bad_reset w_mixed true 0 i a /\ ~ bad_clear w_mixed 0 i a) /\
  reset true 0 w_mixed =
    Ok (mkWorld [mkMock Attached true (Some 1) [Orig; Orig] [Empty; Empty] None; mock_b [] [[]; []]]
                [Answered 1 0; Original 1 1; Answered 1 0]) /\
  clear_history true 0 w_mixed =
    Ok (mkWorld [mock_a []; mock_b [] [[]; []]] [Answered 1 0; Original 1 1; Answered 1 0]).
Proof.
  assert (NS : forall x, ~ stubbed w_mixed None 0 1 x).
  { intros x (_ & k & b & O & _ & E & _). unfold of_mock in O. cbn in O. injection O as <-. discriminate E. }
  assert (N1 : forall i, ~ means w_mixed (Call 1 i) 0 0 /\ forall j, ~ means w_mixed (Call 1 i) 0 j).
  { intros i. split; [|intros j]; intros [E _]; discriminate E. }
  split; [|split; reflexivity].
  cbn. intros i a [E|[E|[E|[E|[]]]]]; injection E as <- <-.
  - split.
    + exists 0, 1. split; [split; [reflexivity|]; eexists; split; reflexivity|]. right. exists true, (Some 1).
      eexists. split; [reflexivity|]. split; [reflexivity|]. split; [reflexivity|]. split; [cbn; lia|]. right. split; reflexivity.
    + split.
      * intros (j & x & (_ & k & O & D) & ST & _). unfold of_mock in O. cbn in O. injection O as <-. injection D as <-. exact (NS x ST).
      * intros ((_ & k & O & D) & _). unfold of_mock in O. cbn in O. injection O as <-. discriminate D.
  - split; [exists 1, 0; split; [split; reflexivity|]; left; exists true; apply stub_b0; discriminate|].
    split; [intros (j & x & M & _); exact (proj2 (N1 0) j M)|intros (M & _); exact (proj1 (N1 0) M)].
  - split; [exists 1, 1; split; [split; reflexivity|]; right; exists false, None; apply plain_b1|].
    split; [intros (j & x & M & _); exact (proj2 (N1 1) j M)|intros (M & _); exact (proj1 (N1 1) M)].
  - split; [exists 1, 0; split; [split; reflexivity|]; left; exists true; apply stub_b0; discriminate|].
    split; [intros (j & x & M & _); exact (proj2 (N1 0) j M)|intros (M & _); exact (proj1 (N1 0) M)].
Qed.

(** Values that leave the mock alone, for the last theorem. *)
Definition w_apart := world_of (mock_a [[Call 1 0]; []]) (mock_b [] []).
Example C97_example_apart :
  (forall i a, In (i, a) (all_recorded false (mock_a [[Call 1 0]; []])) -> possible w_apart None a /\ forall j, ~ means w_apart a 0 j) /\
  history w_apart 0 0 [[Call 1 0]; []] /\
  exists w', clear_history false 0 w_apart = Ok w'.
Proof.
  split; [|split; [eexists _, _; repeat split|eexists; reflexivity]].
  cbn. intros i a [E|[]]. injection E as <- <-. split.
  - exists 1, 0. split; [split; reflexivity|]. left. exists true. apply stub_b0. discriminate.
  - intros j [E _]. discriminate E.
Qed.

(** ** What does not hold *)

(** Destroying a mock is not always quiet: a recorded argument whose destructor calls a stubbed method of
    the mock's own object ends the program, though the same call is answered as long as the mock lives. *)
Theorem C97_end_refuted :
  ~ (forall fw w m k, at_rest w -> nth_error (w_mocks w) m = Some k -> mk_stage k = Attached ->
       (forall i a, In (i, a) (all_kept fw k) -> exists l, told w None a l) ->
       exists w', destroy_mock fw m w = Ok w').
Proof.
  intros H. destruct (H true (world_of (mock_a [[Call 0 0]]) (mock_b [] [])) 0 (mock_a [[Call 0 0]]) (rest_ab _ _ _) eq_refl eq_refl) as (w' & E).
  - cbn. intros i a [E|[]]. injection E as <- <-. exists [Answered 0 0]. apply t_answered; [split; reflexivity|].
    split; [discriminate|]. eexists _, _. repeat split.
  - discriminate E.
Qed.

(** Reset is undefined if such a destructor calls a stubbed method of the same mock, in either order. *)
Theorem C97_reset_refuted :
  ~ (forall fw w m k, at_rest w -> nth_error (w_mocks w) m = Some k -> mk_stage k = Attached ->
       (forall i a, In (i, a) (all_kept fw k) -> exists l, told w None a l) -> reset fw m w <> UB) /\
  forall fw, reset fw 1 (world_of (mock_a []) (mock_b [[Call 1 0]] [])) = UB.
Proof.
  split; [|intros [|]; reflexivity].
  intros H. apply (H true (world_of (mock_a []) (mock_b [[Call 1 0]] [])) 1 (mock_b [[Call 1 0]] []) (rest_ab _ _ _) eq_refl eq_refl); [|reflexivity].
  cbn. intros i a [E|[]]. injection E as <- <-. exists [Answered 1 0]. apply t_answered; [split; reflexivity|].
  apply stub_b0. discriminate.
Qed.

(** ClearInvocationHistory is undefined if an argument recorded with a call calls the same method. *)
Theorem C97_clear_refuted :
  ~ (forall fw w m k, at_rest w -> nth_error (w_mocks w) m = Some k -> mk_stage k = Attached ->
       (forall i a, In (i, a) (all_recorded fw k) -> exists l, told w None a l) -> clear_history fw m w <> UB).
Proof.
  intros H. apply (H true (world_of (mock_a []) (mock_b [] [[Call 1 0]])) 1 (mock_b [] [[Call 1 0]]) (rest_ab _ _ _) eq_refl eq_refl); [|reflexivity].
  cbn. intros i a [E|[]]. injection E as <- <-. exists [Answered 1 0]. apply t_answered; [split; reflexivity|].
  apply stub_b0. discriminate.
Qed.

(** The history need not be empty afterwards: a value of the second method that calls the first. *)
Definition mock_c : mock :=
  mkMock Attached true None [Bound; Bound] [Body (mkBody true [] [[]]); Body (mkBody true [] [[Call 0 0]])] None.
Theorem C97_clear_empty_refuted :
  ~ (forall fw w m k w', at_rest w -> nth_error (w_mocks w) m = Some k -> mk_stage k = Attached ->
       (forall i a, In (i, a) (all_recorded fw k) -> ~ bad_clear w m i a) ->
       clear_history fw m w = Ok w' -> forall i h, history w m i h -> history w' m i []).
Proof.
  intros H. set (w := mkWorld [mock_c] []).
  assert (R : at_rest w).
  { intros [|m] k E; cbn in E; [|now destruct m]. injection E as <-.
    split; [reflexivity|]. split; [reflexivity|]. intros _ [|[|i]]; cbn; try reflexivity. now destruct i. }
  set (w' := mkWorld [mkMock Attached true None [Bound; Bound] [Body (mkBody true [] [[]]); Body (mkBody true [] [])] None] [Answered 0 0]).
  specialize (H true w 0 mock_c w' R eq_refl eq_refl).
  assert (B : forall i a, In (i, a) (all_recorded true mock_c) -> ~ bad_clear w 0 i a).
  { cbn. intros i a [E|[]]. injection E as <- <-. intros ((_ & E) & _). discriminate E. }
  specialize (H B eq_refl 0 [[]]). destruct H as (k & b & O & I & E).
  - eexists _, _. repeat split.
  - cbn in O. injection O as <-. cbn in I. injection I as <-. discriminate E.
Qed.

Definition C97_all := (C97_end, C97_end_story, C97_end_own, C97_reset, C97_reset_story, C97_clear, C97_clear_story, C97_clear_empty,
                       C97_end_refuted, C97_reset_refuted, C97_clear_refuted, C97_clear_empty_refuted).
Print Assumptions C97_all.
