(** Mocks in several threads.

    [op_accesses] (Race.v) lists the memory accesses of a call, of a statement that mentions
    or stubs a method, and of a verification; [race] (Spec_Race.v) is the data race of the
    C++ memory model, which is undefined behaviour. *)
From Coq Require Import Bool ZArith Lia List.
From Verif Require Import Spec_Race Race Spec_Threads RaceProofs.
Import ListNotations.
Open Scope nat_scope.

(** ** C69, what holds: threads whose operations keep apart pairwise, that is, use different
    mocks, or call different methods of one mock that were mentioned before, do not race in
    any execution, provided the user's own code (actions, original methods) does not. *)
Theorem C69_threads_apart : forall ts,
  (forall t u o o', t <> u -> In o (nth t ts []) -> In o' (nth u ts []) ->
     keep_apart o o' /\
     forall a b, In a (user_accesses o) -> In b (user_accesses o') -> ~ conflict a b) ->
  (forall t o, In o (nth t ts []) -> Forall of_user (user_accesses o)) ->
  forall tr, runs (map thread_accesses ts) tr -> ~ race tr.
Proof. exact apart_no_race. Qed.

(** Three threads: two call different methods of mock 0, the first one a spied method; the
    third stubs a method of mock 0 with a later entry and verifies mock 1. *)
Definition C69_threads : list (list t_op) :=
  [[TCall (mkCallInfo 0 0 [1; 0] (Some (0, FSpied)) [Wr (LUser 0)]); TCall (mkCallInfo 0 0 [1] (Some (1, FCounted true)) [])];
   [TCall (mkCallInfo 0 1 [0] (Some (0, FLasting)) [Rd (LUser 1)]); TCall (mkCallInfo 0 1 [0] None [])];
   [TStub 0 2 true; TVerify 1 2 [0; 1]]].
Example C69_case :
  (forall t u o o', t <> u -> In o (nth t C69_threads []) -> In o' (nth u C69_threads []) ->
     keep_apart o o' /\
     forall a b, In a (user_accesses o) -> In b (user_accesses o') -> ~ conflict a b) /\
  (forall t o, In o (nth t C69_threads []) -> Forall of_user (user_accesses o)) /\
  exists tr, runs (map thread_accesses C69_threads) tr /\ 60 < length tr.
Proof.
  split; [|split].
  - intros t u o o' Htu Ho Ho'.
    destruct t as [|[|[|t]]]; destruct u as [|[|[|u]]]; try congruence;
      try (destruct t; contradiction); try (destruct u; contradiction);
      cbn in Ho, Ho';
      repeat match goal with H : _ \/ _ |- _ => destruct H end; try contradiction; subst;
      (split; [split; cbn; try exact Logic.I; try congruence; try (split; [congruence|intros; lia]); try discriminate
              |intros a b Ha Hb HC; cbn in Ha, Hb; repeat match goal with H : _ \/ _ |- _ => destruct H end; try contradiction; subst; cbn in HC; discriminate]).
  - intros t o Ho. destruct t as [|[|[|t]]]; [| | |destruct t; contradiction]; cbn in Ho;
      repeat match goal with H : _ \/ _ |- _ => destruct H end; try contradiction; subst; cbn; repeat constructor.
  - exists (map (pair 0) (thread_accesses (nth 0 C69_threads [])) ++
            map (pair 2) (thread_accesses (nth 2 C69_threads [])) ++
            map (pair 1) (thread_accesses (nth 1 C69_threads []))).
    split; [|vm_compute; lia]. intros t. destruct t as [|[|[|[|t]]]]; try reflexivity.
Qed.

(** C69 is false in general.  Two threads that each call the same method once, whatever
    stubbing each call finds and whatever remains of its answers: there is an execution with
    a data race (on the list of recorded invocations). *)
Theorem C69_same_method_refuted : forall c d, c_mock c = c_mock d -> c_entry c = c_entry d ->
  c_found c <> None -> c_found d <> None -> Forall of_user (c_user c) ->
  exists tr, runs [call_accesses c; call_accesses d] tr /\ race tr.
Proof. exact same_method_race. Qed.

(** A call of a method and a verification that involves its mock, for whichever method: *)
Theorem C69_verify_refuted : forall c size ks,
  c_found c <> None -> Forall of_user (c_user c) -> NoDup ks -> In (c_entry c) ks ->
  exists tr, runs [call_accesses c; verify_accesses (c_mock c) size ks] tr /\ race tr.
Proof. exact verify_race. Qed.

(** A call of a method mentioned long before and the first mention of another method of the
    mock that is declared before it. *)
Theorem C69_first_mention_refuted : forall c k, k < c_entry c ->
  exists tr, runs [mention_accesses (c_mock c) k true; call_accesses c] tr /\ race tr.
Proof. exact mention_race. Qed.

(** A call of a method and a statement that stubs this method, mentioned before or not; two
    statements that stub one method. *)
Theorem C69_stub_refuted : forall c first,
  exists tr, runs [stub_accesses (c_mock c) (c_entry c) first; call_accesses c] tr /\ race tr.
Proof. exact stub_race. Qed.
Theorem C69_stubs_refuted : forall m k first first',
  exists tr, runs [stub_accesses m k first; stub_accesses m k first'] tr /\ race tr.
Proof. exact stubs_race. Qed.

(** Concrete cases of these: calls of entry 1 of mock 0 that find a stubbing made with
    AlwaysReturn and one whose last answer is used. *)
Definition C69_lasting : call := mkCallInfo 0 1 [0] (Some (0, FLasting)) [].
Definition C69_counted : call := mkCallInfo 0 1 [1; 0] (Some (1, FCounted true)) [Wr (LUser 3)].
Example C69_same_method_case :
  c_mock C69_lasting = c_mock C69_counted /\ c_entry C69_lasting = c_entry C69_counted /\
  c_found C69_lasting <> None /\ c_found C69_counted <> None /\
  Forall of_user (c_user C69_lasting) /\ Forall of_user (c_user C69_counted) /\
  NoDup [0; 1] /\ In (c_entry C69_counted) [0; 1] /\ 0 < c_entry C69_counted.
Proof.
  repeat split; try discriminate; try (repeat constructor; fail); try (cbn; auto; fail).
  repeat constructor; cbn; intuition discriminate.
Qed.

Definition P_Race_theorems := (C69_threads_apart, C69_same_method_refuted, C69_verify_refuted, C69_first_mention_refuted,
  C69_stub_refuted, C69_stubs_refuted).
Print Assumptions P_Race_theorems.
