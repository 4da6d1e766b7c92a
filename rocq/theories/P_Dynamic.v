(** The dynamic type of mocked and wrapped objects, and the methods a derived class adds.

    [so_class x]: the class object [x] was made from ([ONewObj], [OMock]).
    [so_mock x = Some m]: mock [m] was made for it or wraps it.  [OTypeid o]: what
    [typeid] of the object yields. *)
From Coq Require Import Bool ZArith Lia List.
From Verif Require Import Base CInt Values ArgMatchers InvMatchers ActionSeq Sequences MatchAnalysis
  Proxy Events Expectation ReturnSet Syntax World Spec_World WorldRel WorldSim Spec_View SpecFacts
  WorldType WorldExamples P_Calls.
Import ListNotations.
Open Scope nat_scope.

(** A class and one derived from it: it overrides [foo] and adds a method (entry 4). *)
Definition dy_base : class_desc := ex_class.
Definition dy_derived : class_desc :=
  mkClass 5 (Some 2%nat)
    (fun s => match s with
              | 0%nat => PRet (VInt 40)
              | 1%nat => PRet (VRef 1)
              | 4%nat => PRet (VInt 44)
              | _ => PRet VVoid
              end)
    (fun s => match s with 0%nat => RtVal (VInt 0) | 1%nat => RtRef 0 | 4%nat => RtVal (VInt 0) | _ => RtVoid end)
    2.
Definition dy_env : env :=
  mkEnv [dy_base; dy_derived] (e_react ex_env) (e_builtin ex_env) (e_iter ex_env) (e_moved ex_env).

(** ** C83 *)

(** Whatever was done before: an object no mock wraps, an object a mock was made with, and one
    wrapped by a mock of its own class show the class they were made from. *)
Theorem C83_type : forall E, iterates E -> forall f m0 os s rs o x,
  leads E (S f) m0 os s rs -> live (s_objs s) o = Some x ->
  (forall m k, so_mock x = Some m -> live (s_mocks s) m = Some k -> sk_owner k = true \/ sk_class k = so_class x) ->
  leads E (S f) m0 (os ++ [OTypeid o]) s (rs ++ [inl (id_val (so_class x))]).
Proof. exact own_type. Qed.

(** While a mock wraps it, an object shows the class of the mock. *)
Theorem C83_wrapped : forall E, iterates E -> forall f m0 os s rs o x m k,
  leads E (S f) m0 os s rs -> live (s_objs s) o = Some x ->
  so_mock x = Some m -> live (s_mocks s) m = Some k ->
  leads E (S f) m0 (os ++ [OTypeid o]) s (rs ++ [inl (id_val (sk_class k))]).
Proof. exact mock_type. Qed.

(** While a mock wraps it, calling a method that the class of the mock does not have, because
    the class of the object added it, is undefined. *)
Theorem C83_added_refuted : forall E f m0 os s rs o x m k d slot args,
  leads E (S f) m0 os s rs -> live (s_objs s) o = Some x -> so_mock x = Some m -> live (s_mocks s) m = Some k ->
  nth_error (e_classes E) (sk_class k) = Some d -> cl_size d <= slot ->
  exec_all E (S f) (os ++ [OCall o slot args]) (init_world E m0) = RUB.
Proof. exact beyond_program. Qed.

(** One program: a derived object, wrapped through the base class, [foo] stubbed and called.
    Before and after the life of the mock the object is of the derived class and has the added
    method; meanwhile it is of the base class. *)
Definition C83_prog : list op :=
  [ONewObj 1; OTypeid 0; OCall 0 4 []; OSpyMock 0 0; OStmt [(foo 0, None)] (SWhen [once 7] None); OCall 0 0 [VInt 3]].
Theorem C83_type_refuted : exists E os rs, iterates E /\
  results E 10 [] (os ++ [OTypeid 0]) = Some (rs ++ [inl (id_val 1)]) /\
  results E 10 [] (os ++ [OSpyMock 0 0; OTypeid 0]) = Some (rs ++ [inl (VInt 0); inl (id_val 0)]).
Proof.
  exists dy_env, [ONewObj 1], [inl (VInt 0)]. split; [intro l; apply Permutation.Permutation_refl|]. split; vm_compute; reflexivity.
Qed.

Local Ltac run' := apply answered_leads; [intro l; apply Permutation.Permutation_refl|]; vm_compute; reflexivity.
Definition dy_ends (os : list op) : sworld := match sexec_all dy_env 10 os (sinit []) with SOk s _ => s | _ => sinit [] end.
Definition dy_gives (os : list op) : list (val + exn) := match sexec_all dy_env 10 os (sinit []) with SOk _ rs => rs | _ => [] end.

Example C83_case : exists x k,
  leads dy_env 10 [] C83_prog (dy_ends C83_prog) (dy_gives C83_prog) /\
  live (s_objs (dy_ends C83_prog)) 0 = Some x /\ so_mock x = Some 0 /\ so_class x = 1 /\
  live (s_mocks (dy_ends C83_prog)) 0 = Some k /\ sk_class k = 0 /\ sk_owner k = false /\
  nth_error (e_classes dy_env) (sk_class k) = Some dy_base /\ cl_size dy_base <= 4 /\
  results dy_env 10 [] (C83_prog ++ [OTypeid 0; OMockDestroy 0; OTypeid 0; OCall 0 4 []; OMock 1; OTypeid 1; OSpyMock 1 0; OTypeid 0; OCall 0 4 []]) =
    Some ([inl (VInt 0); inl (VInt 1); inl (VInt 44); inl (VInt 0); inl VVoid; inl (VInt 7)] ++
          [inl (VInt 0); inl VVoid; inl (VInt 1); inl (VInt 44); inl (VInt 1); inl (VInt 1); inl (VInt 2); inl (VInt 1); inl (VInt 44)]).
Proof.
  do 2 eexists. split; [run'|]. split; [vm_compute; reflexivity|]. split; [vm_compute; reflexivity|]. split; [vm_compute; reflexivity|].
  split; [vm_compute; reflexivity|]. split; [vm_compute; reflexivity|]. split; [vm_compute; reflexivity|]. split; [reflexivity|].
  split; [cbn; lia|]. vm_compute. reflexivity.
Qed.

(** Objects that meet the hypothesis of C83_type: one never wrapped, one of a mock, one wrapped as what it is. *)
Definition C83_own : list op := [ONewObj 1; OMock 1; ONewObj 1; OSpyMock 1 2; OCall 2 4 []].
Example C83_type_case : forall o, o < 3 -> exists x,
  leads dy_env 10 [] C83_own (dy_ends C83_own) (dy_gives C83_own) /\
  live (s_objs (dy_ends C83_own)) o = Some x /\ so_class x = 1 /\
  (forall m k, so_mock x = Some m -> live (s_mocks (dy_ends C83_own)) m = Some k -> sk_owner k = true \/ sk_class k = so_class x).
Proof.
  intros o L. assert (LL : leads dy_env 10 [] C83_own (dy_ends C83_own) (dy_gives C83_own)) by run'.
  destruct o as [|[|[|]]]; try lia; eexists; (split; [exact LL|]); (split; [vm_compute; reflexivity|]); (split; [reflexivity|]);
    intros m k M K; cbn in M; inversion M; subst m; vm_compute in K; inversion K; subst k; cbn; auto.
Qed.

Definition P_Dynamic_theorems := (C83_type, C83_wrapped, C83_added_refuted, C83_type_refuted).
Print Assumptions P_Dynamic_theorems.
