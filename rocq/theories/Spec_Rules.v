(** Rules for tests: what a test has to keep to so that nothing it does is undefined and it
    ends.  No function of the library is modelled here.

    A test that keeps to the rules declares mocks, uses those that are there and destroys
    them, in whatever order, but destroys none that others still need.  Method expressions
    and verifications are used within the statements that contain them.  What is said about
    methods goes by a [plan]. *)
From Coq Require Import Bool ZArith Lia List.
From Verif Require Import Base CInt Values ArgMatchers InvMatchers Spec_Conditions ActionSeq Sequences MatchAnalysis
  Spec_Match Proxy Events Expectation Spec_Verify ReturnSet Syntax World Spec_World Spec_View Spec_Verification.
Import ListNotations.
Open Scope nat_scope.

(** The plan of a test. *)
Record plan : Type := mkPlan {
  (* the mocks, numbered in the order of their declarations: the class, and the class of
     the user's object that is wrapped, if one is.  Mock number i has object number i. *)
  pl_mocks : nat -> option (nat * option nat);
  (* the code that answers calls of mock i may use mock j *)
  pl_uses : nat -> nat -> bool;
  (* how many calls and method expressions the code that answers a call of method e of
     mock i may take, those of the code it calls included *)
  pl_work : nat -> nat -> nat;
  (* the arguments that may be passed to method e of mock i *)
  pl_args : nat -> nat -> list val -> Prop;
  (* the states that the user's variables may be in *)
  pl_mem : mem -> Prop;
  (* the method of mock i whose expressions have a certain number *)
  pl_name : nat -> Z -> nat;
  (* the mocks that are reset at some time *)
  pl_reset : nat -> bool
}.

(** The plan without the mocks that are not in [L]; with those only that mock [i] may use. *)
Definition only (L : nat -> bool) (P : plan) : plan :=
  mkPlan (fun i => if L i then pl_mocks P i else None) (pl_uses P) (pl_work P) (pl_args P) (pl_mem P) (pl_name P) (pl_reset P).
Definition within (P : plan) (i : nat) : plan := only (pl_uses P i) P.

Section Rules.
Variable E : env.

Section Plan.
Variable P : plan.

(** The class of mock [i]; that of its object; the return type of its method [e]. *)
Definition class_at (i : nat) : option class_desc :=
  match pl_mocks P i with Some (c, _) => nth_error (e_classes E) c | None => None end.
Definition object_at (i : nat) : option class_desc :=
  match pl_mocks P i with
  | Some (c, None) => nth_error (e_classes E) c
  | Some (_, Some c) => nth_error (e_classes E) c
  | None => None
  end.
Definition returns (i e : nat) : option rett :=
  match class_at i with Some d => Some (if is_dtor d e then RtVoid else cl_ret d e) | None => None end.

(** Method(mock, f) and Dtor(mock): the methods of a mock have different numbers, none of
    them 0 or INT_MAX; the destructor of a mock that is reset is not mentioned. *)
Inductive designated : target -> nat -> nat -> Prop :=
| DeMethod : forall i slot c d, class_at i = Some d -> slot < cl_size d -> is_dtor d slot = false ->
    pl_name P i (method_id c) = slot -> method_id c <> 0%Z -> method_id c <> int_max ->
    designated (TMethod i slot c) i slot
| DeDtor : forall i e d, class_at i = Some d -> cl_dtor d = Some e -> pl_reset P i = false ->
    designated (TDtor i) i e.

(** The condition has an answer for all arguments that may be passed. *)
Definition settles (i e : nat) (c : imatcher) : Prop :=
  forall m args, pl_mem P m -> pl_args P i e args -> satisfied m c args \/ unsatisfied m c args.

Definition expression_ok (x : target * option imatcher) : Prop :=
  exists i e, designated (fst x) i e /\ settles i e (cond_of (snd x)).

(** The sources of invocations in a statement with [n] expressions. *)
Fixpoint source_ok (n : nat) (y : source) : Prop :=
  match y with
  | SMock m => pl_mocks P m <> None
  | SCtx j => j < n
  | SUnverified l =>
      (fix all (l : list source) : Prop :=
         match l with [] => True | y' :: r => source_ok n y' /\ all r end) l
  end.
Definition scope_ok (n : nat) (sc : scope) : Prop :=
  match sc with ScUsing l => Forall (source_ok n) l | _ => True end.

(** The arguments stay such that may be passed when the action has moved from them. *)
Definition survives (i e : nat) (f : list val -> list val) : Prop :=
  forall args, pl_args P i e args -> pl_args P i e (f args).

End Plan.

(** [prog_ok A this n p]: user code with parameters in [A], in a method of object [this] or
    in a lambda, that takes [n] at most.  Exceptions are any but the library's internal one
    (NoMoreRecordedActionException).
    [op_ok n o]: an operation that takes [n] at most.
    [callable_ok i e f]: [f] answers calls of method [e] of mock [i]; its code uses only what
    the mock may use. *)
Inductive prog_ok (P : plan) : (list val -> Prop) -> option nat -> nat -> prog -> Prop :=
| OkRet : forall A this n v, prog_ok P A this n (PRet v)
| OkThrow : forall A this n e, e <> XNoMore -> prog_ok P A this n (PThrow e)
| OkArg : forall (A : list val -> Prop) this n j k, (forall args, A args -> j < length args) ->
    (forall args v, A args -> nth_error args j = Some v -> prog_ok P A this n (k v)) -> prog_ok P A this n (PArg j k)
| OkSetArg : forall (A : list val -> Prop) this n j v k, (forall args, A args -> j < length args /\ A (upd args j v)) ->
    prog_ok P A this n k -> prog_ok P A this n (PSetArg j v k)
| OkThis : forall A i n k, prog_ok P A (Some i) n (k i) -> prog_ok P A (Some i) n (PThis k)
| OkDo : forall A this n n1 n2 o k, n1 + n2 <= n -> op_ok P n1 o ->
    (forall r, r <> OExn XNoMore -> prog_ok P A this n2 (k r)) -> prog_ok P A this n (PDo o k)

with op_ok (P : plan) : nat -> op -> Prop :=
| OkCall : forall n i slot d args, class_at P i = Some d -> slot < cl_size d ->
    S (pl_work P i (entry_method d slot)) <= n -> pl_args P i (entry_method d slot) args -> op_ok P n (OCall i slot args)
| OkTypeid : forall n i, pl_mocks P i <> None -> op_ok P n (OTypeid i)
| OkGet : forall n i, pl_mocks P i <> None -> op_ok P n (OGet i)
| OkGetMember : forall n i d j, object_at P i = Some d -> j < cl_cells d -> op_ok P n (OGetMember i j)
| OkSetMember : forall n i d j v, object_at P i = Some d -> j < cl_cells d -> op_ok P n (OSetMember i j v)
| OkRead : forall n a, (forall m, pl_mem P m -> exists v, load m a = Def v) -> op_ok P n (ORead a)
| OkWrite : forall n a v, (forall m, pl_mem P m -> exists m', store m a v = Def m' /\ pl_mem P m') -> op_ok P n (OWrite a v)
| OkAlloc : forall n v, (forall m, pl_mem P m -> pl_mem P (m ++ [Some v])) -> op_ok P n (OAlloc v)
| OkFree : forall n a, (forall m, pl_mem P m -> (exists v, load m a = Def v) /\ pl_mem P (upd m a None)) -> op_ok P n (OFreeMem a)
(* ClearInvocationHistory; Reset, not from code that answers a call of the mock *)
| OkClear : forall n i, pl_mocks P i <> None -> op_ok P n (OClear i)
| OkReset : forall n i, pl_mocks P i <> None -> pl_reset P i = true -> (forall e, S (pl_work P i e) <= n) -> op_ok P n (OReset i)
| OkStmt : forall n xs st, length xs <= n -> Forall (expression_ok P) xs -> stmt_ok P xs st -> op_ok P n (OStmt xs st)
| OkListener : forall n l, op_ok P n (OListener l)
| OkClearListeners : forall n, op_ok P n OClearListeners
| OkAdapter : forall n l, op_ok P n (OAdapter l)
| OkUnwinding : forall n n1 o, S n1 <= n -> op_ok P n1 o -> op_ok P n (OUnwinding o)

with stmt_ok (P : plan) : list (target * option imatcher) -> stmt -> Prop :=
| OkWhen : forall t im i e rs x, designated P t i e -> Forall (recorded_ok P i e) rs ->
    (forall k y, x = Some (k, y) -> y <> XNoMore) -> stmt_ok P [(t, im)] (SWhen rs x)
| OkFake : forall xs, (forall x i e, In x xs -> designated P (fst x) i e -> returns P i e <> Some RtRefNone) -> stmt_ok P xs SFake
| OkSpy : forall xs fw, (fw = true -> forall x i e, In x xs -> designated P (fst x) i e -> survives P i e (map (moved_from (e_moved E)))) ->
    stmt_ok P xs (SSpy fw)
| OkAssign : forall t im i e f, designated P t i e -> callable_ok P i e f -> stmt_ok P [(t, im)] (SAssign f)
| OkVerify : forall xs sc pattern steps, scope_ok P (length xs) sc -> pattern <> [] -> Forall (sound_sequence (length xs)) pattern ->
    (forall q, In (VsQuant q) steps -> quant_int q) -> stmt_ok P xs (SVerify sc pattern steps)
| OkVerifyInvalid : forall xs sc pattern steps n q, scope_ok P (length xs) sc ->
    (forall p j, In p pattern -> written j p -> j < length xs) -> In q pattern -> repeats n q -> (n < 1)%Z ->
    stmt_ok P xs (SVerify sc pattern steps)
| OkNoOther : forall xs l steps, Forall (source_ok P (length xs)) l -> (forall q, ~ In (VsQuant q) steps) -> stmt_ok P xs (SNoOther l steps)

with callable_ok (P : plan) : nat -> nat -> callable -> Prop :=
| OkProg : forall i e p, prog_ok (within P i) (pl_args P i e) None (pl_work P i e) p -> callable_ok P i e (FProg p)
| OkDefault : forall i e, returns P i e <> Some RtRefNone -> callable_ok P i e FDefault
| OkSet : forall i e v vals,
    (forall m args, pl_mem P m -> pl_args P i e args -> exists m' x, assigner_positional m v vals args = Def (m', x) /\ pl_mem P m') ->
    survives P i e (positional_leaves (e_moved E)) -> callable_ok P i e (FSet v vals)
| OkSetNamed : forall i e v vals,
    (forall m args, pl_mem P m -> pl_args P i e args -> exists m' x, assigner_placeholders m v vals args = Def (m', x) /\ pl_mem P m') ->
    survives P i e (placeholders_leave (e_moved E) 1 vals) -> callable_ok P i e (FSetNamed v vals)

with recorded_ok (P : plan) : nat -> nat -> ActionSeq.recorded callable -> Prop :=
| OkOnce : forall i e f, callable_ok P i e f -> recorded_ok P i e (RecOnce f)
| OkTimes : forall i e f n, callable_ok P i e f -> (1 <= n)%Z -> recorded_ok P i e (RecTimes f n)
| OkAlways : forall i e f, callable_ok P i e f -> recorded_ok P i e (RecAlways f).

(** The classes fit and the bodies of the wrapped objects keep to the rules. *)
Definition body_ok (P : plan) (i : nat) (d dx : class_desc) (slot : nat) : Prop :=
  prog_ok (within P i) (pl_args P i (entry_method d slot)) (Some i) (pl_work P i (entry_method d slot)) (cl_body dx slot).
Definition mock_ok (P : plan) (i : nat) (x : nat * option nat) : Prop :=
  exists d, nth_error (e_classes E) (fst x) = Some d /\ class_fits d = true /\
    match snd x with
    | None => True
    | Some c => exists dx, nth_error (e_classes E) c = Some dx /\ cl_size d <= cl_size dx /\
                  forall slot, slot < cl_size d -> body_ok P i d dx slot
    end.
Definition plan_ok (P : plan) : Prop :=
  (forall i x, pl_mocks P i = Some x -> mock_ok P i x) /\
  (forall l ev, e_react E l ev <> Some XNoMore).

(** The declarations: Mock<C> mock; or X obj; Mock<C> mock(obj);. *)
Definition declaration (p : nat * (nat * option nat)) : list op :=
  match p with
  | (_, (c, None)) => [OMock c]
  | (i, (c, Some cx)) => [ONewObj cx; OSpyMock c i]
  end.

(** The tests.  [k]: so many mocks were declared; [T]: those that are there; [L]: those of them
    that may be used; [n]: what is done takes so much in all. *)
Definition and_also (i : nat) (L : nat -> bool) : nat -> bool := fun j => Nat.eqb j i || L j.
Definition but_for (i : nat) (L : nat -> bool) : nat -> bool := fun j => negb (Nat.eqb j i) && L j.
(** Mock [i] goes.  Then [L'] may still be used: none of these mocks may use what is gone. *)
Definition remain (P : plan) (i : nat) (L L' : nat -> bool) : Prop :=
  L' i = false /\ (forall j, L' j = true -> L j = true) /\
  (forall j j', L' j = true -> pl_uses P j j' = true -> L j' = true -> L' j' = true).

Inductive test_ok (P : plan) : nat -> (nat -> bool) -> (nat -> bool) -> nat -> list op -> Prop :=
| TestEnd : forall k T L, test_ok P k T L 0 []
| TestDo : forall k T L n n1 o os, op_ok (only L P) n o -> test_ok P k T L n1 os -> test_ok P k T L (n + n1) (o :: os)
| TestDeclare : forall k T L x n os, pl_mocks P k = Some x -> mock_ok (only (and_also k L) P) k x ->
    test_ok P (S k) (and_also k T) (and_also k L) n os -> test_ok P k T L n (declaration (k, x) ++ os)
| TestDestroy : forall k T L i L' n os, T i = true -> remain P i L L' ->
    test_ok P k (but_for i T) L' n os -> test_ok P k T L n (OMockDestroy i :: os).

(** A whole test. *)
Definition no_mocks : nat -> bool := fun _ => false.
Definition whole_test (P : plan) (n : nat) (os : list op) : Prop :=
  (forall l ev, e_react E l ev <> Some XNoMore) /\ test_ok P 0 no_mocks no_mocks n os.

End Rules.

(** All mocks that are declared are destroyed. *)
Fixpoint declared (os : list op) : nat :=
  match os with
  | [] => 0
  | OMock _ :: r | OSpyMock _ _ :: r => S (declared r)
  | _ :: r => declared r
  end.
Definition all_go (os : list op) : Prop := forall i, i < declared os -> In (OMockDestroy i) os.
