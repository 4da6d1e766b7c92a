(** Property C82: a mocked object can be used through its base classes. *)
From Coq Require Import Bool ZArith Lia List.
From Verif Require Import Base CInt VTable Inherit Spec_Inherit InheritProofs.
Import ListNotations.
Open Scope nat_scope.

(** [struct P { int d[2]; }; struct A : P { virtual a0, a1; }; struct B : A { virtual b0; int e; }]. *)
Definition ex_P : cls := Cls 0 [] 0 2.
Definition ex_A : cls := Cls 1 [(false, ex_P)] 2 0.
Definition ex_B : cls := Cls 2 [(false, ex_A)] 1 1.
(** [struct V : virtual A { virtual v0; }; struct W : V { virtual w0; }]. *)
Definition ex_V : cls := Cls 3 [(true, ex_A)] 1 0.
Definition ex_W : cls := Cls 4 [(false, ex_V)] 1 0.
(** [struct S { virtual s0; }; struct M : A, S { }]. *)
Definition ex_S : cls := Cls 5 [] 1 0.
Definition ex_M : cls := Cls 6 [(false, ex_A); (false, ex_S)] 0 0.

(** The compile-time check lets through exactly the classes none of whose bases, nor itself, has
    two direct bases.  Virtual bases count like others. *)
Theorem C82_check : forall c, is_simple c = true <-> chain c.
Proof. exact simple_chain. Qed.
Example C82_check_case : is_simple ex_B = true /\ is_simple ex_W = true /\ is_simple ex_M = false.
Proof. repeat split. Qed.

(** The layout the following is about: every word of an object belongs to exactly one of its parts,
    its own table pointer, its bases and its own data, and no part goes beyond the object. *)
Theorem C82_layout : forall c a, parts_at c a = if a <? words_of c then 1 else 0.
Proof. intros c a. rewrite parts_tile. reflexivity. Qed.
(** [struct Q : P, A { int f; }]: A, the primary base, comes first. *)
Example C82_layout_case : words_of (Cls 7 [(false, ex_P); (false, ex_A)] 0 1) = 6 /\
  base_offset (Cls 7 [(false, ex_P); (false, ex_A)] 0 1) 0 = 3 /\ base_offset (Cls 7 [(false, ex_P); (false, ex_A)] 0 1) 1 = 0 /\
  words_of ex_A = 3 /\ base_offset ex_A 0 = 1.
Proof. repeat split. Qed.

(** C82: a virtual method called through any base, reached along bases that are not virtual, is the
    same that is called through the mocked class itself. *)
Theorem C82_bases : forall c path b k m, is_simple c = true -> leads c path b -> nth_error (table b) k = Some m ->
  call_through c path k = Def m /\ nth_error (table c) k = Some m.
Proof. exact through_base. Qed.
Example C82_bases_case : leads ex_B [0] ex_A /\ nth_error (table ex_A) 1 = Some (1, 1) /\
  call_through ex_B [0] 1 = Def (1, 1) /\ call_through ex_B [] 2 = Def (2, 0).
Proof.
  split; [|repeat split]. eapply leads_on; [reflexivity|constructor].
Qed.

(** C82 fails for classes with a virtual base, which the check lets through: converting a pointer to
    the mocked object to the virtual base is undefined.  The mock's own pointer stands where the
    compiled code looks for the distance.  ([plain b]: the model of conversions is right for a single
    virtual base.) *)
Theorem C82_virtual_refuted : forall c path d n b v w o, is_simple c = true -> leads c path d -> d = Cls n [(true, b)] v w ->
  plain b -> mock_object c = Def o -> convert o c (path ++ [0]) 0 = UB.
Proof. intros c path d n b v w o S L E _. exact (virtual_base c path d n b v w o S L E). Qed.
Example C82_virtual_case : is_simple ex_W = true /\ leads ex_W [0] ex_V /\ plain ex_A /\
  call_through ex_W [0; 0] 0 = UB /\ call_through ex_W [0] 0 = Def (3, 0).
Proof.
  split; [reflexivity|]. split; [eapply leads_on; [reflexivity|constructor]|]. split; [|split; reflexivity].
  constructor. constructor; [|constructor]. split; [reflexivity|]. constructor. constructor.
Qed.

(** C82 fails for classes with two bases that have virtual methods: a call through the second one
    is undefined.  The check refuses them with gcc; with clang there is no check. *)
Theorem C82_second_refuted : forall c i b k, nth_error (bases_of c) i = Some (false, b) -> dynamic b = true ->
  primary (bases_of c) <> Some i -> call_through c [i] k = UB.
Proof. exact second_base. Qed.
Example C82_second_case : is_simple ex_M = false /\ primary (bases_of ex_M) = Some 0 /\
  call_through ex_M [1] 0 = UB /\ call_through ex_M [0] 1 = Def (1, 1).
Proof. repeat split; reflexivity. Qed.

(** An object that the user made and wraps: while the mock is there, calls through its bases that are not
    virtual reach the same methods as before. *)
Theorem C82_wrapped : forall c path b k m o, is_simple c = true -> leads c path b -> nth_error (table b) k = Some m ->
  wrap c (compiled_object c) = Def o -> call_on (compiled_object c) c path k = Def m /\ call_on o c path k = Def m.
Proof. exact wrapped_base. Qed.

(** C82 fails for wrapped objects with a virtual base too: a call through it, which is right before, is undefined
    while the mock is there. *)
Theorem C82_wrapped_refuted : forall c path n b v w k m o, is_simple c = true -> leads c path (Cls n [(true, b)] v w) ->
  plain b -> ample b -> nth_error (table b) k = Some m -> wrap c (compiled_object c) = Def o ->
  call_on (compiled_object c) c (path ++ [0]) k = Def m /\ call_on o c (path ++ [0]) k = UB.
Proof. intros c path n b v w k m o S L _ _. exact (wrapped_virtual c path n b v w k m o S L). Qed.

(** Once the mock is gone, the object is as before. *)
Theorem C82_unwrapped : forall c o o', dynamic c = true -> wrap c (compiled_object c) = Def o ->
  unwrap (compiled_object c) o = Def o' -> o' = compiled_object c.
Proof. exact unwrapped_same. Qed.
Example C82_wrapped_case : exists o o', wrap ex_W (compiled_object ex_W) = Def o /\ unwrap (compiled_object ex_W) o = Def o' /\
  leads ex_W [0] ex_V /\ ample ex_A /\ dynamic ex_W = true /\
  call_on (compiled_object ex_W) ex_W [0] 0 = Def (3, 0) /\ call_on o ex_W [0] 0 = Def (3, 0) /\
  convert (compiled_object ex_W) ex_W [0; 0] 0 = Def 1 /\
  call_on (compiled_object ex_W) ex_W [0; 0] 1 = Def (1, 1) /\ call_on o ex_W [0; 0] 1 = UB /\ call_on o' ex_W [0; 0] 1 = Def (1, 1).
Proof.
  eexists. eexists. split; [reflexivity|]. split; [reflexivity|]. split; [eapply leads_on; [reflexivity|constructor]|].
  split; [right; cbn; lia|]. repeat split; reflexivity.
Qed.

Definition P_Inherit_theorems := (C82_check, C82_layout, C82_bases, C82_virtual_refuted, C82_second_refuted,
  C82_wrapped, C82_wrapped_refuted, C82_unwrapped).
Print Assumptions P_Inherit_theorems.
