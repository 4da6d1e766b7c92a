(** C93, C94: mocks in programs of several source files, mocks in global variables. *)
From Coq Require Import Bool ZArith Lia List.
From Verif Require Import Base CInt Proxy SourceFiles Spec_SourceFiles SourceFilesProofs.
From Verif Require Import Globals Spec_Globals GlobalsProofs GlobalsEnds.
Import ListNotations.
Open Scope nat_scope.

(** C93: if no two of the mentions a test executes have the same number (in whatever files) and
    designate different methods, then a call of a method that was mentioned since the last Reset
    reaches the stubbings of that method, and a call of any other method is unstubbed.
    [c]: the class (signatures of the entries of its table).  [files]: the expansions of
    __COUNTER__ in each file. *)
Theorem C93_files : forall (c : sclass) (files : list source) (l : list event),
  within (length c) files l -> countable l -> no_clash files l ->
  srun_new c files l = Def (expected files [] l).
Proof. exact files_expected. Qed.

(** Two files that do not clash; an entry mentioned in both, a Reset. *)
Example C93_files_ex :
  let files := [[Mentions [2]; Foreign; Mentions [0]]; [Foreign; Mentions [1]; Mentions [0]]] in
  let l := [Mention (mkOcc 0 0 0); Mention (mkOcc 1 1 0); Mention (mkOcc 1 2 0); Mention (mkOcc 0 2 0);
            CallOf 2; CallOf 1; CallOf 0; ResetAll; Mention (mkOcc 1 1 0); CallOf 0; CallOf 1] in
  within 3 files l /\ countable l /\ no_clash files l /\
  srun_new [7; 7; 8] files l = Def [StubbingsOf 2; StubbingsOf 1; StubbingsOf 0; Unstubbed; StubbingsOf 1].
Proof.
  cbn zeta. split; [|split; [|split; [|reflexivity]]].
  - split.
    + intros s H. cbn in H. repeat (destruct H as [H|H]; [try discriminate; injection H as <-; lia|]). contradiction.
    + intros o s H. unfold executes in H. cbn in H.
      repeat (destruct H as [H|H]; [try discriminate; injection H as <-; cbn; intro E; injection E as <-; lia|]). contradiction.
  - intros o H. unfold executes in H. cbn in H.
    repeat (destruct H as [H|H]; [try discriminate; injection H as <-; cbn; lia|]). contradiction.
  - intros o o' s s' H H'. unfold executes in H, H'. cbn in H, H'.
    repeat (destruct H as [H|H]; [try discriminate; injection H as <-|]); try contradiction;
    repeat (destruct H' as [H'|H']; [try discriminate; injection H' as <-; cbn; congruence|]); contradiction.
Qed.

(** C93 within one file: always, if no expansion stands in a template that mentions several
    methods.  Occurrences may be executed in any order and any number of times. *)
Theorem C93_one_file : forall (c : sclass) (files : list source) (l : list event) (f : nat),
  within (length c) files l -> countable l ->
  (forall o, executes l o -> oc_file o = f) ->
  (forall src, nth_error files f = Some src -> plain src) ->
  srun_new c files l = Def (expected files [] l).
Proof. exact one_file. Qed.

Example C93_one_file_ex :
  let files := [[Foreign; Mentions [1]; Mentions [0]]] in
  let l := [Mention (mkOcc 0 1 0); CallOf 1; CallOf 0; Mention (mkOcc 0 2 0); Mention (mkOcc 0 1 0); CallOf 0; CallOf 1] in
  (forall o, executes l o -> oc_file o = 0) /\ (forall src, nth_error files 0 = Some src -> plain src) /\
  srun_new [3; 4] files l = Def [StubbingsOf 1; Unstubbed; StubbingsOf 0; StubbingsOf 1].
Proof.
  cbn zeta. split; [|split; [|reflexivity]].
  - intros o H. unfold executes in H. cbn in H. repeat (destruct H as [H|H]; [try discriminate; injection H as <-; reflexivity|]). contradiction.
  - intros src E. injection E as <-. intros [|[|[|pos]]] l E; cbn in E; try discriminate; try (injection E as <-; cbn; lia).
    destruct pos; discriminate.
Qed.

(** C93 is false: whenever two mentions with the same number (in two files, or in two
    instantiations of a template) designate methods [i] < [j] of the mock, then with both mentioned, in
    either order, a call of [j] is answered by the stubbings of [i] if they have the same
    signature, and is undefined if they have not.  Expected were the stubbings of [j]. *)
Theorem C93_refuted : forall (c : sclass) (files : list source) (i j : nat) (o o' : occ),
  i < j -> j < length c -> designates files o = Some i -> designates files o' = Some j -> oc_pos o = oc_pos o' ->
  (Z.of_nat (oc_pos o) < 2147483646)%Z ->
  (nth_error c i = nth_error c j ->
     srun_new c files [Mention o; Mention o'; CallOf j] = Def [StubbingsOf i] /\
     srun_new c files [Mention o'; Mention o; CallOf j] = Def [StubbingsOf i]) /\
  (nth_error c i <> nth_error c j ->
     srun_new c files [Mention o; Mention o'; CallOf j] = UB /\
     srun_new c files [Mention o'; Mention o; CallOf j] = UB).
Proof. exact clash. Qed.

(** The first mention of a file each; and a template with two instantiations. *)
Example C93_refuted_ex :
  designates [[Mentions [0]]; [Mentions [1]]] (mkOcc 0 0 0) = Some 0 /\
  designates [[Mentions [0]]; [Mentions [1]]] (mkOcc 1 0 0) = Some 1 /\
  srun_new [5; 5] [[Mentions [0]]; [Mentions [1]]] [Mention (mkOcc 0 0 0); Mention (mkOcc 1 0 0); CallOf 1] = Def [StubbingsOf 0] /\
  expected [[Mentions [0]]; [Mentions [1]]] [] [Mention (mkOcc 0 0 0); Mention (mkOcc 1 0 0); CallOf 1] = [StubbingsOf 1] /\
  srun_new [5; 6] [[Mentions [0]]; [Mentions [1]]] [Mention (mkOcc 0 0 0); Mention (mkOcc 1 0 0); CallOf 1] = UB /\
  srun_new [5; 6] [[Foreign; Mentions [0; 1]]] [Mention (mkOcc 0 1 0); Mention (mkOcc 0 1 1); CallOf 1] = UB.
Proof. repeat split. Qed.

(** C94: a program in which what runs before main uses the library only in files that are
    initialised already, and in which destructors use the library only if their variable is
    initialised after the library and use only such default values (and the name of unmentioned
    methods) that an initialiser up to their own used: nothing that the library has is used
    before it is there or after it is gone. *)
Theorem C94_orderly : forall (p : gprog) (fuel : nat), orderly p -> whole p fuel <> GUB.
Proof. exact orderly_ok. Qed.

(** C94: every program comes to its end. *)
Theorem C94_ends : forall p : gprog, exists n, forall fuel, n <= fuel -> whole p fuel <> GFuel.
Proof. exact whole_ends. Qed.

(** C94: at the end of a program that went well every object is gone, none was destroyed twice,
    and every mock went before the object it reports to. *)
Theorem C94_outlived : forall (p : gprog) (fuel : nat) (s : gstate), whole p fuel = GOk s ->
  g_stack s = [] /\ NoDup (g_dead s) /\ forall k, is_mock p k -> In k (g_dead s) -> went_before (g_dead s) k KInst.
Proof. exact outlived. Qed.

(** Two files with global mocks and an object whose destructor verifies and calls a method with
    a default value of class type. *)
Definition ex_program : gprog :=
  mkProg [mkFile true [mkVar [] [] (Some 4); mkVar [LVar 0 0; LDefault 9] [LVar 0 0; LVerify true; LDefault 9] None];
          mkFile true [mkVar [LIn 0 [LStatic 2 4]] [LUnexpected 4] (Some 4)]]
    (fun t => Nat.eqb t 1) (fun _ _ => 0) [LDefault 8; LUnmocked 4; LIn 1 [LVerify true; LVar 1 0]].

Example C94_ex :
  orderly ex_program /\
  whole ex_program 20 =
    GOk (mkG [1; 0] [] [] [KInst; KVar 0 0; KDefault 9; KVar 0 1; KLocal 2; KVar 1 0; KDefault 8; KUnknown]).
Proof.
  split; [|reflexivity].
  assert (I0 : includes ex_program 0) by (eexists; split; reflexivity).
  assert (I1 : includes ex_program 1) by (eexists; split; reflexivity).
  assert (VAR : forall f i v, variable ex_program f i v ->
    (f, i, v) = (0, 0, mkVar [] [] (Some 4)) \/
    (f, i, v) = (0, 1, mkVar [LVar 0 0; LDefault 9] [LVar 0 0; LVerify true; LDefault 9] None) \/
    (f, i, v) = (1, 0, mkVar [LIn 0 [LStatic 2 4]] [LUnexpected 4] (Some 4))).
  { intros f i v (x & E & N). destruct f as [|[|[|f]]]; cbn in E; try discriminate; injection E as <-;
      destruct i as [|[|[|i]]]; cbn in N; try discriminate; injection N as <-; auto. }
  constructor.
  - intros f i v g V H. destruct (VAR f i v V) as [E|[E|E]]; injection E as -> -> ->; cbn in H;
      (assert (g = 0) as -> by (destruct H as [H|(c & _ & ->)]; [lia|reflexivity])); split; auto; lia.
  - intros g H. cbn in H. destruct H as [<-|[<-|[]]]; auto.
  - intros f i v g V H. destruct (VAR f i v V) as [E|[E|E]]; injection E as -> -> ->; cbn in H; try contradiction;
      (assert (g = 0) as -> by lia); split; auto; exists 0; split; auto; lia.
  - intros f i v k V H. destruct (VAR f i v V) as [E|[E|E]]; injection E as -> -> ->; cbn in H; try contradiction.
    destruct H as [<-|[]]. exists 0, 1. eexists. split; [eexists; split; reflexivity|].
    split; [right; lia|]. cbn. auto.
Qed.

(** C94: an orderly program that uses no variables of the user from its code runs through. *)
Theorem C94_runs : forall p : gprog, orderly p -> without_own p ->
  exists n, forall fuel, n <= fuel -> exists s, whole p fuel = GOk s.
Proof. exact runs_through. Qed.

Example C94_runs_ex :
  let p := mkProg [mkFile true [mkVar [LDefault 2] [LVerify true; LDefault 2] (Some 1)]] (fun _ => false) (fun _ _ => 0) [LUnmocked 1] in
  without_own p /\ whole p 9 = GOk (mkG [0] [] [] [KInst; KDefault 2; KVar 0 0; KUnknown]).
Proof.
  split; [|reflexivity]. split; [reflexivity|].
  intros [|[|f]] [|[|i]] v (x & E & V); cbn in E; try discriminate; injection E as <-; cbn in V; try discriminate; injection V as <-; auto.
Qed.

(** C94 for a program of one file: always, but for destructors that use default values of class
    types or call unmentioned methods. *)
Theorem C94_one_file : forall (p : gprog) (vars : list gvar) (fuel : nat),
  p_files p = [mkFile true vars] ->
  (forall f c, p_kept p f c = 0) ->
  (forall v g, In v vars -> In g (all_reads p 0 (v_init v)) \/ In g (all_reads p 0 (v_fini v)) -> g = 0) ->
  (forall g, In g (all_reads p 0 (p_main p)) -> g = 0) ->
  (forall v, In v vars -> all_values p (v_fini v) = []) ->
  whole p fuel <> GUB.
Proof. exact one_file_ok. Qed.

Example C94_one_file_ex :
  let p := mkProg [mkFile true [mkVar [] [] (Some 3); mkVar [LUnmocked 3] [LVar 0 0; LVerify true] None]]
             (fun _ => false) (fun _ _ => 0) [LDefault 5; LStatic 0 3] in
  whole p 9 = GOk (mkG [0] [] [] [KInst; KVar 0 0; KUnknown; KVar 0 1; KDefault 5; KLocal 0]).
Proof. reflexivity. Qed.

(** C94 without variables of static storage duration outside functions: always, for any number
    of files. *)
Theorem C94_no_variables : forall (p : gprog) (fuel : nat),
  (forall x, In x (p_files p) -> gf_vars x = []) ->
  (forall g, In g (all_reads p 0 (p_main p)) -> includes p g) ->
  whole p fuel <> GUB.
Proof. exact no_variables_ok. Qed.

Example C94_no_variables_ex :
  let p := mkProg [mkFile true []; mkFile false []; mkFile true []] (fun _ => false) (fun f _ => f)
             [LUnexpected 1; LIn 2 [LStatic 0 7; LVerify true]] in
  includes p 0 /\ includes p 2 /\ whole p 9 = GOk (mkG [2; 0] [] [] [KInst; KLocal 0]).
Proof. repeat split; eexists; split; reflexivity. Qed.

(** C94 is false for two files that both have the library: a global mock of the file that is
    initialised first is undefined if the linker kept the constructor of the other file. *)
Theorem C94_refuted : forall (kept : nat -> nat -> nat) (trivial : nat -> bool) (vars1 vars : list gvar)
    (more : list gfile) (c fuel : nat) (main : list code),
  kept 0 c = 1 ->
  whole (mkProg (mkFile true (mkVar [] [] (Some c) :: vars1) :: mkFile true vars :: more) trivial kept main) fuel = GUB.
Proof. intros kept trivial vars1 vars more c fuel main. exact (clash_of_files kept trivial vars1 more c vars fuel main). Qed.

Example C94_refuted_ex :
  let p kept := mkProg [mkFile true [mkVar [] [] (Some 4)]; mkFile true [mkVar [] [] (Some 4)]] (fun _ => true) kept [] in
  whole (p (fun _ _ => 1)) 9 = GUB /\
  whole (p (fun _ _ => 0)) 9 = GOk (mkG [1; 0] [] [] [KInst; KVar 0 0; KVar 1 0]).
Proof. split; reflexivity. Qed.

(** C94 is false at the end of the program: a default value of class type that the destructor of
    a variable asks for is gone if it was first used after the initialisation of that variable:
    in main, or by the destructor of a later variable.  So is the name of unmentioned methods.
    And the library is gone for a variable that was initialised before it. *)
Theorem C94_exit_refuted : forall (kept : nat -> nat -> nat) (trivial : nat -> bool) (t c fuel : nat) (fails : bool),
  (trivial t = false ->
     whole (mkProg [mkFile true [mkVar [] [LDefault t] None]] trivial kept [LDefault t]) (S (S fuel)) = GUB /\
     whole (mkProg [mkFile true [mkVar [] [LDefault t] None; mkVar [] [LDefault t] None]] trivial kept []) (S (S (S fuel))) = GUB) /\
  whole (mkProg [mkFile true [mkVar [] [LUnmocked c] None]] trivial (fun _ _ => 0) [LUnmocked c]) (S (S fuel)) = GUB /\
  whole (mkProg [mkFile false [mkVar [] [LIn 1 [LVerify true]] None]; mkFile true []] trivial kept [LIn 1 [LVerify fails]]) (S (S fuel)) = GUB.
Proof.
  exact (fun kept trivial t c fuel fails =>
    conj (exit_default kept trivial t fuel) (conj (exit_unmocked trivial c fuel) (exit_early kept trivial fuel fails))).
Qed.

(** With the value used before the variable is initialised all is well. *)
Example C94_exit_ex :
  whole (mkProg [mkFile true [mkVar [LDefault 3] [LDefault 3] None]] (fun _ => false) (fun _ _ => 0) [LDefault 3]) 9 =
    GOk (mkG [0] [] [] [KInst; KDefault 3; KVar 0 0]).
Proof. reflexivity. Qed.

Definition C93_C94 :=
  (C93_files, C93_one_file, C93_refuted, C94_orderly, C94_ends, C94_outlived, C94_runs, C94_one_file, C94_no_variables,
   C94_refuted, C94_exit_refuted).
Print Assumptions C93_C94.
