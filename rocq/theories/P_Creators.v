(** Property C78: conditions own their operands; matchers kept in variables do not. *)
From Coq Require Import Ascii String ZArith Lia List.
From Verif Require Import Base Values ArgMatchers Creators Spec_Creators CreatorsProofs.
Import ListNotations.
Open Scope nat_scope.
Open Scope string_scope.

(** int x = 5; std::string t = "ab"; *)
Definition ex_vars : cstate := mkCS [Some (XVal (VInt 5)); Some (XVal (VStr "ab"))] [] [].
Definition emptied (_ : string) : string := "".

(** C78: Using(Gt(x)), Using(Gt(5)) and so on set the condition that the values denote which
    the operands have at that moment, and leave the program's variables alone. *)
Theorem C78_inline : forall (left : string -> string) (k : ckind) (ops : list coperand) (s : cstate) (es : list expected) (m : amatcher),
  Forall (fun o => ~ is_move o) ops -> Forall2 (has_value s) ops es -> denotes k es m ->
  exists s', cstep_run left (CInline k ops) s = Def s' /\ cs_made s' = (cs_made s ++ [m])%list /\
    cs_named s' = cs_named s /\ untouched s s'.
Proof. exact inline_used. Qed.
(** ApproxEq(x, 1) *)
Example C78_inline_case :
  Forall (fun o => ~ is_move o) [OpVar 0; OpTemp (XVal (VInt 1))] /\
  Forall2 (has_value ex_vars) [OpVar 0; OpTemp (XVal (VInt 1))] [XVal (VInt 5); XVal (VInt 1)] /\
  denotes KApprox [XVal (VInt 5); XVal (VInt 1)] (AApprox (VInt 5) (VInt 1)).
Proof.
  split; [repeat constructor; intros [a H]; discriminate|]. split; [repeat constructor|constructor].
Qed.

(** C78: whatever happens to the variables afterwards, the condition stays. *)
Theorem C78_stays : forall (left : string -> string) (l : list cstep) (s s' : cstate) (i : nat) (m : amatcher),
  crun left l s = Def s' -> nth_error (cs_made s) i = Some m -> nth_error (cs_made s') i = Some m.
Proof. exact conditions_stay. Qed.
(** Using(StrEq(t)); t = "cd"; and the end of t's scope. *)
Example C78_stays_case : exists s1 s2, crun emptied [CInline (KStr REq) [OpVar 1]] ex_vars = Def s1 /\
  nth_error (cs_made s1) 0 = Some (AStr REq "ab") /\ crun emptied [CSet 1 (XVal (VStr "cd")); CEnd 1] s1 = Def s2 /\
  nth_error (cs_made s2) 0 = Some (AStr REq "ab").
Proof. do 2 eexists. repeat split; reflexivity. Qed.

(** C78: a matcher of variables that is kept in a variable can be used any number of times
    while they live; each use takes the values at that time. *)
Theorem C78_named : forall (left : string -> string) (k : ckind) (ops : list coperand) (l : list cstep) (s s' : cstate) (es : list expected) (m : amatcher),
  Forall (fun o => ~ is_move o) ops -> Forall (fun o => ~ is_temp o) ops ->
  crun left (CName k ops :: l) s = Def s' -> Forall2 (has_value s') ops es -> denotes k es m ->
  cstep_run left (CUse (length (cs_named s))) s' = Def (mkCS (cs_cells s') (cs_named s') (cs_made s' ++ [m])%list).
Proof. exact variable_named. Qed.
(** auto c = Gt(x); Using(c); x = 7; and then Using(c) again. *)
Example C78_named_case : exists s', crun emptied [CName (KCmp RGt) [OpVar 0]; CUse 0; CSet 0 (XVal (VInt 7))] ex_vars = Def s' /\
  Forall2 (has_value s') [OpVar 0] [XVal (VInt 7)] /\
  exists s'', cstep_run emptied (CUse 0) s' = Def s'' /\ cs_made s'' = [ACmp RGt (XVal (VInt 5)); ACmp RGt (XVal (VInt 7))].
Proof.
  eexists. split; [reflexivity|]. split; [repeat constructor|]. eexists. split; reflexivity.
Qed.

(** The values "at that time": those that the variables got last; assigning to a variable whose
    scope has ended is undefined. *)
Theorem C78_variables : forall (left : string -> string) (s : cstate),
  (forall e, exists s', cstep_run left (CVar e) s = Def s' /\ holds s' (length (cs_cells s)) e /\
     (forall a x, holds s a x -> holds s' a x) /\ cs_named s' = cs_named s /\ cs_made s' = cs_made s) /\
  (forall a e0 e, holds s a e0 -> exists s', cstep_run left (CSet a e) s = Def s' /\ holds s' a e /\
     (forall b x, b <> a -> (holds s' b x <-> holds s b x)) /\ cs_named s' = cs_named s /\ cs_made s' = cs_made s) /\
  (forall a e0 e, holds s a e0 -> exists s', cstep_run left (CEnd a) s = Def s' /\ (forall x, ~ holds s' a x) /\
     cstep_run left (CSet a e) s' = UB /\
     (forall b x, b <> a -> (holds s' b x <-> holds s b x)) /\ cs_named s' = cs_named s /\ cs_made s' = cs_made s).
Proof. exact variables_change. Qed.
Example C78_variables_case : holds ex_vars 0 (XVal (VInt 5)) /\ holds ex_vars 1 (XVal (VStr "ab")).
Proof. split; reflexivity. Qed.

(** C78 fails for auto c = Gt(5); : every later use of c is undefined. *)
Theorem C78_temporary_refuted : forall (left : string -> string) (k : ckind) (ops : list coperand) (l : list cstep) (s s' : cstate),
  Exists is_temp ops -> crun left (CName k ops :: l) s = Def s' ->
  cstep_run left (CUse (length (cs_named s))) s' = UB.
Proof. exact temporary_named. Qed.
Example C78_temporary_case : Exists is_temp [OpTemp (XVal (VInt 5))] /\
  (exists s', crun emptied [CName (KCmp RGt) [OpTemp (XVal (VInt 5))]; CVar (XVal (VInt 9))] ex_vars = Def s') /\
  crun emptied [CName (KCmp RGt) [OpTemp (XVal (VInt 5))]; CVar (XVal (VInt 9)); CUse 0] ex_vars = UB.
Proof.
  split; [constructor; eexists; reflexivity|]. split; [eexists; reflexivity|reflexivity].
Qed.

(** C78 fails for a matcher of a moved string that is used twice: the second condition is about
    what moving left in the string. *)
Theorem C78_moved_refuted : forall (left : string -> string) (k : ckind) (a : nat) (l : list cstep) (s s' : cstate) (t : string) (m1 m2 : amatcher),
  crun left (CName k [OpMove a] :: l) s = Def s' -> holds s' a (XVal (VStr t)) ->
  denotes k [XVal (VStr t)] m1 -> denotes k [XVal (VStr (left t))] m2 ->
  exists s'', crun left [CUse (length (cs_named s)); CUse (length (cs_named s))] s' = Def s'' /\ cs_made s'' = (cs_made s' ++ [m1; m2])%list.
Proof. exact moved_named. Qed.
Example C78_moved_case : exists s', crun emptied [CName (KStr REq) [OpMove 1]; CUse 0; CUse 0] ex_vars = Def s' /\
  cs_made s' = [AStr REq "ab"; AStr REq ""].
Proof. eexists. split; reflexivity. Qed.

Definition P_Creators_theorems := (C78_inline, C78_stays, C78_named, C78_variables, C78_temporary_refuted, C78_moved_refuted).
Print Assumptions P_Creators_theorems.
