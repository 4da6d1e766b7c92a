(** Vocabulary for properties of verification statements in whole programs: which calls a
    statement is about, and what it requires of them.  No function of the library is
    modelled here. *)
From Coq Require Import Bool ZArith Lia List.
From Verif Require Import Base CInt Values ArgMatchers InvMatchers Spec_Conditions ActionSeq Sequences MatchAnalysis Spec_Match
  Proxy Events Expectation Spec_Verify ReturnSet Syntax World Spec_World Spec_View.
Import ListNotations.
Open Scope nat_scope.

Section V.
Variable E : env.

(** Call [i] is in the history of method [e] of mock [m]; of some method of mock [m]. *)
Definition recorded (s : sworld) (m e i : nat) : Prop :=
  exists me, method_at s m e = Some me /\ In i (me_calls me).
Definition of_mock (s : sworld) (m i : nat) : Prop := exists e, recorded s m e i.

Definition verified_call (s : sworld) (i : nat) : Prop :=
  exists c, nth_error (s_calls s) i = Some c /\ ca_verified c = true.

(** The method expression [x] (a method and, maybe, a condition on arguments) is about
    call [i]: a recorded call of its method whose arguments its condition accepts. *)
Definition fits (s : sworld) (x : target * option imatcher) (i : nat) : Prop :=
  exists m e r c, designates E s (fst x) m e r /\ recorded s m e i /\ nth_error (s_calls s) i = Some c /\
    satisfied (s_mem s) (cond_of (snd x)) (ca_args c).

(** No condition of the expressions [xs] reads through a dangling reference in a recorded
    call of its method, or is a user's matcher that has no answer. *)
Definition decided (s : sworld) (xs : list (target * option imatcher)) : Prop :=
  forall x m e r i c, In x xs -> designates E s (fst x) m e r -> recorded s m e i -> nth_error (s_calls s) i = Some c ->
    satisfied (s_mem s) (cond_of (snd x)) (ca_args c) \/ unsatisfied (s_mem s) (cond_of (snd x)) (ca_args c).

Section Sources.
Variable s : sworld.
Variable xs : list (target * option imatcher).

(** Call [i] is one of source [y] (positions in [y]: expressions of the statement). *)
Fixpoint selects (y : source) (i : nat) : Prop :=
  match y with
  | SMock m => of_mock s m i
  | SCtx j => exists x, nth_error xs j = Some x /\ fits s x i
  | SUnverified l =>
      (fix any (l : list source) : Prop :=
         match l with [] => False | y' :: r => selects y' i \/ any r end) l
      /\ ~ verified_call s i
  end.

(** The mocks exist and the positions are expressions of the statement. *)
Fixpoint sound_source (y : source) : Prop :=
  match y with
  | SMock m => live (s_mocks s) m <> None
  | SCtx j => j < length xs
  | SUnverified l =>
      (fix all (l : list source) : Prop :=
         match l with [] => True | y' :: r => sound_source y' /\ all r end) l
  end.
End Sources.

Definition some_source (s : sworld) (xs : list (target * option imatcher)) (l : list source) (i : nat) : Prop :=
  exists y, In y l /\ selects s xs y i.

(** Call [i] is one of a mock that occurs in the pattern. *)
Definition in_pattern (s : sworld) (xs : list (target * option imatcher)) (pattern : list (sequence nat)) (i : nat) : Prop :=
  exists j x, In j (concat (map spelled pattern)) /\ nth_error xs j = Some x /\ of_mock s (target_mock (fst x)) i.

(** The calls the statement is about: Using(...), nothing, or Unverified. *)
Definition chosen (s : sworld) (xs : list (target * option imatcher)) (sc : scope) (pattern : list (sequence nat)) (i : nat) : Prop :=
  match sc with
  | ScUsing l => some_source s xs l i
  | ScInvolved => in_pattern s xs pattern i
  | ScUnverified => in_pattern s xs pattern i /\ ~ verified_call s i
  end.
Definition sound_scope (s : sworld) (xs : list (target * option imatcher)) (sc : scope) : Prop :=
  match sc with ScUsing l => Forall (sound_source s xs) l | _ => True end.

(** A sequence of the pattern: its positions are expressions of the statement, factors
    are positive, and its length is an int. *)
Definition sound_sequence (n : nat) (q : sequence nat) : Prop :=
  seq_built q /\ (Z.of_nat (length (spelled q)) <= int_max)%Z /\
  Forall (fun j => j < n) (spelled q).

(** Expression number [j] of the statement accepts call [i]. *)
Definition accepts_at (s : sworld) (xs : list (target * option imatcher)) (j i : nat) : Prop :=
  exists x, nth_error xs j = Some x /\ fits s x i.

(** The requirement of a chain of quantifiers; AtLeast(0) demands that there be none
    (see C35_at_least_zero_refuted). *)
Definition no_zero (r : requirement) : requirement :=
  match r with ReqAtLeast n => if (n =? 0)%Z then ReqExactly 0 else r | _ => r end.
Definition demanded (qs : list quant) : requirement := no_zero (in_force (ReqAtLeast 1) (map LQuant qs)).
Definition valid_quant (q : quant) : Prop := quant_int q /\ requirement_of q <> None.

(** A report of unmet requirement [r]: the kind and the number shown. *)
Definition shown (r : requirement) (t : vtype) (k : Z) : Prop :=
  (t = VtExact /\ r = ReqExactly k) \/ (t = VtAtLeast /\ r = ReqAtLeast k).

(** Expression number [j] is written somewhere in the sequence. *)
Inductive written (j : nat) : sequence nat -> Prop :=
  | WrLeaf : written j (SLeaf j)
  | WrLeft : forall l r, written j l -> written j (SConcat l r)
  | WrRight : forall l r, written j r -> written j (SConcat l r)
  | WrRepeat : forall n q, written j q -> written j (SRepeat q n).

(** Somewhere in the sequence there is ... * n. *)
Inductive repeats (n : Z) : sequence nat -> Prop :=
  | RpHere : forall q, repeats n (SRepeat q n)
  | RpRepeat : forall m q, repeats n q -> repeats n (SRepeat q m)
  | RpLeft : forall l r, repeats n l -> repeats n (SConcat l r)
  | RpRight : forall l r, repeats n r -> repeats n (SConcat l r).

(** The pattern with its positions replaced by the numbers of the expressions made. *)
Fixpoint renumbered (b : nat) (q : sequence nat) : sequence nat :=
  match q with
  | SLeaf j => SLeaf (b + j)
  | SConcat l r => SConcat (renumbered b l) (renumbered b r)
  | SRepeat q' n => SRepeat (renumbered b q') n
  end.

(** The calls [marks] are verified now. *)
Definition with_marks (marks : list nat) (s : sworld) : sworld :=
  sset_calls s (map (fun p : nat * call => let (i, c) := p in
                      if existsb (Nat.eqb i) marks then mkCall (ca_method c) (ca_ret c) (ca_args c) true else c)
                    (combine (seq 0 (length (s_calls s))) (s_calls s))).

(** The world after the statement, but for what it marked and reported: its expressions
    and its verification object came and went. *)
Definition statement_over (s s1 : sworld) (n : nat) : sworld :=
  sset_exps (sset_ctxs s1 (s_ctxs s ++ repeat None n)) (s_exps s ++ [None]).

(** The state after a statement of n expressions that threw before a verification was
    made. *)
Definition not_verified (s s1 : sworld) (n : nat) : sworld := sset_ctxs s1 (s_ctxs s ++ repeat None n).

(** What the marks are: see C27_marks. *)
Definition greedy_marks (s : sworld) (xs : list (target * option imatcher)) (pattern : list (sequence nat))
  (actual : list nat) (n : nat) (marks : list nat) : Prop :=
  let acc := accepts_at s xs in
  let blocks := map spelled pattern in
  exists occs e pre ps, length occs = n /\ marks = flat_map (occ_items actual blocks) occs ++ occ_items actual pre ps /\
    in_a_row acc actual blocks 0 occs e /\ gives_up acc actual blocks e pre ps.

(** What the user sees of a report: the reaction of the adapter. *)
Definition reaction (s : sworld) (ev : event) : val + exn :=
  match e_react E (adapter E s) ev with Some x => inr x | None => inl VVoid end.

End V.
