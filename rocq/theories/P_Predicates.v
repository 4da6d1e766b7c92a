(** Property C81: conditions given to Matching(…) may run any code. *)
From Coq Require Import List Arith Lia Permutation Sorted.
From Verif Require Import Base Predicates Spec_Predicates PredicatesProofs.
Import ListNotations.
Open Scope nat_scope.

(** Three stubbings, 1 (oldest) to 3, in storage for [room]; one call was made. *)
Definition ex_method (room : nat) : pstate nat nat :=
  mkPs true [1; 2; 3] room 3 2 [mkPcall 1 7 1] 0 2 0 [].

(** C81: if the conditions of the stubbings only call the method itself, without going in circles,
    and handle what is thrown at them, a call is decided by the newest stubbing whose condition does
    not reject: it answers, or the exception of its condition reaches the caller and the call leaves
    no record.  Newer conditions are asked once each, older ones not at all.  Calls made by the
    conditions are recorded with later ordinals. *)
Theorem C81_calls : forall (P A X : Type) (code : list (P * A) -> P -> A -> list (pact P A) * pend X)
    (unexpected : X) (grown : nat -> nat) (rank : A -> nat) (ends : P -> A -> pend X) (s : pstate P A) (a : A) (fuel : nat),
  (forall p log a, In p (ps_stubs s) ->
     Forall (calls_below rank a) (fst (code log p a)) /\ snd (code log p a) = ends p a) ->
  ps_mocked s = true -> rank a < fuel ->
  exists s' asked r more qs, pcall_run code unexpected grown fuel s a = Def (s', r) /\
    decided ends unexpected (ps_stubs s) a asked r /\ ps_stubs s' = ps_stubs s /\
    ps_calls s' = ps_calls s ++ more ++ recorded (ps_next s) a r /\
    Forall (fun c => ps_next s < pc_ord c /\ rank (pc_args c) < rank a) more /\
    ps_asked s' = ps_asked s ++ qs /\ asked_at rank a qs = map (fun p => (p, a)) asked.
Proof.
  intros P A X code unexpected grown rank ends s a fuel HC M R.
  destruct (call_calm code unexpected grown rank (ps_stubs s) ends HC fuel s a M eq_refl R)
    as (s' & asked & r & more & qs & E & D & _ & b2 & _ & _ & _ & _ & _ & _ & b9 & b10 & b11 & b12 & _).
  exists s', asked, r, more, qs. auto 10.
Qed.
(** Condition 3 calls the method with one less and rejects; 2 throws for 0 and accepts the rest. *)
Definition ex_calls (log : list (nat * nat)) (p a : nat) : list (pact nat nat) * pend nat :=
  match p, a with
  | 3, S b => ([PaCall b true], Reject)
  | 3, 0 => ([], Reject)
  | 2, 0 => ([], Throw 55)
  | _, _ => ([], Accept)
  end.
Example C81_calls_case :
  (forall p log a, In p [1; 2; 3] -> Forall (calls_below (fun n => n) a) (fst (ex_calls log p a)) /\
     snd (ex_calls log p a) = snd (ex_calls [] p a)) /\
  pcall_run ex_calls 99 (fun n => 2 * n) 3 (ex_method 4) 2 =
    Def (mkPs true [1; 2; 3] 4 3 2 [mkPcall 1 7 1; mkPcall 3 1 2; mkPcall 2 2 2] 0 5 0
           [(3, 2); (3, 1); (3, 0); (2, 0); (2, 1); (2, 2)], Answered 2).
Proof.
  split; [|reflexivity].
  intros p log a [<-|[<-|[<-|[]]]]; destruct a as [|b]; cbn; split; auto. constructor; auto. exists b. auto.
Qed.

(** C81: a condition may stub the method if it then accepts; the new stubbings count from the next
    call on (and the vector has room for what is in it). *)
Theorem C81_stub : forall (P A X : Type) (code : list (P * A) -> P -> A -> list (pact P A) * pend X)
    (unexpected : X) (grown : nat -> nat) (s : pstate P A) (a : A) (older newer : list P) (p : P) (fuel : nat),
  ps_mocked s = true -> ps_stubs s = older ++ p :: newer -> Forall (quietly_rejects code a) newer ->
  forall qs, (forall log, code log p a = (map PaStub qs, Accept)) ->
  exists s', pcall_run code unexpected grown (S fuel) s a = Def (s', Answered p) /\ ps_stubs s' = ps_stubs s ++ qs /\
    ps_calls s' = ps_calls s ++ [mkPcall (ps_next s) a p] /\ ps_mocked s' = true /\
    ((forall n, n <= grown n) -> length (ps_stubs s) <= ps_room s -> length (ps_stubs s') <= ps_room s').
Proof. intros P A X. exact stub_and_accept. Qed.
(** Condition [p0] stubs 8 and 9 and ends with [e]; the ones above it reject, the ones below accept. *)
Definition ex_stubs (p0 : nat) (e : pend nat) (log : list (nat * nat)) (p a : nat) : list (pact nat nat) * pend nat :=
  if p =? p0 then (map PaStub [8; 9], e) else if p0 <? p then ([], Reject) else ([], Accept).
Example C81_stub_case :
  Forall (quietly_rejects (ex_stubs 2 Accept) 6) [3] /\
  pcall_run (ex_stubs 2 Accept) 99 (fun n => 2 * n) 1 (ex_method 4) 6 =
    Def (mkPs true [1; 2; 3; 8; 9] 10 5 3 [mkPcall 1 7 1; mkPcall 2 6 2] 0 3 0 [(3, 6); (2, 6)], Answered 2).
Proof. split; [constructor; [intro; reflexivity|constructor]|reflexivity]. Qed.

(** C81 fails for a condition that stubs the method and then rejects: the call is undefined if it is
    the condition of the newest stubbing, or if the vector of stubbings has no room for the new ones… *)
Theorem C81_stub_refuted : forall (P A X : Type) (code : list (P * A) -> P -> A -> list (pact P A) * pend X)
    (unexpected : X) (grown : nat -> nat) (s : pstate P A) (a : A) (older newer : list P) (p : P) (fuel : nat),
  ps_mocked s = true -> ps_stubs s = older ++ p :: newer -> Forall (quietly_rejects code a) newer ->
  forall qs, qs <> [] -> (forall log, code log p a = (map PaStub qs, Reject)) ->
  newer = [] \/ ps_room s < length (ps_stubs s) + length qs ->
  pcall_run code unexpected grown (S fuel) s a = UB.
Proof. intros P A X. exact stub_and_reject. Qed.
(** … and is as specified otherwise. *)
Theorem C81_stub_room : forall (P A X : Type) (code : list (P * A) -> P -> A -> list (pact P A) * pend X)
    (unexpected : X) (grown : nat -> nat) (s : pstate P A) (a : A) (older newer : list P) (p : P) (fuel : nat),
  ps_mocked s = true -> ps_stubs s = older ++ p :: newer -> Forall (quietly_rejects code a) newer ->
  forall qs older' q mid, older = older' ++ q :: mid -> newer <> [] ->
  (forall log, code log p a = (map PaStub qs, Reject)) -> length (ps_stubs s) + length qs <= ps_room s ->
  Forall (quietly_rejects code a) mid -> (forall log, code log q a = ([], Accept)) ->
  exists s', pcall_run code unexpected grown (S fuel) s a = Def (s', Answered q) /\ ps_stubs s' = ps_stubs s ++ qs /\
    ps_calls s' = ps_calls s ++ [mkPcall (ps_next s) a q].
Proof. intros P A X. exact stub_with_room. Qed.
Example C81_stub_refuted_case :
  pcall_run (ex_stubs 3 Reject) 99 (fun n => 2 * n) 1 (ex_method 8) 6 = UB /\
  pcall_run (ex_stubs 2 Reject) 99 (fun n => 2 * n) 1 (ex_method 4) 6 = UB /\
  pcall_run (ex_stubs 2 Reject) 99 (fun n => 2 * n) 1 (ex_method 8) 6 =
    Def (mkPs true [1; 2; 3; 8; 9] 8 5 2 [mkPcall 1 7 1; mkPcall 2 6 1] 0 3 0 [(3, 6); (2, 6); (1, 6)], Answered 1).
Proof. repeat split; reflexivity. Qed.

(** C81: a condition that lets the exception of a call it makes through ends the outer call with it;
    older conditions are not asked, and the outer call leaves no record. *)
Theorem C81_uncaught : forall (P A X : Type) (code : list (P * A) -> P -> A -> list (pact P A) * pend X)
    (unexpected : X) (grown : nat -> nat) (s : pstate P A) (a : A) (older newer : list P) (p : P) (fuel : nat),
  ps_mocked s = true -> ps_stubs s = older ++ p :: newer -> Forall (quietly_rejects code a) newer ->
  forall b rest e s2 x,
  (forall log, code log p a = (PaCall b false :: rest, e)) ->
  pcall_run code unexpected grown fuel
    (mkPs true (ps_stubs s) (ps_room s) (ps_pushed s) (ps_moved s) (ps_calls s) (ps_cleared s)
          (S (ps_next s)) (ps_resets s) (ps_asked s ++ map (fun q => (q, a)) (rev newer ++ [p]))) b = Def (s2, Threw x) ->
  pcall_run code unexpected grown (S fuel) s a = Def (s2, Threw x).
Proof. intros P A X. exact call_uncaught. Qed.
(** Condition 2 calls the method with 0, for which it throws 55. *)
Definition ex_lets (log : list (nat * nat)) (p a : nat) : list (pact nat nat) * pend nat :=
  match p, a with
  | 3, _ => ([], Reject)
  | 2, 0 => ([], Throw 55)
  | 2, _ => ([PaCall 0 false; PaClear], Accept)
  | _, _ => ([], Accept)
  end.
Example C81_uncaught_case :
  Forall (quietly_rejects ex_lets 6) [3] /\
  pcall_run ex_lets 99 (fun n => 2 * n) 1 (mkPs true [1; 2; 3] 4 3 2 [mkPcall 1 7 1] 0 3 0 [(3, 6); (2, 6)]) 0 =
    Def (mkPs true [1; 2; 3] 4 3 2 [mkPcall 1 7 1] 0 4 0 [(3, 6); (2, 6); (3, 0); (2, 0)], Threw 55) /\
  pcall_run ex_lets 99 (fun n => 2 * n) 2 (ex_method 4) 6 =
    Def (mkPs true [1; 2; 3] 4 3 2 [mkPcall 1 7 1] 0 4 0 [(3, 6); (2, 6); (3, 0); (2, 0)], Threw 55).
Proof. split; [constructor; [intro; reflexivity|constructor]|]. split; reflexivity. Qed.

(** C81 fails for a condition that resets the mock (and perhaps stubs it afresh), unless it then
    throws. *)
Theorem C81_reset_refuted : forall (P A X : Type) (code : list (P * A) -> P -> A -> list (pact P A) * pend X)
    (unexpected : X) (grown : nat -> nat) (s : pstate P A) (a : A) (older newer : list P) (p : P) (fuel : nat),
  ps_mocked s = true -> ps_stubs s = older ++ p :: newer -> Forall (quietly_rejects code a) newer ->
  forall qs e, (forall log, code log p a = (PaReset :: map PaStub qs, e)) ->
  match e with
  | Throw x => exists s', pcall_run code unexpected grown (S fuel) s a = Def (s', Threw x) /\
      ps_mocked s' = (match qs with [] => false | _ => true end) /\ ps_stubs s' = qs /\ ps_calls s' = []
  | _ => pcall_run code unexpected grown (S fuel) s a = UB
  end.
Proof. intros P A X. exact reset_and_end. Qed.
Definition ex_resets (e : pend nat) (log : list (nat * nat)) (p a : nat) : list (pact nat nat) * pend nat :=
  if p =? 3 then ([], Reject) else ([PaReset], e).
Example C81_reset_case :
  pcall_run (ex_resets Accept) 99 (fun n => 2 * n) 1 (ex_method 4) 6 = UB /\
  pcall_run (ex_resets Reject) 99 (fun n => 2 * n) 1 (ex_method 4) 6 = UB /\
  pcall_run (ex_resets (Throw 5)) 99 (fun n => 2 * n) 1 (ex_method 4) 6 =
    Def (mkPs false [] 0 3 2 [] 1 3 1 [(3, 6); (2, 6)], Threw 5).
Proof. repeat split; reflexivity. Qed.

(** C81, verification: if the condition of the pattern and those of the stubbings only make calls,
    the verification counts the calls that were made before it began. *)
Theorem C81_verify : forall (P A X : Type) (code : list (P * A) -> P -> A -> list (pact P A) * pend X)
    (unexpected : X) (grown : nat -> nat) (rank : A -> nat) (stubs : list P) (ends : P -> A -> pend X) (q : P)
    (good : A -> bool) (fuel : nat) (s : pstate P A) (k : nat),
  (forall p log a, In p stubs -> Forall (calls_below rank a) (fst (code log p a)) /\ snd (code log p a) = ends p a) ->
  (forall log a, Forall (calls_below rank a) (fst (code log q a)) /\ snd (code log q a) = if good a then Accept else Reject) ->
  ps_mocked s = true -> ps_stubs s = stubs -> Forall (fun c => rank (pc_args c) <= fuel) (ps_calls s) ->
  exists s' more, pverify code unexpected grown fuel s q k =
      Def (s', inl (length (filter (fun c => good (pc_args c)) (ps_calls s)) =? k)) /\
    ps_stubs s' = ps_stubs s /\ ps_calls s' = ps_calls s ++ more.
Proof. intros P A X. exact verify_calm. Qed.
(** Condition 0, of the pattern, calls the method with one less and accepts even numbers. *)
Definition ex_verifies (log : list (nat * nat)) (p a : nat) : list (pact nat nat) * pend nat :=
  if p =? 0 then (match a with S b => [PaCall b true] | 0 => [] end, if Nat.even a then Accept else Reject)
  else ([], Accept).
Example C81_verify_case :
  (forall log a, Forall (calls_below (fun n => n) a) (fst (ex_verifies log 0 a))) /\
  exists s', pverify ex_verifies 99 (fun n => 2 * n) 4
      (mkPs true [1] 1 1 1 [mkPcall 2 4 1; mkPcall 1 3 1; mkPcall 3 2 1] 0 4 0 []) 0 2 = Def (s', inl true) /\
    ps_calls s' = [mkPcall 2 4 1; mkPcall 1 3 1; mkPcall 3 2 1; mkPcall 4 2 1; mkPcall 5 3 1; mkPcall 6 1 1].
Proof.
  split; [|eexists; split; [vm_compute; reflexivity|reflexivity]].
  intros log [|b]; cbn; constructor; auto. exists b. auto.
Qed.

(** C81, verification: the condition is asked for the calls in the order they were made, once each,
    up to the first one for which it throws; that exception leaves the verification. *)
Theorem C81_verify_order : forall (P A X : Type) (code : list (P * A) -> P -> A -> list (pact P A) * pend X)
    (unexpected : X) (grown : nat -> nat) (fuel : nat) (s : pstate P A) (q : P) (k : nat) (ends : A -> pend X),
  (forall log a, code log q a = ([], ends a)) ->
  exists cs s' r, Permutation (ps_calls s) cs /\ StronglySorted (fun x y => pc_ord x <= pc_ord y) cs /\
    pverify code unexpected grown fuel s q k = Def (s', r) /\ ps_calls s' = ps_calls s /\ ps_stubs s' = ps_stubs s /\
    match r with
    | inl _ => Forall (fun c => forall x, ends (pc_args c) <> Throw x) cs /\
        ps_asked s' = ps_asked s ++ map (fun c => (q, pc_args c)) cs
    | inr x => exists pre c post, cs = pre ++ c :: post /\ Forall (fun c => forall x, ends (pc_args c) <> Throw x) pre /\
        ends (pc_args c) = Throw x /\ ps_asked s' = ps_asked s ++ map (fun c => (q, pc_args c)) (pre ++ [c])
    end.
Proof. intros P A X. exact verify_order. Qed.
Example C81_verify_order_case :
  pverify (fun _ _ a => ([], if a =? 4 then Throw 5 else Accept)) 99 (fun n => 2 * n) 1
    (mkPs true [1] 1 1 1 [mkPcall 2 4 1; mkPcall 1 3 1; mkPcall 3 2 1] 0 4 0 []) 0 2 =
  Def (mkPs true [1] 1 1 1 [mkPcall 2 4 1; mkPcall 1 3 1; mkPcall 3 2 1] 0 4 0 [(0, 3); (0, 4)], inr 5).
Proof. reflexivity. Qed.

(** C81, verification, fails for a condition that clears the history or resets the mock: undefined
    as soon as a call is left to ask for, or something matches or was to match… *)
Theorem C81_verify_refuted : forall (P A X : Type) (code : list (P * A) -> P -> A -> list (pact P A) * pend X)
    (unexpected : X) (grown : nat -> nat) (fuel : nat) (s : pstate P A) (q : P) (k : nat) (good : A -> bool) (act : pact P A),
  act = PaClear \/ act = PaReset ->
  (forall log a, code log q a = ([act], if good a then Accept else Reject)) ->
  ps_calls s <> [] -> k <> 0 \/ 1 < length (ps_calls s) \/ Exists (fun c => good (pc_args c) = true) (ps_calls s) ->
  pverify code unexpected grown fuel s q k = UB.
Proof. intros P A X. exact verify_clears. Qed.
(** … and fine otherwise. *)
Theorem C81_verify_cleared : forall (P A X : Type) (code : list (P * A) -> P -> A -> list (pact P A) * pend X)
    (unexpected : X) (grown : nat -> nat) (fuel : nat) (s : pstate P A) (q : P) (good : A -> bool) (act : pact P A) (c : pcall P A),
  act = PaClear \/ act = PaReset ->
  (forall log a, code log q a = ([act], if good a then Accept else Reject)) ->
  ps_calls s = [c] -> good (pc_args c) = false ->
  exists s', pverify code unexpected grown fuel s q 0 = Def (s', inl true) /\ ps_calls s' = [].
Proof. intros P A X. exact verify_cleared. Qed.
Example C81_verify_refuted_case :
  pverify (fun _ _ a => ([PaClear], if Nat.even a then Accept else Reject)) 99 (fun n => 2 * n) 1 (ex_method 4) 0 1 = UB /\
  pverify (fun _ _ a => ([PaClear], if Nat.even a then Accept else Reject)) 99 (fun n => 2 * n) 1 (ex_method 4) 0 0 =
    Def (mkPs true [1; 2; 3] 4 3 2 [] 1 2 0 [(0, 7)], inl true) /\
  pverify (fun _ _ a => ([PaReset], Accept)) 99 (fun n => 2 * n) 1 (ex_method 4) 0 0 = UB.
Proof. repeat split; reflexivity. Qed.

Definition P_Predicates_theorems :=
  (C81_calls, C81_stub, C81_stub_refuted, C81_stub_room, C81_reset_refuted, C81_uncaught, C81_verify,
   C81_verify_order, C81_verify_refuted, C81_verify_cleared).
Print Assumptions P_Predicates_theorems.
