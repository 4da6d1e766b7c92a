(** C115: verifications inside conditions and actions. *)
From Coq Require Import Bool Arith Lia List.
From Verif Require Import Base Asked Within Spec_Within WithinProofs.
Import ListNotations.

(** The examples.  Predicate 0 says yes to arguments above 3; predicate 1 says yes if two or more calls satisfy predicate 0, and the
    others to the first call only.  Predicate 9 verifies itself. *)
Definition code (p a : nat) : prog nat :=
  match p with
  | 0 => Say (if 3 <? a then Yes else No)
  | 1 => Check (100, 0) (fun n => 2 <=? n) (fun b => Say (if b then Yes else No))
  | 9 => Check (109, 9) (fun n => n =? 1) (fun b => Say Yes)
  | _ => Check (101, 1) (fun n => n =? 0) (fun b => Say (if b then Yes else No))
  end.
(** The action of stubbing 5 counts the calls of predicate 0, that of stubbing 6 asks whether anything else was called, that of 7
    verifies its own expression; all of them throw if the answer is no. *)
Definition action (id a : nat) : prog nat :=
  match id with
  | 5 => Check (102, 0) (fun n => n =? 2) (fun b => Say (if b then Yes else Raise))
  | 6 => Others (fun b => Say (if b then Yes else Raise))
  | 7 => Check (7, 2) (fun n => n =? 1) (fun b => Others (fun b' => Say (if b && b' then Yes else Raise)))
  | _ => Say Yes
  end.
Definition height (p : nat) : nat := match p with 0 => 0 | 1 => 1 | _ => 2 end.
Definition some_calls : st nat := mkW [mkN 4 20 false; mkN 1 21 true; mkN 5 20 false] [].

(** C115: a verification, in a test or inside a condition, sees exactly the calls recorded before it began, however many
    verifications its conditions make; no call is added or changed, and exactly the calls matched by the verifications that passed
    (the inner ones too) become verified. *)
Theorem C115_verification : forall (A P : Type) (body : P -> A -> prog P) d (s : st A) (p : prog P) s' x,
  exec (ask body d) s p = Def (s', x) -> exists new, later s s' new.
Proof. exact @run_later. Qed.

Example C115_verification_ex :
  exec (ask code 3) some_calls (Check (50, 1) (fun n => n =? 9) (fun b => Say (if b then Yes else No))) =
    Def (mkW [mkN 4 20 true; mkN 1 21 true; mkN 5 20 true]
             [mkLook 3 [0; 2] true; mkLook 3 [0; 2] true; mkLook 3 [0; 2] true; mkLook 3 [0; 1; 2] false], No).
Proof. vm_compute. reflexivity. Qed.

(** C115: one verification, whatever its condition does: the condition is asked about each call in turn; if it throws, the verification
    ends with that exception and marks nothing itself; otherwise the matches are counted, and marked if their number is right. *)
Theorem C115_check : forall (A P : Type) (body : P -> A -> prog P) d c need k (s : st A) s' x,
  exec (ask body d) s (Check c need k) = Def (s', x) ->
  exists s1 o, polled (ask body d) c (calls s) 0 s s1 o /\
    match o with
    | None => s' = s1 /\ x = Raise
    | Some l => let b := need (length l) in
        exec (ask body d) (note (mkLook (length (calls s)) l b) (if b then mark l s1 else s1)) (k b) = Def (s', x)
    end.
Proof. exact @check_polled. Qed.

(** A predicate that verifies and then throws for the argument 5. *)
Definition moody (p a : nat) : prog nat :=
  match p with 0 => Say (if a =? 4 then Yes else No) | _ => Check (100, 0) (fun n => n =? 1) (fun _ => Say (if a =? 5 then Raise else Yes)) end.
Example C115_check_ex :
  exec (ask moody 2) some_calls (Check (50, 1) (fun n => 0 <? n) (fun b => Say (if b then Yes else No))) =
    Def (mkW [mkN 4 20 true; mkN 1 21 true; mkN 5 20 false] [mkLook 3 [0] true; mkLook 3 [0] true; mkLook 3 [0] true], Raise).
Proof. vm_compute. reflexivity. Qed.

(** C115: a condition whose answers depend on the arguments only may verify what it likes: the verification that asks it passes
    according to the number of calls that it accepts, and those are marked. *)
Theorem C115_steady : forall (A P : Type) (body : P -> A -> prog P) d id (p : P) (f : A -> bool) need k (s : st A) s' x,
  (forall s a s' x, ask body d s p a = Def (s', x) -> x = if f a then Yes else No) ->
  exec (ask body d) s (Check (id, p) need k) = Def (s', x) ->
  exists s1 new, later s s1 new /\ let l := accepted s id f in let b := need (length l) in
    exec (ask body d) (note (mkLook (length (calls s)) l b) (if b then mark l s1 else s1)) (k b) = Def (s', x).
Proof. exact @run_steady. Qed.

(** A predicate that verifies, and then answers by the argument. *)
Definition busy (p a : nat) : prog nat :=
  match p with 0 => Say Yes | _ => Check (100, 0) (fun n => n =? 3) (fun _ => Say (if 3 <? a then Yes else No)) end.
Example C115_steady_ex : (forall s a s' x, ask busy 2 s 1 a = Def (s', x) -> x = if 3 <? a then Yes else No) /\
  accepted some_calls 50 (fun a => 3 <? a) = [0; 2] /\
  exists s', exec (ask busy 2) some_calls (Check (50, 1) (fun n => n =? 2) (fun b => Say (if b then Yes else No))) = Def (s', Yes).
Proof.
  split; [|split; [reflexivity|eexists; vm_compute; reflexivity]]. intros s a s' x H. change (ask busy 2 s 1 a) with (exec (ask busy 1) s (Check (100, 0) (fun n => n =? 3) (fun _ => Say (if 3 <? a then Yes else No)))) in H.
  cbn [exec] in H.
  assert (forall todo i s, exists l, scan (ask busy 1) (100, 0) todo i s = Def (s, Some l)) as S.
  { induction todo as [|r todo IH]; intros i s0; cbn [scan]; [eauto|]. unfold matches. cbn [fst snd]. destruct (IH (Datatypes.S i) s0) as (l & L).
    change (ask busy 1 s0 0 (n_args r)) with (Def (s0, Yes)). destruct (n_by r =? 100); cbn [obind]; rewrite L; cbn; eauto. }
  destruct (S (calls s) 0 s) as (l & L). rewrite L in H. cbn [obind] in H. inversion H. reflexivity.
Qed.

(** C115: VerifyNoOtherInvocations passes exactly if all calls recorded at that time are verified, and marks nothing. *)
Theorem C115_no_other : forall (A P : Type) (body : P -> A -> prog P) d k (s : st A) s' x, exec (ask body d) s (Others k) = Def (s', x) ->
  exists l new, later s s' (l :: new) /\ (l_ok l = true <-> Forall (fun r => n_seen r = true) (calls s)).
Proof. exact @run_others. Qed.

Example C115_no_other_ex :
  exec (ask code 3) some_calls (Others (fun b => Check (51, 0) (fun n => n =? 2) (fun b' => Others (fun b'' => Say (if b'' then Yes else No))))) =
    Def (mkW [mkN 4 20 true; mkN 1 21 true; mkN 5 20 true] [mkLook 3 [] false; mkLook 3 [0; 2] true; mkLook 3 [] true], Yes).
Proof. vm_compute. reflexivity. Qed.

(** C115: the verifications in the conditions of a call do not see that call, those in the action that answers it do; what they
    verified stays verified even if the call is unexpected or a condition throws. *)
Theorem C115_call : forall (A P : Type) (body : P -> A -> prog P) (act : nat -> A -> prog P) d stubs a (s : st A) s' e,
  call body act d stubs a s = Def (s', e) ->
  match e with
  | Returned id | ActionThrew id => (exists p, In (id, p) stubs) /\
      exists s1 new1 new2, later s s1 new1 /\ later (recorded s1 a id) s' new2
  | Unexpected | ConditionThrew => exists new, later s s' new
  end.
Proof. exact @call_sees. Qed.

Example C115_call_ex :
  (exists s', call code action 3 [(5, 0); (6, 1)] 4 (mkW [mkN 4 20 false] []) = Def (s', Returned 5) /\
    looks s' = [mkLook 1 [0] false; mkLook 2 [0; 1] true]) /\
  exists s', call code action 3 [(6, 1)] 4 (mkW [mkN 4 20 false; mkN 5 20 false; mkN 1 20 false] []) = Def (s', ActionThrew 6) /\
    map n_seen (calls s') = [true; true; false; false] /\ looks s' = [mkLook 3 [0; 1] true; mkLook 4 [] false].
Proof. split; eexists; repeat split; vm_compute; reflexivity. Qed.

(** C115: the conditions of a call are asked newest first, each in the state that the ones before left, and the action runs in the
    state that they left, with the call recorded; an unexpected call and an exception of a condition leave that state too. *)
Theorem C115_turns : forall (A P : Type) (body : P -> A -> prog P) (act : nat -> A -> prog P) d stubs a (s : st A) s' e,
  call body act d stubs a s = Def (s', e) ->
  exists s1 r, turns (ask body d) a (rev stubs) s s1 r /\
    match r with
    | inl id => exists x, exec (ask body d) (recorded s1 a id) (act id a) = Def (s', x) /\ e = match x with Raise => ActionThrew id | _ => Returned id end
    | inr e1 => s' = s1 /\ e = e1
    end.
Proof. exact @call_turns. Qed.

Example C115_turns_ex : call code action 3 [(8, 0); (8, 2); (8, 2)] 1 some_calls =
  Def (mkW [mkN 4 20 true; mkN 1 21 true; mkN 5 20 true]
    [mkLook 3 [0; 2] true; mkLook 3 [0; 2] true; mkLook 3 [0; 2] true; mkLook 3 [0; 1; 2] false;
     mkLook 3 [0; 2] true; mkLook 3 [0; 2] true; mkLook 3 [0; 2] true; mkLook 3 [0; 1; 2] false], Unexpected).
Proof. vm_compute. reflexivity. Qed.

(** C115: conditions and actions that verify come to an end if no condition verifies itself, directly or through others: if the
    conditions have ranks and verify only conditions of lower rank. *)
Theorem C115_ends : forall (A P : Type) (body : P -> A -> prog P) (act : nat -> A -> prog P) (rank : P -> nat),
  (forall p a, below rank (rank p) (body p a)) -> forall d stubs a (s : st A),
  Forall (fun ip => rank (snd ip) < d) stubs -> (forall id a, below rank d (act id a)) ->
  exists s' e, call body act d stubs a s = Def (s', e).
Proof. exact @call_total. Qed.

(** [code] without the predicate that verifies itself. *)
Definition code' (p a : nat) : prog nat := match p with 0 | 1 => code p a | _ => code 2 a end.
Example C115_ends_ex : (forall p a, below height (height p) (code' p a)) /\ Forall (fun ip => height (snd ip) < 3) [(5, 0); (6, 2)] /\
  (forall id a, below height 3 (action id a)).
Proof.
  split; [|split].
  - intros [|[|p]] a; cbn; auto.
  - repeat constructor.
  - intros id a. do 8 (destruct id as [|id]; [cbn; auto|]). cbn. auto.
Qed.

Theorem C115_verify_ends : forall (A P : Type) (body : P -> A -> prog P) (rank : P -> nat),
  (forall p a, below rank (rank p) (body p a)) -> forall d pr (s : st A), below rank d pr ->
  exists s' x, exec (ask body d) s pr = Def (s', x).
Proof. exact @verify_total. Qed.

Example C115_verify_ends_ex : below height 3 (Check (50, 2) (fun n => n =? 0) (fun b => Say (if b then Yes else No))) /\
  exists s', exec (ask code' 3) some_calls (Check (50, 2) (fun n => n =? 0) (fun b => Say (if b then Yes else No))) = Def (s', Yes).
Proof. split; [cbn; auto|]. eexists. vm_compute. reflexivity. Qed.

(** C115: an action that begins with VerifyNoOtherInvocations always gets a no: its own call is recorded and not yet verified. *)
Theorem C115_others : forall (A P : Type) (body : P -> A -> prog P) (act : nat -> A -> prog P) d stubs a (s : st A) s' e id k,
  act id a = Others k -> call body act d stubs a s = Def (s', e) -> e = Returned id \/ e = ActionThrew id ->
  exists s1 new1 x, later s s1 new1 /\
    exec (ask body d) (note (mkLook (S (length (calls s))) [] false) (recorded s1 a id)) (k false) = Def (s', x).
Proof. exact @call_others. Qed.

Example C115_others_ex : action 6 4 = Others (fun b => Say (if b then Yes else Raise)) /\
  exists s', call code action 3 [(6, 0)] 4 (mkW [mkN 4 20 true] []) = Def (s', ActionThrew 6).
Proof. split; [reflexivity|]. eexists. vm_compute. reflexivity. Qed.

(** C115: an action that begins by verifying the expression that it answers for counts its own call. *)
Theorem C115_own : forall (A P : Type) (body : P -> A -> prog P) (act : nat -> A -> prog P) d stubs a (s : st A) s' id p need k,
  act id a = Check (id, p) need k -> call body act d stubs a s = Def (s', Returned id) ->
  exists s1 new1 new2 l new3, later s s1 new1 /\ later (recorded s1 a id) s' (new2 ++ l :: new3) /\
    l_ok l = need (length (l_matched l)) /\ In (length (calls s)) (l_matched l).
Proof. exact @call_own. Qed.

Example C115_own_ex : exists k, action 7 4 = Check (7, 2) (fun n => n =? 1) k /\
  call code action 3 [(7, 0)] 4 (mkW [] []) = Def (mkW [mkN 4 7 true] [mkLook 1 [0] true; mkLook 1 [] true], Returned 7).
Proof. eexists. split; [reflexivity|]. vm_compute. reflexivity. Qed.

(** C115, "a condition may verify anything": refuted.  A condition that verifies itself never comes to an end once a call that it
    did not answer is recorded: no depth is enough. *)
Theorem C115_self_refuted : ~ (forall (body : nat -> nat -> prog nat) s p a, exists d s' x, ask body d s p a = Def (s', x)).
Proof.
  assert (forall d a, ask code d some_calls 9 a = NoFuel) as N.
  { induction d as [|d IH]; intros a; [reflexivity|].
    change (ask code (S d) some_calls 9 a) with
      (let! (s1, o) := (let! (s1, x) := ask code d some_calls 9 4 in
         match x with
         | Raise => Def (s1, None)
         | Yes => let! (s2, o) := scan (ask code d) (109, 9) [mkN 1 21 true; mkN 5 20 false] 1 s1 in Def (s2, match o with Some l => Some (0 :: l) | None => None end)
         | No => scan (ask code d) (109, 9) [mkN 1 21 true; mkN 5 20 false] 1 s1
         end) in
       match o with
       | None => Def (s1, Raise)
       | Some l => exec (ask code d) (note (mkLook 3 l (length l =? 1)) (if length l =? 1 then mark l s1 else s1)) (Say Yes)
       end).
    rewrite IH. reflexivity. }
  intros H. destruct (H code some_calls 9 0) as (d & s' & x & Q). rewrite N in Q. discriminate.
Qed.

(** C115, "a verification in a condition of a call counts that call": refuted, it counts the calls before it. *)
Theorem C115_counts_refuted : ~ (forall (body act : nat -> nat -> prog nat) d stubs a s s' id,
  call body act d stubs a s = Def (s', Returned id) -> Forall (fun l => l_calls l = S (length (calls s))) (skipn (length (looks s)) (looks s'))).
Proof.
  intros H. specialize (H code (fun _ _ => Say Yes) 3 [(8, 2)] 4 (mkW [] []) _ 8 ltac:(vm_compute; reflexivity)).
  cbn in H. inversion H as [|? ? H1 _]. discriminate H1.
Qed.

Definition C115_all := (@C115_verification, @C115_check, @C115_turns, @C115_steady, @C115_no_other, @C115_call, @C115_ends, @C115_verify_ends, @C115_others, @C115_own,
  C115_self_refuted, C115_counts_refuted).
Print Assumptions C115_all.
