(** C92: verifications that are interrupted.  Theorems only; see Spec_Interrupted for the words used. *)
From Coq Require Import Bool Arith ZArith Lia Permutation List.
From Verif Require Import Base OutOfMemory Expectation Interrupted Spec_Match Spec_OutOfMemory Spec_Interrupted OutOfMemoryProofs InterruptedProofs InterruptedStmts InterruptedEnds P_OutOfMemory.
Import ListNotations.
Open Scope nat_scope.

(** Whatever allocation fails and whatever predicate throws, a statement that verifies is defined and does not end
    the program.  It passes, and then the pattern was found as often as asked for, and the calls that it consists
    of are verified, all of them and no others; or it does not pass, for one of four reasons, and then no call is
    verified and every object, the answers and the calls of the mock are as they were. *)
Theorem C92 : forall fails ck q soft s, written ck -> calls_there s ->
  match verify fails ck q soft s with
  | AVal s' v => ~ refused q /\ exists n l, found ck s n l /\
      ((meets q n /\ v = true /\ marked l s s') \/ (~ meets q n /\ v = false /\ soft = true /\ nothing s s'))
  | AExn s' OutOfMemory => kept s s'
  | AExn s' UserError => may_throw ck s /\ nothing s s'
  | AExn s' Failed => soft = false /\ (exists n l, found ck s n l /\ ~ meets q n) /\ nothing s s'
  | AExn s' Invalid => refused q /\ nothing s s'
  | AExn _ Unexpected | ATerminate | AUb => False
  end.
Proof. exact verify_all. Qed.

(** Once the verification is there, a statement that throws leaves nothing allocated, whatever it throws. *)
Theorem C92_tidy : forall fails ck q soft s s0 x s' y, written ck -> calls_there s ->
  opened fails ck s = AVal s0 x -> verify fails ck q soft s = AExn s' y -> nothing s s'.
Proof. intros fails ck q soft s s0 x s' y WR. exact (verify_tidy fails ck WR q soft s s0 x s' y). Qed.

(** A verification in a variable that is asked for its result.  The first time it is asked, it says whether
    the quantifiers so far are met, and verifies the calls if they are, or throws, and then nothing has happened.
    From then on it always says true, and its end reports nothing. *)
Theorem C92_variable : forall fails ck pre post s, written ck -> calls_there s -> ~ In SBool pre ->
  match keep fails ck (pre ++ SBool :: post) s with
  | AVal s' rs => exists rs1 r rs2, rs = rs1 ++ r :: rs2 /\ length rs1 = length pre /\ length rs2 = length post /\
      (forall j, nth_error post j = Some SBool -> nth_error rs2 j = Some (Said true)) /\
      match r with
      | Said true => exists n l, found ck s n l /\ wanted pre n /\ marked l s s'
      | Said false => (exists n l, found ck s n l /\ ~ wanted pre n) /\ nothing s s'
      | Threw y => (y = OutOfMemory \/ y = UserError /\ may_throw ck s) /\ nothing s s'
      | Fine => False
      end
  | AExn s' y => y = OutOfMemory /\ kept s s'
  | ATerminate | AUb => False
  end.
Proof. exact keep_all. Qed.

(** One that is never asked verifies at its end. *)
Theorem C92_end : forall fails ck l s, written ck -> calls_there s -> ~ In SBool l ->
  match keep fails ck l s with
  | AVal s' _ => exists n m, found ck s n m /\ wanted l n /\ marked m s s'
  | AExn s' OutOfMemory => kept s s'
  | AExn s' UserError => may_throw ck s /\ nothing s s'
  | AExn s' Failed => (exists n m, found ck s n m /\ ~ wanted l n) /\ nothing s s'
  | AExn _ _ | ATerminate | AUb => False
  end.
Proof. exact keep_end_all. Qed.

(** VerifyNoOtherInvocations: it changes nothing, and passes only if every call is verified. *)
Theorem C92_other : forall fails args soft s, calls_there s ->
  match no_other fails args soft s with
  | AVal s' v => nothing s s' /\
      (v = true /\ (forall i, In i (history s) -> verified s i) \/
       v = false /\ soft = true /\ exists i, In i (history s) /\ ~ verified s i)
  | AExn s' OutOfMemory => kept s s'
  | AExn s' Failed => soft = false /\ (exists i, In i (history s) /\ ~ verified s i) /\ nothing s s'
  | AExn _ _ | ATerminate | AUb => False
  end.
Proof. exact other_all. Qed.

Theorem C92_other_tidy : forall fails args soft s s0 x s' y, calls_there s ->
  opened_other fails args s = AVal s0 x -> no_other fails args soft s = AExn s' y -> nothing s s'.
Proof. exact other_tidy. Qed.

(** Only what fails makes them throw for want of memory. *)
Theorem C92_memory : forall fails s s',
  (forall ck q soft, verify fails ck q soft s = AExn s' OutOfMemory -> exists n, st_tries s <= n < st_tries s' /\ fails n = true) /\
  (forall ck l, keep fails ck l s = AExn s' OutOfMemory -> exists n, st_tries s <= n < st_tries s' /\ fails n = true) /\
  (forall args soft, no_other fails args soft s = AExn s' OutOfMemory -> exists n, st_tries s <= n < st_tries s' /\ fails n = true).
Proof.
  intros fails s s'. split; [|split]; intros; (eapply honest_memory; [|eassumption]); [apply ho_verify | apply ho_keep | apply ho_other].
Qed.

(** A test of stubbing statements, calls and verifications that catches what they throw and gets to its end: the
    calls of the mock are there all along, destroying it is defined, and nothing is left if neither a stubbing
    statement nor a verification threw for want of memory. *)
Theorem C92_destroyed : forall fails l s quiet, Forall writable l -> play_events fails l true no_mock = AVal s quiet ->
  calls_there s /\ exists s', destroy_mock s = AVal s' tt /\ (quiet = true -> objects s' = []).
Proof. exact events_end. Qed.

(** A method with an answer that was called twice: the calls 11 and 12. *)
Definition iv_mock : state :=
  mkState 41 [None; None; Some (ASeq [3] [9]); Some ALast; None; Some ABody; Some AArg; Some (AMatcher [6]); None;
              Some (AAction (Some 0%Z)); Some (AHandler [2; 7]); Some (ACall false); Some (ACall false)]
          true (Some (mkBody 5 [10] [11; 12])).
Lemma iv_made : play_events om_never [EStub (Some 1) [Some 2%Z]; ECall (Some 0) true; ECall (Some 0) true] true no_mock = AVal iv_mock true.
Proof. vm_compute; reflexivity. Qed.
Lemma iv_there : calls_there iv_mock.
Proof. refine (proj1 (C92_destroyed om_never _ _ _ _ iv_made)). repeat constructor. Qed.

(** Any call; the first call and then any; and a predicate that throws for the second. *)
Definition iv_any : check := mkCheck [Some 1] [[0]] (fun _ _ => Some true).
Definition iv_row : check := mkCheck [Some 1; None] [[0; 1]] (fun m i => Some ((m =? 1) || (i =? 11))).
Definition iv_picky : check := mkCheck [Some 1] [[0]] (fun _ i => if i =? 12 then None else Some true).
Lemma iv_written : written iv_any /\ written iv_row /\ written iv_picky.
Proof.
  split; [|split]; (split; [discriminate|]); intros ms [<-|[]]; (split; [discriminate|]); intros m I; cbn in *; intuition (subst; lia).
Qed.

(** What remains of a statement: its result, and which calls are verified. *)
Definition iv_seen {A} (r : run A) : option ((A + error) * list (nat * bool) * nat) :=
  let calls s := flat_map (fun p => match snd p with ACall v => [(fst p, v)] | _ => [] end) (objects s) in
  match r with
  | AVal s a => Some (inl a, calls s, length (objects s))
  | AExn s e => Some (inr e, calls s, length (objects s))
  | _ => None
  end.
Example C92_case :
  length (objects iv_mock) = 9 /\
  iv_seen (verify om_never iv_any (Some QTwice) false iv_mock) = Some (inl true, [(11, true); (12, true)], 9) /\
  iv_seen (verify om_never iv_any (Some QOnce) false iv_mock) = Some (inr Failed, [(11, false); (12, false)], 9) /\
  iv_seen (verify om_never iv_any (Some QOnce) true iv_mock) = Some (inl false, [(11, false); (12, false)], 9) /\
  iv_seen (verify om_never iv_row None false iv_mock) = Some (inl true, [(11, true); (12, true)], 9) /\
  iv_seen (verify om_never iv_picky None false iv_mock) = Some (inr UserError, [(11, false); (12, false)], 9) /\
  iv_seen (verify om_never iv_any (Some (QAtLeast (-1))) false iv_mock) = Some (inr Invalid, [(11, false); (12, false)], 9) /\
  iv_seen (verify (om_only 78) iv_any (Some QTwice) false iv_mock) = Some (inr OutOfMemory, [(11, false); (12, false)], 9).
Proof. vm_compute. repeat split; reflexivity. Qed.

Example C92_tidy_case : exists s0 x s',
  opened (om_only 70) iv_any iv_mock = AVal s0 x /\ verify (om_only 70) iv_any None false iv_mock = AExn s' OutOfMemory /\ objects s' = objects iv_mock.
Proof. do 3 eexists. split; [vm_compute; reflexivity|]. split; vm_compute; reflexivity. Qed.

Example C92_variable_case :
  iv_seen (keep om_never iv_any [SQuant QOnce; SQuant QTwice; SBool; SQuant QNever; SBool] iv_mock)
    = Some (inl [Fine; Fine; Said true; Fine; Said true], [(11, true); (12, true)], 9) /\
  iv_seen (keep om_never iv_any [SQuant QOnce; SBool; SBool] iv_mock) = Some (inl [Fine; Said false; Said true], [(11, false); (12, false)], 9) /\
  iv_seen (keep om_never iv_any [SQuant QTwice; SQuant (QExactly (-1))] iv_mock) = Some (inl [Fine; Threw Invalid], [(11, true); (12, true)], 9) /\
  iv_seen (keep om_never iv_picky [SBool; SBool] iv_mock) = Some (inl [Threw UserError; Said true], [(11, false); (12, false)], 9) /\
  iv_seen (keep om_never iv_any [SQuant QOnce] iv_mock) = Some (inr Failed, [(11, false); (12, false)], 9).
Proof. vm_compute. repeat split; reflexivity. Qed.

Example C92_other_case :
  iv_seen (no_other om_never (Some 1) false iv_mock) = Some (inr Failed, [(11, false); (12, false)], 9) /\
  (exists s, verify om_never iv_any None false iv_mock = AVal s true /\
     iv_seen (no_other om_never (Some 1) false s) = Some (inl true, [(11, true); (12, true)], 9)) /\
  (exists s0 x, opened_other (om_only 65) None iv_mock = AVal s0 x) /\
  iv_seen (no_other (om_only 65) None false iv_mock) = Some (inr OutOfMemory, [(11, false); (12, false)], 9).
Proof.
  split; [vm_compute; reflexivity|]. split; [eexists; split; vm_compute; reflexivity|].
  split; [do 2 eexists; vm_compute; reflexivity|]. vm_compute; reflexivity.
Qed.

Example C92_memory_case : exists s', verify (om_only 78) iv_any (Some QTwice) false iv_mock = AExn s' OutOfMemory /\
  st_tries iv_mock = 41 /\ st_tries s' = 79.
Proof. eexists. split; [vm_compute; reflexivity|]. split; vm_compute; reflexivity. Qed.

Definition iv_test : list event :=
  [EStub (Some 1) [Some 2%Z]; ECall (Some 0) true; EVerify iv_any (Some QTwice) false; ECall (Some 0) true; EKeep iv_row [SBool; SQuant QOnce];
   EVerify iv_any (Some QTwice) false; EVerify iv_picky None true; EOther (Some 1) false].
Example C92_destroyed_case : Forall writable iv_test /\
  om_end (play_events om_never iv_test true no_mock) = Some (true, 2, []) /\
  om_end (play_events (om_only 68) iv_test true no_mock) = Some (true, 1, []) /\
  om_end (play_events (om_only 56) iv_test true no_mock) = Some (false, 2, []).
Proof.
  split; [|vm_compute; repeat split; reflexivity].
  destruct iv_written as (A & B & C). unfold iv_test.
  repeat (apply Forall_cons; [cbn [writable]; first [exact A | exact B | exact C | exact Logic.I]|]). apply Forall_nil.
Qed.

(** Refuted that a statement that throws leaves nothing allocated: if the last allocation before the verification
    is there fails, the verification is never freed. *)
Theorem C92_tidy_refuted : exists fails ck s s', written ck /\ calls_there s /\
  verify fails ck None false s = AExn s' OutOfMemory /\ kept s s' /\
  exists x g, Permutation (objects s') ((x, ACheck g false false (-1)) :: (g, AGroup) :: objects s).
Proof.
  exists (om_only 63), iv_any, iv_mock. eexists. split; [apply iv_written|]. split; [exact iv_there|].
  split; [vm_compute; reflexivity|]. split.
  - repeat split; try (intros b E; inversion E; reflexivity).
    intros p I. vm_compute in I |- *. intuition.
  - exists 21, 20. eapply perm_trans; [|apply perm_swap].
    change (Permutation (objects iv_mock ++ [(20, AGroup); (21, ACheck 20 false false (-1))]) ([(20, AGroup); (21, ACheck 20 false false (-1))] ++ objects iv_mock)).
    apply Permutation_app_comm.
Qed.

(** Refuted that a verification in a variable whose result could not be found out still reports that it is not met:
    asked again it says true, and its end reports nothing. *)
Theorem C92_variable_refuted : exists fails ck s s', written ck /\ calls_there s /\
  (forall n l, found ck s n l -> ~ wanted [SQuant QNever] n) /\
  keep fails ck [SQuant QNever; SBool; SBool] s = AVal s' [Fine; Threw OutOfMemory; Said true] /\ nothing s s' /\
  exists s2, keep om_never ck [SQuant QNever] s = AExn s2 Failed.
Proof.
  exists (om_only 70), iv_any, iv_mock. eexists. split; [apply iv_written|]. split; [exact iv_there|]. split; [|split; [vm_compute; reflexivity|]].
  - intros n l F. destruct (F _ (fits_self iv_any)) as (occs & e & pre & ps & A & B & -> & _). cbn. intros E. destruct occs; [|discriminate E].
    inversion A; subst.
    destruct B as (ms & post & e' & EP & LM & NB). destruct pre as [|x [|]]; try discriminate EP. inversion EP; subst. inversion LM; subst.
    apply (NB 0 (le_n 0)). split; [vm_compute; lia|]. intros [|j] m i E1 E2; [|destruct j; discriminate E1].
    inversion E1; inversion E2; subst. reflexivity.
  - split.
    + split; [|apply Permutation_refl]. split; [apply incl_refl|]. split; [reflexivity|]. split; [reflexivity|].
      intros b E. exact E.
    + eexists. vm_compute; reflexivity.
Qed.

Definition P_Interrupted_theorems :=
  (C92, C92_tidy, C92_tidy_refuted, C92_variable, C92_variable_refuted, C92_end, C92_other, C92_other_tidy, C92_memory, C92_destroyed).
Print Assumptions P_Interrupted_theorems.
