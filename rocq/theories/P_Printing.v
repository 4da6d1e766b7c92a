(** Property C101: reports about arguments that are printed by code of the user. *)
From Coq Require Import Ascii String ZArith Lia List Arith Bool Sorted Permutation.
From Verif Require Import Base CInt Sequences MatchAnalysis Expectation Format Printing Spec_Printing PrintingProofs.
Import ListNotations.
Open Scope list_scope.
Open Scope nat_scope.

(** ** Printers that call only methods that answer

    C101: a call that is not supported ends with an exception that shows each argument as it prints itself into a
    stream of its own, or with the exception of the first argument whose operator<< throws.  The arguments are printed
    up to that one, once; and once more if the adapter only takes note.  Calls made by them are recorded behind those
    there were; the call itself is not, unless it was matched and the actions were used up. *)
Theorem C101_call {V X} (code : list V -> V -> list (pract V X)) digits answers name (returns : bool) say :
  (forall h v, code h v = say v) -> (forall v, Forall (calm answers) (say v)) ->
  forall f m args s, answers m args = Unmatched \/ answers m args = Exhausted ->
  let text := fmt_unexpected_event true (call_text digits answers say name m args) in
  let s0 := take_ordinal s in
  let s1 := fire (HUnmatched m args)
              (match answers m args with Exhausted => record (mkPcall (ps_next s) m args false) s0 | _ => s0 end) in
  call code digits answers name returns (S (S f)) m args s =
  match snd (until answers say args) with
  | Some x => Def (after answers say (fst (until answers say args)) s1, inr (XUser x))
  | None =>
      let s2 := after answers say args s1 in
      Def (if returns then after answers say args (fail text s2) else s2, inr (XReport text))
  end.
Proof.
  intros C1 C2 f m args s A. cbv zeta.
  assert (E := call_unexpected code digits answers name returns say C1 C2 f m args s). cbv zeta in E.
  destruct A as [A|A]; rewrite A in E |- *; (rewrite E by discriminate); cbn [unexpected_from];
    destruct (snd (until answers say args)); try reflexivity; destruct returns; reflexivity.
Qed.

(** Calls of methods that are not stubbed run no code of the user. *)
Theorem C101_unmocked {V X} (code : list V -> V -> list (pract V X)) digits answers name (returns : bool) :
  forall f m args s, answers m args = Unmocked ->
  let text := fmt_unexpected_event false "unknown()" in
  let s1 := fire HUnmocked (take_ordinal s) in
  call code digits answers name returns (S f) m args s = Def (if returns then fail text s1 else s1, inr (XReport text)).
Proof. intros f m args s A. cbn [call]. unfold call_body. rewrite A. destruct returns; reflexivity. Qed.

(** A verification that fails reports all values of its pattern and of the first 50 calls, each as it prints itself
    into a stream of its own; or ends with the exception of the first that throws, in the order of reading.  (Catch
    prints the pattern once more.)  The listeners were told before; no call is marked. *)
Theorem C101_verify {V X} (code : list V -> V -> list (pract V X)) digits answers same name (vreturns again : bool) say :
  (forall h v, code h v = say v) -> (forall v, Forall (calm answers) (say v)) ->
  forall returns f p t k s n matched,
  let l := by_ordinal (ps_calls s) in
  countMatches (fun e c => Def (expr_matches same e c)) p l = Def (n, matched) -> misses t n k = true ->
  let vs := (in_pattern p ++ in_list l) ++ (if again then in_pattern p else []) in
  let s1 := fire HSequence s in
  let text := fmt_sequence_event (expr_text digits answers say name) p t k n (list_text digits answers say name l) in
  stmt code digits answers same name returns vreturns again (S f) (SVerify false p t k) s =
  match snd (until answers say vs) with
  | Some x => Def (after answers say (fst (until answers say vs)) s1, RThrew (XUser x))
  | None => let s2 := after answers say vs s1 in
      if vreturns then Def (fail text s2, RVerdict Fails) else Def (s2, RThrew (XReport text))
  end.
Proof.
  intros C1 C2 returns f p t k s n matched l E M vs s1 text. cbn [stmt].
  assert (D := verify_does code digits answers same name returns vreturns again say C1 C2 f p t k s n matched E M). cbv zeta in D.
  fold l vs s1 text in D. rewrite D. destruct (snd (until answers say vs)); [reflexivity|]. destruct vreturns; reflexivity.
Qed.
Theorem C101_no_other {V X} (code : list V -> V -> list (pract V X)) digits answers same name (vreturns again : bool) say :
  (forall h v, code h v = say v) -> (forall v, Forall (calm answers) (say v)) ->
  forall returns f s,
  let l := by_ordinal (filter (fun c => negb (pc_verified c)) (ps_calls s)) in
  l <> [] ->
  let s1 := fire HNoMore s in
  let vs := in_list l in
  let text := fmt_nomore_event (list_text digits answers say name l) in
  stmt code digits answers same name returns vreturns again (S f) (SNoOther false) s =
  match snd (until answers say vs) with
  | Some x => Def (after answers say (fst (until answers say vs)) s1, RThrew (XUser x))
  | None => let s2 := after answers say vs s1 in
      if vreturns then Def (fail text s2, RVerdict Fails) else Def (s2, RThrew (XReport text))
  end.
Proof.
  intros C1 C2 returns f s l NE s1 vs text. cbn [stmt].
  assert (D := no_other_does code digits answers name returns vreturns again say C1 C2 f s NE). cbv zeta in D.
  fold l vs s1 text in D. rewrite D. destruct (snd (until answers say vs)); [reflexivity|]. destruct vreturns; reflexivity.
Qed.

(** Verifications that hold, and those that are converted to bool, print nothing and tell nobody. *)
Theorem C101_quietly {V X : Type} (code : list V -> V -> list (pract V X)) digits answers same name returns vreturns again f q p t k s n matched :
  countMatches (fun e c => Def (expr_matches same e c)) p (by_ordinal (ps_calls s)) = Def (n, matched) ->
  q = true \/ misses t n k = false ->
  stmt code digits answers same name returns vreturns again f (SVerify q p t k) s =
  Def (if misses t n k then s else mark matched s, RVerdict (if misses t n k then Fails else Holds)).
Proof. exact (nothing_printed code digits answers same name returns vreturns again f q p t k s n matched). Qed.
Theorem C101_quietly_other {V X : Type} (code : list V -> V -> list (pract V X)) digits answers same name returns vreturns again f q s :
  q = true \/ forallb pc_verified (ps_calls s) = true ->
  stmt code digits answers same name returns vreturns again f (SNoOther q) s =
  Def (s, RVerdict (if forallb pc_verified (ps_calls s) then Holds else Fails)).
Proof. exact (nothing_printed_other code digits answers same name returns vreturns again f q s). Qed.

(** What the statements above say by functions of the model: the calls are read in the order of their ordinals, an
    expression is matched by the calls of its method whose arguments are equal to its values, marking changes only what
    the calls of the matches say about themselves, and telling, failing, recording and counting change one thing each. *)
Theorem C101_read {V : Type} (same : V -> V -> bool) :
  (forall l : list (pcall V), Permutation (by_ordinal l) l /\ StronglySorted (fun a b => pc_ord a <= pc_ord b) (by_ordinal l)) /\
  (forall e (c : pcall V), expr_matches same e c = true <->
     pc_method c = ex_method e /\
     forall ts, ex_terms e = Some ts -> Forall2 (fun t v => forall w, t = Some w -> same w v = true) ts (pc_args c)) /\
  (forall l (s : pstate V),
     (exists cs, mark l s = mkPs cs (ps_cleared s) (ps_next s) (ps_printed s) (ps_heard s) (ps_failures s)) /\
     Forall2 (fun c d => (pc_ord d, pc_method d, pc_args d) = (pc_ord c, pc_method c, pc_args c) /\
                         (pc_verified d = true <-> pc_verified c = true \/ exists x, In x l /\ pc_ord x = pc_ord c))
             (ps_calls s) (ps_calls (mark l s))) /\
  (forall calls n next seen heard failures h t (c : pcall V), let s := mkPs calls n next seen heard failures in
     fire h s = mkPs calls n next seen (heard ++ [h]) failures /\
     fail t s = mkPs calls n next seen heard (failures ++ [t]) /\
     record c s = mkPs (calls ++ [c]) n next seen heard failures /\
     take_ordinal s = mkPs calls n (S next) seen heard failures).
Proof.
  split; [exact by_ordinal_sorted|]. split; [exact (expr_matches_iff same)|]. split.
  - intros l s. split; [eexists; reflexivity|exact (mark_calls l s)].
  - intros. repeat split; reflexivity.
Qed.
Example C101_read_case :
  let calls := [mkPcall 3 1 [5; 6] false; mkPcall 1 1 [5; 7] false; mkPcall 2 1 [6; 6] false] in
  by_ordinal calls = [mkPcall 1 1 [5; 7] false; mkPcall 2 1 [6; 6] false; mkPcall 3 1 [5; 6] false] /\
  map (expr_matches Nat.eqb (mkPexpr 1 (Some [Some 5; None]))) calls = [true; true; false] /\
  ps_calls (mark [mkPcall 1 1 [5; 7] false] (mkPs calls 0 4 [] [] [])) =
    [mkPcall 3 1 [5; 6] false; mkPcall 1 1 [5; 7] true; mkPcall 2 1 [6; 6] false].
Proof. vm_compute. repeat split. Qed.

(** ** Any printers *)

(** Calls are defined, whatever is done; so is everything if nobody clears the history while it is printed. *)
Theorem C101_defined {V X} (code : list V -> V -> list (pract V X)) digits answers same name returns vreturns again f :
  (forall m args s, call code digits answers name returns f m args s <> UB) /\
  ((forall h v, Forall keeps (code h v)) -> forall s,
     (forall q, stmt code digits answers same name returns vreturns again f (SNoOther q) s <> UB) /\
     (forall q p t k n matched,
        countMatches (fun e c => Def (expr_matches same e c)) p (by_ordinal (ps_calls s)) = Def (n, matched) ->
        stmt code digits answers same name returns vreturns again f (SVerify q p t k) s <> UB)).
Proof.
  split; [exact (calling_safe code digits answers name returns f)|]. intros K s. split.
  - intros q. cbn [stmt]. assert (H := no_other_safe code digits answers name returns vreturns again K f q s).
    destruct (no_other_body code digits name vreturns again _ q s) as [[s' r]| |]; cbn; [discriminate|destruct H|discriminate].
  - intros q p t k n matched E. cbn [stmt].
    assert (H := verify_safe code digits answers same name returns vreturns again K f q p t k s n matched E).
    destruct (verify_body code digits same name vreturns again _ q p t k s) as [[s' r]| |]; cbn; [discriminate|destruct H|discriminate].
Qed.

(** The calls that were recorded stay; those that are made while something is printed follow, in the order of their
    ordinals. *)
Theorem C101_history {V X} (code : list V -> V -> list (pract V X)) digits answers same name returns vreturns again :
  (forall h v, Forall keeps (code h v)) -> forall f l s s' rs,
  stmts code digits answers same name returns vreturns again f l s = Def (s', rs) -> extends s s'.
Proof. intros K. exact (stmts_extend code digits answers same name returns vreturns again K). Qed.

(** If the printers call methods only with simpler values, the nesting ends. *)
Theorem C101_ends {V X} (code : list V -> V -> list (pract V X)) digits answers same name returns vreturns again (rank : V -> nat) :
  (forall h v m args caught, In (PrCall m args caught) (code h v) -> Forall (fun a => rank a < rank v) args) ->
  forall f,
  (forall m args s, Forall (fun a => rank a < f) args -> call code digits answers name returns (S f) m args s <> NoFuel) /\
  (forall q s, Forall (fun a => rank a <= f) (in_list (by_ordinal (filter (fun c => negb (pc_verified c)) (ps_calls s)))) ->
     stmt code digits answers same name returns vreturns again (S f) (SNoOther q) s <> NoFuel) /\
  (forall q p t k s, Forall (fun a => rank a <= f) (in_pattern p ++ in_list (by_ordinal (ps_calls s))) ->
     countMatches (fun e c => Def (expr_matches same e c)) p (by_ordinal (ps_calls s)) <> NoFuel ->
     stmt code digits answers same name returns vreturns again (S f) (SVerify q p t k) s <> NoFuel).
Proof.
  intros R f. split; [intros m args s A; exact (calling_ends code digits answers name returns rank R f m args A s)|]. split.
  - intros q s A. cbn [stmt]. assert (H := no_other_ends code digits answers name returns vreturns again rank R f q s A).
    destruct (no_other_body code digits name vreturns again _ q s) as [[s' r]| |]; cbn; try discriminate. congruence.
  - intros q p t k s A N. cbn [stmt]. assert (H := verify_ends code digits answers same name returns vreturns again rank R f q p t k s A N).
    destruct (verify_body code digits same name vreturns again _ q p t k s) as [[s' r]| |]; cbn; try discriminate. congruence.
Qed.
(** If a printer calls, with the value it prints, a method that no stubbing supports, it does not. *)
Theorem C101_ends_refuted {V X} (code : list V -> V -> list (pract V X)) digits answers name returns m v :
  (forall h, exists caught r, code h v = PrCall m [v] caught :: r) -> answers m [v] = Unmatched ->
  forall f s, call code digits answers name returns f m [v] s = NoFuel.
Proof. exact (forever code digits answers name returns m v). Qed.

(** ** Examples *)
Definition ex_say (v : nat) : list (pract nat nat) :=
  match v with
  | 0 => [PrText "zero"]
  | 1 => [PrFlags 1; PrNumber 10]
  | 2 => [PrNumber 10]
  | 3 => [PrText "I am "; PrCall 7 [] false]
  | 4 => [PrCall 7 [] true; PrThrow 44]
  | 5 => [PrText "a"; PrFail; PrText "b"]
  | _ => []
  end.
Definition ex_code (h : list nat) (v : nat) : list (pract nat nat) := ex_say v.
Definition ex_code6 (h : list nat) (v : nat) : list (pract nat nat) :=
  if v =? 6 then [PrText "no"; PrCall 9 [0] false] else ex_say v.
Definition ex_digits (flags : nat) (z : Z) : string := if flags =? 0 then show_Z z else ("0x" ++ show_Z z)%string.
Definition ex_answers (m : nat) (args : list nat) : reply nat :=
  match m with 7 => Returns "Bob" | 1 => Returns "0" | 2 => Exhausted | 8 | 9 => Unmatched | _ => Unmocked end.
Definition ex_name (m : nat) : string := ("mock.m" ++ show_Z (Z.of_nat m))%string.
Definition ex_new : pstate nat := mkPs [] 0 1 [] [] [].
Definition ex_run (returns vreturns again : bool) := stmts ex_code ex_digits ex_answers Nat.eqb ex_name returns vreturns again 5.

(** The flags that value 1 leaves do not reach value 2; value 3 asks the mock for its name. *)
Example C101_case :
  (forall v, Forall (calm ex_answers) (ex_say v)) /\
  ex_run false true false [SCall 8 [1; 2; 5; 3]; SCall 8 [0; 4; 1]; SCall 2 [3]; SNoOther false] ex_new =
  Def (mkPs [mkPcall 2 7 [] false; mkPcall 4 7 [] false; mkPcall 5 2 [3] false; mkPcall 6 7 [] false; mkPcall 7 7 [] false] 0 8
        [1; 2; 5; 3; 0; 4; 3; 3] [HUnmatched 8 [1; 2; 5; 3]; HUnmatched 8 [0; 4; 1]; HUnmatched 2 [3]; HNoMore]
        [fmt_nomore_event ["mock.m7()"; "mock.m7()"; "mock.m2(I am Bob)"; "mock.m7()"]%string],
       [RThrew (XReport (fmt_unexpected_event true "mock.m8(0x10, 10, a, I am Bob)"));
        RThrew (XUser 44);
        RThrew (XReport (fmt_unexpected_event true "mock.m2(I am Bob)"));
        RVerdict Fails]).
Proof.
  split; [|vm_compute; reflexivity]. intros v.
  do 6 (destruct v as [|v]; [repeat first [constructor | exists (Returns "Bob"); split; reflexivity]|]). constructor.
Qed.
Example C101_verify_case :
  let p := [SLeaf (mkPexpr 1 (Some [Some 2; None])); SRepeat (SLeaf (mkPexpr 7 None)) 2] in
  ex_run false false true [SCall 1 [1; 0]; SVerify true p VtExact 1; SVerify false p VtExact 1] ex_new =
  Def (mkPs [mkPcall 1 1 [1; 0] false] 0 2 [2; 1; 0; 2] [HSequence] [],
       [RText "0"; RVerdict Fails;
        RThrew (XReport (("Verification error" ++ newline ++
          "Expected pattern: mock.m1(10, Any) ... mock.m7( Any arguments ) * 2" ++ newline ++
          "Expected matches: exactly 1" ++ newline ++ "Actual matches  : 0" ++ newline ++
          "Actual sequence : total of 1 actual invocations:" ++ newline ++ "  mock.m1(0x10, zero)")%string))]).
Proof. vm_compute. reflexivity. Qed.
Example C101_keeps_case : (forall h v, Forall keeps (ex_code6 h v)) /\
  (forall h v m args caught, In (PrCall m args caught) (ex_code6 h v) -> Forall (fun a => a < v) args).
Proof.
  split.
  - intros h v. do 7 (destruct v as [|v]; [repeat constructor|]). constructor.
  - intros h v m args c.
    do 7 (destruct v as [|v]; [cbn; intros H; repeat destruct H as [H|H]; try discriminate; try contradiction;
                               injection H as <- <- <-; repeat constructor|]).
    intros [].
Qed.

Example C101_ends_case :
  let code := fun (h : list nat) (v : nat) => [PrCall (X:=nat) 9 [v] true; PrText "x"] in
  (forall h, exists caught r, code h 3 = PrCall 9 [3] caught :: r) /\ ex_answers 9 [3] = Unmatched /\
  call code ex_digits ex_answers ex_name true 40 9 [3] ex_new = NoFuel.
Proof. cbv zeta. split; [intros h; exists true, [PrText "x"]; reflexivity|]. split; reflexivity. Qed.

(** ** What fails *)

(** The report of a verification that fails changes what later ones find: the first line holds, and after the second,
    which fails and says so, it does not any more. *)
Theorem C101_history_refuted :
  exists (s s1 : pstate nat) line, let v := SVerify true [SLeaf (mkPexpr 7 None)] VtExact 0 in
  ex_run false true false [v] s = Def (s, [RVerdict Holds]) /\
  ex_run false true false [SVerify false [SLeaf (mkPexpr 1 None)] VtExact 2] s = Def (s1, [RVerdict Fails]) /\
  ps_failures s1 = [line] /\ ex_run false true false [v] s1 = Def (s1, [RVerdict Fails]).
Proof.
  exists (mkPs [mkPcall 1 1 [3] false] 0 2 [] [] []). do 2 eexists. cbv zeta.
  split; [vm_compute; reflexivity|]. split; [vm_compute; reflexivity|]. split; vm_compute; reflexivity.
Qed.
(** If the printer of an argument makes an unexpected call, the exception is about that one. *)
Theorem C101_hidden_refuted :
  exists s', stmts ex_code6 ex_digits ex_answers Nat.eqb ex_name false true false 5 [SCall 8 [6]] ex_new =
  Def (s', [RThrew (XReport (fmt_unexpected_event true "mock.m9(zero)"))]).
Proof. eexists. vm_compute. reflexivity. Qed.
(** A printer that clears the history makes the report of a verification undefined. *)
Theorem C101_clear_refuted : exists (code : list nat -> nat -> list (pract nat nat)) s,
  stmt code ex_digits ex_answers Nat.eqb ex_name false true false 5 (SNoOther false) s = UB /\
  (exists s', stmt code ex_digits ex_answers Nat.eqb ex_name false true false 5 (SCall 8 [0; 0]) s =
     Def (s', RThrew (XReport (fmt_unexpected_event true "mock.m8(, )")))).
Proof.
  exists (fun _ _ => [PrClear]), (mkPs [mkPcall 1 1 [0; 0] false] 0 2 [] [] []).
  split; [vm_compute; reflexivity|]. eexists. vm_compute. reflexivity.
Qed.

Definition C101_all := (@C101_call, @C101_unmocked, @C101_verify, @C101_no_other, @C101_quietly, @C101_quietly_other, @C101_read, @C101_defined,
  @C101_history, @C101_ends, @C101_ends_refuted, C101_history_refuted, C101_hidden_refuted, C101_clear_refuted).
Print Assumptions C101_all.
