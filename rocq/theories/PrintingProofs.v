(** Proofs about Printing.v. *)
From Coq Require Import Ascii String ZArith Lia List Arith Bool Sorted.
From Verif Require Import Base CInt Sequences MatchAnalysis Expectation Format Printing Spec_Printing.
Import ListNotations.
Open Scope list_scope.
Open Scope nat_scope.

Lemma str_assoc (a b c : string) : ((a ++ b) ++ c)%string = (a ++ (b ++ c))%string.
Proof. induction a as [|x a IH]; cbn; [reflexivity|]. f_equal. exact IH. Qed.
Lemma str_nil (a : string) : (a ++ "")%string = a.
Proof. induction a as [|x a IH]; cbn; [reflexivity|]. f_equal. exact IH. Qed.

Section P.
Context {V X : Type}.
Variable code : list V -> V -> list (pract V X).
Variable digits : nat -> Z -> string.
Variable answers : nat -> list V -> reply X.
Variable same : V -> V -> bool.
Variable name : nat -> string.
Variables returns vreturns again : bool.

Notation call := (call code digits answers name returns).
Notation run f := (run digits (call f)).
Notation print_value f := (print_value code digits (call f)).

(** ** Printers that only call methods that answer *)
Section Calm.
Variable say : V -> list (pract V X).
Hypothesis CODE : forall h v, code h v = say v.
Hypothesis CALM : forall v, Forall (calm answers) (say v).
Notation until := (until answers say).
Notation after := (after answers say).
Notation looks := (looks digits answers say).

Definition grow (l : list (nat * list V)) (s : pstate V) : pstate V :=
  mkPs (ps_calls s ++ numbered (ps_next s) l) (ps_cleared s) (ps_next s + length l) (ps_printed s) (ps_heard s) (ps_failures s).
Lemma grow_nil s : grow [] s = s.
Proof. destruct s; unfold grow; cbn. rewrite app_nil_r, Nat.add_0_r. reflexivity. Qed.
Lemma grow_cons m a l s : grow l (record (mkPcall (ps_next s) m a false) (take_ordinal s)) = grow ((m, a) :: l) s.
Proof. unfold grow, record, take_ordinal; cbn. rewrite <- app_assoc. cbn. rewrite <- plus_n_Sm. reflexivity. Qed.

Lemma call_returns f m args t s : answers m args = Returns t ->
  call (S f) m args s = Def (record (mkPcall (ps_next s) m args false) (take_ordinal s), inl t).
Proof. intros A. cbn [Printing.call]. unfold call_body. rewrite A. reflexivity. Qed.
Lemma call_raises f m args x s : answers m args = Raises x ->
  call (S f) m args s = Def (record (mkPcall (ps_next s) m args false) (take_ordinal s), inr (XUser x)).
Proof. intros A. cbn [Printing.call]. unfold call_body. rewrite A. reflexivity. Qed.

Lemma run_calm f acts : Forall (calm answers) acts -> forall os s, exists os',
  run (S f) acts os s = Def (grow (made answers acts) s,
     match throws answers acts with Some x => inr (XUser x) | None => inl os' end) /\
  os_text os' = (os_text os ++ shown digits answers (os_flags os) (negb (os_failed os)) acts)%string.
Proof.
  induction 1 as [|a r C _ IH]; intros os s.
  - exists os. cbn. rewrite grow_nil, str_nil. auto.
  - destruct a as [t|z|fl| |m args caught| |x]; cbn [Printing.run made throws shown].
    + destruct (IH (insert t os) s) as (os' & E & T). exists os'. split; [exact E|]. rewrite T.
      unfold insert. destruct (os_failed os) eqn:F; cbn; rewrite ?F; cbn; [reflexivity|]. apply str_assoc.
    + destruct (IH (insert (digits (os_flags os) z) os) s) as (os' & E & T). exists os'. split; [exact E|]. rewrite T.
      unfold insert. destruct (os_failed os) eqn:F; cbn; rewrite ?F; cbn; [reflexivity|]. apply str_assoc.
    + destruct (IH (mkOs fl (os_failed os) (os_text os)) s) as (os' & E & T). exists os'. auto.
    + destruct (IH (mkOs (os_flags os) true (os_text os)) s) as (os' & E & T). exists os'. auto.
    + destruct C as (rr & A & R). rewrite A. destruct rr as [t|x| | |]; try contradiction;
        [rewrite (call_returns f m args t s A)|rewrite (call_raises f m args x s A)]; cbn [obind].
      * destruct (IH (insert t os) (record (mkPcall (ps_next s) m args false) (take_ordinal s))) as (os' & E & T).
        exists os'. rewrite E, grow_cons. split; [destruct caught; reflexivity|]. rewrite T.
        unfold insert. destruct (os_failed os) eqn:F; cbn; rewrite ?F; cbn; [reflexivity|]. apply str_assoc.
      * destruct caught.
        -- destruct (IH os (record (mkPcall (ps_next s) m args false) (take_ordinal s))) as (os' & E & T).
           exists os'. rewrite E, grow_cons. split; [reflexivity|]. rewrite T. destruct (negb (os_failed os)); reflexivity.
        -- exists (mkOs 0 false (os_text os ++ (if negb (os_failed os) then "" else "") ++ shown digits answers (os_flags os) (negb (os_failed os)) r)).
           split; [|reflexivity]. f_equal. f_equal. unfold grow, record, take_ordinal; cbn. rewrite Nat.add_comm. reflexivity.
    + destruct C.
    + exists (mkOs 0 false (os_text os ++ shown digits answers (os_flags os) (negb (os_failed os)) r)). rewrite grow_nil. auto.
Qed.

(** A computation that prints [vs] and then gives [a]. *)
Definition prints {A} (n : nat) (m : PM A) (vs : list V) (a : A) : Prop :=
  forall s, ps_cleared s = n ->
    m s = Def (after (fst (until vs)) s, match snd (until vs) with None => inl a | Some x => inr (XUser x) end).

Lemma after_nil s : after [] s = s.
Proof. destruct s; unfold Spec_Printing.after; cbn. rewrite !app_nil_r, Nat.add_0_r. reflexivity. Qed.
Lemma numbered_app l1 : forall n l2, @numbered V n (l1 ++ l2) = numbered n l1 ++ numbered (n + length l1) l2.
Proof.
  induction l1 as [|[m a] l1 IH]; intros n l2; cbn; [rewrite Nat.add_0_r; reflexivity|].
  rewrite IH. do 3 f_equal. lia.
Qed.
Lemma after_app vs ws s : after ws (after vs s) = after (vs ++ ws) s.
Proof.
  unfold Spec_Printing.after; cbn. rewrite flat_map_app, app_length, numbered_app, <- !app_assoc. f_equal. lia.
Qed.
Lemma until_all vs : snd (until vs) = None -> fst (until vs) = vs.
Proof.
  induction vs as [|v r IH]; cbn; [reflexivity|]. destruct (throws answers (say v)); [discriminate|].
  cbn. intros H. rewrite IH by exact H. reflexivity.
Qed.
Lemma until_app vs ws : until (vs ++ ws) =
  match snd (until vs) with Some _ => until vs | None => (vs ++ fst (until ws), snd (until ws)) end.
Proof.
  induction vs as [|v r IH]; cbn; [destruct (until ws); reflexivity|].
  destruct (throws answers (say v)); [reflexivity|]. rewrite IH. cbn.
  destruct (snd (until r)) eqn:E; cbn; rewrite ?E; reflexivity.
Qed.

Lemma prints_ret {A} n (a : A) : prints n (pret a) [] a.
Proof. intros s _. cbn. rewrite after_nil. reflexivity. Qed.
Lemma prints_bind {A B} n (m : PM A) (g : A -> PM B) vs ws a b :
  prints n m vs a -> prints n (g a) ws b -> prints n (pbind m g) (vs ++ ws) b.
Proof.
  intros M G s C. unfold pbind. rewrite (M s C), until_app. cbn [obind].
  destruct (snd (until vs)) as [x|] eqn:E; cbn [fst snd].
  - rewrite E. reflexivity.
  - rewrite (until_all vs E), G by exact C. rewrite after_app. reflexivity.
Qed.
Lemma prints_map {A B} n (m : PM A) (g : A -> B) vs a :
  prints n m vs a -> prints n (pbind m (fun a => pret (g a))) vs (g a).
Proof. intros M. rewrite <- (app_nil_r vs). apply (prints_bind n m _ vs [] a); [exact M|]. apply prints_ret. Qed.

Lemma prints_value n f v : prints n (print_value (S f) v) [v] (looks v).
Proof.
  intros s _. unfold Printing.print_value, pbind. rewrite CODE.
  destruct (run_calm f (say v) (CALM v) new_stream (note_printed v s)) as (os & E & T). rewrite E. cbn [obind Spec_Printing.until].
  assert (G : grow (made answers (say v)) (note_printed v s) = after [v] s).
  { unfold grow, note_printed, Spec_Printing.after; cbn. rewrite app_nil_r. reflexivity. }
  rewrite G. destruct (throws answers (say v)); cbn; [reflexivity|]. unfold Spec_Printing.looks. rewrite T. reflexivity.
Qed.
Lemma prints_alive n since : since = None \/ since = Some n -> @prints unit n (alive since) [] tt.
Proof.
  intros H s C. cbn. rewrite after_nil. destruct H as [-> | ->]; cbn; [reflexivity|]. rewrite C, Nat.eqb_refl. reflexivity.
Qed.
Lemma prints_args n f since args : since = None \/ since = Some n ->
  prints n (print_args code digits (call (S f)) since args) args (map looks args).
Proof.
  intros H. induction args as [|v r IH]; cbn [print_args map]; [apply prints_ret|].
  change (v :: r) with ([] ++ [v] ++ r). apply (prints_bind n _ _ [] _ tt); [apply prints_alive; exact H|].
  apply (prints_bind n _ _ [v] _ (looks v)); [apply prints_value|].
  apply (prints_map n _ (fun ts => looks v :: ts)). exact IH.
Qed.
Notation call_text := (call_text digits answers say name).
Lemma prints_call n f since m args : since = None \/ since = Some n ->
  prints n (print_call code digits name (call (S f)) since m args) args (call_text m args).
Proof.
  intros H. unfold print_call. change args with ([] ++ args) at 2. apply (prints_bind n _ _ [] _ tt); [apply prints_alive; exact H|].
  apply (prints_map n _ (fun ts => (name m ++ "(" ++ join ", " ts ++ ")")%string)). apply prints_args. exact H.
Qed.

Notation print_terms f := (print_terms code digits (call f)).
Lemma prints_terms n f l : prints n (print_terms (S f) l) (given l)
  (map (fun o => match o with None => "Any"%string | Some v => looks v end) l).
Proof.
  induction l as [|[v|] r IH]; cbn [Printing.print_terms map given]; [apply prints_ret| |].
  - change (v :: given r) with ([v] ++ given r). apply (prints_bind n _ _ [v] _ (looks v)); [apply prints_value|].
    apply (prints_map n _ (fun ts => looks v :: ts)). exact IH.
  - apply (prints_map n _ (fun ts => "Any"%string :: ts)). exact IH.
Qed.
Notation expr_text := (expr_text digits answers say name).
Lemma prints_expr n f e : prints n (print_expr code digits name (call (S f)) e) (operands e) (expr_text e).
Proof.
  unfold print_expr, operands, Spec_Printing.expr_text. destruct (ex_terms e) as [l|]; [|apply prints_ret].
  apply (prints_map n _ (fun ts => (name (ex_method e) ++ "(" ++ join ", " ts ++ ")")%string)). apply prints_terms.
Qed.
Lemma prints_sequence n f q : prints n (print_sequence code digits name (call (S f)) q) (in_sequence q)
  (formatSequence expr_text q).
Proof.
  induction q as [e|l IHl r IHr|q IH k]; cbn [print_sequence in_sequence formatSequence].
  - apply prints_expr.
  - apply (prints_bind n _ _ _ _ _ _ IHl). apply (prints_map n _ (fun b => (_ ++ " + " ++ b)%string)). exact IHr.
  - apply (prints_map n _ (fun a => ((if composite q then "(" else "") ++ a ++ (if composite q then ")" else "") ++ " * " ++ show_Z k)%string)).
    exact IH.
Qed.
Lemma prints_pattern n f p : prints n (print_pattern code digits name (call (S f)) p) (in_pattern p)
  (formatExpectedPattern expr_text p).
Proof.
  induction p as [|q r IH]; [apply prints_ret|]. unfold in_pattern; cbn [print_pattern flat_map].
  apply (prints_bind n _ _ _ _ _ _ (prints_sequence n f q)).
  replace (formatExpectedPattern expr_text (q :: r)) with
    (match r with [] => formatSequence expr_text q
     | _ => (formatSequence expr_text q ++ " ... " ++ formatExpectedPattern expr_text r)%string end) by (destruct r; reflexivity).
  apply (prints_map n _ (fun b => match r with [] => formatSequence expr_text q | _ => (formatSequence expr_text q ++ " ... " ++ b)%string end)).
  exact IH.
Qed.
Notation list_text := (list_text digits answers say name).
Lemma prints_list n f l : prints n (print_list code digits name (call (S f)) n l) (flat_map pc_args l) (list_text l).
Proof.
  induction l as [|c r IH]; cbn [print_list flat_map]; [apply prints_ret|].
  apply (prints_bind n _ _ _ _ _ _ (prints_call n f (Some n) _ _ (or_intror eq_refl))).
  apply (prints_map n _ (fun ts => _ :: ts)). exact IH.
Qed.
Lemma firstn_min {A} k (l : list A) : firstn (if k <? length l then k else length l) l = firstn k l.
Proof.
  destruct (Nat.ltb_spec k (length l)); [reflexivity|]. rewrite firstn_all. symmetry. apply firstn_all2. exact H.
Qed.
Lemma prints_calls n f l : prints n (print_calls code digits name (call (S f)) n l) (in_list l)
  (formatInvocationList (list_text l)).
Proof.
  unfold print_calls, in_list, formatInvocationList. rewrite firstn_min.
  assert (L : length (list_text l) = length l) by apply map_length. rewrite !L.
  replace (firstn (if 50 <? length l then 50 else length l) (list_text l)) with (list_text (firstn 50 l)).
  2:{ rewrite <- (firstn_min 50 l). unfold Spec_Printing.list_text. symmetry. apply firstn_map. }
  replace ((if 50 <? length l then 50 else length l) <? length l) with (50 <? length l).
  2:{ destruct (Nat.ltb_spec 50 (length l)); [symmetry; apply Nat.ltb_lt; exact H|]. symmetry. apply Nat.ltb_irrefl. }
  apply (prints_map n _ (fun ts => (list_loop ts ++ (if (50 <? length l)%nat then newline ++ "  ..." else ""))%string)).
  apply prints_list.
Qed.

(** *** Unexpected calls *)
Definition unexpected_says (unmatched : bool) (m : nat) (args : list V) : string :=
  fmt_unexpected_event unmatched (if unmatched then call_text m args else "unknown()").
Lemma prints_unexpected n f b m args : prints n (unexpected_text code digits name (call (S f)) b m args)
  (if b then args else []) (unexpected_says b m args).
Proof.
  unfold unexpected_text, unexpected_says. destruct b; [|apply prints_ret].
  apply (prints_map n _ (fmt_unexpected_event true)). apply prints_call. auto.
Qed.

Definition unexpected_from (r : reply X) (m : nat) (args : list V) (s : pstate V) : pstate V :=
  match r with
  | Exhausted => fire (HUnmatched m args) (record (mkPcall (ps_next s) m args false) (take_ordinal s))
  | Unmatched => fire (HUnmatched m args) (take_ordinal s)
  | _ => fire HUnmocked (take_ordinal s)
  end.
Lemma unexpected_does f (b : bool) m args s :
  let s1 := fire (if b then HUnmatched m args else HUnmocked) s in
  let vs := if b then args else [] in
  let t := unexpected_says b m args in
  unexpected code digits name returns (call (S f)) b m args s =
  match snd (until vs) with
  | Some x => Def (after (fst (until vs)) s1, inr (XUser x))
  | None => if returns then Def (after vs (fail t (after vs s1)), inr (XReport t)) else Def (after vs s1, inr (XReport t))
  end.
Proof.
  cbv zeta. unfold unexpected, lift, pbind. cbn [obind].
  set (vs := if b then args else []). set (s1 := fire (if b then HUnmatched m args else HUnmocked) s).
  pose proof (fun s => prints_unexpected (ps_cleared s) f b m args s eq_refl) as P. fold vs in P.
  rewrite (P s1). cbn [obind].
  destruct (snd (until vs)) as [x|] eqn:U; [reflexivity|].
  rewrite (until_all _ U) in *. destruct returns; [|reflexivity]. cbn [obind].
  rewrite P. cbn [obind]. reflexivity.
Qed.
Lemma call_unexpected f m args s : (forall t, answers m args <> Returns t) -> (forall x, answers m args <> Raises x) ->
  let r := answers m args in
  let s1 := unexpected_from r m args s in
  let b := match r with Unmocked => false | _ => true end in
  let vs := if b then args else [] in
  let t := unexpected_says b m args in
  call (S (S f)) m args s =
  match snd (until vs) with
  | Some x => Def (after (fst (until vs)) s1, inr (XUser x))
  | None => if returns then Def (after vs (fail t (after vs s1)), inr (XReport t)) else Def (after vs s1, inr (XReport t))
  end.
Proof.
  intros NR NX. cbv zeta.
  change (call (S (S f)) m args s) with (call_body code digits answers name returns (call (S f)) m args s).
  unfold call_body. destruct (answers m args) as [t|x| | |].
  - destruct (NR t eq_refl).
  - destruct (NX x eq_refl).
  - exact (unexpected_does f true m args _).
  - exact (unexpected_does f true m args _).
  - exact (unexpected_does f false m args _).
Qed.

(** *** Verifications *)
Notation verify f := (verify_body code digits same name vreturns again (call f)).
Notation no_other f := (no_other_body code digits name vreturns again (call f)).

Lemma prints_sequence_text n f p t k cnt l :
  prints n (sequence_text code digits name (call (S f)) n p t k cnt l) (in_pattern p ++ in_list l)
    (fmt_sequence_event expr_text p t k cnt (list_text l)).
Proof.
  unfold sequence_text, fmt_sequence_event.
  assert (L : length (list_text l) = length l) by apply map_length. rewrite !L.
  apply (prints_bind n _ _ _ _ _ _ (prints_pattern n f p)).
  apply (prints_map n _ (fun b => ("Verification error" ++ newline ++ "Expected pattern: " ++ formatExpectedPattern expr_text p ++ newline ++
        "Expected matches: " ++ formatExpectedCount t k ++ newline ++
        "Actual matches  : " ++ show_Z cnt ++ newline ++
        "Actual sequence : total of " ++ show_Z (Z.of_nat (length l)) ++ " actual invocations" ++
        (if (length l =? 0)%nat then "." else ":" ++ newline) ++ b)%string)).
  apply prints_calls.
Qed.
Lemma report_does n f p t ws (m : PM string) : prints n m ws t ->
  let vs := ws ++ (if again then in_pattern p else []) in
  forall s, ps_cleared s = n ->
  (pbind m (fun text => report code digits name vreturns again (call (S f)) p text)) s =
  match snd (until vs) with
  | Some x => Def (after (fst (until vs)) s, inr (XUser x))
  | None => if vreturns then Def (fail t (after vs s), inl Fails) else Def (after vs s, inr (XReport t))
  end.
Proof.
  intros M vs s C. unfold report.
  assert (Q : prints n (if again then print_pattern code digits name (call (S f)) p else pret ""%string)
             (if again then in_pattern p else []) (if again then formatExpectedPattern expr_text p else ""%string)).
  { destruct again; [apply prints_pattern|apply prints_ret]. }
  pose proof (prints_bind n m (fun text => if again then print_pattern code digits name (call (S f)) p else pret ""%string) _ _ _ _ M Q s C) as E.
  fold vs in E. unfold pbind in E |- *. rewrite (M s C) in E |- *. cbn [obind] in E |- *.
  destruct (snd (until ws)) as [x|] eqn:U.
  - destruct (snd (until vs)) as [y|] eqn:W; [|discriminate E].
    set (a := after (fst (until ws)) s) in *. set (b := after (fst (until vs)) s) in *. clearbody a b. injection E as -> ->. reflexivity.
  - rewrite E. cbn [obind]. destruct (snd (until vs)) as [y|] eqn:W; [reflexivity|]. rewrite (until_all _ W).
    destruct vreturns; reflexivity.
Qed.
Definition misses (t : vtype) (n k : Z) : bool := match t with VtAtLeast => (n <? k)%Z | VtExact => negb (n =? k)%Z end.
Lemma verify_does f p t k s n matched :
  let l := by_ordinal (ps_calls s) in
  countMatches (fun e c => Def (expr_matches same e c)) p l = Def (n, matched) -> misses t n k = true ->
  let vs := (in_pattern p ++ in_list l) ++ (if again then in_pattern p else []) in
  let s1 := fire HSequence s in
  let text := fmt_sequence_event expr_text p t k n (list_text l) in
  verify (S f) false p t k s =
  match snd (until vs) with
  | Some x => Def (after (fst (until vs)) s1, inr (XUser x))
  | None => if vreturns then Def (fail text (after vs s1), inl Fails) else Def (after vs s1, inr (XReport text))
  end.
Proof.
  intros l E M vs s1 text. unfold verify_body. fold l. rewrite E. cbn [obind]. fold (misses t n k). rewrite M.
  exact (report_does (ps_cleared s) f p text _ _ (prints_sequence_text (ps_cleared s) f p t k n l) s1 eq_refl).
Qed.
Lemma no_other_does f s :
  let l := by_ordinal (filter (fun c => negb (pc_verified c)) (ps_calls s)) in
  l <> [] ->
  let s1 := fire HNoMore s in
  let vs := in_list l in
  let text := fmt_nomore_event (list_text l) in
  no_other (S f) false s =
  match snd (until vs) with
  | Some x => Def (after (fst (until vs)) s1, inr (XUser x))
  | None => if vreturns then Def (fail text (after vs s1), inl Fails) else Def (after vs s1, inr (XReport text))
  end.
Proof.
  intros l NE s1 vs text. unfold no_other_body. fold l. clearbody l. destruct l as [|c r]; [destruct (NE eq_refl)|].
  assert (M : prints (ps_cleared s) (pbind (print_calls code digits name (call (S f)) (ps_cleared s) (c :: r))
     (fun b => pret ("Verification error" ++ newline ++
              "Expected no more invocations!! but the following unverified invocations were found:" ++ newline ++ b)%string)) vs text).
  { apply (prints_map (ps_cleared s) _ (fun b => ("Verification error" ++ newline ++
              "Expected no more invocations!! but the following unverified invocations were found:" ++ newline ++ b)%string)).
    apply prints_calls. }
  pose proof (report_does (ps_cleared s) f [] text vs _ M s1 eq_refl) as R. cbv zeta in R.
  replace (vs ++ (if again then in_pattern [] else [])) with vs in R by (destruct again; cbn; rewrite app_nil_r; reflexivity).
  rewrite <- R. unfold pbind, lift, pret. cbn [obind]. fold s1.
  destruct (print_calls code digits name (call (S f)) (ps_cleared s) (c :: r) s1) as [[s2 [b|x]]| |]; reflexivity.
Qed.
End Calm.

(** ** Any printers that do not clear the history *)
Lemma ss_app (l1 l2 : list nat) n : StronglySorted lt l1 -> StronglySorted lt l2 ->
  Forall (fun a => a < n) l1 -> Forall (fun a => n <= a) l2 -> StronglySorted lt (l1 ++ l2).
Proof.
  induction l1 as [|a l1 IH]; intros S1 S2 F1 F2; [exact S2|]. apply StronglySorted_inv in S1. destruct S1 as (S1 & A).
  inversion F1 as [|? ? F11 F12]; subst. cbn. constructor; [auto|]. apply Forall_app. split; [exact A|].
  eapply Forall_impl; [|exact F2]. cbn. lia.
Qed.
Lemma grows_refl (s : pstate V) : grows s s.
Proof. exists []. rewrite app_nil_r. repeat split; auto. constructor. Qed.
Lemma grows_trans (s1 s2 s3 : pstate V) : grows s1 s2 -> grows s2 s3 -> grows s1 s3.
Proof.
  intros (m1 & A1 & B1 & C1 & D1 & E1) (m2 & A2 & B2 & C2 & D2 & E2).
  exists (m1 ++ m2). rewrite A2, A1, <- app_assoc, B2. repeat split; auto; [lia| |].
  - apply Forall_app. split; (eapply Forall_impl; [|eassumption]); cbn; intros c (H & K); split; auto; lia.
  - rewrite map_app. apply (ss_app _ _ (ps_next s2)); auto; apply Forall_map; (eapply Forall_impl; [|eassumption]); cbn; lia.
Qed.
Definition fine {A} (m : PM (V:=V) (X:=X) A) : Prop := forall s, match m s with Def (s', _) => grows s s' | UB => False | NoFuel => True end.
Definition fine_at {A} (n : nat) (m : PM (V:=V) (X:=X) A) : Prop :=
  forall s, ps_cleared s = n -> match m s with Def (s', _) => grows s s' | UB => False | NoFuel => True end.
Lemma fine_any {A} n (m : PM A) : fine m -> fine_at n m.
Proof. intros F s _. apply F. Qed.
Lemma at_ret {A} n (a : A) : fine_at n (pret a).
Proof. intros s _. apply grows_refl. Qed.
Lemma at_bind {A B} n (m : PM A) (g : A -> PM B) : fine_at n m -> (forall a, fine_at n (g a)) -> fine_at n (pbind m g).
Proof.
  intros M G s C. unfold pbind. specialize (M s C). destruct (m s) as [[s' [a|x]]| |]; cbn [obind]; auto.
  assert (C' : ps_cleared s' = n) by (destruct M as (? & _ & M & _); congruence).
  specialize (G a s' C'). destruct (g a s') as [[s2 r]| |]; auto. exact (grows_trans _ _ _ M G).
Qed.
Lemma at_lift n g : (forall s, ps_calls (g s) = ps_calls s /\ ps_cleared (g s) = ps_cleared s /\ ps_next (g s) = ps_next s) -> fine_at n (lift g).
Proof.
  intros H s _. cbn. destruct (H s) as (A & B & C). exists []. rewrite A, B, C, app_nil_r. repeat split; auto. constructor.
Qed.
Lemma fine_of {A} (m : PM A) : (forall n, fine_at n m) -> fine m.
Proof. intros H s. exact (H (ps_cleared s) s eq_refl). Qed.

Section Keeps.
Hypothesis KEEPS : forall h v, Forall keeps (code h v).

Section Inner.
Variable inner : nat -> list V -> PM (V:=V) (X:=X) string.
Hypothesis INNER : forall m args, fine (inner m args).

Lemma run_fine n acts : Forall keeps acts -> forall os, fine_at n (Printing.run digits inner acts os).
Proof.
  induction 1 as [|a r K _ IH]; intros os; [apply at_ret|].
  destruct a as [t|z|fl| |m args caught| |x]; cbn [Printing.run]; try apply IH.
  - intros s C. pose proof (INNER m args s) as I. destruct (inner m args s) as [[s' [t|x]]| |]; cbn [obind]; auto.
    + assert (C' : ps_cleared s' = n) by (destruct I as (? & _ & I & _); congruence).
      pose proof (IH (insert t os) s' C') as R. destruct (Printing.run digits inner r (insert t os) s') as [[s2 rr]| |]; auto.
      exact (grows_trans _ _ _ I R).
    + destruct caught; [|exact I].
      assert (C' : ps_cleared s' = n) by (destruct I as (? & _ & I & _); congruence).
      pose proof (IH os s' C') as R. destruct (Printing.run digits inner r os s') as [[s2 rr]| |]; auto.
      exact (grows_trans _ _ _ I R).
  - destruct K.
  - intros s _. apply grows_refl.
Qed.
Lemma value_fine n v : fine_at n (Printing.print_value code digits inner v).
Proof.
  intros s C. unfold Printing.print_value.
  assert (M : fine_at n (pbind (Printing.run digits inner (code (ps_printed s) v) new_stream) (fun os => pret (os_text os)))).
  { apply at_bind; [apply run_fine; apply KEEPS|intros; apply at_ret]. }
  exact (M (note_printed v s) C).
Qed.
Lemma alive_fine n since : since = None \/ since = Some n -> fine_at n (alive since).
Proof.
  intros H s C. destruct H as [-> | ->]; cbn; [apply grows_refl|]. rewrite C, Nat.eqb_refl. apply grows_refl.
Qed.
Ltac fin := repeat first [assumption | apply value_fine | apply at_ret | apply alive_fine; auto; fail
  | match goal with |- fine_at _ (pbind _ _) => apply at_bind; [|intros ?] end].
Lemma args_fine n since args : since = None \/ since = Some n -> fine_at n (print_args code digits inner since args).
Proof. intros H. induction args as [|v r IH]; cbn [print_args]; fin. Qed.
Lemma call_fine n since m args : since = None \/ since = Some n -> fine_at n (print_call code digits name inner since m args).
Proof. intros H. unfold print_call. fin. apply args_fine. exact H. Qed.
Lemma terms_fine n l : fine_at n (Printing.print_terms code digits inner l).
Proof. induction l as [|[v|] r IH]; cbn [Printing.print_terms]; fin. Qed.
Lemma sequence_fine n q : fine_at n (print_sequence code digits name inner q).
Proof.
  induction q as [e| |]; cbn [print_sequence]; fin. unfold print_expr. destruct (ex_terms e); fin. apply terms_fine.
Qed.
Lemma pattern_fine n p : fine_at n (print_pattern code digits name inner p).
Proof. induction p as [|q r IH]; cbn [print_pattern]; fin. apply sequence_fine. Qed.
Lemma list_fine n l : fine_at n (print_list code digits name inner n l).
Proof. induction l as [|c r IH]; cbn [print_list]; fin. apply call_fine. auto. Qed.
Lemma calls_fine n l : fine_at n (print_calls code digits name inner n l).
Proof. unfold print_calls. fin. apply list_fine. Qed.
Lemma untext_fine n b m args : fine_at n (unexpected_text code digits name inner b m args).
Proof. unfold unexpected_text. destruct b; fin. apply call_fine. auto. Qed.
Lemma throw_fine {A} n x : fine_at n (pthrow (A:=A) x).
Proof. intros s _. apply grows_refl. Qed.
Lemma unexpected_fine n b m args : fine_at n (unexpected code digits name returns inner b m args).
Proof.
  unfold unexpected. fin; [apply at_lift; auto|apply untext_fine|]. destruct returns; fin; try apply throw_fine; [apply at_lift; auto|apply untext_fine].
Qed.
Lemma report_fine n p t : fine_at n (report code digits name vreturns again inner p t).
Proof.
  unfold report. fin; [destruct again; [apply pattern_fine|apply at_ret]|]. destruct vreturns; fin; [apply at_lift; auto|apply throw_fine].
Qed.
Lemma takes (s : pstate V) : grows s (take_ordinal s).
Proof. exists []. rewrite app_nil_r. cbn. repeat split; auto. constructor. Qed.
Lemma records (s : pstate V) m args : grows s (record (mkPcall (ps_next s) m args false) (take_ordinal s)).
Proof. exists [mkPcall (ps_next s) m args false]. cbn. repeat split; auto; repeat constructor. Qed.
Lemma body_fine m args : fine (call_body code digits answers name returns inner m args).
Proof.
  intros s. unfold call_body. destruct (answers m args); cbn [pret pthrow]; try apply records.
  - pose proof (unexpected_fine _ true m args (record (mkPcall (ps_next s) m args false) (take_ordinal s)) eq_refl) as U.
    destruct (unexpected code digits name returns inner true m args _) as [[s' r]| |]; auto. exact (grows_trans _ _ _ (records s m args) U).
  - pose proof (unexpected_fine _ true m args (take_ordinal s) eq_refl) as U.
    destruct (unexpected code digits name returns inner true m args _) as [[s' r]| |]; auto. exact (grows_trans _ _ _ (takes s) U).
  - pose proof (unexpected_fine _ false m args (take_ordinal s) eq_refl) as U.
    destruct (unexpected code digits name returns inner false m args _) as [[s' r]| |]; auto. exact (grows_trans _ _ _ (takes s) U).
Qed.
End Inner.
Lemma calling_fine f : forall m args, fine (call f m args).
Proof. induction f as [|f IH]; intros m args; [intros s; exact Logic.I|]. apply body_fine. exact IH. Qed.

(** Statements. *)
Lemma extends_grows (s s' : pstate V) : grows s s' -> extends s s'.
Proof.
  intros (more & A & B & C & D & E). exists (ps_calls s), more. repeat split; auto.
  - clear. induction (ps_calls s); constructor; auto.
  - eapply Forall_impl; [|exact D]. cbn. tauto.
Qed.
Lemma extends_refl (s : pstate V) : extends s s.
Proof. apply extends_grows, grows_refl. Qed.
Lemma Forall2_tr {A} (R : A -> A -> Prop) (T : forall a b c, R a b -> R b c -> R a c) l1 l2 : Forall2 R l1 l2 ->
  forall l3, Forall2 R l2 l3 -> Forall2 R l1 l3.
Proof.
  induction 1 as [|a b l1 l2 H _ IH]; intros l3 F; inversion F; subst; constructor; eauto.
Qed.
Lemma extends_trans (s1 s2 s3 : pstate V) : extends s1 s2 -> extends s2 s3 -> extends s1 s3.
Proof.
  intros (o1 & m1 & A1 & B1 & C1 & D1 & E1 & F1) (o2 & m2 & A2 & B2 & C2 & D2 & E2 & F2).
  rewrite A1 in D2. apply Forall2_app_inv_l in D2. destruct D2 as (x & y & X1 & Y1 & ->).
  exists x, (y ++ m2). rewrite A2, <- app_assoc, B2. split; [reflexivity|]. split; [exact B1|]. split; [lia|].
  assert (YO : map pc_ord y = map pc_ord m1).
  { clear - Y1. induction Y1 as [|c d l1 l2 H _ IH]; cbn; [reflexivity|]. destruct H as (-> & _). rewrite IH. reflexivity. }
  split; [|split].
  - refine (Forall2_tr _ _ _ _ D1 _ X1). intros a b c (H1 & H2 & H3 & H4) (K1 & K2 & K3 & K4). repeat split; try congruence. auto.
  - apply Forall_app. split.
    + assert (Q : Forall (fun o => ps_next s1 <= o < ps_next s2) (map pc_ord y)) by (rewrite YO; apply Forall_map; exact E1).
      rewrite Forall_map in Q. eapply Forall_impl; [|exact Q]. cbn. lia.
    + eapply Forall_impl; [|exact E2]. cbn. lia.
  - rewrite map_app, YO. apply (ss_app _ _ (ps_next s2)); auto; apply Forall_map.
    + eapply Forall_impl; [|exact E1]. cbn. lia.
    + eapply Forall_impl; [|exact E2]. cbn. lia.
Qed.
Lemma mark_extends l (s : pstate V) : extends s (mark l s).
Proof.
  eexists _, []. rewrite app_nil_r. cbn. split; [reflexivity|]. repeat split; auto; [|constructor].
  induction (ps_calls s) as [|c r IH]; cbn; constructor; auto. destruct (existsb _ l); cbn; auto.
Qed.

Notation verify f := (verify_body code digits same name vreturns again (call f)).
Notation no_other f := (no_other_body code digits name vreturns again (call f)).
Lemma verify_safe f q p t k s n matched :
  countMatches (fun e c => Def (expr_matches same e c)) p (by_ordinal (ps_calls s)) = Def (n, matched) ->
  match verify f q p t k s with Def (s', _) => if misses t n k then grows s s' else s' = mark matched s | UB => False | NoFuel => True end.
Proof.
  intros E. unfold verify_body. rewrite E. cbn [obind]. fold (misses t n k). destruct (misses t n k); [|reflexivity].
  destruct q; [apply grows_refl|].
  match goal with |- context[pbind ?a ?b s] => assert (F : fine_at (ps_cleared s) (pbind a b)) end.
  { apply at_bind; [apply at_lift; auto|intros _]. apply at_bind.
    - unfold sequence_text. apply at_bind; [apply pattern_fine, calling_fine|intros a].
      apply at_bind; [apply calls_fine, calling_fine|intros b; apply at_ret].
    - intros text. apply report_fine. apply calling_fine. }
  exact (F s eq_refl).
Qed.
Lemma no_other_safe f q s : match no_other f q s with Def (s', _) => grows s s' | UB => False | NoFuel => True end.
Proof.
  unfold no_other_body. destruct (by_ordinal _) as [|c r] eqn:L; [apply grows_refl|]. destruct q; [apply grows_refl|].
  match goal with |- context[pbind ?a ?b s] => assert (F : fine_at (ps_cleared s) (pbind a b)) end.
  { apply at_bind; [apply at_lift; auto|intros _]. apply at_bind; [apply calls_fine, calling_fine|intros b].
    apply report_fine. apply calling_fine. }
  exact (F s eq_refl).
Qed.
Notation stmt := (stmt code digits answers same name returns vreturns again).
Notation stmts := (stmts code digits answers same name returns vreturns again).
Lemma stmt_extends f o s s' r : stmt f o s = Def (s', r) -> extends s s'.
Proof.
  destruct o as [m args|q p t k|q]; cbn [Printing.stmt]; intros H.
  - pose proof (calling_fine f m args s) as F. destruct (call f m args s) as [[s1 r1]| |]; cbn in H; try discriminate.
    injection H as <- _. apply extends_grows. exact F.
  - destruct (countMatches (fun e c => Def (expr_matches same e c)) p (by_ordinal (ps_calls s))) as [[n matched]| |] eqn:E.
    + pose proof (verify_safe f q p t k s n matched E) as F. destruct (verify f q p t k s) as [[s1 r1]| |]; cbn in H; try discriminate.
      injection H as <- _. destruct (misses t n k); [apply extends_grows; exact F|]. subst s1. apply mark_extends.
    + unfold verify_body in H. rewrite E in H. discriminate.
    + unfold verify_body in H. rewrite E in H. discriminate.
  - pose proof (no_other_safe f q s) as F. destruct (no_other f q s) as [[s1 r1]| |]; cbn in H; try discriminate.
    injection H as <- _. apply extends_grows. exact F.
Qed.
Lemma stmts_extend f l : forall s s' rs, stmts f l s = Def (s', rs) -> extends s s'.
Proof.
  induction l as [|o r IH]; cbn [Printing.stmts]; intros s s' rs H.
  - injection H as <- _. apply extends_refl.
  - destruct (stmt f o s) as [[s1 a]| |] eqn:E; cbn in H; try discriminate.
    destruct (stmts f r s1) as [[s2 b]| |] eqn:E2; cbn in H; try discriminate. injection H as <- _.
    exact (extends_trans _ _ _ (stmt_extends _ _ _ _ _ E) (IH _ _ _ E2)).
Qed.
End Keeps.

(** ** Calls are defined, whatever the printers do *)
Definition safe {A} (m : PM (V:=V) (X:=X) A) : Prop := forall s, m s <> UB.
Lemma safe_bind {A B} (m : PM A) (g : A -> PM B) : safe m -> (forall a, safe (g a)) -> safe (pbind m g).
Proof.
  intros M G s. unfold pbind. specialize (M s). destruct (m s) as [[s' [a|x]]| |]; cbn [obind]; try discriminate; [apply G|congruence].
Qed.
Lemma safe_ret {A} (a : A) : safe (pret a).
Proof. intros s. discriminate. Qed.
Section SafeInner.
Variable inner : nat -> list V -> PM (V:=V) (X:=X) string.
Hypothesis INNER : forall m args, safe (inner m args).
Lemma run_safe acts : forall os, safe (Printing.run digits inner acts os).
Proof.
  induction acts as [|a r IH]; intros os; [apply safe_ret|].
  destruct a as [t|z|fl| |m args caught| |x]; cbn [Printing.run]; try apply IH; intros s; try discriminate.
  - specialize (INNER m args s). destruct (inner m args s) as [[s' [t|x]]| |]; cbn [obind]; try discriminate; [apply IH| |congruence].
    destruct caught; [apply IH|discriminate].
  - apply IH.
Qed.
Lemma value_safe v : safe (Printing.print_value code digits inner v).
Proof.
  intros s. unfold Printing.print_value.
  exact (safe_bind _ (fun os => pret (os_text os)) (run_safe (code (ps_printed s) v) new_stream) (fun a => safe_ret _) (note_printed v s)).
Qed.
Lemma args_safe args : safe (print_args code digits inner None args).
Proof.
  induction args as [|v r IH]; cbn [print_args]; [apply safe_ret|].
  apply safe_bind; [intros s; discriminate|intros _]. apply safe_bind; [apply value_safe|intros t].
  apply safe_bind; [exact IH|intros; apply safe_ret].
Qed.
Lemma untext_safe b m args : safe (unexpected_text code digits name inner b m args).
Proof.
  unfold unexpected_text. destruct b; [|apply safe_ret]. apply safe_bind; [|intros; apply safe_ret]. unfold print_call.
  apply safe_bind; [intros s; discriminate|intros _]. apply safe_bind; [apply args_safe|intros; apply safe_ret].
Qed.
Lemma body_safe m args : safe (call_body code digits answers name returns inner m args).
Proof.
  assert (U : forall b, safe (unexpected code digits name returns inner b m args)).
  { intros b. unfold unexpected. apply safe_bind; [intros s; discriminate|intros _]. apply safe_bind; [apply untext_safe|intros t].
    destruct returns; [|intros s; discriminate]. apply safe_bind; [intros s; discriminate|intros _].
    apply safe_bind; [apply untext_safe|intros t' s; discriminate]. }
  intros s. unfold call_body. destruct (answers m args); try discriminate; apply U.
Qed.
End SafeInner.
Lemma calling_safe f : forall m args, safe (call f m args).
Proof. induction f as [|f IH]; intros m args; [intros s; discriminate|]. apply body_safe. exact IH. Qed.

(** ** Printers that do not go round in circles *)
Section Rank.
Variable rank : V -> nat.
Hypothesis RANK : forall h v m args caught, In (PrCall m args caught) (code h v) -> Forall (fun a => rank a < rank v) args.
Definition ends {A} (m : PM (V:=V) (X:=X) A) : Prop := forall s, m s <> NoFuel.
Lemma ends_bind {A B} (m : PM A) (g : A -> PM B) : ends m -> (forall a, ends (g a)) -> ends (pbind m g).
Proof.
  intros M G s. unfold pbind. specialize (M s). destruct (m s) as [[s' [a|x]]| |]; cbn [obind]; try discriminate; [apply G|congruence].
Qed.
Lemma ends_ret {A} (a : A) : ends (pret a).
Proof. intros s. discriminate. Qed.
Lemma ends_alive since : ends (alive since).
Proof. intros s. destruct since; cbn; [destruct (_ =? _); discriminate|discriminate]. Qed.
Section EndsInner.
Variable inner : nat -> list V -> PM (V:=V) (X:=X) string.
Variable f : nat.
Hypothesis INNER : forall m args, Forall (fun a => rank a < f) args -> ends (inner m args).
Lemma run_ends acts : (forall m args c, In (PrCall m args c) acts -> Forall (fun a => rank a < f) args) ->
  forall os, ends (Printing.run digits inner acts os).
Proof.
  induction acts as [|a r IH]; intros H os; [apply ends_ret|].
  assert (IH' : forall os, ends (Printing.run digits inner r os)) by (apply IH; intros m args c I; apply (H m args c); right; exact I).
  destruct a as [t|z|fl| |m args caught| |x]; cbn [Printing.run]; try apply IH'; intros s; try discriminate.
  - pose proof (INNER m args (H m args caught (or_introl eq_refl)) s) as I.
    destruct (inner m args s) as [[s' [t|x]]| |]; cbn [obind]; try discriminate; [apply IH'| |congruence].
    destruct caught; [apply IH'|discriminate].
  - apply IH'.
Qed.
Lemma value_ends v : rank v <= f -> ends (Printing.print_value code digits inner v).
Proof.
  intros R s. unfold Printing.print_value.
  refine (ends_bind _ (fun os => pret (os_text os)) (run_ends (code (ps_printed s) v) _ new_stream) (fun a => ends_ret _) (note_printed v s)).
  intros m args c I. eapply Forall_impl; [|exact (RANK _ _ _ _ _ I)]. cbn. lia.
Qed.
Lemma args_ends since args : Forall (fun a => rank a <= f) args -> ends (print_args code digits inner since args).
Proof.
  induction 1 as [|v r R _ IH]; cbn [print_args]; [apply ends_ret|].
  apply ends_bind; [apply ends_alive|intros _]. apply ends_bind; [apply value_ends; exact R|intros t].
  apply ends_bind; [exact IH|intros; apply ends_ret].
Qed.
Lemma pcall_ends since m args : Forall (fun a => rank a <= f) args -> ends (print_call code digits name inner since m args).
Proof.
  intros R. unfold print_call. apply ends_bind; [apply ends_alive|intros _]. apply ends_bind; [apply args_ends; exact R|intros; apply ends_ret].
Qed.
Lemma unexpected_ends b m args : Forall (fun a => rank a <= f) args -> ends (unexpected code digits name returns inner b m args).
Proof.
  intros R.
  assert (T : ends (unexpected_text code digits name inner b m args)).
  { unfold unexpected_text. destruct b; [|apply ends_ret]. apply ends_bind; [apply pcall_ends; exact R|intros; apply ends_ret]. }
  unfold unexpected. apply ends_bind; [intros s; discriminate|intros _]. apply ends_bind; [exact T|intros t].
  destruct returns; [|intros s; discriminate]. apply ends_bind; [intros s; discriminate|intros _].
  apply ends_bind; [exact T|intros t' s; discriminate].
Qed.
Lemma body_ends m args : Forall (fun a => rank a <= f) args -> ends (call_body code digits answers name returns inner m args).
Proof. intros R s. unfold call_body. destruct (answers m args); try discriminate; apply unexpected_ends; exact R. Qed.
Lemma pattern_ends p : Forall (fun a => rank a <= f) (in_pattern p) -> ends (print_pattern code digits name inner p).
Proof.
  assert (T : forall l, Forall (fun a => rank a <= f) (given l) -> ends (Printing.print_terms code digits inner l)).
  { induction l as [|[v|] r IH]; cbn [Printing.print_terms given]; intros R; [apply ends_ret| |].
    - inversion R as [|? ? R1 R2]; subst. apply ends_bind; [apply value_ends; exact R1|intros t]. apply ends_bind; [apply IH; exact R2|intros; apply ends_ret].
    - apply ends_bind; [apply IH; exact R|intros; apply ends_ret]. }
  assert (Q : forall q, Forall (fun a => rank a <= f) (in_sequence q) -> ends (print_sequence code digits name inner q)).
  { induction q as [e|l IHl r IHr|q IH k]; cbn [print_sequence in_sequence]; intros R.
    - unfold print_expr. unfold operands in R. destruct (ex_terms e); [|apply ends_ret]. apply ends_bind; [apply T; exact R|intros; apply ends_ret].
    - apply Forall_app in R. destruct R as (R1 & R2). apply ends_bind; [apply IHl; exact R1|intros a]. apply ends_bind; [apply IHr; exact R2|intros; apply ends_ret].
    - apply ends_bind; [apply IH; exact R|intros; apply ends_ret]. }
  unfold in_pattern. induction p as [|q r IH]; cbn [print_pattern flat_map]; intros R; [apply ends_ret|].
  apply Forall_app in R. destruct R as (R1 & R2). apply ends_bind; [apply Q; exact R1|intros a]. apply ends_bind; [apply IH; exact R2|intros; apply ends_ret].
Qed.
Lemma calls_ends n l : Forall (fun a => rank a <= f) (in_list l) -> ends (print_calls code digits name inner n l).
Proof.
  unfold in_list, print_calls. rewrite firstn_min. intros R. apply ends_bind; [|intros; apply ends_ret].
  induction (firstn 50 l) as [|c r IH]; cbn [print_list flat_map] in *; [apply ends_ret|].
  apply Forall_app in R. destruct R as (R1 & R2). apply ends_bind; [apply pcall_ends; exact R1|intros t].
  apply ends_bind; [apply IH; exact R2|intros; apply ends_ret].
Qed.
Lemma report_ends p t : Forall (fun a => rank a <= f) (in_pattern p) -> ends (report code digits name vreturns again inner p t).
Proof.
  intros R. unfold report. apply ends_bind; [destruct again; [apply pattern_ends; exact R|apply ends_ret]|intros _].
  destruct vreturns; [|intros s; discriminate]. apply ends_bind; [intros s; discriminate|intros; apply ends_ret].
Qed.
End EndsInner.
Lemma call_nothing f m : ends (call (S f) m []).
Proof.
  intros s. cbn [Printing.call]. unfold call_body. destruct (answers m []); try discriminate;
    unfold unexpected, unexpected_text, print_call, pbind, lift, pret, pthrow, alive; cbn [print_args obind]; destruct returns; discriminate.
Qed.
Lemma calling_ends f : forall m args, Forall (fun a => rank a < f) args -> ends (call (S f) m args).
Proof.
  induction f as [|f IH]; intros m args R.
  - destruct args as [|a r]; [apply call_nothing|]. inversion R; lia.
  - apply (body_ends (call (S f)) f IH). eapply Forall_impl; [|exact R]. cbn. lia.
Qed.
Notation verify f := (verify_body code digits same name vreturns again (call f)).
Notation no_other f := (no_other_body code digits name vreturns again (call f)).
Lemma verify_ends f q p t k s :
  Forall (fun a => rank a <= f) (in_pattern p ++ in_list (by_ordinal (ps_calls s))) ->
  countMatches (fun e c => Def (expr_matches same e c)) p (by_ordinal (ps_calls s)) <> NoFuel -> verify (S f) q p t k s <> NoFuel.
Proof.
  intros R N. apply Forall_app in R. destruct R as (R1 & R2). unfold verify_body.
  destruct (countMatches _ p (by_ordinal (ps_calls s))) as [[n matched]| |]; cbn [obind]; try congruence.
  fold (misses t n k). destruct (misses t n k); [|discriminate]. destruct q; [discriminate|].
  match goal with |- pbind ?a ?b s <> _ => assert (F : ends (pbind a b)) end; [|apply F].
  apply ends_bind; [intros s'; discriminate|intros _]. apply ends_bind.
  - unfold sequence_text. apply ends_bind; [apply (pattern_ends (call (S f)) f (calling_ends f)); exact R1|intros a].
    apply ends_bind; [apply (calls_ends (call (S f)) f (calling_ends f)); exact R2|intros; apply ends_ret].
  - intros text. apply (report_ends (call (S f)) f (calling_ends f)). exact R1.
Qed.
Lemma no_other_ends f q s :
  Forall (fun a => rank a <= f) (in_list (by_ordinal (filter (fun c => negb (pc_verified c)) (ps_calls s)))) ->
  no_other (S f) q s <> NoFuel.
Proof.
  intros R. unfold no_other_body. destruct (by_ordinal _) as [|c r]; [discriminate|]. destruct q; [discriminate|].
  match goal with |- pbind ?a ?b s <> _ => assert (F : ends (pbind a b)) end; [|apply F].
  apply ends_bind; [intros s'; discriminate|intros _]. apply ends_bind; [apply (calls_ends (call (S f)) f (calling_ends f)); exact R|intros b].
  apply (report_ends (call (S f)) f (calling_ends f)). constructor.
Qed.
End Rank.

(** ** A printer that calls the method with the value it is to print *)
Lemma forever m v : (forall h, exists caught r, code h v = PrCall m [v] caught :: r) -> answers m [v] = Unmatched ->
  forall f s, call f m [v] s = NoFuel.
Proof.
  intros H A f. induction f as [|f IH]; intros s; [reflexivity|]. cbn [Printing.call]. unfold call_body. rewrite A.
  unfold unexpected, unexpected_text, print_call, pbind, lift. cbn [obind print_args alive].
  unfold pbind, Printing.print_value, pbind. cbn [obind].
  unfold alive at 1. cbn [obind].
  match goal with |- context[code ?h v] => destruct (H h) as (caught & r & ->) end. cbn [Printing.run]. rewrite IH. reflexivity.
Qed.

(** ** Verifications that hold, or that are converted to bool, print nothing *)
End P.
Lemma nothing_printed {V X : Type} (code : list V -> V -> list (pract V X)) digits answers same name returns vreturns again f q p t k s n matched :
  countMatches (fun e c => Def (expr_matches same e c)) p (by_ordinal (ps_calls s)) = Def (n, matched) ->
  q = true \/ misses t n k = false ->
  stmt code digits answers same name returns vreturns again f (SVerify q p t k) s =
  Def (if misses t n k then s else mark matched s, RVerdict (if misses t n k then Fails else Holds)).
Proof.
  intros E H. cbn [stmt]. unfold verify_body. rewrite E. cbn [obind]. fold (misses t n k).
  destruct (misses t n k); [|reflexivity]. destruct H as [-> |H]; [reflexivity|discriminate].
Qed.
Lemma nothing_printed_other {V X : Type} (code : list V -> V -> list (pract V X)) digits answers same name returns vreturns again f q s :
  q = true \/ forallb pc_verified (ps_calls s) = true ->
  stmt code digits answers same name returns vreturns again f (SNoOther q) s =
  Def (s, RVerdict (if forallb pc_verified (ps_calls s) then Holds else Fails)).
Proof.
  intros H. cbn [stmt]. unfold no_other_body.
  assert (I : forall (l : list (pcall V)), by_ordinal l = [] <-> l = []).
  { intros l. unfold by_ordinal. destruct l as [|c r]; [split; auto|]. cbn. split; [|discriminate].
    destruct (fold_right insert_call [] r) as [|d z]; cbn; [discriminate|].
    match goal with |- context[if ?b then _ else _] => destruct b end; discriminate. }
  assert (F : filter (fun c => negb (pc_verified c)) (ps_calls s) = [] <-> forallb pc_verified (ps_calls s) = true).
  { clear H. induction (ps_calls s) as [|c r IH]; cbn; [split; auto|]. destruct (pc_verified c); cbn; [exact IH|]. split; discriminate. }
  destruct (by_ordinal _) as [|c r] eqn:L.
  - apply (proj1 (I _)) in L. apply F in L. rewrite L. reflexivity.
  - destruct (forallb pc_verified (ps_calls s)) eqn:B.
    + assert (Z : by_ordinal (filter (fun c => negb (pc_verified c)) (ps_calls s)) = []) by (apply I, F; reflexivity).
      rewrite L in Z. discriminate.
    + destruct H as [-> |H]; [reflexivity|discriminate].
Qed.

(** ** What is read, and what changes *)
From Coq Require Import Permutation Sorted.
Section Reading.
Context {V : Type}.
Notation pcall := (pcall V).

Lemma insert_sorted (c : pcall) l :
  Sorted (fun a b => pc_ord a <= pc_ord b) l ->
  Permutation (insert_call c l) (c :: l) /\ Sorted (fun a b => pc_ord a <= pc_ord b) (insert_call c l).
Proof.
  induction l as [|d r IH]; cbn [insert_call]; intros H; [split; auto|].
  destruct (pc_ord c <? pc_ord d) eqn:E.
  - apply Nat.ltb_lt in E. split; [reflexivity|]. constructor; [exact H|]. constructor. lia.
  - apply Nat.ltb_ge in E. inversion H as [|d' r' S1 H1]; subst. destruct (IH S1) as [P Q]. split.
    + rewrite P. apply perm_swap.
    + constructor; [exact Q|]. destruct r as [|e z]; cbn [insert_call]; [constructor; exact E|].
      destruct (pc_ord c <? pc_ord e); constructor; [exact E|]. inversion H1; assumption.
Qed.
Lemma by_ordinal_sorted (l : list pcall) :
  Permutation (by_ordinal l) l /\ StronglySorted (fun a b => pc_ord a <= pc_ord b) (by_ordinal l).
Proof.
  assert (G : Permutation (by_ordinal l) l /\ Sorted (fun a b => pc_ord a <= pc_ord b) (by_ordinal l)).
  { unfold by_ordinal. induction l as [|c r [P Q]]; cbn [fold_right]; [split; constructor|].
    destruct (insert_sorted c _ Q) as [P' Q']. split; [|exact Q']. rewrite P'. constructor. exact P. }
  destruct G as [P Q]. split; [exact P|]. apply Sorted_StronglySorted; [|exact Q]. intros a b c H1 H2. lia.
Qed.

Lemma terms_match_iff (same : V -> V -> bool) ts args :
  terms_match same ts args = true <-> Forall2 (fun t v => forall w, t = Some w -> same w v = true) ts args.
Proof.
  revert args. induction ts as [|t r IH]; intros [|v a]; cbn [terms_match].
  - split; auto.
  - split; [discriminate|]. intros H; inversion H.
  - destruct t; split; try discriminate; intros H; inversion H.
  - destruct t as [w|].
    + rewrite andb_true_iff, IH. split.
      * intros [A B]. constructor; [|exact B]. intros w' E. injection E as <-. exact A.
      * intros H. inversion H as [|? ? ? ? A B]; subst. split; [apply A; reflexivity|exact B].
    + rewrite IH. split.
      * intros B. constructor; [discriminate|exact B].
      * intros H. inversion H; assumption.
Qed.
Lemma expr_matches_iff (same : V -> V -> bool) e (c : pcall) :
  expr_matches same e c = true <->
  pc_method c = ex_method e /\
  forall ts, ex_terms e = Some ts -> Forall2 (fun t v => forall w, t = Some w -> same w v = true) ts (pc_args c).
Proof.
  unfold expr_matches. rewrite andb_true_iff, Nat.eqb_eq. destruct (ex_terms e) as [ts|].
  - rewrite terms_match_iff. split; intros [A B]; (split; [exact A|]); [intros ts' E; injection E as <-; exact B|apply B; reflexivity].
  - split; intros [A B]; (split; [exact A|]); [discriminate|reflexivity].
Qed.

Lemma mark_calls l (s : pstate V) :
  Forall2 (fun c d => (pc_ord d, pc_method d, pc_args d) = (pc_ord c, pc_method c, pc_args c) /\
                      (pc_verified d = true <-> pc_verified c = true \/ exists x, In x l /\ pc_ord x = pc_ord c))
          (ps_calls s) (ps_calls (mark l s)).
Proof.
  unfold mark. cbn [ps_calls]. induction (ps_calls s) as [|c r IH]; cbn [map]; constructor; [|exact IH].
  destruct (existsb _ l) eqn:E.
  - apply existsb_exists in E. destruct E as (x & A & B). apply Nat.eqb_eq in B. split; [reflexivity|]. cbn. split; [|reflexivity].
    intros _. right. exists x. split; assumption.
  - split; [reflexivity|]. split; [intros H; left; exact H|]. intros [H|(x & A & B)]; [exact H|].
    assert (F : existsb (fun d => pc_ord d =? pc_ord c) l = true) by (apply existsb_exists; exists x; split; [exact A|apply Nat.eqb_eq, B]).
    congruence.
Qed.
End Reading.
