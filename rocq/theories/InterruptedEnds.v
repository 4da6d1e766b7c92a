(** What interrupted verifications come to: the outcomes, what they leave behind, and whole tests. *)
From Coq Require Import Bool Arith ZArith Lia Permutation List.
From Verif Require Import Base OutOfMemory Expectation Interrupted Spec_Match Spec_OutOfMemory Spec_Interrupted OutOfMemoryProofs InterruptedProofs InterruptedStmts.
Import ListNotations.
Open Scope nat_scope.

(** * No other invocations *)
Section Other.
Variable fails : nat -> bool.

Lemma tri_filled : forall l R e b, there R l -> tri (st R e b) (fill fails l) (fun _ => st R e b) (fun y s => y = OutOfMemory /\ st R e b s).
Proof.
  intros l R e b T. eapply tri_weak; [apply (tri_fill fails (mkCheck [] [] (fun _ _ => None)) [] l R e b T l (incl_refl l)) | auto | auto |].
  cbn beta. intros y s [[->|(-> & m & i & M & _)] K]; [auto|]. cbn in M. lia.
Qed.

Lemma tri_unverified : forall l R e b, there R l ->
  tri (st R e b) (unverified fails l) (fun u s => (forall i, In i u <-> In i l /\ In (i, ACall false) R) /\ st R e b s) (fun y s => y = OutOfMemory /\ st R e b s).
Proof.
  induction l as [|i l IH]; intros R e b T; cbn [unverified].
  - apply tri_ret. intros s K. split; [cbn; tauto | exact K].
  - eapply tri_bind; [apply (tri_read (i :: l) R e b T); now left|]. intros v; cbn beta.
    intros s [V K]. revert s K.
    eapply tri_bind with (Q := fun _ => st R e b).
    { destruct v; [apply tri_ret; auto | apply tri_try]. }
    next. eapply tri_bind; [apply IH; intros j J; apply T; now right|]. intros u; cbn beta.
    intros s [U K]. cbn. split; [|exact K]. intros j. destruct v; cbn [In]; rewrite U.
    + split; [tauto|]. intros [[<-|J] W]; [|auto]. assert (F := st_one _ _ _ _ _ _ _ K V W). discriminate F.
    + split; [intros [<-|J]; tauto | tauto].
Qed.

Definition all_seen (R : objs_of) (act : list nat) : Prop := forall i, In i act -> In (i, ACall true) R.
Definition one_new (R : objs_of) (act : list nat) : Prop := exists i, In i act /\ In (i, ACall false) R.

Lemma tri_other_now : forall soft x d R e b, there R (calls b) ->
  tri (st ((x, AOther d) :: R) e b) (other_now fails soft x)
    (fun v s => ((d = true /\ v = true) \/ (d = false /\ (v = true /\ all_seen R (calls b) \/ v = false /\ soft = true /\ one_new R (calls b)))) /\
       st ((x, AOther true) :: R) e b s)
    (fun y s => (d = false /\ (y = OutOfMemory \/ y = Failed /\ soft = false /\ one_new R (calls b))) /\ st ((x, AOther true) :: R) e b s).
Proof.
  intros soft x d R e b T. unfold other_now.
  eapply tri_bind; [eapply tri_exn; [apply (tri_peek _ _ _ x (AOther d)); now left | contradiction]|].
  intros t. apply tri_prop. intros ->. destruct d; [apply tri_ret; auto|].
  eapply tri_bind; [eapply tri_exn; [apply tri_put | contradiction]|]. next.
  set (R1 := (x, AOther true) :: R).
  assert (T1 : there R1 (calls b)) by (intros i I; destruct (T i I) as [v V]; exists v; now right).
  assert (OOM : forall y s, y = OutOfMemory /\ st R1 e b s ->
    (false = false /\ (y = OutOfMemory \/ y = Failed /\ soft = false /\ one_new R (calls b))) /\ st R1 e b s) by (intros y s [-> K]; auto).
  eapply tri_bind with (Q := fun l s => l = calls b /\ st R1 e b s).
  { intros s K. cbn. split; auto. unfold calls. now rewrite (proj2 (proj2 K)). }
  intros l. apply tri_prop. intros ->.
  eapply tri_bind; [eapply tri_exn; [now apply tri_filled | exact OOM]|]. next.
  eapply tri_bind; [eapply tri_exn; [now apply tri_unverified | exact OOM]|]. intros u; cbn beta. apply tri_prop; intros U.
  assert (IN : forall i v, In (i, ACall v) R1 -> In (i, ACall v) R) by (intros i v [F|I]; [discriminate F | exact I]).
  destruct u as [|j u].
  - apply tri_ret. intros s K. split; [|exact K]. right. split; auto. left. split; auto. intros i I. destruct (T i I) as [[|] V]; auto.
    assert (F : In i []) by (apply U; split; auto; now right). contradiction.
  - assert (ON : one_new R (calls b)) by (destruct (proj1 (U j)) as [A B]; [now left | exists j; auto]).
    assert (TU : there R1 (j :: u)) by (intros i I; apply U in I as [_ I]; eauto).
    do 2 (eapply tri_bind; [eapply tri_exn; [now apply tri_filled | exact OOM]|]; next).
    do 2 (eapply tri_bind; [eapply tri_exn; [now apply tri_filled | exact OOM]|]; next).
    eapply tri_bind; [eapply tri_exn; [apply tri_try | exact OOM]|]. next. destruct soft.
    + apply tri_ret. intros s K. split; [|exact K]. right. split; auto.
    + intros s K. cbn. split; [|exact K]. split; auto.
Qed.

Lemma tri_open_other : forall R e b,
  tri (st R e b) (open_other fails) (fun x s => st ((x, AOther false) :: R) e b s)
    (fun y s => y = OutOfMemory /\ exists J, st (J ++ R) e b s).
Proof.
  intros R e b. unfold open_other.
  assert (NONE : forall y s, y = OutOfMemory /\ st R e b s -> y = OutOfMemory /\ exists J, st (J ++ R) e b s).
  { intros y s [-> K]. split; auto. now exists []. }
  eapply tri_bind; [eapply tri_exn; [apply tri_try | exact NONE]|]. next.
  eapply tri_bind; [eapply tri_exn; [apply tri_new | exact NONE]|]. intros x; cbn beta.
  eapply tri_bind with (Q := fun _ => st ((x, AOther false) :: R) e b).
  - eapply tri_exn; [|exact NONE]. eapply tri_guard with (Y := fun y s => y = OutOfMemory /\ st ((x, AOther false) :: R) e b s).
    + eapply tri_bind; [apply tri_try|]. next. apply tri_try.
    + intros y. apply tri_prop. intros ->. eapply tri_weak; [apply tri_free | intros s K; exact K | | contradiction]. cbn beta. auto.
  - next. eapply tri_bind; [eapply tri_exn; [apply tri_try|]|].
    + cbn beta. intros y s [-> K]. split; auto. exists [(x, AOther false)]. exact K.
    + next. apply tri_ret. auto.
Qed.

Lemma tri_del_other : forall x d R e b, tri (st ((x, AOther d) :: R) e b) (del x) (fun _ => st R e b) (fun _ _ => False).
Proof. intros. eapply (tri_del x [(x, AOther d)]); [exact (tree_leaf 2 x (AOther d) eq_refl) | apply Permutation_refl]. Qed.

Lemma tri_rest_other : forall soft x W e b, there W (calls b) ->
  tri (st ((x, AOther false) :: W) e b) (rest_of_other fails soft x)
    (fun v s => (v = true /\ all_seen W (calls b) \/ v = false /\ soft = true /\ one_new W (calls b)) /\ st W e b s)
    (fun y s => (y = OutOfMemory \/ y = Failed /\ soft = false /\ one_new W (calls b)) /\ st W e b s).
Proof.
  intros soft x W e b T. unfold rest_of_other.
  eapply tri_bind with (Q := fun v s => exists d : bool, (if d then v = true /\ all_seen W (calls b) \/ v = false /\ soft = true /\ one_new W (calls b) else v = true /\ soft = false) /\
      st ((x, AOther d) :: W) e b s).
  - eapply tri_guard with (Y := fun y s => exists d, (y = OutOfMemory \/ y = Failed /\ soft = false /\ one_new W (calls b)) /\ st ((x, AOther d) :: W) e b s).
    + destruct soft.
      * eapply tri_weak; [apply (tri_other_now true x false W e b T) | intros s K; exact K | |]; cbn beta.
        -- intros v s [[(F & _)|(_ & V)] K]; [discriminate F|]. exists true. auto.
        -- intros y s [(_ & Y) K]. exists true. auto.
      * apply tri_ret. intros s K. exists false. auto.
    + intros y. apply tri_ex; intros d. apply tri_prop; intros Y.
      eapply tri_weak; [apply tri_del_other | intros s K; exact K | | contradiction]. cbn beta. auto.
  - intros v; cbn beta. apply tri_ex; intros d. apply tri_prop; intros V.
    eapply tri_bind.
    { eapply tri_guard; [apply (tri_other_now false x d W e b T)|]. intros y. apply tri_prop. intros [D Y].
      eapply tri_weak; [apply tri_del_other | intros s K; exact K | | contradiction]. cbn beta. intros _ s K. split; [|exact K].
      subst d. destruct V as [_ V]. rewrite V. exact Y. }
    intros v2; cbn beta. apply tri_prop; intros V2.
    eapply tri_bind; [eapply tri_exn; [apply tri_del_other | contradiction]|]. next.
    apply tri_ret. intros s K. split; [|exact K]. destruct d.
    + exact V.
    + destruct V as [-> _]. destruct V2 as [(F & _)|(_ & [(_ & V2)|(_ & F & _)])]; [discriminate F | auto | discriminate F].
Qed.

Lemma tri_no_other : forall args soft R e b, there R (calls b) ->
  tri (st R e b) (no_other fails args soft)
    (fun v s => exists Lb b' e' R', bodied b e Lb b' e' /\
       ((v = true /\ all_seen R (calls b) \/ v = false /\ soft = true /\ one_new R (calls b)) /\ R' = Lb ++ R) /\ st R' e' b' s)
    (fun y s => exists Lb b' e' R', bodied b e Lb b' e' /\
       (near_end R Lb y R' \/ (R' = Lb ++ R /\ y = Failed /\ soft = false /\ one_new R (calls b))) /\ st R' e' b' s).
Proof.
  intros args soft R e b T. unfold no_other.
  apply (tri_with fails _ [args] [] _ R e b
    (fun Lb v R' => (v = true /\ all_seen R (calls b) \/ v = false /\ soft = true /\ one_new R (calls b)) /\ R' = Lb ++ R)
    (fun Lb y R' => near_end R Lb y R' \/ (R' = Lb ++ R /\ y = Failed /\ soft = false /\ one_new R (calls b)))).
  2: { intros J Lb b' e' B. left. split; eauto. }
  intros xs OX Lb b' e' LX EX B. cbn [app].
  destruct (frame R e b xs OX Lb b' e' T EX B) as (CB & TW & _ & _).
  eapply tri_bind; [eapply tri_exn; [apply tri_open_other|]|].
  { cbn beta. intros y s [-> [J K]]. exists (J ++ Lb ++ R). split; [left; split; eauto|]. eapply st_perm; [|exact K]. perm. }
  intros x; cbn beta. intros s K0.
  assert (UP : forall v i, In i (calls b) -> In (i, ACall v) (OX ++ Lb ++ R) -> In (i, ACall v) R).
  { intros v i I V. destruct (T i I) as [v' V'].
    assert (E : ACall v = ACall v') by (eapply (st_one _ _ _ _ i _ _ K0); right; [exact V | apply in_or_app; right; apply in_or_app; now right]).
    now rewrite E. }
  assert (ON : one_new (OX ++ Lb ++ R) (calls b') -> one_new R (calls b)) by (rewrite CB; intros (i & I & V); exists i; auto).
  revert s K0.
  eapply tri_weak; [apply (tri_rest_other soft x _ e' b' TW) | intros s K; exact K | |]; cbn beta.
  - intros v s [V K]. exists (Lb ++ R). split; [|exact K]. split; auto.
    destruct V as [(V & A)|(V & SF & O)]; [left | right; auto]. split; auto. rewrite CB in A. intros i I. auto.
  - intros y s [[->|(-> & SF & O)] K]; exists (Lb ++ R); (split; [|exact K]).
    + left. split; auto. now exists [].
    + right. auto.
Qed.
End Other.

(** * What is left behind *)
Definition mute {A} (m : AM A) : Prop := forall s, match m s with AExn _ _ => False | _ => True end.
Lemma mute_bind : forall A B (m : AM A) (k : A -> AM B), mute m -> (forall a, mute (k a)) -> mute (abind m k).
Proof. intros A B m k M K s. specialize (M s). unfold abind. destruct (m s); auto. apply K. Qed.
Lemma mute_free : forall i, mute (free i).
Proof. intros i s. unfold free, abind, peek. destruct (nth_error (st_heap s) i) as [[]|]; exact Logic.I. Qed.
Lemma mute_peek : forall i, mute (peek i).
Proof. intros i s. unfold peek. destruct (nth_error (st_heap s) i) as [[]|]; exact Logic.I. Qed.
Lemma mute_delete : forall d i, mute (delete d i).
Proof.
  induction d as [|d IH]; intros i; cbn [delete]; [intros s; exact Logic.I|].
  apply mute_bind; [apply mute_peek|]. intros t. apply mute_bind; [apply mute_free|]. intros _.
  induction (children t) as [|c l IL]; cbn [each]; [intros s; exact Logic.I|]. apply mute_bind; auto.
Qed.
Lemma mute_destroy : forall c x, mute (destroy c x).
Proof.
  intros c x. unfold destroy. apply mute_bind; [apply mute_delete|]. intros _. apply mute_bind; [|intros _; apply mute_free].
  destruct c; [intros s; exact Logic.I|]. apply mute_bind; [apply mute_delete|]. intros _. apply mute_delete.
Qed.

Definition relabel {A} (m : AM A) : AM A := fun s => match m s with AExn s' _ => AExn s' Unexpected | r => r end.
Lemma with_made : forall fails A B (k1 : AM A) (k2 : list expr -> A -> AM B) es made s s1 x1,
  with_exprs fails es made (fun _ => k1) s = AVal s1 x1 ->
  forall s' y, with_exprs fails es made (fun xs => do! x := k1 in k2 xs x) s = AExn s' y ->
  with_exprs fails es made (fun xs => do! x := k1 in relabel (k2 xs x)) s = AExn s' Unexpected.
Proof.
  intros fails A B k1 k2. induction es as [|args es IH]; intros made s s1 x1 E1 s' y E2; cbn [with_exprs] in *.
  - unfold abind in *. rewrite E1 in *. unfold relabel. now rewrite E2.
  - unfold abind in E1 at 1. unfold abind in E2 at 1. unfold abind at 1. destruct (method_expr fails s) as [s2 x| | |]; try discriminate E1.
    unfold abind in E1 at 1. unfold abind in E2 at 1. unfold abind at 1.
    destruct (aguard (use fails args x) (destroy false x) s2) as [s3 z| | |]; try discriminate E1.
    unfold abind in E1 at 1. unfold abind in E2 at 1. unfold abind at 1.
    unfold aguard in E1 at 1. destruct (with_exprs fails es (made ++ [z]) (fun _ => k1) s3) as [s4 a4|s4 e4| |] eqn:W1; try discriminate E1.
    2: { destruct (destroy false z s4); discriminate E1. }
    unfold aguard in E2 at 1. unfold aguard at 1.
    destruct (with_exprs fails es (made ++ [z]) (fun xs => do! x := k1 in k2 xs x) s3) as [s5 a5|s5 e5| |] eqn:W2; try discriminate E2.
    + exfalso. unfold abind in E2. assert (D := mute_destroy false z s5). destruct (destroy false z s5); try discriminate E2; auto.
    + rewrite (IH _ _ _ _ W1 _ _ W2). assert (D := mute_destroy false z s5). destruct (destroy false z s5); try discriminate E2.
      inversion E2; subst. reflexivity.
Qed.

Lemma tri_relabel : forall A P (m : AM A) Q X, tri P m Q X -> tri P (relabel m) Q (fun _ s => exists y, X y s).
Proof. intros A P m Q X T s K. specialize (T s K). unfold relabel. destruct (m s); eauto. Qed.

(** * Outcomes *)
Definition ended (J' : objs_of) (M : list nat) (s s' : state) : Prop :=
  exists Lb b' e', bodied (st_body s) (st_entry s) Lb b' e' /\ st (J' ++ Lb ++ map (mark M) (objects s)) e' b' s'.

Lemma ended_near : forall J s s', ended J [] s s' -> near (st_body s) (st_entry s) (objects s) s'.
Proof. intros J s s' (Lb & b' & e' & B & K). rewrite mark_nil in K. exists J, Lb, b', e'. auto. Qed.
Lemma ended_snug : forall s s', ended [] [] s s' -> snug (st_body s) (st_entry s) (objects s) s'.
Proof. intros s s' (Lb & b' & e' & B & K). rewrite mark_nil in K. exists Lb, b', e'. auto. Qed.
Lemma ended_kept : forall J s s', ended J [] s s' -> kept s s'.
Proof. intros J s s' E. eapply near_kept, ended_near; eauto. Qed.
Lemma ended_nothing : forall s s', ended [] [] s s' -> nothing s s'.
Proof. intros s s' E. now apply snug_tidy, ended_snug. Qed.
Lemma ended_marked : forall M s s', ended [] M s s' -> marked M s s'.
Proof.
  intros M s s' (Lb & b' & e' & B & [P [_ Q]]). subst b'. cbn [app] in P. split; [|split].
  - now rewrite (first_mention_bodied _ _ _ _ B).
  - unfold answers. inversion B as [E|N E|i N]; subst; try rewrite N; auto; congruence.
  - unfold history. inversion B as [E|N E|i N]; subst; try rewrite N; auto; congruence.
Qed.

Lemma history_calls : forall s, history s = calls (st_body s).
Proof. reflexivity. Qed.
Lemma counted_found : forall ck s n M, counted ck (calls (st_body s)) 0 0 [] (n, M) -> found ck s n M.
Proof. intros ck s n M C acc F. exact (C acc F). Qed.
Lemma found_counted : forall ck s n M, found ck s n M -> counted ck (calls (st_body s)) 0 0 [] (n, M).
Proof. intros ck s n M C acc F. exact (C acc F). Qed.

Section Outcomes.
Variable fails : nat -> bool.
Variable ck : check.
Hypothesis WR : written ck.

(** What a statement that verifies comes to. *)
Lemma verify_outcome : forall q soft s, calls_there s ->
  match verify fails ck q soft s with
  | AVal s' v => ~ refused q /\ exists n M, found ck s n M /\
      ((meets q n /\ v = true /\ ended [] M s s') \/ (~ meets q n /\ v = false /\ soft = true /\ ended [] [] s s'))
  | AExn s' y => (y = OutOfMemory /\ exists J, ended J [] s s') \/
      (ended [] [] s s' /\ (y = UserError /\ may_throw ck s \/ y = Invalid /\ refused q \/
        y = Failed /\ soft = false /\ exists n M, found ck s n M /\ ~ meets q n))
  | _ => False
  end.
Proof.
  intros q soft s CT.
  assert (K := tri_verify fails ck WR q soft (objects s) (st_entry s) (st_body s) CT s (st_here s)).
  destruct (verify fails ck q soft s) as [s' v|s' y| |]; try contradiction.
  - destruct K as (Lb & b' & e' & R' & B & (NR & n & M & C & D) & S').
    split; auto. exists n, M. split; [now apply counted_found|].
    destruct D as [(E & V & ->) | (E & V & SF & ->)].
    + left. split; [exact E|]. split; [exact V|]. exists Lb, b', e'. auto.
    + right. split; [exact E|]. split; [exact V|]. split; [exact SF|]. exists Lb, b', e'. rewrite mark_nil. auto.
  - destruct K as (Lb & b' & e' & R' & B & D & S'). destruct D as [(-> & J & ->) | (-> & Y)].
    + left. split; auto. exists J, Lb, b', e'. rewrite mark_nil. auto.
    + right. split; [exists Lb, b', e'; rewrite mark_nil; auto|].
      destruct Y as [Y|[Y|(Y & SF & n & M & C & E)]]; auto. right. right. split; auto. split; auto. exists n, M. split; [now apply counted_found | assumption].
Qed.

Lemma verify_tidy : forall q soft s s0 x s' y, calls_there s ->
  opened fails ck s = AVal s0 x -> verify fails ck q soft s = AExn s' y -> nothing s s'.
Proof.
  intros q soft s s0 x s' y CT O V.
  assert (L := with_made fails _ _ (open_check fails) (rest_of fails ck q soft) (ck_exprs ck) [] s s0 x O s' y V).
  assert (K : tri (st (objects s) (st_entry s) (st_body s))
    (with_exprs fails (ck_exprs ck) [] (fun xs => do! x := open_check fails in relabel (rest_of fails ck q soft xs x)))
    (fun _ _ => True)
    (fun y s1 => exists Lb b' e' R', bodied (st_body s) (st_entry s) Lb b' e' /\ (y = OutOfMemory \/ R' = Lb ++ objects s) /\ st R' e' b' s1)).
  { eapply tri_weak; [apply (tri_with fails _ (ck_exprs ck) [] _ (objects s) (st_entry s) (st_body s)
      (fun _ _ _ => True) (fun Lb y R' => y = OutOfMemory \/ R' = Lb ++ objects s)) | intros s1 K; exact K | auto | intros z s1 K; exact K].
    2: { intros J Lb b' e' B. now left. }
    intros xs OX Lb b' e' LX EX B. cbn [app]. destruct (frame (objects s) _ (st_body s) xs OX Lb b' e' CT EX B) as (CB & TW & HW & MW).
    eapply tri_bind; [eapply tri_exn; [apply tri_open|]|].
    { cbn beta. intros z s1 [-> [J K]]. exists (J ++ Lb ++ objects s). split; auto. eapply st_perm; [|exact K]. perm. }
    intros z; cbn beta. apply tri_ex; intros g.
    eapply tri_weak; [eapply tri_relabel; apply (tri_rest_of fails ck WR q soft xs z g _ e' b' LX TW HW) | intros s1 K; exact K | |]; cbn beta.
    - intros v s1 (_ & n & M & _ & [(_ & _ & K) | (_ & _ & _ & K)]).
      + rewrite MW in K. exists (Lb ++ map (mark M) (objects s)). auto.
      + exists (Lb ++ objects s). auto.
    - intros w0 s1 (w & _ & K). exists (Lb ++ objects s). auto. }
  specialize (K s (st_here s)). rewrite L in K. destruct K as (Lb & b' & e' & R' & B & [F| ->] & S'); [discriminate F|].
  apply snug_tidy. exists Lb, b', e'. auto.
Qed.

Definition told (pre : list step) (s s' : state) (r : reply) : Prop :=
  match r with
  | Said true => exists n M, found ck s n M /\ wanted pre n /\ ended [] M s s'
  | Said false => (exists n M, found ck s n M /\ ~ wanted pre n) /\ ended [] [] s s'
  | Threw y => (y = OutOfMemory \/ y = UserError /\ may_throw ck s) /\ ended [] [] s s'
  | Fine => False
  end.

Lemma keep_outcome : forall pre post s, ~ In SBool pre -> calls_there s ->
  match keep fails ck (pre ++ SBool :: post) s with
  | AVal s' rs => exists rs1 r rs2, rs = rs1 ++ r :: rs2 /\ length rs1 = length pre /\ length rs2 = length post /\
      (forall j, nth_error post j = Some SBool -> nth_error rs2 j = Some (Said true)) /\ told pre s s' r
  | AExn s' y => y = OutOfMemory /\ exists J, ended J [] s s'
  | _ => False
  end.
Proof.
  intros pre post s NB CT.
  assert (K := tri_keep_asked fails ck WR pre post (objects s) (st_entry s) (st_body s) NB CT s (st_here s)).
  destruct (keep fails ck (pre ++ SBool :: post) s) as [s' rs|s' y| |]; try contradiction.
  - destruct K as (Lb & b' & e' & R' & B & (rs1 & r & rs2 & E & L1 & L2 & J & D) & S').
    exists rs1, r, rs2. repeat (split; [assumption|]). destruct r as [[|]| |y]; cbn [decided told] in *.
    + destruct D as (n & M & C & W & ->). exists n, M. split; [now apply counted_found|]. split; auto. exists Lb, b', e'. auto.
    + destruct D as ((n & M & C & W) & ->). split; [exists n, M; split; [now apply counted_found | exact W]|]. exists Lb, b', e'. rewrite mark_nil. auto.
    + contradiction.
    + destruct D as (Y & ->). split; auto. exists Lb, b', e'. rewrite mark_nil. auto.
  - destruct K as (Lb & b' & e' & R' & B & (-> & J & ->) & S'). split; auto. exists J, Lb, b', e'. rewrite mark_nil. auto.
Qed.

Lemma keep_end_outcome : forall l s, ~ In SBool l -> calls_there s ->
  match keep fails ck l s with
  | AVal s' rs => exists n M, found ck s n M /\ wanted l n /\ ended [] M s s'
  | AExn s' y => (y = OutOfMemory /\ exists J, ended J [] s s') \/
      (ended [] [] s s' /\ (y = UserError /\ may_throw ck s \/ y = Failed /\ exists n M, found ck s n M /\ ~ wanted l n))
  | _ => False
  end.
Proof.
  intros l s NB CT.
  assert (K := tri_keep_end fails ck WR l (objects s) (st_entry s) (st_body s) NB CT s (st_here s)).
  destruct (keep fails ck l s) as [s' rs|s' y| |]; try contradiction.
  - destruct K as (Lb & b' & e' & R' & B & (n & M & C & W & ->) & S').
    exists n, M. split; [now apply counted_found|]. split; auto. exists Lb, b', e'. auto.
  - destruct K as (Lb & b' & e' & R' & B & [(-> & J & ->)|(-> & Y)] & S').
    + left. split; auto. exists J, Lb, b', e'. rewrite mark_nil. auto.
    + right. split; [exists Lb, b', e'; rewrite mark_nil; auto|]. destruct Y as [Y|(Y & n & M & C & W)]; auto.
      right. split; auto. exists n, M. split; [now apply counted_found | assumption].
Qed.
End Outcomes.

Lemma other_outcome : forall fails args soft s, calls_there s ->
  match no_other fails args soft s with
  | AVal s' v => (v = true /\ (forall i, In i (history s) -> verified s i) \/
                  v = false /\ soft = true /\ exists i, In i (history s) /\ ~ verified s i) /\ ended [] [] s s'
  | AExn s' y => (y = OutOfMemory /\ exists J, ended J [] s s') \/
      (y = Failed /\ soft = false /\ (exists i, In i (history s) /\ ~ verified s i) /\ ended [] [] s s')
  | _ => False
  end.
Proof.
  intros fails args soft s CT.
  assert (ON : one_new (objects s) (calls (st_body s)) -> exists i, In i (history s) /\ ~ verified s i).
  { intros (i & I & V). exists i. split; [exact I|]. intros V'. assert (F := objects_one _ _ _ _ V V'). discriminate F. }
  assert (K := tri_no_other fails args soft (objects s) (st_entry s) (st_body s) CT s (st_here s)).
  destruct (no_other fails args soft s) as [s' v|s' y| |]; try contradiction.
  - destruct K as (Lb & b' & e' & R' & B & (D & ->) & S'). split; [|exists Lb, b', e'; rewrite mark_nil; auto].
    destruct D as [(V & A)|(V & SF & O)]; [left | right]; auto.
  - destruct K as (Lb & b' & e' & R' & B & [(-> & J & ->)|(-> & Y & SF & O)] & S').
    + left. split; auto. exists J, Lb, b', e'. rewrite mark_nil. auto.
    + right. repeat (split; [auto|]). exists Lb, b', e'. rewrite mark_nil. auto.
Qed.

Lemma other_tidy : forall fails args soft s s0 x s' y, calls_there s ->
  opened_other fails args s = AVal s0 x -> no_other fails args soft s = AExn s' y -> nothing s s'.
Proof.
  intros fails args soft s s0 x s' y CT O V.
  assert (L := with_made fails _ _ (open_other fails) (fun _ => rest_of_other fails soft) [args] [] s s0 x O s' y V).
  assert (K : tri (st (objects s) (st_entry s) (st_body s))
    (with_exprs fails [args] [] (fun xs => do! x := open_other fails in relabel (rest_of_other fails soft x)))
    (fun _ _ => True)
    (fun y s1 => exists Lb b' e' R', bodied (st_body s) (st_entry s) Lb b' e' /\ (y = OutOfMemory \/ R' = Lb ++ objects s) /\ st R' e' b' s1)).
  { eapply tri_weak; [apply (tri_with fails _ [args] [] _ (objects s) (st_entry s) (st_body s)
      (fun _ _ _ => True) (fun Lb y R' => y = OutOfMemory \/ R' = Lb ++ objects s)) | intros s1 K; exact K | auto | intros z s1 K; exact K].
    2: { intros J Lb b' e' B. now left. }
    intros xs OX Lb b' e' LX EX B. cbn [app]. destruct (frame (objects s) _ (st_body s) xs OX Lb b' e' CT EX B) as (CB & TW & HW & MW).
    eapply tri_bind; [eapply tri_exn; [apply tri_open_other|]|].
    { cbn beta. intros z s1 [-> [J K]]. exists (J ++ Lb ++ objects s). split; auto. eapply st_perm; [|exact K]. perm. }
    intros z; cbn beta.
    eapply tri_weak; [eapply tri_relabel; apply (tri_rest_other fails soft z _ e' b' TW) | intros s1 K; exact K | |]; cbn beta.
    - intros v s1 [_ K]. exists (Lb ++ objects s). auto.
    - intros w0 s1 (w & _ & K). exists (Lb ++ objects s). auto. }
  specialize (K s (st_here s)). rewrite L in K. destruct K as (Lb & b' & e' & R' & B & [F| ->] & S'); [discriminate F|].
  apply snug_tidy. exists Lb, b', e'. auto.
Qed.

(** * In the words of the specification *)
Lemma verify_all : forall fails ck q soft s, written ck -> calls_there s ->
  match verify fails ck q soft s with
  | AVal s' v => ~ refused q /\ exists n l, found ck s n l /\
      ((meets q n /\ v = true /\ marked l s s') \/ (~ meets q n /\ v = false /\ soft = true /\ nothing s s'))
  | AExn s' OutOfMemory => kept s s'
  | AExn s' UserError => may_throw ck s /\ nothing s s'
  | AExn s' Failed => soft = false /\ (exists n l, found ck s n l /\ ~ meets q n) /\ nothing s s'
  | AExn s' Invalid => refused q /\ nothing s s'
  | AExn _ Unexpected | ATerminate | AUb => False
  end.
Proof.
  intros fails ck q soft s WR CT. assert (K := verify_outcome fails ck WR q soft s CT).
  destruct (verify fails ck q soft s) as [s' v|s' y| |]; try contradiction.
  - destruct K as (NR & n & M & F & D). split; [exact NR|]. exists n, M. split; [exact F|].
    destruct D as [(A & B & C)|(A & B & C & D)]; [left | right].
    + split; [exact A|]. split; [exact B|]. now apply ended_marked.
    + split; [exact A|]. split; [exact B|]. split; [exact C|]. now apply ended_nothing.
  - destruct K as [(-> & J & K)|(K & Y)]; [exact (ended_kept J s s' K)|]. apply ended_nothing in K.
    destruct Y as [(-> & Y)|[(-> & Y)|(-> & SF & Y)]]; auto.
Qed.

Lemma keep_all : forall fails ck pre post s, written ck -> calls_there s -> ~ In SBool pre ->
  match keep fails ck (pre ++ SBool :: post) s with
  | AVal s' rs => exists rs1 r rs2, rs = rs1 ++ r :: rs2 /\ length rs1 = length pre /\ length rs2 = length post /\
      (forall j, nth_error post j = Some SBool -> nth_error rs2 j = Some (Said true)) /\
      match r with
      | Said true => exists n l, found ck s n l /\ wanted pre n /\ marked l s s'
      | Said false => (exists n l, found ck s n l /\ ~ wanted pre n) /\ nothing s s'
      | Threw y => (y = OutOfMemory \/ y = UserError /\ may_throw ck s) /\ nothing s s'
      | Fine => False
      end
  | AExn s' y => y = OutOfMemory /\ kept s s'
  | ATerminate | AUb => False
  end.
Proof.
  intros fails ck pre post s WR CT NB. assert (K := keep_outcome fails ck WR pre post s NB CT).
  destruct (keep fails ck (pre ++ SBool :: post) s) as [s' rs|s' y| |]; try contradiction.
  - destruct K as (rs1 & r & rs2 & E & L1 & L2 & J & T). exists rs1, r, rs2.
    split; [exact E|]. split; [exact L1|]. split; [exact L2|]. split; [exact J|].
    destruct r as [[|]| |y]; cbn [told] in T; try contradiction.
    + destruct T as (n & M & F & W & K). exists n, M. split; [exact F|]. split; [exact W|]. now apply ended_marked.
    + destruct T as [F K]. split; [exact F | now apply ended_nothing].
    + destruct T as [F K]. split; [exact F | now apply ended_nothing].
  - destruct K as (-> & J & K). split; [reflexivity | exact (ended_kept J s s' K)].
Qed.

Lemma keep_end_all : forall fails ck l s, written ck -> calls_there s -> ~ In SBool l ->
  match keep fails ck l s with
  | AVal s' _ => exists n m, found ck s n m /\ wanted l n /\ marked m s s'
  | AExn s' OutOfMemory => kept s s'
  | AExn s' UserError => may_throw ck s /\ nothing s s'
  | AExn s' Failed => (exists n m, found ck s n m /\ ~ wanted l n) /\ nothing s s'
  | AExn _ _ | ATerminate | AUb => False
  end.
Proof.
  intros fails ck l s WR CT NB. assert (K := keep_end_outcome fails ck WR l s NB CT).
  destruct (keep fails ck l s) as [s' rs|s' y| |]; try contradiction.
  - destruct K as (n & M & F & W & K). exists n, M. split; [exact F|]. split; [exact W|]. now apply ended_marked.
  - destruct K as [(-> & J & K)|(K & Y)]; [exact (ended_kept J s s' K)|]. apply ended_nothing in K.
    destruct Y as [(-> & Y)|(-> & Y)]; auto.
Qed.

Lemma other_all : forall fails args soft s, calls_there s ->
  match no_other fails args soft s with
  | AVal s' v => nothing s s' /\
      (v = true /\ (forall i, In i (history s) -> verified s i) \/
       v = false /\ soft = true /\ exists i, In i (history s) /\ ~ verified s i)
  | AExn s' OutOfMemory => kept s s'
  | AExn s' Failed => soft = false /\ (exists i, In i (history s) /\ ~ verified s i) /\ nothing s s'
  | AExn _ _ | ATerminate | AUb => False
  end.
Proof.
  intros fails args soft s CT. assert (K := other_outcome fails args soft s CT).
  destruct (no_other fails args soft s) as [s' v|s' y| |]; try contradiction.
  - destruct K as [V K]. split; [now apply ended_nothing | exact V].
  - destruct K as [(-> & J & K)|(-> & SF & O & K)]; [exact (ended_kept J s s' K)|]. apply ended_nothing in K. auto.
Qed.

(** * Whole tests *)
Lemma mark_in : forall M i t R, (forall v, t <> ACall v) -> In (i, t) R -> In (i, t) (map (mark M) R).
Proof.
  intros M i t R N I. apply in_map_iff. exists (i, t). split; [|exact I]. destruct t as [| | | | | | | | |v| | | |]; try reflexivity. now destruct (N v).
Qed.
Lemma tree_marked : forall M d i T, tree d i T -> tree d i (map (mark M) T).
Proof.
  intros M. induction d as [|d IH]; intros i T; cbn [tree]; [auto|]. intros (t & Ts & -> & F).
  exists (snd (mark M (i, t))), (map (map (mark M)) Ts). split.
  - cbn [map]. rewrite concat_map. f_equal. destruct t; reflexivity.
  - assert (E : children (snd (mark M (i, t))) = children t) by (destruct t; reflexivity). rewrite E.
    clear E. induction F; cbn [map]; constructor; auto.
Qed.
Lemma concat_marked : forall M Ts, map (mark M) (concat Ts) = concat (map (map (mark M)) Ts).
Proof. intros. apply concat_map. Qed.

Lemma ended_whole : forall J' M s s' J, whole J s -> ended J' M s s' -> whole (J' ++ map (mark M) J) s'.
Proof.
  intros J' M s s' J (SP & Ts & cs & F & CS & P) (Lb & b' & e' & B & S0).
  assert (AE : answers s' = answers s).
  { unfold answers. rewrite (proj2 (proj2 S0)). inversion B as [|N|i N]; subst; try rewrite N; auto. }
  assert (HE : history s' = history s).
  { unfold history. rewrite (proj2 (proj2 S0)). inversion B as [|N|i N]; subst; try rewrite N; auto. }
  assert (BB : body_obj s' = Lb ++ body_obj s).
  { unfold body_obj. rewrite (proj2 (proj2 S0)). destruct B as [|E|i E]; try reflexivity. now rewrite E. }
  split.
  - intros h I. rewrite AE in I. destruct (SP h I) as (q & m & ids & last & used & A1 & A2 & A3 & A4).
    assert (UP : forall i t, (forall v, t <> ACall v) -> In (i, t) (objects s) -> In (i, t) (objects s')).
    { intros i t N K. apply (Permutation_in _ (Permutation_sym (proj1 S0))). apply in_or_app; right. apply in_or_app; right. now apply mark_in. }
    exists q, m, ids, last, used. split; [apply UP; [discriminate | auto]|]. split; [apply UP; [discriminate | auto]|].
    split; [apply UP; [discriminate | auto]|]. intros i K. destruct (A4 i K) as [k A]. exists k. apply UP; [discriminate | auto].
  - exists (map (map (mark M)) Ts), (map (fun p => (fst p, snd p || existsb (Nat.eqb (fst p)) M)) cs).
    rewrite AE, HE. split; [|split].
    + clear - F. induction F; cbn [map]; constructor; auto. exact (tree_marked M 3 _ _ H).
    + rewrite map_map. cbn. rewrite <- CS. apply map_ext. reflexivity.
    + rewrite BB, (proj1 S0), <- concat_marked.
      assert (E : calls_of (map (fun p => (fst p, snd p || existsb (Nat.eqb (fst p)) M)) cs) = map (mark M) (calls_of cs)).
      { unfold calls_of. rewrite !map_map. reflexivity. }
      rewrite E. assert (Z : Permutation (map (mark M) (objects s)) (map (mark M) (J ++ body_obj s ++ calls_of cs ++ concat Ts))) by now apply Permutation_map.
      rewrite Z, !map_app. assert (BM : map (mark M) (body_obj s) = body_obj s) by (unfold body_obj; destruct (st_body s); reflexivity).
      rewrite BM. perm.
Qed.

Lemma whole_calls : forall J s, whole J s -> calls_there s.
Proof.
  intros J s (_ & Ts & cs & _ & CS & P) i I. rewrite <- CS in I. apply in_map_iff in I as ([j v] & E & I). cbn in E; subst j.
  exists v. apply (Permutation_in _ (Permutation_sym P)). apply in_or_app; right. apply in_or_app; right. apply in_or_app; left.
  unfold calls_of. apply in_map_iff. exists (i, v). auto.
Qed.

(** The events whose patterns can be written. *)
Definition writable (v : event) : Prop := match v with EVerify ck _ _ | EKeep ck _ => written ck | _ => True end.

Lemma sbool_dec : forall l, In SBool l -> exists pre post, l = pre ++ SBool :: post /\ ~ In SBool pre.
Proof.
  induction l as [|o l IH]; intros I; [contradiction|]. destruct o as [q|].
  - destruct I as [F|I]; [discriminate F|]. destruct (IH I) as (pre & post & -> & N). exists (SQuant q :: pre), post. split; auto.
    intros [F|K]; [discriminate F | auto].
  - exists [], l. auto.
Qed.
Lemma sbool_in : forall l, In SBool l \/ ~ In SBool l.
Proof. induction l as [|[q|] l [I|I]]; [right; intros [] | left; now right | right; intros [F|K]; [discriminate F | auto] | left; now left | left; now left]. Qed.

Definition is_call (v : event) : bool := match v with ECall _ _ => true | _ => false end.

Lemma event_whole : forall fails v s J, writable v -> whole J s ->
  match play_event fails v s with
  | AVal s' _ => exists M, whole (map (mark M) J) s'
  | AExn s' y => exists J', whole J' s' /\ (y <> OutOfMemory \/ is_call v = true -> exists M, J' = map (mark M) J)
  | ATerminate | AUb => match v with EStub _ _ | ECall _ _ => True | _ => False end
  end.
Proof.
  intros fails v s J WR W. assert (CT := whole_calls _ _ W).
  assert (SAME : forall s', whole J s' -> exists M, whole (map (mark M) J) s') by (intros s' K; exists []; now rewrite mark_nil).
  assert (END : forall M s', ended [] M s s' -> exists M, whole (map (mark M) J) s') by (intros M s' K; exists M; exact (ended_whole [] M s s' J W K)).
  assert (EOUT : forall y (P : Prop) s', (y = OutOfMemory /\ exists J, ended J [] s s') \/ (ended [] [] s s' /\ P) ->
    forall c, exists J', whole J' s' /\ (y <> OutOfMemory \/ false = true /\ c -> exists M : list nat, J' = map (mark M) J)).
  { intros y P s' [(-> & J0 & K)|(K & _)] c.
    - exists (J0 ++ map (mark []) J). split; [exact (ended_whole _ _ _ _ _ W K)|]. intros [F|(F & _)]; [now destruct F | discriminate F].
    - exists (map (mark []) J). split; [exact (ended_whole [] _ _ _ _ W K)|]. intros _. now exists []. }
  destruct v as [args acts|n ok|ck q soft|ck l|args soft]; cbn [play_event is_call writable] in *.
  - assert (K := when_whole fails args acts s J W). assert (KA := when_all fails args acts s).
    destruct (when fails args acts s) as [s' u|s' y| |]; auto.
    destruct K as (J' & K). exists J'. split; auto. destruct KA as [-> _]. intros [F|F]; [now destruct F | discriminate F].
  - assert (HP : forall h, match n, st_body s with Some n, Some b => nth_error (bo_handlers b) n | _, _ => None end = Some h -> In h (answers s)).
    { unfold answers. destruct n as [n|]; [|discriminate]. destruct (st_body s) as [b|]; [|discriminate]. intros h. apply nth_error_In. }
    assert (K := call_whole fails _ ok s J W HP). destruct (call fails _ ok s) as [s' u|s' y| |]; auto.
    exists J. split; auto. intros _. exists []. now rewrite mark_nil.
  - assert (K := verify_outcome fails ck WR q soft s CT). unfold abind. destruct (verify fails ck q soft s) as [s' v|s' y| |]; auto.
    + destruct K as (_ & n & M & _ & [(_ & _ & K)|(_ & _ & _ & K)]); cbn; eauto.
    + destruct (EOUT y _ s' K True) as (J' & A & B). exists J'. split; auto. intros [F|F]; auto. 
  - assert (K : match keep fails ck l s with AVal s' _ => exists M, ended [] M s s'
        | AExn s' y => (y = OutOfMemory /\ exists J, ended J [] s s') \/ (ended [] [] s s' /\ True) | _ => False end).
    { destruct (sbool_in l) as [I|I].
      - destruct (sbool_dec l I) as (pre & post & -> & N). assert (K := keep_outcome fails ck WR pre post s N CT).
        destruct (keep fails ck (pre ++ SBool :: post) s) as [s' rs|s' y| |]; auto.
        destruct K as (_ & r & _ & _ & _ & _ & _ & T). destruct r as [[|]| |y]; cbn [told] in T; [|destruct T; eauto | contradiction | destruct T; eauto].
        destruct T as (n & M & _ & _ & K). eauto.
      - assert (K := keep_end_outcome fails ck WR l s I CT). destruct (keep fails ck l s) as [s' rs|s' y| |]; auto.
        + destruct K as (n & M & _ & _ & K). eauto.
        + destruct K as [K|(K & _)]; auto. }
    unfold abind. destruct (keep fails ck l s) as [s' rs|s' y| |]; auto.
    + destruct K as (M & K). cbn. eauto.
    + destruct (EOUT y _ s' K True) as (J' & A & B). exists J'. split; auto. intros [F|F]; auto.
  - assert (K := other_outcome fails args soft s CT). unfold abind. destruct (no_other fails args soft s) as [s' v|s' y| |]; auto.
    + destruct K as (_ & K). cbn. eauto.
    + assert (K' : (y = OutOfMemory /\ exists J, ended J [] s s') \/ (ended [] [] s s' /\ True)) by (destruct K as [K|(_ & _ & _ & K)]; auto).
      destruct (EOUT y _ s' K' True) as (J' & A & B). exists J'. split; auto. intros [F|F]; auto.
Qed.

Lemma events_whole : forall fails l quiet s J s' q, Forall writable l -> whole J s -> play_events fails l quiet s = AVal s' q ->
  exists J', whole J' s' /\ (q = true -> quiet = true /\ exists M, J' = map (mark M) J).
Proof.
  induction l as [|v l IH]; intros quiet s J s' q WL W E; cbn [play_events] in E.
  - inversion E; subst. exists J. split; auto. intros ->. split; auto. exists []. now rewrite mark_nil.
  - inversion WL as [|? ? WV WL']; subst. assert (K := event_whole fails v s J WV W).
    assert (MM : forall M M', exists M2, map (mark M') (map (mark M) J) = map (mark M2) J).
    { intros M M'. exists (M ++ M'). rewrite map_map. apply map_ext. intros [i t]. destruct t; cbn; try reflexivity.
      rewrite existsb_app, orb_assoc. reflexivity. }
    destruct (play_event fails v s) as [s1 u|s1 y| |]; try discriminate E.
    + destruct K as (M & K). destruct (IH _ _ _ _ _ WL' K E) as (J' & W' & Q). exists J'. split; auto.
      intros QT. destruct (Q QT) as (Q1 & M' & ->). split; [destruct v; exact Q1 | apply MM].
    + destruct K as (J1 & K & KM). destruct (IH _ _ _ _ _ WL' K E) as (J' & W' & Q). exists J'. split; auto.
      intros QT. destruct (Q QT) as (Q1 & M' & ->).
      assert (QM : quiet = true /\ (y <> OutOfMemory \/ is_call v = true)).
      { destruct v, y; cbn in Q1 |- *; try discriminate Q1; (split; [exact Q1|]); try (left; discriminate); now right. }
      destruct QM as [QQ QM]. split; auto. destruct (KM QM) as (M & ->). apply MM.
Qed.

Lemma no_mock_whole : whole [] no_mock.
Proof. split; [contradiction|]. exists [], []. repeat split; [constructor | apply perm_nil]. Qed.

Lemma events_end : forall fails l s quiet, Forall writable l -> play_events fails l true no_mock = AVal s quiet ->
  calls_there s /\ exists s', destroy_mock s = AVal s' tt /\ (quiet = true -> objects s' = []).
Proof.
  intros fails l s quiet WL E. destruct (events_whole _ _ _ _ _ _ _ WL no_mock_whole E) as (J & K & Q).
  split; [exact (whole_calls _ _ K)|].
  destruct (destroy_whole J s K) as (s' & E' & P). exists s'. split; [exact E'|].
  intros QT. destruct (Q QT) as (_ & M & ->). cbn in P. now apply Permutation_nil, Permutation_sym.
Qed.

(** * Memory *)
Section Memory.
Variable fails : nat -> bool.
Notation honest := (honest fails).
Ltac ho := repeat match goal with
  | |- honest (abind _ _) => apply ho_bind; [|intros ?]
  | |- honest (aguard _ _) => apply ho_guard
  | |- honest (aret _) => apply ho_ret
  | |- honest (fun _ => AUb) => apply ho_ub
  | |- honest (get _) => apply ho_get
  | |- honest (peek _) => apply ho_peek
  | |- honest (try_alloc _) => apply ho_try
  | |- honest (athrow _) => apply ho_throw; discriminate
  | |- honest (put _ _) => apply ho_put
  | |- honest (free _) => apply ho_free
  | |- honest (del _) => apply ho_del
  | |- honest (new _ _) => apply ho_new
  | |- honest (holding _ _) => apply ho_holding
  | |- honest (destroy _ _) => apply ho_destroy
  | |- honest (each _ _) => apply ho_each; intros ?
  | |- honest (match ?x with _ => _ end) => destruct x
  end.
Lemma ho_with : forall A es made (k : list expr -> AM A), (forall xs, honest (k xs)) -> honest (with_exprs fails es made k).
Proof. intros A es. induction es as [|a es IH]; intros made k K; cbn [with_exprs]; ho; auto; [apply ho_method_expr | apply ho_use]. Qed.
Lemma ho_open_check : honest (open_check fails). Proof. unfold open_check. ho. Qed.
Lemma ho_quantify : forall q x, honest (quantify fails q x).
Proof. intros [] x; unfold quantify, exactly, limit; ho. Qed.
Lemma ho_read : forall i, honest (read_call i). Proof. intros i. unfold read_call. ho. Qed.
Lemma ho_fill : forall l, honest (fill fails l). Proof. intros l. unfold fill. ho. apply ho_read. Qed.
Lemma ho_asked : forall ck xs m i, honest (asked fails ck xs m i).
Proof. intros. unfold asked. ho; apply ho_read. Qed.
Lemma ho_is_match : forall ck xs act ms p, honest (is_match fails ck xs act ms p).
Proof. intros ck xs act ms. induction ms as [|m ms IH]; intros p; cbn [is_match]; ho; auto; apply ho_asked. Qed.
Lemma ho_find_block : forall ck xs act ms n i, honest (find_block fails ck xs act ms n i).
Proof. intros ck xs act ms n. induction n as [|n IH]; intros i; cbn [find_block]; ho; auto; apply ho_is_match. Qed.
Lemma ho_find_pattern : forall ck xs act pat p l, honest (find_pattern fails ck xs act pat p l).
Proof. intros ck xs act pat. induction pat as [|ms pat IH]; intros p l; cbn [find_pattern]; ho; auto; apply ho_find_block. Qed.
Lemma ho_count : forall fuel ck xs act p n l, honest (count_matches fails fuel ck xs act p n l).
Proof. induction fuel as [|f IH]; intros; cbn [count_matches]; ho; auto; apply ho_find_pattern. Qed.
Lemma ho_verify_now : forall ck xs soft x, honest (verify_now fails ck xs soft x).
Proof. intros. unfold verify_now, analyse, get_calls. ho; try apply ho_read; try apply ho_fill; apply ho_count. Qed.
Lemma ho_close : forall ck xs x, honest (close_check fails ck xs x).
Proof. intros. unfold close_check. ho; apply ho_verify_now. Qed.
Lemma ho_verify : forall ck q soft, honest (verify fails ck q soft).
Proof.
  intros. unfold verify, rest_of. apply ho_with. intros xs. ho; try apply ho_open_check; try apply ho_quantify; try apply ho_verify_now; apply ho_close.
Qed.
Lemma ho_caught : forall m, honest m -> honest (caught m).
Proof.
  intros m M s. specialize (M s). unfold caught. destruct (m s) as [s' a|s' []| |]; auto. destruct M as (n & M & _). lia.
Qed.
Lemma ho_steps : forall ck xs x l, honest (do_steps fails ck xs x l).
Proof.
  intros ck xs x l. induction l as [|o l IH]; cbn [do_steps]; ho; auto. apply ho_caught. destruct o; cbn [do_step]; ho; [apply ho_quantify | apply ho_verify_now].
Qed.
Lemma ho_keep : forall ck l, honest (keep fails ck l).
Proof. intros. unfold keep. apply ho_with. intros xs. ho; try apply ho_open_check; try apply ho_steps; apply ho_close. Qed.
Lemma ho_unverified : forall l, honest (unverified fails l).
Proof. induction l as [|i l IH]; cbn [unverified]; ho; auto; apply ho_read. Qed.
Lemma ho_other_now : forall soft x, honest (other_now fails soft x).
Proof. intros. unfold other_now, get_calls. ho; try apply ho_fill; apply ho_unverified. Qed.
Lemma ho_other : forall args soft, honest (no_other fails args soft).
Proof. intros. unfold no_other, rest_of_other, open_other. apply ho_with. intros xs. ho; apply ho_other_now. Qed.

Lemma honest_memory : forall A (m : AM A), honest m -> forall s s', m s = AExn s' OutOfMemory -> exists n, st_tries s <= n < st_tries s' /\ fails n = true.
Proof. intros A m H s s' E. specialize (H s). now rewrite E in H. Qed.
End Memory.
