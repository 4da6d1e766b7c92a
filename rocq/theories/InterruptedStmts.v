(** Proofs about statements that verify and may be interrupted. *)
From Coq Require Import Bool Arith ZArith Lia Permutation List.
From Verif Require Import Base OutOfMemory Expectation Interrupted Spec_Match Spec_OutOfMemory Spec_Interrupted OutOfMemoryProofs InterruptedProofs.
Import ListNotations.
Open Scope nat_scope.

(** * Expressions *)
Inductive exprs : list expr -> objs_of -> Prop :=
| ex_nil : exprs [] []
| ex_cons : forall x last mids xs OX, exprs xs OX -> exprs (x :: xs) (expr_objs x last [] [] mids ++ OX).

Lemma exprs_has : forall xs OX R, exprs xs OX -> has (OX ++ R) xs.
Proof.
  induction 1 as [|x last mids xs OX E IH]; intros y []; [subst y|].
  - exists mids. do 2 (apply in_or_app; left). unfold expr_objs, mat_objs. do 2 right. apply in_or_app. right. now left.
  - destruct (IH y H) as [l L]. exists l. rewrite <- app_assoc. apply in_or_app. now right.
Qed.

Lemma mark_app : forall M l r, map (mark M) (l ++ r) = map (mark M) l ++ map (mark M) r.
Proof. intros. apply map_app. Qed.
Lemma mark_exprs : forall M xs OX, exprs xs OX -> map (mark M) OX = OX.
Proof.
  induction 1 as [|x last mids xs OX E IH]; auto. rewrite mark_app, IH. f_equal.
  unfold expr_objs, seq_objs, mat_objs. cbn [combine map app mark]. do 4 f_equal.
  f_equal. induction mids; cbn; congruence.
Qed.
Lemma mark_bodied : forall M b e Lb b' e', bodied b e Lb b' e' -> map (mark M) Lb = Lb.
Proof. intros M b e Lb b' e' []; reflexivity. Qed.
Lemma calls_bodied : forall b e Lb b' e', bodied b e Lb b' e' -> calls b' = calls b.
Proof. intros b e Lb b' e' []; subst; reflexivity. Qed.

Section With.
Variable fails : nat -> bool.

Lemma tri_with : forall A es made (k : list expr -> AM A) R e b (Q : objs_of -> A -> objs_of -> Prop) (X : objs_of -> error -> objs_of -> Prop),
  (forall xs OX Lb b' e', length xs = length es -> exprs xs OX -> bodied b e Lb b' e' ->
     tri (st (OX ++ Lb ++ R) e' b') (k (made ++ xs))
       (fun a s => exists R', Q Lb a R' /\ st (OX ++ R') e' b' s) (fun y s => exists R', X Lb y R' /\ st (OX ++ R') e' b' s)) ->
  (forall J Lb b' e', bodied b e Lb b' e' -> X Lb OutOfMemory (J ++ Lb ++ R)) ->
  tri (st R e b) (with_exprs fails es made k)
    (fun a s => exists Lb b' e' R', bodied b e Lb b' e' /\ Q Lb a R' /\ st R' e' b' s)
    (fun y s => exists Lb b' e' R', bodied b e Lb b' e' /\ X Lb y R' /\ st R' e' b' s).
Proof.
  intros A. induction es as [|args es IH]; intros made k R e b Q X K N; cbn [with_exprs].
  { specialize (K [] [] [] b e eq_refl ex_nil (bd_same _ _)). rewrite app_nil_r in K. cbn [app] in K.
    eapply tri_weak; [exact K | auto | |]; cbn beta; intros a s (R' & A1 & A2); exists [], b, e, R'; (split; [constructor | auto]). }
  assert (NEAR : forall y s, y = OutOfMemory /\ near b e R s -> exists Lb b' e' R', bodied b e Lb b' e' /\ X Lb y R' /\ st R' e' b' s).
  { intros y s [-> (J & Lb & b' & e' & B & S0)]. exists Lb, b', e', (J ++ Lb ++ R). split; auto. split; auto. eapply N; eauto. }
  eapply tri_bind; [eapply tri_exn; [apply tri_method_expr | exact NEAR]|]. intros x; cbn beta.
  apply tri_ex; intros last. apply tri_ex; intros Lb1. apply tri_ex; intros bo. apply tri_ex; intros e1. apply tri_prop; intros B1.
  eapply tri_bind with (Q := fun y s => exists mids, length mids = count args /\ st (expr_objs y last [] [] mids ++ Lb1 ++ R) e1 (Some bo) s).
  { eapply tri_guard; [apply tri_use|]. next. apply tri_prop. intros ->. apply tri_ex. intros J.
    eapply tri_weak; [eapply (tri_destroy x last [] [] []); reflexivity | intros s S0; exact S0 | | contradiction].
    cbn beta. intros _ s S0. apply NEAR. split; auto. exists J, Lb1, (Some bo), e1. auto. }
  intros y; cbn beta. apply tri_ex; intros mids. apply tri_prop; intros _. set (EY := expr_objs y last [] [] mids).
  eapply tri_bind with (Q := fun a s => exists Lb b' e' R', bodied b e Lb b' e' /\ Q Lb a R' /\ st (EY ++ R') e' b' s).
  - eapply tri_guard with (Y := fun z s => exists Lb b' e' R', bodied b e Lb b' e' /\ X Lb z R' /\ st (EY ++ R') e' b' s).
    + eapply tri_weak; [apply (IH (made ++ [y]) k (EY ++ Lb1 ++ R) e1 (Some bo)
        (fun Lb2 a R'' => exists R', Permutation R'' (EY ++ R') /\ Q (Lb2 ++ Lb1) a R')
        (fun Lb2 z R'' => exists R', Permutation R'' (EY ++ R') /\ X (Lb2 ++ Lb1) z R')) | intros s S0; exact S0 | |].
      * intros xs OX Lb2 b' e' LX EX B2. rewrite <- app_assoc. cbn [app].
        eapply tri_weak; [apply (K (y :: xs) (EY ++ OX) (Lb2 ++ Lb1) b' e'); [cbn; congruence | now apply ex_cons | eapply bodied_trans; eauto] | | |].
        -- intros s. apply st_perm. perm.
        -- cbn beta. intros a s (R' & A1 & A2). exists (EY ++ R'). split; [exists R'; auto|]. eapply st_perm; [|exact A2]. perm.
        -- cbn beta. intros a s (R' & A1 & A2). exists (EY ++ R'). split; [exists R'; auto|]. eapply st_perm; [|exact A2]. perm.
      * intros J Lb2 b' e' B2. exists (J ++ (Lb2 ++ Lb1) ++ R). split; [perm|]. eapply N. eapply bodied_trans; eauto.
      * cbn beta. intros a s (Lb2 & b' & e' & R'' & B2 & (R' & P & A1) & A2). exists (Lb2 ++ Lb1), b', e', R'.
        split; [eapply bodied_trans; eauto|]. split; auto. eapply st_perm; eauto.
      * cbn beta. intros a s (Lb2 & b' & e' & R'' & B2 & (R' & P & A1) & A2). exists (Lb2 ++ Lb1), b', e', R'.
        split; [eapply bodied_trans; eauto|]. split; auto. eapply st_perm; eauto.
    + intros z. apply tri_ex; intros Lb. apply tri_ex; intros b'. apply tri_ex; intros e'. apply tri_ex; intros R'.
      apply tri_prop; intros B. apply tri_prop; intros XZ.
      eapply tri_weak; [eapply (tri_destroy y last [] [] mids); reflexivity | intros s S0; exact S0 | | contradiction].
      cbn beta. intros _ s S0. exists Lb, b', e', R'. auto.
  - intros a; cbn beta. apply tri_ex; intros Lb. apply tri_ex; intros b'. apply tri_ex; intros e'. apply tri_ex; intros R'.
    apply tri_prop; intros B. apply tri_prop; intros QA.
    eapply tri_bind; [eapply tri_exn; [eapply (tri_destroy y last [] [] mids); reflexivity | contradiction]|]. next.
    apply tri_ret. intros s S0. exists Lb, b', e', R'. auto.
Qed.

(** * Statements *)
Section Stmt.
Variable ck : check.
Hypothesis WR : written ck.

Lemma wr1 : ck_pattern ck <> []. Proof. apply WR. Qed.
Lemma wr2 : forall ms, In ms (ck_pattern ck) -> ms <> []. Proof. intros ms I. now apply WR. Qed.
Lemma wr3 : forall (xs : list expr) ms m, length xs = length (ck_exprs ck) -> In ms (ck_pattern ck) -> In m ms -> m < length xs.
Proof. intros xs ms m L I J. rewrite L. now apply (proj2 WR ms I). Qed.

(** The end of a verification, as it is with the state [d] of the check. *)
Lemma tri_close : forall xs x g d a c R e b, length xs = length (ck_exprs ck) -> there R (calls b) -> has R xs ->
  tri (st ((x, ACheck g d a c) :: (g, AGroup) :: R) e b) (close_check fails ck xs x)
    (fun _ s => (d = true /\ st R e b s) \/
       (d = false /\ exists n M, counted ck (calls b) 0 0 [] (n, M) /\ enough a c n /\ st (map (mark M) R) e b s))
    (fun y s => (d = false /\ (y = OutOfMemory \/ y = UserError /\ thrown ck (length xs) (calls b) \/
                 y = Failed /\ exists n M, counted ck (calls b) 0 0 [] (n, M) /\ ~ enough a c n)) /\ st R e b s).
Proof.
  intros xs x g d a c R e b L T H. unfold close_check.
  assert (T1 : there ((g, AGroup) :: R) (calls b)) by (intros i I; destruct (T i I) as [v V]; exists v; now right).
  assert (H1 : has ((g, AGroup) :: R) xs) by (intros y I; destruct (H y I) as [l V]; exists l; now right).
  eapply tri_bind.
  - eapply tri_guard; [apply (tri_verify_now fails ck xs wr1 wr2 (fun ms m => wr3 xs ms m L) false x g d a c _ e b T1 H1)|].
    intros y. apply tri_prop. intros [D Y].
    eapply tri_weak; [apply (tri_del_check x g true a c _ R e b (Permutation_refl _)) | intros s K; exact K | | contradiction].
    cbn beta. intros _ s K. split; [|exact K]. split; auto. destruct Y as [Y|[Y|(Y & _ & Z)]]; auto.
  - intros v; cbn beta.
    assert (PRE : forall (P1 P2 : state -> Prop) (Q : unit -> state -> Prop) Y, tri P1 (del x) Q Y -> tri P2 (del x) Q Y -> tri (fun s => P1 s \/ P2 s) (del x) Q Y)
      by (intros P1 P2 Q Y A B s [K|K]; [apply A | apply B]; exact K).
    apply PRE.
    + apply tri_prop; intros D. apply tri_prop; intros V.
      eapply tri_weak; [apply (tri_del_check x g true a c _ R e b (Permutation_refl _)) | intros s K; exact K | | contradiction].
      cbn beta. auto.
    + apply tri_ex; intros n. apply tri_ex; intros M. apply tri_prop; intros D. apply tri_prop; intros C.
      apply PRE.
      * apply tri_prop; intros E. apply tri_prop; intros V. cbn [map mark].
        eapply tri_weak; [apply (tri_del_check x g true a c _ (map (mark M) R) e b (Permutation_refl _)) | intros s K; exact K | | contradiction].
        cbn beta. intros _ s K. right. split; auto. exists n, M. auto.
      * intros s (_ & _ & F & _). discriminate F.
Qed.

Lemma tri_or : forall A (P1 P2 : state -> Prop) (m : AM A) Q X, tri P1 m Q X -> tri P2 m Q X -> tri (fun s => P1 s \/ P2 s) m Q X.
Proof. intros A P1 P2 m Q X H1 H2 s [K|K]; [apply H1 | apply H2]; exact K. Qed.

Definition reason (q : option quant) (soft : bool) (act : list nat) (y : error) : Prop :=
  y = UserError /\ thrown ck (length (ck_exprs ck)) act \/ y = Invalid /\ refused q \/
  y = Failed /\ soft = false /\ exists n M, counted ck act 0 0 [] (n, M) /\ ~ meets q n.

(** What follows once the verification is there. *)
Lemma tri_rest_of : forall q soft xs x g W e b, length xs = length (ck_exprs ck) -> there W (calls b) -> has W xs ->
  tri (st ((x, ACheck g false false (-1)) :: (g, AGroup) :: W) e b) (rest_of fails ck q soft xs x)
    (fun v s => ~ refused q /\ exists n M, counted ck (calls b) 0 0 [] (n, M) /\
       ((meets q n /\ v = true /\ st (map (mark M) W) e b s) \/ (~ meets q n /\ v = false /\ soft = true /\ st W e b s)))
    (fun y s => (y = OutOfMemory \/ reason q soft (calls b) y) /\ st W e b s).
Proof.
  intros q soft xs x g W e b LX TW HW. unfold rest_of.
  set (a := match q with Some q => fst (after q false (-1)) | None => false end).
  set (c := match q with Some q => snd (after q false (-1)) | None => -1%Z end).
  assert (T1 : there ((g, AGroup) :: W) (calls b)) by (intros i I; destruct (TW i I) as [v V]; exists v; now right).
  assert (H1 : has ((g, AGroup) :: W) xs) by (intros y I; destruct (HW y I) as [l V]; exists l; now right).
  eapply tri_bind with (Q := fun v s => ~ refused q /\
    ((soft = false /\ v = true /\ st ((x, ACheck g false a c) :: (g, AGroup) :: W) e b s) \/
     (soft = true /\ exists n M, counted ck (calls b) 0 0 [] (n, M) /\
        ((meets q n /\ v = true /\ st ((x, ACheck g true a c) :: (g, AGroup) :: map (mark M) W) e b s) \/
         (~ meets q n /\ v = false /\ st ((x, ACheck g true a c) :: (g, AGroup) :: W) e b s))))).
  - eapply tri_guard with (Y := fun y s => exists a c d, (y = OutOfMemory \/ reason q soft (calls b) y) /\
        st ((x, ACheck g d a c) :: (g, AGroup) :: W) e b s).
    + eapply tri_bind with (Q := fun _ s => ~ refused q /\ st ((x, ACheck g false a c) :: (g, AGroup) :: W) e b s).
      * destruct q as [q0|].
        -- eapply tri_weak; [apply tri_quantify | intros s K; exact K | |].
           ++ cbn beta. intros _ s K. exact K.
           ++ cbn beta. intros y s [[Y RF] K]. exists false, (-1)%Z, false. split; auto. unfold reason. destruct Y; auto.
        -- apply tri_ret. intros s K. split; [intros (n & _ & [E|E]); discriminate E | exact K].
      * next. apply tri_prop. intros NR. destruct soft.
        -- eapply tri_weak; [apply (tri_verify_now fails ck xs wr1 wr2 (fun ms m => wr3 xs ms m LX) true x g false a c _ e b T1 H1) | intros s K; exact K | |].
           ++ cbn beta. intros v s [(F & _) | (n & M & _ & C & D)]; [discriminate F|]. split; auto. right. split; auto.
              exists n, M. split; auto. destruct D as [(E & V & K) | (E & V & _ & K)]; [left | right]; unfold a, c in E; rewrite meets_enough in E; auto.
           ++ cbn beta. intros y s [(_ & Y) K]. exists a, c, true. split; [|exact K].
              destruct Y as [Y|[Y|(_ & F & _)]]; auto; [|discriminate F]. right. left. now rewrite <- LX.
        -- apply tri_ret. intros s K. split; auto.
    + intros y. apply tri_ex; intros a'. apply tri_ex; intros c'. apply tri_ex; intros d'. apply tri_prop; intros Y.
      eapply tri_weak; [apply (tri_del_check x g d' a' c' _ W e b (Permutation_refl _)) | intros s K; exact K | | contradiction].
      cbn beta. auto.
  - intros v; cbn beta. apply tri_prop; intros NR. apply tri_or.
    + apply tri_prop; intros SF. apply tri_prop; intros ->.
      eapply tri_bind; [eapply tri_exn; [apply (tri_close xs x g false a c W e b LX TW HW)|]|].
      * cbn beta. intros y s [(_ & Y) K]. split; auto. destruct Y as [Y|[Y|(Y & n & M & C & E)]]; auto.
        -- right. left. now rewrite <- LX.
        -- right. right. right. split; auto. split; auto. exists n, M. unfold a, c in E. rewrite meets_enough in E; auto.
      * next. apply tri_ret. intros s [(F & _) | (_ & n & M & C & E & K)]; [discriminate F|].
        unfold a, c in E. rewrite meets_enough in E by auto. split; auto. exists n, M. auto.
    + apply tri_prop; intros ->. apply tri_ex; intros n. apply tri_ex; intros M. apply tri_prop; intros C. apply tri_or.
      * apply tri_prop; intros E. apply tri_prop; intros ->.
        eapply tri_bind; [eapply tri_exn; [apply (tri_close xs x g true a c (map (mark M) W) e b LX)|]|].
        -- now apply there_mark.
        -- intros y I. destruct (HW y I) as [l V]. exists l. apply in_map_iff. now exists (x_matcher y, AMatcher l).
        -- cbn beta. intros y s [(F & _) _]. discriminate F.
        -- next. apply tri_ret. intros s [(_ & K) | (F & _)]; [|discriminate F]. split; auto. exists n, M. auto.
      * apply tri_prop; intros E. apply tri_prop; intros ->.
        eapply tri_bind; [eapply tri_exn; [apply (tri_close xs x g true a c W e b LX TW HW)|]|].
        -- cbn beta. intros y s [(F & _) _]. discriminate F.
        -- next. apply tri_ret. intros s [(_ & K) | (F & _)]; [|discriminate F]. split; auto. exists n, M. auto 10.
Qed.

(** Inside the scope of the expressions. *)
Lemma frame : forall R e b xs OX Lb b' e', there R (calls b) -> exprs xs OX -> bodied b e Lb b' e' ->
  calls b' = calls b /\ there (OX ++ Lb ++ R) (calls b') /\ has (OX ++ Lb ++ R) xs /\
  forall M, map (mark M) (OX ++ Lb ++ R) = OX ++ Lb ++ map (mark M) R.
Proof.
  intros R e b xs OX Lb b' e' T EX B. assert (CB := calls_bodied _ _ _ _ _ B). split; [exact CB|]. split; [|split].
  - rewrite CB; intros i I; destruct (T i I) as [v V]; exists v. apply in_or_app; right; apply in_or_app; now right.
  - now apply exprs_has.
  - intros M. rewrite !mark_app, (mark_exprs _ _ _ EX), (mark_bodied _ _ _ _ _ _ B). reflexivity.
Qed.

Definition near_end (R Lb : objs_of) (y : error) (R' : objs_of) : Prop := y = OutOfMemory /\ exists J, R' = J ++ Lb ++ R.

Lemma tri_verify : forall q soft R e b, there R (calls b) ->
  tri (st R e b) (verify fails ck q soft)
    (fun v s => exists Lb b' e' R', bodied b e Lb b' e' /\
       (~ refused q /\ exists n M, counted ck (calls b) 0 0 [] (n, M) /\
        ((meets q n /\ v = true /\ R' = Lb ++ map (mark M) R) \/ (~ meets q n /\ v = false /\ soft = true /\ R' = Lb ++ R))) /\
       st R' e' b' s)
    (fun y s => exists Lb b' e' R', bodied b e Lb b' e' /\
       (near_end R Lb y R' \/ (R' = Lb ++ R /\ reason q soft (calls b) y)) /\ st R' e' b' s).
Proof.
  intros q soft R e b T. unfold verify.
  apply (tri_with _ (ck_exprs ck) [] _ R e b
    (fun Lb v R' => ~ refused q /\ exists n M, counted ck (calls b) 0 0 [] (n, M) /\
        ((meets q n /\ v = true /\ R' = Lb ++ map (mark M) R) \/ (~ meets q n /\ v = false /\ soft = true /\ R' = Lb ++ R)))
    (fun Lb y R' => near_end R Lb y R' \/ (R' = Lb ++ R /\ reason q soft (calls b) y))).
  2: { intros J Lb b' e' B. left. split; eauto. }
  intros xs OX Lb b' e' LX EX B. cbn [app].
  destruct (frame R e b xs OX Lb b' e' T EX B) as (CB & TW & HW & MW).
  eapply tri_bind; [eapply tri_exn; [apply tri_open|]|].
  { cbn beta. intros y s [-> [J K]]. exists (J ++ Lb ++ R). split; [left; split; eauto|]. eapply st_perm; [|exact K]. perm. }
  intros x; cbn beta. apply tri_ex; intros g.
  eapply tri_weak; [apply (tri_rest_of q soft xs x g _ e' b' LX TW HW) | intros s K; exact K | |].
  - cbn beta. intros v s (NR & n & M & C & [(E & V & K) | (E & V & SF & K)]); rewrite CB in C.
    + rewrite MW in K. exists (Lb ++ map (mark M) R). split; [|exact K]. split; auto. exists n, M. auto.
    + exists (Lb ++ R). split; [|exact K]. split; auto. exists n, M. auto 10.
  - cbn beta. intros y s [[->|Y] K]; exists (Lb ++ R); (split; [|exact K]).
    + left. split; auto. now exists [].
    + right. rewrite <- CB. auto.
Qed.

(** * Verifications in variables *)
Lemma tri_caught : forall P m Q X Y, tri P m Q X -> tri P (caught m) (fun a s => Q a s \/ exists y, a = Threw y /\ X y s) Y.
Proof. intros P m Q X Y T s K. specialize (T s K). unfold caught. destruct (m s); eauto. Qed.

Lemma tri_steps_done : forall l xs x g a c R e b Y, length xs = length (ck_exprs ck) -> there R (calls b) -> has R xs ->
  tri (st ((x, ACheck g true a c) :: (g, AGroup) :: R) e b) (do_steps fails ck xs x l)
    (fun rs s => (length rs = length l /\ forall j, nth_error l j = Some SBool -> nth_error rs j = Some (Said true)) /\
       exists a' c', st ((x, ACheck g true a' c') :: (g, AGroup) :: R) e b s) Y.
Proof.
  induction l as [|o l IH]; intros xs x g a c R e b Y LX T H; cbn [do_steps].
  - apply tri_ret. intros s K. split; [split; auto; intros [|j]; discriminate | eauto].
  - assert (T1 : there ((g, AGroup) :: R) (calls b)) by (intros i I; destruct (T i I) as [v V]; exists v; now right).
    assert (H1 : has ((g, AGroup) :: R) xs) by (intros y I; destruct (H y I) as [k V]; exists k; now right).
    eapply tri_bind with (Q := fun r s => (o = SBool -> r = Said true) /\ exists a' c', st ((x, ACheck g true a' c') :: (g, AGroup) :: R) e b s).
    + eapply tri_weak; [eapply (tri_caught _ (do_step fails ck xs x o)
          (fun r s => (o = SBool -> r = Said true) /\ exists a' c', st ((x, ACheck g true a' c') :: (g, AGroup) :: R) e b s)
          (fun _ s => o <> SBool /\ exists a' c', st ((x, ACheck g true a' c') :: (g, AGroup) :: R) e b s)) | intros s K; exact K | | intros y s K; exact K].
      * destruct o as [q|]; cbn [do_step].
        -- eapply tri_bind; [eapply tri_exn; [apply tri_quantify|]|].
           ++ cbn beta. intros y s [_ K]. split; [discriminate | eauto].
           ++ next. apply tri_ret. intros s [_ K]. split; [discriminate | eauto].
        -- eapply tri_bind; [eapply tri_exn; [apply (tri_verify_now fails ck xs wr1 wr2 (fun ms m => wr3 xs ms m LX) true x g true a c _ e b T1 H1)|]|].
           ++ cbn beta. intros y s [(F & _) _]. discriminate F.
           ++ intros v; cbn beta. apply tri_ret. intros s [(_ & -> & K) | (n & M & F & _)]; [|discriminate F]. eauto.
      * cbn beta. intros r s [K | (y & -> & N & K)]; [exact K|]. split; [congruence | exact K].
    + intros r; cbn beta. apply tri_prop; intros O. apply tri_ex; intros a'. apply tri_ex; intros c'.
      eapply tri_bind; [apply (IH xs x g a' c' R e b Y LX T H)|]. intros rs; cbn beta. apply tri_prop. intros [L J].
      apply tri_ret. intros s K. split; [|exact K]. split; [cbn; congruence|].
      intros [|j] E; cbn in E |- *; [|now apply J]. injection E as E. now rewrite (O E).
Qed.

(** [a] and [c] stand for the requirement [r]. *)
Definition rep (a : bool) (c : Z) (r : Spec_Verify.requirement) : Prop :=
  match r with
  | Spec_Verify.ReqAny => a = true
  | Spec_Verify.ReqExactly n => a = false /\ c = n /\ (0 <= n)%Z
  | Spec_Verify.ReqAtLeast n => a = false /\ c = (- n)%Z /\ (0 <= n)%Z
  end.
Lemma rep_after : forall q a c r, ~ refused (Some q) -> rep a c r ->
  forall l, exists r', rep (fst (after q a c)) (snd (after q a c)) r' /\ Spec_Verify.in_force r (LQuant q :: l) = Spec_Verify.in_force r' l.
Proof.
  intros q a c r NR RP l. cbn [Spec_Verify.in_force].
  eexists. split; [|reflexivity].
  assert (NN : forall n, q = QExactly n \/ q = QAtLeast n -> (n <? 0)%Z = false).
  { intros n E. apply Z.ltb_ge. destruct (Z.ltb_spec n 0) as [L|L]; auto. destruct NR. exists n. split; auto. destruct E; subst; auto. }
  destruct q; cbn [Spec_Verify.requirement_of after fst snd]; rewrite ?(NN n) by auto; destruct r; cbn [rep] in *; try tauto; try lia.
  all: try (destruct RP as (-> & _); repeat split; lia).
  all: destruct RP as (-> & _); split; auto; split; auto; apply Z.ltb_ge; apply NN; auto.
Qed.
Lemma in_force_refused : forall q r l, refused (Some q) -> Spec_Verify.in_force r (LQuant q :: l) = Spec_Verify.in_force r l.
Proof.
  intros q r l (n & L & [E|E]); injection E as ->; cbn [Spec_Verify.in_force Spec_Verify.requirement_of]; rewrite (proj2 (Z.ltb_lt n 0) L); destruct r; reflexivity.
Qed.
Lemma rep_enough : forall l a c n, rep a c (Spec_Verify.in_force (Spec_Verify.ReqAtLeast 1) (quants l)) -> (enough a c n <-> wanted l n).
Proof.
  intros l a c n. unfold wanted, enough. destruct (Spec_Verify.in_force _ _); cbn [rep].
  - intros ->. tauto.
  - intros (-> & -> & P). split; [intros [K|[K|K]]; [discriminate K | lia | lia] | intros K; right; right; lia].
  - intros (-> & -> & P). destruct (Z.eqb_spec n0 0); (split; [intros [K|[K|K]]; [discriminate K | lia | lia] | intros K; try (right; left; lia); right; right; lia]).
Qed.

Lemma tri_steps_quants : forall l xs x g a c r R e b Y, ~ In SBool l -> rep a c r ->
  tri (st ((x, ACheck g false a c) :: (g, AGroup) :: R) e b) (do_steps fails ck xs x l)
    (fun rs s => length rs = length l /\ exists a' c', rep a' c' (Spec_Verify.in_force r (quants l)) /\ st ((x, ACheck g false a' c') :: (g, AGroup) :: R) e b s) Y.
Proof.
  induction l as [|o l IH]; intros xs x g a c r R e b Y NB RP; cbn [do_steps].
  - apply tri_ret. intros s K. split; auto. exists a, c. auto.
  - destruct o as [q|]; [|destruct NB; now left].
    eapply tri_bind with (Q := fun _ s => exists a' c' r', (rep a' c' r' /\ Spec_Verify.in_force r (quants (SQuant q :: l)) = Spec_Verify.in_force r' (quants l)) /\ st ((x, ACheck g false a' c') :: (g, AGroup) :: R) e b s).
    + eapply tri_weak; [eapply tri_caught; cbn [do_step]; eapply tri_bind; [apply tri_quantify|]; next; apply (tri_ret _ Fine _ (fun _ s => ~ refused (Some q) /\ st ((x, ACheck g false (fst (after q a c)) (snd (after q a c))) :: (g, AGroup) :: R) e b s)); intros s K; exact K | intros s K; exact K | | intros y s K; exact K].
      cbn beta. intros _ s [(NR & K) | (y & _ & (_ & RF) & K)].
      * destruct (rep_after q a c r NR RP (quants l)) as (r' & R1 & R2). exists (fst (after q a c)), (snd (after q a c)), r'. auto.
      * exists a, c, r. split; [|exact K]. split; auto. exact (in_force_refused q r (quants l) RF).
    + next. apply tri_ex; intros a'. apply tri_ex; intros c'. apply tri_ex; intros r'. apply tri_prop; intros [R1 R2].
      eapply tri_bind; [apply (IH xs x g a' c' r' R e b Y); [intros I; apply NB; now right | exact R1]|].
      intros rs; cbn beta. apply tri_prop. intros L. apply tri_ret. intros s K. split; [cbn; congruence|]. rewrite R2. exact K.
Qed.

Lemma do_steps_app : forall xs x l1 l2 s,
  do_steps fails ck xs x (l1 ++ l2) s = (do! r1 := do_steps fails ck xs x l1 in do! r2 := do_steps fails ck xs x l2 in aret (r1 ++ r2)) s.
Proof.
  intros xs x l1 l2. induction l1 as [|o l1 IH]; intros s; cbn [app do_steps].
  - unfold abind. cbn. destruct (do_steps fails ck xs x l2 s); reflexivity.
  - unfold abind. destruct (caught (do_step fails ck xs x o) s) as [s1 a| | |]; auto. rewrite IH. unfold abind.
    destruct (do_steps fails ck xs x l1 s1) as [s2 r1| | |]; auto. cbn.
    destruct (do_steps fails ck xs x l2 s2) as [s3 r2| | |]; auto.
Qed.
Lemma tri_same : forall A (P : state -> Prop) (m m' : AM A) Q X, (forall s, m s = m' s) -> tri P m' Q X -> tri P m Q X.
Proof. intros A P m m' Q X E T s K. rewrite E. now apply T. Qed.

(** What a verification in a variable has come to at its end. *)
Definition decided (pre : list step) (act : list nat) (R Lb : objs_of) (r : reply) (R' : objs_of) : Prop :=
  match r with
  | Said true => exists n M, counted ck act 0 0 [] (n, M) /\ wanted pre n /\ R' = Lb ++ map (mark M) R
  | Said false => (exists n M, counted ck act 0 0 [] (n, M) /\ ~ wanted pre n) /\ R' = Lb ++ R
  | Threw y => (y = OutOfMemory \/ y = UserError /\ thrown ck (length (ck_exprs ck)) act) /\ R' = Lb ++ R
  | Fine => False
  end.

Lemma tri_keep_asked : forall pre post R e b, ~ In SBool pre -> there R (calls b) ->
  tri (st R e b) (keep fails ck (pre ++ SBool :: post))
    (fun rs s => exists Lb b' e' R', bodied b e Lb b' e' /\
       (exists rs1 r rs2, rs = rs1 ++ r :: rs2 /\ length rs1 = length pre /\ length rs2 = length post /\
          (forall j, nth_error post j = Some SBool -> nth_error rs2 j = Some (Said true)) /\ decided pre (calls b) R Lb r R') /\
       st R' e' b' s)
    (fun y s => exists Lb b' e' R', bodied b e Lb b' e' /\ near_end R Lb y R' /\ st R' e' b' s).
Proof.
  intros pre post R e b NB T. unfold keep.
  apply (tri_with _ (ck_exprs ck) [] _ R e b
    (fun Lb rs R' => exists rs1 r rs2, rs = rs1 ++ r :: rs2 /\ length rs1 = length pre /\ length rs2 = length post /\
          (forall j, nth_error post j = Some SBool -> nth_error rs2 j = Some (Said true)) /\ decided pre (calls b) R Lb r R')
    (near_end R)).
  2: { intros J Lb b' e' B. split; eauto. }
  intros xs OX Lb b' e' LX EX B. cbn [app].
  destruct (frame R e b xs OX Lb b' e' T EX B) as (CB & TW & HW & MW). set (W := OX ++ Lb ++ R) in *.
  eapply tri_bind; [eapply tri_exn; [apply tri_open|]|].
  { cbn beta. intros y s [-> [J K]]. exists (J ++ Lb ++ R). split; [split; eauto|]. eapply st_perm; [|exact K]. unfold W. perm. }
  intros x; cbn beta. apply tri_ex; intros g.
  assert (T1 : there ((g, AGroup) :: W) (calls b')) by (intros i I; destruct (TW i I) as [v V]; exists v; now right).
  assert (H1 : has ((g, AGroup) :: W) xs) by (intros y I; destruct (HW y I) as [k V]; exists k; now right).
  eapply tri_bind with (Q := fun rs s => exists rs1 r rs2, (rs = rs1 ++ r :: rs2 /\ length rs1 = length pre /\ length rs2 = length post /\
          (forall j, nth_error post j = Some SBool -> nth_error rs2 j = Some (Said true))) /\
          exists R' W' a c, (decided pre (calls b) R Lb r R' /\ W' = OX ++ R' /\ there W' (calls b') /\ has W' xs) /\ st ((x, ACheck g true a c) :: (g, AGroup) :: W') e' b' s).
  - eapply tri_same; [intros s; apply do_steps_app|].
    eapply tri_bind; [apply (tri_steps_quants pre xs x g false (-1)%Z (Spec_Verify.ReqAtLeast 1)); [exact NB | cbn; repeat split; lia]|].
    intros rs1; cbn beta. apply tri_prop; intros L1. apply tri_ex; intros a. apply tri_ex; intros c. apply tri_prop; intros RP.
    cbn [do_steps do_step].
    assert (REST : forall r R' W', decided pre (calls b) R Lb r R' -> W' = OX ++ R' -> there W' (calls b') -> has W' xs ->
      tri (st ((x, ACheck g true a c) :: (g, AGroup) :: W') e' b')
        (do! rest := do_steps fails ck xs x post in aret (r :: rest))
        (fun l s => exists rs2, (l = r :: rs2 /\ length rs2 = length post /\ (forall j, nth_error post j = Some SBool -> nth_error rs2 j = Some (Said true))) /\
           exists a c, st ((x, ACheck g true a c) :: (g, AGroup) :: W') e' b' s)
        (fun y s => exists R0, near_end R Lb y R0 /\ st (OX ++ R0) e' b' s)).
    { intros r R' W' D E TW' HW'. eapply tri_bind; [apply (tri_steps_done post xs x g a c W' e' b' _ LX TW' HW')|].
      intros rs2; cbn beta. apply tri_prop; intros [L2 J2]. apply tri_ret. intros s K. exists rs2. auto. }
    eapply tri_bind with (Q := fun l s => exists r rs2 R' W', (decided pre (calls b) R Lb r R' /\ W' = OX ++ R' /\ there W' (calls b') /\ has W' xs) /\
        (l = r :: rs2 /\ length rs2 = length post /\ (forall j, nth_error post j = Some SBool -> nth_error rs2 j = Some (Said true))) /\
           exists a c, st ((x, ACheck g true a c) :: (g, AGroup) :: W') e' b' s).
    + eapply tri_bind with (Q := fun r s => exists R' W', (decided pre (calls b) R Lb r R' /\ W' = OX ++ R' /\ there W' (calls b') /\ has W' xs) /\ st ((x, ACheck g true a c) :: (g, AGroup) :: W') e' b' s).
      * eapply tri_weak; [eapply (tri_caught _ _ (fun r s => exists v, r = Said v /\ ((false = true /\ v = true /\ st ((x, ACheck g true a c) :: (g, AGroup) :: W) e' b' s) \/
           exists n M, false = false /\ counted ck (calls b') 0 0 [] (n, M) /\
           ((enough a c n /\ v = true /\ st ((x, ACheck g true a c) :: map (mark M) ((g, AGroup) :: W)) e' b' s) \/
            (~ enough a c n /\ v = false /\ true = true /\ st ((x, ACheck g true a c) :: (g, AGroup) :: W) e' b' s))))) | intros s K; exact K | | intros y s K; exact K].
        -- eapply tri_bind; [apply (tri_verify_now fails ck xs wr1 wr2 (fun ms m => wr3 xs ms m LX) true x g false a c _ e' b' T1 H1)|].
           intros v; cbn beta. apply tri_ret. intros s K. exists v. split; auto.
        -- cbn beta. intros r s [(v & -> & [(F & _) | (n & M & _ & C & [(E & -> & K) | (E & -> & _ & K)])]) | (y & -> & (_ & Y) & K)].
           ++ discriminate F.
           ++ rewrite CB in C. rewrite (rep_enough pre) in E by exact RP.
              exists (Lb ++ map (mark M) R), (map (mark M) W). split; [|exact K]. split; [exists n, M; auto|]. split; [apply MW|].
              split; [now apply there_mark|]. intros y I. destruct (HW y I) as [k V]. exists k. apply in_map_iff. now exists (x_matcher y, AMatcher k).
           ++ rewrite CB in C. rewrite (rep_enough pre) in E by exact RP. exists (Lb ++ R), W. split; [|exact K]. split; [|auto].
              split; [exists n, M; auto | reflexivity].
           ++ exists (Lb ++ R), W. split; [|exact K]. split; [|auto]. split; [|reflexivity]. rewrite CB, LX in Y.
              destruct Y as [Y|[Y|(_ & F & _)]]; auto. discriminate F.
      * intros r; cbn beta. apply tri_ex; intros R'. apply tri_ex; intros W'. apply tri_prop; intros (D & E & TW' & HW').
        eapply tri_weak; [apply (REST r R' W' D E TW' HW') | intros s K; exact K | | intros y s K; exact K].
        cbn beta. intros l s (rs2 & A1 & A2). exists r, rs2, R', W'. auto.
    + intros l; cbn beta. apply tri_ex; intros r. apply tri_ex; intros rs2. apply tri_ex; intros R'. apply tri_ex; intros W'.
      apply tri_prop; intros D. apply tri_prop; intros (-> & L2 & J2). apply tri_ret. intros s (a' & c' & K).
      exists rs1, r, rs2. split; auto. exists R', W', a', c'. auto.
  - intros rs; cbn beta. apply tri_ex; intros rs1. apply tri_ex; intros r. apply tri_ex; intros rs2.
    apply tri_prop; intros (-> & L1 & L2 & J2). apply tri_ex; intros R'. apply tri_ex; intros W'. apply tri_ex; intros a. apply tri_ex; intros c.
    apply tri_prop; intros (D & -> & TW' & HW').
    eapply tri_bind; [eapply tri_exn; [apply (tri_close xs x g true a c (OX ++ R') e' b' LX TW' HW')|]|].
    + cbn beta. intros y s [(F & _) _]. discriminate F.
    + next. apply tri_ret. intros s [(_ & K) | (F & _)]; [|discriminate F]. exists R'. split; [|exact K].
      exists rs1, r, rs2. auto 10.
Qed.

Lemma tri_keep_end : forall l R e b, ~ In SBool l -> there R (calls b) ->
  tri (st R e b) (keep fails ck l)
    (fun rs s => exists Lb b' e' R', bodied b e Lb b' e' /\
       (exists n M, counted ck (calls b) 0 0 [] (n, M) /\ wanted l n /\ R' = Lb ++ map (mark M) R) /\ st R' e' b' s)
    (fun y s => exists Lb b' e' R', bodied b e Lb b' e' /\
       (near_end R Lb y R' \/ (R' = Lb ++ R /\ (y = UserError /\ thrown ck (length (ck_exprs ck)) (calls b) \/
          y = Failed /\ exists n M, counted ck (calls b) 0 0 [] (n, M) /\ ~ wanted l n))) /\ st R' e' b' s).
Proof.
  intros l R e b NB T. unfold keep.
  apply (tri_with _ (ck_exprs ck) [] _ R e b
    (fun Lb _ R' => exists n M, counted ck (calls b) 0 0 [] (n, M) /\ wanted l n /\ R' = Lb ++ map (mark M) R)
    (fun Lb y R' => near_end R Lb y R' \/ (R' = Lb ++ R /\ (y = UserError /\ thrown ck (length (ck_exprs ck)) (calls b) \/
          y = Failed /\ exists n M, counted ck (calls b) 0 0 [] (n, M) /\ ~ wanted l n)))).
  2: { intros J Lb b' e' B. left. split; eauto. }
  intros xs OX Lb b' e' LX EX B. cbn [app].
  destruct (frame R e b xs OX Lb b' e' T EX B) as (CB & TW & HW & MW). set (W := OX ++ Lb ++ R) in *.
  eapply tri_bind; [eapply tri_exn; [apply tri_open|]|].
  { cbn beta. intros y s [-> [J K]]. exists (J ++ Lb ++ R). split; [left; split; eauto|]. eapply st_perm; [|exact K]. unfold W. perm. }
  intros x; cbn beta. apply tri_ex; intros g.
  eapply tri_bind; [apply (tri_steps_quants l xs x g false (-1)%Z (Spec_Verify.ReqAtLeast 1)); [exact NB | cbn; repeat split; lia]|].
  intros rs; cbn beta. apply tri_prop; intros _. apply tri_ex; intros a. apply tri_ex; intros c. apply tri_prop; intros RP.
  eapply tri_bind; [eapply tri_exn; [apply (tri_close xs x g false a c W e' b' LX TW HW)|]|].
  - cbn beta. intros y s [(_ & Y) K]. exists (Lb ++ R). split; [|exact K]. rewrite CB, LX in Y.
    destruct Y as [->|[Y|(Y & n & M & C & E)]]; [left; split; auto; now exists [] | right; auto |].
    right. split; auto. right. split; auto. exists n, M. rewrite (rep_enough l) in E by exact RP. auto.
  - next. apply tri_ret. intros s [(F & _) | (_ & n & M & C & E & K)]; [discriminate F|].
    rewrite MW in K. rewrite CB in C. rewrite (rep_enough l) in E by exact RP.
    exists (Lb ++ map (mark M) R). split; [|exact K]. exists n, M. auto.
Qed.
End Stmt.
End With.
