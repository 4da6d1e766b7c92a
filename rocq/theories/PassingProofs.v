(** Proofs for C113. *)
From Coq Require Import Bool Arith Lia List.
From Verif Require Import Base Passing Spec_Passing.
Import ListNotations.

Lemma put_length l : forall i c, length (put l i c) = length l.
Proof. induction l as [|x l IH]; intros [|i] c; cbn; auto. Qed.
Lemma put_same l : forall i c, i < length l -> nth_error (put l i c) i = Some c.
Proof. induction l as [|x l IH]; intros [|i] c L; cbn in *; try lia; auto. apply IH. lia. Qed.
Lemma put_other l : forall i j c, i <> j -> nth_error (put l i c) j = nth_error l j.
Proof. induction l as [|x l IH]; intros [|i] [|j] c N; cbn; auto; try lia. Qed.

Lemma fold_put_length ls : forall cs, length (fold_left (fun cs l => put cs l Gone) ls cs) = length cs.
Proof. induction ls as [|l ls IH]; intros cs; cbn; [reflexivity|]. rewrite IH. apply put_length. Qed.
Lemma fold_put_gone ls : forall cs l, nth_error cs l = Some Gone -> nth_error (fold_left (fun cs l => put cs l Gone) ls cs) l = Some Gone.
Proof.
  induction ls as [|x ls IH]; intros cs l H; cbn; [exact H|]. apply IH. destruct (Nat.eq_dec x l) as [->|N].
  - apply put_same. apply nth_error_Some. congruence.
  - rewrite put_other; assumption.
Qed.
Lemma fold_put_in ls : forall cs l, In l ls -> l < length cs -> nth_error (fold_left (fun cs l => put cs l Gone) ls cs) l = Some Gone.
Proof.
  induction ls as [|x ls IH]; intros cs l H L; cbn; [contradiction H|]. destruct H as [->|H].
  - apply fold_put_gone. apply put_same. exact L.
  - apply IH; [exact H|rewrite put_length; exact L].
Qed.
Lemma fold_put_other ls : forall cs l, ~ In l ls -> nth_error (fold_left (fun cs l => put cs l Gone) ls cs) l = nth_error cs l.
Proof.
  induction ls as [|x ls IH]; intros cs l H; cbn; [reflexivity|]. rewrite IH by (intros X; apply H; right; exact X).
  apply put_other. intros ->. apply H. left. reflexivity.
Qed.

Section Proofs.
Variable throws : nat -> bool.
Notation triple := (mode * category * nat)%type.

Definition loc (x : triple) : nat := snd x.
Definition takes (x : triple) : Prop := fst x = (ByValue true, Xvalue).
Definition fits (x : triple) : Prop := match fst x with (ByRef, Xvalue) | (ByRvalue, Lvalue) => False | _ => True end.
Definition is_value (x : triple) : bool := match fst (fst x) with ByValue _ => true | _ => false end.
Fixpoint apart (xs : list triple) : Prop :=
  match xs with [] => True | x :: r => Forall (fun y => takes x \/ takes y -> loc x <> loc y) r /\ apart r end.
Definition alive (s : st) (x : triple) : Prop := exists c, content s (loc x) = Some c /\ c <> Gone.

Definition ev (x : triple) (r : nat) : list event :=
  match fst x with (ByValue true, Xvalue) => [Moved (loc x) r] | (ByValue _, _) => [Copied (loc x) r] | _ => [] end.
Fixpoint evs (xs : list triple) (rs : list nat) : list event :=
  match xs, rs with x :: xs, r :: rs => ev x r ++ evs xs rs | _, _ => [] end.

Definition became (s s' : st) (x : triple) (r : nat) : Prop :=
  content s' r = content s (loc x) /\ if is_value x then length (cells s) <= r /\ r < length (cells s') else r = loc x.
Definition frame (xs : list triple) (s s' : st) : Prop :=
  length (cells s) <= length (cells s') /\ calls s' = calls s /\ ordinal s' = ordinal s /\
  forall l, l < length (cells s) -> (forall x, In x xs -> takes x -> loc x <> l) -> content s' l = content s l.

Lemma alive_lt s x : alive s x -> loc x < length (cells s).
Proof. intros (c & C & _). apply nth_error_Some. unfold content in C. congruence. Qed.

(** One variable. *)
Lemma init_spec m c l s : fits (m, c, l) -> alive s (m, c, l) ->
  (exists s' r, init throws m c l s = Fine s' r /\ became s s' (m, c, l) r /\ frame [(m, c, l)] s s' /\ events s' = events s ++ ev (m, c, l) r /\
     (takes (m, c, l) -> content s' l = Some Hollow) /\ (is_value (m, c, l) = true -> length (cells s') = S (length (cells s)) /\ r = length (cells s)) /\
     (is_value (m, c, l) = false -> s' = s)) \/
  (init throws m c l s = Raised s /\ exists n, throws n = true).
Proof.
  intros Ft Al. pose proof (alive_lt s _ Al) as Lt. cbn in Lt. destruct Al as (x & X & G). cbn in X. unfold content in X.
  destruct m as [mv| |].
  - cbn [init]. unfold construct. rewrite X. destruct (throws (length (events s))) eqn:Th.
    { right. split; [destruct x; [reflexivity|reflexivity|contradiction G; reflexivity]|eauto]. }
    left.
    assert (forall e, exists s' r,
      Fine (mkSt (cells s ++ [x]) (events s ++ [Copied l (length (cells s))]) (calls s) (ordinal s)) (length (cells s)) = Fine s' r /\
      became s s' (ByValue mv, c, l) r /\ frame e s s' /\ events s' = events s ++ [Copied l r] /\
      (length (cells s') = S (length (cells s)) /\ r = length (cells s))) as Cp.
    { intros e. do 2 eexists. split; [reflexivity|]. unfold became, frame, content. cbn. rewrite app_length. cbn.
      rewrite nth_error_app2, Nat.sub_diag by lia. cbn. repeat split; try lia; try congruence.
      intros l0 L0 _. apply nth_error_app1. exact L0. }
    destruct (match c, mv with Xvalue, true => true | _, _ => false end) eqn:K.
    + destruct c; [discriminate K|]. destruct mv; [|discriminate K]. exists (mkSt (put (cells s) l Hollow ++ [x]) (events s ++ [Moved l (length (cells s))]) (calls s) (ordinal s)), (length (cells s)).
      split; [destruct x; try reflexivity; contradiction G; reflexivity|]. unfold became, frame, content. cbn. rewrite app_length, put_length. cbn.
      rewrite nth_error_app2 by (rewrite put_length; lia). rewrite put_length, Nat.sub_diag. cbn.
      split; [split; [congruence|lia]|]. split.
      { split; [lia|]. split; [reflexivity|]. split; [reflexivity|]. intros l0 L0 N. rewrite nth_error_app1 by (rewrite put_length; exact L0).
        apply put_other. apply (N (ByValue true, Xvalue, l)); [left; reflexivity|reflexivity]. }
      split; [reflexivity|]. split; [intros _; rewrite nth_error_app1 by (rewrite put_length; exact Lt); apply put_same; exact Lt|].
      split; [intros _; split; [lia|reflexivity]|discriminate].
    + destruct (Cp [(ByValue mv, c, l)]) as (s' & r & E & B & F & Ev & Le & R).
      exists s', r. split; [rewrite <- E; destruct x; try (contradiction G; reflexivity); destruct c, mv; try discriminate K; reflexivity|].
      split; [exact B|]. split; [exact F|]. split; [rewrite Ev; destruct c, mv; try discriminate K; reflexivity|].
      split; [intros T; unfold takes in T; cbn in T; injection T as -> ->; discriminate K|]. split; [intros _; split; [exact Le|exact R]|discriminate].
  - left. destruct c; [|contradiction Ft]. cbn [init]. exists s, l. split; [reflexivity|].
    split; [split; reflexivity|]. split; [repeat split; try lia|]. split; [cbn; rewrite app_nil_r; reflexivity|]. split; [intros T; discriminate T|].
    split; [discriminate|reflexivity].
  - left. destruct c; [contradiction Ft|]. cbn [init]. exists s, l. split; [reflexivity|].
    split; [split; reflexivity|]. split; [repeat split; try lia|]. split; [cbn; rewrite app_nil_r; reflexivity|]. split; [intros T; discriminate T|].
    split; [discriminate|reflexivity].
Qed.

Definition fine_all (xs : list triple) (s s' : st) (rs : list nat) : Prop :=
  Forall2 (became s s') xs rs /\ frame xs s s' /\ events s' = events s ++ evs xs rs /\
  (forall x, In x xs -> takes x -> content s' (loc x) = Some Hollow) /\
  (forall i j x r, nth_error xs i = Some x -> is_value x = true -> nth_error rs i = Some r -> nth_error rs j = Some r -> i = j).
Definition raised_all (xs : list triple) (made : list nat) (base : nat) (s s' : st) : Prop :=
  (exists n, throws n = true) /\ calls s' = calls s /\ ordinal s' = ordinal s /\
  (forall l, base <= l -> content s' l = None \/ content s' l = Some Gone) /\
  (forall l, l < base -> ~ In l made -> content s' l = content s l \/ content s' l = Some Hollow).

Lemma forall2_len {A B} (R : A -> B -> Prop) l l' : Forall2 R l l' -> length l = length l'.
Proof. intros F. induction F; cbn; congruence. Qed.
Lemma forall2_nth {A B} (R : A -> B -> Prop) l l' : Forall2 R l l' -> forall k b, nth_error l' k = Some b -> exists a, nth_error l k = Some a /\ R a b.
Proof.
  intros F. induction F as [|a b l l' H F IH]; intros [|k] q K; cbn in K; try discriminate K.
  - injection K as <-. exists a. split; [reflexivity|exact H].
  - apply IH. exact K.
Qed.

Lemma Forall_forall2_became s s1 s2 xs rs : length (cells s) <= length (cells s1) -> (forall y, In y xs -> content s1 (loc y) = content s (loc y)) ->
  Forall2 (became s1 s2) xs rs -> Forall2 (became s s2) xs rs.
Proof.
  intros L Same F. induction F as [|x r xs rs [B1 B2] F IH]; constructor.
  - split; [rewrite B1; apply Same; left; reflexivity|]. destruct (is_value x); [lia|exact B2].
  - apply IH. intros y Y. apply Same. right. exact Y.
Qed.

Lemma init_all_spec base : forall xs made s, Forall fits xs -> apart xs -> Forall (alive s) xs -> base <= length (cells s) ->
  (forall l, base <= l -> l < length (cells s) -> In l made) ->
  (exists s' rs, init_all throws xs made s = Fine s' rs /\ fine_all xs s s' rs) \/
  (exists s', init_all throws xs made s = Raised s' /\ raised_all xs made base s s').
Proof.
  induction xs as [|[[m c] l] xs IH]; intros made s F A Al B Cov; cbn [init_all].
  - left. exists s, []. split; [reflexivity|]. split; [constructor|]. split; [repeat split; lia|]. split; [cbn; rewrite app_nil_r; reflexivity|].
    split; [intros x X; contradiction X|]. intros [|i] j x r X; discriminate X.
  - inversion F as [|x0 r0 F1 F2 Ex]. destruct A as [A1 A2]. inversion Al as [|x1 r1 Al1 Al2 Ey].
    destruct (init_spec m c l s F1 Al1) as [(s1 & r & E & Be & Fr & Ev & Tk & Val & Ref)|(E & Th)]; rewrite E.
    2:{ right. eexists. split; [reflexivity|]. split; [exact Th|]. split; [reflexivity|]. split; [reflexivity|]. unfold content, destroy. cbn. split.
        - intros k K. destruct (Nat.lt_ge_cases k (length (cells s))) as [L|L].
          + right. apply fold_put_in; [apply Cov; assumption|exact L].
          + left. apply nth_error_None. rewrite fold_put_length. exact L.
        - intros k K N. left. apply fold_put_other. exact N. }
    destruct Fr as (L1 & Ca & Or & Un). rewrite Forall_forall in A1, Al2.
    assert (forall y, In y xs -> content s1 (loc y) = content s (loc y)) as Same.
    { intros y Y. apply Un; [apply alive_lt; apply Al2; exact Y|]. intros x [<-|X] T; [|contradiction X]. apply A1; [exact Y|left; exact T]. }
    destruct (IH (match m with ByValue _ => r :: made | _ => made end) s1) as [(s2 & rs & E2 & Fi)|(s2 & E2 & Ra)].
    + exact F2.
    + exact A2.
    + apply Forall_forall. intros y Y. destruct (Al2 y Y) as (k & K & G). exists k. split; [rewrite Same; assumption|exact G].
    + lia.
    + intros k K1 K2. destruct m as [mv| |].
      * destruct (Val eq_refl) as [V1 V2]. destruct (Nat.eq_dec k r) as [->|N]; [left; reflexivity|right; apply Cov; lia].
      * rewrite (Ref eq_refl) in K2. apply Cov; assumption.
      * rewrite (Ref eq_refl) in K2. apply Cov; assumption.
    + left. rewrite E2. exists s2, (r :: rs). split; [reflexivity|]. destruct Fi as (B2 & (L2 & Ca2 & Or2 & Un2) & Ev2 & Tk2 & Di).
      split; [|split; [|split; [|split]]].
      * constructor.
        -- destruct Be as [Be1 Be2]. split.
           ++ rewrite <- Be1. apply Un2.
              ** destruct (is_value (m, c, l)); [lia|]. rewrite Be2. pose proof (alive_lt s _ Al1). cbn in *. lia.
              ** intros y Y T Q. destruct (is_value (m, c, l)) eqn:V.
                 --- destruct (Val eq_refl) as [_ V2]. pose proof (alive_lt s _ (Al2 y Y)). lia.
                 --- rewrite Be2 in Q. apply (A1 y Y); [right; exact T|]. cbn in *. congruence.
           ++ destruct (is_value (m, c, l)); [lia|exact Be2].
        -- apply Forall_forall2_became with (s1 := s1); assumption.
      * split; [lia|]. split; [congruence|]. split; [congruence|]. intros k K N. rewrite Un2.
        -- apply Un; [exact K|]. intros x [<-|X] T; [|contradiction X]. apply N; [left; reflexivity|exact T].
        -- lia.
        -- intros x X T. apply N; [right; exact X|exact T].
      * rewrite Ev2, Ev. cbn [evs]. rewrite app_assoc. reflexivity.
      * intros x [<-|X] T; [|apply Tk2; assumption]. rewrite Un2.
        -- apply Tk. exact T.
        -- pose proof (alive_lt s _ Al1). cbn in *. lia.
        -- intros y Y T2 Q. apply (A1 y Y); [left; exact T|]. symmetry. exact Q.
      * assert (forall k q, nth_error rs k = Some q -> exists y, nth_error xs k = Some y /\ In y xs /\ became s1 s2 y q) as Nth.
        { intros k q K. destruct (forall2_nth _ _ _ B2 k q K) as (y & Y & Yb). exists y. split; [exact Y|]. split; [eapply nth_error_In; exact Y|exact Yb]. }
        intros i j x q X V Q1 Q2. destruct i as [|i], j as [|j]; cbn in X, Q1, Q2.
        -- reflexivity.
        -- exfalso. injection X as <-. injection Q1 as ->. destruct (Val V) as [V1 V2]. destruct (Nth j q Q2) as (y & Y & Yi & _ & Yb).
           destruct (is_value y); [lia|]. pose proof (alive_lt s _ (Al2 y Yi)). lia.
        -- exfalso. injection Q2 as ->. destruct (Nth i q Q1) as (y & Y & Yi & _ & Yb). rewrite X in Y. injection Y as <-. rewrite V in Yb.
           destruct Be as [_ Be2]. destruct (is_value (m, c, l)); [lia|]. pose proof (alive_lt s _ Al1). lia.
        -- f_equal. exact (Di i j x q X V Q1 Q2).
    + right. rewrite E2. exists s2. split; [reflexivity|]. destruct Ra as (Th & Ca2 & Or2 & Go & Un2).
      split; [exact Th|]. split; [congruence|]. split; [congruence|]. split; [exact Go|]. intros k K N.
      assert (~ In k (match m with ByValue _ => r :: made | _ => made end)) as N'.
      { destruct m as [mv| |]; [|exact N|exact N]. intros [Q|Q]; [|contradiction (N Q)]. destruct (Val eq_refl). lia. }
      destruct (Un2 k K N') as [HH|HH].
      * rewrite HH. clear HH.
        assert ((m, c) = (ByValue true, Xvalue) /\ l = k \/ ~ ((m, c) = (ByValue true, Xvalue) /\ l = k)) as [[T ->]|T].
        { destruct (Nat.eq_dec l k) as [->|X]; [|right; intros [_ Y]; contradiction (X Y)].
          destruct m as [[|]| |]; destruct c; try (right; intros [Y _]; discriminate Y). left. split; reflexivity. }
        -- right. apply Tk. exact T.
        -- left. apply Un; [lia|]. intros x [<-|X] Tx E3; [|contradiction X]. apply T. split; [exact Tx|exact E3].
      * right. exact HH.
Qed.

(** References are passed on as they are. *)
Lemma passed_on made s : forall ms ls, length ls = length ms -> init_all throws (forwarded production_arg production_arg ms ls) made s = Fine s ls.
Proof.
  induction ms as [|m ms IH]; intros [|l ls] L; try discriminate L; [reflexivity|]. injection L as L. unfold forwarded. cbn [combine map init_all fst snd].
  assert (init throws (production_arg m) (forward (production_arg m)) l s = Fine s l) as -> by (destruct m; reflexivity).
  destruct m; cbn [production_arg]; fold (forwarded production_arg production_arg ms ls); rewrite (IH ls L); reflexivity.
Qed.
Lemma given_on made s : forall ms ls, length ls = length ms -> init_all throws (named test_arg ms ls) made s = Fine s ls.
Proof.
  induction ms as [|m ms IH]; intros [|l ls] L; try discriminate L; [reflexivity|]. injection L as L. unfold named. cbn [combine map init_all fst snd test_arg init].
  fold (named test_arg ms ls). rewrite (IH ls L). reflexivity.
Qed.

(** The two ways of making objects. *)
Definition way (w : mode -> category) (ms : list mode) (ls : list nat) : list triple := map (fun x => (fst x, w (fst x), snd x)) (combine ms ls).
Lemma forwarded_way ms ls : forwarded itself itself ms ls = way forward ms ls. Proof. reflexivity. Qed.
Lemma named_way ms ls : named itself ms ls = way (fun _ => Lvalue) ms ls. Proof. reflexivity. Qed.

Lemma way_nth w ms : forall ls i m l, nth_error ms i = Some m -> nth_error ls i = Some l -> nth_error (way w ms ls) i = Some (m, w m, l).
Proof.
  induction ms as [|m0 ms IH]; intros [|l0 ls] [|i] m l M L; cbn in *; try discriminate.
  - congruence.
  - apply IH; assumption.
Qed.
Lemma way_in w ms : forall ls x, In x (way w ms ls) -> exists i m l, nth_error ms i = Some m /\ nth_error ls i = Some l /\ x = (m, w m, l).
Proof.
  induction ms as [|m0 ms IH]; intros [|l0 ls] x X; try contradiction X. destruct X as [<-|X].
  - exists 0, m0, l0. repeat split.
  - destruct (IH ls x X) as (i & m & l & M & L & E). exists (S i), m, l. repeat split; assumption.
Qed.
Lemma way_length w ms : forall ls, length ls = length ms -> length (way w ms ls) = length ms.
Proof. intros ls L. unfold way. rewrite map_length, combine_length. lia. Qed.

Lemma way_apart w ms : forall ls, (forall i j m l, nth_error ms i = Some m -> takes (m, w m, l) -> nth_error ls i = Some l -> nth_error ls j = Some l -> i = j) -> apart (way w ms ls).
Proof.
  induction ms as [|m ms IH]; intros [|l ls] H; try exact Logic.I. split.
  - apply Forall_forall. intros y Y. apply way_in in Y. destruct Y as (i & m' & l' & M & L & ->). cbn. intros [T|T] E; subst l'.
    + specialize (H 0 (S i) m l eq_refl T eq_refl L). discriminate H.
    + specialize (H (S i) 0 m' l M T L eq_refl). discriminate H.
  - apply IH. intros i j m' l' M T L1 L2. specialize (H (S i) (S j) m' l' M T L1 L2). lia.
Qed.

Lemma way_stand w ms ls s s' rs : length ls = length ms -> Forall2 (became s s') (way w ms ls) rs -> stand_for ms s ls s' rs.
Proof.
  intros L F. split; [rewrite <- (forall2_len _ _ _ F); apply way_length; exact L|]. intros i m l M N.
  pose proof (way_nth w ms ls i m l M N) as W. assert (exists r, nth_error rs i = Some r) as [r R].
  { destruct (nth_error rs i) eqn:E; [eauto|]. apply nth_error_None in E. rewrite <- (forall2_len _ _ _ F) in E. apply nth_error_None in E. congruence. }
  exists r. split; [exact R|]. destruct (forall2_nth _ _ _ F i r R) as (y & Y & B1 & B2). rewrite W in Y. injection Y as <-. split; [exact B1|].
  destruct m; cbn in B2; [lia|exact B2|exact B2].
Qed.

Lemma evs_moves ms : forall ls rs, evs (way forward ms ls) rs = moves ms ls rs.
Proof. induction ms as [|m ms IH]; intros [|l ls] [|r rs]; try reflexivity. cbn. fold (way forward ms ls). rewrite IH. destruct m as [[|]| |]; reflexivity. Qed.
Lemma evs_copies ms : forall ls rs, evs (way (fun _ => Lvalue) ms ls) rs = copies ms ls rs.
Proof. induction ms as [|m ms IH]; intros [|l ls] [|r rs]; try reflexivity. cbn. fold (way (fun _ => Lvalue) ms ls). rewrite IH. destruct m as [[|]| |]; reflexivity. Qed.

Lemma stand_usable ms ls s s' rs : usable ms ls s -> stand_for ms s ls s' rs ->
  (forall i j x r, nth_error (way forward ms ls) i = Some x -> is_value x = true -> nth_error rs i = Some r -> nth_error rs j = Some r -> i = j) -> usable ms rs s'.
Proof.
  intros [Le Al Ow] [L H] Di. split; [exact L| |].
  - intros r R. apply In_nth_error in R. destruct R as [i R].
    assert (exists m, nth_error ms i = Some m) as [m M].
    { destruct (nth_error ms i) eqn:E; [eauto|]. apply nth_error_None in E. assert (i < length rs) by (apply nth_error_Some; congruence). lia. }
    assert (exists l, nth_error ls i = Some l) as [l N].
    { destruct (nth_error ls i) eqn:E; [eauto|]. apply nth_error_None in E. assert (i < length rs) by (apply nth_error_Some; congruence). lia. }
    destruct (H i m l M N) as (r' & R' & C & _). rewrite R in R'. injection R' as <-. rewrite C. apply Al. eapply nth_error_In. exact N.
  - intros i j b r M R1 R2. assert (exists l, nth_error ls i = Some l) as [l N].
    { destruct (nth_error ls i) eqn:E; [eauto|]. apply nth_error_None in E. assert (i < length ms) by (apply nth_error_Some; congruence). lia. }
    apply (Di i j (ByValue b, Xvalue, l) r); [exact (way_nth forward ms ls i (ByValue b) l M N)|reflexivity|exact R1|exact R2].
Qed.

Lemma usable_alive w ms ls s : usable ms ls s -> Forall (alive s) (way w ms ls).
Proof.
  intros U. apply Forall_forall. intros x X. apply way_in in X. destruct X as (i & m & l & M & L & ->). apply (us_alive _ _ _ U). eapply nth_error_In. exact L.
Qed.
Lemma usable_apart w ms ls s : usable ms ls s -> apart (way w ms ls).
Proof.
  intros U. apply way_apart. intros i j m l M T L1 L2. unfold takes in T. cbn in T. injection T as -> _. exact (us_own _ _ _ U i j true l M L1 L2).
Qed.

(** What is left out of a call: the forwarding of references. *)
Definition core (a : answer) (ms : list mode) (ls : list nat) (s : st) : res (list nat * list nat) :=
  and_then (init_all throws (way forward ms ls) [] (next_ordinal s)) (fun s4 rec =>
  and_then (match a with Function => Fine (record rec s4) rec | Copying => init_all throws (way (fun _ => Lvalue) ms rec) [] (record rec s4)
                       | Forwarding => init_all throws (way forward ms rec) [] (record rec s4) end) (fun s5 given => Fine s5 (rec, given))).
Lemma init_all_length : forall xs made s s' rs, init_all throws xs made s = Fine s' rs -> length rs = length xs.
Proof.
  induction xs as [|[[m c] l] xs IH]; intros made s s' rs H; cbn [init_all] in H; [injection H as <- <-; reflexivity|].
  destruct (init throws m c l s) as [s1 r|s1| |]; try discriminate H.
  destruct (init_all throws xs (match m with ByValue _ => r :: made | _ => made end) s1) as [s2 rs2|s2| |] eqn:E; try discriminate H.
  injection H as <- <-. cbn. f_equal. eapply IH. exact E.
Qed.
Lemma call_core a ms ls s : length ls = length ms -> call throws a ms ls s = core a ms ls s.
Proof.
  intros L. unfold call. rewrite (passed_on _ _ ms ls L). cbn [and_then]. rewrite (passed_on _ _ ms ls L). cbn [and_then]. rewrite (passed_on _ _ ms ls L). cbn [and_then].
  unfold core. rewrite forwarded_way. destruct (init_all throws (way forward ms ls) [] (next_ordinal s)) as [s4 rec|s4| |] eqn:E; try reflexivity. cbn [and_then].
  apply init_all_length in E. rewrite way_length in E by exact L. unfold give. rewrite (given_on _ _ ms rec E). cbn [and_then]. destruct a; reflexivity.
Qed.

Lemma usable_next ms ls s : usable ms ls s -> usable ms ls (next_ordinal s).
Proof. intros [A B C]. split; assumption. Qed.
Lemma usable_record ms ls s r : usable ms ls s -> usable ms ls (record r s).
Proof. intros [A B C]. split; assumption. Qed.
Lemma fits_forward ms ls : Forall fits (way forward ms ls).
Proof. apply Forall_forall. intros x X. apply way_in in X. destruct X as (i & m & l & _ & _ & ->). destruct m; exact Logic.I. Qed.
Lemma fits_named ms ls : ~ In ByRvalue ms -> Forall fits (way (fun _ => Lvalue) ms ls).
Proof.
  intros N. apply Forall_forall. intros x X. apply way_in in X. destruct X as (i & m & l & M & _ & ->).
  destruct m; [exact Logic.I|exact Logic.I|]. contradiction N. eapply nth_error_In. exact M.
Qed.

(** The record is made, or not. *)
Lemma recording ms ls s : usable ms ls s ->
  (exists s' rec, init_all throws (way forward ms ls) [] (next_ordinal s) = Fine s' rec /\ fine_all (way forward ms ls) (next_ordinal s) s' rec /\
     stand_for ms s ls s' rec /\ usable ms rec s') \/
  (exists s', init_all throws (way forward ms ls) [] (next_ordinal s) = Raised s' /\ raised_all (way forward ms ls) [] (length (cells s)) (next_ordinal s) s').
Proof.
  intros U. pose proof (usable_next _ _ _ U) as U'.
  destruct (init_all_spec (length (cells s)) (way forward ms ls) [] (next_ordinal s)) as [(s' & rec & E & F)|(s' & E & R)].
  - apply fits_forward. 
  - eapply usable_apart. exact U'.
  - apply usable_alive. exact U'.
  - cbn. lia.
  - cbn. intros l L1 L2. lia.
  - left. exists s', rec. split; [exact E|]. split; [exact F|]. destruct F as (B & Fr & Ev & Tk & Di).
    assert (stand_for ms s ls s' rec) as St by (apply way_stand with (w := forward) (s := next_ordinal s); [apply (us_length _ _ _ U)|exact B]).
    split; [exact St|]. eapply stand_usable; [exact U|exact St|exact Di].
  - right. exists s'. split; assumption.
Qed.

Lemma untouched_forward ms ls s s' : frame (way forward ms ls) s s' ->
  forall l, l < length (cells s) -> (forall i b, nth_error ms i = Some (ByValue b) -> nth_error ls i <> Some l) -> content s' l = content s l.
Proof.
  intros (_ & _ & _ & Un) l L H. apply Un; [exact L|]. intros x X T E. apply way_in in X. destruct X as (i & m & l' & M & N & ->). cbn in E. subst l'.
  unfold takes in T. cbn in T. injection T as -> _. exact (H i true M N).
Qed.

Theorem call_function ms ls s : (forall n, throws n = false) -> usable ms ls s ->
  exists s' rec, call throws Function ms ls s = Fine s' (rec, rec) /\ stand_for ms s ls s' rec /\ events s' = events s ++ moves ms ls rec /\
    calls s' = calls s ++ [rec] /\ ordinal s' = S (ordinal s) /\
    forall l, l < length (cells s) -> (forall i b, nth_error ms i = Some (ByValue b) -> nth_error ls i <> Some l) -> content s' l = content s l.
Proof.
  intros Q U. rewrite call_core by apply (us_length _ _ _ U). unfold core.
  destruct (recording ms ls s U) as [(s' & rec & E & (B & Fr & Ev & Tk & Di) & St & U2)|(s' & E & (n & T) & _)]; [|rewrite Q in T; discriminate T].
  rewrite E. cbn [and_then]. exists (record rec s'), rec. split; [reflexivity|]. split; [exact St|]. split; [cbn; rewrite Ev, evs_moves; reflexivity|].
  pose proof Fr as (_ & Ca & Or & _). split; [cbn; rewrite Ca; reflexivity|]. split; [cbn; rewrite Or; reflexivity|]. exact (untouched_forward ms ls (next_ordinal s) s' Fr).
Qed.

Lemma stand_trans ms s ls s1 rs s2 rs2 : length (cells s) <= length (cells s1) -> length ls = length ms -> stand_for ms s ls s1 rs -> stand_for ms s1 rs s2 rs2 -> stand_for ms s ls s2 rs2.
Proof.
  intros L Le [L1 H1] [L2 H2]. split; [exact L2|]. intros i m l M N. destruct (H1 i m l M N) as (r & R & C & K). destruct (H2 i m r M R) as (r2 & R2 & C2 & K2).
  exists r2. split; [exact R2|]. split; [congruence|]. destruct m; [lia|congruence|congruence].
Qed.

Theorem call_spy ms ls s : (forall n, throws n = false) -> usable ms ls s -> ~ In ByRvalue ms ->
  exists s' rec given, call throws Copying ms ls s = Fine s' (rec, given) /\ stand_for ms s ls s' rec /\ stand_for ms s ls s' given /\
    events s' = events s ++ moves ms ls rec ++ copies ms rec given /\ calls s' = calls s ++ [rec] /\
    forall i b r, nth_error ms i = Some (ByValue b) -> nth_error given i = Some r -> ~ In r rec.
Proof.
  intros Q U NR. rewrite call_core by apply (us_length _ _ _ U). unfold core.
  destruct (recording ms ls s U) as [(s1 & rec & E & (B & (L1 & Ca & Or & Un) & Ev & Tk & Di) & St & U2)|(s' & E & (n & T) & _)]; [|rewrite Q in T; discriminate T].
  rewrite E. cbn [and_then].
  destruct (init_all_spec (length (cells s1)) (way (fun _ => Lvalue) ms rec) [] (record rec s1)) as [(s2 & given & E2 & F2)|(s2 & E2 & (n & T) & _)].
  - apply fits_named. exact NR.
  - exact (usable_apart _ _ _ _ U2).
  - apply usable_alive. apply usable_record. exact U2.
  - cbn. lia.
  - cbn. intros l K1 K2. lia.
  - rewrite E2. cbn [and_then]. destruct F2 as (B2 & (L2 & Ca2 & Or2 & Un2) & Ev2 & Tk2 & Di2). exists s2, rec, given. split; [reflexivity|].
    assert (stand_for ms s1 rec s2 given) as St2 by (apply way_stand with (w := fun _ => Lvalue) (s := record rec s1); [apply (us_length _ _ _ U2)|exact B2]).
    assert (forall r, In r rec -> content s2 r = content s1 r) as Keep.
    { intros r R. apply Un2.
      - destruct (us_alive _ _ _ U2 r R) as (c & C & _). apply nth_error_Some. unfold content in C. cbn. congruence.
      - intros x X T. apply way_in in X. destruct X as (i & m & l & _ & _ & ->). discriminate T. }
    split.
    { destruct St as [Ls H]. split; [exact Ls|]. intros i m l M N. destruct (H i m l M N) as (r & R & C & K). exists r. split; [exact R|].
      split; [rewrite Keep; [exact C|eapply nth_error_In; exact R]|exact K]. }
    split; [eapply stand_trans; [exact L1|apply (us_length _ _ _ U)|exact St|exact St2]|].
    split; [rewrite Ev2, evs_copies; cbn; rewrite Ev, evs_moves, app_assoc; reflexivity|]. split; [rewrite Ca2; cbn; rewrite Ca; reflexivity|].
    intros i b r M G R. destruct St2 as [Lg H2]. assert (exists l, nth_error rec i = Some l) as [l N].
    { destruct (nth_error rec i) eqn:X; [eauto|]. apply nth_error_None in X. assert (i < length given) by (apply nth_error_Some; congruence). rewrite (us_length _ _ _ U2) in X. lia. }
    destruct (H2 i _ l M N) as (r' & R' & _ & K). rewrite G in R'. injection R' as <-.
    destruct (us_alive _ _ _ U2 r R) as (c & C & _). assert (r < length (cells s1)) by (apply nth_error_Some; unfold content in C; congruence). lia.
  - rewrite Q in T. discriminate T.
Qed.

Theorem call_forward ms ls s : (forall n, throws n = false) -> usable ms ls s ->
  exists s' rec given, call throws Forwarding ms ls s = Fine s' (rec, given) /\ stand_for ms s ls s' given /\
    events s' = events s ++ moves ms ls rec ++ moves ms rec given /\ calls s' = calls s ++ [rec] /\
    forall i m l, nth_error ms i = Some m -> nth_error ls i = Some l -> exists r, nth_error rec i = Some r /\
      match m with ByValue true => content s' r = Some Hollow | ByValue false => content s' r = content s l | _ => r = l end.
Proof.
  intros Q U. rewrite call_core by apply (us_length _ _ _ U). unfold core.
  destruct (recording ms ls s U) as [(s1 & rec & E & (B & (L1 & Ca & Or & Un) & Ev & Tk & Di) & St & U2)|(s' & E & (n & T) & _)]; [|rewrite Q in T; discriminate T].
  rewrite E. cbn [and_then].
  destruct (init_all_spec (length (cells s1)) (way forward ms rec) [] (record rec s1)) as [(s2 & given & E2 & F2)|(s2 & E2 & (n & T) & _)].
  - apply fits_forward.
  - exact (usable_apart _ _ _ _ U2).
  - apply usable_alive. apply usable_record. exact U2.
  - cbn. lia.
  - cbn. intros l K1 K2. lia.
  - rewrite E2. cbn [and_then]. destruct F2 as (B2 & (L2 & Ca2 & Or2 & Un2) & Ev2 & Tk2 & Di2). exists s2, rec, given. split; [reflexivity|].
    assert (stand_for ms s1 rec s2 given) as St2 by (apply way_stand with (w := forward) (s := record rec s1); [apply (us_length _ _ _ U2)|exact B2]).
    split; [eapply stand_trans; [exact L1|apply (us_length _ _ _ U)|exact St|exact St2]|].
    split; [rewrite Ev2, evs_moves; cbn; rewrite Ev, evs_moves, app_assoc; reflexivity|]. split; [rewrite Ca2; cbn; rewrite Ca; reflexivity|].
    intros i m l M N. destruct St as [Ls H]. destruct (H i m l M N) as (r & R & C & K). exists r. split; [exact R|]. destruct m as [[|]| |].
    + apply (Tk2 (ByValue true, Xvalue, r)); [|reflexivity]. eapply nth_error_In. exact (way_nth forward ms rec i (ByValue true) r M R).
    + rewrite <- C. apply Un2.
      * destruct (us_alive _ _ _ U2 r) as (c & X & _); [eapply nth_error_In; exact R|]. apply nth_error_Some. unfold content in X. cbn. congruence.
      * intros x X T Eq. apply way_in in X. destruct X as (j & m' & l' & M' & N' & ->). unfold takes in T. cbn in T, Eq. injection T as -> _. subst l'.
        assert (j = i) as -> by (apply (us_own _ _ _ U2 j i true r); assumption). congruence.
    + exact K.
    + exact K.
  - rewrite Q in T. discriminate T.
Qed.

Theorem call_defined a ms ls s : usable ms ls s -> (a = Copying -> ~ In ByRvalue ms) ->
  (exists s' r, call throws a ms ls s = Fine s' r) \/
  exists s', call throws a ms ls s = Raised s' /\ ordinal s' = S (ordinal s) /\
    ((calls s' = calls s /\ nothing_left s s') \/
     (a <> Function /\ exists rec, calls s' = calls s ++ [rec] /\
        forall l, In l rec -> exists c, content s' l = Some c /\ c <> Gone)).
Proof.
  intros U NR. rewrite call_core by apply (us_length _ _ _ U). unfold core.
  destruct (recording ms ls s U) as [(s1 & rec & E & (B & (L1 & Ca & Or & Un) & Ev & Tk & Di) & St & U2)|(s' & E & _ & Ca & Or & Go & _)]; rewrite E; cbn [and_then].
  2:{ right. exists s'. split; [reflexivity|]. split; [rewrite Or; reflexivity|]. left. split; [rewrite Ca; reflexivity|exact Go]. }
  assert (forall w, Forall fits (way w ms rec) -> (exists s2 given, init_all throws (way w ms rec) [] (record rec s1) = Fine s2 given) \/
    exists s2, init_all throws (way w ms rec) [] (record rec s1) = Raised s2 /\ ordinal s2 = S (ordinal s) /\
      calls s2 = calls s ++ [rec] /\ forall l, In l rec -> exists c, content s2 l = Some c /\ c <> Gone) as Step.
  { intros w F. destruct (init_all_spec (length (cells s1)) (way w ms rec) [] (record rec s1)) as [(s2 & given & E2 & F2)|(s2 & E2 & _ & Ca2 & Or2 & Go2 & Un2)].
    - exact F.
    - exact (usable_apart _ _ _ _ U2).
    - apply usable_alive. apply usable_record. exact U2.
    - cbn. lia.
    - cbn. intros l K1 K2. lia.
    - left. eauto.
    - right. exists s2. split; [exact E2|]. split; [rewrite Or2; cbn; rewrite Or; reflexivity|]. split; [rewrite Ca2; cbn; rewrite Ca; reflexivity|].
      intros l R. destruct (us_alive _ _ _ U2 l R) as (c & C & G). assert (l < length (cells s1)) as Lt by (apply nth_error_Some; unfold content in C; congruence).
      destruct (Un2 l Lt (fun x => x)) as [H|H]; [exists c; split; [rewrite H; exact C|exact G]|exists Hollow; split; [exact H|discriminate]]. }
  destruct a.
  - left. do 2 eexists. reflexivity.
  - destruct (Step (fun _ => Lvalue)) as [(s2 & g & E2)|(s2 & E2 & O2 & C2 & A2)]; [apply fits_named; apply NR; reflexivity| |]; rewrite E2; cbn [and_then].
    + left. eauto.
    + right. exists s2. split; [reflexivity|]. split; [exact O2|]. right. split; [discriminate|]. exists rec. split; assumption.
  - destruct (Step forward) as [(s2 & g & E2)|(s2 & E2 & O2 & C2 & A2)]; [apply fits_forward| |]; rewrite E2; cbn [and_then].
    + left. eauto.
    + right. exists s2. split; [reflexivity|]. split; [exact O2|]. right. split; [discriminate|]. exists rec. split; assumption.
Qed.
End Proofs.
