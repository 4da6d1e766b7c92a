(** * Proofs about making mocks (Making.v) *)
From Coq Require Import Bool Arith Lia List.
From Verif Require Import Making Spec_Making.
Import ListNotations.
Open Scope nat_scope.

Lemma list_ext {A} (l l' : list A) : (forall i, nth_error l i = nth_error l' i) -> l = l'.
Proof.
  revert l'. induction l as [|x l IH]; intros [|y l'] H; [reflexivity|specialize (H 0); discriminate|specialize (H 0); discriminate|].
  pose proof (H 0) as H0. injection H0 as ->. f_equal. apply IH. intros i. exact (H (S i)).
Qed.
Lemma upd_length {A} (l : list A) i x : length (upd l i x) = length l.
Proof. revert i. induction l; intros [|i]; cbn; auto. Qed.
Lemma upd_nth {A} (l : list A) i j x : nth_error (upd l i x) j = if (i =? j) && (j <? length l) then Some x else nth_error l j.
Proof.
  revert i j. induction l as [|y l IH]; intros [|i] [|j]; cbn [upd nth_error length andb Nat.eqb]; try reflexivity.
  - rewrite andb_false_r. reflexivity.
  - rewrite IH. reflexivity.
Qed.

Lemma live_app a b : live (a ++ b) = live a ++ live b.
Proof. induction a as [|[k|] a IH]; cbn; [reflexivity| |exact IH]. now rewrite IH. Qed.
Lemma live_map ks : live (map Some ks) = ks.
Proof. induction ks; cbn; congruence. Qed.
Lemma live_none n : live (repeat None n) = [].
Proof. induction n; auto. Qed.

(** States that differ in the heap and the tries. *)
Definition put (s : state) (t : nat) (h : list (option kind)) : state :=
  mkState t h (st_table s) (st_calls s) (st_members s).

Lemma put_put s t h t' h' : put (put s t h) t' h' = put s t' h'.
Proof. reflexivity. Qed.
Lemma put_same s : put s (st_tries s) (st_heap s) = s.
Proof. now destruct s. Qed.

Section Fails.
Variable fails : nat -> bool.
Notation alloc := (alloc fails).
Notation build_table := (build_table fails).

Lemma alloc_ok k s : fails (st_tries s) = false ->
  alloc k s = Val (put s (S (st_tries s)) (st_heap s ++ [Some k])) (length (st_heap s)).
Proof. intros F. unfold Making.alloc, bind, try. rewrite F. reflexivity. Qed.
Lemma alloc_fail k s : fails (st_tries s) = true -> alloc k s = Exn (put s (S (st_tries s)) (st_heap s)).
Proof. intros F. unfold Making.alloc, bind, try. rewrite F. reflexivity. Qed.

Lemma allocs_ok k n : forall s, no_failure fails s n ->
  allocs fails k n s = Val (put s (st_tries s + n) (st_heap s ++ map Some (repeat k n))) (seq (length (st_heap s)) n).
Proof.
  induction n as [|n IH]; intros s F; cbn [allocs].
  - cbn. now rewrite Nat.add_0_r, app_nil_r, put_same.
  - unfold bind at 1. rewrite alloc_ok by (rewrite <- (Nat.add_0_r (st_tries s)); apply F; lia).
    unfold bind. rewrite IH.
    + cbn. rewrite app_length. cbn. rewrite Nat.add_1_r, <- app_assoc, <- Nat.add_succ_comm. reflexivity.
    + intros j J. cbn. replace (S (st_tries s + j)) with (st_tries s + S j) by lia. apply F. lia.
Qed.

Lemma allocs_fail k n : forall s j, first_failure fails s j -> j < n ->
  allocs fails k n s = Exn (put s (st_tries s + S j) (st_heap s ++ map Some (repeat k j))).
Proof.
  induction n as [|n IH]; intros s j (F & FB) L; [lia|]. cbn [allocs]. unfold bind at 1. destruct j as [|j].
  - rewrite alloc_fail by (rewrite <- (Nat.add_0_r (st_tries s)); exact F). cbn. rewrite app_nil_r, Nat.add_1_r. reflexivity.
  - rewrite alloc_ok by (rewrite <- (Nat.add_0_r (st_tries s)); apply FB; lia).
    unfold bind. rewrite (IH _ j); [| |lia].
    + cbn [put st_tries st_heap repeat map]. rewrite <- app_assoc, put_put. cbn [app]. do 2 f_equal. lia.
    + split.
      * cbn. rewrite <- F. f_equal. lia.
      * intros i I. cbn. rewrite <- (FB (S i)) by lia. f_equal. lia.
Qed.

(** The parts of a table member_made at the end of a heap of this length. *)
Definition parts_at (p : platform) (b : nat) : list nat :=
  match p with
  | Gnu => [b]
  | Ms64 => [S b; b]
  | Ms32 n => (seq (4 + b) (S n) ++ [3 + b; 2 + b]) ++ [S b; b]
  end.

Lemma at_tries s i : st_tries s + i = i + st_tries s.
Proof. lia. Qed.

Ltac okay F i := rewrite alloc_ok by (cbn [put st_tries]; rewrite <- (F i) by lia; f_equal; lia).

Lemma len_snoc {A} (l : list A) x : length (l ++ [x]) = S (length l).
Proof. rewrite app_length. cbn. lia. Qed.

Lemma build_ok p s : no_failure fails s (table_tries p) ->
  build_table p s = Val (put s (st_tries s + table_tries p) (st_heap s ++ map Some (table_kinds p)))
                        (mkTable (parts_at p (length (st_heap s)))).
Proof.
  intros F. destruct p as [| |n]; cbn [Making.build_table table_tries table_kinds parts_at] in *.
  - unfold bind. okay F 0. cbn. now rewrite Nat.add_1_r.
  - unfold bind. okay F 0. okay F 1. cbn [ret put st_tries st_heap]. rewrite len_snoc, put_put, <- app_assoc. cbn [app map].
    replace (S (S (st_tries s))) with (st_tries s + 2) by lia. reflexivity.
  - unfold bind, guard. okay F 0. okay F 1. okay F 2. okay F 3. cbn [put st_tries st_heap].
    rewrite allocs_ok by (intros j J; cbn [put st_tries]; rewrite <- (F (4 + j)) by lia; f_equal; lia).
    cbn [put st_tries st_heap ret]. rewrite !len_snoc. rewrite !put_put, <- !app_assoc. cbn [app map].
    replace (S (S (S (S (st_tries s)))) + S n) with (st_tries s + (5 + n)) by lia. reflexivity.
Qed.

Definition kill (ids : list nat) (h : list (option kind)) : list (option kind) := fold_left (fun h i => upd h i None) ids h.

Lemma kill_length ids : forall h, length (kill ids h) = length h.
Proof. induction ids as [|i ids IH]; intros h; cbn; [reflexivity|]. rewrite IH. apply upd_length. Qed.
Lemma kill_nth ids : forall h i, nth_error (kill ids h) i =
  if existsb (fun x => x =? i) ids && (i <? length h) then Some None else nth_error h i.
Proof.
  induction ids as [|x ids IH]; intros h i; cbn [kill fold_left existsb]; [reflexivity|].
  change (nth_error (kill ids (upd h x None)) i = if ((x =? i) || existsb (fun y => y =? i) ids) && (i <? length h) then Some None else nth_error h i).
  rewrite IH, upd_length, upd_nth.
  destruct (x =? i), (existsb (fun y => y =? i) ids), (i <? length h); reflexivity.
Qed.

Lemma free_ok i s k : nth_error (st_heap s) i = Some (Some k) ->
  free i s = Val (put s (st_tries s) (upd (st_heap s) i None)) tt.
Proof. intros H. unfold free. now rewrite H. Qed.

Lemma free_all_ok ids : forall s, NoDup ids -> (forall i, In i ids -> exists k, nth_error (st_heap s) i = Some (Some k)) ->
  free_all ids s = Val (put s (st_tries s) (kill ids (st_heap s))) tt.
Proof.
  induction ids as [|i ids IH]; intros s ND L; cbn [free_all].
  - cbn. now rewrite put_same.
  - inversion ND as [|? ? NI ND']; subst. destruct (L i (or_introl eq_refl)) as (k & K). unfold bind.
    rewrite (free_ok i s k K). rewrite IH; [reflexivity|exact ND'|].
    intros j J. cbn [put st_heap]. rewrite upd_nth. destruct (Nat.eqb_spec i j) as [->|N]; [contradiction|].
    cbn. apply L. now right.
Qed.

Lemma parts_in p b i : In i (parts_at p b) <-> b <= i < b + length (table_kinds p).
Proof.
  destruct p as [| |n]; cbn [parts_at table_kinds length].
  - cbn. lia.
  - cbn. lia.
  - rewrite !in_app_iff, in_seq, app_length, repeat_length. cbn. lia.
Qed.
Lemma parts_nodup p b : NoDup (parts_at p b).
Proof.
  destruct p as [| |n]; cbn [parts_at].
  - constructor; [intros []|constructor].
  - constructor; [intros [H|[]]; lia|]. constructor; [intros []|constructor].
  - rewrite <- app_assoc. enough (H : forall l, NoDup l -> (forall x, In x l -> x < 4 + b) -> NoDup (seq (4 + b) (S n) ++ l)).
    { apply H.
      - repeat constructor; cbn; lia.
      - cbn. intros x [E|[E|[E|[E|[]]]]]; subst; lia. }
    clear. intros l ND L. generalize (4 + b) as c, (S n) as m, L. clear L. intros c m. revert c.
    induction m as [|m IH]; intros c L; cbn; [exact ND|]. constructor.
    + rewrite in_app_iff, in_seq. intros [H|H]; [lia|]. specialize (L _ H). lia.
    + apply IH. intros x X. specialize (L x X). lia.
Qed.

Lemma kill_block ids h a r :
  (forall i, In i ids <-> length h <= i < length h + length a) ->
  kill ids (h ++ a ++ r) = h ++ repeat None (length a) ++ r.
Proof.
  intros IN. apply list_ext. intros i. rewrite kill_nth.
  assert (EX : existsb (fun x => x =? i) ids = (length h <=? i) && (i <? length h + length a)).
  { apply eq_true_iff_eq. rewrite existsb_exists, andb_true_iff, Nat.leb_le, Nat.ltb_lt, <- IN.
    split; [intros (x & X & E); apply Nat.eqb_eq in E; now subst|intros X; exists i; split; [exact X|apply Nat.eqb_refl]]. }
  rewrite EX. rewrite !app_length. destruct (Nat.leb_spec (length h) i) as [L|L]; cbn [andb].
  - rewrite !(nth_error_app2 h) by exact L. destruct (Nat.ltb_spec i (length h + length a)) as [L2|L2]; cbn [andb].
    + rewrite (proj2 (Nat.ltb_lt i _)) by lia. rewrite nth_error_app1 by (rewrite repeat_length; lia).
      symmetry. apply nth_error_repeat. lia.
    + rewrite !nth_error_app2 by (rewrite ?repeat_length; lia). now rewrite repeat_length.
  - rewrite !nth_error_app1 by lia. reflexivity.
Qed.

Lemma dispose_at p s h r : st_heap s = h ++ map Some (table_kinds p) ++ r ->
  dispose (mkTable (parts_at p (length h))) s = Val (put s (st_tries s) (h ++ repeat None (length (table_kinds p)) ++ r)) tt.
Proof.
  intros E. unfold dispose. cbn [t_parts]. rewrite free_all_ok.
  - rewrite E, kill_block, map_length; [reflexivity|]. intros i. rewrite map_length. apply parts_in.
  - apply parts_nodup.
  - intros i I. apply parts_in in I. rewrite E, nth_error_app2 by lia. rewrite nth_error_app1 by (rewrite map_length; lia).
    destruct (nth_error (table_kinds p) (i - length h)) as [k|] eqn:K.
    + exists k. now apply map_nth_error.
    + apply nth_error_None in K. lia.
Qed.

Lemma free_at s h k r : st_heap s = h ++ Some k :: r ->
  free (length h) s = Val (put s (st_tries s) (h ++ None :: r)) tt.
Proof.
  intros E. rewrite (free_ok _ s k) by (rewrite E, nth_error_app2, Nat.sub_diag by lia; reflexivity).
  do 2 f_equal. rewrite E. clear E. induction h as [|x h IH]; cbn; [reflexivity|]. now rewrite IH.
Qed.

Ltac okay' F i := rewrite alloc_ok by (cbn [put st_tries]; rewrite <- (F i) by lia; f_equal; lia).
Ltac bust F := rewrite alloc_fail by (cbn [put st_tries]; rewrite <- F; f_equal; lia).

Lemma build_fail p s k : first_failure fails s k -> k < table_tries p ->
  exists new, build_table p s = Exn (put s (st_tries s + S k) (st_heap s ++ new)) /\ live new = table_lost p k.
Proof.
  intros (F & FB) L. destruct p as [| |n]; cbn [Making.build_table table_tries table_lost] in *.
  - assert (k = 0) by lia. subst k. exists []. unfold bind. bust F. cbn. now rewrite app_nil_r, Nat.add_1_r.
  - destruct k as [|[|k]]; [| |lia]; unfold bind.
    + exists []. bust F. cbn. now rewrite app_nil_r, Nat.add_1_r.
    + exists [Some KArray]. okay' FB 0. bust F. split; [|reflexivity]. cbn [put st_tries st_heap]. rewrite put_put.
      do 2 f_equal. lia.
  - destruct k as [|[|[|[|k]]]]; unfold bind, guard.
    + exists []. bust F. cbn. now rewrite app_nil_r, Nat.add_1_r.
    + exists [Some KArray]. okay' FB 0. bust F. split; [|reflexivity]. cbn [put st_tries st_heap]. rewrite put_put.
      do 2 f_equal. lia.
    + exists [Some KArray; None]. okay' FB 0. okay' FB 1. bust F. cbn [put st_tries st_heap].
      erewrite free_at by (cbn [put st_heap]; reflexivity). split; [|reflexivity].
      cbn [put st_tries st_heap st_table st_calls st_members]. unfold put. rewrite <- app_assoc. cbn. do 2 f_equal. lia.
    + exists [Some KArray; None; None]. okay' FB 0. okay' FB 1. okay' FB 2. bust F. cbn [put st_tries st_heap].
      erewrite free_at by (cbn [put st_heap]; reflexivity). cbn [put st_tries st_heap].
      erewrite free_at by (cbn [put st_heap]; rewrite <- app_assoc; reflexivity). split; [|reflexivity].
      unfold put. cbn [st_tries st_heap st_table st_calls st_members]. rewrite <- !app_assoc. cbn. do 2 f_equal. lia.
    + exists ([Some KArray; None; None; Some KBases] ++ map Some (repeat KDesc k)).
      okay' FB 0. okay' FB 1. okay' FB 2. okay' FB 3. cbn [put st_tries st_heap].
      rewrite (allocs_fail KDesc (S n) _ k); [| |lia].
      2:{ split; [cbn [put st_tries]; rewrite <- F; f_equal; lia|]. intros j J. cbn [put st_tries]. rewrite <- (FB (4 + j)) by lia. f_equal. lia. }
      cbn [put st_tries st_heap].
      erewrite (free_at _ ((st_heap s ++ [Some KArray]) ++ [Some KLocator]) KHier) by (cbn [put st_heap]; rewrite <- !app_assoc; reflexivity).
      cbn [put st_tries st_heap].
      erewrite (free_at _ (st_heap s ++ [Some KArray]) KLocator) by (cbn [put st_heap]; rewrite <- !app_assoc; reflexivity).
      split.
      * unfold put. cbn [st_tries st_heap st_table st_calls st_members]. rewrite <- !app_assoc. cbn. do 2 f_equal. lia.
      * cbn. rewrite live_map, Nat.sub_0_r. reflexivity.
Qed.

Lemma kinds_tries p : length (table_kinds p) = table_tries p.
Proof. destruct p; cbn; rewrite ?app_length, ?repeat_length; cbn; lia. Qed.

Lemma shift_ok s n m : no_failure fails s (n + m) -> forall h, no_failure fails (put s (st_tries s + n) h) m.
Proof. intros F h j J. cbn. rewrite <- Nat.add_assoc. apply F. lia. Qed.
Lemma less_ok s n m : no_failure fails s n -> m <= n -> no_failure fails s m.
Proof. intros F L j J. apply F. lia. Qed.
Lemma shift_fail s n k : first_failure fails s k -> n <= k -> forall h, first_failure fails (put s (st_tries s + n) h) (k - n).
Proof.
  intros (F & FB) L h. split.
  - cbn. rewrite <- F. f_equal. lia.
  - intros j J. cbn. rewrite <- (FB (n + j)) by lia. f_equal. lia.
Qed.
Lemma fail_none s k : first_failure fails s k -> no_failure fails s k.
Proof. intros (_ & FB). exact FB. Qed.

(** *** The object *)

Definition fake_kinds (p : platform) : list kind := KFake :: table_kinds p.
Definition fake_at (p : platform) (b : nat) : nat * table := (b, mkTable (parts_at p (S b))).

Lemma fake_ok p s : no_failure fails s (1 + table_tries p) ->
  make_fake fails p s = Val (put s (st_tries s + (1 + table_tries p)) (st_heap s ++ map Some (fake_kinds p))) (fake_at p (length (st_heap s))).
Proof.
  intros F. unfold make_fake, bind, guard. rewrite alloc_ok by (rewrite <- (F 0) by lia; f_equal; lia).
  rewrite build_ok by (intros j J; cbn [put st_tries]; rewrite <- (F (1 + j)) by lia; f_equal; lia).
  cbn [put st_tries st_heap ret]. rewrite len_snoc, <- app_assoc, put_put. cbn [app map fake_kinds].
  replace (S (st_tries s) + table_tries p) with (st_tries s + (1 + table_tries p)) by lia. reflexivity.
Qed.

Lemma fake_fail p s k : first_failure fails s k -> k < 1 + table_tries p ->
  exists new, make_fake fails p s = Exn (put s (st_tries s + S k) (st_heap s ++ new)) /\
              live new = if k =? 0 then [] else table_lost p (k - 1).
Proof.
  intros FF L. pose proof FF as (F & FB). unfold make_fake, bind, guard. destruct k as [|k].
  - rewrite alloc_fail by (rewrite <- F; f_equal; lia). exists []. cbn. now rewrite app_nil_r, Nat.add_1_r.
  - rewrite alloc_ok by (rewrite <- (FB 0) by lia; f_equal; lia).
    destruct (build_fail p (put s (S (st_tries s)) (st_heap s ++ [Some KFake])) k) as (new & E & LV).
    { rewrite <- Nat.add_1_r. replace k with (S k - 1) at 1 by lia. apply shift_fail; [exact FF|lia]. }
    { lia. }
    rewrite E. cbn [put st_tries st_heap].
    erewrite (free_at _ (st_heap s) KFake) by (cbn [put st_heap]; rewrite <- app_assoc; reflexivity).
    exists (None :: new). cbn [live Nat.eqb]. rewrite LV. replace (S k - 1) with k by lia. split; [|reflexivity].
    unfold put. cbn. do 2 f_equal. lia.
Qed.

Lemma fake_delete p s h r : st_heap s = h ++ map Some (fake_kinds p) ++ r ->
  delete_fake (fake_at p (length h)) s = Val (put s (st_tries s) (h ++ repeat None (length (fake_kinds p)) ++ r)) tt.
Proof.
  intros E. unfold delete_fake, fake_at, bind. cbn [fst snd].
  replace (S (length h)) with (length (h ++ [Some KFake])) by apply len_snoc.
  rewrite (dispose_at p s _ r) by (rewrite E; rewrite <- app_assoc; reflexivity).
  erewrite (free_at _ h KFake) by (cbn [put st_heap]; rewrite <- app_assoc; reflexivity).
  unfold put. cbn. reflexivity.
Qed.

(** *** The proxy *)

Definition proxy_kinds (p : platform) : list kind := table_kinds p ++ [KSlots; KOffsets].
Definition proxy_at (p : platform) (b : nat) : proxy :=
  mkProxy (mkTable (parts_at p b)) (b + table_tries p) (S (b + table_tries p)).
Definition put_clone (s : state) : state := mkState (st_tries s) (st_heap s) Clone (st_calls s) (st_members s).

Lemma proxy_ok p s : no_failure fails s (table_tries p + 2) ->
  make_proxy fails p s = Val (put_clone (put s (st_tries s + (table_tries p + 2)) (st_heap s ++ map Some (proxy_kinds p))))
                             (proxy_at p (length (st_heap s))).
Proof.
  intros F. unfold make_proxy, bind, guard.
  rewrite build_ok by (apply (less_ok _ _ _ F); lia).
  rewrite alloc_ok by (cbn [put st_tries]; rewrite <- (F (table_tries p)) by lia; f_equal; lia).
  rewrite alloc_ok by (cbn [put st_tries]; rewrite <- (F (1 + table_tries p)) by lia; f_equal; lia).
  unfold set_table, ret. cbn [put st_tries st_heap]. unfold proxy_at, proxy_kinds, put_clone, put.
  cbn [st_tries st_heap st_table st_calls st_members].
  rewrite len_snoc, app_length, map_length, kinds_tries, map_app, <- !app_assoc. cbn [map app].
  f_equal. f_equal. lia.
Qed.

Lemma proxy_fail p s k : first_failure fails s k -> k < table_tries p + 2 ->
  exists new, make_proxy fails p s = Exn (put s (st_tries s + S k) (st_heap s ++ new)) /\
              live new = if k <? table_tries p then table_lost p k else table_kinds p.
Proof.
  intros FF L. pose proof FF as (F & FB). unfold make_proxy, bind, guard.
  destruct (Nat.ltb_spec k (table_tries p)) as [LT|GE].
  - destruct (build_fail p s k FF LT) as (new & E & LV). rewrite E. exists new. auto.
  - rewrite build_ok by (apply (less_ok _ k); [apply fail_none; exact FF|exact GE]).
    destruct (Nat.eq_dec k (table_tries p)) as [->|NE].
    + rewrite alloc_fail by (cbn [put st_tries]; exact F).
      exists (map Some (table_kinds p)). split; [|apply live_map]. cbn [put st_tries st_heap]. rewrite put_put. do 2 f_equal. lia.
    + assert (k = 1 + table_tries p) by lia. subst k.
      rewrite alloc_ok by (cbn [put st_tries]; apply FB; lia).
      rewrite alloc_fail by (cbn [put st_tries]; rewrite <- F; f_equal; lia).
      cbn [put st_tries st_heap].
      erewrite (free_at _ (st_heap s ++ map Some (table_kinds p)) KSlots) by (cbn [put st_heap]; reflexivity).
      exists (map Some (table_kinds p) ++ [None]). split.
      * unfold put. cbn. rewrite <- app_assoc. do 2 f_equal. lia.
      * rewrite live_app, live_map. apply app_nil_r.
Qed.

(** *** The mock *)

Definition own_kinds (p : platform) (own : bool) : list kind := if own then fake_kinds p else [].
Definition mock_kinds (p : platform) (own : bool) : list kind := own_kinds p own ++ [KControl] ++ proxy_kinds p.
Definition own_at (p : platform) (own : bool) (b : nat) : option (nat * table) := if own then Some (fake_at p b) else None.
Definition own_tries (p : platform) (own : bool) : nat := if own then 1 + table_tries p else 0.
Definition mock_at (p : platform) (own : bool) (b : nat) : mock :=
  mkMock (own_at p own b) (b + own_tries p own) (proxy_at p (S (b + own_tries p own))).

Lemma own_length p own : length (own_kinds p own) = own_tries p own.
Proof. destruct own; cbn; [|reflexivity]. now rewrite kinds_tries. Qed.

Lemma own_ok p own s : no_failure fails s (own_tries p own) ->
  (if own then do! f := make_fake fails p in ret (Some f) else ret None) s =
  Val (put s (st_tries s + own_tries p own) (st_heap s ++ map Some (own_kinds p own))) (own_at p own (length (st_heap s))).
Proof.
  intros F. destruct own; cbn [own_tries own_kinds own_at] in *.
  - unfold bind. rewrite fake_ok by exact F. reflexivity.
  - cbn. now rewrite Nat.add_0_r, app_nil_r, put_same.
Qed.

Lemma own_delete p own s h r : st_heap s = h ++ map Some (own_kinds p own) ++ r ->
  delete_owned (own_at p own (length h)) s = Val (put s (st_tries s) (h ++ repeat None (own_tries p own) ++ r)) tt.
Proof.
  intros E. destruct own; cbn [own_at delete_owned own_tries].
  - rewrite (fake_delete p s h r E). unfold fake_kinds. cbn [length]. now rewrite kinds_tries.
  - cbn in *. now rewrite <- E, put_same.
Qed.

Lemma mock_ok p own s : no_failure fails s (mock_tries p own) ->
  make_mock fails p own s = Val (put_clone (put s (st_tries s + mock_tries p own) (st_heap s ++ map Some (mock_kinds p own))))
                                (mock_at p own (length (st_heap s))).
Proof.
  intros F. change (mock_tries p own) with (own_tries p own + 1 + table_tries p + 2) in *.
  unfold make_mock. unfold bind at 1. rewrite own_ok by (apply (less_ok _ _ _ F); lia).
  unfold bind, guard. rewrite alloc_ok by (cbn [put st_tries]; apply F; lia).
  rewrite proxy_ok by (intros j J; cbn [put st_tries]; rewrite <- (F (own_tries p own + 1 + j)) by lia; f_equal; lia).
  cbn [put st_tries st_heap]. unfold ret, mock_at, mock_kinds, put_clone, put. cbn [st_tries st_heap st_table st_calls st_members].
  rewrite len_snoc, app_length, map_length, own_length, !map_app, <- !app_assoc. cbn [map app].
  f_equal. f_equal. lia.
Qed.

Lemma mock_fail p own s k : first_failure fails s k -> k < mock_tries p own ->
  exists new, make_mock fails p own s = Exn (put s (st_tries s + S k) (st_heap s ++ new)) /\ live new = lost p own k.
Proof.
  intros FF L. pose proof FF as (F & FB). change (mock_tries p own) with (own_tries p own + 1 + table_tries p + 2) in L.
  unfold lost. change (if own then 1 + table_tries p else 0) with (own_tries p own).
  unfold make_mock. destruct (Nat.ltb_spec k (own_tries p own)) as [LT|GE].
  - destruct own; cbn [own_tries andb] in *; [|lia].
    destruct (fake_fail p s k FF LT) as (new & E & LV). unfold bind. rewrite E. exists new. auto.
  - rewrite andb_false_r. unfold bind at 1. rewrite own_ok by (apply (less_ok _ k); [apply fail_none; exact FF|exact GE]).
    unfold bind, guard. destruct (Nat.eqb_spec k (own_tries p own)) as [->|NE].
    + rewrite alloc_fail by (cbn [put st_tries]; exact F). cbn [put st_tries st_heap].
      rewrite (own_delete p own _ (st_heap s) []) by (cbn [put st_heap]; now rewrite app_nil_r).
      exists (repeat None (own_tries p own)). split; [|apply live_none].
      unfold put. cbn. rewrite app_nil_r. do 2 f_equal. lia.
    + rewrite alloc_ok by (cbn [put st_tries]; apply FB; lia).
      set (s1 := put (put s (st_tries s + own_tries p own) (st_heap s ++ map Some (own_kinds p own)))
                     (S (st_tries (put s (st_tries s + own_tries p own) (st_heap s ++ map Some (own_kinds p own)))))
                     (st_heap (put s (st_tries s + own_tries p own) (st_heap s ++ map Some (own_kinds p own))) ++ [Some KControl])).
      assert (FF1 : first_failure fails s1 (k - (own_tries p own + 1))).
      { unfold s1. cbn [put st_tries]. rewrite put_put. replace (S (st_tries s + own_tries p own)) with (st_tries s + (own_tries p own + 1)) by lia.
        apply shift_fail; [exact FF|lia]. }
      destruct (proxy_fail p s1 (k - (own_tries p own + 1)) FF1) as (new & E & LV); [lia|]. rewrite E.
      assert (H1 : st_heap s1 = st_heap s ++ map Some (own_kinds p own) ++ [Some KControl]) by (unfold s1; cbn [put st_heap]; now rewrite <- app_assoc).
      rewrite (own_delete p own _ (st_heap s) ([Some KControl] ++ new)) by (cbn [put st_heap]; rewrite H1, <- !app_assoc; reflexivity).
      cbn [put st_tries st_heap].
      replace (length (st_heap s ++ map Some (own_kinds p own))) with (length (st_heap s ++ repeat (@None kind) (own_tries p own)))
        by (rewrite !app_length, map_length, own_length, repeat_length; reflexivity).
      erewrite (free_at _ (st_heap s ++ repeat None (own_tries p own)) KControl) by (cbn [put st_heap]; rewrite <- app_assoc; reflexivity).
      exists (repeat None (own_tries p own) ++ None :: new). split.
      * unfold put, s1. cbn. rewrite <- app_assoc. do 2 f_equal. lia.
      * rewrite live_app, live_none. cbn [live app]. rewrite LV.
        replace (k <? own_tries p own + 1 + table_tries p) with (k - (own_tries p own + 1) <? table_tries p).
        -- replace (k - own_tries p own - 1) with (k - (own_tries p own + 1)) by lia. reflexivity.
        -- apply eq_true_iff_eq. rewrite !Nat.ltb_lt. lia.
Qed.

Lemma mock_destroy p own s h r : st_heap s = h ++ map Some (mock_kinds p own) ++ r ->
  destroy_mock (mock_at p own (length h)) s =
  Val (mkState (st_tries s) (h ++ repeat None (mock_tries p own) ++ r) First (st_calls s) (st_members s)) tt.
Proof.
  intros E. unfold destroy_mock, bind, set_table. unfold mock_at, proxy_at. cbn [m_proxy p_clone p_offsets p_slots m_fake m_control].
  set (A := h ++ map Some (own_kinds p own)).
  assert (LA : length A = length h + own_tries p own) by (unfold A; rewrite app_length, map_length, own_length; reflexivity).
  assert (E1 : st_heap s = (A ++ [Some KControl]) ++ map Some (table_kinds p) ++ [Some KSlots; Some KOffsets] ++ r).
  { rewrite E. unfold A, mock_kinds, proxy_kinds. rewrite !map_app, <- !app_assoc. reflexivity. }
  replace (S (length h + own_tries p own)) with (length (A ++ [Some KControl])) by (rewrite len_snoc, LA; reflexivity).
  rewrite (dispose_at p _ (A ++ [Some KControl]) ([Some KSlots; Some KOffsets] ++ r)) by (cbn [st_heap]; exact E1).
  cbn [put st_tries st_table st_calls st_members].
  set (B := (A ++ [Some KControl]) ++ repeat None (length (table_kinds p))).
  assert (LB : length B = length (A ++ [Some KControl]) + table_tries p) by (unfold B; rewrite app_length, repeat_length, kinds_tries; reflexivity).
  replace (S (length (A ++ [Some KControl]) + table_tries p)) with (length (B ++ [Some KSlots])) by (rewrite len_snoc, LB; reflexivity).
  erewrite (free_at _ (B ++ [Some KSlots]) KOffsets r) by (cbn [st_heap]; unfold B; rewrite <- !app_assoc; reflexivity).
  cbn [put st_tries st_heap st_table st_calls st_members].
  rewrite <- LB. erewrite (free_at _ B KSlots (None :: r)) by (cbn [put st_heap]; rewrite <- app_assoc; reflexivity).
  cbn [put st_tries st_heap st_table st_calls st_members].
  rewrite (own_delete p own _ h ([Some KControl] ++ repeat None (length (table_kinds p)) ++ None :: None :: r))
    by (cbn [put st_heap]; unfold B, A; rewrite <- !app_assoc; reflexivity).
  cbn [put st_tries st_heap st_table st_calls st_members].
  replace (length h + own_tries p own) with (length (h ++ repeat (@None kind) (own_tries p own))) by (rewrite app_length, repeat_length; reflexivity).
  erewrite (free_at _ (h ++ repeat None (own_tries p own)) KControl) by (cbn [put st_heap]; rewrite <- app_assoc; reflexivity).
  unfold put. cbn [st_tries st_table st_calls st_members]. f_equal. f_equal. rewrite <- app_assoc. f_equal.
  change (mock_tries p own) with (own_tries p own + 1 + table_tries p + 2). rewrite kinds_tries, !repeat_app. cbn [repeat app].
  rewrite <- !app_assoc. reflexivity.
Qed.

(** *** Clearing the history *)

Lemma free_vec cur s (h : list (option kind)) n :
  st_heap s = h ++ n -> (match cur with Some i => nth_error (st_heap s) i = Some (Some KVec) /\ length h <= i /\ live n = [KVec] | None => live n = [] end) ->
  exists n', (match cur with Some i => free i | None => ret tt end) s = Val (put s (st_tries s) (h ++ n')) tt /\ live n' = [] /\ length n' = length n.
Proof.
  intros E C. destruct cur as [i|].
  - destruct C as (C & L & LV). rewrite (free_ok i s KVec C). rewrite E in *. exists (upd n (i - length h) None).
    assert (U : upd (h ++ n) i None = h ++ upd n (i - length h) None).
    { apply list_ext. intros j. rewrite upd_nth. destruct (Nat.lt_ge_cases j (length h)).
      - rewrite !nth_error_app1 by lia. replace (i =? j) with false by (symmetry; apply Nat.eqb_neq; lia). reflexivity.
      - rewrite !(nth_error_app2 h) by lia. rewrite upd_nth, app_length.
        replace (i - length h =? j - length h) with (i =? j) by (apply eq_true_iff_eq; rewrite !Nat.eqb_eq; lia).
        replace (j - length h <? length n) with (j <? length h + length n) by (apply eq_true_iff_eq; rewrite !Nat.ltb_lt; lia). reflexivity. }
    rewrite U. split; [reflexivity|]. split; [|apply upd_length].
    rewrite nth_error_app2 in C by lia. revert LV C. generalize (i - length h). clear. intros j. revert j.
    induction n as [|x n IH]; intros [|j] LV C; cbn in *; try discriminate.
    + injection C as ->. cbn in LV. injection LV as ->. reflexivity.
    + destruct x as [k|]; [|exact (IH j LV C)]. injection LV as -> LV. exfalso.
      clear IH. revert j C. induction n as [|[y|] n IH]; intros [|j] C; cbn in *; try discriminate. exact (IH LV j C).
  - exists n. cbn. rewrite <- E, put_same. auto.
Qed.

Lemma live_snoc_nth (n : list (option kind)) k : nth_error (n ++ [Some k]) (length n) = Some (Some k).
Proof. rewrite nth_error_app2, Nat.sub_diag by lia. reflexivity. Qed.

Lemma collect_spec h0 grows : forall cur s n,
  st_heap s = h0 ++ n ->
  (match cur with Some i => nth_error (st_heap s) i = Some (Some KVec) /\ length h0 <= i /\ live n = [KVec] | None => live n = [] end) ->
  match collect fails grows cur s with
  | Val s' v => exists t n', s' = put s t (h0 ++ n') /\
                  (match v with Some i => nth_error (h0 ++ n') i = Some (Some KVec) /\ length h0 <= i /\ live n' = [KVec] | None => live n' = [] end)
  | Exn s' => exists t n', s' = put s t (h0 ++ n') /\ live n' = []
  | UB => False
  end.
Proof.
  induction grows as [|[|] r IH]; intros cur s n E C; cbn [collect].
  - cbn. exists (st_tries s), n. split; [rewrite <- E, put_same; reflexivity|]. now rewrite <- E.
  - unfold bind at 1, guard. destruct (fails (st_tries s)) eqn:F.
    + rewrite alloc_fail by exact F. cbn [put st_tries st_heap].
      destruct (free_vec cur (put s (S (st_tries s)) (st_heap s)) h0 n E C) as (n' & -> & LV & _).
      exists (S (st_tries s)), n'. split; [reflexivity|exact LV].
    + rewrite alloc_ok by exact F. cbn [put st_tries st_heap]. unfold bind.
      (* the old storage goes *)
      set (s1 := put s (S (st_tries s)) (st_heap s ++ [Some KVec])).
      assert (X : exists n2, (match cur with Some i => free i | None => ret tt end) s1 = Val (put s (S (st_tries s)) (h0 ++ n2 ++ [Some KVec])) tt /\ live n2 = [] /\ length n2 = length n).
      { destruct cur as [i|].
        - destruct C as (C1 & C2 & C3).
          destruct (free_vec (Some i) s h0 n E (conj C1 (conj C2 C3))) as (n2 & FR & LV & LN).
          exists n2. split; [|auto]. unfold free in *. rewrite C1 in FR. unfold s1. cbn [put st_heap st_tries st_table st_calls st_members].
          rewrite nth_error_app1 by (apply nth_error_Some; congruence). rewrite C1.
          assert (U : upd (st_heap s) i None = h0 ++ n2) by (injection FR as FR; exact FR).
          assert (U2 : upd (st_heap s ++ [Some KVec]) i None = upd (st_heap s) i None ++ [Some KVec]).
          { assert (LT : i < length (st_heap s)) by (apply nth_error_Some; congruence). clear - LT. revert i LT.
            induction (st_heap s) as [|x l IHl]; intros [|i] LT; cbn in *; try lia; [reflexivity|]. rewrite IHl by lia. reflexivity. }
          rewrite U2, U, <- app_assoc. reflexivity.
        - exists n. cbn. unfold s1. split; [rewrite E, <- app_assoc; reflexivity|]. auto. }
      destruct X as (n2 & -> & LV & LN).
      specialize (IH (Some (length (st_heap s))) (put s (S (st_tries s)) (h0 ++ n2 ++ [Some KVec])) (n2 ++ [Some KVec]) eq_refl).
      cbn [put st_heap] in IH.
      assert (P1 : nth_error (h0 ++ n2 ++ [Some KVec]) (length (st_heap s)) = Some (Some KVec)).
      { rewrite E, app_length, app_assoc, <- LN, <- app_length. apply live_snoc_nth. }
      assert (P2 : length h0 <= length (st_heap s)) by (rewrite E, app_length; lia).
      assert (P3 : live (n2 ++ [Some KVec]) = [KVec]) by (rewrite live_app, LV; reflexivity).
      pose proof (IH (conj P1 (conj P2 P3))) as IH'. clear IH.
      destruct (collect fails r (Some (length (st_heap s))) _) as [s2 v|s2|]; [| |contradiction].
      * destruct IH' as (t & n' & -> & Q). exists t, n'. auto.
      * destruct IH' as (t & n' & -> & Q). exists t, n'. auto.
  - apply (IH cur s n E C).
Qed.

Lemma clear_spec grows s :
  match clear fails grows s with
  | Val s' _ => besides s s' [] /\ st_calls s' = map (fun _ => 0) (st_calls s) /\ st_table s' = st_table s /\ st_members s' = st_members s
  | Exn s' => besides s s' [] /\ st_calls s' = st_calls s /\ st_table s' = st_table s /\ st_members s' = st_members s
  | UB => False
  end.
Proof.
  unfold clear. unfold bind at 1.
  pose proof (collect_spec (st_heap s) grows None s [] (eq_sym (app_nil_r _)) eq_refl) as C.
  destruct (collect fails grows None s) as [s1 v|s1|]; [| |exact C].
  - destruct C as (t & n & -> & C). unfold bind, forget. cbn [put st_tries st_heap st_table st_calls st_members].
    destruct (free_vec v (mkState t (st_heap s ++ n) (st_table s) (map (fun _ => 0) (st_calls s)) (st_members s)) (st_heap s) n eq_refl C) as (n' & -> & LV & _).
    split; [now exists n'|]. auto.
  - destruct C as (t & n & -> & LV). split; [now exists n|]. auto.
Qed.

(** *** Data members *)

Lemma upd_app {A} (l : list A) i x r : i < length l -> upd (l ++ r) i x = upd l i x ++ r.
Proof. revert i. induction l as [|y l IH]; intros [|i] L; cbn in *; try lia; [reflexivity|]. rewrite IH by lia. reflexivity. Qed.

Lemma stub_ok grow old s : (match old with Some i => nth_error (st_heap s) i = Some (Some KMembers) | None => True end) ->
  member_made s old (stub_member fails grow old s) grow.
Proof.
  intros O. unfold stub_member. unfold bind at 1.
  destruct (fails (st_tries s)) eqn:F0.
  { rewrite alloc_fail by exact F0. cbn. split; [exists []; now rewrite app_nil_r|]. auto. }
  rewrite alloc_ok by exact F0. unfold bind at 1, guard at 1, construct at 1, bind at 1, try at 1. cbn [put st_tries].
  destruct (fails (S (st_tries s))) eqn:F1.
  { erewrite (free_at _ (st_heap s) KWrapper []) by reflexivity. cbn. split; [exists [None]; auto|]. auto. }
  unfold bind at 1, guard at 1. cbn [put st_tries st_heap st_table st_calls st_members].
  destruct (fails (S (S (st_tries s)))) eqn:F2.
  { rewrite alloc_fail by exact F2. cbn [put st_tries st_heap st_table st_calls st_members].
    unfold delete_wrapper, bind, destruct_member. cbn [put st_tries st_heap st_table st_calls st_members].
    erewrite (free_at _ (st_heap s) KWrapper []) by reflexivity. cbn. split; [exists [None]; auto|]. auto. }
  rewrite alloc_ok by exact F2. cbn [put st_tries st_heap st_table st_calls st_members]. unfold bind at 1, guard at 1.
  destruct grow.
  - unfold bind at 1. cbn [put st_tries st_heap st_table st_calls st_members].
    destruct (fails (S (S (S (st_tries s))))) eqn:F3.
    + rewrite alloc_fail by exact F3. cbn [put st_tries st_heap st_table st_calls st_members].
      unfold delete_wrapper, bind, destruct_member. cbn [put st_tries st_heap st_table st_calls st_members].
      erewrite (free_at _ (st_heap s) KWrapper [Some KControl]) by (cbn [st_heap]; rewrite <- app_assoc; reflexivity).
      cbn [put st_tries st_heap st_table st_calls st_members].
      replace (length (st_heap s ++ [Some KWrapper])) with (length (st_heap s ++ [@None kind])) by (rewrite !app_length; reflexivity).
      erewrite (free_at _ (st_heap s ++ [None]) KControl []) by (cbn [put st_heap]; rewrite <- app_assoc; reflexivity).
      cbn. split; [exists [None; None]; cbn [put st_heap]; rewrite <- app_assoc; auto|]. auto.
    + rewrite alloc_ok by exact F3. cbn [put st_tries st_heap st_table st_calls st_members]. unfold bind.
      set (base := ((st_heap s ++ [Some KWrapper]) ++ [Some KControl]) ++ [Some KMembers]).
      assert (B : base = st_heap s ++ [Some KWrapper; Some KControl; Some KMembers]) by (unfold base; rewrite <- !app_assoc; reflexivity).
      destruct old as [i|].
      * assert (L : i < length (st_heap s)) by (apply nth_error_Some; congruence).
        rewrite (free_ok i _ KMembers) by (cbn [put st_heap]; rewrite B, nth_error_app1 by exact L; exact O).
        cbn [put st_tries st_heap st_table st_calls st_members ret member_made]. rewrite B, upd_app by exact L.
        split; [|split; [discriminate|auto]]. eexists. split; [reflexivity|]. split; [reflexivity|]. intros _. eexists. split; [reflexivity|].
        rewrite nth_error_app2 by (rewrite upd_length, !app_length; lia). rewrite upd_length, !app_length. cbn [length].
        replace (length (st_heap s) + 1 + 1 - length (st_heap s)) with 2 by lia. reflexivity.
      * cbn [put st_tries st_heap st_table st_calls st_members ret member_made]. rewrite B.
        split; [|split; [discriminate|auto]]. eexists. split; [reflexivity|]. split; [reflexivity|]. intros _. eexists. split; [reflexivity|].
        rewrite nth_error_app2 by (rewrite !app_length; lia). rewrite !app_length. cbn [length].
        replace (length (st_heap s) + 1 + 1 - length (st_heap s)) with 2 by lia. reflexivity.
  - cbn. split; [|auto]. exists [Some KWrapper; Some KControl]. split; [|split; [reflexivity|discriminate]].
    rewrite <- app_assoc. destruct old; reflexivity.
Qed.

(** *** When they throw *)

Lemma made p own s : no_failure fails s (mock_tries p own) ->
  exists s' m, make_mock fails p own s = Val s' m /\
    besides s s' (mock_has p own) /\ st_table s' = Clone /\ st_calls s' = st_calls s /\ st_members s' = st_members s /\
    forall s2 more, st_heap s2 = st_heap s' ++ more ->
      exists s3 gone, destroy_mock m s2 = Val s3 tt /\ st_heap s3 = st_heap s ++ gone ++ more /\ live gone = [] /\
        st_table s3 = First /\ st_calls s3 = st_calls s2 /\ st_members s3 = st_members s2.
Proof.
  intros F. rewrite (mock_ok p own s F). do 2 eexists. split; [reflexivity|]. cbn [put put_clone st_tries st_heap st_table st_calls st_members].
  split; [eexists; split; [reflexivity|rewrite live_map; reflexivity]|].
  do 3 (split; [reflexivity|]). intros s2 more E.
  rewrite (mock_destroy p own s2 (st_heap s) more) by (rewrite E; symmetry; apply app_assoc).
  do 2 eexists. split; [reflexivity|]. cbn. split; [reflexivity|]. split; [apply live_none|]. auto.
Qed.

Lemma unmade p own s k : first_failure fails s k -> k < mock_tries p own ->
  exists s', make_mock fails p own s = Exn s' /\
    besides s s' (lost p own k) /\ st_table s' = st_table s /\ st_calls s' = st_calls s /\ st_members s' = st_members s.
Proof.
  intros F L. destruct (mock_fail p own s k F L) as (new & E & LV). eexists. split; [exact E|]. cbn. split; [now exists new|]. auto.
Qed.

Lemma unmade_gnu own s k : first_failure fails s k -> k + 2 < mock_tries Gnu own ->
  exists s', make_mock fails Gnu own s = Exn s' /\ besides s s' [] /\ st_table s' = st_table s.
Proof.
  intros F L. destruct (unmade Gnu own s k F) as (s' & E & B & T & _); [lia|]. exists s'. split; [exact E|]. split; [|exact T].
  replace (lost Gnu own k) with (@nil kind) in B; [exact B|]. unfold mock_tries in L. cbn in L.
  destruct own; cbn in L; do 5 (destruct k as [|k]; [reflexivity || lia|]); lia.
Qed.

Lemma clear_when grows s : let n := length (filter (fun b => b) grows) in
  (no_failure fails s n -> exists s', clear fails grows s = Val s' tt) /\
  (forall k, first_failure fails s k -> k < n -> exists s', clear fails grows s = Exn s').
Proof.
  cbn. pose proof (clear_spec grows s) as CS. unfold clear in *.
  assert (CC : forall gs cur s1 s2 v, collect fails gs cur s1 = Val s2 v -> no_failure fails s1 (length (filter (fun b => b) gs))).
  { clear. induction gs as [|[|] r IH]; intros cur s1 s2 v E; cbn in *.
    - intros j J. lia.
    - unfold bind at 1, guard in E. destruct (fails (st_tries s1)) eqn:F.
      + rewrite alloc_fail in E by exact F. destruct (match cur with Some i => free i | None => ret tt end _); discriminate.
      + rewrite alloc_ok in E by exact F. unfold bind in E.
        assert (T : forall x y, (match cur with Some i => free i | None => ret tt end) x = Val y tt -> st_tries y = st_tries x).
        { intros x y. destruct cur as [i|]; [unfold free; destruct (nth_error _ i) as [[?|]|]; try discriminate|]; intros [= <-]; reflexivity. }
        destruct ((match cur with Some i => free i | None => ret tt end) _) as [y []|y|] eqn:Y; try discriminate.
        apply T in Y. apply IH in E. intros [|j] J; [rewrite Nat.add_0_r; exact F|].
        rewrite <- (E j) by lia. rewrite Y. cbn. f_equal. lia.
    - exact (IH _ _ _ _ E). }
  assert (CX : forall gs cur s1 s2, collect fails gs cur s1 = Exn s2 -> exists j, j < length (filter (fun b => b) gs) /\ fails (st_tries s1 + j) = true).
  { clear. induction gs as [|[|] r IH]; intros cur s1 s2 E; cbn in *.
    - discriminate.
    - unfold bind at 1, guard in E. destruct (fails (st_tries s1)) eqn:F.
      + exists 0. rewrite Nat.add_0_r. split; [lia|exact F].
      + rewrite alloc_ok in E by exact F. unfold bind in E.
        assert (T : forall x y, (match cur with Some i => free i | None => ret tt end) x = Val y tt -> st_tries y = st_tries x).
        { intros x y. destruct cur as [i|]; [unfold free; destruct (nth_error _ i) as [[?|]|]; try discriminate|]; intros [= <-]; reflexivity. }
        destruct ((match cur with Some i => free i | None => ret tt end) _) as [y []|y|] eqn:Y; try discriminate.
        * apply T in Y. apply IH in E. destruct E as (j & J & E). exists (S j). split; [lia|]. rewrite <- E, Y. cbn. f_equal. lia.
        * exfalso. destruct cur as [i|]; [|discriminate]. unfold free in Y. destruct (nth_error _ i) as [[?|]|]; discriminate.
    - exact (IH _ _ _ E). }
  unfold bind at 1 in CS. split.
  - intros F. unfold bind at 1. destruct (collect fails grows None s) as [s1 v|s1|] eqn:E.
    + destruct ((forget ;;! match v with Some i => free i | None => ret tt end) s1) as [s2 []|s2|] eqn:E2; [now exists s2| |contradiction].
      exfalso. unfold bind, forget in E2. destruct v as [i|]; [|discriminate]. unfold free in E2. destruct (nth_error _ i) as [[?|]|]; discriminate.
    + apply CX in E. destruct E as (j & J & E). rewrite (F j J) in E. discriminate.
    + contradiction.
  - intros k (F & _) L. unfold bind at 1. destruct (collect fails grows None s) as [s1 v|s1|] eqn:E.
    + apply CC in E. rewrite (E k L) in F. discriminate.
    + now exists s1.
    + contradiction.
Qed.

Lemma stub_when (grow : bool) old s : (match old with Some i => nth_error (st_heap s) i = Some (Some KMembers) | None => True end) ->
  let n := if grow then 4 else 3 in
  (no_failure fails s n -> exists s' r, stub_member fails grow old s = Val s' r) /\
  (forall k, first_failure fails s k -> k < n -> exists s', stub_member fails grow old s = Exn s').
Proof.
  intros O n. pose proof (stub_ok grow old s O) as ST.
  assert (V : forall s' r, stub_member fails grow old s = Val s' r -> no_failure fails s n).
  { clear ST. intros s' r E. unfold stub_member in E. unfold bind at 1 in E.
    destruct (fails (st_tries s)) eqn:F0; [rewrite alloc_fail in E by exact F0; discriminate|].
    rewrite alloc_ok in E by exact F0. unfold bind at 1, guard at 1, construct at 1, bind at 1, try at 1 in E. cbn [put st_tries] in E.
    destruct (fails (S (st_tries s))) eqn:F1.
    { erewrite (free_at _ (st_heap s) KWrapper []) in E by reflexivity. discriminate. }
    unfold bind at 1, guard at 1 in E. cbn [put st_tries st_heap st_table st_calls st_members] in E.
    destruct (fails (S (S (st_tries s)))) eqn:F2.
    { rewrite alloc_fail in E by exact F2. cbn [put st_tries st_heap st_table st_calls st_members] in E.
      unfold delete_wrapper, bind, destruct_member in E. cbn [put st_tries st_heap st_table st_calls st_members] in E.
      erewrite (free_at _ (st_heap s) KWrapper []) in E by reflexivity. discriminate. }
    rewrite alloc_ok in E by exact F2. cbn [put st_tries st_heap st_table st_calls st_members] in E. unfold bind at 1, guard at 1 in E.
    assert (F3 : grow = true -> fails (S (S (S (st_tries s)))) = false).
    { intros ->. destruct (fails (S (S (S (st_tries s))))) eqn:F3; [|reflexivity]. exfalso. revert E. unfold bind at 1.
      rewrite alloc_fail by exact F3. destruct ((delete_wrapper _ ;;! free _) _); discriminate. }
    intros j J. destruct j as [|[|[|[|j]]]]; rewrite <- ?plus_n_Sm, ?Nat.add_0_r; auto; destruct grow; subst n; auto; lia. }
  assert (X : forall s', stub_member fails grow old s = Exn s' -> exists j, j < n /\ fails (st_tries s + j) = true).
  { clear ST V. intros s' E. destruct (fails (st_tries s)) eqn:F0; [exists 0; rewrite Nat.add_0_r; split; [subst n; destruct grow; lia|exact F0]|].
    destruct (fails (S (st_tries s))) eqn:F1; [exists 1; rewrite Nat.add_1_r; split; [subst n; destruct grow; lia|exact F1]|].
    destruct (fails (S (S (st_tries s)))) eqn:F2; [exists 2; rewrite <- !plus_n_Sm, Nat.add_0_r; split; [subst n; destruct grow; lia|exact F2]|].
    unfold stub_member in E. unfold bind at 1 in E. rewrite alloc_ok in E by exact F0.
    unfold bind at 1, guard at 1, construct at 1, bind at 1, try at 1 in E. cbn [put st_tries] in E. rewrite F1 in E.
    unfold bind at 1, guard at 1 in E. cbn [put st_tries st_heap st_table st_calls st_members] in E.
    rewrite alloc_ok in E by exact F2. cbn [put st_tries st_heap st_table st_calls st_members] in E. unfold bind at 1, guard at 1 in E.
    destruct grow; [|discriminate].
    destruct (fails (S (S (S (st_tries s))))) eqn:F3; [exists 3; rewrite <- !plus_n_Sm, Nat.add_0_r; split; [subst n; lia|exact F3]|].
    exfalso. unfold bind in E. rewrite alloc_ok in E by exact F3. cbn [put st_tries st_heap st_table st_calls st_members] in E.
    destruct old as [i|]; [|discriminate].
    assert (LI : i < length (st_heap s)) by (apply nth_error_Some; congruence).
    rewrite (free_ok i _ KMembers) in E; [discriminate|]. cbn [put st_heap]. rewrite <- !app_assoc, nth_error_app1 by exact LI. exact O. }
  destruct (stub_member fails grow old s) as [s' r|s'|]; [| |contradiction].
  - split; [eauto|]. intros k (F & _) L. rewrite (V _ _ eq_refl k L) in F. discriminate.
  - split; [|eauto]. intros F. destruct (X _ eq_refl) as (j & J & E). rewrite (F j J) in E. discriminate.
Qed.
End Fails.

Lemma unmade_refuted p own : exists fails s s' k,
  first_failure fails s k /\ k < mock_tries p own /\ make_mock fails p own s = Exn s' /\
  live (st_heap s) = [] /\ In KArray (live (st_heap s')).
Proof.
  set (k := mock_tries p own - 1).
  assert (L : k < mock_tries p own) by (unfold k, mock_tries; destruct own, p; cbn; lia).
  assert (F : first_failure (Nat.eqb k) (mkState 0 [] First [] 0) k).
  { split; [apply Nat.eqb_refl|]. intros j J. apply Nat.eqb_neq. cbn. lia. }
  destruct (unmade _ p own _ k F L) as (s' & E & (new & H & LV) & _).
  exists (Nat.eqb k), (mkState 0 [] First [] 0), s', k. split; [exact F|]. split; [exact L|]. split; [exact E|]. split; [reflexivity|].
  rewrite H. cbn [st_heap app]. rewrite LV. unfold lost. set (st := if own then 1 + table_tries p else 0) in *.
  assert (K : k = st + 1 + table_tries p + 1) by (unfold k, mock_tries; fold st; lia).
  replace (k <? st) with false by (symmetry; apply Nat.ltb_ge; lia). rewrite andb_false_r.
  replace (k =? st) with false by (symmetry; apply Nat.eqb_neq; lia).
  replace (k <? st + 1 + table_tries p) with false by (symmetry; apply Nat.ltb_ge; lia).
  destruct p; cbn; auto.
Qed.
