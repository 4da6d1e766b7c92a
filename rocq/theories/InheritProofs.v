From Coq Require Import Bool ZArith Lia List.
From Verif Require Import Base CInt VTable VTableProofs Inherit Spec_Inherit.
Import ListNotations.
Open Scope nat_scope.

Lemma simple_chain : forall c, is_simple c = true <-> chain c.
Proof.
  fix IH 1. intros [n [|[virt b] [|x bs]] v w]; cbn.
  - split; auto. constructor.
  - rewrite IH. split; [now constructor|]. intro H. now inversion H.
  - split; [discriminate|]. intro H. inversion H.
Qed.

(** *** The mock's table and object *)

Lemma fill_eq : forall ms pre f i, (f + i = Z.of_nat (length pre))%Z ->
  fill (mkVt (pre ++ repeat VNull (length ms)) f) i ms = Def (mkVt (pre ++ map VMethod ms) f).
Proof.
  induction ms as [|m ms IH]; intros pre f i H; cbn [fill length repeat map]; auto.
  unfold setMethod, vt_set. cbn [vt_first vt_arr]. rewrite H.
  destruct (Z.ltb_spec (Z.of_nat (length pre)) 0); [lia|]. rewrite app_length. cbn [length].
  destruct (Z.leb_spec (Z.of_nat (length pre + S (length (repeat VNull (length ms))))) (Z.of_nat (length pre))); [lia|].
  cbn [orb obind]. rewrite Nat2Z.id.
  assert (U : forall (l : list ventry) x y r, upd (l ++ x :: r) (length l) y = l ++ y :: r)
    by (clear; induction l; intros; cbn; congruence).
  rewrite U. replace (pre ++ VMethod m :: repeat VNull (length ms)) with ((pre ++ [VMethod m]) ++ repeat VNull (length ms))
    by (now rewrite <- app_assoc).
  rewrite IH; [now rewrite <- app_assoc|]. rewrite app_length. cbn. lia.
Qed.

Lemma mock_table_eq : forall c, mock_table c = Def (mkVt ([VNull; VHandlers; VNull; VType] ++ map VMethod (table c)) 4%Z).
Proof.
  intro c. unfold mock_table, buildVTArray.
  replace (Z.to_nat (alloc_size Gcc (Z.of_nat (length (table c))))) with (4 + length (table c))
    by (unfold alloc_size, numOfCookies; lia).
  unfold vt_set at 1. cbn [vt_first vt_arr numOfCookies repeat Nat.add].
  match goal with |- context [if ?b then UB else _] => replace b with false end.
  2: { symmetry. apply orb_false_intro; [reflexivity|]. apply Z.leb_gt. cbn [length]. lia. }
  cbn [obind]. change (Z.to_nat (2 + 1 + 0)) with 3. cbn [upd vt_arr]. change (2 + 1 + 1)%Z with 4%Z.
  change (VNull :: VNull :: VNull :: VType :: repeat VNull (length (table c)))
    with ([VNull; VNull; VNull; VType] ++ repeat VNull (length (table c))).
  rewrite fill_eq by reflexivity. cbn [obind]. unfold setCookie, cookie_pos, vt_set. cbn [vt_first vt_arr app length].
  match goal with |- (if ?b then UB else _) = _ => replace b with false end; [reflexivity|].
  symmetry. apply orb_false_intro; [reflexivity|]. apply Z.leb_gt. lia.
Qed.

Definition the_table (c : cls) : vtable ventry := mkVt ([VNull; VHandlers; VNull; VType] ++ map VMethod (table c)) 4%Z.

Lemma mock_object_eq : forall c, mock_object c = Def (OTable (the_table c) :: repeat OZero (words_of c - 1)).
Proof. intro c. unfold mock_object. now rewrite mock_table_eq. Qed.

Lemma the_method : forall c k m, nth_error (table c) k = Some m -> getMethod (the_table c) (Z.of_nat k) = Def (VMethod m).
Proof.
  intros c k m H. unfold getMethod. rewrite (vt_get_at _ _ (4 + k)) by (cbn [the_table vt_first]; lia).
  cbn [the_table vt_arr Nat.add app nth_error]. rewrite nth_error_map, H. reflexivity.
Qed.

(** *** Classes *)

Lemma in_existsb : forall bs b, In (false, b) bs -> dynamic b = true ->
  existsb (fun x : bool * cls => match x with (virt, b) => virt || dynamic b end) bs = true.
Proof. intros bs b I D. apply existsb_exists. exists (false, b). auto. Qed.

Lemma table_dynamic : forall c, table c <> [] -> dynamic c = true.
Proof.
  intros [n bs v w]. cbn [table dynamic]. destruct v as [|v]; auto. cbn [seq map Nat.ltb Nat.leb orb]. rewrite app_nil_r.
  induction bs as [|[virt b] bs IH]; [congruence|]. cbn [existsb]. intro H.
  destruct virt; auto. cbn [negb andb orb] in *. destruct (dynamic b); auto.
Qed.

Lemma leads_dynamic : forall c path d, leads c path d -> dynamic d = true -> dynamic c = true.
Proof.
  intros c path d H D. induction H as [c|c i b path d N H IH]; auto. specialize (IH D). destruct c as [n bs v w].
  cbn in *. rewrite (in_existsb bs b); auto using orb_true_r. eapply nth_error_In; eauto.
Qed.

Lemma leads_start : forall c path d, leads c path d -> chain c -> dynamic d = true ->
  (forall o a, convert o c path a = Def a) /\ exists own, table c = table d ++ own.
Proof.
  intros c path d H. induction H as [c|c i b path d N H IH]; intros CH D.
  - split; auto. exists []. now rewrite app_nil_r.
  - pose proof (leads_dynamic _ _ _ H D) as DB. inversion CH as [n v w E|n virt b' v w CB E]; subst c; cbn in N.
    + destruct i; discriminate.
    + destruct i as [|[|i]]; try discriminate. injection N as -> ->. destruct (IH CB D) as (C & own & T). split.
      * intros o a. cbn [convert bases_of nth_error]. unfold base_offset. cbn. rewrite DB. cbn. rewrite Nat.add_0_r. apply C.
      * cbn [table negb andb]. rewrite DB, T. exists (own ++ map (fun j => (n, j)) (seq 0 v)). now rewrite app_assoc.
Qed.

Theorem through_base : forall c path b k m, is_simple c = true -> leads c path b -> nth_error (table b) k = Some m ->
  call_through c path k = Def m /\ nth_error (table c) k = Some m.
Proof.
  intros c path b k m S H N. apply simple_chain in S.
  assert (D : dynamic b = true) by (apply table_dynamic; intro E; rewrite E in N; destruct k; discriminate).
  destruct (leads_start c path b H S D) as (C & own & T).
  assert (N' : nth_error (table c) k = Some m).
  { rewrite T, nth_error_app1; auto. apply nth_error_Some. congruence. }
  split; auto. unfold call_through, call_on. rewrite mock_object_eq. cbn [obind]. rewrite C. cbn [obind table_at nth_error].
  rewrite (the_method c k m N'). reflexivity.
Qed.

Lemma convert_app : forall o path c d a p2 a', leads c path d -> convert o c path a = Def a' ->
  convert o c (path ++ p2) a = convert o d p2 a'.
Proof.
  intros o path c d a p2 a' H. revert a. induction H as [c|c i b path d N H IH]; intros a E; cbn in *; [congruence|].
  rewrite N in *. auto.
Qed.

Theorem virtual_base : forall c path d n b v w o, is_simple c = true -> leads c path d -> d = Cls n [(true, b)] v w ->
  mock_object c = Def o -> convert o c (path ++ [0]) 0 = UB.
Proof.
  intros c path d n b v w o S H -> M. apply simple_chain in S.
  assert (D : dynamic (Cls n [(true, b)] v w) = true) by (cbn; apply orb_true_r).
  destruct (leads_start c path _ H S D) as (C & _). rewrite (convert_app _ _ _ _ _ _ _ H (C o 0)).
  rewrite mock_object_eq in M. injection M as <-. cbn [convert bases_of nth_error table_at obind].
  rewrite (vt_get_at _ _ 1) by reflexivity. reflexivity.
Qed.

(** *** Several bases *)

Lemma primary_some : forall bs i b, nth_error bs i = Some (false, b) -> dynamic b = true ->
  exists p bp, primary bs = Some p /\ nth_error bs p = Some (false, bp) /\ dynamic bp = true /\ p <= i.
Proof.
  induction bs as [|[virt c] bs IH]; intros i b N D; [destruct i; discriminate|]. cbn [primary].
  destruct (negb virt && dynamic c) eqn:E.
  - apply andb_true_iff in E as [E1 E2]. destruct virt; [discriminate|]. exists 0, c. repeat split; auto. lia.
  - destruct i as [|i]; cbn in N.
    + injection N as -> ->. rewrite D in E. discriminate.
    + destruct (IH i b N D) as (p & bp & -> & P2 & P3 & P4). exists (S p), bp. cbn. repeat split; auto. lia.
Qed.

Lemma sum_in : forall (f : bool * cls -> nat) l x, In x l -> f x <= list_sum (map f l).
Proof. intros f l x. induction l as [|y l IH]; [intros []|]. change (list_sum (map f (y :: l))) with (f y + list_sum (map f l)).
  intros [->|H]; [lia|]. specialize (IH H). lia.
Qed.

Lemma primary_dynamic : forall bs p, primary bs = Some p -> exists b, nth_error bs p = Some (false, b) /\ dynamic b = true.
Proof.
  induction bs as [|[virt c] bs IH]; intros p H; [discriminate|]. cbn [primary] in H.
  destruct (negb virt && dynamic c) eqn:E.
  - injection H as <-. apply andb_true_iff in E as [E1 E2]. destruct virt; [discriminate|]. exists c. auto.
  - destruct (primary bs) as [q|]; [|discriminate]. injection H as <-. cbn. apply IH; auto.
Qed.

Fixpoint depth (c : cls) : nat :=
  match c with Cls _ bs _ _ => S (list_sum (map (fun x : bool * cls => match x with (_, b) => depth b end) bs)) end.

Lemma dynamic_words : forall c, dynamic c = true -> 1 <= words_of c.
Proof.
  intro c. remember (depth c) as n eqn:E. revert c E. induction n as [n IH] using lt_wf_ind. intros [m bs v w] E D.
  destruct (primary bs) as [p|] eqn:P.
  - destruct (primary_dynamic bs p P) as (b & N & DB). apply nth_error_In in N.
    assert (L : depth b < n).
    { subst n. cbn [depth]. pose proof (sum_in (fun x : bool * cls => match x with (_, b) => depth b end) bs _ N) as B. cbv beta iota in B. lia. }
    pose proof (IH (depth b) L b eq_refl DB) as W. cbn [words_of].
    pose proof (sum_in (fun x : bool * cls => match x with (virt, b) => if virt then 0 else words_of b end) bs _ N) as B.
    cbv beta iota in B. lia.
  - cbn [words_of]. rewrite P, D. cbn. lia.
Qed.

Theorem second_base : forall c i b k, nth_error (bases_of c) i = Some (false, b) -> dynamic b = true ->
  primary (bases_of c) <> Some i -> call_through c [i] k = UB.
Proof.
  intros c i b k N D P. destruct (primary_some _ _ _ N D) as (p & bp & P1 & P2 & P3 & P4).
  unfold call_through, call_on. rewrite mock_object_eq. cbn [obind convert]. rewrite N. cbn [convert obind].
  assert (L : 1 <= base_offset c i).
  { unfold base_offset. rewrite P1. assert (p < i) by (assert (p <> i) by congruence; lia).
    destruct (Nat.eqb_spec i p); [lia|]. destruct (Nat.ltb_spec i p); [lia|]. rewrite Nat.add_0_r.
    assert (I : In (false, bp) (firstn i (bases_of c))).
    { apply nth_error_In with p. rewrite <- (firstn_skipn i (bases_of c)) in P2. rewrite nth_error_app1 in P2; auto.
      rewrite firstn_length. assert (i < length (bases_of c)) by (apply nth_error_Some; congruence). lia. }
    pose proof (sum_in (fun x : bool * cls => if fst x then 0 else words_of (snd x)) _ _ I) as B. cbn [fst snd] in B.
    pose proof (dynamic_words bp P3). lia. }
  destruct (base_offset c i) as [|q]; [lia|]. unfold table_at. cbn [Nat.add nth_error].
  destruct (nth_error (repeat OZero (words_of c - 1)) q) as [x|] eqn:E; [|reflexivity].
  apply nth_error_In, repeat_spec in E. now subst.
Qed.

(** *** The parts of an object *)

Lemma covers_join : forall k m n a, covers k m a + covers (k + m) n a = covers k (m + n) a.
Proof.
  intros k m n a. unfold covers.
  destruct (Nat.leb_spec k a), (Nat.ltb_spec a (k + m)), (Nat.leb_spec (k + m) a), (Nat.ltb_spec a (k + m + n)),
    (Nat.ltb_spec a (k + (m + n))); cbn; lia.
Qed.
Lemma covers_none : forall k a, covers k 0 a = 0.
Proof.
  intros k a. unfold covers. destruct (Nat.leb_spec k a), (Nat.ltb_spec a (k + 0)); cbn; lia.
Qed.

Definition size_in (x : bool * cls) : nat := if fst x then 0 else words_of (snd x).

(** Parts one behind the other. *)
Lemma parts_row : forall bs (off : nat -> nat) k a,
  (forall i, i < length bs -> off i = k + list_sum (map size_in (firstn i bs))) ->
  list_sum (map (fun i => match nth_error bs i with Some (false, b) => covers (off i) (words_of b) a | _ => 0 end) (seq 0 (length bs)))
  = covers k (list_sum (map size_in bs)) a.
Proof.
  induction bs as [|[virt b] bs IH]; intros off k a H; [now rewrite covers_none|].
  change (list_sum (map size_in ((virt, b) :: bs))) with (size_in (virt, b) + list_sum (map size_in bs)).
  cbn [length seq map nth_error]. rewrite <- seq_shift, map_map.
  match goal with |- list_sum (?x :: ?l) = _ => change (list_sum (x :: l)) with (x + list_sum l) end.
  rewrite <- covers_join. f_equal.
  - rewrite (H 0) by (cbn; lia). cbn. rewrite Nat.add_0_r. unfold size_in. cbn. destruct virt; auto. now rewrite covers_none.
  - cbn [nth_error]. apply (IH (fun i => off (S i))). intros i L. rewrite (H (S i)) by (cbn; lia). cbn [firstn map].
    change (list_sum (size_in (virt, b) :: map size_in (firstn i bs))) with (size_in (virt, b) + list_sum (map size_in (firstn i bs))). lia.
Qed.

Lemma sum_app : forall l l', list_sum (l ++ l') = list_sum l + list_sum l'.
Proof. intros. apply list_sum_app. Qed.

Lemma words_eq : forall n bs v w, words_of (Cls n bs v w) =
  (if (match primary bs with None => true | _ => false end) && dynamic (Cls n bs v w) then 1 else 0) + list_sum (map size_in bs) + w.
Proof.
  intros. cbn [words_of]. f_equal. f_equal. f_equal. apply map_ext. intros [[|] b]; reflexivity.
Qed.

Lemma parts_tile : forall c a, parts_at c a = covers 0 (words_of c) a.
Proof.
  intros [n bs v w] a. unfold parts_at. rewrite words_eq. set (c := Cls n bs v w).
  destruct (primary bs) as [p|] eqn:PR.
  - rewrite andb_false_r. cbn [andb]. replace (0 + list_sum (map size_in bs) + w - w) with (list_sum (map size_in bs)) by lia.
    cbn [Nat.add]. rewrite <- covers_join. cbn [Nat.add]. f_equal.
    destruct (primary_dynamic _ _ PR) as (b & NP & _).
    destruct (nth_error_split _ _ NP) as (l1 & l2 & EB & LP).
    assert (OFF : forall i, base_offset c i = if i =? p then 0 else
      list_sum (map size_in (firstn i bs)) + (if i <? p then words_of b else 0)).
    { intro i. unfold base_offset, c. cbn [bases_of]. rewrite PR. destruct (i =? p); auto. f_equal.
      destruct (i <? p); auto. rewrite EB, <- LP, skipn_app, skipn_all, Nat.sub_diag. cbn -[words_of]. lia. }
    assert (LB : length bs = length l1 + S (length l2)) by (rewrite EB, app_length; reflexivity).
    rewrite LB, seq_app, map_app, sum_app. cbn [seq map Nat.add]. subst p.
    match goal with |- _ + list_sum (?x :: ?l) = _ => change (list_sum (x :: l)) with (x + list_sum l) end.
    rewrite NP, OFF, Nat.eqb_refl.
    assert (A1 : list_sum (map (fun i => match nth_error bs i with Some (false, b0) => covers (base_offset c i) (words_of b0) a | _ => 0 end) (seq 0 (length l1)))
      = covers (words_of b) (list_sum (map size_in l1)) a).
    { rewrite <- (parts_row l1 (base_offset c)).
      - f_equal. apply map_ext_in. intros i I. apply in_seq in I. rewrite EB, nth_error_app1 by lia. reflexivity.
      - intros i L. rewrite OFF. destruct (Nat.eqb_spec i (length l1)); [lia|]. destruct (Nat.ltb_spec i (length l1)); [|lia].
        rewrite EB, firstn_app. replace (i - length l1) with 0 by lia. cbn [firstn]. rewrite app_nil_r. lia. }
    assert (A2 : list_sum (map (fun i => match nth_error bs i with Some (false, b0) => covers (base_offset c i) (words_of b0) a | _ => 0 end) (seq (S (length l1)) (length l2)))
      = covers (words_of b + list_sum (map size_in l1)) (list_sum (map size_in l2)) a).
    { rewrite <- (parts_row l2 (fun i => base_offset c (S (length l1) + i))).
      - rewrite <- (Nat.add_0_r (S (length l1))) at 1. f_equal.
        assert (SH : forall (f : nat -> nat) k n, map f (seq (k + 0) n) = map (fun i => f (k + i)) (seq 0 n)).
        { clear. intros f k n. rewrite Nat.add_0_r. revert k. induction n as [|n IHn]; intro k; cbn; auto. rewrite Nat.add_0_r. f_equal.
          rewrite IHn, <- seq_shift, map_map. apply map_ext. intro i. f_equal. lia. }
        rewrite SH. apply map_ext_in. intros i I. rewrite EB, nth_error_app2 by lia.
        replace (S (length l1) + i - length l1) with (S i) by lia. reflexivity.
      - intros i L. rewrite OFF. destruct (Nat.eqb_spec (S (length l1) + i) (length l1)); [lia|].
        destruct (Nat.ltb_spec (S (length l1) + i) (length l1)); [lia|].
        rewrite EB, firstn_app. replace (S (length l1) + i - length l1) with (S i) by lia. cbn [firstn].
        rewrite firstn_all2 by lia. rewrite map_app, sum_app. cbn [map].
        change (list_sum (size_in (false, b) :: map size_in (firstn i l2))) with (words_of b + list_sum (map size_in (firstn i l2))). lia. }
    rewrite A1, A2, EB, map_app, sum_app. cbn [map].
    change (list_sum (size_in (false, b) :: map size_in l2)) with (words_of b + list_sum (map size_in l2)).
    replace (list_sum (map size_in l1) + (words_of b + list_sum (map size_in l2)))
      with (words_of b + (list_sum (map size_in l1) + list_sum (map size_in l2))) by lia.
    rewrite <- !covers_join. cbn [Nat.add]. lia.
  - rewrite andb_true_r. cbn [andb].
    replace ((if dynamic c then 1 else 0) + list_sum (map size_in bs) + w - w) with ((if dynamic c then 1 else 0) + list_sum (map size_in bs)) by lia.
    rewrite (parts_row bs (base_offset c) (if dynamic c then 1 else 0)).
    2: { intros i _. unfold base_offset, c. cbn [bases_of]. rewrite PR. reflexivity. }
    replace (if dynamic c then covers 0 1 a else 0) with (covers 0 (if dynamic c then 1 else 0) a).
    2: { destruct (dynamic c); [reflexivity|]. now rewrite covers_none. }
    pose proof (covers_join 0 (if dynamic c then 1 else 0) (list_sum (map size_in bs)) a) as J1. cbn [Nat.add] in J1. rewrite J1.
    pose proof (covers_join 0 ((if dynamic c then 1 else 0) + list_sum (map size_in bs)) w a) as J2. cbn [Nat.add] in J2. now rewrite J2.
Qed.

(** *** Wrapped objects *)

Lemma compiled_method : forall c k m, nth_error (table c) k = Some m -> getMethod (compiled_table c) (Z.of_nat k) = Def (VMethod m).
Proof.
  intros c k m H. unfold getMethod, compiled_table. destruct (virtual_of c).
  - rewrite (vt_get_at _ _ (3 + k)) by (cbn [vt_first]; lia). cbn [vt_arr Nat.add app nth_error]. rewrite nth_error_map, H. reflexivity.
  - rewrite (vt_get_at _ _ (2 + k)) by (cbn [vt_first]; lia). cbn [vt_arr Nat.add app nth_error]. rewrite nth_error_map, H. reflexivity.
Qed.

Lemma leads_virtual_eq : forall c path d, leads c path d -> chain c -> virtual_of c = virtual_of d.
Proof.
  intros c path d H. induction H as [c|c i b path d N H IH]; intros CH; auto.
  inversion CH as [n v w E|n virt b' v w CB E]; subst c; cbn in N; [destruct i; discriminate|].
  destruct i as [|[|i]]; try discriminate. injection N as -> ->. cbn [virtual_of]. auto.
Qed.

Lemma compiled_head : forall c, dynamic c = true -> exists r, compiled_object c = OTable (compiled_table c) :: r /\
  forall i, nth_error r (words_of c - 1 + i) = nth_error (match virtual_of c with Some b => compiled_part b | None => [] end) i.
Proof.
  intros c D. unfold compiled_object. unfold compiled_part at 1. rewrite D. eexists. split; [reflexivity|].
  intro i. rewrite nth_error_app2 by (rewrite repeat_length; lia). rewrite repeat_length. f_equal. lia.
Qed.

Theorem wrapped_base : forall c path b k m o, is_simple c = true -> leads c path b -> nth_error (table b) k = Some m ->
  wrap c (compiled_object c) = Def o -> call_on (compiled_object c) c path k = Def m /\ call_on o c path k = Def m.
Proof.
  intros c path b k m o S H N W. apply simple_chain in S.
  assert (D : dynamic b = true) by (apply table_dynamic; intro E; rewrite E in N; destruct k; discriminate).
  destruct (leads_start c path b H S D) as (C & own & T).
  assert (N' : nth_error (table c) k = Some m).
  { rewrite T, nth_error_app1; auto. apply nth_error_Some. congruence. }
  destruct (compiled_head c (leads_dynamic _ _ _ H D)) as (r & Q & _). unfold wrap in W. rewrite mock_table_eq, Q in W.
  cbn [obind upd] in W. injection W as <-. split; unfold call_on; rewrite C; cbn [obind].
  - rewrite Q. cbn [table_at nth_error obind]. rewrite (compiled_method c k m N'). reflexivity.
  - cbn [table_at nth_error obind]. pose proof (the_method c k m N') as TM. unfold the_table in TM. cbn [app] in *. rewrite TM. reflexivity.
Qed.

Theorem wrapped_virtual : forall c path n b v w k m o, is_simple c = true -> leads c path (Cls n [(true, b)] v w) ->
  nth_error (table b) k = Some m -> wrap c (compiled_object c) = Def o ->
  call_on (compiled_object c) c (path ++ [0]) k = Def m /\ call_on o c (path ++ [0]) k = UB.
Proof.
  intros c path n b v w k m o CH H N W. apply simple_chain in CH. set (d := Cls n [(true, b)] v w) in *.
  assert (D : dynamic d = true) by (cbn; apply orb_true_r).
  assert (DB : dynamic b = true) by (apply table_dynamic; intro E; rewrite E in N; destruct k; discriminate).
  destruct (leads_start c path _ H CH D) as (C & _). pose proof (leads_virtual_eq c path d H CH) as V. cbn in V.
  pose proof (leads_dynamic _ _ _ H D) as DC. pose proof (dynamic_words c DC) as WC.
  destruct (compiled_head c DC) as (r & Q & R). rewrite V in R.
  unfold wrap in W. rewrite mock_table_eq, Q in W. cbn [obind upd] in W. injection W as <-.
  unfold call_on. rewrite !(convert_app _ _ _ _ _ _ _ H (C _ 0)). cbn [convert bases_of nth_error d]. split.
  - rewrite Q. cbn [table_at nth_error obind]. unfold compiled_table at 1. rewrite V. rewrite (vt_get_at _ _ 0) by reflexivity.
    cbn [vt_arr app nth_error obind Nat.add]. assert (NE : words_of c = S (words_of c - 1 + 0)) by lia. unfold table_at.
    assert (AT : nth_error (OTable (compiled_table c) :: r) (words_of c) = Some (OTable (compiled_table b))).
    { rewrite NE. cbn [nth_error]. rewrite R. unfold compiled_part. now rewrite DB. }
    cbn [of_option obind]. rewrite AT. cbn [obind].
    rewrite (compiled_method b k m N). reflexivity.
  - cbn [table_at nth_error obind]. rewrite (vt_get_at _ _ 1) by reflexivity. reflexivity.
Qed.

Theorem unwrapped_same : forall c o o', dynamic c = true -> wrap c (compiled_object c) = Def o ->
  unwrap (compiled_object c) o = Def o' -> o' = compiled_object c.
Proof.
  intros c o o' D W U. destruct (compiled_head c D) as (r & Q & _). unfold wrap in W. rewrite mock_table_eq, Q in W. cbn [obind upd] in W.
  injection W as <-. unfold unwrap in U. rewrite Q in U. cbn in U. injection U as <-. now rewrite Q.
Qed.
