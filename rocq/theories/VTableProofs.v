From Coq Require Import Bool ZArith Lia List.
From Verif Require Import Base CInt VTable Spec_Layout.
Import ListNotations.
Open Scope Z_scope.

Section P.
Context {W : Type}.

(** A well-formed table for [size] methods. *)
Definition vt_wf (l : layout) (size : Z) (t : vtable W) : Prop :=
  0 <= size /\ Z.of_nat (length (vt_arr t)) = alloc_size l size /\ vt_first t = 4.

Definition pos_of (l : layout) (e : entry) : Z :=
  match e with EMethod i => 4 + i | ECookie i => 4 + cookie_pos l i end.

Ltac zz := unfold dtorCookieIndex, pos_of, cookie_pos, alloc_size, numOfCookies, valid_entry in *; intros; try lia.

Lemma pos_range : forall l size e, 0 <= size -> valid_entry size (numOfCookies l) e ->
  0 <= pos_of l e < alloc_size l size.
Proof. intros [] size [i|i] H; zz. Qed.

Lemma pos_inj : forall l size e e', valid_entry size (numOfCookies l) e ->
  valid_entry size (numOfCookies l) e' -> pos_of l e = pos_of l e' -> e = e'.
Proof. intros [] size [i|i] [j|j]; zz; try (f_equal; lia); exfalso; lia. Qed.

Lemma entry_eqb_spec : forall a b, reflect (a = b) (entry_eqb a b).
Proof.
  intros [i|i] [j|j]; cbn; try (constructor; discriminate);
  destruct (Z.eqb_spec i j); constructor; congruence.
Qed.

Lemma read_pos : forall l size t e, vt_wf l size t ->
  valid_entry size (numOfCookies l) e ->
  read_entry l t e = of_option (nth_error (vt_arr t) (Z.to_nat (pos_of l e))).
Proof.
  intros l size t e (Hs & HL & HF) V. pose proof (pos_range l size e Hs V) as R.
  destruct e as [i|i]; cbn [pos_of read_entry] in *; unfold getMethod, getCookie, vt_get; rewrite HF;
    destruct (Z.ltb_spec (4 + i) 0); destruct (Z.ltb_spec (4 + cookie_pos l i) 0); auto; lia.
Qed.

Lemma write_pos : forall l size t e w, vt_wf l size t ->
  valid_entry size (numOfCookies l) e ->
  write_entry l t e w = Def (mkVt (upd (vt_arr t) (Z.to_nat (pos_of l e)) w) (vt_first t)).
Proof.
  intros l size t e w (Hs & HL & HF) V. pose proof (pos_range l size e Hs V) as R.
  destruct e as [i|i]; cbn [pos_of write_entry] in *; unfold setMethod, setCookie, vt_set;
    rewrite HF, HL;
    match goal with |- (if (?a <? 0) || (?b <=? ?a) then _ else _) = _ =>
      destruct (Z.ltb_spec a 0); destruct (Z.leb_spec b a); cbn [orb]; auto; lia end.
Qed.

Lemma vt_get_at : forall (t : vtable W) i k, vt_first t + i = Z.of_nat k ->
  vt_get t i = of_option (nth_error (vt_arr t) k).
Proof.
  intros t i k H. unfold vt_get. rewrite H, Nat2Z.id.
  destruct (Z.ltb_spec (Z.of_nat k) 0); auto; lia.
Qed.

Lemma write_wf : forall l size t k w, vt_wf l size t ->
  vt_wf l size (mkVt (upd (vt_arr t) k w) (vt_first t)).
Proof. intros l size t k w (A & B & C). repeat split; cbn; auto. now rewrite upd_length. Qed.

Lemma read_write : forall l size t e w e', vt_wf l size t ->
  valid_entry size (numOfCookies l) e -> valid_entry size (numOfCookies l) e' ->
  read_entry l (mkVt (upd (vt_arr t) (Z.to_nat (pos_of l e)) w) (vt_first t)) e' =
  if entry_eqb e e' then Def w else read_entry l t e'.
Proof.
  intros l size t e w e' WF V V'.
  rewrite (read_pos l size _ e') by (auto using write_wf). rewrite (read_pos l size t e') by auto.
  cbn [vt_arr]. rewrite nth_error_upd.
  destruct WF as (Hs & HL & HF).
  pose proof (pos_range l size e Hs V). pose proof (pos_range l size e' Hs V').
  destruct (entry_eqb_spec e e') as [<-|N].
  - rewrite Nat.eqb_refl. destruct (Nat.ltb_spec (Z.to_nat (pos_of l e)) (length (vt_arr t))); auto; lia.
  - destruct (Nat.eqb_spec (Z.to_nat (pos_of l e)) (Z.to_nat (pos_of l e'))) as [E|E]; auto.
    exfalso. apply N. apply (pos_inj l size); auto. lia.
Qed.

Lemma write_all_spec : forall l size ops t, vt_wf l size t ->
  Forall (fun o => valid_entry size (numOfCookies l) (fst o)) ops ->
  exists t', write_all l t ops = Def t' /\ vt_wf l size t' /\
    forall e w0, valid_entry size (numOfCookies l) e -> read_entry l t e = Def w0 ->
      read_entry l t' e = Def (last_written ops e w0).
Proof.
  induction ops as [|[e w] ops IH]; intros t WF V; cbn [write_all last_written].
  - exists t. auto.
  - inversion V as [|? ? Ve Vs]; subst. cbn in Ve.
    rewrite (write_pos l size) by auto. cbn [obind].
    destruct (IH _ (write_wf l size t (Z.to_nat (pos_of l e)) w WF) Vs) as (t' & E & WF' & R).
    exists t'. split; [exact E|]. split; [exact WF'|].
    intros e0 w0 V0 R0. apply R; auto. rewrite (read_write l size) by auto.
    destruct (entry_eqb e e0); auto.
Qed.

Lemma build_spec : forall l (null ti : W) size, 0 <= size ->
  exists t, buildVTArray l null ti size = Def t /\ vt_wf l size t /\
    (forall e, valid_entry size (numOfCookies l) e -> read_entry l t e = Def null) /\
    vt_get t (-1) = Def ti /\
    (l = Gcc -> vt_get t (-2) = Def null).
Proof.
  intros l null ti size Hs.
  assert (E : buildVTArray l null ti size =
    Def (mkVt (upd (repeat null (Z.to_nat (alloc_size l size))) 3 ti) 4)).
  { destruct l; unfold buildVTArray, vt_set; cbn [vt_first vt_arr numOfCookies];
      rewrite repeat_length;
      match goal with |- context [Z.of_nat (Z.to_nat ?a) <=? ?b] =>
        destruct (Z.leb_spec (Z.of_nat (Z.to_nat a)) b) as [X|X] end;
      try (solve [exfalso; zz]); cbn [orb Z.ltb]; reflexivity. }
  rewrite E. eexists. split; [reflexivity|].
  assert (AL : 4 <= alloc_size l size) by (destruct l; zz).
  assert (WF : vt_wf l size (mkVt (upd (repeat null (Z.to_nat (alloc_size l size))) 3 ti) 4)).
  { repeat split; auto. cbn. rewrite upd_length, repeat_length. lia. }
  split; [exact WF|]. split; [|split].
  - intros e V. rewrite (read_pos l size) by auto. cbn [vt_arr].
    pose proof (pos_range l size e Hs V). rewrite nth_error_upd_other.
    + rewrite nth_error_repeat_lt by lia. reflexivity.
    + destruct l, e; zz.
  - rewrite (vt_get_at _ _ 3) by reflexivity. cbn [vt_arr]. rewrite nth_error_upd_same; auto.
    rewrite repeat_length. lia.
  - intros _. rewrite (vt_get_at _ _ 2) by reflexivity. cbn [vt_arr]. rewrite nth_error_upd_other by lia.
    rewrite nth_error_repeat_lt by lia. reflexivity.
Qed.

Lemma dispose_wf : forall l size t, vt_wf l size t -> dispose l t = Def tt.
Proof. intros l size t (A & B & C). unfold dispose, dispose_pos. rewrite C. destruct l; reflexivity. Qed.

(** C46, the whole statement. *)
Theorem layout_ok : forall (l : layout) (null ti : W) (size : Z) (ops : list (entry * W)),
  0 <= size -> Forall (fun o => valid_entry size (numOfCookies l) (fst o)) ops ->
  exists t0 t, buildVTArray l null ti size = Def t0 /\ write_all l t0 ops = Def t /\
    (forall e, valid_entry size (numOfCookies l) e ->
       read_entry l t e = Def (last_written ops e null)) /\
    vt_get t (-1) = Def ti /\ (l = Gcc -> vt_get t (-2) = Def null) /\
    dispose l t = Def tt /\
    length (vt_arr t) = length (vt_arr t0).
Proof.
  intros l null ti size ops Hs V.
  destruct (build_spec l null ti size Hs) as (t0 & E0 & WF0 & R0 & T1 & T2).
  exists t0. revert V.
  assert (G : forall ops t, vt_wf l size t -> vt_get t (-1) = Def ti -> (l = Gcc -> vt_get t (-2) = Def null) ->
    Forall (fun o => valid_entry size (numOfCookies l) (fst o)) ops ->
    exists t', write_all l t ops = Def t' /\ vt_wf l size t' /\ vt_get t' (-1) = Def ti /\
      (l = Gcc -> vt_get t' (-2) = Def null)).
  { clear - Hs. induction ops as [|[e w] ops IH]; intros t WF A B V; cbn [write_all].
    - exists t; auto.
    - inversion V as [|? ? Ve Vs]; subst. cbn in Ve. rewrite (write_pos l size) by auto. cbn [obind].
      apply IH; auto using write_wf.
      + revert A. destruct WF as (_ & HL & HF).
        rewrite (vt_get_at t _ 3) by (rewrite HF; reflexivity).
        rewrite (vt_get_at _ _ 3) by (cbn [vt_first]; rewrite HF; reflexivity).
        cbn [vt_arr]. rewrite nth_error_upd_other; auto.
        destruct l, e; zz.
      + intro L. specialize (B L). revert B. destruct WF as (_ & HL & HF).
        rewrite (vt_get_at t _ 2) by (rewrite HF; reflexivity).
        rewrite (vt_get_at _ _ 2) by (cbn [vt_first]; rewrite HF; reflexivity).
        cbn [vt_arr]. rewrite nth_error_upd_other; auto. subst l.
        destruct e; zz. }
  intro V. destruct (G ops t0 WF0 T1 T2 V) as (t & E & WF & A & B).
  exists t. split; [exact E0|]. split; [exact E|].
  destruct (write_all_spec l size ops t0 WF0 V) as (t' & E' & WF' & R).
  rewrite E in E'. injection E' as <-.
  split; [|split; [exact A|split; [exact B|split; [eapply dispose_wf; eauto|]]]].
  - intros e Ve. apply R; auto.
  - destruct WF as (_ & L1 & _). destruct WF0 as (_ & L0 & _). lia.
Qed.

(** Outside the valid entries the accesses are undefined. *)
Lemma out_of_table : forall l size t i, vt_wf l size t ->
  size <= i \/ i < -4 -> getMethod t i = UB.
Proof.
  intros l size t i (A & B & C) H. unfold getMethod, vt_get. rewrite C.
  destruct (Z.ltb_spec (4 + i) 0); auto.
  destruct (nth_error (vt_arr t) (Z.to_nat (4 + i))) eqn:E; auto.
  apply nth_error_Some_lt in E. exfalso. unfold alloc_size in B. destruct l; zz.
Qed.

(** ** initAll and copyFrom *)
Lemma init_loop_spec : forall l size n i t w, vt_wf l size t -> 0 <= i -> i + Z.of_nat n <= size ->
  exists t', init_loop n i t w = Def t' /\ vt_wf l size t' /\
    forall e, valid_entry size (numOfCookies l) e ->
      read_entry l t' e =
      match e with
      | EMethod j => if (i <=? j) && (j <? i + Z.of_nat n) then Def w else read_entry l t e
      | ECookie _ => read_entry l t e
      end.
Proof.
  intros l size. induction n as [|n IH]; intros i t w WF Hi Hn.
  - exists t. cbn. split; [reflexivity|]. split; [exact WF|]. intros [j|j] V; auto.
    destruct (Z.leb_spec i j); destruct (Z.ltb_spec j (i + 0)); cbn; auto; lia.
  - cbn [init_loop].
    assert (V : valid_entry size (numOfCookies l) (EMethod i)) by zz.
    pose proof (write_pos l size t (EMethod i) w WF V) as E. cbn [write_entry] in E.
    rewrite E. cbn [obind].
    destruct (IH (i + 1) _ w (write_wf l size t (Z.to_nat (pos_of l (EMethod i))) w WF) ltac:(lia) ltac:(lia))
      as (t' & E' & WF' & R).
    exists t'. split; [exact E'|]. split; [exact WF'|].
    intros e Ve. rewrite R by auto. rewrite (read_write l size) by auto.
    destruct e as [j|j]; cbn [entry_eqb]; auto.
    destruct (Z.eqb_spec i j); destruct (Z.leb_spec (i+1) j); destruct (Z.leb_spec i j);
      destruct (Z.ltb_spec j (i + 1 + Z.of_nat n)); destruct (Z.ltb_spec j (i + Z.of_nat (S n)));
      cbn [andb]; auto; lia.
Qed.

Lemma copy_loop_spec : forall l size src (f : Z -> W),
  (forall j, 0 <= j < size -> getMethod src j = Def (f j)) ->
  forall n i t, vt_wf l size t -> 0 <= i -> i + Z.of_nat n <= size ->
  exists t', copy_loop n i t src = Def t' /\ vt_wf l size t' /\
    forall e, valid_entry size (numOfCookies l) e ->
      read_entry l t' e =
      match e with
      | EMethod j => if (i <=? j) && (j <? i + Z.of_nat n) then Def (f j) else read_entry l t e
      | ECookie _ => read_entry l t e
      end.
Proof.
  intros l size src f Hsrc. induction n as [|n IH]; intros i t WF Hi Hn.
  - exists t. cbn. split; [reflexivity|]. split; [exact WF|]. intros [j|j] V; auto.
    destruct (Z.leb_spec i j); destruct (Z.ltb_spec j (i + 0)); cbn; auto; lia.
  - cbn [copy_loop].
    assert (V : valid_entry size (numOfCookies l) (EMethod i)) by zz.
    rewrite Hsrc by lia. cbn [obind].
    pose proof (write_pos l size t (EMethod i) (f i) WF V) as E. cbn [write_entry] in E.
    unfold setMethod in E. rewrite E. cbn [obind].
    destruct (IH (i + 1) _ (write_wf l size t (Z.to_nat (pos_of l (EMethod i))) (f i) WF) ltac:(lia) ltac:(lia))
      as (t' & E' & WF' & R).
    exists t'. split; [exact E'|]. split; [exact WF'|].
    intros e Ve. rewrite R by auto. rewrite (read_write l size) by auto.
    destruct e as [j|j]; cbn [entry_eqb]; auto.
    destruct (Z.eqb_spec i j) as [<-|NE].
    + destruct (Z.leb_spec (i + 1) i); [lia|]. cbn [andb].
      destruct (Z.leb_spec i i); [|lia]. destruct (Z.ltb_spec i (i + Z.of_nat (S n))); [|lia]. reflexivity.
    + destruct (Z.leb_spec (i+1) j); destruct (Z.leb_spec i j);
        destruct (Z.ltb_spec j (i + 1 + Z.of_nat n)); destruct (Z.ltb_spec j (i + Z.of_nat (S n)));
        cbn [andb]; auto; lia.
Qed.

(** ** setDtor (C47) *)
Theorem dtor_entries : forall (l : layout) (t : vtable W) (size index : Z) (helper w : W),
  vt_wf l size t -> 0 <= index -> index + 1 < size ->
  exists t', setDtor l t index helper w = Def t' /\
    (* the explicit destructor call / the delete expression *)
    match l with
    | Gcc => getMethod t' index = Def w /\ getMethod t' (index + 1) = Def helper
    | Msc => getMethod t' index = Def helper
    end /\
    dtor_helper_target l t' index = Def w /\
    (forall i, 0 <= i < size -> i <> index -> (l = Gcc -> i <> index + 1) ->
       getMethod t' i = getMethod t i) /\
    (forall i, 0 <= i < 2 -> getCookie l t' i = getCookie l t i) /\
    vt_wf l size t'.
Proof.
  intros l t size index helper w WF Hi Hs.
  assert (V1 : valid_entry size (numOfCookies l) (EMethod index)) by zz.
  assert (V2 : valid_entry size (numOfCookies l) (EMethod (index+1))) by zz.
  destruct l; unfold setDtor.
  - pose proof (write_pos Gcc size t (EMethod index) w WF V1) as E1. cbn [write_entry] in E1.
    unfold setMethod in E1. rewrite E1. cbn [obind].
    set (t1 := mkVt _ _). assert (WF1 : vt_wf Gcc size t1) by (apply write_wf; auto).
    pose proof (write_pos Gcc size t1 (EMethod (index+1)) helper WF1 V2) as E2. cbn [write_entry] in E2.
    unfold setMethod in E2. rewrite E2.
    eexists. split; [reflexivity|].
    set (t2 := mkVt (upd (vt_arr t1) _ _) _).
    assert (R : forall e, valid_entry size 2 e -> read_entry Gcc t2 e =
      if entry_eqb (EMethod (index+1)) e then Def helper else
      if entry_eqb (EMethod index) e then Def w else read_entry Gcc t e).
    { intros e Ve. unfold t2. rewrite (read_write Gcc size) by auto.
      destruct (entry_eqb (EMethod (index+1)) e); auto. unfold t1. now rewrite (read_write Gcc size) by auto. }
    repeat match goal with |- _ /\ _ => split end; try (now apply (write_wf Gcc size t1)).
    + pose proof (R (EMethod index) V1) as X. cbn [read_entry entry_eqb] in X. rewrite X.
      rewrite Z.eqb_refl. destruct (Z.eqb_spec (index+1) index); auto; lia.
    + pose proof (R (EMethod (index+1)) V2) as X. cbn [read_entry entry_eqb] in X. rewrite X.
      now rewrite Z.eqb_refl.
    + pose proof (R (EMethod index) V1) as X. cbn [read_entry entry_eqb] in X.
      unfold dtor_helper_target. rewrite X.
      rewrite Z.eqb_refl. destruct (Z.eqb_spec (index+1) index); auto; lia.
    + intros i Hi' N1 N2. specialize (N2 eq_refl).
      pose proof (R (EMethod i) Hi') as X. cbn [read_entry entry_eqb] in X. rewrite X.
      destruct (Z.eqb_spec (index+1) i); destruct (Z.eqb_spec index i); auto; lia.
    + intros i Hi'. apply (R (ECookie i) Hi').
  - pose proof (write_pos Msc size t (EMethod index) helper WF V1) as E1. cbn [write_entry] in E1.
    unfold setMethod in E1. rewrite E1. cbn [obind].
    set (t1 := mkVt _ _). assert (WF1 : vt_wf Msc size t1) by (apply write_wf; auto).
    assert (V3 : valid_entry size (numOfCookies Msc) (ECookie dtorCookieIndex)) by zz.
    pose proof (write_pos Msc size t1 (ECookie dtorCookieIndex) w WF1 V3) as E2. cbn [write_entry] in E2.
    rewrite E2.
    eexists. split; [reflexivity|].
    set (t2 := mkVt (upd (vt_arr t1) _ _) _).
    assert (R : forall e, valid_entry size 3 e -> read_entry Msc t2 e =
      if entry_eqb (ECookie dtorCookieIndex) e then Def w else
      if entry_eqb (EMethod index) e then Def helper else read_entry Msc t e).
    { intros e Ve. unfold t2. rewrite (read_write Msc size) by auto.
      destruct (entry_eqb (ECookie dtorCookieIndex) e); auto. unfold t1. now rewrite (read_write Msc size) by auto. }
    repeat match goal with |- _ /\ _ => split end; try (now apply (write_wf Msc size t1)).
    + pose proof (R (EMethod index) V1) as X. cbn [read_entry entry_eqb] in X. rewrite X.
      now rewrite Z.eqb_refl.
    + pose proof (R (ECookie dtorCookieIndex) V3) as X. cbn [read_entry entry_eqb] in X.
      rewrite Z.eqb_refl in X. exact X.
    + intros i Hi' N1 N2.
      pose proof (R (EMethod i) Hi') as X. cbn [read_entry entry_eqb] in X. rewrite X.
      destruct (Z.eqb_spec index i); auto; lia.
    + intros i Hi'. assert (V : valid_entry size 3 (ECookie i)) by zz.
      pose proof (R (ECookie i) V) as X. cbn [read_entry entry_eqb] in X. rewrite X.
      unfold dtorCookieIndex. cbn [numOfCookies]. destruct (Z.eqb_spec (3-1) i); auto; lia.
Qed.

End P.

(** ** Offsets *)
Lemma getOffset_spec : forall slot, (slot <= 1000)%nat -> getOffset slot = Def (Z.of_nat slot).
Proof.
  intros slot H. unfold getOffset, selector_table. rewrite nth_error_map.
  assert (E : nth_error (seq 0 1001) slot = Some slot).
  { rewrite nth_error_nth' with (d := 0%nat) by (rewrite seq_length; lia).
    rewrite seq_nth by lia. reflexivity. }
  now rewrite E.
Qed.

Lemma getOffset_beyond : forall slot, (1000 < slot)%nat -> getOffset slot = UB.
Proof.
  intros slot H. unfold getOffset.
  replace (nth_error selector_table slot) with (@None Z); auto.
  symmetry. apply nth_error_None. unfold selector_table. rewrite map_length, seq_length. lia.
Qed.

Lemma dtor_entries_built : forall (W : Type) (l : layout) (null ti : W) (size : Z) (ops : list (entry * W))
    (t0 t : vtable W) (index : Z) (helper w : W),
  0 <= size -> Forall (fun o => valid_entry size (numOfCookies l) (fst o)) ops ->
  buildVTArray l null ti size = Def t0 -> write_all l t0 ops = Def t ->
  0 <= index -> index + 1 < size ->
  exists t', setDtor l t index helper w = Def t' /\
    match l with
    | Gcc => getMethod t' index = Def w /\ getMethod t' (index + 1) = Def helper
    | Msc => getMethod t' index = Def helper
    end /\
    dtor_helper_target l t' index = Def w /\
    (forall i, 0 <= i < size -> i <> index -> (l = Gcc -> i <> index + 1) ->
       getMethod t' i = getMethod t i) /\
    (forall i, 0 <= i < 2 -> getCookie l t' i = getCookie l t i).
Proof.
  intros W l null ti size ops t0 t index helper w Hs Ho Hb Hw Hi1 Hi2.
  destruct (build_spec l null ti size Hs) as (t0' & Hb' & Hwf & _).
  rewrite Hb in Hb'. injection Hb' as <-.
  destruct (write_all_spec l size ops t0 Hwf Ho) as (t' & Hw' & Hwf' & _).
  rewrite Hw in Hw'. injection Hw' as <-.
  destruct (dtor_entries l t size index helper w Hwf' Hi1 Hi2) as (t'' & A & B & C & D & E & _).
  exists t''. auto.
Qed.
