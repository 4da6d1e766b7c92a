(** Proofs about MoveOnly.v. *)
From Coq Require Import ZArith Lia List.
From Verif Require Import Base CInt ActionSeq Spec_Actions ActionSeqProofs MoveOnly Spec_MoveOnly.
Import ListNotations.
Open Scope Z_scope.

Section P.
Context {V G : Type}.

(** A plan of callables, the plan of results, and where the values are. *)
Inductive stands (st : list (cell V)) : plan (mcallable G) -> plan (V + G) -> Prop :=
| S_nil : stands st [] []
| S_move : forall i v p q, nth_error st i = Some (Full v) -> ~ In (FMove i) (map fst p) -> stands st p q ->
    stands st ((FMove i, Some 1) :: p) ((inl v, Some 1) :: q)
| S_other : forall g o p q, stands st p q -> stands st ((FOther g, o) :: p) ((inr g, o) :: q).

Lemma stands_upd : forall st p q i x, stands st p q -> ~ In (FMove i) (map fst p) -> stands (upd st i x) p q.
Proof.
  intros st p q i x H. induction H as [|j v p q J NJ H IH|g o p q H IH]; intro N; [constructor| |]; cbn in N.
  - assert (j <> i) by (intro; subst; apply N; now left).
    constructor; [|exact NJ|apply IH; intro; apply N; now right]. rewrite nth_error_upd_other; auto.
  - constructor; auto.
Qed.

Lemma stands_app : forall st st' p q, stands st p q -> stands (st ++ st') p q.
Proof.
  intros st st' p q H. induction H; constructor; auto. rewrite nth_error_app1; auto. eapply nth_error_Some_lt; eauto.
Qed.

Lemma mrecord_grows : forall (l : list (mlink V G)) st, exists t, fst (mrecord st l) = st ++ t.
Proof.
  induction l as [|[v|r] l IH]; intro st; cbn.
  - exists []. now rewrite app_nil_r.
  - destruct (IH (st ++ [Full v])) as [t T]. destruct (mrecord (st ++ [Full v]) l). cbn in *. exists (Full v :: t). now rewrite T, <- app_assoc.
  - destruct (IH st) as [t T]. destruct (mrecord st l). cbn in *. eauto.
Qed.

Lemma mrecord_stands : forall (l : list (mlink V G)) st,
  stands (fst (mrecord st l)) (map meant (snd (mrecord st l))) (map says l) /\
  (forall i, In (FMove i) (map fst (map meant (snd (mrecord st l)))) -> (length st <= i)%nat).
Proof.
  induction l as [|[v|r] l IH]; intro st; cbn.
  - split; [constructor|intros i []].
  - destruct (IH (st ++ [Full v])) as [IH1 IH2]. destruct (mrecord_grows l (st ++ [Full v])) as [t T].
    destruct (mrecord (st ++ [Full v]) l) as [st' rs]. cbn in *. split.
    + constructor; auto.
      * rewrite T, <- app_assoc. cbn. rewrite nth_error_app2 by lia. now rewrite Nat.sub_diag.
      * intro C. apply IH2 in C. rewrite app_length in C. cbn in C. lia.
    + intros i [C|C]; [inversion C; lia|]. apply IH2 in C. rewrite app_length in C. cbn in C. lia.
  - destruct (IH st) as [IH1 IH2]. destruct (mrecord st l) as [st' rs]. cbn in *. split.
    + destruct r; cbn; constructor; exact IH1.
    + intros i [C|C]; [destruct r; discriminate|auto].
Qed.

Lemma mrecord_ok : forall (l : list (mlink V G)) st, Forall link_ok l -> Forall (@rec_ok _) (snd (mrecord st l)).
Proof.
  induction l as [|[v|r] l IH]; intros st H; cbn; [constructor| |]; inversion H; subst.
  - specialize (IH (st ++ [Full v]) H3). destruct (mrecord (st ++ [Full v]) l). cbn in *. constructor; auto.
  - specialize (IH st H3). destruct (mrecord st l). cbn in *. constructor; auto. destruct r; cbn in *; auto.
Qed.

Lemma mcalls_spec : forall k s st p q, rep s p -> Forall entry_ok p -> stands st p q ->
  mcalls k s st = Def (map (fun i => got (nth_answer q (Z.of_nat i))) (seq 0 k)).
Proof.
  induction k as [|k IH]; intros s st p q R OK ST; [reflexivity|]. cbn [mcalls].
  destruct (rep_call s p R OK) as (s' & H & R' & OK' & _). rewrite H. cbn [obind].
  assert (NEXT : forall st' q', stands st' (advance p) q' -> (forall j, 0 <= j -> nth_answer q' j = nth_answer q (j + 1)) ->
    mcalls k s' st' = Def (map (fun i => got (nth_answer q (Z.of_nat i))) (seq 1 k))).
  { intros st' q' ST' Q. rewrite (IH s' st' _ q' R' OK' ST'). f_equal. rewrite <- seq_shift, map_map. apply map_ext.
    intro i. rewrite Q by lia. do 2 f_equal. lia. }
  cbn [seq map]. change (Z.of_nat 0) with 0. inversion ST as [|i v p1 q1 I NI ST1 E1 E2|g o p1 q1 ST1 E1 E2]; subst.
  - cbn [nth_answer shown mserve obind]. rewrite (NEXT st []); [reflexivity|exact ST|reflexivity].
  - cbn [nth_answer]. destruct (Z.ltb_spec 0 1); [|lia]. cbn [shown mserve]. rewrite I. cbn [of_option obind].
    rewrite (NEXT (upd st i Emptied) q1); [reflexivity| |].
    + cbn [advance]. destruct (Z.eqb_spec 1 1); [|lia]. now apply stands_upd.
    + intros j J. cbn [nth_answer]. destruct (Z.ltb_spec (j + 1) 1); [lia|]. f_equal. lia.
  - destruct o as [n|].
    + inversion OK as [|? ? EO _]; subst. unfold entry_ok in EO. cbn in EO.
      cbn [nth_answer]. destruct (Z.ltb_spec 0 n); [|lia]. cbn [shown mserve obind].
      rewrite (NEXT st (if n =? 1 then q1 else (inr g, Some (n - 1)) :: q1)); [reflexivity| |].
      * cbn [advance]. destruct (Z.eqb_spec n 1); [exact ST1|]. now constructor.
      * intros j J. cbn [nth_answer]. destruct (Z.eqb_spec n 1) as [->|N].
        -- destruct (Z.ltb_spec (j + 1) 1); [lia|]. f_equal. lia.
        -- cbn [nth_answer]. destruct (Z.ltb_spec j (n - 1)); destruct (Z.ltb_spec (j + 1) n); try lia; auto. f_equal. lia.
    + cbn [nth_answer shown mserve obind]. rewrite (NEXT st ((inr g, None) :: q1)); [reflexivity|exact ST|reflexivity].
Qed.

Theorem move_once : forall (l : list (mlink V G)) k, Forall link_ok l ->
  mrun l k = Def (map (fun i => got (nth_answer (map says l) (Z.of_nat i))) (seq 0 k)).
Proof.
  intros l k OK. unfold mrun. pose proof (mrecord_stands l []) as [ST _]. pose proof (mrecord_ok l [] OK) as RO.
  destruct (mrecord [] l) as [st rs]. cbn [fst snd] in *.
  destruct (rep_record_all rs aseq_new [] rep_new) as (s & RA & RP). cbn [app] in RP. rewrite RA. cbn [obind].
  eapply mcalls_spec; eauto. now apply meant_ok.
Qed.

Theorem move_whole : forall (l : list (mlink V G)) k rs, Forall link_ok l -> mrun l k = Def rs -> ~ In (Got Emptied) rs.
Proof.
  intros l k rs OK H. rewrite move_once in H by exact OK. injection H as <-. intro C. apply in_map_iff in C.
  destruct C as (i & E & _). destruct (nth_answer (map says l) (Z.of_nat i)) as [[v|g]|]; discriminate.
Qed.
End P.
