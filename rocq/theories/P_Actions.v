(** Properties of action sequences (one stubbing). *)
From Coq Require Import List ZArith Lia.
From Verif Require Import Base CInt ActionSeq Spec_Actions ActionSeqProofs ReentProofs MoveOnly Spec_MoveOnly MoveOnlyProofs.
Import ListNotations.
Open Scope Z_scope.

(** C02: [k] successive calls get the recorded answers in order, an action with
    quantity n for n calls in a row, and "nothing left" afterwards. *)
Theorem C02_playback : forall (F : Type) (rs : list (recorded F)) (k : nat),
  Forall (fun r => match r with RecTimes _ q => 1 <= q <= int_max | _ => True end) rs ->
  exists s s',
    record_all aseq_new rs = Def s /\
    play k s = Def (map (fun i => shown (nth_answer (map meant rs) (Z.of_nat i))) (seq 0 k), s').
Proof. exact (@playback). Qed.
Print Assumptions C02_playback.

Example C02_playback_ex : exists s s',
  record_all aseq_new [RecTimes 7%nat 2; RecOnce 8%nat] = Def s /\
  play 4 s = Def ([SrvCall 7%nat; SrvCall 7%nat; SrvCall 8%nat; SrvNoMore], s').
Proof.
  apply (C02_playback nat [RecTimes 7%nat 2; RecOnce 8%nat] 4).
  repeat constructor; cbv; congruence.
Qed.

(** C04: once the next action is an always-action, every later call gets it and
    the stubbing never changes again. *)
Theorem C04_always : forall (F : Type) (pre : list (recorded F)) (f : F) (rest : list (recorded F)) (k j : nat),
  Forall (fun r => match r with RecTimes _ q => 1 <= q <= int_max | _ => True end) (pre ++ RecAlways f :: rest) ->
  (forall i, (i < k)%nat -> nth_answer (map meant pre) (Z.of_nat i) <> None) ->
  nth_answer (map meant pre) (Z.of_nat k) = None ->
  exists s s1 srv1,
    record_all aseq_new (pre ++ RecAlways f :: rest) = Def s /\
    play k s = Def (srv1, s1) /\
    play j s1 = Def (repeat (SrvCall f) j, s1).
Proof. exact (@always_absorbs). Qed.
Print Assumptions C04_always.

Example C04_always_ex : exists s s1 srv1,
  record_all aseq_new ([RecTimes 7%nat 2] ++ RecAlways 8%nat :: [RecOnce 9%nat]) = Def s /\
  play 2 s = Def (srv1, s1) /\ play 5 s1 = Def (repeat (SrvCall 8%nat) 5, s1).
Proof.
  apply (C04_always nat [RecTimes 7%nat 2] 8%nat [RecOnce 9%nat] 2 5).
  - repeat constructor; cbv; congruence.
  - intros [|[|i]] H; try lia; cbv; congruence.
  - reflexivity.
Qed.

(** C03, the part about one stubbing: once exhausted it stays exhausted and does
    not change. *)
Theorem C03_exhausted : forall (F : Type) (rs : list (recorded F)) (k j : nat),
  Forall (fun r => match r with RecTimes _ q => 1 <= q <= int_max | _ => True end) rs ->
  nth_answer (map meant rs) (Z.of_nat k) = None ->
  exists s s1 srv1,
    record_all aseq_new rs = Def s /\ play k s = Def (srv1, s1) /\
    play j s1 = Def (repeat SrvNoMore j, s1).
Proof. exact (@exhausted_forever). Qed.
Print Assumptions C03_exhausted.

Example C03_exhausted_ex : exists s s1 srv1,
  record_all aseq_new [RecTimes 7%nat 2] = Def s /\ play 3 s = Def (srv1, s1) /\
  play 4 s1 = Def (repeat SrvNoMore 4, s1).
Proof.
  apply (C03_exhausted nat [RecTimes 7%nat 2] 3 4); [repeat constructor; cbv; congruence | reflexivity].
Qed.

(** C05 is false: an action recorded with a quantity of zero or less answers
    every call (at least the next 2^31-1 ones) instead of none. *)
Theorem C05_zero_quantity_refuted : forall (F : Type) (f : F) (q : Z) (rest : list (recorded F)) (k : nat),
  int_min <= q <= 0 -> Z.of_nat k <= int_max ->
  exists s s', record_all aseq_new (RecTimes f q :: rest) = Def s /\
               play k s = Def (repeat (SrvCall f) k, s').
Proof. exact (@nonpositive_forever). Qed.
Print Assumptions C05_zero_quantity_refuted.

Example C05_zero_quantity_ex : exists s s',
  record_all aseq_new [RecTimes 7%nat (lit_Times 0); RecAlways 8%nat] = Def s /\
  play 3 s = Def ([SrvCall 7%nat; SrvCall 7%nat; SrvCall 7%nat], s').
Proof.
  apply (C05_zero_quantity_refuted nat 7%nat 0 [RecAlways 8%nat] 3); [cbv; split; congruence | cbv; congruence].
Qed.

(** C55: n_Times is exact for every n that fits an int ... *)
Theorem C55_times : forall n, 0 <= n <= int_max -> lit_Times n = n.
Proof. exact lit_Times_exact. Qed.
Print Assumptions C55_times.

Example C55_times_ex : lit_Times 3 = 3.
Proof. reflexivity. Qed.

(** ... and wrong for every larger n. *)
Theorem C55_times_refuted : forall n, int_max < n -> lit_Times n <> n.
Proof. exact lit_Times_wrong. Qed.
Print Assumptions C55_times_refuted.

Example C55_times_refuted_ex : lit_Times 4294967297 = 1 /\ lit_Times 2147483648 = -2147483648.
Proof. split; reflexivity. Qed.

(** C55: n_Time accepts 1 only. *)
Theorem C55_time : forall n, 0 <= n -> lit_Time n = if n =? 1 then Some 1 else None.
Proof. exact lit_Time_spec. Qed.
Print Assumptions C55_time.

Example C55_time_ex : lit_Time 1 = Some 1 /\ lit_Time 2 = None /\ lit_Time 4294967297 = None.
Proof. repeat split. Qed.

(** C53 is false.  (1) Two single actions, the first of which calls the method
    again: the nested call runs the first action again, the second is not
    reached by it, and afterwards the first action is never removed. *)
Theorem C53_reentrant_refuted :
  exists s s' l, record_all aseq_new [RecOnce 1%nat; RecOnce 2%nat] = Def s /\
    reent_call (fun f depth => if Nat.eqb f 1 then (if Nat.eqb depth 0 then 1 else 0) else 0)%nat 10 0 s
      = Def (s', l) /\
    l = [Some 1%nat; Some 1%nat] /\
    nth_answer (map meant [RecOnce 1%nat; RecOnce 2%nat]) 1 = Some 2%nat /\
    (* three later calls *)
    exists s2, play 3 s' = Def ([SrvCall 1%nat; SrvCall 1%nat; SrvCall 1%nat], s2).
Proof.
  do 3 eexists. split; [vm_compute; reflexivity|]. split; [vm_compute; reflexivity|].
  split; [reflexivity|]. split; [reflexivity|]. eexists. vm_compute. reflexivity.
Qed.
Print Assumptions C53_reentrant_refuted.

(** (2) An action with quantity 2 that calls the method again is removed twice:
    with it goes the end marker, and the next call is undefined behaviour. *)
Theorem C53_reentrant_ub_refuted :
  exists s s' l, record_all aseq_new [RecTimes 1%nat 2] = Def s /\
    reent_call (fun f depth => if Nat.eqb depth 0 then 1 else 0)%nat 10 0 s = Def (s', l) /\
    l = [Some 1%nat; Some 1%nat] /\ handle_call s' = UB.
Proof.
  do 3 eexists. split; [vm_compute; reflexivity|]. split; [vm_compute; reflexivity|].
  split; reflexivity.
Qed.
Print Assumptions C53_reentrant_ub_refuted.

(** (3) Nested calls that use an action up: the action that called them then removes one that
    was never run.  The outer call runs 1, its two nested calls run 1 and 2; 3 is lost. *)
Theorem C53_lost_refuted :
  exists s s' l, record_all aseq_new [RecTimes 1%nat 2; RecOnce 2%nat; RecOnce 3%nat] = Def s /\
    reent_call (fun f depth => if Nat.eqb depth 0 then 2 else 0)%nat 10 0 s = Def (s', l) /\
    l = [Some 1%nat; Some 1%nat; Some 2%nat] /\
    nth_answer (map meant [RecTimes 1%nat 2; RecOnce 2%nat; RecOnce 3%nat]) 3 = Some 3%nat /\
    handle_call s' = Def (s', SrvNoMore).
Proof.
  do 3 eexists. split; [vm_compute; reflexivity|]. split; [vm_compute; reflexivity|].
  split; [reflexivity|]. split; reflexivity.
Qed.
Print Assumptions C53_lost_refuted.

(** What holds: if the action is left over when the call ends, because it lasts or because its
    quantity [n] is larger than the number of calls in the tree of nested calls, all of them are
    answered by it, and later calls are answered as after that many calls in a row.
    [nested f d]: how many calls [f] makes at depth [d], none from depth [D] on. *)
Theorem C53_within : forall (F : Type) (nested : F -> nat -> nat) (f : F) (rs : list (recorded F)) (q : option Z) (D : nat),
  Forall (fun r => match r with RecTimes _ q => 1 <= q <= int_max | _ => True end) rs ->
  match q with Some n => Z.of_nat (tree_size (nested f) D 0) < n <= int_max | None => True end ->
  (forall e, (D <= e)%nat -> nested f e = 0%nat) ->
  exists s s' N, record_all aseq_new (match q with Some n => RecTimes f n | None => RecAlways f end :: rs) = Def s /\
    (forall fuel, (N <= fuel)%nat -> reent_call nested fuel 0 s = Def (s', repeat (Some f) (tree_size (nested f) D 0))) /\
    forall k, exists s2, play k s' =
      Def (map (fun i => shown (nth_answer (map meant (match q with Some n => RecTimes f n | None => RecAlways f end :: rs))
                                  (Z.of_nat i + Z.of_nat (tree_size (nested f) D 0)))) (seq 0 k), s2).
Proof. exact (@reent_within). Qed.
Print Assumptions C53_within.

(** Three nested calls, the first two levels making two and one: 1 + 2 * (1 + 1 * 1) = 5 < 6. *)
Example C53_within_ex : exists s s',
  record_all aseq_new [RecTimes 1%nat 6; RecOnce 2%nat] = Def s /\
  reent_call (fun f d => match f, d with 1, 0 => 2 | 1, 1 => 1 | _, _ => 0 end)%nat 20 0 s = Def (s', repeat (Some 1%nat) 5) /\
  exists s2, play 3 s' = Def ([SrvCall 1%nat; SrvCall 2%nat; SrvNoMore], s2) /\
  (tree_size ((fun f d => match f, d with 1, 0 => 2 | 1, 1 => 1 | _, _ => 0 end) 1) 2 0 = 5)%nat.
Proof. do 2 eexists. split; [vm_compute; reflexivity|]. split; [vm_compute; reflexivity|]. eexists. split; vm_compute; reflexivity. Qed.

(** C84: in a chain that gives values which cannot be copied, mixed with other answers, the
    [k]-th call gets what the chain says, each value whole and for one call; afterwards calls
    are unexpected. *)
Theorem C84_moved : forall (V G : Type) (l : list (mlink V G)) (k : nat),
  Forall (fun x => match x with LPlain (RecTimes _ q) => 1 <= q <= int_max | _ => True end) l ->
  mrun l k = Def (map (fun i => got (nth_answer (map says l) (Z.of_nat i))) (seq 0 k)).
Proof. exact (@move_once). Qed.
Print Assumptions C84_moved.

(** No call gets what a move left behind. *)
Theorem C84_whole : forall (V G : Type) (l : list (mlink V G)) (k : nat) (rs : list (mresult V G)),
  Forall (fun x => match x with LPlain (RecTimes _ q) => 1 <= q <= int_max | _ => True end) l ->
  mrun l k = Def rs -> ~ In (Got Emptied) rs.
Proof. exact (@move_whole). Qed.
Print Assumptions C84_whole.

(** Two values with a callable used twice between them. *)
Example C84_ex : mrun [LMove 7; LPlain (RecTimes 1%nat 2); LMove 8] 5 =
  Def [Got (Full 7); GotOther 1%nat; GotOther 1%nat; Got (Full 8); NoAnswer].
Proof. vm_compute. reflexivity. Qed.

(** The model can show an emptied value: a lambda that lasts would give it to the second call.
    (There is no AlwaysReturn for such values.) *)
Example C84_emptied : exists s, record_all (aseq_new (F := mcallable nat)) [RecAlways (FMove 0)] = Def s /\
  mcalls 2 s [Full 7] = Def [Got (Full 7); Got Emptied].
Proof. eexists. split; vm_compute; reflexivity. Qed.
