(** A program that makes so many calls that the counter of invocations starts again (C09). *)
From Coq Require Import Bool String ZArith Lia List.
From Verif Require Import Base CInt Ordinals Values ArgMatchers InvMatchers ActionSeq Sequences
  Expectation ReturnSet Syntax World SpecFacts WorldExamples.
Import ListNotations.
Open Scope nat_scope.

(** foo(3) is called on a mock whose foo has a stubbing. *)
Definition wrap_start : list op := [OMock 0; OStmt [(foo 0, None)] (SWhen [always 1] None); OCall 0 0 [VInt 3]].
(** bar(), which is not mocked. *)
Definition wrap_call : op := OCall 0 1 [].
(** Verify(foo(4) + foo(3)).Once(); *)
Definition wrap_verify : op :=
  OStmt [(foo 0, Some (eq_int 4)); (foo 0, Some (eq_int 3))] (SVerify ScInvolved [SConcat (SLeaf 0) (SLeaf 1)] [VsQuant QOnce]).

Definition wrap_world : world :=
  match exec_all ex_env 10 wrap_start (init_world ex_env []) with RVal w _ => w | _ => init_world ex_env [] end.
Definition wrap_at (o st : Z) (lg : list (nat * event)) : world := set_log (set_started (set_ord wrap_world o) st) lg.
Definition wrap_event : event := EvUnexpected Unmocked None [].

Lemma wrap_begin : exec_all ex_env 10 wrap_start (init_world ex_env []) =
  RVal (wrap_at 1 1 []) [inl (VInt 0); inl VVoid; inl (VInt 1)].
Proof. vm_compute. reflexivity. Qed.

Lemma wrap_one : forall o st lg, exec ex_env 10 wrap_call (wrap_at o st lg) =
  RExn (wrap_at (next_ordinal o) (st + 1) (lg ++ [(0, wrap_event)])) (XUnexpected wrap_event).
Proof. intros. lazy -[next_ordinal]. reflexivity. Qed.

Lemma wrap_many : forall n o st lg, (0 <= o)%Z -> (o + Z.of_nat n < two32)%Z ->
  exists st' lg', exec_all ex_env 10 (repeat wrap_call n) (wrap_at o st lg) =
    RVal (wrap_at (o + Z.of_nat n) st' lg') (repeat (inr (XUnexpected wrap_event)) n).
Proof.
  induction n as [|n IH]; intros o st lg H B.
  - exists st, lg. cbn [repeat exec_all Z.of_nat]. unfold ret. now rewrite Z.add_0_r.
  - cbn [repeat exec_all]. unfold bind at 1. unfold attempt. rewrite wrap_one.
    assert (N : next_ordinal o = (o + 1)%Z).
    { unfold next_ordinal, to_uint32. apply Z.mod_small. lia. }
    rewrite N. destruct (IH (o + 1)%Z (st + 1)%Z (lg ++ [(0, wrap_event)])) as (st' & lg' & X); [lia|lia|].
    exists st', lg'. unfold bind. rewrite X. unfold ret.
    replace (o + 1 + Z.of_nat n)%Z with (o + Z.of_nat (Datatypes.S n))%Z by lia. reflexivity.
Qed.

Lemma wrap_end : forall st lg, exists w,
  exec_all ex_env 10 [OCall 0 0 [VInt 4]; wrap_verify] (wrap_at 4294967295 st lg) = RVal w [inl (VInt 1); inl VVoid].
Proof. intros. eexists. vm_compute. reflexivity. Qed.

Lemma order_wraps : exists n,
  results ex_env 10 [] (wrap_start ++ repeat wrap_call n ++ [OCall 0 0 [VInt 4]; wrap_verify]) =
    Some ([inl (VInt 0); inl VVoid; inl (VInt 1)] ++ repeat (inr (XUnexpected wrap_event)) n ++ [inl (VInt 1); inl VVoid]).
Proof.
  destruct (Z_of_nat_complete 4294967294) as (n & N); [discriminate|].
  exists n. unfold results. rewrite exec_all_app, wrap_begin.
  rewrite exec_all_app.
  destruct (wrap_many n 1 1 []) as (st & lg & X); [lia|unfold two32; lia|].
  rewrite X. replace (1 + Z.of_nat n)%Z with 4294967295%Z by lia.
  destruct (wrap_end st lg) as (w & Y). rewrite Y. reflexivity.
Qed.
