(** Proofs about Events.v. *)
From Coq Require Import List.
From Verif Require Import Base Events Spec_Events.
Import ListNotations.

Section Events.
Context {E L X : Type}.
Variable reaction : L -> E -> option X.
Notation fireEvent := (fireEvent reaction).
Notation ctx_handle := (ctx_handle reaction).

Lemma fireEvent_quiet : forall ls e, (forall l, In l ls -> reaction l e = None) ->
  fireEvent ls e = (ls, None).
Proof.
  induction ls as [|l ls IH]; intros e H; cbn; auto.
  rewrite (H l) by (left; reflexivity). rewrite IH; auto. intros; apply H; now right.
Qed.

Lemma fc_run_listeners : forall (os : list (fc_op L)) (c : fctx L),
  fc_listeners (fc_run c os) = registered os (fc_listeners c).
Proof. unfold fc_run. induction os as [|[] os IH]; intro c; cbn; auto; now rewrite IH. Qed.

Lemma fc_run_adapter : forall (os : list (fc_op L)) (c : fctx L) b,
  getTestingFrameworkAdapter b (fc_run c os) = adapter_in_force os (getTestingFrameworkAdapter b c) b.
Proof. unfold fc_run. induction os as [|[] os IH]; intros c b; cbn; auto; now rewrite IH. Qed.

(** C48 *)
Lemma delivery : forall os builtin e,
  (forall l, In l (registered os []) -> reaction l e = None) ->
  ctx_handle builtin (fc_run fctx_new os) e =
  (registered os [] ++ [adapter_in_force os builtin builtin],
   reaction (adapter_in_force os builtin builtin) e).
Proof.
  intros os b e H. unfold ctx_handle. rewrite fc_run_listeners, fc_run_adapter. cbn.
  rewrite fireEvent_quiet by exact H. reflexivity.
Qed.

(** A listener that throws stops the delivery: the later ones and the adapter
    hear nothing. *)
Lemma delivery_stops : forall pre l post e x builtin a,
  (forall k, In k pre -> reaction k e = None) -> reaction l e = Some x ->
  ctx_handle builtin (mkFctx (pre ++ l :: post) a) e = (pre ++ [l], Some x).
Proof.
  intros pre l post e x b a H R. unfold ctx_handle. cbn [fc_listeners].
  assert (F : fireEvent (pre ++ l :: post) e = (pre ++ [l], Some x)).
  { induction pre as [|k pre IH]; cbn.
    - now rewrite R.
    - rewrite (H k) by (left; reflexivity). rewrite IH; auto. intros; apply H; now right. }
  now rewrite F.
Qed.

End Events.
