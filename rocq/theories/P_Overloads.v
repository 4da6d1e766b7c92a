(** * C96: overloaded names *)
From Coq Require Import Bool List Arith Lia.
From Verif Require Import Overloads Spec_Overloads OverloadsProofs.
Import ListNotations.

Definition none := mkQual false false NoRef.
Definition con := mkQual true false NoRef.
Definition vol := mkQual false true NoRef.

(** Types: 0 void, 1 int, 2 double. *)
Definition f_int := mkOver 0 [1] none (Some 0).
Definition f_double := mkOver 0 [2] none (Some 1).
Definition f_const := mkOver 0 [] con (Some 2).
Definition f_none := mkOver 0 [] none (Some 3).
Definition f_volatile := mkOver 0 [] vol (Some 4).
Definition f_inline_const := mkOver 0 [] con None.

Lemma adm3 : admitted [f_int; f_double; f_const].
Proof.
  split; [|split].
  - repeat constructor; cbn; intuition discriminate.
  - intros o p O P. cbn in O, P. intuition subst; cbn in *; try discriminate; reflexivity.
  - intros o p O P. cbn in O, P. intuition subst; cbn in *; try discriminate; reflexivity.
Qed.

(** C96 for the macros with a prototype: they mean the method with exactly this result, these
    parameters and the macro's qualifiers, or nothing. *)
Theorem C96_prototype : forall m r ps s o, admitted s ->
  (prototype_macro m r ps s = Means o <-> In o s /\ written m r ps o).
Proof. exact prototype_written. Qed.

Example C96_prototype_ex : admitted [f_int; f_double; f_const] /\
  prototype_macro OverloadedMethod 0 [2] [f_int; f_double; f_const] = Means f_double /\
  prototype_macro ConstOverloadedMethod 0 [] [f_int; f_double; f_const] = Means f_const /\
  prototype_macro OverloadedMethod 1 [2] [f_int; f_double; f_const] = NoMatch.
Proof. split; [exact adm3|]. repeat split; reflexivity. Qed.

(** Every method that is not volatile is meant by exactly one of them. *)
Theorem C96_every : forall s o, admitted s -> In o s -> q_volatile (o_qual o) = false ->
  exists! m, prototype_macro m (o_ret o) (o_pars o) s = Means o.
Proof. exact every_named. Qed.

Example C96_every_ex : admitted [f_int; f_double; f_const] /\ In f_const [f_int; f_double; f_const] /\ q_volatile (o_qual f_const) = false.
Proof. split; [exact adm3|]. cbn. auto. Qed.

(** C96 for Method: exactly when it means what. *)
Theorem C96_method : forall s o, NoDup s ->
  (method_macro s = Means o <-> lone s o /\ mockable o /\ forall p, lone s p -> mockable p -> p = o).
Proof. exact stub_of_means. Qed.

Example C96_method_ex : NoDup [f_int] /\ method_macro [f_int] = Means f_int.
Proof. split; [repeat constructor; cbn; intuition discriminate|reflexivity]. Qed.

(** A name that is not overloaded means its method; one with two methods is refused. *)
Theorem C96_single : forall o, method_macro [o] = Means o <-> mockable o.
Proof. exact method_single. Qed.

Theorem C96_two : forall o p x, o <> p -> mockable o -> mockable p -> method_macro [o; p] <> Means x.
Proof. exact two_overloads. Qed.

Example C96_two_ex : f_int <> f_const /\ mockable f_int /\ mockable f_const /\ mockable f_volatile /\ method_macro [f_int; f_const] = Ambiguous /\
  method_macro [f_int; f_double] = NoMatch.
Proof. split; [discriminate|]. repeat split; try reflexivity; cbn; discriminate. Qed.

(** Refuted: with three methods Method can mean one of them without a word from the compiler,
    since the two others cancel each other out. *)
Theorem C96_refuted : exists s o, admitted s /\ length s = 3 /\
  (forall p, In p s -> mockable p /\ exists k, get_offset p = Entry k) /\ method_macro s = Means o.
Proof.
  exists [f_int; f_double; f_const], f_const. split; [exact adm3|]. split; [reflexivity|]. split; [|reflexivity].
  intros p [<- |[<- |[<- |[]]]]; (split; [cbn; discriminate|eexists; reflexivity]).
Qed.

(** Refuted: it can be one that is not virtual, which is then called on an object of another class. *)
Theorem C96_undefined_refuted : exists s o, admitted s /\ In f_int s /\ In f_double s /\
  method_macro s = Means o /\ get_offset o = ForeignCall.
Proof.
  exists [f_int; f_double; f_inline_const], f_inline_const. split; [|split; [now left|split; [right; now left|split; reflexivity]]].
  split; [|split].
  - repeat constructor; cbn; intuition discriminate.
  - intros o p O P. cbn in O, P. intuition subst; cbn in *; try discriminate; reflexivity.
  - intros o p O P. cbn in O, P. intuition subst; cbn in *; try discriminate; reflexivity.
Qed.

(** Refuted: a volatile method beside another one of its name is meant by no macro. *)
Theorem C96_volatile_refuted : exists s o, admitted s /\ In o s /\ mockable o /\
  method_macro s <> Means o /\ forall m r ps, prototype_macro m r ps s <> Means o.
Proof.
  exists [f_none; f_volatile], f_volatile.
  assert (A : admitted [f_none; f_volatile]).
  { split; [|split].
    - repeat constructor; cbn; intuition discriminate.
    - intros o p O P. cbn in O, P. intuition subst; cbn in *; try discriminate; reflexivity.
    - intros o p O P. cbn in O, P. intuition subst; cbn in *; try discriminate; reflexivity. }
  split; [exact A|]. split; [right; now left|]. split; [intro; reflexivity|]. split; [cbn; discriminate|].
  intros m r ps. apply volatile_unnamed; [exact A|reflexivity].
Qed.

Definition C96_all := (C96_prototype, C96_every, C96_method, C96_single, C96_two, C96_refuted, C96_undefined_refuted, C96_volatile_refuted).
Print Assumptions C96_all.
