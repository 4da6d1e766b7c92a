(** * C99: typeid and dynamic_cast see the object of a mock as an object of its class *)
From Coq Require Import Bool ZArith Lia List.
From Verif Require Import Base VTable Rtti Spec_Rtti RttiProofs.
Import ListNotations.
Open Scope nat_scope.

(** What the operators find is what the library has put there, whatever was stubbed, faked, spied on
    or reset since, for GCC and for MSVC. *)
Theorem C99_found {W} l (null ti : W) size ds :
  Forall (proper l size) ds ->
  exists t t', buildVTArray l null ti (Z.of_nat size) = Def t /\ do_all l size t ds = Def t' /\ rtti_word t' = Def ti.
Proof. exact (found l null ti size ds). Qed.

(** MSVC, 32 bit: typeid gives the class, dynamic_cast<void*> the object. *)
Theorem C99_typeid c bases : exists l, new_locator false c bases = Def l /\
  typeid_of l = Def (Type_ c) /\ cast_void l = Def (Object 0).
Proof. exact (ex_intro _ _ (conj (locator_32 c bases) (conj eq_refl eq_refl))). Qed.

(** dynamic_cast gives the object, or null, and which is determined by what is listed in Mock<C, ...>. *)
Theorem C99_listed c bases src target :
  (exists l1 l2 l3, c :: bases = l1 ++ target :: l2 ++ src :: l3) <->
  obind (new_locator false c bases) (fun l => cast l src target) = Def (Object 0).
Proof. exact (listed c bases src target). Qed.

Theorem C99_object_or_null c bases src target :
  obind (new_locator false c bases) (fun l => cast l src target) = Def (Object 0) \/
  obind (new_locator false c bases) (fun l => cast l src target) = Def Null.
Proof. exact (object_or_null c bases src target). Qed.

(** The lists that compile: each class is the one before it, or a base of it, the first one of C itself. *)
Theorem C99_accepted parent f c bases : is_base parent f ->
  (accepted f c bases = true <->
   forall l1 x y l2, c :: bases = l1 ++ x :: y :: l2 -> x = y \/ derives parent x y).
Proof. exact (fun IB => accepted_iff parent f IB c bases). Qed.

(** If all bases of the class are listed it does what C++ says. *)
Theorem C99_cast parent f c bases src target :
  is_base parent f -> acyclic parent -> accepted f c bases = true -> (forall b, derives parent c b -> In b bases) ->
  at_run_time parent c src target ->
  exists a, obind (new_locator false c bases) (fun l => cast l src target) = Def a /\
            (succeeds parent c target -> a = Object 0) /\ (~ succeeds parent c target -> a = Null).
Proof. exact (fun IB => casts parent f IB c bases src target). Qed.

(** If one is not, a cast from it to the class gives null. *)
Theorem C99_cast_refuted parent c bases b :
  acyclic parent -> derives parent c b -> ~ In b bases ->
  at_run_time parent c b c /\ succeeds parent c c /\ obind (new_locator false c bases) (fun l => cast l b c) = Def Null.
Proof. exact (unlisted parent c bases b). Qed.

(** MSVC, 64 bit: there is nothing to be found, for any class, whatever is listed; dynamic_cast<void*> works. *)
Theorem C99_64_refuted c bases : exists l, new_locator true c bases = Def l /\
  typeid_of l = Def NoRtti /\ (forall src target, cast l src target = Def NoRtti) /\ cast_void l = Def (Object 0).
Proof. exact (ex_intro _ _ (conj eq_refl (conj eq_refl (conj (fun _ _ => eq_refl) eq_refl)))). Qed.

(** ** Examples: class 2 derives from 1, that from 0 *)

Definition parents (c : nat) : option nat := match c with 2 => Some 1 | 1 => Some 0 | _ => None end.
Definition bases_of (b c : nat) : bool := (b =? c) || match c with 2 => b <? 2 | 1 => b <? 1 | _ => false end.

Lemma ex_derives c b : derives parents c b <-> (c = 2 /\ b < 2) \/ (c = 1 /\ b = 0).
Proof.
  assert (D10 : derives parents 1 0) by (constructor; reflexivity).
  split.
  - induction 1 as [c b H|c m b H D IH]; destruct c as [|[|[|c]]]; cbn in H; try discriminate; injection H as <-; lia.
  - intros [[-> L]|[-> ->]]; [|exact D10]. destruct b as [|[|b]]; [| |lia].
    + apply (DMore _ _ 1); [reflexivity|exact D10].
    + constructor. reflexivity.
Qed.
Example ex_is_base : is_base parents bases_of.
Proof.
  intros b c. rewrite ex_derives. unfold bases_of. rewrite orb_true_iff, Nat.eqb_eq.
  destruct c as [|[|[|c]]]; rewrite ?Nat.ltb_lt; (split; [intros [H|H]|intros [H|[[H1 H2]|[H1 H2]]]]; try discriminate; try lia; auto).
Qed.
Example ex_acyclic : acyclic parents.
Proof. intros c D. apply ex_derives in D. lia. Qed.
Example ex_all : accepted bases_of 2 [1; 0] = true /\ (forall b, derives parents 2 b -> In b [1; 0]) /\ at_run_time parents 2 0 1 /\
  obind (new_locator false 2 [1; 0]) (fun l => cast l 0 1) = Def (Object 0) /\
  obind (new_locator false 2 [1; 0]) (fun l => cast l 0 7) = Def Null.
Proof.
  split; [reflexivity|]. split; [|split; [|split; reflexivity]].
  - intros b D. apply ex_derives in D. assert (B : b = 0 \/ b = 1) by lia. destruct B as [-> | ->]; cbn; auto.
  - split; [right; apply ex_derives; lia|]. split; [lia|]. rewrite ex_derives. lia.
Qed.
Example ex_missing : accepted bases_of 2 [0] = true /\ derives parents 2 1 /\ ~ In 1 [0] /\
  obind (new_locator false 2 [0]) (fun l => cast l 0 1) = Def Null /\ obind (new_locator false 2 []) (fun l => cast l 0 2) = Def Null.
Proof. split; [reflexivity|]. split; [apply ex_derives; lia|]. split; [intros [H|[]]; discriminate|]. split; reflexivity. Qed.
Example ex_refused : accepted bases_of 1 [0; 1] = false /\ accepted bases_of 0 [1] = false.
Proof. split; reflexivity. Qed.
Example ex_proper : Forall (proper Msc 4) [DInit 9; DSet 3 5; DDtor 0 1 2; DCookie 2 7; DCopy true (mkVt [0;0;0;8;1;2;3;4] 4)] /\
  obind (buildVTArray Msc 0 42 4) (fun t => obind (do_all Msc 4 t [DInit 9; DSet 3 5; DDtor 0 1 2; DCookie 2 7; DCopy true (mkVt [0;0;0;8;1;2;3;4] 4)]) rtti_word) = Def 42.
Proof. split; [repeat constructor; cbn; lia|reflexivity]. Qed.

Definition C99_all := (@C99_found, C99_typeid, C99_listed, C99_object_or_null, C99_accepted, C99_cast, C99_cast_refuted, C99_64_refuted).
Print Assumptions C99_all.
