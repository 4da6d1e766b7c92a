(** Properties C86, C87 and C88: what depends on the compiler, on its settings and on the platform. *)
From Coq Require Import Arith NArith Lia List.
From Verif Require Import Base Events Spec_Events EventsProofs Finally FinallyProofs Settings SettingsProofs Align AlignProofs.
Import ListNotations.
Open Scope nat_scope.

(** C86: where no move is left to the compiler (C++17), or it elides all of them, the original runs
    once, with the table entry of the spied method set to the original and all other entries as
    they were; afterwards the entry is what it was before the call, and nothing else that the
    original left behind is changed, whether it returned or threw. *)
Theorem C86_cxx17 : forall (M Rs : Type) (s : standard) (el : list bool) (orig t : list M) (o : nat)
    (body : list M -> Rs * list M) (fake m : M),
  allowed s el -> (s = Cxx17 \/ Forall (eq true) el) ->
  nth_error t o = Some fake -> nth_error orig o = Some m ->
  (forall u, length (snd (body u)) = length u) ->
  exists before r after t',
    body before = (r, after) /\ spied el orig t o body = Def (Went (r, t')) /\
    nth_error before o = Some m /\ (forall k, k <> o -> nth_error before k = nth_error t k) /\
    nth_error t' o = Some fake /\ (forall k, k <> o -> nth_error t' k = nth_error after k).
Proof.
  intros M Rs s el orig t o body fake m A D Ht Ho Hb. apply spied_elided with (m := m); auto.
  destruct D as [D|D]; [now apply A|exact D].
Qed.
(** Three methods, of which the second is spied; the original stubs the third. *)
Example C86_cxx17_case :
  allowed Cxx17 [true; true; true] /\
  spied [true; true; true] [10; 11; 12] [10; 91; 12] 1 (fun t => (t, upd t 2 92)) = Def (Went ([10; 11; 12], [10; 91; 92])).
Proof. split; [split; [reflexivity|repeat constructor]|reflexivity]. Qed.

(** C86 is refuted for the older standards: if the compiler does not elide one of the moves, which
    they allow, every call of a spied method ends the program before the original runs. *)
Theorem C86_refuted : forall (M Rs : Type) (s : standard) (el : list bool) (orig t : list M) (o : nat)
    (body : list M -> Rs * list M) (fake m : M),
  s <> Cxx17 -> allowed s el -> In false el ->
  nth_error t o = Some fake -> nth_error orig o = Some m ->
  spied el orig t o body = Def Terminated.
Proof. intros M Rs s el orig t o body fake m _ _ F Ht Ho. exact (spied_moved el orig t o body fake m Ht Ho F). Qed.
Example C86_refuted_case :
  allowed Cxx11 [true; true; false] /\ In false [true; true; false] /\
  spied [true; true; false] [10; 11; 12] [10; 91; 12] 1 (fun t => (tt, t)) = Def Terminated.
Proof. split; [split; [reflexivity|discriminate]|split; [right; right; now left|reflexivity]]. Qed.

(** C87: with the macro defined and assertions compiled in, an unexpected call aborts the program;
    every listener is notified before, in the order of registration, and the adapter is not. *)
Theorem C87 : forall (E L X : Type) (reaction : L -> E -> option X) (unexpected : E -> bool)
    (m : macros) (builtin : L) (os : list (fc_op L)) (e : E),
  assert_on_unexpected m = true -> ndebug m = false -> unexpected e = true ->
  (forall l, In l (registered os []) -> reaction l e = None) ->
  handle_with reaction unexpected m builtin (fc_run fctx_new os) e = (registered os [], Aborts).
Proof.
  intros E L X reaction unexpected m builtin os e A N U Q.
  pose proof (fc_run_listeners os (fctx_new : fctx L)) as G. cbn in G.
  rewrite <- G in Q |- *. now apply assertion_ends.
Qed.
Example C87_case :
  handle_with (X := nat) (fun l _ => if l =? 9 then Some 1 else None) (fun e => e =? 0) (mkMacros true false) 9
    (fc_run fctx_new [FAdd 3; FAdd 4]) 0 = ([3; 4], Aborts).
Proof. reflexivity. Qed.

(** C87: failed verifications, and everything with the macro undefined, are delivered as ever: to the
    listeners and then to the adapter. *)
Theorem C87_verifications : forall (E L X : Type) (reaction : L -> E -> option X) (unexpected : E -> bool)
    (m : macros) (builtin : L) (os : list (fc_op L)) (e : E),
  assert_on_unexpected m = false \/ unexpected e = false ->
  (forall l, In l (registered os []) -> reaction l e = None) ->
  let a := adapter_in_force os builtin builtin in
  handle_with reaction unexpected m builtin (fc_run fctx_new os) e =
    (registered os [] ++ [a], match reaction a e with Some x => Throws x | None => Returns end).
Proof.
  intros E L X reaction unexpected m builtin os e H Q a.
  pose proof (fc_run_listeners os (fctx_new : fctx L)) as G. cbn in G.
  pose proof (fc_run_adapter os (fctx_new : fctx L) builtin) as F. cbn in F.
  subst a. rewrite <- F, <- G in *. apply assertion_silent; [tauto|exact Q].
Qed.
Example C87_verifications_case :
  handle_with (X := nat) (fun l _ => if l =? 9 then Some 1 else None) (fun e => e =? 0) (mkMacros true false) 9
    (fc_run fctx_new [FAdd 3; FAdd 4]) 1 = ([3; 4; 9], Throws 1).
Proof. reflexivity. Qed.

(** C87 is refuted in general: with NDEBUG the macro changes nothing, and a listener that throws (one that
    reports to a test framework, say) keeps the assertion from being reached; in both cases code under test that
    catches everything hides the unexpected call. *)
Theorem C87_refuted : forall (E L X : Type) (reaction : L -> E -> option X) (unexpected : E -> bool)
    (m : macros) (builtin : L) (os : list (fc_op L)) (e : E),
  ndebug m = true \/ Exists (fun l => reaction l e <> None) (registered os []) ->
  snd (handle_with reaction unexpected m builtin (fc_run fctx_new os) e) <> Aborts.
Proof.
  intros E L X reaction unexpected m builtin os e H.
  pose proof (fc_run_listeners os (fctx_new : fctx L)) as G. cbn in G. rewrite <- G in H.
  now apply assertion_avoided.
Qed.
Example C87_refuted_case :
  handle_with (X := nat) (fun l _ => if l =? 9 then Some 1 else None) (fun e => e =? 0) (mkMacros true true) 9
    (fc_run fctx_new [FAdd 3; FAdd 4]) 0 = ([3; 4; 9], Throws 1) /\
  handle_with (X := nat) (fun l _ => if l =? 3 then Some 1 else None) (fun e => e =? 0) (mkMacros true false) 9
    (fc_run fctx_new [FAdd 3; FAdd 4]) 0 = ([3], Throws 1).
Proof. split; reflexivity. Qed.

(** C88: the block the library allocates is as large as an object of the class, and wherever operator new
    puts it, it is aligned for every class whose alignment is at most 16. *)
Theorem C88 : forall (c : shape) (address : N),
  polymorphic c -> (sh_align c <= 16)%N -> fake_instance c address ->
  sh_size (fake_shape c) = sh_size c /\ use_at c address = Def tt.
Proof. intros c a H L F. split; [now apply fake_size|now apply fake_aligned]. Qed.
(** A class with a long double. *)
Example C88_case : polymorphic (mkShape 48 16) /\ fake_instance (mkShape 48 16) 4112 /\ sh_size (fake_shape (mkShape 48 16)) = 48%N /\
  use_at (mkShape 48 16) 4112 = Def tt.
Proof.
  split; [exists 1%N, 3%N; repeat split|]. split; [|split; reflexivity].
  split; [exists 257%N; reflexivity|discriminate].
Qed.

(** C88 is refuted for classes with a greater alignment (a member with alignas(32), an AVX vector): operator new
    may return a block at which an object of the class must not be used. *)
Theorem C88_refuted : forall (c : shape), polymorphic c -> (16 < sh_align c)%N ->
  exists address, fake_instance c address /\ use_at c address = UB.
Proof. exact fake_misaligned. Qed.
Example C88_refuted_case : polymorphic (mkShape 64 32) /\ (16 < sh_align (mkShape 64 32))%N /\
  sh_size (fake_shape (mkShape 64 32)) = 64%N.
Proof. split; [exists 2%N, 2%N; repeat split|split; reflexivity]. Qed.

Definition P_Platform_theorems :=
  (C86_cxx17, C86_refuted, @C87, @C87_verifications, @C87_refuted, C88, C88_refuted).
Print Assumptions P_Platform_theorems.
