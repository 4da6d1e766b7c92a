(** Properties C102 and C103: method expressions that are kept across a Reset, and the names in reports. *)
From Coq Require Import Bool String NArith Arith Lia List.
From Verif Require Import Base Kept Spec_Kept KeptProofs KeptUses.
Import ListNotations.
Open Scope list_scope.
Open Scope nat_scope.

(** For the examples: one argument, 1 or 2.  Mock 0 is a mock, mock 1 is made around an object. *)
Definition show12 (n : nat) : string := if n =? 1 then "(1)" else "(2)".
Definition mangled (m k : nat) : string := if k =? 0 then "M1IFiiE" else "M1IFidE".
Definition wraps (m : nat) : bool := m =? 1.
Definition anyc : cond nat := mkCond nat (fun _ => true) "(Any)".
Definition two : cond nat := mkCond nat (fun n => n =? 2) "(2)".
Notation runs os := (k_run nat show12 mangled wraps os (k_init nat)).

(** Every test that keeps to the rules runs defined, and each statement tells what the text of the test so far says. *)
Theorem C102_story A show cname around os : keeps A [] os = true ->
  exists s, k_run A show cname around os (k_init A) = Def (s, story A show cname around [] os).
Proof. exact (kept_story A show cname around os). Qed.

(** A kept expression is stubbed, verified after a Reset, and answers again; both mocks take part. *)
Definition test1 : list (kop nat) :=
  [KMention nat 0 0 "mock" "foo" anyc; KMention nat 0 0 "mock" "foo" two; KFake nat 0; KCall nat 0 0 1; KCall nat 0 0 2;
   KVerify nat 1 (Exactly 1); KNoOther nat 0; KReset nat 0; KVerify nat 1 (Exactly 0); KCall nat 0 0 2;
   KVerify nat 1 (AtLeast 1); KCall nat 0 0 2; KMention nat 0 0 "mock" "foo" anyc; KFake nat 2; KCall nat 0 0 2; KVerify nat 1 (Exactly 1);
   KNoOther nat 1; KClear nat 0; KVerify nat 1 (AtLeast 1)].
Example C102_story_example : keeps nat [] test1 = true /\ story nat show12 mangled wraps [] test1 =
  [KDone; KDone; KDone; KAnswered 0; KAnswered 0; KPassed; KMore ["mock.foo(1)"]; KDone; KPassed; KUnexpected false "unknown()";
   KFailed "M1IFiiE(2)" 0 []; KUnexpected true "M1IFiiE(2)"; KDone; KDone; KAnswered 2; KPassed; KPassed; KDone;
   KFailed "mock.foo(2)" 0 []]%string.
Proof. split; reflexivity. Qed.

(** A verification through a kept expression, across any number of Resets, passes exactly if one through an expression
    that is written anew with the same condition does. *)
Theorem C102_as_new A show cname around os v e m k c mock method : through A v ->
  keeps A [] (os ++ [v e]) = true -> nth_error (written A (rev os)) e = Some (m, k, c) ->
  exists s s' xs x y,
    k_run A show cname around (os ++ [v e]) (k_init A) = Def (s, xs ++ [x]) /\
    k_run A show cname around (os ++ [KMention A m k mock method c; v (length (written A (rev os)))]) (k_init A) =
      Def (s', xs ++ [KDone; y]) /\
    (x = KPassed <-> y = KPassed).
Proof. exact (as_new A show cname around os v e m k c mock method). Qed.

(** It passes exactly if the number of recorded calls (those answered since the last Reset or
    ClearInvocationHistory of the mock) of the method that meet the condition is as asked. *)
Theorem C102_counts A show cname around os e q m k c :
  keeps A [] (os ++ [KVerify A e q]) = true -> nth_error (written A (rev os)) e = Some (m, k, c) ->
  exists s xs x, k_run A show cname around (os ++ [KVerify A e q]) (k_init A) = Def (s, xs ++ [x]) /\
    (x = KPassed <->
     enough q (length (filter (fun r => Nat.eqb (r_mock A r) m && Nat.eqb (r_slot A r) k && c_ok A c (r_args A r))
                 (history A (rev os))))).
Proof. exact (verify_means A show cname around os e q m k c). Qed.

Example C102_as_new_example : through nat (fun e => KVerify nat e (Exactly 1)) /\ through nat (KNoOther nat) /\
  keeps nat [] (firstn 15 test1 ++ [KVerify nat 1 (Exactly 1)]) = true /\
  nth_error (written nat (rev (firstn 15 test1))) 1 = Some (0, 0, two) /\
  length (history nat (rev (firstn 15 test1))) = 1.
Proof. split; [left; exists (Exactly 1); reflexivity|]. split; [right; reflexivity|]. repeat split. Qed.

(** A verification through an expression that was written since the last Reset of its mock changes nothing that later
    calls, reports and counts tell. *)
Theorem C102_quiet A show cname around os v e os' : through A v -> keeps A [] (os ++ v e :: os') = true ->
  recent A (rev os) e = true -> Forall (fun o => forall e', o <> KNoOther A e') os' ->
  exists s s' xs x ys, k_run A show cname around (os ++ v e :: os') (k_init A) = Def (s, xs ++ x :: ys) /\
    k_run A show cname around (os ++ os') (k_init A) = Def (s', xs ++ ys) /\ length xs = length os.
Proof. exact (quiet A show cname around os v e os'). Qed.
Example C102_quiet_example : let h := firstn 5 test1 in
  keeps nat [] (h ++ KVerify nat 1 (Exactly 1) :: [KCall nat 0 0 2; KVerify nat 0 (Exactly 1)]) = true /\
  recent nat (rev h) 1 = true /\
  Forall (fun o => forall e', o <> KNoOther nat e') [KCall nat 0 0 2; KVerify nat 0 (Exactly 1)].
Proof. split; [reflexivity|]. split; [reflexivity|]. repeat constructor; intros e' H; discriminate H. Qed.

(** Refuted: a verification through an expression that was kept across a Reset makes the method of a wrapped object
    unexpected, where it was the original without the verification. *)
Theorem C102_quiet_refuted : exists os v e os' s s' xs x y z, through nat v /\ keeps nat [] (os ++ v e :: os') = true /\
  Forall (fun o => forall e', o <> KNoOther nat e') os' /\
  runs (os ++ v e :: os') = Def (s, xs ++ [x; y]) /\ runs (os ++ os') = Def (s', xs ++ [z]) /\
  z = KOriginal /\ y = KUnexpected true "M1IFiiE(1)"%string.
Proof.
  exists [KMention nat 1 0 "mock" "foo" anyc; KReset nat 1], (KNoOther nat), 0, [KCall nat 1 0 1].
  do 2 eexists. exists [KDone; KDone]. do 3 eexists.
  split; [right; reflexivity|]. split; [reflexivity|]. split; [repeat constructor; intros e' H; discriminate H|].
  split; [vm_compute; reflexivity|]. split; [vm_compute; reflexivity|]. split; reflexivity.
Qed.

(** Refuted: an expression that a stubbing statement was written with is not to be used after the Reset that undoes
    the stubbing: its condition is gone. *)
Theorem C102_stubbed_refuted : exists os os', keeps nat [] os = true /\ keeps nat [] os' = true /\
  (exists s xs, runs os = Def (s, xs)) /\ (exists s xs, runs os' = Def (s, xs)) /\
  runs (os ++ [KReset nat 0; KVerify nat 0 (AtLeast 1)]) = UB /\
  runs (os' ++ [KNoOther nat 0]) = UB.
Proof.
  exists [KMention nat 0 0 "mock" "foo" anyc; KFake nat 0; KCall nat 0 0 1].
  exists [KMention nat 0 0 "mock" "foo" anyc; KFake nat 0; KReset nat 0; KMention nat 0 0 "mock" "foo" anyc; KFake nat 1; KCall nat 0 0 1].
  split; [reflexivity|]. split; [reflexivity|].
  split; [do 2 eexists; vm_compute; reflexivity|]. split; [do 2 eexists; vm_compute; reflexivity|].
  split; vm_compute; reflexivity.
Qed.

(** Refuted: AtLeast(0) asks for no call at all, which is why the rules leave it out (C35). *)
Theorem C102_at_least_zero_refuted : exists os, keeps nat [] os = true /\
  (exists s xs, runs (os ++ [KVerify nat 0 (AtLeast 0)]) = Def (s, xs ++ [KPassed])) /\
  (exists s xs, runs (os ++ [KCall nat 0 0 1; KVerify nat 0 (AtLeast 0)]) =
     Def (s, xs ++ [KAnswered 0; KFailed "mock.foo(Any)" 1 ["mock.foo(1)"]%string])) /\
  (exists s xs, runs (os ++ [KCall nat 0 0 1; KCall nat 0 0 2; KVerify nat 0 (AtLeast 0)]) =
     Def (s, xs ++ [KFailed "mock.foo(Any)" 2 ["mock.foo(1)"; "mock.foo(2)"]%string])).
Proof.
  exists [KMention nat 0 0 "mock" "foo" anyc; KFake nat 0]. split; [reflexivity|].
  split; [eexists; exists [KDone; KDone]; vm_compute; reflexivity|].
  split; [eexists; exists [KDone; KDone]; vm_compute; reflexivity|].
  eexists. exists [KDone; KDone; KAnswered 0; KAnswered 0]. vm_compute. reflexivity.
Qed.

(** ** C103: the names *)

(** If every expression is used before the next Reset of its mock, all reports name the methods as the test wrote them
    last, whatever names the compiler has for them. *)
Theorem C103_names A show cname around os : keeps A [] os = true -> prompt A [] os = true ->
  exists s, k_run A show cname around os (k_init A) = Def (s, story_by A show around (spoken A) [] os).
Proof. exact (names_said A show cname around os). Qed.

(** Two names for one method (a pointer and a reference to one mock, say): the last that was written is shown, for
    earlier calls and expressions too. *)
Definition test2 : list (kop nat) :=
  [KMention nat 0 0 "mock" "foo" anyc; KFake nat 0; KCall nat 0 0 1; KMention nat 0 1 "mock" "bar" two; KCall nat 0 1 1;
   KMention nat 0 0 "m" "foo" two; KVerify nat 0 (Exactly 2); KNoOther nat 0; KVerify nat 1 (Exactly 1)].
Example C103_names_example : keeps nat [] test2 = true /\ prompt nat [] test2 = true /\
  story_by nat show12 wraps (spoken nat) [] test2 =
    [KDone; KDone; KAnswered 0; KDone; KUnexpected true "mock.bar(1)"; KDone; KFailed "m.foo(Any)" 1 ["m.foo(1)"];
     KMore ["m.foo(1)"]; KFailed "mock.bar(2)" 0 ["m.foo(1)"]]%string.
Proof. repeat split. Qed.

(** Refuted: after a Reset an expression that was kept shows the name that the compiler has for the type of the method. *)
Theorem C103_refuted : exists os, keeps nat [] os = true /\ (exists s, runs os =
  Def (s, [KDone; KDone; KFailed "M1IFiiE(2)" 0 []]%string)) /\
  story_by nat show12 wraps (spoken nat) [] os = [KDone; KDone; KFailed "mock.foo(2)" 0 []]%string.
Proof.
  exists [KMention nat 0 0 "mock" "foo" two; KReset nat 0; KVerify nat 0 (AtLeast 1)].
  split; [reflexivity|]. split; [eexists; vm_compute; reflexivity|vm_compute; reflexivity].
Qed.

(** Refuted: overloads have one name, so that reports may not tell which of them was called or asked for. *)
Theorem C103_overloads_refuted : exists os os' s s' xs r, runs os = Def (s, xs ++ [KAnswered 0; r]) /\ runs os' = Def (s', xs ++ [KAnswered 1; r]) /\
  keeps nat [] os = true /\ prompt nat [] os = true /\ keeps nat [] os' = true /\ prompt nat [] os' = true /\
  map (r_slot nat) (history nat (rev os)) = [0] /\ map (r_slot nat) (history nat (rev os')) = [1] /\
  r = KFailed "mock.foo(2)"%string 0 ["mock.foo(2)"]%string.
Proof.
  exists [KMention nat 0 0 "mock" "foo" two; KMention nat 0 1 "mock" "foo" two; KFake nat 0; KFake nat 1; KCall nat 0 0 2; KVerify nat 1 (Exactly 1)].
  exists [KMention nat 0 0 "mock" "foo" two; KMention nat 0 1 "mock" "foo" two; KFake nat 0; KFake nat 1; KCall nat 0 1 2; KVerify nat 0 (Exactly 1)].
  do 2 eexists. exists [KDone; KDone; KDone; KDone], (KFailed "mock.foo(2)" 0 ["mock.foo(2)"]%string).
  split; [vm_compute; reflexivity|]. split; [vm_compute; reflexivity|]. repeat split.
Qed.

Definition C102_C103_all := (C102_story, C102_as_new, C102_counts, C102_quiet, C102_quiet_refuted, C102_stubbed_refuted, C102_at_least_zero_refuted,
  C103_names, C103_refuted, C103_overloads_refuted).
Print Assumptions C102_C103_all.
