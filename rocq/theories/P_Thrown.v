(** Property C107: Throw(x) throws what "throw x;" would. *)
From Coq Require Import Bool Ascii String Arith Lia List.
From Verif Require Import Base Thrown Spec_Thrown ThrownProofs.
Import ListNotations.
Open Scope list_scope.
Open Scope nat_scope.

(** For the examples: class 1 derives from class 0; variable 7 is an object of class 1; array 3 holds a text. *)
Definition is_a (c b : nat) : bool := (c =? b) || ((c =? 1) && (b =? 0)).
Definition vars (v : nat) : object := mkObject (if v =? 7 then 1 else 0) (fun c => 10 + c).
Definition texts (a : nat) : string := if a =? 3 then "boom" else "".
Notation runs os := (t_run is_a os (t_init vars texts)).

(** Every test with positive quantities runs defined and tells what the account says that writes down at each Throw what
    "throw x;" would throw then, as long as a text is not read after the mock was Reset. *)
Theorem C107_story derives vars texts os ys : Forall positive os -> s_run derives os (s_init vars texts) = Some ys ->
  exists s, t_run derives os (t_init vars texts) = Def (s, ys).
Proof. exact (thrown_story derives vars texts os ys). Qed.

(** The object changes after the statement; two calls get one copy each; a text; then none is left. *)
Definition test1 : list top :=
  [OStub false [(XObject 7 1, 2); (XArray 3, 1)] (Some (XObject 7 0)); OAssign 7 0 99; OWrite 3 "new";
   OCall [CatchText; CatchClass 0]; OCall [CatchClass 1]; OCall [CatchClass 0; CatchText; CatchAll]; ORead;
   OCall [CatchClass 1; CatchClass 0]; OCall [CatchClass 1]; OReset; OCall [CatchAll]].
Example C107_story_example : Forall positive test1 /\ s_run is_a test1 (s_init vars texts) =
  Some [Done; Done; Done; Caught 1 (SawObject 1 10); Caught 0 (SawObject 1 11); Caught 1 SawPointer; Text "boom";
        Caught 1 (SawObject 0 10); Escaped; Done; Unexpected].
Proof. split; [repeat constructor|vm_compute; reflexivity]. Qed.

(** Without reading texts no test is undefined. *)
Theorem C107_defined derives vars texts os : (forall o, In o os -> o <> ORead) -> Forall positive os ->
  exists s ys, t_run derives os (t_init vars texts) = Def (s, ys).
Proof. exact (thrown_defined derives vars texts os). Qed.

Example C107_defined_example : forall o, In o [OStub true [(XArray 3, 2)] None; OCall [CatchText]; OReset] -> o <> ORead.
Proof. intros o [<-|[<-|[<-|[]]]]; discriminate. Qed.

(** The handlers around the call catch what they would catch of "throw x;" in its place, for all operands, classes,
    handlers and values. *)
Theorem C107_like_throw derives vars texts void x hs :
  exists s, t_run derives [OStub void [(x, 1)] None; OCall hs] (t_init vars texts) =
    Def (s, [Done; in_place derives vars x hs]).
Proof. exact (like_throw derives vars texts void x hs). Qed.

Example C107_like_throw_example : in_place is_a vars (XObject 7 0) [CatchText; CatchClass 1; CatchClass 0] = Caught 2 (SawObject 0 10).
Proof. vm_compute. reflexivity. Qed.

(** As with "throw x;", an object that is seen through a reference to a base class is not thrown with its own class. *)
Theorem C107_own_class_refuted : ~ (forall derives vars texts v c, derives (o_class (vars v)) c = true ->
  exists s i p, t_run derives [OStub false [(XObject v c, 1)] None; OCall [CatchClass (o_class (vars v))]] (t_init vars texts) =
    Def (s, [Done; Caught i (SawObject (o_class (vars v)) p)])).
Proof.
  intros H. destruct (H is_a vars texts 7 0 eq_refl) as (s & i & p & E). vm_compute in E. discriminate E.
Qed.

(** Unlike the text of "throw array;", the text that Throw("...") throws is gone with the mock: reading it after that is
    undefined. *)
Theorem C107_texts_refuted :
  (forall derives vars texts a,
     t_run derives [OStub false [(XArray a, 1)] None; OCall [CatchText]; OReset; ORead] (t_init vars texts) = UB) /\
  ~ (forall derives vars texts a,
  exists s ys, t_run derives [OStub false [(XArray a, 1)] None; OCall [CatchText]; OReset; ORead] (t_init vars texts) = Def (s, ys)).
Proof.
  split; [intros derives vars texts a; reflexivity|].
  intros H. destruct (H is_a vars texts 3) as (s & ys & E). vm_compute in E. discriminate E.
Qed.

(** AlwaysThrow differs between methods with and without a result: only the former keeps the text of the time of the
    statement. *)
Theorem C107_always_refuted : ~ (forall derives vars texts void a t,
  exists s, t_run derives [OStub void [] (Some (XArray a)); OWrite a t; OCall [CatchText]; ORead] (t_init vars texts) =
    Def (s, [Done; Done; Caught 0 SawPointer; Text (texts a)])).
Proof. intros H. destruct (H is_a vars texts true 3 "new"%string) as (s & E). vm_compute in E. discriminate E. Qed.

Definition P_Thrown_all := (C107_story, C107_defined, C107_like_throw, C107_own_class_refuted, C107_texts_refuted, C107_always_refuted).
Print Assumptions P_Thrown_all.
