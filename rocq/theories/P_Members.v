(** Properties of stubbed data members (mock.Stub(&C::member, value)).

    [members] (Spec_DataMembers.v) says what the members are meant to hold; [happened i log]
    is the list of constructions and destructions of objects in member [i]. *)
From Coq Require Import Bool ZArith Lia List.
From Verif Require Import Base Values DataMembers Spec_DataMembers DataMembersProofs.
Import ListNotations.
Open Scope nat_scope.

(** ** C66, for objects made by the library: a stubbed member holds its value until it is
    assigned to, and the objects in it are destroyed exactly once each, by Reset or the end
    of the mock. *)
Theorem C66_members : forall n os a ms vs, members true (repeat None n) os = Some (a, ms, vs) ->
  exists s, dm_run (dm_new n) os = Def (s, vs) /\
    forall i, once_each i (match nth_error ms i with Some (Some _) => true | _ => false end) (happened i (dm_log s)).
Proof. exact members_kept. Qed.

Example C66_case : members true (repeat None 2)
  [DStub 0 (VInt 1); DStub 1 (VInt 2); DGet 0; DSet 0 (VInt 5); DGet 0; DGet 1; DReset; DStub 1 (VInt 3); DGet 1; DDestroy] =
  Some (false, [None; None],
        [VVoid; VVoid; VInt 1; VVoid; VInt 5; VInt 2; VVoid; VVoid; VInt 3; VVoid]).
Proof. reflexivity. Qed.

(** What is outside of that is undefined: using the mock or its members once the mock is gone,
    and using a member that is not stubbed. *)
Theorem C66_undefined : forall n os a ms vs o, members true (repeat None n) os = Some (a, ms, vs) ->
  misused a ms o -> dm_run (dm_new n) (os ++ [o]) = UB.
Proof. exact members_misused. Qed.
Example C66_undefined_case :
  members true (repeat None 2) [DStub 0 (VInt 1)] = Some (true, [Some (VInt 1); None], [VVoid]) /\
  misused true [Some (VInt 1); None] (DGet 1) /\ misused true [Some (VInt 1); None] (DSet 2 (VInt 0)) /\
  members true (repeat None 2) [DStub 0 (VInt 1); DDestroy] = Some (false, [None; None], [VVoid; VVoid]) /\
  misused false [None; None] DReset /\ misused false [None; None] (DStub 1 (VInt 1)) /\ misused false [None; None] (DGet 0).
Proof. repeat split; cbn; discriminate. Qed.

(** Objects of the user whose members are not stubbed keep them: clearing, Reset and the end
    of the mock neither construct nor destroy anything, and when the object's life ends each
    member is destroyed once. *)
Theorem C66_wrapped : forall vs os a vs' rs, plain true vs os = Some (a, vs', rs) ->
  exists s s', dm_run (dm_wrap vs) os = Def (s, rs) /\ dm_log s = [] /\
    dm_run (dm_wrap vs) (os ++ [DObjectEnds]) = Def (s', rs ++ [VVoid]) /\
    forall i, happened i (dm_log s') = if Nat.ltb i (length vs') then [Gone i] else [].
Proof. exact wrapped_kept. Qed.
Example C66_wrapped_case :
  plain true [VInt 1; VInt 2] [DGet 1; DSet 0 (VInt 4); DClear; DGet 0; DReset; DGet 1; DDestroy; DGet 0; DSet 1 (VInt 6); DGet 1] =
  Some (false, [VInt 4; VInt 6],
        [VInt 2; VVoid; VVoid; VInt 4; VVoid; VInt 2; VVoid; VInt 4; VVoid; VInt 6]).
Proof. reflexivity. Qed.

(** C66 is false in general.  Clearing the history between Stub and the end of the mock
    destroys an object whose bytes were set to zero; *)
Theorem C66_clear_refuted : exists s,
  dm_run (dm_new 1) [DStub 0 (VInt 1); DGet 0; DClear] = Def (s, [VVoid; VInt 1; VVoid]) /\
  dm_run (dm_new 1) [DStub 0 (VInt 1); DGet 0; DClear; DGet 0] = UB /\
  dm_run (dm_new 1) [DStub 0 (VInt 1); DGet 0; DClear; DDestroy] = UB.
Proof. eexists. repeat split; reflexivity. Qed.

(** stubbing a member a second time leaves two owners of the same storage; *)
Theorem C66_twice_refuted : exists s,
  dm_run (dm_new 1) [DStub 0 (VInt 1); DStub 0 (VInt 2); DGet 0] = Def (s, [VVoid; VVoid; VInt 2]) /\
  dm_run (dm_new 1) [DStub 0 (VInt 1); DStub 0 (VInt 2); DGet 0; DDestroy] = UB.
Proof. eexists. repeat split; reflexivity. Qed.

(** and a stubbed member of a wrapped object of the user is destroyed by the mock although
    the object lives on: using the member or ending the object's life is undefined. *)
Theorem C66_wrapped_refuted : exists s,
  dm_run (dm_wrap [VInt 7]) [DGet 0; DStub 0 (VInt 1); DGet 0; DDestroy] = Def (s, [VInt 7; VVoid; VInt 1; VVoid]) /\
  dm_run (dm_wrap [VInt 7]) [DGet 0; DStub 0 (VInt 1); DGet 0; DDestroy; DGet 0] = UB /\
  dm_run (dm_wrap [VInt 7]) [DGet 0; DStub 0 (VInt 1); DGet 0; DDestroy; DObjectEnds] = UB.
Proof. eexists. repeat split; reflexivity. Qed.

(** Assigning to what Stub returns compiles and has no effect on the member. *)
Theorem C66_assign_refuted : forall n v w, v <> w -> exists s,
  dm_run (dm_new (S n)) [DStubAssign 0 v w; DGet 0] = Def (s, [VVoid; v]) /\ [VVoid; v] <> [VVoid; w].
Proof. intros n v w NE. eexists. split; [reflexivity|congruence]. Qed.
Example C66_assign_case : VInt 1 <> VInt 2.
Proof. discriminate. Qed.

Definition P_Members_theorems := (C66_members, C66_undefined, C66_wrapped, C66_clear_refuted, C66_twice_refuted, C66_wrapped_refuted, C66_assign_refuted).
Print Assumptions P_Members_theorems.
