(** Copies of mocks. *)
From Coq Require Import Bool ZArith Lia List.
From Verif Require Import Base CInt Proxy MockCopy.
Import ListNotations.
Open Scope nat_scope.

(** ** C67 is false: a mock cannot be copied, although copying compiles.  Destroying the
    copy and the mock releases the same table twice; once the copy is gone, the mock that
    is still there no longer intercepts calls; *)
Theorem C67_copy_refuted :
  c_run (cs_init 2) [CWrap; CStub 0 0 1 7; CCall 0; CCopy 0; CCall 0; CDestroy 1; CCall 0]
    = Def [CDone; CDone; CHandled 7; CDone; CHandled 7; CDone; COriginal] /\
  c_run (cs_init 2) [CWrap; CStub 0 0 1 7; CCall 0; CCopy 0; CCall 0; CDestroy 1; CCall 0; CDestroy 0] = UB.
Proof. split; reflexivity. Qed.

(** a method stubbed through the copy is looked up in the vectors of the other mock, where
    it is not found: the call is undefined.  Without the copy it is answered. *)
Theorem C67_stub_copy_refuted :
  c_run (cs_init 2) [CWrap; CStub 0 1 5 8; CCall 1] = Def [CDone; CDone; CHandled 8] /\
  c_run (cs_init 2) [CWrap; CCopy 0; CStub 1 1 5 8] = Def [CDone; CDone; CDone] /\
  c_run (cs_init 2) [CWrap; CCopy 0; CStub 1 1 5 8; CCall 1] = UB.
Proof. repeat split; reflexivity. Qed.

(** Once either of the two is gone, stubbing a further method through the one that is left
    writes into the class's own table, which is constant. *)
Theorem C67_stub_after_refuted :
  c_run (cs_init 2) [CWrap; CStub 0 0 1 7; CStub 0 1 5 8; CCall 1] = Def [CDone; CDone; CDone; CHandled 8] /\
  c_run (cs_init 2) [CWrap; CStub 0 0 1 7; CCopy 0; CDestroy 1] = Def [CDone; CDone; CDone; CDone] /\
  c_run (cs_init 2) [CWrap; CStub 0 0 1 7; CCopy 0; CDestroy 1; CStub 0 1 5 8] = UB /\
  c_run (cs_init 2) [CWrap; CStub 0 0 1 7; CCopy 0; CDestroy 0; CStub 1 1 5 8] = UB.
Proof. repeat split; reflexivity. Qed.

Print Assumptions C67_copy_refuted.
Print Assumptions C67_stub_after_refuted.
Print Assumptions C67_stub_copy_refuted.
