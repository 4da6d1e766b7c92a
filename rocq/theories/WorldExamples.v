(** Concrete programs run in the world model: witnesses for the properties that
    fail, and instances of the hypotheses of those that hold. *)
From Coq Require Import Bool String ZArith Lia List.
From Verif Require Import Base CInt Values ArgMatchers InvMatchers ActionSeq Sequences
  Expectation ReturnSet Syntax World.
Import ListNotations.
Open Scope nat_scope.

(** The results of the operations of a program run from the start of the process,
    each caught by the test; [None]: undefined behaviour or no answer. *)
Definition results (E : env) (fuel : nat) (m : mem) (os : list op) : option (list (val + exn)) :=
  match exec_all E fuel os (init_world E m) with RVal _ l => Some l | _ => None end.

Definition undefined (E : env) (fuel : nat) (m : mem) (os : list op) : Prop :=
  exec_all E fuel os (init_world E m) = RUB.

(** A class with two virtual methods [int foo(int)] (entry 0, original: returns its
    argument) and [int& bar()] (entry 1, its default is the object at address 0),
    a virtual destructor (entries 2 and 3), and two data members. *)
Definition ex_class : class_desc :=
  mkClass 4 (Some 2%nat)
    (fun s => match s with
              | 0%nat => PArg 0 (fun v => PRet v)
              | 1%nat => PRet (VRef 1)
              | _ => PRet VVoid
              end)
    (fun s => match s with 0%nat => RtVal (VInt 0) | 1%nat => RtRef 0 | _ => RtVoid end)
    2.

(** The built-in adapter (number 0) throws on failed verifications only. *)
Definition ex_env : env :=
  mkEnv [ex_class]
    (fun _ e => match e with EvUnexpected _ _ _ => None | _ => Some (XVerification e) end)
    0 (fun l => l) (fun v => v).

Definition foo (m : nat) : target := TMethod m 0 10.
Definition bar (m : nat) : target := TMethod m 1 11.
Definition once (v : Z) : recorded callable := RecOnce (FProg (PRet (VInt v))).
Definition always (v : Z) : recorded callable := RecAlways (FProg (PRet (VInt v))).
Definition eq_int (z : Z) : imatcher := IMArgs [ACmp REq (XVal (VInt z))].

(** *** C15: clearing the history also clears the data members. *)
Lemma clear_data_members :
  results ex_env 10 [] [OMock 0; OSetMember 0 0 (VInt 7); OGetMember 0 0; OClear 0; OGetMember 0 0]
  = Some [inl (VInt 0); inl VVoid; inl (VInt 7); inl VVoid; inl (VInt 0)].
Proof. vm_compute. reflexivity. Qed.

(** *** C18: two calls of a faked method that returns a reference; the caller
    writes through the first result. *)
Lemma default_reference_shared :
  results ex_env 10 [Some (VInt 0)]
    [OMock 0; OStmt [(bar 0, None)] SFake; OCall 0 1 []; ORead 0; OWrite 0 (VInt 5); OCall 0 1 []; ORead 0]
  = Some [inl (VInt 0); inl VVoid; inl (VRef 0); inl (VInt 0); inl VVoid; inl (VRef 0); inl (VInt 5)].
Proof. vm_compute. reflexivity. Qed.

(** A class with one method [A& foo()], where A is abstract. *)
Definition null_class : class_desc :=
  mkClass 1 None (fun _ => PRet VVoid) (fun _ => RtRefNone) 0.
Definition null_env : env := mkEnv [null_class] (e_react ex_env) 0 (fun l => l) (fun v => v).

Lemma default_reference_null :
  undefined null_env 10 [] [OMock 0; OStmt [(foo 0, None)] SFake; OCall 0 0 []].
Proof. vm_compute. reflexivity. Qed.

(** *** C36: verifying a method of a wrapped object that was not stubbed. *)
Lemma verify_changes_answers :
  results ex_env 10 []
    [ONewObj 0; OSpyMock 0 0; OCall 0 0 [VInt 3];
     OStmt [(foo 0, None)] (SVerify ScInvolved [SLeaf 0%nat] [VsQuant QNever]);
     OCall 0 0 [VInt 3]]
  = Some [inl (VInt 0); inl (VInt 0); inl (VInt 3); inl VVoid;
          inr (XUnexpected (EvUnexpected Unmatched (Some 1%Z) [VInt 3]))].
Proof. vm_compute. reflexivity. Qed.

(** *** C16: an interrupted When on a method of a wrapped object that was not
    stubbed: nothing is committed, but the original is gone. *)
Lemma interrupted_when_binds :
  results ex_env 10 []
    [ONewObj 0; OSpyMock 0 0; OCall 0 0 [VInt 3];
     OStmt [(foo 0, None)] (SWhen [once 1] (Some (1%nat, XUser 9)));
     OCall 0 0 [VInt 3]]
  = Some [inl (VInt 0); inl (VInt 0); inl (VInt 3); inr (XUser 9);
          inr (XUnexpected (EvUnexpected Unmatched (Some 1%Z) [VInt 3]))].
Proof. vm_compute. reflexivity. Qed.

(** *** C54: a stored method expression used before and after the mock was reset, and after it
    was destroyed. *)
Lemma stored_expression_outlived :
  undefined ex_env 10 [] [OMock 0; OCtx (foo 0); OWhen 0 [once 1] None; OReset 0; OWhen 0 [once 2] None] /\
  undefined ex_env 10 [] [OMock 0; OCtx (foo 0); OWhen 0 [once 1] None; OMockDestroy 0; OWhen 0 [once 2] None] /\
  results ex_env 10 [] [OMock 0; OCtx (foo 0); OReset 0; OWhen 0 [once 2] None; OCall 0 0 [VInt 3]]
  = Some [inl (VInt 0); inl (VInt 0); inl VVoid; inl VVoid; inl (VInt 2)].
Proof. split; [|split]; vm_compute; reflexivity. Qed.

(** *** C54: a stored method expression used in two When statements. *)
Lemma stored_expression_shares :
  results ex_env 10 []
    [OMock 0; OCtx (foo 0); OWhen 0 [once 1; once 2] None; OWhen 0 [once 3] None;
     OCall 0 0 [VInt 3]; OCall 0 0 [VInt 3]]
  = Some [inl (VInt 0); inl (VInt 0); inl VVoid; inl VVoid; inl (VInt 1); inl (VInt 2)].
Proof. vm_compute. reflexivity. Qed.

Lemma stored_expression_double_free :
  undefined ex_env 10 []
    [OMock 0; OCtx (foo 0); OWhen 0 [once 1; once 2] None; OWhen 0 [once 3] None; OMockDestroy 0].
Proof. vm_compute. reflexivity. Qed.

(** A condition given to a stored expression after it was used for stubbing
    releases the condition the stubbing refers to. *)
Lemma stored_expression_condition :
  undefined ex_env 10 []
    [OMock 0; OCtx (foo 0); OWhen 0 [always 1] None; OCond 0 (eq_int 3); OCall 0 0 [VInt 3]].
Proof. vm_compute. reflexivity. Qed.

(** *** C41: one stored expression used to stub and to verify; the object a
    reference argument designates is changed in between. *)
Lemma identity_shortcut :
  results ex_env 10 [Some (VInt 1)]
    [OMock 0; OCtx (foo 0); OCond 0 (eq_int 1); OWhen 0 [always 4] None; OCall 0 0 [VRef 0];
     OWrite 0 (VInt 2);
     OExp ScInvolved [SLeaf 0%nat]; OBool 0;
     OStmt [(foo 0, Some (eq_int 1))] (SVerify ScInvolved [SLeaf 0%nat] [VsBool])]
  = Some [inl (VInt 0); inl (VInt 0); inl VVoid; inl VVoid; inl (VInt 4); inl VVoid;
          inl (VInt 0); inl (VBool true); inl (VBool false)].
Proof. vm_compute. reflexivity. Qed.

(** *** C42: an action that assigns to its parameter. *)
Lemma action_changes_record :
  results ex_env 10 []
    [OMock 0; OStmt [(foo 0, None)] (SWhen [RecAlways (FProg (PSetArg 0 (VInt 8) (PRet (VInt 0))))] None);
     OCall 0 0 [VInt 3];
     OStmt [(foo 0, Some (eq_int 3))] (SVerify ScInvolved [SLeaf 0%nat] [VsBool]);
     OStmt [(foo 0, Some (eq_int 8))] (SVerify ScInvolved [SLeaf 0%nat] [VsBool])]
  = Some [inl (VInt 0); inl VVoid; inl (VInt 0); inl (VBool false); inl (VBool true)].
Proof. vm_compute. reflexivity. Qed.

(** *** C42: ReturnAndSet moves from the recorded arguments. *)
Definition C42_env : env :=
  mkEnv [ex_class] (fun _ _ => None) 0 (fun l => l) (fun v => match v with VStr _ => VStr ""%string | _ => v end).
Definition C42_set_prog (f : callable) : list op :=
  [OMock 0; OStmt [(foo 0, None)] (SWhen [RecAlways f] None); OCall 0 0 [VRef 0; VStr "abc"%string]; ORead 0;
   OStmt [(foo 0, Some (IMArgs [AAny; ACmp REq (XVal (VStr "abc"%string))]))] (SVerify ScInvolved [SLeaf 0%nat] [VsBool])].
Lemma set_loses_record :
  results C42_env 10 [Some (VInt 0)] (C42_set_prog (FSet (Some (SVal (VInt 1))) [SVal (VInt 5)]))
  = Some [inl (VInt 0); inl VVoid; inl (VInt 1); inl (VInt 5); inl (VBool false)] /\
  results C42_env 10 [Some (VInt 0)] (C42_set_prog (FSetNamed (Some (SVal (VInt 1))) [(1, SVal (VInt 5))]))
  = Some [inl (VInt 0); inl VVoid; inl (VInt 1); inl (VInt 5); inl (VBool true)].
Proof. split; vm_compute; reflexivity. Qed.

(** *** C13: the destructor stubbed after Reset. *)
Lemma destructor_after_reset :
  undefined ex_env 10 []
    [OMock 0; OReset 0; OStmt [(TDtor 0, None)] SFake; OCall 0 3 []].
Proof. vm_compute. reflexivity. Qed.

(** *** Two mocks around one object. *)
(** Destroyed in the order of construction, the second one writes into the table
    the compiler made: another object of the class is affected. *)
Lemma two_mocks :
  results ex_env 10 []
    [ONewObj 0; ONewObj 0; OCall 1 0 [VInt 3];
     OSpyMock 0 0; OSpyMock 0 0; OMockDestroy 0;
     OStmt [(foo 1, None)] (SWhen [always 4] None)]
  = Some [inl (VInt 0); inl (VInt 1); inl (VInt 3); inl (VInt 0); inl (VInt 1); inl VVoid; inl VVoid] /\
  undefined ex_env 10 []
    [ONewObj 0; ONewObj 0; OCall 1 0 [VInt 3];
     OSpyMock 0 0; OSpyMock 0 0; OMockDestroy 0;
     OStmt [(foo 1, None)] (SWhen [always 4] None); OCall 1 0 [VInt 3]].
Proof. split; vm_compute; reflexivity. Qed.

(** *** Reset from inside calls *)
(** The last recorded action resets its own mock. *)
Lemma reset_in_last_action :
  undefined ex_env 10 []
    [OMock 0; OStmt [(foo 0, None)] (SWhen [RecOnce (FProg (PDo (OReset 0) (fun _ => PRet (VInt 1))))] None);
     OCall 0 0 [VInt 3]].
Proof. vm_compute. reflexivity. Qed.

(** The original of a spied method resets the mock: the proxy is put back without a
    stubbing behind it. *)
Definition ex_class_reset : class_desc :=
  mkClass 1 None (fun _ => PDo (OReset 0) (fun _ => PRet (VInt 1))) (fun _ => RtVal (VInt 0)) 0.
Definition ex_env_reset : env :=
  mkEnv [ex_class_reset] (fun _ _ => None) 0 (fun l => l) (fun v => v).
Lemma reset_in_spied_method :
  results ex_env_reset 10 []
    [ONewObj 0; OSpyMock 0 0; OStmt [(foo 0, None)] (SSpy false); OCall 0 0 []]
  = Some [inl (VInt 0); inl (VInt 0); inl VVoid; inl (VInt 1)] /\
  undefined ex_env_reset 10 []
    [ONewObj 0; OSpyMock 0 0; OStmt [(foo 0, None)] (SSpy false); OCall 0 0 []; OCall 0 0 []].
Proof. split; vm_compute; reflexivity. Qed.

(** *** Statements executed while an exception propagates *)
Lemma silent_in_unwinding :
  results ex_env 10 []
    [OMock 0; OStmt [(foo 0, None)] (SWhen [always 1] None); OCall 0 0 [VInt 3];
     OUnwinding (OStmt [(foo 0, None)] (SWhen [always 2] None));
     OCall 0 0 [VInt 3];
     OUnwinding (OStmt [(foo 0, None)] (SVerify ScInvolved [SLeaf 0%nat] [VsQuant QNever]))]
  = Some [inl (VInt 0); inl VVoid; inl (VInt 1); inl VVoid; inl (VInt 1); inl VVoid].
Proof. vm_compute. reflexivity. Qed.

(** *** A verification kept in a variable while its method expression is gone *)
Lemma stored_verification :
  undefined ex_env 10 []
    [OMock 0; OCtx (foo 0); OExp ScInvolved [SLeaf 0%nat]; OCtxFree 0; OExpFree 0].
Proof. vm_compute. reflexivity. Qed.

(** *** A class with more than 1000 entries in its table *)
Definition big_env (n : nat) : env :=
  mkEnv [mkClass n None (fun _ => PRet VVoid) (fun _ => RtVoid) 0] (fun _ _ => None) 0 (fun l => l) (fun v => v).
Lemma many_methods :
  undefined (big_env 1001) 10 [] [OMock 0] /\ results (big_env 1000) 10 [] [OMock 0] = Some [inl (VInt 0)].
Proof. split; vm_compute; reflexivity. Qed.

(** *** C64: a stored method expression that is refined within a statement *)
Lemma refined_expression :
  results ex_env 10 []
    [OMock 0; OStmt [(foo 0, None)] (SWhen [always 1] None); OCall 0 0 [VInt 3]; OCall 0 0 [VInt 4];
     OCtx (foo 0);
     OExp ScInvolved [SLeaf 1%nat]; OQuant 0 (QExactly 2); OBool 0;
     OCond 1 (eq_int 3); OExp ScInvolved [SLeaf 1%nat]; OQuant 1 (QExactly 1); OBool 1;
     OExp ScInvolved [SLeaf 1%nat]; OQuant 2 (QExactly 2); OBool 2]
  = Some [inl (VInt 0); inl VVoid; inl (VInt 1); inl (VInt 1);
          inl (VInt 1);
          inl (VInt 0); inl VVoid; inl (VBool true);
          inl VVoid; inl (VInt 1); inl VVoid; inl (VBool true);
          inl (VInt 2); inl VVoid; inl (VBool false)].
Proof. vm_compute. reflexivity. Qed.

(** *** C68: a wrapped object that ends its life before its mock *)
Lemma object_dies_first :
  results ex_env 10 [] [ONewObj 0; OSpyMock 0 0; OMockDestroy 0; OFreeObj 0]
    = Some [inl (VInt 0); inl (VInt 0); inl VVoid; inl VVoid] /\
  undefined ex_env 10 [] [ONewObj 0; OSpyMock 0 0; OFreeObj 0; OMockDestroy 0].
Proof. split; vm_compute; reflexivity. Qed.
