(** * C95: calling conventions *)
From Coq Require Import Bool List Arith Lia.
From Verif Require Import CallConv Spec_CallConv CallConvProofs.
Import ListNotations.

(** std::string: 32 bytes, not trivial. A method [std::string f(int, std::string)]. *)
Definition str := RClass 32 false.
Definition mem1 : memory := fun p => if Nat.eqb p 100 then Some 7 else None.

(** C95 for stubbed methods: on every platform the stubbings of the called object's mock
    receive the arguments, the result goes where the caller expects it, and every object
    passed by value is destroyed. *)
Theorem C95_stubbed : forall a mem r ps this slot args m, fits ps args -> mem this = Some m ->
  faithful a r m slot args (vcall a mem r ps (FProxy r ps) this slot args) /\ left_over a r ps (FProxy r ps) = [].
Proof. intros. split; [now apply stubbed_received|apply stubbed_destroyed]. Qed.

Example C95_stubbed_ex :
  vcall SysV64 mem1 str [PWord; PObject] (FProxy str [PWord; PObject]) 100 200 [5; 300] = Handles 7 (Some 200) [Some 5; Some 300] /\
  vcall Aapcs64 mem1 RScalar [PWord] (FProxy RScalar [PWord]) 100 200 [5] = Handles 7 None [Some 5] /\
  vcall MsX86 mem1 str [PWord; PObject] (FProxy str [PWord; PObject]) 100 200 [5; 300] = Handles 7 (Some 200) [Some 5; Some 300].
Proof. repeat split; reflexivity. Qed.

(** C95 for methods not mentioned: the report comes, unless the platform passes the address
    for this result before the object. *)
Theorem C95_unmocked : forall a mem r ps this slot args m, mem this = Some m ->
  ~ (result_first a /\ needs_address a r) -> vcall a mem r ps FUnmocked this slot args = Reports m.
Proof. exact unmocked_reports. Qed.

Example C95_unmocked_ex :
  ~ (result_first SysV64 /\ needs_address SysV64 (RClass 16 true)) /\
  ~ (result_first Aapcs64 /\ needs_address Aapcs64 str) /\
  vcall SysV64 mem1 (RClass 16 true) [PObject] FUnmocked 100 200 [300] = Reports 7 /\
  vcall Aapcs64 mem1 str [PObject] FUnmocked 100 200 [300] = Reports 7.
Proof.
  split; [|split; [|split; reflexivity]].
  - intros (_ & H). inversion H as [|n L| | | |a n [C|C]|a n [C|C]]; try discriminate; lia.
  - intros (H & _). inversion H.
Qed.

(** Refuted: on the others such a call is undefined; [unmocked] takes the place for the result
    (where there is no object yet) for the object. *)
Theorem C95_refuted : forall a mem r ps this slot args,
  result_first a -> needs_address a r -> mem slot = None -> vcall a mem r ps FUnmocked this slot args = Undefined.
Proof. exact unmocked_undefined. Qed.

Example C95_refuted_ex :
  result_first SysV64 /\ needs_address SysV64 str /\ mem1 100 = Some 7 /\ mem1 200 = None /\
  vcall SysV64 mem1 str [] FUnmocked 100 200 [] = Undefined.
Proof. repeat split; constructor. Qed.

(** Refuted: with MSVC a call of a method not mentioned leaves every object passed by value
    undestroyed; elsewhere none. *)
Theorem C95_args_refuted : forall a r ps,
  (callee_destroys a -> forall k, In k (left_over a r ps FUnmocked) <-> nth_error ps k = Some PObject) /\
  (~ callee_destroys a -> left_over a r ps FUnmocked = []).
Proof.
  intros a r ps. split; [|apply unmocked_left_other].
  intros C k. rewrite (unmocked_left_ms a r ps C), objects_from_in. split.
  - intros (j & -> & E). exact E.
  - intros E. exists k. auto.
Qed.

Example C95_args_ex : left_over MsX64 RVoid [PWord; PObject; PObject] FUnmocked = [1; 2] /\
  left_over SysV64 RVoid [PWord; PObject; PObject] FUnmocked = [].
Proof. split; reflexivity. Qed.

(** C95 for destructors: a stubbed destructor is reached by p->~C() on every platform and by
    [delete p] on every platform but 32-bit MinGW; one that is not stubbed does nothing. *)
Theorem C95_destructors : forall a mem this m, mem this = Some m ->
  dtor_call a mem (dtor_proxy a) this = Handles m None [] /\
  (a <> MinGW32 -> delete_call a mem (dtor_proxy a) this = Handles m None []) /\
  dtor_call a mem FUnmockedDtor this = Nothing /\ delete_call a mem FUnmockedDtor this = Nothing.
Proof.
  intros a mem this m M. split; [now apply dtor_explicit|]. split; [now apply dtor_delete|]. now apply dtor_unmocked with m.
Qed.

Example C95_destructors_ex : delete_call MsX86 mem1 (dtor_proxy MsX86) 100 = Handles 7 None [] /\
  delete_call SysV64 mem1 (dtor_proxy SysV64) 100 = Handles 7 None [].
Proof. split; reflexivity. Qed.

(** Refuted: there the helper calls the proxy, a member function (object in ECX), as a free
    function (object on the stack). *)
Theorem C95_delete_refuted : forall mem this, delete_call MinGW32 mem (dtor_proxy MinGW32) this = Undefined.
Proof. exact dtor_delete_mingw32. Qed.

Example C95_delete_ex : mem1 100 = Some 7 /\ dtor_call MinGW32 mem1 (dtor_proxy MinGW32) 100 = Handles 7 None [] /\
  delete_call MinGW32 mem1 (dtor_proxy MinGW32) 100 = Undefined.
Proof. repeat split; reflexivity. Qed.

(** The rules of MSVC for results differ between member and free functions (a destructor's
    proxy is one): a free function receives the address of a result of a class unless
    the class is trivial and of 1, 2, 4 or 8 bytes. *)
Theorem C95_free : forall a n triv ps this slot args, callee_destroys a -> fits ps args ->
  (triv = true /\ In n [1; 2; 4; 8] ->
     enter a (mkFt false (RClass n triv) ps) (place a (mkFt false (RClass n triv) ps) this slot args) = mkEntered None None (map Some args)) /\
  (~ (triv = true /\ In n [1; 2; 4; 8]) ->
     enter a (mkFt false (RClass n triv) ps) (place a (mkFt false (RClass n triv) ps) this slot args) = mkEntered None (Some slot) (map Some args)).
Proof. exact free_result. Qed.

Example C95_free_ex : callee_destroys MsX64 /\
  enter MsX64 (mkFt false (RClass 8 true) [PWord]) (place MsX64 (mkFt false (RClass 8 true) [PWord]) 1 2 [3]) = mkEntered None None [Some 3] /\
  enter MsX64 (mkFt false (RClass 12 true) [PWord]) (place MsX64 (mkFt false (RClass 12 true) [PWord]) 1 2 [3]) = mkEntered None (Some 2) [Some 3].
Proof. split; [constructor|]. split; reflexivity. Qed.

Definition C95_all := (C95_stubbed, C95_unmocked, C95_refuted, C95_args_refuted, C95_destructors, C95_delete_refuted, C95_free).
Print Assumptions C95_all.
