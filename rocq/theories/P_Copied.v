(** Property C108: methods whose parameters cannot be copied. *)
From Coq Require Import Bool Arith Lia List.
From Verif Require Import Base Copied Spec_Copied CopiedProofs.
Import ListNotations.

(** Spy compiles exactly for the methods whose parameters can all be copied or are lvalue references. *)
Theorem C108_spy ps : spy ps = Compiles <-> all_copied ps.
Proof. exact (spy_iff ps). Qed.

(** Where it does not, the static_assert says why exactly if a parameter is known to be move-only. *)
Theorem C108_spy_says ps : spy ps = SaysWhy <-> exists p, In p ps /\ known p.
Proof. exact (spy_says ps). Qed.

(** A Spy that compiles never runs into the function that aborts the program. *)
Theorem C108_spy_runs ps : spy ps = Compiles -> spied_call ps = OriginalGetsCopies.
Proof. exact (spy_runs ps). Qed.

(** Without the static_assert it would, exactly for the methods for which the static_assert is there. *)
Theorem C108_aborts ps : spied_call ps = ProgramAborts <-> exists p, In p ps /\ known p.
Proof. exact (aborts_iff ps). Qed.

Example C108_spy_example :
  spy [ByValue (Vector (Class [Copyable; Vector Copyable])); ByReference MoveOnly] = Compiles /\
  spy [ByValue Copyable; ByValue (Vector (Vector MoveOnly))] = SaysWhy /\ spy [ByRvalue Copyable] = SaysWhy.
Proof. repeat split; vm_compute; reflexivity. Qed.

(** A method can be stubbed exactly if one of its parameters is known to be move-only or all can be copied. *)
Theorem C108_stub ps : stub ps = Compiles <-> (exists p, In p ps /\ known p) \/ all_copied ps.
Proof. exact (stub_iff ps). Qed.

(** And the same for SpyWithoutVerify, which needs no copies itself. *)
Theorem C108_forward ps : spy_without_verify ps = Compiles <-> (exists p, In p ps /\ known p) \/ all_copied ps.
Proof. exact (forward_iff ps). Qed.

Example C108_forward_example : spy_without_verify [ByValue (Vector MoveOnly)] = Compiles /\ spy [ByValue (Vector MoveOnly)] = SaysWhy.
Proof. split; vm_compute; reflexivity. Qed.

(** So a method can be stubbed if what it takes by value contains no containers but vectors, and these not in classes. *)
Theorem C108_plain ps : (forall t, In (ByValue t) ps -> plain t) -> stub ps = Compiles.
Proof. exact (plain_stub ps). Qed.

Example C108_plain_example : forall t, In (ByValue t) [ByValue MoveOnly; ByReference (Container MoveOnly); ByValue (Vector (Class [MoveOnly]))] ->
  plain t.
Proof.
  intros t [E|[E|[E|[]]]]; [injection E as <-|discriminate E|injection E as <-].
  - constructor. constructor.
  - apply PlainVector. constructor. constructor. intros u [<-|[]]. constructor.
Qed.

(** Not every method can be stubbed: std::list<std::unique_ptr<T>> by value, or a class with a member
    std::vector<std::unique_ptr<T>>, is an error in the library, whether the method is spied or not. *)
Theorem C108_refuted : ~ (forall ps, stub ps <> Error) /\ stub [ByValue (Container MoveOnly)] = Error /\
  stub [ByValue (Class [Copyable; Vector MoveOnly])] = Error /\
  spy_without_verify [ByValue (Container MoveOnly)] = Error.
Proof.
  split; [|repeat split; vm_compute; reflexivity].
  intros H. apply (H [ByValue (Container MoveOnly)]). vm_compute. reflexivity.
Qed.

(** And another parameter that is known to be move-only makes up for it. *)
Theorem C108_more_refuted : ~ (forall p ps, stub ps = Error -> stub (p :: ps) = Error).
Proof.
  intros H. specialize (H (ByValue MoveOnly) [ByValue (Container MoveOnly)] eq_refl). vm_compute in H. discriminate H.
Qed.

Definition P_Copied_all := (C108_spy, C108_spy_says, C108_spy_runs, C108_aborts, C108_stub, C108_forward, C108_plain, C108_refuted, C108_more_refuted).
Print Assumptions P_Copied_all.
