(** Properties of ordinals, sorting, event delivery, ReturnAndSet and shared
    handles. *)
From Coq Require Import Bool ZArith Lia List Sorting.Sorted Sorting.Permutation.
From Verif Require Import Base CInt Values Ordinals OrdinalsProofs SortInv SortInvProofs Events Spec_Events EventsProofs
  ReturnSet Spec_ReturnSet ReturnSetProofs SmartPtr Spec_Shared SmartPtrProofs.
Import ListNotations.
Open Scope Z_scope.

(** C10: whatever the interleaving, the ordinals handed out are distinct, grow
    within each thread, and each step serves the thread scheduled. *)
Theorem C10_ordinals : forall (sched : list nat) (c : Z),
  0 <= c -> c + Z.of_nat (length sched) < two32 ->
  NoDup (map snd (ord_run c sched)) /\
  (forall i j th o1 o2, (i < j)%nat ->
     nth_error (ord_run c sched) i = Some (th, o1) ->
     nth_error (ord_run c sched) j = Some (th, o2) -> o1 < o2) /\
  map fst (ord_run c sched) = sched.
Proof. exact ordinals_distinct. Qed.
Print Assumptions C10_ordinals.

Example C10_ordinals_ex : ord_run 4 [1; 2; 1]%nat = [(1%nat, 5); (2%nat, 6); (1%nat, 7)] /\
  4 + Z.of_nat (length [1; 2; 1]%nat) < two32.
Proof. split; [reflexivity | cbv; reflexivity]. Qed.

(** C10 without the bound is false: the counter wraps. *)
Theorem C10_wrap_refuted : exists c, 0 <= c < two32 /\
  exists o1 o2, ord_run c [0; 0]%nat = [(0%nat, o1); (0%nat, o2)] /\ o2 < o1.
Proof. exact ordinal_order_breaks. Qed.
Print Assumptions C10_wrap_refuted.

(** C32: the list analysed and reported is sorted by ordinal, contains exactly the
    collected invocations and does not depend on the iteration order of the sets
    nor on the order or repetition of the sources. *)
Theorem C32_sorted : forall (I : Type) (eqb : I -> I -> bool) (ord : I -> Z)
    (iter : list I -> list I) (sources : list (list I)),
  (forall a b, eqb a b = true <-> a = b) -> (forall l, Permutation (iter l) l) ->
  (forall a b s1 s2, In s1 sources -> In a s1 -> In s2 sources -> In b s2 -> ord a = ord b -> a = b) ->
  let r := sortByInvocationOrder ord iter (collectActualInvocations eqb [] sources) in
  StronglySorted (fun a b => ord a < ord b) r /\
  (forall x, In x r <-> exists s, In s sources /\ In x s).
Proof. exact sorted_actuals. Qed.
Print Assumptions C32_sorted.

Theorem C32_iteration_order : forall (I : Type) (eqb : I -> I -> bool) (ord : I -> Z)
    (iter1 iter2 : list I -> list I) (sources1 sources2 : list (list I)),
  (forall a b, eqb a b = true <-> a = b) ->
  (forall l, Permutation (iter1 l) l) -> (forall l, Permutation (iter2 l) l) ->
  (forall a b s1 s2, In s1 sources1 -> In a s1 -> In s2 sources1 -> In b s2 -> ord a = ord b -> a = b) ->
  (forall x, (exists s, In s sources1 /\ In x s) <-> (exists s, In s sources2 /\ In x s)) ->
  sortByInvocationOrder ord iter1 (collectActualInvocations eqb [] sources1) =
  sortByInvocationOrder ord iter2 (collectActualInvocations eqb [] sources2).
Proof. exact sorted_actuals_unique. Qed.
Print Assumptions C32_iteration_order.

(** C32: a verification over several sources works on the union of what was collected
    before and the invocations of all sources. *)
Theorem C32_union : forall (I : Type) (eqb : I -> I -> bool) (iter : list I -> list I),
  (forall a b, eqb a b = true <-> a = b) -> (forall l, Permutation (iter l) l) ->
  forall (sources : list (list I)) (into : list I) (y : I),
  In y (aggregate eqb iter sources into) <-> In y into \/ exists src, In src sources /\ In y src.
Proof. exact (fun I eqb iter => @aggregate_in I eqb (fun _ => true) iter). Qed.
Print Assumptions C32_union.

Example C32_union_ex : aggregate Nat.eqb (@rev nat) [[3; 1]; [2]]%nat [1; 4]%nat = [1; 4; 2; 3]%nat.
Proof. reflexivity. Qed.

Example C32_ex :
  sortByInvocationOrder (fun n => Z.of_nat n) (@rev nat) (collectActualInvocations Nat.eqb [] [[3; 1]; [2]; [3; 1]]%nat)
  = [1; 2; 3]%nat.
Proof. reflexivity. Qed.

(** C48: every event reaches the listeners registered since the last clearing, in
    order, then the adapter in force. *)
Theorem C48_delivery : forall (E L X : Type) (reaction : L -> E -> option X) (os : list (fc_op L)) (builtin : L) (e : E),
  (forall l, In l (registered os []) -> reaction l e = None) ->
  ctx_handle reaction builtin (fc_run fctx_new os) e =
  (registered os [] ++ [adapter_in_force os builtin builtin],
   reaction (adapter_in_force os builtin builtin) e).
Proof. exact (@delivery). Qed.
Print Assumptions C48_delivery.

Example C48_ex :
  ctx_handle (fun l (_ : unit) => if Nat.eqb l 9 then Some tt else None) 9%nat
    (fc_run fctx_new [FAdd 1; FClear; FAdd 2; FSetAdapter 5; FAdd 3; FResetAdapter]%nat) tt = ([2; 3; 9]%nat, Some tt).
Proof. reflexivity. Qed.

(** C48 needs listeners that return: one that throws keeps the event from the
    later listeners and from the adapter. *)
Theorem C48_throwing_listener_refuted : forall (E L X : Type) (reaction : L -> E -> option X)
    (pre : list L) (l : L) (post : list L) (e : E) (x : X) (builtin : L) (a : option L),
  (forall k, In k pre -> reaction k e = None) -> reaction l e = Some x ->
  ctx_handle reaction builtin (mkFctx (pre ++ l :: post) a) e = (pre ++ [l], Some x).
Proof. exact (@delivery_stops). Qed.
Print Assumptions C48_throwing_listener_refuted.

Example C48_throwing_ex :
  ctx_handle (fun l (_ : unit) => if Nat.eqb l 2 then Some tt else None) 9%nat (mkFctx [1; 2; 3]%nat None) tt
  = ([1; 2]%nat, Some tt).
Proof. reflexivity. Qed.

(** C43: positional ReturnAndSet.  When parameters alias, the leftmost wins. *)
Theorem C43_positional : forall (m : mem) (r : option val) (vals params : list val),
  (length vals <= length params)%nat ->
  (forall i p, (i < length vals)%nat -> nth_error params i = Some p -> assignable m p) ->
  exists m', assigner_positional m (option_map SVal r) (map SVal vals) params =
               Def (m', match r with Some x => x | None => VVoid end) /\
    (forall a, untouched (nth_error vals) params a -> load m' a = load m a) /\
    (forall a i p v, nth_error params i = Some p -> designates p a -> nth_error vals i = Some v ->
       (forall j q, (j < i)%nat -> nth_error params j = Some q -> ~ designates q a) -> load m' a = Def v).
Proof. exact return_and_set. Qed.
Print Assumptions C43_positional.

Example C43_ex :
  assigner_positional [Some (VInt 0); Some (VInt 0); Some (VInt 0)] (Some (SVal (VInt 7)))
    [SVal (VInt 1); SVal (VInt 2)] [VRef 2%nat; VPtr (Some 0%nat); VRef 1%nat] =
  Def ([Some (VInt 2); Some (VInt 0); Some (VInt 1)], VInt 7).
Proof. reflexivity. Qed.

(** C44: ReturnAndSet with placeholders.  When named parameters alias, the
    rightmost wins. *)
Theorem C44_placeholders : forall (m : mem) (r : option val) (vals : list (nat * val)) (params : list val),
  (forall i p v, nth_error params i = Some p -> named vals (S i) = Some v -> assignable m p) ->
  exists m', assigner_placeholders m (option_map SVal r) (map (fun x => (fst x, SVal (snd x))) vals) params =
               Def (m', match r with Some x => x | None => VVoid end) /\
    (forall a, untouched (fun i => named vals (S i)) params a -> load m' a = load m a) /\
    (forall a i p v, nth_error params i = Some p -> designates p a -> named vals (S i) = Some v ->
       (forall j q w, (i < j)%nat -> nth_error params j = Some q -> named vals (S j) = Some w -> ~ designates q a) ->
       load m' a = Def v).
Proof. exact return_and_set_named. Qed.
Print Assumptions C44_placeholders.

Example C44_ex :
  assigner_placeholders [Some (VInt 0); Some (VInt 0)] None
    [(2%nat, SVal (VInt 5)); (1%nat, SVal (VInt 6)); (2%nat, SVal (VInt 8))] [VRef 0%nat; VRef 1%nat] =
  Def ([Some (VInt 6); Some (VInt 8)], VVoid).
Proof. reflexivity. Qed.

(** C43, C44: a value for a parameter that is null, or points or refers to an object that is
    gone, is undefined behaviour. *)
Theorem C43_undefined : forall (m : mem) (r : option vsrc) (vals : list vsrc) (params : list val) (i : nat) (p : val),
  (i < length vals)%nat -> nth_error params i = Some p -> hazardous m p -> assigner_positional m r vals params = UB.
Proof. exact positional_undefined. Qed.
Theorem C44_undefined : forall (m : mem) (r : option vsrc) (vals : list (nat * vsrc)) (params : list val) (i : nat) (p : val) (s : vsrc),
  nth_error params i = Some p -> In (S i, s) vals -> hazardous m p -> assigner_placeholders m r vals params = UB.
Proof. exact placeholders_undefined. Qed.
Print Assumptions C43_undefined.
Print Assumptions C44_undefined.

(** The second parameter is null; naming only the first is fine. *)
Example C44_undefined_ex : hazardous [Some (VInt 0)] (VPtr None) /\ hazardous [None] (VRef 0%nat) /\
  assigner_placeholders [Some (VInt 0)] None [(1%nat, SVal (VInt 5))] [VRef 0%nat; VPtr None] = Def ([Some (VInt 5)], VVoid).
Proof.
  split; [left; reflexivity|]. split; [|reflexivity]. right; right. exists 0%nat. split; [right; right; reflexivity|reflexivity].
Qed.

(** C43 and C44 speak of values; an lvalue handed to ReturnAndSet is not copied:
    a later change of the variable changes what is returned. *)
Theorem C43_lvalue_refuted : exists (m m' : mem) (a : addr),
  load m a = Def (VInt 1) /\ store m a (VInt 2) = Def m' /\
  assigner_positional m' (Some (SRef a)) [] [] = Def (m', VInt 2).
Proof. exact lvalue_by_reference. Qed.
Print Assumptions C43_lvalue_refuted.

(** What an lvalue given as the result means: it is read after the assignments, so the
    result of a call can be the value just assigned. *)
Theorem C43_variable_result : forall m a vals params m' v,
  assigner_positional m (Some (SRef a)) vals params = Def (m', v) <->
  assigner_positional m None vals params = Def (m', VVoid) /\ load m' a = Def v.
Proof. exact variable_result. Qed.
Theorem C44_variable_result : forall m a vals params m' v,
  assigner_placeholders m (Some (SRef a)) vals params = Def (m', v) <->
  assigner_placeholders m None vals params = Def (m', VVoid) /\ load m' a = Def v.
Proof. exact variable_result_named. Qed.
Print Assumptions C43_variable_result.
Print Assumptions C44_variable_result.

Example C43_variable_ex :
  assigner_positional [Some (VInt 1)] (Some (SRef 0%nat)) [SVal (VInt 2)] [VRef 0%nat] = Def ([Some (VInt 2)], VInt 2).
Proof. reflexivity. Qed.

(** C52: the shared object is released exactly once, when its last handle is gone,
    and held objects are alive. *)
Theorem C52_shared : forall (ops : list sp_op) (hs : list (option nat)) (n : nat),
  (Forall (benign true) ops \/ Forall (benign false) ops) ->
  Z.of_nat (length ops) <= int_max ->
  own_run ([], 0%nat) ops = Some (hs, n) ->
  exists s, sp_run sp_init ops = Def s /\
    NoDup (sp_log s) /\
    (forall o, In o (sp_log s) <-> (o < n)%nat /\ ~ In (Some o) hs) /\
    (forall o, In (Some o) hs -> exists t, nth_error (sp_objs s) o = Some (Some t)).
Proof. exact shared_ownership. Qed.
Print Assumptions C52_shared.

Example C52_ex :
  own_run ([], 0%nat) [SpNew false; SpCopy 0%nat; SpNew false; SpAssign 0%nat 2%nat; SpAssign 1%nat 1%nat; SpDestroy 1%nat] =
    Some ([Some 1; None; Some 1]%nat, 2%nat) /\
  (let! s := sp_run sp_init [SpNew false; SpCopy 0%nat; SpNew false; SpAssign 0%nat 2%nat; SpAssign 1%nat 1%nat; SpDestroy 1%nat] in Def (sp_log s)) =
    Def [0%nat].
Proof. split; reflexivity. Qed.

(** C52 is false when the release of the old object throws during an assignment
    (a failing Verify): the handle keeps pointing to the released object. *)
Theorem C52_throwing_assignment_refuted : exists ops hs n,
  own_run ([], 0%nat) ops = Some (hs, n) /\ sp_run sp_init ops = UB.
Proof. exact throwing_assignment. Qed.
Print Assumptions C52_throwing_assignment_refuted.

(** The assignment exits by the exception; the handle assigned to can then not be copied,
    assigned to, assigned from, destroyed or used any more. *)
Theorem C52_after_throw_refuted : exists s s', sp_run sp_init [SpNew true; SpNew false] = Def s /\
  sp_step s (SpAssign 0 1) = Def (s', true) /\
  Forall (fun op => sp_step s' op = UB) [SpCopy 0; SpAssign 0 1; SpAssign 1 0; SpDestroy 0; SpDeref 0].
Proof. exact after_throwing_assignment. Qed.
Print Assumptions C52_after_throw_refuted.

(** C52: the use of a handle that is gone is undefined. *)
Theorem C52_dead_handle : forall (ops : list sp_op) (op : sp_op) (hs : list (option nat)) (n : nat),
  (Forall (benign true) ops \/ Forall (benign false) ops) ->
  Z.of_nat (length ops) <= int_max -> own_run ([], 0%nat) ops = Some (hs, n) -> own_step (hs, n) op = None ->
  sp_run sp_init (ops ++ [op]) = UB.
Proof. exact dead_handle. Qed.
Print Assumptions C52_dead_handle.

Example C52_dead_handle_ex : Forall (benign true) [SpNew false; SpDestroy 0] /\
  own_run ([], 0%nat) [SpNew false; SpDestroy 0] = Some ([None], 1%nat) /\ own_step ([None], 1%nat) (SpCopy 0) = None.
Proof. split; [repeat constructor|split; reflexivity]. Qed.

