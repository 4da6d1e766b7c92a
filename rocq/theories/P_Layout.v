(** Properties of replacement virtual tables and of dispatch through them. *)
From Coq Require Import Bool ZArith Lia List.
From Verif Require Import Base CInt VTable Proxy Spec_Layout VTableProofs CopyTableProofs ProxyProofs.
Import ListNotations.
Open Scope Z_scope.

(** C46: after any writes to valid entries, every entry holds what was last
    written to it; type information and offset-to-top stay; the block released
    is the block allocated. *)
Theorem C46_layout : forall (W : Type) (l : layout) (null ti : W) (size : Z) (ops : list (entry * W)),
  0 <= size -> Forall (fun o => valid_entry size (numOfCookies l) (fst o)) ops ->
  exists t0 t, buildVTArray l null ti size = Def t0 /\ write_all l t0 ops = Def t /\
    (forall e, valid_entry size (numOfCookies l) e ->
       read_entry l t e = Def (last_written ops e null)) /\
    vt_get t (-1) = Def ti /\ (l = Gcc -> vt_get t (-2) = Def null) /\
    dispose l t = Def tt /\
    length (vt_arr t) = length (vt_arr t0).
Proof. exact (@layout_ok). Qed.
Print Assumptions C46_layout.

Example C46_layout_ex :
  Forall (fun o => valid_entry 2 (numOfCookies Gcc) (fst o)) [(EMethod 0, 10%nat); (ECookie 1, 11%nat); (EMethod 1, 12%nat); (ECookie 0, 13%nat)] /\
  (let! t0 := buildVTArray Gcc 0%nat 99%nat 2 in
   let! t := write_all Gcc t0 [(EMethod 0, 10%nat); (ECookie 1, 11%nat); (EMethod 1, 12%nat); (ECookie 0, 13%nat)] in
   Def (vt_arr t)) = Def [11; 13; 0; 99; 10; 12]%nat.
Proof. split; [repeat constructor; cbn; lia | reflexivity]. Qed.

(** C47: both destructor entries lead to the stubbed destructor; nothing else
    changes. *)
Theorem C47_destructor : forall (W : Type) (l : layout) (null ti : W) (size : Z) (ops : list (entry * W))
    (t0 t : vtable W) (index : Z) (helper w : W),
  0 <= size -> Forall (fun o => valid_entry size (numOfCookies l) (fst o)) ops ->
  buildVTArray l null ti size = Def t0 -> write_all l t0 ops = Def t ->
  0 <= index -> index + 1 < size ->
  exists t', setDtor l t index helper w = Def t' /\
    match l with
    | Gcc => getMethod t' index = Def w /\ getMethod t' (index + 1) = Def helper
    | Msc => getMethod t' index = Def helper
    end /\
    dtor_helper_target l t' index = Def w /\
    (forall i, 0 <= i < size -> i <> index -> (l = Gcc -> i <> index + 1) ->
       getMethod t' i = getMethod t i) /\
    (forall i, 0 <= i < 2 -> getCookie l t' i = getCookie l t i).
Proof. exact (@dtor_entries_built). Qed.
Print Assumptions C47_destructor.

Example C47_destructor_ex :
  (let! t0 := buildVTArray Gcc 0%nat 99%nat 4 in
   let! t := setDtor Gcc t0 1 77%nat 55%nat in
   let! a := getMethod t 1 in let! b := getMethod t 2 in let! c := dtor_helper_target Gcc t 1 in
   Def (a, b, c)) = Def (55, 77, 55)%nat.
Proof. reflexivity. Qed.

(** C45 (and the method part of C13, with [fill = 0] after a Reset): whatever the
    order of stubbing, a call arriving with the id under which method [k] was
    stubbed reaches the handler recorded for [k]. *)
Theorem C45_dispatch : forall (H : Type) (size : nat) (fill : Z) (t0 : ptables H) (ops : list (nat * Z * H)),
  (t0 = pt_new size /\ fill = int_max \/ t0 = pt_reset size /\ fill = 0) ->
  Forall (fun o => (fst (fst o) < size)%nat) ops ->
  Forall (fun o => snd (fst o) <> fill) ops ->
  (forall s1 id1 h1 s2 id2 h2, In (s1, id1, h1) ops -> In (s2, id2, h2) ops -> s1 <> s2 -> id1 <> id2) ->
  exists t, pt_stub_all t0 ops = Def t /\
    forall k id h, first_for k ops = Some (id, h) -> dispatch t id = Def h.
Proof. exact (@dispatch_ok). Qed.
Print Assumptions C45_dispatch.

Example C45_dispatch_ex : exists t,
  pt_stub_all (pt_new 4) [(2%nat, 5, 20%nat); (0%nat, 6, 30%nat); (2%nat, 7, 40%nat)] = Def t /\
  dispatch t 5 = Def 20%nat /\ dispatch t 6 = Def 30%nat.
Proof. eexists. repeat split. Qed.

(** C13 is false for destructors: after a Reset, a stubbed destructor that is not
    the first entry of the table dispatches through a null pointer. *)
Theorem C13_destructor_after_reset_refuted : forall (H : Type) (size k : nat) (h : H),
  (0 < k < size)%nat ->
  exists t, pt_stub_all (pt_reset size) [(k, dtor_id, h)] = Def t /\ dispatch t dtor_id = UB.
Proof. exact (@dtor_after_reset). Qed.
Print Assumptions C13_destructor_after_reset_refuted.

Example C13_destructor_ex :
  (exists t, pt_stub_all (pt_new 3) [(1%nat, dtor_id, 8%nat)] = Def t /\ dispatch t dtor_id = Def 8%nat) /\
  (0 < 1 < 3)%nat.
Proof. split; [eexists; split; reflexivity | lia]. Qed.

(** C45 needs distinct ids: two methods stubbed under one id (the counter of
    another translation unit) collide. *)
Theorem C45_id_collision_refuted : forall (H : Type) (size i j : nat) (id : Z) (h1 h2 : H),
  (i < j < size)%nat -> id <> int_max ->
  exists t, pt_stub_all (pt_new size) [(j, id, h2); (i, id, h1)] = Def t /\ dispatch t id = Def h1.
Proof. exact (@same_id_collides). Qed.
Print Assumptions C45_id_collision_refuted.

Example C45_id_collision_ex : exists t,
  pt_stub_all (pt_new 3) [(2%nat, 1, 20%nat); (1%nat, 1, 10%nat)] = Def t /\ dispatch t 1 = Def 10%nat.
Proof. apply (C45_id_collision_refuted nat 3 1 2 1 10%nat 20%nat); [lia | cbv; congruence]. Qed.

(** C85: wrapping an object whose table a compiler made reads nothing outside that table, and
    the replacement shows the same methods, with all bookkeeping entries empty.  For MSVC: if
    the class has no virtual destructor. *)
Theorem C85_wrapped : forall (W : Type) (l : layout) (null ti top cti : W) (has_dtor : bool) (entries : list W),
  l = Gcc \/ has_dtor = false ->
  exists t0 t, buildVTArray l null ti (Z.of_nat (length entries)) = Def t0 /\
    copyFrom l (length entries) has_dtor t0 (compiled l top cti entries) = Def t /\
    (forall i w, nth_error entries i = Some w -> getMethod t (Z.of_nat i) = Def w) /\
    (forall i, 0 <= i < numOfCookies l -> getCookie l t i = Def null) /\
    vt_get t (-1) = Def ti /\ (l = Gcc -> vt_get t (-2) = Def null) /\ dispose l t = Def tt.
Proof. exact (@wrapped). Qed.
Print Assumptions C85_wrapped.

Example C85_wrapped_ex :
  (let! t0 := buildVTArray Gcc 0%nat 99%nat 3 in
   let! t := copyFrom Gcc 3 true t0 (compiled Gcc 1%nat 98%nat [5; 6; 7]%nat) in Def (vt_arr t)) = Def [0; 0; 0; 99; 5; 6; 7]%nat.
Proof. reflexivity. Qed.

(** C85 is false for MSVC and a class with a virtual destructor: the third word in front of the
    locator is read, which does not belong to the table. *)
Theorem C85_refuted : forall (W : Type) (t0 : vtable W) (top cti : W) (entries : list W),
  (exists null ti, buildVTArray Msc null ti (Z.of_nat (length entries)) = Def t0) ->
  copyFrom Msc (length entries) true t0 (compiled Msc top cti entries) = UB.
Proof. exact (@read_outside). Qed.
Print Assumptions C85_refuted.

Example C85_refuted_ex : exists t0, buildVTArray Msc 0%nat 99%nat (Z.of_nat (length [5; 6]%nat)) = Def t0 /\
  copyFrom Msc 2 false t0 (compiled Msc 1%nat 98%nat [5; 6]%nat) = Def (mkVt [0; 0; 0; 99; 5; 6]%nat 4).
Proof. eexists. split; reflexivity. Qed.

(** C85 for objects the library made, in both layouts: nothing outside the tables is read; a
    new or reset mock shows the entries of the object, and deleting reaches its destructor. *)
Theorem C85_own : forall (W : Type) (l : layout) (null ti stub helper dtor : W) (size : nat) (index : Z),
  0 <= index -> index + 1 < Z.of_nat size ->
  exists t0 f1 f2 f3 t, buildVTArray l null ti (Z.of_nat size) = Def t0 /\ buildVTArray l null ti (Z.of_nat size) = Def f1 /\
    initAll size f1 stub = Def f2 /\ setDtor l f2 index helper dtor = Def f3 /\
    copyFrom l size true t0 f3 = Def t /\
    (forall i, 0 <= i < Z.of_nat size -> getMethod t i = getMethod f3 i) /\
    dtor_helper_target l t index = Def dtor /\
    (forall i, 0 <= i < 2 -> getCookie l t i = Def null).
Proof. exact (@own_copied). Qed.
Print Assumptions C85_own.

Example C85_own_ex :
  (let! f1 := buildVTArray Msc 0%nat 99%nat 3 in let! f2 := initAll 3 f1 7%nat in let! f3 := setDtor Msc f2 1 8%nat 9%nat in
   let! t0 := buildVTArray Msc 0%nat 99%nat 3 in let! t := copyFrom Msc 3 true t0 f3 in Def (vt_arr t)) = Def [9; 0; 0; 99; 7; 8; 7]%nat.
Proof. reflexivity. Qed.
