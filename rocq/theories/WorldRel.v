(** How states of the world model (World.v) represent states of the abstract
    machine (Spec_World.v). *)
From Coq Require Import Bool ZArith Lia List Permutation.
From Verif Require Import Base CInt Values ArgMatchers InvMatchers ActionSeq Sequences MatchAnalysis
  SortInv VTable VTableProofs Proxy Events Expectation ReturnSet Ordinals Syntax World Spec_World WorldLogic.
Import ListNotations.
Open Scope nat_scope.

(** ** Heaps *)
Lemma live_lt : forall A (h : list (option A)) i a, live h i = Some a -> i < length h.
Proof. intros A h i a H. unfold live in H. destruct (nth_error h i) eqn:X; [|discriminate]. eapply nth_error_Some_lt; eauto. Qed.

Lemma live_upd : forall A (h : list (option A)) i j x, i < length h ->
  live (upd h i x) j = if Nat.eqb i j then x else live h j.
Proof.
  intros A h i j x L. unfold live. rewrite nth_error_upd. destruct (Nat.eqb i j); auto.
  destruct (Nat.ltb_spec i (length h)); [auto|lia].
Qed.

Lemma live_app : forall A (h : list (option A)) x j,
  live (h ++ [x]) j = if Nat.eqb j (length h) then x else live h j.
Proof.
  intros A h x j. unfold live. destruct (Nat.eqb_spec j (length h)) as [->|N].
  - now rewrite nth_error_app_last.
  - destruct (Nat.lt_ge_cases j (length h)).
    + now rewrite nth_error_app1.
    + replace (nth_error (h ++ [x]) j) with (@None (option A)).
      * now rewrite (proj2 (nth_error_None h j)).
      * symmetry. apply nth_error_None. rewrite app_length. cbn. lia.
Qed.

Lemma live_map : forall A B (f : option A -> option B) (h : list (option A)) i, f None = None ->
  live (map f h) i = f (live h i).
Proof.
  intros A B f h i H. unfold live. rewrite nth_error_map. destruct (nth_error h i); cbn; auto.
Qed.

Lemma live_repeat_none : forall A n i, live (repeat (@None A) n) i = None.
Proof.
  intros. unfold live. destruct (nth_error (repeat None n) i) eqn:X; auto.
  apply nth_error_In, repeat_spec in X. now subst.
Qed.

Lemma nth_live : forall A (h : list (option A)) i a, live h i = Some a -> nth_error h i = Some (Some a).
Proof. intros A h i a H. unfold live in H. destruct (nth_error h i); congruence. Qed.

Lemma live_nth : forall A (h : list (option A)) i a, nth_error h i = Some a -> live h i = a.
Proof. intros A h i a H. unfold live. now rewrite H. Qed.

Lemma hget_live : forall A (h : list (option A)) i a w, live h i = Some a -> hget h i w = RVal w a.
Proof. intros A h i a w H. unfold hget. now rewrite (nth_live _ _ _ _ H). Qed.

Section R.
Variable E : env.
Local Notation classes := (e_classes E).

(** ** Tables *)

(** What an entry of the table of a mock holds before anything is said about it. *)
Definition init_word (owner : bool) (c : nat) (d : class_desc) (oc slot : nat) : word :=
  if owner then
    match cl_dtor d with
    | Some j => if Nat.eqb slot j then WCode CUnmockedDtor
                else if Nat.eqb slot (S j) then WCode (CDtorHelper c) else WCode CUnmocked
    | None => WCode CUnmocked
    end
  else WCode (COrig oc slot).

(** What is seen of a method in the tables. *)
Definition face (x : option method) : option (nat * Z * bool) :=
  match x with Some me => Some (me_no me, me_id me, me_bypass me) | None => None end.

Definition cur_word (owner : bool) (c : nat) (d : class_desc) (oc : nat)
           (fs : list (option (nat * Z * bool))) (slot : nat) : word :=
  match live fs slot with
  | Some (_, id, bypass) => if bypass then init_word owner c d oc slot else WCode (CProxy id)
  | None =>
      match cl_dtor d with
      | Some j =>
          if Nat.eqb slot (S j) then
            match live fs j with Some _ => WCode (CDtorHelper c) | None => init_word owner c d oc slot end
          else init_word owner c d oc slot
      | None => init_word owner c d oc slot
      end
  end.

Definition shows (size : nat) (f : nat -> word) (vt : vtable word) : Prop :=
  vt_wf Gcc (Z.of_nat size) vt /\ forall slot, slot < size -> getMethod vt (Z.of_nat slot) = Def (f slot).

(** ** Components of the relation *)

Definition CLS (tabs : list (option (vtable word))) : Prop :=
  forall c d, nth_error classes c = Some d -> live tabs c = Some (class_table c d).

Definition obj_rel (mocks : list (option mock)) (o : nat) (x : obj) (sx : sobj) : Prop :=
  ob_class x = so_class sx /\ ob_data x = so_data sx /\ so_class sx < length classes /\
  match so_mock sx with
  | None => ob_vptr x = so_class sx
  | Some m => exists k, live mocks m = Some k /\ ob_vptr x = mk_clone k /\ mk_obj k = o
  end.

Definition OBJ (objs : list (option obj)) (mocks : list (option mock)) (sobjs : list (option sobj)) : Prop :=
  length objs = length sobjs /\
  forall o, match live objs o, live sobjs o with
            | Some x, Some sx => obj_rel mocks o x sx
            | None, None => True
            | _, _ => False
            end.

Definition shown (fill : Z) (x : option (nat * Z * bool)) : Z :=
  match x with Some (_, id, _) => id | None => fill end.
Definition face_no (x : nat * Z * bool) : nat := fst (fst x).

Record mock_rel (tabs : list (option (vtable word))) (m : nat) (k : mock) (c o : nat) (owner : bool)
       (fill : Z) (fs : list (option (nat * Z * bool))) (sx : sobj) (d : class_desc) : Prop := mkMR {
  mr_class : mk_class k = c;
  mr_obj : mk_obj k = o;
  mr_owner : mk_owner k = owner;
  mr_d : nth_error classes c = Some d;
  mr_fits : class_fits d = true;
  mr_len : length fs = cl_size d;
  mr_dtor : forall j, cl_dtor d = Some j -> live fs (S j) = None;
  mr_bypass : forall j no id, cl_dtor d = Some j -> live fs j <> Some (no, id, true);
  mr_mock : so_mock sx = Some m;
  mr_own : owner = true -> so_class sx = c /\ exists ot, live tabs (mk_orig k) = Some ot /\
             shows (cl_size d) (init_word owner c d (so_class sx)) ot;
  mr_spy : owner = false -> mk_orig k = so_class sx /\
             exists dx, nth_error classes (so_class sx) = Some dx /\ cl_size d <= cl_size dx;
  mr_clone : exists vt, live tabs (mk_clone k) = Some vt /\
               shows (cl_size d) (cur_word owner c d (so_class sx) fs) vt /\
               getCookie Gcc vt 0 = Def (WHandlers m) /\
               (owner = true -> getCookie Gcc vt 1 = Def (WMock m)) /\
               vt_get vt (-1) = Def (WTypeInfo c);
  mr_pt : pt_mocks (mk_pt k) = map (option_map face_no) fs;
  mr_off : pt_offsets (mk_pt k) = map (shown fill) fs;
  mr_inj : forall i j no id b no' id' b', live fs i = Some (no, id, b) -> live fs j = Some (no', id', b') ->
             id = id' -> i = j;
  mr_fill : forall i no id b, live fs i = Some (no, id, b) -> id <> fill
}.

Definition MCK (tabs : list (option (vtable word))) (mocks : list (option mock)) (smocks : list (option smock))
           (sobjs : list (option sobj)) : Prop :=
  length mocks = length smocks /\
  forall m, match live mocks m, live smocks m with
            | Some k, Some sk =>
                exists sx d, live sobjs (sk_obj sk) = Some sx /\
                  mock_rel tabs m k (sk_class sk) (sk_obj sk) (sk_owner sk) (sk_fill sk) (map face (sk_meths sk)) sx d
            | None, None => True
            | _, _ => False
            end.

(** Tables of different mocks are different. *)
Definition TOW (tow : nat -> nat) (mocks : list (option mock)) : Prop :=
  forall m k, live mocks m = Some k ->
    tow (mk_clone k) = m /\ length classes <= mk_clone k /\
    (mk_owner k = true -> tow (mk_orig k) = m /\ length classes <= mk_orig k /\ mk_orig k <> mk_clone k).

Definition seq_rel (q : aseq callable) (used : nat) (todo : list (action callable)) : Prop :=
  exists pre, length pre = used /\ as_acts q = ANoMore :: pre ++ todo /\
              as_recorded q = seq (S used) (length todo) ++ [0].

Definition stub_rel (own : nat -> nat) (mats : list (option imatcher)) (seqs : list seqcell)
           (h : nat * nat) (st : stub) : Prop :=
  snd h = st_no st /\ own (fst h) = st_no st /\ live mats (fst h) = Some (st_cond st) /\
  exists q, nth_error seqs (st_no st) = Some (mkSeq true q) /\ seq_rel q (st_used st) (st_todo st).

Definition body_rel (own : nat -> nat) (mats : list (option imatcher)) (seqs : list seqcell)
           (bd : body) (me : method) : Prop :=
  bd_id bd = Z.of_nat (S (me_no me)) /\ bd_ret bd = me_ret me /\ bd_invs bd = me_calls me /\
  Forall2 (stub_rel own mats seqs) (rev (bd_handlers bd)) (me_stubs me).

(** Method [me] is method [slot] of mock [m]. *)
Definition at_ (smocks : list (option smock)) (m slot : nat) (me : method) : Prop :=
  exists sk, live smocks m = Some sk /\ live (sk_meths sk) slot = Some me.

Definition BOD (own : nat -> nat) (bodies : list (option body)) (mats : list (option imatcher))
           (seqs : list seqcell) (smocks : list (option smock)) : Prop :=
  forall m slot me, at_ smocks m slot me ->
    exists bd, live bodies (me_no me) = Some bd /\ body_rel own mats seqs bd me.

Definition unused (sctxs : list (option sctx)) (c : nat) : Prop :=
  exists x, live sctxs c = Some x /\ sx_committed x = false.

(** Serial numbers are unique. *)
Record UNI (smocks : list (option smock)) (sctxs : list (option sctx)) : Prop := mkUNI {
  un_no : forall m slot me m' slot' me', at_ smocks m slot me -> at_ smocks m' slot' me' ->
            me_no me = me_no me' -> m = m' /\ slot = slot';
  un_stub : forall m slot me m' slot' me' st st', at_ smocks m slot me -> at_ smocks m' slot' me' ->
              In st (me_stubs me) -> In st' (me_stubs me') -> st_no st = st_no st' -> m = m' /\ slot = slot';
  un_nodup : forall m slot me, at_ smocks m slot me -> NoDup (map st_no (me_stubs me));
  un_ctx : forall m slot me st, at_ smocks m slot me -> In st (me_stubs me) ->
             st_no st < length sctxs /\ ~ unused sctxs (st_no st)
}.

Definition ctx_rel (own : nat -> nat) (mats : list (option imatcher)) (seqs : list seqcell)
           (c : nat) (x : ctx) (sx : sctx) : Prop :=
  cx_target x = sx_target sx /\ cx_committed x = sx_committed sx /\ cx_seq x = c /\
  (sx_committed sx = false ->
     own (cx_matcher x) = c /\ live mats (cx_matcher x) = Some (sx_cond sx) /\
     exists q, nth_error seqs c = Some (mkSeq true q) /\ seq_rel q 0 (sx_todo sx)).

Definition CTX (own : nat -> nat) (ctxs : list (option ctx)) (mats : list (option imatcher))
           (seqs : list seqcell) (sctxs : list (option sctx)) : Prop :=
  length ctxs = length sctxs /\ length seqs = length sctxs /\
  forall c, match live ctxs c, live sctxs c with
            | Some x, Some sx => ctx_rel own mats seqs c x sx
            | None, None => True
            | _, _ => False
            end.

Definition inv_rel (v : inv) (ca : call) : Prop :=
  iv_method v = Z.of_nat (S (ca_method ca)) /\ iv_ret v = ca_ret ca /\ iv_args v = ca_args ca /\
  iv_verified v = ca_verified ca.

Definition INV (invs : list inv) (calls : list call) : Prop := Forall2 inv_rel invs calls.

(** No expression that is still unused is the one a call was answered through. *)
Definition IDN (own : nat -> nat) (invs : list inv) (nmats : nat) (sctxs : list (option sctx)) : Prop :=
  forall i v mt, nth_error invs i = Some v -> iv_matcher v = Some mt ->
    mt < nmats /\ own mt < length sctxs /\ ~ unused sctxs (own mt).

Definition CNT (bodies : list (option body)) (mord : Z) (smocks : list (option smock)) (bound : nat) : Prop :=
  length bodies = bound /\ mord = Z.of_nat bound /\ (Z.of_nat bound < 4294967296)%Z.

(** Histories mention calls that exist. *)
Definition HIS (smocks : list (option smock)) (ncalls : nat) : Prop :=
  forall m slot me i, at_ smocks m slot me -> In i (me_calls me) -> i < ncalls.

Record Rg (own tow : nat -> nat) (w : world) (s : sworld) : Prop := mkR {
  r_cls : CLS (w_tables w);
  r_obj : OBJ (w_objs w) (w_mocks w) (s_objs s);
  r_mck : MCK (w_tables w) (w_mocks w) (s_mocks s) (s_objs s);
  r_tow : TOW tow (w_mocks w);
  r_bod : BOD own (w_bodies w) (w_matchers w) (w_seqs w) (s_mocks s);
  r_uni : UNI (s_mocks s) (s_ctxs s);
  r_ctx : CTX own (w_ctxs w) (w_matchers w) (w_seqs w) (s_ctxs s);
  r_inv : INV (w_invs w) (s_calls s);
  r_idn : IDN own (w_invs w) (length (w_matchers w)) (s_ctxs s);
  r_cnt : CNT (w_bodies w) (w_mord w) (s_mocks s) (s_bound s);
  r_his : HIS (s_mocks s) (length (s_calls s));
  r_ord : ords_good w;
  r_sta : w_started w = s_started s /\ (s_started s < 4294967296)%Z;
  r_exp : w_exps w = s_exps s;
  r_mem : w_mem w = s_mem s;
  r_fct : w_fctx w = s_fctx s;
  r_log : w_log w = s_log s;
  r_unc : w_uncaught w = s_uncaught s
}.

Definition R (w : world) (s : sworld) : Prop := exists own tow, Rg own tow w s.

(** ** Simulation *)
Definition simw {A B} (P : world -> sworld -> A -> B -> Prop) (m : M A) (sm : SM B) (w : world) (s : sworld) : Prop :=
  match sm s with
  | SOk s' b => exists w' a, m w = RVal w' a /\ R w' s' /\ P w' s' a b
  | SExn s' e => exists w', m w = RExn w' e /\ R w' s'
  | SUnspec => True
  end.

Definition eqP {A} (w : world) (s : sworld) (a b : A) : Prop := a = b.
Definition sim {A} (m : M A) (sm : SM A) : Prop := forall w s, R w s -> simw eqP m sm w s.

Lemma simw_bind : forall A B C D (P : world -> sworld -> A -> B -> Prop) (Q : world -> sworld -> C -> D -> Prop)
    m sm k sk w s,
  simw P m sm w s ->
  (forall w' s' a b, R w' s' -> P w' s' a b -> simw Q (k a) (sk b) w' s') ->
  simw Q (bind m k) (sbind sm sk) w s.
Proof.
  intros A B C D P Q m sm k sk w s H K. unfold simw, bind, sbind in *.
  destruct (sm s) as [s' b|s' e|]; auto.
  - destruct H as (w' & a & H1 & H2 & H3). rewrite H1. exact (K w' s' a b H2 H3).
  - destruct H as (w' & H1 & H2). rewrite H1. exists w'. auto.
Qed.

Lemma simw_run : forall A B (P : world -> sworld -> A -> B -> Prop) m sm m' sm' w s w' s',
  m w = m' w' -> sm s = sm' s' -> simw P m' sm' w' s' -> simw P m sm w s.
Proof. intros A B P m sm m' sm' w s w' s' H1 H2 H. unfold simw in *. now rewrite H1, H2. Qed.

(** One side takes a step. *)
Lemma simw_w : forall A B C (P : world -> sworld -> B -> C -> Prop) (m : M A) k sm w s w' a,
  m w = RVal w' a -> simw P (k a) sm w' s -> simw P (bind m k) sm w s.
Proof. intros A B C P m k sm w s w' a H. unfold simw, bind. now rewrite H. Qed.

Lemma simw_s : forall A B C (P : world -> sworld -> B -> C -> Prop) m (sm : SM A) sk w s s' b,
  sm s = SOk s' b -> simw P m (sk b) w s' -> simw P m (sbind sm sk) w s.
Proof. intros A B C P m sm sk w s s' b H. unfold simw, sbind. now rewrite H. Qed.

Lemma simw_u : forall A B C (P : world -> sworld -> B -> C -> Prop) m (sm : SM A) sk w s,
  sm s = SUnspec -> simw P m (sbind sm sk) w s.
Proof. intros A B C P m sm sk w s H. unfold simw, sbind. now rewrite H. Qed.

Lemma sim_bind : forall A B (m : M A) sm (k : A -> M B) sk,
  sim m sm -> (forall a, sim (k a) (sk a)) -> sim (bind m k) (sbind sm sk).
Proof.
  intros A B m sm k sk H K w s HR. eapply simw_bind; [apply H; auto|].
  intros w' s' a b R' P. unfold eqP in P. subst b. apply K; auto.
Qed.

Lemma sim_ret : forall A (a : A), sim (ret a) (sret a).
Proof. intros A a w s H. unfold simw, sret, ret, eqP. exists w, a. auto. Qed.

Lemma sim_throw : forall A e, sim (@throw A e) (sthrow e).
Proof. intros A e w s H. unfold simw, sthrow, throw. exists w. auto. Qed.

Lemma sim_unspec : forall A (m : M A), sim m unspec.
Proof. intros A m w s H. exact I. Qed.

Lemma simw_attempt : forall A (m : M A) sm w s, simw eqP m sm w s -> simw eqP (attempt m) (sattempt sm) w s.
Proof.
  intros A m sm w s H. unfold simw, attempt, sattempt in *. destruct (sm s) as [s' b|s' e|]; auto.
  - destruct H as (w' & a & H1 & H2 & H3). rewrite H1. unfold eqP in *. subst. eauto 6.
  - destruct H as (w' & H1 & H2). rewrite H1. unfold eqP. eauto 6.
Qed.

Lemma sim_attempt : forall A (m : M A) sm, sim m sm -> sim (attempt m) (sattempt sm).
Proof. intros A m sm H w s HR. apply simw_attempt. auto. Qed.

Lemma sim_rethrow : forall A (r : A + exn), sim (rethrow r) (srethrow r).
Proof. intros A [a|e]; [apply sim_ret|apply sim_throw]. Qed.

Lemma sim_guarded : forall A (m : M A) sm f sf, sim m sm -> sim f sf -> sim (guarded m f) (sguarded sm sf).
Proof.
  intros. unfold guarded, sguarded. apply sim_bind; [now apply sim_attempt|]. intro r.
  apply sim_bind; [auto|]. intros _. apply sim_rethrow.
Qed.

Lemma sim_lift : forall A (o o' : outcome A), (forall a, o' = Def a -> o = Def a) -> sim (lift o) (slift o').
Proof.
  intros A o o' H w s HR. unfold simw, slift, lift. destruct o' as [a| |]; auto.
  rewrite (H a eq_refl). unfold eqP. eauto.
Qed.

Lemma sim_lift_same : forall A (o : outcome A), sim (lift o) (slift o).
Proof. intros. now apply sim_lift. Qed.

Lemma sim_gets : forall A (f : world -> A) g, (forall w s, R w s -> f w = g s) -> sim (gets f) (sgets g).
Proof. intros A f g H w s HR. unfold simw, sgets, gets, eqP. exists w, (f w). auto. Qed.

Lemma sim_class : forall c, sim (class_of E c) (sclass E c).
Proof.
  intro c. unfold class_of, sclass. destruct (nth_error classes c); [apply sim_ret|apply sim_unspec].
Qed.

End R.
