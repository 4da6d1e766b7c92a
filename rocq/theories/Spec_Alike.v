(** Worlds that programs cannot tell apart, in terms of the abstract machine of
    Spec_World.v, and the programs that cannot. *)
From Coq Require Import Bool ZArith Lia List.
From Verif Require Import Base CInt Values ArgMatchers InvMatchers ActionSeq Sequences MatchAnalysis
  Proxy Events Expectation ReturnSet Syntax World Spec_World Spec_View.
Import ListNotations.
Open Scope nat_scope.

Inductive opt_rel {A B} (P : A -> B -> Prop) : option A -> option B -> Prop :=
| OrNone : opt_rel P None None
| OrSome : forall a b, P a b -> opt_rel P (Some a) (Some b).

Section A.
Variable E : env.
(** [seen]: verification is possible; then histories and verified-statuses matter. *)
Variable seen : bool.
(** Which numbers two mocks may show in entries without stubbing. *)
Variable F : Z -> Z -> Prop.
(** Which method expressions programs may use. *)
Variable okt : target -> bool.
(** In the second world, [shift] more method expressions came and went, after [first]
    others.  If [shift] is not 0 then programs may use method expressions within
    statements only (a stored one would have another number). *)
Variables first shift : nat.

Definition moved (c : nat) : nat := if Nat.ltb c first then c else c + shift.
Definition moved_stub (st : stub) : stub :=
  mkStub (moved (st_no st)) (st_cond st) (st_todo st) (st_used st) (st_busy st).

Definition same_method (x y : method) : Prop :=
  me_no y = me_no x /\ me_id y = me_id x /\ me_ret y = me_ret x /\ me_stubs y = map moved_stub (me_stubs x) /\
  me_bypass y = me_bypass x /\ (seen = true -> me_calls y = me_calls x).

Definition same_mock (x y : smock) : Prop :=
  sk_class y = sk_class x /\ sk_obj y = sk_obj x /\ sk_owner y = sk_owner x /\ F (sk_fill x) (sk_fill y) /\
  Forall2 (opt_rel same_method) (sk_meths x) (sk_meths y).

Definition same_record (x y : call) : Prop :=
  ca_method y = ca_method x /\ ca_ret y = ca_ret x /\ ca_args y = ca_args x /\
  (seen = true -> ca_verified y = ca_verified x).

(** Everything is the same, except for what was delivered to listeners, for the numbers
    of method expressions, and, if no verification is possible, for verification objects,
    histories and verified-statuses. *)
Record alike (s s' : sworld) : Prop := mkAlike {
  al_objs : s_objs s' = s_objs s;
  al_bound : s_bound s' = s_bound s;
  al_first : first <= length (s_ctxs s);
  al_length : length (s_ctxs s') = length (s_ctxs s) + shift;
  al_ctxs : forall c, live (s_ctxs s') (moved c) = live (s_ctxs s) c;
  al_started : s_started s' = s_started s;
  al_mem : s_mem s' = s_mem s;
  al_fctx : s_fctx s' = s_fctx s;
  al_uncaught : s_uncaught s' = s_uncaught s;
  al_exps : seen = true -> s_exps s' = s_exps s;
  al_calls : Forall2 same_record (s_calls s) (s_calls s');
  al_mocks : Forall2 (opt_rel same_mock) (s_mocks s) (s_mocks s');
  al_okt : forall c x, live (s_ctxs s) c = Some x -> okt (sx_target x) = true
}.

Definition admits (o : op) : bool :=
  match o with
  | OExp _ _ | ONoOther _ | OQuant _ _ | OBool _ | OExpFree _ => seen && Nat.eqb shift 0
  | OCtx t => okt t && Nat.eqb shift 0
  | OCond _ _ | OCtxFree _ | OWhen _ _ _ | OFake _ | OSpy _ _ | OAssign _ _ => Nat.eqb shift 0
  | OStmt ts st =>
      forallb (fun x => okt (fst x)) ts &&
      match st with SVerify _ _ _ | SNoOther _ _ => seen && Nat.eqb shift 0 | _ => true end
  | _ => true
  end.

(** The abstract machine, which gives no answer if a program (or user code it calls) does
    something that is not admitted. *)
Fixpoint nexec (fuel : nat) (o : op) : SM val :=
  match fuel with
  | O => unspec
  | S f => if admits o then sstep E (nexec f) o else unspec
  end.

Fixpoint nexec_all (fuel : nat) (os : list op) : SM (list (val + exn)) :=
  match os with
  | [] => sret []
  | o :: r =>
      let? x := sattempt (nexec fuel o) in
      let? xs := nexec_all fuel r in
      sret (x :: xs)
  end.
End A.

(** Nothing but verification objects, verified-statuses and what was delivered to
    listeners is different. *)
Definition as_recorded (x y : call) : Prop :=
  ca_method y = ca_method x /\ ca_ret y = ca_ret x /\ ca_args y = ca_args x.
Record only_looked (s s' : sworld) : Prop := mkLooked {
  lo_objs : s_objs s' = s_objs s;
  lo_mocks : s_mocks s' = s_mocks s;
  lo_bound : s_bound s' = s_bound s;
  lo_ctxs : s_ctxs s' = s_ctxs s;
  lo_started : s_started s' = s_started s;
  lo_mem : s_mem s' = s_mem s;
  lo_fctx : s_fctx s' = s_fctx s;
  lo_uncaught : s_uncaught s' = s_uncaught s;
  lo_calls : Forall2 as_recorded (s_calls s) (s_calls s')
}.

(** A mock as it is made: nothing was said about any method. *)
Definition new_mock (k : smock) : smock :=
  mkSmock (sk_class k) (sk_obj k) (sk_owner k) int_max (repeat None (length (sk_meths k))).

(** The object of a mock with its data members as they are made. *)
Definition zeroed (x : sobj) : sobj := mkSobj (so_class x) (map (fun _ => VInt 0) (so_data x)) (so_mock x).

(** The world in which mock [m] (which is [k]) is a new one. *)
Definition as_new (s : sworld) (m : nat) (k : smock) : sworld :=
  let s1 := sset_mocks s (upd (s_mocks s) m (Some (new_mock k))) in
  if sk_owner k then
    match live (s_objs s) (sk_obj k) with
    | Some x => sset_objs s1 (upd (s_objs s) (sk_obj k) (Some (zeroed x)))
    | None => s1
    end
  else s1.

(** Numbers of method expressions: [__COUNTER__] values below 2^31 - 2. *)
Definition plain_number (t : target) : bool :=
  match t with TMethod _ _ c => (0 <=? c)%Z && (c <? 2147483646)%Z | TDtor _ => false end.

(** Verification statements, and the operations on stored verification objects. *)
Definition verifies (st : stmt) : bool := match st with SVerify _ _ _ | SNoOther _ _ => true | _ => false end.
Definition verifies_op (o : op) : bool :=
  match o with OExp _ _ | ONoOther _ | OQuant _ _ | OBool _ | OExpFree _ => true | _ => false end.

(** The method that [t] designates was mentioned before. *)
Definition said (E : env) (s : sworld) (t : target) : Prop := exists m e me, mentioned E s t m e me s.
