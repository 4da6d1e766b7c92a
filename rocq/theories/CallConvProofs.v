(** * Proofs about calling conventions (C95) *)
From Coq Require Import Bool List Arith Lia.
From Verif Require Import CallConv Spec_CallConv.
Import ListNotations.

Lemma take_all : forall l n, length l = n -> take n l = map Some l.
Proof. induction l as [|w l IH]; intros n <-; cbn; [reflexivity|]. now rewrite IH. Qed.

(** Caller and callee of one type understand each other. *)
Lemma enter_place : forall a f this slot args, length args = length (ft_pars f) ->
  enter a f (place a f this slot args) =
  mkEntered (if ft_member f then Some this else None) (if in_memory a f then Some slot else None) (map Some args).
Proof.
  intros a f this slot args L.
  destruct a; unfold enter, place; destruct (in_memory _ f); destruct (ft_member f); cbn; now rewrite (take_all _ _ L).
Qed.

Lemma in_memory_spec : forall a r ps, in_memory a (mkFt true r ps) = true <-> needs_address a r.
Proof.
  intros a r ps. split.
  - destruct r as [| |n [|]]; cbn -[Nat.ltb power_size]; try discriminate; [|constructor].
    destruct a; cbn -[Nat.ltb power_size]; intro H; try (constructor; auto; fail).
    + apply Nat.ltb_lt in H. constructor. lia.
    + apply Nat.ltb_lt in H. constructor. lia.
    + apply Nat.ltb_lt in H. constructor. lia.
    + apply na_mingw; [auto|]. intros I. apply negb_true_iff in H. assert (X : power_size n = true); [|congruence].
      apply existsb_exists. exists n. split; [exact I|apply Nat.eqb_refl].
    + apply na_mingw; [auto|]. intros I. apply negb_true_iff in H. assert (X : power_size n = true); [|congruence].
      apply existsb_exists. exists n. split; [exact I|apply Nat.eqb_refl].
  - intros [a' n|n L|n L|n L|n|a' n C L|a' n C]; try reflexivity.
    + destruct a'; reflexivity.
    + apply Nat.ltb_lt. lia.
    + apply Nat.ltb_lt. lia.
    + apply Nat.ltb_lt. lia.
    + assert (X : power_size n = false).
      { unfold power_size. destruct (existsb _ _) eqn:E; [|reflexivity]. apply existsb_exists in E.
        destruct E as (k & I & E). apply Nat.eqb_eq in E. subst k. contradiction. }
      destruct C as [-> | ->]; cbn -[power_size]; now rewrite X.
    + destruct C as [-> | ->]; reflexivity.
Qed.

Lemma stubbed_received : forall a mem r ps this slot args m, fits ps args -> mem this = Some m ->
  faithful a r m slot args (vcall a mem r ps (FProxy r ps) this slot args).
Proof.
  intros a mem r ps this slot args m F M. unfold vcall, call_as. cbn [ftype_of].
  rewrite enter_place by exact F. cbn -[in_memory]. rewrite M.
  exists (if in_memory a (mkFt true r ps) then Some slot else None). split; [reflexivity|].
  pose proof (in_memory_spec a r ps) as H. destruct (in_memory _ _); split; intro N; try reflexivity.
  - exfalso. apply N, H. reflexivity.
  - apply H in N. discriminate.
Qed.

Lemma stubbed_destroyed : forall a r ps, left_over a r ps (FProxy r ps) = [].
Proof.
  intros a r ps. unfold left_over, destroyed. cbn [ftype_of ft_pars].
  replace (if is_ms a then ps else ps) with ps by now destruct (is_ms a).
  assert (G : forall l L, incl l L -> filter (fun i => negb (existsb (Nat.eqb i) L)) l = []).
  { induction l as [|x l IH]; intros L I; cbn; [reflexivity|].
    replace (existsb (Nat.eqb x) L) with true; [apply IH; intros y Y; apply I; now right|].
    symmetry. apply existsb_exists. exists x. split; [apply I; now left|apply Nat.eqb_refl]. }
  apply G, incl_refl.
Qed.

(** What [unmocked] takes for its object. *)
Lemma unmocked_this : forall a r ps this slot args,
  en_this (enter a (ftype_of FUnmocked) (place a (mkFt true r ps) this slot args)) =
  match a with
  | SysV64 | Aapcs32 | I386Gnu | MinGW64 => if in_memory a (mkFt true r ps) then Some slot else Some this
  | _ => Some this
  end.
Proof. intros a r ps this slot args. destruct a; unfold enter, place;
  match goal with |- context[in_memory ?x (ftype_of FUnmocked)] => change (in_memory x (ftype_of FUnmocked)) with false end;
  cbn -[in_memory]; try reflexivity;
  match goal with |- context[in_memory ?x ?y] => destruct (in_memory x y) end; reflexivity. Qed.

Lemma unmocked_reports : forall a mem r ps this slot args m, mem this = Some m ->
  ~ (result_first a /\ needs_address a r) -> vcall a mem r ps FUnmocked this slot args = Reports m.
Proof.
  intros a mem r ps this slot args m M H. unfold vcall, call_as. cbn [body]. rewrite unmocked_this.
  pose proof (in_memory_spec a r ps) as S0. destruct (in_memory a (mkFt true r ps)).
  - destruct a; try (exfalso; apply H; split; [constructor|apply S0; reflexivity]); cbn; now rewrite M.
  - destruct a; cbn; now rewrite M.
Qed.

Lemma unmocked_undefined : forall a mem r ps this slot args,
  result_first a -> needs_address a r -> mem slot = None -> vcall a mem r ps FUnmocked this slot args = Undefined.
Proof.
  intros a mem r ps this slot args RF N M. unfold vcall, call_as. cbn [body]. rewrite unmocked_this.
  apply (in_memory_spec a r ps) in N. rewrite N. destruct RF; cbn; now rewrite M.
Qed.

Lemma unmocked_left_ms : forall a r ps, callee_destroys a -> left_over a r ps FUnmocked = objects_from 0 ps.
Proof.
  intros a r ps C. unfold left_over, destroyed.
  assert (G : forall l, filter (fun i : nat => negb (existsb (Nat.eqb i) [])) l = l)
    by (induction l as [|x l IH]; [reflexivity|cbn; f_equal; exact IH]).
  destruct C; cbn [is_ms ftype_of ft_pars objects_from]; apply G.
Qed.

Lemma unmocked_left_other : forall a r ps, ~ callee_destroys a -> left_over a r ps FUnmocked = [].
Proof.
  intros a r ps C. rewrite <- (stubbed_destroyed a r ps). unfold left_over, destroyed.
  replace (is_ms a) with false; [reflexivity|]. destruct a; try reflexivity; exfalso; apply C; constructor.
Qed.

Lemma objects_from_in : forall ps i k, In k (objects_from i ps) <-> exists j, k = i + j /\ nth_error ps j = Some PObject.
Proof.
  induction ps as [|p ps IH]; intros i k; cbn.
  - split; [intros []|intros (j & _ & E); destruct j; discriminate].
  - assert (G : In k (objects_from (S i) ps) <-> exists j, k = i + S j /\ nth_error (p :: ps) (S j) = Some PObject).
    { rewrite IH. split; intros (j & -> & E); exists j; (split; [lia|exact E]). }
    destruct p; cbn [In]; rewrite G; split.
    + intros (j & E). eauto.
    + intros ([|j] & E1 & E2); [discriminate|eauto].
    + intros [<-|(j & E)]; [exists 0; split; [lia|reflexivity]|eauto].
    + intros ([|j] & E1 & E2); [left; lia|right; eauto].
Qed.

(** Destructors. *)
Lemma dtor_explicit : forall a mem this m, mem this = Some m ->
  dtor_call a mem (dtor_proxy a) this = Handles m None [].
Proof. intros a mem this m M. destruct a; cbn; rewrite ?M; cbn; rewrite ?M; reflexivity. Qed.

Lemma dtor_delete : forall a mem this m, mem this = Some m -> a <> MinGW32 ->
  delete_call a mem (dtor_proxy a) this = Handles m None [].
Proof. intros a mem this m M H. destruct a; cbn; rewrite ?M; cbn; rewrite ?M; congruence. Qed.

Lemma dtor_delete_mingw32 : forall mem this, delete_call MinGW32 mem (dtor_proxy MinGW32) this = Undefined.
Proof. intros mem this. cbn. destruct (mem this); reflexivity. Qed.

Lemma dtor_unmocked : forall a mem this m, mem this = Some m ->
  dtor_call a mem FUnmockedDtor this = Nothing /\ delete_call a mem FUnmockedDtor this = Nothing.
Proof. intros a mem this m M. destruct a; cbn; rewrite ?M; auto. Qed.

Lemma power_size_in n : power_size n = true <-> In n [1; 2; 4; 8].
Proof.
  unfold power_size. rewrite existsb_exists. split.
  - intros (x & I & E). apply Nat.eqb_eq in E. now subst.
  - intros I. exists n. split; [exact I|apply Nat.eqb_refl].
Qed.

Lemma free_result : forall a n triv ps this slot args, callee_destroys a -> fits ps args ->
  (triv = true /\ In n [1; 2; 4; 8] ->
     enter a (mkFt false (RClass n triv) ps) (place a (mkFt false (RClass n triv) ps) this slot args) = mkEntered None None (map Some args)) /\
  (~ (triv = true /\ In n [1; 2; 4; 8]) ->
     enter a (mkFt false (RClass n triv) ps) (place a (mkFt false (RClass n triv) ps) this slot args) = mkEntered None (Some slot) (map Some args)).
Proof.
  intros a n triv ps this slot args C F. unfold fits in F.
  assert (T : take (length ps) args = map Some args).
  { rewrite <- F. clear. induction args as [|x l IH]; cbn; [reflexivity|]. now rewrite IH. }
  assert (M : in_memory a (mkFt false (RClass n triv) ps) = negb triv || negb (power_size n)) by (destruct C; reflexivity).
  rewrite <- power_size_in. split; intros H.
  - destruct H as [-> H]. rewrite H in M. cbn [negb orb] in M. unfold enter, place. rewrite M. destruct C; cbn -[take in_memory]; now rewrite T.
  - assert (E : in_memory a (mkFt false (RClass n triv) ps) = true).
    { rewrite M. destruct triv; cbn [negb orb]; [|reflexivity]. destruct (power_size n); [|reflexivity]. exfalso. now apply H. }
    unfold enter, place. rewrite E. destruct C; cbn -[take in_memory]; now rewrite T.
Qed.
