(** Proofs for Thrown.v: the library does what the account of Spec_Thrown.v says. *)
From Coq Require Import Bool Ascii String Arith Lia List.
From Verif Require Import Base Thrown Spec_Thrown.
Import ListNotations.
Open Scope list_scope.
Open Scope nat_scope.

Lemma find_app_l {A} (f : A -> bool) l r x : find f l = Some x -> find f (l ++ r) = Some x.
Proof. induction l as [|a l IH]; cbn; [discriminate|]. destruct (f a); [auto|exact IH]. Qed.
Lemma find_app_r {A} (f : A -> bool) l r : find f l = None -> find f (l ++ r) = find f r.
Proof. induction l as [|a l IH]; cbn; [reflexivity|]. destruct (f a); [discriminate|exact IH]. Qed.

Section Proofs.
Variable derives : nat -> nat -> bool.
Notation copy_as := (copy_as derives).
Notation actions := (actions derives).
Notation handle := (handle derives).
Notation t_step := (t_step derives).
Notation t_run := (t_run derives).
Notation caught := (caught derives).
Notation first_of := (first_of derives).

Definition by_id (i : nat) (a : action) : bool := Nat.eqb (a_id a) i.
Definition holds (alive : list action) (i : nat) (t : string) : Prop :=
  exists a, find (by_id i) alive = Some a /\ a_held a = HeldArray t.

Definition same_held (alive : list action) (a : action) (i : item) : Prop :=
  match a_held a, i with
  | HeldObject o, IObject c f => o_class o = c /\ forall b, o_part o b = if derives c b then f b else 0
  | HeldArray t, IText u => t = u /\ holds alive (a_id a) t
  | HeldPointer (ToTest a), IAddress b => a = b
  | _, _ => False
  end.
Definition same_action (alive : list action) (a : action) (p : item * option nat) : Prop :=
  same_held alive a (fst p) /\ a_left a = snd p /\ (forall n, a_left a = Some n -> 1 <= n).

Definition same_last (alive : list action) (resets : nat) (p : option pointer) (k : option kept) : Prop :=
  match p, k with
  | None, None => True
  | Some (ToTest a), Some (KAddress b) => a = b
  | Some (ToAction i), Some (KText n t) => n <= resets /\ (n = resets -> holds alive i t)
  | _, _ => False
  end.

Record R (s : tstate) (x : sstate) : Prop := mkR {
  R_vars : t_vars s = s_vars x;
  R_texts : t_texts s = s_texts x;
  R_queue : Forall2 (same_action (t_alive s)) (t_queue s) (s_items x);
  R_born : s_items x <> [] -> s_born x = s_resets x;
  R_last : same_last (t_alive s) (s_resets x) (t_last s) (s_last x);
  R_next : Forall (fun a => a_id a < t_next s) (t_alive s)
}.

Lemma holds_app alive l i t : holds alive i t -> holds (alive ++ l) i t.
Proof. intros (a & F & H). exists a. split; [apply find_app_l; exact F|exact H]. Qed.

Lemma same_last_app alive l n p k : same_last alive n p k -> same_last (alive ++ l) n p k.
Proof.
  destruct p as [[a|i]|], k as [[m t|b]|]; cbn; auto. intros [H1 H2]. split; [exact H1|]. intros E. apply holds_app. exact (H2 E).
Qed.

Lemma fresh alive i : Forall (fun a => a_id a < i) alive -> forall j, i <= j -> find (by_id j) alive = None.
Proof.
  induction 1 as [|a l H _ IH]; intros j L; cbn [find]; [reflexivity|]. unfold by_id at 1.
  replace (Nat.eqb (a_id a) j) with false by (symmetry; apply Nat.eqb_neq; lia). apply IH. exact L.
Qed.

Lemma actions_same s x void always once : R s x -> Forall (fun p => 1 <= snd p) once ->
  forall alive i, Forall (fun a => a_id a < i) alive ->
  let l := actions s i once match always with Some y => [(y, void)] | None => [] end in
  Forall2 (same_action (alive ++ l)) l (items x void once always) /\ Forall (fun a => a_id a < i + length l) (alive ++ l).
Proof.
  intros Rs. induction 1 as [|[y n] once Hn _ IH]; intros alive i A l.
  - subst l. destruct always as [y|]; cbn [Thrown.actions items map app].
    2: { split; [constructor|]. rewrite app_nil_r, Nat.add_0_r. exact A. }
    split.
    + constructor; [|constructor]. split; [|split; [reflexivity|discriminate]].
      unfold same_held. cbn [a_held fst a_id]. destruct y as [v c|a|a]; cbn [capture now_or_address].
      * destruct void; cbn [now]; rewrite (R_vars _ _ Rs); split; reflexivity.
      * destruct void; cbn [now]; [reflexivity|]. rewrite (R_texts _ _ Rs). split; [reflexivity|].
        eexists. split; [rewrite find_app_r by (apply fresh with (i := i); [exact A|lia]); cbn [find]; unfold by_id; cbn [a_id];
          rewrite Nat.eqb_refl; reflexivity|reflexivity].
      * destruct void; reflexivity.
    + cbn [length]. apply Forall_app. split; [eapply Forall_impl; [|exact A]; cbn; lia|]. constructor; [cbn; lia|constructor].
  - cbn [Thrown.actions] in l. specialize (IH (alive ++ [mkAction i (capture derives s false y) (Some n)]) (S i)).
    assert (A' : Forall (fun a => a_id a < S i) (alive ++ [mkAction i (capture derives s false y) (Some n)])).
    { apply Forall_app. split; [eapply Forall_impl; [|exact A]; cbn; lia|]. constructor; [cbn; lia|constructor]. }
    specialize (IH A'). cbn zeta in IH. rewrite <- !app_assoc in IH. cbn [app] in IH. fold l in IH. destruct IH as [IH1 IH2].
    split.
    + unfold items. cbn [map app]. constructor; [|exact IH1].
      split; [|split; [reflexivity|intros m E; injection E as <-; exact Hn]].
      unfold same_held. cbn [a_held fst a_id]. destruct y as [v c|a|a]; cbn [capture now].
      * rewrite (R_vars _ _ Rs). split; reflexivity.
      * rewrite (R_texts _ _ Rs). split; [reflexivity|]. eexists.
        split; [rewrite find_app_r by (apply fresh with (i := i); [exact A|lia]); subst l; cbn [find]; unfold by_id; cbn [a_id];
          rewrite Nat.eqb_refl; reflexivity|cbn [a_held capture]; rewrite (R_texts _ _ Rs); reflexivity].
      * reflexivity.
    + subst l. cbn [length]. eapply Forall_impl; [|exact IH2]. cbn. lia.
Qed.

(** What is thrown corresponds. *)
Lemma handle_caught alive a i hs : same_held alive a i -> forall n,
  handle n (throw_held derives a) hs = match first_of n i hs with Some (k, h) => Caught k (sees derives i h) | None => Escaped end.
Proof.
  intros H. unfold same_held in H. unfold throw_held.
  induction hs as [|h hs IH]; intros n; [reflexivity|].
  destruct (a_held a) as [o|t|[p|p]], i as [c f|u|b]; try contradiction; cbn [Thrown.handle Spec_Thrown.first_of takes] in *.
  - destruct H as [Hc Hp]. rewrite Hc in *. destruct h as [d| |]; cbn [takes].
    + cbn [o_class Thrown.copy_as]. destruct (derives c d) eqn:D; [|apply IH].
      unfold Thrown.copy_as. cbn [sees o_part]. rewrite D, (Hp d), D. reflexivity.
    + apply IH.
    + reflexivity.
  - destruct h as [d| |]; cbn [takes]; [apply IH|reflexivity|reflexivity].
  - destruct h as [d| |]; cbn [takes]; [apply IH|reflexivity|reflexivity].
Qed.

Lemma saw_pointer i h : takes derives i h = true -> (sees derives i h = SawPointer <-> h = CatchText).
Proof. destruct h, i; cbn; intros H; try discriminate H; split; try discriminate; try reflexivity. Qed.

Lemma first_takes i hs : forall n k h, first_of n i hs = Some (k, h) -> takes derives i h = true.
Proof.
  induction hs as [|h' hs IH]; intros n k h; cbn; [discriminate|]. destruct (takes derives i h') eqn:T.
  - intros E. injection E as _ <-. exact T.
  - apply IH.
Qed.

Lemma step_sim s x o x' y : R s x -> positive o -> s_step derives x o = Some (x', y) -> exists s', t_step s o = Def (s', y) /\ R s' x'.
Proof.
  intros Rs P E. destruct o as [void once always|v c n|a t|hs| |]; cbn [s_step Thrown.t_step] in *.
  - injection E as <- <-. eexists. split; [reflexivity|].
    destruct (actions_same s x void always once Rs P (t_alive s) (t_next s) (R_next _ _ Rs)) as [Q N].
    split; cbn; try apply Rs.
    + exact Q.
    + reflexivity.
    + apply same_last_app. apply Rs.
    + exact N.
  - injection E as <- <-. eexists. split; [reflexivity|]. split; cbn; try apply Rs. rewrite (R_vars _ _ Rs). reflexivity.
  - injection E as <- <-. eexists. split; [reflexivity|]. split; cbn; try apply Rs. rewrite (R_texts _ _ Rs). reflexivity.
  - unfold one_call. pose proof (R_queue _ _ Rs) as Q. pose proof (R_born _ _ Rs) as B.
    destruct (s_items x) as [|[i k] r] eqn:I; inversion Q as [|a p q' r' Ha Hr E1 E2].
    + injection E as <- <-. eexists. split; [reflexivity|]. exact Rs.
    + subst p r'. injection E as <- <-. specialize (B ltac:(discriminate)).
      destruct Ha as (H1 & H2 & H3). cbn [fst snd] in H1, H2.
      unfold Spec_Thrown.caught. rewrite (handle_caught (t_alive s) a i hs H1 0).
      eexists. split; [reflexivity|]. split; cbn; try apply Rs.
      * rewrite H2. destruct k as [[|[|k]]|]; cbn.
        -- exact Hr.
        -- exact Hr.
        -- constructor; [|exact Hr]. split; [|split; [reflexivity|]].
           ++ unfold same_held in *. cbn [a_held a_id fst]. destruct (a_held a) as [o|t|[u|u]], i; exact H1.
           ++ cbn [a_left]. intros n E. injection E as <-. lia.
        -- constructor; [|exact Hr]. split; [exact H1|]. split; [exact H2|exact H3].
      * intros _. exact B.
      * unfold keeps_last. destruct (first_of 0 i hs) as [[n h]|] eqn:F.
        2: { unfold catches_pointer. destruct (throw_held derives a); apply Rs. }
        pose proof (saw_pointer i h (first_takes i hs 0 n h F)) as S1.
        unfold catches_pointer, throw_held. unfold same_held in H1.
        destruct (a_held a) as [o|t|[u|u]], i as [c f|w|b]; try contradiction.
        -- destruct h; apply Rs.
        -- destruct h as [d| |]; cbn [sees]; try apply Rs.
           ++ apply first_takes in F. discriminate F.
           ++ destruct H1 as [<- H1]. cbn [same_last]. rewrite B. split; [apply Nat.le_refl|]. intros _. exact H1.
        -- destruct h as [d| |]; cbn [sees]; try apply Rs.
           ++ apply first_takes in F. discriminate F.
           ++ cbn [same_last]. exact H1.
  - injection E as <- <-. eexists. split; [reflexivity|]. split; cbn; try apply Rs.
    + constructor.
    + intros H. contradiction H. reflexivity.
    + pose proof (R_last _ _ Rs) as L. destruct (t_last s) as [[a|i]|], (s_last x) as [[m t|b]|]; cbn in *; auto.
      destruct L as [L _]. split; [lia|]. intros E. lia.
    + constructor.
  - pose proof (R_last _ _ Rs) as L. destruct (s_last x) as [[m t|b]|] eqn:K; [| |discriminate E].
    + destruct (Nat.eqb m (s_resets x)) eqn:M; [|discriminate E]. injection E as <- <-. apply Nat.eqb_eq in M.
      destruct (t_last s) as [[a|i]|] eqn:T; cbn in L; try contradiction. destruct L as [_ L]. destruct (L M) as (a & Fa & Ha).
      exists s. cbn [read_pointer]. unfold by_id in Fa. rewrite Fa, Ha. split; [reflexivity|]. exact Rs.
    + injection E as <- <-. destruct (t_last s) as [[a|i]|] eqn:T; cbn in L; try contradiction. subst b.
      exists s. cbn [read_pointer obind]. rewrite (R_texts _ _ Rs). split; [reflexivity|]. exact Rs.
Qed.

Lemma run_sim os : forall s x ys, R s x -> Forall positive os -> s_run derives os x = Some ys ->
  exists s', t_run os s = Def (s', ys).
Proof.
  induction os as [|o os IH]; intros s x ys Rs P E; cbn [s_run Thrown.t_run] in *.
  - injection E as <-. eexists. reflexivity.
  - inversion P as [|o' os' P1 P2 E1]; subst o' os'.
    destruct (s_step derives x o) as [[x1 y]|] eqn:St; [|discriminate E].
    destruct (s_run derives os x1) as [zs|] eqn:Sr; [|discriminate E]. injection E as <-.
    destruct (step_sim s x o x1 y Rs P1 St) as (s1 & -> & R1). cbn [obind].
    destruct (IH s1 x1 zs R1 P2 Sr) as (s2 & ->). eexists. reflexivity.
Qed.

Theorem thrown_story vars texts os ys : Forall positive os -> s_run derives os (s_init vars texts) = Some ys ->
  exists s, t_run os (t_init vars texts) = Def (s, ys).
Proof.
  intros P E. apply (run_sim os _ (s_init vars texts)); [|exact P|exact E].
  split; cbn; auto.
Qed.

(** Tests that are not allowed: those that read a text after a Reset, or before one was caught.  All else is defined. *)
Theorem thrown_defined vars texts os : (forall o, In o os -> o <> ORead) -> Forall positive os ->
  exists s ys, t_run os (t_init vars texts) = Def (s, ys).
Proof.
  intros N P. assert (K : forall l x, (forall o, In o l -> o <> ORead) -> exists ys, s_run derives l x = Some ys).
  { induction l as [|o l IH]; intros x H; [exists []; reflexivity|]. cbn [s_run].
    assert (S1 : exists x1 y, s_step derives x o = Some (x1, y)).
    { destruct o; cbn; try (eexists; eexists; reflexivity).
      - destruct (s_items x) as [|[i k] r]; eexists; eexists; reflexivity.
      - contradiction (H ORead (or_introl eq_refl)). reflexivity. }
    destruct S1 as (x1 & y & ->). destruct (IH x1 (fun o' I => H o' (or_intror I))) as (ys & ->). eexists. reflexivity. }
  destruct (K os (s_init vars texts) N) as (ys & E). destruct (thrown_story vars texts os ys P E) as (s & H).
  exists s, ys. exact H.
Qed.

(** The handlers catch what they would catch of "throw x;" in the place of the call, if the variables are as they were. *)
Theorem like_throw vars texts void x hs : 
  exists s, t_run [OStub void [(x, 1)] None; OCall hs] (t_init vars texts) = Def (s, [Done; in_place derives vars x hs]).
Proof.
  destruct (thrown_story vars texts [OStub void [(x, 1)] None; OCall hs] [Done; in_place derives vars x hs]) as (s & E).
  - repeat constructor.
  - cbn. unfold in_place. do 3 f_equal. destruct x as [v c|a|a]; [reflexivity| |reflexivity].
    unfold Spec_Thrown.caught. assert (Q : forall n, first_of n (IText (texts a)) hs = first_of n (IAddress a) hs /\
      forall k h, first_of n (IAddress a) hs = Some (k, h) -> sees derives (IText (texts a)) h = sees derives (IAddress a) h).
    { induction hs as [|h hs IH]; intros n; [split; [reflexivity|discriminate]|]. cbn [Spec_Thrown.first_of].
      destruct h as [d| |]; cbn [takes].
      - apply IH.
      - split; [reflexivity|]. intros k h E. injection E as _ <-. reflexivity.
      - split; [reflexivity|]. intros k h E. injection E as _ <-. reflexivity. }
    cbn [now s_texts s_init]. destruct (Q 0) as [-> Q2]. destruct (first_of 0 (IAddress a) hs) as [[k h]|]; [|reflexivity].
    rewrite (Q2 k h eq_refl). reflexivity.
  - exists s. exact E.
Qed.

End Proofs.
