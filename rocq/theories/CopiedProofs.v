(** Proofs for Copied.v. *)
From Coq Require Import Bool Arith Lia List.
From Verif Require Import Base Copied Spec_Copied.
Import ListNotations.

(** Induction over types with lists of members. *)
Section Ind.
Variable P : cty -> Prop.
Hypothesis H1 : P Copyable.
Hypothesis H2 : P MoveOnly.
Hypothesis H3 : forall t, P t -> P (Vector t).
Hypothesis H4 : forall t, P t -> P (Container t).
Hypothesis H5 : forall l, (forall t, In t l -> P t) -> P (Class l).
Fixpoint cty_ind' (t : cty) : P t :=
  match t with
  | Copyable => H1
  | MoveOnly => H2
  | Vector e => H3 e (cty_ind' e)
  | Container e => H4 e (cty_ind' e)
  | Class l => H5 l ((fix all (l : list cty) : forall t, In t l -> P t :=
      match l return forall t, In t l -> P t with
      | [] => fun t H => match H with end
      | a :: r => fun t H => match H with or_introl E => eq_ind a P (cty_ind' a) t E | or_intror H' => all r t H' end
      end) l)
  end.
End Ind.

Lemma copying_iff t : copying_compiles t = true <-> can_be_copied t.
Proof.
  unfold can_be_copied. induction t as [| |t IH|t IH|l IH] using cty_ind'; cbn [copying_compiles].
  - split; [|reflexivity]. intros _ H. inversion H.
  - split; [discriminate|]. intros H. contradiction H. constructor.
  - rewrite IH. split; intros H M; apply H; [inversion M; assumption|constructor; exact M].
  - rewrite IH. split; intros H M; apply H; [inversion M; assumption|constructor; exact M].
  - rewrite forallb_forall. split.
    + intros H M. inversion M as [| | |l' t u I M' E1 E2]. apply (proj1 (IH t I) (H t I)). exact M'.
    + intros H t I. apply IH; [exact I|]. intros M. apply H. econstructor; eassumption.
Qed.

Lemma forallb_false {A} (f : A -> bool) l : forallb f l = false -> exists x, In x l /\ f x = false.
Proof.
  induction l as [|a l IH]; cbn; [discriminate|]. destruct (f a) eqn:F.
  - intros H. destruct (IH H) as (x & I & Fx). exists x. split; [right; exact I|exact Fx].
  - intros _. exists a. split; [left; reflexivity|exact F].
Qed.

Lemma constructible_iff t : is_copy_constructible t = false <-> deleted t.
Proof.
  induction t as [| |t IH|t IH|l IH] using cty_ind'; cbn [is_copy_constructible].
  - split; [discriminate|intros H; inversion H].
  - split; [constructor|reflexivity].
  - split; [discriminate|intros H; inversion H].
  - split; [discriminate|intros H; inversion H].
  - split.
    + intros H. destruct (forallb_false _ l H) as (t & I & F). econstructor; [exact I|]. apply IH; assumption.
    + intros H. inversion H as [|l' t I D E]. destruct (forallb is_copy_constructible l) eqn:F; [|reflexivity].
      rewrite forallb_forall in F. specialize (F t I). rewrite (proj2 (IH t I) D) in F. discriminate F.
Qed.

Lemma smart_iff p : smart_is_copy_constructible p = false <-> known p.
Proof.
  destruct p as [t|t|t]; cbn [smart_is_copy_constructible].
  - induction t as [| |t IH|t IH|l IH] using cty_ind'; cbn [smart_test].
    + split; [discriminate|]. intros H. inversion H as [|t D E|]. inversion D.
    + split; [intros _; constructor; constructor|reflexivity].
    + rewrite IH. split; [intros H; constructor; exact H|]. intros H. inversion H as [|u D E|u K E]; [inversion D|exact K].
    + split; [discriminate|]. intros H. inversion H as [|u D E|]. inversion D.
    + split.
      * intros H. constructor. apply constructible_iff. exact H.
      * intros H. inversion H as [|u D E|]. apply (proj2 (constructible_iff (Class l))). exact D.
  - split; [discriminate|intros H; inversion H].
  - split; [intros _; constructor|reflexivity].
Qed.

Lemma deleted_made t : deleted t -> made_of t MoveOnly.
Proof.
  induction t as [| |t IH|t IH|l IH] using cty_ind'; intros D; inversion D as [|l' u I D' E].
  - constructor.
  - econstructor; [exact I|]. apply IH; assumption.
Qed.

Lemma known_not_copied ps p : In p ps -> known p -> ~ all_copied ps.
Proof.
  intros I K A. specialize (A p I). destruct p as [t|t|t]; [|inversion K|exact A].
  clear I. unfold can_be_copied in A. apply A. clear A.
  induction t as [| |t IH|t IH|l IH] using cty_ind'; inversion K as [|u D E|u K' E]; try (apply deleted_made; exact D).
  constructor. apply IH. exact K'.
Qed.

Lemma passes_iff ps : forallb passes_copies ps = true <-> all_copied ps.
Proof.
  rewrite forallb_forall. unfold all_copied. split.
  - intros H p I. specialize (H p I). destruct p as [t|t|t]; cbn in H; [apply copying_iff; exact H|exact Logic.I|discriminate H].
  - intros H p I. specialize (H p I). destruct p as [t|t|t]; cbn; [apply copying_iff; exact H|reflexivity|contradiction].
Qed.

Lemma variant_cases ps : (copy_variant ps = Aborts /\ forallb smart_is_copy_constructible ps = false /\ exists p, In p ps /\ known p) \/
  (copy_variant ps = CopiesArguments /\ forallb smart_is_copy_constructible ps = true /\ forall p, In p ps -> ~ known p).
Proof.
  unfold copy_variant. destruct (forallb smart_is_copy_constructible ps) eqn:F.
  - right. repeat split. intros p I K. rewrite forallb_forall in F. specialize (F p I). apply smart_iff in K. congruence.
  - left. repeat split. destruct (forallb_false _ ps F) as (p & I & S). exists p. split; [exact I|apply smart_iff; exact S].
Qed.

Theorem stub_iff ps : stub ps = Compiles <-> (exists p, In p ps /\ known p) \/ all_copied ps.
Proof.
  unfold stub, mention. destruct (variant_cases ps) as [(-> & _ & K)|(-> & _ & K)].
  - split; [intros _; left; exact K|reflexivity].
  - destruct (forallb passes_copies ps) eqn:P.
    + split; [intros _; right; apply passes_iff; exact P|reflexivity].
    + split; [discriminate|]. intros [(p & I & Kp)|A]; [contradiction (K p I Kp)|]. apply passes_iff in A. congruence.
Qed.

Theorem spy_iff ps : spy ps = Compiles <-> all_copied ps.
Proof.
  unfold spy, mention. destruct (variant_cases ps) as [(-> & -> & (p & I & K))|(-> & -> & K)].
  - split; [discriminate|]. intros A. contradiction (known_not_copied ps p I K A).
  - rewrite <- passes_iff. destruct (forallb passes_copies ps); split; congruence.
Qed.

Theorem spy_says ps : spy ps = SaysWhy <-> exists p, In p ps /\ known p.
Proof.
  unfold spy, mention. destruct (variant_cases ps) as [(-> & -> & K)|(-> & -> & K)].
  - split; [intros _; exact K|reflexivity].
  - split; [destruct (forallb passes_copies ps); discriminate|]. intros (p & I & Kp). contradiction (K p I Kp).
Qed.

Theorem spy_runs ps : spy ps = Compiles -> spied_call ps = OriginalGetsCopies.
Proof.
  unfold spy, spied_call, mention. destruct (variant_cases ps) as [(-> & -> & K)|(-> & -> & K)]; [discriminate|reflexivity].
Qed.

Lemma flat_made t : flat t -> made_of t MoveOnly -> deleted t.
Proof.
  induction t as [| |t IH|t IH|l IH] using cty_ind'; intros F M; inversion F as [| |l' Fl E]; inversion M as [|u v M' E1|u v M' E1|l'' u v I M' E1].
  - constructor.
  - econstructor; [exact I|]. apply IH; [exact I|apply Fl; exact I|exact M'].
Qed.

Theorem plain_stub ps : (forall t, In (ByValue t) ps -> plain t) -> stub ps = Compiles.
Proof.
  intros H. apply stub_iff. destruct (variant_cases ps) as [(_ & _ & K)|(_ & _ & K)]; [left; exact K|right].
  intros p I. destruct p as [t|t|t]; [|exact Logic.I|exact (K _ I (KnownRvalue t))].
  intros M. apply (K _ I). specialize (H t I). clear K I ps.
  induction H as [t F|t Pt IH].
  - constructor. apply flat_made; assumption.
  - apply KnownVector. apply IH. inversion M. assumption.
Qed.

Theorem forward_iff ps : spy_without_verify ps = Compiles <-> (exists p, In p ps /\ known p) \/ all_copied ps.
Proof. exact (stub_iff ps). Qed.

Theorem aborts_iff ps : spied_call ps = ProgramAborts <-> exists p, In p ps /\ known p.
Proof.
  unfold spied_call. destruct (variant_cases ps) as [(-> & _ & K)|(-> & _ & K)].
  - split; [intros _; exact K|reflexivity].
  - split; [discriminate|]. intros (p & I & Kp). contradiction (K p I Kp).
Qed.
