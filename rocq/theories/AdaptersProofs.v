(** Proofs about the glue of the test frameworks. *)
From Coq Require Import Bool Ascii String ZArith Lia List.
From Verif Require Import Base Values Syntax World Format Events Adapters Spec_Adapters Spec_Heard WorldHeard.
Import ListNotations.
Open Scope string_scope.

Section Texts.
Variable P : Type.

Lemma set_all_custom : forall l c, Forall (other_setting P) l -> cf_custom P (set_all P c l) = cf_custom P c.
Proof.
  induction l as [|s l IH]; intros c H; [reflexivity|]. inversion H; subst.
  change (cf_custom P (set_all P (set_step P c s) l) = cf_custom P c). rewrite IH by assumption.
  destruct s; cbn in *; tauto.
Qed.

Lemma set_all_app : forall l l' c, set_all P c (l ++ l') = set_all P (set_all P c l) l'.
Proof. intros. unfold set_all. apply fold_left_app. Qed.

Lemma in_force_set : forall std l f l' c, Forall (other_setting P) l' ->
  getEventFormatter P std (set_all P c (l ++ SetFormatter P f :: l')) = f.
Proof.
  intros. rewrite set_all_app. unfold getEventFormatter.
  change (set_all P (set_all P c l) (SetFormatter P f :: l')) with (set_all P (set_step P (set_all P c l) (SetFormatter P f)) l').
  now rewrite set_all_custom.
Qed.
Lemma in_force_reset : forall std l l' c, Forall (other_setting P) l' ->
  getEventFormatter P std (set_all P c (l ++ ResetFormatter P :: l')) = std.
Proof.
  intros. rewrite set_all_app. unfold getEventFormatter.
  change (set_all P (set_all P c l) (ResetFormatter P :: l')) with (set_all P (set_step P (set_all P c l) (ResetFormatter P)) l').
  now rewrite set_all_custom.
Qed.

Lemma place_text_same : forall gnu file line, formatLineNumber gnu file line = place_text gnu file line.
Proof. intros [] file line; reflexivity. Qed.

Lemma handle_text : forall fw gnu fmt e, reads P gnu e (vd_text (handle P fw gnu fmt e)) (fmt e).
Proof.
  intros fw gnu fmt e. destruct fw, e; cbn -[String.append]; rewrite ?place_text_same;
    first [now left | right; do 2 eexists; split; [eexists; eauto|reflexivity]].
Qed.
Lemma handle_unexpected_text : forall fw gnu fmt p, vd_text (handle P fw gnu fmt (FeUnexpected p)) = fmt (FeUnexpected p).
Proof. now intros [] gnu fmt p. Qed.

Theorem custom_text : forall fw gnu std l f l' e, fw <> Catch -> Forall (other_setting P) l' ->
  let c := set_all P (config_new P) (l ++ SetFormatter P f :: l') in
  reads P gnu e (vd_text (built_in P fw gnu std c e)) (f e) /\
  forall p, snd (unexpected_end P fw gnu std c p) = f (FeUnexpected p).
Proof.
  intros fw gnu std l f l' e N H c.
  assert (A : adapter_formatter P fw std c = f).
  { unfold adapter_formatter, c. destruct fw; try congruence; now rewrite in_force_set. }
  split.
  - unfold built_in. rewrite A. apply handle_text.
  - intro p. unfold unexpected_end, built_in. rewrite A, handle_unexpected_text.
    destruct (vd_thrown _); [reflexivity|]. cbn. unfold c. now rewrite in_force_set.
Qed.

Theorem standard_text : forall fw gnu std l l' e, Forall (other_setting P) l' ->
  let c := set_all P (config_new P) (l ++ ResetFormatter P :: l') in
  reads P gnu e (vd_text (built_in P fw gnu std c e)) (std e) /\
  forall p, snd (unexpected_end P fw gnu std c p) = std (FeUnexpected p).
Proof.
  intros fw gnu std l l' e H c.
  assert (A : adapter_formatter P fw std c = std).
  { unfold adapter_formatter, c. destruct fw; rewrite ?in_force_reset; auto. }
  split.
  - unfold built_in. rewrite A. apply handle_text.
  - intro p. unfold unexpected_end, built_in. rewrite A, handle_unexpected_text.
    destruct (vd_thrown _); [reflexivity|]. cbn. unfold c. now rewrite in_force_reset.
Qed.

Theorem catch_ignores_custom : forall gnu std l l' e,
  built_in P Catch gnu std (set_all P (config_new P) l) e = built_in P Catch gnu std (set_all P (config_new P) l') e.
Proof. reflexivity. Qed.

Theorem catch_text : forall gnu std l f p, f (FeUnexpected p) <> std (FeUnexpected p) ->
  vd_text (built_in P Catch gnu std (set_all P (config_new P) (l ++ [SetFormatter P f])) (FeUnexpected p)) <> f (FeUnexpected p).
Proof. intros gnu std l f p H. cbn. congruence. Qed.

Theorem places_told : forall fw gnu fmt e file line, tells_places fw = true -> failure_at P e file line ->
  names_place fw gnu (handle P fw gnu fmt e) file line.
Proof.
  intros fw gnu fmt e file line T [p [-> | ->]]; destruct fw; try discriminate; unfold names_place; cbn -[String.append];
    (split; [try discriminate; intros _; rewrite place_text_same; eexists; reflexivity|]; split; [try discriminate; reflexivity|auto]).
Qed.

Theorem places_unexpected : forall fw gnu fmt p, vd_place (handle P fw gnu fmt (FeUnexpected p)) = place_of_unexpected fw.
Proof. intros fw gnu fmt p. destruct fw; reflexivity. Qed.

Theorem places_kept_back : forall fw gnu fmt file line file' line' p, tells_places fw = false ->
  fmt (FeSequence file line p) = fmt (FeSequence file' line' p) ->
  fmt (FeNoMore file line p) = fmt (FeNoMore file' line' p) ->
  handle P fw gnu fmt (FeSequence file line p) = handle P fw gnu fmt (FeSequence file' line' p) /\
  handle P fw gnu fmt (FeNoMore file line p) = handle P fw gnu fmt (FeNoMore file' line' p).
Proof.
  intros fw gnu fmt file line file' line' p T H1 H2. destruct fw; try discriminate; cbn; now rewrite H1, H2.
Qed.
End Texts.

(** ** In the world *)

Theorem std_handlers_pass : forall fw E user own fuel m p w,
  fw <> TpUnit -> (In fw [Catch; Doctest; Mettle; MsTest; NUnit] -> own = false) ->
  has_adapter E fw -> others_loud E (std_exn fw user own) ->
  (forall c d slot, nth_error (e_classes E) c = Some d -> decent (std_exn fw user own) (fun _ => true) (cl_body d slot)) ->
  decent (std_exn fw user own) (fun _ => true) p ->
  ((exists r, exec_prog E fuel p (init_world E m) = RVal w r) \/
   (exists x, std_exn fw user own x = true /\ exec_prog E fuel p (init_world E m) = RExn w x)) ->
  forall l t me args, ~ In (l, EvUnexpected t me args) (w_log w).
Proof.
  intros fw E user own fuel m p w NT OW HA OL HB D H l t me args I.
  assert (C : complaints unexpected_calls (w_log w) = []).
  { destruct H as [[r H]|H].
    - eapply (complaints_heard (std_exn fw user own) (fun _ => true) unexpected_calls E HB) with (r := r); eauto.
      + intros l0 e x B R. destruct e; try discriminate. destruct (Nat.eq_dec l0 (e_builtin E)) as [->|N]; [|eapply OL; eauto].
        rewrite HA in R. destruct fw; cbn in R; inversion R; subst; cbn; auto; try congruence; apply OW; cbn; tauto.
      + intros a e B _. destruct e; try discriminate. exact Logic.I.
    - eapply (complaints_heard (std_exn fw user own) (fun _ => true) unexpected_calls E HB) with (r := VVoid); eauto.
      + intros l0 e x B R. destruct e; try discriminate. destruct (Nat.eq_dec l0 (e_builtin E)) as [->|N]; [|eapply OL; eauto].
        rewrite HA in R. destruct fw; cbn in R; inversion R; subst; cbn; auto; try congruence; apply OW; cbn; tauto.
      + intros a e B _. destruct e; try discriminate. exact Logic.I. }
  assert (K : In (EvUnexpected t me args) (complaints unexpected_calls (w_log w))).
  { unfold complaints. apply filter_In. split; [|reflexivity]. apply in_map_iff. exists (l, EvUnexpected t me args). auto. }
  rewrite C in K. contradiction.
Qed.

Theorem checks_stop : forall fw E caught trusted fuel m p w r,
  stops_tests fw = true -> has_adapter E fw -> trusted (e_builtin E) = true -> caught XNoMore = true ->
  (forall l e x, failed_checks e = true -> e_react E l e = Some x -> caught x = false) ->
  (forall a e, failed_checks e = true -> trusted a = true -> a <> e_builtin E -> e_react E a e <> None) ->
  (forall c d slot, nth_error (e_classes E) c = Some d -> decent caught trusted (cl_body d slot)) ->
  decent caught trusted p ->
  exec_prog E fuel p (init_world E m) = RVal w r ->
  forall l e, failed_checks e = true -> ~ In (l, e) (w_log w).
Proof.
  intros fw E caught trusted fuel m p w r ST HA TB CN LO AD HB D H l e F I.
  assert (C : complaints failed_checks (w_log w) = []).
  { eapply (complaints_heard caught trusted failed_checks E HB) with (r := r); eauto.
    - intros a e0 B T. assert (R : e_react E a e0 <> None).
      { destruct (Nat.eq_dec a (e_builtin E)) as [->|N]; [|now apply AD]. rewrite HA.
        destruct e0; try discriminate; destruct fw as [|[]| | | | | | | | | ]; try discriminate. }
      destruct e0; [exact Logic.I|exact R|exact R].
    - intros. discriminate. }
  assert (K : In e (complaints failed_checks (w_log w))).
  { unfold complaints. apply filter_In. split; [|exact F]. apply in_map_iff. exists (l, e). auto. }
  rewrite C in K. contradiction.
Qed.
