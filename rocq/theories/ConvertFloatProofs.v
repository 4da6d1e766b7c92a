From Coq Require Import ZArith Reals Lra Lia Floats.SpecFloat.
From Flocq Require Import Core.Core IEEE754.BinarySingleNaN.
From Verif Require Import Base Values ArgMatchers Convert Spec_Double Spec_Convert DoubleProofs.

Section Format.
Variables prec emax : Z.
Context (Hp : Prec_gt_0 prec) (He : Prec_lt_emax prec emax).

Lemma num_B : forall b : binary_float prec emax, is_finite b = true -> number (B2SF b) = Some (Fin (B2R b)).
Proof.
  intros [s|s| |s m e H] F; cbn in *; try discriminate; auto.
  unfold F2R. cbn. do 2 f_equal. destruct s; cbn; unfold cond_Zopp.
  - replace (-1 * IZR (Z.pos m))%R with (IZR (Z.neg m)); auto.
    change (Z.neg m) with (- Zpos m)%Z. rewrite opp_IZR. lra.
  - now rewrite Rmult_1_l.
Qed.

Lemma norm_equiv : forall m e z,
  SpecFloat.binary_normalize prec emax m e z = B2SF (binary_normalize prec emax _ _ mode_NE m e z).
Proof.
  assert (R : forall sx mx ex lx, SpecFloat.binary_round_aux prec emax sx mx ex lx = binary_round_aux prec emax mode_NE sx mx ex lx).
  { intros. unfold SpecFloat.binary_round_aux, binary_round_aux.
    set (mrse' := shr_fexp _ _ _). case mrse'; intros mrs' e'; simpl. now rewrite (round_nearest_even_equiv sx). }
  intros m e z. case m as [ | p | p]; [reflexivity| |];
    (cbn [SpecFloat.binary_normalize binary_normalize]; rewrite B2SF_SF2B;
     unfold SpecFloat.binary_round, binary_round, shl_align_fexp; set (mez := shl_align _ _ _); case mez as [mz ez]; apply R).
Qed.

Definition signed (s : bool) (m : positive) : Z := if s then Z.neg m else Z.pos m.

Lemma signed_number : forall s m e, number (S754_finite s m e) = Some (Fin (F2R (Float radix2 (signed s m) e))).
Proof.
  intros s m e. cbn. unfold F2R. cbn. do 2 f_equal. destruct s; cbn [signed].
  - change (Z.neg m) with (- Zpos m)%Z. rewrite opp_IZR. lra.
  - lra.
Qed.

(** A number that the format holds survives the conversion. *)
Lemma norm_exact : forall s m e y, valid_binary prec emax y = true ->
  number y = number (S754_finite s m e) ->
  number (SpecFloat.binary_normalize prec emax (signed s m) e s) = number (S754_finite s m e).
Proof.
  intros s m e y V N. rewrite norm_equiv. rewrite signed_number in N |- *.
  set (b := SF2B y V). assert (B : B2SF b = y) by apply B2SF_SF2B.
  assert (F : is_finite b = true).
  { rewrite <- B in N. destruct b as [|[]| |]; cbn in *; auto; discriminate. }
  pose proof (num_B b F) as X. rewrite B, N in X. injection X as X.
  pose proof (binary_normalize_correct prec emax _ _ mode_NE (signed s m) e s) as C. cbv zeta in C.
  rewrite X in C. rewrite round_generic in C; [|apply valid_rnd_round_mode|apply generic_format_B2R].
  rewrite Rlt_bool_true in C by apply abs_B2R_lt_emax. destruct C as (C & D & _).
  rewrite num_B by exact D. rewrite C. now rewrite X.
Qed.

Lemma norm_valid : forall m e z, valid_binary prec emax (SpecFloat.binary_normalize prec emax m e z) = true.
Proof. intros. rewrite norm_equiv. apply valid_binary_B2SF. Qed.
End Format.

#[local] Instance P24 : Prec_gt_0 24 := eq_refl.
#[local] Instance E128 : Prec_lt_emax 24 128 := eq_refl.
#[local] Instance P53 : Prec_gt_0 dprec := eq_refl.
#[local] Instance E1024 : Prec_lt_emax dprec demax := eq_refl.

Lemma to_float_valid : forall x, is_float (to_float x).
Proof. intros [s|s| |s m e]; try reflexivity. apply (norm_valid 24 128 _ _). Qed.

Lemma to_double_valid : forall x, is_double (to_double x).
Proof. intros [s|s| |s m e]; try reflexivity. apply (norm_valid dprec demax _ _). Qed.

(** Every float is a double. *)
Lemma float_double : forall y, is_float y -> exists d, is_double d /\ number d = number y.
Proof.
  intros y V. destruct y as [s|s| |s m e]; try (eexists; split; [|reflexivity]; reflexivity).
  exists (to_double (S754_finite s m e)). split; [apply to_double_valid|].
  cbn [to_double]. fold (signed s m). rewrite (norm_equiv dprec demax _ _), signed_number.
  set (b := SF2B _ V : binary_float 24 128). assert (B : B2SF b = S754_finite s m e) by apply B2SF_SF2B.
  assert (F : is_finite b = true) by reflexivity.
  assert (X : F2R (Float radix2 (signed s m) e) = B2R b).
  { pose proof (num_B 24 128 b F) as X. rewrite B, signed_number in X. congruence. }
  pose proof (binary_normalize_correct dprec demax _ _ mode_NE (signed s m) e s) as C. cbv zeta in C.
  rewrite X in C.
  rewrite round_generic in C; [|apply valid_rnd_round_mode|].
  - rewrite Rlt_bool_true in C.
    + destruct C as (C & D & _). rewrite num_B by exact D. rewrite C. now rewrite X.
    + apply Rlt_le_trans with (bpow radix2 128); [apply abs_B2R_lt_emax|apply bpow_le; unfold demax; lia].
  - apply generic_inclusion_mag with (fexp1 := SpecFloat.fexp 24 128); [|apply generic_format_B2R].
    intros _. unfold SpecFloat.fexp, SpecFloat.emin, dprec, demax. lia.
Qed.

Lemma to_double_number : forall y, is_float y -> number (to_double y) = number y.
Proof.
  intros y V. destruct (float_double y V) as (d & D & N).
  destruct y as [s|s| |s m e]; try reflexivity. cbn [to_double]. fold (signed s m).
  apply (norm_exact dprec demax _ _ s m e d); auto.
Qed.

Lemma to_float_number : forall x y, is_float y -> number y = number x -> number (to_float x) = number x.
Proof.
  intros [s|s| |s m e] y V N; try reflexivity. cbn [to_float]. fold (signed s m).
  now apply (norm_exact 24 128 _ _ s m e y).
Qed.

(** C76 for float parameters and double operands. *)
Theorem float_accepted : forall x n, is_double x -> number x = Some n ->
  (compares_float REq (to_float x) x = true <-> exists y, is_float y /\ number y = number x).
Proof.
  intros x n D N. unfold compares_float.
  pose proof (to_float_valid x) as VF. pose proof (to_double_valid (to_float x)) as VD.
  pose proof (to_double_number (to_float x) VF) as TD.
  assert (L : exists k, number (to_double (to_float x)) = Some k).
  { rewrite TD. destruct x as [s|[]| |s m e]; cbn in N |- *; try (eexists; reflexivity); [discriminate|].
    fold (signed s m). pose proof (norm_equiv 24 128 _ _ (signed s m) e s) as Q. rewrite Q.
    pose proof (is_nan_binary_normalize 24 128 _ _ mode_NE (signed s m) e s) as NN.
    destruct (binary_normalize 24 128 _ _ mode_NE (signed s m) e s) as [|[]| |]; cbn in *; try discriminate; eexists; reflexivity. }
  destruct L as [k K]. destruct (SFcompare_number _ x k n VD D K N) as (c & C & H). rewrite C.
  split.
  - intro E. destruct c; cbn in E; try discriminate. exists (to_float x). split; [exact VF|]. congruence.
  - intros (y & Y & NY). pose proof (to_float_number x y Y NY) as T.
    assert (k = n) by congruence. subst k. destruct c; cbn; auto; now apply ext_lt_irrefl in H.
Qed.
