(** Integers compared with floating point numbers. *)
From Coq Require Import ZArith Reals Lra Lia Floats.SpecFloat.
From Flocq Require Import Core.Core IEEE754.BinarySingleNaN.
From Verif Require Import Base Values ArgMatchers Convert Spec_Double Spec_Convert Spec_ConvertMixed DoubleProofs ConvertProofs ConvertFloatProofs.
Open Scope Z_scope.

Section Format.
Variables prec emax : Z.
Context (Hp : Prec_gt_0 prec) (He : Prec_lt_emax prec emax).
Hypothesis E64 : 64 < emax.
Hypothesis P1 : 1 < prec.

Lemma compare_gen : forall x y a b, valid_binary prec emax x = true -> valid_binary prec emax y = true ->
  number x = Some a -> number y = Some b ->
  exists c, SFcompare x y = Some c /\ match c with Eq => a = b | Lt => ext_lt a b | Gt => ext_lt b a end.
Proof.
  intros x y a b Dx Dy Nx Ny.
  assert (Bx : B2SF (SF2B x Dx : binary_float prec emax) = x) by apply B2SF_SF2B.
  assert (By : B2SF (SF2B y Dy : binary_float prec emax) = y) by apply B2SF_SF2B.
  set (bx := SF2B x Dx) in *. set (b_y := SF2B y Dy) in *. clearbody bx b_y.
  destruct (is_finite bx) eqn:Fx; destruct (is_finite b_y) eqn:Fy.
  - pose proof (Bcompare_correct _ _ bx b_y Fx Fy) as C. unfold Bcompare in C. rewrite Bx, By in C.
    pose proof (num_B prec emax bx Fx) as X. rewrite Bx, Nx in X. injection X as ->.
    pose proof (num_B prec emax b_y Fy) as Y. rewrite By, Ny in Y. injection Y as ->.
    eexists. split; [exact C|]. destruct (Rcompare_spec (B2R bx) (B2R b_y)); cbn; auto. congruence.
  - subst x y. destruct bx as [|[]| |sx ?], b_y as [|[]| |sy ?]; cbn in *; try discriminate;
    injection Nx as <-; injection Ny as <-; try destruct sx; try destruct sy; eexists; split; try reflexivity; cbn; auto.
  - subst x y. destruct bx as [|[]| |sx ?], b_y as [|[]| |sy ?]; cbn in *; try discriminate;
    injection Nx as <-; injection Ny as <-; try destruct sx; try destruct sy; eexists; split; try reflexivity; cbn; auto.
  - subst x y. destruct bx as [|[]| |sx ?], b_y as [|[]| |sy ?]; cbn in *; try discriminate;
    injection Nx as <-; injection Ny as <-; try destruct sx; try destruct sy; eexists; split; try reflexivity; cbn; auto.
Qed.

Lemma meaning_gen : forall r x y a b, valid_binary prec emax x = true -> valid_binary prec emax y = true ->
  number x = Some a -> number y = Some b -> (rel_holds r (SFcompare x y) = true <-> ext_meaning r a b).
Proof.
  intros r x y a b Dx Dy Nx Ny. destruct (compare_gen x y a b Dx Dy Nx Ny) as (c & C & H). rewrite C.
  pose proof (ext_lt_irrefl a). pose proof (ext_lt_asym a b). pose proof (ext_lt_asym b a).
  destruct c; destruct r; cbn; split; intro X; try discriminate; try reflexivity; auto; subst; try tauto.
  all: try (destruct X; subst; tauto).
  all: try (intro; subst; tauto).
Qed.

Notation rnd := (round radix2 (SpecFloat.fexp prec emax) ZnearestE).

Lemma int_number_gen : forall z, (Rabs (rnd (IZR z)) < bpow radix2 emax)%R ->
  number (SpecFloat.binary_normalize prec emax z 0 false) = Some (Fin (rnd (IZR z))).
Proof.
  intros z L. rewrite (norm_equiv prec emax _ _).
  pose proof (binary_normalize_correct prec emax _ _ mode_NE z 0 false) as C. cbv zeta in C.
  replace (F2R (Float radix2 z 0)) with (IZR z) in C by (unfold F2R; cbn; lra).
  cbn [round_mode] in C. rewrite Rlt_bool_true in C by exact L. destruct C as (C & D & _).
  rewrite num_B by exact D. now rewrite C.
Qed.

Lemma pow_format : forall k, 0 <= k < emax -> generic_format radix2 (SpecFloat.fexp prec emax) (bpow radix2 k).
Proof.
  intros k K. apply generic_format_bpow. unfold SpecFloat.fexp, SpecFloat.emin.
  assert (0 < prec) by exact Hp. assert (prec < emax) by exact He. lia.
Qed.

Lemma small_bound : forall z, Z.abs z <= 2 ^ 64 -> (Rabs (rnd (IZR z)) < bpow radix2 emax)%R.
Proof.
  intros z Z64. apply Rle_lt_trans with (bpow radix2 64); [|apply bpow_lt; exact E64].
  apply abs_round_le_generic; [apply fexp_correct; exact Hp|apply valid_rnd_N|apply pow_format; lia|].
  rewrite <- abs_IZR. change (bpow radix2 64) with (IZR (2 ^ 64)). now apply IZR_le.
Qed.

Lemma whole_format : forall z, Z.abs z <= 2 ^ prec -> generic_format radix2 (SpecFloat.fexp prec emax) (IZR z).
Proof.
  intros z Z1. assert (0 < prec) by exact Hp. assert (PE : prec < emax) by exact He.
  destruct (Z.eq_dec (Z.abs z) (2 ^ prec)) as [Q|Q].
  - assert (PW : generic_format radix2 (SpecFloat.fexp prec emax) (IZR (2 ^ prec))).
    { replace (IZR (2 ^ prec)) with (bpow radix2 prec) by (symmetry; apply (IZR_Zpower radix2); lia). apply pow_format. lia. }
    destruct (Z.abs_eq_or_opp z) as [A|A]; rewrite A in Q.
    + now rewrite Q.
    + replace z with (- 2 ^ prec) by lia. rewrite opp_IZR. now apply generic_format_opp.
  - apply generic_format_FLT. exists (Float radix2 z 0).
    + unfold F2R. cbn. lra.
    + cbn. change (Z.abs z < 2 ^ prec). lia.
    + cbn. unfold SpecFloat.emin. lia.
Qed.

Lemma whole_rnd : forall z, Z.abs z <= 2 ^ prec -> rnd (IZR z) = IZR z.
Proof. intros z H. apply round_generic; [apply valid_rnd_N|now apply whole_format]. Qed.

Lemma number_format : forall x v, valid_binary prec emax x = true -> number x = Some (Fin v) ->
  generic_format radix2 (SpecFloat.fexp prec emax) v /\ (Rabs v < bpow radix2 emax)%R.
Proof.
  intros x v V N. assert (Bx : B2SF (SF2B x V : binary_float prec emax) = x) by apply B2SF_SF2B.
  set (b := SF2B x V) in *. clearbody b. rewrite <- Bx in N.
  assert (F : is_finite b = true) by (destruct b as [|[]| |]; cbn in *; auto; discriminate).
  rewrite num_B in N by exact F. injection N as <-. split; [apply generic_format_B2R|apply abs_B2R_lt_emax].
Qed.

Lemma mantissa_bound : forall s m e, valid_binary prec emax (S754_finite s m e) = true -> Z.pos m < 2 ^ prec.
Proof.
  intros s m e V. cbn in V. unfold bounded in V. apply Bool.andb_true_iff in V as [V _].
  unfold canonical_mantissa in V. apply Zeq_bool_eq in V. unfold SpecFloat.fexp in V.
  assert (D : Z.pos (digits2_pos m) <= prec) by lia. rewrite Zpos_digits2_pos in D.
  apply (Zpower_gt_Zdigits radix2) in D. cbn in D. exact D.
Qed.
End Format.

#[local] Instance Q24 : Prec_gt_0 24 := eq_refl.
#[local] Instance F128 : Prec_lt_emax 24 128 := eq_refl.
#[local] Instance Q53 : Prec_gt_0 53 := eq_refl.
#[local] Instance F1024 : Prec_lt_emax 53 1024 := eq_refl.

Lemma fp_valid : forall f x, is_fp f x <-> valid_binary (precision f) (max_exponent f) x = true.
Proof. intros [] x; reflexivity. Qed.
Lemma int_valid : forall f z, is_fp f (int_to f z).
Proof. intros [] z; [apply (norm_valid 24 128 _ _)|apply (norm_valid 53 1024 _ _)]. Qed.
Lemma int_number : forall f z, Z.abs z <= 2 ^ 64 -> number (int_to f z) = Some (Fin (nearest f (IZR z))).
Proof.
  intros [] z H.
  - apply (int_number_gen 24 128 _ _). apply small_bound; auto; reflexivity.
  - apply (int_number_gen 53 1024 _ _). apply small_bound; auto; reflexivity.
Qed.
Lemma fp_meaning : forall f r x y a b, is_fp f x -> is_fp f y -> number x = Some a -> number y = Some b ->
  (rel_holds r (SFcompare x y) = true <-> ext_meaning r a b).
Proof. intros [] r x y a b X Y A B; [apply (meaning_gen 24 128)|apply (meaning_gen 53 1024)]; auto. Qed.
Lemma nearest_whole : forall f z, Z.abs z <= whole_up_to f -> nearest f (IZR z) = IZR z.
Proof. intros [] z H; [apply (whole_rnd 24 128 _ _)|apply (whole_rnd 53 1024 _ _)]; try reflexivity; exact H. Qed.

(** C77 for mixed operands. *)
Theorem mixed_int_fp : forall f r a e n, Z.abs a <= 2 ^ 64 -> is_fp f e -> number e = Some n ->
  (compares_int_fp r f a e = true <-> ext_meaning r (Fin (nearest f (IZR a))) n).
Proof. intros f r a e n A V N. unfold compares_int_fp. eapply fp_meaning; eauto; [apply int_valid|now apply int_number]. Qed.
Theorem mixed_fp_int : forall f r a e n, Z.abs e <= 2 ^ 64 -> is_fp f a -> number a = Some n ->
  (compares_fp_int r f a e = true <-> ext_meaning r n (Fin (nearest f (IZR e)))).
Proof. intros f r a e n A V N. unfold compares_fp_int. eapply fp_meaning; eauto; [apply int_valid|now apply int_number]. Qed.

Theorem mixed_numbers : forall f r z x n, Z.abs z <= whole_up_to f -> is_fp f x -> number x = Some n ->
  (compares_int_fp r f z x = true <-> ext_meaning r (Fin (IZR z)) n) /\
  (compares_fp_int r f x z = true <-> ext_meaning r n (Fin (IZR z))).
Proof.
  intros f r z x n H V N. assert (Z.abs z <= 2 ^ 64) by (destruct f; cbn in *; lia).
  rewrite <- (nearest_whole f z H). split; [now apply mixed_int_fp|now apply mixed_fp_int].
Qed.

(** C76 for mixed operands. *)
Theorem mixed_passed : forall f z, Z.abs z <= 2 ^ 64 -> compares_fp_int REq f (int_to f z) z = true.
Proof.
  intros f z H. apply (mixed_fp_int f REq (int_to f z) z (Fin (nearest f (IZR z)))); auto; [apply int_valid|now apply int_number|reflexivity].
Qed.

Lemma pow_pos : forall k, 0 <= k -> IZR (2 ^ k) = bpow radix2 k.
Proof. intros k K. apply (IZR_Zpower radix2). exact K. Qed.

Lemma dropped_exact : forall f x z k, is_fp f x -> number x = Some (Fin (IZR k)) ->
  (exists s w, from_fp (TInt s w) x = Def z) -> z = k.
Proof.
  intros f x z k V N (s & w & H). cbn [from_fp] in H. destruct x as [sg|sg| |sg m e]; try discriminate.
  - cbn in N. injection N as N. injection H as <-. apply eq_IZR. exact N.
  - destruct (_ =? _); [|discriminate]. injection H as <-. cbn in N. injection N as N.
    set (n := if 0 <=? e then Z.pos m * 2 ^ e else Z.pos m / 2 ^ (- e)).
    assert (ABS : (IZR (Z.pos m) * bpow radix2 e = IZR n)%R).
    { unfold n. destruct (Z.leb_spec 0 e) as [L|L].
      - rewrite mult_IZR, pow_pos by exact L. reflexivity.
      - set (k' := if sg then - k else k).
        assert (K : (IZR (Z.pos m) * bpow radix2 e = IZR k')%R) by (unfold k'; destruct sg; [rewrite opp_IZR|]; lra).
        assert (M : Z.pos m = k' * 2 ^ (- e)).
        { apply eq_IZR. rewrite mult_IZR, pow_pos by lia. rewrite <- K, Rmult_assoc, <- bpow_plus.
          replace (e + - e) with 0 by lia. cbn. lra. }
        rewrite K. f_equal. rewrite M. symmetry. apply Z.div_mul. apply Z.pow_nonzero; lia. }
    change ((if sg then - n else n) = k). apply eq_IZR. rewrite <- N. destruct sg; [rewrite (opp_IZR n)|]; rewrite <- ABS; lra.
Qed.

Lemma int_number_exact : forall f x k, is_fp f x -> number x = Some (Fin (IZR k)) -> number (int_to f k) = Some (Fin (IZR k)).
Proof.
  intros f x k V N. destruct f.
  - destruct (number_format 24 128 x _ V N) as [G B].
    assert (R : round radix2 (SpecFloat.fexp 24 128) ZnearestE (IZR k) = IZR k) by (apply round_generic; [apply valid_rnd_N|exact G]).
    pose proof (int_number_gen 24 128 _ _ k) as I. rewrite R in I. now apply I.
  - destruct (number_format 53 1024 x _ V N) as [G B].
    assert (R : round radix2 (SpecFloat.fexp 53 1024) ZnearestE (IZR k) = IZR k) by (apply round_generic; [apply valid_rnd_N|exact G]).
    pose proof (int_number_gen 53 1024 _ _ k) as I. rewrite R in I. now apply I.
Qed.

Theorem mixed_dropped : forall f s w x z, is_fp f x -> from_fp (TInt s w) x = Def z ->
  (compares_int_fp REq f z x = true <-> exists k, number x = Some (Fin (IZR k))).
Proof.
  intros f s w x z V H. split.
  - intro C. cbn [from_fp] in H. destruct x as [sg|sg| |sg m e]; try discriminate.
    + exists 0. reflexivity.
    + destruct (Z.leb_spec 0 e) as [L|L].
      * exists ((if sg then -1 else 1) * Z.pos m * 2 ^ e). cbn. do 2 f_equal.
        rewrite !mult_IZR, pow_pos by exact L. destruct sg; reflexivity.
      * destruct (_ =? _); [|discriminate]. injection H as <-.
        set (n := Z.pos m / 2 ^ (- e)) in *. set (z := if sg then - n else n) in *.
        assert (M : Z.pos m < 2 ^ precision f) by (destruct f; [apply (mantissa_bound 24 128 sg m e V)|apply (mantissa_bound 53 1024 sg m e V)]).
        assert (N0 : 0 <= n) by (apply Z.div_pos; [lia|apply Z.pow_pos_nonneg; lia]).
        assert (N1 : n <= Z.pos m) by (apply Z.div_le_upper_bound; [apply Z.pow_pos_nonneg; lia|]; assert (1 <= 2 ^ (- e)) by (apply (Z.pow_le_mono_r 2 0); lia); nia).
        assert (ZB : Z.abs z <= whole_up_to f) by (unfold z; destruct sg, f; cbn in *; lia).
        exists z. destruct (mixed_numbers f REq z (S754_finite sg m e) _ ZB V eq_refl) as [X _]. apply X in C. cbn [ext_meaning] in C.
        rewrite C. reflexivity.
  - intros (k & N). assert (z = k) by (eapply dropped_exact; eauto). subst z.
    unfold compares_int_fp. eapply (fp_meaning f REq); [apply int_valid|exact V|eapply int_number_exact; eauto|exact N|reflexivity].
Qed.

Theorem mixed_bool : forall f x z, is_fp f x -> from_fp TBool x = Def z ->
  (compares_int_fp REq f z x = true <-> number x = Some (Fin 0) \/ number x = Some (Fin 1)).
Proof.
  intros f x z V H. cbn in H. injection H as <-.
  destruct x as [sg|sg| |sg m e].
  - split; intros _; [left; reflexivity|]. destruct f, sg; reflexivity.
  - split; [|intros [H|H]; destruct sg; discriminate]. destruct f, sg; cbn; discriminate.
  - split; [destruct f; discriminate|intros [H|H]; discriminate].
  - assert (ZB : Z.abs 1 <= whole_up_to f) by (destruct f; cbn; lia).
    destruct (mixed_numbers f REq 1 (S754_finite sg m e) _ ZB V eq_refl) as [X _]. rewrite X. cbn [ext_meaning].
    split.
    + intro C. right. rewrite C. reflexivity.
    + intros [C|C]; [|injection C as C; cbn; now rewrite C].
      exfalso. cbn in C. injection C as C. pose proof (bpow_gt_0 radix2 e). pose proof (IZR_lt 0 (Z.pos m) eq_refl).
      assert (0 < IZR (Z.pos m) * bpow radix2 e)%R by (apply Rmult_lt_0_compat; assumption). destruct sg; lra.
Qed.

Lemma convert_fits : forall s w z, convert (TInt s w) z = z <-> fits (TInt s w) z.
Proof.
  intros s w z. split.
  - intro H. destruct s, w; cbn [convert bits fits] in *;
    match goal with H : _ mod ?m = _ |- _ => pose proof (Z.mod_pos_bound z m eq_refl); cbn in *; lia
                  | H : ?a mod ?m - _ = _ |- _ => pose proof (Z.mod_pos_bound a m eq_refl); cbn in *; lia end.
  - apply convert_small.
Qed.

Lemma truncated : forall m e, Ztrunc (IZR (Z.pos m) * bpow radix2 e) = if 0 <=? e then Z.pos m * 2 ^ e else Z.pos m / 2 ^ (- e).
Proof.
  intros m e. destruct (Z.leb_spec 0 e) as [L|L].
  - rewrite <- pow_pos, <- mult_IZR by exact L. apply Ztrunc_IZR.
  - pose proof (bpow_gt_0 radix2 e). pose proof (IZR_lt 0 (Z.pos m) eq_refl).
    assert (0 < IZR (Z.pos m) * bpow radix2 e)%R by (apply Rmult_lt_0_compat; assumption).
    rewrite Ztrunc_floor by lra.
    replace (IZR (Z.pos m) * bpow radix2 e)%R with (IZR (Z.pos m) / IZR (2 ^ (- e)))%R.
    + apply Zfloor_div. apply Z.pow_nonzero; lia.
    + rewrite pow_pos by lia. unfold Rdiv. rewrite <- bpow_opp. f_equal. f_equal. lia.
Qed.

Theorem received : forall s w x v z, number x = Some (Fin v) ->
  (from_fp (TInt s w) x = Def z <-> z = Ztrunc v /\ fits (TInt s w) z).
Proof.
  intros s w x v z N. unfold from_fp. destruct x as [sg|[]| |sg m e]; try discriminate.
  - cbn in N. injection N as <-. rewrite (Ztrunc_IZR 0). split.
    + intro H. injection H as <-. split; [reflexivity|]. destruct s, w; cbn; lia.
    + intros [-> _]. reflexivity.
  - cbv zeta. rewrite <- truncated. set (r := Ztrunc (IZR (Z.pos m) * bpow radix2 e)).
    assert (T : Ztrunc v = if sg then - r else r).
    { cbn in N. injection N as <-. unfold r. destruct sg.
      - rewrite <- Ztrunc_opp. f_equal. lra.
      - f_equal. lra. }
    rewrite T. destruct (Z.eqb_spec (convert (TInt s w) (if sg then - r else r)) (if sg then - r else r)) as [Q|Q].
    + apply convert_fits in Q. split; [intro H; injection H as <-; auto|intros [-> _]; reflexivity].
    + split; [discriminate|]. intros [-> F]. apply convert_fits in F. contradiction.
Qed.
