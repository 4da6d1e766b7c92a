From Coq Require Import ZArith Reals Lra Lia Floats.SpecFloat.
From Flocq Require Import Core.Core IEEE754.BinarySingleNaN.
From Verif Require Import Base Values ArgMatchers Spec_Double MatcherProofs.

Local Instance Hprec : Prec_gt_0 dprec := eq_refl.
Local Instance Hemax : Prec_lt_emax dprec demax := eq_refl.

Lemma number_B2R : forall b : binary_float dprec demax, is_finite b = true ->
  number (B2SF b) = Some (Fin (B2R b)).
Proof.
  intros [s|s| |s m e H] F; cbn in *; try discriminate; auto.
  unfold F2R. cbn. do 2 f_equal. destruct s; cbn; unfold cond_Zopp.
  - replace (-1 * IZR (Z.pos m))%R with (IZR (Z.neg m)); auto.
    change (Z.neg m) with (- Zpos m)%Z. rewrite opp_IZR. lra.
  - now rewrite Rmult_1_l.
Qed.

Lemma to_B : forall x, is_double x -> exists b : binary_float dprec demax, B2SF b = x.
Proof. intros x H. exists (SF2B x H). apply B2SF_SF2B. Qed.

(** C38 for doubles: all data that are not NaN. *)
Lemma SFcompare_number : forall x y a b, is_double x -> is_double y ->
  number x = Some a -> number y = Some b ->
  exists c, SFcompare x y = Some c /\
    match c with Eq => a = b | Lt => ext_lt a b | Gt => ext_lt b a end.
Proof.
  intros x y a b Dx Dy Nx Ny.
  destruct (to_B x Dx) as [bx Bx]. destruct (to_B y Dy) as [by_ By_].
  destruct (is_finite bx) eqn:Fx; destruct (is_finite by_) eqn:Fy.
  - pose proof (Bcompare_correct _ _ bx by_ Fx Fy) as C. unfold Bcompare in C. rewrite Bx, By_ in C.
    pose proof (number_B2R bx Fx) as X. rewrite Bx, Nx in X. injection X as ->.
    pose proof (number_B2R by_ Fy) as Y. rewrite By_, Ny in Y. injection Y as ->.
    eexists. split; [exact C|]. destruct (Rcompare_spec (B2R bx) (B2R by_)); cbn; auto. congruence.
  - subst x y. destruct bx as [|[]| |sx ?], by_ as [|[]| |sy ?]; cbn in *; try discriminate;
    injection Nx as <-; injection Ny as <-; try destruct sx; try destruct sy; eexists; split; try reflexivity; cbn; auto.
  - subst x y. destruct bx as [|[]| |sx ?], by_ as [|[]| |sy ?]; cbn in *; try discriminate;
    injection Nx as <-; injection Ny as <-; try destruct sx; try destruct sy; eexists; split; try reflexivity; cbn; auto.
  - subst x y. destruct bx as [|[]| |sx ?], by_ as [|[]| |sy ?]; cbn in *; try discriminate;
    injection Nx as <-; injection Ny as <-; try destruct sx; try destruct sy; eexists; split; try reflexivity; cbn; auto.
Qed.

Lemma ext_lt_irrefl : forall a, ~ ext_lt a a.
Proof. intros [| |]; cbn; auto. lra. Qed.
Lemma ext_lt_asym : forall a b, ext_lt a b -> ~ ext_lt b a.
Proof. intros [|x|] [|y|]; cbn; auto. lra. Qed.

Theorem double_matcher : forall m r x y a b, is_double x -> is_double y ->
  number x = Some a -> number y = Some b ->
  exists t, am_matches m (ACmp r (XVal (VDbl y))) (VDbl x) = Def t /\ (t = true <-> ext_meaning r a b).
Proof.
  intros m r x y a b Dx Dy Nx Ny. destruct (SFcompare_number x y a b Dx Dy Nx Ny) as (c & C & H).
  cbn. rewrite C. eexists. split; [reflexivity|].
  pose proof (ext_lt_irrefl a). pose proof (ext_lt_asym a b). pose proof (ext_lt_asym b a).
  destruct c; destruct r; cbn; split; intro X; try discriminate; try reflexivity; auto; subst; try tauto.
  all: try (destruct X; subst; tauto).
  all: try (intro; subst; tauto).
Qed.

(** The subtraction of SpecFloat is Flocq's. *)
Lemma round_nearest_even_equiv : forall s m l, round_nearest_even m l = choice_mode mode_NE s m l.
Proof.
  intros s m l. case l; [reflexivity|intro c]. case c; [ | reflexivity..].
  now simpl; unfold Round.cond_incr; case Z.even.
Qed.

Lemma round_aux_equiv : forall sx mx ex lx,
  SpecFloat.binary_round_aux dprec demax sx mx ex lx = binary_round_aux dprec demax mode_NE sx mx ex lx.
Proof.
  intros. unfold SpecFloat.binary_round_aux, binary_round_aux.
  set (mrse' := shr_fexp _ _ _). case mrse'; intros mrs' e'; simpl.
  now rewrite (round_nearest_even_equiv sx).
Qed.

Lemma normalize_equiv : forall m e szero,
  SpecFloat.binary_normalize dprec demax m e szero =
  B2SF (binary_normalize dprec demax _ _ mode_NE m e szero).
Proof.
  intros m e szero. case m as [ | p | p].
  - reflexivity.
  - cbn [SpecFloat.binary_normalize binary_normalize]. rewrite B2SF_SF2B.
    unfold SpecFloat.binary_round, binary_round, shl_align_fexp.
    set (mez := shl_align _ _ _); case mez as [mz ez]. apply round_aux_equiv.
  - cbn [SpecFloat.binary_normalize binary_normalize]. rewrite B2SF_SF2B.
    unfold SpecFloat.binary_round, binary_round, shl_align_fexp.
    set (mez := shl_align _ _ _); case mez as [mz ez]. apply round_aux_equiv.
Qed.

Lemma dsub_B : forall x y : binary_float dprec demax,
  dsub (B2SF x) (B2SF y) = B2SF (Bminus mode_NE x y).
Proof.
  intros x y. unfold dsub.
  destruct x as [sx|sx| |sx mx ex Bx], y as [sy|sy| |sy my ey By]; cbn [B2SF SFsub Bminus];
    try reflexivity; try (now destruct (Bool.eqb sx (negb sy))).
  rewrite <- normalize_equiv. unfold Fplus_naive, Zminus. now rewrite <- cond_Zopp_negb.
Qed.

Lemma number_fin : forall x r, number x = Some (Fin r) -> forall b : binary_float dprec demax, B2SF b = x ->
  is_finite b = true /\ B2R b = r.
Proof.
  intros x r N b B. assert (F : is_finite b = true).
  { subst x. destruct b as [|[]| |]; cbn in *; auto; discriminate. }
  split; auto. pose proof (number_B2R b F) as X. rewrite B, N in X. congruence.
Qed.

(** C40 for doubles: the distance is rounded once, to nearest. *)
Theorem approx_dbl : forall m x e k a b c, is_double x -> is_double e -> is_double k ->
  number x = Some (Fin a) -> number e = Some (Fin b) -> number k = Some (Fin c) ->
  exists t, am_matches m (AApprox (VDbl e) (VDbl k)) (VDbl x) = Def t /\
    (t = true <-> (Rabs (nearest_double (a - b)) <= c)%R).
Proof.
  intros m x e k a b c Dx De Dk Nx Ne Nk.
  destruct (to_B x Dx) as [bx Bx]. destruct (to_B e De) as [be Be]. destruct (to_B k Dk) as [bk Bk].
  destruct (number_fin x a Nx bx Bx) as [Fx Rx]. destruct (number_fin e b Ne be Be) as [Fe Re].
  destruct (number_fin k c Nk bk Bk) as [Fk Rk].
  cbn [am_matches approx]. eexists. split; [reflexivity|].
  rewrite <- Bx, <- Be, <- Bk, dsub_B.
  pose proof (Bminus_correct dprec demax _ _ mode_NE bx be Fx Fe) as M.
  assert (ND : nearest_double (a - b) = round radix2 (SpecFloat.fexp dprec demax) (round_mode mode_NE) (B2R bx - B2R be)).
  { rewrite Rx, Re. reflexivity. }
  rewrite ND. set (rr := round _ _ _ _) in *.
  assert (AB : forall d : binary_float dprec demax, SFabs (B2SF d) = B2SF (Babs d)).
  { intros []; reflexivity. }
  rewrite AB.
  destruct (Rlt_bool_spec (Rabs rr) (bpow radix2 demax)) as [L|L].
  - destruct M as (M1 & M2 & _).
    assert (FA : is_finite (Babs (Bminus mode_NE bx be)) = true) by (rewrite is_finite_Babs; auto).
    pose proof (Bcompare_correct _ _ _ bk FA Fk) as C. unfold Bcompare in C. rewrite C.
    rewrite B2R_Babs, M1, Rk.
    destruct (Rcompare_spec (Rabs rr) c); cbn; split; intro; try discriminate; auto; lra.
  - destruct M as (M1 & _).
    assert (RK : (Rabs (B2R bk) < bpow radix2 demax)%R) by apply abs_B2R_lt_emax. rewrite Rk in RK.
    assert (FI : exists s, B2SF (Bminus mode_NE bx be) = S754_infinity s).
    { rewrite M1. unfold binary_overflow. cbn. eauto. }
    destruct FI as [s FI]. rewrite <- AB, FI. cbn [SFabs].
    destruct bk as [|[]| |[]]; cbn in Fk; try discriminate; cbn; split; intro X; try discriminate;
      exfalso; pose proof (Rle_abs c); lra.
Qed.

Lemma finite_generic : forall x r, is_double x -> number x = Some (Fin r) ->
  generic_format radix2 (FLT_exp (3 - demax - dprec) dprec) r.
Proof.
  intros x r D N. destruct (to_B x D) as [b B]. destruct (number_fin x r N b B) as [_ <-].
  apply (generic_format_B2R dprec demax b).
Qed.

(** Nothing within the margin is rejected. *)
Theorem approx_dbl_sound : forall m x e k a b c, is_double x -> is_double e -> is_double k ->
  number x = Some (Fin a) -> number e = Some (Fin b) -> number k = Some (Fin c) ->
  (Rabs (a - b) <= c)%R -> am_matches m (AApprox (VDbl e) (VDbl k)) (VDbl x) = Def true.
Proof.
  intros m x e k a b c Dx De Dk Nx Ne Nk A.
  destruct (approx_dbl m x e k a b c Dx De Dk Nx Ne Nk) as (t & E & I). rewrite E. f_equal. apply I.
  unfold nearest_double. rewrite <- round_NE_abs by (apply FLT_exp_valid; reflexivity).
  apply round_le_generic; auto with typeclass_instances.
  - exact (finite_generic k c Dk Nk).
Qed.

(** The converse fails: 2^53 and -1 are 2^53 + 1 apart, which rounds to 2^53. *)
Definition d_big : spec_float := S754_finite false 4503599627370496 1.   (* 2^53 *)
Definition d_minus1 : spec_float := S754_finite true 4503599627370496 (-52).

Lemma approx_dbl_not_exact :
  is_double d_big /\ is_double d_minus1 /\
  number d_big = Some (Fin (IZR (2^53))) /\ number d_minus1 = Some (Fin (-1)) /\
  forall m, am_matches m (AApprox (VDbl d_minus1) (VDbl d_big)) (VDbl d_big) = Def true.
Proof.
  split; [reflexivity|]. split; [reflexivity|]. split; [|split].
  - cbn. do 2 f_equal. lra.
  - cbn. do 2 f_equal. lra.
  - intro m. vm_compute. reflexivity.
Qed.

Lemma approx_dbl_distance : (Rabs (IZR (2^53) - (-1)) > IZR (2^53))%R.
Proof. rewrite Rabs_pos_eq; change (2^53)%Z with 9007199254740992%Z; lra. Qed.

Lemma nan_numbers : forall (m : mem) (r : rel) (x y : spec_float), number x = None \/ number y = None ->
  am_matches m (ACmp r (XVal (VDbl y))) (VDbl x) = Def (match r with RNe => true | _ => false end).
Proof.
  intros m r x y H. apply nan_matcher. destruct H as [H|H]; [left|right].
  - destruct x as [|[]| |]; cbn in H; try discriminate; reflexivity.
  - destruct y as [|[]| |]; cbn in H; try discriminate; reflexivity.
Qed.

Lemma bad_margin : forall (m : mem) (a e k : spec_float), number k = None \/ (exists n, number k = Some n /\ ext_lt n (Fin 0)) ->
  am_matches m (AApprox (VDbl e) (VDbl k)) (VDbl a) = Def false.
Proof.
  intros m a e k H. apply approx_dbl_bad_margin. destruct H as [H|(n & H & L)]; [left|right].
  - destruct k as [|[]| |]; cbn in H; try discriminate; reflexivity.
  - destruct k as [s|[]| |[] mm ee]; cbn in H; try discriminate; injection H as <-; cbn in L; auto; try lra.
    exfalso. pose proof (bpow_gt_0 radix2 ee). pose proof (IZR_lt 0 (Z.pos mm) eq_refl).
    assert (0 < IZR (Z.pos mm) * bpow radix2 ee)%R by (apply Rmult_lt_0_compat; assumption). lra.
Qed.
