(* The floating-point part of the RTT estimator: Flocq is used for the proofs only. *)
From Coq Require Import ZArith Reals Lia Lra ZifyBool SpecFloat.
From Flocq Require Import Core BinarySingleNaN.
From Verif Require Import Base BaseLemmas M_Rtt S_Rtt S_RttF P_Rtt.
Open Scope Z_scope.

#[local] Instance Hprec : FLX.Prec_gt_0 53 := eq_refl.
#[local] Instance Hmax : Prec_lt_emax 53 1024 := eq_refl.
Notation B64 := (binary_float 53 1024).
Notation fx := (SpecFloat.fexp 53 1024).
Notation rnd := (round radix2 fx (round_mode mode_NE)).

(* the specification of doubles in Coq's standard library and Flocq's agree *)
Lemma rne_equiv : forall s m l, round_nearest_even m l = choice_mode mode_NE s m l.
Proof. intros s m l. case l; [reflexivity|intro c]. case c; [ | reflexivity..]. now simpl; unfold Round.cond_incr; case Z.even. Qed.
Lemma aux_equiv : forall sx mx ex lx, SpecFloat.binary_round_aux 53 1024 sx mx ex lx = BinarySingleNaN.binary_round_aux 53 1024 mode_NE sx mx ex lx.
Proof.
  intros. unfold SpecFloat.binary_round_aux, BinarySingleNaN.binary_round_aux.
  set (mrse' := shr_fexp _ _ _ _ _). case mrse'; intros mrs' e'; simpl. now rewrite (rne_equiv sx).
Qed.
Lemma round_equiv : forall s m e, SpecFloat.binary_round 53 1024 s m e = BinarySingleNaN.binary_round 53 1024 mode_NE s m e.
Proof.
  intros. unfold SpecFloat.binary_round, BinarySingleNaN.binary_round, shl_align_fexp.
  set (mez := shl_align _ _ _); case mez as [mz ez]. apply aux_equiv.
Qed.
Lemma norm_equiv : forall m e z, SpecFloat.binary_normalize 53 1024 m e z = B2SF (BinarySingleNaN.binary_normalize 53 1024 Hprec Hmax mode_NE m e z).
Proof.
  intros m e z. case m as [ | p | p].
  - now simpl.
  - simpl; rewrite B2SF_SF2B; apply round_equiv.
  - simpl; rewrite B2SF_SF2B; apply round_equiv.
Qed.
Lemma mul_equiv : forall x y : B64, fmul (B2SF x) (B2SF y) = B2SF (Bmult mode_NE x y).
Proof.
  intros x y. unfold fmul. case x as [sx|sx| |sx mx ex Bx]; case y as [sy|sy| |sy my ey By]; [now trivial.. | ].
  simpl. rewrite B2SF_SF2B. apply aux_equiv.
Qed.
Lemma add_equiv : forall x y : B64, fadd (B2SF x) (B2SF y) = B2SF (Bplus mode_NE x y).
Proof.
  intros x y. unfold fadd. case x as [sx|sx| |sx mx ex Bx]; case y as [sy|sy| |sy my ey By]; [now (trivial || simpl; case Bool.eqb).. | ].
  apply norm_equiv.
Qed.
Lemma sub_equiv : forall x y : B64, fsub (B2SF x) (B2SF y) = B2SF (Bminus mode_NE x y).
Proof.
  intros x y. unfold fsub. case x as [sx|sx| |sx mx ex Bx]; case y as [sy|sy| |sy my ey By]; [now (trivial || simpl; case Bool.eqb).. | ].
  simpl. unfold Zminus. rewrite <- cond_Zopp_negb. apply norm_equiv.
Qed.
Lemma div_equiv : forall x y : B64, fdiv (B2SF x) (B2SF y) = B2SF (Bdiv mode_NE x y).
Proof.
  intros x y. unfold fdiv. case x as [sx|sx| |sx mx ex Bx]; case y as [sy|sy| |sy my ey By]; [now (trivial || simpl; case Bool.eqb).. | ].
  simpl. rewrite B2SF_SF2B. set (melz := SFdiv_core_binary _ _ _ _ _ _). case melz as [[mz ez] lz]. apply aux_equiv.
Qed.

#[local] Instance Vx : Valid_exp fx := fexp_correct 53 1024 Hprec.
#[local] Instance Mx : Monotone_exp fx := fexp_monotone 53 1024.
#[local] Instance Vr : Valid_rnd (round_mode mode_NE) := valid_rnd_round_mode mode_NE.
(* ---- representable numbers ---- *)
Lemma rep : forall m e, Z.abs m < 2 ^ 53 -> -1074 <= e -> generic_format radix2 fx (F2R (Float radix2 m e)).
Proof.
  intros m e Hm He. change fx with (FLT_exp (-1074) 53). apply generic_format_FLT. exists (Float radix2 m e); auto.
Qed.
Lemma rep_int : forall m, Z.abs m < 2 ^ 53 -> generic_format radix2 fx (IZR m).
Proof.
  intros m Hm. replace (IZR m) with (F2R (Float radix2 m 0)) by (unfold F2R; simpl; lra). apply rep; auto. lia.
Qed.
Lemma rep_pow : forall e, -1074 <= e -> generic_format radix2 fx (bpow radix2 e).
Proof.
  intros e He. replace (bpow radix2 e) with (F2R (Float radix2 1 e)) by (unfold F2R; simpl; lra). apply rep; auto. simpl. lia.
Qed.
Lemma rep_half : forall m, 0 <= m <= 2 ^ 50 -> generic_format radix2 fx (IZR m + / 2)%R.
Proof.
  intros m Hm. replace (IZR m + / 2)%R with (F2R (Float radix2 (2 * m + 1) (-1))).
  - apply rep; lia.
  - unfold F2R. cbn [Fnum Fexp]. rewrite plus_IZR, mult_IZR. simpl bpow. lra.
Qed.
Lemma rnd_mono : forall x y, (x <= y)%R -> (rnd x <= rnd y)%R.
Proof. intros x y H. apply round_le; auto with typeclass_instances. Qed.
Lemma rnd_le : forall x y, generic_format radix2 fx y -> (x <= y)%R -> (rnd x <= y)%R.
Proof. intros x y G H. apply round_le_generic; auto with typeclass_instances. Qed.
Lemma rnd_ge : forall x y, generic_format radix2 fx y -> (y <= x)%R -> (y <= rnd x)%R.
Proof. intros x y G H. apply round_ge_generic; auto with typeclass_instances. Qed.
Lemma rep_0 : generic_format radix2 fx 0.
Proof. apply (rep_int 0). lia. Qed.
(* the error of one rounding of x, 0 <= x <= 2^e *)
Lemma rnd_err : forall x e, -1000 <= e -> (0 <= x <= bpow radix2 e)%R -> (Rabs (rnd x - x) <= bpow radix2 (e - 53))%R.
Proof.
  intros x e He Hx. eapply Rle_trans; [apply error_le_half_ulp; auto with typeclass_instances|].
  assert (U : (ulp radix2 fx x <= ulp radix2 fx (bpow radix2 e))%R).
  { apply ulp_le; auto with typeclass_instances. rewrite !Rabs_pos_eq; lra. }
  rewrite ulp_bpow in U. replace (fx (e + 1)) with (e - 52) in U by (unfold SpecFloat.fexp, SpecFloat.emin; lia).
  replace (e - 53) with (-1 + (e - 52)) by lia. rewrite bpow_plus. simpl (bpow radix2 (-1)). lra.
Qed.
Lemma small_lt : forall x, (0 <= x <= bpow radix2 64)%R -> Rlt_bool (Rabs x) (bpow radix2 1024) = true.
Proof.
  intros x H. apply Rlt_bool_true. rewrite Rabs_pos_eq by lra. apply Rle_lt_trans with (bpow radix2 64); [lra|]. apply bpow_lt. lia.
Qed.
Lemma pow64 : bpow radix2 64 = IZR (2 ^ 64).
Proof. simpl. lra. Qed.

(* conversion from an integer *)
Lemma dbl_val : forall z, 0 <= z <= 2 ^ 64 -> exists x : B64, dbl z = B2SF x /\ is_finite x = true /\ B2R x = rnd (IZR z).
Proof.
  intros z Hz. exists (BinarySingleNaN.binary_normalize 53 1024 Hprec Hmax mode_NE z 0 false).
  split; [apply norm_equiv|]. pose proof (binary_normalize_correct 53 1024 Hprec Hmax mode_NE z 0 false) as C. cbv zeta in C.
  replace (F2R (Float radix2 z 0)) with (IZR z) in C by (unfold F2R; simpl; lra).
  rewrite small_lt in C; [tauto|]. split.
  - apply rnd_ge; [apply rep_0|]. now apply IZR_le.
  - apply rnd_le; [apply rep_pow; lia|]. rewrite pow64. now apply IZR_le.
Qed.
Lemma dbl_exact : forall z, 0 <= z < 2 ^ 53 -> exists x : B64, dbl z = B2SF x /\ is_finite x = true /\ B2R x = IZR z.
Proof.
  intros z Hz. destruct (dbl_val z) as (x & A & B & C); [lia|]. exists x. splits; auto. rewrite C. apply round_generic; auto with typeclass_instances.
  apply rep_int. lia.
Qed.

(* conversion to an integer *)
Lemma f2i_val : forall x : B64, is_finite x = true -> (0 <= B2R x < IZR (2 ^ 62))%R -> exists z, f2i (B2SF x) = Ok z /\ z = Zfloor (B2R x).
Proof.
  intros [s|s| |s m e B] F H; try discriminate.
  - exists 0. split; auto. symmetry. apply Zfloor_imp. simpl. lra.
  - cbn [B2SF f2i B2R] in *. destruct s.
    { exfalso. assert (F2R (Float radix2 (cond_Zopp true (Z.pos m)) e) < 0)%R by (apply F2R_lt_0; reflexivity). lra. }
    assert (T : trunc m e = Zfloor (F2R (Float radix2 (Z.pos m) e))).
    { unfold trunc. destruct (0 <=? e) eqn:E.
      - symmetry. apply Zfloor_imp. assert (X : F2R (Float radix2 (Z.pos m) e) = IZR (Z.pos m * 2 ^ e)).
        { unfold F2R. cbn [Fnum Fexp]. rewrite mult_IZR. f_equal. rewrite <- IZR_Zpower by lia. reflexivity. }
        rewrite X. split; [lra|]. apply IZR_lt. lia.
      - assert (X : F2R (Float radix2 (Z.pos m) e) = (IZR (Z.pos m) / IZR (2 ^ (- e)))%R).
        { unfold F2R. cbn [Fnum Fexp]. unfold Rdiv. f_equal. change 2 with (radix_val radix2). rewrite IZR_Zpower by lia.
          rewrite <- bpow_opp. f_equal. lia. }
        rewrite X. symmetry. apply Zfloor_div. assert (0 < 2 ^ (- e)) by (apply Z.pow_pos_nonneg; lia). lia. }
    simpl (cond_Zopp false (Z.pos m)) in *. rewrite T. exists (Zfloor (F2R (Float radix2 (Z.pos m) e))). split; auto.
    apply chk_in. destruct H as [H0 H1]. apply Zfloor_le in H0. rewrite Zfloor_IZR in H0.
    assert (Zfloor (F2R (Float radix2 (Z.pos m) e)) < 2 ^ 62). { apply lt_IZR. eapply Rle_lt_trans; [apply Zfloor_lb|exact H1]. }
    unfold I64MIN, I64MAX. lia.
Qed.

(* a weight divided by the number of expected samples is a double in [0, 1] *)
Lemma weight : forall w, SpecFloat.valid_binary 53 1024 w = true -> SFleb (dbl 0) w = true -> SFleb w (dbl 1) = true ->
  exists x : B64, w = B2SF x /\ is_finite x = true /\ (0 <= B2R x <= 1)%R.
Proof.
  intros w V L0 L1. exists (SF2B w V). rewrite B2SF_SF2B. split; auto.
  destruct (dbl_exact 0) as (z & Z1 & Z2 & Z3); [lia|]. destruct (dbl_exact 1) as (u & U1 & U2 & U3); [lia|].
  assert (Fw : is_finite (SF2B w V) = true).
  { rewrite is_finite_SF2B. destruct w as [s|s| |s m e]; auto. destruct s; [vm_compute in L0|vm_compute in L1]; discriminate. }
  split; auto. rewrite Z1 in L0. rewrite U1 in L1. rewrite <- (B2SF_SF2B _ _ w V) in L0, L1.
  change (Bleb z (SF2B w V) = true) in L0. change (Bleb (SF2B w V) u = true) in L1.
  rewrite Bleb_correct in L0, L1 by auto.
  revert L0 L1. destruct (Rle_bool_spec (B2R z) (B2R (SF2B w V))) as [A|A]; [|discriminate].
  destruct (Rle_bool_spec (B2R (SF2B w V)) (B2R u)) as [C|C]; [|discriminate]. rewrite Z3 in A. rewrite U3 in C. lra.
Qed.
Lemma weight_div : forall w n, SpecFloat.valid_binary 53 1024 w = true -> SFleb (dbl 0) w = true -> SFleb w (dbl 1) = true -> (0 < n < 2 ^ 64)%N ->
  exists x : B64, fdiv w (dbl (Z.of_N n)) = B2SF x /\ is_finite x = true /\ (0 <= B2R x <= 1)%R.
Proof.
  intros w n V L0 L1 Hn. destruct (weight w V L0 L1) as (x & X1 & X2 & X3).
  destruct (dbl_val (Z.of_N n)) as (y & Y1 & Y2 & Y3); [lia|].
  assert (Ny : (1 <= B2R y)%R). { rewrite Y3. apply rnd_ge; [apply (rep_int 1); lia|]. apply IZR_le. lia. }
  exists (Bdiv mode_NE x y). rewrite X1, Y1, div_equiv. split; auto.
  pose proof (Bdiv_correct 53 1024 Hprec Hmax mode_NE x y) as C. specialize (C ltac:(lra)).
  assert (Q : (0 <= B2R x / B2R y <= 1)%R).
  { split; [apply Rmult_le_pos; [lra|]; left; apply Rinv_0_lt_compat; lra|].
    apply (Rmult_le_reg_r (B2R y)); [lra|]. unfold Rdiv. rewrite Rmult_assoc, Rinv_l by lra. lra. }
  assert (R1 : (0 <= rnd (B2R x / B2R y) <= 1)%R).
  { split; [apply rnd_ge; [apply rep_0|lra]|apply rnd_le; [apply (rep_int 1); lia|lra]]. }
  rewrite small_lt in C.
  - destruct C as (C1 & C2 & _). rewrite C1, C2. split; auto.
  - rewrite pow64. split; [lra|]. apply Rle_trans with 1%R; [lra|]. apply IZR_le. lia.
Qed.

(* the weighted mean lies within the bounds, and its conversion is defined *)
Lemma mix_in : forall (x : B64) a b M, is_finite x = true -> (0 <= B2R x <= 1)%R -> 0 <= M <= 2 ^ 50 -> 0 <= a <= M -> 0 <= b <= M ->
  exists z, mix (B2SF x) a b = Ok z /\ 0 <= z <= M /\ ((1 - B2R x) * IZR a + B2R x * IZR b - 13 / 8 <= IZR z <= (1 - B2R x) * IZR a + B2R x * IZR b + 5 / 8)%R.
Proof.
  intros x a b M Fx Wx HM Ha Hb.
  destruct (dbl_exact 1) as (u & U1 & U2 & U3); [lia|]. destruct (dbl_exact a) as (p & P1 & P2 & P3); [lia|]. destruct (dbl_exact b) as (q & Q1 & Q2 & Q3); [lia|].
  unfold mix. rewrite U1, P1, Q1, sub_equiv, !mul_equiv, add_equiv.
  set (W := B2R x) in *.
  assert (A0 : (0 <= IZR a <= IZR M)%R) by (split; apply IZR_le; lia). assert (B0 : (0 <= IZR b <= IZR M)%R) by (split; apply IZR_le; lia).
  assert (M0 : (IZR M <= bpow radix2 50)%R). { replace (bpow radix2 50) with (IZR (2 ^ 50)) by (simpl; lra). apply IZR_le. lia. }
  assert (P50 : (1 <= bpow radix2 50 <= bpow radix2 64)%R). { split; [change 1%R with (bpow radix2 0)|]; apply bpow_le; lia. }
  (* 1 - w *)
  pose proof (Bminus_correct 53 1024 Hprec Hmax mode_NE u x U2 Fx) as C1. rewrite U3 in C1. fold W in C1.
  assert (R1 : (0 <= rnd (1 - W) <= 1)%R). { split; [apply rnd_ge; [apply rep_0|lra]|apply rnd_le; [apply (rep_int 1); lia|lra]]. }
  rewrite small_lt in C1 by lra. destruct C1 as (C1 & C2 & _).
  assert (E1 : (Rabs (rnd (1 - W) - (1 - W)) <= bpow radix2 (-53))%R). { apply (rnd_err _ 0); [lia|]. simpl. lra. }
  set (c := Bminus mode_NE u x) in *.
  (* products *)
  assert (T1 : (0 <= B2R c * IZR a <= IZR M)%R).
  { rewrite C1. split; [apply Rmult_le_pos; lra|]. apply Rle_trans with (1 * IZR a)%R; [apply Rmult_le_compat_r; lra|lra]. }
  assert (T2 : (0 <= W * IZR b <= IZR M)%R).
  { split; [apply Rmult_le_pos; lra|]. apply Rle_trans with (1 * IZR b)%R; [apply Rmult_le_compat_r; lra|lra]. }
  assert (RM : generic_format radix2 fx (IZR M)) by (apply rep_int; lia).
  pose proof (Bmult_correct 53 1024 Hprec Hmax mode_NE c p) as D1. rewrite P3 in D1.
  assert (S1 : (0 <= rnd (B2R c * IZR a) <= IZR M)%R) by (split; [apply rnd_ge; [apply rep_0|lra]|apply rnd_le; [auto|lra]]).
  rewrite small_lt in D1 by lra. destruct D1 as (D1 & D2 & _). rewrite C2, P2 in D2. cbn [andb] in D2.
  pose proof (Bmult_correct 53 1024 Hprec Hmax mode_NE x q) as F1. rewrite Q3 in F1. fold W in F1.
  assert (S2 : (0 <= rnd (W * IZR b) <= IZR M)%R) by (split; [apply rnd_ge; [apply rep_0|lra]|apply rnd_le; [auto|lra]]).
  rewrite small_lt in F1 by lra. destruct F1 as (F1 & F2 & _). rewrite Fx, Q2 in F2. cbn [andb] in F2.
  assert (E2 : (Rabs (rnd (B2R c * IZR a) - B2R c * IZR a) <= bpow radix2 (-3))%R). { apply (rnd_err _ 50); [lia|lra]. }
  assert (E3 : (Rabs (rnd (W * IZR b) - W * IZR b) <= bpow radix2 (-3))%R). { apply (rnd_err _ 50); [lia|lra]. }
  (* the sum *)
  pose proof (Bplus_correct 53 1024 Hprec Hmax mode_NE _ _ D2 F2) as G. rewrite D1, F1 in G.
  set (r1 := rnd (B2R c * IZR a)) in *. set (r2 := rnd (W * IZR b)) in *.
  assert (Up : (r1 + r2 <= IZR M + / 2)%R).
  { apply Rabs_le_inv in E1, E2, E3. simpl (bpow radix2 (-3)) in E2, E3.
    assert (X : (B2R c * IZR a <= (1 - W) * IZR a + / 8)%R).
    { rewrite C1. apply Rle_trans with (((1 - W) + bpow radix2 (-53)) * IZR a)%R; [apply Rmult_le_compat_r; lra|].
      rewrite Rmult_plus_distr_r. apply Rplus_le_compat_l. apply Rle_trans with (bpow radix2 (-53) * bpow radix2 50)%R.
      - apply Rmult_le_compat_l; [apply bpow_ge_0|lra].
      - rewrite <- bpow_plus. simpl. lra. }
    assert (Y : ((1 - W) * IZR a + W * IZR b <= IZR M)%R).
    { apply Rle_trans with ((1 - W) * IZR M + W * IZR M)%R; [|lra]. apply Rplus_le_compat; apply Rmult_le_compat_l; lra. }
    lra. }
  assert (S3 : (0 <= rnd (r1 + r2) <= IZR M + / 2)%R).
  { split; [apply rnd_ge; [apply rep_0|lra]|apply rnd_le; [apply rep_half; lia|lra]]. }
  assert (P64 : (bpow radix2 50 + / 2 <= IZR (2 ^ 62) - / 2)%R). { replace (bpow radix2 50) with (IZR (2 ^ 50)) by (simpl; lra). simpl. lra. }
  rewrite small_lt in G.
  2:{ split; [lra|]. rewrite pow64. assert (IZR (2 ^ 62) <= IZR (2 ^ 64))%R by (apply IZR_le; lia). lra. }
  destruct G as (G1 & G2 & _). destruct (f2i_val _ G2) as (z & Z1 & Z2); [rewrite G1; lra|].
  exists z. split; auto. subst z. rewrite G1. fold W. split; [split|].
  - replace 0 with (Zfloor 0) by (apply (Zfloor_IZR 0)). apply Zfloor_le. lra.
  - assert (Zfloor (rnd (r1 + r2)) < M + 1); [|lia]. apply lt_IZR. rewrite plus_IZR. eapply Rle_lt_trans; [apply Zfloor_lb|]. lra.
  - pose proof (Zfloor_lb (rnd (r1 + r2))) as L1. pose proof (Zfloor_ub (rnd (r1 + r2))) as L2.
    assert (E4 : (Rabs (rnd (r1 + r2) - (r1 + r2)) <= bpow radix2 (-2))%R).
    { apply (rnd_err _ 51); [lia|]. split; [lra|]. apply Rle_trans with (1 := Up). replace (bpow radix2 51) with (2 * bpow radix2 50)%R; [lra|].
      change 2%R with (bpow radix2 1). rewrite <- bpow_plus. reflexivity. }
    assert (E5 : (Rabs (B2R c * IZR a - (1 - W) * IZR a) <= / 8)%R).
    { rewrite C1, <- Rmult_minus_distr_r, Rabs_mult, (Rabs_pos_eq (IZR a)) by lra.
      apply Rle_trans with (bpow radix2 (-53) * bpow radix2 50)%R; [apply Rmult_le_compat; try lra; apply Rabs_pos|].
      rewrite <- bpow_plus. simpl. lra. }
    apply Rabs_le_inv in E2, E3, E4, E5. simpl (bpow radix2 _) in E2, E3, E4. lra.
Qed.

(* the weighted mean is the exact one up to rounding *)
Lemma mix_near : forall w n a b M z, SpecFloat.valid_binary 53 1024 w = true -> SFleb (dbl 0) w = true -> SFleb w (dbl 1) = true -> (0 < n < 2 ^ 52)%N ->
  0 <= M <= 2 ^ 50 -> 0 <= a <= M -> 0 <= b <= M -> mix (fdiv w (dbl (Z.of_N n))) a b = Ok z -> near z (wmean w n (IZR a) (IZR b)).
Proof.
  intros w n a b M z V L0 L1 Hn HM Ha Hb H. destruct (weight w V L0 L1) as (x & X1 & X2 & X3).
  destruct (dbl_exact (Z.of_N n)) as (y & Y1 & Y2 & Y3); [lia|].
  assert (Ny : (1 <= B2R y)%R) by (rewrite Y3; apply IZR_le; lia).
  rewrite X1, Y1, div_equiv in H.
  pose proof (Bdiv_correct 53 1024 Hprec Hmax mode_NE x y) as C. specialize (C ltac:(lra)).
  assert (Q : (0 <= B2R x / B2R y <= 1)%R).
  { split; [apply Rmult_le_pos; [lra|]; left; apply Rinv_0_lt_compat; lra|].
    apply (Rmult_le_reg_r (B2R y)); [lra|]. unfold Rdiv. rewrite Rmult_assoc, Rinv_l by lra. lra. }
  assert (R1 : (0 <= rnd (B2R x / B2R y) <= 1)%R).
  { split; [apply rnd_ge; [apply rep_0|lra]|apply rnd_le; [apply (rep_int 1); lia|lra]]. }
  assert (E : (Rabs (rnd (B2R x / B2R y) - B2R x / B2R y) <= bpow radix2 (-53))%R). { apply (rnd_err _ 0); [lia|]. simpl. lra. }
  rewrite small_lt in C.
  2:{ rewrite pow64. split; [lra|]. apply Rle_trans with 1%R; [lra|]. apply IZR_le. lia. }
  destruct C as (C1 & C2 & _). rewrite X2 in C2.
  destruct (mix_in (Bdiv mode_NE x y) a b M) as (z' & Z1 & _ & Z3); auto; [rewrite C1; lra|].
  rewrite Z1 in H. injection H as <-. unfold near, wmean. rewrite X1, SF2R_B2SF, <- Y3.
  rewrite C1 in Z3. set (p := (B2R x / B2R y)%R) in *. set (W := rnd p) in *.
  assert (A0 : (0 <= IZR a <= IZR M)%R) by (split; apply IZR_le; lia). assert (B0 : (0 <= IZR b <= IZR M)%R) by (split; apply IZR_le; lia).
  assert (M0 : (IZR M <= bpow radix2 50)%R). { replace (bpow radix2 50) with (IZR (2 ^ 50)) by (simpl; lra). apply IZR_le. lia. }
  assert (D : (Rabs ((W - p) * (IZR b - IZR a)) <= / 8)%R).
  { rewrite Rabs_mult. apply Rle_trans with (bpow radix2 (-53) * bpow radix2 50)%R.
    - apply Rmult_le_compat; try apply Rabs_pos; auto. apply Rabs_le. lra.
    - rewrite <- bpow_plus. simpl. lra. }
  apply Rabs_le_inv in D. cbv zeta. nra.
Qed.

(* ---- no undefined behaviour ---- *)
Definition sane (o : ropts) (M : Z) (r : rtt) : Prop :=
  0 <= r_rto r <= Z.max (o_init o) (o_max o) /\
  ((r_srtt r = -1 /\ r_n r = 0) \/ (0 <= r_srtt r <= M /\ 0 <= r_var r <= M /\ 0 < r_n r)).
Lemma base_sane : forall o x n r M, ropts_typed o -> ropts_ok o = true -> 0 <= M <= 2 ^ 50 -> (o_k o + 1) * M < 2 ^ 63 -> 0 <= x <= M -> (0 < n < 2 ^ 64)%N ->
  sane o M r -> exists r', rtt_base o x n r = Ok r' /\ 0 <= r_srtt r' <= M /\ 0 <= r_var r' <= M.
Proof.
  intros o x n r M (Ta & Tb & _) Ok1 HM HK Hx Hn (_ & S2). unfold rtt_base.
  assert (F := opts_facts o Ok1). unfold ropts_ok, f_leb in Ok1. rewrite !Bool.andb_true_iff in Ok1. destruct Ok1 as ((((((((A0 & A1) & B0) & B1) & _) & _) & _) & _) & _).
  replace (negb ((0 <=? x) && (0 <? n)%N)) with false by lia.
  match goal with |- context [bind ?X _] => set (Y := X) end.
  assert (Q : exists s v, (if r_srtt r =? -1 then Ok (x, x ÷ 2)
       else
         let alpha := fdiv (o_alpha o) (dbl (Z.of_N n)) in
         let beta := fdiv (o_beta o) (dbl (Z.of_N n)) in
         let! d := chk (r_srtt r - x) in
         let! d' := (if 0 <=? d then Ok d else chk (- d)) in
         let! v := mix beta (r_var r) d' in
         let! s := mix alpha (r_srtt r) x in
         Ok (s, v)) = Ok (s, v) /\ 0 <= s <= M /\ 0 <= v <= M).
  { destruct S2 as [(E1 & E2)|(E1 & E2 & _)].
    - rewrite E1. cbn [Z.eqb]. exists x, (x ÷ 2). rewrite Z.quot_div_nonneg by lia.
      assert (0 <= x / 2 <= x) by lia. splits; auto; lia.
    - replace (r_srtt r =? -1) with false by lia. cbv zeta. rewrite chk_in by (unfold I64MIN, I64MAX; lia). cbn [bind].
      assert (D : exists d, (if 0 <=? r_srtt r - x then Ok (r_srtt r - x) else chk (- (r_srtt r - x))) = Ok d /\ 0 <= d <= M).
      { destruct (0 <=? r_srtt r - x) eqn:E; [eexists; split; [reflexivity|lia]|]. rewrite chk_in by (unfold I64MIN, I64MAX; lia). eexists. split; [reflexivity|lia]. }
      destruct D as (d & -> & Hd). cbn [bind].
      destruct (weight_div _ n Tb B0 B1 Hn) as (wb & -> & W1 & W2). destruct (weight_div _ n Ta A0 A1 Hn) as (wa & -> & W3 & W4).
      destruct (mix_in wb (r_var r) d M) as (v & -> & Hv & _); auto. destruct (mix_in wa (r_srtt r) x M) as (s & -> & Hs & _); auto.
      cbn [bind]. exists s, v. auto. }
  destruct Q as (s & v & Q & Hs & Hv). change (Y = Ok (s, v)) in Q. rewrite Q. cbn [bind fst snd].
  assert (0 <= o_k o * v <= o_k o * M) by (split; [apply Z.mul_nonneg_nonneg; lia|apply Z.mul_le_mono_nonneg_l; lia]).
  rewrite chk_in by (unfold I64MIN, I64MAX; lia). cbn [bind]. rewrite chk_in by (unfold I64MIN, I64MAX; lia). cbn [bind].
  eexists. split; [reflexivity|]. cbn. auto.
Qed.
Lemma step_sane : forall o a r M xs, ropts_typed o -> ropts_ok o = true -> 0 <= M <= 2 ^ 50 -> (o_k o + 1) * M < 2 ^ 63 ->
  o_mult o * Z.max (o_init o) (o_max o) < 2 ^ 63 -> rop_ok M a -> sane o M r -> stats xs r -> Forall (fun x => x <= M) xs ->
  (Z.of_nat (length xs) + 1) * M < 2 ^ 63 -> Z.of_nat (length xs) + 1 < 2 ^ 63 ->
  exists r', rtt_step o a r = Ok r' /\ sane o M r'.
Proof.
  intros o a r M xs T O HM HK HR Ha Sa St Hxs HN HN'. assert (F := opts_facts o O). destruct a as [x n|]; cbn [rtt_step].
  - cbn in Ha. destruct Ha as [Hx Hn]. destruct (base_sane o x n r M T O HM HK Hx Hn Sa) as (r1 & E & H1 & H2).
    unfold rtt_add. rewrite E. cbn [bind]. apply base_keeps in E as (_ & B1 & B2 & B3 & B4 & t & Ht). destruct St as (Sn & Sp & Sx).
    rewrite B3, B4.
    assert (Av : 0 <= r_avg r <= M).
    { destruct xs as [|y ys]; [destruct Sx as (_ & _ & ->); lia|]. destruct Sx as (S1 & S2 & _ & S3 & _).
      rewrite Forall_forall in Hxs, Sp. apply Hxs in S2. apply Sp in S1. lia. }
    assert (0 <= r_n r * r_avg r <= r_n r * M) by (split; [apply Z.mul_nonneg_nonneg; lia|apply Z.mul_le_mono_nonneg_l; lia]).
    rewrite <- Sn in HN, HN'.
    rewrite chk_in by (unfold I64MIN, I64MAX; lia). cbn [bind]. rewrite chk_in by (unfold I64MIN, I64MAX; lia). cbn [bind].
    rewrite chk_in by (unfold I64MIN, I64MAX; lia). cbn [bind]. eexists. split; [reflexivity|]. unfold sane. cbn [r_rto r_srtt r_var r_n].
    split; [rewrite Ht; pose proof (clamp_in t (o_min o) (o_max o)); lia|]. right. splits; try lia.
  - unfold rtt_backoff. destruct Sa as [S1 S2].
    assert (0 <= r_rto r * o_mult o <= Z.max (o_init o) (o_max o) * o_mult o) by (split; [apply Z.mul_nonneg_nonneg; lia|apply Z.mul_le_mono_nonneg_r; lia]).
    rewrite chk_in by (unfold I64MIN, I64MAX; lia). cbn [bind]. eexists. split; [reflexivity|]. unfold sane. cbn [r_rto r_srtt r_var r_n].
    split; [pose proof (clamp_in (r_rto r * o_mult o) (o_min o) (o_max o)); lia|]. exact S2.
Qed.
Lemma run_sane : forall o M l r xs, ropts_typed o -> ropts_ok o = true -> 0 <= M <= 2 ^ 50 -> (o_k o + 1) * M < 2 ^ 63 ->
  o_mult o * Z.max (o_init o) (o_max o) < 2 ^ 63 -> Forall (rop_ok M) l -> sane o M r -> stats xs r -> Forall (fun x => x <= M) xs ->
  (Z.of_nat (length xs + length (samples l)) + 1) * (M + 1) < 2 ^ 63 ->
  exists r', rtt_run o l r = Ok r' /\ sane o M r'.
Proof.
  intros o M l. induction l as [|a l IH]; intros r xs T O HM HK HR Fl Sa St Hxs HN; cbn [rtt_run]; [eauto|].
  inversion Fl as [|? ? Fa Fl']; subst.
  assert (HN1 : (Z.of_nat (length xs) + 1) * (M + 1) < 2 ^ 63).
  { eapply Z.le_lt_trans; [|exact HN]. apply Z.mul_le_mono_nonneg_r; lia. }
  destruct (step_sane o a r M xs T O HM HK HR Fa Sa St Hxs) as (r1 & E & S1); [nia|nia|]. rewrite E. cbn [bind].
  destruct a as [x n|]; cbn [rtt_step samples] in *.
  - apply (IH r1 (xs ++ [x])); auto.
    + eapply add_stats; eauto. cbn in Fa; unfold I64MAX. lia.
    + apply Forall_app. split; auto. constructor; [cbn in Fa; lia|constructor].
    + rewrite app_length. cbn [length] in *. replace (length xs + 1 + length (samples l))%nat with (length xs + S (length (samples l)))%nat by lia. exact HN.
  - apply (IH r1 xs); auto. eapply backoff_stats; eauto.
Qed.

(* ---- the values after a call ---- *)
Lemma clamp_limited : forall v lo hi, lo <= hi -> clamp v lo hi = limited v lo hi.
Proof. intros. unfold clamp, limited. destruct (v <? lo) eqn:A; [lia|]. destruct (hi <? v) eqn:B; lia. Qed.
Lemma base_follows : forall o x n r r' M, ropts_typed o -> ropts_ok o = true -> 0 <= M <= 2 ^ 50 -> 0 <= x <= M -> (0 < n < 2 ^ 52)%N ->
  sane o M r -> rtt_base o x n r = Ok r' ->
  r_rto r' = limited (r_srtt r' + o_k o * r_var r') (o_min o) (o_max o) /\
  (r_n r = 0 -> r_srtt r' = x /\ r_var r' = x / 2) /\
  (r_n r <> 0 -> near (r_srtt r') (wmean (o_alpha o) n (IZR (r_srtt r)) (IZR x)) /\
    near (r_var r') (wmean (o_beta o) n (IZR (r_var r)) (IZR (Z.abs (r_srtt r - x))))).
Proof.
  intros o x n r r' M (Ta & Tb & _) Ok1 HM Hx Hn (_ & S2) H. unfold rtt_base in H.
  assert (F := opts_facts o Ok1). unfold ropts_ok, f_leb in Ok1. rewrite !Bool.andb_true_iff in Ok1. destruct Ok1 as ((((((((A0 & A1) & B0) & B1) & _) & _) & _) & _) & _).
  replace (negb ((0 <=? x) && (0 <? n)%N)) with false in H by lia.
  destruct (if r_srtt r =? -1 then _ else _) as [p|] eqn:E in H; cbn [bind] in H; [|discriminate].
  destruct (chk (o_k o * snd p)) as [kv|] eqn:K1; cbn [bind] in H; [|discriminate].
  destruct (chk (fst p + kv)) as [t|] eqn:K2; cbn [bind] in H; [|discriminate].
  apply chk_ok in K1 as [-> _], K2 as [-> _]. injection H as <-. cbn [r_rto r_srtt r_var].
  split; [apply clamp_limited; lia|].
  destruct S2 as [(E1 & E2)|(E1 & E2 & E3)].
  - rewrite E1 in E. cbn in E. injection E as <-. cbn [fst snd]. split; [|lia]. rewrite Z.quot_div_nonneg by lia. auto.
  - split; [lia|]. intros _. replace (r_srtt r =? -1) with false in E by lia. cbv zeta in E.
    rewrite chk_in in E by (unfold I64MIN, I64MAX; lia). cbn [bind] in E.
    assert (D : (if 0 <=? r_srtt r - x then Ok (r_srtt r - x) else chk (- (r_srtt r - x))) = Ok (Z.abs (r_srtt r - x))).
    { destruct (0 <=? r_srtt r - x) eqn:G; [f_equal; lia|]. rewrite chk_in by (unfold I64MIN, I64MAX; lia). f_equal. lia. }
    rewrite D in E. cbn [bind] in E.
    destruct (mix (fdiv (o_beta o) _) _ _) as [v|] eqn:V; cbn [bind] in E; [|discriminate].
    destruct (mix (fdiv (o_alpha o) _) _ _) as [s|] eqn:W; cbn [bind] in E; [|discriminate]. injection E as <-. cbn [fst snd].
    split; [eapply (mix_near (o_alpha o) n _ _ M)|eapply (mix_near (o_beta o) n _ _ M)]; eauto; lia.
Qed.
