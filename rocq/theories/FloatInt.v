(** Lemmas: truncation and floor of doubles, products with numbers below one. *)
From Coq Require Import ZArith List Bool Lia Znumtheory SpecFloat.
From Verif Require Import Base FloatModel FloatSpec FloatProofs FloatRound.
Open Scope Z_scope.

Lemma unit_pos : 0 < 2 ^ 1074. Proof. reflexivity. Qed.

Lemma trunc_exact a : finite a -> sf_trunc (decode a) = Some (Z.quot (scaled a) (2 ^ 1074)).
Proof.
  intro F. destruct (decode_finite a F) as [Za Ma|m e A1 A2 A3 A4 A5 A6]; cbn [sf_trunc].
  - rewrite Za. now rewrite Z.quot_0_l by discriminate.
  - f_equal. rewrite A5. assert (E : Z.quot (Zpos m * 2 ^ (e + 1074)) (2 ^ 1074) = if 0 <=? e then Zpos m * 2 ^ e else Zpos m / 2 ^ (- e)).
    { destruct (Z.leb_spec 0 e).
      - rewrite Z.pow_add_r, Z.mul_assoc by lia. apply Z.quot_mul. discriminate.
      - rewrite Z.quot_div_nonneg; [|apply Z.mul_nonneg_nonneg; [lia|apply Z.pow_nonneg; lia]|exact unit_pos].
        replace (2 ^ 1074) with (2 ^ (- e) * 2 ^ (e + 1074)) by (rewrite <- Z.pow_add_r by lia; f_equal; lia).
        apply Z.div_mul_cancel_r; apply Z.pow_nonzero; lia. }
    destruct (f_sign a); cbn [cond_Zopp].
    + change (Zneg m) with (- Zpos m). rewrite Z.mul_opp_l, Z.quot_opp_l by discriminate. now rewrite E.
    + now rewrite E.
Qed.
Lemma int_of_f_exact a z : finite a -> z = Z.quot (scaled a) (2 ^ 1074) -> INT64_MIN <= z <= INT64_MAX -> int_of_f a = Ok z.
Proof.
  intros F E R. unfold int_of_f. rewrite trunc_exact by exact F. rewrite <- E.
  destruct (Z.leb_spec INT64_MIN z), (Z.leb_spec z INT64_MAX); try lia. reflexivity.
Qed.

Lemma ffloor_exact a : pattern a -> finite a ->
  pattern (ffloor a) /\ finite (ffloor a) /\ scaled (ffloor a) = scaled a / 2 ^ 1074 * 2 ^ 1074.
Proof.
  intros Ra F. pose proof (encode_decode a Ra (finite_key a F)) as ED. unfold ffloor. destruct (decode_finite a F) as [Za Ma|m e A1 A2 A3 A4 A5 A6]; cbn [sf_floor].
  - assert (encode (S754_zero (f_sign a)) = sgn_bit (f_sign a) + 0) by (cbn [encode]; lia).
    destruct (sign_pack (f_sign a) 0 ltac:(lia)) as (E1 & E2 & E3). rewrite H. split; [exact E3|].
    rewrite Za. unfold finite, scaled. rewrite E1, E2. split; [reflexivity|]. now destruct (f_sign a).
  - assert (P : 0 < 2 ^ 1074) by apply unit_pos. destruct (Z.leb_spec 0 e).
    + rewrite ED. split; [exact Ra|]. split; [exact F|]. rewrite A5.
      rewrite Z.pow_add_r, Z.mul_assoc by lia. rewrite Z.div_mul by lia. reflexivity.
    + set (q := (if f_sign a then - Zpos m else Zpos m) / 2 ^ (- e)).
      pose proof (normalize_rounds q 0 (f_sign a) 1 ltac:(lia) ltac:(lia)) as N.
      assert (Q : scaled a / 2 ^ 1074 = q).
      { rewrite A5. unfold q. replace (2 ^ 1074) with (2 ^ (- e) * 2 ^ (e + 1074)) by (rewrite <- Z.pow_add_r by lia; f_equal; lia).
        rewrite Z.div_mul_cancel_r by (apply Z.pow_nonzero; lia). f_equal. }
      rewrite Q. split; [exact (proj1 N)|]. unfold PREC, EMAX. apply (rounds_exact _ (2 ^ 1)); [lia| |rewrite pow_shift by lia; exact N].
      assert (B : Z.abs q <= 2 ^ 53).
      { unfold q. assert (0 < 2 ^ (- e)) by (apply Z.pow_pos_nonneg; lia).
        pose proof (Z.div_mod (if f_sign a then - Zpos m else Zpos m) (2 ^ (- e)) ltac:(lia)).
        pose proof (Z.mod_pos_bound (if f_sign a then - Zpos m else Zpos m) (2 ^ (- e)) ltac:(lia)).
        set (x := (if f_sign a then - Zpos m else Zpos m)) in *. assert (Z.abs x < 2 ^ 53) by (unfold x; destruct (f_sign a); lia).
        clear - H H0 H1 H2 H3. assert (2 <= 2 ^ (- e)) by (replace (- e) with (1 + (- e - 1)) by lia; rewrite Z.pow_add_r by lia; assert (0 < 2 ^ (- e - 1)) by (apply Z.pow_pos_nonneg; lia); lia).
        set (y := x / 2 ^ (-e)) in *. nia. }
      destruct (mag_rep 1074 (Z.abs q) ltac:(lia) ltac:(lia)) as (mm & M & E). exists mm.
      assert (A : Z.abs (q * 2 ^ 1074) = Z.abs q * 2 ^ 1074).
      { rewrite Z.abs_mul, (Z.abs_eq (2 ^ _)) by (apply Z.pow_nonneg; lia). reflexivity. }
      rewrite A. split; [|exact E]. split; [exact M|]. apply (mag_bound mm _ M E).
      apply Z.le_lt_trans with (2 ^ 53 * 2 ^ 1074); [|reflexivity]. apply Z.mul_le_mono_nonneg_r; [apply Z.pow_nonneg; lia|lia].
Qed.

(** the largest double below one *)
Lemma below_one t : finite t -> scaled t < 2 ^ 1074 -> scaled t <= 2 ^ 1074 - 2 ^ 1021.
Proof.
  intros F L. assert (0 < 2 ^ 1074 - 2 ^ 1021) by reflexivity.
  destruct (Z.le_gt_cases (scaled t) 0); [lia|]. pose proof (scaled_abs t) as A. rewrite Z.abs_eq in A by lia.
  pose proof (f_mag_range t).
  assert (E1 : mag (0x3ff0000000000000) = 2 ^ 1074) by (vm_compute; reflexivity).
  assert (E2 : mag (0x3fefffffffffffff) = 2 ^ 1074 - 2 ^ 1021) by (vm_compute; reflexivity).
  rewrite A in *. rewrite <- E1 in L. rewrite <- E2. clear E1 E2 H H0 A F.
  apply (proj1 (mag_lt_iff (f_mag t) 4607182418800017408 (proj1 H1) ltac:(lia))) in L. apply mag_le; lia.
Qed.
(** multiplying by a number below one strictly decreases *)
Lemma mul_below a t : pattern a -> pattern t -> finite a -> finite t -> f_sign a = false -> 2 ^ 53 < f_mag a ->
  0 <= scaled t < 2 ^ 1074 -> finite (fmul a t) /\ 0 <= scaled (fmul a t) <= mag (f_mag a - 1).
Proof.
  intros Ra Rt Fa Ft S M T. pose proof (below_one t Ft (proj2 T)) as B.
  pose proof (fmul_rounds a t Ra Rt Fa Ft) as (R & N & Sg).
  assert (SA : scaled a = mag (f_mag a)) by (unfold scaled; now rewrite S).
  pose proof (mag_nonneg (f_mag a) ltac:(lia)) as MN.
  assert (PN : 0 <= scaled a * scaled t) by (rewrite SA; apply Z.mul_nonneg_nonneg; lia).
  rewrite Z.abs_eq in N by exact PN.
  assert (L : f_mag (fmul a t) <= f_mag a - 1).
  { destruct (Z.le_gt_cases (f_mag (fmul a t)) (f_mag a - 1)) as [|G]; auto. exfalso.
    destruct N as (N0 & N1 & _). destruct N1 as [N1 _]; [lia|].
    set (m := f_mag a) in *. set (m' := f_mag (fmul a t)) in *.
    pose proof (mag_le m m' ltac:(lia)). pose proof (mag_le (m - 1) (m' - 1) ltac:(lia)).
    assert (C1 : (mag (m - 1) + mag m) * 2 ^ 1074 <= 2 * (mag m * (2 ^ 1074 - 2 ^ 1021))).
    { eapply Z.le_trans; [apply Z.mul_le_mono_nonneg_r; [apply Z.lt_le_incl, unit_pos|]|].
      - instantiate (1 := mag (m' - 1) + mag m'). lia.
      - eapply Z.le_trans; [exact N1|]. apply Z.mul_le_mono_nonneg_l; [lia|]. rewrite SA.
        apply Z.mul_le_mono_nonneg_l; [exact MN|exact B]. }
    replace (2 ^ 1074) with (2 ^ 52 * 2 ^ 1022) in C1 by reflexivity.
    replace (2 ^ 1021) with (2 ^ 1021 * 1) in C1 by lia.
    destruct (mag_cases m ltac:(lia)) as (k & r & Em & Hk & C).
    assert (K1 : 1 <= k) by lia. assert (C2 : 2 ^ 52 <= r < 2 ^ 53) by lia.
    assert (P : 0 < 2 ^ (k - 1)) by (apply Z.pow_pos_nonneg; lia).
    assert (E2k : 2 ^ k = 2 * 2 ^ (k - 1)) by (rewrite <- Z.pow_succ_r by lia; f_equal; lia).
    assert (EM : mag m = r * (2 * 2 ^ (k - 1))) by (rewrite Em, mag_form, E2k by lia; reflexivity).
    assert (C3 : mag m <= (mag m - mag (m - 1)) * 2 ^ 52).
    { assert (P21 : 0 < 2 ^ 1021) by (apply Z.pow_pos_nonneg; lia).
      assert (E22 : 2 ^ 1022 = 2 * 2 ^ 1021) by (rewrite <- Z.pow_succ_r by lia; f_equal).
      rewrite E22 in C1. clear - C1 P21. set (u := 2 ^ 1021) in *. set (x := mag m) in *. set (y := mag (m - 1)) in *.
      clearbody u x y. apply Z.mul_le_mono_pos_r with (2 * u); lia. }
    destruct (Z.eq_dec r (2 ^ 52)) as [->|D].
    - assert (E3 : mag (m - 1) = (2 ^ 53 - 1) * 2 ^ (k - 1)).
      { rewrite Em. replace (k * 2 ^ 52 + 2 ^ 52 - 1) with ((k - 1) * 2 ^ 52 + (2 ^ 53 - 1)) by lia. apply mag_form; lia. }
      rewrite EM, E3 in C3. clear - C3 P. nia.
    - assert (E3 : mag (m - 1) = (r - 1) * (2 * 2 ^ (k - 1))).
      { rewrite Em. replace (k * 2 ^ 52 + r - 1) with (k * 2 ^ 52 + (r - 1)) by lia. rewrite mag_form, E2k by lia. reflexivity. }
      rewrite EM, E3 in C3. assert (2 ^ 52 < r) by lia. clear - C3 P H1. nia. }
  pose proof (f_mag_range (fmul a t)) as MR.
  assert (FN : finite (fmul a t)) by (unfold finite in *; lia).
  split; [exact FN|]. unfold scaled at 1 2. pose proof (mag_le (f_mag (fmul a t)) (f_mag a - 1) ltac:(lia)).
  pose proof (mag_nonneg (f_mag (fmul a t)) ltac:(lia)).
  destruct (f_sign (fmul a t)) eqn:FS; [|lia].
  assert (P0 : scaled a * scaled t = 0) by lia. rewrite P0 in N.
  assert (f_mag (fmul a t) = 0).
  { eapply (nearest_unique 0 (2 ^ 1074)); [exact unit_pos|exact N|]. change 0 with (mag 0 * 2 ^ 1074) at 1. apply nearest_exact; [exact unit_pos|]. unfold INF_MAG. lia. }
  rewrite H1. change (mag 0) with 0. pose proof (mag_nonneg (f_mag a - 1) ltac:(lia)). lia.
Qed.
