(** Proofs: mixtures, uniform distributions, oversampling. *)
From Coq Require Import ZArith List Bool Lia SpecFloat.
From Verif Require Import Base Datum CodecModel FloatModel FloatSpec FloatProofs FloatRound FloatInt IntervalModel IntervalSpec IntervalProofs
  DistModel DistSpec DistSearch DistRoulette.
Import ListNotations.
Open Scope Z_scope.

Lemma key_le a b : finite a -> finite b -> kle (fkey a) (fkey b) -> scaled a <= scaled b. Proof. intros F G. apply (key_scaled a b F G). Qed.
Lemma key_lt a b : finite a -> finite b -> klt (fkey a) (fkey b) -> scaled a < scaled b. Proof. intros F G. apply (key_scaled a b F G). Qed.
Lemma key_eq a b : finite a -> finite b -> keq (fkey a) (fkey b) -> scaled a = scaled b. Proof. intros F G. apply (key_scaled a b F G). Qed.
Lemma lt_key a b : finite a -> finite b -> scaled a < scaled b -> klt (fkey a) (fkey b). Proof. intros F G. apply (key_scaled a b F G). Qed.
Lemma eq_key a b : finite a -> finite b -> scaled a = scaled b -> keq (fkey a) (fkey b). Proof. intros F G. apply (key_scaled a b F G). Qed.
Lemma finite_0 : finite 0. Proof. reflexivity. Qed.
Lemma key_nonneg a : finite a -> kle (fkey 0) (fkey a) -> 0 <= scaled a. Proof. intros F K. apply (key_le 0 a finite_0 F K). Qed.

(** ** Tables of mixtures *)
Lemma mix_prefixes_map inv weights : forall w, mix_prefixes inv w weights = prefixes w (map (fun a => fmul a inv) weights).
Proof. induction weights as [|a l IH]; intro w; cbn; [reflexivity|]. now rewrite IH. Qed.
Lemma add_zero x a : nonneg x -> pattern a -> keq (fkey a) (fkey 0) -> fkey (fadd x a) = fkey x.
Proof.
  intros N P Z0. assert (F : finite a).
  { unfold finite. change (fkey 0) with (Some 0) in Z0. unfold fkey in Z0. fold INF_MAG in Z0.
    destruct (Z.ltb_spec INF_MAG (f_mag a)); [contradiction|]. cbn in Z0. destruct (f_sign a); unfold INF_MAG in *; lia. }
  apply (key_scaled a 0 F ltac:(reflexivity)) in Z0. change (scaled 0) with 0 in Z0.
  destruct (nonneg_cases x N) as [[Fx Sx]| ->].
  - pose proof (fadd_rounds x a (proj1 N) P Fx F) as R. rewrite Z0, Z.add_0_r in R.
    pose proof (self_rounds x (proj1 N) Fx) as R'.
    assert (A : kle (fkey (fadd x a)) (fkey x)) by (refine (rounds_mono _ 1 _ _ 1 _ _ _ _ R R'); lia).
    assert (B : kle (fkey x) (fkey (fadd x a))) by (refine (rounds_mono _ 1 _ _ 1 _ _ _ _ R' R); lia).
    destruct (fkey x), (fkey (fadd x a)); cbn in *; try contradiction. f_equal. lia.
  - unfold fadd. change (decode INFINITY) with (S754_infinity false). destruct (decode_finite a F); reflexivity.
Qed.

Lemma mixture_table_spec weights : weights <> [] ->
  (klt (fkey ONE) (fkey (psum (fractions weights) (length weights - 1))) /\
   mixture_table weights (fdiv ONE (total weights)) = Err ERR_INVALID_VALUE) \/
  (~ klt (fkey ONE) (fkey (psum (fractions weights) (length weights - 1))) /\
   exists table, mixture_table weights (fdiv ONE (total weights)) = Ok table /\ is_mixture_table weights table).
Proof.
  intro N. unfold mixture_table. set (inv := fdiv ONE (total weights)). rewrite mix_prefixes_map.
  set (l := 0 :: prefixes 0 (map (fun a => fmul a inv) weights)).
  assert (LP : length (prefixes 0 (map (fun a => fmul a inv) weights)) = length weights) by now rewrite prefixes_length, map_length.
  assert (L : length l = S (length weights)) by (unfold l; cbn; now rewrite LP).
  assert (L0 : (0 < length weights)%nat) by (destruct weights; [congruence|cbn; lia]).
  destruct (set_last_spec l ONE ltac:(discriminate)) as (A & B & C). rewrite L in *.
  assert (T : is_mixture_table weights (set_last l ONE)).
  { split; [exact A|]. split; [rewrite C by lia; reflexivity|]. split; [replace (length weights) with (S (length weights) - 1)%nat by lia; exact B|].
    intros i I. rewrite C by lia. unfold l. destruct i; [lia|]. cbn [nth_error]. rewrite prefixes_nth by (rewrite map_length; lia). reflexivity. }
  assert (E : nth (length weights - 1) (set_last l ONE) 0 = psum (fractions weights) (length weights - 1)).
  { apply nth_error_nth. destruct (Nat.eq_dec (length weights) 1) as [E1|].
    - rewrite E1. cbn [Nat.sub]. rewrite C by lia. reflexivity.
    - apply T. lia. }
  rewrite E. destruct (flt ONE (psum (fractions weights) (length weights - 1))) eqn:F; cbn [refute bind].
  - left. split; [now apply flt_key|reflexivity].
  - right. split; [intro K; apply flt_key in K; congruence|]. eauto.
Qed.

Section Mixture.
  Variables (weights table : list Z).
  Hypothesis AO : sum_ok weights.
  Hypothesis TF : finite (total weights).
  Hypothesis NE : weights <> [].
  Hypothesis TB : is_mixture_table weights table.
  Hypothesis LE : ~ klt (fkey ONE) (fkey (psum (fractions weights) (length weights - 1))).
  Let inv := fdiv ONE (total weights).

  Lemma w_finite a : In a weights -> pattern a /\ finite a /\ 0 <= scaled a.
  Proof.
    intro I. destruct AO as (F & _). rewrite Forall_forall in F. pose proof (F a I) as N. split; [apply N|].
    apply In_nth_error in I. destruct I as [i E].
    assert (FA : finite a).
    { eapply below_finite; [exact N|exact TF|]. rewrite <- Forall_forall in F. eapply kle_trans; [|apply (psum_total weights (S i) F)].
      rewrite (psum_S _ _ _ E). apply add_nonneg; [now apply psum_nonneg|exact N]. }
    split; [exact FA|]. apply (key_scaled 0 a); [reflexivity|exact FA|apply N].
  Qed.
  Lemma fraction_spec a : In a weights -> rounds (scaled a * scaled inv) (2 ^ 1074) (fmul a inv) /\ nonneg (fmul a inv).
  Proof.
    intro I. destruct (w_finite a I) as (P & F & S). destruct (r_inv weights AO TF) as (PI & FI & SI). fold inv in PI, FI, SI.
    pose proof (fmul_rounds a inv P PI F FI) as R. split; [exact R|]. split; [exact (proj1 R)|].
    pose proof (zero_rounds false 1 ltac:(lia)) as R0. refine (rounds_mono 0 1 0 _ (2 ^ 1074) _ _ unit_pos _ R0 R); [lia|].
    rewrite Z.mul_0_l, Z.mul_1_r. now apply Z.mul_nonneg_nonneg.
  Qed.
  Lemma fractions_nonneg : Forall nonneg (fractions weights).
  Proof. unfold fractions. apply Forall_map, Forall_forall. intros a A. now apply fraction_spec. Qed.
  Lemma w_nonneg i : nonneg (psum (fractions weights) i). Proof. apply psum_nonneg, fractions_nonneg. Qed.
  Lemma w_cell i v : (i < length weights)%nat -> nth_error table i = Some v -> v = psum (fractions weights) i.
  Proof.
    intros H E. destruct TB as (_ & A & _ & C). destruct i.
    - rewrite A in E. injection E as <-. reflexivity.
    - rewrite C in E by lia. injection E as <-. reflexivity.
  Qed.
  Lemma w_fraction i w : nth_error weights i = Some w -> nth_error (fractions weights) i = Some (fmul w inv).
  Proof. intro H. unfold fractions. now rewrite nth_error_map, H. Qed.
  Lemma w_step i w : nth_error weights i = Some w -> kle (fkey (psum (fractions weights) i)) (fkey (psum (fractions weights) (S i))).
  Proof.
    intro H. rewrite (psum_S _ _ _ (w_fraction i w H)). apply add_nonneg; [apply w_nonneg|]. apply fraction_spec. now apply nth_error_In in H.
  Qed.
  Lemma w_covering : covering table (length weights).
  Proof.
    destruct TB as (L & A & B & C). split; [exact L|]. split; [destruct weights; [congruence|cbn; lia]|].
    split; [|split].
    - apply Forall_forall. intros x X. apply In_nth_error in X. destruct X as [i E].
      assert (I : (i < length table)%nat) by (apply nth_error_Some; congruence). rewrite L in I.
      destruct (Nat.eq_dec i (length weights)) as [->|D].
      + rewrite B in E. injection E as <-. split; [unfold ONE; lia|]. vm_compute. discriminate.
      + rewrite (w_cell i x) by (auto; lia). destruct (w_nonneg i) as [P K]. split; [exact P|].
        destruct (fkey (psum (fractions weights) i)); [discriminate|destruct (fkey 0); contradiction].
    - rewrite (nth_error_nth table 0 0 A). vm_compute. discriminate.
    - rewrite (nth_error_nth table _ 0 B). vm_compute. discriminate.
  Qed.
  Lemma w_increasing : increasing table.
  Proof.
    intros i a b A B. assert (I : (S i < length table)%nat) by (apply nth_error_Some; congruence). rewrite (proj1 TB) in I.
    rewrite (w_cell i a) by (auto; lia). destruct (Nat.eq_dec (S i) (length weights)) as [E|D].
    - destruct TB as (_ & _ & C & _). rewrite E, C in B. injection B as <-.
      replace (length weights - 1)%nat with i in LE by lia. pose proof (w_nonneg i) as [_ K].
      change (fkey ONE) with (Some ONE) in *. change (fkey 0) with (Some 0) in K.
      destruct (fkey (psum (fractions weights) i)); cbn in *; [lia|contradiction].
    - rewrite (w_cell (S i) b) by (auto; lia).
      destruct (nth_error weights i) as [w|] eqn:W; [now apply (w_step i w)|]. apply nth_error_None in W. lia.
  Qed.
  Lemma w_selected i u a : (i < length weights)%nat -> in_area table i u -> nth_error weights i = Some a ->
    (S i < length weights)%nat \/ klt (fkey u) (fkey (psum (fractions weights) (length weights - 1))) -> positive a.
  Proof.
    intros I (x & y & X & Y & CX & CY) W C. pose proof (nth_error_In _ _ W) as IN.
    destruct (w_finite a IN) as (PA & FA & SA). split; [exact PA|].
    apply (key_scaled 0 a ltac:(reflexivity) FA). change (scaled 0) with 0. destruct (Z.eq_dec (scaled a) 0) as [Z0|]; [|lia]. exfalso.
    rewrite (w_cell i x) in CX by auto.
    destruct (Nat.eq_dec (S i) (length weights)) as [L|D].
    - destruct C as [C|C]; [lia|]. replace (length weights - 1)%nat with i in C by lia.
      pose proof (klt_kle_trans _ _ _ C CX) as Q. destruct (fkey u); cbn in Q; lia.
    - rewrite (w_cell (S i) y) in CY by (auto; lia). rewrite (psum_S _ _ _ (w_fraction i a W)) in CY.
      destruct (fraction_spec a IN) as [R N]. rewrite Z0, Z.mul_0_l in R.
      destruct (rounds_exact (fmul a inv) (2 ^ 1074) 0 unit_pos) as [F0 S0].
      + exists 0. split; [unfold INF_MAG; lia|reflexivity].
      + exact R.
      + rewrite add_zero in CY; [|apply w_nonneg|apply N|apply (key_scaled _ 0 F0 ltac:(reflexivity)); rewrite S0; reflexivity].
        pose proof (klt_kle_trans _ _ _ CY CX) as Q. destruct (fkey u); cbn in Q; lia.
  Qed.
End Mixture.

(** ** Integer uniform distributions on a linear scale *)
Lemma uniform_int_create flog lower upper quant : in_signed 64 lower -> in_signed 64 upper -> in_signed 64 quant ->
  let r := create_uniform flog NUM_INT lower upper SCALE_LINEAR quant in
  (lower < upper /\ 0 <= quant <= upper - lower /\ upper - lower < 2 ^ 63 /\
   r = Ok (mkUniform NUM_INT lower upper SCALE_LINEAR quant (negb (quant =? 0)) 0
             (if quant =? 0 then upper - lower else (upper - lower) / quant))) \/
  (lower < upper /\ 0 <= quant /\ 2 ^ 63 <= upper - lower /\ r = UB UBOverflow) \/
  (~ (lower < upper /\ 0 <= quant) /\ r = Err ERR_INVALID_VALUE) \/
  (lower < upper /\ upper - lower < 2 ^ 63 /\ upper - lower < quant /\ r = Err ERR_INVALID_VALUE).
Proof.
  intros L U Q r. unfold in_signed in *. change (2 ^ (64 - 1)) with (2 ^ 63) in *. unfold r, create_uniform.
  change (NUM_INT =? NUM_FLOAT) with false. change (NUM_INT =? NUM_INT) with true.
  change (SCALE_LINEAR =? SCALE_LINEAR) with true. change (SCALE_LINEAR =? SCALE_LOGARITHMIC) with false.
  cbn [negb andb refute bind]. unfold uniform_bad_int. change (SCALE_LINEAR =? SCALE_LOGARITHMIC) with false. cbn [andb orb].
  rewrite orb_false_r. destruct (Z.leb_spec upper lower) as [A|A]; cbn [orb].
  - right; right; left. split; [lia|reflexivity].
  - destruct (Z.ltb_spec quant 0) as [B|B].
    + right; right; left. split; [lia|reflexivity].
    + destruct (Z.lt_ge_cases (upper - lower) (2 ^ 63)) as [C|C].
      * rewrite chk64_ok by lia. cbn [bind]. destruct (Z.ltb_spec (upper - lower) quant) as [D|D]; cbn [refute bind].
        -- right; right; right. repeat split; auto.
        -- left. repeat split; auto. destruct (Z.eqb_spec quant 0); cbn [negb]; [reflexivity|]. rewrite Z.quot_div_nonneg by lia. reflexivity.
      * right; left. unfold chk64, INT64_MIN, INT64_MAX. destruct (Z.leb_spec (upper - lower) (2 ^ 63 - 1)); [lia|]. rewrite andb_false_r. cbn [bind]. auto.
Qed.
Lemma uniform_int_ok flog fexp lower upper quant d : in_signed 64 lower -> in_signed 64 upper -> in_signed 64 quant ->
  create_uniform flog NUM_INT lower upper SCALE_LINEAR quant = Ok d ->
  0 < u_iupper d /\ 
  (forall u k, 0 <= k < u_iupper d -> exists x, uniform_value fexp d u k = Ok x /\ int_grid lower upper quant x /\ member (uniform_bounds d) x) /\
  (forall u x, int_grid lower upper quant x -> exists k, 0 <= k < u_iupper d /\ uniform_value fexp d u k = Ok x).
Proof.
  intros L U Q C. destruct (uniform_int_create flog lower upper quant L U Q) as [(A & B & R & E)|[(_ & _ & _ & E)|[(_ & E)|(_ & _ & _ & E)]]];
    rewrite C in E; try discriminate. injection E as ->. unfold in_signed in *. change (2 ^ (64 - 1)) with (2 ^ 63) in *.
  cbn [u_iupper]. unfold uniform_value, int_grid, member, above, below, uniform_bounds. cbn [u_type u_lower u_quant u_scale u_quantize u_iupper u_upper i_type i_lower i_upper i_linc i_uinc].
  change (NUM_INT =? NUM_FLOAT) with false. change (SCALE_LINEAR =? SCALE_LOGARITHMIC) with false. cbn iota. unfold pos. change (NUM_INT =? 2) with false. cbn iota.
  destruct (Z.eqb_spec quant 0) as [->|NZ]; cbn [negb].
  - split; [lia|]. split.
    + intros u k K. rewrite chk64_ok by lia. exists (k + lower). split; [reflexivity|]. split; [exists k; lia|lia].
    + intros u x (k & K0 & -> & K1). exists k. split; [lia|]. rewrite chk64_ok by lia. f_equal. lia.
  - assert (D : 0 < (upper - lower) / quant) by (apply Z.div_str_pos; lia).
    split; [exact D|].
    assert (G : forall k, 0 <= k -> (k < (upper - lower) / quant <-> lower + (k + 1) * quant <= upper)).
    { intros k K. pose proof (Z.div_mod (upper - lower) quant NZ). pose proof (Z.mod_pos_bound (upper - lower) quant ltac:(lia)). split; intro; nia. }
    split.
    + intros u k K. pose proof (proj1 (G k (proj1 K)) (proj2 K)) as G'. assert (0 <= k * quant) by (apply Z.mul_nonneg_nonneg; lia). rewrite chk64_ok by lia. cbn [bind]. rewrite chk64_ok by lia.
      exists (k * quant + lower). split; [reflexivity|]. split; [exists k; lia|lia].
    + intros u x (k & K0 & -> & K1). exists k. assert (0 <= k * quant) by (apply Z.mul_nonneg_nonneg; lia). split; [split; [lia|now apply G]|].
      rewrite chk64_ok by lia. cbn [bind]. rewrite chk64_ok by lia. f_equal. lia.
Qed.

(** ** Float uniform distributions on a linear scale *)
Lemma uniform_float_create flog lower upper quant : 
  let r := create_uniform flog NUM_FLOAT lower upper SCALE_LINEAR quant in
  (~ kle (fkey upper) (fkey lower) /\ ~ klt (fkey quant) (fkey 0) /\ ~ klt (fkey (fsub upper lower)) (fkey quant) /\
   r = Ok (mkUniform NUM_FLOAT lower upper SCALE_LINEAR quant (negb (feq quant 0)) 0
             (if feq quant 0 then fsub upper lower else fdiv (fsub upper lower) quant))) \/
  ((kle (fkey upper) (fkey lower) \/ klt (fkey quant) (fkey 0) \/ klt (fkey (fsub upper lower)) (fkey quant)) /\ r = Err ERR_INVALID_VALUE).
Proof.
  intro r. unfold r, create_uniform.
  change (NUM_FLOAT =? NUM_FLOAT) with true. change (NUM_FLOAT =? NUM_INT) with false.
  change (SCALE_LINEAR =? SCALE_LINEAR) with true. change (SCALE_LINEAR =? SCALE_LOGARITHMIC) with false.
  cbn [negb andb refute bind]. unfold uniform_bad_float. change (SCALE_LINEAR =? SCALE_LOGARITHMIC) with false. cbn [andb]. rewrite orb_false_r.
  pose proof (fle_key upper lower) as A. pose proof (flt_key quant 0) as B. pose proof (flt_key (fsub upper lower) quant) as C.
  unfold fge, fgt. destruct (fle upper lower); cbn [orb].
  - right. split; [left; now apply A|reflexivity].
  - destruct (flt quant 0); cbn [orb].
    + right. split; [right; left; now apply B|reflexivity].
    + destruct (flt (fsub upper lower) quant); cbn [refute bind].
      * right. split; [right; right; now apply C|reflexivity].
      * left. split; [intro H; apply A in H; discriminate|]. split; [intro H; apply B in H; discriminate|]. split; [intro H; apply C in H; discriminate|].
        destruct (feq quant 0); reflexivity.
Qed.

Lemma flat_value b u : pattern b -> finite b -> 0 <= scaled b -> unit_draw u ->
  pattern (ran_flat 0 b u) /\ finite (ran_flat 0 b u) /\ scaled (ran_flat 0 b u) = scaled (fmul b u) /\
  0 <= scaled (ran_flat 0 b u) <= scaled b /\ (2 ^ 53 < f_mag b -> scaled (ran_flat 0 b u) <= mag (f_mag b - 1)).
Proof.
  intros Pb Fb Sb (Pu & Fu & Su). unfold ran_flat.
  assert (P1 : pattern ONE) by (unfold pattern, ONE; lia). assert (F1 : finite ONE) by reflexivity. assert (S1 : scaled ONE = 2 ^ 1074) by (vm_compute; reflexivity).
  pose proof (fsub_rounds ONE u P1 Pu F1 Fu) as RS. pose proof (below_one u Fu (proj2 Su)) as BU.
  assert (FS : finite (fsub ONE u)).
  { unfold finite. destruct RS as (_ & (N0 & N1 & _) & _). destruct (Z.eq_dec (f_mag (fsub ONE u)) INF_MAG) as [E|]; [|lia]. exfalso.
    rewrite E in N1. destruct N1 as [N1 _]; [unfold INF_MAG; lia|]. rewrite mag_inf, S1, Z.mul_1_r in N1.
    pose proof (mag_nonneg (INF_MAG - 1) ltac:(unfold INF_MAG; lia)). rewrite Z.abs_eq in N1 by lia.
    assert (2 * 2 ^ 1074 < 2 ^ 2098) by reflexivity. lia. }
  assert (P0 : pattern 0) by (unfold pattern; lia).
  pose proof (fmul_rounds 0 _ P0 (proj1 RS) finite_0 FS) as R0. change (scaled 0) with 0 in R0. rewrite Z.mul_0_l in R0.
  destruct (rounds_exact (fmul 0 (fsub ONE u)) (2 ^ 1074) 0 unit_pos) as [F0 S0].
  { exists 0. split; [unfold INF_MAG; lia|reflexivity]. }
  { exact R0. }
  pose proof (fmul_rounds b u Pb Pu Fb Fu) as RM.
  assert (M : kle (fkey (fmul b u)) (fkey b) /\ kle (fkey 0) (fkey (fmul b u))).
  { split.
    - refine (rounds_mono _ (2 ^ 1074) _ _ 1 _ unit_pos _ _ RM (self_rounds b Pb Fb)); [lia|]. rewrite Z.mul_1_r. apply Z.mul_le_mono_nonneg_l; lia.
    - refine (rounds_mono 0 1 0 _ (2 ^ 1074) _ _ unit_pos _ (zero_rounds false 1 ltac:(lia)) RM); [lia|]. rewrite Z.mul_0_l, Z.mul_1_r. apply Z.mul_nonneg_nonneg; lia. }
  assert (NM : nonneg (fmul b u)) by (split; [exact (proj1 RM)|apply M]).
  assert (FM : finite (fmul b u)) by (eapply below_finite; [exact NM|exact Fb|apply M]).
  pose proof (fadd_rounds _ _ (proj1 R0) (proj1 RM) F0 FM) as RA. rewrite S0, Z.add_0_l in RA.
  pose proof (self_rounds _ (proj1 RM) FM) as RM'.
  assert (K1 : kle (fkey (fadd (fmul 0 (fsub ONE u)) (fmul b u))) (fkey (fmul b u))) by (refine (rounds_mono _ 1 _ _ 1 _ _ _ _ RA RM'); lia).
  assert (K2 : kle (fkey (fmul b u)) (fkey (fadd (fmul 0 (fsub ONE u)) (fmul b u)))) by (refine (rounds_mono _ 1 _ _ 1 _ _ _ _ RM' RA); lia).
  assert (NA : nonneg (fadd (fmul 0 (fsub ONE u)) (fmul b u))) by (split; [exact (proj1 RA)|eapply kle_trans; [apply M|exact K2]]).
  assert (FA : finite (fadd (fmul 0 (fsub ONE u)) (fmul b u))) by (eapply below_finite; [exact NA|exact FM|exact K1]).
  apply (key_le _ _ FA FM) in K1. apply (key_le _ _ FM FA) in K2.
  assert (E : scaled (fadd (fmul 0 (fsub ONE u)) (fmul b u)) = scaled (fmul b u)) by lia.
  split; [exact (proj1 RA)|]. split; [exact FA|]. split; [exact E|]. rewrite E. destruct M as [M1 M2].
  apply (key_le _ _ FM Fb) in M1. apply (key_nonneg _ FM) in M2.
  split; [lia|]. intro BG. destruct (f_sign b) eqn:SG.
  - exfalso. unfold scaled in Sb. rewrite SG in Sb. pose proof (mag_lt 0 (f_mag b) ltac:(lia)) as X. change (mag 0) with 0 in X. lia.
  - apply (mul_below b u Pb Pu Fb Fu SG BG Su).
Qed.

(** a rounded non negative number is below the exact one, or its predecessor is *)
Lemma rounded_pred p b : 0 <= p -> rounds p 1 b -> finite b -> 
  scaled b <= p \/ (2 ^ 53 < f_mag b /\ mag (f_mag b - 1) <= p).
Proof.
  intros P (R & (N0 & N1 & N2) & S) F. rewrite Z.abs_eq in * by exact P.
  destruct (Z.le_gt_cases (f_mag b) (2 ^ 53)) as [L|G].
  - left. destruct (Z.le_gt_cases p (2 ^ 53)) as [LP|GP].
    + assert (E : f_mag b = p).
      { assert (EP : mag p = p).
        { destruct (Z.eq_dec p (2 ^ 53)) as [->|]; [reflexivity|]. pose proof (mag_form 0 p ltac:(lia) ltac:(lia)) as M. rewrite Z.mul_0_l, Z.add_0_l in M. rewrite M. cbn [Z.pow]. lia. }
        eapply (nearest_unique p 1 (f_mag b) p); [lia|exact (conj N0 (conj N1 N2))|]. rewrite <- EP at 1. apply mag_nearest. unfold INF_MAG. lia. }
      pose proof (scaled_abs b) as A. assert (mag (f_mag b) = p).
      { rewrite E. destruct (Z.eq_dec p (2 ^ 53)) as [->|]; [reflexivity|]. pose proof (mag_form 0 p ltac:(lia) ltac:(lia)) as M. rewrite Z.mul_0_l, Z.add_0_l in M. rewrite M. cbn [Z.pow]. lia. }
      lia.
    + pose proof (scaled_abs b) as A. pose proof (mag_le (f_mag b) (2 ^ 53) ltac:(lia)) as M. change (mag (2 ^ 53)) with (2 ^ 53) in M. lia.
  - right. split; [exact G|]. destruct N1 as [N1 _]; [lia|]. pose proof (mag_lt (f_mag b - 1) (f_mag b) ltac:(lia)). lia.
Qed.

Lemma uniform_float_ok fexp lower upper d u : pattern lower -> pattern upper -> finite lower -> finite upper ->
  klt (fkey lower) (fkey upper) -> finite (fsub upper lower) ->
  d = mkUniform NUM_FLOAT lower upper SCALE_LINEAR (u_quant d) false 0 (fsub upper lower) -> unit_draw u ->
  exists x, uniform_value fexp d u 0 = Ok x /\ pattern x /\ kle (fkey lower) (fkey x) /\ kle (fkey x) (fkey upper) /\
            (keq (fkey lower) (fkey 0) -> 2 ^ 53 < f_mag upper -> klt (fkey x) (fkey upper)).
Proof.
  intros Pl Pu Fl Fu LT FD E U. apply (key_lt lower upper Fl Fu) in LT.
  pose proof (fsub_rounds upper lower Pu Pl Fu Fl) as RD.
  assert (SD : 0 <= scaled (fsub upper lower)).
  { assert (K : kle (fkey 0) (fkey (fsub upper lower))) by (refine (rounds_mono 0 1 0 _ 1 _ _ _ _ (zero_rounds false 1 ltac:(lia)) RD); lia).
    exact (key_nonneg _ FD K). }
  destruct (flat_value (fsub upper lower) u (proj1 RD) FD SD U) as (VP & VF & VE & VB & VM).
  set (v := ran_flat 0 (fsub upper lower) u) in *.
  assert (VL : scaled v <= scaled upper - scaled lower).
  { destruct (rounded_pred (scaled upper - scaled lower) (fsub upper lower) ltac:(lia) RD FD) as [L|[B L]]; [lia|]. specialize (VM B). lia. }
  exists (fadd v lower). rewrite E. unfold uniform_value. cbn [u_type u_lower u_quant u_scale u_quantize u_iupper u_ilower].
  change (NUM_FLOAT =? NUM_FLOAT) with true. change (SCALE_LINEAR =? SCALE_LOGARITHMIC) with false. cbn iota. split; [reflexivity|].
  pose proof (fadd_rounds v lower VP Pl VF Fl) as RA. split; [exact (proj1 RA)|].
  split; [refine (rounds_mono _ 1 _ _ 1 _ _ _ _ (self_rounds lower Pl Fl) RA); lia|].
  split; [refine (rounds_mono _ 1 _ _ 1 _ _ _ _ RA (self_rounds upper Pu Fu)); lia|].
  intros Z0 BG. apply (key_eq lower 0 Fl finite_0) in Z0. change (scaled 0) with 0 in Z0. rewrite Z0 in *.
  rewrite Z.sub_0_r in RD. rewrite Z.add_0_r in RA.
  destruct (rounds_exact _ 1 (scaled upper) ltac:(lia) (ex_intro _ (f_mag upper) (conj (conj (proj1 (f_mag_range upper)) Fu) (eq_sym (scaled_abs upper)))) ltac:(rewrite Z.mul_1_r; exact RD)) as [_ ED].
  assert (MD : f_mag (fsub upper lower) = f_mag upper).
  { pose proof (scaled_abs upper) as A1. pose proof (scaled_abs (fsub upper lower)) as A2. rewrite ED in A2.
    apply Z.le_antisymm; apply mag_le_iff; try apply f_mag_range; lia. }
  rewrite MD in VM. specialize (VM BG).
  destruct (rounds_exact _ 1 (scaled v) ltac:(lia) (ex_intro _ (f_mag v) (conj (conj (proj1 (f_mag_range v)) VF) (eq_sym (scaled_abs v)))) ltac:(rewrite Z.mul_1_r; exact RA)) as [FA EA].
  apply (lt_key _ _ FA Fu). rewrite EA. pose proof (mag_lt (f_mag upper - 1) (f_mag upper) ltac:(lia)). pose proof (scaled_abs upper). lia.
Qed.

Lemma uniform_quant_ok fexp lower upper q d u : pattern lower -> pattern upper -> pattern q -> finite lower -> finite upper -> finite q ->
  klt (fkey lower) (fkey upper) -> klt (fkey 0) (fkey q) -> finite (fsub upper lower) -> finite (fdiv (fsub upper lower) q) ->
  d = mkUniform NUM_FLOAT lower upper SCALE_LINEAR q true 0 (fdiv (fsub upper lower) q) -> unit_draw u ->
  exists x, uniform_value fexp d u 0 = Ok x /\ pattern x /\ float_grid lower q x /\ kle (fkey lower) (fkey x) /\
            kle (fkey x) (fkey (fadd (fsub upper lower) lower)).
Proof.
  intros Pl Pu Pq Fl Fu Fq LT QP FD FR E U. apply (key_lt lower upper Fl Fu) in LT. apply (key_lt 0 q finite_0 Fq) in QP. change (scaled 0) with 0 in QP.
  pose proof (fsub_rounds upper lower Pu Pl Fu Fl) as RD. set (D := fsub upper lower) in *.
  assert (SD : 0 <= scaled D).
  { assert (K : kle (fkey 0) (fkey D)) by (refine (rounds_mono 0 1 0 _ 1 _ _ _ _ (zero_rounds false 1 ltac:(lia)) RD); lia).
    exact (key_nonneg _ FD K). }
  pose proof (fdiv_rounds D q (proj1 RD) Pq FD Fq ltac:(lia)) as RV. rewrite (Z.sgn_pos _ QP), (Z.abs_eq (scaled q)), Z.mul_1_r in RV by lia.
  set (F := fdiv D q) in *. pose proof unit_pos as UP.
  assert (SF : 0 <= scaled F).
  { assert (K : kle (fkey 0) (fkey F)) by (refine (rounds_mono 0 1 0 _ (scaled q) _ _ _ _ (zero_rounds false 1 ltac:(lia)) RV); [lia|lia|rewrite Z.mul_0_l, Z.mul_1_r; apply Z.mul_nonneg_nonneg; lia]).
    exact (key_nonneg _ FR K). }
  destruct (flat_value F u (proj1 RV) FR SF U) as (VP & VF & VE & VB & VM).
  set (v := ran_flat 0 F u) in *. destruct (ffloor_exact v VP VF) as (KP & KF & KS).
  set (k := scaled v / 2 ^ 1074) in *. assert (K0 : 0 <= k) by (apply Z.div_pos; lia).
  assert (KV : k * 2 ^ 1074 <= scaled v) by (unfold k; rewrite Z.mul_comm; apply Z.mul_div_le; lia).
  (* k steps fit in D *)
  assert (FIT : k * 2 ^ 1074 * scaled q <= scaled D * 2 ^ 1074).
  { destruct RV as (_ & (N0 & N1 & N2) & _). rewrite Z.abs_eq in * by (apply Z.mul_nonneg_nonneg; lia).
    assert (EF : scaled F = mag (f_mag F)) by (rewrite <- scaled_abs; symmetry; apply Z.abs_eq, SF).
    destruct (Z.le_gt_cases (f_mag F) (2 ^ 53)) as [L|G].
    - (* F is far below one: no step *)
      assert (k = 0).
      { pose proof (mag_le (f_mag F) (2 ^ 53) ltac:(pose proof (f_mag_range F); lia)) as M. change (mag (2 ^ 53)) with (2 ^ 53) in M.
        apply Z.div_small. split; [lia|]. apply Z.le_lt_trans with (2 ^ 53); [lia|reflexivity]. }
      rewrite H, !Z.mul_0_l. apply Z.mul_nonneg_nonneg; lia.
    - specialize (VM G). destruct N1 as [N1 _]; [lia|]. pose proof (mag_lt (f_mag F - 1) (f_mag F) ltac:(lia)) as ML.
      apply Z.le_trans with (mag (f_mag F - 1) * scaled q); [apply Z.mul_le_mono_nonneg_r; lia|]. nia. }
  pose proof (fmul_rounds _ q KP Pq KF Fq) as RM. rewrite KS in RM.
  assert (RM' : rounds (k * scaled q) 1 (fmul (ffloor v) q)).
  { apply (rounds_scale _ _ _ (2 ^ 1074)); [exact UP|]. rewrite Z.mul_1_l. replace (k * scaled q * 2 ^ 1074) with (k * 2 ^ 1074 * scaled q) by ring. exact RM. }
  assert (M1 : kle (fkey (fmul (ffloor v) q)) (fkey D)).
  { refine (rounds_mono _ 1 _ _ 1 _ _ _ _ RM' (self_rounds D (proj1 RD) FD)); [lia|lia|]. rewrite !Z.mul_1_r. apply Z.mul_le_mono_pos_r with (2 ^ 1074); [exact UP|]. lia. }
  assert (M2 : kle (fkey 0) (fkey (fmul (ffloor v) q))).
  { refine (rounds_mono 0 1 0 _ 1 _ _ _ _ (zero_rounds false 1 ltac:(lia)) RM'); [lia|lia|]. rewrite Z.mul_0_l, Z.mul_1_r. apply Z.mul_nonneg_nonneg; lia. }
  assert (FM : finite (fmul (ffloor v) q)) by (eapply below_finite; [split; [exact (proj1 RM)|exact M2]|exact FD|exact M1]).
  apply (key_le _ _ FM FD) in M1. apply (key_nonneg _ FM) in M2.
  pose proof (fadd_rounds _ _ (proj1 RM) Pl FM Fl) as RA. pose proof (fadd_rounds D lower (proj1 RD) Pl FD Fl) as RB.
  exists (fadd (fmul (ffloor v) q) lower). rewrite E. unfold uniform_value. cbn [u_type u_lower u_quant u_scale u_quantize u_iupper u_ilower].
  change (NUM_FLOAT =? NUM_FLOAT) with true. change (SCALE_LINEAR =? SCALE_LOGARITHMIC) with false. cbn iota. split; [reflexivity|].
  split; [exact (proj1 RA)|]. split; [exists k, (ffloor v); auto|].
  split; [refine (rounds_mono _ 1 _ _ 1 _ _ _ _ (self_rounds lower Pl Fl) RA); lia|].
  refine (rounds_mono _ 1 _ _ 1 _ _ _ _ RA RB); lia.
Qed.
