(** Rounding of doubles: the arithmetic of Coq.Floats.SpecFloat on patterns rounds the
    exact result to nearest even.  Exact results are rationals in units of 2^-1074. *)
From Coq Require Import ZArith Bool Lia Floats.SpecFloat.
From Verif Require Import Base FloatModel FloatSpec FloatProofs.
Open Scope Z_scope.

Lemma mag_form k m : 0 <= k -> (k = 0 /\ 0 <= m <= 2 ^ 53) \/ (2 ^ 52 <= m <= 2 ^ 53) ->
  mag (k * 2 ^ 52 + m) = m * 2 ^ k.
Proof.
  intros Hk Hm. unfold mag.
  assert (D : forall a b, 0 <= b < 2 ^ 52 -> (a * 2 ^ 52 + b) / 2 ^ 52 = a /\ (a * 2 ^ 52 + b) mod 2 ^ 52 = b).
  { intros a b Hb. split.
    - rewrite Z.div_add_l by lia. rewrite Z.div_small by lia. lia.
    - rewrite Z.add_comm, Z.mod_add by lia. apply Z.mod_small. lia. }
  destruct (Z.ltb_spec (k * 2 ^ 52 + m) (2 ^ 52)).
  - assert (k = 0) by lia. subst. cbn [Z.mul Z.add]. lia.
  - assert (C : m < 2 ^ 52 \/ 2 ^ 52 <= m < 2 ^ 53 \/ m = 2 ^ 53) by lia. destruct C as [C|[C|C]].
    + assert (k = 0) by lia. lia.
    + replace (k * 2 ^ 52 + m) with ((k + 1) * 2 ^ 52 + (m - 2 ^ 52)) by lia.
      destruct (D (k + 1) (m - 2 ^ 52)) as [-> ->]; [lia|]. f_equal; [lia|f_equal; lia].
    + replace (k * 2 ^ 52 + m) with ((k + 2) * 2 ^ 52 + 0) by lia.
      destruct (D (k + 2) 0) as [-> ->]; [lia|]. replace (k + 2 - 1) with (k + 1) by lia. rewrite Z.pow_add_r by lia. lia.
Qed.
(** every magnitude has that form *)
Lemma mag_cases m : 0 <= m -> exists k r, m = k * 2 ^ 52 + r /\ 0 <= k /\ ((k = 0 /\ 0 <= r < 2 ^ 53) \/ (2 ^ 52 <= r < 2 ^ 53)).
Proof.
  intro H. destruct (Z.ltb_spec m (2 ^ 52)).
  - exists 0, m. lia.
  - exists (m / 2 ^ 52 - 1), (m mod 2 ^ 52 + 2 ^ 52).
    pose proof (Z.div_mod m (2 ^ 52) ltac:(lia)). pose proof (Z.mod_pos_bound m (2 ^ 52) ltac:(lia)).
    assert (1 <= m / 2 ^ 52) by (apply Z.div_le_lower_bound; lia). lia.
Qed.
Lemma mag_succ m : 0 <= m -> mag m < mag (m + 1).
Proof.
  intro H. destruct (mag_cases m H) as (k & r & -> & Hk & C).
  replace (k * 2 ^ 52 + r + 1) with (k * 2 ^ 52 + (r + 1)) by lia.
  rewrite !mag_form by lia. assert (0 < 2 ^ k) by (apply Z.pow_pos_nonneg; lia). nia.
Qed.
Lemma mag_lt m n : 0 <= m < n -> mag m < mag n.
Proof.
  intros [H1 H2]. replace n with (m + 1 + Z.of_nat (Z.to_nat (n - m - 1))) by lia.
  induction (Z.to_nat (n - m - 1)) as [|j IH].
  - rewrite Z.add_0_r. now apply mag_succ.
  - eapply Z.lt_trans; [exact IH|]. replace (m + 1 + Z.of_nat (S j)) with (m + 1 + Z.of_nat j + 1) by lia.
    apply mag_succ. lia.
Qed.
Lemma mag_le m n : 0 <= m <= n -> mag m <= mag n.
Proof. intros [H1 H2]. destruct (Z.eq_dec m n); [subst; lia|]. pose proof (mag_lt m n). lia. Qed.
Lemma mag_le_iff m n : 0 <= m -> 0 <= n -> (mag m <= mag n <-> m <= n).
Proof.
  intros Hm Hn. split; intro H; [|apply mag_le; lia]. destruct (Z.le_gt_cases m n); auto.
  pose proof (mag_lt n m). lia.
Qed.
Lemma mag_lt_iff m n : 0 <= m -> 0 <= n -> (mag m < mag n <-> m < n).
Proof.
  intros Hm Hn. split; intro H; [|apply mag_lt; lia]. destruct (Z.le_gt_cases n m); [|auto].
  pose proof (mag_le n m). lia.
Qed.
Lemma mag_0 : mag 0 = 0. Proof. reflexivity. Qed.
Lemma mag_nonneg m : 0 <= m -> 0 <= mag m.
Proof. intro. rewrite <- mag_0. apply mag_le. lia. Qed.
Lemma mag_inf : mag INF_MAG = 2 ^ 2098. Proof. reflexivity. Qed.

(** ** Rounding is monotone, and leaves representable numbers alone *)
Lemma nearest_mono p q p' q' m m' : 0 < q -> 0 < q' -> p * q' <= p' * q ->
  nearest p q m -> nearest p' q' m' -> m <= m'.
Proof.
  intros Q Q' L (R & A & _) (R' & _ & B'). destruct (Z.le_gt_cases m m') as [|G]; auto. exfalso.
  destruct A as [A1 A2]; [lia|]. destruct B' as [B1 B2]; [lia|].
  set (s := mag (m - 1) + mag m) in *. set (s' := mag m' + mag (m' + 1)) in *.
  assert (S : s' <= s) by (unfold s, s'; pose proof (mag_le m' (m - 1)); pose proof (mag_le (m' + 1) m); lia).
  assert (X1 : s * q * q' <= 2 * p * q') by (apply Z.mul_le_mono_nonneg_r; lia).
  assert (X2 : 2 * p' * q <= s' * q' * q) by (apply Z.mul_le_mono_nonneg_r; lia).
  assert (X3 : s' * (q' * q) <= s * (q' * q)) by (apply Z.mul_le_mono_nonneg_r; lia).
  assert (E1 : s * q * q' = 2 * p * q') by lia. assert (E2 : 2 * p' * q = s' * q' * q) by lia.
  apply Z.mul_cancel_r in E1; [|lia]. apply Z.mul_cancel_r in E2; [|lia].
  assert (E3 : s' * (q' * q) = s * (q' * q)) by lia. apply Z.mul_cancel_r in E3; [|nia].
  specialize (A2 E1). specialize (B2 E2).
  assert (m - 1 = m').
  { destruct (Z.eq_dec (m - 1) m'); auto. exfalso. unfold s, s' in E3.
    pose proof (mag_lt m' (m - 1)). pose proof (mag_lt (m' + 1) m). lia. }
  subst m'. rewrite Z.even_sub in B2. rewrite A2 in B2. discriminate.
Qed.
Lemma nearest_unique p q m m' : 0 < q -> nearest p q m -> nearest p q m' -> m = m'.
Proof. intros Q A B. apply Z.le_antisymm; eapply nearest_mono; eauto; lia. Qed.
Lemma nearest_exact m q : 0 < q -> 0 <= m <= INF_MAG -> nearest (mag m * q) q m.
Proof.
  intros Q R. split; [exact R|]. split; intro H.
  - pose proof (mag_lt (m - 1) m). split; nia.
  - pose proof (mag_lt m (m + 1)). split; nia.
Qed.
(** scaling the fraction does not matter *)
Lemma nearest_scale p q m c : 0 < c -> (nearest (p * c) (q * c) m <-> nearest p q m).
Proof.
  intro C. unfold nearest.
  assert (E : forall a, a * (q * c) <= 2 * (p * c) <-> a * q <= 2 * p).
  { intro a. replace (a * (q * c)) with (a * q * c) by lia. replace (2 * (p * c)) with (2 * p * c) by lia.
    symmetry. apply Z.mul_le_mono_pos_r. lia. }
  assert (E' : forall a, 2 * (p * c) <= a * (q * c) <-> 2 * p <= a * q).
  { intro a. replace (a * (q * c)) with (a * q * c) by lia. replace (2 * (p * c)) with (2 * p * c) by lia.
    symmetry. apply Z.mul_le_mono_pos_r. lia. }
  assert (F : forall a, a * (q * c) = 2 * (p * c) <-> a * q = 2 * p).
  { intro a. replace (a * (q * c)) with (a * q * c) by lia. replace (2 * (p * c)) with (2 * p * c) by lia.
    apply Z.mul_cancel_r. lia. }
  assert (F' : forall a, 2 * (p * c) = a * (q * c) <-> 2 * p = a * q).
  { intro a. split; intro X; symmetry; symmetry in X; now apply F. }
  rewrite !E, !E', !F, !F'. tauto.
Qed.

(** ** The rounding algorithm of SpecFloat *)
Lemma digits_log p : Zpos (digits2_pos p) = Z.log2 (Zpos p) + 1.
Proof.
  induction p as [p IH|p IH|]; cbn [digits2_pos].
  - rewrite Pos2Z.inj_succ, IH. change (Zpos p~1) with (2 * Zpos p + 1). rewrite Z.log2_succ_double by lia. lia.
  - rewrite Pos2Z.inj_succ, IH. change (Zpos p~0) with (2 * Zpos p). rewrite Z.log2_double by lia. lia.
  - reflexivity.
Qed.
Lemma digits_bound m d : 0 <= m -> 0 <= d -> (Zdigits2 m <= d <-> m < 2 ^ d).
Proof.
  intros Hm Hd. destruct m as [|p|p]; [|cbn [Zdigits2]|lia].
  - cbn. split; intro; [apply Z.pow_pos_nonneg; lia|lia].
  - rewrite digits_log. rewrite (Z.log2_lt_pow2 (Zpos p) d) by lia. lia.
Qed.
Lemma digits_nonneg m : 0 <= Zdigits2 m. Proof. destruct m; cbn; lia. Qed.
Lemma digits_pos m : 0 < m -> 2 ^ (Zdigits2 m - 1) <= m < 2 ^ Zdigits2 m.
Proof.
  intro H. destruct m as [|p|p]; try lia. cbn [Zdigits2]. rewrite digits_log.
  pose proof (Z.log2_spec (Zpos p) ltac:(lia)). replace (Z.log2 (Zpos p) + 1 - 1) with (Z.log2 (Zpos p)) by lia.
  now rewrite Z.add_1_r.
Qed.

(** [P]/[Q] is in [m, m+1[, at the given place *)
Definition inb (P Q m : Z) (l : location) : Prop :=
  match l with
  | loc_Exact => P = m * Q
  | loc_Inexact c => m * Q < P < (m + 1) * Q /\ (2 * P ?= (2 * m + 1) * Q) = c
  end.
Lemma inb_record P Q m l : inb P Q m l <-> inb P Q (shr_m (shr_record_of_loc m l)) (loc_of_shr_record (shr_record_of_loc m l)).
Proof. destruct l as [|[]]; cbn; tauto. Qed.
Lemma inb_shr_1 P Q s : 0 <= shr_m s -> 0 < Q -> inb P Q (shr_m s) (loc_of_shr_record s) ->
  inb P (2 * Q) (shr_m (shr_1 s)) (loc_of_shr_record (shr_1 s)) /\ shr_m (shr_1 s) = shr_m s / 2.
Proof.
  intros M Hq. assert (D : exists h b, shr_m s = 2 * h + Z.b2z b /\ 0 <= h /\ shr_m (shr_1 s) = h /\
    shr_r (shr_1 s) = b /\ shr_s (shr_1 s) = (shr_r s || shr_s s)).
  { destruct s as [m r t]. cbn in M. destruct m as [|[p|p|]|p]; try lia; cbn.
    - exists 0, false. cbn. lia.
    - exists (Zpos p), true. cbn. lia.
    - exists (Zpos p), false. cbn. lia.
    - exists 0, true. cbn. lia. }
  destruct D as (h & b & E1 & E2 & E3 & E4 & E5). destruct s as [m r t]. cbn [shr_m shr_r shr_s] in *.
  destruct (shr_1 {| shr_m := m; shr_r := r; shr_s := t |}) as [m' r' t']. cbn [shr_m shr_r shr_s] in *. subst m' r' t'.
  intro I. split.
  - destruct b, r, t; cbn [Z.b2z orb loc_of_shr_record] in *; cbn [inb] in *; subst m;
      repeat match type of I with
             | _ /\ (_ ?= _) = Lt => rewrite Z.compare_lt_iff in I
             | _ /\ (_ ?= _) = Eq => rewrite Z.compare_eq_iff in I
             | _ /\ (_ ?= _) = Gt => rewrite Z.compare_gt_iff in I
             end;
      rewrite ?Z.compare_lt_iff, ?Z.compare_eq_iff, ?Z.compare_gt_iff; try split; try nia.
  - subst m. rewrite Z.mul_comm, Z.add_comm, Z.div_add by lia. destruct b; cbn; lia.
Qed.

Lemma iter_shr P Q n s : 0 <= shr_m s -> 0 < Q -> inb P Q (shr_m s) (loc_of_shr_record s) ->
  inb P (2 ^ Zpos n * Q) (shr_m (iter_pos shr_1 n s)) (loc_of_shr_record (iter_pos shr_1 n s)) /\
  shr_m (iter_pos shr_1 n s) = shr_m s / 2 ^ Zpos n.
Proof.
  revert Q s. induction n as [n IH|n IH|]; intros Q s M Hq I; cbn [iter_pos].
  - destruct (inb_shr_1 P Q s M Hq I) as [I1 E1].
    assert (M1 : 0 <= shr_m (shr_1 s)) by (rewrite E1; apply Z.div_pos; lia).
    destruct (IH (2 * Q) _ M1 ltac:(lia) I1) as [I2 E2].
    assert (PN : 0 < 2 ^ Zpos n) by (apply Z.pow_pos_nonneg; lia).
    assert (M2 : 0 <= shr_m (iter_pos shr_1 n (shr_1 s))) by (rewrite E2; apply Z.div_pos; lia).
    destruct (IH (2 ^ Zpos n * (2 * Q)) _ M2 ltac:(nia) I2) as [I3 E3].
    assert (PE : 2 ^ Zpos n~1 = 2 ^ Zpos n * (2 ^ Zpos n * 2)).
    { replace (Zpos n~1) with (Zpos n + (Zpos n + 1)) by lia. rewrite !Z.pow_add_r by lia. lia. }
    rewrite PE. split.
    + replace (2 ^ Zpos n * (2 ^ Zpos n * 2) * Q) with (2 ^ Zpos n * (2 ^ Zpos n * (2 * Q))) by lia. exact I3.
    + rewrite E3, E2, E1. rewrite !Z.div_div by lia. f_equal. lia.
  - destruct (IH Q s M Hq I) as [I2 E2].
    assert (PN : 0 < 2 ^ Zpos n) by (apply Z.pow_pos_nonneg; lia).
    assert (M2 : 0 <= shr_m (iter_pos shr_1 n s)) by (rewrite E2; apply Z.div_pos; lia).
    destruct (IH (2 ^ Zpos n * Q) _ M2 ltac:(nia) I2) as [I3 E3].
    assert (PE : 2 ^ Zpos n~0 = 2 ^ Zpos n * 2 ^ Zpos n).
    { replace (Zpos n~0) with (Zpos n + Zpos n) by lia. rewrite !Z.pow_add_r by lia. lia. }
    rewrite PE. split.
    + replace (2 ^ Zpos n * 2 ^ Zpos n * Q) with (2 ^ Zpos n * (2 ^ Zpos n * Q)) by lia. exact I3.
    + rewrite E3, E2. now rewrite Z.div_div by lia.
  - exact (inb_shr_1 P Q s M Hq I).
Qed.
Definition FEXP (e : Z) : Z := Z.max (e - 53) (-1074).
Lemma shr_fexp_spec P Q m e l : 0 <= m -> 0 < Q -> inb P Q m l -> e <= FEXP (Zdigits2 m + e) ->
  let (s, e') := shr_fexp 53 1024 m e l in
  e' = FEXP (Zdigits2 m + e) /\ inb P (2 ^ (e' - e) * Q) (shr_m s) (loc_of_shr_record s) /\ shr_m s = m / 2 ^ (e' - e).
Proof.
  intros M Hq I Le. unfold shr_fexp. change (fexp 53 1024 (Zdigits2 m + e)) with (FEXP (Zdigits2 m + e)).
  remember (FEXP (Zdigits2 m + e) - e) as n eqn:En.
  assert (R : shr_m (shr_record_of_loc m l) = m) by now destruct l as [|[]].
  apply inb_record in I. destruct n as [|n|n]; cbn [shr].
  - split; [lia|]. rewrite Z.sub_diag, Z.pow_0_r, Z.mul_1_l, Z.div_1_r. auto.
  - rewrite R in I. pose proof (iter_shr P Q n (shr_record_of_loc m l)) as X. rewrite R in X.
    specialize (X M Hq I). destruct X as [X1 X2]. split; [lia|]. replace (e + Zpos n - e) with (Zpos n) by lia. auto.
  - lia.
Qed.
Lemma shr_fexp_exact m e : 0 <= m -> Zdigits2 m <= 54 -> -1074 <= e -> (53 <= Zdigits2 m \/ e = -1074) ->
  (Zdigits2 m = 54 -> m = 2 ^ 53) ->
  let (s, e') := shr_fexp 53 1024 m e loc_Exact in
  if m =? 2 ^ 53 then shr_m s = 2 ^ 52 /\ e' = e + 1 else shr_m s = m /\ e' = e.
Proof.
  intros M D He C X. pose proof (shr_fexp_spec m 1 m e loc_Exact M ltac:(lia) ltac:(cbn; lia)) as S.
  assert (F : FEXP (Zdigits2 m + e) = if m =? 2 ^ 53 then e + 1 else e).
  { unfold FEXP. destruct (Z.eqb_spec m (2 ^ 53)) as [->|N].
    - change (Zdigits2 (2 ^ 53)) with 54. lia.
    - assert (Zdigits2 m <= 53) by (destruct (Z.eq_dec (Zdigits2 m) 54); [tauto|lia]). lia. }
  rewrite F in S. assert (S' := S ltac:(destruct (m =? 2 ^ 53); lia)). clear S.
  destruct (shr_fexp 53 1024 m e loc_Exact) as [s e']. destruct S' as (-> & _ & ->).
  destruct (Z.eqb_spec m (2 ^ 53)) as [->|N].
  - replace (e + 1 - e) with 1 by lia. split; reflexivity.
  - rewrite Z.sub_diag, Z.pow_0_r, Z.div_1_r. auto.
Qed.
Lemma rne_cases P Q m l : 0 <= m -> 0 < Q -> inb P Q m l ->
  let r := round_nearest_even m l in
  (r = m /\ m * Q <= P /\ 2 * P <= (2 * m + 1) * Q /\ (2 * P = (2 * m + 1) * Q -> Z.even r = true)) \/
  (r = m + 1 /\ P < (m + 1) * Q /\ (2 * m + 1) * Q <= 2 * P /\ (2 * P = (2 * m + 1) * Q -> Z.even r = true)).
Proof.
  intros M Hq I. destruct l as [|[]]; cbn [round_nearest_even inb] in *.
  - left. subst P. split; [reflexivity|]. split; [nia|]. split; [nia|]. intro; exfalso; nia.
  - destruct I as [I1 I2]. apply Z.compare_eq_iff in I2. destruct (Z.even m) eqn:E; [left|right].
    + split; [reflexivity|]. split; [nia|]. split; [nia|]. auto.
    + split; [reflexivity|]. split; [nia|]. split; [nia|]. intros _. rewrite Z.even_add, E. reflexivity.
  - destruct I as [I1 I2]. rewrite Z.compare_lt_iff in I2. left. split; [reflexivity|]. split; [lia|]. split; [lia|]. intro; exfalso; lia.
  - destruct I as [I1 I2]. rewrite Z.compare_gt_iff in I2. right. split; [reflexivity|]. split; [lia|]. split; [lia|]. intro; exfalso; lia.
Qed.
(** [x] = [P]/[Q] * 2^[e] rounds to [m]; [c] brings the fraction to units of 2^-1074 *)
Lemma round_aux_nearest s P Q m e l c : 0 <= m -> 0 < Q -> 0 < c -> inb P Q m l -> e <= FEXP (Zdigits2 m + e) ->
  0 <= e + 1074 + c ->
  exists r, encode (binary_round_aux 53 1024 s m e l) = sgn_bit s + r /\
            nearest (P * 2 ^ (e + 1074 + c)) (Q * 2 ^ c) r.
Proof.
  intros Mn Hq Hc I Le Hs. unfold binary_round_aux.
  pose proof (shr_fexp_spec P Q m e l Mn Hq I Le) as S. destruct (shr_fexp 53 1024 m e l) as [s1 e1].
  destruct S as (E1 & I1 & M1). assert (Le1 : e <= e1) by lia.
  assert (P0 : 0 < 2 ^ (e1 - e)) by (apply Z.pow_pos_nonneg; lia).
  set (m1 := shr_m s1) in *. set (Q1 := 2 ^ (e1 - e) * Q) in *.
  assert (Q1p : 0 < Q1) by (unfold Q1; nia).
  assert (m1n : 0 <= m1) by (rewrite M1; apply Z.div_pos; lia).
  assert (K : -1074 <= e1) by (unfold FEXP in E1; lia).
  assert (m1b : m1 < 2 ^ 53).
  { rewrite M1. apply Z.div_lt_upper_bound; [lia|]. rewrite <- Z.pow_add_r by lia.
    apply digits_bound; [lia|lia|]. unfold FEXP in E1. lia. }
  assert (m1l : e1 = -1074 \/ 2 ^ 52 <= m1).
  { unfold FEXP in E1. destruct (Z.eq_dec e1 (-1074)); auto. right.
    assert (e1 = Zdigits2 m + e - 53) by lia. rewrite M1.
    assert (0 < m).
    { destruct (Z.eq_dec m 0) as [Z0|]; [|lia]. rewrite Z0 in E1, Le. cbn [Zdigits2] in E1, Le. unfold FEXP in Le. lia. }
    pose proof (digits_pos m ltac:(lia)). apply Z.div_le_lower_bound; [lia|]. rewrite <- Z.pow_add_r by lia.
    replace (e1 - e + 52) with (Zdigits2 m - 1) by lia. lia. }
  pose proof (rne_cases P Q1 m1 _ m1n Q1p I1) as R. cbv zeta in R.
  set (m2 := round_nearest_even m1 (loc_of_shr_record s1)) in *.
  assert (m2b : 0 <= m2 <= 2 ^ 53) by (destruct R as [R|R]; lia).
  assert (m2l : e1 = -1074 \/ 2 ^ 52 <= m2) by (destruct R as [R|R]; lia).
  pose proof (shr_fexp_exact m2 e1) as S2. clearbody m2.
  assert (D2 : Zdigits2 m2 <= 54) by (apply digits_bound; lia).
  assert (D3 : 53 <= Zdigits2 m2 \/ e1 = -1074).
  { destruct m2l; [tauto|]. left. destruct (Z.le_gt_cases 53 (Zdigits2 m2)); auto.
    assert (X : Zdigits2 m2 <= 52) by lia. apply digits_bound in X; lia. }
  assert (D4 : Zdigits2 m2 = 54 -> m2 = 2 ^ 53).
  { intro X. assert (Y : ~ Zdigits2 m2 <= 53) by lia. rewrite digits_bound in Y by lia. lia. }
  specialize (S2 (proj1 m2b) D2 K D3 D4). destruct (shr_fexp 53 1024 m2 e1 loc_Exact) as [s2 e2].
  set (k := e1 + 1074). set (M := k * 2 ^ 52 + m2).
  (* the pattern *)
  assert (B : encode
    match shr_m s2 with
    | 0 => S754_zero s
    | Zpos m0 => if e2 <=? 1024 - 53 then S754_finite s m0 e2 else S754_infinity s
    | Zneg _ => S754_nan
    end = sgn_bit s + Z.min M INF_MAG).
  { unfold M, k, INF_MAG. destruct (Z.eqb_spec m2 (2 ^ 53)) as [E|N].
    - destruct S2 as [-> ->]. subst m2. cbn [encode]. change (2 ^ 52) with (Zpos 4503599627370496) at 1. cbv iota.
      destruct (Z.leb_spec (e1 + 1) (1024 - 53)); cbn [encode]; [|lia].
      destruct (Z.ltb_spec 4503599627370496 (2 ^ 52)); lia.
    - destruct S2 as [-> ->]. destruct m2 as [|p|p]; [| |lia].
      + cbn [encode]. lia.
      + destruct (Z.leb_spec e1 (1024 - 53)); cbn [encode]; [|lia].
        destruct (Z.ltb_spec (Zpos p) (2 ^ 52)); lia. }
  exists (Z.min M INF_MAG). split; [exact B|]. clear B S2 s2 e2.
  (* rounding *)
  assert (k0 : 0 <= k) by (unfold k; lia).
  assert (SC : nearest (P * 2 ^ k) Q1 (Z.min M INF_MAG)).
  { assert (Pk : 0 < 2 ^ k) by (apply Z.pow_pos_nonneg; lia).
    assert (VM : mag M = m2 * 2 ^ k) by (apply mag_form; lia).
    assert (EM : Z.even M = Z.even m2).
    { unfold M. rewrite Z.even_add, Z.even_mul. change (Z.even (2 ^ 52)) with true. rewrite orb_true_r. now destruct (Z.even m2). }
    assert (LOW : forall n, 0 < n <= M -> (mag (n - 1) + mag n) * Q1 <= 2 * (P * 2 ^ k) /\
              ((mag (n - 1) + mag n) * Q1 = 2 * (P * 2 ^ k) -> n = M /\ Z.even M = true)).
    { assert (TOP : 0 < M -> (mag (M - 1) + mag M) * Q1 <= 2 * (P * 2 ^ k) /\
              ((mag (M - 1) + mag M) * Q1 = 2 * (P * 2 ^ k) -> Z.even M = true)).
      { intros Mp. rewrite EM. destruct R as [(-> & R1 & R2 & R3)|(E & R1 & R2 & R3)].
        - pose proof (mag_lt (M - 1) M ltac:(lia)). rewrite VM in *. split; nia.
        - assert (VM' : mag (M - 1) = (m2 - 1) * 2 ^ k).
          { replace (M - 1) with (k * 2 ^ 52 + (m2 - 1)) by (unfold M; lia). apply mag_form; lia. }
          rewrite VM, VM'. replace ((m2 - 1) * 2 ^ k + m2 * 2 ^ k) with ((2 * m1 + 1) * 2 ^ k) by nia.
          split; [nia|]. intro X. apply R3. nia. }
      intros n Hn. destruct (Z.eq_dec n M) as [->|]; [destruct (TOP ltac:(lia)); auto|].
      destruct (TOP ltac:(lia)) as [T1 _].
      pose proof (mag_le (n - 1) (M - 1) ltac:(lia)). pose proof (mag_lt n M ltac:(lia)).
      assert ((mag (n - 1) + mag n) * Q1 < (mag (M - 1) + mag M) * Q1) by nia. lia. }
    assert (UP : 2 * (P * 2 ^ k) <= (mag M + mag (M + 1)) * Q1 /\
              (2 * (P * 2 ^ k) = (mag M + mag (M + 1)) * Q1 -> Z.even M = true)).
    { rewrite EM. destruct R as [(E & R1 & R2 & R3)|(E & R1 & R2 & R3)].
      - assert (VM' : mag (M + 1) = (m2 + 1) * 2 ^ k).
        { replace (M + 1) with (k * 2 ^ 52 + (m2 + 1)) by (unfold M; lia). apply mag_form; lia. }
        rewrite VM, VM'. replace (m2 * 2 ^ k + (m2 + 1) * 2 ^ k) with ((2 * m1 + 1) * 2 ^ k) by nia.
        split; [nia|]. intro X. apply R3. nia.
      - pose proof (mag_lt M (M + 1) ltac:(lia)). rewrite VM in *. split; nia. }
    assert (0 <= M) by lia.
    split; [unfold INF_MAG; lia|]. split.
    - intro Hn. destruct (LOW (Z.min M INF_MAG) ltac:(lia)) as [L1 L2]. split; [exact L1|].
      intro X. destruct (L2 X) as [W Y]. now rewrite W.
    - intro Hn. replace (Z.min M INF_MAG) with M by lia. exact UP. }
  (* units *)
  apply (nearest_scale _ _ _ (2 ^ c)) in SC; [|apply Z.pow_pos_nonneg; lia].
  unfold Q1, k in SC. rewrite <- Z.mul_assoc, <- Z.pow_add_r in SC by lia.
  apply (nearest_scale _ _ _ (2 ^ (e1 - e))); [exact P0|].
  replace (P * 2 ^ (e + 1074 + c) * 2 ^ (e1 - e)) with (P * 2 ^ (e1 + 1074 + c)).
  2:{ rewrite <- Z.mul_assoc, <- Z.pow_add_r by lia. do 2 f_equal. lia. }
  replace (Q * 2 ^ c * 2 ^ (e1 - e)) with (2 ^ (e1 - e) * Q * 2 ^ c) by lia. exact SC.
Qed.

(** ** Patterns *)
Lemma sign_pack s r : 0 <= r < 2 ^ 63 -> f_sign (sgn_bit s + r) = s /\ f_mag (sgn_bit s + r) = r /\ 0 <= sgn_bit s + r < 2 ^ 64.
Proof.
  intro R. unfold f_sign, f_mag, sgn_bit. destruct s.
  - rewrite Z.add_comm. replace (r + 2 ^ 63) with (r + 1 * 2 ^ 63) at 2 by lia. rewrite Z.mod_add, Z.mod_small by lia.
    destruct (Z.leb_spec (2 ^ 63) (r + 2 ^ 63)); lia.
  - cbn [Z.add]. rewrite Z.mod_small by lia. destruct (Z.leb_spec (2 ^ 63) r); lia.
Qed.
Lemma sign_unpack b : 0 <= b < 2 ^ 64 -> b = sgn_bit (f_sign b) + f_mag b.
Proof.
  intro R. unfold f_sign, f_mag, sgn_bit. destruct (Z.leb_spec (2 ^ 63) b).
  - replace b with (b - 2 ^ 63 + 1 * 2 ^ 63) at 2 by lia. rewrite Z.mod_add, Z.mod_small by lia. lia.
  - rewrite Z.mod_small; lia.
Qed.
Lemma pack_rounds s r p q : nearest (Z.abs p) q r -> (if s : bool then p <= 0 else 0 <= p) -> rounds p q (sgn_bit s + r).
Proof.
  intros N S. assert (R : 0 <= r < 2 ^ 63) by (destruct N as [[A B] _]; unfold INF_MAG in B; lia).
  destruct (sign_pack s r R) as (E1 & E2 & E3). split; [exact E3|]. rewrite E1, E2. auto.
Qed.
Lemma mag_nearest m : 0 <= m <= INF_MAG -> nearest (mag m) 1 m.
Proof. intro R. pose proof (nearest_exact m 1 ltac:(lia) R) as N. now rewrite Z.mul_1_r in N. Qed.
Lemma scaled_abs b : Z.abs (scaled b) = mag (f_mag b).
Proof. pose proof (mag_nonneg (f_mag b) (proj1 (f_mag_range b))). unfold scaled. destruct (f_sign b); lia. Qed.
Lemma scaled_sign b : if f_sign b then scaled b <= 0 else 0 <= scaled b.
Proof. pose proof (mag_nonneg (f_mag b) (proj1 (f_mag_range b))). unfold scaled. destruct (f_sign b); lia. Qed.
Lemma self_rounds b : 0 <= b < 2 ^ 64 -> finite b -> rounds (scaled b) 1 b.
Proof.
  intros R F. split; [exact R|]. rewrite scaled_abs. split; [|apply scaled_sign].
  apply mag_nearest. unfold finite in F. pose proof (f_mag_range b). lia.
Qed.

Lemma encode_decode b : 0 <= b < 2 ^ 64 -> fkey b <> None -> encode (decode b) = b.
Proof.
  intros R N. unfold fkey in N. pose proof (sign_unpack b R) as U.
  destruct (decode_decoded b) as [H|H|H|m H H0|m e H H0 H1]; cbn [encode].
  - destruct (Z.ltb_spec (2047 * 2 ^ 52) (f_mag b)); [congruence|lia].
  - lia.
  - lia.
  - destruct (Z.ltb_spec (Zpos m) (2 ^ 52)); lia.
  - destruct (Z.ltb_spec (Zpos m) (2 ^ 52)); lia.
Qed.

(** what a finite pattern decodes to *)
Inductive finite_form (b : Z) : spec_float -> Prop :=
| ff_zero : scaled b = 0 -> f_mag b = 0 -> finite_form b (S754_zero (f_sign b))
| ff_num m e : -1074 <= e -> f_mag b <> 0 -> Zpos m < 2 ^ 53 -> 53 <= Zdigits2 (Zpos m) \/ e = -1074 ->
    scaled b = cond_Zopp (f_sign b) (Zpos m) * 2 ^ (e + 1074) -> e <= 971 ->
    finite_form b (S754_finite (f_sign b) m e).
Lemma decode_finite b : finite b -> finite_form b (decode b).
Proof.
  unfold finite, INF_MAG. intro F. destruct (decode_decoded b) as [H|H|H|m H H0|m e H H0 H1]; try lia.
  - constructor; auto. unfold scaled. rewrite H. now destruct (f_sign b).
  - constructor; auto; try lia. unfold scaled. rewrite H.
    pose proof (mag_form 0 (Zpos m) ltac:(lia) ltac:(lia)) as M. cbn [Z.mul Z.add] in M. rewrite M.
    destruct (f_sign b); cbn [cond_Zopp]; reflexivity.
  - constructor; try lia.
    + left. destruct (Z.le_gt_cases 53 (Zdigits2 (Zpos m))); auto. assert (X : Zdigits2 (Zpos m) <= 52) by lia.
      apply digits_bound in X; lia.
    + unfold scaled. rewrite H0, (mag_form (e - 1) (Zpos m)) by lia. replace (e - 1075 + 1074) with (e - 1) by lia.
      destruct (f_sign b); cbn [cond_Zopp]; lia.
Qed.

(** ** Operations *)
Lemma shl_align_spec m e e' : let (m', f) := shl_align m e e' in
  f = Z.min e e' /\ Zpos m' = Zpos m * 2 ^ (e - f).
Proof.
  unfold shl_align. remember (e' - e) as d eqn:D. destruct d as [|d|d].
  - split; [lia|]. rewrite Z.sub_diag. cbn [Z.pow]. lia.
  - split; [lia|]. rewrite Z.sub_diag. cbn [Z.pow]. lia.
  - split; [lia|]. rewrite shift_pos_correct. rewrite Z.mul_comm. f_equal. rewrite Zpower_pos_powerRZ || idtac.
    change (Z.pow_pos 2 d) with (2 ^ Zpos d). f_equal. lia.
Qed.
Lemma pow_shift x a b : 0 <= a -> 0 <= b -> x * 2 ^ a * 2 ^ b = x * 2 ^ (a + b).
Proof. intros. rewrite <- Z.mul_assoc, <- Z.pow_add_r by lia. reflexivity. Qed.
Lemma digits_shift m d : 0 < m -> 0 <= d -> Zdigits2 (m * 2 ^ d) = Zdigits2 m + d.
Proof.
  intros M D. assert (0 < 2 ^ d) by (apply Z.pow_pos_nonneg; lia).
  pose proof (digits_pos m M) as [A B]. pose proof (digits_nonneg m).
  assert (DP : 0 < Zdigits2 m) by (destruct m; cbn; lia).
  apply Z.le_antisymm.
  - apply digits_bound; [nia|lia|]. rewrite Z.pow_add_r by lia. nia.
  - destruct (Z.le_gt_cases (Zdigits2 m + d) (Zdigits2 (m * 2 ^ d))); auto.
    assert (X : Zdigits2 (m * 2 ^ d) <= Zdigits2 m + d - 1) by lia.
    apply digits_bound in X; [|nia|lia]. replace (Zdigits2 m + d - 1) with (Zdigits2 m - 1 + d) in X by lia.
    rewrite Z.pow_add_r in X by lia. nia.
Qed.
Lemma round_nearest s m e c : 0 < c -> 0 <= e + 1074 + c -> 
  exists r, encode (binary_round 53 1024 s m e) = sgn_bit s + r /\ nearest (Zpos m * 2 ^ (e + 1074 + c)) (2 ^ c) r.
Proof.
  intros C B. unfold binary_round. change (fexp 53 1024) with FEXP. 
  pose proof (shl_align_spec m e (FEXP (Zpos (digits2_pos m) + e))) as S.
  destruct (shl_align m e (FEXP (Zpos (digits2_pos m) + e))) as [m' e']. destruct S as [E1 E2].
  change (Zpos (digits2_pos m)) with (Zdigits2 (Zpos m)) in E1.
  destruct (round_aux_nearest s (Zpos m') 1 (Zpos m') e' loc_Exact (c + (e - e'))) as (r & R1 & R2); try lia.
  - cbn. lia.
  - rewrite E2, digits_shift by lia. replace (Zdigits2 (Zpos m) + (e - e') + e') with (Zdigits2 (Zpos m) + e) by lia. lia.
  - exists r. split; [exact R1|].
    apply (nearest_scale _ _ _ (2 ^ (e - e'))); [apply Z.pow_pos_nonneg; lia|].
    rewrite E2 in R2. rewrite Z.mul_1_l in R2. rewrite pow_shift in R2 by lia. rewrite pow_shift, <- Z.pow_add_r by lia.
    replace (e + 1074 + c + (e - e')) with (e - e' + (e' + 1074 + (c + (e - e')))) by lia. exact R2.
Qed.
Lemma normalize_rounds m e z c : 0 < c -> 0 <= e + 1074 + c ->
  rounds (m * 2 ^ (e + 1074 + c)) (2 ^ c) (encode (binary_normalize 53 1024 m e z)).
Proof.
  intros C B. assert (0 < 2 ^ (e + 1074 + c)) by (apply Z.pow_pos_nonneg; lia).
  destruct m as [|m|m]; cbn [binary_normalize].
  - cbn [encode Z.mul]. replace (sgn_bit z) with (sgn_bit z + 0) by lia. apply pack_rounds; [|now destruct z].
    pose proof (nearest_exact 0 (2 ^ c) ltac:(apply Z.pow_pos_nonneg; lia) ltac:(unfold INF_MAG; lia)) as N. exact N.
  - destruct (round_nearest false m e c C B) as (r & -> & N). apply pack_rounds; [|nia].
    rewrite Z.abs_eq by nia. exact N.
  - destruct (round_nearest true m e c C B) as (r & -> & N). apply pack_rounds; [|nia].
    replace (Z.abs (Zneg m * 2 ^ (e + 1074 + c))) with (Zpos m * 2 ^ (e + 1074 + c)) by nia. exact N.
Qed.
Lemma rounds_scale p q b c : 0 < c -> (rounds (p * c) (q * c) b <-> rounds p q b).
Proof.
  intro C. unfold rounds. rewrite Z.abs_mul, (Z.abs_eq c) by lia. rewrite (nearest_scale _ _ _ c C).
  assert (if f_sign b then p * c <= 0 <-> p <= 0 else 0 <= p * c <-> 0 <= p) by (destruct (f_sign b); nia).
  destruct (f_sign b); tauto.
Qed.

Lemma aligned s m e f : f <= e -> cond_Zopp s (Zpos (fst (shl_align m e f))) = cond_Zopp s (Zpos m) * 2 ^ (e - f).
Proof.
  intro L. pose proof (shl_align_spec m e f) as S. destruct (shl_align m e f) as [m' f']. destruct S as [S1 S2].
  replace f' with f in S2 by lia. cbn [fst]. rewrite S2. destruct s; cbn [cond_Zopp]; lia.
Qed.
Lemma fadd_rounds a b : 0 <= a < 2 ^ 64 -> 0 <= b < 2 ^ 64 -> finite a -> finite b ->
  rounds (scaled a + scaled b) 1 (fadd a b).
Proof.
  intros Ra Rb Fa Fb. unfold fadd, PREC, EMAX.
  assert (Ea : encode (decode a) = a) by (apply encode_decode; [exact Ra|unfold fkey, finite, INF_MAG in *; destruct (Z.ltb_spec (2047 * 2 ^ 52) (f_mag a)); [lia|discriminate]]).
  assert (Eb : encode (decode b) = b) by (apply encode_decode; [exact Rb|unfold fkey, finite, INF_MAG in *; destruct (Z.ltb_spec (2047 * 2 ^ 52) (f_mag b)); [lia|discriminate]]).
  destruct (decode_finite a Fa) as [Za Ma|ma ea A1 A2 A3 A4 A5 A6];
  destruct (decode_finite b Fb) as [Zb Mb|mb eb B1 B2 B3 B4 B5 B6]; cbn [SFadd].
  - rewrite Za, Zb. cbn [Z.add]. assert (Z : forall s, rounds 0 1 (encode (S754_zero s))).
    { intro s. cbn [encode]. replace (sgn_bit s) with (sgn_bit s + 0) by lia. apply pack_rounds; [|now destruct s].
      apply (mag_nearest 0). unfold INF_MAG. lia. }
    destruct (Bool.eqb (f_sign a) (f_sign b)); apply Z.
  - rewrite Za, Eb. cbn [Z.add]. now apply self_rounds.
  - rewrite Zb, Ea, Z.add_0_r. now apply self_rounds.
  - rewrite !aligned by lia. set (f := Z.min ea eb).
    pose proof (normalize_rounds (cond_Zopp (f_sign a) (Zpos ma) * 2 ^ (ea - f) + cond_Zopp (f_sign b) (Zpos mb) * 2 ^ (eb - f)) f false 1 ltac:(lia) ltac:(lia)) as N.
    apply (rounds_scale _ _ _ (2 ^ 1)); [lia|]. rewrite Z.mul_1_l.
    replace ((scaled a + scaled b) * 2 ^ 1) with
      ((cond_Zopp (f_sign a) (Zpos ma) * 2 ^ (ea - f) + cond_Zopp (f_sign b) (Zpos mb) * 2 ^ (eb - f)) * 2 ^ (f + 1074 + 1)); [exact N|].
    rewrite A5, B5. rewrite !Z.mul_add_distr_r, !pow_shift by lia. f_equal; do 2 f_equal; lia.
Qed.

Lemma zero_rounds s q : 0 < q -> rounds 0 q (encode (S754_zero s)).
Proof.
  intro Q. cbn [encode]. replace (sgn_bit s) with (sgn_bit s + 0) by lia. apply pack_rounds; [|now destruct s].
  apply (nearest_exact 0 q Q). unfold INF_MAG. lia.
Qed.
Lemma finite_key b : finite b -> fkey b <> None.
Proof. unfold fkey, finite, INF_MAG in *. destruct (Z.ltb_spec (2047 * 2 ^ 52) (f_mag b)); [lia|discriminate]. Qed.
Lemma fopp_flip a : 0 <= a < 2 ^ 64 -> fkey a <> None -> fopp a = sgn_bit (negb (f_sign a)) + f_mag a.
Proof.
  intros R N. unfold fkey in N. unfold fopp.
  destruct (decode_decoded a) as [H|H|H|m H H0|m e H H0 H1]; cbn [SFopp encode].
  - destruct (Z.ltb_spec (2047 * 2 ^ 52) (f_mag a)); [congruence|lia].
  - lia.
  - lia.
  - destruct (Z.ltb_spec (Zpos m) (2 ^ 52)); lia.
  - destruct (Z.ltb_spec (Zpos m) (2 ^ 52)); lia.
Qed.
Lemma fopp_spec a : 0 <= a < 2 ^ 64 -> fkey a <> None ->
  f_mag (fopp a) = f_mag a /\ f_sign (fopp a) = negb (f_sign a) /\ 0 <= fopp a < 2 ^ 64 /\ scaled (fopp a) = - scaled a /\
  fkey (fopp a) = option_map Z.opp (fkey a).
Proof.
  intros R N. rewrite (fopp_flip a R N).
  destruct (sign_pack (negb (f_sign a)) (f_mag a) (f_mag_range a)) as (E1 & E2 & E3).
  split; [exact E2|]. split; [exact E1|]. split; [exact E3|]. unfold scaled, fkey in *. rewrite E1, E2.
  split; [destruct (f_sign a); cbn [negb]; lia|].
  destruct (Z.ltb_spec (2047 * 2 ^ 52) (f_mag a)); [reflexivity|]. destruct (f_sign a); cbn [negb option_map]; f_equal; lia.
Qed.
Lemma fsub_rounds a b : 0 <= a < 2 ^ 64 -> 0 <= b < 2 ^ 64 -> finite a -> finite b ->
  rounds (scaled a - scaled b) 1 (fsub a b).
Proof.
  intros Ra Rb Fa Fb. pose proof (fopp_spec b Rb (finite_key b Fb)) as (_ & _ & Rb' & Sb' & _).
  unfold fsub, PREC, EMAX.
  pose proof (encode_decode a Ra (finite_key a Fa)) as Ea.
  assert (Eb : encode (SFopp (decode b)) = fopp b) by reflexivity.
  destruct (decode_finite a Fa) as [Za Ma|ma ea A1 A2 A3 A4 A5 A6];
  destruct (decode_finite b Fb) as [Zb Mb|mb eb B1 B2 B3 B4 B5 B6]; cbn [SFsub].
  - rewrite Za, Zb. cbn [Z.sub Z.add Z.opp]. destruct (Bool.eqb (f_sign a) (negb (f_sign b))); apply zero_rounds; lia.
  - rewrite Za. cbn [SFopp] in Eb. rewrite Eb. replace (0 - scaled b) with (scaled (fopp b)) by lia. apply self_rounds; [exact Rb'|].
    unfold finite. rewrite (proj1 (fopp_spec b Rb (finite_key b Fb))). exact Fb.
  - rewrite Zb, Ea, Z.sub_0_r. now apply self_rounds.
  - rewrite !aligned by lia. set (f := Z.min ea eb).
    pose proof (normalize_rounds (cond_Zopp (f_sign a) (Zpos ma) * 2 ^ (ea - f) - cond_Zopp (f_sign b) (Zpos mb) * 2 ^ (eb - f)) f false 1 ltac:(lia) ltac:(lia)) as N.
    apply (rounds_scale _ _ _ (2 ^ 1)); [lia|]. rewrite Z.mul_1_l.
    replace ((scaled a - scaled b) * 2 ^ 1) with
      ((cond_Zopp (f_sign a) (Zpos ma) * 2 ^ (ea - f) - cond_Zopp (f_sign b) (Zpos mb) * 2 ^ (eb - f)) * 2 ^ (f + 1074 + 1)); [exact N|].
    rewrite A5, B5. rewrite !Z.mul_sub_distr_r, !pow_shift by lia. f_equal; do 2 f_equal; lia.
Qed.
Lemma digits_mul_ge m n : 0 < m -> 0 < n -> Zdigits2 m <= Zdigits2 (m * n).
Proof.
  intros M N. destruct (Z.le_gt_cases (Zdigits2 m) (Zdigits2 (m * n))); auto.
  assert (X : Zdigits2 (m * n) <= Zdigits2 m - 1) by lia. pose proof (digits_nonneg (m * n)).
  apply digits_bound in X; [|nia|lia]. pose proof (digits_pos m M). nia.
Qed.
Lemma sign_mul s t m n : (if xorb s t then cond_Zopp s (Zpos m) * cond_Zopp t (Zpos n) <= 0 else 0 <= cond_Zopp s (Zpos m) * cond_Zopp t (Zpos n)).
Proof. destruct s, t; cbn [cond_Zopp xorb]; nia. Qed.
Lemma fmul_rounds a b : 0 <= a < 2 ^ 64 -> 0 <= b < 2 ^ 64 -> finite a -> finite b ->
  rounds (scaled a * scaled b) (2 ^ 1074) (fmul a b).
Proof.
  intros Ra Rb Fa Fb. unfold fmul, PREC, EMAX.
  destruct (decode_finite a Fa) as [Za Ma|ma ea A1 A2 A3 A4 A5 A6];
  destruct (decode_finite b Fb) as [Zb Mb|mb eb B1 B2 B3 B4 B5 B6]; cbn [SFmul].
  - rewrite Za. apply zero_rounds. lia.
  - rewrite Za. apply zero_rounds. lia.
  - rewrite Zb, Z.mul_0_r. apply zero_rounds. lia.
  - change (Zpos (ma * mb)) with (Zpos ma * Zpos mb).
    destruct (round_aux_nearest (xorb (f_sign a) (f_sign b)) (Zpos ma * Zpos mb) 1 (Zpos ma * Zpos mb) (ea + eb) loc_Exact 1074) as (r & -> & N); try lia.
    + cbn [inb]. lia.
    + unfold FEXP. pose proof (digits_mul_ge (Zpos ma) (Zpos mb) ltac:(lia) ltac:(lia)).
      pose proof (digits_mul_ge (Zpos mb) (Zpos ma) ltac:(lia) ltac:(lia)) as X. rewrite Z.mul_comm in X. lia.
    + assert (E : scaled a * scaled b = cond_Zopp (f_sign a) (Zpos ma) * cond_Zopp (f_sign b) (Zpos mb) * 2 ^ (ea + eb + 1074 + 1074)).
      { rewrite A5, B5. replace (ea + eb + 1074 + 1074) with (ea + 1074 + (eb + 1074)) by lia. rewrite (Z.pow_add_r 2 (ea + 1074) (eb + 1074)) by lia. ring. }
      apply pack_rounds.
      * rewrite Z.mul_1_l in N. replace (Z.abs (scaled a * scaled b)) with (Zpos ma * Zpos mb * 2 ^ (ea + eb + 1074 + 1074)); [exact N|].
        rewrite E. assert (0 < 2 ^ (ea + eb + 1074 + 1074)) by (apply Z.pow_pos_nonneg; lia).
        rewrite Z.abs_mul, (Z.abs_eq (2 ^ _)) by lia. f_equal. destruct (f_sign a), (f_sign b); cbn [cond_Zopp]; lia.
      * assert (0 < 2 ^ (ea + eb + 1074 + 1074)) by (apply Z.pow_pos_nonneg; lia).
        pose proof (sign_mul (f_sign a) (f_sign b) ma mb) as S. rewrite E. destruct (xorb (f_sign a) (f_sign b)); nia.
Qed.
Lemma f_of_int_rounds i : rounds (i * 2 ^ 1074) 1 (f_of_int i).
Proof.
  unfold f_of_int, PREC, EMAX. pose proof (normalize_rounds i 0 false 1 ltac:(lia) ltac:(lia)) as N.
  apply (rounds_scale _ _ _ (2 ^ 1)); [lia|]. rewrite Z.mul_1_l, pow_shift by lia. exact N.
Qed.
Lemma new_location_spec n r : 0 < n -> 0 <= r < n -> forall q, inb (q * n + r) n q (new_location n r).
Proof.
  intros N R q. unfold new_location, new_location_even, new_location_odd.
  pose proof (Zeq_is_eq_bool r 0) as Z0.
  destruct (Z.even n) eqn:E; destruct (Zeq_bool r 0) eqn:Z1.
  - assert (r = 0) by (apply Z0; auto). cbn. lia.
  - assert (r <> 0) by (intro X; apply Z0 in X; congruence). cbn [inb]. split; [lia|].
    destruct (Z.compare_spec (2 * r) n); [apply Z.compare_eq_iff|apply Z.compare_lt_iff|apply Z.compare_gt_iff]; lia.
  - assert (r = 0) by (apply Z0; auto). cbn. lia.
  - assert (r <> 0) by (intro X; apply Z0 in X; congruence). cbn [inb]. split; [lia|].
    assert (O : Z.odd n = true) by (rewrite <- Z.negb_even, E; reflexivity). apply Z.odd_spec in O. destruct O as [h O].
    destruct (Z.compare_spec (2 * r + 1) n); [apply Z.compare_lt_iff|apply Z.compare_lt_iff|apply Z.compare_gt_iff]; lia.
Qed.
Lemma div_units x y u e c ea eb t : 0 < c -> 0 <= u -> 0 <= e + u + c -> 0 <= ea - eb - e -> 0 <= ea + u -> 0 <= eb + u ->
  nearest (x * 2 ^ (ea - eb - e) * 2 ^ (e + u + c)) (y * 2 ^ c) t ->
  nearest (x * 2 ^ (ea + u) * 2 ^ u) (y * 2 ^ (eb + u)) t.
Proof.
  intros C U H1 H2 H3 H4 N.
  apply (nearest_scale _ _ _ (2 ^ c)); [apply Z.pow_pos_nonneg; lia|].
  apply (nearest_scale _ _ _ (2 ^ (eb + u))) in N; [|apply Z.pow_pos_nonneg; lia].
  rewrite (pow_shift x), (pow_shift x), (pow_shift y) in N by lia. rewrite (pow_shift x), (pow_shift x), (pow_shift y) by lia.
  replace (ea + u + u + c) with (ea - eb - e + (e + u + c) + (eb + u)) by lia.
  replace (eb + u + c) with (c + (eb + u)) by lia. exact N.
Qed.
Lemma div_sign x y u (s t : bool) : 0 < u -> (if s then x < 0 else 0 < x) -> (if t then y < 0 else 0 < y) ->
  Z.abs (x * Z.sgn y * u) = Z.abs x * u /\ (if xorb s t then x * Z.sgn y * u <= 0 else 0 <= x * Z.sgn y * u).
Proof.
  intros U X Y. destruct t; [rewrite (Z.sgn_neg y) by lia|rewrite (Z.sgn_pos y) by lia]; destruct s; cbn [xorb]; nia.
Qed.
Lemma quotient_digits m n q r sh : 0 < m -> 0 < n -> 0 <= sh -> m * 2 ^ sh = n * q + r -> 0 <= r < n ->
  0 <= q /\ Zdigits2 m + sh - Zdigits2 n <= Zdigits2 q.
Proof.
  intros M N S E R. assert (P : 0 < 2 ^ sh) by (apply Z.pow_pos_nonneg; lia).
  assert (q0 : 0 <= q).
  { destruct (Z.le_gt_cases 0 q); auto. exfalso. assert (0 < m * 2 ^ sh) by (apply Z.mul_pos_pos; lia).
    assert (n * q <= n * -1) by (apply Z.mul_le_mono_nonneg_l; lia). lia. }
  split; [exact q0|]. pose proof (digits_nonneg q) as Dq.
  destruct (digits_pos m M) as [Dm _]. destruct (digits_pos n N) as [_ Dn].
  assert (1 <= Zdigits2 m) by (destruct m; cbn; lia). assert (1 <= Zdigits2 n) by (destruct n; cbn; lia).
  destruct (Z.le_gt_cases (Zdigits2 m + sh - Zdigits2 n) (Zdigits2 q)) as [|G]; auto. exfalso.
  assert (X : Zdigits2 q <= Zdigits2 m + sh - Zdigits2 n - 1) by lia. apply digits_bound in X; [|lia|lia].
  set (k := Zdigits2 m + sh - Zdigits2 n - 1) in *.
  assert (A : m * 2 ^ sh < n * 2 ^ k).
  { assert (n * q <= n * (2 ^ k - 1)) by (apply Z.mul_le_mono_nonneg_l; lia). lia. }
  assert (B : n * 2 ^ k < 2 ^ Zdigits2 n * 2 ^ k) by (apply Z.mul_lt_mono_pos_r; [apply Z.pow_pos_nonneg; lia|lia]).
  rewrite <- Z.pow_add_r in B by lia. replace (Zdigits2 n + k) with (Zdigits2 m - 1 + sh) in B by (unfold k; lia).
  rewrite Z.pow_add_r in B by lia.
  assert (C : 2 ^ (Zdigits2 m - 1) * 2 ^ sh <= m * 2 ^ sh) by (apply Z.mul_le_mono_nonneg_r; lia). lia.
Qed.
Lemma div_core s ma ea mb eb : -1074 <= ea -> -1074 <= eb ->
  exists t, encode (let '(mz, ez, lz) := SFdiv_core_binary 53 1024 (Zpos ma) ea (Zpos mb) eb in binary_round_aux 53 1024 s mz ez lz) =
            sgn_bit s + t /\
  nearest (Zpos ma * 2 ^ (ea + 1074) * 2 ^ 1074) (Zpos mb * 2 ^ (eb + 1074)) t.
Proof.
  intros A B. unfold SFdiv_core_binary. change (fexp 53 1024) with FEXP.
  set (d1 := Zdigits2 (Zpos ma)). set (d2 := Zdigits2 (Zpos mb)).
  remember (Z.min (FEXP (d1 + ea - (d2 + eb))) (ea - eb)) as e' eqn:E'. remember (ea - eb - e') as sh eqn:SH.
  assert (SH0 : 0 <= sh) by lia.
  assert (M' : match sh with 0 => Zpos ma | Zpos _ => Z.shiftl (Zpos ma) sh | Zneg _ => 0 end = Zpos ma * 2 ^ sh).
  { destruct sh; [lia| |lia]. apply Z.shiftl_mul_pow2. lia. }
  rewrite M'. clear M'. pose proof (Z_div_mod (Zpos ma * 2 ^ sh) (Zpos mb) ltac:(lia)) as DM.
  destruct (Z.div_eucl (Zpos ma * 2 ^ sh) (Zpos mb)) as [q r]. destruct DM as [DM1 DM2].
  destruct (quotient_digits (Zpos ma) (Zpos mb) q r sh ltac:(lia) ltac:(lia) SH0 DM1 DM2) as [q0 Dq]. fold d1 d2 in Dq.
  destruct (round_aux_nearest s (Zpos ma * 2 ^ sh) (Zpos mb) q e' (new_location (Zpos mb) r) (Z.max 1 (- e' - 1074 + 1))) as (t & E & N); try lia.
  - rewrite DM1, Z.mul_comm. apply new_location_spec; lia.
  - clear - Dq E' SH. unfold FEXP in *. lia.
  - exists t. split; [exact E|]. clear - A B SH SH0 N. subst sh.
    apply (div_units _ _ 1074 e' (Z.max 1 (- e' - 1074 + 1)) ea eb); try exact N; lia.
Qed.
Lemma cond_abs s m k : 0 <= k -> Z.abs (cond_Zopp s (Zpos m) * 2 ^ k) = Zpos m * 2 ^ k.
Proof.
  intro K. rewrite Z.abs_mul, (Z.abs_eq (2 ^ _)) by (apply Z.pow_nonneg; lia). f_equal. destruct s; reflexivity.
Qed.
Lemma nonzero_sign b : f_mag b <> 0 -> if f_sign b then scaled b < 0 else 0 < scaled b.
Proof.
  intro N. pose proof (scaled_sign b). pose proof (mag_lt_iff 0 (f_mag b)). pose proof (scaled_abs b). pose proof (f_mag_range b).
  rewrite mag_0 in *. destruct (f_sign b); lia.
Qed.
Lemma fdiv_rounds a b : 0 <= a < 2 ^ 64 -> 0 <= b < 2 ^ 64 -> finite a -> finite b -> scaled b <> 0 ->
  rounds (scaled a * Z.sgn (scaled b) * 2 ^ 1074) (Z.abs (scaled b)) (fdiv a b).
Proof.
  intros Ra Rb Fa Fb Nb. unfold fdiv, PREC, EMAX.
  destruct (decode_finite a Fa) as [Za Ma|ma ea A1 A2 A3 A4 A5 A6];
  destruct (decode_finite b Fb) as [Zb Mb|mb eb B1 B2 B3 B4 B5 B6]; cbn [SFdiv]; try (exfalso; exact (Nb Zb)).
  - rewrite Za, !Z.mul_0_l. apply zero_rounds. now apply Z.abs_pos.
  - destruct (div_core (xorb (f_sign a) (f_sign b)) ma ea mb eb A1 B1) as (t & -> & N).
    destruct (div_sign (scaled a) (scaled b) (2 ^ 1074) _ _ ltac:(apply Z.pow_pos_nonneg; [reflexivity|discriminate]) (nonzero_sign a A2) (nonzero_sign b B2)) as [E3 E4].
    apply pack_rounds; [|exact E4]. rewrite E3. clear E3 E4.
    rewrite A5, B5. rewrite !cond_abs by lia. exact N.
Qed.

(** ** Order *)
Lemma scaled_key b : fkey b = if INF_MAG <? f_mag b then None else Some (if f_sign b then - f_mag b else f_mag b).
Proof. reflexivity. Qed.
Lemma rounds_key p q b : rounds p q b -> fkey b = Some (if f_sign b then - f_mag b else f_mag b).
Proof.
  intros (_ & ((_ & N) & _) & _). unfold fkey. unfold INF_MAG in N. destruct (Z.ltb_spec (2047 * 2 ^ 52) (f_mag b)); [lia|reflexivity].
Qed.
Lemma finite_fkey b : finite b -> fkey b = Some (if f_sign b then - f_mag b else f_mag b).
Proof.
  unfold fkey, finite, INF_MAG. intro. destruct (Z.ltb_spec (2047 * 2 ^ 52) (f_mag b)); [lia|reflexivity].
Qed.
Lemma rounds_mono p q b p' q' b' : 0 < q -> 0 < q' -> p * q' <= p' * q -> rounds p q b -> rounds p' q' b' -> kle (fkey b) (fkey b').
Proof.
  intros Q Q' L R R'. rewrite (rounds_key _ _ _ R), (rounds_key _ _ _ R'). cbn [kle].
  destruct R as (_ & N & S). destruct R' as (_ & N' & S').
  assert (0 <= f_mag b) by apply f_mag_range. assert (0 <= f_mag b') by apply f_mag_range.
  destruct (f_sign b), (f_sign b').
  - rewrite !Z.abs_neq in * by lia. pose proof (nearest_mono (- p') q' (- p) q (f_mag b') (f_mag b) Q' Q ltac:(nia) N' N). lia.
  - lia.
  - assert (p = 0) by nia. assert (p' = 0) by nia. subst. cbn [Z.abs] in *.
    assert (f_mag b = 0) by (apply (nearest_unique 0 q); auto; apply (nearest_exact 0 q); unfold INF_MAG; lia).
    assert (f_mag b' = 0) by (apply (nearest_unique 0 q'); auto; apply (nearest_exact 0 q'); unfold INF_MAG; lia). lia.
  - rewrite !Z.abs_eq in * by lia. pose proof (nearest_mono p q p' q' (f_mag b) (f_mag b') Q Q' ltac:(nia) N N'). lia.
Qed.
Lemma key_scaled a b : finite a -> finite b -> (kle (fkey a) (fkey b) <-> scaled a <= scaled b) /\
  (klt (fkey a) (fkey b) <-> scaled a < scaled b) /\ (keq (fkey a) (fkey b) <-> scaled a = scaled b).
Proof.
  intros Fa Fb. rewrite (finite_fkey a Fa), (finite_fkey b Fb). cbn [kle klt keq]. unfold scaled.
  pose proof (f_mag_range a). pose proof (f_mag_range b).
  pose proof (mag_le_iff (f_mag a) (f_mag b)). pose proof (mag_le_iff (f_mag b) (f_mag a)).
  pose proof (mag_le_iff (f_mag a) 0). pose proof (mag_le_iff (f_mag b) 0). rewrite mag_0 in *.
  pose proof (mag_nonneg (f_mag a)). pose proof (mag_nonneg (f_mag b)).
  destruct (f_sign a), (f_sign b); lia.
Qed.

(** ** Results are patterns *)
Definition pattern (b : Z) : Prop := 0 <= b < 2 ^ 64.
Lemma encode_pattern a : pattern a -> pattern (encode (decode a)).
Proof.
  intro R. destruct (fkey a) eqn:E.
  - now rewrite encode_decode by (auto; congruence).
  - unfold fkey in E. destruct (Z.ltb_spec (2047 * 2 ^ 52) (f_mag a)); [|discriminate].
    destruct (decode_decoded a); try lia. vm_compute. split; [discriminate|reflexivity].
Qed.
Lemma encode_special : pattern (encode S754_nan) /\ (forall s, pattern (encode (S754_infinity s))) /\ forall s, pattern (encode (S754_zero s)).
Proof. unfold pattern. split; [|split; intros []]; split; (apply Z.leb_le || apply Z.ltb_lt); vm_compute; reflexivity. Qed.
Lemma special a : ~ finite a -> decode a = S754_nan \/ decode a = S754_infinity (f_sign a).
Proof.
  unfold finite, INF_MAG. intro F. destruct (decode_decoded a); auto; try lia.
Qed.
Lemma finite_dec a : finite a \/ ~ finite a.
Proof. unfold finite. lia. Qed.
Ltac specials := destruct encode_special as (SN & SI & SZ);
  repeat match goal with |- context[match ?x with _ => _ end] => destruct x end; auto.
Lemma encode_opp a : pattern a -> pattern (encode (SFopp (decode a))).
Proof.
  intro R. destruct (fkey a) eqn:E.
  - apply (fopp_spec a R). congruence.
  - unfold fkey in E. destruct (Z.ltb_spec (2047 * 2 ^ 52) (f_mag a)); [|discriminate].
    destruct (decode_decoded a); try lia. vm_compute. split; [discriminate|reflexivity].
Qed.
Lemma fopp_pattern a : pattern a -> pattern (fopp a). Proof. apply encode_opp. Qed.
Lemma fadd_pattern a b : pattern a -> pattern b -> pattern (fadd a b).
Proof.
  intros Ra Rb. pose proof (encode_pattern a Ra) as Pa. pose proof (encode_pattern b Rb) as Pb. destruct encode_special as (SN & SI & SZ).
  destruct (finite_dec a) as [Fa|Fa]; [destruct (finite_dec b) as [Fb|Fb]|].
  - now apply (fadd_rounds a b).
  - unfold fadd. destruct (special b Fb) as [E|E]; rewrite E in *; destruct (decode a); cbn [SFadd]; auto;
      try destruct (Bool.eqb _ _); auto.
  - unfold fadd. destruct (special a Fa) as [E|E]; rewrite E in *; destruct (decode b); cbn [SFadd]; auto;
      try destruct (Bool.eqb _ _); auto.
Qed.
Lemma fsub_pattern a b : pattern a -> pattern b -> pattern (fsub a b).
Proof.
  intros Ra Rb. pose proof (encode_pattern a Ra) as Pa. pose proof (encode_opp b Rb) as Pb. destruct encode_special as (SN & SI & SZ).
  destruct (finite_dec a) as [Fa|Fa]; [destruct (finite_dec b) as [Fb|Fb]|].
  - now apply (fsub_rounds a b).
  - unfold fsub. destruct (special b Fb) as [E|E]; rewrite E in *; destruct (decode a); cbn [SFsub]; auto;
      try destruct (Bool.eqb _ _); auto.
  - unfold fsub. destruct (special a Fa) as [E|E]; rewrite E in *; destruct (decode b); cbn [SFsub]; auto;
      try destruct (Bool.eqb _ _); auto.
Qed.
Lemma fmul_pattern a b : pattern a -> pattern b -> pattern (fmul a b).
Proof.
  intros Ra Rb. destruct encode_special as (SN & SI & SZ).
  destruct (finite_dec a) as [Fa|Fa]; [destruct (finite_dec b) as [Fb|Fb]|].
  - now apply (fmul_rounds a b).
  - unfold fmul. destruct (special b Fb) as [E|E]; rewrite E in *; destruct (decode a); cbn [SFmul]; auto.
  - unfold fmul. destruct (special a Fa) as [E|E]; rewrite E in *; destruct (decode b); cbn [SFmul]; auto.
Qed.
Lemma scaled_zero a : finite a -> scaled a = 0 -> exists s, decode a = S754_zero s.
Proof.
  intros F Z. destruct (decode_finite a F) as [|m e H1 H2 H3 H4 H5 H6]; eauto.
  exfalso. pose proof (nonzero_sign a H2). destruct (f_sign a); lia.
Qed.
Lemma fdiv_pattern a b : pattern a -> pattern b -> pattern (fdiv a b).
Proof.
  intros Ra Rb. destruct encode_special as (SN & SI & SZ).
  destruct (finite_dec a) as [Fa|Fa]; [destruct (finite_dec b) as [Fb|Fb]|].
  - destruct (Z.eq_dec (scaled b) 0) as [Z|Z].
    + destruct (scaled_zero b Fb Z) as [s E]. unfold fdiv. rewrite E. destruct (decode a); cbn [SFdiv]; auto.
    + now apply (fdiv_rounds a b).
  - unfold fdiv. destruct (special b Fb) as [E|E]; rewrite E in *; destruct (decode a); cbn [SFdiv]; auto.
  - unfold fdiv. destruct (special a Fa) as [E|E]; rewrite E in *; destruct (decode b); cbn [SFdiv]; auto.
Qed.
Lemma f_of_int_pattern i : pattern (f_of_int i). Proof. apply (f_of_int_rounds i). Qed.
Lemma ffmod_pattern a b : pattern a -> pattern b -> pattern (ffmod a b).
Proof.
  intros Ra Rb. pose proof (encode_pattern a Ra) as Pa. pose proof (encode_pattern b Rb) as Pb. destruct encode_special as (SN & SI & SZ).
  destruct (finite_dec a) as [Fa|Fa]; [destruct (finite_dec b) as [Fb|Fb]|].
  - unfold ffmod. destruct (decode_finite a Fa) as [Za Ma|ma ea A1 A2 A3 A4 A5 A6];
    destruct (decode_finite b Fb) as [Zb Mb|mb eb B1 B2 B3 B4 B5 B6]; cbn [sf_fmod]; auto.
    match goal with |- pattern (encode (binary_normalize _ _ ?m ?e ?s)) => apply (normalize_rounds m e s 1); lia end.
  - unfold ffmod. destruct (special b Fb) as [E|E]; rewrite E in *; destruct (decode a); cbn [sf_fmod]; auto.
  - unfold ffmod. destruct (special a Fa) as [E|E]; rewrite E in *; destruct (decode b); cbn [sf_fmod]; auto.
Qed.

(** ** Exact results *)
Lemma mag_rep k x : 0 <= k -> 0 <= x <= 2 ^ 53 -> exists m, 0 <= m /\ mag m = x * 2 ^ k.
Proof.
  intro K. revert x. pattern k. apply natlike_ind; auto.
  - intros x X. exists x. split; [lia|]. rewrite <- (mag_form 0 x) by lia. now rewrite Z.mul_0_l, Z.add_0_l.
  - clear. intros k K IH x X. destruct (Z.lt_ge_cases x (2 ^ 52)).
    + destruct (IH (2 * x) ltac:(lia)) as (m & M & E). exists m. split; [exact M|]. rewrite E, Z.pow_succ_r by lia. lia.
    + exists (Z.succ k * 2 ^ 52 + x). split; [lia|]. apply mag_form; lia.
Qed.
Lemma rounds_exact b q v : 0 < q -> (exists m, 0 <= m < INF_MAG /\ mag m = Z.abs v) -> rounds (v * q) q b -> finite b /\ scaled b = v.
Proof.
  intros Q (m & M & E) (_ & N & S). rewrite Z.abs_mul, (Z.abs_eq q), <- E in N by lia.
  assert (f_mag b = m) by (eapply (nearest_unique _ q); eauto; apply nearest_exact; lia).
  unfold finite, scaled. rewrite H. split; [lia|]. destruct (f_sign b); nia.
Qed.
Lemma mag_bound m x : 0 <= m -> mag m = x -> x < 2 ^ 2098 -> m < INF_MAG.
Proof. intros M E L. apply mag_lt_iff; [lia|unfold INF_MAG; lia|]. rewrite mag_inf. now rewrite E. Qed.
Lemma f_of_int_exact i : Z.abs i <= 2 ^ 53 -> finite (f_of_int i) /\ scaled (f_of_int i) = i * 2 ^ 1074.
Proof.
  intro I. pose proof (f_of_int_rounds i) as R. apply (rounds_exact _ 1); [lia| |now rewrite Z.mul_1_r].
  destruct (mag_rep 1074 (Z.abs i) ltac:(lia) ltac:(lia)) as (m & M & E).
  assert (A : Z.abs (i * 2 ^ 1074) = Z.abs i * 2 ^ 1074).
  { rewrite Z.abs_mul, (Z.abs_eq (2 ^ _)) by (apply Z.pow_nonneg; lia). reflexivity. }
  exists m. rewrite A. split; [|exact E]. split; [exact M|]. apply (mag_bound m _ M E).
  apply Z.le_lt_trans with (2 ^ 53 * 2 ^ 1074); [|reflexivity]. apply Z.mul_le_mono_nonneg_r; [apply Z.pow_nonneg; lia|lia].
Qed.
Lemma mod_le a b : 0 <= a -> 0 < b -> a mod b <= a.
Proof. intros. apply Z.mod_le; lia. Qed.
(** the remainder of doubles is exact *)
Lemma ffmod_exact a b : pattern a -> pattern b -> finite a -> finite b -> scaled b <> 0 ->
  finite (ffmod a b) /\ scaled (ffmod a b) = Z.rem (scaled a) (scaled b).
Proof.
  intros Ra Rb Fa Fb Nb. unfold ffmod.
  destruct (decode_finite a Fa) as [Za Ma|ma ea A1 A2 A3 A4 A5 A6];
  destruct (decode_finite b Fb) as [Zb Mb|mb eb B1 B2 B3 B4 B5 B6]; cbn [sf_fmod]; try (exfalso; exact (Nb Zb)).
  - rewrite Za. pose proof (zero_rounds (f_sign a) 1 ltac:(lia)) as R. rewrite Z.rem_0_l by exact Nb.
    apply (rounds_exact _ 1); [lia| |exact R]. exists 0. split; [unfold INF_MAG; lia|reflexivity].
  - set (f := Z.min ea eb). set (x := Zpos ma * 2 ^ (ea - f)). set (y := Zpos mb * 2 ^ (eb - f)).
    assert (F1 : f = ea \/ f = eb) by (unfold f; lia). assert (F2 : f <= ea /\ f <= eb /\ -1074 <= f <= 971) by (unfold f; lia).
    assert (X : 0 < x) by (apply Z.mul_pos_pos; [lia|apply Z.pow_pos_nonneg; lia]).
    assert (Y : 0 < y) by (apply Z.mul_pos_pos; [lia|apply Z.pow_pos_nonneg; lia]).
    assert (R53 : 0 <= x mod y < 2 ^ 53).
    { pose proof (Z.mod_pos_bound x y Y). pose proof (mod_le x y ltac:(lia) Y). destruct F1 as [F1|F1].
      - assert (x = Zpos ma) by (unfold x; rewrite F1, Z.sub_diag; cbn [Z.pow]; lia). lia.
      - assert (y = Zpos mb) by (unfold y; rewrite F1, Z.sub_diag; cbn [Z.pow]; lia). lia. }
    pose proof (normalize_rounds (if f_sign a then - (x mod y) else x mod y) f (f_sign a) 1 ltac:(lia) ltac:(lia)) as N.
    assert (EA : Z.abs (scaled a) = x * 2 ^ (f + 1074)) by (rewrite A5, cond_abs by lia; unfold x; rewrite pow_shift by lia; do 2 f_equal; lia).
    assert (EB : Z.abs (scaled b) = y * 2 ^ (f + 1074)) by (rewrite B5, cond_abs by lia; unfold y; rewrite pow_shift by lia; do 2 f_equal; lia).
    assert (ER : Z.rem (scaled a) (scaled b) = (if f_sign a then - (x mod y) else x mod y) * 2 ^ (f + 1074)).
    { pose proof (nonzero_sign a A2) as SA. rewrite <- Z.rem_abs_r by exact Nb. rewrite EB.
      assert (P : 0 < 2 ^ (f + 1074)) by (apply Z.pow_pos_nonneg; lia).
      assert (Q : Z.rem (x * 2 ^ (f + 1074)) (y * 2 ^ (f + 1074)) = x mod y * 2 ^ (f + 1074)).
      { rewrite Z.rem_mod_nonneg; [apply Z.mul_mod_distr_r; lia|apply Z.mul_nonneg_nonneg; lia|apply Z.mul_pos_pos; lia]. }
      destruct (f_sign a).
      - replace (scaled a) with (- (x * 2 ^ (f + 1074))) by lia. rewrite Z.rem_opp_l; [rewrite Q; lia|apply Z.neq_sym, Z.lt_neq, Z.mul_pos_pos; lia].
      - replace (scaled a) with (x * 2 ^ (f + 1074)) by lia. rewrite Q. lia. }
    unfold PREC, EMAX. apply (rounds_exact _ (2 ^ 1)); [lia| |].
    + rewrite ER. destruct (mag_rep (f + 1074) (x mod y) ltac:(lia) ltac:(lia)) as (m & M & E). exists m.
      assert (P : 0 < 2 ^ (f + 1074)) by (apply Z.pow_pos_nonneg; lia).
      assert (AB : Z.abs ((if f_sign a then - (x mod y) else x mod y) * 2 ^ (f + 1074)) = x mod y * 2 ^ (f + 1074)).
      { rewrite Z.abs_mul, (Z.abs_eq (2 ^ _)) by lia. f_equal. destruct (f_sign a); lia. }
      rewrite AB. split; [|exact E]. split; [exact M|]. apply (mag_bound m _ M E).
      clear - R53 F2 P. apply Z.lt_le_trans with (2 ^ 53 * 2 ^ (f + 1074)); [apply Z.mul_lt_mono_pos_r; lia|].
      rewrite <- Z.pow_add_r by lia. apply Z.pow_le_mono_r; lia.
    + rewrite ER. rewrite pow_shift by lia. exact N.
Qed.
