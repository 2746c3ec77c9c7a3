(** Adding back a difference: if [t] is a rounded sum of [a] and something, adding to [a]
    the rounded difference [t - a] gives [t] again. *)
From Coq Require Import ZArith List Bool Lia Floats.SpecFloat.
From Verif Require Import Base Datum FloatModel FloatSpec FloatProofs FloatRound.
Open Scope Z_scope.

Definition gap (m : Z) : Z := mag (m + 1) - mag m.
Lemma gap_step m : 0 <= m -> gap m <= gap (m + 1) /\ (Z.even (m + 1) = false -> gap m = gap (m + 1)).
Proof.
  intro H. unfold gap. destruct (mag_cases m H) as (k & r & -> & Hk & C).
  replace (k * 2 ^ 52 + r + 1) with (k * 2 ^ 52 + (r + 1)) by lia.
  rewrite (mag_form k r), (mag_form k (r + 1)) by lia.
  destruct (Z.eq_dec (r + 1) (2 ^ 53)) as [E|E].
  - assert (E2 : mag (k * 2 ^ 52 + (r + 1) + 1) = (2 ^ 52 + 1) * 2 ^ (k + 1)).
    { replace (k * 2 ^ 52 + (r + 1) + 1) with ((k + 1) * 2 ^ 52 + (2 ^ 52 + 1)) by lia. apply mag_form; lia. }
    rewrite E2, E. assert (P : 2 ^ (k + 1) = 2 * 2 ^ k) by (rewrite Z.pow_add_r by lia; lia). rewrite P.
    assert (0 < 2 ^ k) by (apply Z.pow_pos_nonneg; lia). replace r with (2 ^ 53 - 1) by lia. split; [nia|].
    intro O. exfalso. rewrite Z.even_add, Z.even_mul in O. now rewrite orb_true_r in O.
  - replace (k * 2 ^ 52 + (r + 1) + 1) with (k * 2 ^ 52 + (r + 2)) by lia. rewrite (mag_form k (r + 2)) by lia.
    split; [nia|intros _; nia].
Qed.
Lemma gap_mono m n : 0 <= m <= n -> gap m <= gap n.
Proof.
  intros [A B]. replace n with (m + Z.of_nat (Z.to_nat (n - m))) by lia.
  induction (Z.to_nat (n - m)) as [|j IH]; [replace (m + Z.of_nat 0) with m by lia; lia|].
  pose proof (proj1 (gap_step (m + Z.of_nat j) ltac:(lia))). replace (m + Z.of_nat (S j)) with (m + Z.of_nat j + 1) by lia. lia.
Qed.
(** The nearest magnitude is no further than any other *)
Lemma nearest_best p m x : nearest p 1 m -> 0 <= x <= INF_MAG -> Z.abs (mag m - p) <= Z.abs (mag x - p).
Proof.
  intros (R & A & B) X. destruct (Z.lt_trichotomy x m) as [L|[->|L]]; [|lia|].
  - destruct A as [A _]; [lia|]. pose proof (mag_le x (m - 1) ltac:(lia)). pose proof (mag_lt (m - 1) m ltac:(lia)). lia.
  - destruct B as [B _]; [lia|]. pose proof (mag_le (m + 1) x ltac:(lia)). pose proof (mag_lt m (m + 1) ltac:(lia)). lia.
Qed.
Lemma back_nearest a t z : 0 <= a <= t -> t < INF_MAG -> nearest (mag t - mag a) 1 z ->
  (Z.even t = true \/ exists x, 0 <= x <= INF_MAG /\ nearest (mag a + mag x) 1 t) ->
  nearest (mag a + mag z) 1 t.
Proof.
  intros A T Nz E. pose proof (mag_nonneg a ltac:(lia)) as A0.
  assert (Zt : z <= t).
  { apply (nearest_mono (mag t - mag a) 1 (mag t) 1); auto; try lia. apply mag_nearest. lia. }
  assert (Z0 : 0 <= z) by (destruct Nz; lia). pose proof (mag_nonneg z Z0) as MZ. pose proof (mag_le a t ltac:(lia)) as MA.
  assert (Odd : Z.even t = false -> 0 < t /\ gap (t - 1) = gap t).
  { intro O. assert (0 < t) by (destruct (Z.eq_dec t 0) as [->|]; [discriminate|lia]). split; [auto|].
    pose proof (proj2 (gap_step (t - 1) ltac:(lia))) as G. replace (t - 1 + 1) with t in G by lia. auto. }
  assert (Tie : Z.even t = false -> Z.abs (2 * (mag z - (mag t - mag a))) < gap t).
  { intro O. destruct E as [E|(x & X & Nx)]; [congruence|]. destruct (Odd O) as [T0 G].
    pose proof (nearest_best _ _ x Nz X) as Best. destruct Nx as (_ & U & V). destruct (U T0) as [U1 U2]. destruct (V T) as [V1 V2].
    unfold gap in *. replace (t - 1 + 1) with t in G by lia.
    assert (mag (t - 1) + mag t < 2 * (mag a + mag x)).
    { destruct (Z.eq_dec ((mag (t - 1) + mag t) * 1) (2 * (mag a + mag x))) as [Q|]; [rewrite (U2 Q) in O; discriminate|lia]. }
    assert (2 * (mag a + mag x) < mag t + mag (t + 1)).
    { destruct (Z.eq_dec (2 * (mag a + mag x)) ((mag t + mag (t + 1)) * 1)) as [Q|]; [rewrite (V2 Q) in O; discriminate|lia]. }
    lia. }
  destruct Nz as (Rz & Lo & Hi).
  assert (Up : 2 * (mag z - (mag t - mag a)) <= gap t).
  { destruct (Z.eq_dec z 0) as [->|]; [pose proof (mag_succ t ltac:(lia)); unfold gap; rewrite mag_0; lia|].
    destruct Lo as [Lo _]; [lia|]. pose proof (gap_mono (z - 1) t ltac:(lia)) as G. unfold gap in *. replace (z - 1 + 1) with z in G by lia. lia. }
  assert (Dn : 0 < t -> - gap (t - 1) <= 2 * (mag z - (mag t - mag a))).
  { intro T0. destruct (Z.eq_dec z t) as [->|].
    - pose proof (mag_succ (t - 1) ltac:(lia)). unfold gap. replace (t - 1 + 1) with t in * by lia. lia.
    - destruct Hi as [Hi _]; [lia|]. pose proof (gap_mono z (t - 1) ltac:(lia)) as G. unfold gap in *. replace (t - 1 + 1) with t in * by lia. lia. }
  split; [lia|]. split.
  - intro T0. specialize (Dn T0). unfold gap in *. replace (t - 1 + 1) with t in * by lia. split; [lia|]. intro Q.
    destruct (Z.even t) eqn:O; auto. specialize (Tie eq_refl). destruct (Odd eq_refl) as [_ G]. lia.
  - intros _. unfold gap in *. split; [lia|]. intro Q. destruct (Z.even t) eqn:O; auto. specialize (Tie eq_refl). lia.
Qed.

(** ** On bit patterns *)
(** Finite, and not negative (minus zero included) *)
Definition plain (a : Z) : Prop := pattern a /\ finite a /\ f_sign a = false.
Lemma plain_mag a : plain a -> a = f_mag a /\ scaled a = mag a /\ 0 <= a < INF_MAG.
Proof.
  intros (P & F & S). pose proof (sign_unpack a P) as U. rewrite S in U. cbn [sgn_bit] in U. pose proof (f_mag_range a).
  assert (E : a = f_mag a) by lia. unfold scaled, finite in *. rewrite S. split; [exact E|]. split; [now rewrite <- E|]. lia.
Qed.
Lemma mag_plain m : 0 <= m < INF_MAG -> plain m /\ f_mag m = m.
Proof.
  intro R. unfold plain, pattern, finite, f_sign, f_mag. rewrite Z.mod_small by (unfold INF_MAG in R; lia).
  unfold INF_MAG in *. repeat split; try lia.
Qed.
(** a rounded positive value, and a rounded zero that is not minus zero *)
Lemma rounds_plain p b m : rounds p 1 b -> 0 <= p -> nearest p 1 m -> m < INF_MAG -> (p = 0 -> f_sign b = false) -> b = m.
Proof.
  intros (P & N & S) Hp Hm F Z. rewrite Z.abs_eq in N by lia. pose proof (nearest_unique p 1 _ _ ltac:(lia) N Hm) as E.
  pose proof (sign_unpack b P) as U. destruct (f_sign b); [|cbn [sgn_bit] in U; lia].
  assert (p = 0) by lia. specialize (Z H). discriminate.
Qed.
Lemma fsub_self_zero a b : plain a -> plain b -> scaled a = scaled b -> fsub a b = 0.
Proof.
  intros A B E. destruct (plain_mag a A) as (_ & Ea & Ra). destruct (plain_mag b B) as (_ & Eb & Rb).
  assert (a = b) by (apply Z.le_antisymm; apply mag_le_iff; lia). subst b. destruct A as (P & F & S).
  unfold fsub, PREC, EMAX. destruct (decode_finite a F) as [Za Ma|m e H1 H2 H3 H4 H5 H6]; cbn [SFsub].
  - rewrite S. reflexivity.
  - rewrite aligned by lia. rewrite Z.sub_diag. reflexivity.
Qed.
Lemma fadd_plain_sign a b : f_sign a = false -> finite a -> pattern a -> finite b -> pattern b -> 0 <= scaled b -> f_sign (fadd a b) = false.
Proof.
  intros S F P Fb Pb Sb. destruct (plain_mag a (conj P (conj F S))) as (_ & Ea & Ra). pose proof (mag_nonneg a ltac:(lia)) as Ma.
  destruct (Z.eq_dec (scaled a + scaled b) 0) as [Z|Z].
  - assert (Za : scaled a = 0) by lia. assert (Zb : scaled b = 0) by lia.
    destruct (decode_finite a F) as [_ Ma0|m e H1 H2]; [|exfalso; pose proof (nonzero_sign a H2) as X; rewrite S in X; lia].
    assert (a = 0) by (pose proof (sign_unpack a P) as U; rewrite S in U; cbn [sgn_bit] in U; lia). subst a.
    unfold fadd. destruct (decode_finite b Fb) as [_ Mb0|m e H1 H2]; [|exfalso; pose proof (nonzero_sign b H2) as X; destruct (f_sign b); lia].
    now destruct (f_sign b).
  - destruct (fadd_rounds a b P Pb F Fb) as (_ & _ & X). destruct (f_sign (fadd a b)); [lia|reflexivity].
Qed.
Lemma fsub_plain a t : plain a -> plain t -> scaled a <= scaled t ->
  plain (fsub t a) /\ nearest (mag t - mag a) 1 (fsub t a).
Proof.
  intros A T L. destruct (plain_mag a A) as (_ & Ea & Ra). destruct (plain_mag t T) as (_ & Et & Rt).
  pose proof A as (Pa & Fa & Sa). pose proof T as (Pt & Ft & St). rewrite Ea, Et in L.
  pose proof (fsub_rounds t a Pt Pa Ft Fa) as R. rewrite Ea, Et in R. pose proof R as (P & N & S). rewrite Z.abs_eq in N by lia.
  assert (Sg : f_sign (fsub t a) = false).
  { destruct (Z.eq_dec (mag t - mag a) 0) as [Z|Z]; [rewrite (fsub_self_zero t a) by (auto; lia); reflexivity|].
    destruct (f_sign (fsub t a)); [lia|reflexivity]. }
  pose proof (sign_unpack _ P) as U. rewrite Sg in U. cbn [sgn_bit] in U. rewrite Z.add_0_l in U. rewrite <- U in N.
  split; [|exact N]. split; [exact P|]. split; [|exact Sg]. unfold finite. rewrite <- U.
  assert (fsub t a <= t); [|lia]. apply (nearest_mono (mag t - mag a) 1 (mag t) 1); auto; try lia; [|apply mag_nearest; lia].
  pose proof (mag_nonneg a ltac:(lia)). lia.
Qed.
Lemma add_back a t : plain a -> plain t -> scaled a <= scaled t ->
  (Z.even t = true \/ exists x, pattern x /\ finite x /\ 0 <= scaled x /\ t = fadd a x) ->
  fadd a (fsub t a) = t.
Proof.
  intros A T L E. destruct (fsub_plain a t A T L) as [D Nd]. destruct (plain_mag a A) as (_ & Ea & Ra). destruct (plain_mag t T) as (Mt & Et & Rt).
  destruct (plain_mag _ D) as (_ & Ed & Rd). pose proof A as (Pa & Fa & Sa). pose proof D as (Pd & Fd & Sd).
  pose proof (mag_nonneg a ltac:(lia)). pose proof (mag_nonneg (fsub t a) ltac:(lia)).
  apply (rounds_plain (mag a + mag (fsub t a))).
  - rewrite <- Ea, <- Ed. now apply fadd_rounds.
  - lia.
  - apply back_nearest; try lia; [|exact Nd|].
    + split; [lia|]. apply mag_le_iff; lia.
    + destruct E as [E|(x & Px & Fx & Sx & Q)]; [now left|]. right. exists (f_mag x). pose proof (f_mag_range x). unfold finite in Fx. split; [lia|].
      destruct (fadd_rounds a x Pa Px Fa Fx) as (_ & N & _). rewrite <- Q, <- Mt, Ea in N.
      pose proof (scaled_abs x) as SA. rewrite Z.abs_eq in SA by lia. rewrite SA in N. rewrite Z.abs_eq in N; [exact N|lia].
  - lia.
  - intros _. apply fadd_plain_sign; auto. rewrite Ed. lia.
Qed.
Lemma fmul_one a : plain a -> fmul a 0x3ff0000000000000 = a.
Proof.
  intro A. destruct (plain_mag a A) as (Ma & Ea & Ra). pose proof A as (P & F & S).
  set (one := 0x3ff0000000000000). assert (P1 : pattern one) by (unfold pattern, one; lia). assert (F1 : finite one) by reflexivity.
  pose proof (fmul_rounds a one P P1 F F1) as R. replace (scaled one) with (2 ^ 1074) in R by (vm_compute; reflexivity).
  pose proof R as (PR & NR & SR).
  assert (M : f_mag (fmul a one) = a).
  { rewrite Ea in NR. pose proof (mag_nonneg a ltac:(lia)). rewrite Z.abs_eq in NR by lia.
    apply (nearest_unique (mag a * 2 ^ 1074) (2 ^ 1074)); [lia|exact NR|]. apply nearest_exact; lia. }
  pose proof (sign_unpack _ PR) as U. rewrite M in U.
  destruct (f_sign (fmul a one)) eqn:Sg; [|cbn [sgn_bit] in U; lia]. exfalso.
  assert (Z : scaled a = 0) by (pose proof (mag_nonneg a ltac:(lia)); lia).
  assert (a = 0). { destruct (Z.eq_dec a 0); auto. pose proof (mag_lt 0 a ltac:(lia)). rewrite mag_0 in *. lia. }
  subst a. vm_compute in Sg. discriminate.
Qed.
