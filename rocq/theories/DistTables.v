(** Proofs about the tables of roulettes and mixtures: the weights they report. *)
From Coq Require Import ZArith List Bool Lia Floats.SpecFloat.
From Verif Require Import Base Datum CodecModel FloatModel FloatSpec FloatProofs FloatRound FloatInt FloatSum IntervalModel
  DistModel DistSpec DistSearch DistRoulette DistProofs DistMix.
Import ListNotations.
Open Scope Z_scope.

Lemma differences_length table : length (differences table) = (length table - 1)%nat.
Proof.
  induction table as [|a [|b l] IH]; [reflexivity|reflexivity|]. change (differences (a :: b :: l)) with (fsub b a :: differences (b :: l)).
  cbn [length] in *. rewrite IH. lia.
Qed.
Lemma differences_nth table : forall i a b, nth_error table i = Some a -> nth_error table (S i) = Some b -> nth_error (differences table) i = Some (fsub b a).
Proof.
  induction table as [|x l IH]; intros i a b A B; [destruct i; discriminate|]. destruct l as [|y l]; [destruct i as [|[|i]]; discriminate|].
  change (differences (x :: y :: l)) with (fsub y x :: differences (y :: l)).
  destruct i; [cbn in A, B; injection A as <-; injection B as <-; reflexivity|]. cbn [nth_error] in A, B |- *. apply IH; auto.
Qed.
Lemma differences_cells table i d : nth_error (differences table) i = Some d ->
  exists a b, nth_error table i = Some a /\ nth_error table (S i) = Some b /\ d = fsub b a.
Proof.
  intro D. assert (I : (i < length (differences table))%nat) by (apply nth_error_Some; congruence). rewrite differences_length in I.
  destruct (nth_error table i) as [a|] eqn:A; [|apply nth_error_None in A; lia].
  destruct (nth_error table (S i)) as [b|] eqn:B; [|apply nth_error_None in B; lia].
  rewrite (differences_nth table i a b A B) in D. injection D as <-. eauto.
Qed.
Lemma differences_pattern table : Forall pattern table -> Forall pattern (differences table).
Proof.
  intro F. apply Forall_forall. intros d D. apply In_nth_error in D. destruct D as [i D].
  destruct (differences_cells table i d D) as (a & b & A & B & ->). rewrite Forall_forall in F. apply fsub_pattern; apply F; eapply nth_error_In; eauto.
Qed.

(** From 0 to 1 *)
Definition spans (table : list Z) : Prop :=
  (1 < length table)%nat /\ Forall pattern table /\ nth_error table 0 = Some 0 /\ nth_error table (length table - 1) = Some ONE.
Lemma one_pattern : pattern ONE. Proof. unfold pattern, ONE. lia. Qed.
Lemma one_scaled : scaled ONE = 2 ^ 1074. Proof. vm_compute. reflexivity. Qed.

(** ** Weights reported by an increasing table are acceptable *)
Lemma some_step (f : nat -> Z) n N : (0 < n)%nat -> f 0%nat = 0 -> f n = N -> 0 < N ->
  exists i, (i < n)%nat /\ N <= Z.of_nat n * (f (S i) - f i).
Proof.
  intros Hn F0 FN PN.
  assert (K : forall k, (k <= n)%nat -> (exists i, (i < k)%nat /\ N <= Z.of_nat n * (f (S i) - f i)) \/ (Z.of_nat n * f k <= Z.of_nat k * (N - 1))).
  { induction k as [|k IH]; intro L; [right; rewrite F0; lia|]. destruct IH as [(i & I & E)|E]; [lia|left; exists i; split; [lia|exact E]|].
    destruct (Z.le_gt_cases N (Z.of_nat n * (f (S k) - f k))) as [G|G]; [left; exists k; split; [lia|exact G]|].
    right. nia. }
  destruct (K n (le_n n)) as [H|H]; [exact H|]. rewrite FN in H. nia.
Qed.
Lemma steps_ok table : spans table -> Forall finite table -> increasing table -> lenZ table <= 2 ^ 60 -> weights_ok (differences table).
Proof.
  intros (L & P & T0 & T1) F I LZ. unfold lenZ in LZ.
  assert (CELL : forall i, (i < length table)%nat -> exists a, nth_error table i = Some a /\ pattern a /\ finite a).
  { intros i Hi. destruct (nth_error table i) as [a|] eqn:A; [|apply nth_error_None in A; lia]. exists a. rewrite Forall_forall in P, F.
    pose proof (nth_error_In _ _ A). auto. }
  assert (NN : Forall nonneg (differences table)).
  { apply Forall_forall. intros d D. apply In_nth_error in D. destruct D as [i D].
    destruct (differences_cells table i d D) as (a & b & A & B & ->).
    assert (Li : (S i < length table)%nat) by (apply nth_error_Some; congruence).
    destruct (CELL i ltac:(lia)) as (a' & A' & Pa & Fa). destruct (CELL (S i) Li) as (b' & B' & Pb & Fb).
    rewrite A in A'. rewrite B in B'. injection A' as <-. injection B' as <-.
    pose proof (I i a b A B) as K. apply (key_scaled a b Fa Fb) in K. pose proof (fsub_rounds b a Pb Pa Fb Fa) as R.
    split; [exact (proj1 R)|]. apply (rounds_mono 0 1 0 (scaled b - scaled a) 1 _); try lia; [|exact R]. apply (zero_rounds false 1). lia. }
  assert (Ld : length (differences table) = (length table - 1)%nat) by apply differences_length.
  split; [unfold lenZ; rewrite Ld; unfold INT64_MAX; lia|]. split; [exact NN|].
  pose (f i := scaled (nth i table 0)). set (n := (length table - 1)%nat) in *.
  destruct (some_step f n (2 ^ 1074)) as (i & Hi & E).
  - lia.
  - unfold f. now rewrite (nth_error_nth table 0 0 T0).
  - unfold f. rewrite (nth_error_nth table n 0 T1). apply one_scaled.
  - reflexivity.
  - destruct (CELL i ltac:(lia)) as (a & A & Pa & Fa). destruct (CELL (S i) ltac:(lia)) as (b & B & Pb & Fb). unfold f in E.
    rewrite (nth_error_nth table i 0 A), (nth_error_nth table (S i) 0 B) in E.
    pose proof (differences_nth table i a b A B) as D. set (d := fsub b a) in *.
    assert (Small : scaled 0x3c30000000000000 = 2 ^ 1014 /\ finite 0x3c30000000000000) by (split; [vm_compute; reflexivity|reflexivity]).
    destruct Small as [S0 SF]. set (eps := 0x3c30000000000000) in *. assert (PE : pattern eps) by (unfold pattern, eps; lia).
    assert (G : 2 ^ 1014 <= scaled b - scaled a).
    { assert (2 ^ 1074 = 2 ^ 60 * 2 ^ 1014) by reflexivity. assert (0 < 2 ^ 1014) by reflexivity. nia. }
    assert (KD : kle (fkey eps) (fkey d)).
    { apply (rounds_mono (scaled eps) 1 eps (scaled b - scaled a) 1 d); try lia; [now apply self_rounds|now apply fsub_rounds]. }
    assert (KT : kle (fkey d) (fkey (total (differences table)))).
    { eapply kle_trans; [|apply (psum_total _ (S i)); exact NN]. rewrite (psum_S _ _ _ D). apply add_nonneg; [now apply psum_nonneg|].
      rewrite Forall_forall in NN. apply NN. eapply nth_error_In; eauto. }
    pose proof (kle_trans _ _ _ KD KT) as KE. pose proof (psum_nonneg (differences table) (length (differences table)) NN) as TN. fold (total (differences table)) in TN.
    set (T := total (differences table)) in *.
    split.
    + split; [apply TN|]. change (fkey eps) with (Some eps) in KE. change (fkey 0) with (Some 0).
      clear - KE. destruct (fkey T) as [k|]; cbn [kle klt] in *; [unfold eps in KE; lia|contradiction].
    + destruct (nonneg_cases T TN) as [[FT ST]| ->]; [|reflexivity].
      apply (key_scaled eps T SF FT) in KE. rewrite S0 in KE.
      assert (P0 : 0 < scaled T) by (assert (0 < 2 ^ 1014) by reflexivity; lia).
      pose proof (fdiv_rounds ONE T one_pattern (proj1 TN) ltac:(reflexivity) FT ltac:(lia)) as R.
      rewrite (Z.sgn_pos _ P0), Z.mul_1_r, (Z.abs_eq (scaled T)), one_scaled in R by lia.
      assert (BIG : finite 0x43b0000000000000 /\ scaled 0x43b0000000000000 = 2 ^ 1134) by (split; [reflexivity|vm_compute; reflexivity]).
      destruct BIG as [BF BS]. assert (PB : pattern 0x43b0000000000000) by (unfold pattern; lia).
      assert (KB : kle (fkey (fdiv ONE T)) (fkey 0x43b0000000000000)).
      { refine (rounds_mono _ (scaled T) _ _ 1 _ P0 ltac:(lia) _ R (self_rounds _ PB BF)). rewrite BS.
        assert (2 ^ 1074 * 2 ^ 1074 = 2 ^ 1134 * 2 ^ 1014) by reflexivity. assert (0 < 2 ^ 1134) by reflexivity. nia. }
      apply (below_finite _ 0x43b0000000000000); [|exact BF|exact KB]. split; [exact (proj1 R)|].
      refine (rounds_mono 0 1 0 _ (scaled T) _ ltac:(lia) P0 _ (zero_rounds false 1 ltac:(lia)) R). rewrite Z.mul_0_l, Z.mul_1_r. discriminate.
Qed.

(** ** A table whose weights are not negative nor NaN only has numbers *)
Lemma fsub_nonfinite_left a b : pattern a -> pattern b -> finite b -> ~ finite a -> nonneg (fsub a b) -> a = INFINITY.
Proof.
  intros Pa Pb Fb Fa [_ N]. destruct (special a Fa) as [E|E]; unfold fsub in N; rewrite E in N.
  - cbn in N. destruct (decode b); cbn in N; vm_compute in N; contradiction.
  - destruct (f_sign a) eqn:S.
    + exfalso. destruct (decode_finite b Fb) as [|]; vm_compute in N; apply N; reflexivity.
    + pose proof (sign_unpack a Pa) as U. rewrite S in U. cbn [sgn_bit] in U. unfold finite in Fa.
      assert (f_mag a = INF_MAG); [|unfold INFINITY, INF_MAG in *; lia].
      destruct (decode_decoded a) as [H|H|H|m H H0|m e H H0 H1]; try discriminate. unfold INF_MAG. exact H.
Qed.
Lemma fsub_infinity_right b : pattern b -> ~ nonneg (fsub b INFINITY).
Proof.
  intros Pb [_ N]. unfold fsub in N. change (decode INFINITY) with (S754_infinity false) in N.
  destruct (finite_dec b) as [F|F].
  - destruct (decode_finite b F); vm_compute in N; apply N; reflexivity.
  - destruct (special b F) as [E|E]; rewrite E in N; [|destruct (f_sign b)]; vm_compute in N; contradiction.
Qed.
Lemma nonneg_steps table : spans table -> Forall nonneg (differences table) -> Forall finite table.
Proof.
  intros (L & P & T0 & T1) N.
  assert (K : forall i a, nth_error table i = Some a -> finite a).
  { induction i as [|i IH]; intros a A; [rewrite T0 in A; injection A as <-; reflexivity|].
    destruct (nth_error table i) as [z|] eqn:Z; [|apply nth_error_None in Z; assert (nth_error table (S i) = None) by (apply nth_error_None; lia); congruence].
    specialize (IH z eq_refl). destruct (finite_dec a) as [|F]; [auto|]. exfalso. rewrite Forall_forall in N, P.
    assert (Pa : pattern a) by (apply P; eapply nth_error_In; eauto). assert (Pz : pattern z) by (apply P; eapply nth_error_In; eauto).
    pose proof (N _ (nth_error_In _ _ (differences_nth table i z a Z A))) as D.
    pose proof (fsub_nonfinite_left a z Pa Pz IH F D) as E. subst a.
    assert (Li : (S i < length table)%nat) by (apply nth_error_Some; congruence).
    destruct (Nat.eq_dec (S i) (length table - 1)) as [E|E]; [rewrite E, T1 in A; discriminate|].
    destruct (nth_error table (S (S i))) as [b|] eqn:B; [|apply nth_error_None in B; lia].
    apply (fsub_infinity_right b); [apply P; eapply nth_error_In; eauto|]. apply N. eapply nth_error_In. apply (differences_nth table (S i)); eauto. }
  apply Forall_forall. intros a A. apply In_nth_error in A. destruct A as [i A]. eauto.
Qed.
Lemma nonneg_step a b : pattern a -> pattern b -> finite a -> finite b -> nonneg (fsub b a) -> scaled a <= scaled b.
Proof.
  intros Pa Pb Fa Fb N. pose proof (fsub_rounds b a Pb Pa Fb Fa) as (P & R & S). destruct (f_sign (fsub b a)) eqn:E; [|lia].
  destruct N as [_ N]. unfold fkey in N at 2. rewrite E in N. change (fkey 0) with (Some 0) in N.
  destruct (2047 * 2 ^ 52 <? f_mag (fsub b a)); cbn [kle] in N; [contradiction|]. pose proof (f_mag_range (fsub b a)).
  assert (Z : f_mag (fsub b a) = 0) by lia. rewrite Z in R. destruct R as (_ & _ & R). destruct R as [R _]; [unfold INF_MAG; lia|].
  change (mag 0 + mag (0 + 1)) with 1 in R. lia.
Qed.

(** ** The table of a mixture is that of the weights it reports *)
Lemma fmul_inf_nonfinite inv : pattern inv -> ~ finite (fmul INFINITY inv).
Proof.
  intro P. unfold fmul. change (decode INFINITY) with (S754_infinity false).
  destruct (decode inv) as [[|]|[|]| |[|] m e]; vm_compute; intro; discriminate.
Qed.
Lemma inverse_spec weights : sum_ok weights -> let inv := fdiv ONE (total weights) in pattern inv /\ finite inv /\ 0 <= scaled inv.
Proof.
  intros (N & (Pt & Kt) & Fi). set (T := total weights) in *.
  pose proof (psum_nonneg weights (length weights) N) as TN. fold (total weights) in TN. fold T in TN.
  destruct (nonneg_cases T TN) as [[FT ST]|E].
  - apply (r_inv weights); [|exact FT]. split; [exact N|]. split; [split; [exact Pt|exact Kt]|exact Fi].
  - rewrite E. cbv zeta. replace (fdiv ONE INFINITY) with 0 by (vm_compute; reflexivity). repeat split; vm_compute; try discriminate; reflexivity.
Qed.
Lemma reported_again weights table : sum_ok weights -> weights <> [] -> is_mixture_table weights table ->
  Forall nonneg (differences table) ->
  length (differences table) = length weights /\ total (differences table) = ONE /\ fractions (differences table) = differences table /\
  (forall i a, nth_error table i = Some a -> psum (differences table) i = a).
Proof.
  intros W NE (L & T0 & T1 & TC) N. set (n := length weights) in *.
  assert (Ld : length (differences table) = n) by (rewrite differences_length, L; lia).
  assert (n0 : (0 < n)%nat) by (unfold n; destruct weights; [congruence|cbn; lia]).
  destruct (inverse_spec weights W) as (PI & FI & SI). set (inv := fdiv ONE (total weights)) in *.
  assert (PW : Forall pattern weights) by (destruct W as (F & _); eapply Forall_impl; [|exact F]; intros a A; apply A).
  assert (PF : Forall pattern (fractions weights)).
  { unfold fractions. apply Forall_map. eapply Forall_impl; [|exact PW]. intros a A. now apply fmul_pattern. }
  assert (PP : forall i, pattern (psum (fractions weights) i)).
  { intro i. unfold psum. assert (G : forall l s, Forall pattern l -> pattern s -> pattern (fold_left fadd l s)).
    { induction l as [|x l IH]; intros s F P; cbn; [exact P|]. inversion F; subst. apply IH; auto. now apply fadd_pattern. }
    apply G; [now apply Forall_firstn|unfold pattern; lia]. }
  assert (CELL : forall i, (i < n)%nat -> nth_error table i = Some (psum (fractions weights) i)).
  { intros i Hi. destruct i; [rewrite T0; reflexivity|]. apply TC. lia. }
  assert (PT : Forall pattern table).
  { apply Forall_forall. intros a A. apply In_nth_error in A. destruct A as [i A].
    assert (Hi : (i < length table)%nat) by (apply nth_error_Some; congruence). destruct (Nat.eq_dec i n) as [->|D].
    - rewrite T1 in A. injection A as <-. apply one_pattern.
    - rewrite CELL in A by lia. injection A as <-. apply PP. }
  assert (SP : spans table).
  { split; [lia|]. split; [exact PT|]. split; [exact T0|]. rewrite L. replace (S n - 1)%nat with n by lia. exact T1. }
  pose proof (nonneg_steps table SP N) as FT. rewrite Forall_forall in FT, PT.
  assert (STEP : forall i a b, nth_error table i = Some a -> nth_error table (S i) = Some b -> scaled a <= scaled b).
  { intros i a b A B. apply nonneg_step; try (apply PT; eapply nth_error_In; eauto); try (apply FT; eapply nth_error_In; eauto).
    rewrite Forall_forall in N. apply N. eapply nth_error_In. apply (differences_nth table i); eauto. }
  assert (GROWS : forall i b, (S i < n)%nat -> nth_error table (S i) = Some b ->
     exists a x, nth_error table i = Some a /\ pattern x /\ finite x /\ 0 <= scaled x /\ b = fadd a x).
  { intros i b Hi B. exists (psum (fractions weights) i). pose proof (CELL i ltac:(lia)) as A. rewrite (CELL (S i) Hi) in B. injection B as <-.
    destruct (nth_error weights i) as [w|] eqn:Ew; [|apply nth_error_None in Ew; fold n in Ew; lia].
    assert (EF : nth_error (fractions weights) i = Some (fmul w inv)) by (unfold fractions; now rewrite nth_error_map, Ew).
    exists (fmul w inv). split; [exact A|]. rewrite (psum_S _ _ _ EF).
    assert (Px : pattern (fmul w inv)) by (rewrite Forall_forall in PF; apply PF; eapply nth_error_In; eauto).
    assert (Fx : finite (fmul w inv)).
    { pose proof (FT _ (nth_error_In _ _ (CELL (S i) Hi))) as Fb. rewrite (psum_S _ _ _ EF) in Fb.
      destruct (finite_dec (fmul w inv)) as [|X]; [auto|]. exfalso. pose proof (FT _ (nth_error_In _ _ A)) as Fa. unfold fadd in Fb.
      revert Fb. destruct (special _ X) as [E|E]; rewrite E; destruct (decode_finite _ Fa) as [|]; cbn [SFadd]; clear;
        try (destruct (f_sign (fmul w inv))); intro Fb; vm_compute in Fb; discriminate. }
    split; [exact Px|]. split; [exact Fx|]. split; [|reflexivity].
    assert (Nw : nonneg w) by (destruct W as (F & _); rewrite Forall_forall in F; apply F; eapply nth_error_In; eauto).
    destruct (nonneg_cases w Nw) as [[Fw Sw]| ->]; [|exfalso; now apply (fmul_inf_nonfinite inv PI)].
    pose proof (fmul_rounds w inv (proj1 Nw) PI Fw FI) as R.
    apply (key_scaled 0 _ ltac:(reflexivity) Fx). refine (rounds_mono 0 1 0 _ (2 ^ 1074) _ ltac:(lia) unit_pos _ (zero_rounds false 1 ltac:(lia)) R).
    rewrite Z.mul_0_l, Z.mul_1_r. now apply Z.mul_nonneg_nonneg. }
  assert (PL : forall i a, nth_error table i = Some a -> plain a).
  { induction i as [|i IH]; intros a A; [rewrite T0 in A; injection A as <-; repeat split; vm_compute; congruence|].
    assert (Li : (S i < length table)%nat) by (apply nth_error_Some; congruence). rewrite L in Li.
    destruct (Nat.eq_dec (S i) n) as [E|E]; [rewrite E, T1 in A; injection A as <-; repeat split; vm_compute; congruence|].
    destruct (GROWS i a ltac:(lia) A) as (z & x & Z & Px & Fx & Sx & ->). destruct (IH z Z) as (P & F & S).
    split; [now apply fadd_pattern|]. split; [apply FT; eapply nth_error_In; eauto|]. now apply fadd_plain_sign. }
  assert (SUM : forall i a, nth_error table i = Some a -> psum (differences table) i = a).
  { induction i as [|i IH]; intros b B; [rewrite T0 in B; injection B as <-; reflexivity|].
    assert (Li : (S i < length table)%nat) by (apply nth_error_Some; congruence). rewrite L in Li.
    destruct (nth_error table i) as [a|] eqn:A; [|apply nth_error_None in A; lia].
    rewrite (psum_S _ _ _ (differences_nth table i a b A B)), (IH a eq_refl).
    apply add_back; [eapply PL; eauto|eapply PL; eauto|eapply STEP; eauto|].
    destruct (Nat.eq_dec (S i) n) as [E|E].
    - left. rewrite E, T1 in B. injection B as <-. reflexivity.
    - right. destruct (GROWS i b ltac:(lia) B) as (z & x & Z & Px & Fx & Sx & Q). rewrite A in Z. injection Z as <-. eauto. }
  split; [exact Ld|]. assert (TT : total (differences table) = ONE) by (unfold total; rewrite Ld; now apply SUM).
  split; [exact TT|]. split; [|exact SUM].
  unfold fractions. rewrite TT. replace (fdiv ONE ONE) with ONE by (vm_compute; reflexivity).
  rewrite <- (map_id (differences table)) at 2. apply map_ext_in. intros d D. apply In_nth_error in D. destruct D as [i D].
  destruct (differences_cells table i d D) as (a & b & A & B & ->). apply fmul_one. apply fsub_plain; [eapply PL; eauto|eapply PL; eauto|eapply STEP; eauto].
Qed.
