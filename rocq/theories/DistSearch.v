(** Proofs: the search in a table of areas. *)
From Coq Require Import ZArith List Bool Lia.
From Verif Require Import Base Datum CodecModel FloatModel FloatSpec FloatProofs FloatRound FloatInt IntervalModel IntervalProofs
  DistModel DistSpec.
Import ListNotations.
Open Scope Z_scope.

Lemma read_nth values i v : nth_error values i = Some v -> read_value values (Z.of_nat i) = Ok v.
Proof.
  intro H. unfold read_value. destruct (Z.ltb_spec (Z.of_nat i) 0); [lia|]. now rewrite Nat2Z.id, H.
Qed.
Lemma chk64_ok x : - 2 ^ 63 <= x < 2 ^ 63 -> chk64 x = Ok x.
Proof.
  intro H. unfold chk64, INT64_MIN, INT64_MAX. destruct (Z.leb_spec (- 2 ^ 63) x), (Z.leb_spec x (2 ^ 63 - 1)); try lia. reflexivity.
Qed.

Lemma middle a b : (a <= b -> a <= (a + b) / 2 <= b)%nat.
Proof. intro L. split; [apply Nat.div_le_lower_bound|apply Nat.div_le_upper_bound]; lia. Qed.

Lemma search_loop_ok values u : Forall real_num values -> lenZ values <= 2 ^ 60 -> fkey u <> None ->
  forall fuel lower upper index a b,
  (upper < length values)%nat -> (lower <= index <= upper)%nat -> (upper - lower < fuel)%nat ->
  nth_error values lower = Some a -> nth_error values (S upper) = Some b ->
  kle (fkey a) (fkey u) -> klt (fkey u) (fkey b) ->
  exists i, search_loop fuel values u (Z.of_nat lower) (Z.of_nat upper) (Z.of_nat index) = Ok (Z.of_nat i) /\ in_area values i u.
Proof.
  intros NV LV NU. assert (K : forall i v, nth_error values i = Some v -> exists k, fkey v = Some k).
  { intros i v H. apply nth_error_In in H. rewrite Forall_forall in NV. destruct (NV v H) as [_ N]. destruct (fkey v); [eauto|congruence]. }
  destruct (fkey u) as [ku|] eqn:KU; [clear NU|congruence]. unfold lenZ in LV.
  induction fuel as [|fuel IH]; intros lower upper index a b HU HI HF HA HB CA CB; [lia|].
  cbn [search_loop].
  assert (exists v, nth_error values index = Some v) as [v HV].
  { destruct (nth_error values index) eqn:E; [eauto|]. apply nth_error_None in E. lia. }
  assert (LB : (S upper < length values)%nat) by (apply nth_error_Some; congruence).
  assert (exists w, nth_error values (S index) = Some w) as [w HW].
  { destruct (nth_error values (S index)) eqn:E; [eauto|]. apply nth_error_None in E. lia. }
  destruct (K _ _ HV) as [kv KV]. destruct (K _ _ HW) as [kw KW]. destruct (K _ _ HA) as [ka KA]. destruct (K _ _ HB) as [kb KB].
  rewrite (read_nth _ _ _ HV). cbn [bind]. rewrite (flt_pos u v ku kv) by auto.
  rewrite KA, KB in *. cbn [kle klt] in CA, CB.
  destruct (Z.ltb_spec ku kv) as [L|L].
  - assert (lower <> index) by (intro; subst; rewrite HA in HV; injection HV as <-; rewrite KA in KV; injection KV; lia).
    replace (Z.of_nat index - 1) with (Z.of_nat (index - 1)) by lia. rewrite chk64_ok by lia. cbn [bind].
    replace (Z.quot (Z.of_nat lower + Z.of_nat (index - 1)) 2) with (Z.of_nat ((lower + (index - 1)) / 2)).
    2: { rewrite Z.quot_div_nonneg by lia. rewrite Nat2Z.inj_div, Nat2Z.inj_add. reflexivity. }
    pose proof (middle lower (index - 1) ltac:(lia)) as MD.
    apply (IH lower (index - 1)%nat _ a v); auto; try lia.
    + replace (S (index - 1)) with index by lia. exact HV.
    + now rewrite KA.
    + now rewrite KV.
  - replace (Z.of_nat index + 1) with (Z.of_nat (S index)) by lia.
    rewrite (read_nth _ _ _ HW). cbn [bind]. unfold fge. rewrite (fle_pos w u kw ku) by auto.
    destruct (Z.leb_spec kw ku) as [G|G].
    + assert (index <> upper) by (intro; subst; rewrite HB in HW; injection HW as <-; rewrite KB in KW; injection KW; lia).
      rewrite chk64_ok by lia. cbn [bind].
      replace (Z.quot (Z.of_nat (S index) + Z.of_nat upper) 2) with (Z.of_nat ((S index + upper) / 2)).
      2: { rewrite Z.quot_div_nonneg by lia. rewrite Nat2Z.inj_div, Nat2Z.inj_add. reflexivity. }
      pose proof (middle (S index) upper ltac:(lia)) as MD.
      apply (IH (S index) upper _ w b); auto; try lia.
      * now rewrite KW.
      * now rewrite KB.
    + exists index. split; [reflexivity|]. exists v, w. rewrite KU, KV, KW. cbn [kle klt]. auto.
Qed.

(** the first guess is an area *)
Lemma first_guess up u : 0 <= up < 2 ^ 60 -> unit_draw u -> exists i, int_of_f (fmul (f_of_int up) u) = Ok i /\ 0 <= i <= up.
Proof.
  intros U (PU & FU & SU). pose proof unit_pos as P.
  pose proof (f_of_int_rounds up) as R. pose proof (f_of_int_pattern up) as PF.
  assert (FF : finite (f_of_int up)).
  { unfold finite. destruct R as (_ & N & _). destruct N as (N0 & N1 & _). destruct (Z.eq_dec (f_mag (f_of_int up)) INF_MAG) as [E|]; [|lia].
    exfalso. rewrite E in N1. destruct N1 as [N1 _]; [unfold INF_MAG; lia|]. rewrite mag_inf in N1.
    pose proof (mag_nonneg (INF_MAG - 1) ltac:(unfold INF_MAG; lia)). rewrite Z.abs_eq in N1 by (apply Z.mul_nonneg_nonneg; lia).
    assert (up * 2 ^ 1074 <= 2 ^ 60 * 2 ^ 1074) by (apply Z.mul_le_mono_nonneg_r; lia).
    replace (2 ^ 60 * 2 ^ 1074) with (2 ^ 1134) in H0 by reflexivity.
    assert (2 * 2 ^ 1134 < 2 ^ 2098) by reflexivity. lia. }
  assert (Q : finite (fmul (f_of_int up) u) /\ 0 <= scaled (fmul (f_of_int up) u) <= up * 2 ^ 1074).
  { destruct (Z.eq_dec up 0) as [->|NZ].
    - destruct (f_of_int_exact 0 ltac:(lia)) as [F0 E0]. pose proof (fmul_rounds _ _ PF PU F0 FU) as M.
      rewrite E0, !Z.mul_0_l in M. destruct (rounds_exact (fmul (f_of_int 0) u) (2 ^ 1074) 0 P) as [A B].
      + exists 0. split; [unfold INF_MAG; lia|reflexivity].
      + exact M.
      + rewrite B. split; [exact A|]. lia.
    - assert (SG : f_sign (f_of_int up) = false).
      { destruct R as (_ & _ & S). destruct (f_sign (f_of_int up)); auto. assert (0 < up * 2 ^ 1074) by (apply Z.mul_pos_pos; lia). lia. }
      assert (BG : 2 ^ 53 < f_mag (f_of_int up)).
      { pose proof (f_of_int_rounds 1) as R1. assert (LE : 1 * 2 ^ 1074 * 1 <= up * 2 ^ 1074 * 1) by (rewrite !Z.mul_1_r; apply Z.mul_le_mono_nonneg_r; lia).
        pose proof (rounds_mono _ 1 _ _ 1 _ ltac:(lia) ltac:(lia) LE R1 R) as L.
        assert (E1 : f_of_int 1 = ONE) by (vm_compute; reflexivity). rewrite E1 in L. rewrite (finite_fkey _ FF), SG in L.
        change (fkey ONE) with (Some ONE) in L. cbn [kle] in L. unfold ONE in L. lia. }
      destruct (mul_below _ u PF PU FF FU SG BG SU) as [A [B1 B2]]. split; [exact A|]. split; [exact B1|].
      eapply Z.le_trans; [exact B2|].
      destruct R as (_ & (N0 & N1 & _) & _). destruct N1 as [N1 _]; [lia|]. rewrite Z.abs_eq in N1 by (apply Z.mul_nonneg_nonneg; lia).
      pose proof (mag_lt (f_mag (f_of_int up) - 1) (f_mag (f_of_int up)) ltac:(lia)). lia. }
  destruct Q as [QF [Q1 Q2]]. exists (Z.quot (scaled (fmul (f_of_int up) u)) (2 ^ 1074)).
  assert (B : 0 <= Z.quot (scaled (fmul (f_of_int up) u)) (2 ^ 1074) <= up).
  { rewrite Z.quot_div_nonneg by lia. split; [apply Z.div_pos; lia|]. apply Z.div_le_upper_bound; [lia|]. rewrite Z.mul_comm. exact Q2. }
  split; [|exact B]. apply int_of_f_exact; auto. unfold INT64_MIN, INT64_MAX. lia.
Qed.

Lemma unit_key u : unit_draw u -> kle (fkey 0) (fkey u) /\ klt (fkey u) (fkey ONE) /\ fkey u <> None.
Proof.
  intros (P & F & S). assert (F0 : finite 0) by reflexivity. assert (F1 : finite ONE) by reflexivity.
  split; [apply (key_scaled 0 u F0 F); change (scaled 0) with 0; lia|]. split; [|now apply finite_key].
  apply (key_scaled u ONE F F1). replace (scaled ONE) with (2 ^ 1074) by (vm_compute; reflexivity). lia.
Qed.
Lemma kle_trans a b c : kle a b -> kle b c -> kle a c. Proof. destruct a, b, c; cbn; intros; try tauto; lia. Qed.
Lemma klt_kle_trans a b c : klt a b -> kle b c -> klt a c. Proof. destruct a, b, c; cbn; intros; try tauto; lia. Qed.
Lemma kle_klt_trans a b c : kle a b -> klt b c -> klt a c. Proof. destruct a, b, c; cbn; intros; try tauto; lia. Qed.

Lemma increasing_le table : increasing table -> Forall real_num table -> forall i j a b, (i <= j)%nat -> nth_error table i = Some a -> nth_error table j = Some b -> kle (fkey a) (fkey b).
Proof.
  intros I N i j a b L. revert b. induction L as [|j L IH]; intros b A B.
  - rewrite A in B. injection B as <-. apply nth_error_In in A. rewrite Forall_forall in N. destruct (N a A) as [_ K].
    destruct (fkey a); [cbn; lia|congruence].
  - destruct (nth_error table j) as [c|] eqn:C.
    + eapply kle_trans; [apply IH; auto|]. exact (I j c b C B).
    + apply nth_error_None in C. assert (S j < length table)%nat by (apply nth_error_Some; congruence). lia.
Qed.
Lemma in_area_unique table i j u : increasing table -> Forall real_num table -> in_area table i u -> in_area table j u -> i = j.
Proof.
  intros I N (a & b & A & B & C & D) (a' & b' & A' & B' & C' & D').
  assert (X : forall i j a b, (i < j)%nat -> nth_error table (S i) = Some b -> nth_error table j = Some a -> klt (fkey u) (fkey b) -> kle (fkey a) (fkey u) -> False).
  { clear - I N. intros i j a b L B A D C. pose proof (increasing_le table I N (S i) j b a ltac:(lia) B A) as E.
    pose proof (klt_kle_trans _ _ _ D (kle_trans _ _ _ E C)) as F. destruct (fkey u); cbn in F; lia. }
  destruct (Nat.lt_trichotomy i j) as [L|[E|L]]; auto; exfalso; eauto.
Qed.

Lemma search_ok table n u : covering table n -> lenZ table <= 2 ^ 60 -> unit_draw u ->
  exists i, dichotomic_search (Z.of_nat n) table u = Ok (Z.of_nat i) /\ (i < n)%nat /\ in_area table i u /\
            (increasing table -> forall j, in_area table j u -> j = i).
Proof.
  intros (LN & N0 & NM & C0 & C1) LT U. destruct (unit_key u U) as (K0 & K1 & K2).
  unfold dichotomic_search. destruct (first_guess (Z.of_nat n - 1) u) as (g & G & GR); [unfold lenZ in LT; lia|exact U|].
  rewrite G. cbn [bind].
  assert (E0 : nth_error table 0 = Some (nth 0 table 0)) by (apply nth_error_nth'; lia).
  assert (En : nth_error table n = Some (nth n table 0)) by (apply nth_error_nth'; lia).
  replace (Z.of_nat n - 1) with (Z.of_nat (n - 1)) in * by lia.
  replace g with (Z.of_nat (Z.to_nat g)) by lia. change 0 with (Z.of_nat 0) at 1.
  destruct (search_loop_ok table u NM LT K2 (S (Z.to_nat (Z.of_nat n))) 0 (n - 1) (Z.to_nat g) (nth 0 table 0) (nth n table 0)) as (i & S1 & S2); try lia; auto.
  - replace (S (n - 1)) with n by lia. exact En.
  - eapply kle_trans; eauto.
  - eapply klt_kle_trans; eauto.
  - exists i. split; [exact S1|]. split; [|split; [exact S2|]].
    + destruct S2 as (a & b & _ & B & _). assert (S i < length table)%nat by (apply nth_error_Some; congruence). lia.
    + intros I j J. eapply in_area_unique; eauto.
Qed.
