(** Proofs: tables of roulettes and mixtures. *)
From Coq Require Import ZArith List Bool Lia SpecFloat.
From Verif Require Import Base Datum CodecModel FloatModel FloatSpec FloatProofs FloatRound FloatInt IntervalModel IntervalProofs
  DistModel DistSpec DistSearch.
Import ListNotations.
Open Scope Z_scope.

(** ** Sums of non negative numbers, infinity included *)
Definition INFINITY := 0x7ff0000000000000.
Lemma nonneg_cases a : nonneg a -> (finite a /\ 0 <= scaled a) \/ a = INFINITY.
Proof.
  intros [R K]. destruct (finite_dec a) as [F|F].
  - left. split; [exact F|]. apply (key_scaled 0 a); [reflexivity|exact F|exact K].
  - right. assert (fkey a <> None) by (destruct (fkey a); [discriminate|destruct (fkey 0); contradiction]).
    pose proof (encode_decode a R H) as E. destruct (special a F) as [D|D]; rewrite D in E.
    + exfalso. apply H. apply is_nan_key. unfold is_nan. now rewrite D.
    + rewrite <- E. destruct (f_sign a) eqn:S; [|reflexivity]. exfalso. rewrite <- E in K. vm_compute in K. now apply K.
Qed.
Lemma nonneg_finite a : pattern a -> finite a -> 0 <= scaled a -> nonneg a.
Proof. intros P F S. split; [exact P|]. apply (key_scaled 0 a); [reflexivity|exact F|exact S]. Qed.
Lemma add_nonneg a b : nonneg a -> nonneg b -> nonneg (fadd a b) /\ kle (fkey a) (fkey (fadd a b)) /\ kle (fkey b) (fkey (fadd a b)).
Proof.
  intros A B. assert (I : nonneg INFINITY) by (split; vm_compute; [split; [discriminate|reflexivity]|discriminate]).
  assert (TOP : forall x, nonneg x -> kle (fkey x) (fkey INFINITY)).
  { intros x [_ X]. unfold fkey in *. change (2047 * 2 ^ 52 <? f_mag INFINITY) with false. change (f_sign INFINITY) with false. cbn iota.
    change (f_mag INFINITY) with (2047 * 2 ^ 52). destruct (Z.ltb_spec (2047 * 2 ^ 52) (f_mag x)); cbn in *; [contradiction|].
    pose proof (f_mag_range x). destruct (f_sign x); lia. }
  destruct (nonneg_cases a A) as [[Fa Sa]|Ea].
  - destruct (nonneg_cases b B) as [[Fb Sb]|Eb].
    + destruct A as [Ra Ka], B as [Rb Kb]. pose proof (fadd_rounds a b Ra Rb Fa Fb) as R.
      pose proof (self_rounds a Ra Fa) as Sfa. pose proof (self_rounds b Rb Fb) as Sfb.
      assert (La : kle (fkey a) (fkey (fadd a b))) by (refine (rounds_mono _ 1 _ _ 1 _ _ _ _ Sfa R); lia).
      assert (Lb : kle (fkey b) (fkey (fadd a b))) by (refine (rounds_mono _ 1 _ _ 1 _ _ _ _ Sfb R); lia).
      split; [|split; auto]. split; [exact (proj1 R)|eapply kle_trans; eauto].
    + subst b. assert (E : fadd a INFINITY = INFINITY).
      { unfold fadd. change (decode INFINITY) with (S754_infinity false). destruct (decode_finite a Fa); reflexivity. }
      rewrite E. auto.
  - subst a. assert (E : fadd INFINITY b = INFINITY).
    { unfold fadd. change (decode INFINITY) with (S754_infinity false). destruct (nonneg_cases b B) as [[Fb Sb]|Eb].
      - destruct (decode_finite b Fb); reflexivity.
      - subst b. reflexivity. }
    rewrite E. auto.
Qed.
Lemma add_nan a b : fkey (fadd a b) <> None -> fkey a <> None /\ fkey b <> None.
Proof.
  intro H. split; intro N; apply H; apply is_nan_key in N; unfold is_nan in N; unfold fadd.
  - destruct (decode a) eqn:E; try discriminate. reflexivity.
  - destruct (decode b) eqn:E; try discriminate. destruct (decode a) as [|[]| |]; reflexivity.
Qed.

Lemma nonneg_0 : nonneg 0. Proof. split; [lia|]. vm_compute. discriminate. Qed.
Lemma fold_nonneg l : forall s, nonneg s -> Forall nonneg l -> nonneg (fold_left fadd l s) /\ kle (fkey s) (fkey (fold_left fadd l s)).
Proof.
  induction l as [|a l IH]; intros s S F; cbn [fold_left].
  - split; [exact S|]. destruct S as [_ S]. destruct (fkey s); [cbn; lia|destruct (fkey 0); contradiction].
  - inversion F as [|x y A F']; subst. destruct (add_nonneg s a S A) as (N & K & _).
    destruct (IH (fadd s a) N F') as [N' K']. split; [exact N'|]. eapply kle_trans; eauto.
Qed.
Lemma fold_nan l : forall s, fkey (fold_left fadd l s) <> None -> fkey s <> None /\ Forall (fun a => fkey a <> None) l.
Proof.
  induction l as [|a l IH]; intros s H; cbn [fold_left] in H; [split; [exact H|constructor]|].
  destruct (IH _ H) as [A B]. destruct (add_nan _ _ A). split; [auto|constructor; auto].
Qed.

(** ** Validation *)
Lemma sum_areas_spec l : forall s, sum_areas l s = if existsb (fun a => flt a 0) l then Err ERR_INVALID_VALUE else Ok (fold_left fadd l s).
Proof.
  induction l as [|a l IH]; intro s; cbn [sum_areas existsb fold_left]; [reflexivity|].
  destruct (flt a 0); cbn [refute bind orb]; [reflexivity|]. apply IH.
Qed.
Lemma not_negative a : pattern a -> fkey a <> None -> flt a 0 = false -> nonneg a.
Proof.
  intros P N F. split; [exact P|]. destruct (fkey a) as [k|] eqn:K; [|congruence]. change (fkey 0) with (Some 0) in *.
  rewrite (flt_pos a 0 k 0) in F by auto. cbn. lia.
Qed.
Lemma nonneg_flt a : nonneg a -> flt a 0 = false.
Proof.
  intros [P K]. destruct (flt a 0) eqn:F; auto. apply flt_key in F. exfalso. destruct (fkey a), (fkey 0); cbn in *; lia.
Qed.
Lemma isfinite_finite a : f_isfinite a = true <-> finite a.
Proof.
  unfold f_isfinite, finite, INF_MAG. destruct (f_parts a) as (P & Q & R). rewrite Z.ltb_lt. lia.
Qed.
Lemma div_pattern a b : pattern a -> pattern b -> pattern (fdiv a b). Proof. apply fdiv_pattern. Qed.

Definition sum_ok (areas : list Z) : Prop := Forall nonneg areas /\ positive (total areas) /\ finite (fdiv ONE (total areas)).
Lemma total_all areas : total areas = fold_left fadd areas 0.
Proof. unfold total, psum. now rewrite firstn_all. Qed.
Lemma validate_spec areas : Forall pattern areas ->
  (sum_ok areas /\ validate_areas areas = Ok (fdiv ONE (total areas))) \/
  (~ sum_ok areas /\ validate_areas areas = Err ERR_INVALID_VALUE).
Proof.
  intro P. unfold validate_areas. rewrite sum_areas_spec, <- total_all.
  destruct (existsb (fun a => flt a 0) areas) eqn:X; cbn [bind].
  - right. split; [|reflexivity]. intros (N & _). apply existsb_exists in X. destruct X as (a & A & F).
    rewrite Forall_forall in N. rewrite (nonneg_flt a (N a A)) in F. discriminate.
  - assert (NG : forall a, In a areas -> flt a 0 = false).
    { intros a A. destruct (flt a 0) eqn:F; auto. assert (existsb (fun a => flt a 0) areas = true) by (apply existsb_exists; eauto). congruence. }
    destruct (fkey (total areas)) as [k|] eqn:K.
    + assert (NN : Forall nonneg areas).
      { rewrite total_all in K. assert (K' : fkey (fold_left fadd areas 0) <> None) by congruence. destruct (fold_nan areas 0 K') as [_ F].
        rewrite Forall_forall in *. intros a A. apply not_negative; auto. }
      destruct (fold_nonneg areas 0 nonneg_0 NN) as [TN TK]. rewrite <- total_all in TN, TK. rewrite K in TK. change (fkey 0) with (Some 0) in TK. cbn in TK.
      rewrite (feq_pos (total areas) 0 k 0) by auto. destruct (Z.eqb_spec k 0); cbn [refute bind].
      * right. split; [|reflexivity]. intros (_ & (_ & Q) & _). rewrite K in Q. cbn in Q. change (fkey 0) with (Some 0) in Q. lia.
      * destruct (is_nan (fdiv ONE (total areas)) || negb (f_isfinite (fdiv ONE (total areas)))) eqn:B; cbn [refute bind].
        -- right. split; [|reflexivity]. intros (_ & _ & F). apply orb_true_iff in B. destruct B as [B|B].
           ++ apply is_nan_key in B. exact (finite_key _ F B).
           ++ apply isfinite_finite in F. rewrite F in B. discriminate.
        -- left. split; [|reflexivity]. apply orb_false_iff in B. destruct B as [_ B]. apply negb_false_iff in B.
           split; [exact NN|]. split; [|now apply isfinite_finite]. split; [exact (proj1 TN)|]. rewrite K. change (fkey 0) with (Some 0). cbn. lia.
    + right. split; [intros (_ & (_ & Q) & _); rewrite K in Q; destruct (fkey 0); contradiction|].
      assert (feq (total areas) 0 = false) as ->.
      { destruct (feq (total areas) 0) eqn:E; auto. apply feq_key in E. rewrite K in E. destruct (fkey 0); contradiction. }
      cbn [refute bind]. assert (is_nan (fdiv ONE (total areas)) = true) as ->; [|reflexivity].
      apply is_nan_key in K. unfold is_nan in K. unfold fdiv. destruct (decode (total areas)); try discriminate.
      change (decode ONE) with (S754_finite false 4503599627370496 (-52)). reflexivity.
Qed.

(** ** The tables *)
Lemma prefixes_length areas : forall r, length (prefixes r areas) = length areas.
Proof. induction areas; intro r; cbn; auto. Qed.
Lemma prefixes_nth areas : forall r i, (i < length areas)%nat -> nth_error (prefixes r areas) i = Some (fold_left fadd (firstn (S i) areas) r).
Proof.
  induction areas as [|a l IH]; intros r i H; cbn [length] in H; [lia|]. destruct i; [reflexivity|].
  cbn [prefixes nth_error]. rewrite IH by lia. reflexivity.
Qed.
Lemma set_last_spec l v : l <> [] -> length (set_last l v) = length l /\ nth_error (set_last l v) (length l - 1) = Some v /\
  forall i, (S i < length l)%nat -> nth_error (set_last l v) i = nth_error l i.
Proof.
  intro N. unfold set_last. destruct (exists_last N) as (l' & x & ->). rewrite removelast_last, !app_length. cbn [length].
  split; [lia|]. split.
  - rewrite nth_error_app2 by lia. replace (length l' + 1 - 1 - length l')%nat with O by lia. reflexivity.
  - intros i H. rewrite !nth_error_app1 by lia. reflexivity.
Qed.
Lemma normalize_spec areas : areas <> [] -> is_roulette areas (normalize_areas areas (fdiv ONE (total areas))).
Proof.
  intro N. unfold normalize_areas. set (inv := fdiv ONE (total areas)).
  set (l := 0 :: map (fun r => fmul r inv) (prefixes 0 areas)).
  assert (L : length l = S (length areas)) by (unfold l; cbn; now rewrite map_length, prefixes_length).
  assert (0 < length areas)%nat by (destruct areas; [congruence|cbn; lia]).
  destruct (set_last_spec l ONE ltac:(discriminate)) as (A & B & C). rewrite L in *.
  split; [exact A|]. split; [rewrite C by lia; reflexivity|]. split; [replace (length areas) with (S (length areas) - 1)%nat by lia; exact B|].
  intros i I. rewrite C by lia. unfold l. destruct i; [lia|]. cbn [nth_error]. rewrite nth_error_map, prefixes_nth by lia. reflexivity.
Qed.
Lemma create_roulette_spec areas : Forall pattern areas ->
  (weights_ok areas /\ exists table, create_roulette areas = Ok table /\ is_roulette areas table) \/
  (~ weights_ok areas /\ create_roulette areas = Err ERR_INVALID_VALUE).
Proof.
  intro P. unfold create_roulette, weights_ok. destruct (Z.eqb_spec (lenZ areas) 0) as [E|E].
  - right. split; [lia|reflexivity].
  - destruct (Z.ltb_spec INT64_MAX (lenZ areas)) as [G|G]; cbn [orb refute bind].
    + right. split; [lia|reflexivity].
    + assert (0 < lenZ areas <= INT64_MAX) by (unfold lenZ in *; lia).
      destruct (validate_spec areas P) as [[A ->]|[A ->]]; cbn [bind].
      * left. split; [split; [assumption|exact A]|]. eexists. split; [reflexivity|]. apply normalize_spec. destruct areas; [unfold lenZ in E; cbn in E; lia|discriminate].
      * right. split; [|reflexivity]. intros [_ B]. exact (A B).
Qed.

(** ** Facts on the table of a roulette with a finite sum *)
Lemma psum_S areas i a : nth_error areas i = Some a -> psum areas (S i) = fadd (psum areas i) a.
Proof.
  intro H. unfold psum. replace (firstn (S i) areas) with (firstn i areas ++ [a]).
  - now rewrite fold_left_app.
  - revert areas H. induction i; intros [|b l] H; cbn in *; try congruence. now rewrite (IHi l H).
Qed.
Lemma Forall_firstn (A : Type) (P : A -> Prop) l i : Forall P l -> Forall P (firstn i l).
Proof. intro F. apply Forall_forall. intros x X. rewrite Forall_forall in F. apply F. rewrite <- (firstn_skipn i l). apply in_or_app. auto. Qed.
Lemma Forall_skipn (A : Type) (P : A -> Prop) l i : Forall P l -> Forall P (skipn i l).
Proof. intro F. apply Forall_forall. intros x X. rewrite Forall_forall in F. apply F. rewrite <- (firstn_skipn i l). apply in_or_app. auto. Qed.
Lemma psum_nonneg areas i : Forall nonneg areas -> nonneg (psum areas i).
Proof. intro F. apply fold_nonneg; [exact nonneg_0|now apply Forall_firstn]. Qed.
Lemma psum_total areas i : Forall nonneg areas -> kle (fkey (psum areas i)) (fkey (total areas)).
Proof.
  intro F. rewrite total_all. rewrite <- (firstn_skipn i areas) at 2. rewrite fold_left_app. apply fold_nonneg; [now apply psum_nonneg|now apply Forall_skipn].
Qed.
Lemma below_finite a b : nonneg a -> finite b -> kle (fkey a) (fkey b) -> finite a.
Proof.
  intros N F K. destruct (nonneg_cases a N) as [[A _]| ->]; auto. exfalso. rewrite (finite_fkey b F) in K.
  change (fkey INFINITY) with (Some INF_MAG) in K. cbn [kle] in K. unfold finite in F. pose proof (f_mag_range b).
  unfold INF_MAG in *. destruct (f_sign b); lia.
Qed.

Section Roulette.
  Variables (areas table : list Z).
  Hypothesis AO : sum_ok areas.
  Hypothesis TF : finite (total areas).
  Hypothesis NE : areas <> [].
  Hypothesis TB : is_roulette areas table.
  Let inv := fdiv ONE (total areas).

  Lemma r_nonneg i : nonneg (psum areas i). Proof. apply psum_nonneg, AO. Qed.
  Lemma r_finite i : finite (psum areas i).
  Proof. eapply below_finite; [apply r_nonneg|exact TF|apply psum_total, AO]. Qed.
  Lemma r_scaled i : 0 <= scaled (psum areas i).
  Proof. apply (key_scaled 0 _); [reflexivity|apply r_finite|apply r_nonneg]. Qed.
  Lemma r_pattern i : pattern (psum areas i). Proof. apply r_nonneg. Qed.
  Lemma r_total : 0 < scaled (total areas).
  Proof. destruct AO as (_ & (_ & K) & _). apply (key_scaled 0 _) in K; [exact K|reflexivity|exact TF]. Qed.
  Lemma r_div : rounds (2 ^ 2148) (scaled (total areas)) inv.
  Proof.
    pose proof r_total as T. pose proof (fdiv_rounds ONE (total areas) ltac:(unfold ONE; lia) (r_pattern _) ltac:(reflexivity) TF ltac:(lia)) as R.
    rewrite (Z.sgn_pos _ T), (Z.abs_eq (scaled (total areas))), Z.mul_1_r in R by lia.
    replace (scaled ONE * 2 ^ 1074) with (2 ^ 2148) in R by (vm_compute; reflexivity). exact R.
  Qed.
  Lemma r_inv : pattern inv /\ finite inv /\ 0 <= scaled inv.
  Proof.
    pose proof r_div as R. split; [exact (proj1 R)|]. split; [apply AO|]. destruct R as (_ & _ & S). pose proof (scaled_sign inv).
    destruct (f_sign inv) eqn:SG; [|exact H]. exfalso. assert (0 < 2 ^ 2148) by reflexivity. lia.
  Qed.
  Lemma r_prod i : rounds (scaled (psum areas i) * scaled inv) (2 ^ 1074) (fmul (psum areas i) inv).
  Proof. destruct r_inv as (A & B & C). apply fmul_rounds; auto; [apply r_pattern|apply r_finite]. Qed.
  Lemma r_mono i j : scaled (psum areas i) <= scaled (psum areas j) -> kle (fkey (fmul (psum areas i) inv)) (fkey (fmul (psum areas j) inv)).
  Proof.
    intro L. destruct r_inv as (A & B & C). refine (rounds_mono _ (2 ^ 1074) _ _ (2 ^ 1074) _ unit_pos unit_pos _ (r_prod i) (r_prod j)).
    apply Z.mul_le_mono_nonneg_r; [apply Z.lt_le_incl, unit_pos|]. apply Z.mul_le_mono_nonneg_r; auto.
  Qed.
  Lemma r_step i a : nth_error areas i = Some a -> scaled (psum areas i) <= scaled (psum areas (S i)).
  Proof.
    intro H. rewrite (psum_S _ _ _ H). apply (key_scaled _ _ (r_finite i)); [rewrite <- (psum_S _ _ _ H); apply r_finite|].
    apply add_nonneg; [apply r_nonneg|]. destruct AO as (F & _). rewrite Forall_forall in F. apply F. now apply nth_error_In in H.
  Qed.
  Lemma r_zero i a : nth_error areas i = Some a -> keq (fkey a) (fkey 0) -> scaled (psum areas (S i)) = scaled (psum areas i).
  Proof.
    intros H Z0. assert (F : finite a).
    { destruct AO as (F & _). rewrite Forall_forall in F. pose proof (F a (nth_error_In _ _ H)) as N.
      destruct (nonneg_cases a N) as [[A _]| ->]; auto. vm_compute in Z0. discriminate. }
    assert (Pa : pattern a) by (destruct AO as (G & _); rewrite Forall_forall in G; apply G; now apply nth_error_In in H).
    apply (key_scaled a 0 F ltac:(reflexivity)) in Z0. change (scaled 0) with 0 in Z0.
    pose proof (fadd_rounds _ a (r_pattern i) Pa (r_finite i) F) as R. rewrite Z0, Z.add_0_r in R. rewrite <- (psum_S _ _ _ H) in R.
    pose proof (self_rounds _ (r_pattern i) (r_finite i)) as R'.
    apply Z.le_antisymm; apply (key_scaled _ _ (r_finite _) (r_finite _));
      [refine (rounds_mono _ 1 _ _ 1 _ _ _ _ R R')|refine (rounds_mono _ 1 _ _ 1 _ _ _ _ R' R)]; lia.
  Qed.
  (** the cell of every index but the last is the product, the first included *)
  Lemma r_first : fkey (fmul (psum areas 0) inv) = Some 0.
  Proof.
    pose proof (r_prod 0) as R. change (scaled (psum areas 0)) with 0 in R. rewrite Z.mul_0_l in R.
    destruct (rounds_exact (fmul (psum areas 0) inv) (2 ^ 1074) 0 unit_pos) as [A B].
    - exists 0. split; [unfold INF_MAG; lia|reflexivity].
    - exact R.
    - assert (K : keq (fkey (fmul (psum areas 0) inv)) (fkey 0)) by (apply (key_scaled _ _ A); [reflexivity|rewrite B; reflexivity]).
      change (fkey 0) with (Some 0) in K. destruct (fkey (fmul (psum areas 0) inv)); cbn in K; [now subst|contradiction].
  Qed.
  Lemma r_cell i v : (i < length areas)%nat -> nth_error table i = Some v -> fkey v = fkey (fmul (psum areas i) inv).
  Proof.
    intros H E. destruct TB as (_ & A & _ & C). destruct i.
    - rewrite A in E. injection E as <-. rewrite r_first. reflexivity.
    - rewrite C in E by lia. injection E as <-. reflexivity.
  Qed.
  Lemma r_covering : covering table (length areas).
  Proof.
    destruct TB as (L & A & B & C). split; [exact L|]. split; [destruct areas; [congruence|cbn; lia]|].
    split; [|split].
    - apply Forall_forall. intros x X. apply In_nth_error in X. destruct X as [i E].
      assert (I : (i < length table)%nat) by (apply nth_error_Some; congruence). rewrite L in I.
      destruct (Nat.eq_dec i (length areas)) as [->|D].
      + rewrite B in E. injection E as <-. split; [unfold ONE; lia|]. vm_compute. discriminate.
      + destruct i.
        * rewrite A in E. injection E as <-. split; [lia|]. vm_compute. discriminate.
        * rewrite C in E by lia. injection E as <-. pose proof (r_prod (S i)) as R. split; [exact (proj1 R)|]. fold inv. rewrite (rounds_key _ _ _ R). discriminate.
    - rewrite (nth_error_nth table 0 0 A). vm_compute. discriminate.
    - rewrite (nth_error_nth table _ 0 B). vm_compute. discriminate.
  Qed.
  Lemma r_increasing_but_last i a b : (S i < length areas)%nat -> nth_error table i = Some a -> nth_error table (S i) = Some b -> kle (fkey a) (fkey b).
  Proof.
    intros I A B. rewrite (r_cell i a), (r_cell (S i) b) by (auto; lia). apply r_mono.
    destruct (nth_error areas i) as [w|] eqn:W; [now apply (r_step i w)|]. apply nth_error_None in W. lia.
  Qed.
  (** product of the sum and its inverse *)
  Lemma r_product : scaled (total areas) <= 2 ^ 2096 ->
    2 ^ 2148 - 2 ^ 2095 <= scaled (total areas) * scaled inv <= 2 ^ 2148 + 2 ^ 2095.
  Proof.
    intro SM. pose proof r_total as T0. pose proof r_div as (_ & N & SG). destruct r_inv as (PI & FI & SI).
    set (s := scaled (total areas)) in *. assert (EI : scaled inv = mag (f_mag inv)) by (rewrite <- scaled_abs; symmetry; apply Z.abs_eq, SI).
    rewrite EI. set (m := f_mag inv) in *. unfold finite in FI. fold m in FI. rewrite Z.abs_eq in N by (apply Z.lt_le_incl; reflexivity).
    assert (M52 : 2 ^ 52 <= m).
    { refine (nearest_mono (mag (2 ^ 52) * 1) 1 _ _ (2 ^ 52) m _ T0 _ (nearest_exact (2 ^ 52) 1 ltac:(lia) ltac:(unfold INF_MAG; lia)) N); [lia|].
      change (mag (2 ^ 52)) with (2 ^ 52). replace (2 ^ 2148) with (2 ^ 52 * 2 ^ 2096) by reflexivity. lia. }
    destruct (mag_cases m ltac:(lia)) as (k & r & Em & Hk & C).
    assert (R1 : 2 ^ 52 <= r < 2 ^ 53) by lia.
    assert (P : 0 < 2 ^ k) by (apply Z.pow_pos_nonneg; lia).
    assert (EM : mag m = r * 2 ^ k) by (rewrite Em; apply mag_form; lia).
    assert (EM1 : mag (m + 1) = (r + 1) * 2 ^ k).
    { rewrite Em. replace (k * 2 ^ 52 + r + 1) with (k * 2 ^ 52 + (r + 1)) by lia. apply mag_form; lia. }
    destruct N as (N0 & N1 & N2). destruct N1 as [N1 _]; [lia|]. destruct N2 as [N2 _]; [lia|].
    assert (ET : 2 ^ 2148 = 2 ^ 53 * 2 ^ 2095) by reflexivity. assert (PU : 0 < 2 ^ 2095) by reflexivity.
    split.
    - rewrite EM, EM1 in N2. rewrite EM, ET in *. clear - N2 PU P T0 R1.
      set (x := 2 ^ k * s) in *. replace ((r * 2 ^ k + (r + 1) * 2 ^ k) * s) with ((2 * r + 1) * x) in N2 by (unfold x; ring).
      replace (s * (r * 2 ^ k)) with (r * x) by (unfold x; ring). set (u := 2 ^ 2095) in *. clearbody x u.
      apply Z.mul_le_mono_pos_r with (2 * r + 1); [lia|]. nia.
    - destruct (Z.eq_dec r (2 ^ 52)) as [->|D].
      + destruct (Z.eq_dec k 0) as [->|K0].
        * rewrite EM. replace (2 ^ 52 * 2 ^ 0) with (2 ^ 52) by reflexivity. assert (s * 2 ^ 52 <= 2 ^ 2096 * 2 ^ 52) by (apply Z.mul_le_mono_nonneg_r; lia).
          replace (2 ^ 2096 * 2 ^ 52) with (2 ^ 2148) in H by reflexivity. lia.
        * assert (E1 : mag (m - 1) = (2 ^ 53 - 1) * 2 ^ (k - 1)).
          { rewrite Em. replace (k * 2 ^ 52 + 2 ^ 52 - 1) with ((k - 1) * 2 ^ 52 + (2 ^ 53 - 1)) by lia. apply mag_form; lia. }
          assert (E2 : 2 ^ k = 2 * 2 ^ (k - 1)) by (rewrite <- Z.pow_succ_r by lia; f_equal; lia).
          rewrite EM, E1, E2 in N1. rewrite EM, E2, ET in *. clear - N1 PU T0 P K0 Hk.
          set (x := 2 ^ (k - 1) * s) in *. replace (((2 ^ 53 - 1) * 2 ^ (k - 1) + 2 ^ 52 * (2 * 2 ^ (k - 1))) * s) with ((2 ^ 54 - 1) * x) in N1 by (unfold x; ring).
          replace (s * (2 ^ 52 * (2 * 2 ^ (k - 1)))) with (2 ^ 53 * x) by (unfold x; ring). set (u := 2 ^ 2095) in *. clearbody x u. lia.
      + assert (E1 : mag (m - 1) = (r - 1) * 2 ^ k).
        { rewrite Em. replace (k * 2 ^ 52 + r - 1) with (k * 2 ^ 52 + (r - 1)) by lia. apply mag_form; lia. }
        rewrite EM, E1 in N1. rewrite EM, ET in *. assert (R2 : 2 ^ 52 < r) by lia. clear - N1 PU P T0 R1 R2.
        set (x := 2 ^ k * s) in *. replace (((r - 1) * 2 ^ k + r * 2 ^ k) * s) with ((2 * r - 1) * x) in N1 by (unfold x; ring).
        replace (s * (r * 2 ^ k)) with (r * x) by (unfold x; ring). set (u := 2 ^ 2095) in *. clearbody x u.
        apply Z.mul_le_mono_pos_r with (2 * r - 1); [lia|]. nia.
  Qed.
  Lemma r_near_one : scaled (total areas) <= 2 ^ 2096 ->
    kle (fkey 0x3fefffffffffffff) (fkey (fmul (total areas) inv)) /\ kle (fkey (fmul (total areas) inv)) (fkey ONE).
  Proof.
    intro SM. destruct (r_product SM) as [L U]. pose proof (r_prod (length areas)) as R. fold (total areas) in R.
    assert (R1 : rounds (2 ^ 2148 - 2 ^ 2095) (2 ^ 1074) 0x3fefffffffffffff).
    { split; [lia|]. change (f_sign 0x3fefffffffffffff) with false. change (f_mag 0x3fefffffffffffff) with 0x3fefffffffffffff.
      split; [|vm_compute; discriminate]. 
      replace (Z.abs (2 ^ 2148 - 2 ^ 2095)) with (mag 0x3fefffffffffffff * 2 ^ 1074) by (vm_compute; reflexivity).
      apply nearest_exact; [exact unit_pos|unfold INF_MAG; lia]. }
    assert (R2 : rounds (2 ^ 2148 + 2 ^ 2095) (2 ^ 1074) ONE).
    { split; [unfold ONE; lia|]. change (f_sign ONE) with false. change (f_mag ONE) with ONE.
      split; [|vm_compute; discriminate]. split; [unfold ONE, INF_MAG; lia|]. split; intros _; vm_compute; split; auto; discriminate. }
    split; [refine (rounds_mono _ (2 ^ 1074) _ _ (2 ^ 1074) _ unit_pos unit_pos _ R1 R)|refine (rounds_mono _ (2 ^ 1074) _ _ (2 ^ 1074) _ unit_pos unit_pos _ R R2)];
      apply Z.mul_le_mono_nonneg_r; auto; apply Z.lt_le_incl, unit_pos.
  Qed.
  Lemma r_increasing : scaled (total areas) <= 2 ^ 2096 -> increasing table.
  Proof.
    intros SM i a b A B. assert (I : (S i < length table)%nat) by (apply nth_error_Some; congruence). rewrite (proj1 TB) in I.
    destruct (Nat.eq_dec (S i) (length areas)) as [E|D].
    - destruct TB as (_ & _ & C & _). rewrite E, C in B. injection B as <-. rewrite (r_cell i a) by (auto; lia).
      eapply kle_trans; [|exact (proj2 (r_near_one SM))]. apply r_mono. apply (key_scaled _ _ (r_finite i) (r_finite _)). apply psum_total, AO.
    - eapply r_increasing_but_last; eauto. lia.
  Qed.
  Lemma r_selected i u a : (i < length areas)%nat -> in_area table i u -> nth_error areas i = Some a ->
    (S i < length areas)%nat \/ (scaled (total areas) <= 2 ^ 2096 /\ klt (fkey u) (fkey 0x3fefffffffffffff)) -> positive a.
  Proof.
    intros I (x & y & X & Y & CX & CY) W C.
    assert (NA : nonneg a) by (destruct AO as (F & _); rewrite Forall_forall in F; apply F; now apply nth_error_In in W).
    split; [apply NA|]. destruct NA as [PA KA]. destruct (fkey a) as [k|] eqn:K; [|destruct (fkey 0); contradiction].
    change (fkey 0) with (Some 0) in *. cbn in *. destruct (Z.eq_dec k 0) as [->|]; [|lia]. exfalso.
    assert (Z0 : keq (fkey a) (fkey 0)) by (rewrite K; reflexivity). pose proof (r_zero i a W Z0) as E.
    destruct (Nat.eq_dec (S i) (length areas)) as [L|D].
    - destruct C as [C|[SM CU]]; [lia|]. rewrite (r_cell i x) in CX by auto.
      pose proof (proj1 (r_near_one SM)) as B. unfold total in B. rewrite <- L in B.
      pose proof (r_mono (S i) i ltac:(lia)) as M. pose proof (kle_trans _ _ _ B (kle_trans _ _ _ M CX)) as Q.
      pose proof (klt_kle_trans _ _ _ CU Q) as Q'. destruct (fkey u); cbn in Q'; lia.
    - rewrite (r_cell i x) in CX by (auto; lia). rewrite (r_cell (S i) y) in CY by (auto; lia).
      pose proof (r_mono (S i) i ltac:(lia)) as M. pose proof (klt_kle_trans _ _ _ CY (kle_trans _ _ _ M CX)) as Q'. destruct (fkey u); cbn in Q'; lia.
  Qed.
End Roulette.
