(** Proofs about normal distributions. *)
From Coq Require Import ZArith List Bool Lia Znumtheory SpecFloat.
From Verif Require Import Base Datum CodecModel FloatModel FloatSpec FloatProofs FloatRound FloatInt IntervalModel IntervalSpec DistModel DistSpec DistCodecModel DistCodecSpec NormalModel NormalSpec.
Import ListNotations.
Open Scope Z_scope.

(** ** Rounding to an integer *)
Lemma round_away (s : bool) (m d : Z) : 0 <= m -> 0 < d -> let a := (2 * m + d) / (2 * d) in
  let k := if s then - a else a in let x := if s then - m else m in
  2 * Z.abs (x - k * d) <= d /\ (2 * Z.abs (x - k * d) = d -> Z.abs x < Z.abs (k * d)).
Proof.
  intros M D a k x. pose proof (Z.div_mod (2 * m + d) (2 * d) ltac:(lia)) as E. pose proof (Z.mod_pos_bound (2 * m + d) (2 * d) ltac:(lia)) as B. fold a in E.
  set (r := (2 * m + d) mod (2 * d)) in *. assert (A : 0 <= a) by (apply Z.div_pos; lia). assert (P : 0 <= a * d) by nia.
  unfold k, x. destruct s.
  - replace (- m - - a * d) with (- (m - a * d)) by ring. rewrite !Z.abs_opp. rewrite Z.mul_opp_l, Z.abs_opp, (Z.abs_eq (a * d)), (Z.abs_eq m) by lia. nia.
  - rewrite (Z.abs_eq (a * d)), (Z.abs_eq m) by lia. nia.
Qed.
Lemma fround_whole x : 0 <= x < 2 ^ 64 -> whole x (fround x).
Proof.
  intro R. destruct (finite_dec x) as [F|F].
  - unfold fround. pose proof (encode_decode x R (finite_key x F)) as ED. destruct (decode_finite x F) as [Zx Mx|m e A1 A2 A3 A4 A5 A6]; cbn [sf_round].
    + assert (encode (S754_zero (f_sign x)) = sgn_bit (f_sign x) + 0) by (cbn [encode]; lia). destruct (sign_pack (f_sign x) 0 ltac:(lia)) as (E1 & E2 & E3).
      rewrite H. split; [exact E3|]. left. split; [exact F|]. split; [unfold finite; rewrite E2; reflexivity|]. split; [exact E1|]. exists 0.
      split; [|unfold scaled; rewrite E1, E2; now destruct (f_sign x)]. split; [exact F|]. rewrite Zx. cbn [Z.mul Z.sub Z.add Z.opp Z.abs]. split; [apply Z.pow_nonneg; lia|]. intro X. pose proof unit_pos. lia.
    + assert (P : 0 < 2 ^ 1074) by apply unit_pos. assert (NS : if f_sign x then scaled x < 0 else 0 < scaled x) by (apply nonzero_sign; exact A2). destruct (Z.leb_spec 0 e) as [E0|E0].
      * rewrite ED. split; [exact R|]. left. split; [exact F|]. split; [exact F|]. split; [reflexivity|]. exists (cond_Zopp (f_sign x) (Zpos m) * 2 ^ e).
        assert (S : scaled x = cond_Zopp (f_sign x) (Zpos m) * 2 ^ e * 2 ^ 1074) by (rewrite A5, Z.pow_add_r, Z.mul_assoc by lia; reflexivity).
        split; [|exact S]. split; [exact F|]. rewrite <- S, Z.sub_diag. cbn [Z.abs Z.mul]. split; lia.
      * set (D := 2 ^ (- e)). assert (DP : 2 <= D) by (unfold D; replace (- e) with (1 + (- e - 1)) by lia; rewrite Z.pow_add_r by lia; assert (0 < 2 ^ (- e - 1)) by (apply Z.pow_pos_nonneg; lia); lia).
        pose proof (round_away (f_sign x) (Zpos m) D ltac:(lia) ltac:(lia)) as RA. cbv zeta in RA. set (a := (2 * Zpos m + D) / (2 * D)) in *. set (k := if f_sign x then - a else a) in *.
        set (y := if f_sign x then - Zpos m else Zpos m) in *. assert (Y : cond_Zopp (f_sign x) (Zpos m) = y) by (unfold y; destruct (f_sign x); reflexivity).
        assert (SD : 2 ^ 1074 = D * 2 ^ (e + 1074)) by (unfold D; rewrite <- Z.pow_add_r by lia; f_equal; lia). set (U := 2 ^ (e + 1074)) in *. assert (UP : 0 < U) by (apply Z.pow_pos_nonneg; lia).
        assert (A0 : 0 <= a) by (apply Z.div_pos; lia).
        assert (AB : a <= 2 ^ 53). { apply Z.div_le_upper_bound; [lia|]. nia. }
        assert (N : nearest_int x k).
        { split; [exact F|]. rewrite A5, Y, SD. fold U. replace (y * U - k * (D * U)) with ((y - k * D) * U) by ring. rewrite Z.mul_assoc, !Z.abs_mul, (Z.abs_eq U) by lia. destruct RA as [R1 R2]. rewrite Z.abs_mul in R2. split; [nia|].
          intro X. assert (X' : 2 * Z.abs (y - k * D) = D) by nia. specialize (R2 X'). nia. }
        pose proof (normalize_rounds k 0 (f_sign x) 1 ltac:(lia) ltac:(lia)) as RN. fold PREC EMAX in RN |- *.
        assert (FS : finite (encode (binary_normalize PREC EMAX k 0 (f_sign x))) /\ scaled (encode (binary_normalize PREC EMAX k 0 (f_sign x))) = k * 2 ^ 1074).
        { apply (rounds_exact _ (2 ^ 1)); [lia| |rewrite pow_shift by lia; exact RN]. destruct (mag_rep 1074 a ltac:(lia) ltac:(lia)) as (mm & M & E). exists mm.
          assert (AK : Z.abs (k * 2 ^ 1074) = a * 2 ^ 1074). { rewrite Z.abs_mul, (Z.abs_eq (2 ^ 1074)) by lia. f_equal. unfold k. destruct (f_sign x); lia. }
          rewrite AK. split; [|exact E]. split; [exact M|]. apply (mag_bound mm _ M E). apply Z.le_lt_trans with (2 ^ 53 * 2 ^ 1074); [|reflexivity]. apply Z.mul_le_mono_nonneg_r; lia. }
        destruct FS as [F' S']. split; [exact (proj1 RN)|]. left. split; [exact F|]. split; [exact F'|]. split; [|exists k; split; [exact N|exact S']].
        destruct (Z.eq_dec a 0) as [A00|A00].
        -- assert (K0 : k = 0) by (unfold k; rewrite A00; now destruct (f_sign x)). rewrite K0. cbn [binary_normalize encode]. replace (sgn_bit (f_sign x)) with (sgn_bit (f_sign x) + 0) by lia. now destruct (sign_pack (f_sign x) 0 ltac:(lia)) as (E1 & _).
        -- destruct RN as (_ & _ & SG). unfold k in *. destruct (f_sign x), (f_sign (encode (binary_normalize PREC EMAX _ 0 _))); auto; exfalso.
           ++ assert (0 < 2 ^ (0 + 1074 + 1)) by (apply Z.pow_pos_nonneg; lia). nia.
           ++ assert (0 < 2 ^ (0 + 1074 + 1)) by (apply Z.pow_pos_nonneg; lia). nia.
  - unfold fround. assert (E : sf_round (decode x) = decode x) by (destruct (special x F) as [->| ->]; reflexivity). rewrite E. split; [now apply encode_pattern|]. right. split; [exact F|].
    destruct (fkey x) eqn:K.
    + rewrite encode_decode; [exact K|exact R|congruence].
    + apply is_nan_key in K. unfold is_nan in K. destruct (decode x); try discriminate. reflexivity.
Qed.
Lemma nearest_unique x k k' : nearest_int x k -> nearest_int x k' -> k = k'.
Proof.
  intros (_ & A & A') (_ & B & B'). set (U := 2 ^ 1074) in *. assert (0 < U) by apply unit_pos. set (s := scaled x) in *. clearbody U s.
  assert (T : forall k, 2 * Z.abs (s - k * U) <= U -> 2 * Z.abs (s - (k + 1) * U) <= U -> (2 * Z.abs (s - k * U) = U -> Z.abs s < Z.abs (k * U)) ->
    (2 * Z.abs (s - (k + 1) * U) = U -> Z.abs s < Z.abs ((k + 1) * U)) -> False).
  { intros i I1 I2 I3 I4. assert (P : 0 <= i * U \/ i * U <= - U) by (destruct (Z.le_gt_cases 0 i); [left|right]; nia). rewrite Z.mul_add_distr_r, Z.mul_1_l in *. set (V := i * U) in *. clearbody V. lia. }
  destruct (Z.lt_trichotomy k k') as [L|[E|L]]; [|exact E|]; exfalso.
  - assert (k' = k + 1) by nia. subst k'. now apply (T k).
  - assert (k = k' + 1) by nia. subst k. now apply (T k').
Qed.
Lemma rounded_int x : 0 <= x < 2 ^ 64 ->
  (exists k, nearest_int x k /\ in_signed 64 k /\ int_of_f (fround x) = Ok k) \/
  ((forall k, nearest_int x k -> ~ in_signed 64 k) /\ int_of_f (fround x) = UB UBConvert).
Proof.
  intro R. destruct (fround_whole x R) as [P [(F & F' & _ & k & N & S)|[F K]]].
  - assert (T : sf_trunc (decode (fround x)) = Some k) by (rewrite trunc_exact, S, Z.quot_mul by (auto; discriminate); reflexivity). unfold int_of_f. rewrite T.
    destruct (Z.leb_spec INT64_MIN k), (Z.leb_spec k INT64_MAX); cbn [andb]; unfold INT64_MIN, INT64_MAX in *.
    + left. exists k. split; [exact N|]. split; [unfold in_signed; lia|reflexivity].
    + right. split; [|reflexivity]. intros k' N'. rewrite (nearest_unique _ _ _ N' N). unfold in_signed. lia.
    + right. split; [|reflexivity]. intros k' N'. rewrite (nearest_unique _ _ _ N' N). unfold in_signed. lia.
    + right. split; [|reflexivity]. intros k' N'. rewrite (nearest_unique _ _ _ N' N). unfold in_signed. lia.
  - right. split; [intros k (F' & _); contradiction|]. unfold int_of_f, fround. assert (E : sf_round (decode x) = decode x) by (destruct (special x F) as [->| ->]; reflexivity). rewrite E.
    destruct (special x F) as [D|D]; rewrite D; destruct (f_sign x); reflexivity.
Qed.

(** ** Drawing *)
Section Draws.
  Context {G : Type}.
  Variable gauss : G -> Z -> Z * G.
  Variable tail : G -> Z -> Z -> Z * G.
  Variables flog fexp : Z -> Z.
  (** [body fuel] draws as [draw] tells, given enough fuel *)
  Definition sound_draw (draw : G -> Z -> G -> Prop) (body : nat -> G -> res (Z * G)) : Prop :=
    (forall fuel g, match body fuel g with Ok (x, g') => draw g x g' | Err _ => False | UB w => w = UBFuel end) /\
    (forall g x g', draw g x g' -> exists fuel, forall fuel', (fuel <= fuel')%nat -> body fuel' g = Ok (x, g')).
  Lemma draw_while_sound draw body refused again : sound_draw draw body -> (forall x, again x = true <-> refused x) ->
    sound_draw (picked draw refused) (fun fuel => draw_while fuel (body fuel) again).
  Proof.
    intros [SO C] R. split.
    - intros fuel0. assert (H : forall fuel g, match draw_while fuel (body fuel0) again g with Ok (x, g') => picked draw refused g x g' | Err _ => False | UB w => w = UBFuel end).
      { induction fuel as [|fuel IH]; intro g; cbn [draw_while]; [reflexivity|]. specialize (SO fuel0 g). destruct (body fuel0 g) as [[v g1]| |w]; cbn [bind]; try assumption.
        destruct (again v) eqn:A.
        - specialize (IH g1). destruct (draw_while fuel _ again g1) as [[x g']| |]; auto. apply (picked_later _ _ _ v g1); auto. now apply R.
        - constructor; auto. rewrite <- R. congruence. }
      apply H.
    - intros g x g' P. assert (H : exists fuel, forall f f', (fuel <= f)%nat -> (fuel <= f')%nat -> draw_while f (body f') again g = Ok (x, g')).
      { induction P as [g x g' D N|g y g1 x g' D N P IH].
        - destruct (C _ _ _ D) as (f0 & F0). exists (S f0). intros f f' L L'. destruct f as [|f]; [lia|]. cbn [draw_while]. rewrite F0 by lia. cbn [bind].
          destruct (again x) eqn:A; [exfalso; apply N, R, A|reflexivity].
        - destruct (C _ _ _ D) as (f0 & F0). destruct IH as (f1 & F1). exists (S (Nat.max f0 f1)). intros f f' L L'. destruct f as [|f]; [lia|]. cbn [draw_while]. rewrite F0 by lia. cbn [bind].
          rewrite (proj2 (R y) N). apply F1; lia. }
      destruct H as (f & F). exists f. intros f' L. now apply F.
  Qed.
  Lemma draw_all_sound draw body n : sound_draw draw body ->
    (forall fuel g, match draw_all n (body fuel) g with Ok (l, g') => picked_all draw n g l g' | Err _ => False | UB w => w = UBFuel end) /\
    (forall g l g', picked_all draw n g l g' -> exists fuel, forall fuel', (fuel <= fuel')%nat -> draw_all n (body fuel') g = Ok (l, g')).
  Proof.
    intros [SO C]. induction n as [|n [I1 I2]]; split.
    - intros fuel g. cbn. constructor.
    - intros g l g' P. inversion P; subst. exists O. reflexivity.
    - intros fuel g. cbn [draw_all]. specialize (SO fuel g). destruct (body fuel g) as [[v g1]| |]; cbn [bind]; try assumption. specialize (I1 fuel g1).
      destruct (draw_all n (body fuel) g1) as [[l g']| |]; cbn [bind]; try assumption. econstructor; eauto.
    - intros g l g' P. inversion P; subst. destruct (C _ _ _ H0) as (f0 & F0). destruct (I2 _ _ _ H1) as (f1 & F1). exists (Nat.max f0 f1). intros f L. cbn [draw_all]. rewrite F0 by lia. cbn [bind]. rewrite F1 by lia. reflexivity.
  Qed.
  Lemma gaussian_sound mu sigma : sound_draw (centred gauss mu sigma) (fun _ => gaussian gauss mu sigma).
  Proof.
    split.
    - intros _ g. unfold gaussian. destruct (gauss g sigma) as [y g'] eqn:E. exists y. auto.
    - intros g x g' (y & E & ->). exists O. intros _ _. unfold gaussian. now rewrite E.
  Qed.
  Lemma above_sound least mu sigma : sound_draw (centred_above gauss tail least mu sigma) (fun fuel => gaussian_above gauss tail fuel least mu sigma).
  Proof.
    pose proof (draw_while_sound _ _ (fun x => klt (fkey x) (fkey least)) (fun v => flt v least) (gaussian_sound mu sigma) (fun x => flt_key x least)) as [SO C].
    unfold gaussian_above, centred_above. destruct (fge (fsub mu least) 0) eqn:E; unfold fge in E.
    - apply fle_key in E. split.
      + intros fuel g. specialize (SO fuel g). destruct (draw_while _ _ _ _) as [[x g']| |]; auto.
      + intros g x g' [[_ P]|[N _]]; [|contradiction]. now apply C.
    - assert (N : ~ kle (fkey 0) (fkey (fsub mu least))) by (intro X; apply fle_key in X; congruence). split.
      + intros _ g. unfold gaussian_tail. destruct (tail g (fsub least mu) sigma) as [y g'] eqn:T. right. split; [exact N|]. exists y. auto.
      + intros g x g' [[X _]|(_ & y & T & ->)]; [contradiction|]. exists O. intros _ _. unfold gaussian_tail. now rewrite T.
  Qed.
  Lemma mapped_sound draw body (f : Z -> Z) : sound_draw draw body ->
    sound_draw (fun g x g' => exists y, x = f y /\ draw g y g') (fun fuel g => do (v, g) <- body fuel g; Ok (f v, g)).
  Proof.
    intros [SO C]. split.
    - intros fuel g. specialize (SO fuel g). destruct (body fuel g) as [[v g']| |]; cbn [bind]; auto. now exists v.
    - intros g x g' (y & -> & D). destruct (C _ _ _ D) as (f0 & F0). exists f0. intros f' L. now rewrite F0.
  Qed.
  Lemma top_same : f_of_int INT64_MAX = TOP /\ f_of_int INT64_MIN = BOTTOM. Proof. split; vm_compute; reflexivity. Qed.
  Lemma draw_int_sound d : sound_draw (int_drawn gauss tail flog fexp d) (fun fuel => draw_int gauss tail flog fexp fuel d).
  Proof.
    unfold int_drawn, draw_int. cbv zeta. change (half_step d) with (step_half d). rewrite <- (proj1 top_same), <- (proj2 top_same). destruct (n_scale d =? SCALE_LOGARITHMIC).
    - apply (draw_while_sound _ (fun fuel g => do (v, g) <- gaussian_above gauss tail fuel (flog (step_half d)) (n_mu d) (n_sigma d) g; Ok (fexp v, g))).
      + apply mapped_sound, above_sound.
      + intro x. unfold fgt. apply flt_key.
    - apply (draw_while_sound _ (fun _ => gaussian gauss (n_mu d) (n_sigma d))); [apply gaussian_sound|]. intro x. rewrite orb_true_iff. unfold fgt. rewrite !flt_key. reflexivity.
  Qed.

  (** ** Integers *)
  Section Patterns.
    Hypothesis D : doubles gauss tail flog fexp.
    Lemma drawn_pattern d g x g' : 0 <= n_mu d < 2 ^ 64 -> int_drawn gauss tail flog fexp d g x g' -> 0 <= x < 2 ^ 64.
    Proof.
      destruct D as (D1 & D2 & D3 & D4). intros M. unfold int_drawn. assert (PK : forall (draw : G -> Z -> G -> Prop) (refused : Z -> Prop), (forall g x g', draw g x g' -> 0 <= x < 2 ^ 64) -> forall g x g', picked draw refused g x g' -> 0 <= x < 2 ^ 64).
      { intros draw refused H g0 x0 g0' P. induction P; eauto. }
      destruct (n_scale d =? SCALE_LOGARITHMIC); apply PK.
      - intros g0 x0 g0' (y & -> & _). apply D4.
      - intros g0 x0 g0' (y & E & ->). specialize (D1 g0 (n_sigma d)). rewrite E in D1. now apply fadd_pattern.
    Qed.
    Lemma steps_pattern d x : 0 <= x < 2 ^ 64 -> 0 <= int_steps d x < 2 ^ 64.
    Proof. intro R. unfold int_steps. destruct (n_quantize d); [|exact R]. apply fmul_pattern; [exact R|]. apply fdiv_pattern; [vm_compute; split; [discriminate|reflexivity]|apply f_of_int_pattern]. Qed.
    Lemma int_value_spec d x : 0 <= x < 2 ^ 64 ->
      (exists v, int_gives d x v /\ int_value d x = Ok v) \/ ((forall v, ~ int_gives d x v) /\ exists w, int_value d x = UB w /\ w <> UBFuel).
    Proof.
      intro R. pose proof (rounded_int (int_steps d x) (steps_pattern d x R)) as RI. unfold int_value, int_gives. unfold int_steps in *. destruct (n_quantize d).
      - destruct RI as [(k & N & I & E)|[N E]]; rewrite E; cbn [bind].
        + unfold chk64. destruct (Z.leb_spec INT64_MIN (k * n_quant d)), (Z.leb_spec (k * n_quant d) INT64_MAX); cbn [andb].
          * left. eexists. split; [exists k; split; [exact N|split; [exact I|split; [reflexivity|]]]|reflexivity]. unfold in_signed, INT64_MIN, INT64_MAX in *. lia.
          * right. split; [|eexists; split; [reflexivity|discriminate]]. intros v (k' & N' & _ & -> & I'). rewrite (nearest_unique _ _ _ N' N) in I'. unfold in_signed, INT64_MIN, INT64_MAX in *. lia.
          * right. split; [|eexists; split; [reflexivity|discriminate]]. intros v (k' & N' & _ & -> & I'). rewrite (nearest_unique _ _ _ N' N) in I'. unfold in_signed, INT64_MIN, INT64_MAX in *. lia.
          * right. split; [|eexists; split; [reflexivity|discriminate]]. intros v (k' & N' & _ & -> & I'). rewrite (nearest_unique _ _ _ N' N) in I'. unfold in_signed, INT64_MIN, INT64_MAX in *. lia.
        + right. split; [|eexists; split; [reflexivity|discriminate]]. intros v (k' & N' & I' & _). exact (N k' N' I').
      - destruct RI as [(k & N & I & E)|[N E]]; rewrite E.
        + left. exists k. split; [|reflexivity]. exists k. rewrite Z.mul_1_r. auto.
        + right. split; [|eexists; split; [reflexivity|discriminate]]. intros v (k' & N' & I' & _). exact (N k' N' I').
    Qed.
    Lemma gives_unique d x v v' : int_gives d x v -> int_gives d x v' -> v = v'.
    Proof. intros (k & N & _ & -> & _) (k' & N' & _ & -> & _). now rewrite (nearest_unique _ _ _ N N'). Qed.
    Lemma int_values_spec d xs : Forall (fun x => 0 <= x < 2 ^ 64) xs ->
      (exists vs, Forall2 (int_gives d) xs vs /\ int_values d xs = Ok vs) \/
      (Exists (fun x => forall v, ~ int_gives d x v) xs /\ exists w, int_values d xs = UB w /\ w <> UBFuel).
    Proof.
      induction 1 as [|x xs R F IH]; cbn [int_values]; [left; eauto|]. destruct (int_value_spec d x R) as [(v & V & E)|(N & w & E & W)]; rewrite E; cbn [bind].
      - destruct IH as [(vs & VS & ES)|(X & w & ES & W)]; rewrite ES; cbn [bind]; [left; eauto|right; eauto].
      - right. eauto.
    Qed.
    Lemma picked_all_pattern d n g xs g' : 0 <= n_mu d < 2 ^ 64 -> picked_all (int_drawn gauss tail flog fexp d) n g xs g' -> Forall (fun x => 0 <= x < 2 ^ 64) xs.
    Proof. intros M P. induction P; constructor; auto. eapply drawn_pattern; eauto. Qed.
    Lemma int_samples d n g : n_type d = NUM_INT -> 0 <= n_mu d < 2 ^ 64 ->
      (forall fuel, match normal_samples gauss tail flog fexp fuel d n g with
        | Ok (vs, g') => exists xs, picked_all (int_drawn gauss tail flog fexp d) n g xs g' /\ Forall2 (int_gives d) xs vs
        | Err _ => False
        | UB w => w = UBFuel \/ exists xs g', picked_all (int_drawn gauss tail flog fexp d) n g xs g' /\ Exists (fun x => forall v, ~ int_gives d x v) xs
        end) /\
      (forall xs g', picked_all (int_drawn gauss tail flog fexp d) n g xs g' -> exists fuel, forall fuel', (fuel <= fuel')%nat ->
        (forall vs, Forall2 (int_gives d) xs vs -> normal_samples gauss tail flog fexp fuel' d n g = Ok (vs, g')) /\
        (Exists (fun x => forall v, ~ int_gives d x v) xs -> exists w, normal_samples gauss tail flog fexp fuel' d n g = UB w /\ w <> UBFuel)).
    Proof.
      intros T M. destruct (draw_all_sound _ _ n (draw_int_sound d)) as [SO C]. unfold normal_samples. rewrite T. change (NUM_INT =? NUM_FLOAT) with false. cbv iota. unfold samples_int. split.
      - intro fuel. specialize (SO fuel g). destruct (draw_all _ _ _) as [[xs g']| |]; cbn [bind]; auto. pose proof (picked_all_pattern d n g xs g' M SO) as P.
        destruct (int_values_spec d xs P) as [(vs & V & E)|(X & w & E & W)]; rewrite E; cbn [bind]; [eauto|right; eauto].
      - intros xs g' P. destruct (C _ _ _ P) as (fuel & F). exists fuel. intros f L. rewrite F by exact L. cbn [bind]. pose proof (picked_all_pattern d n g xs g' M P) as PP. split.
        + intros vs V. destruct (int_values_spec d xs PP) as [(vs' & V' & E)|(X & w & E & W)].
          * rewrite E. cbn [bind]. do 2 f_equal. clear - V V'. revert vs' V'. induction V; intros vs' V'; inversion V'; subst; f_equal; eauto using gives_unique.
          * exfalso. clear - V X. induction V; inversion X; subst; [eapply H1; eassumption|auto].
        + intro X. destruct (int_values_spec d xs PP) as [(vs' & V' & E)|(_ & w & E & W)].
          * exfalso. clear - V' X. induction V'; inversion X; subst; [eapply H1; eassumption|auto].
          * rewrite E. cbn [bind]. eauto.
    Qed.
  End Patterns.
End Draws.

(** ** Doubles *)
Section Floats.
  Context {G : Type}.
  Variable gauss : G -> Z -> Z * G.
  Variable tail : G -> Z -> Z -> Z * G.
  Variables flog fexp : Z -> Z.
  Lemma picked_map (draw : G -> Z -> G -> Prop) (f : Z -> Z) n g l g' : picked_all draw n g l g' -> picked_all (fun g x g' => exists y, x = f y /\ draw g y g') n g (map f l) g'.
  Proof. induction 1; cbn [map]; econstructor; eauto. Qed.
  Lemma map_picked (draw : G -> Z -> G -> Prop) (f : Z -> Z) n g l g' : picked_all (fun g x g' => exists y, x = f y /\ draw g y g') n g l g' -> exists k, l = map f k /\ picked_all draw n g k g'.
  Proof.
    induction 1 as [g|n g x g1 l g' (y & -> & D) P (k & -> & K)]; [exists []; split; [reflexivity|constructor]|]. exists (y :: k). split; [reflexivity|]. econstructor; eauto.
  Qed.
  Definition raw (d : normal) (fuel : nat) : G -> res (Z * G) :=
    if (n_scale d =? SCALE_LOGARITHMIC) && n_quantize d then gaussian_above gauss tail fuel (flog (fmul (n_quant d) HALF)) (n_mu d) (n_sigma d) else gaussian gauss (n_mu d) (n_sigma d).
  Definition raw_drawn (d : normal) : G -> Z -> G -> Prop :=
    if (n_scale d =? SCALE_LOGARITHMIC) && n_quantize d then centred_above gauss tail (flog (fmul (n_quant d) HALF)) (n_mu d) (n_sigma d) else centred gauss (n_mu d) (n_sigma d).
  Lemma raw_sound d : sound_draw (raw_drawn d) (raw d).
  Proof. unfold raw, raw_drawn. destruct (_ && _); [apply above_sound|apply gaussian_sound]. Qed.
  Definition out (d : normal) (v : Z) : Z := if n_quantize d then fmul (fround (fmul v (fdiv ONE (n_quant d)))) (n_quant d) else v.
  Lemma raw_float d n g l g' : picked_all (raw_drawn d) n g l g' <->
    (picked_all (raw_drawn d) n g l g' /\ picked_all (float_drawn gauss tail flog fexp d) n g (if n_scale d =? SCALE_LOGARITHMIC then map fexp l else l) g').
  Proof.
    split; [|tauto]. intro P. split; [exact P|]. unfold raw_drawn, float_drawn in *. destruct (n_scale d =? SCALE_LOGARITHMIC); cbn [andb] in P; [|exact P].
    apply picked_map with (f := fexp) in P. destruct (n_quantize d); exact P.
  Qed.
  Lemma float_raw d n g l g' : picked_all (float_drawn gauss tail flog fexp d) n g l g' -> exists k, picked_all (raw_drawn d) n g k g' /\ l = if n_scale d =? SCALE_LOGARITHMIC then map fexp k else k.
  Proof.
    unfold raw_drawn, float_drawn. destruct (n_scale d =? SCALE_LOGARITHMIC); cbn [andb]; intro P; [|eauto].
    destruct (n_quantize d); apply map_picked in P; destruct P as (k & -> & K); exists k; auto.
  Qed.
  Lemma samples_float_eq d n g fuel : samples_float gauss tail flog fexp fuel d n g =
    do (l, g') <- draw_all n (raw d fuel) g; Ok (map (out d) (if n_scale d =? SCALE_LOGARITHMIC then map fexp l else l), g').
  Proof.
    unfold samples_float, raw, out. destruct (n_scale d =? SCALE_LOGARITHMIC), (n_quantize d); cbn [andb]; destruct (draw_all _ _ _) as [[l g']| |]; cbn [bind]; auto; now rewrite map_id.
  Qed.
  Hypothesis D : doubles gauss tail flog fexp.
  Lemma float_drawn_pattern d g x g' : 0 <= n_mu d < 2 ^ 64 -> float_drawn gauss tail flog fexp d g x g' -> 0 <= x < 2 ^ 64.
  Proof.
    destruct D as (D1 & D2 & D3 & D4). intros M. unfold float_drawn. destruct (n_scale d =? SCALE_LOGARITHMIC); [intros (y & -> & _); apply D4|].
    intros (y & E & ->). specialize (D1 g (n_sigma d)). rewrite E in D1. now apply fadd_pattern.
  Qed.
  Lemma out_value d x : 0 <= x < 2 ^ 64 -> 0 <= n_quant d < 2 ^ 64 -> float_value d x (out d x).
  Proof.
    intros R Q. unfold float_value, out. destruct (n_quantize d); [|reflexivity]. eexists. split; [|reflexivity]. apply fround_whole, fmul_pattern; [exact R|]. apply fdiv_pattern; [vm_compute; split; [discriminate|reflexivity]|exact Q].
  Qed.
  Lemma out_values d n g xs g' : 0 <= n_mu d < 2 ^ 64 -> 0 <= n_quant d < 2 ^ 64 -> picked_all (float_drawn gauss tail flog fexp d) n g xs g' -> Forall2 (float_value d) xs (map (out d) xs).
  Proof. intros M Q P. induction P; cbn [map]; constructor; auto. apply out_value; auto. eapply float_drawn_pattern; eauto. Qed.
  Lemma float_samples d n g : n_type d = NUM_FLOAT -> 0 <= n_mu d < 2 ^ 64 -> 0 <= n_quant d < 2 ^ 64 ->
    (forall fuel, match normal_samples gauss tail flog fexp fuel d n g with
      | Ok (vs, g') => exists xs, picked_all (float_drawn gauss tail flog fexp d) n g xs g' /\ Forall2 (float_value d) xs vs
      | Err _ => False
      | UB w => w = UBFuel
      end) /\
    (forall xs g', picked_all (float_drawn gauss tail flog fexp d) n g xs g' -> exists fuel vs, Forall2 (float_value d) xs vs /\
      forall fuel', (fuel <= fuel')%nat -> normal_samples gauss tail flog fexp fuel' d n g = Ok (vs, g')).
  Proof.
    intros T M Q. destruct (draw_all_sound _ _ n (raw_sound d)) as [SO C]. unfold normal_samples. rewrite T. change (NUM_FLOAT =? NUM_FLOAT) with true. cbv iota. split.
    - intro fuel. rewrite samples_float_eq. specialize (SO fuel g). destruct (draw_all _ _ _) as [[l g']| |]; cbn [bind]; auto. apply raw_float in SO. destruct SO as [_ P]. eexists. split; [exact P|]. eapply out_values; eauto.
    - intros xs g' P. destruct (float_raw _ _ _ _ _ P) as (k & K & ->). destruct (C _ _ _ K) as (fuel & F). exists fuel. eexists. split; [eapply out_values; eauto|].
      intros f L. rewrite samples_float_eq, F by exact L. reflexivity.
  Qed.
End Floats.

(** ** Creation *)
Lemma normal_created t mu sigma scale quant : number t quant -> let r := create_normal t mu sigma scale quant in
  (~ (t = NUM_INT \/ t = NUM_FLOAT) /\ r = Err ERR_INVALID_TYPE) \/
  ((t = NUM_INT \/ t = NUM_FLOAT) /\ ~ (scale = SCALE_LINEAR \/ scale = SCALE_LOGARITHMIC) /\ r = Err ERR_INVALID_SCALE) \/
  ((t = NUM_INT \/ t = NUM_FLOAT) /\ (scale = SCALE_LINEAR \/ scale = SCALE_LOGARITHMIC) /\ ~ step_ok t quant /\ r = Err ERR_INVALID_VALUE) \/
  ((t = NUM_INT \/ t = NUM_FLOAT) /\ (scale = SCALE_LINEAR \/ scale = SCALE_LOGARITHMIC) /\ step_ok t quant /\
   exists b, r = Ok (mkNormal t mu sigma scale quant b) /\ (b = true <-> steps t quant)).
Proof.
  intros N r. unfold r, create_normal, step_ok, steps, number in *. destruct (Z.eqb_spec t NUM_FLOAT) as [TF|TF]; destruct (Z.eqb_spec t NUM_INT) as [TI|TI]; cbn [negb andb refute bind]; try (left; split; [lia|reflexivity]).
  - subst. discriminate.
  - right. destruct (Z.eqb_spec scale SCALE_LINEAR) as [SL|SL], (Z.eqb_spec scale SCALE_LOGARITHMIC) as [SG|SG]; cbn [negb andb refute bind]; try (left; split; [auto|split; [lia|reflexivity]]); right;
      (destruct (flt quant 0) eqn:Q; cbn [refute bind]; [left; apply flt_key in Q; split; [auto|]; split; [auto|]; split; [tauto|reflexivity]|right; split; [auto|]; split; [auto|]; split; [intro X; apply flt_key in X; congruence|]]);
      eexists; (split; [reflexivity|]); rewrite negb_true_iff; rewrite <- not_true_iff_false, feq_key; reflexivity.
  - right. destruct (Z.eqb_spec scale SCALE_LINEAR) as [SL|SL], (Z.eqb_spec scale SCALE_LOGARITHMIC) as [SG|SG]; cbn [negb andb refute bind]; try (left; split; [auto|split; [lia|reflexivity]]); right;
      (destruct (Z.ltb_spec quant 0); cbn [refute bind]; [left; split; [auto|]; split; [auto|]; split; [lia|reflexivity]|right; split; [auto|]; split; [auto|]; split; [assumption|]]);
      eexists; (split; [reflexivity|]); rewrite negb_true_iff, Z.eqb_neq; reflexivity.
Qed.

(** ** Bounds *)
Definition step_of (quant : Z) : Z := if quant =? 0 then 1 else quant.
Lemma quot_floor a q : 0 <= a -> 0 < q -> Z.quot a q * q <= a /\ forall k, k * q <= a -> k * q <= Z.quot a q * q.
Proof. intros A Q. rewrite Z.quot_div_nonneg by lia. pose proof (Z.mul_div_le a q Q). split; [lia|]. intros k K. pose proof (Z.div_le_lower_bound a q k Q ltac:(lia)). nia. Qed.
Lemma bounds_iff scale quant lo hi : normal_int scale quant lo -> normal_int scale quant hi ->
  (forall x, normal_int scale quant x -> lo <= x <= hi) -> let i := mkInterval NUM_INT lo hi true true in
  i_type i = NUM_INT /\ i_linc i = true /\ i_uinc i = true /\
  normal_int scale quant (i_lower i) /\ normal_int scale quant (i_upper i) /\
  forall x, normal_int scale quant x <-> member i x /\ exists k, x = k * step_of quant.
Proof.
  intros NL NH A i. split; [reflexivity|]. split; [reflexivity|]. split; [reflexivity|]. split; [exact NL|]. split; [exact NH|]. intro x. split.
  - intro N. pose proof (A x N). split; [split; [exact (proj1 H)|exact (proj2 H)]|]. apply N.
  - intros [[L H] K]. change (lo <= x) in L. change (x <= hi) in H. unfold normal_int, in_signed in *. split; [lia|]. split; [|exact K]. intro SL. destruct NL as (_ & NL & _). specialize (NL SL). lia.
Qed.
Lemma normal_bounds_int d : n_type d = NUM_INT -> n_scale d = SCALE_LINEAR \/ n_scale d = SCALE_LOGARITHMIC -> in_signed 64 (n_quant d) -> 0 <= n_quant d -> (n_quantize d = true <-> n_quant d <> 0) ->
  let i := normal_bounds d in
  i_type i = NUM_INT /\ i_linc i = true /\ i_uinc i = true /\
  normal_int (n_scale d) (n_quant d) (i_lower i) /\ normal_int (n_scale d) (n_quant d) (i_upper i) /\
  forall x, normal_int (n_scale d) (n_quant d) x <-> member i x /\ exists k, x = k * step_of (n_quant d).
Proof.
  intros T S I P QZ i. unfold i, normal_bounds. rewrite T. change (NUM_INT =? NUM_FLOAT) with false. cbv iota.
  assert (QB : n_quantize d = negb (n_quant d =? 0)) by (destruct (n_quantize d), (Z.eqb_spec (n_quant d) 0); cbn; auto; destruct QZ; intuition congruence). rewrite QB. clear QZ QB i.
  unfold in_signed in I. change (2 ^ (64 - 1)) with (2 ^ 63) in *. change INT64_MAX with (2 ^ 63 - 1) in *. change INT64_MIN with (- 2 ^ 63) in *.
  pose proof (quot_floor (2 ^ 63 - 1) (n_quant d) ltac:(lia)) as U. pose proof (quot_floor (2 ^ 63) (n_quant d) ltac:(lia)) as L.
  assert (E : Z.quot (- 2 ^ 63) (n_quant d) * n_quant d = - (Z.quot (2 ^ 63) (n_quant d) * n_quant d)) by (destruct (Z.eq_dec (n_quant d) 0) as [->|N]; [now rewrite !Z.mul_0_r|rewrite Z.quot_opp_l by exact N; lia]).
  destruct (Z.eqb_spec (n_scale d) SCALE_LOGARITHMIC) as [SL|SL]; destruct (Z.eqb_spec (n_quant d) 0) as [Z0|Z0]; cbn [negb]; apply bounds_iff; unfold normal_int, in_signed; change (2 ^ (64 - 1)) with (2 ^ 63).
  - rewrite Z0. split; [lia|]. split; [lia|]. now exists 1.
  - rewrite Z0. split; [lia|]. split; [lia|]. exists (2 ^ 63 - 1). reflexivity.
  - intros x (X & Y & _). specialize (Y SL). lia.
  - split; [lia|]. split; [lia|]. exists 1. destruct (Z.eqb_spec (n_quant d) 0); lia.
  - specialize (U ltac:(lia)). destruct U as [U1 U2]. specialize (U2 1 ltac:(lia)). split; [lia|]. split; [lia|]. eexists. destruct (Z.eqb_spec (n_quant d) 0); [lia|reflexivity].
  - specialize (U ltac:(lia)). destruct U as [U1 U2]. destruct (Z.eqb_spec (n_quant d) 0); [lia|]. intros x (X & Y & k & ->). specialize (Y SL). specialize (U2 k ltac:(lia)). split; [|lia]. assert (0 < k) by nia. nia.
  - rewrite Z0. split; [lia|]. split; [congruence|]. exists (- 2 ^ 63). reflexivity.
  - rewrite Z0. split; [lia|]. split; [congruence|]. exists (2 ^ 63 - 1). reflexivity.
  - intros x (X & _). lia.
  - rewrite E. specialize (L ltac:(lia)). destruct L as [L1 L2]. specialize (L2 0 ltac:(lia)). split; [lia|]. split; [congruence|]. exists (- Z.quot (2 ^ 63) (n_quant d)). destruct (Z.eqb_spec (n_quant d) 0); lia.
  - specialize (U ltac:(lia)). destruct U as [U1 U2]. specialize (U2 0 ltac:(lia)). split; [lia|]. split; [congruence|]. eexists. destruct (Z.eqb_spec (n_quant d) 0); [lia|reflexivity].
  - rewrite E. specialize (U ltac:(lia)). specialize (L ltac:(lia)). destruct U as [U1 U2], L as [L1 L2]. destruct (Z.eqb_spec (n_quant d) 0); [lia|]. intros x (X & _ & k & ->). specialize (U2 k ltac:(lia)). specialize (L2 (- k) ltac:(lia)). lia.
Qed.
Lemma key_finite x : fkey x <> None -> (finite x <-> klt (fkey MINUS_INF) (fkey x) /\ klt (fkey x) (fkey PLUS_INF)).
Proof.
  intro N. change (fkey MINUS_INF) with (Some (- INF_MAG)). change (fkey PLUS_INF) with (Some INF_MAG). rewrite scaled_key in *. unfold finite. pose proof (f_mag_range x). destruct (Z.ltb_spec INF_MAG (f_mag x)); [congruence|]. cbn [klt]. destruct (f_sign x); lia.
Qed.
Lemma normal_bounds_float d : n_type d = NUM_FLOAT -> n_scale d = SCALE_LINEAR \/ n_scale d = SCALE_LOGARITHMIC -> ~ klt (fkey (n_quant d)) (fkey 0) -> (n_quantize d = true <-> ~ keq (fkey (n_quant d)) (fkey 0)) ->
  i_type (normal_bounds d) = NUM_FLOAT /\
  forall x, member (normal_bounds d) x <-> finite x /\ (n_scale d = SCALE_LOGARITHMIC -> if n_quantize d then kle (fkey (n_quant d)) (fkey x) else klt (fkey 0) (fkey x)).
Proof.
  intros T SC P Q. unfold normal_bounds. rewrite T. change (NUM_FLOAT =? NUM_FLOAT) with true. cbv iota.
  assert (LE : forall x, klt (fkey 0) (fkey x) -> klt (fkey x) (fkey PLUS_INF) -> finite x).
  { intros x A B. apply key_finite; [intro X; now rewrite X in A|]. split; [|exact B]. change (fkey MINUS_INF) with (Some (- INF_MAG)). change (fkey 0) with (Some 0) in A. destruct (fkey x); [|destruct A]. cbn [klt] in *. unfold INF_MAG. lia. }
  assert (UP : forall x, finite x -> klt (fkey x) (fkey PLUS_INF)) by (intros x F; apply key_finite in F; [tauto|now apply finite_key]).
  destruct (Z.eqb_spec (n_scale d) SCALE_LOGARITHMIC) as [SL|SL]; [destruct (n_quantize d) eqn:QQ|]; (split; [reflexivity|]); intro x; unfold member, above, below; cbn [i_type i_lower i_upper i_linc i_uinc]; change (pos NUM_FLOAT) with fkey.
  - split.
    + intro M. destruct (fkey x) eqn:KX; [|destruct M]. destruct (fkey (n_quant d)) eqn:KQ; [|destruct M; contradiction]. destruct M as [A B]. assert (P0 : ~ keq (Some z0) (fkey 0)) by tauto. change (fkey 0) with (Some 0) in *. cbn [klt keq] in *. split; [|intros _; exact A]. apply LE; rewrite KX; [cbn [klt]; change (fkey 0) with (Some 0); cbn; lia|exact B].
    + intros [F M]. specialize (M SL). pose proof (UP _ F) as B. destruct (fkey x); [|destruct B]. destruct (fkey (n_quant d)); [|destruct M]. split; [exact M|exact B].
  - split.
    + intro M. destruct (fkey x) eqn:KX; [|destruct M]. destruct M as [A B]. split; [|intros _; exact A]. apply LE; rewrite KX; assumption.
    + intros [F M]. specialize (M SL). pose proof (UP _ F) as B. destruct (fkey x); [|destruct B]. split; [exact M|exact B].
  - split.
    + intro M. destruct (fkey x) eqn:KX; [|destruct M]. destruct M as [A B]. split; [|congruence]. apply key_finite; rewrite KX; [discriminate|]. split; assumption.
    + intros [F _]. pose proof (finite_key _ F) as K. apply (key_finite x K) in F. destruct (fkey x); [|congruence]. exact F.
Qed.

(** ** Values are within the bounds *)
Lemma special_infinite s : ~ finite (encode (S754_infinity s)) /\ ~ finite (encode S754_nan).
Proof. destruct s; split; unfold finite; vm_compute; discriminate. Qed.
Lemma fmul_finite a b : finite (fmul a b) -> finite a /\ finite b.
Proof.
  unfold fmul. intro F. split; [destruct (finite_dec a) as [A|A]; auto|destruct (finite_dec b) as [A|A]; auto]; exfalso; apply special in A; destruct A as [A|A]; rewrite A in F.
  - apply (proj2 (special_infinite true)). exact F.
  - destruct (decode b); cbn [SFmul] in F; first [now apply (proj2 (special_infinite true)) in F|now apply (proj1 (special_infinite _)) in F].
  - apply (proj2 (special_infinite true)). destruct (decode a); exact F.
  - destruct (decode a); cbn [SFmul] in F; first [now apply (proj2 (special_infinite true)) in F|now apply (proj1 (special_infinite _)) in F].
Qed.
Lemma zero_scaled : finite 0 /\ scaled 0 = 0. Proof. split; [reflexivity|vm_compute; reflexivity]. Qed.
Lemma key_zero x : finite x -> (kle (fkey 0) (fkey x) <-> 0 <= scaled x) /\ (klt (fkey 0) (fkey x) <-> 0 < scaled x) /\ (keq (fkey x) (fkey 0) <-> scaled x = 0).
Proof.
  intro F. destruct zero_scaled as [F0 S0]. pose proof (key_scaled 0 x F0 F) as (A & B & _). pose proof (key_scaled x 0 F F0) as (_ & _ & C). rewrite S0 in *. tauto.
Qed.
Lemma sign_rounds p q b : 0 < q -> 0 <= p -> rounds p q b -> kle (fkey 0) (fkey b).
Proof. intros Q P R. apply (rounds_mono 0 q 0 p q b Q Q); [nia| |exact R]. apply (zero_rounds false q Q). Qed.
(** a number that is not negative, in steps *)
Lemma steps_nonneg x q : 0 <= x < 2 ^ 64 -> 0 <= q < 2 ^ 64 -> kle (fkey 0) (fkey x) -> finite q -> 0 < scaled q -> finite (fmul x (fdiv ONE q)) -> 0 <= scaled (fmul x (fdiv ONE q)).
Proof.
  intros RX RQ X FQ SQ F. destruct (fmul_finite _ _ F) as [FX FD]. assert (RO : 0 <= ONE < 2 ^ 64) by (vm_compute; split; [discriminate|reflexivity]).
  assert (FO : finite ONE) by reflexivity. pose proof (fdiv_rounds ONE q RO RQ FO FQ ltac:(lia)) as D. pose proof (fdiv_pattern ONE q RO RQ) as PD.
  assert (SO : scaled ONE = 2 ^ 1074) by (vm_compute; reflexivity). rewrite SO, Z.sgn_pos in D by exact SQ.
  apply sign_rounds in D; [|lia|]. 2: { rewrite Z.mul_1_r. apply Z.mul_nonneg_nonneg; apply Z.pow_nonneg; lia. }
  apply (proj1 (key_zero _ FD)) in D. apply (proj1 (key_zero _ FX)) in X.
  apply (proj1 (key_zero _ F)). eapply sign_rounds; [|apply Z.mul_nonneg_nonneg; [exact X|exact D]|apply fmul_rounds; assumption]. reflexivity.
Qed.
Lemma nearest_nonneg x k : nearest_int x k -> 0 <= scaled x -> 0 <= k.
Proof.
  intros (_ & A & B) S. pose proof unit_pos as U. set (u := 2 ^ 1074) in *. clearbody u.
  destruct (Z_le_gt_dec 0 k); [assumption|]. assert (k = -1 \/ k <= -2) as [->|K] by lia; [|nia]. rewrite Z.abs_eq in A, B by lia. assert (scaled x = 0 \/ 0 < scaled x) as [E|E] by lia; [|lia]. lia.
Qed.
Lemma float_in_bounds d x v : n_type d = NUM_FLOAT -> n_scale d = SCALE_LINEAR \/ n_scale d = SCALE_LOGARITHMIC -> 0 <= n_quant d < 2 ^ 64 -> ~ klt (fkey (n_quant d)) (fkey 0) -> (n_quantize d = true <-> ~ keq (fkey (n_quant d)) (fkey 0)) ->
  0 <= x < 2 ^ 64 -> float_value d x v -> finite v -> (n_scale d = SCALE_LOGARITHMIC -> kle (fkey 0) (fkey x) /\ ~ keq (fkey v) (fkey 0)) ->
  member (normal_bounds d) v.
Proof.
  intros T SC RQ P Q RX V F L. apply (normal_bounds_float d T SC P Q). split; [exact F|]. intro SL. destruct (L SL) as [LX LV]. unfold float_value in V. destruct (n_quantize d) eqn:QQ.
  - destruct V as (r & (RR & W) & ->). destruct (fmul_finite _ _ F) as [FR FQ].
    assert (SQ : 0 < scaled (n_quant d)).
    { destruct (key_zero _ FQ) as (A & B & C). pose proof (proj1 Q eq_refl) as N. rewrite C in N. destruct (key_scaled (n_quant d) 0 FQ (proj1 zero_scaled)) as (_ & K & _). rewrite (proj2 zero_scaled) in K. rewrite K in P. lia. }
    destruct W as [(FP & _ & _ & k & NK & SK)|[NF KK]].
    2: { exfalso. apply NF. unfold finite. rewrite !scaled_key in KK. unfold finite in FR. destruct (Z.ltb_spec INF_MAG (f_mag r)); [lia|]. destruct (Z.ltb_spec INF_MAG (f_mag (fmul x (fdiv ONE (n_quant d))))); [discriminate|]. pose proof (f_mag_range r). pose proof (f_mag_range (fmul x (fdiv ONE (n_quant d)))). destruct (f_sign r), (f_sign (fmul x (fdiv ONE (n_quant d)))); injection KK; lia. }
    pose proof (steps_nonneg x (n_quant d) RX RQ LX FQ SQ FP) as SP. pose proof (nearest_nonneg _ _ NK SP) as K0. pose proof (fmul_rounds r (n_quant d) RR RQ FR FQ) as MR.
    destruct (Z.eq_dec k 0) as [->|K1].
    + exfalso. apply LV. apply (key_zero _ F). rewrite SK in MR. cbn [Z.mul] in MR. apply (rounds_exact _ (2 ^ 1074) 0); [reflexivity| |exact MR]. exists 0. split; [unfold INF_MAG; lia|reflexivity].
    + apply (rounds_mono (scaled (n_quant d)) 1 _ (scaled r * scaled (n_quant d)) (2 ^ 1074)); [lia|reflexivity| |apply self_rounds; assumption|exact MR]. rewrite SK. pose proof unit_pos. nia.
  - subst v. destruct (key_zero _ F) as (A & B & C). apply B. apply A in LX. rewrite C in LV. lia.
Qed.
Lemma int_in_bounds d x v : n_type d = NUM_INT -> n_scale d = SCALE_LINEAR \/ n_scale d = SCALE_LOGARITHMIC -> in_signed 64 (n_quant d) -> 0 <= n_quant d -> (n_quantize d = true <-> n_quant d <> 0) ->
  0 <= x < 2 ^ 64 -> int_gives d x v -> (n_scale d = SCALE_LOGARITHMIC -> kle (fkey 0) (fkey x) /\ v <> 0) ->
  member (normal_bounds d) v /\ normal_int (n_scale d) (n_quant d) v.
Proof.
  intros T SC I P Q RX (k & NK & IK & -> & IV) L. destruct (normal_bounds_int d T SC I P Q) as (_ & _ & _ & _ & _ & B).
  enough (normal_int (n_scale d) (n_quant d) (k * (if n_quantize d then n_quant d else 1))) by (split; [now apply B|assumption]).
  assert (SE : (if n_quantize d then n_quant d else 1) = step_of (n_quant d)) by (unfold step_of; destruct (n_quantize d), (Z.eqb_spec (n_quant d) 0); auto; destruct Q as [Q1 Q2]; [specialize (Q1 eq_refl); contradiction|specialize (Q2 n); discriminate]).
  split; [exact IV|]. split; [|eexists; rewrite SE; reflexivity]. intro SL. destruct (L SL) as [LX LV]. rewrite SE in *.
  assert (0 < step_of (n_quant d)) by (unfold step_of; destruct (Z.eqb_spec (n_quant d) 0); lia).
  assert (SX : 0 <= scaled (int_steps d x)); [|pose proof (nearest_nonneg _ _ NK SX); nia].
  pose proof (proj1 NK) as FS. unfold int_steps in *. destruct (n_quantize d) eqn:QQ; [|now apply key_zero in LX].
  pose proof (f_of_int_rounds (n_quant d)) as FR. pose proof (f_of_int_pattern (n_quant d)) as PQ.
  destruct (fmul_finite _ _ FS) as [FX FD].
  assert (Q1 : 1 <= n_quant d) by (assert (n_quant d <> 0) by (apply Q; reflexivity); lia).
  assert (FQ : finite (f_of_int (n_quant d))).
  { destruct (finite_dec (f_of_int (n_quant d))) as [Y|Y]; [exact Y|]. exfalso. unfold in_signed in I. assert (M : n_quant d * 2 ^ 1074 * 1 <= 2 ^ 63 * 2 ^ 1074 * 1) by (rewrite !Z.mul_1_r; apply Z.mul_le_mono_nonneg_r; [apply Z.pow_nonneg; lia|exact (Z.lt_le_incl _ _ (proj2 I))]).
    pose proof (rounds_mono _ 1 _ _ 1 _ Z.lt_0_1 Z.lt_0_1 M FR (f_of_int_rounds (2 ^ 63))) as K.
    apply Y. rewrite (rounds_key _ _ _ FR) in K. replace (fkey (f_of_int (2 ^ 63))) with (Some 4890909195324358656) in K by (vm_compute; reflexivity). cbn [kle] in K. unfold finite, INF_MAG.
    assert (N : 0 <= n_quant d * 2 ^ 1074) by (apply Z.mul_nonneg_nonneg; [exact P|apply Z.pow_nonneg; lia]). pose proof (sign_rounds _ 1 _ Z.lt_0_1 N FR) as K0. rewrite (rounds_key _ _ _ FR) in K0. change (fkey 0) with (Some 0) in K0. cbn [kle] in K0. pose proof (f_mag_range (f_of_int (n_quant d))). destruct (f_sign (f_of_int (n_quant d))); lia. }
  apply steps_nonneg; auto. pose proof (f_of_int_exact 1 ltac:(lia)) as [F1 S1].
  assert (M : 1 * 2 ^ 1074 * 1 <= n_quant d * 2 ^ 1074 * 1) by (rewrite !Z.mul_1_r; apply Z.mul_le_mono_nonneg_r; [apply Z.pow_nonneg; lia|exact Q1]).
  pose proof (rounds_mono _ 1 _ _ 1 _ Z.lt_0_1 Z.lt_0_1 M (f_of_int_rounds 1) FR) as K.
  apply (key_scaled _ _ F1 FQ) in K. rewrite S1 in K. pose proof unit_pos. lia.
Qed.
(** numbers of at least one half are not rounded to 0 *)
Lemma int_not_zero d x v : n_scale d = SCALE_LOGARITHMIC -> n_quantize d = false -> kle (fkey HALF_) (fkey x) -> int_gives d x v -> v <> 0.
Proof.
  intros SL Q LX (k & NK & IK & -> & IV). rewrite Q in *. unfold int_steps in NK. rewrite Q in NK. destruct NK as (F & A & B). rewrite Z.mul_1_r. intros ->.
  assert (FH : finite HALF_) by reflexivity. apply (key_scaled _ _ FH F) in LX. assert (SH : 2 * scaled HALF_ = 2 ^ 1074) by (vm_compute; reflexivity). pose proof unit_pos. cbn [Z.mul Z.abs] in B. rewrite Z.mul_0_l, Z.sub_0_r in *. assert (Z.abs (scaled x) = scaled x) by lia. rewrite H0 in *. assert (2 * scaled x = 2 ^ 1074) by lia. specialize (B H1). lia.
Qed.

(** ** Distributions as created *)
Lemma created_parts t mu sigma scale quant d : number t quant -> create_normal t mu sigma scale quant = Ok d ->
  (n_type d = t /\ n_mu d = mu /\ n_scale d = scale /\ n_quant d = quant) /\ (t = NUM_INT \/ t = NUM_FLOAT) /\ (scale = SCALE_LINEAR \/ scale = SCALE_LOGARITHMIC) /\ step_ok t quant /\ (n_quantize d = true <-> steps t quant).
Proof.
  intros N E. destruct (normal_created t mu sigma scale quant N) as [[_ R]|[(_ & _ & R)|[(_ & _ & _ & R)|(A & B & C & b & R & D)]]]; rewrite R in E; try discriminate.
  injection E as <-. cbn. auto.
Qed.
Lemma created_int_bounds mu sigma scale quant d : in_signed 64 quant -> create_normal NUM_INT mu sigma scale quant = Ok d ->
  let i := normal_bounds d in
  i_type i = NUM_INT /\ i_linc i = true /\ i_uinc i = true /\ normal_int scale quant (i_lower i) /\ normal_int scale quant (i_upper i) /\
  forall x, normal_int scale quant x <-> member i x /\ exists k, x = k * (if quant =? 0 then 1 else quant).
Proof.
  intros N E. destruct (created_parts NUM_INT _ _ _ _ _ N E) as ((A & B & <- & <-) & _ & C & D & F). apply normal_bounds_int; auto.
Qed.
Lemma created_float_bounds mu sigma scale quant d : 0 <= quant < 2 ^ 64 -> create_normal NUM_FLOAT mu sigma scale quant = Ok d ->
  i_type (normal_bounds d) = NUM_FLOAT /\
  forall x, member (normal_bounds d) x <-> finite x /\ (scale = SCALE_LOGARITHMIC -> klt (fkey 0) (fkey x) /\ (steps NUM_FLOAT quant -> kle (fkey quant) (fkey x))).
Proof.
  intros N E. destruct (created_parts NUM_FLOAT _ _ _ _ _ N E) as ((A & B & <- & <-) & _ & C & D & F). destruct (normal_bounds_float d A C D F) as [G H]. split; [exact G|]. intro x. rewrite H. clear H.
  unfold step_ok, steps in *. change (NUM_FLOAT =? NUM_FLOAT) with true in *. cbv iota in *. split; intros [FX M]; (split; [exact FX|]); intro SL; specialize (M SL).
  - destruct (n_quantize d) eqn:Q.
    + split; [|auto]. pose proof (proj1 F eq_refl) as NZ. change (fkey 0) with (Some 0) in *. destruct (fkey (n_quant d)); [|destruct M]. destruct (fkey x); [|destruct M]. cbn [klt kle keq] in *. lia.
    + split; [exact M|]. intro X. apply F in X. discriminate.
  - destruct (n_quantize d) eqn:Q; [apply M, F; reflexivity|apply M].
Qed.
Section Created.
  Context {G : Type}.
  Variable gauss : G -> Z -> Z * G.
  Variable tail : G -> Z -> Z -> Z * G.
  Variables flog fexp : Z -> Z.
  Hypothesis D : doubles gauss tail flog fexp.
  Hypothesis E : forall x, ~ klt (fkey (fexp x)) (fkey 0).
  Lemma nan_drawn x : fkey x = None -> ~ finite x. Proof. intros K F. now apply finite_key in F. Qed.
  Lemma not_negative x : finite x -> ~ klt (fkey x) (fkey 0) -> kle (fkey 0) (fkey x).
  Proof. intros F N. pose proof (finite_key x F). change (fkey 0) with (Some 0) in *. destruct (fkey x); [|congruence]. cbn [klt kle] in *. lia. Qed.
  Lemma drawn_log (d : normal) g x g' : n_type d = NUM_INT -> n_scale d = SCALE_LOGARITHMIC -> int_drawn gauss tail flog fexp d g x g' -> ~ klt (fkey x) (fkey 0).
  Proof. intros _ SL. unfold int_drawn. rewrite SL. change (SCALE_LOGARITHMIC =? SCALE_LOGARITHMIC) with true. cbv iota. induction 1 as [g x g' (y & -> & _)|]; auto. Qed.
  Lemma float_drawn_log (d : normal) g x g' : n_scale d = SCALE_LOGARITHMIC -> float_drawn gauss tail flog fexp d g x g' -> ~ klt (fkey x) (fkey 0).
  Proof. intros SL. unfold float_drawn. rewrite SL. change (SCALE_LOGARITHMIC =? SCALE_LOGARITHMIC) with true. cbv iota. intros (y & -> & _). auto. Qed.
  Lemma created_int_values fuel mu sigma scale quant d n g vs g' : 0 <= mu < 2 ^ 64 -> in_signed 64 quant -> create_normal NUM_INT mu sigma scale quant = Ok d ->
    normal_samples gauss tail flog fexp fuel d n g = Ok (vs, g') -> length vs = n /\
    Forall (fun v => (normal_int scale quant v /\ member (normal_bounds d) v) \/ (scale = SCALE_LOGARITHMIC /\ v = 0)) vs.
  Proof.
    intros M N C R. destruct (created_parts NUM_INT _ _ _ _ _ N C) as ((A & <- & <- & <-) & _ & SC & ST & F).
    pose proof (proj1 (int_samples gauss tail flog fexp D d n g A M) fuel) as SO. rewrite R in SO. destruct SO as (xs & P & V).
    clear R. revert vs V. induction P as [|n g x g1 l g' DX P IH]; intros vs V; inversion V; subst; [split; [reflexivity|constructor]|]. match goal with H : Forall2 _ l _ |- _ => destruct (IH _ H) as [LEN ALL] end. split; [cbn; congruence|]. constructor; [|exact ALL].
    match goal with H : int_gives d x ?y |- _ => rename H into GV; set (v := y) in * end.
    destruct (Z.eq_dec (n_scale d) SCALE_LOGARITHMIC) as [SL|SL]; [destruct (Z.eq_dec v 0) as [V0|V0]; [now right|]|].
    - left. apply and_comm. refine (int_in_bounds d x v A SC N ST F (drawn_pattern gauss tail flog fexp D d g x g1 M DX) GV _). intros _. split; [|exact V0]. apply not_negative; [|eapply drawn_log; eauto].
      destruct GV as (k & (FS & _) & _). unfold int_steps in FS. destruct (n_quantize d); [now apply fmul_finite in FS|exact FS].
    - left. apply and_comm. refine (int_in_bounds d x v A SC N ST F (drawn_pattern gauss tail flog fexp D d g x g1 M DX) GV _). contradiction.
  Qed.
  Lemma created_float_values fuel mu sigma scale quant d n g vs g' : 0 <= mu < 2 ^ 64 -> 0 <= quant < 2 ^ 64 -> create_normal NUM_FLOAT mu sigma scale quant = Ok d ->
    normal_samples gauss tail flog fexp fuel d n g = Ok (vs, g') -> length vs = n /\
    Forall (fun v => member (normal_bounds d) v \/ ~ finite v \/ (scale = SCALE_LOGARITHMIC /\ keq (fkey v) (fkey 0))) vs.
  Proof.
    intros M N C R. destruct (created_parts NUM_FLOAT _ _ _ _ _ N C) as ((A & <- & <- & <-) & _ & SC & ST & F).
    pose proof (proj1 (float_samples gauss tail flog fexp D d n g A M N) fuel) as SO. rewrite R in SO. destruct SO as (xs & P & V).
    clear R. revert vs V. induction P as [|n g x g1 l g' DX P IH]; intros vs V; inversion V; subst; [split; [reflexivity|constructor]|]. match goal with H : Forall2 _ l _ |- _ => destruct (IH _ H) as [LEN ALL] end. split; [cbn; congruence|]. constructor; [|exact ALL].
    match goal with H : float_value d x ?y |- _ => rename H into GV; set (v := y) in * end.
    destruct (finite_dec v) as [FV|FV]; [|auto].
    destruct (Z.eq_dec (n_scale d) SCALE_LOGARITHMIC) as [SL|SL]; [destruct (feq v 0) eqn:V0; [right; right; split; [exact SL|now apply feq_key]|]|].
    - left. refine (float_in_bounds d x v A SC N ST F (float_drawn_pattern gauss tail flog fexp D d g x g1 M DX) GV FV _). intros _. split; [|intro K; apply feq_key in K; congruence]. apply not_negative; [|eapply float_drawn_log; eauto].
      unfold float_value in GV. destruct (n_quantize d); [|congruence]. destruct GV as (r & (_ & W) & EV). rewrite EV in FV. apply fmul_finite in FV. destruct FV as [FR _]. destruct W as [(FP & _)|[NF K]]; [now apply fmul_finite in FP|]. exfalso. apply NF.
      pose proof (finite_key r FR) as KN. apply (key_finite r KN) in FR. rewrite K in *. now apply key_finite.
    - left. refine (float_in_bounds d x v A SC N ST F (float_drawn_pattern gauss tail flog fexp D d g x g1 M DX) GV FV _). contradiction.
  Qed.
End Created.
Lemma created_int_samples {G} (gauss : G -> Z -> Z * G) tail flog fexp mu sigma scale quant d n g : doubles gauss tail flog fexp ->
  0 <= mu < 2 ^ 64 -> in_signed 64 quant -> create_normal NUM_INT mu sigma scale quant = Ok d ->
  (forall fuel, match normal_samples gauss tail flog fexp fuel d n g with
    | Ok (vs, g') => exists xs, picked_all (int_drawn gauss tail flog fexp d) n g xs g' /\ Forall2 (int_gives d) xs vs
    | Err _ => False
    | UB w => w = UBFuel \/ exists xs g', picked_all (int_drawn gauss tail flog fexp d) n g xs g' /\ Exists (fun x => forall v, ~ int_gives d x v) xs
    end) /\
  (forall xs g', picked_all (int_drawn gauss tail flog fexp d) n g xs g' -> exists fuel, forall fuel', (fuel <= fuel')%nat ->
    (forall vs, Forall2 (int_gives d) xs vs -> normal_samples gauss tail flog fexp fuel' d n g = Ok (vs, g')) /\
    (Exists (fun x => forall v, ~ int_gives d x v) xs -> exists w, normal_samples gauss tail flog fexp fuel' d n g = UB w /\ w <> UBFuel)).
Proof. intros D M N C. destruct (created_parts NUM_INT _ _ _ _ _ N C) as ((A & <- & _) & _). apply int_samples; assumption. Qed.
Lemma created_float_samples {G} (gauss : G -> Z -> Z * G) tail flog fexp mu sigma scale quant d n g : doubles gauss tail flog fexp ->
  0 <= mu < 2 ^ 64 -> 0 <= quant < 2 ^ 64 -> create_normal NUM_FLOAT mu sigma scale quant = Ok d ->
  (forall fuel, match normal_samples gauss tail flog fexp fuel d n g with
    | Ok (vs, g') => exists xs, picked_all (float_drawn gauss tail flog fexp d) n g xs g' /\ Forall2 (float_value d) xs vs
    | Err _ => False
    | UB w => w = UBFuel
    end) /\
  (forall xs g', picked_all (float_drawn gauss tail flog fexp d) n g xs g' -> exists fuel vs, Forall2 (float_value d) xs vs /\
    forall fuel', (fuel <= fuel')%nat -> normal_samples gauss tail flog fexp fuel' d n g = Ok (vs, g')).
Proof. intros D M N C. destruct (created_parts NUM_FLOAT _ _ _ _ _ N C) as ((A & <- & _ & <-) & _). apply float_samples; assumption. Qed.
Lemma created_positive mu sigma d x v : create_normal NUM_INT mu sigma SCALE_LOGARITHMIC 0 = Ok d ->
  kle (fkey HALF_) (fkey x) -> int_gives d x v -> v <> 0.
Proof.
  intros C. assert (N : number NUM_INT 0) by (vm_compute; split; [discriminate|reflexivity]). destruct (created_parts _ _ _ _ _ _ N C) as ((_ & _ & B & _) & _ & _ & _ & F). apply int_not_zero; [exact B|]. destruct (n_quantize d); [|reflexivity]. destruct (proj1 F eq_refl eq_refl).
Qed.
