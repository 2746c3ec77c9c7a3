(** Proofs about distributions as objects. *)
From Coq Require Import ZArith List Bool Lia Arith.
From Verif Require Import Base Datum CodecModel CodecSpec CodecProofs FloatModel FloatSpec DistSearch FloatRound IntervalModel IntervalSpec ParamModel ExprModel ExprCodec DistModel DistSpec DistRoulette DistProofs DistMix DistTables TreeCodecSpec RngModel RngProofs TreeSpaceCodec TreeConfModel RestoreSpec RestoreProofs TunerCodecProofs DistCodecModel DistCodecSpec.
Import ListNotations.
Open Scope Z_scope.

Section Rect.
  Variable P : cdist -> Prop.
  Hypothesis PU : forall o u, P (CUniform o u).
  Hypothesis PN : forall o n, P (CNormal o n).
  Hypothesis PR : forall o t, P (CRoulette o t).
  Hypothesis PM : forall o types bounds t ds, Forall P ds -> P (CMixture o types bounds t ds).
  Hypothesis PV : forall o types bounds ds, Forall P ds -> P (CMulti o types bounds ds).
  Fixpoint cdist_rect' (d : cdist) : P d :=
    match d with
    | CUniform o u => PU o u
    | CNormal o n => PN o n
    | CRoulette o t => PR o t
    | CMixture o types bounds t ds => PM o types bounds t ds ((fix go l : Forall P l := match l with [] => Forall_nil P | x :: l => Forall_cons x (cdist_rect' x) (go l) end) ds)
    | CMulti o types bounds ds => PV o types bounds ds ((fix go l : Forall P l := match l with [] => Forall_nil P | x :: l => Forall_cons x (cdist_rect' x) (go l) end) ds)
    end.
End Rect.

(** ** What the constructors keep *)
Lemma uniform_keeps flog t lower upper scale quant u : create_uniform flog t lower upper scale quant = Ok u ->
  u_type u = t /\ u_lower u = lower /\ u_upper u = upper /\ u_scale u = scale /\ u_quant u = quant /\ (t = NUM_FLOAT \/ t = NUM_INT) /\ (scale = 0 \/ scale = 1).
Proof.
  unfold create_uniform. intro H.
  destruct (Z.eqb_spec t NUM_FLOAT) as [T|T]; destruct (Z.eqb_spec t NUM_INT) as [T'|T']; cbn [negb andb refute bind] in H; try discriminate; try (subst; discriminate);
  unfold SCALE_LINEAR, SCALE_LOGARITHMIC in *;
  (destruct (Z.eqb_spec scale 0) as [S|S]; destruct (Z.eqb_spec scale 1) as [S'|S']; cbn [negb andb refute bind] in H; try discriminate; try (subst; discriminate)).
  1, 2: destruct (uniform_bad_float _ _ _ _); cbn [refute bind] in H; [discriminate|]; injection H as <-; cbn; tauto.
  all: destruct (uniform_bad_int _ _ _ _) as [b| |]; cbn [bind] in H; try discriminate; destruct b; cbn [refute bind] in H; [discriminate|]; injection H as <-; cbn; tauto.
Qed.
Lemma uniform_same flog t lower upper scale quant u : create_uniform flog t lower upper scale quant = Ok u ->
  create_uniform flog (u_type u) (u_lower u) (u_upper u) (u_scale u) (u_quant u) = Ok u.
Proof. intro H. destruct (uniform_keeps _ _ _ _ _ _ _ H) as (-> & -> & -> & -> & -> & _). exact H. Qed.
Lemma normal_keeps t mu sigma scale quant n : create_normal t mu sigma scale quant = Ok n ->
  n_type n = t /\ n_mu n = mu /\ n_sigma n = sigma /\ n_scale n = scale /\ n_quant n = quant /\ (t = NUM_FLOAT \/ t = NUM_INT) /\ (scale = 0 \/ scale = 1).
Proof.
  unfold create_normal. intro H.
  destruct (Z.eqb_spec t NUM_FLOAT) as [T|T]; destruct (Z.eqb_spec t NUM_INT) as [T'|T']; cbn [negb andb refute bind] in H; try discriminate; try (subst; discriminate);
  unfold SCALE_LINEAR, SCALE_LOGARITHMIC in *;
  (destruct (Z.eqb_spec scale 0) as [S|S]; destruct (Z.eqb_spec scale 1) as [S'|S']; cbn [negb andb refute bind] in H; try discriminate; try (subst; discriminate)).
  1, 2: destruct (flt quant 0); cbn [refute bind] in H; [discriminate|]; injection H as <-; cbn; tauto.
  all: destruct (quant <? 0); cbn [refute bind] in H; [discriminate|]; injection H as <-; cbn; tauto.
Qed.
Lemma normal_same t mu sigma scale quant n : create_normal t mu sigma scale quant = Ok n ->
  create_normal (n_type n) (n_mu n) (n_sigma n) (n_scale n) (n_quant n) = Ok n.
Proof. intro H. destruct (normal_keeps _ _ _ _ _ _ H) as (-> & -> & -> & -> & -> & _). exact H. Qed.

(** ** Numbers *)
Lemma number_exists t v : number t v -> exists bs, wire_number t v bs.
Proof.
  unfold number, wire_number. destruct (t =? NUM_FLOAT); [eauto|]. intro H. apply leb128_exists. unfold zigzag. destruct (Z.ltb_spec v 0); lia.
Qed.
Lemma number_encodes le t v bs : number t v -> wire_number t v bs -> encodes (ser_numeric le t v) bs /\ size_numeric t v = lenZ bs.
Proof.
  unfold number, wire_number, ser_numeric, size_numeric. destruct (t =? NUM_FLOAT); intros N W.
  - subst bs. split; [now apply ser_float_encodes|reflexivity].
  - split; [now apply ser_int_encodes|now apply size_int_ok].
Qed.
Lemma number_decodes le t v bs : number t v -> wire_number t v bs -> decodes (deser_numeric le t) v bs.
Proof.
  unfold number, wire_number, deser_numeric. destruct (t =? NUM_FLOAT); intros N W; [subst bs; now apply deser_float_decodes|now apply deser_int_decodes].
Qed.
Lemma floats_encode le l : Forall (fun a => 0 <= a < 2 ^ 64) l -> encodes (ser_floats le l) (flat_map (word 8) l) /\ size_floats l = lenZ (flat_map (word 8) l).
Proof.
  induction 1 as [|a l A F [IH1 IH2]]; [split; [apply encodes_nil|reflexivity]|]. split.
  - cbn [flat_map]. apply (encodes_seq (ser_float le a) (ser_floats le l)); [now apply ser_float_encodes|exact IH1].
  - cbn [size_floats flat_map]. rewrite lenZ_app, IH2. reflexivity.
Qed.

(** ** Tables *)
Lemma nth_error_same (l : list Z) : forall l', (forall i, nth_error l i = nth_error l' i) -> l = l'.
Proof.
  induction l as [|a l IH]; intros [|b l'] H; [reflexivity|specialize (H 0%nat); discriminate|specialize (H 0%nat); discriminate|].
  f_equal; [specialize (H 0%nat); now injection H|]. apply IH. intro i. exact (H (S i)).
Qed.
Lemma fold_pattern l : forall s, pattern s -> Forall pattern l -> pattern (fold_left fadd l s).
Proof. induction l as [|a l IH]; intros s S F; [exact S|]. inversion F; subst. cbn [fold_left]. apply IH; [apply fadd_pattern; auto|auto]. Qed.
Lemma psum_pattern l i : Forall pattern l -> pattern (psum l i).
Proof.
  intro F. apply fold_pattern; [unfold pattern; lia|]. rewrite <- (firstn_skipn i l) in F. apply Forall_app in F. tauto.
Qed.
Lemma inverse_pattern l : Forall pattern l -> pattern (fdiv ONE (total l)).
Proof. intro F. apply fdiv_pattern; [apply one_pattern|now apply psum_pattern]. Qed.
Lemma cells_span n table : (0 < n)%nat -> length table = S n -> nth_error table 0 = Some 0 -> nth_error table n = Some ONE ->
  (forall i a, (0 < i < n)%nat -> nth_error table i = Some a -> pattern a) -> spans table.
Proof.
  intros N L A B R. split; [lia|]. split; [|split; [exact A|rewrite L; replace (S n - 1)%nat with n by lia; exact B]].
  apply Forall_forall. intros x X. apply In_nth_error in X. destruct X as [i X]. assert (I : (i < length table)%nat) by (apply nth_error_Some; congruence).
  destruct (Nat.eq_dec i 0) as [->|I0]; [rewrite A in X; injection X as <-; unfold pattern; lia|].
  destruct (Nat.eq_dec i n) as [->|I1]; [rewrite B in X; injection X as <-; apply one_pattern|]. apply (R i); [lia|exact X].
Qed.
Lemma roulette_spans areas table : Forall pattern areas -> areas <> [] -> is_roulette areas table -> spans table.
Proof.
  intros P NE (L & A & B & R). apply (cells_span (length areas)); auto; [destruct areas; [congruence|cbn; lia]|].
  intros i a I E. rewrite R in E by exact I. injection E as <-. apply fmul_pattern; [now apply psum_pattern|now apply inverse_pattern].
Qed.
Lemma mixture_spans weights table : Forall pattern weights -> weights <> [] -> is_mixture_table weights table -> spans table.
Proof.
  intros P NE (L & A & B & R). apply (cells_span (length weights)); auto; [destruct weights; [congruence|cbn; lia]|].
  intros i a I E. rewrite R in E by exact I. injection E as <-. apply psum_pattern. unfold fractions. apply Forall_forall. intros x X. apply in_map_iff in X.
  destruct X as (w & <- & W). rewrite Forall_forall in P. apply fmul_pattern; [auto|]. apply inverse_pattern. now apply Forall_forall.
Qed.
Lemma nonneg_sound table : spans table -> Forall nonneg (differences table) -> sound table.
Proof.
  intros S N. pose proof (nonneg_steps table S N) as F. split; [exact F|]. intros i a b A B. destruct S as (_ & P & _). rewrite Forall_forall in F, P, N.
  pose proof (nth_error_In _ _ A). pose proof (nth_error_In _ _ B).
  apply (key_scaled a b); auto. apply nonneg_step; auto. apply N. eapply nth_error_In, differences_nth; eauto.
Qed.
Lemma sound_weights table : spans table -> lenZ table <= 2 ^ 60 -> sound table -> weights_ok (differences table).
Proof. intros S L [F I]. now apply steps_ok. Qed.
Lemma weights_sound table : spans table -> weights_ok (differences table) -> sound table.
Proof. intros S (_ & N & _). now apply nonneg_sound. Qed.

(** What is had of the differences of a table *)
Lemma roulette_again table : spans table -> lenZ table <= 2 ^ 60 ->
  (sound table /\ exists table', create_roulette (differences table) = Ok table' /\ is_roulette (differences table) table') \/
  (~ sound table /\ create_roulette (differences table) = Err ERR_INVALID_VALUE).
Proof.
  intros S L. pose proof S as (_ & P & _). destruct (create_roulette_spec (differences table) (differences_pattern table P)) as [(W & t & C & R)|[W C]].
  - left. split; [now apply weights_sound|eauto].
  - right. split; [|exact C]. intro X. apply W. now apply sound_weights.
Qed.

Lemma same_roulette areas t t' : is_roulette areas t -> is_roulette areas t' -> t = t'.
Proof.
  intros (A1 & A2 & A3 & A4) (B1 & B2 & B3 & B4). apply nth_error_same. intro i.
  destruct (Nat.eq_dec i 0) as [->|I0]; [congruence|]. destruct (Nat.eq_dec i (length areas)) as [->|I1]; [congruence|].
  destruct (Nat.lt_ge_cases i (length areas)) as [I|I]; [rewrite A4, B4 by lia; reflexivity|].
  rewrite (proj2 (nth_error_None t i)), (proj2 (nth_error_None t' i)) by lia. reflexivity.
Qed.
(** Creating a mixture again of what looks like its components *)
Lemma make_mixture_inv id ds weights d : make_mixture id ds weights = Ok d ->
  exists m, create_mixture (map component_of ds) weights = Ok m /\ d = CMixture (mkObj id None) (mx_types m) (mx_bounds m) (mx_table m) ds.
Proof. unfold make_mixture. destruct (create_mixture _ _) as [m| |]; cbn [bind]; intro H; try discriminate. injection H as <-. eauto. Qed.
Lemma create_mixture_inv cs weights m : Forall pattern weights -> length weights = length cs -> create_mixture cs weights = Ok m ->
  sum_ok weights /\ weights <> [] /\ is_mixture_table weights (mx_table m) /\ ~ klt (fkey ONE) (fkey (psum (fractions weights) (length weights - 1))).
Proof.
  intros P L H. destruct cs as [|c0 rest]; [discriminate|]. cbn [create_mixture] in H.
  assert (NE : weights <> []) by (destruct weights; [discriminate|discriminate]).
  destruct (INT64_MAX <? _); cbn [refute bind] in H; [discriminate|]. destruct (negb (forallb _ rest)); cbn [refute bind] in H; [discriminate|].
  destruct (validate_spec weights P) as [[W V]|[_ V]]; rewrite V in H; cbn [bind] in H; [|discriminate].
  destruct (check_types _ _); cbn [bind] in H; try discriminate. destruct (union_bounds _ _ _); cbn [bind] in H; try discriminate.
  destruct (mixture_table_spec weights NE) as [[K E]|[K (t & E & T)]]; rewrite E in H; cbn [bind] in H; [discriminate|]. injection H as <-. cbn [mx_table]. auto.
Qed.
Lemma mixture_again cs weights m : Forall pattern weights -> length weights = length cs -> lenZ (mx_table m) <= 2 ^ 60 -> create_mixture cs weights = Ok m ->
  spans (mx_table m) /\ length (differences (mx_table m)) = length cs /\
  ((sound (mx_table m) /\ create_mixture cs (differences (mx_table m)) = Ok m) \/
   (~ sound (mx_table m) /\ create_mixture cs (differences (mx_table m)) = Err ERR_INVALID_VALUE)).
Proof.
  intros P L LT C. destruct (create_mixture_inv cs weights m P L C) as (W & NE & TB & K). pose proof (mixture_spans weights (mx_table m) P NE TB) as S.
  assert (LD : length (differences (mx_table m)) = length cs) by (rewrite differences_length; destruct TB as (-> & _); lia).
  split; [exact S|]. split; [exact LD|].
  assert (X : forall t, mx_table m = t -> spans t -> lenZ t <= 2 ^ 60 -> is_mixture_table weights t -> length (differences t) = length cs ->
    (sound t /\ create_mixture cs (differences t) = Ok m) \/ (~ sound t /\ create_mixture cs (differences t) = Err ERR_INVALID_VALUE)); [|now apply X].
  clear S LT LD TB. intros t ET S LT TB LD. pose proof S as (_ & PT & _). pose proof (differences_pattern t PT) as PD.
  destruct cs as [|c0 rest]; [discriminate|]. cbn [create_mixture] in *.
  destruct (INT64_MAX <? _); cbn [refute bind] in *; [discriminate|]. destruct (negb (forallb _ rest)); cbn [refute bind] in *; [discriminate|].
  destruct (validate_spec weights P) as [[_ V]|[_ V]]; rewrite V in C; cbn [bind] in C; [|discriminate].
  destruct (check_types _ _) as [[]| |]; cbn [bind] in *; try discriminate. destruct (union_bounds _ _ _) as [bounds| |]; cbn [bind] in *; try discriminate.
  destruct (mixture_table_spec weights NE) as [[_ E]|[_ (t0 & E & T0)]]; rewrite E in C; cbn [bind] in C; [discriminate|]. injection C as <-. cbn [mx_table] in ET. subst t0.
  destruct (validate_spec (differences t) PD) as [[W' ->]|[W' ->]]; cbn [bind].
  - left. split; [now apply nonneg_sound; [|apply W']|].
    assert (NE' : differences t <> []) by (intro X; rewrite X in LD; discriminate).
    destruct (reported_again weights t W NE TB (proj1 W')) as (LE & TO & FR & PS).
    assert (TT : is_mixture_table (differences t) t).
    { destruct TB as (A1 & A2 & A3 & A4). split; [lia|]. split; [exact A2|]. split; [rewrite LE; exact A3|]. intros i I. rewrite FR.
      destruct (nth_error t i) as [a|] eqn:A; [rewrite (PS i a A); reflexivity|apply nth_error_None in A; lia]. }
    assert (LAST : psum (fractions (differences t)) (length (differences t) - 1) = psum (fractions weights) (length weights - 1)).
    { rewrite FR, LE. destruct TB as (A1 & A2 & _ & A4). destruct (Nat.eq_dec (length weights - 1) 0) as [Z0|Z0].
      - rewrite Z0. reflexivity.
      - apply PS. apply A4. lia. }
    destruct (mixture_table_spec (differences t) NE') as [[K' E']|[K' (t1 & E' & T1)]].
    + exfalso. rewrite LAST in K'. contradiction.
    + rewrite E'. cbn [bind]. do 2 f_equal.
      destruct T1 as (B1 & B2 & B3 & B4), TT as (D1 & D2 & D3 & D4). apply nth_error_same. intro i.
      destruct (Nat.eq_dec i 0) as [->|I0]; [congruence|]. destruct (Nat.eq_dec i (length (differences t))) as [->|I1]; [congruence|].
      destruct (Nat.lt_ge_cases i (length (differences t))) as [I|I]; [rewrite B4, D4 by lia; reflexivity|].
      rewrite (proj2 (nth_error_None t1 i)), (proj2 (nth_error_None t i)) by lia. reflexivity.
  - right. split; [|reflexivity]. intro X. apply W'. exact (proj2 (sound_weights t S LT X)).
Qed.

(** ** What is known of distributions that were made *)
Section Made.
  Variable flog : Z -> Z.
  Notation made := (made flog).
  Lemma made_uniform_inv o u : made (CUniform o u) ->
    number (u_type u) (u_lower u) /\ number (u_type u) (u_upper u) /\ number (u_type u) (u_quant u) /\
    create_uniform flog (u_type u) (u_lower u) (u_upper u) (u_scale u) (u_quant u) = Ok u /\ 0 <= u_type u < 128 /\ 0 <= u_scale u < 128.
  Proof.
    intro M. inversion M; subst. pose proof (uniform_same _ _ _ _ _ _ _ H4) as S. destruct (uniform_keeps _ _ _ _ _ _ _ H4) as (-> & -> & -> & -> & -> & T & Sc).
    destruct (uniform_keeps _ _ _ _ _ _ _ H4) as (E1 & E2 & E3 & E4 & E5 & _). rewrite E1, E2, E3, E4, E5 in S. repeat split; auto; unfold NUM_FLOAT, NUM_INT in *; lia.
  Qed.
  Lemma made_normal_inv o n : made (CNormal o n) ->
    0 <= n_mu n < 2 ^ 64 /\ 0 <= n_sigma n < 2 ^ 64 /\ number (n_type n) (n_quant n) /\
    create_normal (n_type n) (n_mu n) (n_sigma n) (n_scale n) (n_quant n) = Ok n /\ 0 <= n_type n < 128 /\ 0 <= n_scale n < 128.
  Proof.
    intro M. inversion M; subst. pose proof (normal_same _ _ _ _ _ _ H4) as S. destruct (normal_keeps _ _ _ _ _ _ H4) as (E1 & E2 & E3 & E4 & E5 & T & Sc).
    rewrite E1, E2, E3, E4, E5 in *. split; [assumption|]. split; [assumption|]. split; [assumption|]. split; [assumption|]. unfold NUM_FLOAT, NUM_INT in *; lia.
  Qed.
  Lemma made_roulette_inv o t : made (CRoulette o t) -> spans t.
  Proof.
    intro M. inversion M; subst. destruct (create_roulette_spec areas H1) as [(W & t' & E & R)|[_ E]]; rewrite H2 in E; [injection E as <-|discriminate].
    apply (roulette_spans areas); auto. intros ->. destruct W as ((L & _) & _). cbn in L. lia.
  Qed.
  Lemma made_mixture_inv o types bounds t ds : made (CMixture o types bounds t ds) -> lenZ t <= 2 ^ 60 ->
    Forall made ds /\ spans t /\ length (differences t) = length ds /\
    exists m, types = mx_types m /\ bounds = mx_bounds m /\ t = mx_table m /\
      ((sound t /\ create_mixture (map component_of ds) (differences t) = Ok m) \/
       (~ sound t /\ create_mixture (map component_of ds) (differences t) = Err ERR_INVALID_VALUE)).
  Proof.
    intros M LT. inversion M; subst. match goal with X : make_mixture _ _ _ = _ |- _ => rename X into MM end. destruct (make_mixture_inv _ _ _ _ MM) as (m & C & E). injection E as E1 E2 E3. subst types bounds t.
    destruct (mixture_again (map component_of ds) weights m) as (S & LD & A); auto; [now rewrite map_length|]. rewrite map_length in LD. split; [assumption|]. split; [exact S|]. split; [exact LD|]. exists m. auto.
  Qed.
  Lemma made_multi_inv o types bounds ds : made (CMulti o types bounds ds) -> Forall made ds /\ 0 < lenZ ds <= INT64_MAX /\
    types = flat_map (fun d => c_types (component_of d)) ds /\ bounds = flat_map (fun d => c_bounds (component_of d)) ds.
  Proof.
    intro M. inversion M; subst. match goal with X : make_multi _ _ = _ |- _ => rename X into H4 end. unfold make_multi in H4. destruct (Z.eqb_spec (lenZ ds) 0); cbn [orb refute bind] in H4; [discriminate|].
    destruct (Z.ltb_spec INT64_MAX (lenZ ds)); cbn [refute bind] in H4; [discriminate|]. injection H4 as <- <-. pose proof (lenZ_nonneg ds). repeat split; auto; lia.
  Qed.
End Made.

(** ** The bytes *)
Lemma body_inv d bs : wire_body d bs -> exists lh rest, leb128 (o_id (dobj_of d)) lh /\ wire_data d rest /\ bs = (1 :: lh) ++ [dtype_of d] ++ rest.
Proof. intro W. inversion W; subst. eauto. Qed.
Lemma uniform_bytes o u bs : wire_data (CUniform o u) bs -> exists a b c, wire_number (u_type u) (u_lower u) a /\ wire_number (u_type u) (u_upper u) b /\
  wire_number (u_type u) (u_quant u) c /\ bs = [u_type u] ++ [u_scale u] ++ a ++ b ++ c.
Proof. intro W. inversion W; subst. eauto 10. Qed.
Lemma normal_bytes o n bs : wire_data (CNormal o n) bs -> exists a, wire_number (n_type n) (n_quant n) a /\ bs = [n_type n] ++ [n_scale n] ++ word 8 (n_mu n) ++ word 8 (n_sigma n) ++ a.
Proof. intro W. inversion W; subst. eauto. Qed.
Lemma roulette_bytes o t bs : wire_data (CRoulette o t) bs -> exists n, leb128 (lenZ t - 1) n /\ bs = n ++ flat_map (word 8) (differences t).
Proof. intro W. inversion W; subst. eauto. Qed.
Lemma mixture_bytes o types bounds t ds bs : wire_data (CMixture o types bounds t ds) bs -> exists n rest, leb128 (lenZ ds) n /\ wire_weighted (differences t) ds rest /\ bs = n ++ rest.
Proof. intro W. inversion W; subst. eauto. Qed.
Lemma multi_bytes o types bounds ds bs : wire_data (CMulti o types bounds ds) bs -> exists n rest, leb128 (lenZ ds) n /\ wire_parts ds rest /\ bs = n ++ rest.
Proof. intro W. inversion W; subst. eauto. Qed.
Lemma dist_bytes d bs : wire_dist d bs -> exists a b, wire_body d a /\ wire_blob (ud_bytes (o_ud (dobj_of d))) b /\ bs = a ++ b.
Proof. intro W. inversion W; subst. eauto. Qed.
Lemma weighted_bytes w ws d ds bs : wire_weighted (w :: ws) (d :: ds) bs -> exists a b, wire_dist d a /\ wire_weighted ws ds b /\ bs = word 8 w ++ a ++ b.
Proof. intro W. inversion W; subst. eauto. Qed.
Lemma parts_bytes d ds bs : wire_parts (d :: ds) bs -> exists a b, wire_dist d a /\ wire_parts ds b /\ bs = a ++ b.
Proof. intro W. inversion W; subst. eauto. Qed.

(** ** Writing *)
Lemma storable_inv d : storable d -> in_unsigned 64 (o_id (dobj_of d)) /\ lenZ (ud_bytes (o_ud (dobj_of d))) < 2 ^ 64 /\ lenZ (parts d) <= 2 ^ 60 /\
  Forall (fun t => lenZ t <= 2 ^ 60) (tables d) /\ Forall storable (parts d).
Proof. intro S. inversion S; subst. auto. Qed.
Lemma wire_body_exists d rest : storable d -> wire_data d rest -> exists bs, wire_body d bs.
Proof.
  intros S W. destruct (storable_inv d S) as (I & _). destruct (leb128_exists (o_id (dobj_of d))) as [lh L]; [unfold in_unsigned in I; lia|].
  eexists. econstructor; eauto.
Qed.
Lemma wire_dist_exists d bs : wire_body d bs -> exists bs', wire_dist d bs'.
Proof.
  intro W. destruct (leb128_exists (lenZ (ud_bytes (o_ud (dobj_of d))))) as [l L]; [apply lenZ_nonneg|].
  exists (bs ++ (l ++ ud_bytes (o_ud (dobj_of d)))). constructor; [exact W|]. exists l. auto.
Qed.
Lemma dist_wire_exists flog d : made flog d -> storable d -> exists bs, wire_body d bs.
Proof.
  induction d as [o u|o n|o t|o types bounds t ds IH|o types bounds ds IH] using cdist_rect'; intros M S.
  - destruct (made_uniform_inv flog o u M) as (N1 & N2 & N3 & _). destruct (number_exists _ _ N1) as [a A]. destruct (number_exists _ _ N2) as [b B]. destruct (number_exists _ _ N3) as [c C].
    eapply wire_body_exists; [exact S|]. constructor; eauto.
  - destruct (made_normal_inv flog o n M) as (N1 & N2 & N3 & _). destruct (number_exists _ _ N3) as [a A].
    eapply wire_body_exists; [exact S|]. constructor; eauto.
  - destruct (made_roulette_inv flog o t M) as (L & _). destruct (leb128_exists (lenZ t - 1)) as [n N]; [unfold lenZ; lia|].
    eapply wire_body_exists; [exact S|]. constructor; eauto.
  - destruct (storable_inv _ S) as (_ & _ & _ & LT & SP). cbn [tables parts] in *. inversion LT; subst.
    destruct (made_mixture_inv flog o types bounds t ds M H1) as (MD & _ & LD & _).
    destruct (leb128_exists (lenZ ds)) as [n N]; [apply lenZ_nonneg|].
    assert (W : exists rest, wire_weighted (differences t) ds rest).
    { revert IH MD SP LD. generalize (differences t). clear. intros ws IH. revert ws. induction IH as [|d l X F IH]; intros [|w ws] MD SP LD; try discriminate.
      - eexists. constructor.
      - inversion MD; inversion SP; subst. destruct X as [a A]; auto. destruct (wire_dist_exists d a A) as [b B].
        destruct (IH ws) as [c C]; auto. eexists. constructor; eauto. }
    destruct W as [rest W]. eapply wire_body_exists; [exact S|]. econstructor; eauto.
  - destruct (storable_inv _ S) as (_ & _ & _ & LT & SP). cbn [tables parts] in *.
    destruct (made_multi_inv flog o types bounds ds M) as (MD & _).
    destruct (leb128_exists (lenZ ds)) as [n N]; [apply lenZ_nonneg|].
    assert (W : exists rest, wire_parts ds rest).
    { revert IH MD SP. clear. induction 1 as [|d l X F IH]; intros MD SP.
      - eexists. constructor.
      - inversion MD; inversion SP; subst. destruct X as [a A]; auto. destruct (wire_dist_exists d a A) as [b B].
        destruct IH as [c C]; auto. eexists. constructor; eauto. }
    destruct W as [rest W]. eapply wire_body_exists; [exact S|]. econstructor; eauto.
Qed.

Lemma float_cells t : spans t -> Forall (fun a => 0 <= a < 2 ^ 64) (differences t).
Proof. intros (_ & P & _). exact (differences_pattern t P). Qed.
Lemma dist_encodes le flog : forall d, made flog d -> storable d -> forall bs, wire_dist d bs -> encodes (ser_dist le d) bs /\ size_dist d = Ok (lenZ bs).
Proof.
  assert (G : forall d mid n, storable d -> 0 <= dtype_of d < 128 -> forall body data, wire_data d data ->
    (forall rest, wire_data d rest -> encodes mid rest /\ n = Ok (lenZ rest)) -> wire_body d body -> forall ub, wire_blob (ud_bytes (o_ud (dobj_of d))) ub ->
    encodes (fun s => do s <- ser_object_internal OBJ_DISTRIBUTION (o_id (dobj_of d)) s; do s <- ser_enum (dtype_of d) s; do s <- mid s; ser_user_data (o_ud (dobj_of d)) s) (body ++ ub) /\
    (do n <- n; Ok (size_object_internal OBJ_DISTRIBUTION (o_id (dobj_of d)) + size_enum (dtype_of d) + n + size_user_data (o_ud (dobj_of d)))) = Ok (lenZ (body ++ ub))).
  { intros d mid n S T body data WD X W ub U. destruct (storable_inv d S) as (I & LU & _). inversion W; subst. destruct (X rest H0) as [E ->].
    split.
    - rewrite <- !app_assoc. apply encodes_seq; [now apply (ser_object_internal_encodes 1)|]. apply encodes_seq; [now apply ser_enum_small|].
      apply (encodes_seq mid); [exact E|]. now apply ser_user_data_encodes.
    - cbn [bind]. rewrite (size_object_internal_ok 1 _ lh), size_enum_small, (size_user_data_ok _ ub) by (auto; lia). f_equal. rewrite !lenZ_app. change (lenZ [dtype_of d]) with 1. lia. }
  induction d as [o u|o n|o t|o types bounds t ds IH|o types bounds ds IH] using cdist_rect'; intros M S bs W; destruct (dist_bytes _ _ W) as (body & ub & WB & WU & ->); destruct (body_inv _ _ WB) as (lh & rest & WL & WD & EB).
  - refine (G (CUniform o u) _ _ S ltac:(cbn; unfold D_UNIFORM; lia) _ rest WD _ WB ub WU). clear -M. intros rest W. destruct (uniform_bytes o u rest W) as (a & b & c & H0 & H2 & H4 & ->).
    destruct (made_uniform_inv flog o u M) as (N1 & N2 & N3 & _ & T & Sc).
    destruct (number_encodes le _ _ _ N1 H0) as [A1 A2]. destruct (number_encodes le _ _ _ N2 H2) as [B1 B2]. destruct (number_encodes le _ _ _ N3 H4) as [C1 C2]. split.
    + apply encodes_seq; [now apply ser_enum_small|]. apply encodes_seq; [now apply ser_enum_small|]. apply encodes_seq; [exact A1|]. apply encodes_seq; [exact B1|exact C1].
    + rewrite A2, B2, C2, !size_enum_small by assumption. f_equal. rewrite !lenZ_app. change (lenZ [u_type u]) with 1. change (lenZ [u_scale u]) with 1. lia.
  - refine (G (CNormal o n) _ _ S ltac:(cbn; unfold D_NORMAL; lia) _ rest WD _ WB ub WU). clear -M. intros rest W. destruct (normal_bytes o n rest W) as (a & H0 & ->).
    destruct (made_normal_inv flog o n M) as (N1 & N2 & N3 & _ & T & Sc). destruct (number_encodes le _ _ _ N3 H0) as [A1 A2]. split.
    + apply encodes_seq; [now apply ser_enum_small|]. apply encodes_seq; [now apply ser_enum_small|]. apply encodes_seq; [now apply ser_float_encodes|].
      apply encodes_seq; [now apply ser_float_encodes|exact A1].
    + rewrite A2, !size_enum_small by assumption. f_equal. rewrite !lenZ_app. change (lenZ [n_type n]) with 1. change (lenZ [n_scale n]) with 1. change (lenZ (word 8 (n_mu n))) with 8. change (lenZ (word 8 (n_sigma n))) with 8. unfold size_float, size_fixed. lia.
  - refine (G (CRoulette o t) _ _ S ltac:(cbn; unfold D_ROULETTE; lia) _ rest WD _ WB ub WU). destruct (storable_inv _ S) as (_ & _ & _ & LT & _). cbn [tables] in LT. inversion LT; subst. clear -M H1. intros rest W. destruct (roulette_bytes o t rest W) as (n & H0 & ->).
    pose proof (made_roulette_inv flog o t M) as SP. destruct (floats_encode le _ (float_cells t SP)) as [F1 F2].
    assert (I : in_unsigned 64 (lenZ t - 1)) by (destruct SP as (L & _); unfold in_unsigned, lenZ in *; lia). split.
    + apply encodes_seq; [apply ser_uint_encodes; auto using okw64|exact F1].
    + unfold size_size. rewrite (size_uint_ok 64 _ n okw64 I H0), F2, lenZ_app. reflexivity.
  - refine (G (CMixture o types bounds t ds) _ _ S ltac:(cbn; unfold D_MIXTURE; lia) _ rest WD _ WB ub WU).
    destruct (storable_inv _ S) as (_ & _ & LP & LT & SP). cbn [tables parts] in *. inversion LT; subst.
    destruct (made_mixture_inv flog o types bounds t ds M H1) as (MD & SN & LD & _). pose proof (float_cells t SN) as FC.
    clear -IH MD SP LD FC LP. intros rest W. destruct (mixture_bytes o types bounds t ds rest W) as (n & rest0 & H5 & H6 & ->).
    set (go := fix go (ws : list Z) (l : list cdist) (s : wstate) {struct l} : res wstate :=
                   match l, ws with
                   | [], _ => Ok s
                   | d :: l', w :: ws' => do s <- ser_float le w s; do s <- ser_dist le d s; go ws' l' s
                   | _ :: _, [] => UB UBBounds
                   end).
    set (gs := fix go (ws : list Z) (l : list cdist) {struct l} : res Z :=
                   match l, ws with
                   | [], _ => Ok 0
                   | d :: l', w :: ws' => do a <- size_dist d; do b <- go ws' l'; Ok (size_float w + a + b)
                   | _ :: _, [] => UB UBBounds
                   end).
    assert (E : encodes (go (differences t) ds) rest0 /\ gs (differences t) ds = Ok (lenZ rest0)).
    { clear W. revert IH MD SP LD FC rest0 H6. clear. generalize (differences t). intros ws IH. revert ws. induction IH as [|d l X F IH]; intros [|w ws] MD SP LD FC rest W; try discriminate.
      - inversion W; subst. split; [apply encodes_nil|reflexivity].
      - destruct (weighted_bytes _ _ _ _ _ W) as (a & b & H3 & H5 & ->). apply Forall_cons_iff in MD, SP, FC. destruct MD as [H1 H2], SP as [H6 H7], FC as [H10 H11]. destruct (X H1 H6 a H3) as [A1 A2]. destruct (IH ws H2 H7 ltac:(now injection LD) H11 b H5) as [B1 B2]. split.
        + apply (encodes_seq (ser_float le w)); [now apply ser_float_encodes|]. exact (encodes_seq (ser_dist le d) (go ws l) a b A1 B1).
        + cbn [gs]. rewrite A2. cbn [bind]. change ((do b0 <- gs ws l; Ok (size_float w + lenZ a + b0)) = Ok (lenZ (word 8 w ++ a ++ b))). rewrite B2. cbn [bind]. rewrite !lenZ_app. change (lenZ (word 8 w)) with 8. unfold size_float, size_fixed. f_equal. lia. }
    assert (I : in_unsigned 64 (lenZ ds)) by (pose proof (lenZ_nonneg ds); unfold in_unsigned; lia). split.
    + apply encodes_seq; [apply ser_uint_encodes; auto using okw64|exact (proj1 E)].
    + cbn [bind]. change ((do n <- gs (differences t) ds; Ok (size_size (lenZ ds) + n)) = Ok (lenZ (n ++ rest0))). rewrite (proj2 E). cbn [bind]. unfold size_size.
      rewrite (size_uint_ok 64 _ n okw64 I H5), lenZ_app. reflexivity.
  - refine (G (CMulti o types bounds ds) _ _ S ltac:(cbn; unfold D_MULTIVARIATE; lia) _ rest WD _ WB ub WU).
    destruct (storable_inv _ S) as (_ & _ & LP & LT & SP). cbn [tables parts] in *.
    destruct (made_multi_inv flog o types bounds ds M) as (MD & _).
    clear -IH MD SP LP. intros rest W. destruct (multi_bytes o types bounds ds rest W) as (n & rest0 & H4 & H5 & ->).
    set (go := fix go (l : list cdist) (s : wstate) : res wstate :=
                   match l with [] => Ok s | d :: l' => do s <- ser_dist le d s; go l' s end).
    set (gs := fix go (l : list cdist) : res Z :=
                   match l with [] => Ok 0 | d :: l' => do a <- size_dist d; do b <- go l'; Ok (a + b) end).
    assert (E : encodes (go ds) rest0 /\ gs ds = Ok (lenZ rest0)).
    { clear W. revert IH MD SP rest0 H5. clear. induction 1 as [|d l X F IH]; intros MD SP rest W.
      - inversion W; subst. split; [apply encodes_nil|reflexivity].
      - destruct (parts_bytes _ _ _ W) as (a & b & H1 & H2 & ->). apply Forall_cons_iff in MD, SP. destruct MD as [H3 H4], SP as [H7 H8].
        destruct (X H3 H7 a H1) as [A1 A2]. destruct (IH H4 H8 b H2) as [B1 B2]. split.
        + exact (encodes_seq (ser_dist le d) (go l) a b A1 B1).
        + cbn [gs]. rewrite A2. cbn [bind]. change ((do b0 <- gs l; Ok (lenZ a + b0)) = Ok (lenZ (a ++ b))). rewrite B2. cbn [bind]. rewrite !lenZ_app. reflexivity. }
    assert (I : in_unsigned 64 (lenZ ds)) by (pose proof (lenZ_nonneg ds); unfold in_unsigned; lia). split.
    + apply encodes_seq; [apply ser_uint_encodes; auto using okw64|exact (proj1 E)].
    + cbn [bind]. change ((do n <- gs ds; Ok (size_size (lenZ ds) + n)) = Ok (lenZ (n ++ rest0))). rewrite (proj2 E). cbn [bind]. unfold size_size.
      rewrite (size_uint_ok 64 _ n okw64 I H4), lenZ_app. reflexivity.
Qed.

(** ** Reading *)
Lemma rej_if {A} L (c : bool) (f g : rstate -> res (A * rstate)) e bs : rej L (if c then f else g) e bs -> rej L (fun s => if c then f s else g s) e bs.
Proof. destruct c; auto. Qed.
Section Read.
  Variables (le : bool) (flog : Z -> Z) (mem : Z -> bool).
  Notation outcome := (outcome mem).
  Notation body := (deser_body le flog mem).
  Definition bare (d : cdist) : cdist := set_dobj d (mkObj (o_id (dobj_of d)) None).
  Definition node (fuel : nat) (s : rstate) : res (cdist * rstate) := do (d, s) <- body fuel s; do (b, s) <- deser_user_data s; Ok (add_data d b, s).

  Lemma oc_uniform_inv o u r : outcome (CUniform o u) r -> r = Ok (CUniform (back o) u).
  Proof. intro H. inversion H; subst. reflexivity. Qed.
  Lemma oc_normal_inv o n r : outcome (CNormal o n) r -> r = Ok (CNormal (back o) n).
  Proof. intro H. inversion H; subst. reflexivity. Qed.
  Lemma oc_roulette_inv o t r : outcome (CRoulette o t) r ->
    (mem (8 * (lenZ t - 1)) = false /\ r = Err ERR_OUT_OF_MEMORY) \/
    (mem (8 * (lenZ t - 1)) = true /\ ~ sound t /\ r = Err ERR_INVALID_VALUE) \/
    (mem (8 * (lenZ t - 1)) = true /\ sound t /\ exists t', is_roulette (differences t) t' /\ r = Ok (CRoulette (back o) t')).
  Proof.
    intro H. inversion H; subst; [left; now split|right; left; split; [assumption|now split]|]. right; right. split; [assumption|]. split; [assumption|].
    match goal with X : is_roulette _ ?t |- _ => exists t; now split end.
  Qed.
  Lemma oc_mixture_inv o types bounds t ds r : outcome (CMixture o types bounds t ds) r ->
    (mem (8 * lenZ ds) = false /\ r = Err ERR_OUT_OF_MEMORY) \/
    (mem (8 * lenZ ds) = true /\ exists e, parts_fail mem ds e /\ r = Err e) \/
    (mem (8 * lenZ ds) = true /\ exists ds', parts_had mem ds ds' /\ ((~ sound t /\ r = Err ERR_INVALID_VALUE) \/ (sound t /\ r = Ok (CMixture (back o) types bounds t ds')))).
  Proof.
    intro H. inversion H; subst; [left; now split|right; left; split; [assumption|]; match goal with X : parts_fail _ _ ?e |- _ => exists e; now split end| |];
      right; right; (split; [assumption|]); match goal with X : parts_had _ _ ?l |- _ => exists l; split; [assumption|] end; [left; now split|right; now split].
  Qed.
  Lemma oc_multi_inv o types bounds ds r : outcome (CMulti o types bounds ds) r ->
    (mem (8 * lenZ ds) = false /\ r = Err ERR_OUT_OF_MEMORY) \/
    (mem (8 * lenZ ds) = true /\ exists e, parts_fail mem ds e /\ r = Err e) \/
    (mem (8 * lenZ ds) = true /\ exists ds', parts_had mem ds ds' /\ r = Ok (CMulti (back o) types bounds ds')).
  Proof.
    intro H. inversion H; subst; [left; now split|right; left; split; [assumption|]; match goal with X : parts_fail _ _ ?e |- _ => exists e; now split end|].
    right; right; (split; [assumption|]); match goal with X : parts_had _ _ ?l |- _ => exists l; now split end.
  Qed.
  Lemma oc_back d d' : outcome d (Ok d') -> dobj_of d' = back (dobj_of d).
  Proof. intro H. inversion H; subst; reflexivity. Qed.
  Lemma oc_component d d' : made flog d -> outcome d (Ok d') -> component_of d' = component_of d.
  Proof.
    intros M H. inversion H; subst; try reflexivity. cbn [component_of]. unfold roulette_bounds. destruct (made_roulette_inv flog o t M) as (L & _).
    match goal with X : is_roulette _ _ |- _ => destruct X as (L' & _) end. rewrite differences_length in L'. unfold lenZ. rewrite L'. do 3 f_equal. lia.
  Qed.
  Lemma oc_components ds ds' : Forall (made flog) ds -> parts_had mem ds ds' -> map component_of ds' = map component_of ds.
  Proof.
    intro M. revert ds'. induction M as [|d ds D M IH]; intros ds' H; inversion H; subst; [reflexivity|]. cbn [map]. f_equal; [now apply oc_component|auto].
  Qed.
  Lemma had_length ds ds' : parts_had mem ds ds' -> length ds' = length ds.
  Proof. revert ds'. induction ds as [|d ds IH]; intros ds' H; inversion H; subst; [reflexivity|]. cbn. f_equal. auto. Qed.

  Lemma areas_dec u L room l : Forall (fun a => 0 <= a < 2 ^ 64) l -> forall i, 8 * (Z.of_nat i + lenZ l) <= room ->
    dec u L (deser_areas le room (length l) i) l (flat_map (word 8) l).
  Proof.
    intro F. revert L. induction F as [|a l A F IH]; intros L i R; [apply dec_ret|]. cbn [length deser_areas flat_map]. rewrite lenZ_cons in R.
    pose proof (lenZ_nonneg l). destruct (Z.ltb_spec room (8 * (Z.of_nat i + 1))); [lia|]. db; [apply decodes_dec; now apply deser_float_decodes|].
    rewrite <- (app_nil_r (flat_map _ _)). db; [apply IH; lia|]. apply dec_ret.
  Qed.

  (** What is read of a body *)
  Definition had (d : cdist) (bb : list Z) (r : res cdist) : Prop :=
    match r with
    | Ok d' => forall u, (u = true -> Forall no_data (parts d)) -> forall fuel L, (L < fuel)%nat -> dec u L (body fuel) (bare d') bb
    | Err e => forall fuel L, (L < fuel)%nat -> rej L (body fuel) e bb
    | UB _ => False
    end.
  Lemma node_dec d bb ub d' u fuel L : lenZ (ud_bytes (o_ud (dobj_of d))) < 2 ^ 64 -> wire_blob (ud_bytes (o_ud (dobj_of d))) ub -> outcome d (Ok d') -> had d bb (Ok d') ->
    (u = true -> no_data d) -> (L < fuel)%nat -> dec u L (node fuel) d' (bb ++ ub).
  Proof.
    intros LU W O H U F. unfold node. db; [apply H; [intro V; specialize (U V); now inversion U|exact F]|].
    rewrite <- (app_nil_r ub). db; [apply (user_data_dec u _ (ud_bytes (o_ud (dobj_of d)))); auto; intro V; specialize (U V); now inversion U|].
    replace (add_data (bare d') (ud_bytes (o_ud (dobj_of d)))) with d'; [apply dec_ret|].
    pose proof (oc_back d d' O) as B. unfold add_data, bare. destruct d'; cbn [dobj_of set_dobj o_id] in *; subst o; unfold back; cbn [o_id o_ud]; rewrite restored_ud_eq; reflexivity.
  Qed.
  Lemma node_rej d bb ub e fuel L : had d bb (Err e) -> (L < fuel)%nat -> rej L (node fuel) e (bb ++ ub).
  Proof. intros H F. unfold node. apply rej_head. now apply H. Qed.
  Definition reads (d : cdist) : Prop := forall bb r, wire_body d bb -> outcome d r -> had d bb r.
  Lemma weighted_dec ds : Forall reads ds -> Forall storable ds -> forall ds' ws rest, parts_had mem ds ds' -> wire_weighted ws ds rest -> Forall (fun a => 0 <= a < 2 ^ 64) ws ->
    forall u fuel L, (u = true -> Forall no_data ds) -> (L < fuel)%nat -> dec u L (deser_weighted le (node fuel) (length ds)) (combine ws ds') rest.
  Proof.
    intros R S. revert S. induction R as [|d ds D R IH]; intros S ds' ws rest H W P u fuel L U F.
    - inversion H; inversion W; subst. apply dec_ret.
    - inversion H; subst. destruct ws as [|w ws]; [inversion W|]. destruct (weighted_bytes _ _ _ _ _ W) as (a & b & WD & WW & ->). destruct (dist_bytes _ _ WD) as (bb & ub & WB & WU & ->).
      apply Forall_cons_iff in S, P. destruct S as [S1 S2], P as [P1 P2]. destruct (storable_inv d S1) as (_ & LU & _).
      cbn [length deser_weighted combine]. db; [apply decodes_dec; now apply deser_float_decodes|].
      db; [apply (node_dec d bb ub d'); [exact LU|exact WU|assumption|now apply D|intro V; specialize (U V); now inversion U|lia]|].
      rewrite <- (app_nil_r b). db; [apply IH; eauto; [intro V; specialize (U V); now inversion U|lia]|]. apply dec_ret.
  Qed.
  Lemma weighted_rej ds : Forall reads ds -> Forall storable ds -> forall e ws rest, parts_fail mem ds e -> wire_weighted ws ds rest -> Forall (fun a => 0 <= a < 2 ^ 64) ws ->
    forall fuel L, (L < fuel)%nat -> rej L (deser_weighted le (node fuel) (length ds)) e rest.
  Proof.
    intros R S. revert S. induction R as [|d ds D R IH]; intros S e ws rest H W P fuel L F; [inversion H|].
    destruct ws as [|w ws]; [inversion W|]. destruct (weighted_bytes _ _ _ _ _ W) as (a & b & WD & WW & ->). destruct (dist_bytes _ _ WD) as (bb & ub & WB & WU & ->).
    apply Forall_cons_iff in S, P. destruct S as [S1 S2], P as [P1 P2]. destruct (storable_inv d S1) as (_ & LU & _).
    cbn [length deser_weighted]. rb; [apply (decodes_dec false); now apply deser_float_decodes|]. inversion H; subst.
    - apply rej_head. apply (node_rej d); [now apply D|lia].
    - rb; [apply (node_dec d bb ub d' false); [exact LU|exact WU|assumption|now apply D|discriminate|lia]|]. rewrite <- (app_nil_r b). apply rej_head. eapply IH; eauto. lia.
  Qed.
  Lemma parts_dec ds : Forall reads ds -> Forall storable ds -> forall ds' rest, parts_had mem ds ds' -> wire_parts ds rest ->
    forall u fuel L, (u = true -> Forall no_data ds) -> (L < fuel)%nat -> dec u L (deser_parts (node fuel) (length ds)) ds' rest.
  Proof.
    intros R S. revert S. induction R as [|d ds D R IH]; intros S ds' rest H W u fuel L U F.
    - inversion H; inversion W; subst. apply dec_ret.
    - inversion H; subst. destruct (parts_bytes _ _ _ W) as (a & b & WD & WW & ->). destruct (dist_bytes _ _ WD) as (bb & ub & WB & WU & ->).
      apply Forall_cons_iff in S. destruct S as [S1 S2]. destruct (storable_inv d S1) as (_ & LU & _).
      cbn [length deser_parts].
      db; [apply (node_dec d bb ub d'); [exact LU|exact WU|assumption|now apply D|intro V; specialize (U V); now inversion U|lia]|].
      rewrite <- (app_nil_r b). db; [apply IH; eauto; [intro V; specialize (U V); now inversion U|lia]|]. apply dec_ret.
  Qed.
  Lemma parts_rej ds : Forall reads ds -> Forall storable ds -> forall e rest, parts_fail mem ds e -> wire_parts ds rest ->
    forall fuel L, (L < fuel)%nat -> rej L (deser_parts (node fuel) (length ds)) e rest.
  Proof.
    intros R S. revert S. induction R as [|d ds D R IH]; intros S e rest H W fuel L F; [inversion H|].
    destruct (parts_bytes _ _ _ W) as (a & b & WD & WW & ->). destruct (dist_bytes _ _ WD) as (bb & ub & WB & WU & ->).
    apply Forall_cons_iff in S. destruct S as [S1 S2]. destruct (storable_inv d S1) as (_ & LU & _).
    cbn [length deser_parts]. inversion H; subst.
    - apply rej_head. apply (node_rej d); [now apply D|lia].
    - rb; [apply (node_dec d bb ub d' false); [exact LU|exact WU|assumption|now apply D|discriminate|lia]|]. rewrite <- (app_nil_r b). apply rej_head. eapply IH; eauto. lia.
  Qed.
  Lemma combine_split (ws : list Z) (ds : list cdist) : length ws = length ds -> map snd (combine ws ds) = ds /\ map fst (combine ws ds) = ws.
  Proof.
    revert ds. induction ws as [|w ws IH]; intros [|d ds] L; try discriminate; [auto|]. destruct (IH ds) as [A B]; [now injection L|]. cbn. now rewrite A, B.
  Qed.

  Definition pick (dtype h : Z) (fuel : nat) (s : rstate) : res (cdist * rstate) :=
    if dtype =? D_UNIFORM then do (u, s) <- deser_uniform le flog s; Ok (CUniform (mkObj h None) u, s)
    else if dtype =? D_NORMAL then do (n, s) <- deser_normal le s; Ok (CNormal (mkObj h None) n, s)
    else if dtype =? D_ROULETTE then do (t, s) <- deser_roulette le mem s; Ok (CRoulette (mkObj h None) t, s)
    else if dtype =? D_MIXTURE then deser_mixture le mem (node fuel) h s
    else if dtype =? D_MULTIVARIATE then deser_multi mem (node fuel) h s
    else Err ERR_UNSUPPORTED_OPERATION.
  Lemma body_dec u L fuel h lh dtype rest a : in_unsigned 64 h -> leb128 h lh -> 0 <= dtype < 128 ->
    (forall L', (L' < L)%nat -> dec u L' (pick dtype h fuel) a (dtype :: rest)) -> dec u L (body (S fuel)) a ((1 :: lh) ++ [dtype] ++ rest).
  Proof.
    intros I LH T H. cbn [deser_body]. eapply dec_bind; [apply (decodes_dec u), (deser_object_internal_decodes 1 h lh ltac:(lia) I LH)|]. intro L1. cbv beta iota. cbn [fst snd].
    change (negb (1 =? OBJ_DISTRIBUTION)) with false. cbn [refute bind]. apply (dec_peek u _ dtype (fun x s => pick x h fuel s)); [exact T|]. apply H. cbn [length] in L1 |- *. lia.
  Qed.
  Lemma body_rej L fuel h lh dtype rest e : in_unsigned 64 h -> leb128 h lh -> 0 <= dtype < 128 ->
    (forall L', (L' < L)%nat -> rej L' (pick dtype h fuel) e (dtype :: rest)) -> rej L (body (S fuel)) e ((1 :: lh) ++ [dtype] ++ rest).
  Proof.
    intros I LH T H. cbn [deser_body]. eapply rej_bind; [apply (decodes_dec false), (deser_object_internal_decodes 1 h lh ltac:(lia) I LH)|]. intro L1. cbv beta iota. cbn [fst snd].
    change (negb (1 =? OBJ_DISTRIBUTION)) with false. cbn [refute bind]. apply (rej_peek _ dtype (fun x s => pick x h fuel s)); [exact T|]. apply H. cbn [length] in L1 |- *. lia.
  Qed.
  Ltac small := apply decodes_dec; apply deser_enum_small; unfold D_UNIFORM, D_NORMAL, D_ROULETTE, D_MIXTURE, D_MULTIVARIATE; lia.
  Lemma body_reads d : made flog d -> storable d -> reads d.
  Proof.
    induction d as [o v|o n|o t|o types bounds t ds IH|o types bounds ds IH] using cdist_rect'; intros M S bb r W O;
      destruct (body_inv _ bb W) as (lh & rest & LH & WD & ->); destruct (storable_inv _ S) as (I & LU & LP & LT & SP); cbn [dobj_of dtype_of parts tables] in *.
    - rewrite (oc_uniform_inv o v r O). intros u _ [|fuel] L F; [lia|]. apply (body_dec u L fuel (o_id o)); [exact I|exact LH|unfold D_UNIFORM; lia|]. intros L' _.
      destruct (made_uniform_inv flog o v M) as (N1 & N2 & N3 & C & T1 & T2). destruct (uniform_bytes o v rest WD) as (a & b & c & A & B & Cc & ->).
      unfold pick, bare. cbn [Z.eqb D_UNIFORM dobj_of set_dobj back o_id]. rewrite <- (app_nil_r (_ :: _)). eapply (dec_bind u _ _ _ v); [|intros _; apply dec_ret].
      change (D_UNIFORM :: ?x) with ([D_UNIFORM] ++ x). unfold deser_uniform. db; [small|]. db; [small|]. db; [small|].
      db; [eapply decodes_dec, number_decodes; [|eassumption]; assumption|]. db; [eapply decodes_dec, number_decodes; [|eassumption]; assumption|].
      rewrite <- (app_nil_r c). db; [eapply decodes_dec, number_decodes; [|eassumption]; assumption|]. rewrite C. apply dec_ret.
    - rewrite (oc_normal_inv o n r O). intros u _ [|fuel] L F; [lia|]. apply (body_dec u L fuel (o_id o)); [exact I|exact LH|unfold D_NORMAL; lia|]. intros L' _.
      destruct (made_normal_inv flog o n M) as (N1 & N2 & N3 & C & T1 & T2). destruct (normal_bytes o n rest WD) as (a & A & ->).
      unfold pick, bare. cbn [Z.eqb Pos.eqb D_UNIFORM D_NORMAL dobj_of set_dobj back o_id]. rewrite <- (app_nil_r (_ :: _)). eapply (dec_bind u _ _ _ n); [|intros _; apply dec_ret].
      change (D_NORMAL :: ?x) with ([D_NORMAL] ++ x). unfold deser_normal. db; [small|]. db; [small|]. db; [small|].
      db; [apply decodes_dec, deser_float_decodes; assumption|]. db; [apply decodes_dec, deser_float_decodes; assumption|].
      rewrite <- (app_nil_r a). db; [eapply decodes_dec, number_decodes; [|eassumption]; assumption|]. rewrite C. apply dec_ret.
    - pose proof (made_roulette_inv flog o t M) as SN. pose proof (float_cells t SN) as FC. apply Forall_cons_iff in LT. destruct LT as [LT _].
      destruct (roulette_bytes o t rest WD) as (n & N & ->).
      assert (NI : in_unsigned 64 (lenZ t - 1)) by (destruct SN as (LL & _); unfold in_unsigned, lenZ in *; lia).
      assert (WR : wrap 64 (8 * (lenZ t - 1)) = 8 * (lenZ t - 1)) by (apply wrap_small; destruct SN as (LL & _); unfold in_unsigned, lenZ in *; lia).
      assert (LE : Z.to_nat (lenZ t - 1) = length (differences t)) by (rewrite differences_length; unfold lenZ; lia).
      assert (SZ : lenZ (differences t) = lenZ t - 1) by (destruct SN as (LL & _); unfold lenZ; rewrite differences_length; lia).
      destruct (oc_roulette_inv o t r O) as [[MF ->]|[(MT & NS & ->)|(MT & SO & t' & RT & ->)]].
      + intros [|fuel] L F; [lia|]. apply (body_rej L fuel (o_id o)); [exact I|exact LH|unfold D_ROULETTE; lia|]. intros L' _. unfold pick. cbn [Z.eqb Pos.eqb D_UNIFORM D_NORMAL D_ROULETTE].
        rewrite <- (app_nil_r (_ :: _)). apply rej_head. unfold deser_roulette. change (D_ROULETTE :: ?x) with ([D_ROULETTE] ++ x). rb; [apply (decodes_dec false), deser_enum_small; unfold D_ROULETTE, D_MIXTURE, D_MULTIVARIATE; lia|].
        rb; [apply (decodes_dec false), deser_uint_decodes; eauto using okw64|]. rewrite WR, MF. cbn [negb]. now apply rej_now.
      + intros [|fuel] L F; [lia|]. apply (body_rej L fuel (o_id o)); [exact I|exact LH|unfold D_ROULETTE; lia|]. intros L' _. unfold pick. cbn [Z.eqb Pos.eqb D_UNIFORM D_NORMAL D_ROULETTE].
        rewrite <- (app_nil_r (_ :: _)). apply rej_head. unfold deser_roulette. change (D_ROULETTE :: ?x) with ([D_ROULETTE] ++ x). rb; [apply (decodes_dec false), deser_enum_small; unfold D_ROULETTE, D_MIXTURE, D_MULTIVARIATE; lia|].
        rb; [apply (decodes_dec false), deser_uint_decodes; eauto using okw64|]. rewrite WR, MT, LE. cbn [negb]. rewrite <- (app_nil_r (flat_map _ _)).
        rb; [apply (areas_dec false); [exact FC|rewrite SZ; lia]|]. destruct (roulette_again t SN LT) as [[X _]|[_ ->]]; [contradiction|]. now apply rej_now.
      + intros u _ [|fuel] L F; [lia|]. apply (body_dec u L fuel (o_id o)); [exact I|exact LH|unfold D_ROULETTE; lia|]. intros L' _. unfold pick, bare. cbn [Z.eqb Pos.eqb D_UNIFORM D_NORMAL D_ROULETTE dobj_of set_dobj back o_id].
        rewrite <- (app_nil_r (_ :: _)). eapply (dec_bind u _ _ _ t'); [|intros _; apply dec_ret].
        unfold deser_roulette. change (D_ROULETTE :: ?x) with ([D_ROULETTE] ++ x). db; [small|]. db; [apply decodes_dec, deser_uint_decodes; eauto using okw64|].
        rewrite WR, MT, LE. cbn [negb]. rewrite <- (app_nil_r (flat_map _ _)). db; [apply areas_dec; [exact FC|rewrite SZ; lia]|].
        destruct (roulette_again t SN LT) as [(_ & t1 & -> & R1)|[X _]]; [|contradiction]. cbn [bind].
        replace t1 with t'; [apply dec_ret|]. now apply (same_roulette (differences t)).
    - apply Forall_cons_iff in LT. destruct LT as [LT _]. destruct (made_mixture_inv flog o types bounds t ds M LT) as (MD & SN & LD & m & -> & -> & -> & AG). pose proof (float_cells _ SN) as FC.
      destruct (mixture_bytes _ _ _ _ _ rest WD) as (n & rest0 & N & WW & ->).
      assert (NI : in_unsigned 64 (lenZ ds)) by (pose proof (lenZ_nonneg ds); unfold in_unsigned; lia).
      assert (AR : array_given mem (lenZ ds) = mem (8 * lenZ ds)) by (unfold array_given; destruct (Z.ltb_spec (8 * lenZ ds) (2 ^ 64)); [reflexivity|lia]).
      assert (LE : Z.to_nat (lenZ ds) = length ds) by (unfold lenZ; lia).
      assert (RD : Forall reads ds) by (rewrite Forall_forall in *; auto).
      destruct (oc_mixture_inv _ _ _ _ _ r O) as [[MF ->]|[(MT & e & PF & ->)|(MT & ds' & PH & RR)]].
      + intros [|fuel] L F; [lia|]. apply (body_rej L fuel (o_id o)); [exact I|exact LH|unfold D_MIXTURE; lia|]. intros L' _. unfold pick. cbn [Z.eqb Pos.eqb D_UNIFORM D_NORMAL D_ROULETTE D_MIXTURE].
        unfold deser_mixture. change (D_MIXTURE :: ?x) with ([D_MIXTURE] ++ x). rb; [apply (decodes_dec false), deser_enum_small; unfold D_ROULETTE, D_MIXTURE, D_MULTIVARIATE; lia|].
        rb; [apply (decodes_dec false), deser_uint_decodes; eauto using okw64|]. rewrite AR, MF. cbn [negb]. now apply rej_now.
      + intros [|fuel] L F; [lia|]. apply (body_rej L fuel (o_id o)); [exact I|exact LH|unfold D_MIXTURE; lia|]. intros L' LL. unfold pick. cbn [Z.eqb Pos.eqb D_UNIFORM D_NORMAL D_ROULETTE D_MIXTURE].
        unfold deser_mixture. change (D_MIXTURE :: ?x) with ([D_MIXTURE] ++ x). rb; [apply (decodes_dec false), deser_enum_small; unfold D_ROULETTE, D_MIXTURE, D_MULTIVARIATE; lia|].
        rb; [apply (decodes_dec false), deser_uint_decodes; eauto using okw64|]. rewrite AR, MT, LE. cbn [negb]. rewrite <- (app_nil_r rest0). apply rej_head.
        eapply weighted_rej; eauto. lia.
      + pose proof (had_length ds ds' PH) as LH'. destruct (combine_split (differences (mx_table m)) ds' ltac:(lia)) as [CS1 CS2]. pose proof (oc_components ds ds' MD PH) as CE.
        destruct RR as [[NS ->]|[SO ->]].
        * intros [|fuel] L F; [lia|]. apply (body_rej L fuel (o_id o)); [exact I|exact LH|unfold D_MIXTURE; lia|]. intros L' LL. unfold pick. cbn [Z.eqb Pos.eqb D_UNIFORM D_NORMAL D_ROULETTE D_MIXTURE].
          unfold deser_mixture. change (D_MIXTURE :: ?x) with ([D_MIXTURE] ++ x). rb; [apply (decodes_dec false), deser_enum_small; unfold D_ROULETTE, D_MIXTURE, D_MULTIVARIATE; lia|].
          rb; [apply (decodes_dec false), deser_uint_decodes; eauto using okw64|]. rewrite AR, MT, LE. cbn [negb]. rewrite <- (app_nil_r rest0).
          rb; [apply (weighted_dec ds RD SP ds' _ rest0 PH WW FC false); [discriminate|lia]|]. rewrite CS1, CS2. unfold make_mixture. rewrite CE.
          destruct AG as [[X _]|[_ ->]]; [contradiction|]. now apply rej_now.
        * intros u U [|fuel] L F; [lia|]. apply (body_dec u L fuel (o_id o)); [exact I|exact LH|unfold D_MIXTURE; lia|]. intros L' LL. unfold pick, bare. cbn [Z.eqb Pos.eqb D_UNIFORM D_NORMAL D_ROULETTE D_MIXTURE dobj_of set_dobj back o_id].
          unfold deser_mixture. change (D_MIXTURE :: ?x) with ([D_MIXTURE] ++ x). db; [small|]. db; [apply decodes_dec, deser_uint_decodes; eauto using okw64|]. rewrite AR, MT, LE. cbn [negb]. rewrite <- (app_nil_r rest0).
          db; [apply (weighted_dec ds RD SP ds' _ rest0 PH WW FC u); [exact U|lia]|]. rewrite CS1, CS2. unfold make_mixture. rewrite CE.
          destruct AG as [[_ ->]|[X _]]; [|contradiction]. apply dec_ret.
    - destruct (made_multi_inv flog o types bounds ds M) as (MD & LB & -> & ->).
      destruct (multi_bytes _ _ _ _ rest WD) as (n & rest0 & N & WW & ->).
      assert (NI : in_unsigned 64 (lenZ ds)) by (pose proof (lenZ_nonneg ds); unfold in_unsigned; lia).
      assert (AR : array_given mem (lenZ ds) = mem (8 * lenZ ds)) by (unfold array_given; destruct (Z.ltb_spec (8 * lenZ ds) (2 ^ 64)); [reflexivity|lia]).
      assert (LE : Z.to_nat (lenZ ds) = length ds) by (unfold lenZ; lia).
      assert (RD : Forall reads ds) by (rewrite Forall_forall in *; auto).
      destruct (oc_multi_inv _ _ _ _ r O) as [[MF ->]|[(MT & e & PF & ->)|(MT & ds' & PH & ->)]].
      + intros [|fuel] L F; [lia|]. apply (body_rej L fuel (o_id o)); [exact I|exact LH|unfold D_MULTIVARIATE; lia|]. intros L' _. unfold pick. cbn [Z.eqb Pos.eqb D_UNIFORM D_NORMAL D_ROULETTE D_MIXTURE D_MULTIVARIATE].
        unfold deser_multi. change (D_MULTIVARIATE :: ?x) with ([D_MULTIVARIATE] ++ x). rb; [apply (decodes_dec false), deser_enum_small; unfold D_ROULETTE, D_MIXTURE, D_MULTIVARIATE; lia|].
        rb; [apply (decodes_dec false), deser_uint_decodes; eauto using okw64|]. rewrite AR, MF. cbn [negb]. now apply rej_now.
      + intros [|fuel] L F; [lia|]. apply (body_rej L fuel (o_id o)); [exact I|exact LH|unfold D_MULTIVARIATE; lia|]. intros L' LL. unfold pick. cbn [Z.eqb Pos.eqb D_UNIFORM D_NORMAL D_ROULETTE D_MIXTURE D_MULTIVARIATE].
        unfold deser_multi. change (D_MULTIVARIATE :: ?x) with ([D_MULTIVARIATE] ++ x). rb; [apply (decodes_dec false), deser_enum_small; unfold D_ROULETTE, D_MIXTURE, D_MULTIVARIATE; lia|].
        rb; [apply (decodes_dec false), deser_uint_decodes; eauto using okw64|]. rewrite AR, MT, LE. cbn [negb]. rewrite <- (app_nil_r rest0). apply rej_head.
        eapply parts_rej; eauto. lia.
      + pose proof (had_length ds ds' PH) as LH'. pose proof (oc_components ds ds' MD PH) as CE.
        intros u U [|fuel] L F; [lia|]. apply (body_dec u L fuel (o_id o)); [exact I|exact LH|unfold D_MULTIVARIATE; lia|]. intros L' LL. unfold pick, bare. cbn [Z.eqb Pos.eqb D_UNIFORM D_NORMAL D_ROULETTE D_MIXTURE D_MULTIVARIATE dobj_of set_dobj back o_id].
        unfold deser_multi. change (D_MULTIVARIATE :: ?x) with ([D_MULTIVARIATE] ++ x). db; [small|]. db; [apply decodes_dec, deser_uint_decodes; eauto using okw64|]. rewrite AR, MT, LE. cbn [negb]. rewrite <- (app_nil_r rest0).
        db; [apply (parts_dec ds RD SP ds' rest0 PH WW u); [exact U|lia]|]. unfold make_multi. unfold lenZ in LB |- *. rewrite LH'.
        destruct (Z.eqb_spec (Z.of_nat (length ds)) 0); [lia|]. destruct (Z.ltb_spec INT64_MAX (Z.of_nat (length ds))); [lia|]. cbn [orb refute bind].
        rewrite !flat_map_concat_map. rewrite <- !(map_map component_of), CE. apply dec_ret.
  Qed.
End Read.

(** ** Results exist *)
Section Some.
  Variables (flog : Z -> Z) (mem : Z -> bool).
  Lemma sound_dec_made d : made flog d -> Forall (fun t => lenZ t <= 2 ^ 60) (tables d) -> forall t, In t (tables d) -> sound t \/ ~ sound t.
  Proof.
    intros M LT t T. destruct d as [o v|o n|o t0|o types bounds t0 ds|o types bounds ds]; cbn [tables] in *; try (now destruct T); (destruct T as [<-|[]]; apply Forall_cons_iff in LT; destruct LT as [LT _]).
    - destruct (roulette_again t0 (made_roulette_inv flog o t0 M) LT) as [[A _]|[A _]]; auto.
    - destruct (made_mixture_inv flog o types bounds t0 ds M LT) as (_ & _ & _ & m & _ & _ & _ & [[A _]|[A _]]); auto.
  Qed.
  Lemma parts_some ds : Forall (fun d => exists r, outcome mem d r /\ forall w, r <> UB w) ds -> (exists ds', parts_had mem ds ds') \/ exists e, parts_fail mem ds e.
  Proof.
    induction 1 as [|d ds (r & O & N) F IH]; [left; eexists; constructor|]. destruct r as [d'|e|w]; [|right; exists e; now apply pf_now|destruct (N w); reflexivity].
    destruct IH as [(ds' & H)|(e & H)]; [left; exists (d' :: ds'); now constructor|right; exists e; now apply (pf_later mem d ds d')].
  Qed.
  Lemma outcome_some d : made flog d -> storable d -> exists r, outcome mem d r /\ forall w, r <> UB w.
  Proof.
    induction d as [o v|o n|o t|o types bounds t ds IH|o types bounds ds IH] using cdist_rect'; intros M S; destruct (storable_inv _ S) as (I & LU & LP & LT & SP); cbn [dobj_of dtype_of parts] in *.
    - eexists. split; [constructor|discriminate].
    - eexists. split; [constructor|discriminate].
    - destruct (mem (8 * (lenZ t - 1))) eqn:MM; [|eexists; split; [now apply oc_roulette_memory|discriminate]].
      cbn [tables] in LT. apply Forall_cons_iff in LT. destruct LT as [LT _]. destruct (roulette_again t (made_roulette_inv flog o t M) LT) as [(A & t' & _ & R)|[A _]].
      + eexists. split; [eapply oc_roulette; eauto|discriminate].
      + eexists. split; [now apply oc_roulette_lost|discriminate].
    - destruct (mem (8 * lenZ ds)) eqn:MM; [|eexists; split; [now apply oc_mixture_memory|discriminate]].
      pose proof (sound_dec_made _ M LT t (or_introl eq_refl)) as SD. cbn [tables] in LT. apply Forall_cons_iff in LT. destruct LT as [LT _].
      destruct (made_mixture_inv flog o types bounds t ds M LT) as (MD & _).
      destruct (parts_some ds) as [(ds' & H)|(e & H)]; [rewrite Forall_forall in *; auto| |eexists; split; [eapply oc_mixture_part; eassumption|discriminate]].
      destruct SD as [A|A]; eexists; split; [eapply oc_mixture; eassumption|discriminate|eapply oc_mixture_lost; eassumption|discriminate].
    - destruct (mem (8 * lenZ ds)) eqn:MM; [|eexists; split; [now apply oc_multi_memory|discriminate]].
      destruct (made_multi_inv flog o types bounds ds M) as (MD & _).
      destruct (parts_some ds) as [(ds' & H)|(e & H)]; [rewrite Forall_forall in *; auto| |eexists; split; [eapply oc_multi_part; eassumption|discriminate]].
      eexists. split; [eapply oc_multi; eassumption|discriminate].
  Qed.
  (** Sound tables and memory are what it takes *)
  Lemma outcome_restorable d d' : outcome mem d (Ok d') -> restorable d /\ room mem d.
  Proof.
    revert d'. induction d as [o v|o n|o t|o types bounds t ds IH|o types bounds ds IH] using cdist_rect'; intros d' O.
    - split; constructor; cbn; auto.
    - split; constructor; cbn; auto.
    - destruct (oc_roulette_inv mem o t _ O) as [[_ X]|[(_ & _ & X)|(MT & SO & t' & RT & X)]]; try discriminate. split; constructor; cbn; auto.
    - destruct (oc_mixture_inv mem _ _ _ _ _ _ O) as [[_ X]|[(_ & e & _ & X)|(MT & ds' & PH & [[_ X]|[SO X]])]]; try discriminate.
      assert (K : Forall restorable ds /\ Forall (room mem) ds).
      { revert PH. clear -IH. revert ds'. induction IH as [|d ds D F IH]; intros ds' H; [auto|]. inversion H; subst. destruct (D d'); auto. destruct (IH ds'0); auto. }
      split; constructor; cbn; try tauto. auto.
    - destruct (oc_multi_inv mem _ _ _ _ _ O) as [[_ X]|[(_ & e & _ & X)|(MT & ds' & PH & X)]]; try discriminate.
      assert (K : Forall restorable ds /\ Forall (room mem) ds).
      { revert PH. clear -IH. revert ds'. induction IH as [|d ds D F IH]; intros ds' H; [auto|]. inversion H; subst. destruct (D d'); auto. destruct (IH ds'0); auto. }
      split; constructor; cbn; try tauto. auto.
  Qed.
  Lemma restorable_outcome d r : restorable d -> room mem d -> outcome mem d r -> exists d', r = Ok d'.
  Proof.
    revert r. induction d as [o v|o n|o t|o types bounds t ds IH|o types bounds ds IH] using cdist_rect'; intros r R M O; inversion R as [x RT RP]; inversion M as [y MT MP]; subst x y; cbn [tables parts] in *.
    - rewrite (oc_uniform_inv mem o v r O). eauto.
    - rewrite (oc_normal_inv mem o n r O). eauto.
    - apply Forall_cons_iff in RT. destruct RT as [RT _]. destruct (oc_roulette_inv mem o t _ O) as [[X _]|[(_ & X & _)|(_ & SO & t' & _ & X)]]; try congruence; eauto.
    - apply Forall_cons_iff in RT. destruct RT as [RT _].
      assert (K : forall e, ~ parts_fail mem ds e).
      { intro e. revert RP MP. clear -IH. induction IH as [|d ds D F IH]; intros RP MP H; inversion H; subst; apply Forall_cons_iff in RP, MP; destruct RP as [R1 R2], MP as [M1 M2]; [|now apply IH].
        destruct (D _ R1 M1 H3). discriminate. }
      destruct (oc_mixture_inv mem _ _ _ _ _ _ O) as [[X _]|[(_ & e & X & _)|(_ & ds' & PH & [[X _]|[SO X]])]]; try congruence; try (now destruct (K e X)); eauto.
    - assert (K : forall e, ~ parts_fail mem ds e).
      { intro e. revert RP MP. clear -IH. induction IH as [|d ds D F IH]; intros RP MP H; inversion H; subst; apply Forall_cons_iff in RP, MP; destruct RP as [R1 R2], MP as [M1 M2]; [|now apply IH].
        destruct (D _ R1 M1 H3). discriminate. }
      destruct (oc_multi_inv mem _ _ _ _ _ O) as [[X _]|[(_ & e & X & _)|(_ & ds' & PH & X)]]; try congruence; try (now destruct (K e X)); eauto.
  Qed.
End Some.

(** ** Which tables are sound *)
Lemma increasing_upto table : increasing table -> forall n i a b, nth_error table i = Some a -> nth_error table (i + n) = Some b -> kle (fkey a) (fkey a) -> kle (fkey a) (fkey b).
Proof.
  intro I. induction n as [|n IH]; intros i a b A B K; [rewrite Nat.add_0_r in B; congruence|].
  destruct (nth_error table (i + n)) as [c|] eqn:C; [|apply nth_error_None in C; assert (nth_error table (i + S n) = None) by (apply nth_error_None; lia); congruence].
  eapply kle_trans; [exact (IH i a c A C K)|]. apply (I (i + n)%nat c b C). now replace (S (i + n)) with (i + S n)%nat by lia.
Qed.
Lemma increasing_sound table : spans table -> increasing table -> sound table.
Proof.
  intros (L & P & T0 & T1) I. split; [|exact I]. apply Forall_forall. intros a A. pose proof A as AP. apply In_nth_error in A. destruct A as [i A].
  assert (IL : (i < length table)%nat) by (apply nth_error_Some; congruence).
  assert (K0 : kle (fkey 0) (fkey a)) by (apply (increasing_upto table I i 0 0 a T0 A); vm_compute; discriminate).
  assert (K1 : kle (fkey a) (fkey ONE)).
  { apply (increasing_upto table I (length table - 1 - i) i a ONE A); [replace (i + (length table - 1 - i))%nat with (length table - 1)%nat by lia; exact T1|].
    destruct (fkey 0), (fkey a); cbn in K0 |- *; try contradiction. apply Z.le_refl. }
  rewrite Forall_forall in P. apply (below_finite a ONE); [split; [now apply P|exact K0]|reflexivity|exact K1].
Qed.
Lemma roulette_sound areas table : weights_ok areas -> finite (total areas) -> scaled (total areas) <= 2 ^ 2096 -> is_roulette areas table -> sound table.
Proof.
  intros (L & W) F S R. assert (NE : areas <> []) by (intros ->; cbn in L; lia). apply increasing_sound; [|now apply (r_increasing areas table W F R)].
  apply (roulette_spans areas); auto. destruct W as (N & _). rewrite Forall_forall in *. intros a A. apply N, A.
Qed.
Lemma mixture_sound cs weights m : Forall pattern weights -> length weights = length cs -> finite (total weights) -> create_mixture cs weights = Ok m -> sound (mx_table m).
Proof.
  intros P L F C. destruct (create_mixture_inv cs weights m P L C) as (W & NE & TB & K). apply increasing_sound; [now apply (mixture_spans weights)|].
  exact (w_increasing weights (mx_table m) W F TB K).
Qed.
(** Sums of numbers up to 1 *)
Lemma small_sums l : Forall (fun a => nonneg a /\ kle (fkey a) (fkey ONE)) l -> forall s, nonneg s -> kle (fkey s) (fkey 0x4340000000000000) ->
  kle (fkey (fold_left fadd l s)) (fkey 0x4340000000000000).
Proof.
  induction 1 as [|a l [N K] F IH]; intros s S B; [exact B|]. cbn [fold_left]. apply IH; [apply add_nonneg; auto|].
  assert (FA : finite a) by (eapply below_finite; [exact N| |exact K]; reflexivity). assert (FS : finite s) by (eapply below_finite; [exact S| |exact B]; reflexivity).
  pose proof (fadd_rounds s a (proj1 S) (proj1 N) FS FA) as R. pose proof (fadd_rounds 0x4340000000000000 ONE ltac:(lia) ltac:(unfold ONE; lia) eq_refl eq_refl) as R'.
  change (fadd 0x4340000000000000 ONE) with 0x4340000000000000 in R'.
  refine (rounds_mono _ 1 _ _ 1 _ eq_refl eq_refl _ R R'). apply (key_scaled s 0x4340000000000000 FS eq_refl) in B. apply (key_scaled a ONE FA eq_refl) in K. lia.
Qed.
Lemma again_sound table table' : spans table -> lenZ table <= 2 ^ 60 -> sound table -> is_roulette (differences table) table' -> sound table'.
Proof.
  intros S L SO R. pose proof (sound_weights table S L SO) as W.
  assert (SM : kle (fkey (total (differences table))) (fkey 0x4340000000000000)).
  { rewrite total_all. apply small_sums; [|split; [lia|vm_compute; discriminate]|vm_compute; discriminate].
    destruct W as (_ & N & _). destruct SO as [F I]. apply Forall_forall. intros d D. rewrite Forall_forall in N. split; [now apply N|].
    apply In_nth_error in D. destruct D as [i D]. destruct (differences_cells table i d D) as (a & b & A & B & ->).
    destruct S as (LL & P & T0 & T1). rewrite Forall_forall in P, F. pose proof (nth_error_In _ _ A) as Ia. pose proof (nth_error_In _ _ B) as Ib.
    pose proof (fsub_rounds b a (P b Ib) (P a Ia) (F b Ib) (F a Ia)) as R1. pose proof (self_rounds ONE one_pattern eq_refl) as R2.
    refine (rounds_mono _ 1 _ _ 1 _ eq_refl eq_refl _ R1 R2).
    assert (I2 : (S i < length table)%nat) by (apply nth_error_Some; congruence).
    assert (SL : forall x, finite x -> kle (fkey x) (fkey x)) by (intros x X; apply (key_scaled x x X X); lia).
    assert (K0 : scaled 0 <= scaled a) by (apply (key_scaled 0 a eq_refl (F a Ia)); apply (increasing_upto table I i 0 0 a T0 A); now apply SL).
    assert (K1 : scaled b <= scaled ONE).
    { apply (key_scaled b ONE (F b Ib) eq_refl). apply (increasing_upto table I (length table - 1 - S i) (S i) b ONE B); [|now apply SL, F].
      replace (S i + (length table - 1 - S i))%nat with (length table - 1)%nat by lia. exact T1. }
    change (scaled 0) with 0 in K0. lia. }
  assert (TF : finite (total (differences table))).
  { eapply below_finite; [| |exact SM]; [|reflexivity]. apply psum_nonneg, W. }
  apply (roulette_sound (differences table)); auto. apply (proj1 (key_scaled (total (differences table)) 0x4340000000000000 TF eq_refl)) in SM. eapply Z.le_trans; [exact SM|]. vm_compute. discriminate.
Qed.

(** ** What is restored was made, and can be saved and restored again *)
Lemma made_renamed flog d o : made flog d -> made flog (set_dobj d o).
Proof.
  intros [o' t lower upper scale quant u N1 N2 N3 C|o' t mu sigma scale quant n N1 N2 N3 C|o' areas table A C|o' types bounds table ds weights M L A C|o' types bounds ds M C]; cbn [set_dobj].
  - exact (made_uniform flog o t lower upper scale quant u N1 N2 N3 C).
  - exact (made_normal flog o t mu sigma scale quant n N1 N2 N3 C).
  - exact (made_roulette flog o areas table A C).
  - destruct (make_mixture_inv _ _ _ _ C) as (m & CM & E). injection E as E1 E2 E3. apply (made_mixture flog o types bounds table ds weights); auto.
    unfold make_mixture. rewrite CM. cbn [bind]. now subst.
  - unfold make_multi in C. apply (made_multi flog o); auto. unfold make_multi. destruct (refute _ _); cbn [bind] in *; try discriminate. injection C as <- <-. reflexivity.
Qed.
Lemma parts_renamed d o : parts (set_dobj d o) = parts d. Proof. destruct d; reflexivity. Qed.
Lemma tables_renamed d o : tables (set_dobj d o) = tables d. Proof. destruct d; reflexivity. Qed.
Lemma dobj_renamed d o : dobj_of (set_dobj d o) = o. Proof. destruct d; reflexivity. Qed.
Lemma restored_shorter ud : lenZ (ud_bytes (restored_ud ud)) = lenZ (ud_bytes ud).
Proof. destruct ud as [[|]|]; reflexivity. Qed.
Section Again.
  Variables (flog : Z -> Z) (mem : Z -> bool).
  Definition again (d : cdist) : Prop := made flog d /\ storable d /\ restorable d.
  Lemma parts_again ds : Forall (fun d => forall d', made flog d -> storable d -> outcome mem d (Ok d') -> again d') ds -> Forall (made flog) ds -> Forall storable ds ->
    forall ds', parts_had mem ds ds' -> Forall again ds'.
  Proof.
    induction 1 as [|d ds D F IH]; intros M S ds' H; inversion H; subst; [constructor|]. apply Forall_cons_iff in M, S. destruct M as [M1 M2], S as [S1 S2]. constructor; auto.
  Qed.
  Lemma again_split ds : Forall again ds -> Forall (made flog) ds /\ Forall storable ds /\ Forall restorable ds.
  Proof. intro F. repeat split; (eapply Forall_impl; [|exact F]); intros d (A & B & C); assumption. Qed.
  Lemma restored_again d : forall d', made flog d -> storable d -> outcome mem d (Ok d') -> again d'.
  Proof.
    induction d as [o v|o n|o t|o types bounds t ds IH|o types bounds ds IH] using cdist_rect'; intros d' M S O; destruct (storable_inv _ S) as (I & LU & LP & LT & SP); cbn [dobj_of parts] in *; pose proof LU as LU'; rewrite <- restored_shorter in LU'.
    - pose proof (oc_uniform_inv mem o v _ O) as E. injection E as ->. split; [now apply (made_renamed flog (CUniform o v) (back o))|]. split; constructor; cbn; auto; lia.
    - pose proof (oc_normal_inv mem o n _ O) as E. injection E as ->. split; [now apply (made_renamed flog (CNormal o n) (back o))|]. split; constructor; cbn; auto; lia.
    - destruct (oc_roulette_inv mem o t _ O) as [[_ X]|[(_ & _ & X)|(MT & SO & t' & RT & X)]]; try discriminate. injection X as ->. cbn [tables] in LT. apply Forall_cons_iff in LT. destruct LT as [LT _].
      pose proof (made_roulette_inv flog o t M) as SN. destruct (roulette_again t SN LT) as [(_ & t1 & C & R1)|[N _]]; [|contradiction]. rewrite (same_roulette _ _ _ R1 RT) in C.
      pose proof (again_sound t t' SN LT SO RT) as SO'. split; [|split; constructor; cbn; auto].
      + apply (made_roulette flog _ (differences t)); [now apply float_cells|exact C].
      + constructor; [|constructor]. destruct RT as (L' & _). unfold lenZ in *. rewrite L', differences_length. destruct SN as (LL & _). lia.
    - destruct (oc_mixture_inv mem _ _ _ _ _ _ O) as [[_ X]|[(_ & e & _ & X)|(MT & ds' & PH & [[_ X]|[SO X]])]]; try discriminate. injection X as ->.
      pose proof LT as LT1. cbn [tables] in LT1. apply Forall_cons_iff in LT1. destruct LT1 as [LT1 _].
      destruct (made_mixture_inv flog o types bounds t ds M LT1) as (MD & SN & LD & m & -> & -> & -> & AG).
      destruct (again_split ds' (parts_again ds IH MD SP ds' PH)) as (A1 & A2 & A3). pose proof (had_length mem ds ds' PH) as LH.
      split; [|split; constructor; cbn; auto].
      + apply (made_mixture flog _ _ _ _ ds' (differences (mx_table m))); [exact A1|lia|now apply float_cells|]. unfold make_mixture. rewrite (oc_components flog mem ds ds' MD PH).
        destruct AG as [[_ ->]|[N _]]; [reflexivity|contradiction].
      + unfold lenZ in *. now rewrite LH.
    - destruct (oc_multi_inv mem _ _ _ _ _ O) as [[_ X]|[(_ & e & _ & X)|(MT & ds' & PH & X)]]; try discriminate. injection X as ->.
      destruct (made_multi_inv flog o types bounds ds M) as (MD & LB & -> & ->).
      destruct (again_split ds' (parts_again ds IH MD SP ds' PH)) as (A1 & A2 & A3). pose proof (had_length mem ds ds' PH) as LH.
      split; [|split; constructor; cbn; auto].
      + apply made_multi; [exact A1|]. unfold make_multi, lenZ in *. rewrite LH. destruct (Z.eqb_spec (Z.of_nat (length ds)) 0); [lia|]. destruct (Z.ltb_spec INT64_MAX (Z.of_nat (length ds))); [lia|]. cbn [orb refute bind].
        rewrite !flat_map_concat_map. rewrite <- !(map_map component_of), (oc_components flog mem ds ds' MD PH). reflexivity.
      + unfold lenZ in *. now rewrite LH.
  Qed.
End Again.

(** ** The outermost distribution *)
Section Outer.
  Variables (le : bool) (flog : Z -> Z) (mem : Z -> bool) (keep : bool) (id : Z) (m : hmap).
  Notation read := (deser_dist le flog mem keep id m).
  Lemma bare_dobj d : dobj_of (bare d) = mkObj (o_id (dobj_of d)) None. Proof. apply dobj_renamed. Qed.
  Lemma dist_takes d bs r : made flog d -> storable d -> wire_dist d bs -> dist_outcome mem keep id m d r -> takes read r bs (no_data d).
  Proof.
    intros M S W O. destruct (dist_bytes d bs W) as (bb & ub & WB & WU & ->). pose proof (body_reads le flog mem d M S bb) as RD. destruct (storable_inv d S) as (_ & LU & _).
    unfold deser_dist. destruct O as [e O|d' O K D|d' O K]; cbn [takes]; intros.
    - specialize (RD _ WB O). cbn [had] in RD. apply rej_head. apply (fuel_rej L (deser_body le flog mem)). intros fuel L' F. now apply RD.
    - specialize (RD _ WB O). cbn [had] in RD. rb; [apply (fuel_dec false _ (deser_body le flog mem)); intros fuel L' F; apply RD; [discriminate|exact F]|].
      rewrite bare_dobj. rewrite (oc_back mem d d' O). cbn [o_id back]. rewrite K. unfold handle_check_add. destruct (m (o_id (dobj_of d))); [|congruence]. now apply rej_now.
    - specialize (RD _ WB O). cbn [had] in RD. rename H into U. db; [apply (fuel_dec u _ (deser_body le flog mem)); intros fuel L' F; apply RD; [intro V; specialize (U V); now inversion U|exact F]|].
      rewrite bare_dobj. rewrite (oc_back mem d d' O). cbn [o_id back].
      assert (HM : (if keep then handle_check_add m (o_id (dobj_of d)) id else Ok m) = Ok (if keep then recording m (o_id (dobj_of d)) id else m)).
      { destruct keep; [|reflexivity]. unfold handle_check_add. rewrite (K eq_refl). reflexivity. }
      rewrite HM. cbn [bind]. rewrite <- (app_nil_r ub). db; [apply (user_data_dec u _ (ud_bytes (o_ud (dobj_of d)))); auto; intro V; specialize (U V); now inversion U|].
      rewrite <- restored_ud_eq. replace (set_dobj (bare d') (mkObj id (restored_ud (o_ud (dobj_of d))))) with (set_dobj d' (mkObj id (restored_ud (o_ud (dobj_of d))))) by (destruct d'; reflexivity). apply dec_ret.
  Qed.
  Lemma dist_saved d : made flog d -> storable d -> exists bs, wire_dist d bs /\ encodes (ser_dist le d) bs /\ size_dist d = Ok (lenZ bs) /\
    forall r, dist_outcome mem keep id m d r -> gives read r bs (no_data d).
  Proof.
    intros M S. destruct (dist_wire_exists flog d M S) as (bb & WB). destruct (wire_dist_exists d bb WB) as (bs & W). exists bs. destruct (dist_encodes le flog d M S bs W) as [E SZ].
    split; [exact W|]. split; [exact E|]. split; [exact SZ|]. intros r O. apply takes_gives. now apply dist_takes.
  Qed.
  Lemma dist_some d : made flog d -> storable d -> exists r, dist_outcome mem keep id m d r /\ forall w, r <> UB w.
  Proof.
    intros M S. destruct (outcome_some flog mem d M S) as ([d'|e|w] & O & N); [| |destruct (N w); reflexivity].
    - assert (D : keep = true /\ m (o_id (dobj_of d)) <> None \/ (keep = true -> m (o_id (dobj_of d)) = None)).
      { destruct keep; [|right; discriminate]. destruct (m (o_id (dobj_of d))) eqn:X; [left; split; [reflexivity|discriminate]|right; auto]. }
      destruct D as [[K D]|K]; eexists; (split; [|intro w]).
      + eapply do_again; eauto.
      + discriminate.
      + eapply do_had; eauto.
      + discriminate.
    - eexists. split; [apply do_fails; exact O|discriminate].
  Qed.
  Lemma other_object ty h lh : 0 <= ty < 128 -> in_unsigned 64 h -> leb128 h lh -> ty <> 1 -> gives read (Err ERR_INVALID_TYPE) (ty :: lh) True.
  Proof.
    intros T I L N. apply takes_gives. cbn [takes]. intro L0. rewrite <- (app_nil_r (ty :: lh)). unfold deser_dist. apply rej_head. apply (fuel_rej L0 (deser_body le flog mem)). intros [|fuel] L' F; [lia|].
    cbn [deser_body]. rewrite <- (app_nil_r (ty :: lh)). rb; [apply (decodes_dec false), (deser_object_internal_decodes ty h lh T I L)|].
    cbn [fst]. change OBJ_DISTRIBUTION with 1. destruct (Z.eqb_spec ty 1); [contradiction|]. cbn [negb refute bind]. now apply rej_now.
  Qed.
  Lemma other_distribution h lh k : in_unsigned 64 h -> leb128 h lh -> 4 < k < 128 -> gives read (Err ERR_UNSUPPORTED_OPERATION) ((1 :: lh) ++ [k]) True.
  Proof.
    intros I L K. apply takes_gives. cbn [takes]. intro L0. rewrite <- (app_nil_r (_ ++ [k])). unfold deser_dist. apply rej_head. apply (fuel_rej L0 (deser_body le flog mem)). intros [|fuel] L' F; [lia|].
    apply (body_rej le flog mem L' fuel h lh k [] _ I L ltac:(lia)). intros L1 _. unfold pick, D_UNIFORM, D_NORMAL, D_ROULETTE, D_MIXTURE, D_MULTIVARIATE.
    destruct (Z.eqb_spec k 0); [lia|]. destruct (Z.eqb_spec k 1); [lia|]. destruct (Z.eqb_spec k 2); [lia|]. destruct (Z.eqb_spec k 3); [lia|]. destruct (Z.eqb_spec k 4); [lia|]. now apply rej_now.
  Qed.
End Outer.

(** ** What distributions say of their values *)
Lemma union_typed types : forall a b r, typed types a -> typed types b -> union_all a b = Ok r -> typed types r.
Proof.
  induction types as [|t ts IH]; intros a b r [La Fa] [Lb Fb] H; inversion Fa as [|? x ? a' [X1 X2] FA]; subst; inversion Fb as [|? y ? b' [Y1 Y2] FB]; subst; cbn [union_all] in H.
  - injection H as <-. split; [reflexivity|constructor].
  - destruct (interval_union x y) as [u| |] eqn:U; cbn [bind] in H; try discriminate. destruct (union_all a' b') as [r'| |] eqn:R; cbn [bind] in H; try discriminate. injection H as <-.
    destruct (IH a' b' r') as [Lr Fr]; [split; [cbn in La; lia|exact FA]|split; [cbn in Lb; lia|exact FB]|exact R|]. split; [cbn; now rewrite Lr|]. constructor; [|exact Fr]. split; [|exact X2].
    unfold interval_union in U. destruct (negb (i_type x =? i_type y)); cbn [refute bind] in U; [discriminate|]. destruct (Z.eqb_spec (i_type x) NUM_FLOAT) as [E|E];
      destruct (merge_min _ _ _ _ _), (merge_max _ _ _ _ _); injection U as <-; cbn [i_type]; destruct X2; congruence.
Qed.
Lemma bounds_typed size types cs : forall bounds r, typed types bounds -> Forall (fun c => typed types (c_bounds c)) cs -> union_bounds size bounds cs = Ok r -> typed types r.
Proof.
  induction cs as [|c cs IH]; intros bounds r T F H; cbn [union_bounds] in H; [injection H as <-; exact T|]. inversion F as [|? ? TC F']; subst.
  destruct (put_bounds size (c_bounds c)) as [tmp| |] eqn:PB; cbn [bind] in H; try discriminate.
  assert (tmp = c_bounds c) as -> by (unfold put_bounds in PB; match type of PB with (if ?c then _ else _) = _ => destruct c end; congruence).
  destruct (union_all bounds (c_bounds c)) as [b| |] eqn:UA; cbn [bind] in H; try discriminate. apply (IH b r); auto. exact (union_typed types bounds (c_bounds c) b T TC UA).
Qed.
Lemma typed_app a b x y : typed a x -> typed b y -> typed (a ++ b) (x ++ y).
Proof. intros [L1 F1] [L2 F2]. split; [rewrite !app_length; lia|]. now apply Forall2_app. Qed.
Lemma made_says flog d : made flog d -> says d (c_types (component_of d)) (c_bounds (component_of d)).
Proof.
  induction d as [o u|o n|o t|o types bounds t ds IH|o types bounds ds IH] using cdist_rect'; intro M; cbn [component_of c_types c_bounds].
  - inversion M; subst. match goal with X : create_uniform _ _ _ _ _ _ = _ |- _ => destruct (uniform_keeps _ _ _ _ _ _ _ X) as (T & _ & _ & _ & _ & TY & _) end. split.
    + split; [reflexivity|]. constructor; [|constructor]. split; [reflexivity|]. now rewrite T.
    + split; [reflexivity|]. intros i v [<-|[]]. unfold member, above, below, uniform_bounds, kle, klt. cbn [i_type i_lower i_upper i_linc i_uinc].
      destruct (pos (u_type u) v), (pos (u_type u) (u_lower u)), (pos (u_type u) (u_upper u)); tauto.
  - inversion M; subst. match goal with X : create_normal _ _ _ _ _ = _ |- _ => destruct (normal_keeps _ _ _ _ _ _ X) as (T & _ & _ & _ & _ & TY & _) end. split; [|reflexivity].
    split; [reflexivity|]. constructor; [|constructor]. split; [|now rewrite T]. unfold normal_bounds. destruct (n_scale n =? SCALE_LOGARITHMIC), (Z.eqb_spec (n_type n) NUM_FLOAT), (n_quantize n); cbn [i_type]; congruence.
  - split; [split; [reflexivity|]; constructor; [|constructor]; split; [reflexivity|now right]|]. split; [reflexivity|]. intros i v [<-|[]]. unfold member, above, below, roulette_bounds, pos. cbn. lia.
  - inversion M; subst. match goal with X : make_mixture _ _ _ = _ |- _ => destruct (make_mixture_inv _ _ _ _ X) as (m & C & E) end. injection E as -> -> ->.
    assert (TS : Forall (fun c => typed (c_types c) (c_bounds c)) (map component_of ds)).
    { apply Forall_map. rewrite Forall_forall in *. intros p P. apply (IH p P). auto. }
    assert (X : typed (mx_types m) (mx_bounds m) /\ Forall (fun c => c_types c = mx_types m) (map component_of ds)).
    { clear -C TS. destruct (map component_of ds) as [|c0 rest]; [discriminate|]. cbn [create_mixture] in C. destruct (INT64_MAX <? _); cbn [refute bind] in C; [discriminate|].
      destruct (forallb _ rest) eqn:FB; cbn [negb refute bind] in C; [|discriminate]. destruct (validate_areas weights) as [inv| |]; cbn [bind] in C; try discriminate.
      assert (FD : Forall (fun c => c_dim c = length (c_types c0)) rest) by (rewrite forallb_forall in FB; apply Forall_forall; intros c I; specialize (FB c I); apply Nat.eqb_eq in FB; exact FB).
      destruct (check_types_spec (c_types c0) rest FD) as [[SA CT]|[_ CT]]; rewrite CT in C; cbn [bind] in C; [|discriminate].
      match type of C with context [union_bounds ?s ?b ?c] => destruct (union_bounds s b c) as [bs| |] eqn:UB end; cbn [bind] in C; try discriminate.
      destruct (mixture_table weights inv); cbn [bind] in C; try discriminate. injection C as <-. cbn [mx_types mx_bounds]. inversion TS as [|? ? T0 TR]; subst. split; [|constructor; auto].
      eapply (bounds_typed _ (c_types c0) rest (c_bounds c0)); [exact T0| |exact UB]. rewrite Forall_forall in *. intros c I. specialize (TR c I). now rewrite (SA c I) in TR. }
    destruct X as [X1 X2]. split; [exact X1|]. split; [rewrite Forall_map in X2; exact X2|].
    intros OK j l B. destruct (create_mixture_spec (map component_of ds) weights OK) as [(_ & _ & _ & [(_ & m' & C' & _ & _ & _ & J)|[_ C']])|[(_ & _ & _ & C')|[(_ & [C'|C'])|(_ & [C'|C'])]]]; auto; [now rewrite map_length| | | | | | |]; try congruence.
    assert (m' = m) as -> by congruence. now apply J.
  - destruct (made_multi_inv flog o types bounds ds M) as (MD & _ & -> & ->). split; [|split; now rewrite <- flat_map_concat_map].
    rewrite Forall_forall in *. clear M. induction ds as [|p ds IHd]; [split; [reflexivity|constructor]|]. cbn [flat_map]. apply typed_app; [apply (IH p); [now left|apply MD; now left]|]. apply IHd; intros q Q; [apply IH|apply MD]; now right.
Qed.
