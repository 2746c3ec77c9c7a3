From Coq Require Import ZArith List Bool Lia Arith.
From Verif Require Import Base Datum CodecModel FloatModel FloatSpec CmpModel CmpSpec IntervalModel IntervalSpec IntervalProofs
  ParamModel ParamSpec ParamProofs ParamLemmas DistModel DistSpec DistProofs DistMix DistParamModel DistParamSpec.
Import ListNotations.
Open Scope Z_scope.

(** ** Arrays *)
Lemma set_at_ok : forall values i d, (i < length values)%nat ->
  exists v', set_at values i d = Ok v' /\ length v' = length values /\ firstn i v' = firstn i values /\ nth_error v' i = Some d.
Proof.
  induction values as [|x l IH]; intros [|i] d H; cbn in *; try lia; [eexists; split; [reflexivity|auto]|].
  destruct (IH i d ltac:(lia)) as (v & -> & A & B & C). cbn. eexists; split; [reflexivity|]. cbn. split; [congruence|]. split; [congruence|exact C].
Qed.
Lemma firstn_S_nth {X} (l : list X) i d : nth_error l i = Some d -> firstn (S i) l = firstn i l ++ [d].
Proof. revert i. induction l as [|x l IH]; intros [|i] H; try discriminate; cbn in *; [congruence|]. now rewrite (IH i H). Qed.
Lemma firstn_le {X} (a b : list X) i j : (j <= i)%nat -> firstn i a = firstn i b -> firstn j a = firstn j b.
Proof. intros L H. rewrite <- (Nat.min_l j i L), <- !firstn_firstn. now rewrite H. Qed.
Definition idle (d : datum) : bool := type_of (d_val d) =? TYPE_INACTIVE.

Lemma copy_row_ok test ds len j at0 : forall l i values,
  (forall t d, nth_error l t = Some d -> get_at ds ((i + t) * len + j) = Ok d) -> (at0 + i + length l <= length values)%nat ->
  exists v', copy_row test ds len j at0 (length l) i values = Ok (test && existsb idle l, v') /\ length v' = length values /\
    firstn (at0 + i) v' = firstn (at0 + i) values /\
    (test && existsb idle l = false -> firstn (at0 + i + length l) v' = firstn (at0 + i) values ++ l).
Proof.
  induction l as [|d l IH]; intros i values G L; cbn [length copy_row].
  - rewrite andb_false_r. exists values. split; [reflexivity|]. split; [reflexivity|]. split; [reflexivity|]. intros _. now rewrite app_nil_r, Nat.add_0_r.
  - pose proof (G 0%nat d eq_refl) as G0. rewrite Nat.add_0_r in G0. rewrite G0. cbn [bind existsb]. fold (idle d). cbn [length] in L.
    destruct (test && idle d) eqn:T.
    + apply andb_true_iff in T. destruct T as [-> ->]. exists values. split; [reflexivity|]. split; [reflexivity|]. split; [reflexivity|]. discriminate.
    + destruct (set_at_ok values (at0 + i) d ltac:(lia)) as (v1 & -> & L1 & F1 & N1). cbn [bind].
      destruct (IH (S i) v1) as (v2 & R & L2 & F2 & H2); [intros t e E; specialize (G (S t) e E); rewrite <- G; f_equal; f_equal; f_equal; lia|lia|].
      assert (EB : test && existsb idle l = test && (idle d || existsb idle l)) by (destruct test, (idle d); cbn in *; congruence).
      exists v2. rewrite <- EB. split; [exact R|]. split; [congruence|]. replace (at0 + S i)%nat with (S (at0 + i)) in * by lia. split.
      * rewrite <- F1. apply (firstn_le _ _ (S (at0 + i))); [lia|exact F2].
      * intro E. specialize (H2 E). replace (at0 + i + S (length l))%nat with (S (at0 + i) + length l)%nat by lia. rewrite H2.
        rewrite (firstn_S_nth _ _ _ N1), F1, <- app_assoc. reflexivity.
Qed.

Definition good (test : bool) (r : list datum) : bool := negb (test && existsb idle r).
Lemma concat_len {X} (l : list (list X)) n : Forall (fun r => length r = n) l -> length (concat l) = (length l * n)%nat.
Proof. induction 1; cbn; [reflexivity|]. rewrite app_length. lia. Qed.
Lemma copy_rows_ok test limit ds dim len n : forall R j G values,
  (forall t r, nth_error R t = Some r -> length r = dim /\ forall i d, nth_error r i = Some d -> get_at ds (i * len + (j + t)) = Ok d) ->
  length values = (n * dim)%nat -> (length G <= n)%nat -> limit = Some n \/ (limit = None /\ length G + length R <= n)%nat ->
  firstn (length G * dim) values = concat G ->
  exists v', let G' := firstn n (G ++ filter (good test) R) in
    copy_rows test limit ds dim len (length R) j (length G) values = Ok (length G', v') /\ length v' = length values /\
    firstn (length G' * dim) v' = concat G'.
Proof.
  induction R as [|r R IH]; intros j G values HR LV LG LI HG; cbn [length copy_rows filter].
  - exists values. rewrite app_nil_r. cbn zeta. rewrite firstn_all2 by exact LG. auto.
  - assert (STOP : match limit with Some n => (n <=? length G)%nat | None => false end = true -> limit = Some n /\ length G = n).
    { destruct LI as [->|[-> _]]; [|discriminate]. intro E. apply Nat.leb_le in E. split; [reflexivity|lia]. }
    destruct (match limit with Some n => (n <=? length G)%nat | None => false end) eqn:E.
    + destruct (STOP eq_refl) as [-> LG']. exists values. cbn zeta. rewrite firstn_app, firstn_all2, LG', Nat.sub_diag, firstn_O, app_nil_r by lia. rewrite LG' in *. auto.
    + assert (LG' : (length G < n)%nat).
      { destruct LI as [->|[-> LI]]; [apply Nat.leb_gt in E; exact E|cbn in LI; lia]. }
      destruct (HR 0%nat r eq_refl) as [LR GR].
      destruct (copy_row_ok test ds len j (length G * dim) r 0 values) as (v1 & C1 & L1 & F1 & H1).
      { intros t d X. specialize (GR t d X). now rewrite Nat.add_0_r in GR. }
      { rewrite LV, LR. nia. }
      rewrite LR in C1, H1. rewrite C1. cbn [bind]. rewrite !Nat.add_0_r in *.
      assert (GE : good test r = negb (test && existsb idle r)) by reflexivity. destruct (test && existsb idle r) eqn:T; rewrite GE; cbn [negb].
      * destruct (IH (S j) G v1) as (v2 & X); [|lia|lia| |congruence|].
        { intros t r' Y. destruct (HR (S t) r' Y) as [A B]. split; [exact A|]. intros i d D. rewrite <- (B i d D). f_equal. lia. }
        { destruct LI as [->|[-> LI]]; [auto|right; cbn in LI; split; [reflexivity|lia]]. }
        exists v2. rewrite L1 in X. exact X.
      * destruct (IH (S j) (G ++ [r]) v1) as (v2 & X).
        { intros t r' Y. destruct (HR (S t) r' Y) as [A B]. split; [exact A|]. intros i d D. rewrite <- (B i d D). f_equal. lia. }
        { lia. }
        { rewrite app_length. cbn. lia. }
        { rewrite app_length. destruct LI as [->|[-> LI]]; [auto|right; cbn in LI |- *; split; [reflexivity|lia]]. }
        { rewrite app_length, concat_app. cbn [length concat]. rewrite app_nil_r, <- HG. replace ((length G + 1) * dim)%nat with (length G * dim + dim)%nat by lia. apply H1. reflexivity. }
        rewrite app_length in X. cbn [length] in X. rewrite Nat.add_1_r, <- app_assoc in X. exists v2. rewrite L1 in X. exact X.
Qed.

(** ** Conversion *)
Definition keep1 (p : param) (w : Z) : bool :=
  if p_type p =? PNUMERICAL then interval_include (p_interval p) w else (0 <=? w) && (w <? lenZ (p_values p)).
Lemma keep1_ok p w : keep1 p w = true <-> raw_ok p w.
Proof.
  unfold keep1, raw_ok. destruct (p_type p =? PNUMERICAL); [apply include_member|].
  rewrite andb_true_iff, Z.leb_le, Z.ltb_lt. tauto.
Qed.
Definition conv (p : param) (w : Z) : datum := if keep1 p w then raw_value p w else ccs_inactive.
Definition samplable (p : param) : Prop :=
  p_type p <> PSTRING /\ is_num_type (i_type (p_interval p)) /\ forall w, raw_ok p w -> idle (raw_value p w) = false.
Lemma convert_sample_ok p (over : bool) w : samplable p -> (over = false -> raw_ok p w) -> convert_sample p over w = Ok (conv p w).
Proof.
  intros (NS & NT & _) O. unfold convert_sample, conv, keep1, raw_value, number. destruct (p_type p =? PNUMERICAL) eqn:TN.
  - fold NUM_FLOAT. assert (K : over = false -> interval_include (p_interval p) w = true).
    { intro E. apply include_member. specialize (O E). unfold raw_ok in O. now rewrite TN in O. }
    destruct over; [|rewrite (K eq_refl)]; destruct (i_type (p_interval p) =? NUM_FLOAT); reflexivity.
  - destruct (Z.eqb_spec (p_type p) PSTRING); [contradiction|]. rewrite Z.geb_leb. destruct over; [reflexivity|].
    specialize (O eq_refl). unfold raw_ok in O. rewrite TN in O. destruct (Z.leb_spec 0 w); [|lia]. destruct (Z.ltb_spec w (lenZ (p_values p))); [|lia].
    destruct (Z.ltb_spec w 0); [lia|]. destruct (Z.leb_spec (lenZ (p_values p)) w); [lia|]. reflexivity.
Qed.
Lemma convert_column_ok p (over : bool) vs : samplable p -> (over = false -> Forall (raw_ok p) vs) -> convert_column p over vs = Ok (map (conv p) vs).
Proof.
  intro S. induction vs as [|v l IH]; intro O; [reflexivity|]. cbn. rewrite (convert_sample_ok p over v S); [|intro E; specialize (O E); now inversion O].
  cbn. rewrite IH; [reflexivity|]. intro E. specialize (O E). now inversion O.
Qed.
Definition converted (ps : list param) (cols : list (list Z)) : list (list datum) := map (fun x => map (conv (fst x)) (snd x)) (combine ps cols).
Inductive clean_draw : list param -> list bool -> list (list Z) -> Prop :=
| clean_nil : clean_draw [] [] []
| clean_cons p (o : bool) c ps os cs : (o = false -> Forall (raw_ok p) c) -> clean_draw ps os cs -> clean_draw (p :: ps) (o :: os) (c :: cs).
Lemma convert_columns_ok ps overs cols : Forall samplable ps -> clean_draw ps overs cols -> convert_columns ps overs cols = Ok (concat (converted ps cols)).
Proof.
  intros S C. induction C as [|p o c ps os cs O _ IH]; [reflexivity|]. inversion S; subst. cbn [convert_columns]. rewrite (convert_column_ok p o c); auto.
  cbn [bind]. rewrite IH by auto. reflexivity.
Qed.
Definition conv_row (ps : list param) (row : list Z) : list datum := map (fun x => conv (fst x) (snd x)) (combine ps row).
Lemma get_concat c : forall (cs : list (list datum)) i j col d, Forall (fun l => length l = c) cs -> nth_error cs i = Some col -> nth_error col j = Some d ->
  get_at (concat cs) (i * c + j) = Ok d.
Proof.
  induction cs as [|x cs IH]; intros [|i] j col d F E D; try discriminate; inversion F as [|? ? LX FX]; subst; unfold get_at; cbn [concat].
  - cbn in E. injection E as ->. rewrite nth_error_app1 by (apply nth_error_Some; cbn; congruence). cbn [Nat.mul Nat.add]. now rewrite D.
  - rewrite nth_error_app2 by lia. replace (S i * length x + j - length x)%nat with (i * length x + j)%nat by lia. cbn in E. exact (IH i j col d FX E D).
Qed.
Lemma rows_length c cols : length (rows_of c cols) = c. Proof. unfold rows_of. rewrite map_length. apply seq_length. Qed.
Lemma rows_nth c cols t row : nth_error (rows_of c cols) t = Some row -> (t < c)%nat /\ row = map (fun col => nth t col 0) cols.
Proof.
  intro E. assert (L : (t < c)%nat) by (rewrite <- (rows_length c cols); apply nth_error_Some; congruence). split; [exact L|].
  unfold rows_of in E. rewrite nth_error_map in E. rewrite (nth_error_nth' _ 0%nat) in E by now rewrite seq_length. rewrite seq_nth in E by exact L. cbn in E. congruence.
Qed.
Lemma converted_rows ps cols c : length cols = length ps -> Forall (fun l => length l = c) cols ->
  forall t r, nth_error (map (conv_row ps) (rows_of c cols)) t = Some r ->
  length r = length ps /\ forall i d, nth_error r i = Some d -> get_at (concat (converted ps cols)) (i * c + t) = Ok d.
Proof.
  intros L F t r E. rewrite nth_error_map in E. destruct (nth_error (rows_of c cols) t) as [row|] eqn:ER; [|discriminate]. cbn in E. injection E as <-.
  destruct (rows_nth _ _ _ _ ER) as [T ->]. split.
  - unfold conv_row. rewrite map_length, combine_length, map_length. lia.
  - intros i d D. unfold conv_row in D. rewrite nth_error_map in D.
    destruct (nth_error (combine ps (map (fun col => nth t col 0) cols)) i) as [[p w]|] eqn:EC; [|discriminate]. cbn in D. injection D as <-.
    assert (EP : nth_error ps i = Some p /\ exists col, nth_error cols i = Some col /\ w = nth t col 0).
    { clear - EC. revert cols i EC. induction ps as [|q ps IH]; intros [|col cols] [|i] EC; try discriminate; cbn in *.
      - injection EC as <- <-. eauto.
      - apply IH. exact EC. }
    destruct EP as (EP & col & ECol & ->).
    assert (LC : length col = c) by (rewrite Forall_forall in F; apply F, (nth_error_In _ _ ECol)).
    eapply (get_concat c _ i t (map (conv p) col)).
    + unfold converted. apply Forall_map. rewrite Forall_forall in *. intros [p' l'] I. cbn. rewrite map_length. apply F, (in_combine_r _ _ _ _ I).
    + unfold converted. rewrite nth_error_map. replace (nth_error (combine ps cols) i) with (Some (p, col)); [reflexivity|]. symmetry.
      clear - EP ECol. revert cols i EP ECol. induction ps as [|q ps IH]; intros [|x cols] [|i] EP ECol; try discriminate; cbn in *; [congruence|]. now apply IH.
    + rewrite nth_error_map, (nth_error_nth' _ 0) by lia. reflexivity.
Qed.

(** ** Rejection *)
Lemma good_conv ps row : Forall samplable ps -> length row = length ps -> (good true (conv_row ps row) = true <-> row_ok ps row).
Proof.
  intro S. unfold good, conv_row, row_ok. revert row. induction S as [|p ps SP S IH]; intros [|w row] L; cbn in L; try lia; cbn; [split; [constructor|reflexivity]|].
  destruct SP as (_ & _ & SP). unfold conv at 1. pose proof (keep1_ok p w) as K. destruct (keep1 p w) eqn:EK.
  - assert (RO : raw_ok p w) by now apply K. rewrite (SP w RO). cbn [orb andb negb] in *. rewrite (IH row) by lia. split; [intro H; now constructor|intro H; now inversion H].
  - split; [discriminate|]. intro H. inversion H as [|? ? ? ? RO]; subst. apply K in RO. discriminate.
Qed.
Lemma conv_values ps row : row_ok ps row -> conv_row ps row = row_values ps row.
Proof.
  intro H. unfold conv_row, row_values. induction H as [|p w ps row RO H IH]; [reflexivity|]. cbn. f_equal; [|exact IH].
  unfold conv. apply keep1_ok in RO. now rewrite RO.
Qed.
Lemma filter_map {X Y} (f : X -> Y) (g : Y -> bool) (h : X -> bool) l : (forall x, In x l -> g (f x) = h x) -> filter g (map f l) = map f (filter h l).
Proof.
  induction l as [|x l IH]; intro H; [reflexivity|]. cbn. rewrite (H x (or_introl eq_refl)), IH by (intros; apply H; now right). now destruct (h x).
Qed.
Lemma row_length c cols row : In row (rows_of c cols) -> length row = length cols.
Proof. intro I. apply in_map_iff in I. destruct I as (j & <- & _). apply map_length. Qed.
Definition row_draw (draw : nat -> nat -> res (list (list Z))) (k c : nat) : res (list (list Z)) := do cols <- draw k c; Ok (rows_of c cols).

Section Rows.
  Variable ps : list param.
  Variable overs : list bool.
  Variable draw : nat -> nat -> res (list (list Z)).
  Variable keep : list Z -> bool.
  Hypothesis SP : Forall samplable ps.
  Hypothesis DC : columns_drawn (length ps) draw.
  Hypothesis CL : forall k c cols, draw k c = Ok cols -> clean_draw ps overs cols.
  Hypothesis KP : forall row, keep row = true <-> row_ok ps row.

  Lemma good_keep row : length row = length ps -> good true (conv_row ps row) = keep row.
  Proof. intro L. apply (bool_iff_eq _ _ (row_ok ps row)); [now apply good_conv|apply KP]. Qed.
  Lemma more_rows_ok n : forall cs fuel coeff round got values, (length cs < fuel)%nat ->
    cs = skipn (5 - length cs) [2; 4; 8; 16; 32]%nat -> coeff = nth (5 - length cs) [2; 4; 8; 16; 32; 64]%nat 0%nat ->
    length values = (n * length ps)%nat ->
    Forall (fun r => length r = length ps) got ->
    firstn (length (firstn n got) * length ps) values = concat (map (conv_row ps) (firstn n got)) ->
    more_rows ps overs draw fuel coeff round n (length (firstn n got)) values =
    do rows <- collect keep (row_draw draw) n cs round got; Ok (concat (map (conv_row ps) rows)).
  Proof.
    induction cs as [|c cs IH]; intros fuel coeff round got values FU ECS EC LV LR H; (destruct fuel as [|fuel]; [lia|]); cbn [more_rows collect].
    - cbn in EC. subst coeff. rewrite firstn_length in *. destruct (Nat.leb_spec n (length got)) as [L|L].
      + rewrite Nat.min_l in * by exact L. rewrite Nat.ltb_irrefl. cbn [bind]. rewrite <- H, firstn_all2 by lia. reflexivity.
      + rewrite Nat.min_r by lia. destruct (Nat.ltb_spec (length got) n); [|lia]. reflexivity.
    - destruct (Nat.leb_spec n (length got)) as [L|L].
      + rewrite firstn_length in *. rewrite Nat.min_l in * by exact L. rewrite Nat.ltb_irrefl. cbn [bind]. rewrite <- H, firstn_all2 by lia. reflexivity.
      + assert (FG : firstn n got = got) by (apply firstn_all2; lia). rewrite FG in *. clear FG. destruct (Nat.ltb_spec (length got) n); [|lia].
        assert (CS : (length cs < 5)%nat /\ (32 <? coeff = false)%nat /\ coeff = c /\ cs = skipn (5 - length cs) [2; 4; 8; 16; 32]%nat /\ (2 * coeff = nth (5 - length cs) [2; 4; 8; 16; 32; 64] 0)%nat).
        { clear - ECS EC. cbn [length] in *. destruct cs as [|c1 [|c2 [|c3 [|c4 [|c5 cs]]]]]; cbn in ECS, EC; try discriminate; inversion ECS; subst; repeat split; cbn; lia. }
        destruct CS as (_ & C32 & -> & ECS' & EC'). rewrite C32. cbn [refute bind].
        unfold row_draw at 1. destruct (draw round ((n - length got) * c)%nat) as [cols|e|u] eqn:ED; [|reflexivity..]. cbn [bind].
        destruct (DC _ _ _ ED) as [LC FC]. rewrite (convert_columns_ok ps overs cols SP (CL _ _ _ ED)). cbn [bind].
        set (R := rows_of ((n - length got) * c) cols).
        destruct (copy_rows_ok true (Some n) (concat (converted ps cols)) (length ps) ((n - length got) * c) n
                    (map (conv_row ps) R) 0 (map (conv_row ps) got) values) as (v1 & C1 & L1 & F1); [|exact LV|rewrite map_length; lia|auto|rewrite map_length; exact H|].
        { intros t r E. cbn [Nat.add]. apply converted_rows; auto. }
        unfold R in C1 at 1. rewrite !map_length, rows_length in C1. rewrite C1. cbn [bind].
        assert (EF : map (conv_row ps) got ++ filter (good true) (map (conv_row ps) R) = map (conv_row ps) (got ++ filter keep R)).
        { rewrite map_app. f_equal. apply filter_map. intros row I. apply good_keep. rewrite <- LC. eapply row_length; exact I. }
        cbn zeta in F1. rewrite EF, firstn_map, map_length in F1. rewrite EF, firstn_map, map_length. apply IH; auto; [cbn in FU; lia|congruence| ].
        apply Forall_app. split; [exact LR|]. apply Forall_forall. intros row I. apply filter_In in I. rewrite <- LC. eapply row_length; apply I.
  Qed.
  Lemma rows_samples_ok n values : length overs = length ps -> length values = (n * length ps)%nat ->
    rows_samples ps overs draw n values =
    do rows <- sampled keep (row_draw draw) n (existsb (fun o => o) overs); Ok (concat (map (row_values ps) rows)).
  Proof.
    intros LO LV. unfold rows_samples, sampled. unfold row_draw at 1. destruct (draw 0%nat n) as [cols|e|u] eqn:ED; [|reflexivity..]. cbn [bind].
    destruct (DC _ _ _ ED) as [LC FC]. rewrite (convert_columns_ok ps overs cols SP (CL _ _ _ ED)). cbn [bind]. set (R := rows_of n cols).
    assert (LR : length R = n) by apply rows_length.
    assert (ROWS : forall row, In row R -> length row = length ps) by (intros row I; rewrite <- LC; eapply row_length; exact I).
    assert (GET : forall t r, nth_error (map (conv_row ps) R) t = Some r -> length r = length ps /\ forall i d, nth_error r i = Some d -> get_at (concat (converted ps cols)) (i * n + (0 + t)) = Ok d)
      by (intros t r E; cbn [Nat.add]; apply converted_rows; auto).
    destruct (existsb (fun o => o) overs) eqn:EO.
    - destruct (copy_rows_ok true None (concat (converted ps cols)) (length ps) n n (map (conv_row ps) R) 0 [] values GET LV) as (v1 & C1 & L1 & F1); [cbn; lia|right; split; [reflexivity|rewrite map_length; cbn; lia]|reflexivity|].
      cbn [app length] in C1, F1. rewrite map_length, LR in C1. rewrite C1. cbn [bind].
      assert (EF : filter (good true) (map (conv_row ps) R) = map (conv_row ps) (filter keep R)) by (apply filter_map; intros row I; apply good_keep; auto).
      cbn zeta in F1. rewrite EF, firstn_map, map_length in F1. rewrite EF, firstn_map, map_length.
      rewrite (more_rows_ok n [2; 4; 8; 16; 32]%nat 6 2 1 (filter keep R) v1); [|cbn; lia|reflexivity|reflexivity|lia| |exact F1].
      + destruct (collect keep (row_draw draw) n [2; 4; 8; 16; 32]%nat 1 (filter keep R)) as [rows|e|u] eqn:EC; [|reflexivity..]. cbn [bind]. do 2 f_equal.
        apply map_ext_in. intros row I. apply conv_values, KP.
        assert (F0 : Forall (fun w => keep w = true) (filter keep R)) by (apply Forall_forall; intros w Hw; now apply filter_In in Hw).
        pose proof (collect_keep _ _ _ _ _ _ _ F0 EC) as F. rewrite Forall_forall in F. now apply F.
      + apply Forall_forall. intros row I. apply filter_In in I. apply ROWS, I.
    - destruct (copy_rows_ok false None (concat (converted ps cols)) (length ps) n n (map (conv_row ps) R) 0 [] values GET LV) as (v1 & C1 & L1 & F1); [cbn; lia|right; split; [reflexivity|rewrite map_length; cbn; lia]|reflexivity|].
      cbn [app length] in C1, F1. rewrite map_length, LR in C1. rewrite C1. cbn [bind]. f_equal.
      rewrite (filter_ext_all (good false) (fun _ => true)), filter_true in F1 by reflexivity. assert (FM : firstn n (map (conv_row ps) R) = map (conv_row ps) R) by (apply firstn_all2; rewrite map_length; lia). rewrite FM in F1.
      rewrite map_length, LR, firstn_all2 in F1 by lia. rewrite F1. f_equal. apply map_ext_in. intros row I. apply conv_values.
      apply in_map_iff in I. destruct I as (j & <- & J). apply in_seq in J. pose proof (CL _ _ _ ED) as C. clear - C EO J FC.
      induction C as [|p o c ps os cs O C IH]; [constructor|]. cbn [existsb] in EO. apply orb_false_iff in EO. destruct EO as [-> EO]. inversion FC; subst. cbn [map]. constructor.
      + specialize (O eq_refl). rewrite Forall_forall in O. apply O, nth_In. lia.
      + apply IH; auto.
  Qed.
End Rows.

(** ** One dimension *)
Lemma collect_single (k1 : Z -> bool) (k2 : list Z -> bool) d1 d2 n cs : (forall w, k2 [w] = k1 w) ->
  (forall r c, d2 r c = do l <- d1 r c; Ok (map (fun w => [w]) l)) ->
  forall r got, collect k2 d2 n cs r (map (fun w => [w]) got) = do l <- collect k1 d1 n cs r got; Ok (map (fun w => [w]) l).
Proof.
  intros K D. induction cs as [|c cs IH]; intros r got; cbn [collect]; rewrite map_length; destruct (n <=? length got)%nat; try (cbn; now rewrite firstn_map); [reflexivity|].
  rewrite D. destruct (d1 r ((n - length got) * c)%nat) as [l|e|u]; [|reflexivity..]. cbn [bind].
  rewrite (filter_map _ _ k1) by (intros; apply K). rewrite <- map_app. apply IH.
Qed.
Lemma sampled_single (k1 : Z -> bool) (k2 : list Z -> bool) d1 d2 n (over : bool) : (forall w, k2 [w] = k1 w) ->
  (forall r c, d2 r c = do l <- d1 r c; Ok (map (fun w => [w]) l)) ->
  sampled k2 d2 n over = do l <- sampled k1 d1 n over; Ok (map (fun w => [w]) l).
Proof.
  intros K D. unfold sampled. rewrite D. destruct (d1 0%nat n) as [l|e|u]; [|reflexivity..]. cbn [bind]. destruct over; [|reflexivity].
  rewrite (filter_map _ _ k1) by (intros; apply K). now apply collect_single.
Qed.
Lemma map_seq_nth (l : list Z) : map (fun j => [nth j l 0]) (seq 0 (length l)) = map (fun w => [w]) l.
Proof.
  induction l as [|x l IH]; [reflexivity|]. cbn [length seq map]. f_equal. rewrite <- IH, <- seq_shift, map_map. reflexivity.
Qed.

(** ** Parameters and bounds *)
Lemma created_samplable jen p : created jen p -> p_type p <> PSTRING -> samplable p.
Proof.
  intros C NS. split; [exact NS|]. split; [eapply created_interval, C|]. intros w RO.
  destruct C as [nm t lo up q def p' _ _ _ _ _ H | t nm vals idx p' K _ W Hi H | nm _].
  - destruct (check_numerical jen _ _ _ _ _ _ _ H) as (T & -> & _). unfold raw_value. cbn [p_type]. change (PNUMERICAL =? PNUMERICAL) with true. cbv iota.
    unfold number. cbn [p_interval i_type]. destruct (t =? 2); reflexivity.
  - destruct (created_cat_inv _ _ _ _ _ _ W Hi H) as [E Hok].
    assert (TN : p_type p' =? PNUMERICAL = false) by (rewrite E; cbn [p_type]; now destruct K as [-> | [-> | ->]]).
    assert (V : p_values p' = map clean vals) by now rewrite E.
    unfold raw_ok, raw_value in *. rewrite TN, V in *. unfold lenZ in RO. rewrite map_length in RO.
    destruct Hok as (_ & _ & D & _). unfold idle. rewrite nth_clean by lia. rewrite Forall_forall in D.
    assert (LW : (Z.to_nat w < length vals)%nat) by lia. specialize (D (nth (Z.to_nat w) vals ccs_none) (nth_In _ _ LW)).
    destruct (d_val (nth (Z.to_nat w) vals ccs_none)); try reflexivity; contradiction.
  - now elim NS.
Qed.
Lemma created_member jen p w : created jen p -> p_type p <> PSTRING -> (member (p_interval p) w <-> raw_ok p w).
Proof.
  intros C NS. unfold raw_ok. destruct (p_type p =? PNUMERICAL) eqn:TN; [reflexivity|].
  destruct C as [nm t lo up q def p' _ _ _ _ _ H | t nm vals idx p' K _ W Hi H | nm _].
  - destruct (check_numerical jen _ _ _ _ _ _ _ H) as (T & -> & _). discriminate.
  - destruct (created_cat_inv _ _ _ _ _ _ W Hi H) as [E Hok]. rewrite E. cbn [p_interval p_values]. unfold lenZ. rewrite map_length.
    unfold member, above, below. cbn. lia.
  - now elim NS.
Qed.
Lemma oversampling_false a b : interval_ok a -> interval_ok b -> oversampling1 a b = Ok false -> forall v, member a v -> member b v.
Proof.
  intros (TA & IA & FA) (TB & IB & FB) H. destruct (Z.eq_dec (i_type a) (i_type b)) as [E|E]; [|rewrite oversampling_types in H by exact E; discriminate].
  destruct TA as [T|T].
  - destruct (oversampling_int a b T (eq_trans (eq_sym E) T) (IA T) (IB (eq_trans (eq_sym E) T))) as [(o & A & B & _)|[A _]]; [|congruence].
    rewrite A in H. injection H as ->. auto.
  - assert (T' : i_type b = NUM_FLOAT) by exact (eq_trans (eq_sym E) T). change (i_type a = NUM_FLOAT) in T. specialize (FA T). specialize (FB T').
    destruct (oversampling_float a b) as (o & A & B & _); [split; [right; exact T|rewrite T; exact FA]|split; [right; exact T'|rewrite T'; exact FB]|exact T|exact T'|].
    rewrite A in H. injection H as ->. auto.
Qed.
Lemma check_length : forall bounds intervals os, check_oversampling bounds intervals = Ok os -> length os = length bounds.
Proof.
  induction bounds as [|b bs IH]; intros [|i is] os H; cbn in H; try discriminate; try (injection H as <-; reflexivity).
  destruct (oversampling1 b i); [|discriminate..]. cbn in H. destruct (check_oversampling bs is) eqn:E; [|discriminate..]. cbn in H. injection H as <-. cbn. f_equal. eauto.
Qed.
Lemma clean_from_bounds jen : forall bounds ps overs cols, Forall interval_ok bounds -> Forall interval_ok (map p_interval ps) -> Forall (created jen) ps ->
  Forall (fun p => p_type p <> PSTRING) ps -> length bounds = length ps -> check_oversampling bounds (map p_interval ps) = Ok overs ->
  Forall2 (fun b l => Forall (member b) l) bounds cols -> clean_draw ps overs cols.
Proof.
  induction bounds as [|b bs IH]; intros [|p ps] overs cols OB OP C NS L H M; try discriminate; cbn in H.
  - injection H as <-. inversion M. constructor.
  - inversion OB; inversion OP; inversion C; inversion NS; inversion M; subst.
    destruct (oversampling1 b (p_interval p)) as [o|e|u] eqn:EO; [|discriminate..]. cbn in H.
    destruct (check_oversampling bs (map p_interval ps)) as [os|e|u] eqn:E; [|discriminate..]. cbn in H. injection H as <-.
    constructor.
    + intros ->. eapply Forall_impl; [|eassumption]. intros w W. apply (created_member jen p w); [assumption|assumption|]. apply (oversampling_false b (p_interval p)); assumption.
    + apply IH; auto.
Qed.

(** ** The function *)
Lemma parameters_samples_ok jen bounds ps draw n values keep :
  (0 < n)%nat -> bounds <> [] -> length bounds = length ps -> length values = (n * length ps)%nat ->
  Forall interval_ok bounds -> Forall interval_ok (map p_interval ps) -> Forall (created jen) ps -> Forall (fun p => p_type p <> PSTRING) ps ->
  columns_drawn (length ps) draw -> within_bounds bounds draw -> (forall row, keep row = true <-> row_ok ps row) ->
  parameters_samples bounds ps draw n values =
  do overs <- check_oversampling bounds (map p_interval ps);
  do rows <- sampled keep (fun k c => do cols <- draw k c; Ok (rows_of c cols)) n (existsb (fun o => o) overs);
  Ok (concat (map (row_values ps) rows)).
Proof.
  intros N NE LB LV OB OP C NS DC WB KP. unfold parameters_samples. destruct (Nat.eqb_spec n 0); [lia|].
  assert (GEN : forall overs, check_oversampling bounds (map p_interval ps) = Ok overs ->
    rows_samples ps overs draw n values = do rows <- sampled keep (row_draw draw) n (existsb (fun o => o) overs); Ok (concat (map (row_values ps) rows))).
  { intros overs E. apply rows_samples_ok; auto.
    - rewrite Forall_forall in *. intros p P. apply (created_samplable jen p); auto.
    - intros k c cols D. eapply (clean_from_bounds jen bounds); eauto.
    - rewrite <- LB. eapply check_length; eauto. }
  destruct bounds as [|b [|b' bs]]; [congruence| |].
  2:{ destruct ps as [|p ps]; [discriminate|]. destruct (check_oversampling (b :: b' :: bs) (map p_interval (p :: ps))) as [overs|e|u] eqn:E; [|reflexivity..]. cbn [bind]. apply GEN. reflexivity. }
  destruct ps as [|p [|p' ps]]; try discriminate. clear GEN. inversion C as [|? ? Cp _]; subst. inversion NS as [|? ? NSp _]; subst.
  destruct (Z.eqb_spec (p_type p) PSTRING); [contradiction|]. cbn [map check_oversampling].
  destruct (oversampling1 b (p_interval p)) as [over|e|u] eqn:EO; [|reflexivity..]. cbn [bind existsb]. rewrite orb_false_r.
  set (d1 := fun k c : nat => do cols <- draw k c; Ok (nth 0 cols [])).
  assert (COLS : forall k c cols, draw k c = Ok cols -> exists l, cols = [l] /\ length l = c /\ Forall (member b) l).
  { intros k c cols D. destruct (DC _ _ _ D) as [A B]. pose proof (WB _ _ _ D) as W. destruct cols as [|l [|]]; try discriminate. inversion B; inversion W; subst. eauto. }
  rewrite (samples_spec p over d1 n _ (keep1 p)); auto.
  - rewrite (sampled_single (keep1 p) keep d1 _ n over).
    + destruct (sampled (keep1 p) d1 n over) as [l|e|u]; [|reflexivity..]. cbn [bind]. f_equal. rewrite map_map. unfold row_values. cbn. induction l; cbn; congruence.
    + intro w. apply (bool_iff_eq _ _ (raw_ok p w)); [|apply keep1_ok]. rewrite KP. unfold row_ok. split; [intro H; now inversion H|intro; constructor; [auto|constructor]].
    + intros k c. unfold d1. destruct (draw k c) as [cols|e|u] eqn:D; [|reflexivity..]. cbn [bind]. destruct (COLS _ _ _ D) as (l & -> & <- & _). cbn [nth]. f_equal.
      unfold rows_of. cbn [map]. apply map_seq_nth.
  - rewrite flat_map_concat_map, (concat_len _ 2), map_length, LV; [cbn [length]; lia|]. apply Forall_map, Forall_forall. reflexivity.
  - intros k c l H. unfold d1 in H. destruct (draw k c) as [cols|e|u] eqn:D; [|discriminate..]. cbn in H. destruct (COLS _ _ _ D) as (l' & -> & L & _). injection H as <-. exact L.
  - eapply created_interval; eauto.
  - apply keep1_ok.
  - intros -> TN l H. unfold d1 in H. destruct (draw 0%nat n) as [cols|e|u] eqn:D; [|discriminate..]. cbn in H. destruct (COLS _ _ _ D) as (l' & -> & L & M). injection H as <-. cbn.
    inversion OB; inversion OP; subst. eapply Forall_impl; [|exact M]. intros w W. apply (created_member jen p w); [assumption|assumption|]. apply (oversampling_false b (p_interval p)); assumption.
Qed.

Lemma string_columns : forall ps overs cols p l, In p ps -> p_type p = PSTRING -> length overs = length ps -> length cols = length ps ->
  Forall (fun c => c <> []) cols -> convert_columns ps overs cols <> Ok l.
Proof.
  induction ps as [|q ps IH]; intros [|o os] [|c cs] p l I T LO LC NE; try destruct I; try discriminate; cbn [convert_columns]; inversion NE; subst.
  - destruct c as [|v c]; [congruence|]. cbn [convert_column]. unfold convert_sample. rewrite T. change (PSTRING =? PNUMERICAL) with false. change (PSTRING =? PSTRING) with true. discriminate.
  - destruct (convert_column q o c); [|discriminate..]. cbn [bind]. destruct (convert_columns ps os cs) eqn:E; [|discriminate..]. exfalso.
    eapply (IH os cs p); eauto; cbn in *; lia.
Qed.
Lemma no_strings jen bounds ps draw n values l : (0 < n)%nat -> length bounds = length ps -> columns_drawn (length ps) draw ->
  parameters_samples bounds ps draw n values = Ok l -> Forall (created jen) ps -> Forall (fun p => p_type p <> PSTRING) ps.
Proof.
  intros N LB DC H C. apply Forall_forall. intros p I T. unfold parameters_samples in H. destruct (Nat.eqb_spec n 0); [lia|].
  assert (G : forall overs, length overs = length ps -> rows_samples ps overs draw n values <> Ok l).
  { intros overs LO. unfold rows_samples. destruct (draw 0%nat n) as [cols|e|u] eqn:D; [|discriminate..]. cbn [bind]. destruct (DC _ _ _ D) as [LC FC].
    destruct (convert_columns ps overs cols) as [ds|e|u] eqn:E; [|discriminate..]. exfalso. eapply string_columns; eauto.
    eapply Forall_impl; [|exact FC]. intros [|] L; [cbn in L; lia|discriminate]. }
  destruct bounds as [|b [|b' bs]]; destruct ps as [|q ps]; try discriminate; try contradiction.
  - destruct ps; [|discriminate]. destruct I as [->|[]]. rewrite T in H. discriminate.
  - destruct (check_oversampling _ _) as [overs|e|u] eqn:E; [|discriminate..]. cbn [bind] in H. apply (G overs); [|exact H]. rewrite <- LB. eapply check_length; eauto.
Qed.
Lemma in_domain_rows jen ps : forall rows, Forall (row_ok ps) rows -> Forall (created jen) ps -> Forall (fun p => p_type p <> PSTRING) ps ->
  length (concat (map (row_values ps) rows)) = (length rows * length ps)%nat /\
  forall j i p, (j < length rows)%nat -> nth_error ps i = Some p ->
    exists d, nth_error (concat (map (row_values ps) rows)) (j * length ps + i) = Some d /\ check_value jen p d = true.
Proof.
  intros rows F C NS.
  assert (ROW : forall row, row_ok ps row -> length (row_values ps row) = length ps /\ forall i p, nth_error ps i = Some p -> exists d, nth_error (row_values ps row) i = Some d /\ check_value jen p d = true).
  { intros row R. unfold row_values. clear F. induction R as [|p w ps' row' RO R IH]; [split; [reflexivity|intros [|]; discriminate]|].
    inversion C; inversion NS; subst. destruct IH as [L G]; auto. cbn. split; [lia|]. intros [|i] q E; cbn in E.
    - injection E as <-. exists (raw_value p w). split; [reflexivity|]. now apply raw_value_checked.
    - apply G. exact E. }
  induction F as [|row rows R F IH]; [split; [reflexivity|cbn; lia]|]. destruct IH as [L G]. destruct (ROW row R) as [L1 G1].
  cbn [map concat length]. rewrite app_length. split; [lia|]. intros [|j] i p J E.
  - destruct (G1 i p E) as (d & A & B). exists d. split; [|exact B]. rewrite nth_error_app1; [exact A|]. apply nth_error_Some. cbn. congruence.
  - destruct (G j i p ltac:(lia) E) as (d & A & B). exists d. split; [|exact B]. rewrite nth_error_app2 by lia. rewrite <- A. f_equal. lia.
Qed.
Lemma parameters_samples_valid jen bounds ps draw n values l :
  (0 < n)%nat -> bounds <> [] -> length bounds = length ps -> length values = (n * length ps)%nat ->
  Forall interval_ok bounds -> Forall interval_ok (map p_interval ps) -> Forall (created jen) ps ->
  columns_drawn (length ps) draw -> within_bounds bounds draw ->
  parameters_samples bounds ps draw n values = Ok l ->
  length l = (n * length ps)%nat /\
  forall j i p, (j < n)%nat -> nth_error ps i = Some p -> exists d, nth_error l (j * length ps + i) = Some d /\ check_value jen p d = true.
Proof.
  intros N NE LB LV OB OP C DC WB H. pose proof (no_strings jen bounds ps draw n values l N LB DC H C) as NS.
  set (keep := fun row => (length row =? length ps)%nat && forallb (fun x => keep1 (fst x) (snd x)) (combine ps row)).
  assert (KP : forall row, keep row = true <-> row_ok ps row).
  { intro row. unfold keep, row_ok. rewrite andb_true_iff, Nat.eqb_eq. clear. revert row. induction ps as [|p ps IH]; intros [|w row]; cbn.
    - split; [constructor|auto].
    - split; [intros [X _]; discriminate|intro X; inversion X].
    - split; [intros [X _]; discriminate|intro X; inversion X].
    - rewrite andb_true_iff, keep1_ok. split; [intros (A & B & D); constructor; [exact B|]; apply IH; auto|].
      intro X. inversion X as [|? ? ? ? X1 X2]; subst. apply IH in X2. destruct X2. repeat split; auto. }
  rewrite (parameters_samples_ok jen bounds ps draw n values keep) in H by assumption.
  destruct (check_oversampling bounds (map p_interval ps)) as [overs|e|u] eqn:EO; [|discriminate..]. cbn [bind] in H.
  destruct (sampled keep (fun k c => do cols <- draw k c; Ok (rows_of c cols)) n (existsb (fun o => o) overs)) as [rows|e|u] eqn:ES; [|discriminate..].
  cbn [bind] in H. injection H as <-.
  assert (G : length rows = n /\ Forall (row_ok ps) rows).
  { unfold sampled in ES. destruct (draw 0%nat n) as [cols|e|u] eqn:D; [|discriminate..]. cbn [bind] in ES. destruct (DC _ _ _ D) as [LC FC].
    destruct (existsb (fun o => o) overs) eqn:EX.
    - split; [eapply collect_length; eauto|].
      assert (F0 : Forall (fun w => keep w = true) (filter keep (rows_of n cols))) by (apply Forall_forall; intros w Hw; now apply filter_In in Hw).
      pose proof (collect_keep _ _ _ _ _ _ _ F0 ES) as F. eapply Forall_impl; [|exact F]. intro row. apply KP.
    - injection ES as <-. split; [apply rows_length|]. apply Forall_forall. intros row I. apply in_map_iff in I. destruct I as (j & <- & J). apply in_seq in J.
      pose proof (clean_from_bounds jen bounds ps overs cols OB OP C NS LB EO (WB _ _ _ D)) as CL. clear - CL EX J FC.
      induction CL as [|p o c ps os cs O CL IH]; [constructor|]. cbn [existsb] in EX. apply orb_false_iff in EX. destruct EX as [-> EX]. inversion FC; subst. cbn [map]. constructor.
      + specialize (O eq_refl). rewrite Forall_forall in O. apply O, nth_In. lia.
      + apply IH; auto. }
  destruct G as [LR FR]. destruct (in_domain_rows jen ps rows FR C NS) as [A B]. rewrite LR in *. split; [exact A|exact B].
Qed.
