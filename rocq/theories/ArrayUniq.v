(** Growable arrays: sorting, and removing the repeated sizes. *)
From Coq Require Import ZArith List Bool Permutation Sorted Lia.
From Verif Require Import Base ArrayModel ArraySpec ArrayProofs ArraySteps.
Import ListNotations.
Open Scope Z_scope.

Lemma sort_ok : forall vs st a v ord, inv vs st -> vs a = Some v ->
  Permutation (v_elems v) ord -> v_room v <> 0 ->
  exists st', array_sort st a ord = Ok st' /\ inv (put vs a (Some (elements v ord))) st'.
Proof.
  intros vs st a v ord I V P R. unfold array_sort. rewrite (get_ok vs st a v I V). cbn [bind].
  pose proof (i_good _ _ I a v V) as G.
  assert (NZ : v_base v <> 0) by (intros E; apply (g_null _ _ G) in E; contradiction).
  destruct (g_mem _ _ G NZ) as (rest & M & L).
  assert (FO : Forall (fun e => lenZ e = v_sz v) ord).
  { apply Forall_forall. intros x X. pose proof (g_all _ _ G) as F. rewrite Forall_forall in F.
    apply F. apply (Permutation_in _ (Permutation_sym P) X). }
  assert (LO : lenZ ord = lenZ (v_elems v)) by (unfold lenZ; now rewrite (Permutation_length P)).
  pose proof (concat_len _ _ FO) as CO. pose proof (concat_len _ _ (g_all _ _ G)) as CV.
  assert (EL : length (concat ord) = length (concat (v_elems v))) by (unfold lenZ in *; nia).
  assert (SL : slot (held v) 0 = Some (v_base v, 0)).
  { unfold slot, held. cbn [a_d a_sz]. destruct (Z.eqb_spec (v_base v) 0); [contradiction|].
    rewrite Z.mul_0_r. reflexivity. }
  rewrite SL.
  rewrite (load_app st (v_base v) [] (concat (v_elems v)) rest); [|exact M|reflexivity|].
  2:{ unfold held. cbn [a_i a_sz]. rewrite CV. lia. }
  cbn [bind].
  rewrite (store_app st (v_base v) [] (concat (v_elems v)) rest); [|exact M|reflexivity|exact EL].
  eexists. split; [reflexivity|].
  apply (inv_same vs st _ a v _ I V); cbn [arrs mem elements v_base].
  - reflexivity.
  - rewrite (i_arr _ _ I a v V). unfold held. cbn. now rewrite LO.
  - destruct G as [A B C D F H]. constructor; cbn [elements v_sz v_elems v_base v_room v_slots mem]; try assumption.
    + rewrite LO. exact C.
    + intros _. exists rest. rewrite put_same. split; [reflexivity|].
      rewrite <- L. unfold lenZ. cbn [Datatypes.app]. rewrite !app_length. lia.
  - reflexivity.
  - intros b NB. now apply put_other.
Qed.

(** The numbers of the elements *)
Lemma word_ok : forall e, Forall (fun c => exists b, c = Some b /\ 0 <= b < 256) e ->
  word e = Ok (number e).
Proof.
  induction e as [|c e IH]; intros F; [reflexivity|].
  inversion F as [|x y (b & -> & B) H2]; subst. cbn [word]. rewrite (IH H2). reflexivity.
Qed.

Lemma number_inj : forall e f, length e = length f ->
  Forall (fun c => exists b, c = Some b /\ 0 <= b < 256) e ->
  Forall (fun c => exists b, c = Some b /\ 0 <= b < 256) f ->
  number e = number f -> e = f.
Proof.
  induction e as [|c e IH]; intros [|d f] L FE FF N; try discriminate; [reflexivity|].
  inversion FE as [|x y (b & -> & B) H2]; subst. inversion FF as [|x y (b' & -> & B') H2']; subst.
  unfold number in N. cbn [fold_right] in N. fold (number e) in N. fold (number f) in N.
  assert (number e = number f /\ b = b') by lia. destruct H as (H & ->).
  f_equal. apply IH; [now injection L|assumption|assumption|exact H].
Qed.

Lemma size_inj : forall e f, is_size e -> is_size f -> number e = number f -> e = f.
Proof. intros e f (L & F) (L' & F') N. apply number_inj; [exact (eq_trans L (eq_sym L'))|assumption|assumption|exact N]. Qed.

Definition below (x y : list cell) : Prop := number x < number y.
Definition upto (x y : list cell) : Prop := number x <= number y.

Lemma sorted_snoc : forall D d x, StronglySorted below (D ++ [d]) -> below d x ->
  StronglySorted below ((D ++ [d]) ++ [x]).
Proof.
  induction D as [|c D IH]; intros d x S0 B; cbn [Datatypes.app] in *.
  - constructor; [constructor; constructor|]. constructor; [exact B|constructor].
  - inversion S0 as [|u w S1 F1]; subst. constructor; [now apply IH|].
    apply Forall_app. split; [exact F1|]. constructor; [|constructor].
    apply Forall_app in F1. destruct F1 as (_ & F1). inversion F1; subst.
    unfold below in *. lia.
Qed.

(** [D ++ [d]] are kept, [mid] has been passed, [R] is to come *)
Lemma uniq_loop_ok : forall R fuel vs st a v D d mid,
  inv vs st -> vs a = Some v -> v_sz v = 8 -> Forall is_size (v_elems v) ->
  v_elems v = (D ++ [d]) ++ mid ++ R ->
  StronglySorted below (D ++ [d]) -> StronglySorted upto (d :: R) ->
  (length R < fuel)%nat ->
  exists D' tail st',
    uniq_loop fuel st a (place v (length D + length mid)) (place v (length D))
      (Z.of_nat (length D + 1)) = Ok (lenZ D', st')
    /\ inv (put vs a (Some (elements v (D' ++ tail)))) st'
    /\ length (D' ++ tail) = length (v_elems v)
    /\ StronglySorted below D'
    /\ (forall e, In e D' <-> In e (D ++ [d]) \/ In e R)
    /\ Forall is_size (D' ++ tail).
Proof.
  induction R as [|x R IH]; intros fuel vs st a v D d mid I V SZ FS E SD SR FU;
    (destruct fuel as [|fuel]; [lia|]); cbn [uniq_loop].
  - rewrite (next_ok vs st a v _ I V)
      by (rewrite E, app_nil_r, !app_length; cbn [length]; lia). cbn [bind].
    replace (length D + length mid + 1 <? length (v_elems v))%nat with false
      by (symmetry; apply Nat.ltb_ge; rewrite E, app_nil_r, !app_length; cbn [length]; lia).
    exists (D ++ [d]), mid, st. rewrite app_nil_r in E. rewrite <- E. split.
    { unfold lenZ. rewrite app_length. reflexivity. }
    split.
    { apply (inv_ext vs); [|exact I]. intros b. unfold put. destruct (Z.eqb_spec b a) as [->|]; [|reflexivity].
      rewrite V. destruct v; reflexivity. }
    split; [reflexivity|]. split; [exact SD|]. split; [|exact FS]. intros e. cbn [In]. tauto.
  - set (i := (length D + length mid)%nat).
    assert (LEN : length (v_elems v) = (i + 2 + length R)%nat).
    { rewrite E, !app_length. cbn [length]. unfold i. lia. }
    rewrite (next_ok vs st a v i I V) by lia. cbn [bind].
    replace (i + 1 <? length (v_elems v))%nat with true by (symmetry; apply Nat.ltb_lt; lia).
    assert (EX : v_elems v = (D ++ [d] ++ mid) ++ x :: R) by (rewrite E, <- !app_assoc; reflexivity).
    assert (LX : length (D ++ [d] ++ mid) = (i + 1)%nat).
    { rewrite !app_length. cbn [length]. unfold i. lia. }
    assert (ED : v_elems v = D ++ d :: mid ++ x :: R) by (rewrite E, <- !app_assoc; reflexivity).
    pose proof (i_good _ _ I a v V) as G.
    pose proof (load_elem st v _ x R G EX) as LDX. rewrite LX, SZ in LDX.
    pose proof (load_elem st v _ d _ G ED) as LDD. rewrite SZ in LDD.
    assert (SX : is_size x) by (rewrite Forall_forall in FS; apply FS; rewrite EX; apply in_elt).
    assert (SDD : is_size d) by (rewrite Forall_forall in FS; apply FS; rewrite ED; apply in_elt).
    unfold load_size. unfold place at 1. fold (place v (i + 1)).
    rewrite LDX. cbn [bind]. rewrite (word_ok x (proj2 SX)). cbn [bind].
    rewrite LDD. cbn [bind]. rewrite (word_ok d (proj2 SDD)). cbn [bind].
    inversion SR as [|u w SR1 FR]; subst.
    inversion FR as [|u w UX FR']; subst.
    inversion SR1 as [|u w SR2 FX]; subst.
    destruct (Z.eqb_spec (number x) (number d)) as [EQ|NE].
    + assert (x = d) by (apply size_inj; assumption). subst x.
      destruct (IH fuel vs st a v D d (mid ++ [d]) I V SZ FS) as (D' & tail & st' & H1 & H2 & H3 & H4 & H5 & H6).
      * rewrite E, <- !app_assoc. reflexivity.
      * exact SD.
      * exact SR1.
      * cbn [length] in FU. lia.
      * exists D', tail, st'.
        replace (length D + length (mid ++ [d]))%nat with (i + 1)%nat in H1
          by (rewrite app_length; cbn [length]; unfold i; lia).
        split; [exact H1|]. split; [exact H2|]. split; [exact H3|]. split; [exact H4|]. split; [|exact H6].
        intros e. rewrite H5. cbn [In]. rewrite in_app_iff. cbn [In]. tauto.
    + rewrite (next_ok vs st a v (length D) I V) by lia. cbn [bind].
      replace (length D + 1 <? length (v_elems v))%nat with true
        by (symmetry; apply Nat.ltb_lt; lia).
      assert (BX : below d x) by (unfold below, upto in *; lia).
      assert (SR' : StronglySorted upto (x :: R)) by (constructor; assumption).
      assert (exists y m, mid ++ x :: R = y :: m ++ R /\ length m = length mid
                /\ Forall is_size (x :: m)) as (y & m & EM & LM & FM).
      { destruct mid as [|y mid].
        - exists x, []. split; [reflexivity|]. split; [reflexivity|]. constructor; [exact SX|constructor].
        - exists y, (mid ++ [x]). rewrite <- app_assoc. split; [reflexivity|].
          split; [rewrite app_length; cbn [length]; lia|].
          constructor; [exact SX|]. apply Forall_app. split; [|constructor; [exact SX|constructor]].
          rewrite E in FS. apply Forall_app in FS. destruct FS as (_ & FS). cbn [Datatypes.app] in FS.
          inversion FS as [|u w A B]; subst. apply Forall_app in B. tauto. }
      rewrite EM in E.
      destruct (store_elem st v (D ++ [d]) y (m ++ R) x G) as (st1 & W1 & W2 & W3 & W4).
      { exact E. }
      { unfold lenZ. rewrite (proj1 SX), SZ. reflexivity. }
      replace (length (D ++ [d])) with (length D + 1)%nat in W1
        by (rewrite app_length; reflexivity).
      rewrite W1. cbn [bind].
      set (v1 := elements v ((D ++ [d]) ++ x :: m ++ R)) in *.
      assert (L1 : length (v_elems v1) = length (v_elems v)).
      { unfold v1, elements. cbn [v_elems]. rewrite E, !app_length. cbn [length]. rewrite ?app_length. reflexivity. }
      assert (I1 : inv (put vs a (Some v1)) st1).
      { apply (inv_same vs st _ a v _ I V).
        - intros b NB. now rewrite W2.
        - rewrite W2, (i_arr _ _ I a v V). unfold held, lenZ. rewrite L1. reflexivity.
        - exact W3.
        - reflexivity.
        - exact W4. }
      destruct (IH fuel (put vs a (Some v1)) st1 a v1 (D ++ [d]) x m I1 (put_same _ _ _ _) SZ)
        as (D' & tail & st' & H1 & H2 & H3 & H4 & H5 & H6).
      * unfold v1, elements. cbn [v_elems]. rewrite E in FS.
        apply Forall_app in FS. destruct FS as (FS1 & FS2). apply Forall_app. split; [exact FS1|].
        inversion FS2 as [|u w A B]; subst. apply Forall_app in B.
        inversion FM; subst. constructor; [assumption|]. apply Forall_app. tauto.
      * unfold v1, elements. cbn [v_elems]. rewrite <- (app_assoc (D ++ [d]) [x]). reflexivity.
      * now apply sorted_snoc.
      * exact SR'.
      * cbn [length] in FU. lia.
      * exists D', tail, st'.
        pose proof (slots_small _ _ G) as SS. unfold lenZ in SS.
        rewrite app_length in H1. cbn [length] in H1.
        change (place v1) with (place v) in H1.
        replace (length D + 1 + length m)%nat with (i + 1)%nat in H1 by (unfold i; lia).
        split.
        { rewrite u64_id by lia.
          replace (Z.of_nat (length D + 1) + 1) with (Z.of_nat (length D + 1 + 1)) by lia. exact H1. }
        split; [refine (inv_ext _ _ st' _ H2); intros b; symmetry; apply put_put|].
        split; [rewrite H3; exact L1|]. split; [exact H4|]. split; [|exact H6].
        intros e. rewrite H5, in_app_iff. cbn [In]. tauto.
Qed.

Lemma uniq_ok : forall vs st a v ord ans fuel, inv vs st -> vs a = Some v -> v_sz v = 8 ->
  Forall is_size (v_elems v) -> Permutation (v_elems v) ord -> StronglySorted upto ord ->
  (length (v_elems v) < fuel)%nat ->
  exists l st', array_uniq fuel st a ord ans = Ok (false, st')
    /\ inv (put vs a (Some (elements v l))) st'
    /\ StronglySorted below l /\ (forall e, In e l <-> In e (v_elems v)).
Proof.
  intros vs st a v ord ans fuel I V SZ FS P SO FU. unfold array_uniq, array_len.
  rewrite (get_ok vs st a v I V). cbn [bind]. rewrite held_inj_len.
  destruct (Z.eqb_spec (lenZ (v_elems v)) 0) as [E0|N0].
  - assert (E : v_elems v = []) by (destruct (v_elems v); [reflexivity|unfold lenZ in E0; cbn [length] in E0; lia]).
    exists [], st. split; [reflexivity|]. split.
    { apply (inv_ext vs); [|exact I]. intros b. unfold put. destruct (Z.eqb_spec b a) as [->|]; [|reflexivity].
      rewrite V, <- E. destruct v; reflexivity. }
    split; [constructor|]. rewrite E. tauto.
  - pose proof (i_good _ _ I a v V) as G. pose proof (g_room _ _ G) as RR.
    pose proof (lenZ_nonneg _ (v_elems v)) as L0.
    destruct (sort_ok vs st a v ord I V P ltac:(lia)) as (st1 & S1 & I1). rewrite S1. cbn [bind].
    set (v1 := elements v ord) in *.
    rewrite (front_ok _ st1 a v1 I1 (put_same _ _ _ _)).
    destruct ord as [|d R].
    { apply Permutation_length in P. unfold lenZ in N0. rewrite P in N0. cbn in N0. lia. }
    cbn [v1 elements v_elems bind].
    assert (FO : Forall is_size (d :: R)).
    { apply Forall_forall. intros x X. rewrite Forall_forall in FS. apply FS.
      apply (Permutation_in _ (Permutation_sym P) X). }
    destruct (uniq_loop_ok R fuel (put vs a (Some v1)) st1 a v1 [] d [] I1 (put_same _ _ _ _) SZ)
      as (D' & tail & st2 & H1 & H2 & H3 & H4 & H5 & H6).
    + exact FO.
    + reflexivity.
    + constructor; constructor.
    + exact SO.
    + apply Permutation_length in P. cbn [length] in P. lia.
    + cbn [length Nat.add] in H1. change (Z.of_nat 1) with 1 in H1. fold v1.
      rewrite H1. cbn [bind].
      set (v2 := elements v1 (D' ++ tail)) in *.
      assert (I2 : inv (put vs a (Some v2)) st2)
        by (refine (inv_ext _ _ st2 _ H2); intros b; symmetry; apply put_put).
      pose proof (slots_small _ _ (i_good _ _ I2 a v2 (put_same _ _ _ _))) as SS2.
      assert (LD : lenZ D' <= lenZ (v_elems v2)).
      { unfold v2, elements, lenZ. cbn [v_elems]. rewrite app_length. lia. }
      pose proof (lenZ_nonneg _ D') as LD0.
      unfold array_resize. rewrite (get_ok _ st2 a v2 I2 (put_same _ _ _ _)). cbn [bind].
      rewrite held_inj_len. rewrite u32_id by lia.
      destruct (Z.ltb_spec (lenZ (v_elems v2)) (lenZ D')); [lia|]. cbn [bind].
      rewrite (get_ok _ st2 a v2 I2 (put_same _ _ _ _)). cbn [bind].
      exists D'. eexists. split; [reflexivity|]. split.
      * pose proof (inv_prefix _ st2 a v2 D' tail I2 (put_same _ _ _ _) eq_refl) as IP.
        refine (inv_ext _ _ _ _ IP). intros b. symmetry. apply put_put.
      * split; [exact H4|]. intros e. rewrite H5. cbn [Datatypes.app In].
        split.
        -- intros [[->|[]]|X]; apply (Permutation_in _ (Permutation_sym P)); [now left|now right].
        -- intros X. apply (Permutation_in _ P) in X. cbn [In] in X. tauto.
Qed.
