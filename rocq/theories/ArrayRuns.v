(** Growable arrays: applications. *)
From Coq Require Import ZArith List Bool Permutation Sorted Lia.
From Verif Require Import Base ArrayModel ArraySpec ArrayProofs ArraySteps ArrayUniq.
Import ListNotations.
Open Scope Z_scope.

(** No array has more than [N] elements *)
Definition small (N : Z) (vs : views) : Prop :=
  forall a v, vs a = Some v -> lenZ (v_elems v) <= N.

Lemma small_put : forall N vs a o, small N vs ->
  (forall v, o = Some v -> lenZ (v_elems v) <= N) -> small N (put vs a o).
Proof.
  intros N vs a o S0 H b w W. unfold put in W. destruct (b =? a); [now apply H|now apply (S0 b)].
Qed.

Lemma sorted_nodup : forall l, StronglySorted below l -> NoDup l.
Proof.
  induction l as [|x l IH]; intros S0; [constructor|].
  inversion S0 as [|u w S1 F1]; subst. constructor; [|now apply IH].
  intros H. rewrite Forall_forall in F1. specialize (F1 x H). unfold below in F1. lia.
Qed.

Lemma does_small : forall N vs o x vs', 0 <= N -> may N vs o -> does vs o x vs' ->
  small N vs -> small N vs'.
Proof.
  intros N vs o x vs' N0 M D S0. destruct D; try exact S0; apply small_put; try exact S0;
    intros w W; try discriminate W; injection W as <-; cbn [elements v_elems].
  - cbn. lia.
  - destruct M as (v0 & V0 & _ & L & _). assert (v0 = v) by congruence. subst.
    unfold lenZ in *. rewrite app_length. cbn [length]. lia.
  - destruct M as (v0 & V0 & _ & L & _). assert (v0 = v) by congruence. subst.
    unfold lenZ in *. rewrite app_length. cbn [length]. lia.
  - now apply (S0 a).
  - specialize (S0 a v H). rewrite H0 in S0. unfold lenZ in *. rewrite app_length in S0. lia.
  - cbn. lia.
  - specialize (S0 a v H). unfold lenZ in *. rewrite firstn_length. lia.
  - destruct M as (v0 & V0 & L & _). unfold lenZ in *. rewrite app_length, repeat_length. lia.
  - destruct M as (v0 & V0 & L & _). assert (v0 = v) by congruence. subst.
    specialize (S0 a v H). unfold lenZ in *. rewrite app_length, repeat_length. lia.
  - now apply (S0 a).
  - destruct M as (v0 & V0 & P & _). assert (v0 = v) by congruence. subst.
    specialize (S0 a v H). unfold lenZ in *. now rewrite <- (Permutation_length P).
  - specialize (S0 a v H). unfold lenZ in *.
    assert (length l <= length (v_elems v))%nat; [|lia].
    apply NoDup_incl_length; [now apply sorted_nodup|]. intros e. apply H1.
  - specialize (S0 a v H). rewrite H0 in S0. unfold lenZ in *. rewrite app_length in *. exact S0.
Qed.

Lemma step_ok : forall N vs st o fuel, N <= 2 ^ 31 -> N < Z.of_nat fuel ->
  inv vs st -> small N vs -> may N vs o ->
  exists x st' vs', do_op fuel st o = Ok (x, st') /\ does vs o x vs' /\ inv vs' st'.
Proof.
  intros N vs st o fuel NB FB I SM M. destruct o; cbn [may] in M; cbn [do_op].
  - destruct M as (SZ & FR). unfold array_new. destruct (Z.eqb_spec ans 0) as [->|NZ].
    + exists (Did true), st, vs. split; [reflexivity|]. split; [constructor|exact I].
    + exists (Did false). eexists. eexists. split; [reflexivity|]. split; [now constructor|].
      specialize (FR NZ). constructor.
      * intros a A. unfold put in A. cbn [set arrs]. unfold put.
        destruct (a =? ans); [discriminate|now apply (i_none _ _ I)].
      * intros a v A. unfold put in A. cbn [set arrs]. unfold put.
        destruct (a =? ans); [injection A as <-; reflexivity|now apply (i_arr _ _ I)].
      * intros a v A. unfold put in A. destruct (a =? ans).
        -- injection A as <-. constructor; cbn [v_sz v_elems v_base v_room v_slots]; try lia.
           ++ constructor.
           ++ unfold lenZ. cbn. lia.
           ++ left. reflexivity.
        -- apply (good_frame st); [reflexivity|now apply (i_good _ _ I a)].
      * intros a b v w A B E NB0. unfold put in A, B.
        destruct (Z.eqb_spec a ans); destruct (Z.eqb_spec b ans); [congruence| | |].
        -- injection A as <-. cbn in NB0. congruence.
        -- injection B as <-. cbn in E. congruence.
        -- exact (i_apart _ _ I a b v w A B E NB0).
  - destruct M as (v & V). unfold array_free. rewrite (get_ok vs st a v I V). cbn [bind].
    eexists. eexists. eexists. split; [reflexivity|]. split; [constructor|].
    assert (KEEP : forall b w, vs b = Some w -> b <> a -> v_base w <> 0 ->
       (if a_n (held v) =? 0 then mem st
        else if a_d (held v) =? 0 then mem st else put (mem st) (a_d (held v)) None) (v_base w)
       = mem st (v_base w)).
    { intros b w W NB0 NW. destruct (a_n (held v) =? 0); [reflexivity|].
      destruct (a_d (held v) =? 0); [reflexivity|]. apply put_other. unfold held. cbn [a_d].
      intros E. apply NB0. exact (i_apart _ _ I b a w v W V E NW). }
    constructor.
    + intros b B. unfold put in B. cbn [arrs]. unfold put.
      destruct (b =? a); [reflexivity|now apply (i_none _ _ I)].
    + intros b w B. unfold put in B. cbn [arrs]. unfold put.
      destruct (b =? a); [discriminate|now apply (i_arr _ _ I)].
    + intros b w B. unfold put in B. destruct (Z.eqb_spec b a); [discriminate|].
      apply (good_frame st); [|now apply (i_good _ _ I b)].
      intros NW. cbn [mem]. now apply (KEEP b w).
    + intros b c w w' B C E NW. unfold put in B, C.
      destruct (b =? a); [discriminate|]. destruct (c =? a); [discriminate|].
      exact (i_apart _ _ I b c w w' B C E NW).
  - destruct M as (w & V & LE & L & HR & UN).
    destruct (push_ok vs st a w v ans I V LE) as (oom & st' & vs' & P & D & I');
      [lia|exact HR|exact UN|].
    rewrite P. cbn [bind]. exists (Did oom), st', vs'. split; [reflexivity|]. split; assumption.
  - destruct M as (v & V & NN). unfold pop_back. rewrite (get_ok vs st a v I V). cbn [bind].
    destruct (exists_last NN) as (l & e & E).
    eexists. eexists. eexists. split; [reflexivity|]. split; [exact (does_pop vs a v l e V E)|].
    rewrite held_inj_len. pose proof (slots_small _ _ (i_good _ _ I a v V)) as SS.
    assert (L : lenZ (v_elems v) - 1 = lenZ l).
    { unfold lenZ. rewrite E, app_length. cbn [length]. lia. }
    pose proof (lenZ_nonneg _ l).
    rewrite u32_id by lia. rewrite L. exact (inv_prefix vs st a v l [e] I V E).
  - destruct M as (v & V). unfold array_clear. rewrite (get_ok vs st a v I V). cbn [bind].
    rewrite held_inj_len. pose proof (lenZ_nonneg _ (v_elems v)).
    destruct (Z.gtb_spec (lenZ (v_elems v)) 0).
    + eexists. eexists. eexists. split; [reflexivity|]. split; [exact (does_clear vs a v V)|].
      exact (inv_prefix vs st a v [] (v_elems v) I V eq_refl).
    + assert (E : v_elems v = []).
      { destruct (v_elems v) as [|x l]; [reflexivity|]. unfold lenZ in *. cbn [length] in *. lia. }
      eexists. eexists. eexists. split; [reflexivity|]. split; [exact (does_clear vs a v V)|].
      apply (inv_ext vs); [|exact I]. intros b. unfold put. destruct (Z.eqb_spec b a) as [->|]; [|reflexivity].
      rewrite V, <- E. destruct v; reflexivity.
  - destruct M as (v & V & L & HR & UN).
    destruct (resize_ok vs st a v num ans I V) as (oom & st' & vs' & P & D & I');
      [lia|exact HR|exact UN|].
    rewrite P. cbn [bind]. exists (Did oom), st', vs'. split; [reflexivity|]. split; assumption.
  - destruct M as (v & V & P & R).
    destruct (sort_ok vs st a v ord I V P R) as (st' & E & I'). rewrite E. cbn [bind].
    eexists. eexists. eexists. split; [reflexivity|]. split; [exact (does_sort vs a v ord V)|exact I'].
  - destruct M as (v & V & SZ & FS & P & SO). pose proof (SM a v V) as L.
    destruct (uniq_ok vs st a v ord ans fuel I V SZ FS P SO) as (l & st' & E & I' & S1 & S2).
    { unfold lenZ in L. lia. }
    rewrite E. cbn [bind].
    eexists. eexists. eexists. split; [reflexivity|]. split; [|exact I'].
    exact (does_uniq vs a v ord ans l V S1 S2).
  - destruct M as (v & V). unfold array_len. rewrite (get_ok vs st a v I V). cbn [bind].
    eexists. eexists. eexists. split; [reflexivity|]. split; [exact (does_len vs a v V)|exact I].
  - destruct M as (J & v & V). unfold eltptr. rewrite (get_ok vs st a v I V). cbn [bind].
    rewrite held_inj_len. destruct (Z.ltb_spec j (lenZ (v_elems v))) as [LT|GE].
    + eexists. eexists. eexists. split; [reflexivity|]. split; [|exact I].
      pose proof (slot_ok vs st a v (Z.to_nat j) I V) as SL. rewrite Z2Nat.id in SL by exact J.
      rewrite SL by (unfold lenZ in LT; lia). exact (does_elt vs a v j V LT).
    + eexists. eexists. eexists. split; [reflexivity|]. split; [|exact I].
      exact (does_not_elt vs a v j V GE).
  - destruct M as (v & V). rewrite (front_ok vs st a v I V). cbn [bind].
    eexists. eexists. eexists. split; [reflexivity|]. split; [|exact I].
    destruct (v_elems v) eqn:E; [exact (does_not_front vs a v V E)|].
    apply (does_front vs a v V). congruence.
  - destruct M as (v & V). rewrite (back_ok vs st a v I V). cbn [bind].
    eexists. eexists. eexists. split; [reflexivity|]. split; [|exact I].
    destruct (v_elems v) eqn:E; [exact (does_not_back vs a v V E)|]. rewrite <- E.
    apply (does_back vs a v V). congruence.
  - destruct M as (v & V & [->|(j & _ & -> & J)]).
    + change (next st a None) with (front st a). rewrite (front_ok vs st a v I V). cbn [bind].
      eexists. eexists. eexists. split; [reflexivity|]. split; [|exact I]. apply does_first.
      destruct (v_elems v) eqn:E; [exact (does_not_front vs a v V E)|].
      apply (does_front vs a v V). congruence.
    + rewrite (next_ok vs st a v j I V J). cbn [bind].
      eexists. eexists. eexists. split; [reflexivity|]. split; [|exact I].
      destruct (Nat.ltb_spec (j + 1) (length (v_elems v))) as [LT|GE].
      * exact (does_next vs a v j V LT).
      * apply (does_not_next vs a v j V). lia.
  - destruct M as (v & V & [->|(j & _ & -> & J)]).
    + change (prev st a None) with (back st a). rewrite (back_ok vs st a v I V). cbn [bind].
      eexists. eexists. eexists. split; [reflexivity|]. split; [|exact I]. apply does_last.
      destruct (v_elems v) eqn:E; [exact (does_not_back vs a v V E)|]. rewrite <- E.
      apply (does_back vs a v V). congruence.
    + rewrite (prev_ok vs st a v j I V J). cbn [bind].
      eexists. eexists. eexists. split; [reflexivity|]. split; [|exact I].
      destruct j as [|i].
      * apply (does_not_prev vs a v V). intros E. rewrite E in J. cbn in J. lia.
      * replace (S i) with (i + 1)%nat in * by lia. exact (does_prev vs a v i V J).
  - destruct M as (v & V & ->). pose proof (SM a v V) as L. unfold lenZ in L.
    destruct forwards.
    + rewrite (each_forwards vs st a v fuel I V) by lia. cbn [bind].
      eexists. eexists. eexists. split; [reflexivity|]. split; [|exact I].
      exact (does_each vs a v (v_sz v) true V).
    + rewrite (each_backwards vs st a v fuel I V) by lia. cbn [bind].
      eexists. eexists. eexists. split; [reflexivity|]. split; [|exact I].
      exact (does_each vs a v (v_sz v) false V).
  - destruct M as (a & v & j & (V & -> & J) & ->).
    destruct (nth_error (v_elems v) j) as [e|] eqn:E; [|apply nth_error_None in E; lia].
    rewrite (load_at vs st a v j e I V E). cbn [bind].
    eexists. eexists. eexists. split; [reflexivity|]. split; [|exact I].
    exact (does_read vs a v j (v_sz v) e V E).
  - destruct M as (a & w & j & (V & -> & J) & LE).
    destruct (split_at _ (v_elems w) j J) as (l1 & x & l2 & E & <-).
    destruct (store_elem st w l1 x l2 v (i_good _ _ I a w V) E LE) as (st' & W1 & W2 & W3 & W4).
    rewrite W1. cbn [bind].
    eexists. eexists. eexists. split; [reflexivity|]. split; [exact (does_write vs a w l1 x l2 v V E)|].
    apply (inv_same vs st _ a w _ I V).
    + intros b NB0. now rewrite W2.
    + rewrite W2, (i_arr _ _ I a w V). unfold held, elements, lenZ. cbn [v_elems v_sz v_base v_slots].
      rewrite E, !app_length. reflexivity.
    + exact W3.
    + reflexivity.
    + exact W4.
Qed.

Lemma run_ok : forall N p vs st fuel, 0 <= N <= 2 ^ 31 -> N < Z.of_nat fuel ->
  inv vs st -> small N vs -> legal N vs p ->
  exists l, run fuel st p = Ok l /\ told vs p l.
Proof.
  intros N p. induction p as [|o k IH]; intros vs st fuel NB FB I SM L.
  - exists []. split; [reflexivity|exact Logic.I].
  - destruct L as (M & L).
    destruct (step_ok N vs st o fuel ltac:(lia) FB I SM M) as (x & st' & vs' & E & D & I').
    destruct (IH x vs' st' fuel NB FB I') as (l & R & T).
    { apply (does_small N vs o x vs'); [lia|assumption..]. }
    { now apply L. }
    exists (x :: l). cbn [run]. rewrite E. cbn [bind]. rewrite R. cbn [bind]. split; [reflexivity|].
    cbn [told]. exists vs'. split; assumption.
Qed.

Lemma none_inv : inv none nothing.
Proof. constructor; intros; try discriminate; reflexivity. Qed.

Lemma arrays : forall N fuel p, 0 <= N <= 2 ^ 31 -> N < Z.of_nat fuel -> legal N none p ->
  exists l, run fuel nothing p = Ok l /\ told none p l.
Proof.
  intros N fuel p NB FB L. apply (run_ok N p none nothing fuel NB FB none_inv); [|exact L].
  intros a v V. discriminate V.
Qed.

(** While memory never lacks, room is never missing *)
Definition sound (vs : views) : Prop := forall a v, vs a = Some v -> v_room v = v_slots v.

Lemma does_sound : forall vs o x vs', answered o -> does vs o x vs' -> sound vs -> sound vs'.
Proof.
  intros vs o x vs' A D S0. destruct D; try exact S0; cbn [answered] in A;
    intros b w W; unfold put in W; (destruct (b =? _); [|now apply (S0 b)]);
    try discriminate W; injection W as <-; cbn [elements v_room v_slots]; try reflexivity;
    try congruence; try (eapply S0; eassumption).
Qed.

Lemma rich_legal : forall N p vs, sound vs -> rich N vs p -> legal N vs p.
Proof.
  intros N p. induction p as [|o k IH]; intros vs S0 R; [exact Logic.I|].
  destruct R as (A & M & R). split.
  - destruct o; cbn [may_rich may] in *; try exact M.
    + destruct M as (w & V & L & B & U). exists w. unfold has_room. rewrite (S0 _ _ V). tauto.
    + destruct M as (w & V & B & U). exists w. unfold has_room. rewrite (S0 _ _ V). tauto.
  - intros x vs' D. apply IH; [|now apply R]. exact (does_sound vs o x vs' A D S0).
Qed.

Lemma arrays_rich : forall N fuel p, 0 <= N <= 2 ^ 31 -> N < Z.of_nat fuel -> rich N none p ->
  exists l, run fuel nothing p = Ok l /\ told none p l.
Proof.
  intros N fuel p NB FB R. apply (arrays N fuel p NB FB). apply rich_legal; [|exact R].
  intros a v V. discriminate V.
Qed.

(** More than 2^31 elements *)
Lemma too_many : forall st a r v ans,
  arrs st a = Some r -> 2 ^ 31 <= a_i r < 2 ^ 32 - 1 -> (a_n r = 0 \/ exists k, 0 <= k <= 28 /\ a_n r = 8 * 2 ^ k) ->
  push_back st a v ans = UB UBDiverge.
Proof.
  intros st a r v ans A B P. unfold push_back, reserve, get. rewrite A. cbn [bind].
  pose proof (power_small _ P) as PS. rewrite u32_id by lia.
  destruct (Z.gtb_spec (a_i r + 1) (a_n r)); [|lia].
  rewrite grow_never; [reflexivity|lia|exact P].
Qed.
