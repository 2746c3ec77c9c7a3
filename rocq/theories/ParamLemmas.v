(** Proofs about in-place sampling. *)
From Coq Require Import ZArith List Bool Lia Arith.
From Verif Require Import Base Datum CodecModel CodecSpec CodecProofs FloatModel FloatSpec FloatProofs CmpModel CmpSpec CmpProofs.
From Verif Require Import IntervalModel IntervalSpec IntervalProofs MapSpec ParamModel ParamSpec ParamProofs.
Import ListNotations.
Open Scope Z_scope.

Lemma set_cell_ok m i c : (i < length m)%nat -> exists m', set_cell m i c = Ok m' /\ length m' = length m /\
  forall j, nth_error m' j = if (j =? i)%nat then Some c else nth_error m j.
Proof.
  intro H. unfold set_cell. apply Nat.ltb_lt in H as H'. rewrite H'. eexists. split; [reflexivity|]. now apply nth_update.
Qed.

Section Put.
  Variable put : list cell -> nat -> Z -> res (list cell).
  Variable slotc : option cell -> option cell -> Z -> Prop.
  Variable okw : Z -> Prop.
  Variable inc : Z -> bool.
  Hypothesis put_ok : forall m f w, (2 * f + 1 < length m)%nat -> okw w ->
    exists m', put m f w = Ok m' /\ length m' = length m /\
      slotc (nth_error m' (2 * f)) (nth_error m' (2 * f + 1)) w /\
      forall j, j <> (2 * f)%nat -> j <> (2 * f + 1)%nat -> nth_error m' j = nth_error m j.

  Definition slots (m : list cell) (acc : list Z) : Prop :=
    forall j w, nth_error acc j = Some w -> slotc (nth_error m (2 * j)) (nth_error m (2 * j + 1)) w.

  Lemma put_slots m acc w : slots m acc -> okw w -> (2 * length acc + 1 < length m)%nat ->
    exists m', put m (length acc) w = Ok m' /\ length m' = length m /\ slots m' (acc ++ [w]) /\
      forall j, (2 * length acc + 1 < j)%nat -> nth_error m' j = nth_error m j.
  Proof.
    intros S O L. destruct (put_ok m (length acc) w L O) as (m' & E & L' & Sl & Un).
    exists m'. split; [exact E|split; [exact L'|split]].
    - intros j x Hj. destruct (Nat.lt_ge_cases j (length acc)).
      + rewrite nth_error_app1 in Hj by lia. rewrite !Un by lia. now apply S.
      + assert (j = length acc) as ->.
        { assert (j < length (acc ++ [w]))%nat by (apply nth_error_Some; congruence). rewrite app_length in *. cbn in *. lia. }
        rewrite nth_error_app2, Nat.sub_diag in Hj by lia. injection Hj as <-. exact Sl.
    - intros j Hj. apply Un; lia.
  Qed.

  Lemma first_pass_ok n raw : length raw = n -> Forall (fun w => inc w = true -> okw w) raw -> forall k i acc m, (k + i = n)%nat -> (length acc <= i)%nat -> length m = (2 * n)%nat ->
    slots m acc -> (forall j w, (i <= j)%nat -> nth_error raw j = Some w -> nth_error m (n + j) = Some (CRaw w)) ->
    exists m', first_pass put inc n k i (length acc) m = Ok (length (acc ++ filter inc (skipn i raw)), m') /\
      length m' = (2 * n)%nat /\ slots m' (acc ++ filter inc (skipn i raw)).
  Proof.
    intros HL inc_ok. rewrite Forall_forall in inc_ok. induction k as [|k IH]; intros i acc m Hk Ha Lm S R; cbn [first_pass].
    - rewrite skipn_all2 by lia. cbn [filter]. rewrite app_nil_r. exists m. auto.
    - destruct (nth_error raw i) as [w|] eqn:W; [|apply nth_error_None in W; lia].
      assert (SK : skipn i raw = w :: skipn (Datatypes.S i) raw).
      { clear - W. revert raw W. induction i; intros [|x raw] W; try discriminate; cbn in *; [congruence|auto]. }
      unfold read_raw. rewrite (R i w) by auto. cbn [bind]. rewrite SK. cbn [filter].
      destruct (inc w) eqn:I.
      + destruct (put_slots m acc w) as (m' & -> & L' & S' & Un); auto; [eapply inc_ok; eauto using nth_error_In|lia|]. cbn [bind].
        destruct (IH (Datatypes.S i) (acc ++ [w]) m') as (m2 & E2 & L2 & S2); try lia; auto.
        * rewrite app_length; cbn; lia.
        * intros j x Hj Hx. rewrite Un by lia. apply R; [lia|auto].
        * rewrite app_length in E2. cbn [length] in E2. replace (length acc + 1)%nat with (Datatypes.S (length acc)) in E2 by lia.
          rewrite <- app_assoc in E2, S2. exists m2. auto.
      + destruct (IH (Datatypes.S i) acc m) as (m2 & E2 & L2 & S2); try lia; auto.
        * intros j x Hj Hx. apply R; [lia|auto].
        * exists m2. auto.
  Qed.

  Lemma firstn_firstn_app {A} k (l : list A) r : (k <= length l)%nat -> firstn k (l ++ r) = firstn k l.
  Proof. intro H. rewrite firstn_app. replace (k - length l)%nat with 0%nat by lia. cbn. apply app_nil_r. Qed.

  Hypothesis inc_ok : forall w, inc w = true -> okw w.
  Lemma later_pass_ok n vs : forall acc m, length m = (2 * n)%nat -> (length acc <= n)%nat -> slots m acc ->
    exists m', later_pass put inc n (length acc) vs m = Ok (length (firstn n (acc ++ filter inc vs)), m') /\
      length m' = (2 * n)%nat /\ slots m' (firstn n (acc ++ filter inc vs)).
  Proof.
    induction vs as [|w vs IH]; intros acc m Lm La S; cbn [later_pass filter].
    - rewrite app_nil_r, firstn_all2 by lia. exists m. auto.
    - destruct (Nat.ltb_spec (length acc) n).
      + destruct (inc w) eqn:I.
        * destruct (put_slots m acc w) as (m' & -> & L' & S' & _); auto; [lia|]. cbn [bind].
          destruct (IH (acc ++ [w]) m') as (m2 & E2 & L2 & S2); [lia|rewrite app_length; cbn; lia|auto|].
          rewrite app_length in E2. cbn [length] in E2. replace (length acc + 1)%nat with (Datatypes.S (length acc)) in E2 by lia.
          rewrite <- app_assoc in E2, S2. exists m2. auto.
        * now apply IH.
      + replace (firstn n (acc ++ (if inc w then w :: filter inc vs else filter inc vs))) with acc; [exists m; auto|].
        rewrite firstn_firstn_app by lia. rewrite firstn_all2; auto.
  Qed.

  Variable draw : nat -> nat -> res (list Z).
  Inductive schedule : nat -> list nat -> Prop :=
  | sched_end c : (32 < c)%nat -> schedule c []
  | sched_more c cs : (c <= 32)%nat -> schedule (2 * c) cs -> schedule c (c :: cs).
  Lemma more_rounds_ok n cs : forall fuel coeff round got m,
    schedule coeff cs -> (length cs < fuel)%nat -> length m = (2 * n)%nat -> slots m (firstn n got) ->
    match collect inc draw n cs round got with
    | Ok l => exists m', more_rounds put inc draw fuel coeff round n (length (firstn n got)) m = Ok m' /\
                length m' = (2 * n)%nat /\ slots m' l /\ length l = n
    | Err c => more_rounds put inc draw fuel coeff round n (length (firstn n got)) m = Err c
    | UB u => more_rounds put inc draw fuel coeff round n (length (firstn n got)) m = UB u
    end.
  Proof.
    induction cs as [|c cs IH]; intros [|fuel] coeff round got m Sch F Lm S; try (cbn in F; lia);
      inversion Sch; subst; cbn [collect more_rounds]; rewrite firstn_length.
    - destruct (Nat.leb_spec n (length got)).
      + rewrite Nat.min_l by lia. rewrite Nat.ltb_irrefl. exists m. rewrite firstn_length, Nat.min_l; auto.
      + rewrite Nat.min_r by lia. destruct (Nat.ltb_spec (length got) n); [|lia].
        destruct (Nat.ltb_spec 32 coeff); [reflexivity|lia].
    - destruct (Nat.leb_spec n (length got)).
      + rewrite Nat.min_l by lia. rewrite Nat.ltb_irrefl. exists m. rewrite firstn_length, Nat.min_l; auto.
      + rewrite Nat.min_r by lia. destruct (Nat.ltb_spec (length got) n); [|lia].
        destruct (Nat.ltb_spec 32 c); [lia|]. cbn [refute bind].
        destruct (draw round ((n - length got) * c)%nat) as [vs|e|u]; cbn [bind]; auto.
        rewrite firstn_all2 in S by lia.
        destruct (later_pass_ok n vs got m) as (m' & -> & L' & S'); auto; [lia|]. cbn [bind].
        apply IH; auto. cbn in F. lia.
  Qed.
End Put.

Lemma schedule2 : schedule 2 [2; 4; 8; 16; 32]%nat.
Proof. repeat (apply sched_more; [lia|]; cbn [Nat.mul Nat.add]). apply sched_end. lia. Qed.

Definition num_slotc (a b : option cell) (w : Z) : Prop := a = Some (CRaw w).
Lemma num_put_ok m f w : (2 * f + 1 < length m)%nat -> (fun _ : Z => True) w -> exists m', num_put m f w = Ok m' /\ length m' = length m /\
  num_slotc (nth_error m' (2 * f)) (nth_error m' (2 * f + 1)) w /\
  forall j, j <> (2 * f)%nat -> j <> (2 * f + 1)%nat -> nth_error m' j = nth_error m j.
Proof.
  intros L _. unfold num_put. destruct (set_cell_ok m (2 * f) (CRaw w)) as (m' & -> & L' & E); [lia|].
  exists m'. split; [reflexivity|split; [exact L'|split]].
  - unfold num_slotc. now rewrite E, Nat.eqb_refl.
  - intros j A B. rewrite E. destruct (Nat.eqb_spec j (2 * f)); [lia|reflexivity].
Qed.
Definition cat_slotc (pvs : list datum) (a b : option cell) (w : Z) : Prop :=
  let d := nth (Z.to_nat w) pvs ccs_none in
  a = Some (CVal (d_val d)) /\ b = Some (CTag (type_of (d_val d)) (d_flags d)).
Lemma cat_put_ok pvs m f w : (2 * f + 1 < length m)%nat -> 0 <= w < lenZ pvs ->
  exists m', cat_put pvs m f w = Ok m' /\ length m' = length m /\
  cat_slotc pvs (nth_error m' (2 * f)) (nth_error m' (2 * f + 1)) w /\
  forall j, j <> (2 * f)%nat -> j <> (2 * f + 1)%nat -> nth_error m' j = nth_error m j.
Proof.
  intros L H. unfold cat_put. destruct (Z.ltb_spec w 0); [lia|]. destruct (Z.leb_spec (lenZ pvs) w); [lia|]. cbn [orb].
  set (d := nth (Z.to_nat w) pvs ccs_none).
  destruct (set_cell_ok m (2 * f) (CVal (d_val d))) as (m1 & -> & L1 & E1); [lia|]. cbn [bind].
  destruct (set_cell_ok m1 (2 * f + 1) (CTag (type_of (d_val d)) (d_flags d))) as (m2 & -> & L2 & E2); [lia|].
  exists m2. split; [reflexivity|split; [congruence|split]].
  - unfold cat_slotc. fold d. rewrite !E2, !E1, Nat.eqb_refl.
    destruct (Nat.eqb_spec (2 * f) (2 * f + 1)); [lia|]. now rewrite Nat.eqb_refl.
  - intros j A B. rewrite E2, E1. destruct (Nat.eqb_spec j (2 * f + 1)); [lia|]. destruct (Nat.eqb_spec j (2 * f)); [lia|reflexivity].
Qed.

Lemma set_tags_ok t k : forall i m, (2 * (i + k) <= length m)%nat -> exists m', set_tags t k i m = Ok m' /\ length m' = length m /\
  (forall j, (i <= j < i + k)%nat -> nth_error m' (2 * j + 1) = Some (CTag t FLAG_DEFAULT)) /\
  (forall j, nth_error m' (2 * j) = nth_error m (2 * j)) /\
  (forall j, (j < i)%nat -> nth_error m' (2 * j + 1) = nth_error m (2 * j + 1)).
Proof.
  induction k as [|k IH]; intros i m H; cbn [set_tags].
  - exists m. repeat split; auto. intros; lia.
  - destruct (set_cell_ok m (2 * i + 1) (CTag t FLAG_DEFAULT)) as (m1 & -> & L1 & E1); [lia|]. cbn [bind].
    destruct (IH (S i) m1) as (m2 & -> & L2 & T2 & V2 & U2); [lia|]. exists m2.
    split; [reflexivity|split; [congruence|split; [|split]]].
    + intros j Hj. destruct (Nat.eq_dec j i) as [->|].
      * rewrite U2, E1, Nat.eqb_refl by lia. reflexivity.
      * apply T2. lia.
    + intro j. rewrite V2, E1. destruct (Nat.eqb_spec (2 * j) (2 * i + 1)); [lia|reflexivity].
    + intros j Hj. rewrite U2, E1 by lia. destruct (Nat.eqb_spec (2 * j + 1) (2 * i + 1)); [lia|reflexivity].
Qed.

Lemma read_datums_ok ds : forall m, length m = (2 * length ds)%nat ->
  (forall j d, nth_error ds j = Some d -> exists c1 c2, nth_error m (2 * j) = Some c1 /\ nth_error m (2 * j + 1) = Some c2 /\
     cells_datum c1 c2 = Ok d) -> read_datums m = Ok ds.
Proof.
  induction ds as [|d ds IH]; intros m L H.
  - destruct m; [reflexivity|discriminate].
  - destruct m as [|c1 [|c2 m]]; try (cbn in L; lia). cbn [read_datums].
    destruct (H 0%nat d eq_refl) as (a & b & A & B & C). cbn in A, B. injection A as ->. injection B as ->.
    rewrite C. cbn [bind]. rewrite IH; [reflexivity|cbn in L; lia|].
    intros j e He. destruct (H (S j) e He) as (x & y & X & Y & W). exists x, y.
    replace (2 * S j)%nat with (S (S (2 * j))) in X, Y by lia. cbn in X, Y. auto.
Qed.

Lemma filter_ext_all {A} (f g : A -> bool) l : (forall x, f x = g x) -> filter f l = filter g l.
Proof. intro H. induction l; cbn; [reflexivity|]. now rewrite H, IHl. Qed.
Lemma collect_ext {A} (f g : A -> bool) draw n cs : (forall x, f x = g x) -> forall r got, collect f draw n cs r got = collect g draw n cs r got.
Proof.
  intro H. induction cs as [|c cs IH]; intros; cbn; [reflexivity|]. destruct (n <=? length got)%nat; [reflexivity|].
  destruct (draw r ((n - length got) * c)%nat); cbn; auto. rewrite (filter_ext_all _ _ _ H). apply IH.
Qed.
Lemma filter_true {A} (l : list A) : filter (fun _ => true) l = l.
Proof. induction l; cbn; congruence. Qed.
Lemma bool_iff_eq (a b : bool) (P : Prop) : (a = true <-> P) -> (b = true <-> P) -> a = b.
Proof. destruct a, b; intuition congruence. Qed.

(** the two ways of collecting are one *)
Lemma sampled_collect {A} (keep : A -> bool) draw n (over : bool) raw inc : draw 0%nat n = Ok raw -> length raw = n ->
  (forall w, inc w = (if over then keep w else true)) ->
  sampled keep draw n over = collect inc draw n [2; 4; 8; 16; 32]%nat 1 (filter inc raw).
Proof.
  intros D L I. unfold sampled. rewrite D. cbn [bind]. destruct over.
  - rewrite (filter_ext_all inc keep) by exact I. symmetry. now apply collect_ext.
  - rewrite (filter_ext_all inc (fun _ => true)) by exact I. rewrite filter_true. cbn [collect].
    destruct (Nat.leb_spec n (length raw)); [|lia]. now rewrite firstn_all2 by lia.
Qed.

Lemma collect_length {A} (keep : A -> bool) draw n cs : forall r got l, collect keep draw n cs r got = Ok l -> length l = n.
Proof.
  induction cs as [|c cs IH]; intros r got l H; cbn in H; destruct (Nat.leb_spec n (length got)).
  1,3: injection H as <-; rewrite firstn_length; lia.
  - discriminate.
  - destruct (draw r _); [|discriminate..]. eapply IH; eauto.
Qed.

Lemma samples_spec p over draw n mem keep : (0 < n)%nat -> length mem = (2 * n)%nat -> draws_counted draw ->
  p_type p <> PSTRING -> is_num_type (i_type (p_interval p)) -> (forall w, keep w = true <-> raw_ok p w) ->
  (over = false -> p_type p <> PNUMERICAL -> forall l, draw 0%nat n = Ok l -> Forall (raw_ok p) l) ->
  param_samples p over draw n mem = do l <- sampled keep draw n over; Ok (map (raw_value p) l).
Proof.
  intros Hn Lm DC NS NT HK HO. unfold param_samples.
  destruct (Nat.eqb_spec n 0); [lia|]. destruct (Z.eqb_spec (p_type p) PSTRING); [tauto|].
  destruct (draw 0%nat n) as [raw|e|u] eqn:D; cbn [bind].
  2,3: unfold sampled; rewrite D; reflexivity.
  pose proof (DC _ _ _ D) as LR.
  set (m0 := firstn n mem ++ map CRaw raw).
  assert (L0 : length m0 = (2 * n)%nat).
  { unfold m0. rewrite app_length, firstn_length, map_length, Nat.min_l; lia. }
  assert (R0 : forall j w, (0 <= j)%nat -> nth_error raw j = Some w -> nth_error m0 (n + j) = Some (CRaw w)).
  { intros j w _ Hj. unfold m0. rewrite nth_error_app2; rewrite firstn_length, Nat.min_l by lia; [|lia].
    replace (n + j - n)%nat with j by lia. now apply map_nth_error. }
  destruct (p_type p =? PNUMERICAL) eqn:TN.
  - set (inc := fun w => negb over || interval_include (p_interval p) w).
    assert (HI : forall w, inc w = if over then keep w else true).
    { intro w. unfold inc. destruct over; cbn; [|reflexivity]. eapply bool_iff_eq; [apply include_member|].
      rewrite HK. unfold raw_ok. now rewrite TN. }
    destruct (first_pass_ok num_put num_slotc (fun _ => True) inc num_put_ok n raw LR (proj2 (Forall_forall _ _) (fun _ _ _ => I)) n 0%nat [] m0)
      as (m1 & E1 & L1 & S1); auto; try lia.
    { intros j w Hj. destruct j; discriminate. }
    cbn [length app skipn] in E1, S1. rewrite E1. cbn [bind].
    assert (LF : (length (filter inc raw) <= n)%nat).
    { rewrite <- LR. clear. induction raw; cbn; [lia|]. destruct (inc a); cbn; lia. }
    rewrite <- (firstn_all2 (filter inc raw) LF) in S1. rewrite <- (firstn_all2 (filter inc raw) LF) at 1.
    pose proof (more_rounds_ok num_put num_slotc (fun _ => True) inc num_put_ok (fun _ _ => I) draw n
       [2; 4; 8; 16; 32]%nat 6%nat 2%nat 1%nat (filter inc raw) m1 schedule2 ltac:(cbn; lia) L1 S1) as MR.
    rewrite <- (sampled_collect keep draw n over raw inc D LR HI) in MR.
    destruct (sampled keep draw n over) as [l|e|u].
    + destruct MR as (m2 & -> & L2 & S2 & LL). cbn [bind].
      destruct (set_tags_ok (i_type (p_interval p)) n 0 m2) as (m3 & -> & L3 & T3 & V3 & _); [lia|]. cbn [bind].
      apply read_datums_ok; [rewrite map_length; lia|].
      intros j d Hd. assert (Hj : (j < n)%nat) by (rewrite <- LL, <- (map_length (raw_value p)); apply nth_error_Some; congruence).
      rewrite nth_error_map in Hd. destruct (nth_error l j) as [w|] eqn:W; [|discriminate]. injection Hd as <-.
      exists (CRaw w), (CTag (i_type (p_interval p)) FLAG_DEFAULT). rewrite V3, T3 by lia.
      split; [apply (S2 j w W)|split; [reflexivity|]].
      unfold cells_datum, raw_value, number. rewrite TN. destruct NT as [-> | ->]; reflexivity.
    + rewrite MR. reflexivity.
    + rewrite MR. reflexivity.
  - set (inc := fun w => negb over || ((w >=? 0) && (w <? lenZ (p_values p)))).
    assert (HI : forall w, inc w = if over then keep w else true).
    { intro w. unfold inc. destruct over; cbn; [|reflexivity].
      eapply bool_iff_eq with (P := raw_ok p w); [|apply HK]. unfold raw_ok. rewrite TN, Z.geb_leb, andb_true_iff, Z.leb_le, Z.ltb_lt. tauto. }
    assert (TN' : p_type p <> PNUMERICAL) by now apply Z.eqb_neq.
    assert (IO : Forall (fun w => inc w = true -> 0 <= w < lenZ (p_values p)) raw).
    { apply Forall_forall. intros w Hw Hi. rewrite HI in Hi. destruct over.
      - apply HK in Hi. unfold raw_ok in Hi. now rewrite TN in Hi.
      - pose proof (HO eq_refl TN' _ eq_refl) as F. rewrite Forall_forall in F. specialize (F _ Hw). unfold raw_ok in F. now rewrite TN in F. }
    destruct (first_pass_ok (cat_put (p_values p)) (cat_slotc (p_values p)) (fun w => 0 <= w < lenZ (p_values p)) inc
                (cat_put_ok (p_values p)) n raw LR IO n 0%nat [] m0)
      as (m1 & E1 & L1 & S1); auto; try lia.
    { intros j w Hj. destruct j; discriminate. }
    cbn [length app skipn] in E1, S1. rewrite E1. cbn [bind].
    assert (LF : (length (filter inc raw) <= n)%nat).
    { rewrite <- LR. clear. induction raw; cbn; [lia|]. destruct (inc a); cbn; lia. }
    rewrite <- (firstn_all2 (filter inc raw) LF) in S1.
    assert (MR : match sampled keep draw n over with
    | Ok l => exists m', more_rounds (cat_put (p_values p)) inc draw 6 2 1 n (length (filter inc raw)) m1 = Ok m' /\
                length m' = (2 * n)%nat /\ slots (cat_slotc (p_values p)) m' l /\ length l = n
    | Err c => more_rounds (cat_put (p_values p)) inc draw 6 2 1 n (length (filter inc raw)) m1 = Err c
    | UB u => more_rounds (cat_put (p_values p)) inc draw 6 2 1 n (length (filter inc raw)) m1 = UB u
    end).
    { destruct over.
      - rewrite (sampled_collect keep draw n true raw inc D LR HI).
        assert (IO' : forall w, inc w = true -> 0 <= w < lenZ (p_values p)).
        { intros w Hw. rewrite HI in Hw. apply HK in Hw. unfold raw_ok in Hw. now rewrite TN in Hw. }
        pose proof (more_rounds_ok (cat_put (p_values p)) (cat_slotc (p_values p)) (fun w => 0 <= w < lenZ (p_values p)) inc
           (cat_put_ok (p_values p)) IO' draw n _ 6%nat 2%nat 1%nat (filter inc raw) m1 schedule2 ltac:(cbn; lia) L1 S1) as Q.
        rewrite (firstn_all2 (filter inc raw) LF) in Q. exact Q.
      - assert (FR : filter inc raw = raw) by (rewrite (filter_ext_all inc (fun _ => true)) by exact HI; apply filter_true).
        unfold sampled. rewrite D. cbn [bind]. rewrite FR in *. rewrite LR. cbn [more_rounds]. rewrite Nat.ltb_irrefl.
        exists m1. rewrite firstn_all2 in S1 by lia. auto. }
    destruct (sampled keep draw n over) as [l|e|u].
    + destruct MR as (m2 & -> & L2 & S2 & LL). cbn [bind].
      apply read_datums_ok; [rewrite map_length; lia|].
      intros j d Hd. assert (Hj : (j < n)%nat) by (rewrite <- LL, <- (map_length (raw_value p)); apply nth_error_Some; congruence).
      rewrite nth_error_map in Hd. destruct (nth_error l j) as [w|] eqn:W; [|discriminate]. injection Hd as <-.
      destruct (S2 j w W) as [A B]. do 2 eexists. split; [exact A|split; [exact B|]].
      unfold cells_datum, raw_value. rewrite TN, Z.eqb_refl. now destruct (nth (Z.to_nat w) (p_values p) ccs_none).
    + rewrite MR. reflexivity.
    + rewrite MR. reflexivity.
Qed.

Lemma created_interval jen p : created jen p -> is_num_type (i_type (p_interval p)).
Proof.
  intros [nm t lo up q def p' _ _ _ _ _ H | t nm vals idx p' K _ W Hi H | nm _].
  - destruct (check_numerical jen _ _ _ _ _ _ _ H) as (T & -> & _). exact T.
  - destruct (created_cat_inv _ _ _ _ _ _ W Hi H) as [-> _]. now left.
  - now left.
Qed.
Lemma raw_value_checked jen p w : created jen p -> p_type p <> PSTRING -> raw_ok p w ->
  check_value jen p (raw_value p w) = true.
Proof.
  intros [nm t lo up q def p' _ _ _ _ _ H | t nm vals idx p' K _ W Hi H | nm _] NS RO.
  - destruct (check_numerical jen _ _ _ _ _ _ _ H) as (T & -> & _).
    unfold raw_ok, raw_value, check_value, number in *. cbn [p_type p_interval i_type] in *.
    change (PNUMERICAL =? PNUMERICAL) with true in *. cbv iota in *.
    apply include_member in RO. fold NUM_FLOAT. destruct (t =? NUM_FLOAT); exact RO.
  - destruct (created_cat_inv _ _ _ _ _ _ W Hi H) as [E Hok].
    assert (TN : p_type p' =? PNUMERICAL = false) by (rewrite E; cbn [p_type]; now destruct K as [-> | [-> | ->]]).
    assert (V : p_values p' = map clean vals) by now rewrite E.
    destruct (check_categorical _ _ _ _ _ _ K W Hi H) as (_ & _ & _ & _ & C).
    unfold raw_ok, raw_value in *. rewrite TN, V in *.
    unfold lenZ in RO. rewrite map_length in RO.
    assert (I : In (nth (Z.to_nat w) (map clean vals) ccs_none) (map clean vals)) by (apply nth_In; rewrite map_length; lia).
    apply C.
    + pose proof (clean_wf _ W) as Wc. rewrite Forall_forall in Wc. now apply Wc.
    + rewrite <- map_clean_val. now apply in_map.
  - now elim NS.
Qed.
Lemma collect_keep {A} (keep : A -> bool) draw n cs : forall r got l, Forall (fun w => keep w = true) got ->
  collect keep draw n cs r got = Ok l -> Forall (fun w => keep w = true) l.
Proof.
  assert (FF : forall l : list A, Forall (fun w => keep w = true) (filter keep l)).
  { intro l. apply Forall_forall. intros w Hw. now apply filter_In in Hw. }
  induction cs as [|c cs IH]; intros r got l G H; cbn in H; destruct (Nat.leb_spec n (length got)).
  1,3: injection H as <-; apply Forall_forall; intros w Hw; rewrite Forall_forall in G; apply G;
       rewrite <- (firstn_skipn n got); apply in_or_app; now left.
  - discriminate.
  - destruct (draw r _); [|discriminate..]. cbn in H. eapply IH; [|eauto]. apply Forall_app; auto.
Qed.
Lemma samples_in_domain jen p over draw n mem l : created jen p -> length mem = (2 * n)%nat -> draws_counted draw ->
  (over = false -> forall l, draw 0%nat n = Ok l -> Forall (raw_ok p) l) ->
  param_samples p over draw n mem = Ok l ->
  length l = n /\ Forall (fun d => check_value jen p d = true) l.
Proof.
  intros C Lm DC HO H.
  destruct (Nat.eq_dec n 0) as [->|Hn].
  { unfold param_samples in H. cbn in H. injection H as <-. auto. }
  assert (NS : p_type p <> PSTRING).
  { intro E. unfold param_samples in H. apply Nat.eqb_neq in Hn. rewrite Hn, E in H. discriminate. }
  set (keep := fun w => if p_type p =? PNUMERICAL then interval_include (p_interval p) w else (0 <=? w) && (w <? lenZ (p_values p))).
  assert (HK : forall w, keep w = true <-> raw_ok p w).
  { intro w. unfold keep, raw_ok. destruct (p_type p =? PNUMERICAL); [apply include_member|].
    rewrite andb_true_iff, Z.leb_le, Z.ltb_lt. tauto. }
  rewrite (samples_spec p over draw n mem keep) in H; auto; [|lia|now apply created_interval in C].
  destruct (sampled keep draw n over) as [ws|e|u] eqn:S; [|discriminate..]. cbn in H. injection H as <-.
  rewrite map_length. unfold sampled in S. destruct (draw 0%nat n) as [raw|e|u] eqn:D; [|discriminate..]. cbn [bind] in S.
  assert (G : length ws = n /\ Forall (raw_ok p) ws).
  { destruct over.
    - split; [eapply collect_length; eauto|].
      assert (F0 : Forall (fun w => keep w = true) (filter keep raw)).
      { apply Forall_forall. intros w Hw. now apply filter_In in Hw. }
      pose proof (collect_keep _ _ _ _ _ _ _ F0 S) as F. eapply Forall_impl; [|exact F]. intros w. apply HK.
    - injection S as <-. split; [now apply (DC _ _ _ D)|now apply HO]. }
  destruct G as [G1 G2]. split; [exact G1|]. apply Forall_map. eapply Forall_impl; [|exact G2].
  intros w Hw. now apply raw_value_checked.
Qed.
