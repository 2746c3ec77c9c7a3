(** Proofs: sampling nested distributions into memory. *)
From Coq Require Import ZArith List Bool Lia Arith.
From Verif Require Import Base Datum FloatModel FloatSpec DistModel DistSpec DistSearch DistMemModel DistMemSpec.
Import ListNotations.
Open Scope Z_scope.

(** ** Updates of memory *)
Lemma updated_refl m (W : nat -> Z -> Prop) : (forall p v, ~ W p v) -> updated m m W.
Proof. intro N. split; [reflexivity|]. split; [intros p v H; destruct (N _ _ H)|reflexivity]. Qed.
Lemma updated_comp m m1 m2 (W1 W2 W : nat -> Z -> Prop) : updated m m1 W1 -> updated m1 m2 W2 ->
  (forall p v w, W1 p v -> W2 p w -> False) -> (forall p v, W p v <-> W1 p v \/ W2 p v) -> updated m m2 W.
Proof.
  intros (L1 & A1 & B1) (L2 & A2 & B2) D E. split; [congruence|]. split.
  - intros p v H. apply E in H. destruct H as [H|H]; [|auto]. rewrite B2; [auto|]. intros w H2. exact (D _ _ _ H H2).
  - intros p H. rewrite B2 by (intros v X; apply (H v), E; auto). apply B1. intros v X. apply (H v), E; auto.
Qed.
Lemma updated_iff m m' (W W' : nat -> Z -> Prop) : updated m m' W -> (forall p v, W p v <-> W' p v) -> updated m m' W'.
Proof.
  intros (L & A & B) E. split; [exact L|]. split; [intros p v H; apply A, E, H|]. intros p H. apply B. intros v X. apply (H v), E, X.
Qed.
Lemma put_ok v : forall m p, (p < length m)%nat -> exists m', put m p v = Ok m' /\ updated m m' (fun q w => q = p /\ w = v).
Proof.
  induction m as [|x m IH]; intros p L; [cbn in L; lia|]. destruct p as [|p].
  - exists (v :: m). split; [reflexivity|]. split; [reflexivity|]. split; [intros q w [-> ->]; reflexivity|].
    intros [|q] H; [destruct (H v); auto|reflexivity].
  - destruct (IH p) as (m' & E & LM & A & B); [cbn in L; lia|]. exists (x :: m'). cbn. rewrite E. split; [reflexivity|].
    split; [cbn; now rewrite LM|]. split; [intros q w [-> ->]; cbn; apply A; auto|].
    intros [|q] H; [reflexivity|]. cbn. apply B. intros w [-> ->]. apply (H v). auto.
Qed.
Lemma put_all_ok stride vs : forall m p, ((1 < length vs)%nat -> (0 < stride)%nat) -> (forall i, (i < length vs)%nat -> (p + i * stride < length m)%nat) ->
  exists m', put_all m p stride vs = Ok m' /\ updated m m' (fun q w => exists i, q = (p + i * stride)%nat /\ nth_error vs i = Some w).
Proof.
  induction vs as [|v vs IH]; intros m p S L.
  - exists m. split; [reflexivity|]. apply updated_refl. intros q w (i & _ & E). destruct i; discriminate.
  - destruct (put_ok v m p) as (m1 & E1 & U1); [specialize (L 0%nat); cbn in L; lia|].
    destruct (IH m1 (p + stride)%nat) as (m2 & E2 & U2).
    { cbn in S. intro H. apply S. lia. }
    { intros i H. rewrite (proj1 U1). specialize (L (Datatypes.S i)). cbn in L. lia. }
    exists m2. cbn. rewrite E1. cbn [bind]. split; [exact E2|]. eapply updated_comp; [exact U1|exact U2| |].
    + intros q x y [-> ->] (i & Q & Y). destruct vs; [destruct i; discriminate|]. cbn in S. lia.
    + intros q w. split.
      * intros ([|i] & Q & Y); cbn in *; [left; split; [lia|congruence]|]. right. exists i. split; [lia|exact Y].
      * intros [[-> ->]|(i & Q & Y)]; [exists 0%nat|exists (Datatypes.S i)]; cbn; split; auto; lia.
Qed.

(** ** Columns *)
Lemma shaped_length want n cs : shaped want n cs -> length cs = length want.
Proof. induction 1; cbn; congruence. Qed.
Lemma shaped_app w1 w2 n c1 c2 : shaped w1 n c1 -> shaped w2 n c2 -> shaped (w1 ++ w2) n (c1 ++ c2).
Proof. apply Forall2_app. Qed.
Lemma value_app c1 c2 k i : value_at (c1 ++ c2) k i = if (k <? length c1)%nat then value_at c1 k i else value_at c2 (k - length c1) i.
Proof. unfold value_at. destruct (Nat.ltb_spec k (length c1)); [now rewrite nth_error_app1|now rewrite nth_error_app2]. Qed.
Lemma value_range want n cs k i v : shaped want n cs -> value_at cs k i = Some v -> (k < length want)%nat /\ (i < n)%nat /\ nth_error want k = Some true.
Proof.
  intro H. unfold value_at. revert k. induction H as [|w c want cs X H IH]; intros [|k]; cbn; try discriminate.
  - destruct w; [|rewrite X; discriminate]. destruct X as (l & -> & L). intro E. split; [lia|]. split; [|reflexivity]. rewrite <- L. apply nth_error_Some. congruence.
  - intro E. destruct (IH k E) as (A & B & C). split; [lia|auto].
Qed.
Lemma on_top_shaped want n row rest : shaped want 1 row -> shaped want n rest -> shaped want (S n) (on_top row rest).
Proof.
  intro H. revert rest. induction H as [|w c want row X H IH]; intros rest R; inversion R as [|? c' ? rest' Y R']; subst; [constructor|].
  unfold on_top. cbn [combine map]. constructor; [|apply IH; exact R']. destruct w.
  - destruct X as (l & -> & L), Y as (l' & -> & L'). exists (l ++ l'). split; [reflexivity|]. rewrite app_length. lia.
  - now rewrite X.
Qed.
Lemma on_top_value want n row rest k : shaped want 1 row -> shaped want n rest ->
  value_at (on_top row rest) k 0 = value_at row k 0 /\ forall i, value_at (on_top row rest) k (S i) = value_at rest k i.
Proof.
  intro H. revert rest k. induction H as [|w c want row X H IH]; intros rest k R; inversion R as [|? c' ? rest' Y R']; subst; [destruct k; split; reflexivity|].
  destruct k as [|k].
  - unfold value_at, on_top. cbn. destruct w; [|rewrite X, Y; split; reflexivity].
    destruct X as (l & -> & L), Y as (l' & -> & L'). destruct l as [|x [|]]; try discriminate. split; reflexivity.
  - exact (IH rest' k R').
Qed.
Lemma cell_inj s a b c d : (b < s)%nat -> (d < s)%nat -> (a * s + b = c * s + d)%nat -> a = c /\ b = d.
Proof. intros B D E. assert (a = c) by nia. subst. split; [reflexivity|]. lia. Qed.
Lemma in_area_range t i u : in_area t i u -> (S i < length t)%nat.
Proof. intros (a & b & _ & B & _). apply nth_error_Some. congruence. Qed.
Lemma empty_shaped want : shaped want 0 (map (fun w : bool => if w then Some [] else None) want).
Proof. induction want as [|w l IH]; cbn; constructor; [|exact IH]. destruct w; [exists []; auto|reflexivity]. Qed.
Lemma none_shaped want n : (forall w, In w want -> w = false) -> shaped want n (map (fun _ => None) want).
Proof. induction want as [|w l IH]; cbn; intro H; constructor; [rewrite (H w); auto|apply IH; auto]. Qed.
Lemma value_single want cs k i v : shaped want 1 cs -> value_at cs k i = Some v -> i = 0%nat.
Proof. intros H E. destruct (value_range _ _ _ _ _ _ H E). lia. Qed.

Section Rng.
  Variable rng : Type.
  Variable leaf : nat -> rng -> nat -> list Z * rng.
  Variable uniform01 : rng -> Z * rng.
  Hypothesis leaf_length : forall id g n, length (fst (leaf id g n)) = n.
  Hypothesis uniform_range : forall g, unit_draw (fst (uniform01 g)).
  Notation run := (run rng leaf uniform01).
  Notation soa := (soa rng leaf uniform01).
  Notation drawn := (drawn rng leaf uniform01).

  Definition run_each stride n := fix each l p g m {struct l} : res (rng * list Z) :=
    match l with
    | [] => Ok (g, m)
    | x :: l' => do r <- run x (Some stride) n p g m; each l' (p + dim x)%nat (fst r) (snd r)
    end.
  Definition run_at p g m := fix at_index l j {struct l} : res (rng * list Z) :=
    match l with
    | [] => UB UBBounds
    | x :: l' => if j =? 0 then run x None 1 p g m else at_index l' (j - 1)
    end.
  Definition run_rows table ds stride := fix rows (k p : nat) g m {struct k} : res (rng * list Z) :=
    match k with
    | O => Ok (g, m)
    | S k' => let (u, g1) := uniform01 g in
              do i <- dichotomic_search (lenZ ds) table u;
              do r <- run_at p g1 m ds i;
              rows k' (p + stride)%nat (fst r) (snd r)
    end.
  Lemma run_multi ds mode n p g m : run (DMulti ds) mode n p g m =
    run_each (match mode with None => dim (DMulti ds) | Some s => s end) n ds p g m.
  Proof. reflexivity. Qed.
  Lemma run_mix t ds mode n p g m : run (DMix t ds) mode n p g m =
    run_rows t ds (match mode with None => dim (DMix t ds) | Some s => s end) n p g m.
  Proof. reflexivity. Qed.
  Lemma run_at_ok p g m : forall ds i x, nth_error ds i = Some x -> run_at p g m ds (Z.of_nat i) = run x None 1 p g m.
  Proof.
    induction ds as [|d ds IH]; intros [|i] x E; try discriminate.
    - cbn in E. injection E as ->. reflexivity.
    - change (run_at p g m (d :: ds) (Z.of_nat (S i))) with (if Z.of_nat (S i) =? 0 then run d None 1 p g m else run_at p g m ds (Z.of_nat (S i) - 1)).
      destruct (Z.eqb_spec (Z.of_nat (S i)) 0); [lia|]. replace (Z.of_nat (S i) - 1) with (Z.of_nat i) by lia. apply IH. exact E.
  Qed.
  Lemma dim_cons d ds : dim (DMulti (d :: ds)) = (dim d + dim (DMulti ds))%nat. Proof. reflexivity. Qed.

  (** what [run] does, for the proof by induction *)
  Definition run_good d := forall mode n p g m,
    let stride := match mode with None => dim d | Some s => s end in
    (dim d <= stride)%nat -> (forall k i, (k < dim d)%nat -> (i < n)%nat -> (p + i * stride + k < length m)%nat) ->
    exists cs g' m', drawn d (repeat true (dim d)) n g cs g' /\ shaped (repeat true (dim d)) n cs /\
      run d mode n p g m = Ok (g', m') /\ updated m m' (strided_cells p stride cs).

  Lemma leaf_good id : run_good (DLeaf id).
  Proof.
    intros mode n p g m stride D B. cbn [dim] in *. destruct (leaf id g n) as [vs g'] eqn:E.
    pose proof (leaf_length id g n) as L. rewrite E in L. cbn in L.
    destruct (put_all_ok stride vs m p) as (m' & P & U); [lia|intros i H; specialize (B 0%nat i); lia|].
    exists [Some vs], g', m'. split; [constructor; exact E|]. split; [constructor; [exists vs; auto|constructor]|].
    split; [cbn [DistMemModel.run]; rewrite E|].
    - replace (match mode with Some s => s | None => 1%nat end) with stride by (unfold stride; destruct mode; reflexivity). rewrite P. reflexivity.
    - eapply updated_iff; [exact U|]. intros q v. unfold strided_cells, value_at. split.
      + intros (i & Q & V). exists 0%nat, i. split; [lia|exact V].
      + intros (k & i & Q & V). destruct k as [|[|]]; try discriminate. exists i. split; [lia|exact V].
  Qed.
  Lemma each_good n stride ds : Forall run_good ds -> (dim (DMulti ds) <= stride)%nat ->
    forall p g m, (forall k i, (k < dim (DMulti ds))%nat -> (i < n)%nat -> (p + i * stride + k < length m)%nat) ->
    exists cs g' m', drawn_all rng leaf uniform01 ds (repeat true (dim (DMulti ds))) n g cs g' /\ shaped (repeat true (dim (DMulti ds))) n cs /\
      run_each stride n ds p g m = Ok (g', m') /\ updated m m' (strided_cells p stride cs).
  Proof.
    induction 1 as [|d ds H HS IH]; intros D p g m B.
    - exists [], g, m. split; [constructor|]. split; [constructor|]. split; [reflexivity|]. apply updated_refl.
      intros q v (k & i & _ & V). unfold value_at in V. destruct k; discriminate.
    - rewrite dim_cons in *.
      destruct (H (Some stride) n p g m) as (c1 & g1 & m1 & D1 & S1 & R1 & U1); [lia|intros k i K I; apply B; lia|].
      destruct (IH ltac:(lia) (p + dim d)%nat g1 m1) as (c2 & g2 & m2 & D2 & S2 & R2 & U2).
      { intros k i K I. rewrite (proj1 U1). specialize (B (dim d + k)%nat i). lia. }
      exists (c1 ++ c2), g2, m2. rewrite repeat_app. split; [econstructor; eauto|]. split; [now apply shaped_app|].
      split; [cbn [run_each]; rewrite R1; cbn [bind fst snd]; exact R2|].
      pose proof (shaped_length _ _ _ S1) as L1. rewrite repeat_length in L1.
      eapply updated_comp; [exact U1|exact U2| |].
      + intros q v w (k & i & Q & V) (k' & i' & Q' & V').
        destruct (value_range _ _ _ _ _ _ S1 V) as (K & I & _). destruct (value_range _ _ _ _ _ _ S2 V') as (K' & I' & _). rewrite repeat_length in *.
        destruct (cell_inj stride i k i' (dim d + k')); lia.
      + intros q v. unfold strided_cells. split.
        * intros (k & i & Q & V). rewrite value_app, L1 in V. destruct (Nat.ltb_spec k (dim d)); [left; eauto|right].
          exists (k - dim d)%nat, i. split; [lia|exact V].
        * intros [(k & i & Q & V)|(k & i & Q & V)].
          -- exists k, i. split; [exact Q|]. rewrite value_app. destruct (value_range _ _ _ _ _ _ S1 V) as (K & _). rewrite repeat_length in K.
             destruct (Nat.ltb_spec k (length c1)); [exact V|lia].
          -- exists (dim d + k)%nat, i. split; [lia|]. rewrite value_app. destruct (Nat.ltb_spec (dim d + k) (length c1)); [lia|].
             replace (dim d + k - length c1)%nat with k by lia. exact V.
  Qed.
  Lemma rows_good t ds dm stride : (forall d, In d ds -> run_good d /\ dim d = dm) -> covering t (length ds) -> lenZ t <= 2 ^ 60 -> (dm <= stride)%nat ->
    forall n p g m, (forall k i, (k < dm)%nat -> (i < n)%nat -> (p + i * stride + k < length m)%nat) ->
    exists cs g' m', drawn_rows rng leaf uniform01 t ds (repeat true dm) n g cs g' /\ shaped (repeat true dm) n cs /\
      run_rows t ds stride n p g m = Ok (g', m') /\ updated m m' (strided_cells p stride cs).
  Proof.
    intros H CV LT ST. induction n as [|n IH]; intros p g m B.
    - eexists _, g, m. split; [constructor|]. split; [apply empty_shaped|]. split; [reflexivity|]. apply updated_refl.
      intros q v (k & i & _ & V). destruct (value_range _ _ _ _ _ _ (empty_shaped _) V). lia.
    - cbn [run_rows]. pose proof (uniform_range g) as UR. destruct (uniform01 g) as [u g1] eqn:EU. cbn in UR.
      destruct (search_ok t (length ds) u CV LT UR) as (i & ES & I & A & _). unfold lenZ. rewrite ES. cbn [bind].
      destruct (nth_error ds i) as [d|] eqn:ED; [|apply nth_error_None in ED; lia]. rewrite (run_at_ok p g1 m ds i d ED).
      destruct (H d (nth_error_In _ _ ED)) as [HG HD].
      destruct (HG None 1%nat p g1 m) as (row & g2 & m1 & D1 & S1 & R1 & U1); [lia|intros k j K J; specialize (B k 0%nat); nia|].
      rewrite R1. cbn [bind fst snd]. rewrite HD in *.
      destruct (IH (p + stride)%nat g2 m1) as (rest & g3 & m2 & D2 & S2 & R2 & U2).
      { intros k j K J. rewrite (proj1 U1). specialize (B k (S j) K ltac:(lia)). lia. }
      exists (on_top row rest), g3, m2. split; [econstructor; eauto|]. split; [now apply on_top_shaped|]. split; [exact R2|].
      eapply updated_comp; [exact U1|exact U2| |].
      + intros q v w (k & j & Q & V) (k' & j' & Q' & V'). destruct (value_range _ _ _ _ _ _ S1 V) as (K & J & _). rewrite repeat_length in K.
        assert (j = 0)%nat by lia. subst j. nia.
      + intros q v. unfold strided_cells. split.
        * intros (k & [|j] & Q & V); destruct (on_top_value _ _ _ _ k S1 S2) as [V0 VS].
          -- rewrite V0 in V. left. exists k, 0%nat. split; [lia|exact V].
          -- rewrite VS in V. right. exists k, j. split; [lia|exact V].
        * intros [(k & j & Q & V)|(k & j & Q & V)]; destruct (on_top_value _ _ _ _ k S1 S2) as [V0 VS].
          -- pose proof (value_single _ _ _ _ _ S1 V). subst j. exists k, 0%nat. split; [lia|congruence].
          -- exists k, (S j). split; [lia|congruence].
  Qed.
  Lemma dim_pos : forall d, wf_dist d -> (0 < dim d)%nat.
  Proof.
    induction d as [id|ds IH|t ds IH] using dist_induct; intro W; [cbn; lia| |]; inversion W as [|? NE W'|? d0 ds' W' CV LT]; subst.
    - destruct ds as [|d ds]; [congruence|]. rewrite dim_cons. inversion IH as [|? ? H _]; subst. specialize (H (W' d (or_introl eq_refl))). lia.
    - inversion IH as [|? ? H _]; subst. cbn [dim]. apply H. apply W'. left. reflexivity.
  Qed.
  Lemma true_in n : (0 < n)%nat -> In true (repeat true n).
  Proof. destruct n; [lia|left; reflexivity]. Qed.
  Lemma run_ok : forall d, wf_dist d -> run_good d.
  Proof.
    induction d as [id|ds IH|t ds IH] using dist_induct; intro W; [apply leaf_good| |].
    - inversion W as [|? NE W'|]; subst. assert (G : Forall run_good ds) by (rewrite Forall_forall in *; auto).
      intros mode n p g m stride D B. destruct (each_good n stride ds G D p g m B) as (cs & g' & m' & D1 & S1 & R1 & U1).
      exists cs, g', m'. split; [constructor; exact D1|]. rewrite run_multi. auto.
    - pose proof (dim_pos _ W) as DP. inversion W as [| |? d0 ds' W' CV LT]; subst. intros mode n p g m stride D B.
      assert (G : forall d, In d (d0 :: ds') -> run_good d /\ dim d = dim d0) by (rewrite Forall_forall in IH; intros d X; destruct (W' d X); auto).
      destruct (rows_good t (d0 :: ds') (dim d0) stride G CV LT D n p g m B) as (cs & g' & m' & D1 & S1 & R1 & U1).
      exists cs, g', m'. split; [constructor; [apply true_in, DP|exact D1]|]. rewrite run_mix. auto.
  Qed.

  (** ** Structure of arrays *)
  Definition soa_each n := fix each l ps g m {struct l} : res (rng * list Z) :=
    match l with
    | [] => Ok (g, m)
    | x :: l' => do r <- soa x n ps g m; each l' (skipn (dim x) ps) (fst r) (snd r)
    end.
  Definition soa_at qs g m := fix at_index l j {struct l} : res (rng * list Z) :=
    match l with
    | [] => UB UBBounds
    | x :: l' => if j =? 0 then soa x 1 qs g m else at_index l' (j - 1)
    end.
  Definition soa_rows table ds ps := fix rows (k i : nat) g m {struct k} : res (rng * list Z) :=
    match k with
    | O => Ok (g, m)
    | S k' => let (u, g1) := uniform01 g in
              do j <- dichotomic_search (lenZ ds) table u;
              do qs <- row_pointers ps i;
              do r <- soa_at qs g1 m ds j;
              rows k' (S i) (fst r) (snd r)
    end.
  Lemma soa_multi ds n ps g m : soa (DMulti ds) n ps g m = soa_each n ds ps g m. Proof. reflexivity. Qed.
  Lemma soa_mix t ds n ps g m : soa (DMix t ds) n ps g m =
    if (length ps <? dim (DMix t ds))%nat then UB UBBounds
    else do needed <- any_wanted (firstn (dim (DMix t ds)) ps);
         if negb needed then Ok (g, m) else soa_rows t ds (firstn (dim (DMix t ds)) ps) n 0 g m.
  Proof. reflexivity. Qed.
  Lemma soa_at_ok qs g m : forall ds i x, nth_error ds i = Some x -> soa_at qs g m ds (Z.of_nat i) = soa x 1 qs g m.
  Proof.
    induction ds as [|d ds IH]; intros [|i] x E; try discriminate.
    - cbn in E. injection E as ->. reflexivity.
    - change (soa_at qs g m (d :: ds) (Z.of_nat (S i))) with (if Z.of_nat (S i) =? 0 then soa d 1 qs g m else soa_at qs g m ds (Z.of_nat (S i) - 1)).
      destruct (Z.eqb_spec (Z.of_nat (S i)) 0); [lia|]. replace (Z.of_nat (S i) - 1) with (Z.of_nat i) by lia. apply IH. exact E.
  Qed.
  Lemma any_wanted_ok ps : ~ In PUninit ps -> any_wanted ps = Ok (existsb (fun b => b) (wanted ps)).
  Proof. induction ps as [|[|a|] l IH]; cbn; intro H; auto. destruct H. auto. Qed.
  Lemma any_wanted_bad ps : In PUninit ps -> any_wanted ps = UB UBUninit \/ any_wanted ps = Ok true.
  Proof. induction ps as [|[|a|] l IH]; cbn; intro H; auto; [destruct H|]. destruct H as [H|H]; [discriminate|auto]. Qed.
  Definition shift (i : nat) (p : ptr) : ptr := match p with PNull => PUninit | PAddr a => PAddr (a + i) | PUninit => PUninit end.
  Lemma row_pointers_ok ps i : ~ In PUninit ps -> row_pointers ps i = Ok (map (shift i) ps).
  Proof. induction ps as [|[|a|] l IH]; cbn; intro H; auto; try (rewrite IH by tauto; reflexivity). destruct H. auto. Qed.
  Lemma row_pointers_bad ps i : In PUninit ps -> row_pointers ps i = UB UBUninit.
  Proof. induction ps as [|[|a|] l IH]; cbn; intro H; auto; [destruct H| |]; destruct H as [H|H]; try discriminate; now rewrite (IH H). Qed.

  Lemma none_wanted ps : ~ In PUninit ps -> existsb (fun b => b) (wanted ps) = false -> forall p, In p ps -> p = PNull.
  Proof.
    intros U E p I. destruct p; [reflexivity| |contradiction]. exfalso.
    assert (X : existsb (fun b => b) (wanted ps) = true); [|congruence]. apply existsb_exists. exists true. split; [|reflexivity].
    unfold wanted. apply in_map_iff. exists (PAddr a). auto.
  Qed.
  Lemma all_true_ok : forall d want, (forall w, In w want -> w = true) -> all_or_none d want.
  Proof.
    induction d as [id|ds IH|t ds IH] using dist_induct; intros want H; [exact Logic.I| |left; exact H].
    cbn [all_or_none]. revert want H. induction IH as [|d ds A _ IH']; intros want H; [exact Logic.I|]. split.
    - apply A. intros w W. apply H. rewrite <- (firstn_skipn (dim d) want). apply in_or_app. auto.
    - apply IH'. intros w W. apply H. rewrite <- (firstn_skipn (dim d) want). apply in_or_app. auto.
  Qed.
  Lemma all_or_none_cons d ds want : all_or_none (DMulti (d :: ds)) want <->
    all_or_none d (firstn (dim d) want) /\ all_or_none (DMulti ds) (skipn (dim d) want).
  Proof. reflexivity. Qed.
  Lemma all_or_none_dec : forall d want, {all_or_none d want} + {~ all_or_none d want}.
  Proof.
    fix self 1. intros [id|ds|t ds] want.
    - left. exact Logic.I.
    - revert want. induction ds as [|d ds IH]; intro want; [left; exact Logic.I|].
      destruct (self d (firstn (dim d) want)) as [A|A]; [|right; intros [X _]; exact (A X)].
      destruct (IH (skipn (dim d) want)) as [B|B]; [left|right]; [exact (conj A B)|intros [_ X]; exact (B X)].
    - cbn [all_or_none]. destruct (forallb (fun b => b) want) eqn:A.
      + left. left. rewrite forallb_forall in A. exact A.
      + destruct (forallb negb want) eqn:B.
        * left. right. intros w W. rewrite forallb_forall in B. specialize (B w W). destruct w; [discriminate|reflexivity].
        * right. intros [H|H].
          -- rewrite (proj2 (forallb_forall _ _)) in A; [discriminate|exact H].
          -- rewrite (proj2 (forallb_forall _ _)) in B; [discriminate|]. intros w W. now rewrite (H w W).
  Defined.
  Definition usable d ps := ~ In PUninit (firstn (dim d) ps) /\ all_or_none d (wanted (firstn (dim d) ps)).
  Lemma uninit_dec (ps : list ptr) : {In PUninit ps} + {~ In PUninit ps}.
  Proof. apply in_dec. intros [|a|] [|b|]; try (right; discriminate); try (left; reflexivity). destruct (Nat.eq_dec a b); [left|right]; congruence. Defined.
  Lemma usable_dec d ps : {usable d ps} + {~ usable d ps}.
  Proof.
    unfold usable. destruct (uninit_dec (firstn (dim d) ps)) as [U|U]; [right; tauto|].
    destruct (all_or_none_dec d (wanted (firstn (dim d) ps))) as [A|A]; [left|right]; tauto.
  Defined.
  Lemma separate_skipn ps n len k : separate ps n len -> separate (skipn k ps) n len.
  Proof.
    intros [A B]. assert (E : forall j, nth_error (skipn k ps) j = nth_error ps (k + j)).
    { revert ps A B. induction k as [|k IH]; intros ps A B j; [reflexivity|]. destruct ps as [|p ps]; [destruct j; reflexivity|].
      cbn. apply IH; [intros q a; apply (A (S q))|intros q r a b H; apply (B (S q) (S r)); lia]. }
    split; [intros j a; rewrite E; apply A|]. intros j l a b D. rewrite !E. apply B. lia.
  Qed.
  Lemma nth_firstn {X} (l : list X) k j : (j < k)%nat -> nth_error (firstn k l) j = nth_error l j.
  Proof. revert l j. induction k as [|k IH]; intros [|x l] [|j] H; try lia; try reflexivity. cbn. apply IH. lia. Qed.
  Lemma wanted_length ps : length (wanted ps) = length ps. Proof. apply map_length. Qed.
  Lemma wanted_app a b : wanted (a ++ b) = wanted a ++ wanted b. Proof. apply map_app. Qed.
  Lemma skipn_firstn_split {X} (l : list X) a b : firstn (a + b) l = firstn a l ++ firstn b (skipn a l).
  Proof. revert l. induction a as [|a IH]; intros [|x l]; cbn; try reflexivity; [destruct b; reflexivity|]. now rewrite IH. Qed.

  Definition soa_good d := forall n ps g m, (0 < n)%nat -> (dim d <= length ps)%nat -> separate ps n (length m) ->
    let qs := firstn (dim d) ps in
    (usable d ps -> exists cs g' m', drawn d (wanted qs) n g cs g' /\ shaped (wanted qs) n cs /\
        soa d n ps g m = Ok (g', m') /\ updated m m' (soa_cells qs cs)) /\
    (~ usable d ps -> soa d n ps g m = UB UBUninit).

  Lemma leaf_soa id : soa_good (DLeaf id).
  Proof.
    intros n ps g m N L S qs. destruct ps as [|p ps]; [cbn in L; lia|]. subst qs. cbn [dim firstn]. unfold usable. cbn [dim firstn].
    destruct p as [|a|].
    - split; [intros _|intro H; exfalso; apply H; split; [intros [X|[]]; discriminate|exact Logic.I]].
      exists [None], g, m. split; [constructor|]. split; [constructor; [reflexivity|constructor]|]. split; [reflexivity|]. apply updated_refl.
      intros q v (k & i & b & P & _). destruct k as [|[|]]; discriminate.
    - split; [intros _|intro H; exfalso; apply H; split; [intros [X|[]]; discriminate|exact Logic.I]].
      destruct (leaf_good id None n a g m) as (cs & g' & m' & D & SH & R & U); [cbn; lia| |].
      { intros k i K I. cbn in *. destruct S as [S _]. specialize (S 0%nat a eq_refl). nia. }
      exists cs, g', m'. split; [exact D|]. split; [exact SH|]. split; [exact R|]. eapply updated_iff; [exact U|]. intros q v. cbn [dim]. unfold strided_cells, soa_cells. split.
      + intros (k & i & Q & V). destruct (value_range _ _ _ _ _ _ SH V) as (K & I & _). cbn in K. assert (k = 0)%nat by lia. subst k. exists 0%nat, i, a. split; [reflexivity|]. split; [lia|exact V].
      + intros (k & i & b & P & Q & V). destruct k as [|[|]]; try discriminate. cbn in P. injection P as <-. exists 0%nat, i. split; [lia|exact V].
    - split; [intros [H _]; destruct H; left; reflexivity|]. intros _. reflexivity.
  Qed.
  Lemma each_soa n ds : Forall soa_good ds -> (0 < n)%nat -> forall ps g m, (dim (DMulti ds) <= length ps)%nat -> separate ps n (length m) ->
    let qs := firstn (dim (DMulti ds)) ps in
    (usable (DMulti ds) ps -> exists cs g' m', drawn_all rng leaf uniform01 ds (wanted qs) n g cs g' /\ shaped (wanted qs) n cs /\
        soa_each n ds ps g m = Ok (g', m') /\ updated m m' (soa_cells qs cs)) /\
    (~ usable (DMulti ds) ps -> soa_each n ds ps g m = UB UBUninit).
  Proof.
    intros H N. induction H as [|d ds H HS IH]; intros ps g m L S qs.
    - split.
      + intros _. exists [], g, m. split; [constructor|]. split; [constructor|]. split; [reflexivity|]. apply updated_refl.
        intros q v (k & i & a & P & _). destruct k; discriminate.
      + intro U. destruct U. split; [intros []|exact Logic.I].
    - rewrite dim_cons in L. subst qs. rewrite dim_cons.
      assert (SPL : firstn (dim d + dim (DMulti ds)) ps = firstn (dim d) ps ++ firstn (dim (DMulti ds)) (skipn (dim d) ps)) by apply skipn_firstn_split.
      assert (LF : length (firstn (dim d) ps) = dim d) by (rewrite firstn_length; lia).
      assert (WF : firstn (dim d) (wanted (firstn (dim d + dim (DMulti ds)) ps)) = wanted (firstn (dim d) ps)).
      { rewrite SPL, wanted_app, firstn_app, wanted_length, LF, Nat.sub_diag, firstn_O, app_nil_r. apply firstn_all2. rewrite wanted_length. lia. }
      assert (WS : skipn (dim d) (wanted (firstn (dim d + dim (DMulti ds)) ps)) = wanted (firstn (dim (DMulti ds)) (skipn (dim d) ps))).
      { rewrite SPL, wanted_app, skipn_app, wanted_length, LF, Nat.sub_diag, skipn_O. rewrite skipn_all2; [reflexivity|]. rewrite wanted_length. lia. }
      assert (US : usable (DMulti (d :: ds)) ps <-> usable d ps /\ usable (DMulti ds) (skipn (dim d) ps)).
      { unfold usable. rewrite all_or_none_cons, dim_cons, WF, WS, SPL. split.
        - intros [U [A B]]. split; split; auto; intro X; apply U, in_or_app; auto.
        - intros [[U A] [U' B]]. split; [|auto]. intro X. apply in_app_or in X. tauto. }
      destruct (H n ps g m N ltac:(lia) S) as [HG HB].
      destruct (usable_dec d ps) as [U|U].
      2:{ split; [intro X; apply US in X; tauto|]. intros _. cbn [soa_each]. rewrite (HB U). reflexivity. }
      destruct (HG U) as (c1 & g1 & m1 & D1 & S1 & R1 & U1).
      assert (SS : separate (skipn (dim d) ps) n (length m1)) by (rewrite (proj1 U1); apply separate_skipn, S).
      destruct (IH (skipn (dim d) ps) g1 m1 ltac:(rewrite skipn_length; lia) SS) as [IG IB].
      cbn [soa_each]. rewrite R1. cbn [bind fst snd]. split.
      + intro X. apply US in X. destruct X as [_ X]. destruct (IG X) as (c2 & g2 & m2 & D2 & S2 & R2 & U2).
        exists (c1 ++ c2), g2, m2. rewrite SPL, wanted_app. split; [econstructor; eauto|]. split; [now apply shaped_app|]. split; [exact R2|].
        pose proof (shaped_length _ _ _ S1) as L1. unfold wanted in L1. rewrite map_length, LF in L1.
        eapply updated_comp; [exact U1|exact U2| |].
        * intros q v w (k & i & a & P & Q & V) (k' & i' & a' & P' & Q' & V').
          destruct (value_range _ _ _ _ _ _ S1 V) as (K & I & _). destruct (value_range _ _ _ _ _ _ S2 V') as (K' & I' & _).
          assert (E1 : nth_error ps k = Some (PAddr a)).
          { unfold wanted in K. rewrite map_length, LF in K. rewrite nth_firstn in P by exact K. exact P. }
          assert (E2 : nth_error ps (dim d + k') = Some (PAddr a')).
          { rewrite <- (firstn_skipn (dim d) ps), nth_error_app2 by lia. rewrite LF. replace (dim d + k' - dim d)%nat with k' by lia.
            rewrite <- P'. symmetry. apply nth_firstn. unfold wanted in K'. rewrite map_length, firstn_length in K'. lia. }
          destruct S as [_ S]. assert (k <> (dim d + k')%nat) by (unfold wanted in K; rewrite map_length, LF in K; lia).
          specialize (S k (dim d + k')%nat a a' H0 E1 E2). lia.
        * intros q v. unfold soa_cells. split.
          -- intros (k & i & a & P & Q & V). rewrite value_app, L1 in V. destruct (Nat.ltb_spec k (dim d)).
             ++ left. exists k, i, a. rewrite nth_error_app1 in P by lia. auto.
             ++ right. exists (k - dim d)%nat, i, a. rewrite nth_error_app2 in P by lia. rewrite LF in P. auto.
          -- intros [(k & i & a & P & Q & V)|(k & i & a & P & Q & V)].
             ++ exists k, i, a. destruct (value_range _ _ _ _ _ _ S1 V) as (K & _). unfold wanted in K. rewrite map_length, LF in K.
                rewrite nth_error_app1, value_app by lia. destruct (Nat.ltb_spec k (length c1)); [auto|lia].
             ++ exists (dim d + k)%nat, i, a. rewrite nth_error_app2, value_app by lia. rewrite LF.
                destruct (Nat.ltb_spec (dim d + k) (length c1)); [lia|]. replace (dim d + k - length c1)%nat with k by lia.
                replace (dim d + k - dim d)%nat with k by lia. auto.
      + intro X. apply IB. tauto.
  Qed.
  Lemma rows_soa t ds dm ps n : (forall d, In d ds -> soa_good d /\ dim d = dm) -> covering t (length ds) -> lenZ t <= 2 ^ 60 ->
    length ps = dm -> (forall p, In p ps -> exists a, p = PAddr a) ->
    forall k i g m, (i + k <= n)%nat -> separate ps n (length m) ->
    exists cs g' m', drawn_rows rng leaf uniform01 t ds (wanted ps) k g cs g' /\ shaped (wanted ps) k cs /\
      soa_rows t ds ps k i g m = Ok (g', m') /\ updated m m' (soa_cells (map (shift i) ps) cs).
  Proof.
    intros H CV LT LP AL. assert (NU : ~ In PUninit ps) by (intro X; destruct (AL _ X); discriminate).
    assert (WS : forall i, wanted (map (shift i) ps) = wanted ps).
    { intro i. unfold wanted. rewrite map_map. apply map_ext_in. intros p P. destruct (AL p P) as [a ->]. reflexivity. }
    assert (NS : forall i, ~ In PUninit (map (shift i) ps)).
    { intros i X. apply in_map_iff in X. destruct X as (p & E & P). destruct (AL p P) as [a ->]. discriminate. }
    assert (WT : forall w, In w (wanted ps) -> w = true).
    { intros w W. apply in_map_iff in W. destruct W as (p & <- & P). destruct (AL p P) as [a ->]. reflexivity. }
    assert (SN : forall i k a, nth_error (map (shift i) ps) k = Some (PAddr a) -> exists b, a = (b + i)%nat /\ nth_error ps k = Some (PAddr b)).
    { intros i k a E. rewrite nth_error_map in E. destruct (nth_error ps k) as [[|b|]|]; cbn in E; try discriminate. injection E as <-. eauto. }
    induction k as [|k IH]; intros i g m I S.
    - eexists _, g, m. split; [constructor|]. split; [apply empty_shaped|]. split; [reflexivity|]. apply updated_refl.
      intros q v (c & j & a & _ & _ & V). destruct (value_range _ _ _ _ _ _ (empty_shaped _) V). lia.
    - cbn [soa_rows]. pose proof (uniform_range g) as UR. destruct (uniform01 g) as [u g1] eqn:EU. cbn in UR.
      destruct (search_ok t (length ds) u CV LT UR) as (x & ES & X & A & _). unfold lenZ. rewrite ES. cbn [bind].
      rewrite (row_pointers_ok ps i NU). cbn [bind].
      destruct (nth_error ds x) as [d|] eqn:ED; [|apply nth_error_None in ED; lia]. rewrite (soa_at_ok _ g1 m ds x d ED).
      destruct (H d (nth_error_In _ _ ED)) as [HG HD].
      assert (FN : firstn (dim d) (map (shift i) ps) = map (shift i) ps) by (apply firstn_all2; rewrite map_length; lia).
      destruct (HG 1%nat (map (shift i) ps) g1 m) as [HU _]; [lia|rewrite map_length; lia| |].
      { destruct S as [S1 S2]. split.
        - intros c a E. destruct (SN _ _ _ E) as (b & -> & E'). specialize (S1 c b E'). lia.
        - intros c c' a a' D E E'. destruct (SN _ _ _ E) as (b & -> & F). destruct (SN _ _ _ E') as (b' & -> & F'). specialize (S2 c c' b b' D F F'). lia. }
      rewrite FN in HU. destruct HU as (row & g2 & m1 & D1 & SH1 & R1 & U1).
      { split; rewrite FN; [apply NS|]. apply all_true_ok. rewrite WS. exact WT. }
      rewrite R1. cbn [bind fst snd]. rewrite WS in D1, SH1.
      destruct (IH (Datatypes.S i) g2 m1 ltac:(lia)) as (rest & g3 & m2 & D2 & SH2 & R2 & U2); [rewrite (proj1 U1); exact S|].
      exists (on_top row rest), g3, m2. split; [econstructor; eauto|]. split; [now apply on_top_shaped|]. split; [exact R2|].
      eapply updated_comp; [exact U1|exact U2| |].
      + intros q v w (c & j & a & P & Q & V) (c' & j' & a' & P' & Q' & V').
        pose proof (value_single _ _ _ _ _ SH1 V). subst j. destruct (value_range _ _ _ _ _ _ SH2 V') as (_ & J' & _).
        destruct (SN _ _ _ P) as (b & -> & F). destruct (SN _ _ _ P') as (b' & -> & F').
        destruct S as [_ S]. destruct (Nat.eq_dec c c') as [->|D]; [rewrite F in F'; injection F' as <-; lia|]. specialize (S c c' b b' D F F'). lia.
      + intros q v. unfold soa_cells. split.
        * intros (c & [|j] & a & P & Q & V); destruct (on_top_value _ _ _ _ c SH1 SH2) as [V0 VS].
          -- rewrite V0 in V. left. exists c, 0%nat, a. auto.
          -- rewrite VS in V. right. destruct (SN _ _ _ P) as (b & -> & F). exists c, j, (b + Datatypes.S i)%nat.
             split; [rewrite nth_error_map, F; reflexivity|]. split; [lia|exact V].
        * intros [(c & j & a & P & Q & V)|(c & j & a & P & Q & V)]; destruct (on_top_value _ _ _ _ c SH1 SH2) as [V0 VS].
          -- pose proof (value_single _ _ _ _ _ SH1 V). subst j. exists c, 0%nat, a. split; [exact P|]. split; [exact Q|congruence].
          -- destruct (SN _ _ _ P) as (b & -> & F). exists c, (Datatypes.S j), (b + i)%nat.
             split; [rewrite nth_error_map, F; reflexivity|]. split; [lia|congruence].
  Qed.
  Lemma soa_ok : forall d, wf_dist d -> soa_good d.
  Proof.
    induction d as [id|ds IH|t ds IH] using dist_induct; intro W; [apply leaf_soa| |].
    - inversion W as [|? NE W'|]; subst. assert (G : Forall soa_good ds) by (rewrite Forall_forall in *; auto).
      intros n ps g m N L S qs. destruct (each_soa n ds G N ps g m L S) as [A B]. split.
      + intro U. destruct (A U) as (cs & g' & m' & D & X). exists cs, g', m'. split; [constructor; exact D|exact X].
      + exact B.
    - pose proof (dim_pos _ W) as DP. inversion W as [| |? d0 ds' W' CV LT]; subst.
      assert (G : forall d, In d (d0 :: ds') -> soa_good d /\ dim d = dim d0) by (rewrite Forall_forall in IH; intros d X; destruct (W' d X); auto).
      intros n ps g m N L S qs. change (dim (DMix t (d0 :: ds'))) with (dim d0) in *. rewrite soa_mix. change (dim (DMix t (d0 :: ds'))) with (dim d0).
      destruct (Nat.ltb_spec (length ps) (dim d0)); [lia|].
      assert (LQ : length qs = dim d0) by (unfold qs; rewrite firstn_length; lia).
      assert (SQ : separate qs n (length m)).
      { destruct S as [S1 S2]. assert (E : forall k p, nth_error qs k = Some p -> nth_error ps k = Some p).
        { intros k p E. assert (k < dim d0)%nat by (rewrite <- LQ; apply nth_error_Some; congruence). unfold qs in E. now rewrite nth_firstn in E. }
        split; [intros k a X; apply (S1 k a), E, X|]. intros j k a b D X Y. apply (S2 j k a b D); auto. }
      unfold usable. change (dim (DMix t (d0 :: ds'))) with (dim d0). fold qs. cbn [all_or_none].
      destruct n as [|n]; [lia|].
      assert (STEP : forall u g1 x d, uniform01 g = (u, g1) -> dichotomic_search (lenZ (d0 :: ds')) t u = Ok (Z.of_nat x) -> nth_error (d0 :: ds') x = Some d ->
        soa_rows t (d0 :: ds') qs (Datatypes.S n) 0 g m = (do rp <- row_pointers qs 0; do r <- soa d 1 rp g1 m; soa_rows t (d0 :: ds') qs n 1 (fst r) (snd r))).
      { intros u g1 x d EU ES ED. cbn [soa_rows]. rewrite EU, ES. cbn [bind]. destruct (row_pointers qs 0); cbn [bind]; try reflexivity. now rewrite (soa_at_ok _ g1 m _ x d ED). }
      pose proof (uniform_range g) as UR. destruct (uniform01 g) as [u g1] eqn:EU. cbn in UR.
      destruct (search_ok t (length (d0 :: ds')) u CV LT UR) as (x & ES & X & A & _). fold (lenZ (d0 :: ds')) in ES.
      destruct (nth_error (d0 :: ds') x) as [d|] eqn:ED; [|apply nth_error_None in ED; lia].
      specialize (STEP u g1 x d eq_refl ES ED). destruct (G d (nth_error_In _ _ ED)) as [HG HD].
      split.
      + intros [NU [AT|AF]].
        * assert (EX : existsb (fun b => b) (wanted qs) = true).
          { destruct (wanted qs) as [|b l] eqn:EW; [exfalso; apply (f_equal (@length bool)) in EW; unfold wanted in EW; rewrite map_length in EW; cbn in EW; lia|].
            cbn. now rewrite (AT b (or_introl eq_refl)). }
          rewrite (any_wanted_ok qs NU), EX. cbn [bind negb].
          assert (AL : forall p, In p qs -> exists a, p = PAddr a).
          { intros [|a|] P; [|eauto|contradiction]. exfalso. assert (false = true); [|discriminate]. apply AT. apply in_map_iff. exists PNull. auto. }
          destruct (rows_soa t (d0 :: ds') (dim d0) qs (Datatypes.S n) G CV LT LQ AL (Datatypes.S n) 0%nat g m ltac:(lia) SQ) as (cs & g' & m' & D & SH & R & U).
          exists cs, g', m'. split; [|split; [exact SH|split; [exact R|]]].
          -- constructor; [|exact D]. apply existsb_exists in EX. destruct EX as (b & B & E). now subst b.
          -- eapply updated_iff; [exact U|]. intros q v. unfold soa_cells. replace (map (shift 0) qs) with qs; [reflexivity|].
             rewrite <- (map_id qs) at 1. apply map_ext_in. intros p P. destruct (AL p P) as [a ->]. cbn. now rewrite Nat.add_0_r.
        * assert (EX : existsb (fun b => b) (wanted qs) = false).
          { destruct (existsb (fun b => b) (wanted qs)) eqn:E; [|reflexivity]. apply existsb_exists in E. destruct E as (b & B & ->). discriminate (AF true B). }
          rewrite (any_wanted_ok qs NU), EX. cbn [bind negb]. exists (map (fun _ => None) (wanted qs)), g, m.
          split; [constructor; intro T; discriminate (AF true T)|]. split; [apply none_shaped, AF|]. split; [reflexivity|]. apply updated_refl.
          intros q v (k & i & a & _ & _ & V). destruct (value_range _ _ _ _ _ _ (none_shaped _ 0 AF) V). lia.
      + intro NG. destruct (uninit_dec qs) as [U|U].
        * destruct (any_wanted_bad qs U) as [-> | ->]; cbn [bind negb]; [reflexivity|]. rewrite STEP, (row_pointers_bad qs 0 U). reflexivity.
        * rewrite (any_wanted_ok qs U). cbn [bind]. destruct (existsb (fun b => b) (wanted qs)) eqn:EX; cbn [negb].
          -- rewrite STEP, (row_pointers_ok qs 0 U). cbn [bind].
             assert (IU : In PUninit (map (shift 0) qs)).
             { apply existsb_exists in EX. destruct (existsb negb (wanted qs)) eqn:EN.
               - apply existsb_exists in EN. destruct EN as (b & B & E). destruct b; [discriminate|]. apply in_map_iff in B. destruct B as ([|a|] & E' & P); try discriminate.
                 apply in_map_iff. exists PNull. auto.
               - exfalso. apply NG. split; [exact U|]. left. intros w Wi. destruct w; [reflexivity|]. exfalso.
                 assert (existsb negb (wanted qs) = true); [|congruence]. apply existsb_exists. exists false. auto. }
             destruct (HG 1%nat (map (shift 0) qs) g1 m ltac:(lia) ltac:(rewrite map_length; lia)) as [_ HB].
             { assert (SN : forall k a, nth_error (map (shift 0) qs) k = Some (PAddr a) -> nth_error qs k = Some (PAddr a)).
               { intros k a E. rewrite nth_error_map in E. destruct (nth_error qs k) as [[|b|]|]; cbn in E; try discriminate. injection E as <-. now rewrite Nat.add_0_r. }
               destruct SQ as [S1 S2]. split; [intros k a E; specialize (S1 k a (SN _ _ E)); lia|].
               intros j k a b Dj E E'. specialize (S2 j k a b Dj (SN _ _ E) (SN _ _ E')). lia. }
             rewrite HB; [reflexivity|]. unfold usable. rewrite firstn_all2 by (rewrite map_length; lia). tauto.
          -- exfalso. apply NG. split; [exact U|]. right. intros w Wi. destruct w; [|reflexivity]. exfalso.
             assert (existsb (fun b => b) (wanted qs) = true); [|congruence]. apply existsb_exists. exists true. auto.
  Qed.
End Rng.

Section Api.
  Variable rng : Type.
  Variable leaf : nat -> rng -> nat -> list Z * rng.
  Variable uniform01 : rng -> Z * rng.
  Hypothesis leaf_length : forall id g n, length (fst (leaf id g n)) = n.
  Hypothesis uniform_range : forall g, unit_draw (fst (uniform01 g)).
  Lemma samples_api d n p g m : wf_dist d -> (0 < n)%nat -> (p + n * dim d <= length m)%nat ->
    exists cs g' m', drawn rng leaf uniform01 d (repeat true (dim d)) n g cs g' /\ shaped (repeat true (dim d)) n cs /\
      dist_samples rng leaf uniform01 d n p g m = Ok (g', m') /\ updated m m' (strided_cells p (dim d) cs).
  Proof.
    intros W N B. unfold dist_samples. destruct (Nat.eqb_spec n 0); [lia|].
    destruct (run_ok rng leaf uniform01 leaf_length uniform_range d W None n p g m) as (cs & g' & m' & X); [lia| |eauto].
    intros k i K I. nia.
  Qed.
  Lemma strided_api d n stride p g m : wf_dist d ->
    ((stride < dim d)%nat -> dist_strided rng leaf uniform01 d n stride p g m = Err ERR_INVALID_VALUE) /\
    ((dim d <= stride)%nat -> (0 < n)%nat -> (p + (n - 1) * stride + dim d <= length m)%nat ->
     exists cs g' m', drawn rng leaf uniform01 d (repeat true (dim d)) n g cs g' /\ shaped (repeat true (dim d)) n cs /\
      dist_strided rng leaf uniform01 d n stride p g m = Ok (g', m') /\ updated m m' (strided_cells p stride cs)).
  Proof.
    intro W. unfold dist_strided. destruct (Nat.ltb_spec stride (dim d)) as [L|L]; cbn; (split; [intro|intros D N B]); try lia; [reflexivity|].
    destruct (Nat.eqb_spec n 0); [lia|].
    destruct (run_ok rng leaf uniform01 leaf_length uniform_range d W (Some stride) n p g m) as (cs & g' & m' & X); [lia| |eauto].
    intros k i K I. assert (i * stride <= (n - 1) * stride)%nat by (apply Nat.mul_le_mono_r; lia). lia.
  Qed.
  Lemma soa_api d n ps g m : wf_dist d -> (0 < n)%nat -> length ps = dim d -> ~ In PUninit ps -> separate ps n (length m) ->
    (all_or_none d (wanted ps) -> exists cs g' m', drawn rng leaf uniform01 d (wanted ps) n g cs g' /\ shaped (wanted ps) n cs /\
      dist_soa rng leaf uniform01 d n ps g m = Ok (g', m') /\ updated m m' (soa_cells ps cs)) /\
    (~ all_or_none d (wanted ps) -> dist_soa rng leaf uniform01 d n ps g m = UB UBUninit).
  Proof.
    intros W N L NU S. unfold dist_soa. destruct (Nat.eqb_spec n 0); [lia|].
    destruct (soa_ok rng leaf uniform01 leaf_length uniform_range d W n ps g m N ltac:(lia) S) as [A B].
    unfold usable in *. rewrite firstn_all2 in A, B by lia. split; intro X; [apply A; auto|apply B; tauto].
  Qed.
End Api.
