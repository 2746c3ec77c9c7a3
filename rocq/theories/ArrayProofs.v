(** Growable arrays: the memory of an array, and what its operations do to it. *)
From Coq Require Import ZArith List Bool Permutation Sorted Lia.
From Verif Require Import Base ArrayModel ArraySpec.
Import ListNotations.
Open Scope Z_scope.

Lemma put_same : forall A (f : Z -> A) a v, put f a v a = v.
Proof. intros; unfold put; now rewrite Z.eqb_refl. Qed.
Lemma put_other : forall A (f : Z -> A) a v x, x <> a -> put f a v x = f x.
Proof. intros; unfold put; destruct (Z.eqb_spec x a); congruence. Qed.

Lemma u32_id : forall x, 0 <= x < 2 ^ 32 -> u32 x = x.
Proof. intros; unfold u32; now apply Z.mod_small. Qed.
Lemma u64_id : forall x, 0 <= x < 2 ^ 64 -> u64 x = x.
Proof. intros; unfold u64; now apply Z.mod_small. Qed.

(** Bytes in the middle of a block *)
Lemma load_app : forall st b x y z o n,
  mem st b = Some (x ++ y ++ z) -> o = lenZ x -> n = lenZ y ->
  load st (Some (b, o)) n = Ok y.
Proof.
  intros st b x y z o n M -> ->. unfold load, lenZ. rewrite M.
  rewrite !app_length.
  replace (0 <=? Z.of_nat (length x)) with true by (symmetry; apply Z.leb_le; lia).
  replace (Z.of_nat (length x) + Z.of_nat (length y) <=? _) with true
    by (symmetry; apply Z.leb_le; lia).
  cbn [andb]. rewrite !Nat2Z.id.
  rewrite skipn_app, skipn_all, Nat.sub_diag. cbn [Datatypes.app skipn].
  rewrite firstn_app, firstn_all, Nat.sub_diag. cbn [firstn].
  now rewrite app_nil_r.
Qed.

Lemma store_app : forall st b x y z o v,
  mem st b = Some (x ++ y ++ z) -> o = lenZ x -> length v = length y ->
  store st (Some (b, o)) v
  = Ok (mkState (arrs st) (put (mem st) b (Some (x ++ v ++ z)))).
Proof.
  intros st b x y z o v M -> L. unfold store, lenZ. rewrite M, L.
  rewrite !app_length.
  replace (0 <=? Z.of_nat (length x)) with true by (symmetry; apply Z.leb_le; lia).
  replace (Z.of_nat (length x) + Z.of_nat (length y) <=? _) with true
    by (symmetry; apply Z.leb_le; lia).
  cbn [andb]. rewrite !Nat2Z.id.
  rewrite firstn_app, firstn_all, Nat.sub_diag. cbn [firstn]. rewrite app_nil_r.
  rewrite app_assoc with (n := z), <- app_length, skipn_app, skipn_all, Nat.sub_diag.
  reflexivity.
Qed.

Lemma concat_len : forall (l : list (list cell)) sz,
  Forall (fun e => lenZ e = sz) l -> lenZ (concat l) = sz * lenZ l.
Proof.
  unfold lenZ. induction l as [|e l IH]; intros sz F; [cbn; lia|].
  inversion F; subst. cbn [concat]. rewrite app_length, Nat2Z.inj_add.
  rewrite (IH _ H2). cbn [length]. lia.
Qed.

(** The slots of an array: 0, or 8 times a power of two *)
Definition power (n : Z) : Prop := n = 0 \/ exists k, 0 <= k <= 28 /\ n = 8 * 2 ^ k.

Lemma power_small : forall n, power n -> 0 <= n <= 2 ^ 31.
Proof.
  intros n [->|(k & K & ->)]; [lia|].
  assert (2 ^ k <= 2 ^ 28) by (apply Z.pow_le_mono_r; lia).
  assert (0 < 2 ^ k) by (apply Z.pow_pos_nonneg; lia).
  change (2 ^ 31) with (8 * 2 ^ 28). lia.
Qed.

Lemma grow_from : forall m need k,
  0 < need <= 2 ^ 31 -> 0 <= k <= 28 -> (Z.of_nat m = 28 - k) ->
  (8 * 2 ^ k = 8 \/ 8 * 2 ^ k < 2 * need) ->
  forall fuel, (m < fuel)%nat ->
  exists r, grow fuel need (8 * 2 ^ k) = Ok r /\ fits need r /\ power r.
Proof.
  induction m as [|m IH]; intros need k ND K M LO fuel FU.
  - destruct fuel as [|fuel]; [lia|]. assert (k = 28) by lia. subst k.
    cbn [grow]. exists (8 * 2 ^ 28).
    replace (8 * 2 ^ 28 <? need) with false
      by (symmetry; apply Z.ltb_ge; change (8 * 2 ^ 28) with (2 ^ 31); lia).
    split; [reflexivity|]. split; [|right; exists 28; lia].
    split; [change (8 * 2 ^ 28) with (2 ^ 31); lia|].
    split; [exists 28; lia|exact LO].
  - destruct fuel as [|fuel]; [lia|]. cbn [grow].
    assert (0 < 2 ^ k) by (apply Z.pow_pos_nonneg; lia).
    destruct (Z.ltb_spec (8 * 2 ^ k) need) as [LT|GE].
    + destruct (Z.eqb_spec (8 * 2 ^ k) 0) as [E|_]; [lia|].
      rewrite u32_id.
      * replace (2 * (8 * 2 ^ k)) with (8 * 2 ^ (k + 1))
          by (rewrite Z.pow_add_r by lia; change (2 ^ 1) with 2; lia).
        apply IH; try lia.
        rewrite Z.pow_add_r by lia. change (2 ^ 1) with 2. lia.
      * lia.
    + exists (8 * 2 ^ k). split; [reflexivity|]. split; [|right; exists k; lia].
      split; [lia|]. split; [exists k; lia|exact LO].
Qed.

Lemma grow_zero : forall fuel need, 0 < need -> grow (S fuel) need 0 = grow fuel need (8 * 2 ^ 0).
Proof.
  intros fuel need H. cbn [grow]. replace (0 <? need) with true by (symmetry; apply Z.ltb_lt; lia).
  reflexivity.
Qed.

Lemma grow_ok : forall need n,
  0 < need <= 2 ^ 31 -> power n -> n < need ->
  exists r, grow turns need n = Ok r /\ fits need r /\ power r.
Proof.
  intros need n ND [->|(k & K & ->)] LT.
  - unfold turns. rewrite (grow_zero 39 need) by lia.
    apply (grow_from 28 need 0); [lia|lia|lia|left; reflexivity|lia].
  - unfold turns.
    apply (grow_from (Z.to_nat (28 - k)) need k); [lia|lia|lia|right; lia|lia].
Qed.

(** Beyond 2^31 slots the loop does not end *)
Lemma grow_never : forall fuel need n,
  2 ^ 31 < need -> power n -> grow fuel need n = UB UBDiverge.
Proof.
  induction fuel as [|fuel IH]; intros need n ND P; [reflexivity|].
  pose proof (power_small n P) as PS. cbn [grow].
  replace (n <? need) with true by (symmetry; apply Z.ltb_lt; lia).
  apply IH; [exact ND|].
  destruct P as [->|(k & K & ->)]; [right; exists 0; cbn; lia|].
  assert (0 < 2 ^ k) by (apply Z.pow_pos_nonneg; lia).
  destruct (Z.eqb_spec (8 * 2 ^ k) 0); [lia|].
  destruct (Z.eq_dec k 28) as [->|NE]; [left; reflexivity|].
  right. exists (k + 1). split; [lia|].
  rewrite u32_id.
  - rewrite Z.pow_add_r by lia. change (2 ^ 1) with 2. lia.
  - assert (2 ^ k <= 2 ^ 27) by (apply Z.pow_le_mono_r; lia).
    change (2 ^ 32) with (16 * (2 * 2 ^ 27)). lia.
Qed.

(** What an array is in memory *)
Record good (st : state) (v : view) : Prop := mkGood {
  g_sz : 0 < v_sz v < 2 ^ 32;
  g_all : Forall (fun e => lenZ e = v_sz v) (v_elems v);
  g_room : lenZ (v_elems v) <= v_room v <= v_slots v;
  g_pow : power (v_slots v);
  g_null : v_base v = 0 <-> v_room v = 0;
  g_mem : v_base v <> 0 ->
          exists rest, mem st (v_base v) = Some (concat (v_elems v) ++ rest)
                       /\ lenZ (concat (v_elems v) ++ rest) = v_room v * v_sz v }.

Definition held (v : view) : arr := mkArr (lenZ (v_elems v)) (v_slots v) (v_sz v) (v_base v).

Record inv (vs : views) (st : state) : Prop := mkInv {
  i_none : forall a, vs a = None -> arrs st a = None;
  i_arr : forall a v, vs a = Some v -> arrs st a = Some (held v);
  i_good : forall a v, vs a = Some v -> good st v;
  i_apart : forall a b v w, vs a = Some v -> vs b = Some w -> v_base v = v_base w ->
            v_base v <> 0 -> a = b }.

Lemma good_frame : forall st st' v,
  (v_base v <> 0 -> mem st' (v_base v) = mem st (v_base v)) -> good st v -> good st' v.
Proof.
  intros st st' v E [A B C D F G]. constructor; try assumption.
  intros NZ. rewrite (E NZ). exact (G NZ).
Qed.

Lemma lenZ_nonneg : forall A (l : list A), 0 <= lenZ l.
Proof. intros; unfold lenZ; lia. Qed.

Lemma slots_small : forall st v, good st v ->
  0 <= lenZ (v_elems v) <= v_slots v /\ v_slots v <= 2 ^ 31 /\ v_slots v < 2 ^ 32.
Proof.
  intros st v G. pose proof (power_small _ (g_pow _ _ G)). pose proof (g_room _ _ G).
  pose proof (lenZ_nonneg _ (v_elems v)). lia.
Qed.

Lemma slot_place : forall st v j, good st v -> (Z.of_nat j < v_room v) ->
  slot (held v) (Z.of_nat j) = place v j.
Proof.
  intros st v j G J. unfold slot, place, held. cbn.
  destruct (Z.eqb_spec (v_base v) 0) as [E|NE].
  - apply (g_null _ _ G) in E. lia.
  - rewrite u64_id; [reflexivity|].
    pose proof (g_sz _ _ G). pose proof (slots_small _ _ G). pose proof (g_room _ _ G). nia.
Qed.

(** An update of one array *)
Lemma inv_put : forall vs st st' a v v',
  inv vs st -> vs a = Some v ->
  (forall b, b <> a -> arrs st' b = arrs st b) ->
  arrs st' a = Some (held v') -> good st' v' ->
  (forall b w, vs b = Some w -> b <> a -> v_base w <> 0 ->
     v_base w <> v_base v' /\ mem st' (v_base w) = mem st (v_base w)) ->
  inv (put vs a (Some v')) st'.
Proof.
  intros vs st st' a v v' I V AO AS G O. constructor.
  - intros b NB. unfold put in NB. destruct (Z.eqb_spec b a); [discriminate|].
    rewrite AO by assumption. now apply (i_none _ _ I).
  - intros b w W. unfold put in W. destruct (Z.eqb_spec b a) as [->|NE].
    + injection W as <-. exact AS.
    + rewrite AO by assumption. now apply (i_arr _ _ I).
  - intros b w W. unfold put in W. destruct (Z.eqb_spec b a) as [->|NE].
    + injection W as <-. exact G.
    + apply (good_frame st); [|now apply (i_good _ _ I b)].
      intros NZ. now apply (O b w W NE NZ).
  - intros b c w x W X E NZ. unfold put in W, X.
    destruct (Z.eqb_spec b a) as [->|NB]; destruct (Z.eqb_spec c a) as [->|NC].
    + reflexivity.
    + injection W as <-. destruct (O c x X NC) as (D & _); [congruence|]. congruence.
    + injection X as <-. destruct (O b w W NB NZ) as (D & _). congruence.
    + exact (i_apart _ _ I b c w x W X E NZ).
Qed.

(** ... which keeps the block *)
Lemma inv_same : forall vs st st' a v v',
  inv vs st -> vs a = Some v ->
  (forall b, b <> a -> arrs st' b = arrs st b) ->
  arrs st' a = Some (held v') -> good st' v' -> v_base v' = v_base v ->
  (forall b, b <> v_base v -> mem st' b = mem st b) ->
  inv (put vs a (Some v')) st'.
Proof.
  intros vs st st' a v v' I V AO AS G B M.
  apply (inv_put vs st st' a v v' I V AO AS G).
  intros b w W NB NZ. rewrite B.
  assert (D : v_base w <> v_base v) by (intros E; apply NB; exact (i_apart _ _ I b a w v W V E NZ)).
  split; [exact D|]. now apply M.
Qed.

(** Only the count changes: the elements are the first of what the memory holds *)
Lemma good_prefix : forall st v l r,
  good st v -> v_elems v = l ++ r -> good st (elements v l).
Proof.
  intros st v l r G E. destruct G as [A B C D F H]. unfold elements.
  constructor; cbn [v_sz v_elems v_base v_room v_slots]; try assumption.
  - rewrite E in B. apply Forall_app in B. tauto.
  - rewrite E in C. unfold lenZ in *. rewrite app_length in C. lia.
  - intros NZ. destruct (H NZ) as (rest & M & L). exists (concat r ++ rest).
    rewrite E, concat_app, <- app_assoc in M, L. split; assumption.
Qed.

Lemma load_elem : forall st v l1 e l2,
  good st v -> v_elems v = l1 ++ e :: l2 ->
  load st (place v (length l1)) (v_sz v) = Ok e.
Proof.
  intros st v l1 e l2 G E. pose proof (g_room _ _ G) as R. rewrite E in R.
  unfold lenZ in R. rewrite app_length in R. cbn [length] in R.
  assert (NZ : v_base v <> 0) by (intros Z0; apply (g_null _ _ G) in Z0; lia).
  destruct (g_mem _ _ G NZ) as (rest & M & L).
  pose proof (g_all _ _ G) as F. rewrite E in F. apply Forall_app in F. destruct F as (F1 & F2).
  inversion F2 as [|x y H1 H2]; subst.
  rewrite E, concat_app in M. cbn [concat] in M. rewrite <- !app_assoc in M.
  apply (load_app st _ (concat l1) e (concat l2 ++ rest)); [exact M| |now symmetry].
  rewrite (concat_len l1 (v_sz v) F1). reflexivity.
Qed.

Lemma store_elem : forall st v l1 x l2 e,
  good st v -> v_elems v = l1 ++ x :: l2 -> lenZ e = v_sz v ->
  exists st', store st (place v (length l1)) e = Ok st' /\ arrs st' = arrs st
    /\ good st' (elements v (l1 ++ e :: l2))
    /\ (forall b, b <> v_base v -> mem st' b = mem st b).
Proof.
  intros st v l1 x l2 e G E LE. pose proof (g_room _ _ G) as R. rewrite E in R.
  unfold lenZ in R. rewrite app_length in R. cbn [length] in R.
  assert (NZ : v_base v <> 0) by (intros Z0; apply (g_null _ _ G) in Z0; lia).
  destruct (g_mem _ _ G NZ) as (rest & M & L).
  pose proof (g_all _ _ G) as F. rewrite E in F. apply Forall_app in F. destruct F as (F1 & F2).
  inversion F2 as [|x0 y H1 H2]; subst.
  assert (EL : length e = length x) by (unfold lenZ in *; lia).
  rewrite E, concat_app in M, L. cbn [concat] in M, L. rewrite <- !app_assoc in M, L.
  eexists. split.
  { apply (store_app st _ (concat l1) x (concat l2 ++ rest)); [exact M| |exact EL].
    rewrite (concat_len l1 (v_sz v) F1). reflexivity. }
  split; [reflexivity|]. split.
  - destruct G as [A B C D F H]. unfold elements.
    constructor; cbn [v_sz v_elems v_base v_room v_slots mem]; try assumption.
    + apply Forall_app. split; [exact F1|]. constructor; assumption.
    + unfold lenZ. rewrite app_length. cbn [length]. exact (conj (proj1 R) (proj2 R)).
    + intros _. exists rest. rewrite put_same, concat_app. cbn [concat]. rewrite <- !app_assoc.
      split; [reflexivity|]. rewrite <- L. unfold lenZ. rewrite !app_length. lia.
  - intros b NB. cbn [mem]. now apply put_other.
Qed.

(** New elements, where there is room *)
Lemma store_new : forall st v es bytes,
  good st v -> Forall (fun e => lenZ e = v_sz v) es -> bytes = concat es -> es <> [] ->
  lenZ (v_elems v) + lenZ es <= v_room v ->
  exists st', store st (place v (length (v_elems v))) bytes = Ok st' /\ arrs st' = arrs st
    /\ good st' (elements v (v_elems v ++ es))
    /\ (forall b, b <> v_base v -> mem st' b = mem st b).
Proof.
  intros st v es bytes G FE -> NN R.
  assert (LP : 0 < lenZ es) by (destruct es; [congruence|unfold lenZ; cbn [length]; lia]).
  pose proof (lenZ_nonneg _ (v_elems v)) as L0.
  assert (NZ : v_base v <> 0) by (intros Z0; apply (g_null _ _ G) in Z0; lia).
  destruct (g_mem _ _ G NZ) as (rest & M & L).
  pose proof (concat_len es _ FE) as CE.
  pose proof (concat_len (v_elems v) _ (g_all _ _ G)) as CV.
  pose proof (g_sz _ _ G) as SZ.
  assert (LR : lenZ (concat es) <= lenZ rest).
  { unfold lenZ in L at 1. rewrite app_length, Nat2Z.inj_add in L.
    fold (lenZ (concat (v_elems v))) in L. fold (lenZ rest) in L. nia. }
  set (k := length (concat es)).
  assert (K : (k <= length rest)%nat) by (unfold k, lenZ in *; lia).
  assert (SP : rest = firstn k rest ++ skipn k rest) by (now rewrite firstn_skipn).
  rewrite SP in M.
  eexists. split.
  { apply (store_app st _ (concat (v_elems v)) (firstn k rest) (skipn k rest)); [exact M| |].
    - rewrite CV. reflexivity.
    - rewrite firstn_length, Nat.min_l by exact K. reflexivity. }
  split; [reflexivity|]. split.
  - destruct G as [A B C D F H]. unfold elements.
    constructor; cbn [v_sz v_elems v_base v_room v_slots mem]; try assumption.
    + apply Forall_app. split; assumption.
    + unfold lenZ in *. rewrite app_length. lia.
    + intros _. exists (skipn k rest). rewrite put_same, concat_app, <- !app_assoc.
      split; [reflexivity|]. rewrite <- L. unfold lenZ.
      rewrite !app_length, skipn_length. unfold k in *. lia.
  - intros b NB. cbn [mem]. now apply put_other.
Qed.

(** Growing *)
Lemma reserve_ok : forall vs st a v by_ ans,
  inv vs st -> vs a = Some v -> 0 < by_ -> lenZ (v_elems v) + by_ <= 2 ^ 31 ->
  unused vs a ans -> has_room v (lenZ (v_elems v) + by_) ->
  (lenZ (v_elems v) + by_ <= v_slots v /\ reserve st a by_ ans = Ok (false, st))
  \/ (v_slots v < lenZ (v_elems v) + by_ /\ v_room v = v_slots v
      /\ exists r, fits (lenZ (v_elems v) + by_) r
         /\ ((ans = 0 /\ exists st', reserve st a by_ ans = Ok (true, st')
              /\ inv (put vs a (Some (mkView (v_sz v) (v_elems v) (v_base v) (v_room v) r))) st')
             \/ (ans <> 0 /\ exists st', reserve st a by_ ans = Ok (false, st')
              /\ inv (put vs a (Some (mkView (v_sz v) (v_elems v) ans r r))) st'))).
Proof.
  intros vs st a v by_ ans I V BY SM UN HR.
  pose proof (i_good _ _ I a v V) as G. pose proof (slots_small _ _ G) as SS.
  unfold reserve, get. rewrite (i_arr _ _ I a v V). cbn [bind held a_i a_n a_sz a_d].
  rewrite u32_id by lia.
  destruct (Z.gtb_spec (lenZ (v_elems v) + by_) (v_slots v)) as [GT|LE].
  2:{ left. split; [lia|reflexivity]. }
  right. split; [lia|].
  assert (RS : v_room v = v_slots v).
  { destruct HR as [H|H]; [|exact H]. pose proof (g_room _ _ G). lia. }
  split; [exact RS|].
  destruct (grow_ok (lenZ (v_elems v) + by_) (v_slots v)) as (r & GR & FI & PW);
    [lia|exact (g_pow _ _ G)|lia|].
  exists r. split; [exact FI|]. rewrite GR. cbn [bind].
  pose proof (g_sz _ _ G) as SZ. pose proof (power_small _ PW) as RB.
  destruct FI as (F1 & F2 & F3).
  rewrite u64_id by nia.
  unfold realloc. destruct (Z.eqb_spec ans 0) as [->|NZ]; [left|right]; (split; [assumption || reflexivity|]).
  - eexists. split; [reflexivity|].
    apply (inv_same vs st _ a v _ I V); cbn [v_base set arrs mem].
    + intros b NB. now apply put_other.
    + rewrite put_same. reflexivity.
    + destruct G as [A B C D F H]. constructor; cbn [v_sz v_elems v_base v_room v_slots]; try assumption.
      lia.
    + reflexivity.
    + reflexivity.
  - eexists. split; [reflexivity|].
    set (bytes := match mem st (v_base v) with Some cs => cs | None => [] end).
    set (blk := firstn (Z.to_nat (r * v_sz v)) (bytes ++ repeat None (Z.to_nat (r * v_sz v)))).
    assert (BB : exists rest, bytes ++ rest = bytes ++ repeat None (Z.to_nat (r * v_sz v))) by (eexists; reflexivity).
    assert (CB : (v_base v = 0 /\ v_elems v = []) \/ exists rest, bytes = concat (v_elems v) ++ rest
              /\ lenZ bytes = v_room v * v_sz v).
    { destruct (Z.eq_dec (v_base v) 0) as [E|NE].
      - left. split; [exact E|]. apply (g_null _ _ G) in E. pose proof (g_room _ _ G) as R.
        destruct (v_elems v); [reflexivity|]. unfold lenZ in R. cbn [length] in R. lia.
      - right. destruct (g_mem _ _ G NE) as (rest & M & L). exists rest. unfold bytes. rewrite M.
        split; [reflexivity|exact L]. }
    assert (LB : lenZ blk = r * v_sz v).
    { unfold blk, lenZ. rewrite firstn_length, app_length, repeat_length. nia. }
    assert (PB : exists rest, blk = concat (v_elems v) ++ rest).
    { destruct CB as [(_ & E)|(rest & E & L)].
      - rewrite E. exists blk. reflexivity.
      - assert (LC : (length (concat (v_elems v)) <= Z.to_nat (r * v_sz v))%nat).
        { assert (lenZ (concat (v_elems v)) <= lenZ bytes).
          { rewrite E. unfold lenZ. rewrite app_length. lia. }
          unfold lenZ in *. nia. }
        exists (firstn (Z.to_nat (r * v_sz v) - length (concat (v_elems v)))
                  (rest ++ repeat None (Z.to_nat (r * v_sz v)))).
        unfold blk. rewrite E, <- app_assoc, firstn_app. f_equal.
        apply firstn_all2. exact LC. }
    apply (inv_put vs st _ a v _ I V); cbn [v_base set arrs mem].
    + intros b NB. now apply put_other.
    + rewrite put_same. reflexivity.
    + destruct G as [A B C D F H]. constructor; cbn [v_sz v_elems v_base v_room v_slots mem]; try assumption.
      * lia.
      * split; intros; lia.
      * intros _. destruct PB as (rest & E). exists rest. cbn [set mem]. rewrite put_same. fold bytes. fold blk.
        rewrite <- E. split; [reflexivity|exact LB].
    + intros b w W NB NW. pose proof (UN b w W NB) as D. split; [exact D|].
      rewrite put_other by exact D. apply put_other.
      intros E. apply NB. exact (i_apart _ _ I b a w v W V E NW).
Qed.
