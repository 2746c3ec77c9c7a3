(** Growable arrays: every operation does what is said of it. *)
From Coq Require Import ZArith List Bool Permutation Sorted Lia.
From Verif Require Import Base ArrayModel ArraySpec ArrayProofs.
Import ListNotations.
Open Scope Z_scope.

Lemma get_ok : forall vs st a v, inv vs st -> vs a = Some v -> get st a = Ok (held v).
Proof. intros vs st a v I V. unfold get. now rewrite (i_arr _ _ I a v V). Qed.

Lemma split_at : forall A (l : list A) j, (j < length l)%nat ->
  exists l1 e l2, l = l1 ++ e :: l2 /\ length l1 = j.
Proof.
  intros A l j J. destruct (nth_error l j) as [e|] eqn:N.
  - destruct (nth_error_split l j N) as (l1 & l2 & E & L). exists l1, e, l2. auto.
  - apply nth_error_None in N. lia.
Qed.

(** Only the number of elements changes *)
Lemma inv_prefix : forall vs st a v l r,
  inv vs st -> vs a = Some v -> v_elems v = l ++ r ->
  inv (put vs a (Some (elements v l)))
      (set st a (mkArr (lenZ l) (v_slots v) (v_sz v) (v_base v))).
Proof.
  intros vs st a v l r I V E.
  apply (inv_same vs st _ a v _ I V); cbn [set arrs mem elements v_base].
  - intros b NB. now apply put_other.
  - rewrite put_same. reflexivity.
  - apply (good_frame st); [reflexivity|].
    exact (good_prefix st v l r (i_good _ _ I a v V) E).
  - reflexivity.
  - reflexivity.
Qed.

(** The places of the elements *)
Lemma slot_ok : forall vs st a v j, inv vs st -> vs a = Some v -> (j < length (v_elems v))%nat ->
  slot (held v) (Z.of_nat j) = place v j.
Proof.
  intros vs st a v j I V J. pose proof (i_good _ _ I a v V) as G.
  apply (slot_place st v j G). pose proof (g_room _ _ G). unfold lenZ in *. lia.
Qed.

Lemma eltidx_ok : forall vs st a v j, inv vs st -> vs a = Some v -> (j < length (v_elems v))%nat ->
  eltidx (held v) (v_base v, v_sz v * Z.of_nat j) = Ok (Z.of_nat j).
Proof.
  intros vs st a v j I V J. pose proof (i_good _ _ I a v V) as G.
  pose proof (g_sz _ _ G) as SZ. pose proof (slots_small _ _ G) as SS. unfold lenZ in SS.
  unfold eltidx, held. cbn [fst snd a_d a_sz]. rewrite Z.eqb_refl.
  destruct (Z.eqb_spec (v_sz v) 0); [lia|]. rewrite u64_id by nia.
  rewrite Z.mul_comm, Z.div_mul by lia. reflexivity.
Qed.

Lemma front_ok : forall vs st a v, inv vs st -> vs a = Some v ->
  front st a = Ok (match v_elems v with [] => None | _ => place v 0 end).
Proof.
  intros vs st a v I V. unfold front. rewrite (get_ok vs st a v I V). cbn [bind].
  destruct (v_elems v) as [|e l] eqn:E.
  - unfold held. rewrite E. reflexivity.
  - replace (a_i (held v) =? 0) with false.
    + f_equal. apply (slot_ok vs st a v 0 I V). rewrite E. cbn [length]. lia.
    + symmetry. apply Z.eqb_neq. unfold held, lenZ. cbn [a_i]. rewrite E. cbn [length]. lia.
Qed.

Lemma back_ok : forall vs st a v, inv vs st -> vs a = Some v ->
  back st a = Ok (match v_elems v with [] => None | _ => place v (length (v_elems v) - 1) end).
Proof.
  intros vs st a v I V. unfold back. rewrite (get_ok vs st a v I V). cbn [bind].
  destruct (v_elems v) as [|e l] eqn:E.
  - unfold held. rewrite E. reflexivity.
  - pose proof (slots_small _ _ (i_good _ _ I a v V)) as SS. unfold lenZ in SS.
    rewrite E in SS. cbn [length] in SS.
    replace (a_i (held v) =? 0) with false.
    + f_equal. unfold held at 2. cbn [a_i]. unfold lenZ. rewrite E.
      rewrite u32_id by (cbn [length]; lia).
      replace (Z.of_nat (length (e :: l)) - 1) with (Z.of_nat (length (e :: l) - 1))
        by (cbn [length]; lia).
      apply (slot_ok vs st a v _ I V). rewrite E. cbn [length]. lia.
    + symmetry. apply Z.eqb_neq. unfold held, lenZ. cbn [a_i]. rewrite E. cbn [length]. lia.
Qed.

Lemma next_ok : forall vs st a v j, inv vs st -> vs a = Some v -> (j < length (v_elems v))%nat ->
  next st a (place v j)
  = Ok (if (j + 1 <? length (v_elems v))%nat then place v (j + 1) else None).
Proof.
  intros vs st a v j I V J. unfold next, place at 1. rewrite (get_ok vs st a v I V). cbn [bind].
  rewrite (eltidx_ok vs st a v j I V J). cbn [bind].
  pose proof (slots_small _ _ (i_good _ _ I a v V)) as SS. unfold lenZ in SS.
  rewrite u64_id by lia. unfold held at 1. cbn [a_i]. unfold lenZ.
  replace (Z.of_nat j + 1) with (Z.of_nat (j + 1)) by lia.
  destruct (Nat.ltb_spec (j + 1) (length (v_elems v))) as [LT|GE].
  - destruct (Z.eqb_spec (Z.of_nat (length (v_elems v))) (Z.of_nat (j + 1))); [lia|].
    rewrite (slot_ok vs st a v (j + 1) I V LT). reflexivity.
  - destruct (Z.eqb_spec (Z.of_nat (length (v_elems v))) (Z.of_nat (j + 1))); [reflexivity|lia].
Qed.

Lemma prev_ok : forall vs st a v j, inv vs st -> vs a = Some v -> (j < length (v_elems v))%nat ->
  prev st a (place v j) = Ok (match j with O => None | S i => place v i end).
Proof.
  intros vs st a v j I V J. unfold prev, place at 1. rewrite (get_ok vs st a v I V). cbn [bind].
  rewrite (eltidx_ok vs st a v j I V J). cbn [bind].
  pose proof (slots_small _ _ (i_good _ _ I a v V)) as SS. unfold lenZ in SS.
  destruct j as [|i]; [reflexivity|].
  destruct (Z.eqb_spec (Z.of_nat (S i)) 0); [lia|].
  rewrite u64_id by lia. replace (Z.of_nat (S i) - 1) with (Z.of_nat i) by lia.
  f_equal. apply (slot_ok vs st a v i I V). lia.
Qed.

(** Going through an array *)
Lemma load_at : forall vs st a v j e, inv vs st -> vs a = Some v ->
  nth_error (v_elems v) j = Some e -> load st (place v j) (v_sz v) = Ok e.
Proof.
  intros vs st a v j e I V N. destruct (nth_error_split _ _ N) as (l1 & l2 & E & <-).
  exact (load_elem st v l1 e l2 (i_good _ _ I a v V) E).
Qed.

Lemma each_next : forall vs st a v l2 l1 e fuel, inv vs st -> vs a = Some v ->
  v_elems v = l1 ++ e :: l2 -> (length l2 < fuel)%nat ->
  each fuel next st a (v_sz v) (place v (length l1)) = Ok l2.
Proof.
  intros vs st a v l2. induction l2 as [|x l2 IH]; intros l1 e fuel I V E F;
    (destruct fuel as [|fuel]; [cbn in F; lia|]); cbn [each];
    rewrite (next_ok vs st a v (length l1) I V)
      by (rewrite E, app_length; cbn [length]; lia); cbn [bind].
  - replace (length l1 + 1 <? length (v_elems v))%nat with false
      by (symmetry; apply Nat.ltb_ge; rewrite E, app_length; cbn [length]; lia).
    reflexivity.
  - replace (length l1 + 1 <? length (v_elems v))%nat with true
      by (symmetry; apply Nat.ltb_lt; rewrite E, app_length; cbn [length]; lia).
    replace (length l1 + 1)%nat with (length (l1 ++ [e])) by (rewrite app_length; reflexivity).
    assert (E' : v_elems v = (l1 ++ [e]) ++ x :: l2) by (rewrite <- app_assoc; exact E).
    pose proof (load_elem st v _ x l2 (i_good _ _ I a v V) E') as LD.
    pose proof (IH _ x fuel I V E' ltac:(cbn [length] in F; lia)) as R.
    unfold place at 1. rewrite LD. cbn [bind]. rewrite R. reflexivity.
Qed.

Lemma each_prev : forall vs st a v l1 e l2 fuel, inv vs st -> vs a = Some v ->
  v_elems v = l1 ++ e :: l2 -> (length l1 < fuel)%nat ->
  each fuel prev st a (v_sz v) (place v (length l1)) = Ok (rev l1).
Proof.
  intros vs st a v l1. induction l1 as [|x l1 IH] using rev_ind; intros e l2 fuel I V E F;
    (destruct fuel as [|fuel]; [cbn in F; lia|]); cbn [each];
    rewrite (prev_ok vs st a v _ I V)
      by (rewrite E, !app_length; cbn [length]; lia); cbn [bind].
  - reflexivity.
  - assert (E' : v_elems v = l1 ++ x :: e :: l2) by (rewrite E, <- app_assoc; reflexivity).
    rewrite app_length, Nat.add_1_r in F |- *.
    pose proof (load_elem st v _ x _ (i_good _ _ I a v V) E') as LD.
    pose proof (IH x (e :: l2) fuel I V E' ltac:(lia)) as R.
    unfold place at 1. rewrite LD. cbn [bind]. rewrite R. cbn [bind].
    rewrite rev_app_distr. reflexivity.
Qed.

Lemma each_forwards : forall vs st a v fuel, inv vs st -> vs a = Some v ->
  (length (v_elems v) < fuel)%nat -> each fuel next st a (v_sz v) None = Ok (v_elems v).
Proof.
  intros vs st a v fuel I V F. destruct fuel as [|fuel]; [lia|]. cbn [each].
  change (next st a None) with (front st a). rewrite (front_ok vs st a v I V). cbn [bind].
  destruct (v_elems v) as [|e l] eqn:E; [reflexivity|].
  pose proof (load_elem st v [] e l (i_good _ _ I a v V) E) as LD.
  pose proof (each_next vs st a v l [] e fuel I V E ltac:(cbn [length] in F; lia)) as R.
  cbn [length] in LD, R. unfold place at 1. rewrite LD. cbn [bind]. rewrite R. reflexivity.
Qed.

Lemma each_backwards : forall vs st a v fuel, inv vs st -> vs a = Some v ->
  (length (v_elems v) < fuel)%nat -> each fuel prev st a (v_sz v) None = Ok (rev (v_elems v)).
Proof.
  intros vs st a v fuel I V F. destruct fuel as [|fuel]; [lia|]. cbn [each].
  change (prev st a None) with (back st a). rewrite (back_ok vs st a v I V). cbn [bind].
  destruct (v_elems v) as [|x l] eqn:E; [reflexivity|]. rewrite <- E in *.
  destruct (exists_last (l := v_elems v)) as (l1 & e & E2); [rewrite E; discriminate|].
  pose proof (load_elem st v l1 e [] (i_good _ _ I a v V) E2) as LD.
  pose proof (each_prev vs st a v l1 e [] fuel I V E2) as R.
  replace (length (v_elems v) - 1)%nat with (length l1)
    by (rewrite E2, app_length; cbn [length]; lia).
  unfold place at 1. rewrite LD. cbn [bind].
  rewrite R by (rewrite E2, app_length in F; cbn [length] in F; lia).
  cbn [bind]. rewrite E2, rev_app_distr. reflexivity.
Qed.

(** Adding elements *)
Lemma held_inj_len : forall v, a_i (held v) = lenZ (v_elems v).
Proof. reflexivity. Qed.

Lemma add_ok : forall vs st a v es bytes, inv vs st -> vs a = Some v ->
  Forall (fun e => lenZ e = v_sz v) es -> bytes = concat es -> es <> [] ->
  lenZ (v_elems v) + lenZ es <= v_room v ->
  forall st0, mem st0 = mem st -> 
  exists st', store st0 (slot (held v) (lenZ (v_elems v))) bytes = Ok st'
    /\ arrs st' = arrs st0
    /\ good st' (elements v (v_elems v ++ es))
    /\ (forall b, b <> v_base v -> mem st' b = mem st b).
Proof.
  intros vs st a v es bytes I V F B NN R st0 M.
  pose proof (i_good _ _ I a v V) as G.
  assert (G0 : good st0 v) by (apply (good_frame st); [intros; now rewrite M|exact G]).
  assert (LP : 0 < lenZ es) by (destruct es; [congruence|unfold lenZ; cbn [length]; lia]).
  assert (SL : slot (held v) (lenZ (v_elems v)) = place v (length (v_elems v))).
  { unfold lenZ at 1. apply (slot_place st v _ G). unfold lenZ in *. lia. }
  rewrite SL.
  destruct (store_new st0 v es bytes G0 F B NN R) as (st' & S1 & S2 & S3 & S4).
  exists st'. split; [exact S1|]. split; [exact S2|]. split; [exact S3|].
  intros b NB. rewrite (S4 b NB). now rewrite M.
Qed.

Lemma put_put : forall (vs : views) a x y b, put (put vs a x) a y b = put vs a y b.
Proof. intros. unfold put. destruct (b =? a); reflexivity. Qed.

Lemma inv_ext : forall vs vs' st, (forall b, vs' b = vs b) -> inv vs st -> inv vs' st.
Proof.
  intros vs vs' st E I. constructor; intros *; rewrite ?E; apply I.
Qed.

Lemma push_room : forall vs st a v e, inv vs st -> vs a = Some v -> lenZ e = v_sz v ->
  lenZ (v_elems v) + 1 <= v_room v ->
  exists st', (do r <- get st a;
    do st <- store (set st a (mkArr (u32 (a_i r + 1)) (a_n r) (a_sz r) (a_d r)))
               (slot r (a_i r)) e; Ok (false, st)) = Ok (false, st')
    /\ inv (put vs a (Some (elements v (v_elems v ++ [e])))) st'.
Proof.
  intros vs st a v e I V LE R. rewrite (get_ok vs st a v I V). cbn [bind].
  pose proof (slots_small _ _ (i_good _ _ I a v V)) as SS.
  pose proof (g_room _ _ (i_good _ _ I a v V)) as RR.
  destruct (add_ok vs st a v [e] e I V) with
    (st0 := set st a (mkArr (u32 (a_i (held v) + 1)) (a_n (held v)) (a_sz (held v)) (a_d (held v))))
    as (st' & S1 & S2 & S3 & S4); try reflexivity.
  - constructor; [exact LE|constructor].
  - cbn [concat]. now rewrite app_nil_r.
  - discriminate.
  - exact R.
  - rewrite held_inj_len in S1 |- *. rewrite S1. cbn [bind]. exists st'. split; [reflexivity|].
    apply (inv_same vs st _ a v _ I V); [| |exact S3|reflexivity|exact S4].
    + intros b NB. rewrite S2. cbn [set arrs]. now apply put_other.
    + rewrite S2. cbn [set arrs]. rewrite put_same. unfold held.
      cbn [a_i a_n a_sz a_d elements v_elems v_slots v_sz v_base]. repeat f_equal.
      rewrite u32_id by lia. unfold lenZ. rewrite app_length. cbn [length]. lia.
Qed.

Lemma push_ok : forall vs st a v e ans, inv vs st -> vs a = Some v -> lenZ e = v_sz v ->
  lenZ (v_elems v) + 1 <= 2 ^ 31 -> has_room v (lenZ (v_elems v) + 1) -> unused vs a ans ->
  exists oom st' vs', push_back st a e ans = Ok (oom, st')
    /\ does vs (Push a e ans) (Did oom) vs' /\ inv vs' st'.
Proof.
  intros vs st a v e ans I V LE SM HR UN. unfold push_back.
  pose proof (i_good _ _ I a v V) as G. pose proof (g_room _ _ G) as RR.
  destruct (reserve_ok vs st a v 1 ans I V ltac:(lia) SM UN HR)
    as [(LS & RS)|(LS & RE & r & FI & [(-> & st' & RS & I')|(NZ & st' & RS & I')])];
    rewrite RS; cbn [bind].
  - assert (R : lenZ (v_elems v) + 1 <= v_room v) by (destruct HR as [H|H]; lia).
    destruct (push_room vs st a v e I V LE R) as (st' & P & I').
    exists false, st'. eexists. split; [exact P|]. split; [|exact I'].
    apply (does_push vs a v e ans V). lia.
  - exists true, st'. eexists. split; [reflexivity|]. split; [|exact I'].
    apply (does_not_push vs a v e r V); [lia|exact FI].
  - set (v' := mkView (v_sz v) (v_elems v) ans r r) in *.
    destruct (push_room _ st' a v' e I' (put_same _ _ _ _) LE) as (st'' & P & I'').
    { destruct FI. exact H. }
    exists false, st''. eexists. split; [exact P|]. split.
    + apply (does_push_grow vs a v e ans r V); [lia|exact NZ|exact FI].
    + refine (inv_ext _ _ st'' _ I''). intros b. symmetry. apply put_put.
Qed.

(** Resizing *)
Lemma concat_zeros : forall n m,
  concat (repeat (repeat (Some 0) n) m) = repeat (Some 0 : cell) (m * n).
Proof.
  intros n m. induction m as [|m IH]; [reflexivity|].
  cbn [repeat concat Nat.mul]. rewrite IH, repeat_app. reflexivity.
Qed.

Definition zeros (v : view) (num : Z) : list (list cell) :=
  repeat (repeat (Some 0) (Z.to_nat (v_sz v))) (Z.to_nat (num - lenZ (v_elems v))).

Lemma extend_room : forall vs st a v num, inv vs st -> vs a = Some v ->
  lenZ (v_elems v) < num <= v_room v -> num <= 2 ^ 31 ->
  exists st', (do (oom, st) <- (do r <- get st a;
         do st <- store st (slot r (a_i r))
                    (repeat (Some 0) (Z.to_nat (u64 (a_sz r * (num - a_i r)))));
         Ok (false, st));
    if oom then Ok (true, st)
    else do r <- get st a; Ok (false, set st a (mkArr (u32 num) (a_n r) (a_sz r) (a_d r))))
   = Ok (false, st')
   /\ inv (put vs a (Some (elements v (v_elems v ++ zeros v num)))) st'.
Proof.
  intros vs st a v num I V R SM. rewrite (get_ok vs st a v I V). cbn [bind].
  pose proof (i_good _ _ I a v V) as G. pose proof (slots_small _ _ G) as SS.
  pose proof (g_sz _ _ G) as SZ.
  assert (LZ : lenZ (zeros v num) = num - lenZ (v_elems v)).
  { unfold zeros, lenZ. rewrite repeat_length. unfold lenZ in *. lia. }
  destruct (add_ok vs st a v (zeros v num)
    (repeat (Some 0) (Z.to_nat (u64 (a_sz (held v) * (num - a_i (held v)))))) I V) with (st0 := st)
    as (st' & S1 & S2 & S3 & S4); try reflexivity.
  - unfold zeros. apply Forall_forall. intros x X. apply repeat_spec in X. subst x.
    unfold lenZ. rewrite repeat_length. lia.
  - unfold zeros. rewrite concat_zeros. f_equal. unfold held. cbn [a_sz a_i].
    rewrite u64_id by nia. rewrite Z.mul_comm, Z2Nat.inj_mul by lia. reflexivity.
  - intros E. rewrite E in LZ. cbn in LZ. lia.
  - lia.
  - rewrite held_inj_len in S1 |- *. rewrite S1. cbn [bind]. eexists.
    unfold get at 1. rewrite S2, (i_arr _ _ I a v V). cbn [bind]. split; [reflexivity|].
    apply (inv_same vs st _ a v _ I V).
    + intros b NB. cbn [set arrs]. rewrite put_other by exact NB. now rewrite S2.
    + cbn [set arrs]. rewrite put_same. unfold held.
      cbn [a_i a_n a_sz a_d elements v_elems v_slots v_sz v_base]. repeat f_equal.
      rewrite u32_id by lia. unfold lenZ in *. rewrite app_length. lia.
    + apply (good_frame st'); [reflexivity|exact S3].
    + reflexivity.
    + exact S4.
Qed.

Lemma resize_ok : forall vs st a v num ans, inv vs st -> vs a = Some v ->
  0 <= num <= 2 ^ 31 -> has_room v num -> unused vs a ans ->
  exists oom st' vs', array_resize st a num ans = Ok (oom, st')
    /\ does vs (Resize a num ans) (Did oom) vs' /\ inv vs' st'.
Proof.
  intros vs st a v num ans I V SM HR UN. unfold array_resize.
  rewrite (get_ok vs st a v I V). cbn [bind].
  pose proof (i_good _ _ I a v V) as G. pose proof (g_room _ _ G) as RR.
  pose proof (slots_small _ _ G) as SS.
  rewrite u32_id by lia. rewrite held_inj_len.
  destruct (Z.ltb_spec (lenZ (v_elems v)) num) as [LT|GE].
  - destruct (reserve_ok vs st a v (num - lenZ (v_elems v)) ans I V ltac:(lia) ltac:(lia) UN)
      as [(LS & RS)|(LS & RE & r & FI & [(-> & st' & RS & I')|(NZ & st' & RS & I')])].
    { replace (lenZ (v_elems v) + (num - lenZ (v_elems v))) with num by lia. exact HR. }
    all: rewrite RS; cbn [bind].
    + assert (R : lenZ (v_elems v) < num <= v_room v) by (destruct HR as [H|H]; lia).
      destruct (extend_room vs st a v num I V R ltac:(lia)) as (st' & P & I').
      rewrite (u32_id num) in P by lia.
      exists false, st'. eexists. split; [exact P|]. split; [|exact I'].
      apply (does_extend vs a v num ans V). lia.
    + replace (lenZ (v_elems v) + (num - lenZ (v_elems v))) with num in FI by lia.
      exists true, st'. eexists. split; [reflexivity|]. split; [|exact I'].
      apply (does_not_extend vs a v num r V); [lia|exact FI].
    + replace (lenZ (v_elems v) + (num - lenZ (v_elems v))) with num in FI by lia.
      set (v' := mkView (v_sz v) (v_elems v) ans r r) in *.
      destruct (extend_room _ st' a v' num I' (put_same _ _ _ _)) as (st'' & P & I'').
      { cbn [v' v_elems v_room]. destruct FI. lia. }
      { lia. }
      rewrite (u32_id num) in P by lia.
      exists false, st''. eexists. split; [exact P|]. split.
      * apply (does_extend_grow vs a v num ans r V); [lia|exact NZ|exact FI].
      * refine (inv_ext _ _ st'' _ I''). intros b. symmetry. apply put_put.
  - cbn [bind]. rewrite (get_ok vs st a v I V). cbn [bind].
    exists false. eexists. eexists. split; [reflexivity|]. split.
    + apply (does_shrink vs a v num ans V). lia.
    + assert (L : num = lenZ (firstn (Z.to_nat num) (v_elems v))).
      { unfold lenZ in *. rewrite firstn_length. lia. }
      rewrite L at 2.
      apply (inv_prefix vs st a v _ (skipn (Z.to_nat num) (v_elems v)) I V).
      now rewrite firstn_skipn.
Qed.
