(** Proofs about the wire format. *)
From Coq Require Import ZArith List Bool Lia ZifyBool ZifyNat.
From Verif Require Import Base Datum CodecModel CodecSpec.
Import ListNotations.
Open Scope Z_scope.

(** ** Generic facts *)
Lemma lenZ_nil {A} : lenZ (@nil A) = 0.
Proof. reflexivity. Qed.
Lemma lenZ_cons {A} (x : A) l : lenZ (x :: l) = 1 + lenZ l.
Proof. unfold lenZ; cbn [length]; lia. Qed.
Lemma lenZ_app {A} (l m : list A) : lenZ (l ++ m) = lenZ l + lenZ m.
Proof. unfold lenZ; rewrite app_length; lia. Qed.
Lemma lenZ_nonneg {A} (l : list A) : 0 <= lenZ l.
Proof. unfold lenZ; lia. Qed.
Lemma lenZ_map {A B} (f : A -> B) l : lenZ (map f l) = lenZ l.
Proof. unfold lenZ; now rewrite map_length. Qed.

Lemma wrap_small w x : 0 <= x < 2 ^ w -> wrap w x = x.
Proof. intros; unfold wrap; now apply Z.mod_small. Qed.
Lemma wrap_range w x : 0 <= w -> 0 <= wrap w x < 2 ^ w.
Proof. intros; unfold wrap; apply Z.mod_pos_bound; lia. Qed.
Lemma wrap_wrap w x : 0 <= w -> wrap w (wrap w x) = wrap w x.
Proof. intros; apply wrap_small, wrap_range; lia. Qed.

Lemma bind_ok {A B} (x : res A) (f : A -> res B) b :
  bind x f = Ok b -> exists a, x = Ok a /\ f a = Ok b.
Proof. destruct x; cbn; intros; try discriminate; eauto. Qed.

(** ** Composition of encoders and decoders *)
Lemma encodes_nil : encodes (fun s => Ok s) [].
Proof.
  intros s [H1 H2]; split; intros H.
  - exists s; rewrite lenZ_nil, app_nil_r; cbn; repeat split; lia.
  - rewrite lenZ_nil in H; pose proof (lenZ_nonneg (w_rest s)); lia.
Qed.

Lemma wf_after s s' (bs : list Z) :
  wf_w s -> lenZ bs <= w_size s ->
  w_rest s' = skipn (length bs) (w_rest s) -> w_size s' = w_size s - lenZ bs -> wf_w s'.
Proof.
  intros [H1 H2] Hl Hr Hs; split.
  - rewrite Hr, Hs. unfold lenZ in *; rewrite skipn_length; lia.
  - rewrite Hs; pose proof (lenZ_nonneg bs); lia.
Qed.

Lemma skipn_skipn' {A} n m (l : list A) : skipn n (skipn m l) = skipn (m + n) l.
Proof. revert l; induction m; intros [|x l]; cbn; auto; destruct n; auto. Qed.

Lemma encodes_seq f g a b :
  encodes f a -> encodes g b -> encodes (fun s => do s' <- f s; g s') (a ++ b).
Proof.
  intros Hf Hg s Hs; rewrite lenZ_app.
  pose proof (lenZ_nonneg a) as Na; pose proof (lenZ_nonneg b) as Nb.
  destruct (Hf s Hs) as [Ho He]; split; intros H.
  - destruct Ho as (s1 & -> & D1 & R1 & Z1); [lia|].
    assert (W1 : wf_w s1) by (eapply wf_after; eauto; lia).
    destruct (Hg s1 W1) as [Ho2 _].
    destruct Ho2 as (s2 & E2 & D2 & R2 & Z2); [lia|].
    exists s2; cbn [bind]; rewrite E2, D2, D1, R2, R1, Z2, Z1, app_assoc.
    rewrite skipn_skipn', app_length; repeat split; lia.
  - destruct (Z_lt_le_dec (w_size s) (lenZ a)) as [L|L].
    + now rewrite (He L).
    + destruct (Ho L) as (s1 & -> & D1 & R1 & Z1); cbn [bind].
      assert (W1 : wf_w s1) by (eapply wf_after; eauto; lia).
      destruct (Hg s1 W1) as [_ He2]; apply He2; lia.
Qed.

Lemma encodes_ext f g bs : (forall s, wf_w s -> f s = g s) -> encodes f bs -> encodes g bs.
Proof. intros E H s Hs; rewrite <- E by exact Hs; apply (H s Hs). Qed.

Lemma put_all_ok bs : forall s, lenZ bs <= lenZ (w_rest s) ->
  put_all bs s = Ok (mkW (w_done s ++ bs) (skipn (length bs) (w_rest s)) (w_size s)).
Proof.
  induction bs as [|b t IH]; intros s H; cbn [put_all].
  - rewrite app_nil_r; destruct s; reflexivity.
  - rewrite lenZ_cons in H. pose proof (lenZ_nonneg t). unfold put.
    destruct (w_rest s) as [|r rs] eqn:E; [rewrite lenZ_nil in H; lia|].
    rewrite lenZ_cons in H. cbn [bind]. rewrite IH by (cbn; lia).
    cbn [w_done w_rest w_size length skipn]. now rewrite <- app_assoc.
Qed.

(** Raw copies guarded by a size check *)
Lemma encodes_copy bs :
  encodes (fun s => if w_size s <? lenZ bs then Err ERR_NOT_ENOUGH_DATA else
                    do s2 <- put_all bs s; Ok (w_sub (lenZ bs) s2)) bs.
Proof.
  intros s [H1 H2]; split; intros H.
  - replace (w_size s <? lenZ bs) with false by lia.
    rewrite put_all_ok by lia; cbn [bind].
    eexists; split; [reflexivity|]. unfold w_sub; cbn [w_done w_rest w_size].
    repeat split. apply wrap_small. pose proof (lenZ_nonneg bs); lia.
  - now replace (w_size s <? lenZ bs) with true by lia.
Qed.

Lemma prefix_app_split {A} (a b p q : list A) :
  a ++ b = p ++ q -> q <> [] ->
  (exists q', a = p ++ q' /\ q' <> []) \/ (exists p', p = a ++ p' /\ b = p' ++ q).
Proof.
  revert p; induction a as [|x a IH]; intros p E Q; cbn in E.
  - right; exists p; auto.
  - destruct p as [|y p]; cbn in E.
    + left; exists (x :: a); split; [reflexivity | discriminate].
    + injection E as -> E. destruct (IH p E Q) as [(q' & -> & N)|(p' & -> & ->)].
      * left; exists q'; auto.
      * right; exists p'; auto.
Qed.

Lemma decodes_ret {A} (a : A) : decodes (fun s => Ok (a, s)) a [].
Proof.
  split.
  - intros tl n H _. change (lenZ (@nil Z)) with 0. now rewrite Z.sub_0_r.
  - intros p q tl H Hq _; symmetry in H; apply app_eq_nil in H; tauto.
Qed.

Lemma decodes_bind {A B} (f : rstate -> res (A * rstate)) (g : A -> rstate -> res (B * rstate))
      a b bs cs :
  decodes f a bs -> decodes (g a) b cs ->
  decodes (fun s => do (x, s') <- f s; g x s') b (bs ++ cs).
Proof.
  intros [Hf Pf] [Hg Pg]; split.
  - intros tl n H Hn. rewrite !lenZ_app in H. rewrite <- app_assoc.
    rewrite Hf by (rewrite ?lenZ_app in *; pose proof (lenZ_nonneg cs); lia).
    cbn [bind]. rewrite Hg.
    + f_equal; f_equal; f_equal; rewrite lenZ_app; lia.
    + rewrite lenZ_app; pose proof (lenZ_nonneg bs); lia.
    + pose proof (lenZ_nonneg bs); lia.
  - intros p q tl E Q L. destruct (prefix_app_split _ _ _ _ E Q) as [(q' & -> & N)|(p' & -> & ->)].
    + erewrite Pf; eauto.
    + rewrite lenZ_app in L. rewrite <- app_assoc, Hf.
      * cbn [bind]. rewrite lenZ_app. replace (lenZ bs + lenZ p' - lenZ bs) with (lenZ p') by lia.
        eapply Pg; eauto. pose proof (lenZ_nonneg bs); lia.
      * rewrite !lenZ_app; pose proof (lenZ_nonneg p'); pose proof (lenZ_nonneg tl); lia.
      * rewrite lenZ_app; lia.
Qed.

Lemma decodes_map {A B} (f : rstate -> res (A * rstate)) (h : A -> B) a bs :
  decodes f a bs -> decodes (fun s => do (x, s') <- f s; Ok (h x, s')) (h a) bs.
Proof.
  intros H. rewrite <- (app_nil_r bs).
  apply (decodes_bind f (fun x s => Ok (h x, s)) a (h a) bs []); auto.
  apply decodes_ret.
Qed.

Lemma decodes_ext {A} (f g : rstate -> res (A * rstate)) a bs :
  (forall s, f s = g s) -> decodes f a bs -> decodes g a bs.
Proof.
  intros E [H P]; split; intros; rewrite <- E; eauto.
Qed.

Lemma decodes_eq {A} (f : rstate -> res (A * rstate)) a b bs :
  a = b -> decodes f a bs -> decodes f b bs.
Proof. now intros ->. Qed.

(** ** LEB128 *)
Lemma land127 v : 0 <= v -> Z.land v 127 = v mod 128.
Proof. intros; change 127 with (Z.ones 7); now rewrite Z.land_ones by lia. Qed.
Lemma shiftr7 v : Z.shiftr v 7 = v / 128.
Proof. now rewrite Z.shiftr_div_pow2 by lia. Qed.
Lemma lor_disjoint v a sh : 0 <= sh -> 0 <= v < 2 ^ sh -> Z.lor v (a * 2 ^ sh) = v + a * 2 ^ sh.
Proof.
  intros Hs Hv.
  assert (L : Z.land v (a * 2 ^ sh) = 0).
  { rewrite <- Z.shiftl_mul_pow2 by lia. apply Z.bits_inj'; intros n Hn.
    rewrite Z.land_spec, Z.bits_0.
    destruct (Z_lt_le_dec n sh) as [Ln|Ln].
    - rewrite Z.shiftl_spec_low by lia. apply andb_false_r.
    - destruct (Z.eq_dec v 0) as [->|]; [now rewrite Z.bits_0|].
      rewrite Z.bits_above_log2; [reflexivity | lia |].
      apply Z.lt_le_trans with sh; [apply Z.log2_lt_pow2; lia | lia]. }
  now rewrite Z.add_nocarry_lxor, Z.lxor_lor by exact L.
Qed.
Lemma lor128 y : 0 <= y < 128 -> Z.lor y 128 = y + 128.
Proof. intros H. apply (lor_disjoint y 1 7); lia. Qed.

Lemma leb128_exists x : 0 <= x -> exists bs, leb128 x bs.
Proof.
  intros H. apply (Z_lt_induction (fun x => 0 <= x -> exists bs, leb128 x bs)); auto.
  clear x H; intros x IH H.
  destruct (Z_lt_le_dec x 128) as [L|L].
  - exists [x]; constructor; lia.
  - assert (0 <= x / 128 < x) by (split; [apply Z.div_pos; lia | apply Z.div_lt; lia]).
    destruct (IH (x / 128)) as [bs B]; try lia.
    eexists; eapply leb_more; eauto.
Qed.

Lemma leb128_nonneg x bs : leb128 x bs -> 0 <= x.
Proof. destruct 1; lia. Qed.
Lemma leb128_nonempty x bs : leb128 x bs -> 1 <= lenZ bs.
Proof.
  intros H; destruct bs as [|b t]; [inversion H|].
  rewrite lenZ_cons; pose proof (lenZ_nonneg t); lia.
Qed.
Lemma leb128_len x bs (n : nat) : leb128 x bs -> x < 128 ^ Z.of_nat n -> lenZ bs <= Z.max 1 (Z.of_nat n).
Proof.
  intros H; revert n; induction H as [x H|x bs H B IH]; intros n L.
  - rewrite lenZ_cons, lenZ_nil; lia.
  - destruct n as [|[|n]].
    + cbn in L; lia.
    + change (128 ^ Z.of_nat 1) with 128 in L; lia.
    + rewrite lenZ_cons. assert (lenZ bs <= Z.max 1 (Z.of_nat (S n))).
      * apply IH. apply Z.div_lt_upper_bound; [lia|].
        replace (128 * 128 ^ Z.of_nat (S n)) with (128 ^ Z.of_nat (S (S n))); [lia|].
        rewrite (Nat2Z.inj_succ (S n)), Z.pow_succ_r; lia.
      * lia.
Qed.

Lemma leb128_det x bs cs : leb128 x bs -> leb128 x cs -> bs = cs.
Proof.
  intros H; revert cs; induction H; intros cs C; inversion C; subst; auto; try lia.
  f_equal; auto.
Qed.

Lemma leb_ser_loop_ok bs : forall fuel v s size,
  leb128 v bs -> (length bs <= fuel)%nat -> size = lenZ (w_rest s) ->
  (lenZ bs <= size ->
     exists s', leb_ser_loop fuel v size s = Ok s' /\ w_done s' = w_done s ++ bs /\
       w_rest s' = skipn (length bs) (w_rest s) /\ w_size s' = size - lenZ bs) /\
  (size < lenZ bs -> leb_ser_loop fuel v size s = Err ERR_NOT_ENOUGH_DATA).
Proof.
  induction bs as [|b t IH]; intros fuel v s size B F Z0; [inversion B|].
  destruct fuel as [|k]; [cbn in F; lia|]. cbn [leb_ser_loop length] in *.
  pose proof (leb128_nonneg _ _ B) as Hv.
  pose proof (lenZ_nonneg t) as Nt.
  rewrite lenZ_cons.
  destruct (size <? 1) eqn:E1.
  { split; intros; [lia | reflexivity]. }
  rewrite shiftr7, land127 by lia.
  assert (Hput : exists r rs, w_rest s = r :: rs).
  { destruct (w_rest s); [rewrite lenZ_nil in Z0; lia | eauto]. }
  destruct Hput as (r & rs & Hr).
  inversion B as [x Hx | x bs Hx Bt]; subst.
  - replace (b / 128) with 0 by (symmetry; apply Z.div_small; lia).
    rewrite Z.mod_small by lia. cbn [Z.eqb]. unfold put; rewrite Hr; cbn [bind].
    split; intros H.
    + eexists; split; [reflexivity|]. cbn [w_done w_rest w_size]. rewrite lenZ_nil.
      cbn [length skipn]; repeat split; lia.
    + rewrite lenZ_nil in H; rewrite lenZ_cons in H; pose proof (lenZ_nonneg rs); lia.
  - assert (Hq : 1 <= v / 128) by (apply Z.div_le_lower_bound; lia).
    replace (v / 128 =? 0) with false by lia.
    rewrite lor128 by (apply Z.mod_pos_bound; lia).
    unfold put; rewrite Hr; cbn [bind].
    rewrite Hr, lenZ_cons in *.
    specialize (IH k (v / 128) (mkW (w_done s ++ [v mod 128 + 128]) rs (w_size s)) (lenZ rs) Bt
                  ltac:(lia) eq_refl).
    replace (1 + lenZ rs - 1) with (lenZ rs) by lia.
    destruct IH as [IHo IHe]; split; intros H.
    + destruct IHo as (s' & E & D & R & Z1); [lia|].
      exists s'; split; [exact E|]. cbn [w_done w_rest] in *.
      rewrite <- app_assoc in D. cbn [app] in D. cbn [skipn]. repeat split; auto; lia.
    + apply IHe; lia.
Qed.

Lemma pow2_128 w : (w = 16 \/ w = 32 \/ w = 64) -> 2 ^ w <= 128 ^ Z.of_nat 10.
Proof. intros [->|[->| ->]]; vm_compute; discriminate. Qed.

Lemma ser_uint_encodes w x bs :
  (w = 16 \/ w = 32 \/ w = 64) -> 0 <= x < 2 ^ w -> leb128 x bs -> encodes (ser_uint w x) bs.
Proof.
  intros Hw Hx B s [H1 H2]. unfold ser_uint. rewrite wrap_small by lia.
  apply leb_ser_loop_ok; auto.
  pose proof (pow2_128 w Hw). pose proof (leb128_len x bs 10 B ltac:(lia)).
  unfold lenZ in *; lia.
Qed.

Lemma leb_size_loop_ok bs : forall fuel v sz,
  leb128 v bs -> (length bs <= fuel)%nat -> leb_size_loop fuel v sz = sz + lenZ bs.
Proof.
  induction bs as [|b t IH]; intros fuel v sz B F; [inversion B|].
  destruct fuel as [|k]; [cbn in F; lia|]. cbn [leb_size_loop length] in *.
  rewrite shiftr7, lenZ_cons. inversion B as [x Hx | x bs Hx Bt]; subst.
  - replace (b / 128) with 0 by (symmetry; apply Z.div_small; lia). reflexivity.
  - assert (Hq : 1 <= v / 128) by (apply Z.div_le_lower_bound; lia).
    replace (v / 128 =? 0) with false by lia. rewrite (IH _ _ _ Bt) by lia. lia.
Qed.

Lemma size_uint_ok w x bs :
  (w = 16 \/ w = 32 \/ w = 64) -> 0 <= x < 2 ^ w -> leb128 x bs -> size_uint w x = lenZ bs.
Proof.
  intros Hw Hx B. unfold size_uint. rewrite wrap_small by lia.
  rewrite (leb_size_loop_ok bs); auto.
  pose proof (pow2_128 w Hw). pose proof (leb128_len x bs 10 B ltac:(lia)).
  unfold lenZ in *; lia.
Qed.

(** Decoding: [v] accumulates the low [shift] bits. *)
Definition okw w := w = 16 \/ w = 32 \/ w = 64.

Lemma c_shl_ok w y sh :
  okw w -> 0 <= sh < w -> 0 <= y < 128 -> y * 2 ^ sh < 2 ^ w -> c_shl w y sh = Ok (y * 2 ^ sh).
Proof.
  intros Hw Hs Hy Hb. unfold c_shl.
  assert (0 <= y * 2 ^ sh) by (apply Z.mul_nonneg_nonneg; [lia | apply Z.pow_nonneg; lia]).
  rewrite Z.shiftl_mul_pow2 by lia.
  destruct Hw as [->|[->| ->]]; cbn [Z.ltb Z.compare Pos.compare Pos.compare_cont].
  - replace (32 <=? sh) with false by lia.
    assert (2 ^ 16 < 2 ^ 31) by reflexivity.
    now replace (2 ^ 31 <=? y * 2 ^ sh) with false by lia.
  - replace (32 <=? sh) with false by lia. rewrite wrap_small by lia. reflexivity.
  - replace (64 <=? sh) with false by lia. rewrite wrap_small by lia. reflexivity.
Qed.

Lemma land128_hi y : 0 <= y < 128 -> Z.land (y + 128) 128 = 128.
Proof.
  intros H. rewrite <- lor128 by lia. rewrite Z.land_lor_distr_l.
  replace (Z.land y 128) with 0; [reflexivity|].
  symmetry. apply Z.bits_inj'; intros n Hn. rewrite Z.land_spec, Z.bits_0.
  change 128 with (2 ^ 7); rewrite Z.pow2_bits_eqb by lia.
  destruct (Z.eqb_spec 7 n); [subst | apply andb_false_r].
  rewrite andb_true_r. apply Z.bits_above_log2; try lia.
  destruct (Z.eq_dec y 0) as [->|]; [cbn; lia | apply Z.log2_lt_pow2; lia].
Qed.
Lemma land128_lo y : 0 <= y < 128 -> Z.land y 128 = 0.
Proof.
  intros H. apply Z.bits_inj'; intros n Hn. rewrite Z.land_spec, Z.bits_0.
  change 128 with (2 ^ 7); rewrite Z.pow2_bits_eqb by lia.
  destruct (Z.eqb_spec 7 n); [subst | apply andb_false_r].
  rewrite andb_true_r. apply Z.bits_above_log2; try lia.
  destruct (Z.eq_dec y 0) as [->|]; [cbn; lia | apply Z.log2_lt_pow2; lia].
Qed.
Lemma land127_hi y : 0 <= y < 128 -> Z.land (y + 128) 127 = y.
Proof.
  intros H; rewrite land127 by lia. rewrite <- (Z.mul_1_l 128) at 1.
  rewrite Z.mod_add by lia. apply Z.mod_small; lia.
Qed.

Lemma leb_deser_loop_ok w bs : okw w -> forall x v sh tl n,
  leb128 x bs -> 0 <= sh < w -> 0 <= v < 2 ^ sh -> v + x * 2 ^ sh < 2 ^ w ->
  lenZ bs <= n ->
  leb_deser_loop w v sh n (bs ++ tl) = Ok (v + x * 2 ^ sh, mkR tl (n - lenZ bs)).
Proof.
  intros Hw; induction bs as [|b t IH]; intros x v sh tl n B Hs Hv Hx Hn; [inversion B|].
  pose proof (leb128_nonneg _ _ B) as Hx0.
  pose proof (lenZ_nonneg t) as Nt. rewrite lenZ_cons in *. cbn [app].
  cbn [leb_deser_loop]. replace (n <? 1) with false by lia.
  assert (P : 0 < 2 ^ sh) by (apply Z.pow_pos_nonneg; lia).
  inversion B as [x' Hb | x' bs' Hb Bt]; subst.
  - rewrite land127, Z.mod_small by lia. rewrite c_shl_ok by (auto; nia). cbn [bind].
    rewrite lor_disjoint by lia. rewrite wrap_small by nia.
    rewrite land128_lo by lia. rewrite Z.eqb_refl, lenZ_nil. do 3 f_equal.
  - pose proof (Z.mod_pos_bound x 128 ltac:(lia)) as Hm.
    rewrite land127_hi by lia.
    assert (Hmx : x mod 128 * 2 ^ sh <= x * 2 ^ sh).
    { apply Z.mul_le_mono_nonneg_r; [lia|]. apply Z.mod_le; lia. }
    rewrite c_shl_ok by (auto; nia). cbn [bind].
    rewrite lor_disjoint by lia. rewrite wrap_small by nia.
    rewrite land128_hi by lia. replace (128 =? 0) with false by lia.
    pose proof (Z.div_mod x 128 ltac:(lia)) as DM.
    assert (Hq : 1 <= x / 128) by (apply Z.div_le_lower_bound; lia).
    assert (E7 : 2 ^ (sh + 7) = 128 * 2 ^ sh) by (rewrite Z.pow_add_r by lia; change (2 ^ 7) with 128; lia).
    assert (Hsw : sh + 7 < w).
    { destruct (Z_lt_le_dec (sh + 7) w) as [|L]; auto. exfalso.
      assert (2 ^ w <= 2 ^ (sh + 7)) by (apply Z.pow_le_mono_r; lia). nia. }
    rewrite (wrap_small w (sh + 7)).
    2: { split; [lia|]. apply Z.lt_trans with w; [lia|]. apply Z.pow_gt_lin_r; lia. }
    rewrite (IH (x / 128)).
    + rewrite E7. replace (v + x mod 128 * 2 ^ sh + x / 128 * (128 * 2 ^ sh))
        with (v + (128 * (x / 128) + x mod 128) * 2 ^ sh) by ring.
      rewrite <- DM. do 3 f_equal. lia.
    + exact Bt.
    + lia.
    + rewrite E7. nia.
    + rewrite E7. replace (v + x mod 128 * 2 ^ sh + x / 128 * (128 * 2 ^ sh))
        with (v + (128 * (x / 128) + x mod 128) * 2 ^ sh) by ring.
      rewrite <- DM. lia.
    + lia.
Qed.

Lemma leb_deser_loop_prefix w p : okw w -> forall x v sh q tl,
  leb128 x (p ++ q) -> q <> [] -> 0 <= sh < w -> 0 <= v < 2 ^ sh -> v + x * 2 ^ sh < 2 ^ w ->
  leb_deser_loop w v sh (lenZ p) (p ++ tl) = Err ERR_NOT_ENOUGH_DATA.
Proof.
  intros Hw; induction p as [|b t IH]; intros x v sh q tl B Q Hs Hv Hx.
  - rewrite lenZ_nil. destruct tl; reflexivity.
  - pose proof (lenZ_nonneg t) as Nt. rewrite lenZ_cons. cbn [app leb_deser_loop] in *.
    replace (1 + lenZ t <? 1) with false by lia.
    pose proof (leb128_nonneg _ _ B) as Hx0.
    assert (P : 0 < 2 ^ sh) by (apply Z.pow_pos_nonneg; lia).
    inversion B as [x' Hb E1 | x' bs' Hb Bt]; subst.
    + match goal with H : [] = t ++ q |- _ => symmetry in H; apply app_eq_nil in H; tauto
      | H : t ++ q = [] |- _ => apply app_eq_nil in H; tauto end.
    + pose proof (Z.mod_pos_bound x 128 ltac:(lia)) as Hm.
      rewrite land127_hi by lia.
      assert (Hmx : x mod 128 * 2 ^ sh <= x * 2 ^ sh).
      { apply Z.mul_le_mono_nonneg_r; [lia|]. apply Z.mod_le; lia. }
      rewrite c_shl_ok by (auto; nia). cbn [bind].
      rewrite lor_disjoint by lia. rewrite wrap_small by nia.
      rewrite land128_hi by lia. replace (128 =? 0) with false by lia.
      pose proof (Z.div_mod x 128 ltac:(lia)) as DM.
      assert (Hq : 1 <= x / 128) by (apply Z.div_le_lower_bound; lia).
      assert (E7 : 2 ^ (sh + 7) = 128 * 2 ^ sh) by (rewrite Z.pow_add_r by lia; change (2 ^ 7) with 128; lia).
      assert (Hsw : sh + 7 < w).
      { destruct (Z_lt_le_dec (sh + 7) w) as [|L]; auto. exfalso.
        assert (2 ^ w <= 2 ^ (sh + 7)) by (apply Z.pow_le_mono_r; lia). nia. }
      rewrite (wrap_small w (sh + 7)).
      2: { split; [lia|]. apply Z.lt_trans with w; [lia|]. apply Z.pow_gt_lin_r; lia. }
      replace (1 + lenZ t - 1) with (lenZ t) by lia.
      apply (IH (x / 128) _ _ q tl Bt Q); [lia| |].
      * rewrite E7; nia.
      * rewrite E7. replace (v + x mod 128 * 2 ^ sh + x / 128 * (128 * 2 ^ sh))
          with (v + (128 * (x / 128) + x mod 128) * 2 ^ sh) by ring.
        rewrite <- DM. lia.
Qed.

Lemma deser_uint_decodes w x bs :
  okw w -> 0 <= x < 2 ^ w -> leb128 x bs -> decodes (deser_uint w) x bs.
Proof.
  intros Hw Hx B. assert (0 < w) by (destruct Hw as [->|[->| ->]]; lia).
  unfold deser_uint; split.
  - intros tl n Hn _. cbn [r_size r_mem].
    rewrite (leb_deser_loop_ok w bs Hw x); cbn; auto; try lia.
    + do 3 f_equal. lia.
  - intros p q tl E Q _; cbn [r_size r_mem]. subst.
    eapply leb_deser_loop_prefix; eauto; cbn; lia.
Qed.

(** ** Zigzag *)
Lemma okw_pos w : okw w -> 16 <= w <= 64.
Proof. intros [->|[->| ->]]; lia. Qed.
Lemma pow2_half w : 0 < w -> 2 ^ w = 2 * 2 ^ (w - 1).
Proof. intros. rewrite <- Z.pow_succ_r by lia. f_equal; lia. Qed.

Lemma zigzag_range w x : 0 < w -> in_signed w x -> 0 <= zigzag x < 2 ^ w.
Proof.
  unfold in_signed, zigzag; intros Hw H. pose proof (pow2_half w Hw).
  destruct (x <? 0) eqn:?; lia.
Qed.

Lemma zigzag_encode_ok w x : okw w -> in_signed w x -> zigzag_encode w x = zigzag x.
Proof.
  intros Hw H. pose proof (okw_pos w Hw) as Pw. pose proof (zigzag_range w x ltac:(lia) H) as ZR.
  unfold zigzag_encode, zigzag, in_signed in *.
  pose proof (pow2_half w ltac:(lia)) as PH.
  assert (0 < 2 ^ (w - 1)) by (apply Z.pow_pos_nonneg; lia).
  rewrite Z.shiftr_div_pow2, Z.shiftl_mul_pow2 by lia. change (2 ^ 1) with 2.
  destruct (x <? 0) eqn:E.
  - assert (W : wrap w x = x + 2 ^ w).
    { unfold wrap. symmetry. apply Z.mod_unique_pos with (q := -1); lia. }
    rewrite W.
    replace ((x + 2 ^ w) / 2 ^ (w - 1)) with 1.
    2: { apply Z.div_unique with (r := x + 2 ^ (w-1)); lia. }
    change (- (1)) with (-1).
    rewrite Z.lxor_m1_r. unfold wrap. symmetry. unfold Z.lnot.
    apply Z.mod_unique_pos with (q := -2); lia.
  - rewrite (wrap_small w x) by lia. rewrite Z.div_small by lia.
    change (- 0) with 0. rewrite Z.lxor_0_r. rewrite wrap_small; lia.
Qed.

Lemma land1 x : 0 <= x -> Z.land x 1 = x mod 2.
Proof. intros; change 1 with (Z.ones 1); now rewrite Z.land_ones by lia. Qed.

Lemma zigzag_decode_ok w x : okw w -> in_signed w x -> zigzag_decode w (zigzag x) = x.
Proof.
  intros Hw H. pose proof (okw_pos w Hw) as Pw. pose proof (zigzag_range w x ltac:(lia) H) as ZR.
  unfold zigzag_decode, in_signed in *.
  pose proof (pow2_half w ltac:(lia)) as PH.
  assert (0 < 2 ^ (w - 1)) by (apply Z.pow_pos_nonneg; lia).
  rewrite land1, Z.shiftr_div_pow2 by lia. change (2 ^ 1) with 2.
  unfold zigzag in *. destruct (x <? 0) eqn:E.
  - replace ((-2 * x - 1) / 2) with (- x - 1).
    2: { apply Z.div_unique with (r := 1); lia. }
    replace ((-2 * x - 1) mod 2) with 1.
    2: { apply Z.mod_unique with (q := - x - 1); lia. }
    change (- (1)) with (-1). rewrite Z.lxor_m1_r. unfold Z.lnot.
    unfold to_signed.
    replace (wrap w (Z.pred (- (- x - 1)))) with (x + 2 ^ w).
    2: { unfold wrap; apply Z.mod_unique_pos with (q := -1); lia. }
    replace (x + 2 ^ w <? 2 ^ (w - 1)) with false by lia. lia.
  - replace (2 * x / 2) with x by (symmetry; rewrite Z.mul_comm; apply Z.div_mul; lia).
    replace (2 * x mod 2) with 0 by (symmetry; rewrite Z.mul_comm; apply Z.mod_mul; lia).
    change (- 0) with 0. rewrite Z.lxor_0_r. unfold to_signed.
    rewrite wrap_small by lia. now replace (x <? 2 ^ (w - 1)) with true by lia.
Qed.

Lemma ser_sint_encodes w x bs :
  okw w -> in_signed w x -> leb128 (zigzag x) bs -> encodes (ser_sint w x) bs.
Proof.
  intros Hw H B. unfold ser_sint. rewrite zigzag_encode_ok by auto.
  apply ser_uint_encodes; auto. apply zigzag_range; auto. pose proof (okw_pos w Hw); lia.
Qed.
Lemma size_sint_ok w x bs :
  okw w -> in_signed w x -> leb128 (zigzag x) bs -> size_sint w x = lenZ bs.
Proof.
  intros Hw H B. unfold size_sint. rewrite zigzag_encode_ok by auto.
  apply size_uint_ok; auto. apply zigzag_range; auto. pose proof (okw_pos w Hw); lia.
Qed.
Lemma deser_sint_decodes w x bs :
  okw w -> in_signed w x -> leb128 (zigzag x) bs -> decodes (deser_sint w) x bs.
Proof.
  intros Hw H B. unfold deser_sint.
  rewrite <- (zigzag_decode_ok w x Hw H) at 1.
  apply decodes_map. apply deser_uint_decodes; auto.
  apply zigzag_range; auto. pose proof (okw_pos w Hw); lia.
Qed.

(** ** Fixed-size words *)
Lemma land255 x : Z.land x 255 = x mod 256.
Proof. change 255 with (Z.ones 8); now rewrite Z.land_ones by lia. Qed.
Lemma shiftr8 x : Z.shiftr x 8 = x / 256.
Proof. now rewrite Z.shiftr_div_pow2 by lia. Qed.

Lemma le_bytes_word n : forall x, le_bytes n x = word n x.
Proof.
  induction n as [|n IH]; intros x; [reflexivity|].
  cbn [le_bytes]. unfold word. cbn [seq map]. rewrite land255.
  change (256 ^ Z.of_nat 0) with 1. rewrite Z.div_1_r. f_equal.
  rewrite IH, shiftr8. unfold word. rewrite <- seq_shift, map_map. apply map_ext.
  intros i. rewrite Nat2Z.inj_succ, Z.pow_succ_r by lia. now rewrite Z.div_div by lia.
Qed.

Lemma word_length n x : length (word n x) = n.
Proof. unfold word; now rewrite map_length, seq_length. Qed.
Lemma word_lenZ n x : lenZ (word n x) = Z.of_nat n.
Proof. unfold lenZ; now rewrite word_length. Qed.

Lemma le_value_bytes n : forall x, 0 <= x < 256 ^ Z.of_nat n -> le_value (le_bytes n x) = x.
Proof.
  induction n as [|n IH]; intros x H.
  - cbn in *; lia.
  - cbn [le_bytes le_value]. rewrite land255, shiftr8, IH.
    + pose proof (Z.div_mod x 256 ltac:(lia)); lia.
    + rewrite Nat2Z.inj_succ, Z.pow_succ_r in H by lia.
      split; [apply Z.div_pos; lia | apply Z.div_lt_upper_bound; lia].
Qed.

(** bswap is byte reversal *)
Lemma le_value_app a b : le_value (a ++ b) = le_value a + 256 ^ lenZ a * le_value b.
Proof.
  induction a as [|x a IH].
  - change (lenZ (@nil Z)) with 0. rewrite app_nil_l, Z.pow_0_r. cbn [le_value]; lia.
  - rewrite lenZ_cons. cbn [app le_value]. rewrite IH, Z.pow_add_r by (pose proof (lenZ_nonneg a); lia).
    change (256 ^ 1) with 256. ring.
Qed.

Lemma byte_at x n : 0 <= n -> Z.land (Z.shiftr x (8 * n)) 255 = (x / 256 ^ n) mod 256.
Proof.
  intros. rewrite land255, Z.shiftr_div_pow2 by lia. f_equal. f_equal.
  rewrite Z.pow_mul_r by lia. reflexivity.
Qed.

(* isolating one byte by a shifted mask *)
Lemma mask_byte x k : 0 <= k ->
  Z.land x (Z.shiftl 255 (8 * k)) = ((x / 256 ^ k) mod 256) * 256 ^ k.
Proof.
  intros Hk. rewrite <- byte_at by lia.
  replace (256 ^ k) with (2 ^ (8 * k)) by (rewrite Z.pow_mul_r by lia; reflexivity).
  rewrite <- Z.shiftl_mul_pow2 by lia.
  apply Z.bits_inj'; intros n Hn. rewrite Z.land_spec.
  destruct (Z_lt_le_dec n (8 * k)) as [L|L].
  - rewrite !Z.shiftl_spec_low by lia. apply andb_false_r.
  - rewrite !Z.shiftl_spec_high, Z.land_spec, Z.shiftr_spec by lia.
    now replace (n - 8 * k + 8 * k) with n by lia.
Qed.

Lemma shr_mul b j k : 0 <= k <= j -> Z.shiftr (b * 256 ^ j) (8 * k) = b * 256 ^ (j - k).
Proof.
  intros H. rewrite Z.shiftr_div_pow2 by lia.
  replace (2 ^ (8 * k)) with (256 ^ k) by (rewrite Z.pow_mul_r by lia; reflexivity).
  replace j with ((j - k) + k) at 1 by lia. rewrite Z.pow_add_r by lia.
  rewrite Z.mul_assoc. apply Z.div_mul. apply Z.pow_nonzero; lia.
Qed.
Lemma shl_mul b j k : 0 <= j -> 0 <= k -> Z.shiftl (b * 256 ^ j) (8 * k) = b * 256 ^ (j + k).
Proof.
  intros. rewrite Z.shiftl_mul_pow2 by lia.
  replace (2 ^ (8 * k)) with (256 ^ k) by (rewrite Z.pow_mul_r by lia; reflexivity).
  rewrite Z.pow_add_r by lia. ring.
Qed.

Lemma le_bytes_value l : Forall is_byte l -> le_bytes (length l) (le_value l) = l.
Proof.
  induction 1 as [|b t Hb Ht IH]; [reflexivity|].
  cbn [length le_bytes le_value]. unfold is_byte in Hb. rewrite land255, shiftr8.
  rewrite (Z.mul_comm 256), Z.mod_add, Z.mod_small, Z.div_add, Z.div_small by lia.
  rewrite Z.add_0_l. now rewrite IH.
Qed.
Lemma le_bytes_byte n x : Forall is_byte (le_bytes n x).
Proof.
  revert x; induction n; intros x; cbn [le_bytes]; constructor; auto.
  rewrite land255. unfold is_byte. apply Z.mod_pos_bound; lia.
Qed.
Lemma le_bytes_length n x : length (le_bytes n x) = n.
Proof. revert x; induction n; intros; cbn; auto. Qed.

Lemma div256 x k : 0 <= k -> x / 256 ^ k / 256 = x / 256 ^ (k + 1).
Proof. intros. rewrite Z.div_div, Z.pow_add_r by (try apply Z.pow_nonzero; lia). reflexivity. Qed.

Definition byt x k := (x / 256 ^ k) mod 256.
Lemma byt_range x k : 0 <= byt x k < 256.
Proof. apply Z.mod_pos_bound; lia. Qed.

Lemma lor_byte v b k : 0 <= k -> 0 <= v < 256 ^ k -> Z.lor v (b * 256 ^ k) = v + b * 256 ^ k.
Proof.
  intros Hk. replace (256 ^ k) with (2 ^ (8 * k)) by (rewrite Z.pow_mul_r by lia; reflexivity).
  intros Hv. apply lor_disjoint; lia.
Qed.

Lemma mask_shr x m j k sh : m = Z.shiftl 255 (8 * j) -> sh = 8 * k -> 0 <= k <= j ->
  Z.shiftr (Z.land x m) sh = byt x j * 256 ^ (j - k).
Proof. intros -> -> H. rewrite mask_byte by lia. now rewrite shr_mul by lia. Qed.
Lemma mask_shl x m j k sh : m = Z.shiftl 255 (8 * j) -> sh = 8 * k -> 0 <= j -> 0 <= k ->
  Z.shiftl (Z.land x m) sh = byt x j * 256 ^ (j + k).
Proof. intros -> -> H H'. rewrite mask_byte by lia. now rewrite shl_mul by lia. Qed.

Ltac pows := repeat match goal with |- context [256 ^ ?k] =>
     let e := eval vm_compute in (256 ^ k) in change (256 ^ k) with e end.
Ltac lor_bytes := repeat match goal with |- context [Z.lor ?a (?b * 256 ^ ?k)] =>
  lazymatch a with
  | context [Z.lor] => fail
  | _ => rewrite (lor_byte a b k) by (pows; lia)
  end end.

Lemma bswap64_spec x : bswap64 x =
  byt x 7 * 256 ^ 0 + byt x 6 * 256 ^ 1 + byt x 5 * 256 ^ 2 + byt x 4 * 256 ^ 3 +
  byt x 3 * 256 ^ 4 + byt x 2 * 256 ^ 5 + byt x 1 * 256 ^ 6 + byt x 0 * 256 ^ 7.
Proof.
  unfold bswap64.
  rewrite (mask_shr x 0xff00000000000000 7 7 56 eq_refl eq_refl), (mask_shr x 0xff000000000000 6 5 40 eq_refl eq_refl), (mask_shr x 0xff0000000000 5 3 24 eq_refl eq_refl),
    (mask_shr x 0xff00000000 4 1 8 eq_refl eq_refl), (mask_shl x 0xff000000 3 1 8 eq_refl eq_refl), (mask_shl x 0xff0000 2 3 24 eq_refl eq_refl),
    (mask_shl x 0xff00 1 5 40 eq_refl eq_refl), (mask_shl x 0xff 0 7 56 eq_refl eq_refl) by lia.
  pose proof (byt_range x 0). pose proof (byt_range x 1). pose proof (byt_range x 2).
  pose proof (byt_range x 3). pose proof (byt_range x 4). pose proof (byt_range x 5).
  pose proof (byt_range x 6). pose proof (byt_range x 7).
  repeat match goal with |- context [256 ^ (?a + ?b)] => let e := eval vm_compute in (a + b) in
    change (a + b) with e | |- context [256 ^ (?a - ?b)] => let e := eval vm_compute in (a - b) in
    change (a - b) with e end.
  lor_bytes; pows; lia.
Qed.
Lemma bswap32_spec x : bswap32 x =
  byt x 3 * 256 ^ 0 + byt x 2 * 256 ^ 1 + byt x 1 * 256 ^ 2 + byt x 0 * 256 ^ 3.
Proof.
  unfold bswap32.
  rewrite (mask_shr x 0xff000000 3 3 24 eq_refl eq_refl), (mask_shr x 0xff0000 2 1 8 eq_refl eq_refl), (mask_shl x 0xff00 1 1 8 eq_refl eq_refl),
    (mask_shl x 0xff 0 3 24 eq_refl eq_refl) by lia.
  pose proof (byt_range x 0). pose proof (byt_range x 1). pose proof (byt_range x 2).
  pose proof (byt_range x 3).
  repeat match goal with |- context [256 ^ (?a + ?b)] => let e := eval vm_compute in (a + b) in
    change (a + b) with e | |- context [256 ^ (?a - ?b)] => let e := eval vm_compute in (a - b) in
    change (a - b) with e end.
  lor_bytes; pows; lia.
Qed.
Lemma bswap16_spec x : bswap16 x = byt x 1 * 256 ^ 0 + byt x 0 * 256 ^ 1.
Proof.
  unfold bswap16.
  rewrite (mask_shr x 0xff00 1 1 8 eq_refl eq_refl), (mask_shl x 0xff 0 1 8 eq_refl eq_refl) by lia.
  pose proof (byt_range x 0). pose proof (byt_range x 1).
  change (1 - 1) with 0. change (0 + 1) with 1.
  lor_bytes; pows; lia.
Qed.

Definition okn (n : nat) := n = 1%nat \/ n = 2%nat \/ n = 4%nat \/ n = 8%nat.

Lemma bswap_rev n x : okn n -> 0 <= x < 256 ^ Z.of_nat n ->
  bswap n x = le_value (rev (le_bytes n x)).
Proof.
  intros Hn Hx. rewrite le_bytes_word. unfold word.
  destruct Hn as [->|[->|[->| ->]]]; cbn [bswap seq map rev app le_value];
    repeat match goal with |- context [Z.of_nat ?k] =>
      let e := eval vm_compute in (Z.of_nat k) in change (Z.of_nat k) with e end.
  - unfold bswap8. change (256 ^ 0) with 1. rewrite Z.div_1_r.
    change (256 ^ Z.of_nat 1) with 256 in Hx. rewrite Z.mod_small; lia.
  - rewrite bswap16_spec. unfold byt. cbv [Z.pow Z.pow_pos Pos.iter]. ring.
  - rewrite bswap32_spec. unfold byt. cbv [Z.pow Z.pow_pos Pos.iter]. ring.
  - rewrite bswap64_spec. unfold byt. cbv [Z.pow Z.pow_pos Pos.iter]. ring.
Qed.

Lemma host_pack le n x : okn n -> 0 <= x < 256 ^ Z.of_nat n ->
  host_bytes le n (pack le n x) = word n x.
Proof.
  intros Hn Hx. unfold host_bytes, pack. destruct le; [apply le_bytes_word|].
  rewrite bswap_rev by auto.
  rewrite <- (le_bytes_length n x) at 1. rewrite <- rev_length, le_bytes_value.
  - now rewrite rev_involutive, le_bytes_word.
  - apply Forall_rev, le_bytes_byte.
Qed.

Lemma le_value_range l : Forall is_byte l -> 0 <= le_value l < 256 ^ lenZ l.
Proof.
  induction 1 as [|b t Hb Ht IH].
  - cbn; lia.
  - rewrite lenZ_cons, Z.pow_add_r by (pose proof (lenZ_nonneg t); lia).
    unfold is_byte in Hb. cbn [le_value]. change (256 ^ 1) with 256. lia.
Qed.

Lemma host_unpack le n x : okn n -> 0 <= x < 256 ^ Z.of_nat n ->
  unpack le n (host_value le (word n x)) = x.
Proof.
  intros Hn Hx. unfold host_value, unpack. rewrite <- le_bytes_word.
  destruct le; [apply le_value_bytes; auto|].
  rewrite bswap_rev; auto.
  - set (r := rev (le_bytes n x)).
    assert (L : n = length r) by (unfold r; now rewrite rev_length, le_bytes_length).
    rewrite L at 1. rewrite le_bytes_value by (apply Forall_rev, le_bytes_byte).
    unfold r. rewrite rev_involutive. apply le_value_bytes; auto.
  - pose proof (le_value_range (rev (le_bytes n x)) (Forall_rev (le_bytes_byte n x))) as R.
    unfold lenZ in R. rewrite rev_length, le_bytes_length in R. exact R.
Qed.

Lemma okn_pos n : okn n -> 1 <= Z.of_nat n <= 8.
Proof. intros [->|[->|[->| ->]]]; cbn; lia. Qed.

Lemma ser_fixed_encodes le n x : okn n -> 0 <= x < 256 ^ Z.of_nat n ->
  encodes (ser_fixed le n x) (word n x).
Proof.
  intros Hn Hx. eapply encodes_ext; [|apply (encodes_copy (word n x))].
  intros s _. unfold ser_fixed. rewrite host_pack by auto. rewrite word_lenZ. reflexivity.
Qed.

Lemma peek_n_app a tl : peek_n (length a) (a ++ tl) = Ok a.
Proof. induction a; cbn; [reflexivity|]. now rewrite IHa. Qed.
Lemma peek_n_app' n a tl : length a = n -> peek_n n (a ++ tl) = Ok a.
Proof. intros <-; apply peek_n_app. Qed.
Lemma drop_app a tl : drop (length a) (a ++ tl) = Ok tl.
Proof. induction a; cbn; auto. Qed.
Lemma advance_app a tl n :
  lenZ a <= n -> n < 2 ^ 64 -> advance (lenZ a) (mkR (a ++ tl) n) = Ok (mkR tl (n - lenZ a)).
Proof.
  intros H H'. unfold advance; cbn [r_mem r_size]. rewrite lenZ_app.
  pose proof (lenZ_nonneg tl). pose proof (lenZ_nonneg a).
  replace (lenZ a + lenZ tl <? lenZ a) with false by lia.
  replace (Z.to_nat (lenZ a)) with (length a) by (unfold lenZ; lia).
  rewrite drop_app. cbn [bind]. rewrite wrap_small by lia. reflexivity.
Qed.

Lemma prefix_shorter {A} (bs p q : list A) : bs = p ++ q -> q <> [] -> lenZ p < lenZ bs.
Proof.
  intros -> Q. rewrite lenZ_app. destruct q; [tauto|].
  rewrite lenZ_cons; pose proof (lenZ_nonneg q); lia.
Qed.

Lemma deser_fixed_decodes le n x : okn n -> 0 <= x < 256 ^ Z.of_nat n ->
  decodes (deser_fixed le n) x (word n x).
Proof.
  intros Hn Hx. unfold deser_fixed, peek_fixed; split.
  - intros tl m Hm Hm'. rewrite word_lenZ in *. cbn [r_size r_mem].
    replace (m <? Z.of_nat n) with false by lia.
    rewrite peek_n_app' by apply word_length. cbn [bind].
    rewrite host_unpack by auto. rewrite <- (word_lenZ n x) at 1.
    rewrite advance_app by (rewrite ?word_lenZ; lia). cbn [bind]. now rewrite word_lenZ.
  - intros p q tl E Q _. cbn [r_size]. pose proof (prefix_shorter _ _ _ E Q) as L.
    rewrite word_lenZ in L. now replace (lenZ p <? Z.of_nat n) with true by lia.
Qed.

(** ** Composite encodings *)
Lemma okw32 : okw 32. Proof. right; left; reflexivity. Qed.
Lemma okw64 : okw 64. Proof. right; right; reflexivity. Qed.
Lemma okn8 : okn 8. Proof. right; right; right; reflexivity. Qed.
Lemma pow256_8 : 256 ^ Z.of_nat 8 = 2 ^ 64. Proof. reflexivity. Qed.

Lemma size_exists n : 0 <= n -> exists l, leb128 n l.
Proof. apply leb128_exists. Qed.

Lemma leb128_small x : 0 <= x < 128 -> forall l, leb128 x l -> l = [x].
Proof. intros H l B. inversion B; subst; auto; lia. Qed.

Lemma ser_enum_small x : 0 <= x < 128 -> encodes (ser_enum x) [x].
Proof.
  intros H; apply ser_uint_encodes; auto using okw32.
  assert (128 < 2 ^ 32) by reflexivity; lia. now constructor.
Qed.
Lemma size_enum_small x : 0 <= x < 128 -> size_enum x = 1.
Proof.
  intros H; unfold size_enum; rewrite (size_uint_ok 32 x [x]); auto using okw32.
  assert (128 < 2 ^ 32) by reflexivity; lia. now constructor.
Qed.
Lemma deser_enum_small x : 0 <= x < 128 -> decodes deser_enum x [x].
Proof.
  intros H; apply deser_uint_decodes; auto using okw32.
  assert (128 < 2 ^ 32) by reflexivity; lia. now constructor.
Qed.

Lemma ser_blob_encodes b bs : lenZ b < 2 ^ 64 -> wire_blob b bs -> encodes (ser_blob b) bs.
Proof.
  intros Hb (l & L & ->). unfold ser_blob.
  apply (encodes_seq (ser_size (lenZ b))
    (fun s1 => if w_size s1 <? lenZ b then Err ERR_NOT_ENOUGH_DATA else
               do s2 <- put_all b s1; Ok (w_sub (lenZ b) s2))).
  - apply ser_uint_encodes; auto using okw64. pose proof (lenZ_nonneg b); lia.
  - apply encodes_copy.
Qed.
Lemma size_blob_ok b bs : lenZ b < 2 ^ 64 -> wire_blob b bs -> size_blob b = lenZ bs.
Proof.
  intros Hb (l & L & ->). unfold size_blob, size_size. pose proof (lenZ_nonneg b).
  rewrite (size_uint_ok 64 _ l), lenZ_app; auto using okw64.
Qed.
Lemma decodes_raw b (k : list Z -> rstate -> res (list Z * rstate)) :
  (forall tl n, lenZ b <= n <= lenZ (b ++ tl) -> n < 2 ^ 64 ->
     k b (mkR (b ++ tl) n) = Ok (b, mkR tl (n - lenZ b))) ->
  decodes (fun s1 => if r_size s1 <? lenZ b then Err ERR_NOT_ENOUGH_DATA else k b s1) b b.
Proof.
  intros H; split.
  - intros tl n Hn Hn'. cbn [r_size]. replace (n <? lenZ b) with false by lia. auto.
  - intros p q tl E Q _. cbn [r_size]. pose proof (prefix_shorter _ _ _ E Q).
    now replace (lenZ p <? lenZ b) with true by lia.
Qed.

Lemma deser_blob_decodes b bs : lenZ b < 2 ^ 64 -> wire_blob b bs -> decodes deser_blob b bs.
Proof.
  intros Hb (l & L & ->). unfold deser_blob.
  apply (decodes_bind deser_size
    (fun sz s1 => if r_size s1 <? sz then Err ERR_NOT_ENOUGH_DATA else
                  if lenZ (r_mem s1) <? sz then UB UBBounds else
                  do b <- peek_n (Z.to_nat sz) (r_mem s1);
                  do s2 <- advance sz s1; Ok (b, s2)) (lenZ b) b l b).
  - apply deser_uint_decodes; auto using okw64. pose proof (lenZ_nonneg b); lia.
  - apply (decodes_raw b (fun _ s1 => if lenZ (r_mem s1) <? lenZ b then UB UBBounds else
                  do b' <- peek_n (Z.to_nat (lenZ b)) (r_mem s1);
                  do s2 <- advance (lenZ b) s1; Ok (b', s2))).
    intros tl n Hn Hn'. cbn [r_mem]. rewrite lenZ_app in *.
    pose proof (lenZ_nonneg tl). replace (lenZ b + lenZ tl <? lenZ b) with false by lia.
    rewrite peek_n_app' by (unfold lenZ; lia). cbn [bind].
    rewrite advance_app by lia. reflexivity.
Qed.

Lemma c_string_app s tl : Forall is_char s -> c_string (s ++ 0 :: tl) = Ok s.
Proof.
  induction 1 as [|b t Hb Ht IH]; [reflexivity|].
  cbn [app c_string]. unfold is_char in Hb. replace (b =? 0) with false by lia.
  now rewrite IH.
Qed.

Lemma ser_string_encodes s bs : lenZ s + 1 < 2 ^ 64 -> wire_string s bs -> encodes (ser_string s) bs.
Proof.
  intros H W. eapply encodes_ext; [|apply (ser_blob_encodes (s ++ [0])); eauto].
  - intros st _. unfold ser_blob, ser_string. now rewrite lenZ_app.
  - rewrite lenZ_app. exact H.
Qed.
Lemma size_string_ok s bs : lenZ s + 1 < 2 ^ 64 -> wire_string s bs -> size_string s = lenZ bs.
Proof.
  intros H W. rewrite <- (size_blob_ok (s ++ [0])); auto.
  - unfold size_blob, size_string. rewrite lenZ_app. rewrite Z.add_comm. reflexivity.
  - rewrite lenZ_app. exact H.
Qed.
Lemma deser_string_decodes s bs : lenZ s + 1 < 2 ^ 64 -> Forall is_char s ->
  wire_string s bs -> decodes deser_string s bs.
Proof.
  intros Hb Hc (l & L & ->). unfold deser_string.
  apply (decodes_bind deser_size
    (fun sz s1 => if r_size s1 <? sz then Err ERR_NOT_ENOUGH_DATA else
                  do str <- c_string (r_mem s1);
                  do s2 <- advance sz s1; Ok (str, s2)) (lenZ (s ++ [0])) s l (s ++ [0])).
  - apply deser_uint_decodes; auto using okw64. rewrite lenZ_app; cbn. pose proof (lenZ_nonneg s); lia.
  - split.
    + intros tl n Hn Hn'. cbn [r_size r_mem]. replace (n <? lenZ (s ++ [0])) with false by lia.
      rewrite <- app_assoc at 1. cbn [app]. rewrite c_string_app by auto. cbn [bind].
      rewrite advance_app by lia. reflexivity.
    + intros p q tl E Q _. cbn [r_size]. pose proof (prefix_shorter _ _ _ E Q).
      now replace (lenZ p <? lenZ (s ++ [0])) with true by lia.
Qed.

Ltac smallc := unfold NUM_INT, NUM_FLOAT, CCS_TRUE, CCS_FALSE, TYPE_NONE, TYPE_INT, TYPE_FLOAT,
  TYPE_BOOL, TYPE_STRING, TYPE_INACTIVE, TYPE_OBJECT, b2z in *;
  unfold CCS_TRUE, CCS_FALSE in *; lia.
(** intervals *)
Definition wf_interval (i : interval) : Prop :=
  (i_type i = NUM_FLOAT /\ in_unsigned 64 (i_lower i) /\ in_unsigned 64 (i_upper i)) \/
  (i_type i = NUM_INT /\ in_signed 64 (i_lower i) /\ in_signed 64 (i_upper i)).

Lemma ser_bool_encodes b bs : wire_bool b bs -> encodes (ser_enum (b2z b)) bs.
Proof. intros ->. destruct b; apply ser_enum_small; smallc. Qed.
Lemma size_bool_ok b bs : wire_bool b bs -> size_enum (b2z b) = lenZ bs.
Proof. intros ->. destruct b; apply size_enum_small; smallc. Qed.
Lemma deser_bool_decodes b bs : wire_bool b bs -> decodes deser_enum (b2z b) bs.
Proof. intros ->. destruct b; apply deser_enum_small; smallc. Qed.

Lemma ser_float_encodes le f : in_unsigned 64 f -> encodes (ser_float le f) (word 8 f).
Proof. intros; apply ser_fixed_encodes; auto using okn8. Qed.
Lemma deser_float_decodes le f : in_unsigned 64 f -> decodes (deser_float le) f (word 8 f).
Proof. intros; apply deser_fixed_decodes; auto using okn8. Qed.
Lemma ser_int_encodes i l : in_signed 64 i -> leb128 (zigzag i) l -> encodes (ser_int i) l.
Proof. intros; apply ser_sint_encodes; auto using okw64. Qed.
Lemma size_int_ok i l : in_signed 64 i -> leb128 (zigzag i) l -> size_int i = lenZ l.
Proof. intros; apply size_sint_ok; auto using okw64. Qed.
Lemma deser_int_decodes i l : in_signed 64 i -> leb128 (zigzag i) l -> decodes deser_int i l.
Proof. intros; apply deser_sint_decodes; auto using okw64. Qed.

Lemma ser_interval_encodes le i bs : wf_interval i -> wire_interval i bs -> encodes (ser_interval le i) bs.
Proof.
  intros Wf (lo & up & bl & bu & HB & Hl & Hu & ->). unfold ser_interval.
  apply (encodes_seq (ser_enum (i_type i)) _ [i_type i]).
  { apply ser_enum_small. destruct Wf as [(-> & _)|(-> & _)]; smallc. }
  rewrite app_assoc.
  apply (encodes_seq (fun s => if i_type i =? NUM_FLOAT then
             do s <- ser_float le (i_lower i) s; ser_float le (i_upper i) s
           else do s <- ser_int (i_lower i) s; ser_int (i_upper i) s)).
  - destruct Wf as [(T & Ha & Hb)|(T & Ha & Hb)]; rewrite T in *;
      [ change (NUM_FLOAT =? 2) with true in HB | change (NUM_INT =? 2) with false in HB ];
      cbv iota in HB; destruct HB as [Hlo Hup];
      [ change (NUM_FLOAT =? NUM_FLOAT) with true | change (NUM_INT =? NUM_FLOAT) with false ]; cbv iota.
    + subst. apply (encodes_seq (ser_float le (i_lower i)) (ser_float le (i_upper i))); apply ser_float_encodes; auto.
    + apply (encodes_seq (ser_int (i_lower i)) (ser_int (i_upper i))); apply ser_int_encodes; auto.
  - apply (encodes_seq (ser_enum (b2z (i_linc i))) (ser_enum (b2z (i_uinc i)))); now apply ser_bool_encodes.
Qed.

Lemma size_interval_ok i bs : wf_interval i -> wire_interval i bs -> size_interval i = lenZ bs.
Proof.
  intros Wf (lo & up & bl & bu & HB & Hl & Hu & ->). unfold size_interval.
  rewrite !lenZ_app, (size_bool_ok _ _ Hl), (size_bool_ok _ _ Hu).
  rewrite size_enum_small by (destruct Wf as [(-> & _)|(-> & _)]; smallc).
  destruct Wf as [(T & Ha & Hb)|(T & Ha & Hb)]; rewrite T in *;
      [ change (NUM_FLOAT =? 2) with true in HB | change (NUM_INT =? 2) with false in HB ];
      cbv iota in HB; destruct HB as [Hlo Hup];
      [ change (NUM_FLOAT =? NUM_FLOAT) with true | change (NUM_INT =? NUM_FLOAT) with false ]; cbv iota.
  - subst. rewrite !word_lenZ. unfold size_float, size_fixed. rewrite lenZ_cons, lenZ_nil; lia.
  - rewrite (size_int_ok _ lo), (size_int_ok _ up) by auto. rewrite lenZ_cons, lenZ_nil; lia.
Qed.

Lemma z2b_b2z b : z2b (b2z b) = b.
Proof. destruct b; reflexivity. Qed.

Lemma deser_interval_decodes le i bs : wf_interval i -> wire_interval i bs ->
  decodes (deser_interval le) i bs.
Proof.
  intros Wf (lo & up & bl & bu & HB & Hl & Hu & ->). unfold deser_interval.
  apply (decodes_bind deser_enum (fun t s =>
     do (lu, s) <- (if t =? NUM_FLOAT then
                   do (l, s) <- deser_float le s;
                   do (u, s) <- deser_float le s; Ok ((l, u), s)
                 else
                   do (l, s) <- deser_int s;
                   do (u, s) <- deser_int s; Ok ((l, u), s));
     do (li, s) <- deser_enum s;
     do (ui, s) <- deser_enum s;
     Ok (mkInterval t (fst lu) (snd lu) (z2b li) (z2b ui), s)) (i_type i)).
  { apply deser_enum_small. destruct Wf as [(-> & _)|(-> & _)]; smallc. }
  rewrite app_assoc.
  apply (decodes_bind (fun s => if i_type i =? NUM_FLOAT then
                   do (l, s) <- deser_float le s;
                   do (u, s) <- deser_float le s; Ok ((l, u), s)
                 else
                   do (l, s) <- deser_int s;
                   do (u, s) <- deser_int s; Ok ((l, u), s))
         (fun lu s => do (li, s) <- deser_enum s;
                      do (ui, s) <- deser_enum s;
                      Ok (mkInterval (i_type i) (fst lu) (snd lu) (z2b li) (z2b ui), s))
         (i_lower i, i_upper i)).
  - destruct Wf as [(T & Ha & Hb)|(T & Ha & Hb)]; rewrite T in *;
      [ change (NUM_FLOAT =? 2) with true in HB | change (NUM_INT =? 2) with false in HB ];
      cbv iota in HB; destruct HB as [Hlo Hup];
      [ change (NUM_FLOAT =? NUM_FLOAT) with true | change (NUM_INT =? NUM_FLOAT) with false ]; cbv iota.
    + subst. apply (decodes_bind (deser_float le) (fun l s => do (u, s) <- deser_float le s; Ok ((l, u), s)) (i_lower i));
        [apply deser_float_decodes; auto|].
      apply (decodes_map (deser_float le) (fun u => (i_lower i, u))). apply deser_float_decodes; auto.
    + apply (decodes_bind deser_int (fun l s => do (u, s) <- deser_int s; Ok ((l, u), s)) (i_lower i));
        [apply deser_int_decodes; auto|].
      apply (decodes_map deser_int (fun u => (i_lower i, u))). apply deser_int_decodes; auto.
  - apply (decodes_bind deser_enum (fun li s => do (ui, s) <- deser_enum s;
        Ok (mkInterval (i_type i) (fst (i_lower i, i_upper i)) (snd (i_lower i, i_upper i)) (z2b li) (z2b ui), s))
        (b2z (i_linc i))); [apply deser_bool_decodes; auto|].
    eapply decodes_eq.
    2: apply (decodes_map deser_enum (fun ui => mkInterval (i_type i) (fst (i_lower i, i_upper i))
        (snd (i_lower i, i_upper i)) (z2b (b2z (i_linc i))) (z2b ui))); apply deser_bool_decodes; eauto.
    rewrite !z2b_b2z; destruct i; reflexivity.
Qed.

(** datums *)
Definition wire_flags (v : value) : Z :=
  match v with VString _ => FLAG_TRANSIENT | VObject _ => FLAG_ID | _ => FLAG_DEFAULT end.

Lemma ser_datum_encodes le d bs : wf_value (d_val d) -> wire_datum (d_val d) bs ->
  encodes (ser_datum le d) bs.
Proof.
  destruct d as [v fl]; cbn [d_val]. intros Wf W. unfold ser_datum; cbn [d_val].
  destruct v as [|i|f|b|[s|]| |h|t i]; cbn [wire_datum type_of] in *; try contradiction.
  - subst. rewrite <- (app_nil_r [0]). apply encodes_seq; [apply ser_enum_small; smallc | apply encodes_nil].
  - destruct W as (l & L & ->). change (1 :: l) with ([1] ++ l).
    apply encodes_seq; [apply ser_enum_small; smallc | now apply ser_int_encodes].
  - subst. change (2 :: word 8 f) with ([2] ++ word 8 f).
    apply encodes_seq; [apply ser_enum_small; smallc | now apply ser_float_encodes].
  - subst. change [3; b] with ([3] ++ [b]).
    apply encodes_seq; apply ser_enum_small; [smallc|].
    cbn in Wf; destruct Wf as [-> | ->]; smallc.
  - destruct W as (l & L & ->). destruct Wf as [Wc Wl]. change (4 :: l) with ([4] ++ l).
    apply encodes_seq; [apply ser_enum_small; smallc | now apply ser_string_encodes].
  - subst. rewrite <- (app_nil_r [5]). apply encodes_seq; [apply ser_enum_small; smallc | apply encodes_nil].
  - destruct W as (l & L & ->). change (6 :: l) with ([6] ++ l).
    apply encodes_seq; [apply ser_enum_small; smallc|].
    apply ser_uint_encodes; auto using okw64.
Qed.

Lemma size_datum_ok d bs : wf_value (d_val d) -> wire_datum (d_val d) bs ->
  size_datum d = Ok (lenZ bs).
Proof.
  destruct d as [v fl]; cbn [d_val]. intros Wf W. unfold size_datum; cbn [d_val].
  destruct v as [|i|f|b|[s|]| |h|t i]; cbn [wire_datum type_of] in *; try contradiction; f_equal;
    rewrite size_enum_small by (smallc).
  - now subst.
  - destruct W as (l & L & ->). rewrite (size_int_ok i l), lenZ_cons; auto.
  - subst. rewrite lenZ_cons, word_lenZ. reflexivity.
  - subst. rewrite size_enum_small; [reflexivity|]. cbn in Wf; destruct Wf as [-> | ->]; smallc.
  - destruct W as (l & L & ->). destruct Wf as [Wc Wl]. rewrite (size_string_ok s l), lenZ_cons; auto.
  - now subst.
  - destruct W as (l & L & ->). unfold size_object. rewrite (size_uint_ok 64 h l), lenZ_cons; auto using okw64.
Qed.

Lemma deser_datum_decodes le v bs : wf_value v -> wire_datum v bs ->
  decodes (deser_datum le) (mkDatum v (wire_flags v)) bs.
Proof.
  intros Wf W.
  assert (D : forall (k : Z -> rstate -> res (datum * rstate)) t l,
    0 <= t < 128 -> decodes (k t) (mkDatum v (wire_flags v)) l ->
    decodes (fun s => do (t, s) <- deser_enum s; k t s) (mkDatum v (wire_flags v)) (t :: l)).
  { intros k t l Ht Hk. change (t :: l) with ([t] ++ l).
    apply (decodes_bind deser_enum k t); [now apply deser_enum_small | exact Hk]. }
  unfold deser_datum.
  destruct v as [|i|f|b|[s|]| |h|t i]; cbn [wire_datum type_of] in *; try contradiction.
  - subst. apply (D (fun t s => _) 0 []); [lia|]. apply decodes_ret.
  - destruct W as (l & L & ->). apply (D (fun t s => _) 1 l); [lia|].
    apply (decodes_map deser_int ccs_int). now apply deser_int_decodes.
  - subst. apply (D (fun t s => _) 2); [lia|].
    apply (decodes_map (deser_float le) ccs_float). now apply deser_float_decodes.
  - subst. apply (D (fun t s => _) 3); [lia|].
    apply (decodes_map deser_enum ccs_bool). apply deser_enum_small.
    cbn in Wf; destruct Wf as [-> | ->]; smallc.
  - destruct W as (l & L & ->). destruct Wf as [Wc Wl]. apply (D (fun t s => _) 4 l); [lia|].
    apply (decodes_map deser_string (fun str => mkDatum (VString (Some str)) (Z.lor FLAG_DEFAULT FLAG_TRANSIENT))).
    now apply deser_string_decodes.
  - subst. apply (D (fun t s => _) 5 []); [lia|]. apply decodes_ret.
  - destruct W as (l & L & ->). apply (D (fun t s => _) 6 l); [lia|].
    apply (decodes_map deser_object (fun h => mkDatum (VObject h) (Z.lor FLAG_DEFAULT FLAG_ID))).
    apply deser_uint_decodes; auto using okw64.
Qed.

Lemma wire_string_exists s : exists bs, wire_string s bs.
Proof.
  destruct (leb128_exists (lenZ (s ++ [0]))) as [l L]; [apply lenZ_nonneg|].
  exists (l ++ (s ++ [0])), l; auto.
Qed.
Lemma zigzag_nonneg i : 0 <= zigzag i.
Proof. unfold zigzag; destruct (i <? 0) eqn:?; lia. Qed.

Lemma wire_datum_exists v : wf_value v -> serialisable v -> exists bs, wire_datum v bs.
Proof.
  destruct v as [|i|f|b|[s|]| |h|t i]; cbn; intros Wf S; try contradiction; eauto.
  - destruct (leb128_exists (zigzag i)) as [l L]; [apply zigzag_nonneg|]; eauto.
  - destruct (wire_string_exists s) as [l L]; eauto.
  - destruct (leb128_exists h) as [l L]; [apply Wf|]; eauto.
Qed.

(** ** Decoding arbitrary bytes *)
Inductive varint : list Z -> Z -> Prop :=
| vi_last b : 0 <= b < 128 -> varint [b] b
| vi_more b t v : 128 <= b < 256 -> varint t v -> varint (b :: t) (b - 128 + 128 * v).

Lemma wrap_shl w g sh : 0 <= sh <= w -> wrap w (g * 2 ^ sh) = (g mod 2 ^ (w - sh)) * 2 ^ sh.
Proof.
  intros H. unfold wrap. replace (2 ^ w) with (2 ^ (w - sh) * 2 ^ sh).
  - rewrite Z.mul_mod_distr_r; auto; apply Z.pow_nonzero; lia.
  - rewrite <- Z.pow_add_r by lia. f_equal; lia.
Qed.

Lemma varint_step w V g sh : okw w -> 0 <= sh < w -> 0 <= V < 2 ^ sh -> 0 <= g < 128 ->
  exists g', c_shl w g sh = Ok g' /\ wrap w (Z.lor V g') = (V + g * 2 ^ sh) mod 2 ^ w.
Proof.
  intros Hw Hs HV Hg. assert (P : 0 < 2 ^ sh) by (apply Z.pow_pos_nonneg; lia).
  unfold c_shl. rewrite Z.shiftl_mul_pow2 by lia.
  destruct (w <? 32) eqn:E.
  - assert (w = 16) as -> by (destruct Hw as [->|[->| ->]]; lia).
    replace (32 <=? sh) with false by lia.
    assert (2 ^ sh <= 2 ^ 15) by (apply Z.pow_le_mono_r; lia).
    assert (g * 2 ^ sh < 128 * 2 ^ 15 + 1) by nia.
    assert (128 * 2 ^ 15 + 1 < 2 ^ 31) by reflexivity.
    replace (2 ^ 31 <=? g * 2 ^ sh) with false by lia.
    eexists; split; [reflexivity|]. now rewrite lor_disjoint by lia.
  - replace (w <=? sh) with false by lia.
    eexists; split; [reflexivity|]. rewrite wrap_shl by lia.
    rewrite lor_disjoint by lia. rewrite <- wrap_shl by lia. unfold wrap.
    now rewrite Z.add_mod_idemp_r by (apply Z.pow_nonzero; lia).
Qed.

Lemma varint_nonneg t v : varint t v -> 0 <= v /\ 1 <= lenZ t.
Proof.
  induction 1; rewrite lenZ_cons.
  - unfold lenZ; cbn [length]; lia.
  - lia.
Qed.
Lemma land_byte_cont b : 128 <= b < 256 -> Z.land b 127 = b - 128 /\ Z.land b 128 = 128.
Proof.
  intros H. replace b with ((b - 128) + 128) at 1 3 by lia. split.
  - now rewrite land127_hi by lia.
  - rewrite land128_hi by lia. reflexivity.
Qed.
Lemma land_byte_last b : 0 <= b < 128 -> Z.land b 127 = b /\ Z.land b 128 = 0.
Proof. intros; split; [rewrite land127, Z.mod_small; lia | now apply land128_lo]. Qed.

Lemma varint_loop w bs v : okw w -> varint bs v -> forall V sh tl n,
  0 <= sh -> sh + 7 * (lenZ bs - 1) < w -> 0 <= V < 2 ^ sh -> lenZ bs <= n ->
  leb_deser_loop w V sh n (bs ++ tl) = Ok ((V + v * 2 ^ sh) mod 2 ^ w, mkR tl (n - lenZ bs)).
Proof.
  intros Hw; induction 1 as [b Hb | b t v Hb Ht IH]; intros V sh tl n Hs Hl HV Hn.
  - rewrite lenZ_cons, lenZ_nil in *. cbn [app leb_deser_loop].
    replace (n <? 1) with false by lia.
    destruct (land_byte_last b Hb) as [-> ->].
    destruct (varint_step w V b sh Hw ltac:(lia) HV Hb) as (g' & -> & E). cbn [bind].
    now rewrite E, Z.eqb_refl.
  - pose proof (varint_nonneg _ _ Ht) as [Hv Hlt].
    rewrite lenZ_cons in *. cbn [app leb_deser_loop].
    replace (n <? 1) with false by lia.
    destruct (land_byte_cont b Hb) as [-> ->].
    destruct (varint_step w V (b - 128) sh Hw ltac:(lia) HV ltac:(lia)) as (g' & -> & E). cbn [bind].
    rewrite E. replace (128 =? 0) with false by lia.
    assert (P : 0 < 2 ^ sh) by (apply Z.pow_pos_nonneg; lia).
    assert (E7 : 2 ^ (sh + 7) = 128 * 2 ^ sh) by (rewrite Z.pow_add_r by lia; change (2 ^ 7) with 128; lia).
    assert (2 ^ (sh + 7) <= 2 ^ w) by (apply Z.pow_le_mono_r; lia).
    rewrite Z.mod_small by nia.
    rewrite (wrap_small w (sh + 7)).
    2: { split; [lia|]. apply Z.lt_trans with w; [lia|]. apply Z.pow_gt_lin_r; lia. }
    rewrite IH; try lia.
    + rewrite E7. do 2 f_equal; [|f_equal; lia]. f_equal. ring.
    + rewrite E7. nia.
Qed.

Definition max_groups (w : Z) : Z := if w =? 16 then 3 else if w =? 32 then 5 else 10.

Lemma varint_decodes w bs v tl n : okw w -> varint bs v -> lenZ bs <= max_groups w -> lenZ bs <= n ->
  deser_uint w (mkR (bs ++ tl) n) = Ok (v mod 2 ^ w, mkR tl (n - lenZ bs)).
Proof.
  intros Hw Hb Hl Hn. unfold deser_uint; cbn [r_size r_mem].
  assert (0 + 7 * (lenZ bs - 1) < w).
  { destruct Hw as [->|[->| ->]]; [change (max_groups 16) with 3 in Hl | change (max_groups 32) with 5 in Hl
      | change (max_groups 64) with 10 in Hl]; lia. }
  rewrite (varint_loop w bs v) by (auto; try lia; rewrite Z.pow_0_r; lia).
  do 3 f_equal. rewrite Z.pow_0_r; lia.
Qed.

(** too many groups: the shift leaves the word *)
Lemma overlong_ub w p y tl : (w = 32 \/ w = 64) -> Forall (fun b => 128 <= b < 256) p ->
  lenZ p = max_groups w -> forall n, lenZ p < n ->
  deser_uint w (mkR (p ++ y :: tl) n) = UB UBShift.
Proof.
  intros Hw Hp Hl n Hn. unfold deser_uint; cbn [r_size r_mem].
  assert (G : forall p, Forall (fun b => 128 <= b < 256) p -> forall V sh n,
     0 <= sh -> sh + 7 * lenZ p < w + 7 -> w <= sh + 7 * lenZ p -> 0 <= V < 2 ^ w -> lenZ p < n ->
     leb_deser_loop w V sh n (p ++ y :: tl) = UB UBShift).
  { clear p Hp Hl n Hn. induction 1 as [|b t Hb Ht IH]; intros V sh n Hs H1 H2 HV Hn.
    - rewrite lenZ_nil in *. cbn [app leb_deser_loop]. replace (n <? 1) with false by lia.
      unfold c_shl. replace (w <? 32) with false by lia. now replace (w <=? sh) with true by lia.
    - rewrite lenZ_cons in *. pose proof (lenZ_nonneg t).
      cbn [app leb_deser_loop]. replace (n <? 1) with false by lia.
      destruct (land_byte_cont b Hb) as [-> ->].
      unfold c_shl at 1. replace (w <? 32) with false by lia.
      destruct (w <=? sh) eqn:Ew; [reflexivity|]. cbn [bind].
      replace (128 =? 0) with false by lia.
      rewrite (wrap_small w (sh + 7)).
      2: { split; [lia|]. destruct Hw as [-> | ->]; [assert (100 < 2 ^ 32) by reflexivity | assert (100 < 2 ^ 64) by reflexivity]; lia. }
      apply IH; try lia. apply wrap_range. lia. }
  assert (0 < 2 ^ w) by (apply Z.pow_pos_nonneg; lia).
  destruct Hw as [-> | ->]; [change (max_groups 32) with 5 in Hl| change (max_groups 64) with 10 in Hl];
    apply G; auto; lia.
Qed.

(** object identification, user data *)
Lemma ser_object_internal_encodes t h lh : 0 <= t < 128 -> in_unsigned 64 h -> leb128 h lh ->
  encodes (ser_object_internal t h) (t :: lh).
Proof.
  intros Ht Hh L. change (t :: lh) with ([t] ++ lh).
  apply (encodes_seq (ser_enum t) (ser_object h)); [now apply ser_enum_small|].
  apply ser_uint_encodes; auto using okw64.
Qed.
Lemma size_object_internal_ok t h lh : 0 <= t < 128 -> in_unsigned 64 h -> leb128 h lh ->
  size_object_internal t h = lenZ (t :: lh).
Proof.
  intros Ht Hh L. unfold size_object_internal, size_object.
  rewrite size_enum_small, (size_uint_ok 64 h lh), lenZ_cons; auto using okw64.
Qed.
Lemma deser_object_internal_decodes t h lh : 0 <= t < 128 -> in_unsigned 64 h -> leb128 h lh ->
  decodes deser_object_internal (t, h) (t :: lh).
Proof.
  intros Ht Hh L. change (t :: lh) with ([t] ++ lh).
  apply (decodes_bind deser_enum (fun t s => do (h, s) <- deser_object s; Ok ((t, h), s)) t);
    [now apply deser_enum_small|].
  apply (decodes_map deser_object (fun h => (t, h))). apply deser_uint_decodes; auto using okw64.
Qed.

Lemma ser_user_data_encodes ud bs : lenZ (ud_bytes ud) < 2 ^ 64 -> wire_blob (ud_bytes ud) bs ->
  encodes (ser_user_data ud) bs.
Proof.
  intros Hl (l & L & ->). unfold ser_user_data.
  apply (encodes_seq (ser_size (lenZ (ud_bytes ud))) (fun s1 => match ud with
     | None => Ok s1
     | Some bs => if w_size s1 <? lenZ bs then Err ERR_NOT_ENOUGH_DATA else
         do s2 <- put_all bs s1; if lenZ bs =? 0 then Ok s2 else Ok (w_sub (lenZ bs) s2)
     end)).
  - apply ser_uint_encodes; auto using okw64. pose proof (lenZ_nonneg (ud_bytes ud)); lia.
  - destruct ud as [b|]; cbn [ud_bytes]; [|apply encodes_nil].
    destruct b as [|x t].
    + eapply encodes_ext; [|apply encodes_nil]. intros s [H1 H2].
      change (lenZ (@nil Z)) with 0. cbn [put_all bind Z.eqb].
      pose proof (lenZ_nonneg (w_rest s)). now replace (w_size s <? 0) with false by lia.
    + eapply encodes_ext; [|apply (encodes_copy (x :: t))]. intros s _.
      cbv beta. destruct (w_size s <? lenZ (x :: t)); auto.
Qed.
Lemma size_user_data_ok ud bs : lenZ (ud_bytes ud) < 2 ^ 64 -> wire_blob (ud_bytes ud) bs ->
  size_user_data ud = lenZ bs.
Proof. intros H W. now apply (size_blob_ok (ud_bytes ud)). Qed.

Lemma lenZ_0 {A} (l : list A) : lenZ l = 0 -> l = [].
Proof. destruct l; auto. rewrite lenZ_cons; pose proof (lenZ_nonneg l); lia. Qed.

(** The user-data decoder is only right when all the bytes are there: it has no
    check of the remaining size. *)
Lemma deser_user_data_ok b bs tl n : lenZ b < 2 ^ 64 -> wire_blob b bs ->
  lenZ bs <= n <= lenZ (bs ++ tl) -> n < 2 ^ 64 ->
  deser_user_data (mkR (bs ++ tl) n) = Ok (b, mkR tl (n - lenZ bs)).
Proof.
  intros Hb (l & L & ->) Hn Hn'. unfold deser_user_data, deser_size.
  pose proof (lenZ_nonneg b) as Nb. pose proof (lenZ_nonneg tl) as Nt. pose proof (lenZ_nonneg l) as Nl.
  destruct (deser_uint_decodes 64 (lenZ b) l okw64 ltac:(lia) L) as [D _].
  rewrite <- app_assoc, D by (rewrite !lenZ_app in *; lia). cbn [bind].
  rewrite !lenZ_app in *.
  destruct (lenZ b =? 0) eqn:E.
  - rewrite (lenZ_0 b) by lia. cbn [app]. do 3 f_equal. change (lenZ (@nil Z)) with 0. lia.
  - cbn [r_mem]. rewrite lenZ_app. replace (lenZ b + lenZ tl <? lenZ b) with false by lia.
    rewrite peek_n_app' by (unfold lenZ; lia). cbn [bind].
    rewrite advance_app by lia. cbn [bind]. do 3 f_equal. lia.
Qed.
