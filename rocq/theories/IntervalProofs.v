From Coq Require Import ZArith List Bool Lia ZifyBool.
From Verif Require Import Base Datum CodecModel CodecProofs FloatModel FloatSpec FloatProofs IntervalModel IntervalSpec.
Open Scope Z_scope.

Lemma num_type_cases t : is_num_type t -> (t =? NUM_INT) = negb (t =? NUM_FLOAT).
Proof. unfold is_num_type, NUM_INT, NUM_FLOAT. lia. Qed.

Lemma flt_pos a b x y : fkey a = Some x -> fkey b = Some y -> flt a b = (x <? y).
Proof.
  intros A B. pose proof (flt_key a b) as K. rewrite A, B in K. cbn in K.
  destruct (flt a b), (Z.ltb_spec x y); intuition; try lia; discriminate.
Qed.
Lemma fle_pos a b x y : fkey a = Some x -> fkey b = Some y -> fle a b = (x <=? y).
Proof.
  intros A B. pose proof (fle_key a b) as K. rewrite A, B in K. cbn in K.
  destruct (fle a b), (Z.leb_spec x y); intuition; try lia; discriminate.
Qed.
Lemma feq_pos a b x y : fkey a = Some x -> fkey b = Some y -> feq a b = (x =? y).
Proof.
  intros A B. pose proof (feq_key a b) as K. rewrite A, B in K. cbn in K.
  destruct (feq a b), (Z.eqb_spec x y); intuition; try lia; discriminate.
Qed.
Lemma flt_nan a b : fkey a = None \/ fkey b = None -> flt a b = false.
Proof.
  intros H. destruct (flt a b) eqn:E; auto. apply flt_key in E.
  destruct H as [H|H]; rewrite H in E; destruct (fkey a), (fkey b); cbn in E; tauto.
Qed.
Lemma fle_nan a b : fkey a = None \/ fkey b = None -> fle a b = false.
Proof.
  intros H. destruct (fle a b) eqn:E; auto. apply fle_key in E.
  destruct H as [H|H]; rewrite H in E; destruct (fkey a), (fkey b); cbn in E; tauto.
Qed.

Lemma include_member i v : interval_include i v = true <-> member i v.
Proof.
  unfold interval_include, member, above, below, pos, NUM_FLOAT.
  destruct (i_type i =? 2).
  - unfold fge, fgt.
    destruct (fkey v) as [x|] eqn:X.
    + destruct (fkey (i_lower i)) as [l|] eqn:L.
      * rewrite (fle_pos (i_lower i) v l x), (flt_pos (i_lower i) v l x); auto.
        destruct (fkey (i_upper i)) as [u|] eqn:U.
        -- rewrite (fle_pos v (i_upper i) x u), (flt_pos v (i_upper i) x u); auto.
           destruct (i_linc i), (i_uinc i); lia.
        -- rewrite fle_nan, flt_nan by auto. destruct (i_linc i), (i_uinc i); lia.
      * rewrite fle_nan, flt_nan by auto. destruct (i_linc i), (i_uinc i); cbn; split; try discriminate; tauto.
    + rewrite !(fle_nan _ v), !(flt_nan _ v) by auto. destruct (i_linc i), (i_uinc i); cbn; split; try discriminate; tauto.
  - destruct (i_linc i), (i_uinc i); lia.
Qed.

Lemma proper_pos i : proper i -> exists l u, pos (i_type i) (i_lower i) = Some l /\ pos (i_type i) (i_upper i) = Some u.
Proof. intros (_ & L & U). destruct (pos (i_type i) (i_lower i)), (pos (i_type i) (i_upper i)); try congruence; eauto. Qed.

Lemma empty_char i : proper i -> forall l u,
  pos (i_type i) (i_lower i) = Some l -> pos (i_type i) (i_upper i) = Some u ->
  interval_empty i = if i_uinc i && i_linc i then u <? l else u <=? l.
Proof.
  intros (T & _ & _) l u L U. unfold interval_empty. rewrite (num_type_cases _ T).
  unfold pos, NUM_FLOAT in *. unfold fgt, fge.
  destruct (i_type i =? 2); cbn [negb].
  - rewrite (flt_pos _ _ u l), (fle_pos _ _ u l) by auto.
    destruct (i_uinc i && i_linc i); [destruct (u <? l) | destruct (u <=? l)]; reflexivity.
  - injection L as ->. injection U as ->.
    destruct (i_uinc i && i_linc i); match goal with |- (if ?b then true else false) = ?c =>
      replace b with c by lia; destruct c; reflexivity end.
Qed.

Lemma empty_points i : proper i ->
  (interval_empty i = true <-> forall h, ~ covers_point i h).
Proof.
  intro P. destruct (proper_pos i P) as (l & u & L & U). rewrite (empty_char i P l u L U).
  unfold covers_point. rewrite L, U. split.
  - intros H h [A B]. destruct (i_uinc i), (i_linc i); cbn [andb] in H; cbv iota in *; lia.
  - intro H. destruct (i_uinc i), (i_linc i); cbn.
    + specialize (H (2 * l)). lia.
    + specialize (H (2 * u)). lia.
    + specialize (H (2 * l)). lia.
    + specialize (H (2 * l + 1)). lia.
Qed.

Lemma empty_no_member i : proper i -> interval_empty i = true -> forall v, ~ member i v.
Proof.
  intros P E v M. pose proof (proj1 (empty_points i P) E) as Q.
  unfold member in M. destruct (pos (i_type i) v) as [x|]; [|exact M].
  apply (Q (2 * x)). destruct (proper_pos i P) as (l & u & L & U).
  unfold covers_point. unfold above, below in M. rewrite L, U in *. destruct (i_linc i), (i_uinc i); lia.
Qed.

Lemma int_empty_exact i : i_type i = NUM_INT ->
  ((forall v, ~ member i v) <->
   interval_empty i = true \/ (i_linc i = false /\ i_uinc i = false /\ i_upper i = i_lower i + 1)).
Proof.
  intro T.
  assert (P : proper i) by (unfold proper, is_num_type, pos; rewrite T; cbn; repeat split; auto; discriminate).
  assert (L : pos (i_type i) (i_lower i) = Some (i_lower i)) by (rewrite T; reflexivity).
  assert (U : pos (i_type i) (i_upper i) = Some (i_upper i)) by (rewrite T; reflexivity).
  rewrite (empty_char i P _ _ L U). unfold member, above, below. rewrite L, U.
  assert (X : forall v, pos (i_type i) v = Some v) by (intro; rewrite T; reflexivity).
  split.
  - intro H.
    pose proof (H (i_lower i)) as H1. pose proof (H (i_upper i)) as H2. pose proof (H (i_lower i + 1)) as H3.
    rewrite X in *. destruct (i_uinc i), (i_linc i); cbn; lia.
  - intros H v. rewrite X. destruct (i_uinc i), (i_linc i); cbn in H; lia.
Qed.

Lemma merge_max_spec gt (key : Z -> option Z) l1 b1 l2 b2 x1 x2 :
  (forall a b x y, key a = Some x -> key b = Some y -> gt a b = (y <? x)) ->
  key l1 = Some x1 -> key l2 = Some x2 ->
  exists l b x, merge_max gt l1 b1 l2 b2 = (l, b) /\ key l = Some x /\ x = Z.max x1 x2 /\
    b = (if x1 =? x2 then b1 && b2 else if x2 <? x1 then b1 else b2).
Proof.
  intros G K1 K2. unfold merge_max. rewrite (G l1 l2 x1 x2), (G l2 l1 x2 x1) by auto.
  destruct (Z.ltb_spec x2 x1); [exists l1, b1, x1; repeat split; auto; [lia | replace (x1 =? x2) with false by lia; reflexivity]|].
  destruct (Z.ltb_spec x1 x2); [exists l2, b2, x2; repeat split; auto; [lia | replace (x1 =? x2) with false by lia; reflexivity]|].
  replace (x1 =? x2) with true by lia.
  destruct b1; [exists l2, b2, x2 | exists l1, false, x1]; repeat split; auto; lia.
Qed.
Lemma merge_min_spec lt (key : Z -> option Z) l1 b1 l2 b2 x1 x2 :
  (forall a b x y, key a = Some x -> key b = Some y -> lt a b = (x <? y)) ->
  key l1 = Some x1 -> key l2 = Some x2 ->
  exists l b x, merge_min lt l1 b1 l2 b2 = (l, b) /\ key l = Some x /\ x = Z.min x1 x2 /\
    b = (if x1 =? x2 then b1 && b2 else if x1 <? x2 then b1 else b2).
Proof.
  intros G K1 K2. unfold merge_min. rewrite (G l1 l2 x1 x2), (G l2 l1 x2 x1) by auto.
  destruct (Z.ltb_spec x1 x2); [exists l1, b1, x1; repeat split; auto; [lia | replace (x1 =? x2) with false by lia; reflexivity]|].
  destruct (Z.ltb_spec x2 x1); [exists l2, b2, x2; repeat split; auto; [lia | replace (x1 =? x2) with false by lia; reflexivity]|].
  replace (x1 =? x2) with true by lia.
  destruct b1; [exists l2, b2, x2 | exists l1, false, x1]; repeat split; auto; lia.
Qed.

Lemma fgt_key a b x y : fkey a = Some x -> fkey b = Some y -> fgt a b = (y <? x).
Proof. intros A B. unfold fgt. now apply flt_pos. Qed.
Lemma zgt_key a b x y : Some a = Some x -> Some b = Some y -> (a >? b) = (y <? x).
Proof. intros A B. injection A as ->. injection B as ->. lia. Qed.
Lemma zlt_key a b x y : Some a = Some x -> Some b = Some y -> (a <? b) = (x <? y).
Proof. intros A B. injection A as ->. injection B as ->. lia. Qed.

Definition tie x y (b c d : bool) := if x =? y then b && c else d.

Lemma intersect_char a b : proper a -> proper b -> i_type a = i_type b ->
  exists r, interval_intersect a b = Ok r /\ i_type r = i_type a /\ proper r /\
    forall l1 u1 l2 u2, pos (i_type a) (i_lower a) = Some l1 -> pos (i_type a) (i_upper a) = Some u1 ->
      pos (i_type b) (i_lower b) = Some l2 -> pos (i_type b) (i_upper b) = Some u2 ->
      pos (i_type r) (i_lower r) = Some (Z.max l1 l2) /\ pos (i_type r) (i_upper r) = Some (Z.min u1 u2) /\
      i_linc r = (if l1 =? l2 then i_linc a && i_linc b else if l2 <? l1 then i_linc a else i_linc b) /\
      i_uinc r = (if u1 =? u2 then i_uinc a && i_uinc b else if u1 <? u2 then i_uinc a else i_uinc b).
Proof.
  intros Pa Pb T. destruct (proper_pos a Pa) as (l1 & u1 & L1 & U1). destruct (proper_pos b Pb) as (l2 & u2 & L2 & U2).
  unfold interval_intersect. rewrite T, Z.eqb_refl. cbn [negb refute bind]. rewrite <- T in *.
  unfold pos in L1, U1, L2, U2. unfold NUM_FLOAT.
  destruct (i_type a =? 2) eqn:E.
  - destruct (merge_max_spec fgt fkey _ (i_linc a) _ (i_linc b) l1 l2 fgt_key L1 L2) as (l & bl & x & -> & K1 & X1 & B1).
    destruct (merge_min_spec flt fkey _ (i_uinc a) _ (i_uinc b) u1 u2 flt_pos U1 U2) as (u & bu & y & -> & K2 & X2 & B2).
    eexists; split; [reflexivity|]. cbn [i_type i_lower i_upper i_linc i_uinc].
    split; [lia|]. split.
    + unfold proper, is_num_type, pos; cbn. rewrite K1, K2. repeat split; auto; discriminate.
    + intros. unfold pos in *. cbn. rewrite E in *. rewrite L1 in H; rewrite U1 in H0; rewrite L2 in H1; rewrite U2 in H2.
      injection H as <-; injection H0 as <-; injection H1 as <-; injection H2 as <-. rewrite K1, K2.
      repeat split; congruence.
  - destruct (merge_max_spec Z.gtb Some _ (i_linc a) _ (i_linc b) l1 l2 zgt_key L1 L2) as (l & bl & x & -> & K1 & X1 & B1).
    destruct (merge_min_spec Z.ltb Some _ (i_uinc a) _ (i_uinc b) u1 u2 zlt_key U1 U2) as (u & bu & y & -> & K2 & X2 & B2).
    eexists; split; [reflexivity|]. cbn [i_type i_lower i_upper i_linc i_uinc].
    destruct Pa as [[Ta|Ta] _]; [|rewrite Ta in E; discriminate].
    split; [rewrite Ta; reflexivity|]. split.
    + unfold proper, is_num_type, pos; cbn. repeat split; auto; discriminate.
    + intros. unfold pos in *. cbn. rewrite E in *. rewrite L1 in H; rewrite U1 in H0; rewrite L2 in H1; rewrite U2 in H2.
      injection H as <-; injection H0 as <-; injection H1 as <-; injection H2 as <-.
      repeat split; congruence.
Qed.
Lemma union_char a b : proper a -> proper b -> i_type a = i_type b ->
  exists r, interval_union a b = Ok r /\ i_type r = i_type a /\ proper r /\
    forall l1 u1 l2 u2, pos (i_type a) (i_lower a) = Some l1 -> pos (i_type a) (i_upper a) = Some u1 ->
      pos (i_type b) (i_lower b) = Some l2 -> pos (i_type b) (i_upper b) = Some u2 ->
      pos (i_type r) (i_lower r) = Some (Z.min l1 l2) /\ pos (i_type r) (i_upper r) = Some (Z.max u1 u2) /\
      i_linc r = (if l1 =? l2 then i_linc a && i_linc b else if l1 <? l2 then i_linc a else i_linc b) /\
      i_uinc r = (if u1 =? u2 then i_uinc a && i_uinc b else if u2 <? u1 then i_uinc a else i_uinc b).
Proof.
  intros Pa Pb T. destruct (proper_pos a Pa) as (l1 & u1 & L1 & U1). destruct (proper_pos b Pb) as (l2 & u2 & L2 & U2).
  unfold interval_union. rewrite T, Z.eqb_refl. cbn [negb refute bind]. rewrite <- T in *.
  unfold pos in L1, U1, L2, U2. unfold NUM_FLOAT.
  destruct (i_type a =? 2) eqn:E.
  - destruct (merge_min_spec flt fkey _ (i_linc a) _ (i_linc b) l1 l2 flt_pos L1 L2) as (l & bl & x & -> & K1 & X1 & B1).
    destruct (merge_max_spec fgt fkey _ (i_uinc a) _ (i_uinc b) u1 u2 fgt_key U1 U2) as (u & bu & y & -> & K2 & X2 & B2).
    eexists; split; [reflexivity|]. cbn [i_type i_lower i_upper i_linc i_uinc].
    split; [lia|]. split.
    + unfold proper, is_num_type, pos; cbn. rewrite K1, K2. repeat split; auto; discriminate.
    + intros. unfold pos in *. cbn. rewrite E in *. rewrite L1 in H; rewrite U1 in H0; rewrite L2 in H1; rewrite U2 in H2.
      injection H as <-; injection H0 as <-; injection H1 as <-; injection H2 as <-. rewrite K1, K2.
      repeat split; congruence.
  - destruct (merge_min_spec Z.ltb Some _ (i_linc a) _ (i_linc b) l1 l2 zlt_key L1 L2) as (l & bl & x & -> & K1 & X1 & B1).
    destruct (merge_max_spec Z.gtb Some _ (i_uinc a) _ (i_uinc b) u1 u2 zgt_key U1 U2) as (u & bu & y & -> & K2 & X2 & B2).
    eexists; split; [reflexivity|]. cbn [i_type i_lower i_upper i_linc i_uinc].
    destruct Pa as [[Ta|Ta] _]; [|rewrite Ta in E; discriminate].
    split; [rewrite Ta; reflexivity|]. split.
    + unfold proper, is_num_type, pos; cbn. repeat split; auto; discriminate.
    + intros. unfold pos in *. cbn. rewrite E in *. rewrite L1 in H; rewrite U1 in H0; rewrite L2 in H1; rewrite U2 in H2.
      injection H as <-; injection H0 as <-; injection H1 as <-; injection H2 as <-.
      repeat split; congruence.
Qed.

(** half-lines given by a position and an inclusion flag *)
Definition lo (b : bool) (l x : Z) : Prop := if b then l <= x else l < x.
Definition hi (b : bool) (u x : Z) : Prop := if b then x <= u else x < u.
Lemma lo_max b1 b2 l1 l2 x :
  lo (if l1 =? l2 then b1 && b2 else if l2 <? l1 then b1 else b2) (Z.max l1 l2) x <-> lo b1 l1 x /\ lo b2 l2 x.
Proof. unfold lo. destruct (Z.eqb_spec l1 l2), (Z.ltb_spec l2 l1), b1, b2; cbn [andb]; lia. Qed.
Lemma hi_min b1 b2 l1 l2 x :
  hi (if l1 =? l2 then b1 && b2 else if l1 <? l2 then b1 else b2) (Z.min l1 l2) x <-> hi b1 l1 x /\ hi b2 l2 x.
Proof. unfold hi. destruct (Z.eqb_spec l1 l2), (Z.ltb_spec l1 l2), b1, b2; cbn [andb]; lia. Qed.
Lemma lo_min b1 b2 l1 l2 x :
  lo (if l1 =? l2 then b1 && b2 else if l1 <? l2 then b1 else b2) (Z.min l1 l2) x <->
  (lo b1 l1 x \/ lo b2 l2 x) /\ ~ (l1 = l2 /\ b1 <> b2 /\ x = l1).
Proof. unfold lo. destruct (Z.eqb_spec l1 l2), (Z.ltb_spec l1 l2), b1, b2; cbn [andb]; lia. Qed.
Lemma hi_max b1 b2 l1 l2 x :
  hi (if l1 =? l2 then b1 && b2 else if l2 <? l1 then b1 else b2) (Z.max l1 l2) x <->
  (hi b1 l1 x \/ hi b2 l2 x) /\ ~ (l1 = l2 /\ b1 <> b2 /\ x = l1).
Proof. unfold hi. destruct (Z.eqb_spec l1 l2), (Z.ltb_spec l2 l1), b1, b2; cbn [andb]; lia. Qed.
Lemma above_lo i l x : pos (i_type i) (i_lower i) = Some l -> (above i x <-> lo (i_linc i) l x).
Proof. intro L. unfold above. now rewrite L. Qed.
Lemma below_hi i u x : pos (i_type i) (i_upper i) = Some u -> (below i x <-> hi (i_uinc i) u x).
Proof. intro L. unfold below. now rewrite L. Qed.

Lemma intersect_exact a b : proper a -> proper b -> i_type a = i_type b ->
  exists r, interval_intersect a b = Ok r /\ i_type r = i_type a /\ proper r /\
    forall v, member r v <-> member a v /\ member b v.
Proof.
  intros Pa Pb T. destruct (intersect_char a b Pa Pb T) as (r & E & Tr & Pr & H).
  exists r; split; [exact E|]; split; [exact Tr|]; split; [exact Pr|].
  destruct (proper_pos a Pa) as (l1 & u1 & L1 & U1); destruct (proper_pos b Pb) as (l2 & u2 & L2 & U2).
  destruct (H l1 u1 l2 u2) as (X1 & X2 & B1 & B2); auto.
  intro v. unfold member. rewrite Tr, <- T. destruct (pos (i_type a) v) as [x|]; [|tauto].
  rewrite (above_lo r _ x X1), (below_hi r _ x X2), (above_lo a _ x L1), (below_hi a _ x U1),
    (above_lo b _ x L2), (below_hi b _ x U2), B1, B2, lo_max, hi_min. tauto.
Qed.

Lemma union_exact a b : proper a -> proper b -> i_type a = i_type b ->
  exists r, interval_union a b = Ok r /\ i_type r = i_type a /\ proper r /\
    forall v, member r v <->
      exists x, pos (i_type a) v = Some x /\ (above a x \/ above b x) /\ (below a x \/ below b x) /\ ~ lost a b x.
Proof.
  intros Pa Pb T. destruct (union_char a b Pa Pb T) as (r & E & Tr & Pr & H).
  exists r; split; [exact E|]; split; [exact Tr|]; split; [exact Pr|].
  destruct (proper_pos a Pa) as (l1 & u1 & L1 & U1); destruct (proper_pos b Pb) as (l2 & u2 & L2 & U2).
  destruct (H l1 u1 l2 u2) as (X1 & X2 & B1 & B2); auto.
  intro v. unfold member. rewrite Tr.
  assert (K : forall x, lost a b x <-> (l1 = l2 /\ i_linc a <> i_linc b /\ x = l1) \/ (u1 = u2 /\ i_uinc a <> i_uinc b /\ x = u1)).
  { intro x. unfold lost. rewrite L1, U1, L2, U2. split; intros [(P & Q & R)|(P & Q & R)]; [left|right|left|right];
      try (injection P as <-; injection Q as <-); try (subst; rewrite P || idtac); repeat split; auto; congruence. }
  destruct (pos (i_type a) v) as [x|]; [|split; [tauto | intros (x & C & _); discriminate C]].
  assert (W : above r x /\ below r x <-> (above a x \/ above b x) /\ (below a x \/ below b x) /\ ~ lost a b x).
  { rewrite K, (above_lo r _ x X1), (below_hi r _ x X2), (above_lo a _ x L1), (below_hi a _ x U1),
    (above_lo b _ x L2), (below_hi b _ x U2), B1, B2, lo_min, hi_max. tauto. }
  rewrite W. split; [intro; exists x; tauto | intros (y & C & D); injection C as <-; exact D].
Qed.
Lemma union_covers a b : proper a -> proper b -> i_type a = i_type b ->
  exists r, interval_union a b = Ok r /\
    forall v x, member a v \/ member b v -> pos (i_type a) v = Some x -> (member r v <-> ~ lost a b x).
Proof.
  intros Pa Pb T. destruct (union_exact a b Pa Pb T) as (r & E & Tr & Pr & H).
  exists r; split; [exact E|]. intros v x M P. rewrite H. unfold member in M. rewrite <- T, P in M.
  split.
  - intros (y & Q & _ & _ & N). rewrite P in Q. injection Q as <-. exact N.
  - intro N. exists x. tauto.
Qed.
Lemma union_refuted : exists a b r v, proper a /\ proper b /\ interval_union a b = Ok r /\
  member a v /\ ~ member r v.
Proof.
  exists (mkInterval NUM_INT 0 1 true true), (mkInterval NUM_INT 0 1 false true),
    (mkInterval NUM_INT 0 1 false true), 0.
  assert (P : forall b, proper (mkInterval NUM_INT 0 1 b true)).
  { intro. unfold proper, is_num_type, pos; cbn. repeat split; auto; discriminate. }
  repeat split; try apply P; try reflexivity; cbn; try lia.
Qed.

Lemma equal_float a b : proper a -> proper b -> i_type a = NUM_FLOAT -> i_type b = NUM_FLOAT ->
  exists e, interval_equal a b = Ok e /\
    (e = true -> forall v, member a v <-> member b v) /\
    (e = false -> (interval_empty a = true /\ interval_empty b = true) \/
                  exists h, ~ (covers_point a h <-> covers_point b h)).
Proof.
  intros Pa Pb Ta Tb.
  destruct (proper_pos a Pa) as (l1 & u1 & L1 & U1); destruct (proper_pos b Pb) as (l2 & u2 & L2 & U2).
  unfold interval_equal. rewrite Ta, Tb. cbn [Z.eqb NUM_FLOAT negb refute bind Pos.eqb].
  eexists; split; [reflexivity|].
  rewrite (empty_char a Pa l1 u1 L1 U1), (empty_char b Pb l2 u2 L2 U2). unfold covers_point. rewrite L1, U1, L2, U2.
  unfold pos in L1, U1, L2, U2. rewrite Ta in L1, U1. rewrite Tb in L2, U2. cbn in L1, L2, U1, U2.
  rewrite (feq_pos _ _ l1 l2), (feq_pos _ _ u1 u2) by auto. split.
  - intros Q v. apply andb_prop in Q; destruct Q as [Q Q4]. apply andb_prop in Q; destruct Q as [Q Q3].
    apply andb_prop in Q; destruct Q as [Q1 Q2].
    apply eqb_prop in Q3; apply eqb_prop in Q4.
    unfold member, above, below, pos. rewrite Ta, Tb, Q3, Q4. cbn. rewrite L1, U1, L2, U2.
    apply Z.eqb_eq in Q1; apply Z.eqb_eq in Q2. subst. tauto.
  - intro Q.
    assert (D : l1 <> l2 \/ u1 <> u2 \/ i_linc a <> i_linc b \/ i_uinc a <> i_uinc b).
    { destruct (Z.eqb_spec l1 l2), (Z.eqb_spec u1 u2), (Bool.eqb (i_linc a) (i_linc b)) eqn:X,
        (Bool.eqb (i_uinc a) (i_uinc b)) eqn:Y; try discriminate Q; auto;
        [right; right; right; now apply eqb_false_iff | right; right; left; now apply eqb_false_iff
        | right; right; left; now apply eqb_false_iff]. }
    clear Q.
    set (la := 2 * l1 + if i_linc a then 0 else 1). set (ua := 2 * u1 - if i_uinc a then 0 else 1).
    set (lb := 2 * l2 + if i_linc b then 0 else 1). set (ub := 2 * u2 - if i_uinc b then 0 else 1).
    assert (CA : forall h, ((if i_linc a then 2 * l1 <= h else 2 * l1 < h) /\ (if i_uinc a then h <= 2 * u1 else h < 2 * u1)) <-> la <= h <= ua)
      by (intro h; unfold la, ua; destruct (i_linc a), (i_uinc a); lia).
    assert (CB : forall h, ((if i_linc b then 2 * l2 <= h else 2 * l2 < h) /\ (if i_uinc b then h <= 2 * u2 else h < 2 * u2)) <-> lb <= h <= ub)
      by (intro h; unfold lb, ub; destruct (i_linc b), (i_uinc b); lia).
    assert (D' : la <> lb \/ ua <> ub).
    { unfold la, lb, ua, ub. destruct (i_linc a), (i_linc b), (i_uinc a), (i_uinc b); lia. }
    destruct (Z_le_gt_dec la ua) as [N|N].
    + right. destruct (Z.eq_dec la lb) as [G|G].
      * destruct (Z_le_gt_dec ua ub) as [G'|G']; [exists ub|exists ua]; rewrite CA, CB; lia.
      * destruct (Z_le_gt_dec lb la) as [G'|G'].
        -- destruct (Z_le_gt_dec lb ub); [exists lb | exists la]; rewrite CA, CB; lia.
        -- exists la; rewrite CA, CB; lia.
    + destruct (Z_le_gt_dec lb ub) as [M|M]; [right; exists lb; rewrite CA, CB; lia|].
      left. unfold la, lb, ua, ub in *. destruct (i_linc a), (i_linc b), (i_uinc a), (i_uinc b); cbn [andb]; lia.
Qed.

Definition first_int (i : interval) := i_lower i + if i_linc i then 0 else 1.
Definition last_int (i : interval) := i_upper i - if i_uinc i then 0 else 1.
Lemma int_member i : i_type i = NUM_INT -> forall v, member i v <-> first_int i <= v <= last_int i.
Proof.
  intros T v. unfold member, above, below, pos, first_int, last_int. rewrite T. cbn.
  destruct (i_linc i), (i_uinc i); lia.
Qed.
Lemma equal_int a b : i_type a = NUM_INT -> i_type b = NUM_INT ->
  in_signed 64 (i_lower a) -> in_signed 64 (i_upper a) -> in_signed 64 (i_lower b) -> in_signed 64 (i_upper b) ->
  (exists e, interval_equal a b = Ok e /\
     (e = true -> forall v, member a v <-> member b v) /\
     (e = false -> (forall v, ~ member a v) /\ (forall v, ~ member b v) \/ exists v, ~ (member a v <-> member b v))) \/
  (interval_equal a b = UB UBOverflow /\
     exists i, (i = a \/ i = b) /\ (i_linc i = false /\ i_lower i = INT64_MAX \/ i_uinc i = false /\ i_upper i = INT64_MIN)).
Proof.
  intros Ta Tb R1 R2 R3 R4. unfold interval_equal. rewrite Ta, Tb. cbn [Z.eqb NUM_INT NUM_FLOAT negb refute bind Pos.eqb].
  unfold in_signed in *. change (2 ^ (64 - 1)) with (2 ^ 63) in *.
  assert (C1 : forall i, - 2 ^ 63 <= i_lower i < 2 ^ 63 ->
     ((if i_linc i then Ok (i_lower i) else chk64 (i_lower i + 1)) = Ok (first_int i)) \/
     ((if i_linc i then Ok (i_lower i) else chk64 (i_lower i + 1)) = UB UBOverflow /\ i_linc i = false /\ i_lower i = INT64_MAX)).
  { intros i R. unfold chk64, first_int, INT64_MIN, INT64_MAX. destruct (i_linc i); [left; now rewrite Z.add_0_r|].
    destruct (Z.eq_dec (i_lower i) (2 ^ 63 - 1)) as [X|X].
    - right. rewrite X. split; [reflexivity | auto].
    - left. replace ((- 2 ^ 63 <=? i_lower i + 1) && (i_lower i + 1 <=? 2 ^ 63 - 1)) with true by lia. reflexivity. }
  assert (C2 : forall i, - 2 ^ 63 <= i_upper i < 2 ^ 63 ->
     ((if i_uinc i then Ok (i_upper i) else chk64 (i_upper i - 1)) = Ok (last_int i)) \/
     ((if i_uinc i then Ok (i_upper i) else chk64 (i_upper i - 1)) = UB UBOverflow /\ i_uinc i = false /\ i_upper i = INT64_MIN)).
  { intros i R. unfold chk64, last_int, INT64_MIN, INT64_MAX. destruct (i_uinc i); [left; now rewrite Z.sub_0_r|].
    destruct (Z.eq_dec (i_upper i) (- 2 ^ 63)) as [X|X].
    - right. rewrite X. split; [reflexivity | auto].
    - left. replace ((- 2 ^ 63 <=? i_upper i - 1) && (i_upper i - 1 <=? 2 ^ 63 - 1)) with true by lia. reflexivity. }
  destruct (C1 a R1) as [-> | (-> & X & Y)]; cbn [bind]; [|right; split; auto; exists a; auto].
  destruct (C2 a R2) as [-> | (-> & X & Y)]; cbn [bind]; [|right; split; auto; exists a; auto].
  destruct (C1 b R3) as [-> | (-> & X & Y)]; cbn [bind]; [|right; split; auto; exists b; auto].
  destruct (C2 b R4) as [-> | (-> & X & Y)]; cbn [bind]; [|right; split; auto; exists b; auto].
  left. eexists; split; [reflexivity|]. split.
  - intros Q v. rewrite !int_member by auto. lia.
  - intro Q.
    destruct (Z_le_gt_dec (first_int a) (last_int a)) as [N|N].
    + right. destruct (Z.eq_dec (first_int a) (first_int b)) as [G|G].
      * destruct (Z_le_gt_dec (last_int a) (last_int b)) as [G'|G']; [exists (last_int b)|exists (last_int a)]; rewrite !int_member by auto; lia.
      * destruct (Z_le_gt_dec (first_int b) (first_int a)) as [G'|G'].
        -- destruct (Z_le_gt_dec (first_int b) (last_int b)); [exists (first_int b) | exists (first_int a)]; rewrite !int_member by auto; lia.
        -- exists (first_int a); rewrite !int_member by auto; lia.
    + destruct (Z_le_gt_dec (first_int b) (last_int b)) as [M|M].
      * right; exists (first_int b); rewrite !int_member by auto; lia.
      * left. split; intro v; rewrite int_member by auto; lia.
Qed.

Lemma int_emptiness_refuted : exists i, i_type i = NUM_INT /\ (forall v, ~ member i v) /\ interval_empty i = false.
Proof.
  exists (mkInterval NUM_INT 0 1 false false). split; [reflexivity|]. split; [|reflexivity].
  intro v. rewrite int_member by reflexivity. cbn. lia.
Qed.
Lemma int_equality_refuted :
  (exists a b, i_type a = NUM_INT /\ i_type b = NUM_INT /\ (forall v, member a v <-> member b v) /\ interval_equal a b = Ok false) /\
  (exists a b, i_type a = NUM_INT /\ i_type b = NUM_INT /\ interval_equal a b = UB UBOverflow).
Proof.
  split.
  - exists (mkInterval NUM_INT 1 0 true true), (mkInterval NUM_INT 3 2 true true). repeat split; auto;
    rewrite int_member in *; auto; cbn in *; lia.
  - exists (mkInterval NUM_INT INT64_MAX INT64_MAX false true), (mkInterval NUM_INT 0 1 true true).
    repeat split.
Qed.
Lemma mixed_types_rejected a b : i_type a <> i_type b ->
  interval_intersect a b = Err ERR_INVALID_TYPE /\ interval_union a b = Err ERR_INVALID_TYPE /\
  interval_equal a b = Err ERR_INVALID_TYPE.
Proof.
  intro T. unfold interval_intersect, interval_union, interval_equal.
  replace (i_type a =? i_type b) with false by lia. repeat split.
Qed.
Lemma emptiness_sound i : proper i ->
  (interval_empty i = true <-> forall h, ~ covers_point i h) /\
  (interval_empty i = true -> forall v, ~ member i v).
Proof. split; [now apply empty_points | now apply empty_no_member]. Qed.
