From Coq Require Import ZArith List Bool Lia ZifyBool.
From Verif Require Import Base Datum CodecModel CodecSpec CodecProofs FloatModel FloatSpec FloatProofs CmpModel CmpSpec.
Import ListNotations.
Open Scope Z_scope.

Lemma lex_irrefl l : ~ lex l l.
Proof. induction l; intro H; inversion H; subst; auto; lia. Qed.
Lemma lex_trans a : forall b c, lex a b -> lex b c -> lex a c.
Proof.
  induction a as [|x a IH]; intros b c H1 H2.
  - inversion H1; subst. inversion H2; subst; constructor.
  - inversion H1; subst; inversion H2; subst; try (constructor; lia); try now constructor.
    apply lex_eq. eapply IH; eauto.
Qed.

Definition sgn_spec (c : Z) (a b : list Z) : Prop :=
  (c < 0 /\ lex a b) \/ (c = 0 /\ a = b) \/ (c > 0 /\ lex b a).

Lemma memcmp_spec a : forall b, length a = length b -> sgn_spec (memcmp a b) a b.
Proof.
  induction a as [|x a IH]; destruct b as [|y b]; intro H; try discriminate; cbn [memcmp].
  - right; left; auto.
  - destruct (Z.ltb_spec x y); [left; split; [lia | now constructor]|].
    destruct (Z.ltb_spec y x); [right; right; split; [lia | now constructor]|].
    assert (y = x) by lia; subst y. injection H as H.
    destruct (IH b H) as [[A B]|[[A B]|[A B]]]; [left|right; left|right; right]; split; auto;
      try (now apply lex_eq). now subst.
Qed.
Lemma strcmp_spec a : forall b, sgn_spec (strcmp a b) a b.
Proof.
  induction a as [|x a IH]; destruct b as [|y b]; cbn [strcmp].
  - right; left; auto.
  - left; split; [lia | constructor].
  - right; right; split; [lia | constructor].
  - destruct (Z.ltb_spec x y); [left; split; [lia | now constructor]|].
    destruct (Z.ltb_spec y x); [right; right; split; [lia | now constructor]|].
    assert (y = x) by lia; subst y.
    destruct (IH b) as [[A B]|[[A B]|[A B]]]; [left|right; left|right; right]; split; auto;
      try (now apply lex_eq). now subst.
Qed.

Lemma digits8_bytes x : digits8 x = le_bytes 8 x.
Proof. symmetry. apply le_bytes_word. Qed.
Lemma digits8_inj x y : in_unsigned 64 x -> in_unsigned 64 y -> digits8 x = digits8 y -> x = y.
Proof.
  intros X Y E. rewrite !digits8_bytes in E.
  rewrite <- (le_value_bytes 8 x), <- (le_value_bytes 8 y), E; auto.
Qed.
Lemma wrap64_inj i j : in_signed 64 i -> in_signed 64 j -> i mod 2 ^ 64 = j mod 2 ^ 64 -> i = j.
Proof.
  unfold in_signed. change (2 ^ (64 - 1)) with 0x8000000000000000.
  change (2 ^ 64) with 0x10000000000000000. intros I J E.
  pose proof (Z.div_mod i 0x10000000000000000 ltac:(lia)). pose proof (Z.div_mod j 0x10000000000000000 ltac:(lia)).
  nia.
Qed.

Lemma bool_signed b : b = CCS_TRUE \/ b = CCS_FALSE -> in_signed 64 b.
Proof. intros [-> | ->]; unfold in_signed, CCS_TRUE, CCS_FALSE; lia. Qed.

Lemma value_key_inj a b : wf_value a -> wf_value b -> value_key a = value_key b -> a = b.
Proof.
  intros Wa Wb E. unfold value_key in E.
  assert (T := f_equal (hd 0) E). cbn [hd] in T. apply (f_equal (@tl Z)) in E. cbn [tl] in E.
  assert (M : forall i, in_unsigned 64 (i mod 2 ^ 64)).
  { intro i. unfold in_unsigned. apply Z.mod_pos_bound. lia. }
  destruct a as [|i|f|i|[s|]| |h|t i], b as [|j|g|j|[s'|]| |h'|t' j]; try reflexivity; try discriminate T;
    cbn [type_of] in T; unfold TYPE_NONE, TYPE_INT, TYPE_FLOAT, TYPE_BOOL, TYPE_STRING, TYPE_INACTIVE, TYPE_OBJECT in T;
    try (cbn in Wa, Wb; lia); try discriminate E.
  - f_equal. apply wrap64_inj; auto. apply digits8_inj; auto.
  - f_equal. apply digits8_inj; auto.
  - f_equal. apply wrap64_inj; auto using bool_signed. apply digits8_inj; auto.
  - congruence.
  - f_equal. apply digits8_inj; auto.
  - destruct Wa, Wb. f_equal; [lia|]. apply wrap64_inj; auto. apply digits8_inj; auto.
Qed.

Lemma cmp_strings_spec s t : sgn_spec (cmp_strings s t) (tl (value_key (VString s))) (tl (value_key (VString t))).
Proof.
  destruct s as [s|], t as [t|]; cbn [cmp_strings value_key tl].
  - destruct (strcmp_spec s t) as [[A B]|[[A B]|[A B]]]; [left|right; left|right; right]; split; auto;
      try (now apply lex_eq). now subst.
  - right; right; split; [lia | constructor].
  - left; split; [lia | constructor].
  - right; left; auto.
Qed.
Lemma sgn_cons c x a b : sgn_spec c a b -> sgn_spec c (x :: a) (x :: b).
Proof.
  intros [[A B]|[[A B]|[A B]]]; [left|right; left|right; right]; split; auto; try (now apply lex_eq). now subst.
Qed.

Lemma word_bytes v : value_bytes v = le_bytes 8 (value_word v). Proof. reflexivity. Qed.
Lemma datum_cmp_key a b : wf_value (d_val a) -> wf_value (d_val b) ->
  sgn_spec (datum_cmp_internal a b) (value_key (d_val a)) (value_key (d_val b)).
Proof.
  intros Wa Wb. unfold datum_cmp_internal.
  destruct (Z.ltb_spec (type_of (d_val a)) (type_of (d_val b))) as [L|L].
  { left; split; [lia|]. unfold value_key. now constructor. }
  destruct (Z.ltb_spec (type_of (d_val b)) (type_of (d_val a))) as [L'|L'].
  { right; right; split; [lia|]. unfold value_key. now constructor. }
  assert (E : type_of (d_val a) = type_of (d_val b)) by lia. clear L L'.
  unfold value_key. rewrite E. apply sgn_cons.
  destruct (d_val a) as [|i|f|i|s| |h|t i], (d_val b) as [|j|g|j|s'| |h'|t' j];
    cbn [type_of] in E; unfold TYPE_NONE, TYPE_INT, TYPE_FLOAT, TYPE_BOOL, TYPE_STRING, TYPE_INACTIVE, TYPE_OBJECT in E;
    try (cbn in Wa, Wb; lia); try discriminate E; try apply cmp_strings_spec;
    try (right; left; split; reflexivity);
    rewrite !word_bytes, !digits8_bytes; apply memcmp_spec; now rewrite !le_bytes_length.
Qed.

Lemma sgn_presents c a b : sgn_spec c a b -> (c < 0 <-> lex a b) /\ (c > 0 <-> lex b a) /\ (c = 0 <-> a = b).
Proof.
  intros [[A B]|[[A B]|[A B]]].
  - repeat split; intros; auto; try lia.
    + exfalso. eapply lex_irrefl, lex_trans; eauto.
    + subst. exfalso. eapply lex_irrefl; eauto.
  - subst b. repeat split; intros; auto; try lia; exfalso; eapply lex_irrefl; eauto.
  - repeat split; intros; auto; try lia.
    + exfalso. eapply lex_irrefl, lex_trans; eauto.
    + subst. exfalso. eapply lex_irrefl; eauto.
Qed.

Lemma datum_cmp_presents a b : wf_value (d_val a) -> wf_value (d_val b) ->
  presents datum_cmp_internal (fun x y => lex (value_key (d_val x)) (value_key (d_val y))) a b.
Proof.
  intros Wa Wb. destruct (sgn_presents _ _ _ (datum_cmp_key a b Wa Wb)) as (A & B & C). now split.
Qed.
Lemma datum_cmp_eq a b : wf_value (d_val a) -> wf_value (d_val b) ->
  (datum_cmp_internal a b = 0 <-> d_val a = d_val b).
Proof.
  intros Wa Wb. destruct (sgn_presents _ _ _ (datum_cmp_key a b Wa Wb)) as (A & B & C).
  rewrite C. split; [now apply value_key_inj | now intros ->].
Qed.
Lemma datum_cmp_total : total_order wf_datum datum_cmp_internal (fun a b => d_val a = d_val b).
Proof.
  split; [|split].
  - intros; now apply datum_cmp_eq.
  - intros a b Wa Wb. rewrite (proj1 (datum_cmp_presents a b Wa Wb)).
    now rewrite (proj2 (datum_cmp_presents b a Wb Wa)).
  - intros a b c Wa Wb Wc. rewrite (proj1 (datum_cmp_presents a b Wa Wb)), (proj1 (datum_cmp_presents b c Wb Wc)),
      (proj1 (datum_cmp_presents a c Wa Wc)). apply lex_trans.
Qed.
Lemma hash_datum_val jen a b : d_val a = d_val b -> hash_datum jen a = hash_datum jen b.
Proof. unfold hash_datum. now intros ->. Qed.
Lemma hash_agrees jen a b : wf_datum a -> wf_datum b -> datum_cmp_internal a b = 0 ->
  hash_datum jen a = hash_datum jen b.
Proof. intros Wa Wb E. apply hash_datum_val. now apply datum_cmp_eq. Qed.

(** Bindings *)
Lemma lex_irrefl_vals x y : d_val x = d_val y -> ~ lex (value_key (d_val x)) (value_key (d_val y)).
Proof. intros ->. apply lex_irrefl. Qed.

Lemma cmp_values_spec a : forall b, length a = length b -> Forall wf_datum a -> Forall wf_datum b ->
  (cmp_values a b < 0 /\ vlex a b) \/ (cmp_values a b = 0 /\ map d_val a = map d_val b) \/
  (cmp_values a b > 0 /\ vlex b a).
Proof.
  induction a as [|x a IH]; destruct b as [|y b]; intros L Wa Wb; try discriminate.
  - right; left; auto.
  - injection L as L. inversion Wa; inversion Wb; subst. cbn [cmp_values map].
    destruct (sgn_presents _ _ _ (datum_cmp_key x y ltac:(assumption) ltac:(assumption))) as (A & B & C).
    destruct (Z.eqb_spec (datum_cmp_internal x y) 0) as [Z|Z].
    + apply datum_cmp_eq in Z; auto.
      destruct (IH b L ltac:(assumption) ltac:(assumption)) as [[P Q]|[[P Q]|[P Q]]]; [left|right; left|right; right]; split; auto.
      * now apply vlex_eq.
      * now rewrite Z, Q.
      * now apply vlex_eq.
    + destruct (Z_lt_le_dec (datum_cmp_internal x y) 0).
      * left; split; auto. apply vlex_lt. now apply A.
      * right; right; split; [lia|]. apply vlex_lt. apply B. lia.
Qed.
Lemma vlex_irrefl l m : map d_val l = map d_val m -> ~ vlex l m.
Proof.
  revert m. induction l as [|x l IH]; intros m E H; inversion H as [x' y l' m' L|x' y l' m' V L]; subst;
    cbn in E; injection E as E1 E2.
  - rewrite E1 in L. now apply lex_irrefl in L.
  - eapply IH; eauto.
Qed.
Lemma vlex_trans a : forall b c, vlex a b -> vlex b c -> vlex a c.
Proof.
  induction a as [|x a IH]; intros b c H1 H2; inversion H1; subst; inversion H2; subst.
  - apply vlex_lt. eapply lex_trans; eauto.
  - apply vlex_lt. congruence.
  - apply vlex_lt. congruence.
  - apply vlex_eq; [congruence | eapply IH; eauto].
Qed.

Lemma binding_cmp_spec a b : wf_binding a -> wf_binding b ->
  (binding_cmp a b < 0 /\ binding_lt a b) \/ (binding_cmp a b = 0 /\ same_binding a b) \/
  (binding_cmp a b > 0 /\ binding_lt b a).
Proof.
  intros [Wa _] [Wb _]. unfold binding_cmp, binding_lt, same_binding, lenZ.
  repeat match goal with |- context [?x <? ?y] => destruct (Z.ltb_spec x y); try lia end.
  destruct (cmp_values_spec (b_values a) (b_values b) ltac:(lia) Wa Wb) as [[P Q]|[[P Q]|[P Q]]];
    [left|right; left|right; right]; split; auto.
  - right; split; [lia|]. right; split; [lia | assumption].
  - split; [lia | assumption].
  - right; split; [lia|]. right; split; [lia | assumption].
Qed.
Lemma binding_lt_trans a b c : binding_lt a b -> binding_lt b c -> binding_lt a c.
Proof.
  unfold binding_lt. intros [A|(A & [B|(B & C)])] [D|(D & [E|(E & F)])];
    try (left; lia); try (right; split; [lia|]; left; lia).
  right; split; [lia|]. right; split; [lia|]. eapply vlex_trans; eauto.
Qed.
Lemma binding_lt_irrefl a b : same_binding a b -> ~ binding_lt a b.
Proof.
  intros [A B] [C|(C & [D|(D & E)])].
  - lia.
  - apply (f_equal (@length _)) in B. rewrite !map_length in B. lia.
  - eapply vlex_irrefl; eauto.
Qed.
Lemma same_binding_sym a b : same_binding a b -> same_binding b a.
Proof. intros [A B]; split; auto. Qed.
Lemma binding_lt_same a b c : binding_lt a b -> binding_lt b c -> ~ same_binding a c.
Proof. intros H1 H2 S. eapply binding_lt_irrefl; [exact S|]. eapply binding_lt_trans; eauto. Qed.

Lemma binding_cmp_presents a b : wf_binding a -> wf_binding b ->
  presents binding_cmp binding_lt a b /\ (binding_cmp a b = 0 <-> same_binding a b).
Proof.
  intros Wa Wb. unfold presents.
  assert (X : binding_lt a b -> binding_lt b a -> False).
  { intros H1 H2. eapply binding_lt_same; eauto. now split. }
  assert (Y : same_binding a b -> binding_lt a b -> False) by (intros; eapply binding_lt_irrefl; eauto).
  assert (Z : same_binding a b -> binding_lt b a -> False).
  { intros; eapply (binding_lt_irrefl b a); eauto. now apply same_binding_sym. }
  destruct (binding_cmp_spec a b Wa Wb) as [[P Q]|[[P Q]|[P Q]]].
  - split; [split|]; split; intros; auto; try lia; exfalso; auto.
  - split; [split|]; split; intros; auto; try lia; exfalso; auto.
  - split; [split|]; split; intros; auto; try lia; exfalso; auto.
Qed.
Lemma binding_cmp_total : total_order wf_binding binding_cmp same_binding.
Proof.
  split; [|split].
  - intros a b Wa Wb. now apply binding_cmp_presents.
  - intros a b Wa Wb. rewrite (proj1 (proj1 (binding_cmp_presents a b Wa Wb))).
    now rewrite (proj2 (proj1 (binding_cmp_presents b a Wb Wa))).
  - intros a b c Wa Wb Wc. rewrite (proj1 (proj1 (binding_cmp_presents a b Wa Wb))),
      (proj1 (proj1 (binding_cmp_presents b c Wb Wc))), (proj1 (proj1 (binding_cmp_presents a c Wa Wc))).
    apply binding_lt_trans.
Qed.
Lemma hash_values_eq jen a : forall b h, map d_val a = map d_val b -> hash_values jen h a = hash_values jen h b.
Proof.
  induction a as [|x a IH]; destruct b as [|y b]; intros h E; try discriminate; auto.
  cbn in E. injection E as E1 E2. cbn. rewrite (hash_datum_val jen x y E1). now apply IH.
Qed.
Lemma binding_hash_agrees jen a b : wf_binding a -> wf_binding b -> binding_cmp a b = 0 ->
  binding_hash jen a = binding_hash jen b.
Proof.
  intros Wa Wb E. apply binding_cmp_presents in E; auto. destruct E as [C V].
  unfold binding_hash. rewrite C. unfold lenZ.
  replace (length (b_values b)) with (length (b_values a))
    by (apply (f_equal (@length _)) in V; rewrite !map_length in V; exact V).
  now apply hash_values_eq.
Qed.

(** Public comparison *)
Lemma public_cmp_spec a b : no_nan a -> no_nan b ->
  (ccs_datum_cmp a b < 0 /\ num_lt (d_val a) (d_val b)) \/
  (ccs_datum_cmp a b = 0 /\ num_same (d_val a) (d_val b)) \/
  (ccs_datum_cmp a b > 0 /\ num_lt (d_val b) (d_val a)).
Proof.
  intros [Wa Na] [Wb Nb].
  destruct (datum_cmp_key a b Wa Wb) as [[P Q]|[[P Q]|[P Q]]];
    unfold wf_datum in *; unfold ccs_datum_cmp, datum_cmp_internal in *;
    destruct (d_val a) as [|i|f|i|s| |h|t i], (d_val b) as [|j|g|j|s'| |h'|t' j];
    cbn [type_of num_lt num_same] in *;
    unfold TYPE_NONE, TYPE_INT, TYPE_FLOAT, TYPE_BOOL, TYPE_STRING, TYPE_INACTIVE, TYPE_OBJECT in *;
    try (rewrite Z.ltb_irrefl in * );
    try (left; split; [exact P | exact Q]); try (right; right; split; [exact P | exact Q]);
    try (right; left; split; [exact P|]; apply value_key_inj; assumption);
    try (destruct (Z.ltb_spec i j); [left; split; [lia | assumption] |
           destruct (Z.ltb_spec j i); [right; right; split; [lia | assumption] | right; left; split; [lia | f_equal; lia]]]);
    try (destruct (flt f g) eqn:F; [left; split; [lia | now apply flt_key] |]; unfold fgt;
         destruct (flt g f) eqn:F'; [right; right; split; [lia | now apply flt_key] | right; left; split; [lia|]];
         assert (N1 := proj2 (flt_key f g)); assert (N2 := proj2 (flt_key g f)); rewrite F in N1; rewrite F' in N2;
         destruct (fkey f) as [x|]; [|congruence]; destruct (fkey g) as [y|]; [|congruence]; cbn in *;
         destruct (Z_lt_le_dec x y); [discriminate (N1 ltac:(lia))|]; destruct (Z_lt_le_dec y x); [discriminate (N2 ltac:(lia)) | lia]).
Qed.


Lemma lex_type a b : lex (value_key a) (value_key b) -> type_of a <= type_of b.
Proof. unfold value_key. intro H. inversion H; subst; lia. Qed.
Lemma num_lt_type a b : num_lt a b -> type_of a <= type_of b.
Proof.
  pose proof (lex_type a b) as L.
  destruct a, b; cbn [num_lt]; auto; intros; cbn [type_of]; lia.
Qed.
Lemma type_num_lt a b : type_of a < type_of b -> num_lt a b.
Proof.
  intro T. assert (L : lex (value_key a) (value_key b)) by (unfold value_key; now constructor).
  destruct a, b; cbn [num_lt]; auto; cbn [type_of] in T; lia.
Qed.
Lemma num_lt_trans a b c : wf_value a -> wf_value b -> wf_value c -> num_lt a b -> num_lt b c -> num_lt a c.
Proof.
  intros Wa Wb Wc H1 H2.
  pose proof (num_lt_type _ _ H1). pose proof (num_lt_type _ _ H2).
  destruct (Z_lt_le_dec (type_of a) (type_of c)); [now apply type_num_lt|].
  assert (E1 : type_of a = type_of b) by lia. assert (E2 : type_of b = type_of c) by lia.
  pose proof (lex_trans (value_key a) (value_key b) (value_key c)) as T.
  destruct a as [|i|f|i|s| |h|t i], b as [|j|g|j|s'| |h'|t' j]; try discriminate E1;
    destruct c as [|k|e|k|s''| |h''|t'' k]; try discriminate E2; cbn [num_lt] in *; auto; try lia;
    try (destruct (fkey f), (fkey g), (fkey e); cbn in *; lia);
    exfalso; cbn [type_of] in *; unfold TYPE_NONE, TYPE_INT, TYPE_FLOAT, TYPE_BOOL, TYPE_STRING, TYPE_INACTIVE, TYPE_OBJECT in *;
    cbn [wf_value] in *; lia.
Qed.
Lemma num_lt_irrefl a b : wf_value a -> wf_value b -> num_same a b -> ~ num_lt a b.
Proof.
  intros Wa Wb S H. destruct a as [|i|f|i|s| |h|t i], b as [|j|g|j|s'| |h'|t' j]; cbn [num_same num_lt] in *;
    try discriminate S; try (injection S as ->; lia);
    try (exact (lex_irrefl _ H)); try (rewrite S in H; exact (lex_irrefl _ H)).
  destruct (fkey f), (fkey g); cbn in *; lia.
Qed.
Lemma num_same_sym a b : num_same a b -> num_same b a.
Proof. destruct a, b; cbn; try congruence. destruct (fkey bits), (fkey bits0); cbn; congruence. Qed.
Lemma public_cmp_presents a b : no_nan a -> no_nan b ->
  presents ccs_datum_cmp (fun x y => num_lt (d_val x) (d_val y)) a b /\
  (ccs_datum_cmp a b = 0 <-> num_same (d_val a) (d_val b)).
Proof.
  intros Na Nb. destruct (Na) as [Wa Xa]. destruct (Nb) as [Wb Xb]. unfold presents.
  assert (X : num_lt (d_val a) (d_val b) -> num_lt (d_val b) (d_val a) -> False).
  { intros H1 H2. eapply (num_lt_irrefl (d_val a) (d_val a)); auto.
    - destruct (d_val a); cbn; auto. destruct (fkey bits); cbn; congruence.
    - eapply num_lt_trans; [exact Wa | exact Wb | exact Wa | exact H1 | exact H2]. }
  assert (Y : num_same (d_val a) (d_val b) -> num_lt (d_val a) (d_val b) -> False)
    by (intros; eapply (num_lt_irrefl (d_val a)); [| |eassumption|]; eauto).
  assert (Z : num_same (d_val a) (d_val b) -> num_lt (d_val b) (d_val a) -> False).
  { intros; eapply (num_lt_irrefl (d_val b) (d_val a)); auto. now apply num_same_sym. }
  destruct (public_cmp_spec a b Na Nb) as [[P Q]|[[P Q]|[P Q]]].
  - split; [split|]; split; intros; auto; try lia; exfalso; auto.
  - split; [split|]; split; intros; auto; try lia; exfalso; auto.
  - split; [split|]; split; intros; auto; try lia; exfalso; auto.
Qed.
Lemma public_cmp_total : total_order no_nan ccs_datum_cmp (fun a b => num_same (d_val a) (d_val b)).
Proof.
  split; [|split].
  - intros a b Wa Wb. now apply public_cmp_presents.
  - intros a b Wa Wb. rewrite (proj1 (proj1 (public_cmp_presents a b Wa Wb))).
    now rewrite (proj2 (proj1 (public_cmp_presents b a Wb Wa))).
  - intros a b c Wa Wb Wc. rewrite (proj1 (proj1 (public_cmp_presents a b Wa Wb))),
      (proj1 (proj1 (public_cmp_presents b c Wb Wc))), (proj1 (proj1 (public_cmp_presents a c Wa Wc))).
    destruct Wa, Wb, Wc. now apply num_lt_trans.
Qed.
Lemma public_cmp_nan : forall x y, fkey x = None ->
  ccs_datum_cmp (ccs_float x) (ccs_float y) = 0 /\ ccs_datum_cmp (ccs_float y) (ccs_float x) = 0.
Proof.
  intros x y N. unfold ccs_datum_cmp; cbn.
  assert (F : forall a b, fkey a = None \/ fkey b = None -> flt a b = false).
  { intros a b H. destruct (flt a b) eqn:E; auto. apply flt_key in E.
    destruct H as [H|H]; rewrite H in E; destruct (fkey a); destruct (fkey b); cbn in E; tauto. }
  unfold fgt. rewrite !F; auto.
Qed.
Lemma public_cmp_refuted :
  (exists a b c, ccs_datum_cmp a b = 0 /\ ccs_datum_cmp b c = 0 /\ ccs_datum_cmp a c < 0 /\
     wf_datum a /\ wf_datum b /\ wf_datum c) /\
  (exists a b, ccs_datum_cmp a b = 0 /\ d_val a <> d_val b /\ no_nan a /\ no_nan b).
Proof.
  assert (W : forall x, (0 <=? x) && (x <? 2 ^ 64) = true -> wf_datum (ccs_float x)).
  { intros x H. unfold wf_datum; cbn [d_val ccs_float wf_value]. unfold in_unsigned. lia. }
  split.
  - exists (ccs_float 0x3ff0000000000000), (ccs_float 0x7ff8000000000000), (ccs_float 0x4000000000000000).
    split; [now vm_compute|]. split; [now vm_compute|]. split; [now vm_compute|].
    repeat split; apply W; reflexivity.
  - exists (ccs_float 0), (ccs_float (2 ^ 63)). split; [now vm_compute|]. split; [discriminate|].
    split; (split; [apply W; reflexivity | now vm_compute]).
Qed.
