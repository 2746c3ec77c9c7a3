From Coq Require Import ZArith List Bool Lia ZifyBool.
From Verif Require Import Base Datum CodecModel CodecSpec CodecProofs CmpModel CmpSpec CmpProofs MapModel MapSpec MapProofs.
Import ListNotations.
Open Scope Z_scope.

Definition back (e : datum * datum) : datum * datum :=
  (mkDatum (d_val (fst e)) (wire_flags (d_val (fst e))), mkDatum (d_val (snd e)) (wire_flags (d_val (snd e)))).

Lemma wire_pairs_exists l : Forall storable l -> exists bs, wire_pairs l bs.
Proof.
  induction 1 as [|[k v] l (A & B & C & D) F IH]; [exists []; constructor|].
  destruct IH as [c IH]. cbn [fst snd] in *.
  destruct (wire_datum_exists _ A C) as [a Ha]. destruct (wire_datum_exists _ B D) as [b Hb].
  exists (a ++ b ++ c). now constructor.
Qed.
Lemma ser_pairs_encodes le l bs : Forall storable l -> wire_pairs l bs -> encodes (ser_pairs le l) bs.
Proof.
  intros F W. revert F. induction W as [|k v l a b c Ha Hb W IH]; intro F.
  - apply encodes_nil.
  - inversion F as [|? ? (A & B & _) F']; subst. cbn [fst snd] in *. cbn [ser_pairs].
    apply encodes_seq; [now apply ser_datum_encodes|].
    apply encodes_seq; [now apply ser_datum_encodes | now apply IH].
Qed.
Lemma size_pairs_ok l bs : Forall storable l -> wire_pairs l bs -> size_pairs l = Ok (lenZ bs).
Proof.
  intros F W. revert F. induction W as [|k v l a b c Ha Hb W IH]; intro F; [reflexivity|].
  inversion F as [|? ? (A & B & _) F']; subst. cbn [fst snd] in *. cbn [size_pairs].
  rewrite (size_datum_ok k a), (size_datum_ok v b), IH by auto. cbn [bind]. f_equal. rewrite !lenZ_app. lia.
Qed.
Lemma deser_pairs_decodes le l bs : Forall storable l -> wire_pairs l bs ->
  decodes (deser_pairs le (length l)) (map back l) bs.
Proof.
  intros F W. revert F. induction W as [|k v l a b c Ha Hb W IH]; intro F.
  - apply decodes_ret.
  - inversion F as [|? ? (A & B & _) F']; subst. cbn [fst snd] in *. cbn [deser_pairs length].
    apply (decodes_bind (deser_datum le) (fun k s1 => do (v, s2) <- deser_datum le s1;
        do (l0, s3) <- deser_pairs le (length l) s2; Ok ((k, v) :: l0, s3)) (mkDatum (d_val k) (wire_flags (d_val k)))).
    { now apply deser_datum_decodes. }
    apply (decodes_bind (deser_datum le) (fun v s2 => 
        do (l0, s3) <- deser_pairs le (length l) s2; Ok ((_, v) :: l0, s3)) (mkDatum (d_val v) (wire_flags (d_val v)))).
    { now apply deser_datum_decodes. }
    cbn [map]. apply (decodes_map (deser_pairs le (length l)) (fun l0 => (_, _) :: l0)). now apply IH.
Qed.

Section S.
  Variable jen : list Z -> Z.
  Lemma owned_back v : owned (mkDatum v (wire_flags v)) = None.
  Proof. destruct v; reflexivity. Qed.
  Lemma hash_find_none l k : wf_datum k -> Forall (fun e => wf_datum (fst e)) l ->
    ~ In (d_val k) (map (fun e => d_val (fst e)) l) -> hash_find jen l k = None.
  Proof.
    intros Wk F N. induction F as [|e l He F IH]; [reflexivity|]. cbn in *.
    replace (key_matches jen k e) with false.
    - apply IH. tauto.
    - symmetry. unfold key_matches. apply andb_false_intro2. apply Z.eqb_neq. intro H.
      apply datum_cmp_eq in H; auto.
  Qed.
  Lemma set_pairs_ok l : forall st,
    Forall storable l -> Forall (fun e => wf_datum (fst e)) (m_pairs st) ->
    NoDup (map (fun e => d_val (fst e)) (m_pairs st ++ l)) ->
    set_pairs jen st (map back l) =
      Ok (0, mkMap (m_pairs st ++ map (fun e => (set_string (fst (back e)), set_string (snd (back e)))) l) (m_rc st)).
  Proof.
    induction l as [|e l IH]; intros st F G ND; cbn [map set_pairs].
    - rewrite app_nil_r. now destruct st.
    - inversion F as [|? ? (A & B & C & D) F']; subst. unfold back at 1. unfold map_set.
      rewrite hash_find_none; auto.
      + unfold check_datum. rewrite !owned_back. cbn [bind Z.ltb Z.compare CCS_RESULT_SUCCESS m_pairs m_rc].
        change (CCS_RESULT_SUCCESS <? 0) with false. cbv iota.
        rewrite IH; cbn [m_pairs m_rc]; auto.
        * rewrite <- app_assoc. reflexivity.
        * apply Forall_app; split; auto. repeat constructor. cbn [fst]. unfold wf_datum. now rewrite set_string_val.
        * rewrite <- app_assoc. cbn [app]. rewrite map_app in *. cbn [map fst] in *. rewrite set_string_val. exact ND.
      + rewrite map_app in ND. cbn [map] in ND. apply NoDup_remove_2 in ND. cbn [d_val]. intro I. apply ND.
        apply in_or_app. now left.
  Qed.

  Lemma map_roundtrip le rc l : Forall storable l -> NoDup (map (fun e => d_val (fst e)) l) -> lenZ l < 2 ^ 64 ->
    exists bs l', wire_map l bs /\ encodes (ser_map_data le l) bs /\ size_map_data l = Ok (lenZ bs) /\
      map (fun e => (d_val (fst e), d_val (snd e))) l' = map (fun e => (d_val (fst e), d_val (snd e))) l /\
      decodes (deser_map jen le rc) (0, mkMap l' rc) bs.
  Proof.
    intros F ND L. destruct (wire_pairs_exists l F) as [c W].
    destruct (leb128_exists (lenZ l) (lenZ_nonneg l)) as [n N].
    exists (n ++ c), (map (fun e => (set_string (fst (back e)), set_string (snd (back e)))) l).
    split; [exists n, c; now repeat split|]. split; [|split; [|split]].
    - unfold ser_map_data. apply encodes_seq; [|now apply ser_pairs_encodes].
      apply ser_uint_encodes; auto using okw64. split; [apply lenZ_nonneg | exact L].
    - unfold size_map_data. rewrite (size_pairs_ok l c F W). cbn [bind]. f_equal.
      unfold size_size. rewrite (size_uint_ok 64 (lenZ l) n), lenZ_app; auto using okw64.
      split; [apply lenZ_nonneg | exact L].
    - rewrite map_map. apply map_ext. intro e. cbn [fst snd]. now rewrite !set_string_val.
    - unfold deser_map.
      apply (decodes_bind deser_size (fun n s1 => do (l, s2) <- deser_pairs le (Z.to_nat n) s1;
        do r <- set_pairs jen (map_create rc) l; Ok (r, s2)) (lenZ l)).
      { apply deser_uint_decodes; auto using okw64. split; [apply lenZ_nonneg | exact L]. }
      replace (Z.to_nat (lenZ l)) with (length l) by (unfold lenZ; lia).
      rewrite <- (app_nil_r c).
      apply (decodes_bind (deser_pairs le (length l)) (fun l s2 => 
        do r <- set_pairs jen (map_create rc) l; Ok (r, s2)) (map back l)).
      { now apply deser_pairs_decodes. }
      rewrite set_pairs_ok; [apply decodes_ret | auto | constructor | auto].
  Qed.
End S.

Lemma get_keys_is_get_values st arr : map_get_keys st arr = map_get_values st arr.
Proof. reflexivity. Qed.
