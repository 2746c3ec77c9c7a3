(** Creating nodes of any arity. *)
From Coq Require Import ZArith List Bool Lia ZifyBool.
From Verif Require Import Base Datum CodecModel FloatModel DistModel CmpSpec TreeModel TreeSpec.
Import ListNotations.
Open Scope Z_scope.

Lemma create_any h arity value : 0 <= arity < 2 ^ 64 -> wf_datum value ->
  let bytes := 160 + 24 * arity + string_bytes (d_val value) in
  (create_tree h arity value = Err ERR_INVALID_VALUE <-> ~ node_value (d_val value) \/ 2 ^ 63 - 1 <= arity) /\
  (node_value (d_val value) -> arity < 2 ^ 63 - 1 ->
     (2 ^ 56 < bytes mod 2 ^ 64 /\ create_tree h arity value = Err ERR_OUT_OF_MEMORY) \/
     (bytes <= 2 ^ 56 /\ create_tree h arity value = Ok (length h, h ++ [Some (new_node (Z.to_nat arity) value)])) \/
     (2 ^ 64 <= bytes /\ bytes mod 2 ^ 64 <= 2 ^ 56 /\ create_tree h arity value = UB UBBounds)).
Proof.
  intros A W bytes.
  assert (E : create_tree h arity value =
    if TYPE_STRING <? type_of (d_val value) then Err ERR_INVALID_VALUE else
    if INT64_MAX - 1 <? arity then Err ERR_INVALID_VALUE else
    match d_val value with VString None => Err ERR_INVALID_VALUE | _ =>
      if 2 ^ 56 <? bytes mod 2 ^ 64 then Err ERR_OUT_OF_MEMORY else
      if bytes mod 2 ^ 64 <? bytes then UB UBBounds else Ok (length h, h ++ [Some (new_node (Z.to_nat arity) value)]) end).
  { unfold create_tree. destruct (TYPE_STRING <? type_of (d_val value)); [reflexivity|]. cbn [refute bind]. destruct (INT64_MAX - 1 <? arity); [reflexivity|]. cbn [refute bind].
    assert (B : TREE_BYTES + (arity + 1) * 8 + (arity + 2) * 8 + arity * 8 + string_bytes (d_val value) = bytes) by (unfold bytes, TREE_BYTES; ring).
    destruct (d_val value) as [| | | |[s|]| | |]; cbn [string_bytes] in B; cbn [bind]; try reflexivity; rewrite B; unfold wrap, MAX_BLOCK; destruct (2 ^ 56 <? bytes mod 2 ^ 64); reflexivity. }
  assert (T : node_value (d_val value) -> TYPE_STRING <? type_of (d_val value) = false).
  { destruct (d_val value) as [| | | |[s|]| | |]; cbn [node_value]; intro N; try contradiction; reflexivity. }
  assert (T' : ~ node_value (d_val value) -> TYPE_STRING <? type_of (d_val value) = true \/ d_val value = VString None).
  { unfold wf_datum in W. destruct (d_val value) as [| | | |[s|]| | |t i]; cbn [node_value]; intro N; try (exfalso; exact (N Logic.I)); auto. left. apply Z.ltb_lt. cbn in *. unfold TYPE_STRING. lia. }
  assert (D : node_value (d_val value) \/ ~ node_value (d_val value)) by (destruct (d_val value) as [| | | |[s|]| | |]; cbn; tauto).
  assert (NB : 0 <= string_bytes (d_val value)) by (destruct (d_val value) as [| | | |[s|]| | |]; cbn; unfold lenZ; lia).
  pose proof (Z.mod_pos_bound bytes (2 ^ 64) ltac:(lia)) as MB. assert (BP : 160 <= bytes) by (unfold bytes; lia).
  assert (OK : node_value (d_val value) -> arity < 2 ^ 63 - 1 -> create_tree h arity value = if 2 ^ 56 <? bytes mod 2 ^ 64 then Err ERR_OUT_OF_MEMORY else
      if bytes mod 2 ^ 64 <? bytes then UB UBBounds else Ok (length h, h ++ [Some (new_node (Z.to_nat arity) value)])).
  { intros N L. rewrite E, (T N). destruct (Z.ltb_spec (INT64_MAX - 1) arity) as [Q|_]; [unfold INT64_MAX in Q; lia|]. destruct (d_val value) as [| | | |[s|]| | |]; try contradiction; reflexivity. }
  split; [split|].
  - intro X. destruct D as [D|D]; [right|now left]. destruct (Z.lt_ge_cases arity (2 ^ 63 - 1)) as [L|L]; [|lia]. rewrite (OK D L) in X.
    destruct (2 ^ 56 <? bytes mod 2 ^ 64); [discriminate|]. destruct (bytes mod 2 ^ 64 <? bytes); discriminate.
  - intros [N|L]; rewrite E.
    + destruct (T' N) as [->| Q]; [reflexivity|]. destruct (_ <? _); [reflexivity|]. destruct (_ <? arity); [reflexivity|]. now rewrite Q.
    + destruct (_ <? _); [reflexivity|]. destruct (Z.ltb_spec (INT64_MAX - 1) arity) as [_|Q]; [reflexivity|unfold INT64_MAX in Q; lia].
  - intros N L. rewrite (OK N L). destruct (Z.ltb_spec (2 ^ 56) (bytes mod 2 ^ 64)) as [Q|Q]; [left; auto|right].
    destruct (Z.ltb_spec (bytes mod 2 ^ 64) bytes) as [Q'|Q'].
    + right. split; [|auto]. destruct (Z.lt_ge_cases bytes (2 ^ 64)) as [Y|Y]; [|exact Y]. rewrite Z.mod_small in Q' by lia. lia.
    + left. split; [|reflexivity]. destruct (Z.lt_ge_cases bytes (2 ^ 64)) as [Y|Y]; [rewrite Z.mod_small in Q by lia; exact Q|lia].
Qed.
