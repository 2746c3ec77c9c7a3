(** Theorems on decoders reading arbitrary bytes. *)
From Coq Require Import ZArith List Bool.
From Verif Require Import Base Datum CodecModel CodecSpec FrameModel BytesSpec BytesProofs.
Import ListNotations.
Open Scope Z_scope.

(** C04: numbers, hashes, floats. Whatever the bytes, [varint_case] and the others say what is read and what is left, which
    error is returned, or that behaviour is undefined: only for more groups of bits than the number can have. *)
Theorem C04_numbers : forall le,
  settled_by (varint_case 32) (deser_uint 32) /\ settled_by (varint_case 64) (deser_uint 64) /\ settled_by (signed_case 32) (deser_sint 32) /\ settled_by (signed_case 64) (deser_sint 64) /\
  settled_by (word_case 4) (deser_hash le) /\ settled_by (word_case 8) (deser_float le).
Proof. exact decoders_settled. Qed.
Print Assumptions C04_numbers.
Example C04_numbers_ex :
  varint_case 32 [172; 2; 9] (Ok (300, [9])) /\ reads (deser_uint 32) [172; 2; 9] (Ok (300, [9])) /\ varint_case 32 [172; 130] (Err ERR_NOT_ENOUGH_DATA) /\
  varint_case 32 [128; 128; 128; 128; 128; 0] (UB UBShift) /\ reads (deser_uint 32) [128; 128; 128; 128; 128; 0] (UB UBShift) /\ signed_case 32 [5; 7] (Ok (-3, [7])) /\ reads (deser_sint 32) [5; 7] (Ok (-3, [7])).
Proof.
  split; [apply (vc_value 32 [172; 2; 9] [172] 2 [9]); [reflexivity|repeat constructor; discriminate|split; [discriminate|reflexivity]|reflexivity]|].
  split; [reflexivity|]. split; [apply vc_cut; [repeat constructor; discriminate|discriminate]|].
  split; [apply (vc_overlong 32 _ [128; 128; 128; 128; 128] [0]); [reflexivity|repeat constructor; discriminate|reflexivity|discriminate]|].
  split; [reflexivity|]. split; [|reflexivity]. apply (ch_next _ _ _ 5 [7]); [apply (vc_value 32 [5; 7] [] 5 [7]); [reflexivity|constructor|split; [discriminate|reflexivity]|reflexivity]|].
  exists (-3). repeat split; discriminate.
Qed.

(** C04: strings, blobs, user data, intervals, values, handles, headers. Undefined only for overlong numbers, strings that end
    nowhere in the buffer, user data that are not all there. *)
Theorem C04_composed : forall le, settled_by string_case deser_string /\ settled_by blob_case deser_blob /\ settled_by user_data_case deser_user_data /\ settled_by interval_case (deser_interval le) /\
  settled_by datum_case (deser_datum le) /\ settled_by object_case deser_object_internal /\ settled_by header_case (deser_header le).
Proof. exact strings_settled. Qed.
Print Assumptions C04_composed.
Example C04_composed_ex :
  string_case [2; 97; 98; 99; 0; 5] (Ok ([97; 98; 99], [99; 0; 5])) /\ reads deser_string [2; 97; 98; 99; 0; 5] (Ok ([97; 98; 99], [99; 0; 5])) /\
  string_case [2; 97; 98] (UB UBString) /\ blob_case [3; 1; 2] (Err ERR_NOT_ENOUGH_DATA) /\ user_data_case [3; 1; 2] (UB UBBounds) /\ datum_case [9; 1] (Err ERR_INVALID_TYPE).
Proof.
  assert (V : forall w b rest, 0 <= b < 128 -> 0 < groups w -> 0 < 2 ^ w -> b mod 128 + 128 * 0 = b -> b mod 2 ^ w = b -> varint_case w (b :: rest) (Ok (b, rest))).
  { intros w b rest B G P E M. pose proof (vc_value w (b :: rest) [] b rest eq_refl (Forall_nil _) B G) as X. cbn [app groups_value] in X. now rewrite E, M in X. }
  split; [apply (ch_next _ _ _ 2 [97; 98; 99; 0; 5]); [apply V; repeat split; discriminate|]; refine (cs_value 2 [97; 98; 99; 0; 5] [97; 98; 99] [5] _ _ _); [discriminate|reflexivity|intros [X|[X|[X|[]]]]; discriminate]|].
  split; [reflexivity|]. split; [apply (ch_next _ _ _ 2 [97; 98]); [apply V; repeat split; discriminate|]; apply cs_unterminated; [discriminate|intros [X|[X|[]]]; discriminate]|].
  split; [apply (ch_next _ _ _ 3 [1; 2]); [apply V; repeat split; discriminate|]; apply ct_cut; reflexivity|].
  split; [apply (ch_next _ _ _ 3 [1; 2]); [apply V; repeat split; discriminate|]; apply ct_cut; reflexivity|].
  apply (ch_next _ _ _ 9 [1]); [apply V; repeat split; discriminate|]. apply pl_other. intros [_ X]. now apply X.
Qed.

(** C59: what is read of an object is read from the bytes after the header, all of them *)
Theorem C59_bytes_present : forall A le (de : rstate -> res (A * rstate)) bs, byte_string bs -> lenZ bs < 2 ^ 64 ->
  (forall e, header_case bs (Err e) -> deserialize_memory le de bs (lenZ bs) = Err e) /\
  (forall size v rest, header_case bs (Ok ((size, v), rest)) -> deserialize_memory le de bs (lenZ bs) = (do (a, _) <- de (mkR rest (lenZ rest)); Ok a)).
Proof. exact frame_read. Qed.
Print Assumptions C59_bytes_present.
(** C59: the announced size plays no role *)
Theorem C59_announced_ignored : forall A le (de : rstate -> res (A * rstate)) size size' rest n, in_unsigned 64 size -> in_unsigned 64 size' -> n < 2 ^ 64 -> n <= 12 + lenZ rest ->
  deserialize_memory le de ([67; 67; 83; 0] ++ word 8 size ++ rest) n = deserialize_memory le de ([67; 67; 83; 0] ++ word 8 size' ++ rest) n.
Proof. exact announced_ignored. Qed.
Print Assumptions C59_announced_ignored.
Example C59_ignored_ex :
  deserialize_memory true (deser_uint 32) ([67; 67; 83; 0] ++ word 8 1000000 ++ [0; 42]) 14 = Ok 42 /\ deserialize_memory true (deser_uint 32) ([67; 67; 83; 0] ++ word 8 14 ++ [0; 42]) 14 = Ok 42 /\
  deserialize_memory true (deser_uint 32) ([67; 67; 83; 0] ++ word 8 14 ++ [2; 42]) 14 = Err ERR_INVALID_VALUE /\ deserialize_memory true (deser_uint 32) [67; 67; 84; 0; 1] 5 = Err ERR_INVALID_VALUE.
Proof. repeat split. Qed.
