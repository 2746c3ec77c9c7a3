(** Properties C01-C05, C55, C58, C59: the binary wire format. *)
From Coq Require Import ZArith List Bool Lia.
From Verif Require Import Base Datum CodecModel CodecSpec CodecProofs FrameModel FrameSpec FrameProofs
  CodecLemmas.
Import ListNotations.
Open Scope Z_scope.

(** C01: scalars *)
Theorem C01_unsigned_roundtrip : forall w x,
  w = 16 \/ w = 32 \/ w = 64 -> 0 <= x < 2 ^ w ->
  exists bs, leb128 x bs /\ encodes (ser_uint w x) bs /\ size_uint w x = lenZ bs /\
             decodes (deser_uint w) x bs.
Proof. exact unsigned_roundtrip. Qed.
Print Assumptions C01_unsigned_roundtrip.
Example C01_unsigned_ex : leb128 300 [172; 2] /\ size_uint 16 300 = 2 /\
  deser_uint 16 (mkR [172; 2; 9] 3) = Ok (300, mkR [9] 1).
Proof. split; [apply leb_more; [lia | now constructor] | now split]. Qed.

Theorem C01_signed_roundtrip : forall w x,
  w = 16 \/ w = 32 \/ w = 64 -> - 2 ^ (w - 1) <= x < 2 ^ (w - 1) ->
  exists bs, leb128 (zigzag x) bs /\ encodes (ser_sint w x) bs /\ size_sint w x = lenZ bs /\
             decodes (deser_sint w) x bs.
Proof. exact signed_roundtrip. Qed.
Print Assumptions C01_signed_roundtrip.
Example C01_signed_ex : zigzag (-150) = 299 /\
  deser_sint 64 (mkR [171; 2; 9] 3) = Ok (-150, mkR [9] 1) /\
  size_sint 64 (-9223372036854775808) = 10.
Proof. now vm_compute. Qed.

(** 8-bit integers (n = 1), hashes (n = 4), doubles and raw sizes (n = 8); [le] is
    the byte order of the host. *)
Theorem C01_fixed_roundtrip : forall le n x,
  n = 1%nat \/ n = 2%nat \/ n = 4%nat \/ n = 8%nat -> 0 <= x < 256 ^ Z.of_nat n ->
  encodes (ser_fixed le n x) (word n x) /\ size_fixed n x = lenZ (word n x) /\
  decodes (deser_fixed le n) x (word n x).
Proof. exact fixed_roundtrip. Qed.
Print Assumptions C01_fixed_roundtrip.
Example C01_fixed_ex :
  deser_float false (mkR [0; 0; 0; 0; 0; 0; 240; 63; 7] 9) = Ok (0x3ff0000000000000, mkR [7] 1).
Proof. now vm_compute. Qed.

Theorem C01_int8_roundtrip : forall le x, -128 <= x < 128 ->
  encodes (ser_int8 le x) [x mod 256] /\ decodes (deser_int8 le) x [x mod 256].
Proof. exact int8_roundtrip. Qed.
Print Assumptions C01_int8_roundtrip.
Example C01_int8_ex : deser_int8 true (mkR [255] 1) = Ok (-1, mkR [] 0).
Proof. now vm_compute. Qed.

(** C02: writers and their buffers.  [wf_w] only says that the size passed is the
    size of the memory. *)
Theorem C02_datum_writer_bounded : forall le d s, wf_value (d_val d) -> d_val d <> VString None ->
  wf_w s ->
  (exists sz s', size_datum d = Ok sz /\ ser_datum le d s = Ok s' /\ sz <= w_size s /\
     w_size s' = w_size s - sz /\
     exists bs, lenZ bs = sz /\ w_done s' = w_done s ++ bs /\
                w_rest s' = skipn (length bs) (w_rest s)) \/
  (exists sz, size_datum d = Ok sz /\ w_size s < sz /\ ser_datum le d s = Err ERR_NOT_ENOUGH_DATA) \/
  (exists t i, d_val d = VUnknown t i /\
     (ser_datum le d s = Err ERR_INVALID_TYPE \/ ser_datum le d s = Err ERR_NOT_ENOUGH_DATA)).
Proof. exact datum_writer_bounded. Qed.
Print Assumptions C02_datum_writer_bounded.
Example C02_datum_ex :
  ser_datum true (ccs_string (Some [97; 98])) (mkW [] [0; 0; 0; 0; 0] 5) = Ok (mkW [4; 3; 97; 98; 0] [] 0) /\
  ser_datum true (ccs_string (Some [97; 98])) (mkW [] [0; 0; 0; 0] 4) = Err ERR_NOT_ENOUGH_DATA.
Proof. now vm_compute. Qed.

Theorem C02_composite_writers_bounded :
  (forall s bs, lenZ s + 1 < 2 ^ 64 -> wire_string s bs -> encodes (ser_string s) bs /\ size_string s = lenZ bs) /\
  (forall b bs, lenZ b < 2 ^ 64 -> wire_blob b bs -> encodes (ser_blob b) bs /\ size_blob b = lenZ bs) /\
  (forall le i bs, wf_interval i -> wire_interval i bs ->
     encodes (ser_interval le i) bs /\ size_interval i = lenZ bs) /\
  (forall ud bs, lenZ (ud_bytes ud) < 2 ^ 64 -> wire_blob (ud_bytes ud) bs ->
     encodes (ser_user_data ud) bs /\ size_user_data ud = lenZ bs).
Proof. exact composite_writers_bounded. Qed.
Print Assumptions C02_composite_writers_bounded.
Example C02_composite_ex :
  wf_interval (mkInterval NUM_INT (-3) 300 true false) /\
  wire_interval (mkInterval NUM_INT (-3) 300 true false) [1; 5; 216; 4; 1; 0].
Proof.
  split; [right; unfold in_signed; cbn; lia|].
  exists [5], [216; 4], [1], [0]; cbn. split; [|now repeat split].
  split; [constructor; lia | apply leb_more; [lia | now constructor]].
Qed.

(** C03: truncated input.  [p] is what is left of the encoding, [tl] any memory
    behind it, which the size passed excludes. *)
Theorem C03_datum_truncated : forall le v bs p q tl, wf_value v -> wire_datum v bs ->
  bs = p ++ q -> q <> [] -> lenZ p < 2 ^ 64 ->
  deser_datum le (mkR (p ++ tl) (lenZ p)) = Err ERR_NOT_ENOUGH_DATA.
Proof. exact datum_truncated. Qed.
Print Assumptions C03_datum_truncated.
Example C03_datum_ex : deser_datum true (mkR [4; 3; 97; 98; 0] 4) = Err ERR_NOT_ENOUGH_DATA.
Proof. now vm_compute. Qed.

Theorem C03_composite_truncated : forall p q tl bs, bs = p ++ q -> q <> [] -> lenZ p < 2 ^ 64 ->
  (forall s, lenZ s + 1 < 2 ^ 64 -> Forall is_char s -> wire_string s bs ->
     deser_string (mkR (p ++ tl) (lenZ p)) = Err ERR_NOT_ENOUGH_DATA) /\
  (forall b, lenZ b < 2 ^ 64 -> wire_blob b bs ->
     deser_blob (mkR (p ++ tl) (lenZ p)) = Err ERR_NOT_ENOUGH_DATA) /\
  (forall le i, wf_interval i -> wire_interval i bs ->
     deser_interval le (mkR (p ++ tl) (lenZ p)) = Err ERR_NOT_ENOUGH_DATA).
Proof. exact composite_truncated. Qed.
Print Assumptions C03_composite_truncated.

Theorem C03_scalar_truncated : forall p q tl bs, bs = p ++ q -> q <> [] ->
  (forall w x, w = 16 \/ w = 32 \/ w = 64 -> 0 <= x < 2 ^ w -> leb128 x bs ->
     deser_uint w (mkR (p ++ tl) (lenZ p)) = Err ERR_NOT_ENOUGH_DATA) /\
  (forall w x, w = 16 \/ w = 32 \/ w = 64 -> - 2 ^ (w - 1) <= x < 2 ^ (w - 1) -> leb128 (zigzag x) bs ->
     deser_sint w (mkR (p ++ tl) (lenZ p)) = Err ERR_NOT_ENOUGH_DATA) /\
  (forall le n x, n = 1%nat \/ n = 2%nat \/ n = 4%nat \/ n = 8%nat -> 0 <= x < 256 ^ Z.of_nat n ->
     bs = word n x -> deser_fixed le n (mkR (p ++ tl) (lenZ p)) = Err ERR_NOT_ENOUGH_DATA).
Proof. exact scalar_truncated. Qed.
Print Assumptions C03_scalar_truncated.
Example C03_scalar_ex : deser_uint 32 (mkR [172; 2; 9] 1) = Err ERR_NOT_ENOUGH_DATA.
Proof. now vm_compute. Qed.

(** C04: arbitrary bytes.  The full claim (no undefined behaviour on any input) is
    false; each witness is an input of a few bytes. *)
Theorem C04_decoders_total_refuted :
  (exists bs, Forall is_byte bs /\ deser_uint 32 (mkR bs (lenZ bs)) = UB UBShift) /\
  (exists bs, Forall is_byte bs /\ deser_uint 64 (mkR bs (lenZ bs)) = UB UBShift) /\
  (exists bs, Forall is_byte bs /\ deser_uint 16 (mkR bs (lenZ bs)) = UB UBShift) /\
  (exists bs, Forall is_byte bs /\ deser_datum true (mkR bs (lenZ bs)) = UB UBString) /\
  (exists bs, Forall is_byte bs /\ deser_user_data (mkR bs (lenZ bs)) = UB UBBounds).
Proof. exact decoders_total_refuted. Qed.
Print Assumptions C04_decoders_total_refuted.

(** Every over-long encoding hits it, not just the witnesses. *)
Theorem C04_overlong_refuted : forall w p y tl n, w = 32 \/ w = 64 ->
  Forall (fun b => 128 <= b < 256) p -> lenZ p = (if w =? 32 then 5 else 10) -> lenZ p < n ->
  deser_uint w (mkR (p ++ y :: tl) n) = UB UBShift.
Proof. exact overlong_refuted. Qed.
Print Assumptions C04_overlong_refuted.

(** An encoding of at most 3/5/10 groups, canonical or not, decodes to its value modulo
    the width. What every other input gives is in BytesProps. *)
Theorem C04_short_varints : forall w bs v tl n, w = 16 \/ w = 32 \/ w = 64 -> varint bs v ->
  lenZ bs <= (if w =? 16 then 3 else if w =? 32 then 5 else 10) -> lenZ bs <= n ->
  deser_uint w (mkR (bs ++ tl) n) = Ok (v mod 2 ^ w, mkR tl (n - lenZ bs)).
Proof. exact short_varints. Qed.
Print Assumptions C04_short_varints.
Example C04_short_ex : varint [128; 128; 0] 0 /\
  deser_uint 32 (mkR [128; 128; 0; 5] 4) = Ok (0, mkR [5] 1).
Proof.
  split; [|now vm_compute].
  apply (vi_more 128 [128; 0] 0); [lia|]. apply (vi_more 128 [0] 0); [lia|]. constructor; lia.
Qed.

(** C05: datums *)
Theorem C05_datum_roundtrip : forall le v flags, wf_value v ->
  match v with VString None | VUnknown _ _ => False | _ => True end ->
  exists bs, wire_datum v bs /\ encodes (ser_datum le (mkDatum v flags)) bs /\
    size_datum (mkDatum v flags) = Ok (lenZ bs) /\
    decodes (deser_datum le)
      (mkDatum v (match v with VString _ => FLAG_TRANSIENT | VObject _ => FLAG_ID | _ => FLAG_DEFAULT end)) bs.
Proof. exact datum_roundtrip. Qed.
Print Assumptions C05_datum_roundtrip.
Example C05_ex : wf_value (VString (Some [104; 105])) /\
  deser_datum true (mkR [4; 3; 104; 105; 0; 42] 6)
    = Ok (mkDatum (VString (Some [104; 105])) FLAG_TRANSIENT, mkR [42] 1).
Proof. split; [|now vm_compute]. cbn; split; [repeat constructor; unfold is_char; lia | reflexivity]. Qed.

(** A NULL string cannot be serialised: the code calls strlen on it. *)
Theorem C05_null_string_refuted : forall le s, wf_w s -> 1 <= w_size s ->
  wf_value (VString None) /\ ser_datum le (ccs_string None) s = UB UBString.
Proof. exact null_string_ub. Qed.
Print Assumptions C05_null_string_refuted.

(** C55: framing of a whole object; [body]/[de] are the object's encoder and decoder. *)
Theorem C55_serialize_frames : forall le body bs mem n, encodes body bs -> n = lenZ mem -> n < 2 ^ 64 ->
  (13 + lenZ bs <= n ->
     serialize_memory le body mem n = Ok (framed bs ++ skipn (length (framed bs)) mem)) /\
  (n < 13 + lenZ bs -> serialize_memory le body mem n = Err ERR_NOT_ENOUGH_DATA) /\
  serialize_size (lenZ bs) = lenZ (framed bs).
Proof. exact serialize_frames. Qed.
Print Assumptions C55_serialize_frames.

Theorem C55_deserialize_framed : forall A le (de : rstate -> res (A * rstate)) a bs,
  decodes de a bs -> 13 + lenZ bs < 2 ^ 64 ->
  (forall tl n, 13 + lenZ bs <= n <= lenZ (framed bs ++ tl) -> n < 2 ^ 64 ->
     deserialize_memory le de (framed bs ++ tl) n = Ok a) /\
  (forall p q tl, framed bs = p ++ q -> q <> [] ->
     deserialize_memory le de (p ++ tl) (lenZ p) = Err ERR_NOT_ENOUGH_DATA).
Proof. exact @deserialize_memory_ok. Qed.
Print Assumptions C55_deserialize_framed.

Theorem C55_bad_headers_rejected : forall A le (de : rstate -> res (A * rstate)) tl n, n < 2 ^ 64 ->
  (forall tag, length tag = 4%nat -> tag <> [67; 67; 83; 0] -> 4 <= n <= lenZ (tag ++ tl) ->
     deserialize_memory le de (tag ++ tl) n = Err ERR_INVALID_VALUE) /\
  (forall size v bv, in_unsigned 64 size -> 1 < v < 2 ^ 32 -> leb128 v bv ->
     let h := [67; 67; 83; 0] ++ word 8 size ++ bv in
     lenZ h <= n <= lenZ (h ++ tl) -> deserialize_memory le de (h ++ tl) n = Err ERR_INVALID_VALUE).
Proof. exact @bad_headers_rejected. Qed.
Print Assumptions C55_bad_headers_rejected.
Example C55_ex :
  serialize_memory true (ser_datum true (ccs_int 5)) (repeat 0 16) 16
    = Ok [67; 67; 83; 0; 15; 0; 0; 0; 0; 0; 0; 0; 1; 1; 10; 0] /\
  deserialize_memory true (deser_datum true) [67; 67; 83; 0; 15; 0; 0; 0; 0; 0; 0; 0; 1; 1; 10; 0] 16
    = Ok (ccs_int 5).
Proof. now vm_compute. Qed.

(** C58: byte order of the writing and of the reading host do not matter. *)
Theorem C58_portable_bytes : forall le1 le2 v flags bs mem n out, wf_value v -> wire_datum v bs ->
  n = lenZ mem -> n < 2 ^ 64 ->
  serialize_memory le1 (ser_datum le1 (mkDatum v flags)) mem n = Ok out ->
  serialize_memory le2 (ser_datum le2 (mkDatum v flags)) mem n = Ok out /\
  exists fl, deserialize_memory le2 (deser_datum le2) out n = Ok (mkDatum v fl).
Proof. exact portable_bytes. Qed.
Print Assumptions C58_portable_bytes.
Example C58_ex :
  serialize_memory false (ser_datum false (ccs_float 0x3ff0000000000000)) (repeat 0 22) 22 =
  serialize_memory true (ser_datum true (ccs_float 0x3ff0000000000000)) (repeat 0 22) 22.
Proof. now vm_compute. Qed.

(** C59: the announced size is not checked against the buffer. *)
Theorem C59_announced_size_checked_refuted :
  exists mem size, deser_header true (mkR mem (lenZ mem)) = Ok ((size, 1), mkR (skipn 13 mem) (lenZ mem - 13)) /\
    lenZ mem < size /\ deserialize_memory true (deser_datum true) mem (lenZ mem) = Ok (ccs_int 5).
Proof. exact announced_size_unchecked. Qed.
Print Assumptions C59_announced_size_checked_refuted.
