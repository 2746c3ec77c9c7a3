(** Binary wire format: src/cconfigspace_internal.h 280-1051.
    Platform: LP64, [int] of 32 bits, [char] of 8 bits.  Both byte orders of
    the host are modelled where the code distinguishes them. *)
From Coq Require Import ZArith List Bool.
From Verif Require Import Base Datum.
Import ListNotations.
Open Scope Z_scope.

(** ** Buffers

    Writers receive [size_t *buffer_size, char **buffer].  [w_done] is the memory
    before the cursor, [w_rest] the memory from the cursor to the end of the
    allocation, [w_size] the value of [*buffer_size].  The code's own accounting
    ([w_size]) and the real memory ([w_rest]) are kept apart: a write with an empty
    [w_rest] is an out-of-bounds access.
    Readers receive [size_t *buffer_size, const char **buffer]: [r_mem] is the memory
    from the cursor to the end of the allocation. *)
Record wstate : Type := mkW { w_done : list Z; w_rest : list Z; w_size : Z }.
Record rstate : Type := mkR { r_mem : list Z; r_size : Z }.

(** *buffer = b; buffer += 1 (the callers do the size accounting) *)
Definition put (b : Z) (s : wstate) : res wstate :=
  match w_rest s with
  | [] => UB UBBounds
  | _ :: t => Ok (mkW (w_done s ++ [b]) t (w_size s))
  end.

(** memcpy( *buffer, bs, n) *)
Fixpoint put_all (bs : list Z) (s : wstate) : res wstate :=
  match bs with
  | [] => Ok s
  | b :: t => do s' <- put b s; put_all t s'
  end.

(** *buffer_size -= n, in size_t arithmetic *)
Definition w_sub (n : Z) (s : wstate) : wstate :=
  mkW (w_done s) (w_rest s) (wrap 64 (w_size s - n)).

(** Reading n bytes at the cursor without moving it. *)
Fixpoint peek_n (n : nat) (m : list Z) : res (list Z) :=
  match n with
  | O => Ok []
  | S k => match m with
           | [] => UB UBBounds
           | b :: t => do r <- peek_n k t; Ok (b :: r)
           end
  end.

(** *buffer_size -= n; *buffer += n (a pointer may not move past the end). *)
Fixpoint drop (n : nat) (m : list Z) : res (list Z) :=
  match n with
  | O => Ok m
  | S k => match m with [] => UB UBBounds | _ :: t => drop k t end
  end.
Definition advance (n : Z) (s : rstate) : res rstate :=
  if lenZ (r_mem s) <? n then UB UBBounds else
  do m <- drop (Z.to_nat n) (r_mem s);
  Ok (mkR m (wrap 64 (r_size s - n))).

(** ** Unsigned integers and enums: LEB128

    CCS_COMPRESSED_SERIALIZER, 457-489.  [w] is the width of MAPPED_TYPE.
    [leb_ser_loop] is the do-while loop; the fuel (64) bounds the number of
    7-bit groups of a 64-bit word from above and is never exhausted. *)
Fixpoint leb_ser_loop (fuel : nat) (v : Z) (size : Z) (s : wstate) : res wstate :=
  match fuel with
  | O => UB UBFuel
  | S k =>
      if size <? 1 then Err ERR_NOT_ENOUGH_DATA else
      let y := Z.land v 127 in
      let v' := Z.shiftr v 7 in
      let y' := if v' =? 0 then y else Z.lor y 128 in
      do s1 <- put y' s;
      if v' =? 0 then Ok (mkW (w_done s1) (w_rest s1) (size - 1))
      else leb_ser_loop k v' (size - 1) s1
  end.

Definition ser_uint (w x : Z) (s : wstate) : res wstate :=
  leb_ser_loop 64 (wrap w x) (w_size s) s.

(** size function of the same macro, 480-489 *)
Fixpoint leb_size_loop (fuel : nat) (v sz : Z) : Z :=
  match fuel with
  | O => sz
  | S k => let v' := Z.shiftr v 7 in
           if v' =? 0 then sz + 1 else leb_size_loop k v' (sz + 1)
  end.
Definition size_uint (w x : Z) : Z := leb_size_loop 64 (wrap w x) 0.

(** [(y & 0x7f) << shift] with y and shift of MAPPED_TYPE, 491-506: for a
    16-bit MAPPED_TYPE both operands are promoted to int (a signed shift whose
    result must be representable), otherwise the shift is done in MAPPED_TYPE. *)
Definition c_shl (w y shift : Z) : res Z :=
  if w <? 32 then
    if 32 <=? shift then UB UBShift
    else let r := Z.shiftl y shift in
         if 2 ^ 31 <=? r then UB UBShift else Ok r
  else
    if w <=? shift then UB UBShift else Ok (wrap w (Z.shiftl y shift)).

(** CCS_COMPRESSED_DESERIALIZER, 491-514.  [v], [shift] and [y] have MAPPED_TYPE. *)
Fixpoint leb_deser_loop (w v shift size : Z) (m : list Z) : res (Z * rstate) :=
  if size <? 1 then Err ERR_NOT_ENOUGH_DATA else
  match m with
  | [] => UB UBBounds
  | y :: t =>
      do g <- c_shl w (Z.land y 127) shift;
      let v' := wrap w (Z.lor v g) in
      if Z.land y 128 =? 0 then Ok (v', mkR t (size - 1))
      else leb_deser_loop w v' (wrap w (shift + 7)) (size - 1) t
  end.
Definition deser_uint (w : Z) (s : rstate) : res (Z * rstate) :=
  leb_deser_loop w 0 0 (r_size s) (r_mem s).

(** _ccs_peek_bin_*, 515-521: decode without moving the cursor. *)
Definition peek_uint (w : Z) (s : rstate) : res Z :=
  do (x, _) <- deser_uint w s; Ok x.

(** ** Signed integers: zigzag then LEB128

    ccs_zigzag_encode_int{16,32,64}, 325-341; for 16 bits the operands are
    promoted to int and the result truncated, which is the same modulo 2^16. *)
Definition zigzag_encode (w x : Z) : Z :=
  let u := wrap w x in
  wrap w (Z.lxor (Z.shiftl u 1) (- Z.shiftr u (w - 1))).
(** ccs_zigzag_decode_int{16,32,64}, 349-366 *)
Definition zigzag_decode (w x : Z) : Z :=
  to_signed w (Z.lxor (Z.shiftr x 1) (- Z.land x 1)).

(** CCS_COMPRESSED_SERIALIZER_SIGNED / DESERIALIZER_SIGNED, 523-554 *)
Definition ser_sint (w x : Z) (s : wstate) : res wstate :=
  ser_uint w (zigzag_encode w x) s.
Definition size_sint (w x : Z) : Z := size_uint w (zigzag_encode w x).
Definition deser_sint (w : Z) (s : rstate) : res (Z * rstate) :=
  do (v, s') <- deser_uint w s; Ok (zigzag_decode w v, s').

(** ** Fixed-size words

    Host representation of an n-byte unsigned word, and its value. *)
Fixpoint le_bytes (n : nat) (x : Z) : list Z :=
  match n with
  | O => []
  | S k => Z.land x 255 :: le_bytes k (Z.shiftr x 8)
  end.
Fixpoint le_value (l : list Z) : Z :=
  match l with
  | [] => 0
  | b :: t => b + 256 * le_value t
  end.
Definition host_bytes (little : bool) (n : nat) (x : Z) : list Z :=
  if little then le_bytes n x else rev (le_bytes n x).
Definition host_value (little : bool) (l : list Z) : Z :=
  if little then le_value l else le_value (rev l).

(** ccs_bswap_uint8/16/32/64, 286-317 *)
Definition bswap8 (x : Z) : Z := x.
Definition bswap16 (x : Z) : Z :=
  Z.lor (Z.shiftr (Z.land x 0xff00) 8) (Z.shiftl (Z.land x 0x00ff) 8).
Definition bswap32 (x : Z) : Z :=
  Z.lor (Z.lor (Z.lor (Z.shiftr (Z.land x 0xff000000) 24)
                      (Z.shiftr (Z.land x 0x00ff0000) 8))
               (Z.shiftl (Z.land x 0x0000ff00) 8))
        (Z.shiftl (Z.land x 0x000000ff) 24).
Definition bswap64 (x : Z) : Z :=
  Z.lor (Z.lor (Z.lor (Z.lor (Z.lor (Z.lor (Z.lor
    (Z.shiftr (Z.land x 0xff00000000000000) 56)
    (Z.shiftr (Z.land x 0x00ff000000000000) 40))
    (Z.shiftr (Z.land x 0x0000ff0000000000) 24))
    (Z.shiftr (Z.land x 0x000000ff00000000) 8))
    (Z.shiftl (Z.land x 0x00000000ff000000) 8))
    (Z.shiftl (Z.land x 0x0000000000ff0000) 24))
    (Z.shiftl (Z.land x 0x000000000000ff00) 40))
    (Z.shiftl (Z.land x 0x00000000000000ff) 56).
(** the width selects the function, as ccs_bswap_##MAPPED_NAME does *)
Definition bswap (n : nat) (x : Z) : Z :=
  match n with
  | 1%nat => bswap8 x | 2%nat => bswap16 x | 4%nat => bswap32 x
  | _ => bswap64 x
  end.

(** CCS_PACKER / CCS_UNPACKER, 437-453 *)
Definition pack (little : bool) (n : nat) (x : Z) : Z := if little then x else bswap n x.
Definition unpack (little : bool) (n : nat) (x : Z) : Z := if little then x else bswap n x.

(** CCS_SERIALIZER, 588-606.  [x] is the unsigned pattern of the value. *)
Definition ser_fixed (little : bool) (n : nat) (x : Z) (s : wstate) : res wstate :=
  if w_size s <? Z.of_nat n then Err ERR_NOT_ENOUGH_DATA else
  do s1 <- put_all (host_bytes little n (pack little n x)) s;
  Ok (w_sub (Z.of_nat n) s1).
Definition size_fixed (n : nat) (x : Z) : Z := Z.of_nat n.

(** CCS_DESERIALIZER, 608-626 *)
Definition peek_fixed (little : bool) (n : nat) (s : rstate) : res Z :=
  if r_size s <? Z.of_nat n then Err ERR_NOT_ENOUGH_DATA else
  do bs <- peek_n n (r_mem s);
  Ok (unpack little n (host_value little bs)).
Definition deser_fixed (little : bool) (n : nat) (s : rstate) : res (Z * rstate) :=
  do x <- peek_fixed little n s;
  do s' <- advance (Z.of_nat n) s;
  Ok (x, s').

(** ** Instances, table 697-729 (CCS_USE_COMPRESSED) *)
Definition ser_int8 (le : bool) (x : Z) := ser_fixed le 1 (wrap 8 x).
Definition deser_int8 (le : bool) (s : rstate) : res (Z * rstate) :=
  do (u, s') <- deser_fixed le 1 s; Ok (to_signed 8 u, s').
Definition ser_float (le : bool) (bits : Z) := ser_fixed le 8 bits.
Definition deser_float (le : bool) := deser_fixed le 8.
Definition size_float (bits : Z) := size_fixed 8 bits.
Definition ser_hash (le : bool) (h : Z) := ser_fixed le 4 h.
Definition deser_hash (le : bool) := deser_fixed le 4.
Definition ser_u64raw (le : bool) (x : Z) := ser_fixed le 8 x.
Definition deser_u64raw (le : bool) := deser_fixed le 8.
(** enums, flags, ccs_bool_t: uint32 *)
Definition ser_enum (x : Z) := ser_uint 32 x.
Definition size_enum (x : Z) := size_uint 32 x.
Definition deser_enum := deser_uint 32.
(** ccs_int_t: int64; ccs_evaluation_result_t: int32 *)
Definition ser_int (x : Z) := ser_sint 64 x.
Definition size_int (x : Z) := size_sint 64 x.
Definition deser_int := deser_sint 64.
Definition ser_eval_result (x : Z) := ser_sint 32 x.
Definition size_eval_result (x : Z) := size_sint 32 x.
Definition deser_eval_result := deser_sint 32.
(** ccs_object_t (556-586) and size_t (731-751): uint64 *)
Definition ser_object (h : Z) := ser_uint 64 h.
Definition size_object (h : Z) := size_uint 64 h.
Definition deser_object := deser_uint 64.
Definition ser_size (x : Z) := ser_uint 64 x.
Definition size_size (x : Z) := size_uint 64 x.
Definition deser_size := deser_uint 64.

(** ** Strings, 753-785

    The argument of the writer is the content of the C string (without
    terminator). *)
Definition size_string (str : list Z) : Z :=
  let sz := lenZ str + 1 in sz + size_size sz.
Definition ser_string (str : list Z) (s : wstate) : res wstate :=
  let sz := lenZ str + 1 in
  do s1 <- ser_size sz s;
  if w_size s1 <? sz then Err ERR_NOT_ENOUGH_DATA else
  do s2 <- put_all (str ++ [0]) s1;
  Ok (w_sub sz s2).

(** Reading a C string at a pointer: characters up to the first NUL byte.
    No NUL before the end of the allocation is an out-of-bounds read. *)
Fixpoint c_string (m : list Z) : res (list Z) :=
  match m with
  | [] => UB UBString
  | b :: t => if b =? 0 then Ok [] else do r <- c_string t; Ok (b :: r)
  end.

(** _ccs_deserialize_bin_string hands out the pointer; the returned value is the
    string it denotes.  Simplification: the pointer is read when it is produced
    (every caller in the library reads it as a C string afterwards). *)
Definition deser_string (s : rstate) : res (list Z * rstate) :=
  do (sz, s1) <- deser_size s;
  if r_size s1 <? sz then Err ERR_NOT_ENOUGH_DATA else
  do str <- c_string (r_mem s1);
  do s2 <- advance sz s1;
  Ok (str, s2).

(** ** Blobs, 787-822 *)
Definition size_blob (b : list Z) : Z := size_size (lenZ b) + lenZ b.
Definition ser_blob (b : list Z) (s : wstate) : res wstate :=
  do s1 <- ser_size (lenZ b) s;
  if w_size s1 <? lenZ b then Err ERR_NOT_ENOUGH_DATA else
  do s2 <- put_all b s1;
  Ok (w_sub (lenZ b) s2).
Definition deser_blob (s : rstate) : res (list Z * rstate) :=
  do (sz, s1) <- deser_size s;
  if r_size s1 <? sz then Err ERR_NOT_ENOUGH_DATA else
  if lenZ (r_mem s1) <? sz then UB UBBounds else
  do b <- peek_n (Z.to_nat sz) (r_mem s1);
  do s2 <- advance sz s1;
  Ok (b, s2).

(** ** Intervals, 824-889

    struct ccs_interval_s: include/cconfigspace/interval.h.  [lower] and [upper]
    are the ccs_numeric_t unions: the integer (type INT) or the 64-bit pattern
    of the double (type FLOAT).  Booleans are enums (0/1). *)
Definition NUM_INT := 1.
Definition NUM_FLOAT := 2.
Record interval : Type := mkInterval {
  i_type : Z; i_lower : Z; i_upper : Z; i_linc : bool; i_uinc : bool }.
Definition b2z (b : bool) : Z := if b then CCS_TRUE else CCS_FALSE.

Definition size_interval (i : interval) : Z :=
  size_enum (i_type i) +
  (if i_type i =? NUM_FLOAT then size_float (i_lower i) + size_float (i_upper i)
   else size_int (i_lower i) + size_int (i_upper i)) +
  size_enum (b2z (i_linc i)) + size_enum (b2z (i_uinc i)).

Definition ser_interval (le : bool) (i : interval) (s : wstate) : res wstate :=
  do s <- ser_enum (i_type i) s;
  do s <- (if i_type i =? NUM_FLOAT then
             do s <- ser_float le (i_lower i) s; ser_float le (i_upper i) s
           else
             do s <- ser_int (i_lower i) s; ser_int (i_upper i) s);
  do s <- ser_enum (b2z (i_linc i)) s;
  ser_enum (b2z (i_uinc i)) s.

(** Booleans read back are C truth values: any non-zero word is true. *)
Definition z2b (x : Z) : bool := negb (x =? 0).
Definition deser_interval (le : bool) (s : rstate) : res (interval * rstate) :=
  do (t, s) <- deser_enum s;
  do (lu, s) <- (if t =? NUM_FLOAT then
                   do (l, s) <- deser_float le s;
                   do (u, s) <- deser_float le s; Ok ((l, u), s)
                 else
                   do (l, s) <- deser_int s;
                   do (u, s) <- deser_int s; Ok ((l, u), s));
  do (li, s) <- deser_enum s;
  do (ui, s) <- deser_enum s;
  Ok (mkInterval t (fst lu) (snd lu) (z2b li) (z2b ui), s).

(** ** Datums, 891-1017 *)

(** strlen(NULL) when the string is NULL: undefined. *)
Definition size_datum (d : datum) : res Z :=
  match d_val d with
  | VNone | VInactive => Ok (size_enum (type_of (d_val d)))
  | VInt i => Ok (size_enum TYPE_INT + size_int i)
  | VFloat f => Ok (size_enum TYPE_FLOAT + size_float f)
  | VBool b => Ok (size_enum TYPE_BOOL + size_enum b)
  | VString (Some str) => Ok (size_enum TYPE_STRING + size_string str)
  | VString None => UB UBString
  | VObject h => Ok (size_enum TYPE_OBJECT + size_object h)
  | VUnknown t _ => Ok (size_enum t)
  end.

Definition ser_datum (le : bool) (d : datum) (s : wstate) : res wstate :=
  do s <- ser_enum (type_of (d_val d)) s;
  match d_val d with
  | VNone | VInactive => Ok s
  | VInt i => ser_int i s
  | VFloat f => ser_float le f s
  | VBool b => ser_enum b s
  | VString (Some str) => ser_string str s
  | VString None => UB UBString
  | VObject h => ser_object h s
  | VUnknown _ _ => Err ERR_INVALID_TYPE
  end.

Definition deser_datum (le : bool) (s : rstate) : res (datum * rstate) :=
  do (t, s) <- deser_enum s;
  if t =? TYPE_NONE then Ok (ccs_none, s)
  else if t =? TYPE_INACTIVE then Ok (ccs_inactive, s)
  else if t =? TYPE_INT then do (i, s) <- deser_int s; Ok (ccs_int i, s)
  else if t =? TYPE_FLOAT then do (f, s) <- deser_float le s; Ok (ccs_float f, s)
  else if t =? TYPE_BOOL then do (b, s) <- deser_enum s; Ok (ccs_bool b, s)
  else if t =? TYPE_STRING then
    do (str, s) <- deser_string s;
    Ok (mkDatum (VString (Some str)) (Z.lor FLAG_DEFAULT FLAG_TRANSIENT), s)
  else if t =? TYPE_OBJECT then
    do (h, s) <- deser_object s;
    Ok (mkDatum (VObject h) (Z.lor FLAG_DEFAULT FLAG_ID), s)
  else Err ERR_INVALID_TYPE.

(** _ccs_serialize_bin_ccs_object_internal, 1019-1051: type and handle. *)
Definition size_object_internal (otype handle : Z) : Z :=
  size_enum otype + size_object handle.
Definition ser_object_internal (otype handle : Z) (s : wstate) : res wstate :=
  do s <- ser_enum otype s; ser_object handle s.
Definition deser_object_internal (s : rstate) : res ((Z * Z) * rstate) :=
  do (t, s) <- deser_enum s;
  do (h, s) <- deser_object s;
  Ok ((t, h), s).

(** ** User data, 1080-1197

    [ud] is what the user's serialisation callback produces for the object:
    [None] when the object has no user data or no callback applies (the code
    then writes a zero size), [Some bs] for [bs] bytes. *)
Definition ud_bytes (ud : option (list Z)) : list Z :=
  match ud with Some bs => bs | None => [] end.
Definition size_user_data (ud : option (list Z)) : Z :=
  size_size (lenZ (ud_bytes ud)) + lenZ (ud_bytes ud).
Definition ser_user_data (ud : option (list Z)) (s : wstate) : res wstate :=
  do s1 <- ser_size (lenZ (ud_bytes ud)) s;
  match ud with
  | None => Ok s1
  | Some bs =>
      if w_size s1 <? lenZ bs then Err ERR_NOT_ENOUGH_DATA else
      do s2 <- put_all bs s1;
      if lenZ bs =? 0 then Ok s2 else Ok (w_sub (lenZ bs) s2)
  end.
(** The bytes handed to the deserialisation callback are returned; note that
    the size read is not compared with [*buffer_size]. *)
Definition deser_user_data (s : rstate) : res (list Z * rstate) :=
  do (sz, s1) <- deser_size s;
  if sz =? 0 then Ok ([], s1) else
  if lenZ (r_mem s1) <? sz then UB UBBounds else
  do b <- peek_n (Z.to_nat sz) (r_mem s1);
  do s2 <- advance sz s1;
  Ok (b, s2).
