(** Framing of a serialised object: src/cconfigspace.c 145-323 and 711-746.
    The encoder and decoder of the object itself (ops->serialize, dispatch in
    _ccs_object_deserialize_with_opts) are parameters. *)
From Coq Require Import ZArith List Bool.
From Verif Require Import Base Datum CodecModel.
Import ListNotations.
Open Scope Z_scope.

(** _ccs_magic_tag: src/cconfigspace_internal.h 159-164 ("CCS" and a NUL) *)
Definition magic_tag : list Z := [0x43; 0x43; 0x53; 0x00].
(** CCS_SERIALIZATION_API_VERSION *)
Definition api_version : Z := 1.

(** _ccs_serialize_bin_magic_tag, src/cconfigspace_internal.h 166-174 *)
Definition ser_magic (s : wstate) : res wstate :=
  if w_size s <? 4 then Err ERR_NOT_ENOUGH_DATA else
  do s1 <- put_all magic_tag s;
  Ok (w_sub 4 s1).
(** _ccs_deserialize_bin_magic_tag, 182-193 *)
Definition deser_magic (s : rstate) : res (list Z * rstate) :=
  if r_size s <? 4 then Err ERR_NOT_ENOUGH_DATA else
  do t <- peek_n 4 (r_mem s);
  do s1 <- advance 4 s;
  Ok (t, s1).

(** _ccs_serialize_header_size, src/cconfigspace.c 145-159 *)
Definition header_size : Z := (3 + 1) + size_fixed 8 0 + size_uint 32 api_version.

(** _ccs_serialize_header, src/cconfigspace.c 161-183 *)
Definition ser_header (le : bool) (size : Z) (s : wstate) : res wstate :=
  do s <- ser_magic s;
  do s <- ser_u64raw le size s;
  ser_uint 32 api_version s.

(** memcmp(tag, _ccs_magic_tag, 4) != 0 *)
Fixpoint bytes_differ (a b : list Z) : bool :=
  match a, b with
  | x :: a', y :: b' => if x =? y then bytes_differ a' b' else true
  | _, _ => false
  end.

(** _ccs_deserialize_header, src/cconfigspace.c 185-217 *)
Definition deser_header (le : bool) (s : rstate) : res ((Z * Z) * rstate) :=
  do (tag, s) <- deser_magic s;
  if bytes_differ tag magic_tag then Err ERR_INVALID_VALUE else
  do (sz, s) <- deser_u64raw le s;
  do (version, s) <- deser_uint 32 s;
  if api_version <? version then Err ERR_INVALID_VALUE else
  Ok ((sz, version), s).

(** _ccs_object_serialize_size_with_opts, src/cconfigspace.c 256-268 *)
Definition serialize_size (body_size : Z) : Z := header_size + body_size.

(** _ccs_object_serialize_memory_with_opts, src/cconfigspace.c 287-305: a first
    header with size zero, the object, then the header again at the start of the
    buffer.  [mem] is the user's memory, [n] the size passed; the result is the
    final content of the memory. *)
Definition serialize_memory (le : bool) (body : wstate -> res wstate) (mem : list Z) (n : Z)
  : res (list Z) :=
  do s1 <- ser_header le 0 (mkW [] mem n);
  do s2 <- body s1;
  do s3 <- ser_header le (wrap 64 (n - w_size s2)) (mkW [] (w_done s2 ++ w_rest s2) n);
  Ok (w_done s3 ++ w_rest s3).

(** _ccs_object_deserialize with the MEMORY operation, src/cconfigspace.c 711-746.
    The size found in the header is ignored. *)
Definition deserialize_memory {A : Type} (le : bool) (body : rstate -> res (A * rstate))
  (mem : list Z) (n : Z) : res A :=
  do (_, s1) <- deser_header le (mkR mem n);
  do (a, _) <- body s1;
  Ok a.
