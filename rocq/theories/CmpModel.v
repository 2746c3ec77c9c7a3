(** Comparison and hashing of datums and bindings. *)
From Coq Require Import ZArith List Bool.
From Verif Require Import Base Datum CodecModel FloatModel.
Import ListNotations.
Open Scope Z_scope.

(** memcmp and strcmp (C library): only the sign of their result is specified;
    the model returns -1, 0 or 1.  [strcmp] on character lists without their
    terminator: the terminator is smaller than any character. *)
Fixpoint memcmp (a b : list Z) : Z :=
  match a, b with
  | x :: a', y :: b' => if x <? y then -1 else if y <? x then 1 else memcmp a' b'
  | _, _ => 0
  end.
Fixpoint strcmp (a b : list Z) : Z :=
  match a, b with
  | [], [] => 0
  | [], _ :: _ => -1
  | _ :: _, [] => 1
  | x :: a', y :: b' => if x <? y then -1 else if y <? x then 1 else strcmp a' b'
  end.

(** The 8 bytes of the union ccs_value_t: include/cconfigspace/base.h 443-490,
    on a little-endian host.  For strings it is only read when NULL. *)
Definition value_word (v : value) : Z :=
  match v with
  | VInt i | VBool i | VUnknown _ i => wrap 64 i
  | VFloat f => f
  | VObject h => h
  | VNone | VInactive | VString _ => 0
  end.
Definition value_bytes (v : value) : list Z := le_bytes 8 (value_word v).

(** Pointer comparison and strcmp of two strings: src/datum_hash.h 42-50 and
    include/cconfigspace/base.h 602-609.  Two equal non-NULL pointers point to
    the same characters, for which strcmp answers 0 as well. *)
Definition cmp_strings (a b : option (list Z)) : Z :=
  match a, b with
  | None, None => 0
  | None, Some _ => -1
  | Some _, None => 1
  | Some s, Some t => strcmp s t
  end.

(** _datum_cmp: src/datum_hash.h 34-61 *)
Definition datum_cmp_internal (a b : datum) : Z :=
  let ta := type_of (d_val a) in
  let tb := type_of (d_val b) in
  if ta <? tb then -1
  else if tb <? ta then 1
  else match d_val a, d_val b with
       | VString s, VString t => cmp_strings s t
       | VNone, _ | VInactive, _ => 0
       | va, vb => memcmp (value_bytes va) (value_bytes vb)
       end.

(** ccs_datum_cmp: include/cconfigspace/base.h 593-631 *)
Definition ccs_datum_cmp (a b : datum) : Z :=
  let ta := type_of (d_val a) in
  let tb := type_of (d_val b) in
  if ta <? tb then -1
  else if tb <? ta then 1
  else match d_val a, d_val b with
       | VString s, VString t => cmp_strings s t
       | VInt i, VInt j => if i <? j then -1 else if j <? i then 1 else 0
       | VFloat x, VFloat y => if flt x y then -1 else if fgt x y then 1 else 0
       | VNone, _ | VInactive, _ => 0
       | va, vb => memcmp (value_bytes va) (value_bytes vb)
       end.

(** _hash_combine: src/datum_hash.h 64-69 (32-bit unsigned arithmetic) *)
Definition hash_combine (h1 h2 : Z) : Z :=
  Z.lxor h1 (wrap 32 (wrap 32 (wrap 32 (h2 + 0x9e3779b9) + wrap 32 (Z.shiftl h1 6)) + Z.shiftr h1 2)).

Section Hash.
  (** HASH_JEN: src/uthash.h 650-690, an arbitrary function of the bytes. *)
  Variable jen : list Z -> Z.

  (** _hash_datum: src/datum_hash.h 71-95 *)
  Definition hash_datum (d : datum) : Z :=
    match d_val d with
    | VString s =>
        let h1 := jen (le_bytes 4 TYPE_STRING) in
        let h2 := match s with Some l => jen l | None => jen (value_bytes (VString None)) end in
        hash_combine h1 h2
    | VNone => jen (le_bytes 4 TYPE_NONE)
    | VInactive => jen (le_bytes 4 TYPE_INACTIVE)
    | v => hash_combine (jen (le_bytes 4 (type_of v))) (jen (value_bytes v))
    end.

  (** struct _ccs_binding_data_s: src/binding_internal.h 20-24; the context is
      its address. *)
  Record binding : Type := mkBinding { b_context : Z; b_values : list datum }.

  (** _ccs_binding_hash: src/binding_internal.h 165-179 *)
  Fixpoint hash_values (h : Z) (l : list datum) : Z :=
    match l with
    | [] => h
    | d :: l' => hash_values (hash_combine h (hash_datum d)) l'
    end.
  Definition binding_hash (b : binding) : Z :=
    let h := jen (le_bytes 8 (b_context b)) in
    let ht := jen (le_bytes 8 (lenZ (b_values b))) in
    hash_values (hash_combine h ht) (b_values b).
End Hash.

(** _ccs_binding_cmp: src/binding_internal.h 181-209.  The identity shortcut
    (same binding data) is the reflexive case. *)
Fixpoint cmp_values (a b : list datum) : Z :=
  match a, b with
  | x :: a', y :: b' =>
      let c := datum_cmp_internal x y in if c =? 0 then cmp_values a' b' else c
  | _, _ => 0
  end.
Definition binding_cmp (a b : binding) : Z :=
  if b_context a <? b_context b then -1
  else if b_context b <? b_context a then 1
  else if lenZ (b_values a) <? lenZ (b_values b) then -1
  else if lenZ (b_values b) <? lenZ (b_values a) then 1
  else cmp_values (b_values a) (b_values b).
