(** Datums (tagged values) of the public API. *)
From Coq Require Import ZArith List Bool.
From Verif Require Import Base.
Import ListNotations.
Open Scope Z_scope.

(** union ccs_value_u + type tag: include/cconfigspace/base.h 443-510.
    - [VFloat bits]: the 64-bit pattern of the double;
    - [VBool i]: the code stores a boolean in the 64-bit integer member;
    - [VString None] is a NULL [const char *]; [VString (Some l)] points to the
      characters [l] (bytes, no terminator).  Simplification: a string pointer
      is represented by what it points to; pointer identity is only ever used
      by the code as a shortcut for equality of contents;
    - [VObject h]: a handle, i.e. a 64-bit address;
    - [VUnknown t i]: a tag outside the enumeration (the [default:] branches),
      with the 64-bit pattern of the value. *)
Inductive value : Type :=
| VNone
| VInt (i : Z)
| VFloat (bits : Z)
| VBool (i : Z)
| VString (s : option (list Z))
| VInactive
| VObject (h : Z)
| VUnknown (t : Z) (i : Z).

(** struct ccs_datum_s: include/cconfigspace/base.h 492-499 *)
Record datum : Type := mkDatum { d_val : value; d_flags : Z }.

(** enum ccs_data_type_e: include/cconfigspace/base.h (NONE = 0, INT, FLOAT,
    BOOL, STRING, INACTIVE, OBJECT = 6). *)
Definition TYPE_NONE := 0.
Definition TYPE_INT := 1.
Definition TYPE_FLOAT := 2.
Definition TYPE_BOOL := 3.
Definition TYPE_STRING := 4.
Definition TYPE_INACTIVE := 5.
Definition TYPE_OBJECT := 6.

Definition type_of (v : value) : Z :=
  match v with
  | VNone => TYPE_NONE
  | VInt _ => TYPE_INT
  | VFloat _ => TYPE_FLOAT
  | VBool _ => TYPE_BOOL
  | VString _ => TYPE_STRING
  | VInactive => TYPE_INACTIVE
  | VObject _ => TYPE_OBJECT
  | VUnknown t _ => t
  end.

(** enum ccs_datum_flag_e: include/cconfigspace/base.h *)
Definition FLAG_DEFAULT := 0.
Definition FLAG_TRANSIENT := 1.
Definition FLAG_UNPOOLED := 2.
Definition FLAG_ID := 4.

(** ccs_none, ccs_inactive: src/cconfigspace.c; ccs_int, ccs_float, ccs_bool,
    ccs_string, ccs_object: include/cconfigspace/base.h 506-577 *)
Definition ccs_none := mkDatum VNone FLAG_DEFAULT.
Definition ccs_inactive := mkDatum VInactive FLAG_DEFAULT.
Definition ccs_int i := mkDatum (VInt i) FLAG_DEFAULT.
Definition ccs_float f := mkDatum (VFloat f) FLAG_DEFAULT.
Definition ccs_bool b := mkDatum (VBool b) FLAG_DEFAULT.
Definition ccs_string s := mkDatum (VString s) FLAG_DEFAULT.
Definition ccs_object h := mkDatum (VObject h) FLAG_DEFAULT.
Definition CCS_TRUE := 1.
Definition CCS_FALSE := 0.
Definition ccs_true := ccs_bool CCS_TRUE.
Definition ccs_false := ccs_bool CCS_FALSE.

(** Values an API user can put in a datum: representable machine values. *)
Definition is_byte (b : Z) : Prop := 0 <= b < 256.
Definition is_char (b : Z) : Prop := 0 < b < 256.
Definition wf_value (v : value) : Prop :=
  match v with
  | VNone | VInactive => True
  | VInt i => in_signed 64 i
  | VFloat f => in_unsigned 64 f
  | VBool b => b = CCS_TRUE \/ b = CCS_FALSE
  | VString (Some s) => Forall is_char s /\ lenZ s + 1 < 2 ^ 64
  | VString None => True
  | VObject h => in_unsigned 64 h
  | VUnknown t i => 6 < t < 2 ^ 32 /\ in_signed 64 i
  end.
