(** What a serialised random generator is and what restoring it means. *)
From Coq Require Import ZArith List Bool.
From Verif Require Import Base Datum CodecModel CodecSpec ParamSpec RngModel.
Import ListNotations.
Open Scope Z_scope.

(** GSL's table: names are C strings, no two types share one *)
Definition table (types : list gtype) : Prop :=
  NoDup (map t_name types) /\
  forall ty, In ty types -> ok_name (t_name ty) /\ lenZ (t_init ty) < 2 ^ 64.
(** A generator of one of these types *)
Definition of_table (types : list gtype) (g : rng) (ty : gtype) : Prop :=
  nth_error types (g_type g) = Some ty /\ lenZ (g_state g) = lenZ (t_init ty).
Definition storable_rng (g : rng) : Prop := in_unsigned 64 (g_id g) /\ lenZ (ud_bytes (g_ud g)) < 2 ^ 64.

(** Written on a host of byte order [le]: the type of generators and the handle, the name,
    the byte order, the state, the user data *)
Definition wire_rng (le : bool) (ty : gtype) (g : rng) (bs : list Z) : Prop :=
  exists lh nm st ub,
    leb128 (g_id g) lh /\ wire_string (t_name ty) nm /\ wire_blob (g_state g) st /\ wire_blob (ud_bytes (g_ud g)) ub /\
    bs = (0 :: lh) ++ nm ++ [if le then 1 else 0] ++ st ++ ub.

(** What a host whose table is [types] and whose byte order is [le'] makes of it *)
Definition restored_state (le le' : bool) (ty : gtype) (state : list Z) : list Z :=
  if Bool.eqb le le' then if lenZ (t_init ty) =? lenZ state then state else t_init ty else t_init ty.
