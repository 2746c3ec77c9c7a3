(** Random generators: src/rng.c, src/rng_deserialize.h.

    GSL itself is not modelled: [types] is the table gsl_rng_types_setup returns, each with
    its name and the bytes of a generator just allocated (gsl_rng_alloc seeds it with
    gsl_rng_default_seed), [draw] is gsl_rng_get and [seeding] gsl_rng_set, both acting on
    the bytes gsl_rng_state points to. Allocation does not fail. *)
From Coq Require Import ZArith List Bool.
From Verif Require Import Base Datum CodecModel.
Import ListNotations.
Open Scope Z_scope.

Record gtype := mkGtype { t_name : list Z; t_init : list Z }.
(** rng_internal.h 6-22. [g_id] is the address of the object, [g_type] the place of
    rng_type in the table. *)
Record rng := mkRng { g_id : Z; g_type : nat; g_state : list Z; g_ud : option (list Z) }.

Definition OBJ_RNG := 0.
Definition read_ud (b : list Z) : option (list Z) := match b with [] => None | _ => Some b end.

Section Rng.
  Variable le : bool.
  Variable types : list gtype.

  (** rng.c 105-129 [ccs_create_rng_with_type]; the type is an entry of the table *)
  Definition create_rng_with_type (id : Z) (t : nat) : res rng :=
    match nth_error types t with
    | None => UB UBBounds
    | Some ty => Ok (mkRng id t (t_init ty) None)
    end.

  (** rng.c 12-103 *)
  Definition ser_rng (g : rng) (s : wstate) : res wstate :=
    match nth_error types (g_type g) with
    | None => UB UBBounds
    | Some ty =>
        do s <- ser_object_internal OBJ_RNG (g_id g) s;
        do s <- ser_string (t_name ty) s;
        do s <- ser_enum (b2z le) s;
        do s <- ser_blob (g_state g) s;
        ser_user_data (g_ud g) s
    end.
  Definition size_rng (g : rng) : res Z :=
    match nth_error types (g_type g) with
    | None => UB UBBounds
    | Some ty =>
        Ok (size_object_internal OBJ_RNG (g_id g) + size_string (t_name ty) + size_enum (b2z le) +
            size_blob (g_state g) + size_user_data (g_ud g))
    end.

  (** rng_deserialize.h 36-42: the first entry of that name *)
  Fixpoint find_type (l : list gtype) (name : list Z) : option nat :=
    match l with
    | [] => None
    | ty :: l' => if list_eq_dec Z.eq_dec name (t_name ty) then Some O else option_map S (find_type l' name)
    end.
  (** rng_deserialize.h 8-85. The generator rebuilt is named after the handle read;
      registering the handle (51-57) is not modelled. *)
  Definition deser_rng (s : rstate) : res (rng * rstate) :=
    do (o, s) <- deser_object_internal s;
    do _ <- refute (negb (fst o =? OBJ_RNG)) ERR_INVALID_TYPE;
    do (name, s) <- deser_string s;
    do (e, s) <- deser_enum s;
    do (b, s) <- deser_blob s;
    match find_type types name with
    | None => Err ERR_INVALID_VALUE
    | Some t =>
        do g <- create_rng_with_type (snd o) t;
        let st := if (lenZ b =? lenZ (g_state g)) && (e =? b2z le) then b else g_state g in
        do (ud, s) <- deser_user_data s;
        Ok (mkRng (snd o) t st (read_ud ud), s)
    end.
End Rng.

Section Draw.
  Variable draw : nat -> list Z -> Z * list Z.
  Variable seeding : nat -> Z -> list Z -> list Z.
  (** rng.c 153-160 [ccs_rng_get] *)
  Definition rng_get (g : rng) : Z * rng :=
    let (x, st) := draw (g_type g) (g_state g) in (x, mkRng (g_id g) (g_type g) st (g_ud g)).
  (** rng.c 145-151 [ccs_rng_set_seed] *)
  Definition rng_set_seed (g : rng) (seed : Z) : rng :=
    mkRng (g_id g) (g_type g) (seeding (g_type g) seed (g_state g)) (g_ud g).
  (** [n] successive calls *)
  Fixpoint draws (n : nat) (g : rng) : list Z :=
    match n with
    | O => []
    | S n' => let (x, g') := rng_get g in x :: draws n' g'
    end.
End Draw.
