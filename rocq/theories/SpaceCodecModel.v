(** Features spaces and objective spaces: serialisation and restoration.
    src/context_internal.h 196-262, src/context_deserialize.h, src/features_space.c 28-74,
    src/features_space_deserialize.h, src/objective_space.c 33-190,
    src/objective_space_deserialize.h, and the part of src/parameter_deserialize.h and
    src/expression_deserialize.h that records handles.

    The objects made while reading have the addresses [pid 0], [pid 1]... for the parameters;
    an expression rebuilt is named after the handle read (see ExprModel). Failing allocations
    of the constructors and reference counts are not modelled, except where an object is
    released twice. *)
From Coq Require Import ZArith List Bool.
From Verif Require Import Base Datum CodecModel CmpModel ParamModel ContextModel MapModel ExprModel RngModel TreeConfModel EvalModel.
Import ListNotations.
Open Scope Z_scope.

(** A parameter with its address and its user data *)
Record pobj := mkP { po_id : Z; po_param : param; po_ud : option (list Z) }.

(** ** Saving *)
Section Save.
  Variable le : bool.
  (** The parameters that live, and their user data *)
  Variables (heap : Z -> param) (pud : Z -> option (list Z)).
  (** parameter_numerical.c, parameter_categorical.c...: the operations serialize_size and
      serialize end with the user data *)
  Definition ser_parameter (h : Z) (s : wstate) : res wstate :=
    do s <- ser_param le h (heap h) s;
    ser_user_data (pud h) s.
  Definition size_parameter (h : Z) : res Z :=
    do a <- size_param h (heap h);
    Ok (a + size_user_data (pud h)).
  Fixpoint ser_parameters (l : list Z) (s : wstate) : res wstate :=
    match l with
    | [] => Ok s
    | h :: l => do s <- ser_parameter h s; ser_parameters l s
    end.
  Fixpoint size_parameters (l : list Z) : res Z :=
    match l with
    | [] => Ok 0
    | h :: l => do a <- size_parameter h; do b <- size_parameters l; Ok (a + b)
    end.
  (** context_internal.h 196-262; [id] is the address of the space, [ud] its user data *)
  Definition ser_features_space (id : Z) (ud : option (list Z)) (c : context) (s : wstate) : res wstate :=
    do s <- ser_object_internal OT_FEATURES_SPACE id s;
    do s <- ser_string (c_name c) s;
    do s <- ser_size (lenZ (c_params c)) s;
    do s <- ser_parameters (c_params c) s;
    ser_user_data ud s.
  Definition size_features_space (id : Z) (ud : option (list Z)) (c : context) : res Z :=
    do p <- size_parameters (c_params c);
    Ok (size_object_internal OT_FEATURES_SPACE id + (size_string (c_name c) + size_size (lenZ (c_params c)) + p) + size_user_data ud).
  (** objective_space.c 33-140 *)
  Fixpoint ser_objectives (l : list (expr * Z)) (s : wstate) : res wstate :=
    match l with
    | [] => Ok s
    | (e, t) :: l => do s <- ser_expr le e s; do s <- ser_enum t s; ser_objectives l s
    end.
  Fixpoint size_objectives (l : list (expr * Z)) : res Z :=
    match l with
    | [] => Ok 0
    | (e, t) :: l => do a <- size_expr e; do b <- size_objectives l; Ok (a + size_enum t + b)
    end.
  Definition ser_objective_space (id : Z) (ud : option (list Z)) (sp : space) (s : wstate) : res wstate :=
    do s <- ser_object_internal OT_OBJECTIVE_SPACE id s;
    do s <- ser_string (c_name (sp_ctx sp)) s;
    do s <- ser_size (lenZ (c_params (sp_ctx sp))) s;
    do s <- ser_size (lenZ (sp_objectives sp)) s;
    do s <- ser_parameters (c_params (sp_ctx sp)) s;
    do s <- ser_objectives (sp_objectives sp) s;
    ser_user_data ud s.
  Definition size_objective_space (id : Z) (ud : option (list Z)) (sp : space) : res Z :=
    do p <- size_parameters (c_params (sp_ctx sp));
    do o <- size_objectives (sp_objectives sp);
    Ok (size_object_internal OT_OBJECTIVE_SPACE id +
        (size_string (c_name (sp_ctx sp)) + size_size (lenZ (c_params (sp_ctx sp))) + size_size (lenZ (sp_objectives sp)) + p + o) + size_user_data ud).
End Save.

(** ** Reading *)
Section Read.
  Variable jen : list Z -> Z.
  Variable le : bool.
  (** The handle map made for the reading of a space: handles and the objects they stand for,
      in the order they were recorded. cconfigspace_internal.h 1053-1066 *)
  Definition notes := list (Z * Z).
  Definition as_map (l : notes) : mstate :=
    mkMap (map (fun x => (mkDatum (VObject (fst x)) FLAG_ID, ccs_object (snd x))) l) (fun _ => 1).
  Definition note (l : notes) (h id : Z) : res notes :=
    if map_exist jen (as_map l) (mkDatum (VObject h) FLAG_ID) then Err ERR_DUPLICATE_HANDLE else Ok (l ++ [(h, id)]).
  (** An object whose handle is already known is released by its deserialiser
      (parameter_deserialize.h 205-207, expression_deserialize.h 219-221), which leaves it in
      the array of the caller, which then releases it again (objective_space_deserialize.h
      117-125): use after free. *)
  Definition released_twice (r : res notes) : res notes :=
    match r with Err _ => UB UBBounds | _ => r end.
  (** parameter_deserialize.h 161-235; there is no map when reading a features space *)
  Definition deser_parameter (hl : option notes) (id : Z) (s : rstate) : res ((pobj * option notes) * rstate) :=
    do (x, s) <- deser_param jen le s;
    do hl <- match hl with
             | None => Ok None
             | Some l => do l <- released_twice (note l (fst x) id); Ok (Some l)
             end;
    do (b, s) <- deser_user_data s;
    Ok ((mkP id (snd x) (read_ud b), hl), s).
  (** the addresses of the new parameters *)
  Variable pid : nat -> Z.
  (** the parameters from number [i] on; [room] is the size of the array in bytes *)
  Fixpoint deser_parameters (room : Z) (n i : nat) (hl : option notes) (s : rstate) : res ((list pobj * option notes) * rstate) :=
    match n with
    | O => Ok (([], hl), s)
    | S n =>
        if room <? 8 * (Z.of_nat i + 1) then UB UBBounds else
        do (x, s) <- deser_parameter hl (pid i) s;
        do (y, s) <- deser_parameters room n (S i) (snd x) s;
        Ok ((fst x :: fst y, snd y), s)
    end.
  (** the parameter at an address *)
  Definition at_address (l : list pobj) (h : Z) : param :=
    match find (fun p => po_id p =? h) l with Some p => po_param p | None => create_string [] end.
  (** Whether calloc gives this many bytes; the type of the live objects *)
  Variable mem : Z -> bool.
  Variable otype : Z -> option Z.
  (** A space that was read: its parameters and itself, with its user data *)
  Record rspace := mkRS { rs_params : list pobj; rs_space : space; rs_ud : option (list Z) }.
  (** The parameters are added to a new space: context_deserialize.h, features_space.c 86-133 206-218,
      objective_space.c 213-260 334-346 *)
  Definition new_space (k : space_kind) (name : list Z) (ps : list pobj) : res context :=
    let (r, c) := add_parameters (at_address ps) k (new_context name) (map (fun p => (po_id p, None)) ps) in
    if r =? CCS_RESULT_SUCCESS then Ok c else Err r.
  (** features_space_deserialize.h. [keep] asks to record the space, which is at [id], in [m] *)
  Definition deser_features_space (keep : bool) (id : Z) (m : hmap) (s : rstate) : res ((rspace * hmap) * rstate) :=
    do (o, s) <- deser_object_internal s;
    do _ <- refute (negb (fst o =? OT_FEATURES_SPACE)) ERR_INVALID_TYPE;
    do (name, s) <- deser_string s;
    do (n, s) <- deser_size s;
    do (ps, s) <- (if n =? 0 then Ok ([], s)
                   else if negb (mem (8 * n)) then Err ERR_OUT_OF_MEMORY
                   else do (x, s) <- deser_parameters (8 * n) (Z.to_nat n) 0 None s; Ok (fst x, s));
    do c <- new_space KFeatures name ps;
    do m <- (if keep then handle_check_add m (snd o) id else Ok m);
    do (b, s) <- deser_user_data s;
    Ok ((mkRS ps (mkSpace OT_FEATURES_SPACE c []) (read_ud b), m), s).
  (** objective_space_deserialize.h 49-60. The expressions are cells [np]... of 8 bytes, after
      the parameters, their types cells of 4 bytes after the expressions. *)
  Fixpoint deser_objectives (room np no : Z) (n i : nat) (hl : notes) (s : rstate) : res ((list (expr * Z) * notes) * rstate) :=
    match n with
    | O => Ok (([], hl), s)
    | S n =>
        if room <? 8 * (np + Z.of_nat i + 1) then UB UBBounds else
        do (e, s) <- deser_expression le jen otype (Some (as_map hl)) s;
        do hl <- released_twice (note hl (o_id (xobj_of e)) (o_id (xobj_of e)));
        do (t, s) <- deser_enum s;
        if room <? 8 * (np + no) + 4 * (Z.of_nat i + 1) then UB UBBounds else
        do (y, s) <- deser_objectives room np no n (S i) hl s;
        Ok (((e, t) :: fst y, snd y), s)
    end.
  (** 16-62 *)
  Definition deser_objective_data (s : rstate) : res ((list Z * list pobj * list (expr * Z)) * rstate) :=
    do (name, s) <- deser_string s;
    do (np, s) <- deser_size s;
    do (no, s) <- deser_size s;
    if wrap 64 (np + no) =? 0 then
      (** nothing is read and the arrays stay NULL; if the sum wraps the counts are not 0 and
          adding the parameters fails: objective_space.c 341 *)
      if np =? 0 then Ok ((name, [], []), s) else Err ERR_INVALID_VALUE
    else
      let room := wrap 64 (np * 8 + no * 12) in
      if negb (mem room) then Err ERR_OUT_OF_MEMORY else
      do (x, s) <- deser_parameters room (Z.to_nat np) 0 (Some []) s;
      do (y, s) <- deser_objectives room np no (Z.to_nat no) 0 (match snd x with Some l => l | None => [] end) s;
      Ok ((name, fst x, fst y), s).
  (** 64-155 *)
  Definition deser_objective_space (keep : bool) (id : Z) (m : hmap) (s : rstate) : res ((rspace * hmap) * rstate) :=
    do (o, s) <- deser_object_internal s;
    do _ <- refute (negb (fst o =? OT_OBJECTIVE_SPACE)) ERR_INVALID_TYPE;
    do (d, s) <- deser_objective_data s;
    match d with (name, ps, objs) =>
      do c <- new_space KObjective name ps;
      let (r, sp) := add_objectives (mkSpace OT_OBJECTIVE_SPACE c []) objs in
      do _ <- refute (negb (r =? CCS_RESULT_SUCCESS)) r;
      do m <- (if keep then handle_check_add m (snd o) id else Ok m);
      do (b, s) <- deser_user_data s;
      Ok ((mkRS ps sp (read_ud b), m), s)
    end.
End Read.
