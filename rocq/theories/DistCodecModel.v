(** Distributions as objects: normal and multivariate distributions, saving and restoring.
    Sources: /repo/src/distribution_normal.c 20-170 172-236 533-600,
    distribution_multivariate.c 30-160 181-285, distribution_uniform.c 28-182,
    distribution_roulette.c 22-140, distribution_mixture.c 29-180, distribution_internal.h
    76-103, distribution_deserialize.h.

    The library's object is described by its constructor arguments and what is computed from
    them (see DistModel). Allocations made by the constructors themselves are assumed to
    succeed, reference counts are not modelled. *)
From Coq Require Import ZArith List Bool.
From Verif Require Import Base Datum CodecModel FloatModel IntervalModel ParamModel ExprModel RngModel TreeConfModel DistModel.
Import ListNotations.
Open Scope Z_scope.

(** include/cconfigspace/distribution.h 19-34 *)
Definition D_UNIFORM := 0.
Definition D_NORMAL := 1.
Definition D_ROULETTE := 2.
Definition D_MIXTURE := 3.
Definition D_MULTIVARIATE := 4.

(** ** Normal distributions *)
Record normal : Type := mkNormal { n_type : Z; n_mu : Z; n_sigma : Z; n_scale : Z; n_quant : Z; n_quantize : bool }.
(** distribution_normal.c 533-587 [ccs_create_normal_distribution]; the block is zeroed *)
Definition create_normal (t mu sigma scale quant : Z) : res normal :=
  do _ <- refute (negb (t =? NUM_FLOAT) && negb (t =? NUM_INT)) ERR_INVALID_TYPE;
  do _ <- refute (negb (scale =? SCALE_LINEAR) && negb (scale =? SCALE_LOGARITHMIC)) ERR_INVALID_SCALE;
  do _ <- refute ((t =? NUM_INT) && (quant <? 0)) ERR_INVALID_VALUE;
  do _ <- refute ((t =? NUM_FLOAT) && flt quant 0) ERR_INVALID_VALUE;
  Ok (mkNormal t mu sigma scale quant (if t =? NUM_FLOAT then negb (feq quant 0) else negb (quant =? 0))).
Definition PLUS_INF := 0x7ff0000000000000.
Definition MINUS_INF := 0xfff0000000000000.
(** 174-236 [get_bounds]; [/] truncates, and the quotients times the step do not overflow *)
Definition normal_bounds (d : normal) : interval :=
  if n_scale d =? SCALE_LOGARITHMIC then
    if n_type d =? NUM_FLOAT then
      (if n_quantize d then mkInterval NUM_FLOAT (n_quant d) PLUS_INF true false
       else mkInterval NUM_FLOAT 0 PLUS_INF false false)
    else
      (if n_quantize d then mkInterval (n_type d) (n_quant d) (Z.quot INT64_MAX (n_quant d) * n_quant d) true true
       else mkInterval (n_type d) 1 INT64_MAX true true)
  else
    if n_type d =? NUM_FLOAT then mkInterval NUM_FLOAT MINUS_INF PLUS_INF false false
    else
      (if n_quantize d then
         mkInterval (n_type d) (Z.quot INT64_MIN (n_quant d) * n_quant d) (Z.quot INT64_MAX (n_quant d) * n_quant d) true true
       else mkInterval (n_type d) INT64_MIN INT64_MAX true true).

(** ** Distributions *)
Inductive cdist : Type :=
| CUniform (o : xobj) (u : uniform)
| CNormal (o : xobj) (n : normal)
| CRoulette (o : xobj) (table : list Z)
| CMixture (o : xobj) (types : list Z) (bounds : list interval) (table : list Z) (ds : list cdist)
| CMulti (o : xobj) (types : list Z) (bounds : list interval) (ds : list cdist).
Definition dobj_of (d : cdist) : xobj :=
  match d with CUniform o _ | CNormal o _ | CRoulette o _ | CMixture o _ _ _ _ | CMulti o _ _ _ => o end.
Definition set_dobj (d : cdist) (o : xobj) : cdist :=
  match d with
  | CUniform _ u => CUniform o u
  | CNormal _ n => CNormal o n
  | CRoulette _ t => CRoulette o t
  | CMixture _ ty b t l => CMixture o ty b t l
  | CMulti _ ty b l => CMulti o ty b l
  end.
Definition dtype_of (d : cdist) : Z :=
  match d with
  | CUniform _ _ => D_UNIFORM
  | CNormal _ _ => D_NORMAL
  | CRoulette _ _ => D_ROULETTE
  | CMixture _ _ _ _ _ => D_MIXTURE
  | CMulti _ _ _ _ => D_MULTIVARIATE
  end.
(** distribution.c 23-59: ccs_distribution_get_dimension, get_data_types, get_bounds *)
Definition component_of (d : cdist) : component :=
  match d with
  | CUniform _ u => mkComponent [u_type u] [uniform_bounds u]
  | CNormal _ n => mkComponent [n_type n] [normal_bounds n]
  | CRoulette _ table => mkComponent [NUM_INT] [roulette_bounds table]
  | CMixture _ types bounds _ _ => mkComponent types bounds
  | CMulti _ types bounds _ => mkComponent types bounds
  end.
(** distribution_mixture.c 182-336 *)
Definition make_mixture (id : Z) (ds : list cdist) (weights : list Z) : res cdist :=
  do m <- create_mixture (map component_of ds) weights;
  Ok (CMixture (mkObj id None) (mx_types m) (mx_bounds m) (mx_table m) ds).
(** distribution_multivariate.c 181-275 *)
Definition make_multi (id : Z) (ds : list cdist) : res cdist :=
  do _ <- refute ((lenZ ds =? 0) || (INT64_MAX <? lenZ ds)) ERR_INVALID_VALUE;
  Ok (CMulti (mkObj id None) (flat_map (fun d => c_types (component_of d)) ds) (flat_map (fun d => c_bounds (component_of d)) ds) ds).

Section Codec.
  Variable le : bool.

  (** ** Saving *)
  Definition ser_numeric (t v : Z) (s : wstate) : res wstate := if t =? NUM_FLOAT then ser_float le v s else ser_int v s.
  Definition size_numeric (t v : Z) : Z := if t =? NUM_FLOAT then size_float v else size_int v.
  Fixpoint ser_floats (l : list Z) (s : wstate) : res wstate :=
    match l with [] => Ok s | x :: l => do s <- ser_float le x s; ser_floats l s end.
  Fixpoint size_floats (l : list Z) : Z := match l with [] => 0 | x :: l => size_float x + size_floats l end.
  (** The weights written are the differences of the cells of the table. *)
  Fixpoint ser_dist (d : cdist) (s : wstate) : res wstate :=
    do s <- ser_object_internal OBJ_DISTRIBUTION (o_id (dobj_of d)) s;
    do s <- ser_enum (dtype_of d) s;
    do s <- match d with
            | CUniform _ u =>
                do s <- ser_enum (u_type u) s;
                do s <- ser_enum (u_scale u) s;
                do s <- ser_numeric (u_type u) (u_lower u) s;
                do s <- ser_numeric (u_type u) (u_upper u) s;
                ser_numeric (u_type u) (u_quant u) s
            | CNormal _ n =>
                do s <- ser_enum (n_type n) s;
                do s <- ser_enum (n_scale n) s;
                do s <- ser_float le (n_mu n) s;
                do s <- ser_float le (n_sigma n) s;
                ser_numeric (n_type n) (n_quant n) s
            | CRoulette _ table =>
                do s <- ser_size (lenZ table - 1) s;
                ser_floats (differences table) s
            | CMixture _ _ _ table ds =>
                do s <- ser_size (lenZ ds) s;
                (fix go (ws : list Z) (l : list cdist) (s : wstate) {struct l} : res wstate :=
                   match l, ws with
                   | [], _ => Ok s
                   | d :: l', w :: ws' => do s <- ser_float le w s; do s <- ser_dist d s; go ws' l' s
                   | _ :: _, [] => UB UBBounds
                   end) (differences table) ds s
            | CMulti _ _ _ ds =>
                do s <- ser_size (lenZ ds) s;
                (fix go (l : list cdist) (s : wstate) : res wstate :=
                   match l with [] => Ok s | d :: l' => do s <- ser_dist d s; go l' s end) ds s
            end;
    ser_user_data (o_ud (dobj_of d)) s.
  Fixpoint size_dist (d : cdist) : res Z :=
    do n <- match d with
            | CUniform _ u =>
                Ok (size_enum (u_type u) + size_enum (u_scale u) + size_numeric (u_type u) (u_lower u) +
                    size_numeric (u_type u) (u_upper u) + size_numeric (u_type u) (u_quant u))
            | CNormal _ n =>
                Ok (size_enum (n_type n) + size_enum (n_scale n) + size_float (n_mu n) + size_float (n_sigma n) +
                    size_numeric (n_type n) (n_quant n))
            | CRoulette _ table => Ok (size_size (lenZ table - 1) + size_floats (differences table))
            | CMixture _ _ _ table ds =>
                do n <- (fix go (ws : list Z) (l : list cdist) {struct l} : res Z :=
                   match l, ws with
                   | [], _ => Ok 0
                   | d :: l', w :: ws' => do a <- size_dist d; do b <- go ws' l'; Ok (size_float w + a + b)
                   | _ :: _, [] => UB UBBounds
                   end) (differences table) ds;
                Ok (size_size (lenZ ds) + n)
            | CMulti _ _ _ ds =>
                do n <- (fix go (l : list cdist) : res Z :=
                   match l with [] => Ok 0 | d :: l' => do a <- size_dist d; do b <- go l'; Ok (a + b) end) ds;
                Ok (size_size (lenZ ds) + n)
            end;
    Ok (size_object_internal OBJ_DISTRIBUTION (o_id (dobj_of d)) + size_enum (dtype_of d) + n + size_user_data (o_ud (dobj_of d))).

  (** ** Restoring: distribution_deserialize.h *)
  Variable flog : Z -> Z.
  (** Whether malloc and calloc give this many bytes *)
  Variable mem : Z -> bool.
  Definition deser_numeric (t : Z) (s : rstate) : res (Z * rstate) := if t =? NUM_FLOAT then deser_float le s else deser_int s.
  (** 17-62; the type was only peeked at and is read again *)
  Definition deser_uniform (s : rstate) : res (uniform * rstate) :=
    do (_, s) <- deser_enum s;
    do (t, s) <- deser_enum s;
    do (scale, s) <- deser_enum s;
    do (lower, s) <- deser_numeric t s;
    do (upper, s) <- deser_numeric t s;
    do (quant, s) <- deser_numeric t s;
    do u <- create_uniform flog t lower upper scale quant;
    Ok (u, s).
  (** 75-115 *)
  Definition deser_normal (s : rstate) : res (normal * rstate) :=
    do (_, s) <- deser_enum s;
    do (t, s) <- deser_enum s;
    do (scale, s) <- deser_enum s;
    do (mu, s) <- deser_float le s;
    do (sigma, s) <- deser_float le s;
    do (quant, s) <- deser_numeric t s;
    do n <- create_normal t mu sigma scale quant;
    Ok (n, s).
  (** 125-169: [room] is the size of the array in bytes, 8 * num_areas modulo 2^64 *)
  Fixpoint deser_areas (room : Z) (n i : nat) (s : rstate) : res (list Z * rstate) :=
    match n with
    | O => Ok ([], s)
    | S n =>
        if room <? 8 * (Z.of_nat i + 1) then UB UBBounds else
        do (x, s) <- deser_float le s;
        do (l, s) <- deser_areas room n (S i) s;
        Ok (x :: l, s)
    end.
  Definition deser_roulette (s : rstate) : res (list Z * rstate) :=
    do (_, s) <- deser_enum s;
    do (n, s) <- deser_size s;
    let room := wrap 64 (8 * n) in
    if negb (mem room) then Err ERR_OUT_OF_MEMORY else
    do (areas, s) <- deser_areas room (Z.to_nat n) 0 s;
    do table <- create_roulette areas;
    Ok (table, s).
  (** calloc fails if the product overflows; the second array of a mixture has the same size *)
  Definition array_given (n : Z) : bool := (8 * n <? 2 ^ 64) && mem (8 * n).
  Section Nodes.
    Variable node : rstate -> res (cdist * rstate).
    Fixpoint deser_weighted (n : nat) (s : rstate) : res (list (Z * cdist) * rstate) :=
      match n with
      | O => Ok ([], s)
      | S n => do (w, s) <- deser_float le s; do (d, s) <- node s; do (l, s) <- deser_weighted n s; Ok ((w, d) :: l, s)
      end.
    Fixpoint deser_parts (n : nat) (s : rstate) : res (list cdist * rstate) :=
      match n with
      | O => Ok ([], s)
      | S n => do (d, s) <- node s; do (l, s) <- deser_parts n s; Ok (d :: l, s)
      end.
    (** 189-252 *)
    Definition deser_mixture (id : Z) (s : rstate) : res (cdist * rstate) :=
      do (_, s) <- deser_enum s;
      do (n, s) <- deser_size s;
      if negb (array_given n) then Err ERR_OUT_OF_MEMORY else
      do (l, s) <- deser_weighted (Z.to_nat n) s;
      do d <- make_mixture id (map snd l) (map fst l);
      Ok (d, s).
    (** 262-316 *)
    Definition deser_multi (id : Z) (s : rstate) : res (cdist * rstate) :=
      do (_, s) <- deser_enum s;
      do (n, s) <- deser_size s;
      if negb (array_given n) then Err ERR_OUT_OF_MEMORY else
      do (l, s) <- deser_parts (Z.to_nat n) s;
      do d <- make_multi id l;
      Ok (d, s).
  End Nodes.
  (** 318-362, up to the handle map, which is not used below the outermost distribution. The
      object made is named after the handle read. [fuel] bounds the nesting. *)
  Definition add_data (d : cdist) (b : list Z) : cdist := set_dobj d (mkObj (o_id (dobj_of d)) (read_ud b)).
  Fixpoint deser_body (fuel : nat) (s : rstate) : res (cdist * rstate) :=
    match fuel with
    | O => UB UBFuel
    | S fuel =>
        let node s := (do (d, s) <- deser_body fuel s; do (b, s) <- deser_user_data s; Ok (add_data d b, s)) in
        do (o, s) <- deser_object_internal s;
        do _ <- refute (negb (fst o =? OBJ_DISTRIBUTION)) ERR_INVALID_TYPE;
        do dtype <- peek_enum s;
        if dtype =? D_UNIFORM then do (u, s) <- deser_uniform s; Ok (CUniform (mkObj (snd o) None) u, s)
        else if dtype =? D_NORMAL then do (n, s) <- deser_normal s; Ok (CNormal (mkObj (snd o) None) n, s)
        else if dtype =? D_ROULETTE then do (t, s) <- deser_roulette s; Ok (CRoulette (mkObj (snd o) None) t, s)
        else if dtype =? D_MIXTURE then deser_mixture node (snd o) s
        else if dtype =? D_MULTIVARIATE then deser_multi node (snd o) s
        else Err ERR_UNSUPPORTED_OPERATION
    end.
  (** 362-376 and 378-403: [keep], there is a handle map [m]; the new object is at [id] *)
  Definition deser_dist (keep : bool) (id : Z) (m : hmap) (s : rstate) : res ((cdist * hmap) * rstate) :=
    do (d, s) <- deser_body (S (length (r_mem s))) s;
    do m <- (if keep then handle_check_add m (o_id (dobj_of d)) id else Ok m);
    do (b, s) <- deser_user_data s;
    Ok ((set_dobj d (mkObj id (read_ud b)), m), s).
End Codec.
