(** Configuration spaces: serialisation and restoration.
    src/configuration_space.c 57-299, src/configuration_space_deserialize.h, and the part of
    src/rng_deserialize.h and src/distribution_deserialize.h that records handles.

    The objects made while reading have the addresses [pid 0], [pid 1]... for the parameters
    and [did 0], [did 1]... for the distributions; the generator and the expressions rebuilt
    are named after the handles read (see RngModel, ExprModel). [ddist h] is the default
    distribution that the new space gives to the parameter [h]. Failing allocations of the
    constructors and reference counts are not modelled, except where an object is released
    twice. *)
From Coq Require Import ZArith List Bool.
From Verif Require Import Base Datum CodecModel CmpModel ParamModel ContextModel MapModel ExprModel RngModel TreeConfModel DistModel DistCodecModel EvalModel SpaceCodecModel SpaceModel.
Import ListNotations.
Open Scope Z_scope.

(** ** Saving *)
Section Save.
  Variable le : bool.
  (** The parameters that live, their user data; the types of generators; the distributions *)
  Variables (heap : Z -> param) (pud : Z -> option (list Z)) (types : list gtype) (dheap : Z -> cdist).
  (** configuration_space.c 73-78, 155-160 *)
  Fixpoint count_conditions (l : list (option expr)) : Z :=
    match l with [] => 0 | None :: l => count_conditions l | Some _ :: l => 1 + count_conditions l end.
  (** 184-197; the indexes count all parameters *)
  Fixpoint ser_conditions (i : Z) (l : list (option expr)) (s : wstate) : res wstate :=
    match l with
    | [] => Ok s
    | None :: l => ser_conditions (i + 1) l s
    | Some e :: l => do s <- ser_size i s; do s <- ser_expr le e s; ser_conditions (i + 1) l s
    end.
  (** 99-113 *)
  Fixpoint size_conditions (i : Z) (l : list (option expr)) : res Z :=
    match l with
    | [] => Ok 0
    | None :: l => size_conditions (i + 1) l
    | Some e :: l => do a <- size_expr e; do b <- size_conditions (i + 1) l; Ok (size_size i + a + b)
    end.
  (** 199-211; the field [dimension] is the number of indexes *)
  Fixpoint ser_indexes (l : list nat) (s : wstate) : res wstate :=
    match l with [] => Ok s | i :: l => do s <- ser_size (Z.of_nat i) s; ser_indexes l s end.
  Fixpoint size_indexes (l : list nat) : Z := match l with [] => 0 | i :: l => size_size (Z.of_nat i) + size_indexes l end.
  Fixpoint ser_dists (l : list dwrapper) (s : wstate) : res wstate :=
    match l with
    | [] => Ok s
    | w :: l =>
        do s <- ser_dist le (dheap (dw_dist w)) s;
        do s <- ser_size (lenZ (dw_indexes w)) s;
        do s <- ser_indexes (dw_indexes w) s;
        ser_dists l s
    end.
  (** 115-126 *)
  Fixpoint size_dists (l : list dwrapper) : res Z :=
    match l with
    | [] => Ok 0
    | w :: l =>
        do a <- size_dist (dheap (dw_dist w));
        do b <- size_dists l;
        Ok (a + size_size (lenZ (dw_indexes w)) + size_indexes (dw_indexes w) + b)
    end.
  (** 213-219 *)
  Fixpoint ser_clauses (l : list expr) (s : wstate) : res wstate :=
    match l with [] => Ok s | e :: l => do s <- ser_expr le e s; ser_clauses l s end.
  (** 128-133 *)
  Fixpoint size_clauses (l : list expr) : res Z :=
    match l with [] => Ok 0 | e :: l => do a <- size_expr e; do b <- size_clauses l; Ok (a + b) end.
  (** 137-221 238-253 277-299; [g] is the generator of the space, [ud] its user data *)
  Definition ser_conf_space (g : rng) (ud : option (list Z)) (c : space) (s : wstate) : res wstate :=
    do s <- ser_object_internal OT_CONFIGURATION_SPACE (s_self c) s;
    do s <- ser_string (c_name (s_ctx c)) s;
    do s <- ser_size (lenZ (s_params c)) s;
    do s <- ser_size (count_conditions (s_conds c)) s;
    do s <- ser_size (lenZ (s_dists c)) s;
    do s <- ser_size (lenZ (s_forbidden c)) s;
    do s <- ser_rng le types g s;
    do s <- ser_parameters le heap pud (s_params c) s;
    do s <- ser_conditions 0 (s_conds c) s;
    do s <- ser_dists (s_dists c) s;
    do s <- ser_clauses (s_forbidden c) s;
    ser_user_data ud s.
  (** 57-135 223-236 255-275 *)
  Definition size_conf_space (g : rng) (ud : option (list Z)) (c : space) : res Z :=
    do r <- size_rng le types g;
    do p <- size_parameters heap pud (s_params c);
    do x <- size_conditions 0 (s_conds c);
    do d <- size_dists (s_dists c);
    do f <- size_clauses (s_forbidden c);
    Ok (size_object_internal OT_CONFIGURATION_SPACE (s_self c) +
        (size_string (c_name (s_ctx c)) + size_size (lenZ (s_params c)) + size_size (count_conditions (s_conds c)) +
         size_size (lenZ (s_dists c)) + size_size (lenZ (s_forbidden c)) + r + p + x + d + f) + size_user_data ud).
End Save.

(** ** Reading *)
Section Read.
  Variable jen : list Z -> Z.
  Variable le : bool.
  Variables (types : list gtype) (flog : Z -> Z).
  (** Whether calloc gives this many bytes; the type of the live objects *)
  Variable mem : Z -> bool.
  Variable otype : Z -> option Z.
  Variables (pid did : nat -> Z) (ddist : Z -> Z).
  (** The block is an array of [room] bytes, cut in cells of 8 bytes: [k] is one of them.
      Writing elsewhere, or computing the address, is undefined. *)
  Definition cell (room k : Z) : res unit := if room <? 8 * (k + 1) then UB UBBounds else Ok tt.
  (** An expression read into a slot of the block: see [released_twice]. *)
  Definition deser_slot (hl : notes) (s : rstate) : res ((expr * notes) * rstate) :=
    do (e, s) <- deser_expression le jen otype (Some (as_map hl)) s;
    do hl <- released_twice (note jen hl (o_id (xobj_of e)) (o_id (xobj_of e)));
    Ok ((e, hl), s).
  (** configuration_space_deserialize.h 83-89; the indexes are the cells from [np] on, the
      expressions come after them *)
  Fixpoint deser_conditions (room np nc : Z) (n : nat) (i : Z) (hl : notes) (s : rstate) : res ((list (Z * expr) * notes) * rstate) :=
    match n with
    | O => Ok (([], hl), s)
    | S n =>
        do _ <- cell room (np + i);
        do (k, s) <- deser_size s;
        do _ <- cell room (np + nc + i);
        do (x, s) <- deser_slot hl s;
        do (y, s) <- deser_conditions room np nc n (i + 1) (snd x) s;
        Ok (((k, fst x) :: fst y, snd y), s)
    end.
  (** distribution_deserialize.h: the body, then the handle is recorded, then the user data.
      Like other objects, the distribution is released if its handle is known, and then once
      more with the array. Those inside of another one are not recorded. *)
  Definition deser_distribution (hl : notes) (id : Z) (s : rstate) : res ((cdist * notes) * rstate) :=
    do (d, s) <- deser_body le flog mem (S (length (r_mem s))) s;
    do hl <- released_twice (note jen hl (o_id (dobj_of d)) id);
    do (b, s) <- deser_user_data s;
    Ok ((set_dobj d (mkObj id (read_ud b)), hl), s).
  (** 99-103. [used] cells of the [np] for indexes are taken; writing beyond them overwrites
      the clauses or leaves the block, which is taken to be undefined in both cases. *)
  Fixpoint deser_indexes (room base np : Z) (n : nat) (used : Z) (s : rstate) : res (list Z * rstate) :=
    match n with
    | O => Ok ([], s)
    | S n =>
        if np <=? used then UB UBBounds else
        do _ <- cell room (base + used);
        do (k, s) <- deser_size s;
        do (l, s) <- deser_indexes room base np n (used + 1) s;
        Ok (k :: l, s)
    end.
  (** 91-104; a distribution with the number of its indexes and these *)
  Fixpoint deser_dists (room np nc nd : Z) (n i : nat) (used : Z) (hl : notes) (s : rstate)
    : res ((list (cdist * list Z) * notes) * rstate) :=
    match n with
    | O => Ok (([], hl), s)
    | S n =>
        do _ <- cell room (np + 2 * nc + Z.of_nat i);
        do (x, s) <- deser_distribution hl (did i) s;
        do _ <- cell room (np + 2 * nc + nd + Z.of_nat i);
        do (dim, s) <- deser_size s;
        do (l, s) <- deser_indexes room (np + 2 * nc + 2 * nd) np (Z.to_nat dim) used s;
        do (y, s) <- deser_dists room np nc nd n (S i) (used + dim) (snd x) s;
        Ok (((fst x, l) :: fst y, snd y), s)
    end.
  (** 106-111 *)
  Fixpoint deser_clauses (room base : Z) (n : nat) (i : Z) (hl : notes) (s : rstate) : res ((list expr * notes) * rstate) :=
    match n with
    | O => Ok (([], hl), s)
    | S n =>
        do _ <- cell room (base + i);
        do (x, s) <- deser_slot hl s;
        do (y, s) <- deser_clauses room base n (i + 1) (snd x) s;
        Ok ((fst x :: fst y, snd y), s)
    end.
  Record conf_data := mkCD { cd_name : list Z; cd_rng : rng; cd_params : list pobj; cd_conds : list (Z * expr);
    cd_dists : list (cdist * list Z); cd_clauses : list expr }.
  (** 26-114. The generator is the first object of the map (rng_deserialize.h 51-57). If
      the sum of the counts is 0 the arrays stay NULL; if it is because the sum wraps, adding
      the parameters fails (configuration_space.c 723), and if there are none of these an
      array is read, at the address NULL. *)
  Definition deser_conf_data (s : rstate) : res (conf_data * rstate) :=
    do (name, s) <- deser_string s;
    do (np, s) <- deser_size s;
    do (nc, s) <- deser_size s;
    do (nd, s) <- deser_size s;
    do (nf, s) <- deser_size s;
    do (g, s) <- deser_rng le types s;
    do hl <- released_twice (note jen [] (g_id g) (g_id g));
    if wrap 64 (np + nc + nd + nf) =? 0 then
      if negb (np =? 0) then Err ERR_INVALID_VALUE
      else if negb (nc + nd + nf =? 0) then UB UBBounds
      else Ok (mkCD name g [] [] [] [], s)
    else
      let room := wrap 64 (np * 16 + nc * 16 + nd * 16 + nf * 8) in
      if negb (mem room) then Err ERR_OUT_OF_MEMORY else
      do (ps, s) <- deser_parameters jen le pid room (Z.to_nat np) 0 (Some hl) s;
      do (cs, s) <- deser_conditions room np nc (Z.to_nat nc) 0 (match snd ps with Some l => l | None => [] end) s;
      do (ds, s) <- deser_dists room np nc nd (Z.to_nat nd) 0 0 (snd cs) s;
      do (fs, s) <- deser_clauses room (2 * np + 2 * nc + 2 * nd) (Z.to_nat nf) 0 (snd ds) s;
      Ok (mkCD name g (fst ps) (fst cs) (fst ds) (fst fs), s).
  (** 162-169 *)
  Fixpoint set_conditions (c : space) (l : list (Z * expr)) : res space :=
    match l with
    | [] => Ok c
    | (i, e) :: l =>
        match set_condition c i e with
        | (Ok _, c) => set_conditions c l
        | (Err r, _) => Err r
        | (UB u, _) => UB u
        end
    end.
  (** 170-180. As many indexes are read as the distribution has dimensions; then the pointer
      moves by the number stored. [cells] are the cells of the indexes from there on. *)
  Fixpoint set_distributions (c : space) (l : list (cdist * list Z)) (cells : list Z) : res space :=
    match l with
    | [] => Ok c
    | (d, is) :: l =>
        let dim := length (c_types (component_of d)) in
        if (length cells <? dim)%nat then UB UBBounds else
        let (r, c) := set_distribution ddist c (o_id (dobj_of d)) (map Z.to_nat (firstn dim cells)) in
        if r =? CCS_RESULT_SUCCESS then set_distributions c l (skipn (length is) cells) else Err r
    end.
  (** the cells for indexes that were not written hold 0 *)
  Definition index_cells (d : conf_data) : list Z :=
    let l := flat_map snd (cd_dists d) in l ++ repeat 0 (length (cd_params d) - length l).
  (** 146-186; [id] is the address of the new space. No distribution is given with the
      parameters, so that their dimensions do not matter. *)
  Definition build_conf_space (id : Z) (d : conf_data) : res space :=
    let heap := at_address (cd_params d) in
    let (r, c) := space_adds heap (fun _ => O) ddist (new_space id (cd_name d)) (map (fun p => (po_id p, None)) (cd_params d)) in
    do _ <- refute (negb (r =? CCS_RESULT_SUCCESS)) r;
    do c <- set_conditions c (cd_conds d);
    do c <- set_distributions c (cd_dists d) (index_cells d);
    match add_forbidden_clauses heap jen c (cd_clauses d) with
    | (Ok _, c) => Ok c
    | (Err r, _) => Err r
    | (UB u, _) => UB u
    end.
  (** A space that was read: its parameters, generator and distributions, itself, its user data *)
  Record rconf := mkRC { rc_params : list pobj; rc_rng : rng; rc_dists : list cdist; rc_space : space; rc_ud : option (list Z) }.
  (** 116-248. [keep] asks to record the space in [m] *)
  Definition deser_conf_space (keep : bool) (id : Z) (m : hmap) (s : rstate) : res ((rconf * hmap) * rstate) :=
    do (o, s) <- deser_object_internal s;
    do _ <- refute (negb (fst o =? OT_CONFIGURATION_SPACE)) ERR_INVALID_TYPE;
    do (d, s) <- deser_conf_data s;
    do c <- build_conf_space id d;
    do m <- (if keep then handle_check_add m (snd o) id else Ok m);
    do (b, s) <- deser_user_data s;
    Ok ((mkRC (cd_params d) (cd_rng d) (map fst (cd_dists d)) c (read_ud b), m), s).
End Read.
