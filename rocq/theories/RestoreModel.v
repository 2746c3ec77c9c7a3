(** Configurations, features and evaluations of the three kinds: serialisation, restoration,
    comparison and hash. src/binding_internal.h, src/configuration.c, src/features.c,
    src/evaluation.c, src/features_evaluation.c, src/tree_evaluation.c and the matching
    *_deserialize.h.

    An evaluation contains its configuration (and features): the objects are values here, with
    their address in them, and sharing shows as equal addresses. Reference counts (LifeModel
    has them) and failing allocations of the constructors are not modelled; the array of values
    of the deserialiser is. The handle map is the one of TreeConfModel. *)
From Coq Require Import ZArith List Bool.
From Verif Require Import Base Datum CodecModel CmpModel ParamModel ContextModel EvalModel TreeModel RngModel TreeSpaceModel TreeConfModel.
Import ListNotations.
Open Scope Z_scope.

Definition OBJ_CONFIGURATION := 5.
Definition OBJ_EVALUATION := 7.
Definition OBJ_FEATURES := 10.
Definition OBJ_FEATURES_EVALUATION := 11.
Definition OBJ_TREE_EVALUATION := 18.

(** A configuration or features: configuration_internal.h, features_internal.h *)
Record bobj := mkB { bo_id : Z; bo_ctx : Z; bo_vals : list datum; bo_ud : option (list Z) }.
(** An evaluation about an [E]: evaluation_internal.h, features_evaluation_internal.h,
    tree_evaluation_internal.h *)
Record eobj (E : Type) := mkE { eo_id : Z; eo_ctx : Z; eo_vals : list datum; eo_about : E; eo_result : Z; eo_ud : option (list Z) }.
Arguments mkE {E}. Arguments eo_id {E}. Arguments eo_ctx {E}. Arguments eo_vals {E}. Arguments eo_about {E}.
Arguments eo_result {E}. Arguments eo_ud {E}.
Definition as_binding (b : bobj) : binding := mkBinding (bo_ctx b) (bo_vals b).
Definition eo_binding {E} (e : eobj E) : binding := mkBinding (eo_ctx e) (eo_vals e).

(** ** Comparison and hash *)
Section Cmp.
  (** the configuration or features: ccs_configuration_cmp, ccs_features_cmp are
      [binding_cmp]: configuration.c 65-79 227-246, features.c 66-80 218-236; the comparison of a binding
      with itself answers 0 at once: binding_internal.h 186-189 *)
  Definition bobj_cmp (a b : bobj) : res Z :=
    if bo_id a =? bo_id b then Ok 0 else Ok (binding_cmp (as_binding a) (as_binding b)).
  Definition pair_cmp (a b : bobj * bobj) : res Z :=
    do c <- bobj_cmp (fst a) (fst b);
    if negb (c =? 0) then Ok c else bobj_cmp (snd a) (snd b).
  (** evaluation.c 139-158, features_evaluation.c 153-180, tree_evaluation.c 143-163; the
      public functions call them: evaluation.c 393-410 *)
  Definition eval_cmp {E} (about : E -> E -> res Z) (a b : eobj E) : res Z :=
    if eo_id a =? eo_id b then Ok 0 else
    let c := binding_cmp (eo_binding a) (eo_binding b) in
    if negb (c =? 0) then Ok c else
    let c := if eo_result a <? eo_result b then -1 else if eo_result b <? eo_result a then 1 else 0 in
    if negb (c =? 0) then Ok c else about (eo_about a) (eo_about b).
  (** evaluation.c 126-137, features_evaluation.c 136-151, tree_evaluation.c 127-141 *)
  Variable jen : list Z -> Z.
  Definition bobj_hash (b : bobj) : Z := binding_hash jen (as_binding b).
  Definition eval_hash {E} (about : E -> list Z) (e : eobj E) : Z :=
    let h := fold_left hash_combine (about (eo_about e)) (binding_hash jen (eo_binding e)) in
    hash_combine h (jen (le_bytes 4 (wrap 32 (eo_result e)))).
  Definition conf_hashes (b : bobj) : list Z := [bobj_hash b].
  Definition pair_hashes (p : bobj * bobj) : list Z := [bobj_hash (fst p); bobj_hash (snd p)].
  Definition tree_hashes (c : tconf) : list Z := [conf_hash jen c].
End Cmp.

(** ** Serialisation *)
(** binding_internal.h 211-236 *)
Definition ser_binding (le : bool) (ctx : Z) (vals : list datum) (s : wstate) : res wstate :=
  do s <- ser_object ctx s;
  do s <- ser_size (lenZ vals) s;
  ser_data le vals s.
Definition size_binding (ctx : Z) (vals : list datum) : res Z :=
  do d <- size_data vals;
  Ok (size_object ctx + size_size (lenZ vals) + d).
(** configuration.c 20-72, features.c 20-74: [ty] is the type of the object *)
Definition ser_bobj (le : bool) (ty : Z) (b : bobj) (s : wstate) : res wstate :=
  do s <- ser_object_internal ty (bo_id b) s;
  do s <- ser_binding le (bo_ctx b) (bo_vals b) s;
  ser_user_data (bo_ud b) s.
Definition size_bobj (ty : Z) (b : bobj) : res Z :=
  do d <- size_binding (bo_ctx b) (bo_vals b);
  Ok (size_object_internal ty (bo_id b) + d + size_user_data (bo_ud b)).
Definition ser_pair (le : bool) (p : bobj * bobj) (s : wstate) : res wstate :=
  do s <- ser_bobj le OBJ_CONFIGURATION (fst p) s;
  ser_bobj le OBJ_FEATURES (snd p) s.
Definition size_pair (p : bobj * bobj) : res Z :=
  do a <- size_bobj OBJ_CONFIGURATION (fst p);
  do b <- size_bobj OBJ_FEATURES (snd p);
  Ok (a + b).
(** evaluation.c 24-124, features_evaluation.c 27-134, tree_evaluation.c 22-125 *)
Definition ser_eval {E} (le : bool) (ty : Z) (about : E -> wstate -> res wstate) (e : eobj E) (s : wstate) : res wstate :=
  do s <- ser_object_internal ty (eo_id e) s;
  do s <- ser_binding le (eo_ctx e) (eo_vals e) s;
  do s <- about (eo_about e) s;
  do s <- ser_eval_result (eo_result e) s;
  ser_user_data (eo_ud e) s.
Definition size_eval {E} (ty : Z) (about : E -> res Z) (e : eobj E) : res Z :=
  do d <- size_binding (eo_ctx e) (eo_vals e);
  do a <- about (eo_about e);
  Ok (size_object_internal ty (eo_id e) + d + a + size_eval_result (eo_result e) + size_user_data (eo_ud e)).

Section Read.
  (** whether calloc gives this many bytes *)
  Variable mem : Z -> bool.
  (** binding_internal.h 257-280; the array stays NULL when there are no values *)
  Definition deser_binding (le : bool) (s : rstate) : res ((Z * option (list datum)) * rstate) :=
    do (ctx, s) <- deser_object s;
    do (n, s) <- deser_size s;
    if n =? 0 then Ok ((ctx, None), s) else
    if negb (mem (16 * n)) then Err ERR_OUT_OF_MEMORY else
    do (l, s) <- deser_data le (Z.to_nat n) s;
    Ok ((ctx, Some l), s).
  Variables (heap : Z -> param) (jen : list Z -> Z).
  (** the type and the context of the live spaces *)
  Variable space_at : Z -> option (Z * context).
  (** The object found in the map, of type [sty], and the array of values of a binding over it:
      configuration_deserialize.h 33-50, configuration.c 86-140, evaluation.c 167-225 and the
      likes *)
  Definition found (m : hmap) (h : Z) : res Z :=
    match d_val (hget m h) with VObject space => Ok space | _ => Err ERR_INVALID_HANDLE end.
  Definition create_in (sty space : Z) (l : option (list datum)) : res (list datum) :=
    match space_at space with
    | Some (t, c) => do _ <- refute (negb (t =? sty)) ERR_INVALID_OBJECT; create_binding heap jen c l
    | None => Err ERR_INVALID_OBJECT
    end.
  (** configuration_deserialize.h, features_deserialize.h: [ty] the type of the object, [sty]
      the one of the space *)
  Definition deser_bobj (le : bool) (ty sty : Z) (hm : option hmap) (keep : bool) (id : Z) (s : rstate)
    : res ((bobj * hmap) * rstate) :=
    match hm with
    | None => Err ERR_INVALID_OBJECT
    | Some m =>
        do (o, s) <- deser_object_internal s;
        do _ <- refute (negb (fst o =? ty)) ERR_INVALID_TYPE;
        do (d, s) <- deser_binding le s;
        do space <- found m (fst d);
        do vs <- create_in sty space (snd d);
        do m <- (if keep then handle_check_add m (snd o) id else Ok m);
        do (b, s) <- deser_user_data s;
        Ok ((mkB id space vs (read_ud b), m), s)
    end.
  (** evaluation_deserialize.h, features_evaluation_deserialize.h, tree_evaluation_deserialize.h.
      [about] reads what the evaluation is about, which is not recorded. *)
  Definition deser_eval {E} (le : bool) (ty : Z) (about : hmap -> rstate -> res (E * rstate)) (hm : option hmap) (keep : bool) (id : Z) (s : rstate)
    : res ((eobj E * hmap) * rstate) :=
    match hm with
    | None => Err ERR_INVALID_OBJECT
    | Some m =>
        do (o, s) <- deser_object_internal s;
        do _ <- refute (negb (fst o =? ty)) ERR_INVALID_TYPE;
        do (d, s) <- deser_binding le s;
        do (a, s) <- about m s;
        do (r, s) <- deser_eval_result s;
        do space <- found m (fst d);
        do vs <- create_in OT_OBJECTIVE_SPACE space (snd d);
        do m <- (if keep then handle_check_add m (snd o) id else Ok m);
        do (b, s) <- deser_user_data s;
        Ok ((mkE id space vs a r (read_ud b), m), s)
    end.
  (** the configuration, at address [cid]; the features, at address [fid] *)
  Definition read_conf (le : bool) (cid : Z) (m : hmap) (s : rstate) : res (bobj * rstate) :=
    do (r, s) <- deser_bobj le OBJ_CONFIGURATION OT_CONFIGURATION_SPACE (Some m) false cid s;
    Ok (fst r, s).
  Definition read_pair (le : bool) (cid fid : Z) (m : hmap) (s : rstate) : res ((bobj * bobj) * rstate) :=
    do (c, s) <- read_conf le cid m s;
    do (r, s) <- deser_bobj le OBJ_FEATURES OT_FEATURES_SPACE (Some m) false fid s;
    Ok ((c, fst r), s).
  Definition read_tconf (is_space : Z -> bool) (cid : Z) (m : hmap) (s : rstate) : res (tconf * rstate) :=
    do (r, s) <- deser_conf mem is_space (Some m) false cid s;
    Ok (fst r, s).
End Read.
