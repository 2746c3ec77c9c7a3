(** Tree spaces: src/tree_space.c, src/tree_space_static.c, src/tree_space_dynamic.c,
    src/tree_space_internal.h, src/tree_space_deserialize.h.

    The application's data behind tree_space_data is a value of type [S]. Its callbacks are
    functions of that data and of the nodes; [tv_child] is get_child, whose answer may be an
    error, no node, or a node, and which may create nodes and change the data in all cases.
    [tv_save] is serialize_user_state, [tv_load] deserialize_state, both optional. The
    callback del is not modelled here, nor reference counts (LifeModel has them), nor failing
    allocations. *)
From Coq Require Import ZArith List Bool.
From Verif Require Import Base Datum CodecModel FloatModel ParamModel TreeModel RngModel.
Import ListNotations.
Open Scope Z_scope.

Definition OBJ_TREE_SPACE := 16.
Definition SPACE_STATIC := 0.
Definition SPACE_DYNAMIC := 1.

Section Space.
  Variable S : Type.
  (** include/cconfigspace/tree_space.h 61-106 *)
  Record tvector := mkVector {
    tv_child : heap * S -> nat -> nat -> res (option nat) * (heap * S);
    tv_save : option (S -> list Z);
    tv_load : option (S -> list Z -> res S) }.
  Inductive kind := KStatic | KDynamic (v : tvector) (st : S).
  (** tree_space_internal.h 46-52, tree_space_dynamic.c 5-9. [ts_tree] is the root node. *)
  Record tspace := mkSpace {
    ts_id : Z; ts_name : list Z; ts_rng : rng; ts_tree : nat; ts_kind : kind; ts_ud : option (list Z) }.

  (** ** Construction. tree_space_static.c 167-211, tree_space_dynamic.c 244-294: the
      generator is one of the default type ([dflt]), at address [gid]. The callbacks del and
      get_child are always there. *)
  Variable types : list gtype.
  Variable dflt : nat.
  Definition create_static (id gid : Z) (name : list Z) (h : heap) (tree : nat) : res tspace :=
    do _ <- read h tree;
    do g <- create_rng_with_type types gid dflt;
    Ok (mkSpace id name g tree KStatic None).
  Definition create_dynamic (id gid : Z) (name : list Z) (h : heap) (tree : nat) (v : option tvector) (st : S) : res tspace :=
    do _ <- read h tree;
    match v with
    | None => Err ERR_INVALID_VALUE
    | Some v =>
        do g <- create_rng_with_type types gid dflt;
        Ok (mkSpace id name g tree (KDynamic v st) None)
    end.
  (** tree_space.c 33-45 [ccs_tree_space_set_rng] *)
  Definition set_rng (sp : tspace) (g : rng) : tspace :=
    mkSpace (ts_id sp) (ts_name sp) g (ts_tree sp) (ts_kind sp) (ts_ud sp).
  Definition with_state (sp : tspace) (v : tvector) (st : S) : tspace :=
    mkSpace (ts_id sp) (ts_name sp) (ts_rng sp) (ts_tree sp) (KDynamic v st) (ts_ud sp).
  Definition space_with_ud (sp : tspace) (ud : option (list Z)) : tspace :=
    mkSpace (ts_id sp) (ts_name sp) (ts_rng sp) (ts_tree sp) (ts_kind sp) ud.

  (** ** Positions in a dynamic space *)
  Section Dynamic.
    Variable v : tvector.
    (** tree_space_dynamic.c 141-160 [_ccs_tree_space_tree_get_child] *)
    Definition dyn_child (w : heap * S) (t i : nat) : res nat * (heap * S) :=
      match get_child (fst w) t i with
      | Ok (Some c) => (Ok c, w)
      | Ok None =>
          match tv_child v w t i with
          | (Ok (Some c), w) =>
              match set_child (fst w) t i c with
              | Ok h => (Ok c, (h, snd w))
              | Err e => (Err e, w)
              | UB u => (UB u, w)
              end
          | (Ok None, w) => (Err ERR_INVALID_OBJECT, w)
          | (Err e, w) => (Err e, w)
          | (UB u, w) => (UB u, w)
          end
      | Err e => (Err e, w)
      | UB u => (UB u, w)
      end.
    (** 162-180 *)
    Fixpoint dyn_node (w : heap * S) (t : nat) (l : list nat) : res nat * (heap * S) :=
      match l with
      | [] => (Ok t, w)
      | i :: l =>
          match dyn_child w t i with
          | (Ok c, w) => dyn_node w c l
          | (Err e, w) => (Err e, w)
          | (UB u, w) => (UB u, w)
          end
      end.
    (** 182-210, into an array of [size] cells *)
    Fixpoint dyn_values_loop (w : heap * S) (t : nat) (l : list nat) : res (list datum) * (heap * S) :=
      match l with
      | [] => (Ok [], w)
      | i :: l =>
          match dyn_child w t i with
          | (Ok c, w) =>
              match read (fst w) c with
              | Ok n => match dyn_values_loop w c l with
                        | (Ok vs, w) => (Ok (n_value n :: vs), w)
                        | (Err e, w) => (Err e, w)
                        | (UB u, w) => (UB u, w)
                        end
              | Err e => (Err e, w)
              | UB u => (UB u, w)
              end
          | (Err e, w) => (Err e, w)
          | (UB u, w) => (UB u, w)
          end
      end.
    Definition dyn_values (w : heap * S) (t : nat) (l : list nat) (size : nat) : res (list datum) * (heap * S) :=
      if (size <? length l + 1)%nat then (Err ERR_INVALID_VALUE, w) else
      match read (fst w) t with
      | Ok n => match dyn_values_loop w t l with
                | (Ok vs, w) => (fill ccs_none size (n_value n :: vs), w)
                | (Err e, w) => (Err e, w)
                | (UB u, w) => (UB u, w)
                end
      | Err e => (Err e, w)
      | UB u => (UB u, w)
      end.
    (** 212-241 *)
    Fixpoint dyn_check (w : heap * S) (t : nat) (l : list nat) : res bool * (heap * S) :=
      match l with
      | [] => (Ok true, w)
      | i :: l =>
          match read (fst w) t with
          | Ok n =>
              if (n_arity n <=? i)%nat then (Ok false, w) else
              match dyn_child w t i with
              | (Ok c, w) => dyn_check w c l
              | (Err e, w) => (Err e, w)
              | (UB u, w) => (UB u, w)
              end
          | Err e => (Err e, w)
          | UB u => (UB u, w)
          end
      end.
  End Dynamic.

  (** ** The operations of both kinds, tree_space.c 62-110, tree_space_static.c 112-157. The
      answer, the nodes and the space afterwards. *)
  Definition lift {A : Type} (h : heap) (sp : tspace) (stat : heap -> nat -> res A)
      (dyn : tvector -> heap * S -> nat -> res A * (heap * S)) : res A * (heap * tspace) :=
    match ts_kind sp with
    | KStatic => (stat h (ts_tree sp), (h, sp))
    | KDynamic v st => match dyn v (h, st) (ts_tree sp) with (r, (h', st')) => (r, (h', with_state sp v st')) end
    end.
  Definition space_node (h : heap) (sp : tspace) (l : list nat) :=
    lift h sp (fun h t => get_node_at_position h t l) (fun v w t => dyn_node v w t l).
  Definition space_values (h : heap) (sp : tspace) (l : list nat) (size : nat) :=
    lift h sp (fun h t => get_values_at_position h t l size) (fun v w t => dyn_values v w t l size).
  Definition space_check (h : heap) (sp : tspace) (l : list nat) :=
    lift h sp (fun h t => position_is_valid h t l) (fun v w t => dyn_check v w t l).

  (** ** Serialisation. tree_space_internal.h 55-89, tree_space_static.c 22-110,
      tree_space_dynamic.c 25-139. [serialize_user_state] announces as many bytes as it
      writes. *)
  Variable le : bool.
  Definition saved (k : kind) : list Z :=
    match k with
    | KDynamic v st => match tv_save v with Some f => f st | None => [] end
    | KStatic => []
    end.
  Definition space_type (k : kind) : Z := match k with KStatic => SPACE_STATIC | KDynamic _ _ => SPACE_DYNAMIC end.
  Definition ser_state (k : kind) (s : wstate) : res wstate :=
    match k with
    | KStatic => Ok s
    | KDynamic _ _ =>
        let b := saved k in
        do s <- ser_size (lenZ b) s;
        if lenZ b =? 0 then Ok s else
        if w_size s <? lenZ b then Err ERR_NOT_ENOUGH_DATA else
        do s <- put_all b s;
        Ok (w_sub (lenZ b) s)
    end.
  Definition size_state (k : kind) : Z :=
    match k with
    | KStatic => 0
    | KDynamic _ _ => size_size (lenZ (saved k)) + lenZ (saved k)
    end.
  Definition ser_space (h : heap) (sp : tspace) (s : wstate) : res wstate :=
    do s <- ser_object_internal OBJ_TREE_SPACE (ts_id sp) s;
    do s <- ser_enum (space_type (ts_kind sp)) s;
    do s <- ser_string (ts_name sp) s;
    do s <- ser_rng le types (ts_rng sp) s;
    do s <- ser_tree le (Datatypes.S (length h)) h (ts_tree sp) s;
    do s <- ser_state (ts_kind sp) s;
    ser_user_data (ts_ud sp) s.
  Definition size_space (h : heap) (sp : tspace) : res Z :=
    do g <- size_rng le types (ts_rng sp);
    do t <- size_tree (Datatypes.S (length h)) h (ts_tree sp);
    Ok (size_object_internal OBJ_TREE_SPACE (ts_id sp) + size_enum (space_type (ts_kind sp)) + size_string (ts_name sp) +
        g + t + size_state (ts_kind sp) + size_user_data (ts_ud sp)).

  (** tree_space_deserialize.h 8-30. *)
  Definition deser_space_data (h : heap) (s : rstate) : res ((Z * list Z * rng * nat * heap) * rstate) :=
    do (ty, s) <- deser_enum s;
    do (name, s) <- deser_string s;
    do (g, s) <- deser_rng le types s;
    do (th, s) <- deserialize_tree le h s;
    Ok ((ty, name, g, fst th, snd th), s).
  (** 8-177. [v] and [st] are the vector and the data of the options; [gid] is the address of
      the generator that the constructor makes. The space is named after the handle read;
      registering the handle (145-152) is not modelled. Lines 91-96 give the state callback
      the bytes of [data.blob], which nothing fills. *)
  Definition deser_space (gid : Z) (v : option tvector) (st : S) (h : heap) (s : rstate) : res ((tspace * heap) * rstate) :=
    do (o, s) <- deser_object_internal s;
    do _ <- refute (negb (fst o =? OBJ_TREE_SPACE)) ERR_INVALID_TYPE;
    do ty <- peek_enum s;
    do (x, s) <-
      (if ty =? SPACE_STATIC then
         do (c, s) <- deser_space_data h s;
         match c with (_, name, _, t, h) =>
           do sp <- create_static (snd o) gid name h t;
           Ok ((sp, h), s)
         end
       else if ty =? SPACE_DYNAMIC then
         do (c, s) <- deser_space_data h s;
         match c with (_, name, g, t, h) =>
           do sp <- create_dynamic (snd o) gid name h t v st;
           let sp := set_rng sp g in
           match v with
           | None => Err ERR_INVALID_VALUE
           | Some v =>
               match tv_load v with
               | None => Ok ((sp, h), s)
               | Some f => do st <- f st []; Ok ((with_state sp v st, h), s)
               end
           end
         end
       else Err ERR_UNSUPPORTED_OPERATION);
    do (b, s) <- deser_user_data s;
    Ok ((space_with_ud (fst x) (read_ud b), snd x), s).
End Space.
