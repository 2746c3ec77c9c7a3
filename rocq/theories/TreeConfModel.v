(** Tree configurations: src/tree_configuration.c, src/tree_configuration_deserialize.h.

    Objects are addresses. The handle map of the options gives the value stored under the key
    ccs_object(handle), if any (src/map.c 243-267; keys are compared without their flags).
    Reference counts (LifeModel has them) and failing allocations of ccs_create_tree_configuration
    are not modelled; the buffer of the deserialiser is, with its size in bytes. *)
From Coq Require Import ZArith List Bool.
From Verif Require Import Base Datum CodecModel CmpModel TreeModel RngModel TreeSpaceModel.
Import ListNotations.
Open Scope Z_scope.

Definition OBJ_TREE_CONFIGURATION := 17.

(** tree_configuration_internal.h; [tc_pos] are size_t *)
Record tconf := mkConf { tc_id : Z; tc_space : Z; tc_pos : list Z; tc_ud : option (list Z) }.

(** tree_configuration.c 116-152: [is_space] tells the live tree spaces. An array of no
    cells may be NULL. *)
Definition create_conf (is_space : Z -> bool) (id space : Z) (size : Z) (position : option (list Z)) : res tconf :=
  do _ <- refute (negb (is_space space)) ERR_INVALID_OBJECT;
  do _ <- refute ((0 <? size) && match position with None => true | Some _ => false end) ERR_INVALID_VALUE;
  match position with
  | None => Ok (mkConf id space [] None)
  | Some l => if (length l <? Z.to_nat size)%nat then UB UBBounds else Ok (mkConf id space (firstn (Z.to_nat size) l) None)
  end.

(** 166-191 [ccs_tree_configuration_get_position]: the array of the caller, its declared
    size, and whether the size is wanted. Gives the contents of the array and the size. *)
Definition conf_position (c : tconf) (size : Z) (array : option (list Z)) (wanted : bool) : res (option (list Z) * option Z) :=
  do _ <- refute ((0 <? size) && match array with None => true | Some _ => false end) ERR_INVALID_VALUE;
  do _ <- refute (match array with None => negb wanted | Some _ => false end) ERR_INVALID_VALUE;
  let n := lenZ (tc_pos c) in
  do a <- match array with
          | None => Ok None
          | Some old =>
              if size <? n then Err ERR_INVALID_VALUE else
              if lenZ old <? n then UB UBBounds else
              Ok (Some (tc_pos c ++ skipn (length (tc_pos c)) old))
          end;
  Ok (a, if wanted then Some n else None).

Section Space.
  Variable S : Type.
  Notation steps c := (map Z.to_nat (tc_pos c)).
  (** 193-212. [sp] is the space of the configuration; [size] is None when the array is NULL. *)
  Definition conf_values (h : heap) (sp : tspace S) (c : tconf) (size : option nat) (wanted : bool)
    : res (option (list datum) * option Z) * (heap * tspace S) :=
    let num := if wanted then Some (lenZ (tc_pos c) + 1) else None in
    match size with
    | None => (if wanted then Ok (None, num) else Err ERR_INVALID_VALUE, (h, sp))
    | Some k =>
        match space_values S h sp (steps c) k with
        | (Ok vs, w) => (Ok (Some vs, num), w)
        | (Err e, w) => (Err e, w)
        | (UB u, w) => (UB u, w)
        end
    end.
  (** 214-225 *)
  Definition conf_node (h : heap) (sp : tspace S) (c : tconf) : res nat * (heap * tspace S) :=
    space_node S h sp (steps c).
  (** 227-239 *)
  Definition conf_check (h : heap) (sp : tspace S) (c : tconf) : res bool * (heap * tspace S) :=
    space_check S h sp (steps c).
End Space.

(** 241 CCS_CMP, 243-279 [ccs_tree_configuration_cmp] *)
Definition ccs_cmp (a b : Z) : Z := if a <? b then -1 else if b <? a then 1 else 0.
Fixpoint cmp_positions (a b : list Z) : res Z :=
  match a, b with
  | [], _ => Ok 0
  | x :: a, y :: b => let c := ccs_cmp x y in if c =? 0 then cmp_positions a b else Ok c
  | _ :: _, [] => UB UBBounds
  end.
Definition conf_cmp (a b : tconf) : res Z :=
  if tc_id a =? tc_id b then Ok 0 else
  let c := ccs_cmp (tc_space a) (tc_space b) in
  if negb (c =? 0) then Ok c else
  let c := ccs_cmp (lenZ (tc_pos a)) (lenZ (tc_pos b)) in
  if negb (c =? 0) then Ok c else
  cmp_positions (tc_pos a) (tc_pos b).

(** 281-303 *)
Section Hash.
  Variable jen : list Z -> Z.
  Fixpoint hash_positions (h : Z) (l : list Z) : Z :=
    match l with
    | [] => h
    | x :: l => hash_positions (hash_combine h (jen (le_bytes 8 x))) l
    end.
  Definition conf_hash (c : tconf) : Z :=
    let h := jen (le_bytes 8 (tc_space c)) in
    let h := hash_combine h (jen (le_bytes 8 (lenZ (tc_pos c)))) in
    hash_positions h (tc_pos c).
End Hash.

(** ** Serialisation: 14-110 *)
Fixpoint ser_positions (l : list Z) (s : wstate) : res wstate :=
  match l with
  | [] => Ok s
  | x :: l => do s <- ser_size x s; ser_positions l s
  end.
Fixpoint size_positions (l : list Z) : Z :=
  match l with [] => 0 | x :: l => size_size x + size_positions l end.
Definition ser_conf (c : tconf) (s : wstate) : res wstate :=
  do s <- ser_object_internal OBJ_TREE_CONFIGURATION (tc_id c) s;
  do s <- ser_object (tc_space c) s;
  do s <- ser_size (lenZ (tc_pos c)) s;
  do s <- ser_positions (tc_pos c) s;
  ser_user_data (tc_ud c) s.
Definition size_conf (c : tconf) : Z :=
  size_object_internal OBJ_TREE_CONFIGURATION (tc_id c) +
  (size_object (tc_space c) + size_size (lenZ (tc_pos c)) + size_positions (tc_pos c)) + size_user_data (tc_ud c).

(** tree_configuration_deserialize.h 6-27. The buffer holds [room] bytes; cell [i] is written
    after its number is read. [fuel] is more than the bytes left, each number takes one. *)
Fixpoint deser_positions (fuel : nat) (room i n : Z) (s : rstate) : res (list Z * rstate) :=
  match fuel with
  | O => UB UBFuel
  | S fuel =>
      if i =? n then Ok ([], s) else
      do (x, s) <- deser_size s;
      if room <? 8 * (i + 1) then UB UBBounds else
      do (l, s) <- deser_positions fuel room (i + 1) n s;
      Ok (x :: l, s)
  end.
Section Read.
  (** whether malloc gives this many bytes *)
  Variable mem : Z -> bool.
  Definition deser_conf_data (s : rstate) : res ((Z * Z * option (list Z)) * rstate) :=
    do (sp, s) <- deser_object s;
    do (n, s) <- deser_size s;
    if n =? 0 then Ok ((sp, n, None), s) else
    let room := wrap 64 (n * 8) in
    if negb (mem room) then Err ERR_OUT_OF_MEMORY else
    do (l, s) <- deser_positions (S (length (r_mem s))) room 0 n s;
    Ok ((sp, n, Some l), s).
  (** 29-112. [hm] is the handle map, [None] when there is none. [map_values] asks to record
      the new object, which is at address [id]. *)
  Definition hmap := Z -> option datum.
  Definition hset (m : hmap) (k : Z) (d : datum) : hmap := fun x => if x =? k then Some d else m x.
  Definition hget (m : hmap) (k : Z) : datum := match m k with Some d => d | None => ccs_none end.
  (** cconfigspace_internal.h 1053-1066 *)
  Definition handle_check_add (m : hmap) (k id : Z) : res hmap :=
    match m k with Some _ => Err ERR_DUPLICATE_HANDLE | None => Ok (hset m k (ccs_object id)) end.
  Definition deser_conf (is_space : Z -> bool) (hm : option hmap) (map_values : bool) (id : Z) (s : rstate)
    : res ((tconf * hmap) * rstate) :=
    match hm with
    | None => Err ERR_INVALID_OBJECT
    | Some m =>
        do (o, s) <- deser_object_internal s;
        do _ <- refute (negb (fst o =? OBJ_TREE_CONFIGURATION)) ERR_INVALID_TYPE;
        do (d, s) <- deser_conf_data s;
        match d with (sp, n, l) =>
          match d_val (hget m sp) with
          | VObject space =>
              do c <- create_conf is_space id space n l;
              do m <- (if map_values then handle_check_add m (snd o) id else Ok m);
              do (b, s) <- deser_user_data s;
              Ok ((mkConf id (tc_space c) (tc_pos c) (read_ud b), m), s)
          | _ => Err ERR_INVALID_HANDLE
          end
        end
    end.
End Read.
