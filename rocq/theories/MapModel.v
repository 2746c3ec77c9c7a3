(** Maps: dictionaries from datums to datums. *)
From Coq Require Import ZArith List Bool.
From Verif Require Import Base Datum CodecModel CmpModel.
Import ListNotations.
Open Scope Z_scope.

(** struct _ccs_map_data_s: src/map.c 7-18.  The uthash table is the list of its
    entries in insertion order, which is the order of HASH_ITER.  [m_rc] gives the
    reference count of every object (0 = destroyed or never created).
    Simplifications: destroying an object held by a map does not release further
    objects; a string passed without the TRANSIENT flag is assumed to be kept
    alive by the caller; allocation succeeds. *)
Record mstate : Type := mkMap { m_pairs : list (datum * datum); m_rc : Z -> Z }.

Definition upd (f : Z -> Z) (k v : Z) : Z -> Z := fun x => if x =? k then v else f x.

(** ccs_retain_object: src/cconfigspace.c 44-51; reading the count of a destroyed
    object is a use after free.  Returns the code and the new counts. *)
Definition retain (rc : Z -> Z) (h : Z) : res (Z * (Z -> Z)) :=
  if h =? 0 then Ok (ERR_INVALID_OBJECT, rc)
  else if rc h <=? 0 then UB UBBounds
  else Ok (CCS_RESULT_SUCCESS, upd rc h (rc h + 1)).
(** ccs_release_object: src/cconfigspace.c 53-72 *)
Definition release (rc : Z -> Z) (h : Z) : res (Z * (Z -> Z)) :=
  if h =? 0 then Ok (ERR_INVALID_OBJECT, rc)
  else if rc h <=? 0 then UB UBBounds
  else Ok (CCS_RESULT_SUCCESS, upd rc h (rc h - 1)).

(** d.type == CCS_DATA_TYPE_OBJECT && !(d.flags & CCS_DATUM_FLAG_ID): src/map.c 23,
    180, 233, 237 *)
Definition owned (d : datum) : option Z :=
  match d_val d with
  | VObject h => if Z.land (d_flags d) FLAG_ID =? 0 then Some h else None
  | _ => None
  end.

(** _ccs_map_check_object_and_release: src/map.c 20-26; the callers ignore its code *)
Definition release_datum (rc : Z -> Z) (d : datum) : res (Z -> Z) :=
  match owned d with
  | Some h => do (_, rc') <- release rc h; Ok rc'
  | None => Ok rc
  end.

(** _ccs_map_check_datum: src/map.c 172-183 (the sizes only serve the allocation) *)
Definition check_datum (rc : Z -> Z) (d : datum) : res (Z * (Z -> Z)) :=
  match owned d with
  | Some h => retain rc h
  | None => Ok (CCS_RESULT_SUCCESS, rc)
  end.

(** _ccs_map_set_string: src/map.c 185-197; copying the characters does not change
    what the datum denotes *)
Definition set_string (d : datum) : datum :=
  match d_val d with
  | VString s => mkDatum (VString s) FLAG_DEFAULT
  | _ => d
  end.

Section Map.
  Variable jen : list Z -> Z.

  (** HASH_FIND: src/uthash.h 748-767 with the hash and comparison of
      src/datum_uthash.h *)
  Definition key_matches (k : datum) (e : datum * datum) : bool :=
    (hash_datum jen (fst e) =? hash_datum jen k) && (datum_cmp_internal (fst e) k =? 0).
  Definition hash_find (l : list (datum * datum)) (k : datum) : option (datum * datum) :=
    find (key_matches k) l.
  (** HASH_DEL of the entry found *)
  Fixpoint hash_del (l : list (datum * datum)) (k : datum) : list (datum * datum) :=
    match l with
    | [] => []
    | e :: l' => if key_matches k e then l' else e :: hash_del l' k
    end.

  (** _ccs_map_remove: src/map.c 28-35 *)
  Definition map_remove (st : mstate) (k : datum) (e : datum * datum) : res mstate :=
    do rc1 <- release_datum (m_rc st) (fst e);
    do rc2 <- release_datum rc1 (snd e);
    Ok (mkMap (hash_del (m_pairs st) k) rc2).

  (** ccs_map_set: src/map.c 199-242.  Returns the result code and the new state. *)
  Definition map_set (st : mstate) (key value : datum) : res (Z * mstate) :=
    let old := hash_find (m_pairs st) key in
    let same := match old with Some e => datum_cmp_internal value (snd e) =? 0 | None => false end in
    if same then Ok (CCS_RESULT_SUCCESS, st)
    else
      do (c1, rc1) <- check_datum (m_rc st) key;
      if c1 <? 0 then Ok (c1, mkMap (m_pairs st) rc1)
      else
        do (c2, rc2) <- check_datum rc1 value;
        if c2 <? 0 then
          do rc3 <- release_datum rc2 key;
          Ok (c2, mkMap (m_pairs st) rc3)
        else
          let entry := (set_string key, set_string value) in
          do st' <- match old with
                    | Some e => map_remove (mkMap (m_pairs st) rc2) key e
                    | None => Ok (mkMap (m_pairs st) rc2)
                    end;
          Ok (CCS_RESULT_SUCCESS, mkMap (m_pairs st' ++ [entry]) (m_rc st')).

  (** ccs_map_exist: src/map.c 244-253 *)
  Definition map_exist (st : mstate) (key : datum) : bool :=
    match hash_find (m_pairs st) key with Some _ => true | None => false end.

  (** ccs_map_get: src/map.c 255-267 *)
  Definition map_get (st : mstate) (key : datum) : datum :=
    match hash_find (m_pairs st) key with Some e => snd e | None => ccs_none end.

  (** ccs_map_del: src/map.c 269-278 *)
  Definition map_del (st : mstate) (key : datum) : res (Z * mstate) :=
    match hash_find (m_pairs st) key with
    | None => Ok (ERR_INVALID_VALUE, st)
    | Some e => do st' <- map_remove st key e; Ok (CCS_RESULT_SUCCESS, st')
    end.

  (** ccs_map_clear: src/map.c 367-375 (and _ccs_map_del, 37-45) *)
  Fixpoint clear_entries (rc : Z -> Z) (l : list (datum * datum)) : res (Z -> Z) :=
    match l with
    | [] => Ok rc
    | e :: l' =>
        do rc1 <- release_datum rc (fst e);
        do rc2 <- release_datum rc1 (snd e);
        clear_entries rc2 l'
    end.
  Definition map_clear (st : mstate) : res (Z * mstate) :=
    do rc' <- clear_entries (m_rc st) (m_pairs st);
    Ok (CCS_RESULT_SUCCESS, mkMap [] rc').

  (** Filling an array of [n] slots: src/map.c 290-300, 316-326, 344-358.  [None]
      is a NULL array (then [n] = 0).  The result is the array and the count. *)
  Definition fill (l : list datum) (n : Z) : list datum :=
    l ++ repeat ccs_none (Z.to_nat (n - lenZ l)).
  Definition map_list (f : datum * datum -> datum) (st : mstate) (arr : option Z)
    : res (option (list datum) * Z) :=
    let num := lenZ (m_pairs st) in
    match arr with
    | None => Ok (None, num)
    | Some n => if n <? num then Err ERR_INVALID_VALUE
                else Ok (Some (fill (map f (m_pairs st)) n), num)
    end.
  (** ccs_map_get_keys: src/map.c 280-304 -- line 297 copies [current->value] *)
  Definition map_get_keys (st : mstate) (arr : option Z) := map_list snd st arr.
  (** ccs_map_get_values: src/map.c 306-331 *)
  Definition map_get_values (st : mstate) (arr : option Z) := map_list snd st arr.
  (** ccs_map_get_pairs: src/map.c 333-365 (both arrays given, or none) *)
  Definition map_get_pairs (st : mstate) (arr : option Z)
    : res (option (list datum * list datum) * Z) :=
    let num := lenZ (m_pairs st) in
    match arr with
    | None => Ok (None, num)
    | Some n => if n <? num then Err ERR_INVALID_VALUE
                else Ok (Some (fill (map fst (m_pairs st)) n, fill (map snd (m_pairs st)) n), num)
    end.

  (** ccs_create_map: src/map.c 143-157 *)
  Definition map_create (rc : Z -> Z) : mstate := mkMap [] rc.

  (** The mutating calls of the API and a sequence of them, with their codes. *)
  Inductive mop : Type := MSet (k v : datum) | MDel (k : datum) | MClear.
  Definition map_step (st : mstate) (o : mop) : res (Z * mstate) :=
    match o with
    | MSet k v => map_set st k v
    | MDel k => map_del st k
    | MClear => map_clear st
    end.
  Fixpoint map_run (st : mstate) (ops : list mop) : res (list Z * mstate) :=
    match ops with
    | [] => Ok ([], st)
    | o :: ops' =>
        do (c, st1) <- map_step st o;
        do (cs, st2) <- map_run st1 ops';
        Ok (c :: cs, st2)
    end.

  (** Serialisation of the entries: src/map.c 47-81 *)
  Fixpoint ser_pairs (le : bool) (l : list (datum * datum)) (s : wstate) : res wstate :=
    match l with
    | [] => Ok s
    | (k, v) :: l' => do s1 <- ser_datum le k s; do s2 <- ser_datum le v s1; ser_pairs le l' s2
    end.
  Definition ser_map_data (le : bool) (l : list (datum * datum)) (s : wstate) : res wstate :=
    do s1 <- ser_size (lenZ l) s; ser_pairs le l s1.
  Fixpoint size_pairs (l : list (datum * datum)) : res Z :=
    match l with
    | [] => Ok 0
    | (k, v) :: l' => do a <- size_datum k; do b <- size_datum v; do c <- size_pairs l'; Ok (a + b + c)
    end.
  Definition size_map_data (l : list (datum * datum)) : res Z :=
    do c <- size_pairs l; Ok (size_size (lenZ l) + c).
  (** _ccs_deserialize_bin_ccs_map_data: src/map_deserialize.h 18-38 (the loop bound
      is the number read; [n] is that number) *)
  Fixpoint deser_pairs (le : bool) (n : nat) (s : rstate) : res (list (datum * datum) * rstate) :=
    match n with
    | O => Ok ([], s)
    | S n' =>
        do (k, s1) <- deser_datum le s;
        do (v, s2) <- deser_datum le s1;
        do (l, s3) <- deser_pairs le n' s2;
        Ok ((k, v) :: l, s3)
    end.
  (** _ccs_deserialize_bin_map: src/map_deserialize.h 40-90 (without the handle
      map): the entries are set one after the other *)
  Fixpoint set_pairs (st : mstate) (l : list (datum * datum)) : res (Z * mstate) :=
    match l with
    | [] => Ok (CCS_RESULT_SUCCESS, st)
    | (k, v) :: l' =>
        do (c, st1) <- map_set st k v;
        if c <? 0 then Ok (c, st1) else set_pairs st1 l'
    end.
  Definition deser_map (le : bool) (rc : Z -> Z) (s : rstate) : res ((Z * mstate) * rstate) :=
    do (n, s1) <- deser_size s;
    do (l, s2) <- deser_pairs le (Z.to_nat n) s1;
    do r <- set_pairs (map_create rc) l;
    Ok (r, s2).
End Map.
