(** Contexts (configuration, objective and features spaces seen as lists of
    parameters) and bindings.  [heap h] is the parameter object at address [h];
    parameters are immutable.  Pointers are assumed non-NULL and allocation
    successful. *)
From Coq Require Import ZArith List Bool.
From Verif Require Import Base Datum CodecModel CmpModel ParamModel.
Import ListNotations.
Open Scope Z_scope.

(** struct _ccs_parameter_index_hash_s: src/context_internal.h 25-31.  One wrapper is
    linked in both tables. *)
Record entry : Type := mkEntry { e_param : Z; e_name : list Z; e_index : nat }.
(** struct _ccs_context_data_s: src/context_internal.h 34-39; [c_params] is the array of
    parameters and [c_hash] the wrappers in insertion order *)
Record context : Type := mkContext { c_name : list Z; c_params : list Z; c_hash : list entry }.
Definition new_context (name : list Z) : context := mkContext name [] [].

Fixpoint bytes_eqb (a b : list Z) : bool :=
  match a, b with
  | [], [] => true
  | x :: a', y :: b' => (x =? y) && bytes_eqb a' b'
  | _, _ => false
  end.
(** HASH_FIND on names and on handles: same length and bytes (src/uthash.h 748-767) *)
Definition find_name (c : context) (n : list Z) : option entry :=
  find (fun e => bytes_eqb (e_name e) n) (c_hash c).
Definition find_handle (c : context) (h : Z) : option entry :=
  find (fun e => e_param e =? h) (c_hash c).

(** _ccs_context_get_parameter_index: src/context_internal.h 46-60 *)
Definition get_index (c : context) (h : Z) : res nat :=
  match find_handle c h with Some e => Ok (e_index e) | None => Err ERR_INVALID_PARAMETER end.
(** _ccs_context_get_parameter: 72-86; the index is converted to 32 bits *)
Definition get_parameter (c : context) (i : Z) : res Z :=
  match nth_error (c_params c) (Z.to_nat (wrap 32 i)) with Some h => Ok h | None => Err ERR_OUT_OF_BOUNDS end.
(** _ccs_context_get_parameter_by_name, _index_by_name: 88-120 *)
Definition get_by_name (c : context) (n : list Z) : res Z :=
  match find_name c n with Some e => Ok (e_param e) | None => Err ERR_INVALID_NAME end.
Definition get_index_by_name (c : context) (n : list Z) : res nat :=
  match find_name c n with Some e => Ok (e_index e) | None => Err ERR_INVALID_NAME end.
(** _ccs_context_get_parameters: 122-152.  [arr] is the size of the caller's array
    (None = NULL); handle 0 is NULL. *)
Definition get_parameters (c : context) (arr : option nat) : res (option (list Z) * nat) :=
  let size := length (c_params c) in
  match arr with
  | None => Ok (None, size)
  | Some n =>
      do _ <- refute (n <? size)%nat ERR_INVALID_VALUE;
      Ok (Some (c_params c ++ repeat 0 (n - size)), size)
  end.
(** _ccs_context_get_parameter_indexes: 154-173 *)
Fixpoint get_indexes (c : context) (hs : list Z) : res (list nat) :=
  match hs with
  | [] => Ok []
  | h :: hs' => do i <- get_index c h; do l <- get_indexes c hs'; Ok (i :: l)
  end.

(** add_parameter of the three kinds of space: src/configuration_space.c 429-543,
    src/objective_space.c 278-330, src/features_space.c 151-202.  [dim] is the dimension
    of the distribution given (configuration spaces only; None when the default one is
    asked for).  Reference counts and the distribution list are modelled elsewhere. *)
Inductive space_kind : Type := KConfiguration | KObjective | KFeatures.
Section Heap.
  Variable heap : Z -> param.
  Definition push_parameter (c : context) (h : Z) : context :=
    let i := length (c_params c) in
    mkContext (c_name c) (c_params c ++ [h]) (c_hash c ++ [mkEntry h (p_name (heap h)) i]).
  Definition add_parameter (k : space_kind) (c : context) (h : Z) (dim : option Z) : Z * context :=
    if match k with KConfiguration => p_type (heap h) =? PSTRING | _ => false end
    then (ERR_INVALID_PARAMETER, c)
    else match find_name c (p_name (heap h)) with
         | Some _ => (ERR_INVALID_PARAMETER, c)
         | None =>
             match k, dim with
             | KConfiguration, Some d => if d =? 1 then (CCS_RESULT_SUCCESS, push_parameter c h)
                                         else (ERR_INVALID_DISTRIBUTION, c)
             | _, _ => (CCS_RESULT_SUCCESS, push_parameter c h)
             end
         end.
  (** add_parameters: src/configuration_space.c 715-737, src/objective_space.c 334-346,
      src/features_space.c 206-218; stops at the first failure *)
  Fixpoint add_parameters (k : space_kind) (c : context) (l : list (Z * option Z)) : Z * context :=
    match l with
    | [] => (CCS_RESULT_SUCCESS, c)
    | (h, dim) :: l' => let (r, c1) := add_parameter k c h dim in
                        if r =? CCS_RESULT_SUCCESS then add_parameters k c1 l' else (r, c1)
    end.

  Variable jen : list Z -> Z.
  (** _ccs_context_validate_value: src/context_internal.h 183-201.  A string parameter
      returns its own copy of the string (see ParamModel.string_validate). *)
  Definition ctx_validate (c : context) (i : nat) (v : datum) : Z * datum :=
    match nth_error (c_params c) i with
    | None => (ERR_OUT_OF_BOUNDS, v)
    | Some h =>
        if p_type (heap h) =? PSTRING then
          match d_val v with VString s => (CCS_RESULT_SUCCESS, ccs_string s) | _ => (ERR_INVALID_VALUE, v) end
        else
          let (valid, w) := validate_value jen (heap h) v in
          if valid then (CCS_RESULT_SUCCESS, w) else (ERR_INVALID_VALUE, w)
    end.

  (** _ccs_binding_get_value, _set_value: src/binding_internal.h 38-63 *)
  Definition transient (v : datum) : bool := Z.testbit (d_flags v) 0.
  Definition bget (vals : list datum) (i : nat) : res datum :=
    match nth_error vals i with Some d => Ok d | None => Err ERR_OUT_OF_BOUNDS end.
  Definition store (vals : list datum) (i : nat) (d : datum) : list datum :=
    firstn i vals ++ d :: skipn (S i) vals.
  Definition bset (c : context) (vals : list datum) (i : nat) (v : datum) : Z * list datum :=
    if (length vals <=? i)%nat then (ERR_OUT_OF_BOUNDS, vals)
    else let (r, w) := if transient v then ctx_validate c i v else (CCS_RESULT_SUCCESS, v) in
         if r =? CCS_RESULT_SUCCESS then (CCS_RESULT_SUCCESS, store vals i w) else (r, vals).
  (** _ccs_binding_get_values: 65-87.  [arr] is the caller's array with its previous
      contents; in the padding the flags are left as they were. *)
  Definition bget_values (vals : list datum) (arr : option (list datum)) : res (option (list datum) * nat) :=
    match arr with
    | None => Ok (None, length vals)
    | Some a =>
        do _ <- refute (length a <? length vals)%nat ERR_INVALID_VALUE;
        Ok (Some (vals ++ map (fun d => mkDatum VNone (d_flags d)) (skipn (length vals) a)), length vals)
    end.
  (** _ccs_binding_set_values: 89-108; values before a failing one have been stored *)
  Fixpoint bset_loop (c : context) (vals : list datum) (i : nat) (vs : list datum) : Z * list datum :=
    match vs with
    | [] => (CCS_RESULT_SUCCESS, vals)
    | v :: vs' =>
        let (r, w) := if transient v then ctx_validate c i v else (CCS_RESULT_SUCCESS, v) in
        if r =? CCS_RESULT_SUCCESS then bset_loop c (store vals i w) (S i) vs' else (r, vals)
    end.
  Definition bset_values (c : context) (vals vs : list datum) : Z * list datum :=
    if (length vs =? length vals)%nat then bset_loop c vals 0 vs else (ERR_INVALID_VALUE, vals).
  (** by name and by parameter: 110-162 *)
  Definition bget_name (c : context) (vals : list datum) (n : list Z) : res datum :=
    do i <- get_index_by_name c n; bget vals i.
  Definition bget_param (c : context) (vals : list datum) (h : Z) : res datum :=
    do i <- get_index c h; bget vals i.
  Definition bset_name (c : context) (vals : list datum) (n : list Z) (v : datum) : Z * list datum :=
    match find_name c n with Some e => bset c vals (e_index e) v | None => (ERR_INVALID_NAME, vals) end.
  Definition bset_param (c : context) (vals : list datum) (h : Z) (v : datum) : Z * list datum :=
    match find_handle c h with Some e => bset c vals (e_index e) v | None => (ERR_INVALID_PARAMETER, vals) end.

  (** The calls that change a binding *)
  Inductive bop : Type :=
  | SetIndex (i : nat) (v : datum) | SetName (n : list Z) (v : datum) | SetParam (h : Z) (v : datum)
  | SetValues (vs : list datum).
  Definition bstep (c : context) (vals : list datum) (o : bop) : Z * list datum :=
    match o with
    | SetIndex i v => bset c vals i v
    | SetName n v => bset_name c vals n v
    | SetParam h v => bset_param c vals h v
    | SetValues vs => bset_values c vals vs
    end.
  Fixpoint brun (c : context) (vals : list datum) (os : list bop) : list Z * list datum :=
    match os with
    | [] => ([], vals)
    | o :: os' => let (r, v1) := bstep c vals o in let (rs, v2) := brun c v1 os' in (r :: rs, v2)
    end.
  (** calls that add parameters *)
  Fixpoint add_run (k : space_kind) (c : context) (l : list (Z * option Z)) : list Z * context :=
    match l with
    | [] => ([], c)
    | (h, dim) :: l' => let (r, c1) := add_parameter k c h dim in
                        let (rs, c2) := add_run k c1 l' in (r :: rs, c2)
    end.

  (** ccs_create_configuration, features: src/configuration.c 86-140, src/features.c
      87-140; [vs] the values given, or None (zeroed memory: none) *)
  Definition create_binding (c : context) (vs : option (list datum)) : res (list datum) :=
    let num := length (c_params c) in
    match vs with
    | None => Ok (repeat ccs_none num)
    | Some l =>
        do _ <- refute (negb (num =? length l)%nat) ERR_INVALID_VALUE;
        let (r, vals) := bset_loop c l 0 l in
        if r =? CCS_RESULT_SUCCESS then Ok vals else Err r
    end.
End Heap.
