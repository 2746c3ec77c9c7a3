(** Parameters: numerical, categorical, ordinal, discrete and string.
    Pointers are assumed non-NULL and allocation successful. *)
From Coq Require Import ZArith List Bool.
From Verif Require Import Base Datum CodecModel FloatModel CmpModel IntervalModel MapModel.
Import ListNotations.
Open Scope Z_scope.

(** enum ccs_parameter_type_e: include/cconfigspace/parameter.h 18-45 *)
Definition PNUMERICAL := 0.
Definition PCATEGORICAL := 1.
Definition PORDINAL := 2.
Definition PDISCRETE := 3.
Definition PSTRING := 4.
Definition PTYPE_MAX := 5.

(** struct _ccs_parameter_common_data_s and the data of each kind:
    src/parameter_internal.h 51-56, 104-107, src/parameter_categorical.c 7-14,
    src/parameter_string.c 7-11.  [p_quant] is only meaningful for numerical
    parameters and [p_values] for categorical, ordinal and discrete ones.  The
    interned strings of a string parameter are modelled apart (see
    [string_validate]). *)
Record param : Type := mkParam {
  p_type : Z; p_name : list Z; p_default : datum; p_interval : interval;
  p_quant : Z; p_values : list datum }.

(** ccs_create_numerical_parameter: src/parameter_numerical.c 274-345.  The checks
    are evaluated left to right and stop at the first true one; [upper - lower]
    may overflow. *)
Definition int_out_of_order (lower upper quant def : Z) : res bool :=
  if lower >=? upper then Ok true
  else if quant <? 0 then Ok true
  else if negb ((INT64_MIN <=? upper - lower) && (upper - lower <=? INT64_MAX)) then UB UBOverflow
  else Ok ((quant >? upper - lower) || (def <? lower) || (def >=? upper)).
Definition float_out_of_order (lower upper quant def : Z) : bool :=
  fge lower upper || flt quant 0 || fgt quant (fsub upper lower) || flt def lower || fge def upper.
Definition create_numerical (name : list Z) (t lower upper quant def : Z) : res param :=
  do _ <- refute (negb (t =? NUM_FLOAT) && negb (t =? NUM_INT)) ERR_INVALID_TYPE;
  do bad <- (if t =? NUM_INT then int_out_of_order lower upper quant def else Ok false);
  do _ <- refute bad ERR_INVALID_VALUE;
  do _ <- refute ((t =? NUM_FLOAT) && float_out_of_order lower upper quant def) ERR_INVALID_VALUE;
  Ok (mkParam PNUMERICAL name (if t =? NUM_FLOAT then ccs_float def else ccs_int def)
              (mkInterval t lower upper true false) quant []).

(** ccs_create_string_parameter: src/parameter_string.c 235-262; the memory is
    zeroed, so the default value is none *)
Definition create_string (name : list Z) : param :=
  mkParam PSTRING name ccs_none (mkInterval NUM_INT 0 0 false false) 0 [].

Section Hash.
  Variable jen : list Z -> Z.

  (** HASH_FIND in the table of possible values: src/uthash.h 748-767,
      src/datum_uthash.h; [find_value] returns the index in the array *)
  Definition value_matches (v d : datum) : bool :=
    (hash_datum jen d =? hash_datum jen v) && (datum_cmp_internal d v =? 0).
  Fixpoint find_value (l : list datum) (v : datum) : option nat :=
    match l with
    | [] => None
    | d :: l' => if value_matches v d then Some O
                 else match find_value l' v with Some i => Some (S i) | None => None end
    end.

  (** The insertion loop: src/parameter_categorical.c 348-382.  [acc] are the values
      inserted so far. *)
  Fixpoint insert_values (acc l : list datum) : res (list datum) :=
    match l with
    | [] => Ok acc
    | d :: l' =>
        match find_value acc d with
        | Some _ => Err ERR_INVALID_VALUE
        | None => insert_values (acc ++ [mkDatum (d_val d) FLAG_DEFAULT]) l'
        end
    end.

  (** type checks: src/parameter_categorical.c 297-318 *)
  Definition bad_discrete (d : datum) : bool :=
    negb (type_of (d_val d) =? TYPE_FLOAT) && negb (type_of (d_val d) =? TYPE_INT).
  Definition bad_value (d : datum) : bool :=
    (type_of (d_val d) >? TYPE_STRING) || match d_val d with VString None => true | _ => false end.

  (** _ccs_create_categorical_parameter: src/parameter_categorical.c 278-387 *)
  Definition create_categorical (t : Z) (name : list Z) (vals : list datum) (idx : Z) : res param :=
    let num := lenZ vals in
    do _ <- refute ((num =? 0) || (num <=? idx)) ERR_INVALID_VALUE;
    do _ <- refute (num >? INT64_MAX) ERR_INVALID_VALUE;
    do _ <- refute (if t =? PDISCRETE then existsb bad_discrete vals else existsb bad_value vals)
                   ERR_INVALID_VALUE;
    do pvs <- insert_values [] vals;
    match nth_error pvs (Z.to_nat idx) with
    | Some def => Ok (mkParam t name def (mkInterval NUM_INT 0 num true false) 0 pvs)
    | None => UB UBBounds
    end.

  (** check_values on one value: src/parameter_numerical.c 82-119,
      src/parameter_categorical.c 125-150, src/parameter_string.c 125-175.  The
      result and, for a validation, the value returned. *)
  Definition check_value (p : param) (v : datum) : bool :=
    if p_type p =? PNUMERICAL then
      if i_type (p_interval p) =? NUM_FLOAT then
        match d_val v with VFloat f => interval_include (p_interval p) f | _ => false end
      else
        match d_val v with VInt i => interval_include (p_interval p) i | _ => false end
    else if p_type p =? PSTRING then type_of (d_val v) =? TYPE_STRING
    else match find_value (p_values p) v with Some _ => true | None => false end.
  (** ccs_parameter_validate_value, for parameters other than string ones *)
  Definition validate_value (p : param) (v : datum) : bool * datum :=
    if p_type p =? PNUMERICAL then
      if check_value p v then (true, v) else (false, ccs_inactive)
    else match find_value (p_values p) v with
         | Some i => (true, nth i (p_values p) ccs_inactive)
         | None => (false, ccs_inactive)
         end.
  (** Validation by a string parameter, which interns the strings it has seen:
      src/parameter_string.c 139-173.  [stored] is the table. *)
  Definition string_validate (stored : list datum) (v : datum) : (bool * datum) * list datum :=
    match d_val v with
    | VString s =>
        match find_value stored v with
        | Some i => ((true, nth i stored ccs_inactive), stored)
        | None => ((true, ccs_string s), stored ++ [ccs_string s])
        end
    | _ => ((false, ccs_inactive), stored)
    end.

  (** ccs_parameter_check_values / validate_values: the loops over an array *)
  Definition check_values (p : param) (vs : list datum) : list bool := map (check_value p) vs.
  Definition validate_values (p : param) (vs : list datum) : list (bool * datum) := map (validate_value p) vs.

  (** ccs_ordinal_parameter_compare_values: src/parameter_categorical.c 445-467;
      pointers into one array are ordered like indices *)
  Definition ordinal_compare (p : param) (v1 v2 : datum) : res Z :=
    do _ <- refute (negb (p_type p =? PORDINAL)) ERR_INVALID_PARAMETER;
    match find_value (p_values p) v1, find_value (p_values p) v2 with
    | Some i, Some j => Ok (if (i <? j)%nat then -1 else if (j <? i)%nat then 1 else 0)
    | _, _ => Err ERR_INVALID_VALUE
    end.
End Hash.

(** _ccs_categorical_parameter_get_values: src/parameter_categorical.c 389-415, with
    the kind check of its callers (kind [t]; 431-443, 483-495, 511-523).  [arr] is the
    caller's array (None = NULL) with its previous contents. *)
Definition set_slot (a : list datum) (i : nat) (d : datum) : res (list datum) :=
  if (i <? length a)%nat then Ok (firstn i a ++ d :: skipn (S i) a) else UB UBBounds.
Fixpoint copy_values (vs : list datum) (i : nat) (a : list datum) : res (list datum) :=
  match vs with [] => Ok a | v :: vs' => do a <- set_slot a i v; copy_values vs' (S i) a end.
Fixpoint none_values (k i : nat) (a : list datum) : res (list datum) :=
  match k with O => Ok a | S k' => do a <- set_slot a i ccs_none; none_values k' (S i) a end.
Definition get_possible_values (t : Z) (p : param) (arr : option (list datum)) : res (option (list datum) * Z) :=
  do _ <- refute (negb (p_type p =? t)) ERR_INVALID_PARAMETER;
  let num := length (p_values p) in
  match arr with
  | None => Ok (None, Z.of_nat num)
  | Some a =>
      let size := length a in
      do _ <- refute (size <? num)%nat ERR_INVALID_VALUE;
      do a <- copy_values (p_values p) 0 a;
      do a <- none_values (num - size) size a;       (* for (i = size; i < num; i++) *)
      Ok (Some a, Z.of_nat num)
  end.

(** convert_samples: src/parameter_numerical.c 226-263, src/parameter_categorical.c
    232-257.  A sample is a ccs_numeric_t: an integer, or the pattern of a double. *)
Definition convert_sample (p : param) (over : bool) (v : Z) : res datum :=
  if p_type p =? PNUMERICAL then
    let d := if i_type (p_interval p) =? NUM_FLOAT then ccs_float v else ccs_int v in
    if over then Ok (if interval_include (p_interval p) v then d else ccs_inactive) else Ok d
  else if p_type p =? PSTRING then Err ERR_UNSUPPORTED_OPERATION
  else
    if over then
      Ok (if (v >=? 0) && (v <? lenZ (p_values p)) then nth (Z.to_nat v) (p_values p) ccs_none else ccs_inactive)
    else if (v <? 0) || (lenZ (p_values p) <=? v) then UB UBBounds
    else Ok (nth (Z.to_nat v) (p_values p) ccs_none).

(** *** In-place sampling
    The caller's array of [n] datums (16 bytes each: an 8-byte value, then a 4-byte
    type and 4-byte flags) also receives the raw samples, as 8-byte numbers in its
    second half: src/parameter_numerical.c 134, src/parameter_categorical.c 163.  The
    memory is a list of 2n cells of 8 bytes; cell 2i is the value of datum i and cell
    2i+1 its type and flags.  Reading as a raw sample a cell where something else was
    written is an error. *)
Inductive cell : Type :=
| CRaw (w : Z)             (* a ccs_numeric_t *)
| CVal (v : value)         (* the value of a datum *)
| CTag (t f : Z)           (* type and flags *)
| CJunk.
Definition set_cell (m : list cell) (i : nat) (c : cell) : res (list cell) :=
  if (i <? length m)%nat then Ok (firstn i m ++ c :: skipn (S i) m) else UB UBBounds.
Definition read_raw (m : list cell) (i : nat) : res Z :=
  match nth_error m i with Some (CRaw w) => Ok w | Some _ => UB UBUninit | None => UB UBBounds end.

(** values[f].value.f = vs[i].f and values[f].value.i = vs[i].i *)
Definition num_put (m : list cell) (f : nat) (w : Z) : res (list cell) := set_cell m (2 * f) (CRaw w).
(** values[f] = d->possible_values[vs[i]].d *)
Definition cat_put (pvs : list datum) (m : list cell) (f : nat) (w : Z) : res (list cell) :=
  if (w <? 0) || (lenZ pvs <=? w) then UB UBBounds
  else let d := nth (Z.to_nat w) pvs ccs_none in
       do m <- set_cell m (2 * f) (CVal (d_val d));
       set_cell m (2 * f + 1) (CTag (type_of (d_val d)) (d_flags d)).

Section Samples.
  Variable put : list cell -> nat -> Z -> res (list cell).
  (** [inc]: the test of the oversampling branch (always true in the other one) *)
  Variable inc : Z -> bool.
  (** The first loop: src/parameter_numerical.c 141-158, src/parameter_categorical.c
      169-178.  [k] iterations remain; returns [found]. *)
  Fixpoint first_pass (n k i found : nat) (m : list cell) : res (nat * list cell) :=
    match k with
    | O => Ok (found, m)
    | S k' =>
        do w <- read_raw m (n + i);
        if inc w then do m <- put m found w; first_pass n k' (S i) (S found) m
        else first_pass n k' (S i) found m
    end.
  (** One of the later loops, over another buffer: src/parameter_numerical.c 184-199,
      src/parameter_categorical.c 200-207 *)
  Fixpoint later_pass (n found : nat) (vs : list Z) (m : list cell) : res (nat * list cell) :=
    match vs with
    | [] => Ok (found, m)
    | w :: vs' =>
        if (found <? n)%nat then
          if inc w then do m <- put m found w; later_pass n (S found) vs' m
          else later_pass n found vs' m
        else Ok (found, m)
    end.
  (** [draw k c]: the result of the k-th call to ccs_distribution_samples, for [c]
      numbers *)
  Variable draw : nat -> nat -> res (list Z).
  (** The while loop: src/parameter_numerical.c 161-202, src/parameter_categorical.c
      181-210; size computations are assumed not to wrap *)
  Fixpoint more_rounds (fuel : nat) (coeff round n found : nat) (m : list cell) : res (list cell) :=
    match fuel with
    | O => UB UBFuel
    | S fuel' =>
        if (found <? n)%nat then
          do _ <- refute (32 <? coeff)%nat ERR_SAMPLING_UNSUCCESSFUL;
          do vs <- draw round ((n - found) * coeff)%nat;
          do (found, m) <- later_pass n found vs m;
          more_rounds fuel' (2 * coeff) (S round) n found m
        else Ok m
    end.
End Samples.

(** type and flags of all datums: src/parameter_numerical.c 203-206 *)
Fixpoint set_tags (t : Z) (k i : nat) (m : list cell) : res (list cell) :=
  match k with
  | O => Ok m
  | S k' => do m <- set_cell m (2 * i + 1) (CTag t FLAG_DEFAULT); set_tags t k' (S i) m
  end.

(** The datums found in the array afterwards *)
Definition cells_datum (c1 c2 : cell) : res datum :=
  match c1, c2 with
  | CVal v, CTag t f => if type_of v =? t then Ok (mkDatum v f) else UB UBUninit
  | CRaw w, CTag t f =>
      if t =? TYPE_FLOAT then Ok (mkDatum (VFloat w) f)
      else if t =? TYPE_INT then Ok (mkDatum (VInt w) f) else UB UBUninit
  | _, _ => UB UBUninit
  end.
Fixpoint read_datums (m : list cell) : res (list datum) :=
  match m with
  | [] => Ok []
  | c1 :: c2 :: m' => do d <- cells_datum c1 c2; do l <- read_datums m'; Ok (d :: l)
  | _ => UB UBBounds
  end.

(** ccs_parameter_samples: src/parameter.c 132-152, src/parameter_numerical.c 121-210,
    src/parameter_categorical.c 152-216, src/parameter_string.c 178-193.  [over] is the
    answer of ccs_distribution_check_oversampling and [mem] the previous contents of the
    array of [n] datums. *)
Definition param_samples (p : param) (over : bool) (draw : nat -> nat -> res (list Z)) (n : nat) (mem : list cell)
    : res (list datum) :=
  if (n =? 0)%nat then Ok []
  else if p_type p =? PSTRING then Err ERR_UNSUPPORTED_OPERATION
  else
    do raw <- draw O n;
    let m := firstn n mem ++ map CRaw raw in
    if p_type p =? PNUMERICAL then
      let inc w := negb over || interval_include (p_interval p) w in
      do (found, m) <- first_pass num_put inc n n 0 0 m;
      do m <- more_rounds num_put inc draw 6 2 1 n found m;
      do m <- set_tags (i_type (p_interval p)) n 0 m;
      read_datums m
    else
      let inc w := negb over || ((w >=? 0) && (w <? lenZ (p_values p))) in
      do (found, m) <- first_pass (cat_put (p_values p)) inc n n 0 0 m;
      do m <- more_rounds (cat_put (p_values p)) inc draw 6 2 1 n found m;
      read_datums m.

(** *** Serialisation *)
(** CCS_OBJECT_TYPE_PARAMETER: include/cconfigspace/base.h 250-297 *)
Definition OBJ_RNG := 0.
Definition OBJ_DISTRIBUTION := 1.
Definition OBJ_PARAMETER := 2.
Definition OBJ_EXPRESSION := 3.

(** common data: src/parameter_internal.h 60-101 *)
Definition ser_common (le : bool) (p : param) (s : wstate) : res wstate :=
  do s <- ser_enum (p_type p) s;
  do s <- ser_string (p_name p) s;
  do s <- ser_datum le (p_default p) s;
  ser_interval le (p_interval p) s.
Definition size_common (p : param) : res Z :=
  do d <- size_datum (p_default p);
  Ok (size_enum (p_type p) + size_string (p_name p) + d + size_interval (p_interval p)).
Definition deser_common (le : bool) (s : rstate) : res ((Z * list Z * datum * interval) * rstate) :=
  do (t, s) <- deser_enum s;
  do (nm, s) <- deser_string s;
  do (d, s) <- deser_datum le s;
  do (i, s) <- deser_interval le s;
  Ok ((t, nm, d, i), s).

Fixpoint ser_data (le : bool) (l : list datum) (s : wstate) : res wstate :=
  match l with [] => Ok s | d :: l' => do s <- ser_datum le d s; ser_data le l' s end.
Fixpoint size_data (l : list datum) : res Z :=
  match l with [] => Ok 0 | d :: l' => do a <- size_datum d; do b <- size_data l'; Ok (a + b) end.
Fixpoint deser_data (le : bool) (n : nat) (s : rstate) : res (list datum * rstate) :=
  match n with
  | O => Ok ([], s)
  | S n' => do (d, s) <- deser_datum le s; do (l, s) <- deser_data le n' s; Ok (d :: l, s)
  end.

(** The body of each kind: src/parameter_internal.h 110-165,
    src/parameter_categorical.c 16-44, src/parameter_string.c 13-31, preceded by the
    object type and handle *)
Definition ser_param (le : bool) (handle : Z) (p : param) (s : wstate) : res wstate :=
  do s <- ser_object_internal OBJ_PARAMETER handle s;
  do s <- ser_common le p s;
  if p_type p =? PNUMERICAL then
    if i_type (p_interval p) =? NUM_FLOAT then ser_float le (p_quant p) s else ser_int (p_quant p) s
  else if p_type p =? PSTRING then Ok s
  else do s <- ser_size (lenZ (p_values p)) s; ser_data le (p_values p) s.
Definition size_param (handle : Z) (p : param) : res Z :=
  do c <- size_common p;
  do b <- (if p_type p =? PNUMERICAL then
             Ok (if i_type (p_interval p) =? NUM_FLOAT then size_float (p_quant p) else size_int (p_quant p))
           else if p_type p =? PSTRING then Ok 0
           else do v <- size_data (p_values p); Ok (size_size (lenZ (p_values p)) + v));
  Ok (size_object_internal OBJ_PARAMETER handle + (c + b)).

(** Deserialisation: src/parameter_deserialize.h 6-208, without the handle map.  The
    union read as a double or an integer whatever the type of the default datum; for a
    string that would be the address, taken as 0 here. *)
Definition peek_enum (s : rstate) : res Z := do (t, _) <- deser_enum s; Ok t.
Definition deser_numerical (le : bool) (s : rstate) : res (param * rstate) :=
  do (c, s) <- deser_common le s;
  let '(t, nm, d, i) := c in
  do (q, s) <- (if i_type i =? NUM_FLOAT then deser_float le s else deser_int s);
  do p <- create_numerical nm (i_type i) (i_lower i) (i_upper i) q
            (if i_type i =? NUM_FLOAT then value_word (d_val d) else to_signed 64 (value_word (d_val d)));
  Ok (p, s).
(** last index whose value compares equal to the default: lines 78-86 *)
Fixpoint last_match (def : datum) (l : list datum) (i : Z) (acc : option Z) : option Z :=
  match l with
  | [] => acc
  | d :: l' => last_match def l' (i + 1) (if ccs_datum_cmp def d =? 0 then Some i else acc)
  end.
Definition deser_categorical (jen : list Z -> Z) (le : bool) (s : rstate) : res (param * rstate) :=
  do (c, s) <- deser_common le s;
  let '(t, nm, d, i) := c in
  do (n, s) <- deser_size s;
  do (vs, s) <- deser_data le (Z.to_nat n) s;
  match last_match d vs 0 None with
  | None => Err ERR_INVALID_VALUE
  | Some k =>
      do _ <- refute (negb ((t =? PCATEGORICAL) || (t =? PORDINAL) || (t =? PDISCRETE))) ERR_INVALID_TYPE;
      do p <- create_categorical jen t nm vs k;
      Ok (p, s)
  end.
Definition deser_string_param (le : bool) (s : rstate) : res (param * rstate) :=
  do (c, s) <- deser_common le s;
  let '(t, nm, d, i) := c in
  Ok (create_string nm, s).
Definition deser_param (jen : list Z -> Z) (le : bool) (s : rstate) : res ((Z * param) * rstate) :=
  do (oh, s) <- deser_object_internal s;
  do _ <- refute (negb (fst oh =? OBJ_PARAMETER)) ERR_INVALID_TYPE;
  do t <- peek_enum s;
  do (p, s) <- (if t =? PNUMERICAL then deser_numerical le s
                else if (t =? PCATEGORICAL) || (t =? PORDINAL) || (t =? PDISCRETE) then deser_categorical jen le s
                else if t =? PSTRING then deser_string_param le s
                else Err ERR_INVALID_TYPE);
  Ok ((snd oh, p), s).
