(** Numeric intervals.  Pointers are assumed non-NULL. *)
From Coq Require Import ZArith List Bool.
From Verif Require Import Base Datum CodecModel FloatModel.
Open Scope Z_scope.

(** _ccs_interval_include: src/cconfigspace_internal.h 8-26 (ccs_interval_include,
    src/interval.c 172-178) *)
Definition interval_include (i : interval) (v : Z) : bool :=
  if i_type i =? NUM_FLOAT then
    (if i_linc i then fle (i_lower i) v else flt (i_lower i) v) &&
    (if i_uinc i then fge (i_upper i) v else fgt (i_upper i) v)
  else
    (if i_linc i then i_lower i <=? v else i_lower i <? v) &&
    (if i_uinc i then i_upper i >=? v else i_upper i >? v).

(** ccs_interval_empty: src/interval.c 3-27 *)
Definition interval_empty (i : interval) : bool :=
  if i_type i =? NUM_INT then
    if (if i_uinc i && i_linc i then i_lower i >? i_upper i else i_lower i >=? i_upper i)
    then true else false
  else
    if (if i_uinc i && i_linc i then fgt (i_lower i) (i_upper i) else fge (i_lower i) (i_upper i))
    then true else false.

(** MERGE_MAX, MERGE_MIN: src/interval.c 28-62; [gt] is the C [>] of the type *)
Definition merge_max (gt : Z -> Z -> bool) (l1 : Z) (li1 : bool) (l2 : Z) (li2 : bool) : Z * bool :=
  if gt l1 l2 then (l1, li1)
  else if gt l2 l1 then (l2, li2)
  else if li1 then (l2, li2) else (l1, li1).
Definition merge_min (lt : Z -> Z -> bool) (l1 : Z) (li1 : bool) (l2 : Z) (li2 : bool) : Z * bool :=
  if lt l1 l2 then (l1, li1)
  else if lt l2 l1 then (l2, li2)
  else if li1 then (l2, li2) else (l1, li1).

(** ccs_interval_intersect: src/interval.c 64-101 *)
Definition interval_intersect (a b : interval) : res interval :=
  do _ <- refute (negb (i_type a =? i_type b)) ERR_INVALID_TYPE;
  if i_type a =? NUM_FLOAT then
    let (l, li) := merge_max fgt (i_lower a) (i_linc a) (i_lower b) (i_linc b) in
    let (u, ui) := merge_min flt (i_upper a) (i_uinc a) (i_upper b) (i_uinc b) in
    Ok (mkInterval NUM_FLOAT l u li ui)
  else
    let (l, li) := merge_max Z.gtb (i_lower a) (i_linc a) (i_lower b) (i_linc b) in
    let (u, ui) := merge_min Z.ltb (i_upper a) (i_uinc a) (i_upper b) (i_uinc b) in
    Ok (mkInterval NUM_INT l u li ui).

(** ccs_interval_union: src/interval.c 103-140 *)
Definition interval_union (a b : interval) : res interval :=
  do _ <- refute (negb (i_type a =? i_type b)) ERR_INVALID_TYPE;
  if i_type a =? NUM_FLOAT then
    let (l, li) := merge_min flt (i_lower a) (i_linc a) (i_lower b) (i_linc b) in
    let (u, ui) := merge_max fgt (i_upper a) (i_uinc a) (i_upper b) (i_uinc b) in
    Ok (mkInterval NUM_FLOAT l u li ui)
  else
    let (l, li) := merge_min Z.ltb (i_lower a) (i_linc a) (i_lower b) (i_linc b) in
    let (u, ui) := merge_max Z.gtb (i_upper a) (i_uinc a) (i_upper b) (i_uinc b) in
    Ok (mkInterval NUM_INT l u li ui).

(** signed 64-bit addition and subtraction *)
Definition chk64 (x : Z) : res Z :=
  if (INT64_MIN <=? x) && (x <=? INT64_MAX) then Ok x else UB UBOverflow.

(** ccs_interval_equal: src/interval.c 142-170 *)
Definition interval_equal (a b : interval) : res bool :=
  do _ <- refute (negb (i_type a =? i_type b)) ERR_INVALID_TYPE;
  if i_type a =? NUM_FLOAT then
    Ok (feq (i_lower a) (i_lower b) && feq (i_upper a) (i_upper b) &&
        Bool.eqb (i_linc a) (i_linc b) && Bool.eqb (i_uinc a) (i_uinc b))
  else
    do l1 <- (if i_linc a then Ok (i_lower a) else chk64 (i_lower a + 1));
    do u1 <- (if i_uinc a then Ok (i_upper a) else chk64 (i_upper a - 1));
    do l2 <- (if i_linc b then Ok (i_lower b) else chk64 (i_lower b + 1));
    do u2 <- (if i_uinc b then Ok (i_upper b) else chk64 (i_upper b - 1));
    Ok ((l1 =? l2) && (u1 =? u2)).
