(** Doubles ([ccs_float_t], include/cconfigspace/base.h) are 64-bit patterns.
    Arithmetic and comparisons are those of binary64 as specified by the
    standard library (Coq.Floats.SpecFloat, round to nearest even).
    Simplification: NaNs produced by arithmetic have one fixed pattern. *)
From Coq Require Import ZArith Bool Floats.SpecFloat.
From Verif Require Import Base.
Open Scope Z_scope.

Definition f_sign (b : Z) : bool := 2 ^ 63 <=? b.
Definition f_mag (b : Z) : Z := b mod 2 ^ 63.
Definition f_exp (b : Z) : Z := f_mag b / 2 ^ 52.
Definition f_man (b : Z) : Z := f_mag b mod 2 ^ 52.

Definition decode (b : Z) : spec_float :=
  let s := f_sign b in
  let e := f_exp b in
  let m := f_man b in
  if e =? 2047 then (if m =? 0 then S754_infinity s else S754_nan)
  else if e =? 0 then
    match m with Zpos p => S754_finite s p (-1074) | _ => S754_zero s end
  else
    match m + 2 ^ 52 with Zpos p => S754_finite s p (e - 1075) | _ => S754_nan end.

Definition NAN_BITS := 0x7ff8000000000000.
Definition sgn_bit (s : bool) : Z := if s then 2 ^ 63 else 0.
Definition encode (f : spec_float) : Z :=
  match f with
  | S754_zero s => sgn_bit s
  | S754_infinity s => sgn_bit s + 2047 * 2 ^ 52
  | S754_nan => NAN_BITS
  | S754_finite s m e =>
      if Zpos m <? 2 ^ 52 then sgn_bit s + Zpos m
      else sgn_bit s + (e + 1075) * 2 ^ 52 + (Zpos m - 2 ^ 52)
  end.

Definition PREC := 53.
Definition EMAX := 1024.
Definition fadd a b := encode (SFadd PREC EMAX (decode a) (decode b)).
Definition fsub a b := encode (SFsub PREC EMAX (decode a) (decode b)).
Definition fmul a b := encode (SFmul PREC EMAX (decode a) (decode b)).
Definition fdiv a b := encode (SFdiv PREC EMAX (decode a) (decode b)).
Definition fopp a := encode (SFopp (decode a)).
(** conversion of an integer to double *)
Definition f_of_int (i : Z) : Z := encode (binary_normalize PREC EMAX i 0 false).

Definition flt a b := SFltb (decode a) (decode b).
Definition fle a b := SFleb (decode a) (decode b).
Definition fgt a b := flt b a.
Definition fge a b := fle b a.
Definition feq a b := SFeqb (decode a) (decode b).
Definition is_nan a := match decode a with S754_nan => true | _ => false end.

(** floor, as an integer when finite: C [floor] *)
Definition sf_floor (f : spec_float) : spec_float :=
  match f with
  | S754_finite s m e =>
      if 0 <=? e then f
      else let q := (if s then - Zpos m else Zpos m) / 2 ^ (- e) in
           binary_normalize PREC EMAX q 0 s
  | _ => f
  end.
Definition ffloor a := encode (sf_floor (decode a)).

(** conversion of a double to a 64-bit signed integer (truncation); out of
    range is undefined behaviour: C11 6.3.1.4 *)
Definition sf_trunc (f : spec_float) : option Z :=
  match f with
  | S754_zero _ => Some 0
  | S754_finite s m e =>
      let a := if 0 <=? e then Zpos m * 2 ^ e else Zpos m / 2 ^ (- e) in
      Some (if s then - a else a)
  | _ => None
  end.
Definition int_of_f (a : Z) : res Z :=
  match sf_trunc (decode a) with
  | Some z => if (INT64_MIN <=? z) && (z <=? INT64_MAX) then Ok z else UB UBConvert
  | None => UB UBConvert
  end.

(** C [fmod]: exact remainder with the sign of the dividend *)
Definition sf_fmod (x y : spec_float) : spec_float :=
  match x, y with
  | S754_nan, _ | _, S754_nan => S754_nan
  | S754_infinity _, _ => S754_nan
  | _, S754_zero _ => S754_nan
  | S754_zero s, _ => S754_zero s
  | _, S754_infinity _ => x
  | S754_finite sx mx ex, S754_finite _ my ey =>
      let e := Z.min ex ey in
      let r := (Zpos mx * 2 ^ (ex - e)) mod (Zpos my * 2 ^ (ey - e)) in
      binary_normalize PREC EMAX (if sx then - r else r) e sx
  end.
Definition ffmod a b := encode (sf_fmod (decode a) (decode b)).
