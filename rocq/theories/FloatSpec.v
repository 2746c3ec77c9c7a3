(** Order of doubles, described on their bit patterns: sign and magnitude
    integers, patterns above infinity being NaN. *)
From Coq Require Import ZArith Bool.
From Verif Require Import Base FloatModel.
Open Scope Z_scope.

(** Numbers are ordered like this integer; NaN has none. *)
Definition fkey (b : Z) : option Z :=
  if 2047 * 2 ^ 52 <? f_mag b then None
  else Some (if f_sign b then - f_mag b else f_mag b).

Definition klt (x y : option Z) := match x, y with Some a, Some b => a < b | _, _ => False end.
Definition kle (x y : option Z) := match x, y with Some a, Some b => a <= b | _, _ => False end.
Definition keq (x y : option Z) := match x, y with Some a, Some b => a = b | _, _ => False end.

(** ** Magnitudes *)
Definition INF_MAG := 2047 * 2 ^ 52.
(** magnitude pattern as a multiple of 2^-1074 *)
Definition mag (m : Z) : Z :=
  if m <? 2 ^ 52 then m else (m mod 2 ^ 52 + 2 ^ 52) * 2 ^ (m / 2 ^ 52 - 1).
(** [p]/[q] rounds to the magnitude [m]: it lies between the midpoints with the neighbours
    of [m], and on one of them only if [m] is even *)
Definition nearest (p q m : Z) : Prop :=
  0 <= m <= INF_MAG /\
  (0 < m -> (mag (m - 1) + mag m) * q <= 2 * p /\ ((mag (m - 1) + mag m) * q = 2 * p -> Z.even m = true)) /\
  (m < INF_MAG -> 2 * p <= (mag m + mag (m + 1)) * q /\ (2 * p = (mag m + mag (m + 1)) * q -> Z.even m = true)).

(** Finite doubles as exact multiples of 2^-1074 *)
Definition finite (b : Z) : Prop := f_mag b < INF_MAG.
Definition scaled (b : Z) : Z := if f_sign b then - mag (f_mag b) else mag (f_mag b).
(** [b] is the double nearest to [p]/[q] (ties to even; infinite from half way to 2^1024 on) *)
Definition rounds (p q b : Z) : Prop :=
  0 <= b < 2 ^ 64 /\ nearest (Z.abs p) q (f_mag b) /\ (if f_sign b then p <= 0 else 0 <= p).
