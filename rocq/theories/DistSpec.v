(** What distributions promise. *)
From Coq Require Import ZArith List Bool.
From Verif Require Import Base Datum CodecModel FloatModel FloatSpec IntervalModel IntervalSpec DistModel.
Import ListNotations.
Open Scope Z_scope.

(** A number: a double that is not NaN. A non negative number (maybe infinite). *)
Definition real_num (v : Z) : Prop := 0 <= v < 2 ^ 64 /\ fkey v <> None.
Definition nonneg (v : Z) : Prop := 0 <= v < 2 ^ 64 /\ kle (fkey 0) (fkey v).
Definition positive (v : Z) : Prop := 0 <= v < 2 ^ 64 /\ klt (fkey 0) (fkey v).
(** What gsl_rng_uniform may return: 0 <= u < 1 *)
Definition unit_draw (u : Z) : Prop := 0 <= u < 2 ^ 64 /\ finite u /\ 0 <= scaled u < 2 ^ 1074.

(** ** Selecting an area. Area [i] of a table reaches from its cell [i] (included) to its
    cell [i+1] (excluded). *)
Definition in_area (table : list Z) (i : nat) (u : Z) : Prop :=
  exists a b, nth_error table i = Some a /\ nth_error table (S i) = Some b /\
              kle (fkey a) (fkey u) /\ klt (fkey u) (fkey b).
(** The areas of a table of [n] areas cover the numbers from 0 to 1 *)
Definition covering (table : list Z) (n : nat) : Prop :=
  length table = S n /\ (0 < n)%nat /\ Forall real_num table /\
  kle (fkey (nth 0 table 0)) (fkey 0) /\ kle (fkey ONE) (fkey (nth n table 0)).
Definition increasing (table : list Z) : Prop :=
  forall i a b, nth_error table i = Some a -> nth_error table (S i) = Some b -> kle (fkey a) (fkey b).

(** ** Roulette *)
(** Sum of the first [i] weights, from left to right *)
Definition psum (areas : list Z) (i : nat) : Z := fold_left fadd (firstn i areas) 0.
Definition total (areas : list Z) : Z := psum areas (length areas).
(** Acceptable weights: some, none negative or NaN, with a positive sum the inverse of
    which is not infinite *)
Definition weights_ok (areas : list Z) : Prop :=
  0 < lenZ areas <= INT64_MAX /\ Forall nonneg areas /\ positive (total areas) /\ finite (fdiv ONE (total areas)).
(** Cell [i] of the table of a roulette: the fraction of the sum that the weights before
    area [i] amount to, as computed on doubles *)
Definition is_roulette (areas table : list Z) : Prop :=
  length table = S (length areas) /\ nth_error table 0 = Some 0 /\ nth_error table (length areas) = Some ONE /\
  forall i, (0 < i < length areas)%nat ->
    nth_error table i = Some (fmul (psum areas i) (fdiv ONE (total areas))).
(** Mixtures accumulate the fractions instead *)
Definition fractions (weights : list Z) : list Z := map (fun w => fmul w (fdiv ONE (total weights))) weights.
Definition is_mixture_table (weights table : list Z) : Prop :=
  length table = S (length weights) /\ nth_error table 0 = Some 0 /\ nth_error table (length weights) = Some ONE /\
  forall i, (0 < i < length weights)%nat -> nth_error table i = Some (psum (fractions weights) i).

(** ** Uniform distributions *)
(** The values an integer uniform distribution may return: a grid from the lower bound on *)
Definition int_grid (lower upper quant x : Z) : Prop :=
  let q := if quant =? 0 then 1 else quant in
  exists k, 0 <= k /\ x = lower + k * q /\ lower + (k + 1) * q <= upper.

(** What a grid of doubles is: an integer number of steps, computed on doubles *)
Definition float_grid (lower quant x : Z) : Prop :=
  exists k kd, 0 <= k /\ 0 <= kd < 2 ^ 64 /\ finite kd /\ scaled kd = k * 2 ^ 1074 /\ x = fadd (fmul kd quant) lower.

(** ** Mixtures *)
(** The bounds of a mixture in one dimension: the unions of the bounds of its components,
    taken from the first to the last *)
Inductive joined : list interval -> interval -> Prop :=
| joined_one i : joined [i] i
| joined_more l i r r' : joined l r -> interval_union r i = Ok r' -> joined (l ++ [i]) r'.
Definition same_shape (a b : interval) : Prop :=
  i_type a = i_type b /\ i_linc a = i_linc b /\ i_uinc a = i_uinc b.
(** Components describe each of their dimensions by a type and bounds of that type *)
Definition ok_component (c : component) : Prop :=
  length (c_bounds c) = length (c_types c) /\
  forall j t i, nth_error (c_types c) j = Some t -> nth_error (c_bounds c) j = Some i -> i_type i = t /\ proper i.
(** Components that may be mixed *)
Definition mixable (cs : list component) : Prop :=
  exists c0 rest, cs = c0 :: rest /\ lenZ cs <= INT64_MAX /\ Forall (fun c => c_types c = c_types c0) rest.
(** The temporary block has room for the bounds of a component *)
Definition enough_room (cs : list component) : Prop :=
  match cs with
  | [] | [_] => True
  | c :: _ => 7 * Z.of_nat (c_dim c) <= 8 * lenZ cs
  end.
(** The bounds of all components in dimension [j] *)
Definition bounds_at (cs : list component) (j : nat) (l : list interval) : Prop :=
  Forall2 (fun c i => nth_error (c_bounds c) j = Some i) cs l.
