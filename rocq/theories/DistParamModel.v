(** Sampling several parameters from one distribution.
    Source: /repo/src/distribution.c 164-311. *)
From Coq Require Import ZArith List Bool.
From Verif Require Import Base Datum CodecModel IntervalModel ParamModel DistModel.
Import ListNotations.
Open Scope Z_scope.

(** ds[i] and values[i] = d; [ds] is the buffer of converted samples, [values] the array of
    the caller *)
Definition get_at (ds : list datum) (i : nat) : res datum :=
  match nth_error ds i with Some d => Ok d | None => UB UBBounds end.
Fixpoint set_at (values : list datum) (i : nat) (d : datum) : res (list datum) :=
  match values, i with
  | [], _ => UB UBBounds
  | _ :: l, O => Ok (d :: l)
  | x :: l, S i' => do l' <- set_at l i' d; Ok (x :: l')
  end.

(** ccs_parameter_convert_samples (parameter.c 154-171) on the columns of the samples:
    lines 220-227 and 279-287. The column of parameter i is ds[i * len] ... *)
Fixpoint convert_column (p : param) (over : bool) (vs : list Z) : res (list datum) :=
  match vs with
  | [] => Ok []
  | v :: l => do d <- convert_sample p over v; do ds <- convert_column p over l; Ok (d :: ds)
  end.
Fixpoint convert_columns (ps : list param) (overs : list bool) (cols : list (list Z)) : res (list datum) :=
  match ps, overs, cols with
  | p :: ps', o :: os', c :: cs' => do a <- convert_column p o c; do b <- convert_columns ps' os' cs'; Ok (a ++ b)
  | _, _, _ => Ok []
  end.

(** The loops over the dimensions: lines 230-232 (no [test]), 237-247 and 291-302. Whether
    the row is discarded, and the array. [k] iterations remain. *)
Fixpoint copy_row (test : bool) (ds : list datum) (len j at0 : nat) (k i : nat) (values : list datum) : res (bool * list datum) :=
  match k with
  | O => Ok (false, values)
  | S k' =>
      do d <- get_at ds (i * len + j);
      if test && (type_of (d_val d) =? TYPE_INACTIVE) then Ok (true, values)
      else do values' <- set_at values (at0 + i) d; copy_row test ds len j at0 k' (S i) values'
  end.
(** The loops over the rows: lines 229-232 ([found] is then j), 235-250, and 289-305 where
    [found] must be below [limit] *)
Fixpoint copy_rows (test : bool) (limit : option nat) (ds : list datum) (dim len : nat) (k j found : nat) (values : list datum)
    : res (nat * list datum) :=
  match k with
  | O => Ok (found, values)
  | S k' =>
      if match limit with Some n => (n <=? found)%nat | None => false end then Ok (found, values)
      else
        do (discard, values) <- copy_row test ds len j (found * dim) dim 0 values;
        copy_rows test limit ds dim len k' (S j) (if discard then found else S found) values
  end.

Section Samples.
  Variable ps : list param.
  Variable overs : list bool.
  (** [draw k c]: the result of the k-th call to ccs_distribution_soa_samples, for [c]
      samples: one column per dimension (see DistMemModel) *)
  Variable draw : nat -> nat -> res (list (list Z)).
  (** The while loop: lines 251-307; size computations are assumed not to wrap *)
  Fixpoint more_rows (fuel coeff round n found : nat) (values : list datum) : res (list datum) :=
    match fuel with
    | O => UB UBFuel
    | S fuel' =>
        if (found <? n)%nat then
          do _ <- refute (32 <? coeff)%nat ERR_SAMPLING_UNSUCCESSFUL;
          let len := ((n - found) * coeff)%nat in
          do cols <- draw round len;
          do ds <- convert_columns ps overs cols;
          do (found, values) <- copy_rows true (Some n) ds (length ps) len len 0 found values;
          more_rows fuel' (2 * coeff) (S round) n found values
        else Ok values
    end.
  Definition rows_samples (n : nat) (values : list datum) : res (list datum) :=
    do cols <- draw O n;
    do ds <- convert_columns ps overs cols;
    if existsb (fun o => o) overs then
      do (found, values) <- copy_rows true None ds (length ps) n n 0 0 values;
      more_rows 6 2 1 n found values
    else
      do (_, values) <- copy_rows false None ds (length ps) n n 0 0 values;
      Ok values.
End Samples.

(** ccs_distribution_parameters_samples. [bounds] are the bounds of the distribution (as many
    as its dimension), [ps] as many parameters, [values] an array of [n] times that many
    datums. With one dimension, [ccs_parameter_samples]. *)
Definition parameters_samples (bounds : list interval) (ps : list param) (draw : nat -> nat -> res (list (list Z)))
    (n : nat) (values : list datum) : res (list datum) :=
  if (n =? 0)%nat then Ok values
  else
    match bounds, ps with
    | [b], p :: _ =>
        if p_type p =? PSTRING then Err ERR_UNSUPPORTED_OPERATION
        else
          do over <- oversampling1 b (p_interval p);
          param_samples p over (fun k c => do cols <- draw k c; Ok (nth 0 cols [])) n
            (flat_map (fun d => [CVal (d_val d); CTag (type_of (d_val d)) (d_flags d)]) values)
    | _, _ =>
        do overs <- check_oversampling bounds (map p_interval ps);
        rows_samples ps overs draw n values
    end.
