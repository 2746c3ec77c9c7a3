(** Probability distributions: roulette selection, uniform sampling, the weights of
    mixtures, the check that tells whether a distribution leaves an interval.
    Sources: /repo/src/distribution_internal.h, distribution.c, distribution_uniform.c,
    distribution_roulette.c, distribution_mixture.c.
    Doubles are 64-bit patterns (FloatModel). GSL draws are arguments; the C library's
    [log] and [exp] are parameters of the section. *)
From Coq Require Import ZArith List Bool.
From Verif Require Import Base Datum CodecModel FloatModel IntervalModel.
Import ListNotations.
Open Scope Z_scope.

Definition ONE := 0x3ff0000000000000.

(** Reading cell [i] of an array of doubles: outside of it the behaviour is undefined *)
Definition read_value (values : list Z) (i : Z) : res Z :=
  if i <? 0 then UB UBBounds
  else match nth_error values (Z.to_nat i) with Some v => Ok v | None => UB UBBounds end.

(** distribution_internal.h 57-74, [_ccs_dichotomic_search]. The loop runs until found; the
    fuel is one more than the number of areas, and running out of it stands for a loop that
    goes on after having looked at more areas than there are: [UB UBDiverge]. [/] on signed
    integers truncates. *)
Fixpoint search_loop (fuel : nat) (values : list Z) (target lower upper index : Z) : res Z :=
  match fuel with
  | O => UB UBDiverge
  | S fuel' =>
      do v <- read_value values index;
      if flt target v then
        let upper := index - 1 in
        do s <- chk64 (lower + upper);
        search_loop fuel' values target lower upper (Z.quot s 2)
      else
        do w <- read_value values (index + 1);
        if fge target w then
          let lower := index + 1 in
          do s <- chk64 (lower + upper);
          search_loop fuel' values target lower upper (Z.quot s 2)
        else Ok index
  end.
(** [ccs_int_t index = upper * target;] converts [upper] to double, and the product back *)
Definition dichotomic_search (size : Z) (values : list Z) (target : Z) : res Z :=
  let upper := size - 1 in
  do index <- int_of_f (fmul (f_of_int upper) target);
  search_loop (S (Z.to_nat size)) values target 0 upper index.

(** ** Roulette: distribution_internal.h 105-138, distribution_roulette.c 159-290 *)
(** isfinite *)
Definition f_isfinite (a : Z) : bool := f_exp a <? 2047.
Fixpoint sum_areas (areas : list Z) (sum : Z) : res Z :=
  match areas with
  | [] => Ok sum
  | a :: l => do _ <- refute (flt a 0) ERR_INVALID_VALUE; sum_areas l (fadd sum a)
  end.
(** 105-123 [_ccs_distribution_roulette_validate_areas]; the same code is repeated for the
    weights of mixtures in distribution_mixture.c 210-219 *)
Definition validate_areas (areas : list Z) : res Z :=
  do sum <- sum_areas areas 0;
  do _ <- refute (feq sum 0) ERR_INVALID_VALUE;
  let inv := fdiv ONE sum in
  do _ <- refute (is_nan inv || negb (f_isfinite inv)) ERR_INVALID_VALUE;
  Ok inv.
(** 125-138 [_ccs_distribution_roulette_normalize_areas]: prefix sums from 0.0, each but the
    first multiplied by the inverse of the sum, then the last one set to 1.0 *)
Fixpoint prefixes (r : Z) (areas : list Z) : list Z :=
  match areas with [] => [] | a :: l => let r' := fadd r a in r' :: prefixes r' l end.
Definition set_last (l : list Z) (v : Z) : list Z := removelast l ++ [v].
Definition normalize_areas (areas : list Z) (inv : Z) : list Z :=
  set_last (0 :: map (fun r => fmul r inv) (prefixes 0 areas)) ONE.
(** distribution_roulette.c 238-279 [ccs_create_roulette_distribution]; only the array of
    areas is kept *)
Definition create_roulette (areas : list Z) : res (list Z) :=
  do _ <- refute ((lenZ areas =? 0) || (INT64_MAX <? lenZ areas)) ERR_INVALID_VALUE;
  do inv <- validate_areas areas;
  Ok (normalize_areas areas inv).
(** 173-222 [_ccs_distribution_roulette_samples], [strided_samples]: one number from the
    draws of gsl_rng_uniform, in order. [table] has one cell more than there are areas. *)
Definition roulette_value (table : list Z) (u : Z) : res Z :=
  dichotomic_search (lenZ table - 1) table u.
Fixpoint roulette_values (table : list Z) (us : list Z) : res (list Z) :=
  match us with
  | [] => Ok []
  | u :: l => do v <- roulette_value table u; do vs <- roulette_values table l; Ok (v :: vs)
  end.
(** 159-171 [get_bounds] *)
Definition roulette_bounds (table : list Z) : interval :=
  mkInterval NUM_INT 0 (lenZ table - 1) true false.
(** 292-318 [ccs_roulette_distribution_get_areas] and distribution_mixture.c 473-500
    [ccs_mixture_distribution_get_weights], into an array of [n] cells *)
Fixpoint differences (table : list Z) : list Z :=
  match table with
  | a :: ((b :: _) as l) => fsub b a :: differences l
  | _ => []
  end.
Definition get_areas (table : list Z) (n : nat) : res (list Z) :=
  let d := differences table in
  do _ <- refute (n <? length d)%nat ERR_INVALID_VALUE;
  Ok (d ++ repeat 0 (n - length d)).

(** ** Uniform: distribution_uniform.c *)
Definition SCALE_LINEAR := 0.
Definition SCALE_LOGARITHMIC := 1.
Record uniform : Type := mkUniform {
  u_type : Z; u_lower : Z; u_upper : Z; u_scale : Z; u_quant : Z;
  u_quantize : bool; u_ilower : Z; u_iupper : Z
}.

Section Libm.
  Variables flog fexp : Z -> Z.

  (** 376-463 [ccs_create_uniform_distribution]. In the INT test [upper - lower] may overflow
      and is only evaluated when the previous disjuncts are false. For INT distributions on a
      linear scale the internal bounds are integers, otherwise doubles. *)
  Definition uniform_bad_int (lower upper scale quant : Z) : res bool :=
    if (upper <=? lower) || ((scale =? SCALE_LOGARITHMIC) && (lower <=? 0)) || (quant <? 0)
    then Ok true else do r <- chk64 (upper - lower); Ok (r <? quant).
  Definition uniform_bad_float (lower upper scale quant : Z) : bool :=
    fge lower upper || ((scale =? SCALE_LOGARITHMIC) && fle lower 0) || flt quant 0
    || fgt quant (fsub upper lower).
  Definition create_uniform (t lower upper scale quant : Z) : res uniform :=
    do _ <- refute (negb (t =? NUM_FLOAT) && negb (t =? NUM_INT)) ERR_INVALID_TYPE;
    do _ <- refute (negb (scale =? SCALE_LINEAR) && negb (scale =? SCALE_LOGARITHMIC)) ERR_INVALID_SCALE;
    if t =? NUM_INT then
      do bad <- uniform_bad_int lower upper scale quant;
      do _ <- refute bad ERR_INVALID_VALUE;
      let quantize := negb (quant =? 0) in
      if scale =? SCALE_LOGARITHMIC then
        Ok (mkUniform t lower upper scale quant quantize (flog (f_of_int lower)) (flog (f_of_int upper)))
      else
        Ok (mkUniform t lower upper scale quant quantize 0
              (if quantize then Z.quot (upper - lower) quant else upper - lower))
    else
      do _ <- refute (uniform_bad_float lower upper scale quant) ERR_INVALID_VALUE;
      let quantize := negb (feq quant 0) in
      if scale =? SCALE_LOGARITHMIC then
        Ok (mkUniform t lower upper scale quant quantize (flog lower) (flog upper))
      else
        Ok (mkUniform t lower upper scale quant quantize 0
              (if quantize then fdiv (fsub upper lower) quant else fsub upper lower)).

  (** 184-206 [get_bounds] *)
  Definition uniform_bounds (d : uniform) : interval :=
    mkInterval (u_type d) (u_lower d) (u_upper d) true false.

  (** gsl_ran_flat (GSL randist/flat.c): a * (1 - u) + b * u, u from gsl_rng_uniform *)
  Definition ran_flat (a b u : Z) : Z := fadd (fmul a (fsub ONE u)) (fmul b u).

  (** 208-361 [samples], [strided_samples]: one value. [u] is what gsl_rng_uniform returned,
      [k] what gsl_rng_uniform_int (internal_upper) returned; each value uses one of them.
      The C code makes several passes over the array; the values do not interact. *)
  Definition uniform_value (d : uniform) (u k : Z) : res Z :=
    let lower := u_lower d in
    let quant := u_quant d in
    if u_type d =? NUM_FLOAT then
      let v := ran_flat (u_ilower d) (u_iupper d) u in
      if u_scale d =? SCALE_LOGARITHMIC then
        let v := fexp v in
        Ok (if u_quantize d then fadd (fmul (ffloor (fdiv (fsub v lower) quant)) quant) lower else v)
      else
        Ok (if u_quantize d then fadd (fmul (ffloor v) quant) lower else fadd v lower)
    else if u_scale d =? SCALE_LOGARITHMIC then
      do v <- int_of_f (ffloor (fexp (ran_flat (u_ilower d) (u_iupper d) u)));
      if u_quantize d then
        do a <- chk64 (v - lower); do b <- chk64 (Z.quot a quant * quant); chk64 (b + lower)
      else Ok v
    else
      if u_quantize d then do b <- chk64 (k * quant); chk64 (b + lower)
      else chk64 (k + lower).
End Libm.

(** ** distribution.c 61-89, [ccs_distribution_check_oversampling], for one dimension, then
    for all of them: [bounds] from [get_bounds], [intervals] given *)
Definition oversampling1 (bounds interval : interval) : res bool :=
  do x <- interval_intersect bounds interval;
  do e <- interval_equal bounds x;
  Ok (negb e).
Fixpoint check_oversampling (bounds intervals : list interval) : res (list bool) :=
  match bounds, intervals with
  | [], _ => Ok []
  | b :: bs, i :: is => do o <- oversampling1 b i; do os <- check_oversampling bs is; Ok (o :: os)
  | _ :: _, [] => UB UBBounds
  end.

(** ** Mixtures: distribution_mixture.c 182-336 *)
(** 290-297: the array of weights *)
Fixpoint mix_prefixes (inv w : Z) (weights : list Z) : list Z :=
  match weights with [] => [] | a :: l => let w' := fadd w (fmul a inv) in w' :: mix_prefixes inv w' l end.
Definition mixture_table (weights : list Z) (inv : Z) : res (list Z) :=
  let table := set_last (0 :: mix_prefixes inv 0 weights) ONE in
  do _ <- refute (flt ONE (nth (length weights - 1) table 0)) ERR_INVALID_VALUE;
  Ok table.

(** What is asked of a component: its data types and bounds, one per dimension *)
Record component : Type := mkComponent { c_types : list Z; c_bounds : list interval }.
Definition c_dim (c : component) : nat := length (c_types c).

(** sizeof (ccs_interval_t), sizeof (ccs_numeric_type_t) *)
Definition SIZEOF_INTERVAL := 32.
Definition SIZEOF_NUMERIC_TYPE := 4.
(** Writing the bounds of a component at the start of the temporary block of [size] bytes
    (234-237, 276-279) *)
Definition put_bounds (size : Z) (bounds : list interval) : res (list interval) :=
  if SIZEOF_INTERVAL * lenZ bounds <=? size then Ok bounds else UB UBBounds.
Fixpoint check_types (types : list Z) (cs : list component) : res unit :=
  match cs with
  | [] => Ok tt
  | c :: l =>
      do _ <- refute (negb (forallb (fun p => fst p =? snd p) (combine types (c_types c)))) ERR_INVALID_DISTRIBUTION;
      check_types types l
  end.
Fixpoint union_all (a b : list interval) : res (list interval) :=
  match a, b with
  | x :: a', y :: b' => do u <- interval_union x y; do r <- union_all a' b'; Ok (u :: r)
  | [], _ => Ok []
  | _ :: _, [] => UB UBBounds
  end.
Fixpoint union_bounds (size : Z) (bounds : list interval) (cs : list component) : res (list interval) :=
  match cs with
  | [] => Ok bounds
  | c :: l => do tmp <- put_bounds size (c_bounds c);
              do b <- union_all bounds tmp;
              union_bounds size b l
  end.
Record mixture : Type := mkMixture { mx_types : list Z; mx_bounds : list interval; mx_table : list Z }.
(** 182-336 [ccs_create_mixture_distribution]. Allocations are assumed to succeed; the
    temporary block of 225-227 has room for as many intervals as there are components. *)
Definition create_mixture (cs : list component) (weights : list Z) : res mixture :=
  match cs with
  | [] => Err ERR_INVALID_VALUE
  | c0 :: rest =>
      do _ <- refute (INT64_MAX <? lenZ cs) ERR_INVALID_VALUE;
      let dim := c_dim c0 in
      do _ <- refute (negb (forallb (fun c => (c_dim c =? dim)%nat) rest)) ERR_INVALID_DISTRIBUTION;
      do inv <- validate_areas weights;
      let size := SIZEOF_INTERVAL * lenZ cs + SIZEOF_NUMERIC_TYPE * Z.of_nat dim in
      do _ <- check_types (c_types c0) rest;
      do bounds <- union_bounds size (c_bounds c0) rest;
      do table <- mixture_table weights inv;
      Ok (mkMixture (c_types c0) bounds table)
  end.
