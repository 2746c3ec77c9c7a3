(** Sampling normal distributions: src/distribution_normal.c 238-530.

    [gauss g sigma] is gsl_ran_gaussian, [tail g a sigma] gsl_ran_gaussian_tail, both with the
    state of the generator after the call; [flog] and [fexp] are the C library's. The loops
    that draw again are given fuel; [UBFuel] stands for a call that has not returned. The
    functions [..._strided_samples] (378-498) are the same code with values[i * stride] for
    values[i]; [..._soa_samples] (518-530) calls [..._samples]: where values are put is the
    subject of DistMemModel. *)
From Coq Require Import ZArith List Bool SpecFloat.
From Verif Require Import Base Datum CodecModel FloatModel IntervalModel DistModel DistCodecModel.
Import ListNotations.
Open Scope Z_scope.

(** C [round]: to the nearest integer, half way cases away from zero *)
Definition sf_round (f : spec_float) : spec_float :=
  match f with
  | S754_finite s m e =>
      if 0 <=? e then f
      else let a := (2 * Zpos m + 2 ^ (- e)) / (2 * 2 ^ (- e)) in
           binary_normalize PREC EMAX (if s then - a else a) 0 s
  | _ => f
  end.
Definition fround (a : Z) : Z := encode (sf_round (decode a)).
Definition HALF := 0x3fe0000000000000.

Section Sampling.
  Context {G : Type}.
  Variable gauss : G -> Z -> Z * G.
  Variable tail : G -> Z -> Z -> Z * G.
  Variables flog fexp : Z -> Z.

  (** do body while (again) *)
  Fixpoint draw_while (fuel : nat) (body : G -> res (Z * G)) (again : Z -> bool) (g : G) : res (Z * G) :=
    match fuel with
    | O => UB UBFuel
    | S fuel => do (v, g) <- body g; if again v then draw_while fuel body again g else Ok (v, g)
    end.
  (** for (i = 0; i < num_values; i++) *)
  Fixpoint draw_all (n : nat) (body : G -> res (Z * G)) (g : G) : res (list Z * G) :=
    match n with
    | O => Ok ([], g)
    | S n => do (v, g) <- body g; do (l, g) <- draw_all n body g; Ok (v :: l, g)
    end.
  Definition gaussian (mu sigma : Z) (g : G) : res (Z * G) := let (x, g) := gauss g sigma in Ok (fadd x mu, g).
  Definition gaussian_tail (a mu sigma : Z) (g : G) : res (Z * G) := let (x, g) := tail g a sigma in Ok (fadd x mu, g).
  (** 250-264, 302-312 and 318-323: a draw of at least [lq] *)
  Definition gaussian_above (fuel : nat) (lq mu sigma : Z) (g : G) : res (Z * G) :=
    if fge (fsub mu lq) 0 then draw_while fuel (gaussian mu sigma) (fun v => flt v lq) g
    else gaussian_tail (fsub lq mu) mu sigma g.

  (** 238-280 [_ccs_distribution_normal_samples_float] *)
  Definition samples_float (fuel : nat) (d : normal) (n : nat) (g : G) : res (list Z * G) :=
    do (vs, g) <-
      (if (n_scale d =? SCALE_LOGARITHMIC) && n_quantize d then
         draw_all n (gaussian_above fuel (flog (fmul (n_quant d) HALF)) (n_mu d) (n_sigma d)) g
       else draw_all n (gaussian (n_mu d) (n_sigma d)) g);
    let vs := if n_scale d =? SCALE_LOGARITHMIC then map fexp vs else vs in
    let vs := if n_quantize d then map (fun v => fmul (fround (fmul v (fdiv ONE (n_quant d)))) (n_quant d)) vs else vs in
    Ok (vs, g).

  (** 282-346 [_ccs_distribution_normal_samples_int] *)
  Definition half_step (d : normal) : Z := if n_quantize d then fmul (f_of_int (n_quant d)) HALF else HALF.
  Definition draw_int (fuel : nat) (d : normal) (g : G) : res (Z * G) :=
    let q := half_step d in
    if n_scale d =? SCALE_LOGARITHMIC then
      draw_while fuel (fun g => do (v, g) <- gaussian_above fuel (flog q) (n_mu d) (n_sigma d) g; Ok (fexp v, g))
        (fun v => fgt (fsub v q) (f_of_int INT64_MAX)) g
    else
      draw_while fuel (gaussian (n_mu d) (n_sigma d))
        (fun v => fgt (fsub v q) (f_of_int INT64_MAX) || flt (fadd v q) (f_of_int INT64_MIN)) g.
  Definition int_value (d : normal) (v : Z) : res Z :=
    if n_quantize d then do k <- int_of_f (fround (fmul v (fdiv ONE (f_of_int (n_quant d))))); chk64 (k * n_quant d)
    else int_of_f (fround v).
  Fixpoint int_values (d : normal) (l : list Z) : res (list Z) :=
    match l with [] => Ok [] | v :: l => do x <- int_value d v; do xs <- int_values d l; Ok (x :: xs) end.
  Definition samples_int (fuel : nat) (d : normal) (n : nat) (g : G) : res (list Z * G) :=
    do (vs, g) <- draw_all n (draw_int fuel d) g;
    do vs <- int_values d vs;
    Ok (vs, g).
  (** 348-376 [_ccs_distribution_normal_samples]; a live generator *)
  Definition normal_samples (fuel : nat) (d : normal) (n : nat) (g : G) : res (list Z * G) :=
    if n_type d =? NUM_FLOAT then samples_float fuel d n g else samples_int fuel d n g.
End Sampling.
