(** C75: what normal distributions refuse, the bounds they report and the values they give. *)
From Coq Require Import ZArith List Bool Lia.
From Verif Require Import Base Datum CodecModel FloatModel FloatSpec IntervalModel IntervalSpec DistModel DistSpec DistCodecModel DistCodecSpec NormalModel NormalSpec NormalProofs.
Import ListNotations.
Open Scope Z_scope.

(** The type, the scale and the step are examined in this order; the distribution is
    quantised exactly if its step is not 0. *)
Theorem C75_create t mu sigma scale quant : number t quant -> let r := create_normal t mu sigma scale quant in
  (~ (t = NUM_INT \/ t = NUM_FLOAT) /\ r = Err ERR_INVALID_TYPE) \/
  ((t = NUM_INT \/ t = NUM_FLOAT) /\ ~ (scale = SCALE_LINEAR \/ scale = SCALE_LOGARITHMIC) /\ r = Err ERR_INVALID_SCALE) \/
  ((t = NUM_INT \/ t = NUM_FLOAT) /\ (scale = SCALE_LINEAR \/ scale = SCALE_LOGARITHMIC) /\ ~ step_ok t quant /\ r = Err ERR_INVALID_VALUE) \/
  ((t = NUM_INT \/ t = NUM_FLOAT) /\ (scale = SCALE_LINEAR \/ scale = SCALE_LOGARITHMIC) /\ step_ok t quant /\
   exists b, r = Ok (mkNormal t mu sigma scale quant b) /\ (b = true <-> steps t quant)).
Proof. exact (normal_created t mu sigma scale quant). Qed.
Print Assumptions C75_create.

(** The bounds of a distribution of integers are multiples of the step, and the multiples
    within them are exactly those of 64 bits, positive ones if the scale is logarithmic. *)
Theorem C75_int_bounds mu sigma scale quant d : in_signed 64 quant -> create_normal NUM_INT mu sigma scale quant = Ok d ->
  let i := normal_bounds d in
  i_type i = NUM_INT /\ i_linc i = true /\ i_uinc i = true /\ normal_int scale quant (i_lower i) /\ normal_int scale quant (i_upper i) /\
  forall x, normal_int scale quant x <-> member i x /\ exists k, x = k * (if quant =? 0 then 1 else quant).
Proof. exact (created_int_bounds mu sigma scale quant d). Qed.
Print Assumptions C75_int_bounds.
(** Those of a distribution of doubles hold every finite double, with a logarithmic scale
    every positive one of at least the step. *)
Theorem C75_float_bounds mu sigma scale quant d : 0 <= quant < 2 ^ 64 -> create_normal NUM_FLOAT mu sigma scale quant = Ok d ->
  i_type (normal_bounds d) = NUM_FLOAT /\
  forall x, member (normal_bounds d) x <-> finite x /\ (scale = SCALE_LOGARITHMIC -> klt (fkey 0) (fkey x) /\ (steps NUM_FLOAT quant -> kle (fkey quant) (fkey x))).
Proof. exact (created_float_bounds mu sigma scale quant d). Qed.
Print Assumptions C75_float_bounds.

(** Samples of a distribution of integers: [n] numbers drawn one after the other, those half a
    step out of the integers being drawn again, each rounded to the nearest multiple of the
    step.  A call that ends gives them, or is undefined when one of them has no integer. *)
Theorem C75_int_samples {G} (gauss : G -> Z -> Z * G) tail flog fexp mu sigma scale quant d n g : doubles gauss tail flog fexp ->
  0 <= mu < 2 ^ 64 -> in_signed 64 quant -> create_normal NUM_INT mu sigma scale quant = Ok d ->
  (forall fuel, match normal_samples gauss tail flog fexp fuel d n g with
    | Ok (vs, g') => exists xs, picked_all (int_drawn gauss tail flog fexp d) n g xs g' /\ Forall2 (int_gives d) xs vs
    | Err _ => False
    | UB w => w = UBFuel \/ exists xs g', picked_all (int_drawn gauss tail flog fexp d) n g xs g' /\ Exists (fun x => forall v, ~ int_gives d x v) xs
    end) /\
  (forall xs g', picked_all (int_drawn gauss tail flog fexp d) n g xs g' -> exists fuel, forall fuel', (fuel <= fuel')%nat ->
    (forall vs, Forall2 (int_gives d) xs vs -> normal_samples gauss tail flog fexp fuel' d n g = Ok (vs, g')) /\
    (Exists (fun x => forall v, ~ int_gives d x v) xs -> exists w, normal_samples gauss tail flog fexp fuel' d n g = UB w /\ w <> UBFuel)).
Proof. exact (created_int_samples gauss tail flog fexp mu sigma scale quant d n g). Qed.
Print Assumptions C75_int_samples.
(** Samples of a distribution of doubles always exist once the draws do. *)
Theorem C75_float_samples {G} (gauss : G -> Z -> Z * G) tail flog fexp mu sigma scale quant d n g : doubles gauss tail flog fexp ->
  0 <= mu < 2 ^ 64 -> 0 <= quant < 2 ^ 64 -> create_normal NUM_FLOAT mu sigma scale quant = Ok d ->
  (forall fuel, match normal_samples gauss tail flog fexp fuel d n g with
    | Ok (vs, g') => exists xs, picked_all (float_drawn gauss tail flog fexp d) n g xs g' /\ Forall2 (float_value d) xs vs
    | Err _ => False
    | UB w => w = UBFuel
    end) /\
  (forall xs g', picked_all (float_drawn gauss tail flog fexp d) n g xs g' -> exists fuel vs, Forall2 (float_value d) xs vs /\
    forall fuel', (fuel <= fuel')%nat -> normal_samples gauss tail flog fexp fuel' d n g = Ok (vs, g')).
Proof. exact (created_float_samples gauss tail flog fexp mu sigma scale quant d n g). Qed.
Print Assumptions C75_float_samples.

(** The values are within the reported bounds, except that a logarithmic one may be 0. *)
Theorem C75_int_values {G} (gauss : G -> Z -> Z * G) tail flog fexp : doubles gauss tail flog fexp -> (forall x, ~ klt (fkey (fexp x)) (fkey 0)) ->
  forall fuel mu sigma scale quant d n g vs g', 0 <= mu < 2 ^ 64 -> in_signed 64 quant -> create_normal NUM_INT mu sigma scale quant = Ok d ->
  normal_samples gauss tail flog fexp fuel d n g = Ok (vs, g') -> length vs = n /\
  Forall (fun v => (normal_int scale quant v /\ member (normal_bounds d) v) \/ (scale = SCALE_LOGARITHMIC /\ v = 0)) vs.
Proof. exact (created_int_values gauss tail flog fexp). Qed.
Print Assumptions C75_int_values.
(** Without a step it is 0 only for a draw below one half. *)
Theorem C75_int_positive mu sigma d x v : create_normal NUM_INT mu sigma SCALE_LOGARITHMIC 0 = Ok d ->
  kle (fkey HALF_) (fkey x) -> int_gives d x v -> v <> 0.
Proof. exact (created_positive mu sigma d x v). Qed.
Print Assumptions C75_int_positive.
Theorem C75_float_values {G} (gauss : G -> Z -> Z * G) tail flog fexp : doubles gauss tail flog fexp -> (forall x, ~ klt (fkey (fexp x)) (fkey 0)) ->
  forall fuel mu sigma scale quant d n g vs g', 0 <= mu < 2 ^ 64 -> 0 <= quant < 2 ^ 64 -> create_normal NUM_FLOAT mu sigma scale quant = Ok d ->
  normal_samples gauss tail flog fexp fuel d n g = Ok (vs, g') -> length vs = n /\
  Forall (fun v => member (normal_bounds d) v \/ ~ finite v \/ (scale = SCALE_LOGARITHMIC /\ keq (fkey v) (fkey 0))) vs.
Proof. exact (created_float_values gauss tail flog fexp). Qed.
Print Assumptions C75_float_values.

(** ** Examples *)
(** a generator giving the numbers of a list, then 0 *)
Definition nx_gauss (g : list Z) (s : Z) : Z * list Z := match g with [] => (0, []) | x :: g => (x, g) end.
Definition nx_tail (g : list Z) (a s : Z) : Z * list Z := nx_gauss g s.
Definition nx_2_5 := 0x4004000000000000.
Definition nx_huge := 0x46293e5939a08cea.
Definition nx_neg7_2 := 0xc01ccccccccccccd.
Definition nx_24_5 := 0x4038800000000000.
Definition nx_draws := [nx_2_5; nx_huge; nx_neg7_2; nx_24_5].
(** 2.5, 1e30 refused, -7.2: rounded, and rounded to multiples of 5 *)
Example nx_ints : exists d e, create_normal NUM_INT 0 ONE SCALE_LINEAR 0 = Ok d /\ create_normal NUM_INT 0 ONE SCALE_LINEAR 5 = Ok e /\
  normal_samples nx_gauss nx_tail (fun x => x) (fun x => x) 5 d 2 nx_draws = Ok ([3; -7], [nx_24_5]) /\
  normal_samples nx_gauss nx_tail (fun x => x) (fun x => x) 5 e 2 nx_draws = Ok ([5; -5], [nx_24_5]) /\
  normal_bounds e = mkInterval NUM_INT (- 2 ^ 63 + 3) (2 ^ 63 - 3) true true.
Proof. do 2 eexists. split; [vm_compute; reflexivity|]. split; [vm_compute; reflexivity|]. split; [vm_compute; reflexivity|]. split; vm_compute; reflexivity. Qed.
Example nx_refused : create_normal NUM_INT 0 ONE 2 (-1) = Err ERR_INVALID_SCALE /\ create_normal NUM_INT 0 ONE SCALE_LINEAR (-1) = Err ERR_INVALID_VALUE /\
  create_normal 5 0 ONE 2 (-1) = Err ERR_INVALID_TYPE /\ create_normal NUM_FLOAT 0 ONE SCALE_LINEAR nx_neg7_2 = Err ERR_INVALID_VALUE.
Proof. split; [vm_compute; reflexivity|]. split; [vm_compute; reflexivity|]. split; vm_compute; reflexivity. Qed.
(** doubles: multiples of 2.5 *)
Example nx_floats : exists d, create_normal NUM_FLOAT ONE ONE SCALE_LINEAR nx_2_5 = Ok d /\
  normal_samples nx_gauss nx_tail (fun x => x) (fun x => x) 5 d 2 [nx_2_5; nx_neg7_2] = Ok ([nx_2_5; 0xc014000000000000], []).
Proof. eexists. split; [vm_compute; reflexivity|vm_compute; reflexivity]. Qed.

(** ** What fails *)
(** A draw of 2^63 is accepted, and its conversion is undefined; with a step a draw less than
    half a step above is accepted, and the multiple overflows. *)
Theorem C75_defined_refuted : exists d e : normal, create_normal NUM_INT 0 ONE SCALE_LINEAR 0 = Ok d /\ create_normal NUM_INT 0 ONE SCALE_LINEAR (3 * 2 ^ 61) = Ok e /\
  (exists w, normal_samples nx_gauss nx_tail (fun _ => 0) (fun _ => 0) 5 d 1 [TOP] = UB w /\ w <> UBFuel) /\
  (exists w, normal_samples nx_gauss nx_tail (fun _ => 0) (fun _ => 0) 5 e 1 [0x43e6000000000000] = UB w /\ w <> UBFuel).
Proof.
  do 2 eexists. split; [vm_compute; reflexivity|]. split; [vm_compute; reflexivity|]. split; eexists; (split; [vm_compute; reflexivity|discriminate]).
Qed.
Print Assumptions C75_defined_refuted.
(** With a logarithmic scale and the step 49 a draw of exactly half a step, which is accepted,
    gives 0, below the reported bound 49: 24.5 * (1 / 49) rounds to less than one half. *)
Theorem C75_bounds_refuted : exists d, create_normal NUM_INT 0 ONE SCALE_LOGARITHMIC 49 = Ok d /\
  normal_samples nx_gauss nx_tail (fun _ => 0x400996e1ee73cbdc) (fun _ => nx_24_5) 5 d 1 [] = Ok ([0], []) /\
  ~ member (normal_bounds d) 0.
Proof.
  eexists. split; [vm_compute; reflexivity|]. split; [vm_compute; reflexivity|]. intros [A _]. vm_compute in A. now apply A.
Qed.
Print Assumptions C75_bounds_refuted.
