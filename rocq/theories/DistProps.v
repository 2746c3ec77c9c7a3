(** Properties C33-C37, C39: distributions. *)
From Coq Require Import ZArith List Bool Lia.
From Verif Require Import Base Datum CodecModel FloatModel FloatSpec IntervalModel IntervalSpec
  DistModel DistSpec DistSearch DistProofs DistMix.
Import ListNotations.
Open Scope Z_scope.

(** C33. The search ends, reads inside of the table only, and finds an area that contains
    the draw -- the only one if the table is increasing. *)
Theorem C33_search : forall table n u, covering table n -> lenZ table <= 2 ^ 60 -> unit_draw u ->
  exists i, dichotomic_search (Z.of_nat n) table u = Ok (Z.of_nat i) /\ (i < n)%nat /\ in_area table i u /\
            (increasing table -> forall j, in_area table j u -> j = i).
Proof. exact search_ok. Qed.
Print Assumptions C33_search.
(** Which weights a roulette accepts, and its table. *)
Theorem C33_roulette_creation : forall areas, Forall (fun a => 0 <= a < 2 ^ 64) areas ->
  (weights_ok areas /\ exists table, create_roulette areas = Ok table /\ is_roulette areas table) \/
  (~ weights_ok areas /\ create_roulette areas = Err ERR_INVALID_VALUE).
Proof. exact DistRoulette.create_roulette_spec. Qed.
Print Assumptions C33_roulette_creation.
(** Sampling a roulette; and (C34) an entry returned that is not the last has a positive
    weight; the last one too for a sum up to 2^1022 and a draw below the double before 1. *)
Theorem C34_roulette : forall areas table u,
  weights_ok areas -> finite (total areas) -> is_roulette areas table -> lenZ table <= 2 ^ 60 -> unit_draw u ->
  exists i a, roulette_value table u = Ok (Z.of_nat i) /\ nth_error areas i = Some a /\ in_area table i u /\
    member (roulette_bounds table) (Z.of_nat i) /\
    (scaled (total areas) <= 2 ^ 2096 -> forall j, in_area table j u -> j = i) /\
    ((S i < length areas)%nat \/ (scaled (total areas) <= 2 ^ 2096 /\ klt (fkey u) (fkey 0x3fefffffffffffff)) -> positive a).
Proof. exact roulette_selects. Qed.
Print Assumptions C34_roulette.
Theorem C33_areas_reported : forall areas table n, is_roulette areas table ->
  (Z.of_nat n < lenZ areas /\ get_areas table n = Err ERR_INVALID_VALUE) \/
  (lenZ areas <= Z.of_nat n /\ exists l, get_areas table n = Ok l /\ length l = n /\
     (forall i a b, nth_error table i = Some a -> nth_error table (S i) = Some b -> nth_error l i = Some (fsub b a)) /\
     forall i, (length areas <= i < n)%nat -> nth_error l i = Some 0).
Proof. exact areas_reported. Qed.
Print Assumptions C33_areas_reported.
(** weights 1, 0, 2, 1 and draws 0, 0.25, 0.5, 0.9 *)
Definition ex_areas := [0x3ff0000000000000; 0; 0x4000000000000000; 0x3ff0000000000000].
Example C33_ex : exists table, create_roulette ex_areas = Ok table /\ finite (total ex_areas) /\
  table = [0; 0x3fd0000000000000; 0x3fd0000000000000; 0x3fe8000000000000; 0x3ff0000000000000] /\
  map (roulette_value table) [0; 0x3fd0000000000000; 0x3fe0000000000000; 0x3feccccccccccccd] = [Ok 0; Ok 2; Ok 2; Ok 3] /\
  unit_draw 0x3feccccccccccccd.
Proof.
  eexists. split; [vm_compute; reflexivity|]. split; [reflexivity|]. split; [reflexivity|]. split; [vm_compute; reflexivity|].
  unfold unit_draw. split; [lia|]. split; [reflexivity|]. vm_compute. split; [discriminate|reflexivity].
Qed.

(** C34 for mixtures: the component a draw selects has a positive weight, unless it is the
    last one and the draw is at least the sum of the other fractions. *)
Theorem C34_mixture : forall weights table u,
  weights_ok weights -> finite (total weights) -> is_mixture_table weights table ->
  below_one_before_last weights -> lenZ table <= 2 ^ 60 -> unit_draw u ->
  exists i a, roulette_value table u = Ok (Z.of_nat i) /\ nth_error weights i = Some a /\ in_area table i u /\
    (forall j, in_area table j u -> j = i) /\
    ((S i < length weights)%nat \/ klt (fkey u) (fkey (psum (fractions weights) (length weights - 1))) -> positive a).
Proof. exact mixture_selects. Qed.
Print Assumptions C34_mixture.
(** Weights 49, 0 and the draw 1 - 2^-53 return the entry of weight zero, as do weights
    inf, 0, 0 and the draw 0.5. *)
Theorem C34_refuted :
  (exists areas table u, create_roulette areas = Ok table /\ finite (total areas) /\ unit_draw u /\
     roulette_value table u = Ok 1 /\ nth_error areas 1 = Some 0) /\
  (exists areas table u, create_roulette areas = Ok table /\ unit_draw u /\
     roulette_value table u = Ok 1 /\ nth_error areas 1 = Some 0 /\ (length areas = 3)%nat).
Proof.
  split.
  - exists [0x4048800000000000; 0], [0; 0x3fefffffffffffff; ONE], 0x3fefffffffffffff.
    split; [vm_compute; reflexivity|]. split; [reflexivity|]. split; [|split; [vm_compute; reflexivity|reflexivity]].
    unfold unit_draw. split; [lia|]. split; [reflexivity|]. vm_compute. split; [discriminate|reflexivity].
  - eexists [0x7ff0000000000000; 0; 0], _, 0x3fe0000000000000. split; [vm_compute; reflexivity|].
    split; [|split; [vm_compute; reflexivity|split; reflexivity]].
    unfold unit_draw. split; [lia|]. split; [reflexivity|]. vm_compute. split; [discriminate|reflexivity].
Qed.
Print Assumptions C34_refuted.

(** C35. What an integer uniform distribution accepts. A range of 2^63 or more overflows. *)
Theorem C35_creation : forall flog lower upper quant, in_signed 64 lower -> in_signed 64 upper -> in_signed 64 quant ->
  let r := create_uniform flog NUM_INT lower upper SCALE_LINEAR quant in
  (lower < upper /\ 0 <= quant <= upper - lower /\ upper - lower < 2 ^ 63 /\
   r = Ok (mkUniform NUM_INT lower upper SCALE_LINEAR quant (negb (quant =? 0)) 0
             (if quant =? 0 then upper - lower else (upper - lower) / quant))) \/
  (lower < upper /\ 0 <= quant /\ 2 ^ 63 <= upper - lower /\ r = UB UBOverflow) \/
  (~ (lower < upper /\ 0 <= quant) /\ r = Err ERR_INVALID_VALUE) \/
  (lower < upper /\ upper - lower < 2 ^ 63 /\ upper - lower < quant /\ r = Err ERR_INVALID_VALUE).
Proof. exact uniform_int_create. Qed.
Print Assumptions C35_creation.
(** Its samples are exactly the values of the grid: each draw gives one of them, in the
    reported bounds, and each of them is given by a draw. *)
Theorem C35_samples : forall flog fexp lower upper quant d, in_signed 64 lower -> in_signed 64 upper -> in_signed 64 quant ->
  create_uniform flog NUM_INT lower upper SCALE_LINEAR quant = Ok d ->
  0 < u_iupper d /\
  (forall u k, 0 <= k < u_iupper d -> exists x, uniform_value fexp d u k = Ok x /\ int_grid lower upper quant x /\ member (uniform_bounds d) x) /\
  (forall u x, int_grid lower upper quant x -> exists k, 0 <= k < u_iupper d /\ uniform_value fexp d u k = Ok x).
Proof. exact uniform_int_ok. Qed.
Print Assumptions C35_samples.
Example C35_ex : exists d, create_uniform (fun x => x) NUM_INT (-5) 6 SCALE_LINEAR 2 = Ok d /\ u_iupper d = 5 /\
  map (uniform_value (fun x => x) d 0) [0; 1; 4] = [Ok (-5); Ok (-3); Ok 3] /\
  ~ int_grid (-5) 6 2 5 /\ create_uniform (fun x => x) NUM_INT (- 2 ^ 63) 0 SCALE_LINEAR 0 = UB UBOverflow.
Proof.
  eexists. split; [vm_compute; reflexivity|]. split; [reflexivity|]. split; [reflexivity|]. split; [|reflexivity].
  intros (k & A & B & C). change (if 2 =? 0 then 1 else 2) with 2 in *. lia.
Qed.

(** C36. Samples of a float uniform distribution on a linear scale, for finite bounds at a
    finite distance: between the bounds, both included; below the upper bound when the lower
    one is zero and the upper one above 2^-1021. Quantised ones are on the grid of doubles and
    reach at most the lower bound plus the distance. *)
Theorem C36_samples : forall flog fexp lower upper quant d u, 0 <= lower < 2 ^ 64 -> 0 <= upper < 2 ^ 64 -> 0 <= quant < 2 ^ 64 ->
  finite lower -> finite upper -> finite (fsub upper lower) -> unit_draw u ->
  create_uniform flog NUM_FLOAT lower upper SCALE_LINEAR quant = Ok d ->
  (keq (fkey quant) (fkey 0) -> exists x, uniform_value fexp d u 0 = Ok x /\ 0 <= x < 2 ^ 64 /\
     kle (fkey lower) (fkey x) /\ kle (fkey x) (fkey upper) /\
     (keq (fkey lower) (fkey 0) -> 2 ^ 53 < f_mag upper -> klt (fkey x) (fkey upper))) /\
  (klt (fkey 0) (fkey quant) -> finite quant -> finite (fdiv (fsub upper lower) quant) -> exists x, uniform_value fexp d u 0 = Ok x /\ 0 <= x < 2 ^ 64 /\
     float_grid lower quant x /\ kle (fkey lower) (fkey x) /\ kle (fkey x) (fkey (fadd (fsub upper lower) lower))).
Proof. exact uniform_float_bounds. Qed.
Print Assumptions C36_samples.
(** Which arguments are accepted; NaN bounds are not refused. *)
Theorem C36_creation : forall flog lower upper quant,
  let r := create_uniform flog NUM_FLOAT lower upper SCALE_LINEAR quant in
  (~ kle (fkey upper) (fkey lower) /\ ~ klt (fkey quant) (fkey 0) /\ ~ klt (fkey (fsub upper lower)) (fkey quant) /\
   r = Ok (mkUniform NUM_FLOAT lower upper SCALE_LINEAR quant (negb (feq quant 0)) 0
             (if feq quant 0 then fsub upper lower else fdiv (fsub upper lower) quant))) \/
  ((kle (fkey upper) (fkey lower) \/ klt (fkey quant) (fkey 0) \/ klt (fkey (fsub upper lower)) (fkey quant)) /\ r = Err ERR_INVALID_VALUE).
Proof. exact uniform_float_create. Qed.
Print Assumptions C36_creation.
(** -1, 3 by steps of 0.5, draw 0.7: 1.5 *)
Example C36_ex : exists d, create_uniform (fun x => x) NUM_FLOAT 0xbff0000000000000 0x4008000000000000 SCALE_LINEAR 0x3fe0000000000000 = Ok d /\
  uniform_value (fun x => x) d 0x3fe6666666666666 0 = Ok 0x3ff8000000000000 /\
  finite (fsub 0x4008000000000000 0xbff0000000000000).
Proof. eexists. split; [vm_compute; reflexivity|]. split; [vm_compute; reflexivity|reflexivity]. Qed.
(** The upper bound is returned from [2^53, 2^53+2) with the draw 0.75; infinity from
    [-2^1023, 2^1023) with the draw 0.5, where the distance overflows. *)
Theorem C36_half_open_refuted :
  (exists lower upper d u, create_uniform (fun x => x) NUM_FLOAT lower upper SCALE_LINEAR 0 = Ok d /\ unit_draw u /\
     finite lower /\ finite upper /\ uniform_value (fun x => x) d u 0 = Ok upper /\ ~ member (uniform_bounds d) upper) /\
  (exists lower upper d u x, create_uniform (fun x => x) NUM_FLOAT lower upper SCALE_LINEAR 0 = Ok d /\ unit_draw u /\
     finite lower /\ finite upper /\ uniform_value (fun x => x) d u 0 = Ok x /\ klt (fkey upper) (fkey x)).
Proof.
  split.
  - exists 0x4340000000000000, 0x4340000000000001. eexists. exists 0x3fe8000000000000. split; [vm_compute; reflexivity|].
    split; [unfold unit_draw; split; [lia|]; split; [reflexivity|]; vm_compute; split; [discriminate|reflexivity]|].
    split; [reflexivity|]. split; [reflexivity|]. split; [vm_compute; reflexivity|]. vm_compute. intros [_ X]. discriminate.
  - exists 0xffe0000000000000, 0x7fe0000000000000. eexists. exists 0x3fe0000000000000. eexists. split; [vm_compute; reflexivity|].
    split; [unfold unit_draw; split; [lia|]; split; [reflexivity|]; vm_compute; split; [discriminate|reflexivity]|].
    split; [reflexivity|]. split; [reflexivity|]. split; [vm_compute; reflexivity|]. vm_compute. reflexivity.
Qed.
Print Assumptions C36_half_open_refuted.

(** C37. No oversampling: everything in the bounds is in the interval. Oversampling: the
    bounds are empty or leave the interval. Integers overflow only if an open end is at the
    end of the integers. *)
Theorem C37_float : forall a b, proper a -> proper b -> i_type a = NUM_FLOAT -> i_type b = NUM_FLOAT ->
  exists o, oversampling1 a b = Ok o /\
    (o = false -> forall v, member a v -> member b v) /\
    (o = true -> (forall h, ~ covers_point a h) \/ exists h, covers_point a h /\ ~ covers_point b h).
Proof. exact oversampling_float. Qed.
Print Assumptions C37_float.
Theorem C37_int : forall a b, i_type a = NUM_INT -> i_type b = NUM_INT -> machine_interval a -> machine_interval b ->
  (exists o, oversampling1 a b = Ok o /\
    (o = false -> forall v, member a v -> member b v) /\
    (o = true -> (forall v, ~ member a v) \/ exists v, member a v /\ ~ member b v)) \/
  (oversampling1 a b = UB UBOverflow /\ (edge a \/ edge b)).
Proof. exact oversampling_int. Qed.
Print Assumptions C37_int.
Theorem C37_types : forall a b, i_type a <> i_type b -> oversampling1 a b = Err ERR_INVALID_TYPE.
Proof. exact oversampling_types. Qed.
Print Assumptions C37_types.
Theorem C37_all_dimensions : forall bounds intervals, length intervals = length bounds ->
  match check_oversampling bounds intervals with
  | Ok os => Forall2 (fun p o => oversampling1 (fst p) (snd p) = Ok o) (combine bounds intervals) os
  | Err c => exists j a b, nth_error bounds j = Some a /\ nth_error intervals j = Some b /\ oversampling1 a b = Err c
  | UB w => exists j a b, nth_error bounds j = Some a /\ nth_error intervals j = Some b /\ oversampling1 a b = UB w
  end.
Proof. exact check_oversampling_spec. Qed.
Print Assumptions C37_all_dimensions.
Example C37_ex : check_oversampling
    [mkInterval NUM_INT 0 10 true false; mkInterval NUM_INT 0 10 true false; mkInterval NUM_FLOAT 0 ONE true true]
    [mkInterval NUM_INT (-1) 9 false true; mkInterval NUM_INT 0 9 true false; mkInterval NUM_FLOAT 0 ONE true false]
  = Ok [false; true; true] /\
  proper (mkInterval NUM_FLOAT 0 ONE true true) /\ machine_interval (mkInterval NUM_INT (-1) 9 false true).
Proof.
  split; [reflexivity|]. split; [repeat split; [right; reflexivity|discriminate|discriminate]|].
  split; unfold in_signed; cbn; lia.
Qed.

(** C39. Creating a mixture: the memory is overrun exactly when the arguments are otherwise
    acceptable, there are at least two components, and 7 times the dimension exceeds 8 times
    their number. Otherwise the mixture has the types of its components, the union of their
    bounds, and the table of its weights; or an error code is returned. *)
Theorem C39_creation : forall cs weights,
  Forall ok_component cs -> Forall (fun a => 0 <= a < 2 ^ 64) weights -> length weights = length cs ->
  (mixable cs /\ weights_ok weights /\ enough_room cs /\
     ((below_one_before_last weights /\ exists m, create_mixture cs weights = Ok m /\
         (forall c, In c cs -> mx_types m = c_types c) /\ length (mx_bounds m) = length (mx_types m) /\
         is_mixture_table weights (mx_table m) /\
         forall j l, bounds_at cs j l -> exists i, nth_error (mx_bounds m) j = Some i /\ joined l i) \/
      (~ below_one_before_last weights /\ create_mixture cs weights = Err ERR_INVALID_VALUE))) \/
  (mixable cs /\ weights_ok weights /\ ~ enough_room cs /\ create_mixture cs weights = UB UBBounds) \/
  (~ mixable cs /\ (create_mixture cs weights = Err ERR_INVALID_DISTRIBUTION \/ create_mixture cs weights = Err ERR_INVALID_VALUE)) \/
  (~ weights_ok weights /\ (create_mixture cs weights = Err ERR_INVALID_DISTRIBUTION \/ create_mixture cs weights = Err ERR_INVALID_VALUE)).
Proof. exact create_mixture_spec. Qed.
Print Assumptions C39_creation.
(** The bounds of a mixture contain those of its components if all are open, respectively
    closed, at the same ends. *)
Theorem C39_bounds_cover : forall l r, joined l r -> forall i0, In i0 l -> Forall proper l -> Forall (same_shape i0) l ->
  proper r /\ same_shape i0 r /\ forall i v, In i l -> member i v -> member r v.
Proof. exact joined_covers. Qed.
Print Assumptions C39_bounds_cover.
Definition ex_component (dim : nat) (l u : Z) : component :=
  mkComponent (repeat NUM_INT dim) (repeat (mkInterval NUM_INT l u true false) dim).
Example C39_ex : exists m, create_mixture [ex_component 2 0 5; ex_component 2 3 9] [ONE; ONE] = Ok m /\
  mx_bounds m = repeat (mkInterval NUM_INT 0 9 true false) 2 /\ mx_table m = [0; 0x3fe0000000000000; ONE] /\
  Forall ok_component [ex_component 2 0 5; ex_component 2 3 9].
Proof.
  eexists. split; [vm_compute; reflexivity|]. split; [reflexivity|]. split; [reflexivity|].
  assert (H : forall l u, ok_component (ex_component 2 l u)).
  { intros l u. split; [reflexivity|]. intros [|[|[|j]]] t i A B; cbn in *; try discriminate; injection A as <-; injection B as <-;
    (split; [reflexivity|]); repeat split; try (left; reflexivity); discriminate. }
  constructor; [apply H|]. constructor; [apply H|constructor].
Qed.
Theorem C39_in_memory_refuted : exists cs weights, create_mixture cs weights = UB UBBounds.
Proof. exists [ex_component 3 0 5; ex_component 3 3 9], [ONE; ONE]. vm_compute. reflexivity. Qed.
Print Assumptions C39_in_memory_refuted.
