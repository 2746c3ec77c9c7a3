(** Properties C06, C21-C24, C62: parameters. *)
From Coq Require Import ZArith List Bool.
From Verif Require Import Base Datum CodecModel CodecSpec FloatModel FloatSpec CmpModel CmpSpec IntervalSpec.
From Verif Require Import ParamModel ParamSpec ParamProofs ParamLemmas ParamCodec.
Import ListNotations.
Open Scope Z_scope.

(** C62: the constructors accept exactly the well-formed domains, and build the
    parameter they are asked for. *)
Theorem C62_create_int : forall nm lo up q def,
  in_signed 64 lo -> in_signed 64 up -> in_signed 64 q -> in_signed 64 def ->
  let fits := lo < up /\ 0 <= q in
  let ok := up - lo <= INT64_MAX /\ q <= up - lo /\ lo <= def /\ def < up in
  (fits -> ok -> create_numerical nm NUM_INT lo up q def =
                 Ok (mkParam PNUMERICAL nm (ccs_int def) (mkInterval NUM_INT lo up true false) q [])) /\
  (fits -> up - lo > INT64_MAX -> create_numerical nm NUM_INT lo up q def = UB UBOverflow) /\
  (~ fits \/ (up - lo <= INT64_MAX /\ ~ ok) -> create_numerical nm NUM_INT lo up q def = Err ERR_INVALID_VALUE).
Proof. exact create_int_spec. Qed.
Print Assumptions C62_create_int.
Example C62_ex1 : create_numerical [97] NUM_INT (-3) 4 7 3 =
  Ok (mkParam PNUMERICAL [97] (ccs_int 3) (mkInterval NUM_INT (-3) 4 true false) 7 []).
Proof. reflexivity. Qed.
Theorem C62_int_span_refuted : exists lo up, in_signed 64 lo /\ in_signed 64 up /\ lo <= 0 < up /\
  forall nm, create_numerical nm NUM_INT lo up 0 0 = UB UBOverflow.
Proof. exists (-2), INT64_MAX. now repeat split. Qed.
Print Assumptions C62_int_span_refuted.
Theorem C62_create_float : forall nm lo up q def,
  let ok := ~ kle (fkey up) (fkey lo) /\ ~ klt (fkey q) (fkey 0) /\ ~ klt (fkey (fsub up lo)) (fkey q) /\
            ~ klt (fkey def) (fkey lo) /\ ~ kle (fkey up) (fkey def) in
  (ok -> create_numerical nm NUM_FLOAT lo up q def =
         Ok (mkParam PNUMERICAL nm (ccs_float def) (mkInterval NUM_FLOAT lo up true false) q [])) /\
  (~ ok -> create_numerical nm NUM_FLOAT lo up q def = Err ERR_INVALID_VALUE).
Proof. exact create_float_spec. Qed.
Print Assumptions C62_create_float.
Example C62_ex2 : (* [0, 1[ with default 0.5; then default 1 *)
  (exists p, create_numerical [97] NUM_FLOAT 0 4607182418800017408 0 4602678819172646912 = Ok p) /\
  create_numerical [97] NUM_FLOAT 0 4607182418800017408 0 4607182418800017408 = Err ERR_INVALID_VALUE.
Proof. split; [eexists|]; vm_compute; reflexivity. Qed.
Theorem C62_create_other : forall nm t lo up q def, t <> NUM_INT -> t <> NUM_FLOAT ->
  create_numerical nm t lo up q def = Err ERR_INVALID_TYPE.
Proof. exact create_badtype. Qed.
Print Assumptions C62_create_other.
Theorem C62_create_categorical : forall jen t nm vals idx, Forall wf_datum vals -> 0 <= idx ->
  (cat_ok t vals idx /\
   create_categorical jen t nm vals idx =
   Ok (mkParam t nm (nth (Z.to_nat idx) (map clean vals) ccs_none)
               (mkInterval NUM_INT 0 (lenZ vals) true false) 0 (map clean vals))) \/
  (~ cat_ok t vals idx /\ create_categorical jen t nm vals idx = Err ERR_INVALID_VALUE).
Proof. exact create_categorical_spec. Qed.
Print Assumptions C62_create_categorical.
Example C62_ex3 :
  (exists p, create_categorical (fun l => lenZ l) PCATEGORICAL [97] [ccs_int 1; ccs_float 1; ccs_none] 2 = Ok p) /\
  create_categorical (fun l => lenZ l) PCATEGORICAL [97] [ccs_int 1; ccs_int 2; ccs_int 1] 2 = Err ERR_INVALID_VALUE /\
  create_categorical (fun l => lenZ l) PDISCRETE [97] [ccs_int 1; ccs_none] 0 = Err ERR_INVALID_VALUE.
Proof. split; [eexists|split]; vm_compute; reflexivity. Qed.

(** C21: checking a value against the domain, validating it, and the default *)
Theorem C21_numerical_domain : forall jen nm t lo up q def p, create_numerical nm t lo up q def = Ok p ->
  is_num_type t /\
  p = mkParam PNUMERICAL nm (if t =? NUM_FLOAT then ccs_float def else ccs_int def)
              (mkInterval t lo up true false) q [] /\
  forall v, (check_value jen p v = true <-> num_domain t lo up (d_val v)) /\
    validate_value jen p v = (if check_value jen p v then (true, v) else (false, ccs_inactive)).
Proof. exact check_numerical. Qed.
Print Assumptions C21_numerical_domain.
Theorem C21_numerical_default : forall jen nm t lo up q def p, create_numerical nm t lo up q def = Ok p ->
  (check_value jen p (p_default p) = true <-> pos t lo <> None /\ pos t up <> None /\ pos t def <> None).
Proof. exact default_numerical. Qed.
Print Assumptions C21_numerical_default.
(** The default of a float parameter may be a NaN, which is not in the domain *)
Theorem C21_default_refuted : exists lo up def, forall jen nm,
  exists p, create_numerical nm NUM_FLOAT lo up 0 def = Ok p /\ check_value jen p (p_default p) = false.
Proof.
  exists 0, 4607182418800017408, 9221120237041090560. intros jen nm.
  eexists. split; [vm_compute; reflexivity|vm_compute; reflexivity].
Qed.
Print Assumptions C21_default_refuted.
Theorem C21_categorical_domain : forall jen t nm vals idx p, cat_kind t -> Forall wf_datum vals -> 0 <= idx ->
  create_categorical jen t nm vals idx = Ok p ->
  p_type p = t /\ p_name p = nm /\ p_values p = map clean vals /\
  p_default p = clean (nth (Z.to_nat idx) vals ccs_none) /\
  forall v, wf_datum v ->
    (check_value jen p v = true <-> In (d_val v) (map d_val vals)) /\
    validate_value jen p v = (if check_value jen p v then (true, clean v) else (false, ccs_inactive)).
Proof. exact check_categorical. Qed.
Print Assumptions C21_categorical_domain.
Theorem C21_categorical_default : forall jen t nm vals idx p, cat_kind t -> Forall wf_datum vals -> 0 <= idx ->
  create_categorical jen t nm vals idx = Ok p -> check_value jen p (p_default p) = true.
Proof. exact default_categorical. Qed.
Print Assumptions C21_categorical_default.
Theorem C21_string_domain : forall jen nm v, wf_datum v ->
  (check_value jen (create_string nm) v = true <-> exists s, d_val v = VString s).
Proof. exact check_string. Qed.
Print Assumptions C21_string_domain.
(** Validation by a string parameter returns an equal string, whatever was interned
    before, and keeps the table well formed *)
Theorem C21_string_validate : forall jen stored v, wf_datum v -> Forall wf_datum stored ->
  NoDup (map d_val stored) -> Forall (fun d => exists s, d = ccs_string s) stored ->
  exists stored',
    string_validate jen stored v =
      (match d_val v with VString s => (true, ccs_string s) | _ => (false, ccs_inactive) end, stored') /\
    Forall wf_datum stored' /\ NoDup (map d_val stored') /\ Forall (fun d => exists s, d = ccs_string s) stored' /\
    (forall s, In (VString s) (map d_val stored') <-> In (VString s) (map d_val stored) \/ d_val v = VString s).
Proof. exact string_validate_spec. Qed.
Print Assumptions C21_string_validate.
Example C21_ex :
  let jen := fun l : list Z => lenZ l in
  match create_categorical jen PCATEGORICAL [97] [ccs_int 1; ccs_string (Some [98])] 1 with
  | Ok p => check_value jen p (mkDatum (VString (Some [98])) FLAG_TRANSIENT) = true /\
            check_value jen p (ccs_string (Some [99])) = false /\
            validate_value jen p (mkDatum (VString (Some [98])) FLAG_TRANSIENT) = (true, ccs_string (Some [98]))
  | _ => False end.
Proof. now vm_compute. Qed.

(** C22: what listing the values does to the caller's array *)
Theorem C22_get_values : forall t p a, p_type p = t ->
  get_possible_values t p None = Ok (None, lenZ (p_values p)) /\
  ((length a < length (p_values p))%nat -> get_possible_values t p (Some a) = Err ERR_INVALID_VALUE) /\
  ((length (p_values p) <= length a)%nat ->
   get_possible_values t p (Some a) = Ok (Some (p_values p ++ skipn (length (p_values p)) a), lenZ (p_values p))).
Proof. exact get_values_spec. Qed.
Print Assumptions C22_get_values.
Theorem C22_get_values_other : forall t p arr, p_type p <> t ->
  get_possible_values t p arr = Err ERR_INVALID_PARAMETER.
Proof. exact get_values_other. Qed.
Print Assumptions C22_get_values_other.
(** The remaining slots are not set to none *)
Theorem C22_padding_refuted : exists p a a', get_possible_values (p_type p) p (Some a) = Ok (Some a', 1) /\
  nth_error a' 1 = Some (ccs_int 42).
Proof.
  exists (mkParam PCATEGORICAL [97] (ccs_int 1) (mkInterval NUM_INT 0 1 true false) 0 [ccs_int 1]),
         [ccs_int 41; ccs_int 42], [ccs_int 1; ccs_int 42]. now split.
Qed.
Print Assumptions C22_padding_refuted.

(** C23 *)
Theorem C23_ordinal_order : forall jen nm vals idx p, Forall wf_datum vals -> 0 <= idx ->
  create_categorical jen PORDINAL nm vals idx = Ok p ->
  (forall i j a b u v, nth_error vals i = Some a -> nth_error vals j = Some b -> wf_datum u -> wf_datum v ->
     d_val u = d_val a -> d_val v = d_val b ->
     ordinal_compare jen p u v = Ok (Z.sgn (Z.of_nat i - Z.of_nat j))) /\
  (forall u v, wf_datum u -> wf_datum v ->
     ~ In (d_val u) (map d_val vals) \/ ~ In (d_val v) (map d_val vals) ->
     ordinal_compare jen p u v = Err ERR_INVALID_VALUE).
Proof. exact ordinal_spec. Qed.
Print Assumptions C23_ordinal_order.
Example C23_ex : let jen := fun l : list Z => lenZ l in
  match create_categorical jen PORDINAL [97] [ccs_int 5; ccs_string (Some [98]); ccs_int 1] 1 with
  | Ok p => ordinal_compare jen p (ccs_int 5) (ccs_int 1) = Ok (-1) /\
            ordinal_compare jen p (ccs_int 1) (ccs_string (Some [98])) = Ok 1 /\
            ordinal_compare jen p (ccs_int 2) (ccs_int 1) = Err ERR_INVALID_VALUE
  | _ => False end.
Proof. now vm_compute. Qed.

(** C24: sampling in place gives the result of sampling from separate buffers, and
    never reads an overwritten cell *)
Theorem C24_in_place_sampling : forall p (over : bool) draw n mem keep, (0 < n)%nat -> length mem = (2 * n)%nat ->
  draws_counted draw -> p_type p <> PSTRING -> is_num_type (i_type (p_interval p)) ->
  (forall w, keep w = true <-> raw_ok p w) ->
  (over = false -> p_type p <> PNUMERICAL -> forall l, draw O n = Ok l -> Forall (raw_ok p) l) ->
  param_samples p over draw n mem = do l <- sampled keep draw n over; Ok (map (raw_value p) l).
Proof. exact samples_spec. Qed.
Print Assumptions C24_in_place_sampling.
Theorem C24_samples_in_domain : forall jen p (over : bool) draw n mem l, created jen p -> length mem = (2 * n)%nat ->
  draws_counted draw -> (over = false -> forall l, draw O n = Ok l -> Forall (raw_ok p) l) ->
  param_samples p over draw n mem = Ok l ->
  length l = n /\ Forall (fun d => check_value jen p d = true) l.
Proof. exact samples_in_domain. Qed.
Print Assumptions C24_samples_in_domain.
Example C24_ex :
  let p := mkParam PNUMERICAL [97] (ccs_int 1) (mkInterval NUM_INT 0 10 true false) 0 [] in
  param_samples p true (fun k c => Ok (match k with O => [3; 12; 5] | _ => [11; 7] end)) 3 (repeat CJunk 6)
  = Ok [ccs_int 3; ccs_int 5; ccs_int 7].
Proof. now vm_compute. Qed.

(** C06.  The restored parameter is the original except that the default of a
    categorical, ordinal or discrete parameter becomes the last declared value that
    numeric comparison does not distinguish from it. *)
Theorem C06_param_roundtrip : forall jen le h, in_unsigned 64 h -> forall p, created jen p ->
  exists bs d, wire_param h p bs /\ encodes (ser_param le h p) bs /\ size_param h p = Ok (lenZ bs) /\
    decodes (deser_param jen le) (h, with_default p d) bs /\
    (if (p_type p =? PNUMERICAL) || (p_type p =? PSTRING) then d = p_default p
     else last_confused (p_default p) (p_values p) d).
Proof. exact param_roundtrip. Qed.
Print Assumptions C06_param_roundtrip.
Theorem C06_param_roundtrip_exact : forall jen le h, in_unsigned 64 h -> forall p, created jen p ->
  (forall d, In d (p_values p) -> confused (d_val (p_default p)) (d_val d) -> d_val d = d_val (p_default p)) ->
  exists bs, wire_param h p bs /\ decodes (deser_param jen le) (h, p) bs.
Proof. exact param_roundtrip_exact. Qed.
Print Assumptions C06_param_roundtrip_exact.
(** Values 0.0 and -0.0 with default 0.0: the default comes back as -0.0 *)
Theorem C06_default_refuted : exists p p' bs, let jen := fun l : list Z => lenZ l in
  create_categorical jen PCATEGORICAL [97] [ccs_float 0; ccs_float 9223372036854775808] 0 = Ok p /\
  encodes (ser_param true 5 p) bs /\ decodes (deser_param jen true) (5, p') bs /\
  p_default p = ccs_float 0 /\ p_default p' = ccs_float 9223372036854775808.
Proof. exact default_not_restored. Qed.
Print Assumptions C06_default_refuted.
Example C06_ex : let jen := fun l : list Z => lenZ l in
  let p := mkParam PORDINAL [97] (ccs_string (Some [98])) (mkInterval NUM_INT 0 2 true false) 0
                   [ccs_int 5; ccs_string (Some [98])] in
  match ser_param true 7 p (mkW [] (repeat 0 100) 100) with
  | Ok (mkW bs _ _) => deser_param jen true (mkR bs (lenZ bs)) = Ok ((7, p), mkR [] 0)
  | _ => False end.
Proof. now vm_compute. Qed.
