(** Property C64: several parameters sampled from one distribution. *)
From Coq Require Import ZArith List Bool Lia.
From Verif Require Import Base Datum CodecModel FloatModel CmpModel CmpSpec IntervalModel IntervalSpec ParamModel ParamSpec DistModel
  DistParamModel DistParamSpec DistParamProofs.
Import ListNotations.
Open Scope Z_scope.

(** C64. The function does rejection sampling of whole samples: those whose components are
    all valid are kept in order, until there are enough; nothing is written outside of the
    array. *)
Theorem C64_rejection : forall jen bounds ps draw n values keep,
  (0 < n)%nat -> bounds <> [] -> length bounds = length ps -> length values = (n * length ps)%nat ->
  Forall interval_ok bounds -> Forall interval_ok (map p_interval ps) -> Forall (created jen) ps -> Forall (fun p => p_type p <> PSTRING) ps ->
  columns_drawn (length ps) draw -> within_bounds bounds draw -> (forall row, keep row = true <-> row_ok ps row) ->
  parameters_samples bounds ps draw n values =
  do overs <- check_oversampling bounds (map p_interval ps);
  do rows <- sampled keep (fun k c => do cols <- draw k c; Ok (rows_of c cols)) n (existsb (fun o => o) overs);
  Ok (concat (map (row_values ps) rows)).
Proof. exact parameters_samples_ok. Qed.
Print Assumptions C64_rejection.
(** Values returned are valid for their parameters. *)
Theorem C64_valid : forall jen bounds ps draw n values l,
  (0 < n)%nat -> bounds <> [] -> length bounds = length ps -> length values = (n * length ps)%nat ->
  Forall interval_ok bounds -> Forall interval_ok (map p_interval ps) -> Forall (created jen) ps ->
  columns_drawn (length ps) draw -> within_bounds bounds draw ->
  parameters_samples bounds ps draw n values = Ok l ->
  length l = (n * length ps)%nat /\
  forall j i p, (j < n)%nat -> nth_error ps i = Some p -> exists d, nth_error l (j * length ps + i) = Some d /\ check_value jen p d = true.
Proof. exact parameters_samples_valid. Qed.
Print Assumptions C64_valid.
(** String parameters are not sampled. *)
Theorem C64_strings : forall jen bounds ps draw n values l, (0 < n)%nat -> length bounds = length ps -> columns_drawn (length ps) draw ->
  parameters_samples bounds ps draw n values = Ok l -> Forall (created jen) ps -> Forall (fun p => p_type p <> PSTRING) ps.
Proof. exact no_strings. Qed.
Print Assumptions C64_strings.

(** 0 <= x < 10 and one of three values; the distribution may draw the fourth. Two of the
    three first samples are rejected; then four are drawn. *)
Definition ex_num := mkParam PNUMERICAL [97] (ccs_int 1) (mkInterval NUM_INT 0 10 true false) 0 [].
Definition ex_cat := mkParam PCATEGORICAL [98] (ccs_int 7) (mkInterval NUM_INT 0 3 true false) 0 [ccs_int 7; ccs_bool 1; ccs_int 9].
Definition ex_draw (k c : nat) : res (list (list Z)) :=
  Ok (match k with O => [[3; 4; 12]; [3; 1; 0]] | _ => [[10; 5; 6; 7]; [0; 2; 3; 0]] end).
Definition ex_bounds := [mkInterval NUM_INT 0 20 true false; mkInterval NUM_INT 0 4 true false].
Example C64_ex :
  create_numerical [97] NUM_INT 0 10 0 1 = Ok ex_num /\
  create_categorical (fun l => lenZ l) PCATEGORICAL [98] [ccs_int 7; ccs_bool 1; ccs_int 9] 0 = Ok ex_cat /\
  check_oversampling ex_bounds (map p_interval [ex_num; ex_cat]) = Ok [true; true] /\
  parameters_samples ex_bounds [ex_num; ex_cat] ex_draw 3 (repeat ccs_none 6)
  = Ok [ccs_int 4; ccs_bool 1; ccs_int 5; ccs_int 9; ccs_int 7; ccs_int 7] /\
  parameters_samples ex_bounds [ex_num; ex_cat] (fun _ c => Ok [repeat 10 c; repeat 0 c]) 1 [ccs_none; ccs_none] = Err ERR_SAMPLING_UNSUCCESSFUL /\
  parameters_samples ex_bounds [ex_num; create_string [99]] ex_draw 3 (repeat ccs_none 6) = Err ERR_UNSUPPORTED_OPERATION.
Proof. vm_compute. repeat split. Qed.
