(** Property C79: user defined tuners whose application stores less state than it announced. *)
From Coq Require Import ZArith List Bool Lia.
From Verif Require Import Base Datum CodecModel CodecSpec CmpModel ParamModel ParamSpec ContextModel ContextProps EvalModel TreeModel TreeCodecSpec RngModel TreeSpaceModel TreeSpaceSpec TreeConfModel TreeConfSpec RestoreModel RestoreSpec RestoreProps TunerCodecModel TunerCodecSpec TunerCodecProps UserTunerModel UserTunerSpec UserTunerProps UserTunerShortSpec UserTunerShort.
Import ListNotations.
Open Scope Z_scope.

(** The announced size is still the number of bytes written, and they are those of a tuner whose state is what
    was stored followed by what the buffer held there before: nothing else is disturbed. *)
Theorem C79_short mem le Sp ser_spaces size_spaces n b sb : lenZ b <= n -> 0 < n < 2 ^ 64 ->
  (forall t H O, answers_short (ut_state t) H O n b -> storable_tuner (storable_eval storable_bobj) (speaks t H O) -> granted mem (8 * (lenZ H + lenZ O)) ->
     encodes (ser_spaces (ut_spaces t)) sb -> size_spaces (ut_spaces t) = Ok (lenZ sb) ->
     exists z, size_config_user mem Sp size_spaces t = Ok z /\ writes_short (ser_config_user mem le Sp ser_spaces t) z n b (wire_user 8 sb (wire_eval 7 (wire_bobj 5)) (speaks t H O))) /\
  (forall t H O, answers_short (ut_state t) H O n b -> storable_tuner (storable_eval storable_pair) (speaks t H O) -> granted mem (8 * (lenZ H + lenZ O)) ->
     encodes (ser_spaces (ut_spaces t)) sb -> size_spaces (ut_spaces t) = Ok (lenZ sb) ->
     exists z, size_features_user mem Sp size_spaces t = Ok z /\ writes_short (ser_features_user mem le Sp ser_spaces t) z n b (wire_user 12 sb (wire_eval 11 wire_pair) (speaks t H O))) /\
  (forall t H O, answers_short (ut_state t) H O n b -> storable_tuner (storable_eval storable_conf) (speaks t H O) -> granted mem (8 * (lenZ H + lenZ O)) ->
     encodes (ser_spaces (ut_spaces t)) sb -> size_spaces (ut_spaces t) = Ok (lenZ sb) ->
     exists z, size_tree_user mem Sp size_spaces t = Ok z /\ writes_short (ser_tree_user mem le Sp ser_spaces t) z n b (wire_user 19 sb (wire_eval 18 wire_conf) (speaks t H O))).
Proof. exact (users_short mem le Sp ser_spaces size_spaces n b sb). Qed.
Print Assumptions C79_short.

Definition us_app : app bobj := mkApp (Ok 3) (fun _ => Ok (map Some tu_three)) (Ok 2) (fun _ => Ok [7200; 7100]) (Some (Ok 3, fun _ => Ok [1])).
Example C79_ex_short :
  answers_short us_app tu_three [7200; 7100] 3 [1] /\
  (exists z s', size_config_user (fun _ => true) Z (fun x => Ok (size_enum x)) (ut us_app) = Ok z /\
     ser_config_user (fun _ => true) true Z tu_ser (ut us_app) (mkW [] (repeat 170 (Z.to_nat z)) z) = Ok s' /\
     w_size s' = 0 /\ w_rest s' = [] /\ lenZ (w_done s') = z /\
     ser_config_user (fun _ => true) true Z tu_ser (ut us_app) (mkW [] (repeat 170 (Z.to_nat (z - 1))) (z - 1)) = Err ERR_NOT_ENOUGH_DATA).
Proof.
  split; [repeat split; try reflexivity; eexists; split; reflexivity|]. do 2 eexists. split; [vm_compute; reflexivity|].
  split; [vm_compute; reflexivity|]. vm_compute. repeat split.
Qed.

(** The array for the history and the optima is allocated for the sum of the two counts, which is not checked
    to fit in a size_t: an application whose counts wrap around is given an array smaller than the count it is
    called with, and storing more than that is a write outside the array. *)
Theorem C79_wraps mem Sp size_spaces nh no p : 0 <= nh < 2 ^ 64 -> 0 <= no < 2 ^ 64 -> 2 ^ 64 < nh + no -> mem (8 * (nh + no - 2 ^ 64)) = true ->
  (forall t l, size_spaces (ut_spaces t) = Ok p -> ap_history_count (ut_state t) = Ok nh -> ap_optima_count (ut_state t) = Ok no ->
     ap_history (ut_state t) nh = Ok l -> nh + no - 2 ^ 64 < lenZ l -> size_config_user mem Sp size_spaces t = UB UBBounds) /\
  (forall t l, size_spaces (ut_spaces t) = Ok p -> ap_history_count (ut_state t) = Ok nh -> ap_optima_count (ut_state t) = Ok no ->
     ap_history (ut_state t) nh = Ok l -> nh + no - 2 ^ 64 < lenZ l -> size_features_user mem Sp size_spaces t = UB UBBounds) /\
  (forall t l, size_spaces (ut_spaces t) = Ok p -> ap_history_count (ut_state t) = Ok nh -> ap_optima_count (ut_state t) = Ok no ->
     ap_history (ut_state t) nh = Ok l -> nh + no - 2 ^ 64 < lenZ l -> size_tree_user mem Sp size_spaces t = UB UBBounds).
Proof. exact (sizes_wrap mem Sp size_spaces nh no p). Qed.
Print Assumptions C79_wraps.
Example C79_ex_wraps :
  size_config_user (fun n => n <? 100) Z (fun x => Ok (size_enum x))
    (ut (mkApp (Ok (2 ^ 64 - 1)) (fun _ => Ok (map Some tu_three)) (Ok 3) (fun _ => Ok []) None)) = UB UBBounds.
Proof. vm_compute. reflexivity. Qed.
