(** Property C79: user defined tuners. *)
From Coq Require Import ZArith List Bool Lia.
From Verif Require Import Base Datum CodecModel CodecSpec CodecProofs CmpModel ParamModel ParamSpec ContextModel ContextProps EvalModel TreeModel TreeCodecSpec RngModel TreeSpaceModel TreeSpaceSpec TreeConfModel TreeConfSpec RestoreModel RestoreSpec RestoreProps TunerCodecModel TunerCodecSpec TunerCodecProps UserTunerModel UserTunerSpec UserTunerKinds.
Import ListNotations.
Open Scope Z_scope.

(** What is written of what the application says ... *)
Theorem C79_written : forall mem le Sp ser_spaces size_spaces st sb,
  (forall t H O, answers (ut_state t) H O st -> storable_tuner (storable_eval storable_bobj) (speaks t H O) -> lenZ st < 2 ^ 64 -> granted mem (8 * (lenZ H + lenZ O)) ->
     encodes (ser_spaces (ut_spaces t)) sb -> size_spaces (ut_spaces t) = Ok (lenZ sb) ->
     exists bs, wire_user 8 sb (wire_eval 7 (wire_bobj 5)) (speaks t H O) st bs /\ encodes (ser_config_user mem le Sp ser_spaces t) bs /\ size_config_user mem Sp size_spaces t = Ok (lenZ bs)) /\
  (forall t H O, answers (ut_state t) H O st -> storable_tuner (storable_eval storable_pair) (speaks t H O) -> lenZ st < 2 ^ 64 -> granted mem (8 * (lenZ H + lenZ O)) ->
     encodes (ser_spaces (ut_spaces t)) sb -> size_spaces (ut_spaces t) = Ok (lenZ sb) ->
     exists bs, wire_user 12 sb (wire_eval 11 wire_pair) (speaks t H O) st bs /\ encodes (ser_features_user mem le Sp ser_spaces t) bs /\ size_features_user mem Sp size_spaces t = Ok (lenZ bs)) /\
  (forall t H O, answers (ut_state t) H O st -> storable_tuner (storable_eval storable_conf) (speaks t H O) -> lenZ st < 2 ^ 64 -> granted mem (8 * (lenZ H + lenZ O)) ->
     encodes (ser_spaces (ut_spaces t)) sb -> size_spaces (ut_spaces t) = Ok (lenZ sb) ->
     exists bs, wire_user 19 sb (wire_eval 18 wire_conf) (speaks t H O) st bs /\ encodes (ser_tree_user mem le Sp ser_spaces t) bs /\ size_tree_user mem Sp size_spaces t = Ok (lenZ bs)).
Proof. exact users_written. Qed.
Print Assumptions C79_written.
(** ... and the error that is reported when it fails, once there is room for what comes before:
    the error of the application. *)
Theorem C79_fails : forall mem le Sp ser_spaces size_spaces sb head e n,
  (forall t, in_unsigned 64 (ut_id t) -> ok_name (ut_name t) -> encodes (ser_spaces (ut_spaces t)) sb -> size_spaces (ut_spaces t) = Ok (lenZ sb) -> wire_head 8 sb t head ->
     (fails_with mem (writes (ser_eval le OBJ_EVALUATION (ser_bobj le OBJ_CONFIGURATION)) (size_eval OBJ_EVALUATION (size_bobj OBJ_CONFIGURATION))) (ut_state t) (lenZ head) e n ->
        stops (ser_config_user mem le Sp ser_spaces t) e n /\ size_config_user mem Sp size_spaces t = Err e) /\
     (state_fails mem (writes (ser_eval le OBJ_EVALUATION (ser_bobj le OBJ_CONFIGURATION)) (size_eval OBJ_EVALUATION (size_bobj OBJ_CONFIGURATION))) (ut_state t) (lenZ head) e n ->
        stops (ser_config_user mem le Sp ser_spaces t) e n)) /\
  (forall t, in_unsigned 64 (ut_id t) -> ok_name (ut_name t) -> encodes (ser_spaces (ut_spaces t)) sb -> size_spaces (ut_spaces t) = Ok (lenZ sb) -> wire_head 12 sb t head ->
     (fails_with mem (writes (ser_eval le OBJ_FEATURES_EVALUATION (ser_pair le)) (size_eval OBJ_FEATURES_EVALUATION size_pair)) (ut_state t) (lenZ head) e n ->
        stops (ser_features_user mem le Sp ser_spaces t) e n /\ size_features_user mem Sp size_spaces t = Err e) /\
     (state_fails mem (writes (ser_eval le OBJ_FEATURES_EVALUATION (ser_pair le)) (size_eval OBJ_FEATURES_EVALUATION size_pair)) (ut_state t) (lenZ head) e n ->
        stops (ser_features_user mem le Sp ser_spaces t) e n)) /\
  (forall t, in_unsigned 64 (ut_id t) -> ok_name (ut_name t) -> encodes (ser_spaces (ut_spaces t)) sb -> size_spaces (ut_spaces t) = Ok (lenZ sb) -> wire_head 19 sb t head ->
     (fails_with mem (writes (ser_eval le OBJ_TREE_EVALUATION ser_conf) (size_eval OBJ_TREE_EVALUATION (fun c => Ok (size_conf c)))) (ut_state t) (lenZ head) e n ->
        stops (ser_tree_user mem le Sp ser_spaces t) e n /\ size_tree_user mem Sp size_spaces t = Err e) /\
     (state_fails mem (writes (ser_eval le OBJ_TREE_EVALUATION ser_conf) (size_eval OBJ_TREE_EVALUATION (fun c => Ok (size_conf c)))) (ut_state t) (lenZ head) e n ->
        stops (ser_tree_user mem le Sp ser_spaces t) e n)).
Proof. exact users_stop. Qed.
Print Assumptions C79_fails.
(** What is had of it, [rs] being had of the spaces: a tuner of the vector that is given, *)
Theorem C79_tuner : forall mem jen le Sp D St lives eid cid deser_spaces sb whole (v : vector bobj D St) data outer id bs st rs,
  gives (deser_spaces (fun _ => None)) rs sb whole -> lenZ st < 2 ^ 64 ->
  forall t r, storable_tuner (storable_eval storable_bobj) t -> wire_user 8 sb (wire_eval 7 (wire_bobj 5)) t st bs ->
  user_saved bobj Sp D St mem (fun sp => evaluation_step mem jen (lives sp) eid cid) v data outer id t st rs r ->
  gives (deser_config_any mem jen le Sp D St lives eid cid deser_spaces (Some v) data outer id) r bs (whole /\ plain_tuner plain_bobj t).
Proof. exact user_had. Qed.
Print Assumptions C79_tuner.
Theorem C79_features_tuner : forall mem jen le Sp D St lives eid cid fid deser_spaces sb whole (v : vector (bobj * bobj) D St) data outer id bs st rs,
  gives (deser_spaces (fun _ => None)) rs sb whole -> lenZ st < 2 ^ 64 ->
  forall t r, storable_tuner (storable_eval storable_pair) t -> wire_user 12 sb (wire_eval 11 wire_pair) t st bs ->
  user_saved (bobj * bobj) Sp D St mem (fun sp => features_step mem jen (lives sp) eid cid fid) v data outer id t st rs r ->
  gives (deser_features_any mem jen le Sp D St lives eid cid fid deser_spaces (Some v) data outer id) r bs (whole /\ plain_tuner plain_pair t).
Proof. exact features_user_had. Qed.
Print Assumptions C79_features_tuner.
Theorem C79_tree_tuner : forall mem jen le Sp D St lives eid cid deser_spaces sb whole (v : vector tconf D St) data outer id bs st rs,
  gives (deser_spaces (fun _ => None)) rs sb whole -> lenZ st < 2 ^ 64 ->
  forall t r, storable_tuner (storable_eval storable_conf) t -> wire_user 19 sb (wire_eval 18 wire_conf) t st bs ->
  user_saved tconf Sp D St mem (fun sp => tree_step mem jen (lives sp) eid cid) v data outer id t st rs r ->
  gives (deser_tree_any mem jen le Sp D St lives eid cid deser_spaces (Some v) data outer id) r bs (whole /\ plain_tuner plain_conf t).
Proof. exact tree_user_had. Qed.
Print Assumptions C79_tree_tuner.
(** these being all the cases. *)
Theorem C79_outcomes : forall mem jen lv eid cid fid, spaces (lv_heap lv) jen (lv_at lv) -> forall Sp D St data outer id sp m st,
  (forall t (v : vector bobj D St), storable_tuner (storable_eval storable_bobj) t -> (forall H O u, takes_back v data H O st <> UB u) ->
     exists r, user_outcome bobj Sp D St mem (evaluation_step mem jen lv eid cid) v data outer id t st sp m r) /\
  (forall t (v : vector (bobj * bobj) D St), storable_tuner (storable_eval storable_pair) t -> (forall H O u, takes_back v data H O st <> UB u) ->
     exists r, user_outcome (bobj * bobj) Sp D St mem (features_step mem jen lv eid cid fid) v data outer id t st sp m r) /\
  (forall t (v : vector tconf D St), storable_tuner (storable_eval storable_conf) t -> (forall H O u, takes_back v data H O st <> UB u) ->
     exists r, user_outcome tconf Sp D St mem (tree_step mem jen lv eid cid) v data outer id t st sp m r).
Proof. exact users_some. Qed.
Print Assumptions C79_outcomes.
(** The application is told the same history, the same optima, the same state. *)
Theorem C79_told : forall mem jen lv eid cid fid Sp,
  tells_back mem Sp (evaluation_step mem jen lv eid cid) /\ tells_back mem Sp (features_step mem jen lv eid cid fid) /\ tells_back mem Sp (tree_step mem jen lv eid cid).
Proof. exact all_tell_back. Qed.
Print Assumptions C79_told.
(** Without a vector the bytes are read as in C51, where user defined tuners are refused; with
    one, random tuners and other objects are read as in C51. *)
Theorem C79_no_vector : forall E Sp D St mem deser_spaces read_e oty unsupported data outer id s,
  deser_any_tuner E Sp mem D St deser_spaces read_e oty unsupported None data outer id s = lifted (deser_tuner E Sp mem deser_spaces read_e oty unsupported outer id s).
Proof. exact no_vector. Qed.
Print Assumptions C79_no_vector.
Theorem C79_random : forall E Sp D St mem deser_spaces read_e oty unsupported data outer id (v : option (vector E D St)) sb wire_e (t : rtuner E Sp) bs r whole,
  0 <= oty < 128 -> in_unsigned 64 (rt_id t) -> wire_tuner oty sb wire_e t bs -> gives (deser_tuner E Sp mem deser_spaces read_e oty unsupported outer id) r bs whole ->
  gives (deser_any_tuner E Sp mem D St deser_spaces read_e oty unsupported v data outer id) (as_random r) bs whole.
Proof. exact random_saved. Qed.
Print Assumptions C79_random.
Theorem C79_other_type : forall E Sp D St mem deser_spaces read_e oty unsupported data outer id (v : option (vector E D St)) ty h lh,
  0 <= ty < 128 -> in_unsigned 64 h -> leb128 h lh -> ty <> oty ->
  gives (deser_any_tuner E Sp mem D St deser_spaces read_e oty unsupported v data outer id) (Err ERR_INVALID_TYPE) (ty :: lh) True.
Proof. exact any_other_type. Qed.
Print Assumptions C79_other_type.
(** Calls reach the application once, as they were made, and its errors come back; others do not
    reach it. *)
Theorem C79_passed : forall is_tuner is_features fits feat has_suggest answer c, good_call is_tuner is_features fits feat has_suggest c ->
  pass is_tuner is_features fits feat has_suggest answer c = Ok (if answer c <? 0 then answer c else 0, [c]).
Proof. exact good_passes. Qed.
Print Assumptions C79_passed.
Theorem C79_kept : forall is_tuner is_features fits feat has_suggest answer c e, bad_call is_tuner is_features fits feat has_suggest c e ->
  pass is_tuner is_features fits feat has_suggest answer c = Ok (e, []).
Proof. exact bad_stays. Qed.
Print Assumptions C79_kept.
Theorem C79_calls : forall is_tuner is_features fits feat has_suggest, (forall f u, fits f <> UB u) ->
  forall c, good_call is_tuner is_features fits feat has_suggest c \/ exists e, bad_call is_tuner is_features fits feat has_suggest c e.
Proof. exact good_or_bad. Qed.
Print Assumptions C79_calls.

(** An application with the three evaluations of C51, the optima [o] and the state [st], of which
    it writes the first [k] bytes only. *)
Definition ut_app (o st : list Z) (k : nat) : app bobj :=
  mkApp (Ok (lenZ tu_three)) (fun _ => Ok (map Some tu_three)) (Ok (lenZ o)) (fun _ => Ok o) (Some (Ok (lenZ st), fun _ => Ok (firstn k st))).
Definition ut (a : app bobj) : utuner Z (app bobj) := mkUT 5000 [116] 42 a None.
Definition ut_bytes (a : app bobj) : list Z :=
  match ser_config_user (fun n => n <? 41) true Z tu_ser (ut a) (mkW [] (repeat 170 160) 160) with Ok w => w_done w | _ => [] end.
(** The new state: the pointer and what was told. *)
Definition ut_vector : vector bobj Z (Z * list Z * list Z * list Z) :=
  mkVector true (fun d h => Ok (d, map eo_id h, [], [])) (Some (fun d h o st => if lenZ st =? 0 then Err (-40) else Ok (d, map eo_id h, o, st))).
Definition ut_told (v : vector bobj Z (Z * list Z * list Z * list Z)) := mkVector true (v_tell v) None.
Definition ut_read (v : option (vector bobj Z (Z * list Z * list Z * list Z))) (bs : list Z) :=
  deser_config_any (fun _ => true) lenZ true Z Z _ tu_live (fun i => 100 + Z.of_nat i) (fun i => 200 + Z.of_nat i) tu_spaces v 33 None 77 (mkR bs (lenZ bs)).
Example C79_ex : answers (ut_state (ut (ut_app [7200; 7100] [1; 2; 3] 3))) tu_three [7200; 7100] [1; 2; 3] /\
  (exists u, ut_read (Some ut_vector) (ut_bytes (ut_app [7200; 7100] [1; 2; 3] 3)) = Ok (inr u, None, mkR [] 0) /\ ut_state u = (33, [100; 101; 102], [102; 101], [1; 2; 3]) /\ ut_id u = 77 /\ ut_spaces u = 42) /\
  ut_read (Some ut_vector) (ut_bytes (ut_app [7200; 7100] [] 0)) = Err (-40) /\
  ut_read (Some (mkVector false (v_tell ut_vector) (v_restore ut_vector))) (ut_bytes (ut_app [7200; 7100] [1; 2; 3] 3)) = Err ERR_INVALID_VALUE /\
  ut_read None (ut_bytes (ut_app [7200; 7100] [1; 2; 3] 3)) = Err ERR_INVALID_VALUE /\
  size_config_user (fun n => n <? 40) Z (fun _ => Ok 1) (ut (ut_app [7200; 7100] [1; 2; 3] 3)) = Err ERR_OUT_OF_MEMORY.
Proof.
  split; [vm_compute; repeat split; intros; reflexivity|]. split; [eexists; split; [lazy; reflexivity|]; lazy; repeat split|]. vm_compute. repeat split.
Qed.
Example C79_ex_calls : pass true (fun f => f =? 5) (fun _ => Ok true) true false (fun _ => -3) (CAsk 5 2 1000 0) = Ok (-3, [CAsk 5 2 1000 0]) /\
  pass true (fun f => f =? 5) (fun _ => Ok true) true false (fun _ => 1) (CTell 1 1000) = Ok (0, [CTell 1 1000]) /\
  pass true (fun f => f =? 5) (fun _ => Ok true) true false (fun _ => -3) (CAsk 6 2 1000 0) = Ok (ERR_INVALID_OBJECT, []) /\
  pass true (fun f => f =? 5) (fun _ => Ok true) true false (fun _ => -3) (CSuggest 5 8) = Ok (ERR_UNSUPPORTED_OPERATION, []).
Proof. vm_compute. repeat split. Qed.
(** An application that says an optimum is no part of the history can be saved, and cannot be
    restored; *)
Theorem C79_lost_refuted : exists a H O st, answers a H O st /\ storable_tuner (storable_eval storable_bobj) (speaks (ut a) H O) /\ ut_bytes a <> [] /\
  ut_read (Some ut_vector) (ut_bytes a) = Err ERR_INVALID_HANDLE.
Proof.
  exists (ut_app [8000] [1] 1), tu_three, [8000], [1]. split; [vm_compute; repeat split; intros; reflexivity|]. split; [|split; [vm_compute; discriminate|vm_compute; reflexivity]].
  unfold storable_tuner, storable_eval, storable_bobj, storable_values, ParamSpec.ok_name. cbn. repeat split; try lia; repeat constructor; cbn; try lia; repeat constructor; cbn; try lia.
Qed.
Print Assumptions C79_lost_refuted.
(** a vector that saves a state need not restore one: neither it nor the optima are handed over; *)
Theorem C79_state_refuted : exists a u, answers a tu_three [7200; 7100] [1; 2; 3] /\ ut_read (Some (ut_told ut_vector)) (ut_bytes a) = Ok (inr u, None, mkR [] 0) /\
  ut_state u = (33, [100; 101; 102], [], []).
Proof. exists (ut_app [7200; 7100] [1; 2; 3] 3). eexists. split; [vm_compute; repeat split; intros; reflexivity|]. split; [lazy; reflexivity|]. lazy. reflexivity. Qed.
Print Assumptions C79_state_refuted.
(** if it writes less of the state than it said, the rest is what the buffer held before; *)
Theorem C79_short_refuted : exists a u, ap_state a = Some (Ok 3, fun _ => Ok [1]) /\ ut_read (Some ut_vector) (ut_bytes a) = Ok (inr u, None, mkR [] 0) /\
  ut_state u = (33, [100; 101; 102], [102; 101], [1; 170; 170]).
Proof.
  exists (mkApp (Ok 3) (fun _ => Ok (map Some tu_three)) (Ok 2) (fun _ => Ok [7200; 7100]) (Some (Ok 3, fun _ => Ok [1]))). eexists. split; [reflexivity|]. split; [lazy; reflexivity|]. lazy. reflexivity.
Qed.
Print Assumptions C79_short_refuted.
(** if it gives fewer evaluations than it said, a NULL pointer is followed. *)
Theorem C79_missing_refuted : exists a : app bobj, ap_history_count a = Ok 3 /\ ap_history a 3 = Ok (map Some (firstn 2 tu_three)) /\
  ser_config_user (fun _ => true) true Z tu_ser (ut a) (mkW [] (repeat 170 160) 160) = UB UBBounds.
Proof. exists (mkApp (Ok 3) (fun _ => Ok (map Some (firstn 2 tu_three))) (Ok 0) (fun _ => Ok []) None). vm_compute. repeat split. Qed.
Print Assumptions C79_missing_refuted.
