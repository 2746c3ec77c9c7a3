(** Property C51: saving and restoring random tuners. *)
From Coq Require Import ZArith List Bool Lia.
From Verif Require Import Base Datum CodecModel CodecSpec CodecProofs CmpModel ParamModel ContextModel ContextProps EvalModel TreeModel TreeCodecSpec RngModel TreeSpaceModel TreeSpaceSpec TreeConfModel TreeConfSpec RestoreModel RestoreSpec RestoreProps TunerModel TunerCodecModel TunerCodecSpec TunerCodecProofs.
Import ListNotations.
Open Scope Z_scope.

(** What is written, the bytes of the spaces being [sb] ... *)
Theorem C51_written : forall le Sp ser_spaces size_spaces sb,
  (forall t, storable_tuner (storable_eval storable_bobj) t -> encodes (ser_spaces (rt_spaces t)) sb -> size_spaces (rt_spaces t) = Ok (lenZ sb) ->
     exists bs, wire_tuner 8 sb (wire_eval 7 (wire_bobj 5)) t bs /\ encodes (ser_config_tuner le Sp ser_spaces t) bs /\ size_config_tuner Sp size_spaces t = Ok (lenZ bs)) /\
  (forall t, storable_tuner (storable_eval storable_pair) t -> encodes (ser_spaces (rt_spaces t)) sb -> size_spaces (rt_spaces t) = Ok (lenZ sb) ->
     exists bs, wire_tuner 12 sb (wire_eval 11 wire_pair) t bs /\ encodes (ser_features_tuner le Sp ser_spaces t) bs /\ size_features_tuner Sp size_spaces t = Ok (lenZ bs)) /\
  (forall t, storable_tuner (storable_eval storable_conf) t -> encodes (ser_spaces (rt_spaces t)) sb -> size_spaces (rt_spaces t) = Ok (lenZ sb) ->
     exists bs, wire_tuner 19 sb (wire_eval 18 wire_conf) t bs /\ encodes (ser_tree_tuner le Sp ser_spaces t) bs /\ size_tree_tuner Sp size_spaces t = Ok (lenZ bs)).
Proof. exact tuners_written. Qed.
Print Assumptions C51_written.
(** ... what is had of it, [rs] being had of the spaces; *)
Theorem C51_tuner : forall mem jen le Sp lives eid cid deser_spaces sb whole outer id bs rs, gives (deser_spaces (fun _ => None)) rs sb whole ->
  forall t r, storable_tuner (storable_eval storable_bobj) t -> wire_tuner 8 sb (wire_eval 7 (wire_bobj 5)) t bs ->
  saved_outcome bobj Sp mem (fun sp => evaluation_step mem jen (lives sp) eid cid) outer id t rs r ->
  gives (deser_config_tuner mem jen le Sp lives eid cid deser_spaces outer id) r bs (whole /\ plain_tuner plain_bobj t).
Proof. exact tuner_had. Qed.
Print Assumptions C51_tuner.
Theorem C51_features_tuner : forall mem jen le Sp lives eid cid fid deser_spaces sb whole outer id bs rs, gives (deser_spaces (fun _ => None)) rs sb whole ->
  forall t r, storable_tuner (storable_eval storable_pair) t -> wire_tuner 12 sb (wire_eval 11 wire_pair) t bs ->
  saved_outcome (bobj * bobj) Sp mem (fun sp => features_step mem jen (lives sp) eid cid fid) outer id t rs r ->
  gives (deser_features_tuner mem jen le Sp lives eid cid fid deser_spaces outer id) r bs (whole /\ plain_tuner plain_pair t).
Proof. exact features_tuner_had. Qed.
Print Assumptions C51_features_tuner.
Theorem C51_tree_tuner : forall mem jen le Sp lives eid cid deser_spaces sb whole outer id bs rs, gives (deser_spaces (fun _ => None)) rs sb whole ->
  forall t r, storable_tuner (storable_eval storable_conf) t -> wire_tuner 19 sb (wire_eval 18 wire_conf) t bs ->
  saved_outcome tconf Sp mem (fun sp => tree_step mem jen (lives sp) eid cid) outer id t rs r ->
  gives (deser_tree_tuner mem jen le Sp lives eid cid deser_spaces outer id) r bs (whole /\ plain_tuner plain_conf t).
Proof. exact tree_tuner_had. Qed.
Print Assumptions C51_tree_tuner.
(** these are all the cases. *)
Theorem C51_outcomes : forall mem jen v eid cid fid, spaces (lv_heap v) jen (lv_at v) -> forall Sp outer id sp m,
  (forall t, storable_tuner (storable_eval storable_bobj) t -> exists r, tuner_outcome bobj Sp mem (evaluation_step mem jen v eid cid) outer id t sp m r) /\
  (forall t, storable_tuner (storable_eval storable_pair) t -> exists r, tuner_outcome (bobj * bobj) Sp mem (features_step mem jen v eid cid fid) outer id t sp m r) /\
  (forall t, storable_tuner (storable_eval storable_conf) t -> exists r, tuner_outcome tconf Sp mem (tree_step mem jen v eid cid) outer id t sp m r).
Proof. exact tuners_some. Qed.
Print Assumptions C51_outcomes.
(** The history and the optima are restored exactly when no evaluation appears twice. *)
Theorem C51_restored : forall mem jen v eid cid fid Sp,
  restores mem Sp (evaluation_step mem jen v eid cid) /\ restores mem Sp (features_step mem jen v eid cid fid) /\ restores mem Sp (tree_step mem jen v eid cid).
Proof. exact all_restore. Qed.
Print Assumptions C51_restored.
Theorem C51_evaluations : forall mem jen v eid cid fid i m,
  (forall e e' m', evaluation_step mem jen v eid cid i m e (Ok (e', m')) -> eo_id e' = eid i /\ eo_result e' = eo_result e /\ eo_ud e' = restored_ud (eo_ud e) /\
    conf_outcome mem (lv_heap v) jen (lv_at v) m (cid i) (eo_about e) (Ok (eo_about e')) /\
    exists A, becomes (lv_heap v) jen (lv_at v) m (eo_ctx e) OT_OBJECTIVE_SPACE (eo_ctx e') A /\ settles (lv_heap v) A (eo_vals e) (Ok (eo_vals e'))) /\
  (forall e e' m', features_step mem jen v eid cid fid i m e (Ok (e', m')) -> eo_id e' = eid i /\ eo_result e' = eo_result e /\ eo_ud e' = restored_ud (eo_ud e) /\
    pair_outcome mem (lv_heap v) jen (lv_at v) m (cid i) (fid i) (eo_about e) (Ok (eo_about e')) /\
    exists A, becomes (lv_heap v) jen (lv_at v) m (eo_ctx e) OT_OBJECTIVE_SPACE (eo_ctx e') A /\ settles (lv_heap v) A (eo_vals e) (Ok (eo_vals e'))) /\
  (forall e e' m', tree_step mem jen v eid cid i m e (Ok (e', m')) -> eo_id e' = eid i /\ eo_result e' = eo_result e /\ eo_ud e' = restored_ud (eo_ud e) /\
    tconf_outcome mem m (lv_trees v) (cid i) (eo_about e) (Ok (eo_about e')) /\
    exists A, becomes (lv_heap v) jen (lv_at v) m (eo_ctx e) OT_OBJECTIVE_SPACE (eo_ctx e') A /\ settles (lv_heap v) A (eo_vals e) (Ok (eo_vals e'))).
Proof. exact steps_keep. Qed.
Print Assumptions C51_evaluations.
(** Whatever a tuner was told, its optima are in its history. *)
Theorem C51_optima : forall heap jen feat fs calls t, tells heap jen feat (create_tuner fs) calls = Ok t -> incl (t_optima t) (t_history t).
Proof. exact optima_told. Qed.
Print Assumptions C51_optima.
Theorem C51_other_type : forall E Sp mem deser_spaces read_e oty unsupported outer id ty h lh, 0 <= ty < 128 -> in_unsigned 64 h -> leb128 h lh -> ty <> oty ->
  gives (deser_tuner E Sp mem deser_spaces read_e oty unsupported outer id) (Err ERR_INVALID_TYPE) (ty :: lh) True.
Proof. exact other_type. Qed.
Print Assumptions C51_other_type.
Theorem C51_other_tuner : forall E Sp mem deser_spaces read_e oty unsupported outer id h lh k, 0 <= oty < 128 -> in_unsigned 64 h -> leb128 h lh -> 0 < k < 128 ->
  gives (deser_tuner E Sp mem deser_spaces read_e oty unsupported outer id) (Err (if k =? 1 then ERR_INVALID_VALUE else unsupported)) ((oty :: lh) ++ [k]) True.
Proof. exact other_tuner. Qed.
Print Assumptions C51_other_tuner.

(** Spaces 900 and 950 of RestoreProps, written as one byte, and a tuner with three evaluations. *)
Definition tu_spaces : hmap -> rstate -> res ((Z * hmap) * rstate) := fun _ s => do (x, s) <- deser_enum s; Ok ((x, ex_map), s).
Definition tu_ser (x : Z) : wstate -> res wstate := ser_enum x.
Definition tu_live (_ : Z) : live := mkLive ex_heap ex_at (fun _ => false).
Definition tu_ev (id c : Z) (b : Z) : eobj bobj := mkE id 8192 [mkDatum (VString (Some [65; b])) 0] (mkB c 4096 [ccs_int 3; ccs_int (-4)] None) 0 None.
Definition tu (l : list (eobj bobj)) (o : list Z) : rtuner bobj Z := mkRT 5000 [116] 42 l o None.
Definition tu_bytes (t : rtuner bobj Z) : list Z :=
  match ser_config_tuner true Z tu_ser t (mkW [] (repeat 0 150) 150) with Ok w => w_done w | _ => [] end.
Definition tu_read (mem : Z -> bool) (bs : list Z) := deser_config_tuner mem lenZ true Z tu_live (fun i => 100 + Z.of_nat i) (fun i => 200 + Z.of_nat i) tu_spaces None 77 (mkR bs (lenZ bs)).
Definition tu_three := [tu_ev 7000 600 66; tu_ev 7100 600 67; tu_ev 7200 601 66].
Example C51_ex : storable_tuner (storable_eval storable_bobj) (tu tu_three [7200; 7100]) /\
  (match tu_read (fun n => n <? 41) (tu_bytes (tu tu_three [7200; 7100])) with
   | Ok ((t, None), s) => map eo_id (rt_history t) = [100; 101; 102] /\ rt_optima t = [102; 101] /\ rt_spaces t = 42 /\
       map (fun e => map d_val (eo_vals e)) (rt_history t) = [[VString (Some [65; 66])]; [VString (Some [65; 67])]; [VString (Some [65; 66])]] /\
       map (fun e => bo_id (eo_about e)) (rt_history t) = [200; 201; 202] /\ r_mem s = []
   | _ => False end) /\
  tu_read (fun n => n <? 40) (tu_bytes (tu tu_three [7200; 7100])) = Err ERR_OUT_OF_MEMORY /\
  tu_read (fun _ => true) (tu_bytes (tu tu_three [7200; 600])) = Err ERR_INVALID_HANDLE.
Proof.
  split.
  { unfold storable_tuner, storable_eval, storable_bobj, storable_values, ParamSpec.ok_name. cbn. repeat split; try lia; repeat constructor; cbn; try lia; repeat constructor; cbn; try lia. }
  vm_compute. repeat split.
Qed.
(** A tuner that was told the same evaluation twice cannot be restored; *)
Theorem C51_twice_refuted : exists t, storable_tuner (storable_eval storable_bobj) t /\ incl (rt_optima t) (map eo_id (rt_history t)) /\
  tu_read (fun _ => true) (tu_bytes t) = Err ERR_DUPLICATE_HANDLE.
Proof.
  exists (tu [tu_ev 7000 600 66; tu_ev 7000 600 66] [7000]). split; [|split].
  - unfold storable_tuner, storable_eval, storable_bobj, storable_values, ParamSpec.ok_name. cbn. repeat split; try lia; repeat constructor; cbn; try lia; repeat constructor; cbn; try lia.
  - intros x [<-|[]]. now left.
  - vm_compute. reflexivity.
Qed.
Print Assumptions C51_twice_refuted.
(** and the counts 2^64 - 1 and 1 pass for an empty array. *)
Theorem C51_counts_refuted : exists bs, tu_read (fun _ => true) bs = UB UBBounds.
Proof. exists ([8; 1] ++ [0] ++ [2; 116; 0] ++ [42] ++ [255; 255; 255; 255; 255; 255; 255; 255; 255; 1] ++ [1]). vm_compute. reflexivity. Qed.
Print Assumptions C51_counts_refuted.
