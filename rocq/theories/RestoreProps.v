(** Properties of configurations, features and evaluations. *)
From Coq Require Import ZArith List Bool Lia.
From Verif Require Import Base Datum CodecModel CodecSpec CodecProofs CmpModel CmpSpec ParamModel ParamSpec ContextModel ContextSpec ContextProps EvalModel TreeModel TreeCodecSpec RngModel TreeSpaceModel TreeSpaceSpec TreeConfModel TreeConfSpec RestoreModel RestoreSpec RestoreOrder RestoreProofs.
Import ListNotations.
Open Scope Z_scope.

(** C70: total orders, with 0 for what is the same and nothing else. *)
Theorem C70_bindings_order : ranks bobjs bobj_cmp bobj_lt bobj_same /\ classes wf_bobj bobj_lt bobj_same.
Proof. exact bindings_order. Qed.
Print Assumptions C70_bindings_order.
Theorem C70_evaluation_order : ranks (evals bobjs) (eval_cmp bobj_cmp) (eval_lt bobj_lt) (eval_same bobj_same) /\
  classes (wf_eval wf_bobj) (eval_lt bobj_lt) (eval_same bobj_same).
Proof. exact evaluation_order. Qed.
Print Assumptions C70_evaluation_order.
Theorem C70_features_evaluation_order : ranks (evals pairs) (eval_cmp pair_cmp) (eval_lt pair_lt) (eval_same pair_same) /\
  classes (wf_eval (fun p => wf_bobj (fst p) /\ wf_bobj (snd p))) (eval_lt pair_lt) (eval_same pair_same).
Proof. exact features_evaluation_order. Qed.
Print Assumptions C70_features_evaluation_order.
Theorem C70_tree_evaluation_order : ranks (evals consistent) (eval_cmp conf_cmp) (eval_lt tconf_lt) (eval_same tconf_same) /\
  classes (wf_eval (fun _ => True)) (eval_lt tconf_lt) (eval_same tconf_same).
Proof. exact tree_evaluation_order. Qed.
Print Assumptions C70_tree_evaluation_order.
(** Hashes are those of the parts, so what compares equal has the same hash. *)
Theorem C70_hash_parts : forall jen,
  (forall b, bobj_hash jen b = parts_hash jen (as_binding b) []) /\
  (forall E about (e : eobj E), eval_hash jen about e = parts_hash jen (eo_binding e) (about (eo_about e) ++ [jen (le_bytes 4 (wrap 32 (eo_result e)))])) /\
  (forall b, conf_hashes jen b = [bobj_hash jen b]) /\ (forall a b, pair_hashes jen (a, b) = [bobj_hash jen a; bobj_hash jen b]) /\
  (forall c, tree_hashes jen c = [conf_hash jen c]).
Proof. exact hashes_cover. Qed.
Print Assumptions C70_hash_parts.
Theorem C70_hash_agrees : forall jen,
  (forall a b, bobj_same a b -> bobj_hash jen a = bobj_hash jen b) /\
  (forall a b, eval_same bobj_same a b -> eval_hash jen (conf_hashes jen) a = eval_hash jen (conf_hashes jen) b) /\
  (forall a b, eval_same pair_same a b -> eval_hash jen (pair_hashes jen) a = eval_hash jen (pair_hashes jen) b) /\
  (forall a b, eval_same tconf_same a b -> eval_hash jen (tree_hashes jen) a = eval_hash jen (tree_hashes jen) b).
Proof. exact hashes_agree. Qed.
Print Assumptions C70_hash_agrees.
Definition ev_conf (id v : Z) : bobj := mkB id 4096 [ccs_int v; ccs_int 7] None.
Definition ev (id o r c v : Z) : eobj bobj := mkE id 8192 [ccs_int o] (ev_conf c v) r None.
Example C70_ex : eval_cmp bobj_cmp (ev 1 5 0 100 3) (ev 2 5 0 200 3) = Ok 0 /\ eval_cmp bobj_cmp (ev 1 5 0 100 3) (ev 2 4 0 200 3) = Ok 1 /\
  eval_cmp bobj_cmp (ev 1 5 (-2) 100 3) (ev 2 5 0 200 3) = Ok (-1) /\ eval_cmp bobj_cmp (ev 1 5 0 100 3) (ev 2 5 0 200 9) = Ok (-1) /\
  eval_hash lenZ (conf_hashes lenZ) (ev 1 5 0 100 3) = eval_hash lenZ (conf_hashes lenZ) (ev 2 5 0 200 3).
Proof. vm_compute. repeat split. Qed.

(** C71: what is written ... *)
Theorem C71_written : forall le,
  (forall b, storable_bobj b -> exists bs, wire_bobj 5 b bs /\ encodes (ser_bobj le OBJ_CONFIGURATION b) bs /\ size_bobj OBJ_CONFIGURATION b = Ok (lenZ bs)) /\
  (forall b, storable_bobj b -> exists bs, wire_bobj 10 b bs /\ encodes (ser_bobj le OBJ_FEATURES b) bs /\ size_bobj OBJ_FEATURES b = Ok (lenZ bs)) /\
  (forall e, storable_eval storable_bobj e -> exists bs, wire_eval 7 (wire_bobj 5) e bs /\
     encodes (ser_eval le OBJ_EVALUATION (ser_bobj le OBJ_CONFIGURATION) e) bs /\ size_eval OBJ_EVALUATION (size_bobj OBJ_CONFIGURATION) e = Ok (lenZ bs)) /\
  (forall e, storable_eval storable_pair e -> exists bs, wire_eval 11 wire_pair e bs /\
     encodes (ser_eval le OBJ_FEATURES_EVALUATION (ser_pair le) e) bs /\ size_eval OBJ_FEATURES_EVALUATION size_pair e = Ok (lenZ bs)) /\
  (forall e, storable_eval storable_conf e -> exists bs, wire_eval 18 wire_conf e bs /\
     encodes (ser_eval le OBJ_TREE_EVALUATION ser_conf e) bs /\ size_eval OBJ_TREE_EVALUATION (fun c => Ok (size_conf c)) e = Ok (lenZ bs)).
Proof. exact writings. Qed.
Print Assumptions C71_written.
(** ... and what is had of it; *)
Theorem C71_configuration : forall mem heap jen space_at m le (keep : bool) id bs b r,
  storable_bobj b -> wire_bobj 5 b bs -> bobj_outcome mem heap jen space_at m OT_CONFIGURATION_SPACE keep id b r ->
  gives (deser_bobj mem heap jen space_at le OBJ_CONFIGURATION OT_CONFIGURATION_SPACE (Some m) keep id) r bs (ud_bytes (bo_ud b) = []).
Proof. exact configuration_restored. Qed.
Print Assumptions C71_configuration.
Theorem C71_features : forall mem heap jen space_at m le (keep : bool) id bs b r,
  storable_bobj b -> wire_bobj 10 b bs -> bobj_outcome mem heap jen space_at m OT_FEATURES_SPACE keep id b r ->
  gives (deser_bobj mem heap jen space_at le OBJ_FEATURES OT_FEATURES_SPACE (Some m) keep id) r bs (ud_bytes (bo_ud b) = []).
Proof. exact features_restored. Qed.
Print Assumptions C71_features.
Theorem C71_other_type : forall mem heap jen space_at m le (keep : bool) id bs b, storable_bobj b ->
  (wire_bobj 5 b bs -> gives (deser_bobj mem heap jen space_at le OBJ_FEATURES OT_FEATURES_SPACE (Some m) keep id) (Err ERR_INVALID_TYPE) bs True) /\
  (wire_bobj 10 b bs -> gives (deser_bobj mem heap jen space_at le OBJ_CONFIGURATION OT_CONFIGURATION_SPACE (Some m) keep id) (Err ERR_INVALID_TYPE) bs True).
Proof. exact bindings_other. Qed.
Print Assumptions C71_other_type.
(** in general, the bytes of any other type of object are refused (C69 for the positions in a
    tree); *)
Theorem C69_other_type : forall ty h lh, 0 <= ty < 128 -> in_unsigned 64 h -> leb128 h lh ->
  (forall mem is_space m keep id, ty <> 17 -> gives (deser_conf mem is_space (Some m) keep id) (Err ERR_INVALID_TYPE) (ty :: lh) True) /\
  forall mem heap jen space_at le m keep id,
    (forall oty sty, ty <> oty -> gives (deser_bobj mem heap jen space_at le oty sty (Some m) keep id) (Err ERR_INVALID_TYPE) (ty :: lh) True) /\
    (forall E oty about, ty <> oty -> gives (@deser_eval mem heap jen space_at E le oty about (Some m) keep id) (Err ERR_INVALID_TYPE) (ty :: lh) True).
Proof. exact restored_other. Qed.
Print Assumptions C69_other_type.
Theorem C71_evaluation : forall mem heap jen space_at m le (keep : bool) id bs cid e r,
  storable_eval storable_bobj e -> wire_eval 7 (wire_bobj 5) e bs ->
  eval_outcome mem heap jen space_at m (conf_outcome mem heap jen space_at m cid) keep id e r ->
  gives (deser_eval mem heap jen space_at le OBJ_EVALUATION (read_conf mem heap jen space_at le cid) (Some m) keep id) r bs
    (ud_bytes (bo_ud (eo_about e)) = [] /\ ud_bytes (eo_ud e) = []).
Proof. exact evaluation_restored. Qed.
Print Assumptions C71_evaluation.
Theorem C71_features_evaluation : forall mem heap jen space_at m le (keep : bool) id bs cid fid e r,
  storable_eval storable_pair e -> wire_eval 11 wire_pair e bs ->
  eval_outcome mem heap jen space_at m (pair_outcome mem heap jen space_at m cid fid) keep id e r ->
  gives (deser_eval mem heap jen space_at le OBJ_FEATURES_EVALUATION (read_pair mem heap jen space_at le cid fid) (Some m) keep id) r bs
    ((ud_bytes (bo_ud (fst (eo_about e))) = [] /\ ud_bytes (bo_ud (snd (eo_about e))) = []) /\ ud_bytes (eo_ud e) = []).
Proof. exact features_evaluation_restored. Qed.
Print Assumptions C71_features_evaluation.
Theorem C71_tree_evaluation : forall mem heap jen space_at m le (keep : bool) id bs is_space cid e r,
  storable_eval storable_conf e -> wire_eval 18 wire_conf e bs ->
  eval_outcome mem heap jen space_at m (tconf_outcome mem m is_space cid) keep id e r ->
  gives (deser_eval mem heap jen space_at le OBJ_TREE_EVALUATION (read_tconf mem is_space cid) (Some m) keep id) r bs
    (ud_bytes (tc_ud (eo_about e)) = [] /\ ud_bytes (eo_ud e) = []).
Proof. exact tree_evaluation_restored. Qed.
Print Assumptions C71_tree_evaluation.
(** these are all the cases. *)
Theorem C71_outcomes : forall mem heap jen space_at m (keep : bool) id, spaces heap jen space_at ->
  (forall sty b, storable_bobj b -> exists r, bobj_outcome mem heap jen space_at m sty keep id b r) /\
  (forall cid e, storable_eval storable_bobj e -> exists r, eval_outcome mem heap jen space_at m (conf_outcome mem heap jen space_at m cid) keep id e r) /\
  (forall cid fid e, storable_eval storable_pair e -> exists r, eval_outcome mem heap jen space_at m (pair_outcome mem heap jen space_at m cid fid) keep id e r) /\
  (forall is_space cid e, storable_eval storable_conf e -> exists r, eval_outcome mem heap jen space_at m (tconf_outcome mem m is_space cid) keep id e r).
Proof. exact outcomes_exist. Qed.
Print Assumptions C71_outcomes.
Theorem C71_no_map : forall mem heap jen space_at le keep id s,
  (forall ty sty, deser_bobj mem heap jen space_at le ty sty None keep id s = Err ERR_INVALID_OBJECT) /\
  (forall E ty about, @deser_eval mem heap jen space_at E le ty about None keep id s = Err ERR_INVALID_OBJECT).
Proof. exact unmapped. Qed.
Print Assumptions C71_no_map.

(** Spaces 900 (configurations, of parameters 10 and 20) and 950 (objectives, of parameter 40, a
    string) stand for 4096 and 8192. *)
Definition ex_at (h : Z) : option (Z * context) :=
  if h =? 900 then Some (OT_CONFIGURATION_SPACE, snd (add_run ex_heap KConfiguration (new_context []) [(10, None); (20, None)]))
  else if h =? 950 then Some (OT_OBJECTIVE_SPACE, snd (add_run ex_heap KObjective (new_context []) [(40, None)])) else None.
Definition ex_map : hmap := fun k => if k =? 4096 then Some (ccs_object 900) else if k =? 8192 then Some (ccs_object 950) else None.
Definition ex_ev : eobj bobj := mkE 7000 8192 [mkDatum (VString (Some [65; 66])) 0] (mkB 600 4096 [ccs_int 3; ccs_int (-4)] (Some [9])) (-3) None.
Definition ex_bytes : list Z :=
  match ser_eval true OBJ_EVALUATION (ser_bobj true OBJ_CONFIGURATION) ex_ev (mkW [] (repeat 0 60) 60) with Ok w => w_done w | _ => [] end.
Example C71_ex : storable_eval storable_bobj ex_ev /\ lenZ ex_bytes = 25 /\
  match deser_eval (fun n => n <? 40) ex_heap lenZ ex_at true OBJ_EVALUATION (read_conf (fun n => n <? 40) ex_heap lenZ ex_at true 77) (Some ex_map) true 78 (mkR ex_bytes (lenZ ex_bytes)) with
  | Ok ((e, m), s) => e = mkE 78 950 [ccs_string (Some [65; 66])] (mkB 77 900 [ccs_int 3; ccs_int (-4)] (Some [9])) (-3) None /\
      m 7000 = Some (ccs_object 78) /\ m 600 = None /\ m 4096 = Some (ccs_object 900) /\ r_mem s = []
  | _ => False
  end /\
  deser_eval (fun n => n <? 40) ex_heap lenZ ex_at true OBJ_EVALUATION (read_conf (fun n => n <? 40) ex_heap lenZ ex_at true 77)
    (Some (fun k => if k =? 8192 then Some (ccs_object 900) else ex_map k)) true 78 (mkR ex_bytes (lenZ ex_bytes)) = Err ERR_INVALID_OBJECT /\
  deser_eval (fun n => n <? 20) ex_heap lenZ ex_at true OBJ_EVALUATION (read_conf (fun n => n <? 20) ex_heap lenZ ex_at true 77) (Some ex_map) true 78 (mkR ex_bytes (lenZ ex_bytes)) = Err ERR_OUT_OF_MEMORY.
Proof.
  split.
  { unfold storable_eval, storable_bobj, storable_values. cbn. repeat split; try lia; repeat constructor; cbn; try lia. }
  vm_compute. repeat split.
Qed.
