(** Property C87: saving and restoring user defined tuners together with their spaces. *)
From Coq Require Import ZArith List Bool Lia.
From Verif Require Import Base Datum CodecModel CodecSpec CodecProofs CmpModel ParamModel ParamSpec ContextModel ContextProps EvalModel TreeModel TreeCodecSpec RngModel TreeSpaceModel TreeSpaceSpec TreeConfModel TreeConfSpec RestoreModel RestoreSpec RestoreProps TunerCodecModel TunerCodecSpec TunerCodecProps UserTunerModel UserTunerSpec UserTunerKinds ContextSpec ContextProofs ExprModel ExprSpec RngSpec RngProps DistModel DistCodecModel DistCodecSpec DistCodecProps SpaceCodecModel SpaceCodecSpec SpaceModel SpaceSpec SpaceProps ConfCodecModel ConfCodecSpec ConfCodecProps WholeModel WholeSpec WholeProofs WholeProps FeatWholeModel FeatWholeSpec FeatWholeProofs WholeProps FeatWholeProps UserWholeModel UserWholeSpec UserWholeProofs UserWholeFeatures.
Import ListNotations.
Open Scope Z_scope.

(** A tuner [u] of the application, which says that its history is [H], its optima [O] and its
    state [st], over a configuration space and an objective space, whatever calls made them,
    with evaluations over these spaces: the bytes, and what is had of them. The application is
    given the same history over the spaces that were restored, the same optima of it and the
    same state, and what it answers decides. *)
Theorem C87_tuner : forall jen le heap pud types flog dheap dimension ddist0 R draw known,
  sound_space heap jen dimension ddist0 known ->
  forall S s, reach heap jen dimension ddist0 R draw known S s ->
  forall g ty ud, storable_conf jen heap pud types flog dheap dimension g ty ud s ->
  forall oid oud osp A, let objs := sp_objectives osp in
  storable_space jen heap pud oid oud (sp_ctx osp) A -> Forall (storable_objective A) objs -> 8 * lenZ A + 12 * lenZ objs < 2 ^ 64 ->
  (** the new addresses *)
  forall pid qid did f h otype, let P := s_params s in
  addresses pid (length P) -> addresses qid (length A) -> disjoint pid (length P) qid (length A) -> moves pid P f -> moves qid A h ->
  (forall i, (i < length P)%nat -> otype (pid i) = Some OBJ_PARAMETER) -> (forall i, (i < length A)%nat -> otype (qid i) = Some OBJ_PARAMETER) ->
  forall dimension' ddist R' draw', (forall h, dimension' (ddist h) = 1%nat) ->
  (forall i w, nth_error (s_dists s) i = Some w -> dimension' (did i) = dimension (dw_dist w)) ->
  (** the tuner *)
  forall u H O st wmem, answers (ut_state u) H O st -> lenZ st < 2 ^ 64 -> granted wmem (8 * (lenZ H + lenZ O)) ->
  let t := speaks u H O in
  storable_tuner (storable_eval storable_bobj) t -> ut_spaces u = mkSaved g ud s oid oud osp ->
  Forall (evaluation_in heap (s_self s) P oid A) H -> evaluations_apart (s_self s) oid H -> incl O (map eo_id H) ->
  s_self s <> oid -> own g s -> own_handles A objs ->
  exists bs ps qs c', (exists b1 b2, wire_conf_space heap pud dheap le g ty ud s b1 /\ wire_objective_space heap pud oid oud (c_name (sp_ctx osp)) A objs b2 /\
      wire_user 8 (b1 ++ b2) (wire_eval 7 (wire_bobj 5)) t st bs) /\
    encodes (save_user wmem le heap pud types dheap u) bs /\ size_saved_user wmem le heap pud types dheap u = Ok (lenZ bs) /\
    same_parameters heap pud pid P ps /\ same_parameters heap pud qid A qs /\ SpaceCodecSpec.same_space (sp_ctx osp) qs c' /\
    forall D St (v : vector bobj D St) data mem eid cid csid osid outer id, csid <> osid ->
      let read := restore_user jen le types flog mem otype pid qid did ddist csid osid eid cid D St v data outer id in
      let room := 8 * lenZ A + 12 * lenZ objs in
      (refused_memory mem (block s) -> gives read (Err ERR_OUT_OF_MEMORY) bs True) /\
      (granted mem (block s) -> forall e, parts_fail mem (dists_of dheap s) e -> gives read (Err e) bs True) /\
      (granted mem (block s) -> forall rs, dists_back mem did (dists_of dheap s) rs ->
         exists r, clauses_outcome heap s (new_defaults ps) r /\
           match r with
           | Err e => gives read (Err e) bs True
           | UB u => breaks read u bs
           | Ok _ =>
               (refused_memory mem room -> gives read (Err ERR_OUT_OF_MEMORY) bs True) /\
               exists s', rebuilt pid did f s csid s' /\
                 reach (at_address ps) jen dimension' ddist R' draw' (fun h => In h (map po_id ps)) everything s' /\
                 (granted mem room -> enough mem t ->
                  exists H' os, same_history eid cid csid osid H H' /\ same_optima H H' O os /\
                    ((forall x, takes_back v data H' os st <> UB x) ->
                    gives read (user_back v data outer id t
                                      (mkRC ps (rng_back g) rs s' (restored_ud ud),
                                       mkRS qs (EvalModel.mkSpace 6 c' (map (fun o => (restored h (fst o), snd o)) objs)) (restored_ud oud)) H' os st) bs
                      ((plain pud dheap g ud s /\ (ud_bytes oud = [] /\ SpaceCodecSpec.no_data pud A) /\ Forall (fun o => no_user_data (fst o)) objs) /\ plain_tuner plain_bobj t)))
           end).
Proof. exact user_whole_saved. Qed.
Print Assumptions C87_tuner.
(** The same with a features space. *)
Theorem C87_features_tuner : forall jen le heap pud types flog dheap dimension ddist0 R draw known,
  sound_space heap jen dimension ddist0 known ->
  forall S s, reach heap jen dimension ddist0 R draw known S s ->
  forall g ty ud, storable_conf jen heap pud types flog dheap dimension g ty ud s ->
  forall oid oud osp A, let objs := sp_objectives osp in
  storable_space jen heap pud oid oud (sp_ctx osp) A -> Forall (storable_objective A) objs -> 8 * lenZ A + 12 * lenZ objs < 2 ^ 64 ->
  forall xid xud xctx B, storable_space jen heap pud xid xud xctx B ->
  (** the new addresses *)
  forall pid qid uid did f h otype, let P := s_params s in
  addresses pid (length P) -> addresses qid (length A) -> addresses uid (length B) ->
  disjoint pid (length P) qid (length A) -> disjoint pid (length P) uid (length B) -> disjoint qid (length A) uid (length B) -> moves pid P f -> moves qid A h ->
  (forall i, (i < length P)%nat -> otype (pid i) = Some OBJ_PARAMETER) -> (forall i, (i < length A)%nat -> otype (qid i) = Some OBJ_PARAMETER) ->
  forall dimension' ddist R' draw', (forall h, dimension' (ddist h) = 1%nat) ->
  (forall i w, nth_error (s_dists s) i = Some w -> dimension' (did i) = dimension (dw_dist w)) ->
  (** the tuner *)
  forall u H O st wmem, answers (ut_state u) H O st -> lenZ st < 2 ^ 64 -> granted wmem (8 * (lenZ H + lenZ O)) ->
  let t := speaks u H O in
  storable_tuner (storable_eval storable_pair) t -> ut_spaces u = mkFSaved (mkSaved g ud s oid oud osp) xid xud xctx ->
  Forall (features_evaluation_in heap (s_self s) P oid A xid B) H -> features_evaluations_apart (s_self s) oid xid H -> incl O (map eo_id H) ->
  s_self s <> oid -> s_self s <> xid -> oid <> xid -> own g s -> own_handles A objs ->
  exists bs ps qs us c' x', (exists b1 b2 b3, wire_conf_space heap pud dheap le g ty ud s b1 /\ wire_objective_space heap pud oid oud (c_name (sp_ctx osp)) A objs b2 /\
      wire_features_space heap pud xid xud (c_name xctx) B b3 /\ wire_user 12 ((b1 ++ b2) ++ b3) (wire_eval 11 wire_pair) t st bs) /\
    encodes (save_features_user wmem le heap pud types dheap u) bs /\ size_saved_features_user wmem le heap pud types dheap u = Ok (lenZ bs) /\
    same_parameters heap pud pid P ps /\ same_parameters heap pud qid A qs /\ same_parameters heap pud uid B us /\
    SpaceCodecSpec.same_space (sp_ctx osp) qs c' /\ SpaceCodecSpec.same_space xctx us x' /\
    forall D St (v : vector (bobj * bobj) D St) data mem eid cid fid csid osid fsid outer id, csid <> osid -> csid <> fsid -> osid <> fsid ->
      let read := restore_features_user jen le types flog mem otype pid qid uid did ddist csid osid fsid eid cid fid D St v data outer id in
      let room := 8 * lenZ A + 12 * lenZ objs in
      (refused_memory mem (block s) -> gives read (Err ERR_OUT_OF_MEMORY) bs True) /\
      (granted mem (block s) -> forall e, parts_fail mem (dists_of dheap s) e -> gives read (Err e) bs True) /\
      (granted mem (block s) -> forall rs, dists_back mem did (dists_of dheap s) rs ->
         exists r, clauses_outcome heap s (new_defaults ps) r /\
           match r with
           | Err e => gives read (Err e) bs True
           | UB u => breaks read u bs
           | Ok _ =>
               (refused_memory mem room -> gives read (Err ERR_OUT_OF_MEMORY) bs True) /\
               (granted mem room -> refused_memory mem (8 * lenZ B) -> gives read (Err ERR_OUT_OF_MEMORY) bs True) /\
               exists s', rebuilt pid did f s csid s' /\
                 reach (at_address ps) jen dimension' ddist R' draw' (fun h => In h (map po_id ps)) everything s' /\
                 (granted mem room -> granted mem (8 * lenZ B) -> features_enough mem t ->
                  exists H' os, same_features_history eid cid fid csid osid fsid H H' /\ same_optima H H' O os /\
                    ((forall x, takes_back v data H' os st <> UB x) ->
                    gives read (user_back v data outer id t
                                      ((mkRC ps (rng_back g) rs s' (restored_ud ud),
                                        mkRS qs (EvalModel.mkSpace 6 c' (map (fun o => (restored h (fst o), snd o)) objs)) (restored_ud oud)),
                                       mkRS us (EvalModel.mkSpace 9 x' []) (restored_ud xud)) H' os st) bs
                      (((plain pud dheap g ud s /\ (ud_bytes oud = [] /\ SpaceCodecSpec.no_data pud A) /\ Forall (fun o => no_user_data (fst o)) objs) /\
                        ud_bytes xud = [] /\ SpaceCodecSpec.no_data pud B) /\ plain_tuner plain_pair t)))
           end).
Proof. exact features_user_whole_saved. Qed.
Print Assumptions C87_features_tuner.

(** Examples: applications with the evaluations of WholeProps and FeatWholeProps, which keep what they are told *)
Definition uw_app {E} (H : list (eobj E)) (o st : list Z) : app E :=
  mkApp (Ok (lenZ H)) (fun _ => Ok (map Some H)) (Ok (lenZ o)) (fun _ => Ok o) (Some (Ok (lenZ st), fun _ => Ok st)).
Definition uw_vector {E} : vector E Z (Z * list (eobj E) * list Z * list Z) :=
  mkVector true (fun d h => Ok (d, h, [], [])) (Some (fun d h o st => if lenZ st =? 0 then Err (-40) else Ok (d, h, o, st))).
Definition uw_c (st : list Z) : utuner saved (app bobj) := mkUT 5000 [116] (rt_spaces (wh [])) (uw_app (rt_history (wh [])) [7200; 7100] st) (Some [9]).
Definition uw_f (st : list Z) : utuner fsaved (app (bobj * bobj)) := mkUT 5000 [116] (rt_spaces fw) (uw_app (rt_history fw) [7100] st) (Some [9]).
Definition uw_done (r : res wstate) : list Z := match r with Ok w => w_done w | _ => [] end.
Definition uw_yes (n : Z) : bool := true.
Definition uw_room : wstate := mkW [] (repeat 0 1200) 1200.
Definition uw_bc st := uw_done (save_user uw_yes true sh cc_pud gsl_table cc_dheap (uw_c st) uw_room).
Definition uw_bf st := uw_done (save_features_user uw_yes true sh cc_pud gsl_table cc_dheap (uw_f st) uw_room).
Definition uw_eid (i : nat) : Z := 8000 + Z.of_nat i.
Definition uw_cid (i : nat) : Z := 8100 + Z.of_nat i.
Definition uw_fid (i : nat) : Z := 8200 + Z.of_nat i.
Definition uw_rc mem outer bs :=
  restore_user sjen true gsl_table dc_flog mem wh_otype cc_pid wh_qid cc_did cc_ddist 900 950 uw_eid uw_cid Z _ uw_vector 33 outer 77 (mkR bs (lenZ bs)).
Definition uw_rf mem outer bs :=
  restore_features_user sjen true gsl_table dc_flog mem wh_otype cc_pid wh_qid fw_uid cc_did cc_ddist 900 950 960 uw_eid uw_cid uw_fid Z _ uw_vector 33 outer 77 (mkR bs (lenZ bs)).
Example C87_ex :
  answers (ut_state (uw_c [1; 2; 3])) (rt_history (wh [])) [7200; 7100] [1; 2; 3] /\
  speaks (uw_c [1; 2; 3]) (rt_history (wh [])) [7200; 7100] = wh [7200; 7100] /\
  (match uw_rc (fun n => n <=? 104) (Some (fun _ => None)) (uw_bc [1; 2; 3]) with
   | Ok ((inr u, Some k), s) =>
       ut_id u = 77 /\ ut_name u = [116] /\ ut_ud u = Some [9] /\ r_mem s = [] /\ k 5000 = Some (ccs_object 77) /\
       rebuilt cc_pid cc_did cc_moved cc_s 900 (rc_space (fst (ut_spaces u))) /\ c_params (sp_ctx (rs_space (snd (ut_spaces u)))) = [120; 121] /\
       ut_state u = (33, [mkE 8000 950 [ccs_int 2; ccs_int 3] (mkB 8100 900 [ccs_int 1; ccs_int 2; ccs_int 3] None) 0 None;
                          mkE 8001 950 [ccs_int 1; ccs_int 4] (mkB 8101 900 [ccs_int 1; ccs_int 1; ccs_int 4] None) (-2) None;
                          mkE 8002 950 [ccs_int 0; ccs_int 5] (mkB 8102 900 [ccs_int 1; ccs_int 0; ccs_int 5] None) 0 None], [8002; 8001], [1; 2; 3])
   | _ => False end) /\
  uw_rc (fun n => n <? 104) None (uw_bc [1; 2; 3]) = Err ERR_OUT_OF_MEMORY /\
  uw_rc uw_yes None (uw_bc []) = Err (-40) /\
  uw_rc uw_yes (Some (fun _ => Some (ccs_object 3))) (uw_bc [1; 2; 3]) = Err ERR_DUPLICATE_HANDLE.
Proof.
  split; [vm_compute; repeat split; intros; reflexivity|]. split; [reflexivity|]. split; [vm_compute; repeat split|]. split; [vm_compute; reflexivity|]. split; vm_compute; reflexivity.
Qed.
Example C87_ex_features :
  (match uw_rf (fun n => n <=? 104) None (uw_bf [1; 2; 3]) with
   | Ok ((inr u, None), s) =>
       ut_id u = 77 /\ ut_ud u = Some [9] /\ r_mem s = [] /\ c_params (sp_ctx (rs_space (snd (ut_spaces u)))) = [130; 131] /\
       ut_state u = (33, [mkE 8000 950 [ccs_int 2; ccs_int 3] (mkB 8100 900 [ccs_int 1; ccs_int 2; ccs_int 3] None, mkB 8200 960 [ccs_int 3; ccs_int 0] (Some [3])) 0 None;
                          mkE 8001 950 [ccs_int 1; ccs_int 4] (mkB 8101 900 [ccs_int 1; ccs_int 1; ccs_int 4] None, mkB 8201 960 [ccs_int 4; ccs_int 0] (Some [3])) (-2) None], [8001], [1; 2; 3])
   | _ => False end) /\
  uw_rf uw_yes None (uw_bf []) = Err (-40).
Proof. split; [vm_compute; repeat split|vm_compute; reflexivity]. Qed.
