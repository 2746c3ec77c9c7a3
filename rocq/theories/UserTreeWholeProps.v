(** Property C87, continued: saving and restoring user defined tree tuners. *)
From Coq Require Import ZArith List Bool Lia.
From Verif Require Import Base Datum CodecModel CodecSpec CmpModel ParamModel ParamSpec ContextModel ContextSpec ContextProofs ExprModel ExprSpec EvalModel TreeModel TreeSpec RngModel RngSpec RngProps TreeCodecSpec TreeSpaceModel TreeSpaceSpec TreeSpaceProps TreeConfModel TreeConfSpec RestoreModel RestoreSpec TunerCodecModel TunerCodecSpec SpaceCodecModel SpaceCodecSpec SpaceProps ConfCodecProps WholeSpec WholeProps FeatWholeSpec TreeWholeModel TreeWholeSpec TreeWholeProofs TreeWholeProps UserTunerModel UserTunerSpec UserWholeModel UserWholeSpec UserWholeProps UserWholeTree.
Import ListNotations.
Open Scope Z_scope.

(** The same with a static tree space, whatever a tree space would take the vector and the
    pointer of the tuner for. *)
Theorem C87_tree_tuner : forall S jen types le heap pud th (sp : tspace S) ty T,
  table types -> of_table types (ts_rng S sp) ty -> reached th -> storable_heap th -> represents th (ts_tree S sp) T -> TreeSpaceSpec.storable_space S sp ->
  forall oid oud osp A, let objs := sp_objectives osp in
  SpaceCodecSpec.storable_space jen heap pud oid oud (sp_ctx osp) A -> Forall (storable_objective A) objs -> 8 * lenZ A + 12 * lenZ objs < 2 ^ 64 ->
  (** the new addresses *)
  forall qid f otype, addresses qid (length A) -> moves qid A f -> (forall i, (i < length A)%nat -> otype (qid i) = Some OBJ_PARAMETER) ->
  forall dflt dty, nth_error types dflt = Some dty ->
  (** the tuner *)
  forall u H O st wmem, answers (ut_state u) H O st -> lenZ st < 2 ^ 64 -> granted wmem (8 * (lenZ H + lenZ O)) ->
  let t := speaks u H O in
  storable_tuner (storable_eval storable_conf) t -> ut_spaces u = mkTSaved S th sp oid oud osp ->
  Forall (tree_evaluation_in heap (ts_id S sp) oid A) H -> tree_evaluations_apart (ts_id S sp) oid H -> incl O (map eo_id H) ->
  ts_id S sp <> oid -> own_handles A objs ->
  exists bs qs c', (exists head sb ub b2, wire_space S le ty th sp head sb ub /\ wire_objective_space heap pud oid oud (c_name (sp_ctx osp)) A objs b2 /\
      wire_user 19 ((head ++ sb ++ ub) ++ b2) (wire_eval 18 wire_conf) t st bs) /\
    encodes (save_tree_user wmem le heap pud types S u) bs /\ size_saved_tree_user wmem le heap pud types S u = Ok (lenZ bs) /\
    same_parameters heap pud qid A qs /\ SpaceCodecSpec.same_space (sp_ctx osp) qs c' /\
    forall D St (v : vector tconf D St) data mem eid cid csid osid outer id gid tv ts h2, reached h2 ->
      let read := restore_tree_user jen le types mem otype qid csid osid eid cid D St S dflt gid tv ts h2 v data outer id in
      let room := 8 * lenZ A + 12 * lenZ objs in
      ts_kind S sp = KStatic S ->
         (refused_memory mem room -> gives read (Err ERR_OUT_OF_MEMORY) bs True) /\
         exists t1 h1, reached h1 /\ represents h1 t1 (restored_tree T) /\ is_root h1 t1 /\ (forall x, alive h2 x -> seen h1 x = seen h2 x) /\
           (granted mem room -> tree_enough mem t ->
            exists H' os, same_tree_history eid cid csid osid H H' /\ same_optima H H' O os /\
              ((forall x, takes_back v data H' os st <> UB x) ->
                    gives read (user_back v data outer id t
                                ((TreeSpaceModel.mkSpace S csid (ts_name S sp) (mkRng gid dflt (t_init dty) None) t1 (KStatic S) (restored_ud (ts_ud S sp)), h1),
                                 mkRS qs (EvalModel.mkSpace 6 c' (map (fun o => (restored f (fst o), snd o)) objs)) (restored_ud oud)) H' os st) bs
                (((TreeCodecSpec.plain T /\ ud_bytes (g_ud (ts_rng S sp)) = [] /\ ud_bytes (ts_ud S sp) = []) /\
                  (ud_bytes oud = [] /\ SpaceCodecSpec.no_data pud A) /\ Forall (fun o => no_user_data (fst o)) objs) /\ plain_tuner plain_conf t))).
Proof. exact tree_user_whole_saved. Qed.
Print Assumptions C87_tree_tuner.

(** Example: an application with the evaluations of TreeWholeProps *)
Definition uw_ts := tw_space (KStatic nat) (Some [42]).
Definition uw_t (st : list Z) : utuner (tsaved nat) (app tconf) := mkUT 5000 [116] (rt_spaces (tw uw_ts)) (uw_app (rt_history (tw uw_ts)) [7000] st) (Some [9]).
Definition uw_bt st := uw_done (save_tree_user uw_yes true sh cc_pud gsl_table nat (uw_t st) uw_room).
Definition uw_rt mem outer bs :=
  restore_tree_user sjen true gsl_table mem wh_otype wh_qid 900 950 uw_eid uw_cid Z _ nat 0 8192 (Some maker) 3%nat [] uw_vector 33 outer 77 (mkR bs (lenZ bs)).
Example C87_ex_tree :
  (match uw_rt (fun n => n <=? 40) None (uw_bt [1; 2; 3]) with
   | Ok ((inr u, None), s) =>
       ut_id u = 77 /\ ut_ud u = Some [9] /\ r_mem s = [] /\ ts_id nat (fst (fst (ut_spaces u))) = 900 /\ ts_ud nat (fst (fst (ut_spaces u))) = Some [42] /\
       ut_state u = (33, [mkE 8000 950 [ccs_int 2; ccs_int 3] (mkConf 8100 900 [1; 0] (Some [3])) 0 None; mkE 8001 950 [ccs_int 1; ccs_int 4] (mkConf 8101 900 [] (Some [3])) (-2) None], [8000], [1; 2; 3])
   | _ => False end) /\
  uw_rt uw_yes None (uw_bt []) = Err (-40).
Proof. split; [vm_compute; repeat split|vm_compute; reflexivity]. Qed.
