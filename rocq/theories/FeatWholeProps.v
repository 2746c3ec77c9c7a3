(** Property C85: saving and restoring a features tuner together with its spaces. *)
From Coq Require Import ZArith List Bool Lia.
From Verif Require Import Base Datum CodecModel CodecSpec CmpModel ParamModel ParamSpec ContextModel ContextSpec ContextProofs ExprModel ExprSpec TreeModel RngModel RngSpec RngProps TreeCodecSpec TreeSpaceModel TreeSpaceSpec TreeConfModel TreeConfSpec RestoreModel RestoreSpec TunerCodecModel TunerCodecSpec DistModel DistCodecModel DistCodecSpec DistCodecProps EvalModel SpaceCodecModel SpaceCodecSpec SpaceModel SpaceSpec SpaceProps ConfCodecModel ConfCodecSpec ConfCodecProps WholeModel WholeSpec WholeProps FeatWholeModel FeatWholeSpec FeatWholeProofs.
Import ListNotations.
Open Scope Z_scope.

(** A features tuner [t] over a configuration space, an objective space and a features space,
    whatever calls made them, with evaluations over these spaces: the bytes, and what is had
    of them. *)
Theorem C85_features_tuner : forall jen le heap pud types flog dheap dimension ddist0 R draw known,
  sound_space heap jen dimension ddist0 known ->
  forall S s, reach heap jen dimension ddist0 R draw known S s ->
  forall g ty ud, storable_conf jen heap pud types flog dheap dimension g ty ud s ->
  forall oid oud osp A, let objs := sp_objectives osp in
  storable_space jen heap pud oid oud (sp_ctx osp) A -> Forall (storable_objective A) objs -> 8 * lenZ A + 12 * lenZ objs < 2 ^ 64 ->
  forall xid xud xctx B, storable_space jen heap pud xid xud xctx B ->
  (** the new addresses *)
  forall pid qid uid did f h otype, let P := s_params s in
  addresses pid (length P) -> addresses qid (length A) -> addresses uid (length B) ->
  disjoint pid (length P) qid (length A) -> disjoint pid (length P) uid (length B) -> disjoint qid (length A) uid (length B) -> moves pid P f -> moves qid A h ->
  (forall i, (i < length P)%nat -> otype (pid i) = Some OBJ_PARAMETER) -> (forall i, (i < length A)%nat -> otype (qid i) = Some OBJ_PARAMETER) ->
  forall dimension' ddist R' draw', (forall h, dimension' (ddist h) = 1%nat) ->
  (forall i w, nth_error (s_dists s) i = Some w -> dimension' (did i) = dimension (dw_dist w)) ->
  (** the tuner *)
  forall t, let H := rt_history t in
  storable_tuner (storable_eval storable_pair) t -> rt_spaces t = mkFSaved (mkSaved g ud s oid oud osp) xid xud xctx ->
  Forall (features_evaluation_in heap (s_self s) P oid A xid B) H -> features_evaluations_apart (s_self s) oid xid H -> incl (rt_optima t) (map eo_id H) ->
  s_self s <> oid -> s_self s <> xid -> oid <> xid -> own g s -> own_handles A objs ->
  exists bs ps qs us c' x', (exists b1 b2 b3, wire_conf_space heap pud dheap le g ty ud s b1 /\ wire_objective_space heap pud oid oud (c_name (sp_ctx osp)) A objs b2 /\
      wire_features_space heap pud xid xud (c_name xctx) B b3 /\ wire_tuner 12 ((b1 ++ b2) ++ b3) (wire_eval 11 wire_pair) t bs) /\
    encodes (save_features_tuner le heap pud types dheap t) bs /\ size_saved_features_tuner le heap pud types dheap t = Ok (lenZ bs) /\
    same_parameters heap pud pid P ps /\ same_parameters heap pud qid A qs /\ same_parameters heap pud uid B us /\
    SpaceCodecSpec.same_space (sp_ctx osp) qs c' /\ SpaceCodecSpec.same_space xctx us x' /\
    forall mem eid cid fid csid osid fsid outer id, csid <> osid -> csid <> fsid -> osid <> fsid ->
      let read := restore_features_tuner jen le types flog mem otype pid qid uid did ddist csid osid fsid eid cid fid outer id in
      let room := 8 * lenZ A + 12 * lenZ objs in
      (refused_memory mem (block s) -> gives read (Err ERR_OUT_OF_MEMORY) bs True) /\
      (granted mem (block s) -> forall e, parts_fail mem (dists_of dheap s) e -> gives read (Err e) bs True) /\
      (granted mem (block s) -> forall rs, dists_back mem did (dists_of dheap s) rs ->
         exists r, clauses_outcome heap s (new_defaults ps) r /\
           match r with
           | Err e => gives read (Err e) bs True
           | UB u => breaks read u bs
           | Ok _ =>
               (refused_memory mem room -> gives read (Err ERR_OUT_OF_MEMORY) bs True) /\
               (granted mem room -> refused_memory mem (8 * lenZ B) -> gives read (Err ERR_OUT_OF_MEMORY) bs True) /\
               exists s', rebuilt pid did f s csid s' /\
                 reach (at_address ps) jen dimension' ddist R' draw' (fun h => In h (map po_id ps)) everything s' /\
                 (granted mem room -> granted mem (8 * lenZ B) -> features_enough mem t -> (forall k, outer = Some k -> k (rt_id t) = None) ->
                  exists H' os, same_features_history eid cid fid csid osid fsid H H' /\ same_optima H H' (rt_optima t) os /\
                    gives read (Ok (mkRT id (rt_name t)
                                      ((mkRC ps (rng_back g) rs s' (restored_ud ud),
                                        mkRS qs (EvalModel.mkSpace 6 c' (map (fun o => (restored h (fst o), snd o)) objs)) (restored_ud oud)),
                                       mkRS us (EvalModel.mkSpace 9 x' []) (restored_ud xud))
                                      H' os (restored_ud (rt_ud t)), TunerCodecSpec.noted outer (rt_id t) id)) bs
                      (((plain pud dheap g ud s /\ (ud_bytes oud = [] /\ SpaceCodecSpec.no_data pud A) /\ Forall (fun o => no_user_data (fst o)) objs) /\
                        ud_bytes xud = [] /\ SpaceCodecSpec.no_data pud B) /\ plain_tuner plain_pair t))
           end).
Proof. exact features_whole_saved. Qed.
Print Assumptions C85_features_tuner.

(** Example: the spaces of WholeProps, a features space 800 over the parameters 20 and 30,
    two evaluations *)
Definition fw_ctx : context := mkContext [102] [20; 30] (entries sh [20; 30] 0).
Definition fw_ev (id a b r : Z) : eobj (bobj * bobj) :=
  mkE id 700 [ccs_int a; ccs_int b] (mkB (id + 1) 500 [ccs_int 1; ccs_int a; ccs_int b] None, mkB (id + 2) 800 [ccs_int b; ccs_int 0] (Some [3])) r None.
Definition fw : rtuner (bobj * bobj) fsaved :=
  mkRT 5000 [116] (mkFSaved (mkSaved used_rng (Some [1]) cc_s 700 None wh_osp) 800 (Some [6]) fw_ctx) [fw_ev 7000 2 3 0; fw_ev 7100 1 4 (-2)] [7100; 7000] (Some [9]).
Definition fw_uid (i : nat) : Z := 130 + Z.of_nat i.
Definition fw_bytes : list Z :=
  match save_features_tuner true sh cc_pud gsl_table cc_dheap fw (mkW [] (repeat 0 1200) 1200) with Ok w => w_done w | _ => [] end.
Definition fw_read (mem : Z -> bool) (outer : option hmap) (bs : list Z) :=
  restore_features_tuner sjen true gsl_table dc_flog mem wh_otype cc_pid wh_qid fw_uid cc_did cc_ddist 900 950 960
    (fun i => 8000 + Z.of_nat i) (fun i => 8100 + Z.of_nat i) (fun i => 8200 + Z.of_nat i) outer 77 (mkR bs (lenZ bs)).
Example C85_ex :
  storable_space sjen sh cc_pud 800 (Some [6]) fw_ctx [20; 30] /\
  addresses fw_uid 2 /\ disjoint cc_pid 3 fw_uid 2 /\ disjoint wh_qid 2 fw_uid 2 /\
  storable_tuner (storable_eval storable_pair) fw /\ Forall (features_evaluation_in sh 500 [10; 20; 30] 700 [10; 30] 800 [20; 30]) (rt_history fw) /\
  features_evaluations_apart 500 700 800 (rt_history fw) /\ incl (rt_optima fw) (map eo_id (rt_history fw)) /\
  (match fw_read (fun n => n <=? 104) (Some (fun _ => None)) fw_bytes with
   | Ok ((t, Some k), s) =>
       rt_name t = [116] /\ rt_ud t = Some [9] /\ rt_optima t = [8001; 8000] /\ r_mem s = [] /\ k 5000 = Some (ccs_object 77) /\
       rebuilt cc_pid cc_did cc_moved cc_s 900 (rc_space (fst (fst (rt_spaces t)))) /\ c_params (sp_ctx (rs_space (snd (fst (rt_spaces t))))) = [120; 121] /\
       sp_ctx (rs_space (snd (rt_spaces t))) = mkContext [102] [130; 131] [mkEntry 130 [98] 0; mkEntry 131 [99] 1] /\ rs_ud (snd (rt_spaces t)) = Some [6] /\
       map po_ud (rs_params (snd (rt_spaces t))) = [Some [5; 6]; None] /\
       rt_history t = [mkE 8000 950 [ccs_int 2; ccs_int 3] (mkB 8100 900 [ccs_int 1; ccs_int 2; ccs_int 3] None, mkB 8200 960 [ccs_int 3; ccs_int 0] (Some [3])) 0 None;
                       mkE 8001 950 [ccs_int 1; ccs_int 4] (mkB 8101 900 [ccs_int 1; ccs_int 1; ccs_int 4] None, mkB 8201 960 [ccs_int 4; ccs_int 0] (Some [3])) (-2) None]
   | _ => False end) /\
  fw_read (fun n => n <? 104) None fw_bytes = Err ERR_OUT_OF_MEMORY /\
  fw_read (fun n => negb (n =? 16)) None fw_bytes = Err ERR_OUT_OF_MEMORY /\
  fw_read (fun _ => true) (Some (fun _ => Some (ccs_object 3))) fw_bytes = Err ERR_DUPLICATE_HANDLE.
Proof.
  split.
  { split; [split; lia|]. split; [cbn; lia|]. split; [split; [repeat constructor; lia|cbn; lia]|]. split; [|split; [|cbn; lia]].
    - apply good_describes. split; [reflexivity|]. split; [reflexivity|]. repeat constructor; vm_compute; intuition discriminate.
    - repeat constructor; try (cbn; lia); (apply (proj1 sh_sound); unfold sknown; auto). }
  split; [split; intros; unfold fw_uid in *; lia|]. split; [intros i j Hi Hj; unfold cc_pid, fw_uid; lia|]. split; [intros i j Hi Hj; unfold wh_qid, fw_uid; lia|].
  split.
  { unfold storable_tuner, storable_eval, storable_pair, storable_bobj, storable_values, ParamSpec.ok_name. cbn. repeat split; try lia; repeat constructor; cbn; try lia; repeat constructor; cbn; try lia. }
  split.
  { repeat constructor; try reflexivity; intros i d x N Q; exfalso; repeat (destruct i as [|i]; [injection N as <-; discriminate Q|]); destruct i; discriminate N. }
  split; [split; [repeat constructor; cbn; intuition discriminate|]; intros e [<-|[<-|[]]]; cbn; lia|].
  split; [intros x [<-|[<-|[]]]; cbn; auto|].
  split; [vm_compute; repeat split|]. split; [vm_compute; reflexivity|]. split; vm_compute; reflexivity.
Qed.
