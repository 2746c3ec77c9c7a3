(** Property C84: saving and restoring a tuner together with its spaces. *)
From Coq Require Import ZArith List Bool Lia.
From Verif Require Import Base Datum CodecModel CodecSpec CmpModel ParamModel ParamSpec ContextModel ContextSpec ContextProofs ExprModel ExprSpec TreeModel RngModel RngSpec RngProps TreeCodecSpec TreeSpaceModel TreeSpaceSpec TreeConfModel TreeConfSpec RestoreModel RestoreSpec TunerCodecModel TunerCodecSpec DistModel DistCodecModel DistCodecSpec DistCodecProps EvalModel SpaceCodecModel SpaceCodecSpec SpaceModel SpaceSpec SpaceProps ConfCodecModel ConfCodecSpec ConfCodecProps WholeModel WholeSpec WholeProofs.
Import ListNotations.
Open Scope Z_scope.

(** A tuner [t] over a configuration space and an objective space, whatever calls made them,
    with evaluations over these spaces: the bytes, and what is had of them. *)
Theorem C84_tuner : forall jen le heap pud types flog dheap dimension ddist0 R draw known,
  sound_space heap jen dimension ddist0 known ->
  forall S s, reach heap jen dimension ddist0 R draw known S s ->
  forall g ty ud, storable_conf jen heap pud types flog dheap dimension g ty ud s ->
  forall oid oud osp A, let objs := sp_objectives osp in
  storable_space jen heap pud oid oud (sp_ctx osp) A -> Forall (storable_objective A) objs -> 8 * lenZ A + 12 * lenZ objs < 2 ^ 64 ->
  (** the new addresses *)
  forall pid qid did f h otype, let P := s_params s in
  addresses pid (length P) -> addresses qid (length A) -> disjoint pid (length P) qid (length A) -> moves pid P f -> moves qid A h ->
  (forall i, (i < length P)%nat -> otype (pid i) = Some OBJ_PARAMETER) -> (forall i, (i < length A)%nat -> otype (qid i) = Some OBJ_PARAMETER) ->
  forall dimension' ddist R' draw', (forall h, dimension' (ddist h) = 1%nat) ->
  (forall i w, nth_error (s_dists s) i = Some w -> dimension' (did i) = dimension (dw_dist w)) ->
  (** the tuner *)
  forall t, let H := rt_history t in
  storable_tuner (storable_eval storable_bobj) t -> rt_spaces t = mkSaved g ud s oid oud osp ->
  Forall (evaluation_in heap (s_self s) P oid A) H -> evaluations_apart (s_self s) oid H -> incl (rt_optima t) (map eo_id H) ->
  s_self s <> oid -> own g s -> own_handles A objs ->
  exists bs ps qs c', (exists b1 b2, wire_conf_space heap pud dheap le g ty ud s b1 /\ wire_objective_space heap pud oid oud (c_name (sp_ctx osp)) A objs b2 /\
      wire_tuner 8 (b1 ++ b2) (wire_eval 7 (wire_bobj 5)) t bs) /\
    encodes (save_tuner le heap pud types dheap t) bs /\ size_saved_tuner le heap pud types dheap t = Ok (lenZ bs) /\
    same_parameters heap pud pid P ps /\ same_parameters heap pud qid A qs /\ SpaceCodecSpec.same_space (sp_ctx osp) qs c' /\
    forall mem eid cid csid osid outer id, csid <> osid ->
      let read := restore_tuner jen le types flog mem otype pid qid did ddist csid osid eid cid outer id in
      let room := 8 * lenZ A + 12 * lenZ objs in
      (refused_memory mem (block s) -> gives read (Err ERR_OUT_OF_MEMORY) bs True) /\
      (granted mem (block s) -> forall e, parts_fail mem (dists_of dheap s) e -> gives read (Err e) bs True) /\
      (granted mem (block s) -> forall rs, dists_back mem did (dists_of dheap s) rs ->
         exists r, clauses_outcome heap s (new_defaults ps) r /\
           match r with
           | Err e => gives read (Err e) bs True
           | UB u => breaks read u bs
           | Ok _ =>
               (refused_memory mem room -> gives read (Err ERR_OUT_OF_MEMORY) bs True) /\
               exists s', rebuilt pid did f s csid s' /\
                 reach (at_address ps) jen dimension' ddist R' draw' (fun h => In h (map po_id ps)) everything s' /\
                 (granted mem room -> enough mem t -> (forall k, outer = Some k -> k (rt_id t) = None) ->
                  exists H' os, same_history eid cid csid osid H H' /\ same_optima H H' (rt_optima t) os /\
                    gives read (Ok (mkRT id (rt_name t)
                                      (mkRC ps (rng_back g) rs s' (restored_ud ud),
                                       mkRS qs (EvalModel.mkSpace 6 c' (map (fun o => (restored h (fst o), snd o)) objs)) (restored_ud oud))
                                      H' os (restored_ud (rt_ud t)), TunerCodecSpec.noted outer (rt_id t) id)) bs
                      ((plain pud dheap g ud s /\ (ud_bytes oud = [] /\ SpaceCodecSpec.no_data pud A) /\ Forall (fun o => no_user_data (fst o)) objs) /\ plain_tuner plain_bobj t))
           end).
Proof. exact whole_saved. Qed.
Print Assumptions C84_tuner.

(** Example: the configuration space of ConfCodecProps, an objective space 700 over its
    parameters 10 and 30, three evaluations *)
Definition wh_ctx : context := mkContext [111] [10; 30] (entries sh [10; 30] 0).
Definition wh_objs : list (expr * Z) := [(cc_var 230 30, MINIMIZE); (EOp (mkObj 231 (Some [8])) XADD [cc_var 232 10; cc_var 233 30], MAXIMIZE)].
Definition wh_osp : EvalModel.space := EvalModel.mkSpace OT_OBJECTIVE_SPACE wh_ctx wh_objs.
Definition wh_ev (id a b r : Z) : eobj bobj := mkE id 700 [ccs_int a; ccs_int b] (mkB (id + 1) 500 [ccs_int 1; ccs_int a; ccs_int b] None) r None.
Definition wh (o : list Z) : rtuner bobj saved :=
  mkRT 5000 [116] (mkSaved used_rng (Some [1]) cc_s 700 None wh_osp) [wh_ev 7000 2 3 0; wh_ev 7100 1 4 (-2); wh_ev 7200 0 5 0] o (Some [9]).
Definition wh_qid (i : nat) : Z := 120 + Z.of_nat i.
Definition wh_otype (h : Z) : option Z := if (100 <=? h) && (h <? 103) || (120 <=? h) && (h <? 122) then Some OBJ_PARAMETER else None.
Definition wh_moved (h : Z) : Z := if h =? 10 then 120 else 121.
Definition wh_bytes (t : rtuner bobj saved) : list Z :=
  match save_tuner true sh cc_pud gsl_table cc_dheap t (mkW [] (repeat 0 900) 900) with Ok w => w_done w | _ => [] end.
Definition wh_read (mem : Z -> bool) (outer : option hmap) (bs : list Z) :=
  restore_tuner sjen true gsl_table dc_flog mem wh_otype cc_pid wh_qid cc_did cc_ddist 900 950 (fun i => 8000 + Z.of_nat i) (fun i => 8100 + Z.of_nat i) outer 77 (mkR bs (lenZ bs)).
Example C84_ex :
  storable_space sjen sh cc_pud 700 None wh_ctx [10; 30] /\ Forall (storable_objective [10; 30]) wh_objs /\ own_handles [10; 30] wh_objs /\ own used_rng cc_s /\
  addresses wh_qid 2 /\ disjoint cc_pid 3 wh_qid 2 /\ moves wh_qid [10; 30] wh_moved /\
  storable_tuner (storable_eval storable_bobj) (wh [7200; 7100]) /\ Forall (evaluation_in sh 500 [10; 20; 30] 700 [10; 30]) (rt_history (wh [7200; 7100])) /\
  evaluations_apart 500 700 (rt_history (wh [7200; 7100])) /\ incl [7200; 7100] (map eo_id (rt_history (wh [7200; 7100]))) /\
  (match wh_read (fun n => n <=? 104) (Some (fun _ => None)) (wh_bytes (wh [7200; 7100])) with
   | Ok ((t, Some k), s) =>
       rt_name t = [116] /\ rt_ud t = Some [9] /\ rt_optima t = [8002; 8001] /\ r_mem s = [] /\ k 5000 = Some (ccs_object 77) /\
       rebuilt cc_pid cc_did cc_moved cc_s 900 (rc_space (fst (rt_spaces t))) /\ c_params (sp_ctx (rs_space (snd (rt_spaces t)))) = [120; 121] /\
       sp_objectives (rs_space (snd (rt_spaces t))) = [(cc_var 230 121, MINIMIZE); (EOp (mkObj 231 (Some [8])) XADD [cc_var 232 120; cc_var 233 121], MAXIMIZE)] /\
       rt_history t = [mkE 8000 950 [ccs_int 2; ccs_int 3] (mkB 8100 900 [ccs_int 1; ccs_int 2; ccs_int 3] None) 0 None;
                       mkE 8001 950 [ccs_int 1; ccs_int 4] (mkB 8101 900 [ccs_int 1; ccs_int 1; ccs_int 4] None) (-2) None;
                       mkE 8002 950 [ccs_int 0; ccs_int 5] (mkB 8102 900 [ccs_int 1; ccs_int 0; ccs_int 5] None) 0 None]
   | _ => False end) /\
  wh_read (fun n => n <? 104) None (wh_bytes (wh [7200; 7100])) = Err ERR_OUT_OF_MEMORY /\
  wh_read (fun _ => true) (Some (fun _ => Some (ccs_object 3))) (wh_bytes (wh [7200; 7100])) = Err ERR_DUPLICATE_HANDLE.
Proof.
  assert (V : forall o h, In h [10; 30] -> 0 < o < 300 -> wf_expr (fun h => In h [10; 30]) (cc_var o h) /\ ExprSpec.storable (cc_var o h)).
  { intros o h I O. assert (0 < h < 100) by (destruct I as [<-|[<-|[]]]; lia). split; constructor; cbn; auto; try lia; split; lia. }
  split.
  { split; [split; lia|]. split; [cbn; lia|]. split; [split; [repeat constructor; lia|cbn; lia]|]. split; [|split; [|cbn; lia]].
    - apply good_describes. split; [reflexivity|]. split; [reflexivity|]. repeat constructor; vm_compute; intuition discriminate.
    - repeat constructor; try (cbn; lia); (apply (proj1 sh_sound); unfold sknown; auto). }
  split.
  { constructor; [|constructor; [|constructor]]; unfold storable_objective; cbn [fst snd].
    - destruct (V 230 30 ltac:(right; now left) ltac:(lia)). auto.
    - destruct (V 232 10 ltac:(now left) ltac:(lia)). destruct (V 233 30 ltac:(right; now left) ltac:(lia)).
      split; [constructor; auto; cbn; repeat constructor; vm_compute; intuition discriminate|]. split; [|auto]. constructor; auto; cbn; try lia; split; lia. }
  split; [split; [repeat constructor; cbn; intuition discriminate|]; intros h [<-|[<-|[]]]; cbn; intuition discriminate|].
  split; [exact (proj1 (proj2 (proj2 C76_ex)))|].
  split; [split; intros; unfold wh_qid in *; lia|]. split; [intros i j Hi Hj; unfold cc_pid, wh_qid; lia|].
  split; [intros [|[|i]] h E; try (injection E as <-; reflexivity); destruct i; discriminate|].
  split.
  { unfold storable_tuner, storable_eval, storable_bobj, storable_values, ParamSpec.ok_name. cbn. repeat split; try lia; repeat constructor; cbn; try lia; repeat constructor; cbn; try lia. }
  split.
  { repeat constructor; try reflexivity; intros i d x N Q; exfalso; repeat (destruct i as [|i]; [injection N as <-; discriminate Q|]); destruct i; discriminate N. }
  split; [split; [repeat constructor; cbn; intuition discriminate|]; intros e [<-|[<-|[<-|[]]]]; cbn; lia|].
  split; [intros x [<-|[<-|[]]]; cbn; auto|].
  split; [vm_compute; repeat split|]. split; vm_compute; reflexivity.
Qed.
