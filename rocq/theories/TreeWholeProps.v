(** Property C86: saving and restoring a tree tuner together with its spaces. *)
From Coq Require Import ZArith List Bool Lia.
From Verif Require Import Base Datum CodecModel CodecSpec CmpModel ParamModel ParamSpec ContextModel ContextSpec ContextProofs ExprModel ExprSpec EvalModel TreeModel TreeSpec RngModel RngSpec RngProps TreeCodecSpec TreeSpaceModel TreeSpaceSpec TreeSpaceProps TreeConfModel TreeConfSpec RestoreModel RestoreSpec TunerCodecModel TunerCodecSpec SpaceCodecModel SpaceCodecSpec SpaceProps ConfCodecProps WholeSpec WholeProps FeatWholeSpec TreeWholeModel TreeWholeSpec TreeWholeProofs.
Import ListNotations.
Open Scope Z_scope.

(** The reader of tree spaces within a tuner is that of C52, which also records the space. *)
Theorem C86_reader : forall S types le dflt gid (v : option (tvector S)) st keep id h m s,
  match deser_space S types dflt le gid v st h s with
  | Ok ((sp, h'), s') =>
      ((keep = true -> m (ts_id S sp) = None) ->
       deser_tree_space S types le dflt gid v st keep id h m s = Ok (((elsewhere sp id, h'), if keep then recording m (ts_id S sp) id else m), s')) /\
      (keep = true -> m (ts_id S sp) <> None -> deser_tree_space S types le dflt gid v st keep id h m s = Err ERR_DUPLICATE_HANDLE)
  | Err e => ((keep = true -> forall k, m k = None) -> deser_tree_space S types le dflt gid v st keep id h m s = Err e)
  | UB u => ((keep = true -> forall k, m k = None) -> deser_tree_space S types le dflt gid v st keep id h m s = UB u)
  end.
Proof. exact tree_reader. Qed.
Print Assumptions C86_reader.

(** A tree tuner [t] over a tree space and an objective space, with evaluations over these
    spaces: the bytes, and what is had of them. Over a static tree space, the tuner; over a
    dynamic one, an error. *)
Theorem C86_tree_tuner : forall S jen types le heap pud th (sp : tspace S) ty T,
  table types -> of_table types (ts_rng S sp) ty -> reached th -> storable_heap th -> represents th (ts_tree S sp) T -> TreeSpaceSpec.storable_space S sp ->
  forall oid oud osp A, let objs := sp_objectives osp in
  SpaceCodecSpec.storable_space jen heap pud oid oud (sp_ctx osp) A -> Forall (storable_objective A) objs -> 8 * lenZ A + 12 * lenZ objs < 2 ^ 64 ->
  (** the new addresses *)
  forall qid f otype, addresses qid (length A) -> moves qid A f -> (forall i, (i < length A)%nat -> otype (qid i) = Some OBJ_PARAMETER) ->
  forall dflt dty, nth_error types dflt = Some dty ->
  (** the tuner *)
  forall t, let H := rt_history t in
  storable_tuner (storable_eval storable_conf) t -> rt_spaces t = mkTSaved S th sp oid oud osp ->
  Forall (tree_evaluation_in heap (ts_id S sp) oid A) H -> tree_evaluations_apart (ts_id S sp) oid H -> incl (rt_optima t) (map eo_id H) ->
  ts_id S sp <> oid -> own_handles A objs ->
  exists bs qs c', (exists head sb ub b2, wire_space S le ty th sp head sb ub /\ wire_objective_space heap pud oid oud (c_name (sp_ctx osp)) A objs b2 /\
      wire_tuner 19 ((head ++ sb ++ ub) ++ b2) (wire_eval 18 wire_conf) t bs) /\
    encodes (save_tree_tuner S types le heap pud t) bs /\ size_saved_tree_tuner S types le heap pud t = Ok (lenZ bs) /\
    same_parameters heap pud qid A qs /\ SpaceCodecSpec.same_space (sp_ctx osp) qs c' /\
    forall mem eid cid csid osid outer id gid v st h2, reached h2 ->
      let read := restore_tree_tuner S types le dflt gid v st jen mem otype qid csid osid h2 eid cid outer id in
      let room := 8 * lenZ A + 12 * lenZ objs in
      (ts_kind S sp = KStatic S ->
         (refused_memory mem room -> gives read (Err ERR_OUT_OF_MEMORY) bs True) /\
         exists t1 h1, reached h1 /\ represents h1 t1 (restored_tree T) /\ is_root h1 t1 /\ (forall x, alive h2 x -> seen h1 x = seen h2 x) /\
           (granted mem room -> tree_enough mem t -> (forall k, outer = Some k -> k (rt_id t) = None) ->
            exists H' os, same_tree_history eid cid csid osid H H' /\ same_optima H H' (rt_optima t) os /\
              gives read (Ok (mkRT id (rt_name t)
                                ((TreeSpaceModel.mkSpace S csid (ts_name S sp) (mkRng gid dflt (t_init dty) None) t1 (KStatic S) (restored_ud (ts_ud S sp)), h1),
                                 mkRS qs (EvalModel.mkSpace 6 c' (map (fun o => (restored f (fst o), snd o)) objs)) (restored_ud oud)) H' os (restored_ud (rt_ud t)),
                              TunerCodecSpec.noted outer (rt_id t) id)) bs
                (((TreeCodecSpec.plain T /\ ud_bytes (g_ud (ts_rng S sp)) = [] /\ ud_bytes (ts_ud S sp) = []) /\
                  (ud_bytes oud = [] /\ SpaceCodecSpec.no_data pud A) /\ Forall (fun o => no_user_data (fst o)) objs) /\ plain_tuner plain_conf t))) /\
      (forall vs st0, ts_kind S sp = KDynamic S vs st0 ->
         (v = None -> gives read (Err ERR_INVALID_VALUE) bs True) /\
         (forall vr g e, v = Some vr -> tv_load S vr = Some g -> g st [] = Err e -> gives read (Err e) bs True) /\
         (forall vr st', v = Some vr -> match tv_load S vr with Some g => g st [] = Ok st' | None => st' = st end ->
            ud_bytes (ts_ud S sp) = [] -> gives read (Err ERR_INVALID_TYPE) bs True)).
Proof. exact tree_whole_saved. Qed.
Print Assumptions C86_tree_tuner.

(** Example: a tree of two nodes, the objective space of WholeProps, two evaluations *)
Definition tw_h1 : heap := match step root_heap (OCreate 1 (ccs_int 60)) with Ok h => h | _ => [] end.
Definition tw_h : heap := match step tw_h1 (OSetChild 0 1 1) with Ok h => h | _ => [] end.
Lemma tw_reached : reached tw_h.
Proof.
  assert (R1 : reached tw_h1).
  { apply (reached_ok root_heap (OCreate 1 (ccs_int 60))); [exact root_heap_reached| |reflexivity]. split; [lia|]. split; [|exact Logic.I]. split; cbn; lia. }
  apply (reached_ok tw_h1 (OSetChild 0 1 1)); [exact R1| |reflexivity]. split; [discriminate|]. split; [discriminate|]. intro U. inversion U as [|id v p i E P]; subst. vm_compute in E. injection E as <-. discriminate P.
Qed.
Definition tw_space (k : kind nat) (ud : option (list Z)) : tspace nat := mkSpace nat 4096 [115] used_rng 0 k ud.
Definition tw_ev (id : Z) (p : list Z) (a b r : Z) : eobj tconf := mkE id 700 [ccs_int a; ccs_int b] (mkConf (id + 1) 4096 p (Some [3])) r None.
Definition tw (sp : tspace nat) : rtuner tconf (tsaved nat) :=
  mkRT 5000 [116] (mkTSaved nat tw_h sp 700 None wh_osp) [tw_ev 7000 [1; 0] 2 3 0; tw_ev 7100 [] 1 4 (-2)] [7100; 7000] (Some [9]).
Definition tw_bytes (sp : tspace nat) : list Z :=
  match save_tree_tuner nat gsl_table true sh cc_pud (tw sp) (mkW [] (repeat 0 900) 900) with Ok w => w_done w | _ => [] end.
Definition tw_read (v : option (tvector nat)) (mem : Z -> bool) (outer : option hmap) (bs : list Z) :=
  restore_tree_tuner nat gsl_table true 0 8192 v 3%nat sjen mem wh_otype wh_qid 900 950 [] (fun i => 8000 + Z.of_nat i) (fun i => 8100 + Z.of_nat i) outer 77 (mkR bs (lenZ bs)).
Example C86_ex : reached tw_h /\ storable_heap tw_h /\
  represents tw_h 0 (TNode (ccs_int 50) 4607182418800017408 4607182418800017408 [None; Some (TNode (ccs_int 60) 4607182418800017408 4607182418800017408 [None] None)] None) /\
  storable_tuner (storable_eval storable_conf) (tw (tw_space (KStatic nat) (Some [42]))) /\
  Forall (tree_evaluation_in sh 4096 700 [10; 30]) (rt_history (tw (tw_space (KStatic nat) (Some [42])))) /\
  tree_evaluations_apart 4096 700 (rt_history (tw (tw_space (KStatic nat) (Some [42])))) /\
  (match tw_read None (fun n => n <=? 40) (Some (fun _ => None)) (tw_bytes (tw_space (KStatic nat) (Some [42]))) with
   | Ok ((t, Some k), s) =>
       rt_name t = [116] /\ rt_ud t = Some [9] /\ rt_optima t = [8001; 8000] /\ r_mem s = [] /\ k 5000 = Some (ccs_object 77) /\
       ts_id nat (fst (fst (rt_spaces t))) = 900 /\ ts_name nat (fst (fst (rt_spaces t))) = [115] /\ ts_ud nat (fst (fst (rt_spaces t))) = Some [42] /\
       g_type (ts_rng nat (fst (fst (rt_spaces t)))) = 0%nat /\ c_params (sp_ctx (rs_space (snd (rt_spaces t)))) = [120; 121] /\
       rt_history t = [mkE 8000 950 [ccs_int 2; ccs_int 3] (mkConf 8100 900 [1; 0] (Some [3])) 0 None; mkE 8001 950 [ccs_int 1; ccs_int 4] (mkConf 8101 900 [] (Some [3])) (-2) None]
   | _ => False end) /\
  tw_read None (fun n => n <? 40) None (tw_bytes (tw_space (KStatic nat) (Some [42]))) = Err ERR_OUT_OF_MEMORY /\
  tw_read None (fun _ => true) (Some (fun _ => Some (ccs_object 3))) (tw_bytes (tw_space (KStatic nat) (Some [42]))) = Err ERR_DUPLICATE_HANDLE /\
  tw_read (Some maker) (fun _ => true) None (tw_bytes (tw_space (KDynamic nat maker 7%nat) None)) = Err ERR_INVALID_TYPE /\
  tw_read None (fun _ => true) None (tw_bytes (tw_space (KDynamic nat maker 7%nat) None)) = Err ERR_INVALID_VALUE.
Proof.
  split; [exact tw_reached|].
  split; [split; [vm_compute; discriminate|]; intros [|[|x]] v E; vm_compute in E; [injection E as <-; vm_compute; reflexivity|injection E as <-; vm_compute; reflexivity|destruct x; discriminate]|].
  split.
  { assert (X : forall i v kids, seen tw_h i = Some v -> rep_kids tw_h (v_children v) kids -> represents tw_h i (TNode (v_value v) (v_weight v) (v_bias v) kids (v_ud v))) by (intros; now constructor).
    refine (X 0%nat _ _ eq_refl _). vm_compute. apply rep_none. apply rep_some; [|apply rep_nil]. refine (X 1%nat _ _ eq_refl _). vm_compute. apply rep_none, rep_nil. }
  split.
  { unfold storable_tuner, storable_eval, storable_conf, storable_values, ParamSpec.ok_name. cbn. repeat split; try lia; repeat constructor; cbn; try lia; repeat constructor; cbn; try lia. }
  split.
  { repeat constructor; try reflexivity; intros i d x N Q; exfalso; repeat (destruct i as [|i]; [injection N as <-; discriminate Q|]); destruct i; discriminate N. }
  split; [split; [repeat constructor; cbn; intuition discriminate|]; intros e [<-|[<-|[]]]; cbn; lia|].
  split; [vm_compute; repeat split|]. split; [vm_compute; reflexivity|]. split; [vm_compute; reflexivity|]. split; vm_compute; reflexivity.
Qed.
