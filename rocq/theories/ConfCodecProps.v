(** Property C76: saving and restoring configuration spaces. *)
From Coq Require Import ZArith List Bool Lia Arith.
From Verif Require Import Base Datum CodecModel CodecSpec ParamModel ParamSpec ContextModel ContextSpec ExprModel ExprSpec RngModel RngSpec RngProps TreeCodecSpec TreeConfModel RestoreSpec DistModel DistCodecModel DistCodecSpec DistCodecProofs DistCodecProps SpaceCodecModel SpaceCodecSpec SpaceModel SpaceSpec SpaceProps ConfCodecModel ConfCodecSpec ConfCodecProofs ConfCodecMain ConfCodecFacts.
Import ListNotations.
Open Scope Z_scope.

(** A configuration space is saved in the announced number of bytes. It is restored with its
    name, user data and generator; the parameters, conditions and clauses in order, over the
    new parameters; the distributions, each of the same parameters; if memory suffices, all
    objects saved are distinct, their distributions can be restored, and no clause is true or
    without value on the default configuration. *)
Theorem C76_space : forall jen le heap pud types flog dheap dimension ddist0 R draw known,
  sound_space heap jen dimension ddist0 known ->
  forall S s, reach heap jen dimension ddist0 R draw known S s ->
  forall g ty ud, storable_conf jen heap pud types flog dheap dimension g ty ud s ->
  forall pid did f otype, addresses pid (length (s_params s)) -> moves pid (s_params s) f ->
  (forall i, (i < length (s_params s))%nat -> otype (pid i) = Some OBJ_PARAMETER) ->
  forall dimension' ddist R' draw', (forall h, dimension' (ddist h) = 1%nat) ->
  (forall i w, nth_error (s_dists s) i = Some w -> dimension' (did i) = dimension (dw_dist w)) ->
  exists bs ps, wire_conf_space heap pud dheap le g ty ud s bs /\
    encodes (ser_conf_space le heap pud types dheap g ud s) bs /\ size_conf_space le heap pud types dheap g ud s = Ok (lenZ bs) /\
    same_parameters heap pud pid (s_params s) ps /\
    forall mem (keep : bool) id m, let read := deser_conf_space jen le types flog mem otype pid did ddist keep id m in
      (refused_memory mem (block s) -> gives read (Err ERR_OUT_OF_MEMORY) bs True) /\
      (granted mem (block s) -> own g s -> forall e, parts_fail mem (dists_of dheap s) e -> gives read (Err e) bs True) /\
      (granted mem (block s) -> ~ own g s -> forall ds', parts_had mem (dists_of dheap s) ds' -> uses_freed read bs) /\
      (granted mem (block s) -> own g s -> forall rs, dists_back mem did (dists_of dheap s) rs ->
         exists r, clauses_outcome heap s (new_defaults ps) r /\
           match r with
           | Err e => gives read (Err e) bs True
           | UB u => breaks read u bs
           | Ok _ =>
               (keep = true -> m (s_self s) <> None -> gives read (Err ERR_DUPLICATE_HANDLE) bs True) /\
               exists s', rebuilt pid did f s id s' /\
                 reach (at_address ps) jen dimension' ddist R' draw' (fun h => In h (map po_id ps)) everything s' /\
                 ((keep = true -> m (s_self s) = None) ->
                   gives read (Ok (mkRC ps (rng_back g) rs s' (restored_ud ud), if keep then recording m (s_self s) id else m)) bs (plain pud dheap g ud s))
           end).
Proof. exact conf_space_saved. Qed.
Print Assumptions C76_space.
(** If every clause is false of the defaults with the conditions applied, no other outcome is
    possible. *)
Theorem C76_outcome : forall jen heap dimension ddist R draw known, sound_space heap jen dimension ddist known ->
  forall S s, reach heap jen dimension ddist R draw known S s ->
  forall initial r, length initial = length (s_params s) -> Forall CmpSpec.wf_datum initial ->
  clauses_outcome heap s initial (Ok tt) -> clauses_outcome heap s initial r -> r = Ok tt.
Proof. exact outcome_ok. Qed.
Print Assumptions C76_outcome.
(** The new space has the same valid configurations. *)
Theorem C76_same_configurations : forall jen heap pud dimension ddist R draw known, sound_space heap jen dimension ddist known ->
  forall S s, reach heap jen dimension ddist R draw known S s ->
  forall pid did f ps, same_parameters heap pud pid (s_params s) ps -> addresses pid (length (s_params s)) -> moves pid (s_params s) f ->
  forall id s', rebuilt pid did f s id s' ->
  forall vs, valid heap (s_params s) (s_conds s) (s_forbidden s) vs <-> valid (at_address ps) (s_params s') (s_conds s') (s_forbidden s') vs.
Proof. exact same_meaning. Qed.
Print Assumptions C76_same_configurations.
(** The bytes of another object are refused. *)
Theorem C76_other_type : forall jen le types flog mem otype pid did ddist keep id m ty h lh,
  0 <= ty < 128 -> in_unsigned 64 h -> leb128 h lh -> ty <> 4 ->
  gives (deser_conf_space jen le types flog mem otype pid did ddist keep id m) (Err ERR_INVALID_TYPE) (ty :: lh) True.
Proof. exact other_conf. Qed.
Print Assumptions C76_other_type.

(** Examples: the space of SpaceProps. The parameter 20 is active if 10 is 1; 30 < 20 is
    forbidden; the distribution 77 is for the parameters 10 and 30. *)
Definition cc_var (o h : Z) : expr := EVar (mkObj o None) h.
Definition cc_cond : expr := EOp (mkObj 201 None) XEQUAL [cc_var 202 10; ELit (mkObj 203 None) (ccs_int 1)].
Definition cc_clause : expr := EOp (mkObj 211 (Some [4])) XLESS [cc_var 212 30; cc_var 213 20].
Definition cc_dheap (d : Z) : cdist :=
  if d =? 77 then match make_multi 77 [dc_uniform; dc_normal] with Ok d => d | _ => dc_uniform end else set_dobj dc_uniform (mkObj d None).
Definition cc_pud (h : Z) : option (list Z) := if h =? 20 then Some [5; 6] else None.
Definition cc_pid (i : nat) : Z := 100 + Z.of_nat i.
Definition cc_did (i : nat) : Z := 3000 + Z.of_nat i.
Definition cc_ddist (h : Z) : Z := 2000 + Z.abs h.
Definition cc_otype (h : Z) : option Z := if (100 <=? h) && (h <? 103) then Some OBJ_PARAMETER else None.
Definition cc_a : space := snd (set_condition s3 1 cc_cond).
Definition cc_b : space := snd (set_distribution sdefault cc_a 77 [0%nat; 2%nat]).
Definition cc_s : space := snd (add_forbidden_clause sh sjen cc_b cc_clause).
Definition cc_bytes (s : space) : list Z :=
  match ser_conf_space true sh cc_pud gsl_table cc_dheap used_rng (Some [1]) s (mkW [] (repeat 0 600) 600) with Ok w => w_done w | _ => [] end.
Definition cc_read (mem : Z -> bool) (keep : bool) (m : hmap) (bs : list Z) :=
  deser_conf_space sjen true gsl_table dc_flog mem cc_otype cc_pid cc_did cc_ddist keep 900 m (mkR bs (lenZ bs)).
Ltac cwf := match goal with
  | |- wf_expr _ (EOp _ _ _) => apply wf_op; [unfold takes; vm_compute; intuition discriminate|repeat (constructor; [cwf|]); constructor]
  | |- wf_expr _ (cc_var _ _) => apply wf_var; unfold sknown; auto
  | |- wf_expr _ (ELit _ _) => apply wf_lit; [exact Logic.I|vm_compute; intuition discriminate|reflexivity]
  end.
Lemma cc_reach : sreach everything cc_s.
Proof.
  destruct s3_reach as (S0 & R & _).
  assert (RA : sreach everything cc_a) by (refine (re_condition _ _ _ _ _ _ _ _ s3 1 cc_cond cc_a R _ _); [unfold cc_cond; cwf|vm_compute; reflexivity]).
  assert (RB : sreach everything cc_b) by (refine (re_dist _ _ _ _ _ _ _ _ cc_a 77 [0%nat; 2%nat] 0 cc_b RA _ _); vm_compute; reflexivity).
  refine (re_clause _ _ _ _ _ _ _ _ cc_b cc_clause (Ok tt) cc_s RB _ _); [unfold cc_clause; cwf|vm_compute; reflexivity].
Qed.
Lemma cc_cond_storable : ExprSpec.storable cc_cond.
Proof. constructor; try (vm_compute; intuition discriminate). repeat constructor; vm_compute; intuition discriminate. Qed.
Lemma cc_clause_storable : ExprSpec.storable cc_clause.
Proof. constructor; try (vm_compute; intuition discriminate). repeat constructor; vm_compute; intuition discriminate. Qed.
Lemma cc_dist_storable d : d = 77 \/ d <> 77 /\ in_unsigned 64 d ->
  made dc_flog (cc_dheap d) /\ DistCodecSpec.storable (cc_dheap d) /\ o_id (dobj_of (cc_dheap d)) = d /\
  length (c_types (component_of (cc_dheap d))) = sdim d.
Proof.
  unfold cc_dheap, sdim. intros [->|[N I]].
  - rewrite Z.eqb_refl. split; [|split; [|split; reflexivity]].
    + let v := eval vm_compute in (make_multi 77 [dc_uniform; dc_normal]) in change (make_multi 77 [dc_uniform; dc_normal]) with v.
      apply made_multi; [repeat constructor; [apply dc_made_uniform|apply dc_made_normal]|reflexivity].
    + let v := eval vm_compute in (make_multi 77 [dc_uniform; dc_normal]) in change (make_multi 77 [dc_uniform; dc_normal]) with v.
      repeat match goal with
      | |- DistCodecSpec.storable _ => apply storable_dist; cbn [dobj_of parts tables o_id o_ud]
      | |- Forall _ _ => constructor
      | |- in_unsigned _ _ => split; lia
      | |- _ => vm_compute; first [reflexivity|discriminate]
      end.
  - destruct (Z.eqb_spec d 77); [contradiction|]. split; [|split; [|split; reflexivity]].
    + apply (made_uniform dc_flog _ NUM_INT (-3) 9 SCALE_LINEAR 2); try (cbn; unfold in_signed; lia). vm_compute. reflexivity.
    + apply storable_dist; cbn [set_dobj dc_uniform dobj_of parts tables o_id o_ud]; [exact I|vm_compute; reflexivity|vm_compute; discriminate|constructor|constructor].
Qed.
Lemma cc_storable_as conds forb dists ud s : s_self s = 500 -> s_ctx s = s_ctx s3 -> s_conds s = conds -> s_forbidden s = forb -> s_dists s = dists ->
  lenZ (ud_bytes ud) < 2 ^ 64 -> Forall ExprSpec.storable (conditions_of conds) -> Forall ExprSpec.storable forb -> lenZ forb < 2 ^ 32 ->
  Forall (fun w => dw_dist w = 77 \/ dw_dist w <> 77 /\ in_unsigned 64 (dw_dist w)) dists -> lenZ dists < 2 ^ 32 ->
  storable_conf sjen sh cc_pud gsl_table dc_flog cc_dheap sdim used_rng (mkGtype [116; 97; 117; 115] [5; 5]) ud s.
Proof.
  intros E1 E2 E3 E4 E5 U C F LF D LD. unfold storable_conf, s_params. rewrite E1, E2, E3, E4, E5.
  split; [split; lia|]. split; [exact U|]. split; [split; [repeat constructor; lia|cbn; lia]|]. split.
  { repeat constructor; try (cbn; lia); (apply (proj1 sh_sound); unfold sknown; auto). }
  split; [exact C|]. split; [exact F|]. split; [exact LF|]. split; [|split; [exact LD|]].
  { eapply Forall_impl; [|exact D]. intros w Q. now apply cc_dist_storable. }
  split; [exact gsl_table_ok|]. split; [split; reflexivity|]. split; [split; [split; cbv; congruence|reflexivity]|]. cbn. intuition discriminate.
Qed.
Ltac cdists s := let v := eval vm_compute in (s_dists s) in change (s_dists s) with v; repeat apply Forall_cons; try apply Forall_nil; cbn [dw_dist]; unfold in_unsigned; lia.
Lemma cc_storable : storable_conf sjen sh cc_pud gsl_table dc_flog cc_dheap sdim used_rng (mkGtype [116; 97; 117; 115] [5; 5]) (Some [1]) cc_s.
Proof.
  apply (cc_storable_as [None; Some cc_cond; None] [cc_clause] (s_dists cc_s)); try reflexivity.
  - cbn [conditions_of flat_map app]. auto using cc_cond_storable.
  - auto using cc_clause_storable.
  - cdists cc_s.
Qed.
Definition cc_moved (h : Z) : Z := if h =? 10 then 100 else if h =? 20 then 101 else 102.
Definition cc_values : list (list datum) :=
  [[ccs_int 1; ccs_int 2; ccs_int 3]; [ccs_int 0; ccs_inactive; ccs_int 0]; [ccs_int 0; ccs_int 2; ccs_int 3]; [ccs_int 1; ccs_int 8; ccs_int 3]; [ccs_int 1; ccs_int 2]].
Example C76_ex : sreach everything cc_s /\ storable_conf sjen sh cc_pud gsl_table dc_flog cc_dheap sdim used_rng (mkGtype [116; 97; 117; 115] [5; 5]) (Some [1]) cc_s /\
  own used_rng cc_s /\ addresses cc_pid 3 /\ moves cc_pid (s_params cc_s) cc_moved /\
  (match cc_read (fun n => n <=? 104) true (fun _ => None) (cc_bytes cc_s) with
   | Ok ((r, m), s) =>
       map po_id (rc_params r) = [100; 101; 102] /\ map po_param (rc_params r) = [sh 10; sh 20; sh 30] /\ map po_ud (rc_params r) = [None; Some [5; 6]; None] /\
       rc_rng r = used_rng /\ rc_dists r = [set_dobj dc_uniform (mkObj 3000 None); set_dobj (cc_dheap 77) (mkObj 3001 None)] /\
       rebuilt cc_pid cc_did cc_moved cc_s 900 (rc_space r) /\ s_conds (rc_space r) <> s_conds cc_s /\ rc_ud r = Some [1] /\ m 500 = Some (ccs_object 900) /\ r_mem s = [] /\
       map (fun vs => fst (check_configuration_values sh sjen cc_s vs)) cc_values = [Ok true; Ok true; Ok false; Ok false; Err ERR_INVALID_CONFIGURATION] /\
       map (fun vs => fst (check_configuration_values (at_address (rc_params r)) sjen (rc_space r) vs)) cc_values = [Ok true; Ok true; Ok false; Ok false; Err ERR_INVALID_CONFIGURATION]
   | _ => False end) /\
  cc_read (fun n => n <? 104) false (fun _ => None) (cc_bytes cc_s) = Err ERR_OUT_OF_MEMORY /\
  cc_read (fun _ => true) true (fun _ => Some (ccs_object 3)) (cc_bytes cc_s) = Err ERR_DUPLICATE_HANDLE.
Proof.
  split; [exact cc_reach|]. split; [exact cc_storable|]. split; [unfold own; match goal with |- NoDup ?l => let v := eval vm_compute in l in change l with v end; repeat constructor; cbn; intuition discriminate|].
  split; [split; intros; unfold cc_pid in *; lia|]. split.
  { assert (E0 : s_params cc_s = [10; 20; 30]) by (vm_compute; reflexivity). rewrite E0. intros [|[|[|i]]] h E; try (injection E as <-; reflexivity). destruct i; discriminate. }
  split; [vm_compute; repeat split; discriminate|]. split; vm_compute; reflexivity.
Qed.
(** A condition shared by two parameters, or a distribution given to two parameters, is
    accepted and saved; reading the bytes back uses memory that was freed. *)
Definition cc_shared : space := snd (set_condition cc_a 2 cc_cond).
Definition cc_same : space := snd (set_distribution sdefault (snd (set_distribution sdefault s3 88 [0%nat])) 88 [1%nat]).
Theorem C76_shared_refuted : exists s1 s2,
  (sreach everything s1 /\ s_conds s1 = [None; Some cc_cond; Some cc_cond] /\
   storable_conf sjen sh cc_pud gsl_table dc_flog cc_dheap sdim used_rng (mkGtype [116; 97; 117; 115] [5; 5]) (Some [1]) s1 /\
   (exists w, ser_conf_space true sh cc_pud gsl_table cc_dheap used_rng (Some [1]) s1 (mkW [] (repeat 0 600) 600) = Ok w) /\
   cc_read (fun _ => true) false (fun _ => None) (cc_bytes s1) = UB UBBounds) /\
  (exists S, sreach S s2) /\ map sampled_by (s_dists s2) = [(1030, [2%nat]); (88, [0%nat]); (88, [1%nat])] /\
  storable_conf sjen sh cc_pud gsl_table dc_flog cc_dheap sdim used_rng (mkGtype [116; 97; 117; 115] [5; 5]) (Some [1]) s2 /\
  (exists w, ser_conf_space true sh cc_pud gsl_table cc_dheap used_rng (Some [1]) s2 (mkW [] (repeat 0 600) 600) = Ok w) /\
  cc_read (fun _ => true) false (fun _ => None) (cc_bytes s2) = UB UBBounds.
Proof.
  destruct s3_reach as (S0 & R & _). exists cc_shared, cc_same. split; [|].
  - split.
    { assert (RA : sreach everything cc_a) by (refine (re_condition _ _ _ _ _ _ _ _ s3 1 cc_cond cc_a R _ _); [unfold cc_cond; cwf|vm_compute; reflexivity]).
      refine (re_condition _ _ _ _ _ _ _ _ cc_a 2 cc_cond cc_shared RA _ _); [unfold cc_cond; cwf|vm_compute; reflexivity]. }
    split; [reflexivity|]. split; [|split; [eexists; vm_compute; reflexivity|vm_compute; reflexivity]].
    apply (cc_storable_as [None; Some cc_cond; Some cc_cond] [] (s_dists cc_shared)); try reflexivity.
    + cbn [conditions_of flat_map app]. auto using cc_cond_storable.
    + constructor.
    + cdists cc_shared.
  - split.
    { exists S0. refine (re_dist _ _ _ _ _ _ _ _ (snd (set_distribution sdefault s3 88 [0%nat])) 88 [1%nat] 0 cc_same _ _ _); [|vm_compute; reflexivity|vm_compute; reflexivity].
      refine (re_dist _ _ _ _ _ _ _ _ s3 88 [0%nat] 0 _ R _ _); vm_compute; reflexivity. }
    split; [vm_compute; reflexivity|]. split; [|split; [eexists; vm_compute; reflexivity|vm_compute; reflexivity]].
    apply (cc_storable_as [None; None; None] [] (s_dists cc_same)); try reflexivity.
    + constructor.
    + constructor.
    + cdists cc_same.
Qed.
Print Assumptions C76_shared_refuted.
(** A clause that has no value on the default configuration, once a parameter of it is
    inactive, is saved; the space cannot be restored. *)
Definition cc_in : expr := EOp (mkObj 221 None) XIN [cc_var 222 10; EOp (mkObj 223 None) XLIST [cc_var 224 20; ELit (mkObj 225 None) (ccs_int 7)]].
Definition cc_zero : expr := EOp (mkObj 231 None) XEQUAL [cc_var 232 10; ELit (mkObj 233 None) (ccs_int 0)].
Definition cc_late : space := snd (set_condition (snd (add_forbidden_clause sh sjen s3 cc_in)) 1 cc_zero).
Theorem C76_restored_refuted : exists s, sreach everything s /\ own used_rng s /\
  storable_conf sjen sh cc_pud gsl_table dc_flog cc_dheap sdim used_rng (mkGtype [116; 97; 117; 115] [5; 5]) (Some [1]) s /\
  cc_read (fun _ => true) false (fun _ => None) (cc_bytes s) = Err ERR_INVALID_VALUE.
Proof.
  destruct s3_reach as (S0 & R & _). exists cc_late. split.
  { assert (RC : sreach S0 (snd (add_forbidden_clause sh sjen s3 cc_in))) by (refine (re_clause _ _ _ _ _ _ _ _ s3 cc_in (Ok tt) _ R _ _); [unfold cc_in; cwf|vm_compute; reflexivity]).
    refine (re_condition _ _ _ _ _ _ _ _ (snd (add_forbidden_clause sh sjen s3 cc_in)) 1 cc_zero cc_late RC _ _); [unfold cc_zero; cwf|vm_compute; reflexivity]. }
  split; [unfold own; match goal with |- NoDup ?l => let v := eval vm_compute in l in change l with v end; repeat constructor; cbn; intuition discriminate|]. split; [|vm_compute; reflexivity].
  apply (cc_storable_as (s_conds cc_late) [cc_in] (s_dists cc_late)); try reflexivity.
  - let v := eval vm_compute in (conditions_of (s_conds cc_late)) in change (conditions_of (s_conds cc_late)) with v.
    constructor; [|constructor]. constructor; try (vm_compute; intuition discriminate). repeat constructor; vm_compute; intuition discriminate.
  - constructor; [|constructor]. repeat (constructor; try (vm_compute; intuition discriminate)).
  - cdists cc_late.
Qed.
Print Assumptions C76_restored_refuted.
(** The indexes stored with a distribution are written without regard to the room left for
    them: bytes that announce too many make the reader write outside of its block. *)
Definition cc_crafted : list Z :=
  [4; 1] ++ [2; 120; 0] ++ [0; 0; 1; 0] ++
  match ser_rng true gsl_table used_rng (mkW [] (repeat 0 40) 40) with Ok w => w_done w | _ => [] end ++ dc_bytes dc_uniform ++ [1; 0].
Theorem C76_any_bytes_refuted : exists bs, cc_read (fun _ => true) false (fun _ => None) bs = UB UBBounds.
Proof. exists cc_crafted. vm_compute. reflexivity. Qed.
Print Assumptions C76_any_bytes_refuted.
(** Whatever the bytes, reading that succeeds has put no index outside of the cells for them. *)
Theorem C76_indexes_fit : forall jen le types flog mem otype pid did s d s', deser_conf_data jen le types flog mem otype pid did s = Ok (d, s') ->
  lenZ (flat_map snd (cd_dists d)) <= lenZ (cd_params d).
Proof. exact indexes_fit. Qed.
Print Assumptions C76_indexes_fit.
