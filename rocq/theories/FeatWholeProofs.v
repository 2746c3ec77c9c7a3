(** Proofs about saving and restoring a features tuner together with its spaces. *)
From Coq Require Import ZArith List Bool Lia Arith.
From Verif Require Import Base Datum CmpModel CmpSpec CodecModel CodecSpec CodecProofs ParamModel ParamSpec ContextModel ContextSpec ContextProofs ExprModel ExprSpec ExprProofs ExprCodec TreeModel RngModel RngSpec RngProofs TreeCodecSpec TreeSpaceModel TreeSpaceSpec TreeConfModel TreeConfSpec RestoreModel RestoreSpec RestoreProofs TunerCodecModel TunerCodecSpec TunerCodecProofs DistModel DistCodecModel DistCodecSpec EvalModel EvalFacts SpaceCodecModel SpaceCodecSpec SpaceCodecProofs SpaceModel SpaceSpec SpaceReach SpaceMain ConfCodecModel ConfCodecSpec ConfMeaning ConfBuild ConfCodecMain ConfCodecFacts WholeModel WholeSpec WholeProofs FeatWholeModel FeatWholeSpec.
Import ListNotations.
Open Scope Z_scope.

(** ** Parts of the new parameters *)
Lemma nodup_apart {A} (l l' : list A) : NoDup l -> NoDup l' -> (forall x, In x l -> ~ In x l') -> NoDup (l ++ l').
Proof.
  induction l as [|x l IH]; intros N N' X; [exact N'|]. cbn. inversion N; subst. constructor.
  - intro I. apply in_app_or in I. destruct I as [I|I]; [contradiction|]. apply (X x); [now left|exact I].
  - apply IH; auto. intros y Y. apply X. now right.
Qed.
Lemma addresses_apart pid n qid k : disjoint pid n qid k -> forall x, In x (map pid (seq 0 n)) -> ~ In x (map qid (seq 0 k)).
Proof.
  intros DJ x I J. apply in_map_iff in I. apply in_map_iff in J. destruct I as (i & <- & I), J as (j & E & J). apply in_seq in I. apply in_seq in J. apply (DJ i j); [lia|lia|now symmetry].
Qed.
Section Parts.
  Variables (jen : list Z -> Z) (heap : Z -> param) (pud : Z -> option (list Z)) (all : list pobj).
  Hypothesis ND : NoDup (map po_id all).
  Variables (p : nat -> Z) (l : list Z) (ls : list pobj).
  Hypothesis SP : same_parameters heap pud p l ls.
  Hypothesis IN : incl ls all.
  Hypothesis AD : addresses p (length l).
  Hypothesis CR : forall x, In x l -> created jen (heap x).
  Lemma part_back : Forall2 (fun a b => read_back (heap a) (at_address all b)) l (map po_id ls).
  Proof.
    destruct SP as [_ F]. clear CR AD SP. induction F as [|a q l' ls' [RB _] F IH]; [constructor|]. cbn. constructor; [|apply IH; intros x X; apply IN; now right].
    rewrite find_here; [exact RB|exact ND|apply IN; now left].
  Qed.
  Lemma part_created x : In x (map po_id ls) -> created jen (at_address all x).
  Proof.
    destruct SP as [_ F]. clear AD SP. induction F as [|a q l' ls' [RB _] F IH]; [easy|]. cbn. intros [<-|X].
    - rewrite find_here; [|exact ND|apply IN; now left]. apply (back_created jen (heap a)); [apply CR; now left|exact RB].
    - apply IH; [intros y Y; apply IN; now right|intros y Y; apply CR; now right|exact X].
  Qed.
  Lemma part_nodup : NoDup (map po_id ls).
  Proof. rewrite (proj1 SP). now apply addresses_nodup. Qed.
  Lemma part_here x : In x (map po_id ls) -> at_address ls x = at_address all x.
  Proof. intro I. apply in_map_iff in I. destruct I as (q & <- & I). rewrite (find_here all); [|exact ND|now apply IN]. apply find_here; [exact part_nodup|exact I]. Qed.
  (** a space over this part *)
  Lemma part_becomes at_ m old sty space c : option_map d_val (m old) = Some (VObject space) -> at_ space = Some (sty, c) ->
    good (at_address ls) c (map po_id ls) -> becomes (at_address all) jen at_ m old sty space (map po_id ls).
  Proof. intros M A G. apply (becomes_good _ _ _ _ _ _ _ c _ M A); [exact (good_agree _ _ _ _ part_here G)|exact part_created]. Qed.
  Lemma part_values space ctx vals : values_in heap space l ctx vals -> settles (at_address all) (map po_id ls) vals (Ok (map RestoreSpec.settled vals)).
  Proof. intros (_ & L & F). apply settles_same; [rewrite L; exact (Forall2_len _ _ _ part_back)|exact (fits_read _ _ _ _ _ part_back F)]. Qed.
  Lemma part_bobj mem at_ m sty space id b c : values_in heap (bo_ctx b) l (bo_ctx b) (bo_vals b) -> granted mem (16 * lenZ (bo_vals b)) ->
    option_map d_val (m (bo_ctx b)) = Some (VObject space) -> at_ space = Some (sty, c) -> good (at_address ls) c (map po_id ls) ->
    bobj_outcome mem (at_address all) jen at_ m sty false id b (Ok (mkB id space (map RestoreSpec.settled (bo_vals b)) (restored_ud (bo_ud b)), m)).
  Proof.
    intros V M MO AT G. apply (bo_had mem (at_address all) jen at_ m sty false id b space (map po_id ls)); [exact M|now apply (part_becomes _ _ _ _ _ c)| |discriminate].
    now apply (part_values (bo_ctx b) (bo_ctx b)).
  Qed.
End Parts.

Section Whole.
  Variables (jen : list Z -> Z) (le : bool) (heap : Z -> param) (pud : Z -> option (list Z)).
  Variables (types : list gtype) (flog : Z -> Z) (dheap : Z -> cdist) (dimension : Z -> nat) (ddist0 : Z -> Z).
  Variables (R : Type) (draw : Z -> list Z -> R -> res (list datum) * R) (known : Z -> Prop).
  Hypothesis KN : sound_space heap jen dimension ddist0 known.
  Variables (S : nat -> Prop) (s : SpaceModel.space).
  Hypothesis RE : reach heap jen dimension ddist0 R draw known S s.
  Variables (g : rng) (ty : gtype) (ud : option (list Z)).
  Hypothesis ST : storable_conf jen heap pud types flog dheap dimension g ty ud s.
  Variables (oid : Z) (oud : option (list Z)) (osp : EvalModel.space) (A : list Z).
  Notation objs := (sp_objectives osp).
  Hypothesis SO : storable_space jen heap pud oid oud (sp_ctx osp) A.
  Hypothesis OB : Forall (storable_objective A) objs.
  Hypothesis RM : 8 * lenZ A + 12 * lenZ objs < 2 ^ 64.
  Variables (xid : Z) (xud : option (list Z)) (xctx : context) (B : list Z).
  Hypothesis SX : storable_space jen heap pud xid xud xctx B.
  Variables (pid qid uid did : nat -> Z) (f h : Z -> Z) (otype : Z -> option Z).
  Hypothesis PI : addresses pid (length (s_params s)).
  Hypothesis QI : addresses qid (length A).
  Hypothesis UI : addresses uid (length B).
  Hypothesis DJ : disjoint pid (length (s_params s)) qid (length A).
  Hypothesis DX : disjoint pid (length (s_params s)) uid (length B).
  Hypothesis DY : disjoint qid (length A) uid (length B).
  Hypothesis MV : moves pid (s_params s) f.
  Hypothesis MQ : moves qid A h.
  Hypothesis OT : forall i, (i < length (s_params s))%nat -> otype (pid i) = Some OBJ_PARAMETER.
  Hypothesis OQ : forall i, (i < length A)%nat -> otype (qid i) = Some OBJ_PARAMETER.
  Variables (dimension' : Z -> nat) (ddist : Z -> Z) (R' : Type) (draw' : Z -> list Z -> R' -> res (list datum) * R').
  Hypothesis DD : forall h, dimension' (ddist h) = 1%nat.
  Hypothesis DI : forall i w, nth_error (s_dists s) i = Some w -> dimension' (did i) = dimension (dw_dist w).
  Variable t : rtuner (bobj * bobj) fsaved.
  Hypothesis TS : storable_tuner (storable_eval storable_pair) t.
  Hypothesis TE : rt_spaces t = mkFSaved (mkSaved g ud s oid oud osp) xid xud xctx.
  Notation P := (s_params s).
  Notation H := (rt_history t).

  Hypothesis EV : Forall (features_evaluation_in heap (s_self s) P oid A xid B) H.
  Hypothesis EA : features_evaluations_apart (s_self s) oid xid H.
  Hypothesis OI : incl (rt_optima t) (map eo_id H).
  Hypothesis NS : s_self s <> oid.
  Hypothesis NX : s_self s <> xid.
  Hypothesis NY : oid <> xid.
  Definition froom : Z := 8 * lenZ A + 12 * lenZ objs.
  Definition fmoved : list (expr * Z) := map (fun o => (restored h (fst o), snd o)) objs.
  Lemma fcreated_conf x : In x P -> created jen (heap x).
  Proof. intro I. exact (proj1 (src_created jen heap dimension ddist0 R draw known KN S s RE x I)). Qed.
  Lemma fcreated_obj x : In x A -> created jen (heap x).
  Proof. destruct SO as (_ & _ & _ & _ & F & _). rewrite Forall_forall in F. intro I. apply (F x I). Qed.
  Lemma fcreated_feat x : In x B -> created jen (heap x).
  Proof. destruct SX as (_ & _ & _ & _ & F & _). rewrite Forall_forall in F. intro I. apply (F x I). Qed.
  (** the evaluations *)
  Section Steps.
    Variables (mem : Z -> bool) (eid cid fid : nat -> Z) (csid osid fsid : Z).
    Hypothesis CO : csid <> osid.
    Hypothesis CF : csid <> fsid.
    Hypothesis OF : osid <> fsid.
    Variables (ps qs us : list pobj) (g' : rng) (rs : list cdist) (s' : SpaceModel.space) (c' x' : context) (l' : list (expr * Z)) (ud1 ud2 ud3 : option (list Z)).
    Hypothesis PS : same_parameters heap pud pid P ps.
    Hypothesis QS : same_parameters heap pud qid A qs.
    Hypothesis US : same_parameters heap pud uid B us.
    Hypothesis G1 : good (at_address ps) (s_ctx s') (map po_id ps).
    Hypothesis G2 : good (at_address qs) c' (map po_id qs).
    Hypothesis G3 : good (at_address us) x' (map po_id us).
    Notation sp := (((mkRC ps g' rs s' ud1, mkRS qs (EvalModel.mkSpace 6 c' l') ud2), mkRS us (EvalModel.mkSpace 9 x' []) ud3) : fhad).
    Notation m := (recording (recording (recording (fun _ => None) (s_self s) csid) oid osid) xid fsid).
    Notation all := (ps ++ qs ++ us).
    Lemma all_ids : NoDup (map po_id all).
    Proof.
      rewrite !map_app, (proj1 PS), (proj1 QS), (proj1 US). apply nodup_apart; [now apply addresses_nodup| |].
      - apply nodup_apart; [now apply addresses_nodup|now apply addresses_nodup|now apply addresses_apart].
      - intros x I J. apply in_app_or in J. destruct J as [J|J]; [exact (addresses_apart _ _ _ _ DJ x I J)|exact (addresses_apart _ _ _ _ DX x I J)].
    Qed.
    Lemma in_ps : incl ps all. Proof. intros x X. apply in_or_app. now left. Qed.
    Lemma in_qs : incl qs all. Proof. intros x X. apply in_or_app. right. apply in_or_app. now left. Qed.
    Lemma in_us : incl us all. Proof. intros x X. apply in_or_app. right. apply in_or_app. now right. Qed.
    Lemma m_conf : option_map d_val (m (s_self s)) = Some (VObject csid).
    Proof. unfold recording. destruct (Z.eqb_spec (s_self s) xid); [contradiction|]. destruct (Z.eqb_spec (s_self s) oid); [contradiction|]. now rewrite Z.eqb_refl. Qed.
    Lemma m_obj : option_map d_val (m oid) = Some (VObject osid).
    Proof. unfold recording. destruct (Z.eqb_spec oid xid); [contradiction|]. now rewrite Z.eqb_refl. Qed.
    Lemma m_feat : option_map d_val (m xid) = Some (VObject fsid).
    Proof. unfold recording. now rewrite Z.eqb_refl. Qed.
    Lemma at_conf : lv_at (falive csid osid fsid sp) csid = Some (OT_CONFIGURATION_SPACE, s_ctx s').
    Proof. cbn. now rewrite Z.eqb_refl. Qed.
    Lemma at_obj : lv_at (falive csid osid fsid sp) osid = Some (OT_OBJECTIVE_SPACE, c').
    Proof. cbn. destruct (Z.eqb_spec osid csid); [congruence|]. now rewrite Z.eqb_refl. Qed.
    Lemma at_feat : lv_at (falive csid osid fsid sp) fsid = Some (OT_FEATURES_SPACE, x').
    Proof. cbn. destruct (Z.eqb_spec fsid csid); [congruence|]. destruct (Z.eqb_spec fsid osid); [congruence|]. now rewrite Z.eqb_refl. Qed.
    Lemma m_fresh e : In e H -> m (eo_id e) = None.
    Proof.
      intro I. destruct EA as [_ AP]. destruct (AP e I) as (N1 & N2 & N3). unfold recording. destruct (Z.eqb_spec (eo_id e) xid); [contradiction|].
      destruct (Z.eqb_spec (eo_id e) oid); [contradiction|]. destruct (Z.eqb_spec (eo_id e) (s_self s)); [contradiction|reflexivity].
    Qed.
    Definition fagain (i : nat) (e : eobj (bobj * bobj)) : eobj (bobj * bobj) :=
      mkE (eid i) osid (map RestoreSpec.settled (eo_vals e))
        (mkB (cid i) csid (map RestoreSpec.settled (bo_vals (fst (eo_about e)))) (restored_ud (bo_ud (fst (eo_about e)))),
         mkB (fid i) fsid (map RestoreSpec.settled (bo_vals (snd (eo_about e)))) (restored_ud (bo_ud (snd (eo_about e))))) (eo_result e) (restored_ud (eo_ud e)).
    Lemma fagain_step i e : features_enough mem t -> In e H -> features_step mem jen (falive csid osid fsid sp) eid cid fid i m e (Ok (fagain i e, recording m (eo_id e) (eid i))).
    Proof.
      intros [_ EN] I. destruct (EN e I) as (M1 & M2 & M3). rewrite Forall_forall in EV. destruct (EV e I) as (V1 & V2 & V3).
      pose proof V1 as (C1 & _). pose proof V2 as (C2 & _). pose proof V3 as (C3 & _).
      apply (eo_had mem (at_address all) jen (lv_at (falive csid osid fsid sp)) m _ true (eid i) e _ osid (map po_id qs)).
      - exact M1.
      - apply po_had.
        + apply co_had. eapply (part_bobj jen heap pud all all_ids pid P ps PS in_ps PI fcreated_conf mem (lv_at (falive csid osid fsid sp)) m OT_CONFIGURATION_SPACE csid (cid i) (fst (eo_about e)) (s_ctx s')).
          * rewrite C1 in *. exact V1.
          * exact M2.
          * rewrite C1. exact m_conf.
          * exact at_conf.
          * exact G1.
        + eapply (part_bobj jen heap pud all all_ids uid B us US in_us UI fcreated_feat mem (lv_at (falive csid osid fsid sp)) m OT_FEATURES_SPACE fsid (fid i) (snd (eo_about e)) x').
          * rewrite C2 in *. exact V2.
          * exact M3.
          * rewrite C2. exact m_feat.
          * exact at_feat.
          * exact G3.
      - rewrite C3. exact (part_becomes jen heap pud all all_ids qid A qs QS in_qs QI fcreated_obj _ m oid OT_OBJECTIVE_SPACE osid c' m_obj at_obj G2).
      - exact (part_values heap pud all all_ids qid A qs QS in_qs oid (eo_ctx e) _ V3).
      - intros _. now apply m_fresh.
    Qed.
    Fixpoint all_fagain (i : nat) (l : list (eobj (bobj * bobj))) : list (eobj (bobj * bobj)) :=
      match l with [] => [] | e :: l => fagain i e :: all_fagain (Datatypes.S i) l end.
    Lemma all_fagain_length : forall l i, length (all_fagain i l) = length l.
    Proof. induction l; intro i; cbn; auto. Qed.
    Lemma all_fagain_nth : forall l i j, nth_error (all_fagain i l) j = option_map (fagain (i + j)) (nth_error l j).
    Proof. induction l as [|e l IH]; intros i [|j]; cbn; try reflexivity; [now rewrite Nat.add_0_r|]. rewrite IH. now replace (i + Datatypes.S j)%nat with (Datatypes.S i + j)%nat by lia. Qed.
    Lemma fhistory_again : same_features_history eid cid fid csid osid fsid H (all_fagain 0 H).
    Proof.
      split; [apply all_fagain_length|]. intros i e e' N N'. rewrite all_fagain_nth, N in N'. cbn in N'. injection N' as <-. repeat split.
    Qed.
    Lemma ftuner_again outer id (t' : rtuner (bobj * bobj) fhad) : rt_history t' = H -> rt_optima t' = rt_optima t -> rt_id t' = rt_id t -> rt_name t' = rt_name t -> rt_ud t' = rt_ud t ->
      features_enough mem t -> (forall k, outer = Some k -> k (rt_id t) = None) ->
      exists os, same_optima H (all_fagain 0 H) (rt_optima t) os /\
        tuner_outcome (bobj * bobj) fhad mem (features_step mem jen (falive csid osid fsid sp) eid cid fid) outer id t' sp m
          (Ok (mkRT id (rt_name t) sp (all_fagain 0 H) os (restored_ud (rt_ud t)), TunerCodecSpec.noted outer (rt_id t) id)).
    Proof.
      intros E1 E2 E3 E4 E5 EN OU. destruct (all_restore mem jen (falive csid osid fsid sp) eid cid fid fhad) as (_ & RS & _). destruct (RS m outer id t' sp) as [_ RS'].
      destruct (RS' (all_fagain 0 H)) as [_ X].
      - rewrite E1, E2. apply EN.
      - rewrite E1. split; [apply all_fagain_length|]. intros i e e' N N'. rewrite all_fagain_nth, N in N'. cbn in N'. injection N' as <-. eexists. apply fagain_step; [exact EN|exact (nth_error_In _ _ N)].
      - rewrite E1, E2, E3, E4, E5 in X. destruct X as (os & T & SAME); [| |exact OU|exists os; auto].
        + split; [apply EA|]. intros e I. now apply m_fresh.
        + exact OI.
    Qed.
  End Steps.

  Hypothesis OW : own g s.
  Hypothesis OH : own_handles A objs.
  Lemma features_whole_saved :
    exists bs ps qs us c' x', (exists b1 b2 b3, wire_conf_space heap pud dheap le g ty ud s b1 /\ wire_objective_space heap pud oid oud (c_name (sp_ctx osp)) A objs b2 /\
        wire_features_space heap pud xid xud (c_name xctx) B b3 /\ wire_tuner 12 ((b1 ++ b2) ++ b3) (wire_eval 11 wire_pair) t bs) /\
      encodes (save_features_tuner le heap pud types dheap t) bs /\ size_saved_features_tuner le heap pud types dheap t = Ok (lenZ bs) /\
      same_parameters heap pud pid P ps /\ same_parameters heap pud qid A qs /\ same_parameters heap pud uid B us /\
      SpaceCodecSpec.same_space (sp_ctx osp) qs c' /\ SpaceCodecSpec.same_space xctx us x' /\
      forall mem eid cid fid csid osid fsid outer id, csid <> osid -> csid <> fsid -> osid <> fsid ->
        let read := restore_features_tuner jen le types flog mem otype pid qid uid did ddist csid osid fsid eid cid fid outer id in
        (refused_memory mem (block s) -> gives read (Err ERR_OUT_OF_MEMORY) bs True) /\
        (granted mem (block s) -> forall e, parts_fail mem (dists_of dheap s) e -> gives read (Err e) bs True) /\
        (granted mem (block s) -> forall rs, dists_back mem did (dists_of dheap s) rs ->
           exists r, clauses_outcome heap s (new_defaults ps) r /\
             match r with
             | Err e => gives read (Err e) bs True
             | UB u => breaks read u bs
             | Ok _ =>
                 (refused_memory mem froom -> gives read (Err ERR_OUT_OF_MEMORY) bs True) /\
                 (granted mem froom -> refused_memory mem (8 * lenZ B) -> gives read (Err ERR_OUT_OF_MEMORY) bs True) /\
                 exists s', ConfCodecSpec.rebuilt pid did f s csid s' /\
                   reach (at_address ps) jen dimension' ddist R' draw' (fun h => In h (map po_id ps)) everything s' /\
                   (granted mem froom -> granted mem (8 * lenZ B) -> features_enough mem t -> (forall k, outer = Some k -> k (rt_id t) = None) ->
                    exists H' os, same_features_history eid cid fid csid osid fsid H H' /\ same_optima H H' (rt_optima t) os /\
                      gives read (Ok (mkRT id (rt_name t)
                                        ((mkRC ps (rng_back g) rs s' (restored_ud ud), mkRS qs (EvalModel.mkSpace 6 c' fmoved) (restored_ud oud)),
                                         mkRS us (EvalModel.mkSpace 9 x' []) (restored_ud xud)) H' os (restored_ud (rt_ud t)),
                                      TunerCodecSpec.noted outer (rt_id t) id)) bs
                        (((plain pud dheap g ud s /\ (ud_bytes oud = [] /\ SpaceCodecSpec.no_data pud A) /\ Forall (fun o => no_user_data (fst o)) objs) /\
                          ud_bytes xud = [] /\ SpaceCodecSpec.no_data pud B) /\ plain_tuner plain_pair t))
             end).
  Proof.
    destruct (conf_space_saved jen le heap pud types flog dheap dimension ddist0 R draw known KN S s RE g ty ud ST pid did f otype PI MV OT dimension' ddist R' draw' DD DI)
      as (b1 & ps & W1 & E1 & Z1 & PS & RD1).
    destruct (objective_space_made jen le heap pud qid oid oud (sp_ctx osp) A SO QI otype h OQ MQ objs OB RM osp eq_refl eq_refl)
      as (b2 & qs & c' & W2 & E2 & Z2 & QS & SC & NW & RD2).
    destruct (features_space_made jen le heap pud uid xid xud xctx B SX UI) as (b3 & us & x' & W3 & E3 & Z3 & US & SC3 & NW3 & RD3).
    assert (G2 : good (at_address qs) c' (map po_id qs)).
    { pose proof (new_good _ _ _ _ NW) as G. destruct SC as [_ D]. rewrite (describes_params _ jen _ _ (D (at_address qs) ltac:(intros q Q; apply find_here; [rewrite (proj1 QS); now apply addresses_nodup|exact Q]))) in G. exact G. }
    assert (G3 : good (at_address us) x' (map po_id us)).
    { pose proof (new_good _ _ _ _ NW3) as G. destruct SC3 as [_ D]. rewrite (describes_params _ jen _ _ (D (at_address us) ltac:(intros q Q; apply find_here; [rewrite (proj1 US); now apply addresses_nodup|exact Q]))) in G. exact G. }
    assert (ES : encodes (ser_fsaved le heap pud types dheap (rt_spaces t)) ((b1 ++ b2) ++ b3)).
    { rewrite TE. unfold ser_fsaved. cbn [fv_both fv_id fv_ud fv_ctx]. apply encodes_seq; [unfold ser_saved; now apply encodes_seq|exact E3]. }
    assert (SS : size_fsaved le heap pud types dheap (rt_spaces t) = Ok (lenZ ((b1 ++ b2) ++ b3))).
    { rewrite TE. unfold size_fsaved, size_saved. cbn [fv_both fv_id fv_ud fv_ctx sv_rng sv_cud sv_conf sv_oid sv_oud sv_obj]. rewrite Z1, Z2, Z3. cbn [bind]. now rewrite !lenZ_app. }
    destruct (tuners_written le fsaved (ser_fsaved le heap pud types dheap) (size_fsaved le heap pud types dheap) ((b1 ++ b2) ++ b3)) as (_ & TW & _). destruct (TW t TS ES SS) as (bs & WT & ET & ZT). clear TW.
    exists bs, ps, qs, us, c', x'. split; [exists b1, b2, b3; auto|]. split; [exact ET|]. split; [exact ZT|]. split; [exact PS|]. split; [exact QS|]. split; [exact US|]. split; [exact SC|]. split; [exact SC3|].
    intros mem eid cid fid csid osid fsid outer id CO CF OF read. destruct (RD1 mem true csid (fun _ => None)) as (C1 & C2 & _ & C4). clear RD1.
    set (rd := deser_fsaved jen le types flog mem otype pid qid uid did ddist csid osid fsid (fun _ => None)).
    set (rd2 := deser_saved jen le types flog mem otype pid qid did ddist csid osid (fun _ => None)).
    assert (HAD : forall rs whole, gives rd rs ((b1 ++ b2) ++ b3) whole ->
      forall (d : fhad) r, saved_outcome (bobj * bobj) fhad mem (fun sp => features_step mem jen (falive csid osid fsid sp) eid cid fid) outer id (mkRT (rt_id t) (rt_name t) d H (rt_optima t) (rt_ud t)) rs r ->
      gives read r bs (whole /\ plain_tuner plain_pair t)).
    { intros rs whole GS d r O. exact (features_tuner_had mem jen le fhad (falive csid osid fsid) eid cid fid _ ((b1 ++ b2) ++ b3) whole outer id bs rs GS (mkRT (rt_id t) (rt_name t) d H (rt_optima t) (rt_ud t)) r TS WT O). }
    assert (BAD : forall e w, gives rd (Err e) ((b1 ++ b2) ++ b3) w -> gives read (Err e) bs True).
    { intros e w GS. exact (HAD (Err e) w GS (mkRC [] g [] s ud, mkRS [] osp oud, mkRS [] osp oud) (Err e) (so_spaces _ _ _ _ _ _ _ e)). }
    assert (BAD2 : forall e w, gives rd2 (Err e) (b1 ++ b2) w -> gives read (Err e) bs True).
    { intros e w GS. apply (BAD e True).
      exact (gives_fails rd2 (fun x s => deser_features_space jen le uid mem true fsid (snd x) s) (fun x f => ((fst x, fst f), snd f)) e (b1 ++ b2) b3 w GS). }
    assert (FIRST : forall e, gives (deser_conf_space jen le types flog mem otype pid did ddist true csid (fun _ => None)) (Err e) b1 True -> gives read (Err e) bs True).
    { intros e GS. apply (BAD2 e True). exact (gives_fails _ _ (fun c o => ((fst c, fst o), snd o)) e b1 b2 True GS). }
    split; [intro RF; apply FIRST; now apply C1|]. split; [intros GR e PF; apply FIRST; now apply (C2 GR OW)|].
    intros GR rs DB. destruct (C4 GR OW rs DB) as (r & CL & M). exists r. split; [exact CL|]. destruct r as [[]|e|u].
    - destruct M as (_ & s' & RB & RC & GV). specialize (GV (fun _ => eq_refl)). destruct (RD2 mem true osid (recording (fun _ => None) (s_self s) csid)) as (O1 & _ & _ & O4). clear RD2.
      assert (FR : true = true -> recording (fun _ => None) (s_self s) csid oid = None).
      { intros _. unfold recording. destruct (Z.eqb_spec oid (s_self s)); [congruence|reflexivity]. }
      assert (G12 : granted mem froom -> gives rd2 _ (b1 ++ b2) _)
        by (intro GO; exact (gives_then _ (fun x s => deser_objective_space jen le qid mem otype true osid (snd x) s) (fun c o => ((fst c, fst o), snd o)) _ _ b1 b2 _ _ GV (O4 GO OH FR))).
      cbn [fst snd] in G12. destruct (RD3 mem true fsid (recording (recording (fun _ => None) (s_self s) csid) oid osid)) as (F1 & _ & F3). clear RD3.
      assert (FX : true = true -> recording (recording (fun _ => None) (s_self s) csid) oid osid xid = None).
      { intros _. unfold recording. destruct (Z.eqb_spec xid oid); [congruence|]. destruct (Z.eqb_spec xid (s_self s)); [congruence|reflexivity]. }
      split.
      { intro RF. apply (BAD2 _ (plain pud dheap g ud s /\ True)).
        exact (gives_then _ (fun x s => deser_objective_space jen le qid mem otype true osid (snd x) s) (fun c o => ((fst c, fst o), snd o)) _ _ b1 b2 _ True GV (O1 RF)). }
      split.
      { intros GO RF. eapply BAD.
        exact (gives_then rd2 (fun x s => deser_features_space jen le uid mem true fsid (snd x) s) (fun x f => ((fst x, fst f), snd f)) _ _ (b1 ++ b2) b3 _ True (G12 GO) (F1 RF)). }
      exists s'. split; [exact RB|]. split; [exact RC|]. intros GO GB EN OU.
      assert (G1 : good (at_address ps) (s_ctx s') (map po_id ps)).
      { assert (KN' : sound_space (at_address ps) jen dimension' ddist (fun h => In h (map po_id ps))).
        { split; [|split; [|exact DD]].
          - intros x X. exact (part_created jen heap pud ps (part_nodup heap pud pid P ps PS PI) pid P ps PS (incl_refl _) fcreated_conf x X).
          - intros x X. rewrite (proj1 PS) in X. apply in_map_iff in X. destruct X as (i & <- & I). apply in_seq in I. destruct PI as [PO _]. apply PO. lia. }
        pose proof (reach_sinv (at_address ps) jen dimension' ddist R' draw' _ KN' _ s' RC) as V. pose proof (v_good _ _ _ _ _ V) as G. destruct RB as (_ & _ & EP & _). rewrite EP, <- (proj1 PS) in G. exact G. }
      destruct (ftuner_again mem eid cid fid csid osid fsid CO CF OF ps qs us (rng_back g) rs s' c' x' fmoved (restored_ud ud) (restored_ud oud) (restored_ud xud) PS QS US G1 G2 G3 outer id
                  (mkRT (rt_id t) (rt_name t) (mkRC ps (rng_back g) rs s' (restored_ud ud), mkRS qs (EvalModel.mkSpace 6 c' fmoved) (restored_ud oud), mkRS us (EvalModel.mkSpace 9 x' []) (restored_ud xud)) H (rt_optima t) (rt_ud t))
                  eq_refl eq_refl eq_refl eq_refl eq_refl EN OU) as (os & SO' & TO).
      exists (all_fagain eid cid fid csid osid fsid 0 H), os. split; [eapply fhistory_again; eassumption|]. split; [exact SO'|].
      eapply HAD; [exact (gives_then rd2 (fun x s => deser_features_space jen le uid mem true fsid (snd x) s) (fun x f => ((fst x, fst f), snd f)) _ _ (b1 ++ b2) b3 _ _ (G12 GO) (F3 GB FX))|].
      apply so_tuner. exact TO.
    - now apply FIRST.
    - refine (tuner_breaks mem _ _ 12 _ outer id _ t ((b1 ++ b2) ++ b3) (storable_eval storable_pair) (wire_eval 11 wire_pair) bs u _ TS WT _); [lia|].
      apply (breaks_first rd2). apply breaks_first. exact M.
  Qed.
End Whole.
