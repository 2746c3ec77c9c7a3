(** Proofs about saving and restoring a user defined features tuner together with its spaces. *)
From Coq Require Import ZArith List Bool Lia Arith.
From Verif Require Import Base Datum CmpModel CmpSpec CodecModel CodecSpec CodecProofs ParamModel ParamSpec ContextModel ContextSpec ContextProofs ExprModel ExprSpec ExprProofs ExprCodec TreeModel RngModel RngSpec RngProofs TreeCodecSpec TreeSpaceModel TreeSpaceSpec TreeConfModel TreeConfSpec RestoreModel RestoreSpec RestoreProofs TunerCodecModel TunerCodecSpec TunerCodecProofs DistModel DistCodecModel DistCodecSpec EvalModel EvalFacts SpaceCodecModel SpaceCodecSpec SpaceCodecProofs SpaceModel SpaceSpec SpaceReach SpaceMain ConfCodecModel ConfCodecSpec ConfMeaning ConfBuild ConfCodecMain ConfCodecFacts WholeModel WholeSpec WholeProofs FeatWholeModel FeatWholeSpec FeatWholeProofs UserTunerModel UserTunerSpec UserTunerProofs UserTunerKinds UserWholeModel UserWholeSpec UserWholeProofs.
Import ListNotations.
Open Scope Z_scope.

Section Features.
  Variables (jen : list Z -> Z) (le : bool) (heap : Z -> param) (pud : Z -> option (list Z)).
  Variables (types : list gtype) (flog : Z -> Z) (dheap : Z -> cdist) (dimension : Z -> nat) (ddist0 : Z -> Z).
  Variables (R : Type) (draw : Z -> list Z -> R -> res (list datum) * R) (known : Z -> Prop).
  Hypothesis KN : sound_space heap jen dimension ddist0 known.
  Variables (S : nat -> Prop) (s : SpaceModel.space).
  Hypothesis RE : reach heap jen dimension ddist0 R draw known S s.
  Variables (g : rng) (ty : gtype) (ud : option (list Z)).
  Hypothesis ST : storable_conf jen heap pud types flog dheap dimension g ty ud s.
  Variables (oid : Z) (oud : option (list Z)) (osp : EvalModel.space) (A : list Z).
  Notation objs := (sp_objectives osp).
  Hypothesis SO : storable_space jen heap pud oid oud (sp_ctx osp) A.
  Hypothesis OB : Forall (storable_objective A) objs.
  Hypothesis RM : 8 * lenZ A + 12 * lenZ objs < 2 ^ 64.
  Variables (xid : Z) (xud : option (list Z)) (xctx : context) (B : list Z).
  Hypothesis SX : storable_space jen heap pud xid xud xctx B.
  Variables (pid qid uid did : nat -> Z) (f h : Z -> Z) (otype : Z -> option Z).
  Hypothesis PI : addresses pid (length (s_params s)).
  Hypothesis QI : addresses qid (length A).
  Hypothesis UI : addresses uid (length B).
  Hypothesis DJ : disjoint pid (length (s_params s)) qid (length A).
  Hypothesis DX : disjoint pid (length (s_params s)) uid (length B).
  Hypothesis DY : disjoint qid (length A) uid (length B).
  Hypothesis MV : moves pid (s_params s) f.
  Hypothesis MQ : moves qid A h.
  Hypothesis OT : forall i, (i < length (s_params s))%nat -> otype (pid i) = Some OBJ_PARAMETER.
  Hypothesis OQ : forall i, (i < length A)%nat -> otype (qid i) = Some OBJ_PARAMETER.
  Variables (dimension' : Z -> nat) (ddist : Z -> Z) (R' : Type) (draw' : Z -> list Z -> R' -> res (list datum) * R').
  Hypothesis DD : forall h, dimension' (ddist h) = 1%nat.
  Hypothesis DI : forall i w, nth_error (s_dists s) i = Some w -> dimension' (did i) = dimension (dw_dist w).
  Variables (tu : utuner fsaved (app (bobj * bobj))) (Hs : list (eobj (bobj * bobj))) (Os st : list Z) (wmem : Z -> bool).
  Hypothesis AN : answers (ut_state tu) Hs Os st.
  Hypothesis LST : lenZ st < 2 ^ 64.
  Hypothesis WM : granted wmem (8 * (lenZ Hs + lenZ Os)).
  Notation t := (speaks tu Hs Os).
  Hypothesis TS : storable_tuner (storable_eval storable_pair) t.
  Hypothesis TE : rt_spaces t = mkFSaved (mkSaved g ud s oid oud osp) xid xud xctx.
  Notation P := (s_params s).
  Notation H := Hs.

  Hypothesis EV : Forall (features_evaluation_in heap (s_self s) P oid A xid B) H.
  Hypothesis EA : features_evaluations_apart (s_self s) oid xid H.
  Hypothesis OI : incl (rt_optima t) (map eo_id H).
  Hypothesis NS : s_self s <> oid.
  Hypothesis NX : s_self s <> xid.
  Hypothesis NY : oid <> xid.

  Hypothesis OW : own g s.
  Hypothesis OH : own_handles A objs.
  Lemma features_user_whole_saved :
    exists bs ps qs us c' x', (exists b1 b2 b3, wire_conf_space heap pud dheap le g ty ud s b1 /\ wire_objective_space heap pud oid oud (c_name (sp_ctx osp)) A objs b2 /\
        wire_features_space heap pud xid xud (c_name xctx) B b3 /\ wire_user 12 ((b1 ++ b2) ++ b3) (wire_eval 11 wire_pair) t st bs) /\
      encodes (save_features_user wmem le heap pud types dheap tu) bs /\ size_saved_features_user wmem le heap pud types dheap tu = Ok (lenZ bs) /\
      same_parameters heap pud pid P ps /\ same_parameters heap pud qid A qs /\ same_parameters heap pud uid B us /\
      SpaceCodecSpec.same_space (sp_ctx osp) qs c' /\ SpaceCodecSpec.same_space xctx us x' /\
      forall D St (v : vector (bobj * bobj) D St) data mem eid cid fid csid osid fsid outer id, csid <> osid -> csid <> fsid -> osid <> fsid ->
        let read := restore_features_user jen le types flog mem otype pid qid uid did ddist csid osid fsid eid cid fid D St v data outer id in
        (refused_memory mem (block s) -> gives read (Err ERR_OUT_OF_MEMORY) bs True) /\
        (granted mem (block s) -> forall e, parts_fail mem (dists_of dheap s) e -> gives read (Err e) bs True) /\
        (granted mem (block s) -> forall rs, dists_back mem did (dists_of dheap s) rs ->
           exists r, clauses_outcome heap s (new_defaults ps) r /\
             match r with
             | Err e => gives read (Err e) bs True
             | UB u => breaks read u bs
             | Ok _ =>
                 (refused_memory mem (8 * lenZ A + 12 * lenZ objs) -> gives read (Err ERR_OUT_OF_MEMORY) bs True) /\
                 (granted mem (8 * lenZ A + 12 * lenZ objs) -> refused_memory mem (8 * lenZ B) -> gives read (Err ERR_OUT_OF_MEMORY) bs True) /\
                 exists s', ConfCodecSpec.rebuilt pid did f s csid s' /\
                   reach (at_address ps) jen dimension' ddist R' draw' (fun h => In h (map po_id ps)) everything s' /\
                   (granted mem (8 * lenZ A + 12 * lenZ objs) -> granted mem (8 * lenZ B) -> features_enough mem t ->
                    exists H' os, same_features_history eid cid fid csid osid fsid H H' /\ same_optima H H' (rt_optima t) os /\
                      ((forall x, takes_back v data H' os st <> UB x) -> gives read (user_back v data outer id t ((mkRC ps (rng_back g) rs s' (restored_ud ud), mkRS qs (EvalModel.mkSpace 6 c' (map (fun o => (restored h (fst o), snd o)) objs)) (restored_ud oud)),
                                         mkRS us (EvalModel.mkSpace 9 x' []) (restored_ud xud)) H' os st) bs
                        (((plain pud dheap g ud s /\ (ud_bytes oud = [] /\ SpaceCodecSpec.no_data pud A) /\ Forall (fun o => no_user_data (fst o)) objs) /\
                          ud_bytes xud = [] /\ SpaceCodecSpec.no_data pud B) /\ plain_tuner plain_pair t)))
             end).
  Proof.
    destruct (conf_space_saved jen le heap pud types flog dheap dimension ddist0 R draw known KN S s RE g ty ud ST pid did f otype PI MV OT dimension' ddist R' draw' DD DI)
      as (b1 & ps & W1 & E1 & Z1 & PS & RD1).
    destruct (objective_space_made jen le heap pud qid oid oud (sp_ctx osp) A SO QI otype h OQ MQ objs OB RM osp eq_refl eq_refl)
      as (b2 & qs & c' & W2 & E2 & Z2 & QS & SC & NW & RD2).
    destruct (features_space_made jen le heap pud uid xid xud xctx B SX UI) as (b3 & us & x' & W3 & E3 & Z3 & US & SC3 & NW3 & RD3).
    assert (G2 : good (at_address qs) c' (map po_id qs)).
    { pose proof (new_good _ _ _ _ NW) as G. destruct SC as [_ D]. rewrite (describes_params _ jen _ _ (D (at_address qs) ltac:(intros q Q; apply find_here; [rewrite (proj1 QS); now apply addresses_nodup|exact Q]))) in G. exact G. }
    assert (G3 : good (at_address us) x' (map po_id us)).
    { pose proof (new_good _ _ _ _ NW3) as G. destruct SC3 as [_ D]. rewrite (describes_params _ jen _ _ (D (at_address us) ltac:(intros q Q; apply find_here; [rewrite (proj1 US); now apply addresses_nodup|exact Q]))) in G. exact G. }
    assert (ES : encodes (ser_fsaved le heap pud types dheap (rt_spaces t)) ((b1 ++ b2) ++ b3)).
    { rewrite TE. unfold ser_fsaved. cbn [fv_both fv_id fv_ud fv_ctx]. apply encodes_seq; [unfold ser_saved; now apply encodes_seq|exact E3]. }
    assert (SS : size_fsaved le heap pud types dheap (rt_spaces t) = Ok (lenZ ((b1 ++ b2) ++ b3))).
    { rewrite TE. unfold size_fsaved, size_saved. cbn [fv_both fv_id fv_ud fv_ctx sv_rng sv_cud sv_conf sv_oid sv_oud sv_obj]. rewrite Z1, Z2, Z3. cbn [bind]. now rewrite !lenZ_app. }
    destruct (users_written wmem le fsaved (ser_fsaved le heap pud types dheap) (size_fsaved le heap pud types dheap) st ((b1 ++ b2) ++ b3)) as (_ & TW & _). destruct (TW tu Hs Os AN TS LST WM ES SS) as (bs & WT & ET & ZT). clear TW.
    exists bs, ps, qs, us, c', x'. split; [exists b1, b2, b3; auto|]. split; [exact ET|]. split; [exact ZT|]. split; [exact PS|]. split; [exact QS|]. split; [exact US|]. split; [exact SC|]. split; [exact SC3|].
    intros D St v data mem eid cid fid csid osid fsid outer id CO CF OF read. destruct (RD1 mem true csid (fun _ => None)) as (C1 & C2 & _ & C4). clear RD1.
    set (rd := deser_fsaved jen le types flog mem otype pid qid uid did ddist csid osid fsid (fun _ => None)).
    set (rd2 := deser_saved jen le types flog mem otype pid qid did ddist csid osid (fun _ => None)).
    assert (HAD : forall rs whole, gives rd rs ((b1 ++ b2) ++ b3) whole ->
      forall (d : fhad) r, user_saved (bobj * bobj) fhad D St mem (fun sp => features_step mem jen (falive csid osid fsid sp) eid cid fid) v data outer id (mkRT (rt_id t) (rt_name t) d H (rt_optima t) (rt_ud t)) st rs r ->
      gives read r bs (whole /\ plain_tuner plain_pair t)).
    { intros rs whole GS d r O. exact (features_user_had mem jen le fhad D St (falive csid osid fsid) eid cid fid _ ((b1 ++ b2) ++ b3) whole v data outer id bs st rs GS LST (mkRT (rt_id t) (rt_name t) d H (rt_optima t) (rt_ud t)) r TS WT O). }
    assert (BAD : forall e w, gives rd (Err e) ((b1 ++ b2) ++ b3) w -> gives read (Err e) bs True).
    { intros e w GS. exact (HAD (Err e) w GS (mkRC [] g [] s ud, mkRS [] osp oud, mkRS [] osp oud) (Err e) (ud_spaces _ _ _ _ _ _ _ _ _ _ _ _ e)). }
    assert (BAD2 : forall e w, gives rd2 (Err e) (b1 ++ b2) w -> gives read (Err e) bs True).
    { intros e w GS. apply (BAD e True).
      exact (gives_fails rd2 (fun x s => deser_features_space jen le uid mem true fsid (snd x) s) (fun x f => ((fst x, fst f), snd f)) e (b1 ++ b2) b3 w GS). }
    assert (FIRST : forall e, gives (deser_conf_space jen le types flog mem otype pid did ddist true csid (fun _ => None)) (Err e) b1 True -> gives read (Err e) bs True).
    { intros e GS. apply (BAD2 e True). exact (gives_fails _ _ (fun c o => ((fst c, fst o), snd o)) e b1 b2 True GS). }
    split; [intro RF; apply FIRST; now apply C1|]. split; [intros GR e PF; apply FIRST; now apply (C2 GR OW)|].
    intros GR rs DB. destruct (C4 GR OW rs DB) as (r & CL & M). exists r. split; [exact CL|]. destruct r as [[]|e|u].
    - destruct M as (_ & s' & RB & RC & GV). specialize (GV (fun _ => eq_refl)). destruct (RD2 mem true osid (recording (fun _ => None) (s_self s) csid)) as (O1 & _ & _ & O4). clear RD2.
      assert (FR : true = true -> recording (fun _ => None) (s_self s) csid oid = None).
      { intros _. unfold recording. destruct (Z.eqb_spec oid (s_self s)); [congruence|reflexivity]. }
      assert (G12 : granted mem (8 * lenZ A + 12 * lenZ objs) -> gives rd2 _ (b1 ++ b2) _)
        by (intro GO; exact (gives_then _ (fun x s => deser_objective_space jen le qid mem otype true osid (snd x) s) (fun c o => ((fst c, fst o), snd o)) _ _ b1 b2 _ _ GV (O4 GO OH FR))).
      cbn [fst snd] in G12. destruct (RD3 mem true fsid (recording (recording (fun _ => None) (s_self s) csid) oid osid)) as (F1 & _ & F3). clear RD3.
      assert (FX : true = true -> recording (recording (fun _ => None) (s_self s) csid) oid osid xid = None).
      { intros _. unfold recording. destruct (Z.eqb_spec xid oid); [congruence|]. destruct (Z.eqb_spec xid (s_self s)); [congruence|reflexivity]. }
      split.
      { intro RF. apply (BAD2 _ (plain pud dheap g ud s /\ True)).
        exact (gives_then _ (fun x s => deser_objective_space jen le qid mem otype true osid (snd x) s) (fun c o => ((fst c, fst o), snd o)) _ _ b1 b2 _ True GV (O1 RF)). }
      split.
      { intros GO RF. eapply BAD.
        exact (gives_then rd2 (fun x s => deser_features_space jen le uid mem true fsid (snd x) s) (fun x f => ((fst x, fst f), snd f)) _ _ (b1 ++ b2) b3 _ True (G12 GO) (F1 RF)). }
      exists s'. split; [exact RB|]. split; [exact RC|]. intros GO GB EN.
      assert (G1 : good (at_address ps) (s_ctx s') (map po_id ps)).
      { assert (KN' : sound_space (at_address ps) jen dimension' ddist (fun h => In h (map po_id ps))).
        { split; [|split; [|exact DD]].
          - intros x X. exact (part_created jen heap pud ps (part_nodup heap pud pid P ps PS PI) pid P ps PS (incl_refl _) (fcreated_conf jen heap dimension ddist0 R draw known KN S s RE) x X).
          - intros x X. rewrite (proj1 PS) in X. apply in_map_iff in X. destruct X as (i & <- & I). apply in_seq in I. destruct PI as [PO _]. apply PO. lia. }
        pose proof (reach_sinv (at_address ps) jen dimension' ddist R' draw' _ KN' _ s' RC) as V. pose proof (v_good _ _ _ _ _ V) as G. destruct RB as (_ & _ & EP & _). rewrite EP, <- (proj1 PS) in G. exact G. }
      destruct (ftuner_again jen heap pud dimension ddist0 R draw known KN S s RE oid oud osp A SO xid xud xctx B SX pid qid uid did otype PI QI UI DJ DX DY OT OQ dimension' ddist R' draw' DD DI t EV EA OI NS NX NY mem eid cid fid csid osid fsid CO CF OF ps qs us (rng_back g) rs s' c' x' (map (fun o => (restored h (fst o), snd o)) objs) (restored_ud ud) (restored_ud oud) (restored_ud xud) PS QS US G1 G2 G3 None id
                  (mkRT (rt_id t) (rt_name t) (mkRC ps (rng_back g) rs s' (restored_ud ud), mkRS qs (EvalModel.mkSpace 6 c' (map (fun o => (restored h (fst o), snd o)) objs)) (restored_ud oud), mkRS us (EvalModel.mkSpace 9 x' []) (restored_ud xud)) H (rt_optima t) (rt_ud t))
                  eq_refl eq_refl eq_refl eq_refl eq_refl EN ltac:(discriminate)) as (os & SO' & TO).
      exists (all_fagain eid cid fid csid osid fsid 0 H), os. split; [exact (fhistory_again dimension s A B pid qid did otype OT OQ dimension' ddist R' draw' DD DI t mem eid cid fid csid osid fsid)|]. split; [exact SO'|]. intro NU.
      eapply HAD; [exact (gives_then rd2 (fun x s => deser_features_space jen le uid mem true fsid (snd x) s) (fun x f => ((fst x, fst f), snd f)) _ _ (b1 ++ b2) b3 _ _ (G12 GO) (F3 GB FX))|].
      exact (back_saved mem (fun sp => features_step mem jen (falive csid osid fsid sp) eid cid fid) v data outer id _ st _ _ _ _ TO NU).
    - now apply FIRST.
    - refine (user_breaks _ _ _ _ mem _ _ 12 _ v data outer id _ t ((b1 ++ b2) ++ b3) (storable_eval storable_pair) (wire_eval 11 wire_pair) st bs u _ TS WT _); [lia|].
      apply (breaks_first rd2). apply breaks_first. exact M.
  Qed.
End Features.
