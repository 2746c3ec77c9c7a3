(** Proofs about saving and restoring a user defined tree tuner together with its spaces. *)
From Coq Require Import ZArith List Bool Lia Arith.
From Verif Require Import Base Datum CmpModel CmpSpec CodecModel CodecSpec CodecProofs ParamModel ParamSpec ContextModel ContextSpec ContextProofs ExprModel ExprSpec ExprProofs ExprCodec EvalModel EvalFacts TreeModel TreeSpec RngModel RngSpec RngProofs TreeCodecSpec TreeCodec TreeSpaceModel TreeSpaceSpec TreeSpaceCodec TreeConfModel TreeConfSpec RestoreModel RestoreSpec RestoreProofs TunerCodecModel TunerCodecSpec TunerCodecProofs SpaceCodecModel SpaceCodecSpec SpaceCodecProofs ConfMeaning WholeSpec WholeProofs FeatWholeSpec FeatWholeProofs TreeWholeModel TreeWholeSpec TreeWholeProofs UserTunerModel UserTunerSpec UserTunerProofs UserTunerKinds UserWholeModel UserWholeSpec UserWholeProofs.
Import ListNotations.
Open Scope Z_scope.

Section Tree.
  Variables (S : Type) (jen : list Z -> Z) (types : list gtype) (le : bool) (heap : Z -> param) (pud : Z -> option (list Z)).
  Variables (th : TreeModel.heap) (sp : tspace S) (ty : gtype) (T : ttree).
  Hypothesis TB : table types.
  Hypothesis OG : of_table types (ts_rng S sp) ty.
  Hypothesis RH : reached th.
  Hypothesis SH : storable_heap th.
  Hypothesis RT : represents th (ts_tree S sp) T.
  Hypothesis SP : TreeSpaceSpec.storable_space S sp.
  Variables (oid : Z) (oud : option (list Z)) (osp : EvalModel.space) (A : list Z).
  Notation objs := (sp_objectives osp).
  Hypothesis SO : SpaceCodecSpec.storable_space jen heap pud oid oud (sp_ctx osp) A.
  Hypothesis OB : Forall (storable_objective A) objs.
  Hypothesis RM : 8 * lenZ A + 12 * lenZ objs < 2 ^ 64.
  Variables (qid : nat -> Z) (f : Z -> Z) (otype : Z -> option Z).
  Hypothesis QI : addresses qid (length A).
  Hypothesis MQ : moves qid A f.
  Hypothesis OQ : forall i, (i < length A)%nat -> otype (qid i) = Some OBJ_PARAMETER.
  Variables (dflt : nat) (dty : gtype).
  Hypothesis DF : nth_error types dflt = Some dty.
  Variables (tu : utuner (tsaved S) (app tconf)) (Hs : list (eobj tconf)) (Os st : list Z) (wmem : Z -> bool).
  Hypothesis AN : answers (ut_state tu) Hs Os st.
  Hypothesis LST : lenZ st < 2 ^ 64.
  Hypothesis WM : granted wmem (8 * (lenZ Hs + lenZ Os)).
  Notation t := (speaks tu Hs Os).
  Hypothesis TS : storable_tuner (storable_eval storable_conf) t.
  Hypothesis TE : rt_spaces t = mkTSaved S th sp oid oud osp.
  Notation H := Hs.

  Hypothesis EV : Forall (tree_evaluation_in heap (ts_id S sp) oid A) H.
  Hypothesis EA : tree_evaluations_apart (ts_id S sp) oid H.
  Hypothesis OI : incl (rt_optima t) (map eo_id H).
  Hypothesis NS : ts_id S sp <> oid.

  Hypothesis OH : own_handles A objs.
  Lemma tree_user_whole_saved :
    exists bs qs c', (exists head sb ub b2, wire_space S le ty th sp head sb ub /\ wire_objective_space heap pud oid oud (c_name (sp_ctx osp)) A objs b2 /\
        wire_user 19 ((head ++ sb ++ ub) ++ b2) (wire_eval 18 wire_conf) t st bs) /\
      encodes (save_tree_user wmem le heap pud types S tu) bs /\ size_saved_tree_user wmem le heap pud types S tu = Ok (lenZ bs) /\
      same_parameters heap pud qid A qs /\ SpaceCodecSpec.same_space (sp_ctx osp) qs c' /\
      forall D St (v : vector tconf D St) data mem eid cid csid osid outer id gid tv ts h2, reached h2 ->
        let read := restore_tree_user jen le types mem otype qid csid osid eid cid D St S dflt gid tv ts h2 v data outer id in
        (ts_kind S sp = KStatic S ->
           (refused_memory mem (8 * lenZ A + 12 * lenZ objs) -> gives read (Err ERR_OUT_OF_MEMORY) bs True) /\
           exists t1 h1, reached h1 /\ represents h1 t1 (restored_tree T) /\ is_root h1 t1 /\ (forall x, alive h2 x -> seen h1 x = seen h2 x) /\
             (granted mem (8 * lenZ A + 12 * lenZ objs) -> tree_enough mem t ->
              exists H' os, same_tree_history eid cid csid osid H H' /\ same_optima H H' (rt_optima t) os /\
                ((forall x, takes_back v data H' os st <> UB x) -> gives read (user_back v data outer id t ((TreeSpaceModel.mkSpace S csid (ts_name S sp) (mkRng gid dflt (t_init dty) None) t1 (KStatic S) (restored_ud (ts_ud S sp)), h1),
                                   mkRS qs (EvalModel.mkSpace 6 c' (map (fun o => (restored f (fst o), snd o)) objs)) (restored_ud oud)) H' os st) bs
                  (((TreeCodecSpec.plain T /\ ud_bytes (g_ud (ts_rng S sp)) = [] /\ ud_bytes (ts_ud S sp) = []) /\
                    (ud_bytes oud = [] /\ SpaceCodecSpec.no_data pud A) /\ Forall (fun o => no_user_data (fst o)) objs) /\ plain_tuner plain_conf t)))).
  Proof.
    assert (AT : alive th (ts_tree S sp)) by (inversion RT as [? vw ? SE]; unfold alive; congruence).
    destruct (space_written S types le th sp ty TB OG RH SH AT SP) as (head & sb & ub & W1 & E1 & Z1).
    destruct (objective_space_made jen le heap pud qid oid oud (sp_ctx osp) A SO QI otype f OQ MQ objs OB RM osp eq_refl eq_refl)
      as (b2 & qs & c' & W2 & E2 & Z2 & QS & SC & NW & RD2).
    set (b1 := head ++ sb ++ ub) in *.
    assert (G2 : good (at_address qs) c' (map po_id qs)).
    { pose proof (new_good _ _ _ _ NW) as G. destruct SC as [_ D]. rewrite (describes_params _ jen _ _ (D (at_address qs) ltac:(intros q Q; apply find_here; [rewrite (proj1 QS); now apply addresses_nodup|exact Q]))) in G. exact G. }
    assert (ES : encodes (ser_tsaved S types le heap pud (rt_spaces t)) (b1 ++ b2)) by (rewrite TE; unfold ser_tsaved; now apply encodes_seq).
    assert (SS : size_tsaved S types le heap pud (rt_spaces t) = Ok (lenZ (b1 ++ b2))).
    { rewrite TE. unfold size_tsaved. cbn [tw_heap tw_tree tw_oid tw_oud tw_obj]. rewrite Z1, Z2. cbn [bind]. now rewrite lenZ_app. }
    destruct (users_written wmem le (tsaved S) (ser_tsaved S types le heap pud) (size_tsaved S types le heap pud) st (b1 ++ b2)) as (_ & _ & TW). destruct (TW tu Hs Os AN TS LST WM ES SS) as (bs & WT & ET & ZT). clear TW.
    exists bs, qs, c'. split; [exists head, sb, ub, b2; auto|]. split; [exact ET|]. split; [exact ZT|]. split; [exact QS|]. split; [exact SC|].
    intros D St v data mem eid cid csid osid outer id gid tv ts h2 R2 read.
    set (rd := deser_tsaved S types le dflt gid tv ts jen mem otype qid csid osid h2 (fun _ => None)).
    set (rt := deser_tree_space S types le dflt gid tv ts true csid h2 (fun _ => None)).
    set (ro := fun (x : (tspace S * TreeModel.heap) * hmap) (s : rstate) => deser_objective_space jen le qid mem otype true osid (snd x) s).
    set (jn := fun (c : (tspace S * TreeModel.heap) * hmap) (o : rspace * hmap) => ((fst c, fst o), snd o)).
    assert (HAD : forall rs whole, gives rd rs (b1 ++ b2) whole ->
      forall (d : thad S) r, user_saved tconf (thad S) D St mem (fun d => tree_step mem jen (talive S csid osid d) eid cid) v data outer id (mkRT (rt_id t) (rt_name t) d H (rt_optima t) (rt_ud t)) st rs r ->
      gives read r bs (whole /\ plain_tuner plain_conf t)).
    { intros rs whole GS d r O. exact (tree_user_had mem jen le (thad S) D St (talive S csid osid) eid cid _ (b1 ++ b2) whole v data outer id bs st rs GS LST (mkRT (rt_id t) (rt_name t) d H (rt_optima t) (rt_ud t)) r TS WT O). }
    assert (BAD : forall e w, gives rd (Err e) (b1 ++ b2) w -> gives read (Err e) bs True).
    { intros e w GS. exact (HAD (Err e) w GS ((sp, th), mkRS [] osp oud) (Err e) (ud_spaces _ _ _ _ _ _ _ _ _ _ _ _ e)). }
    assert (EM : true = true -> forall k : Z, (fun _ => None : option datum) k = None) by reflexivity.
    intro KS. destruct (static_restored S types types le le sp ty ty (g_type (ts_rng S sp)) dflt dty th T head sb ub gid tv ts h2 TB OG RH SH RT SP KS W1 TB (proj1 OG) eq_refl DF R2)
        as (t1 & h1 & D1 & D2 & R1 & RP & IR & KP).
      assert (GT : gives (deser_space S types dflt le gid tv ts h2)
         (Ok (TreeSpaceModel.mkSpace S (ts_id S sp) (ts_name S sp) (mkRng gid dflt (t_init dty) None) t1 (KStatic S) (restored_ud (ts_ud S sp)), h1)) b1
         (TreeCodecSpec.plain T /\ ud_bytes (g_ud (ts_rng S sp)) = [] /\ ud_bytes (ts_ud S sp) = [])).
      { split; [exact D1|]. intros (P1 & P2 & P3). exact (D2 P1 P2 P3). }
      apply (tree_gives S types le dflt gid tv ts true csid h2 (fun _ => None) _ _ _ _ EM) in GT. cbn [ts_id] in GT. unfold elsewhere in GT. cbn [ts_name ts_rng ts_tree ts_kind ts_ud] in GT.
      destruct (RD2 mem true osid (recording (fun _ => None) (ts_id S sp) csid)) as (O1 & _ & _ & O4). clear RD2.
      split; [intro RF; eapply BAD; exact (gives_then rt ro jn _ _ b1 b2 _ True GT (O1 RF))|].
      exists t1, h1. split; [exact R1|]. split; [exact RP|]. split; [exact IR|]. split; [exact KP|]. intros GO EN.
      assert (FR : true = true -> recording (fun _ => None) (ts_id S sp) csid oid = None).
      { intros _. unfold recording. destruct (Z.eqb_spec oid (ts_id S sp)); [congruence|reflexivity]. }
      specialize (O4 GO OH FR).
      set (x := (TreeSpaceModel.mkSpace S csid (ts_name S sp) (mkRng gid dflt (t_init dty) None) t1 (KStatic S) (restored_ud (ts_ud S sp)), h1)) in *.
      destruct (ttuner_again S jen heap pud sp oid oud osp A SO qid otype QI OQ t EV EA OI NS mem eid cid csid osid qs x c' (map (fun o => (restored f (fst o), snd o)) objs) (restored_ud oud) QS G2 None id
                  (mkRT (rt_id t) (rt_name t) (x, mkRS qs (EvalModel.mkSpace 6 c' (map (fun o => (restored f (fst o), snd o)) objs)) (restored_ud oud)) H (rt_optima t) (rt_ud t))
                  eq_refl eq_refl eq_refl eq_refl eq_refl EN ltac:(discriminate)) as (os & SO' & TO).
      exists (all_tagain eid cid csid osid 0 H), os. split; [exact (thistory_again S A qid otype OQ t mem eid cid csid osid)|]. split; [exact SO'|]. intro NU.
      eapply HAD; [exact (gives_then rt ro jn _ _ b1 b2 _ _ GT O4)|]. exact (back_saved mem (fun d => tree_step mem jen (talive S csid osid d) eid cid) v data outer id _ st _ _ _ _ TO NU).
  Qed.
End Tree.
