(** Proofs about saving and restoring a tree tuner together with its spaces. *)
From Coq Require Import ZArith List Bool Lia Arith.
From Verif Require Import Base Datum CmpModel CmpSpec CodecModel CodecSpec CodecProofs ParamModel ParamSpec ContextModel ContextSpec ContextProofs ExprModel ExprSpec ExprProofs ExprCodec EvalModel EvalFacts TreeModel TreeSpec RngModel RngSpec RngProofs TreeCodecSpec TreeCodec TreeSpaceModel TreeSpaceSpec TreeSpaceCodec TreeConfModel TreeConfSpec RestoreModel RestoreSpec RestoreProofs TunerCodecModel TunerCodecSpec TunerCodecProofs SpaceCodecModel SpaceCodecSpec SpaceCodecProofs ConfMeaning WholeSpec WholeProofs FeatWholeSpec FeatWholeProofs TreeWholeModel TreeWholeSpec.
Import ListNotations.
Open Scope Z_scope.

(** ** The reader of tree spaces *)
Section Reader.
  Variables (S : Type) (types : list gtype) (le : bool) (dflt : nat) (gid : Z) (v : option (tvector S)) (st : S).
  Lemma tree_reader keep id h m s :
    match deser_space S types dflt le gid v st h s with
    | Ok ((sp, h'), s') =>
        ((keep = true -> m (ts_id S sp) = None) ->
         deser_tree_space S types le dflt gid v st keep id h m s = Ok (((elsewhere sp id, h'), if keep then recording m (ts_id S sp) id else m), s')) /\
        (keep = true -> m (ts_id S sp) <> None -> deser_tree_space S types le dflt gid v st keep id h m s = Err ERR_DUPLICATE_HANDLE)
    | Err e => ((keep = true -> forall k, m k = None) -> deser_tree_space S types le dflt gid v st keep id h m s = Err e)
    | UB u => ((keep = true -> forall k, m k = None) -> deser_tree_space S types le dflt gid v st keep id h m s = UB u)
    end.
  Proof.
    unfold deser_space, deser_tree_space.
    destruct (deser_object_internal s) as [[[ot oh] s1]|e|u]; cbn [bind fst snd]; [|auto|auto].
    destruct (negb (ot =? OBJ_TREE_SPACE)); cbn [refute bind]; [auto|].
    destruct (peek_enum s1) as [ty|e|u]; cbn [bind]; [|auto|auto].
    set (X := if ty =? SPACE_STATIC then _ else _). set (Y := if ty =? SPACE_STATIC then _ else _).
    assert (XY : match X with
                 | Ok ((sp, h'), s') => Y = Ok ((elsewhere sp id, h'), s') /\ ts_id S sp = oh /\ ts_ud S sp = None
                 | Err e => Y = Err e
                 | UB u => Y = UB u
                 end).
    { subst X Y. destruct (ty =? SPACE_STATIC).
      - destruct (deser_space_data types le h s1) as [[[[[[? name] g] t] h'] s2]|e|u]; cbn [bind]; auto.
        unfold create_static. destruct (read h' t); cbn [bind]; auto. destruct (create_rng_with_type types gid dflt); cbn [bind]; auto.
      - destruct (ty =? SPACE_DYNAMIC); [|reflexivity].
        destruct (deser_space_data types le h s1) as [[[[[[? name] g] t] h'] s2]|e|u]; cbn [bind]; auto.
        unfold create_dynamic. destruct (read h' t); cbn [bind]; auto. destruct v as [w|]; cbn [bind]; auto.
        destruct (create_rng_with_type types gid dflt); cbn [bind]; auto. destruct (tv_load S w) as [f|]; auto. destruct (f st []); cbn [bind]; auto. }
    clearbody X Y. destruct X as [[[sp h'] s2]|e|u]; [destruct XY as (-> & E1 & E2)|subst Y; cbn [bind]; auto|subst Y; cbn [bind]; auto].
    cbn [bind fst snd]. unfold handle_check_add.
    assert (EQ : forall b, space_with_ud S (elsewhere sp id) b = elsewhere (space_with_ud S sp b) id) by reflexivity.
    destruct (deser_user_data s2) as [[b s3]|e|u]; cbn [bind fst snd].
    - replace (ts_id S (space_with_ud S sp (read_ud b))) with oh by (rewrite <- E1; reflexivity). rewrite EQ. split.
      + intro K. destruct keep; [rewrite (K eq_refl); reflexivity|reflexivity].
      + intros -> N. destruct (m oh); [reflexivity|contradiction].
    - intro K. destruct keep; [rewrite (K eq_refl oh); reflexivity|reflexivity].
    - intro K. destruct keep; [rewrite (K eq_refl oh); reflexivity|reflexivity].
  Qed.
  Lemma tree_gives keep id h m sp h' bs w : (keep = true -> forall k, m k = None) ->
    gives (deser_space S types dflt le gid v st h) (Ok (sp, h')) bs w ->
    gives (deser_tree_space S types le dflt gid v st keep id h m) (Ok ((elsewhere sp id, h'), if keep then recording m (ts_id S sp) id else m)) bs w.
  Proof.
    intros K [G1 G2]. split.
    - intros tl n N1 N2. pose proof (tree_reader keep id h m (mkR (bs ++ tl) n)) as T. rewrite (G1 tl n N1 N2) in T. apply T. intro Q. apply (K Q).
    - intros W p q tl E NQ L. pose proof (tree_reader keep id h m (mkR (p ++ tl) (lenZ p))) as T. rewrite (G2 W p q tl E NQ L) in T. now apply T.
  Qed.
  Lemma tree_fails keep id h m e bs w : (keep = true -> forall k, m k = None) ->
    gives (deser_space S types dflt le gid v st h) (Err e) bs w -> gives (deser_tree_space S types le dflt gid v st keep id h m) (Err e) bs True.
  Proof. intros K G tl n N1 N2. pose proof (tree_reader keep id h m (mkR (bs ++ tl) n)) as T. rewrite (G tl n N1 N2) in T. now apply T. Qed.
End Reader.

(** An objective space is not read where no user data are *)
Lemma blob_nil ub : wire_blob [] ub -> ub = [0].
Proof. intros (l & L & ->). rewrite app_nil_r. apply (leb128_small 0); [lia|exact L]. Qed.
Lemma shifted jen le qid mem otype keep id m heap pud oid oud nm A objs ub b2 : wire_blob [] ub -> wire_objective_space heap pud oid oud nm A objs b2 ->
  gives (deser_objective_space jen le qid mem otype keep id m) (Err ERR_INVALID_TYPE) (ub ++ b2) True.
Proof.
  intros U (lh & nb & ln & lo & pb & ob & ub' & _ & _ & _ & _ & _ & _ & _ & ->). rewrite (blob_nil ub U).
  apply takes_gives. cbn [takes]. intro L. unfold deser_objective_space.
  change ([0] ++ (6 :: lh) ++ nb ++ ln ++ lo ++ pb ++ ob ++ ub') with ([0; 6] ++ lh ++ nb ++ ln ++ lo ++ pb ++ ob ++ ub').
  rb; [apply (decodes_dec false), (deser_object_internal_decodes 0 6 [6]); [lia|split; cbv; congruence|constructor; lia]|]. apply rej_now. reflexivity.
Qed.

Section Whole.
  Variables (S : Type) (jen : list Z -> Z) (types : list gtype) (le : bool) (heap : Z -> param) (pud : Z -> option (list Z)).
  Variables (th : TreeModel.heap) (sp : tspace S) (ty : gtype) (T : ttree).
  Hypothesis TB : table types.
  Hypothesis OG : of_table types (ts_rng S sp) ty.
  Hypothesis RH : reached th.
  Hypothesis SH : storable_heap th.
  Hypothesis RT : represents th (ts_tree S sp) T.
  Hypothesis SP : TreeSpaceSpec.storable_space S sp.
  Variables (oid : Z) (oud : option (list Z)) (osp : EvalModel.space) (A : list Z).
  Notation objs := (sp_objectives osp).
  Hypothesis SO : SpaceCodecSpec.storable_space jen heap pud oid oud (sp_ctx osp) A.
  Hypothesis OB : Forall (storable_objective A) objs.
  Hypothesis RM : 8 * lenZ A + 12 * lenZ objs < 2 ^ 64.
  Variables (qid : nat -> Z) (f : Z -> Z) (otype : Z -> option Z).
  Hypothesis QI : addresses qid (length A).
  Hypothesis MQ : moves qid A f.
  Hypothesis OQ : forall i, (i < length A)%nat -> otype (qid i) = Some OBJ_PARAMETER.
  Variables (dflt : nat) (dty : gtype).
  Hypothesis DF : nth_error types dflt = Some dty.
  Variable t : rtuner tconf (tsaved S).
  Hypothesis TS : storable_tuner (storable_eval storable_conf) t.
  Hypothesis TE : rt_spaces t = mkTSaved S th sp oid oud osp.
  Notation H := (rt_history t).

  Hypothesis EV : Forall (tree_evaluation_in heap (ts_id S sp) oid A) H.
  Hypothesis EA : tree_evaluations_apart (ts_id S sp) oid H.
  Hypothesis OI : incl (rt_optima t) (map eo_id H).
  Hypothesis NS : ts_id S sp <> oid.
  Lemma tcreated x : In x A -> created jen (heap x).
  Proof. destruct SO as (_ & _ & _ & _ & F & _). rewrite Forall_forall in F. intro I. apply (F x I). Qed.
  Definition troom : Z := 8 * lenZ A + 12 * lenZ objs.
  Definition tmoved : list (expr * Z) := map (fun o => (restored f (fst o), snd o)) objs.
  Section Steps.
    Variables (mem : Z -> bool) (eid cid : nat -> Z) (csid osid : Z).
    Variables (qs : list pobj) (x : tspace S * TreeModel.heap) (c' : context) (l' : list (expr * Z)) (ud2 : option (list Z)).
    Hypothesis QS : same_parameters heap pud qid A qs.
    Hypothesis G2 : good (at_address qs) c' (map po_id qs).
    Notation d := ((x, mkRS qs (EvalModel.mkSpace 6 c' l') ud2) : thad S).
    Notation m := (recording (recording (fun _ => None) (ts_id S sp) csid) oid osid).
    Notation lv := (talive S csid osid d).
    Lemma qs_ids : NoDup (map po_id qs).
    Proof. rewrite (proj1 QS). now apply addresses_nodup. Qed.
    Lemma tm_fresh e : In e H -> m (eo_id e) = None.
    Proof.
      intro I. destruct EA as [_ AP]. destruct (AP e I) as [N1 N2]. unfold recording. destruct (Z.eqb_spec (eo_id e) oid); [contradiction|].
      destruct (Z.eqb_spec (eo_id e) (ts_id S sp)); [contradiction|reflexivity].
    Qed.
    Definition tagain (i : nat) (e : eobj tconf) : eobj tconf :=
      mkE (eid i) osid (map RestoreSpec.settled (eo_vals e)) (mkConf (cid i) csid (tc_pos (eo_about e)) (restored_ud (tc_ud (eo_about e)))) (eo_result e) (restored_ud (eo_ud e)).
    Lemma tagain_step i e : tree_enough mem t -> In e H -> tree_step mem jen lv eid cid i m e (Ok (tagain i e, recording m (eo_id e) (eid i))).
    Proof.
      intros [_ EN] I. destruct (EN e I) as [M1 M2]. rewrite Forall_forall in EV. destruct (EV e I) as [C1 V3]. pose proof V3 as (C3 & _).
      apply (eo_had mem (at_address qs) jen (lv_at lv) m _ true (eid i) e _ osid (map po_id qs)).
      - exact M1.
      - apply to_had; [exact M2| |cbn; apply Z.eqb_refl]. rewrite C1. unfold recording. destruct (Z.eqb_spec (ts_id S sp) oid); [contradiction|]. now rewrite Z.eqb_refl.
      - rewrite C3. apply (part_becomes jen heap pud qs qs_ids qid A qs QS (incl_refl _) QI tcreated _ m oid OT_OBJECTIVE_SPACE osid c'); [|cbn; now rewrite Z.eqb_refl|exact G2].
        unfold recording. now rewrite Z.eqb_refl.
      - exact (part_values heap pud qs qs_ids qid A qs QS (incl_refl _) oid (eo_ctx e) _ V3).
      - intros _. now apply tm_fresh.
    Qed.
    Fixpoint all_tagain (i : nat) (l : list (eobj tconf)) : list (eobj tconf) :=
      match l with [] => [] | e :: l => tagain i e :: all_tagain (Datatypes.S i) l end.
    Lemma all_tagain_length : forall l i, length (all_tagain i l) = length l.
    Proof. induction l; intro i; cbn; auto. Qed.
    Lemma all_tagain_nth : forall l i j, nth_error (all_tagain i l) j = option_map (tagain (i + j)) (nth_error l j).
    Proof. induction l as [|e l IH]; intros i [|j]; cbn; try reflexivity; [now rewrite Nat.add_0_r|]. rewrite IH. now replace (i + Datatypes.S j)%nat with (Datatypes.S i + j)%nat by lia. Qed.
    Lemma thistory_again : same_tree_history eid cid csid osid H (all_tagain 0 H).
    Proof.
      split; [apply all_tagain_length|]. intros i e e' N N'. rewrite all_tagain_nth, N in N'. cbn in N'. injection N' as <-. repeat split.
    Qed.
    Lemma ttuner_again outer id (t' : rtuner tconf (thad S)) : rt_history t' = H -> rt_optima t' = rt_optima t -> rt_id t' = rt_id t -> rt_name t' = rt_name t -> rt_ud t' = rt_ud t ->
      tree_enough mem t -> (forall k, outer = Some k -> k (rt_id t) = None) ->
      exists os, same_optima H (all_tagain 0 H) (rt_optima t) os /\
        tuner_outcome tconf (thad S) mem (tree_step mem jen lv eid cid) outer id t' d m
          (Ok (mkRT id (rt_name t) d (all_tagain 0 H) os (restored_ud (rt_ud t)), TunerCodecSpec.noted outer (rt_id t) id)).
    Proof.
      intros E1 E2 E3 E4 E5 EN OU. destruct (all_restore mem jen lv eid cid cid (thad S)) as (_ & _ & RS). destruct (RS m outer id t' d) as [_ RS'].
      destruct (RS' (all_tagain 0 H)) as [_ X].
      - rewrite E1, E2. apply EN.
      - rewrite E1. split; [apply all_tagain_length|]. intros i e e' N N'. rewrite all_tagain_nth, N in N'. cbn in N'. injection N' as <-. eexists. apply tagain_step; [exact EN|exact (nth_error_In _ _ N)].
      - rewrite E1, E2, E3, E4, E5 in X. destruct X as (os & TO & SAME); [| |exact OU|exists os; auto].
        + split; [apply EA|]. intros e I. now apply tm_fresh.
        + exact OI.
    Qed.
  End Steps.

  Hypothesis OH : own_handles A objs.
  Lemma tree_whole_saved :
    exists bs qs c', (exists head sb ub b2, wire_space S le ty th sp head sb ub /\ wire_objective_space heap pud oid oud (c_name (sp_ctx osp)) A objs b2 /\
        wire_tuner 19 ((head ++ sb ++ ub) ++ b2) (wire_eval 18 wire_conf) t bs) /\
      encodes (save_tree_tuner S types le heap pud t) bs /\ size_saved_tree_tuner S types le heap pud t = Ok (lenZ bs) /\
      same_parameters heap pud qid A qs /\ SpaceCodecSpec.same_space (sp_ctx osp) qs c' /\
      forall mem eid cid csid osid outer id gid v st h2, reached h2 ->
        let read := restore_tree_tuner S types le dflt gid v st jen mem otype qid csid osid h2 eid cid outer id in
        (ts_kind S sp = KStatic S ->
           (refused_memory mem troom -> gives read (Err ERR_OUT_OF_MEMORY) bs True) /\
           exists t1 h1, reached h1 /\ represents h1 t1 (restored_tree T) /\ is_root h1 t1 /\ (forall x, alive h2 x -> seen h1 x = seen h2 x) /\
             (granted mem troom -> tree_enough mem t -> (forall k, outer = Some k -> k (rt_id t) = None) ->
              exists H' os, same_tree_history eid cid csid osid H H' /\ same_optima H H' (rt_optima t) os /\
                gives read (Ok (mkRT id (rt_name t)
                                  ((TreeSpaceModel.mkSpace S csid (ts_name S sp) (mkRng gid dflt (t_init dty) None) t1 (KStatic S) (restored_ud (ts_ud S sp)), h1),
                                   mkRS qs (EvalModel.mkSpace 6 c' tmoved) (restored_ud oud)) H' os (restored_ud (rt_ud t)),
                                TunerCodecSpec.noted outer (rt_id t) id)) bs
                  (((TreeCodecSpec.plain T /\ ud_bytes (g_ud (ts_rng S sp)) = [] /\ ud_bytes (ts_ud S sp) = []) /\
                    (ud_bytes oud = [] /\ SpaceCodecSpec.no_data pud A) /\ Forall (fun o => no_user_data (fst o)) objs) /\ plain_tuner plain_conf t))) /\
        (forall vs st0, ts_kind S sp = KDynamic S vs st0 ->
           (v = None -> gives read (Err ERR_INVALID_VALUE) bs True) /\
           (forall vr g e, v = Some vr -> tv_load S vr = Some g -> g st [] = Err e -> gives read (Err e) bs True) /\
           (forall vr st', v = Some vr -> match tv_load S vr with Some g => g st [] = Ok st' | None => st' = st end ->
              ud_bytes (ts_ud S sp) = [] -> gives read (Err ERR_INVALID_TYPE) bs True)).
  Proof.
    assert (AT : alive th (ts_tree S sp)) by (inversion RT as [? vw ? SE]; unfold alive; congruence).
    destruct (space_written S types le th sp ty TB OG RH SH AT SP) as (head & sb & ub & W1 & E1 & Z1).
    destruct (objective_space_made jen le heap pud qid oid oud (sp_ctx osp) A SO QI otype f OQ MQ objs OB RM osp eq_refl eq_refl)
      as (b2 & qs & c' & W2 & E2 & Z2 & QS & SC & NW & RD2).
    set (b1 := head ++ sb ++ ub) in *.
    assert (G2 : good (at_address qs) c' (map po_id qs)).
    { pose proof (new_good _ _ _ _ NW) as G. destruct SC as [_ D]. rewrite (describes_params _ jen _ _ (D (at_address qs) ltac:(intros q Q; apply find_here; [rewrite (proj1 QS); now apply addresses_nodup|exact Q]))) in G. exact G. }
    assert (ES : encodes (ser_tsaved S types le heap pud (rt_spaces t)) (b1 ++ b2)) by (rewrite TE; unfold ser_tsaved; now apply encodes_seq).
    assert (SS : size_tsaved S types le heap pud (rt_spaces t) = Ok (lenZ (b1 ++ b2))).
    { rewrite TE. unfold size_tsaved. cbn [tw_heap tw_tree tw_oid tw_oud tw_obj]. rewrite Z1, Z2. cbn [bind]. now rewrite lenZ_app. }
    destruct (tuners_written le (tsaved S) (ser_tsaved S types le heap pud) (size_tsaved S types le heap pud) (b1 ++ b2)) as (_ & _ & TW). destruct (TW t TS ES SS) as (bs & WT & ET & ZT). clear TW.
    exists bs, qs, c'. split; [exists head, sb, ub, b2; auto|]. split; [exact ET|]. split; [exact ZT|]. split; [exact QS|]. split; [exact SC|].
    intros mem eid cid csid osid outer id gid v st h2 R2 read.
    set (rd := deser_tsaved S types le dflt gid v st jen mem otype qid csid osid h2 (fun _ => None)).
    set (rt := deser_tree_space S types le dflt gid v st true csid h2 (fun _ => None)).
    set (ro := fun (x : (tspace S * TreeModel.heap) * hmap) (s : rstate) => deser_objective_space jen le qid mem otype true osid (snd x) s).
    set (jn := fun (c : (tspace S * TreeModel.heap) * hmap) (o : rspace * hmap) => ((fst c, fst o), snd o)).
    assert (HAD : forall rs whole, gives rd rs (b1 ++ b2) whole ->
      forall (d : thad S) r, saved_outcome tconf (thad S) mem (fun d => tree_step mem jen (talive S csid osid d) eid cid) outer id (mkRT (rt_id t) (rt_name t) d H (rt_optima t) (rt_ud t)) rs r ->
      gives read r bs (whole /\ plain_tuner plain_conf t)).
    { intros rs whole GS d r O. exact (tree_tuner_had mem jen le (thad S) (talive S csid osid) eid cid _ (b1 ++ b2) whole outer id bs rs GS (mkRT (rt_id t) (rt_name t) d H (rt_optima t) (rt_ud t)) r TS WT O). }
    assert (BAD : forall e w, gives rd (Err e) (b1 ++ b2) w -> gives read (Err e) bs True).
    { intros e w GS. exact (HAD (Err e) w GS ((sp, th), mkRS [] osp oud) (Err e) (so_spaces _ _ _ _ _ _ _ e)). }
    assert (EM : true = true -> forall k : Z, (fun _ => None : option datum) k = None) by reflexivity.
    split.
    - intro KS. destruct (static_restored S types types le le sp ty ty (g_type (ts_rng S sp)) dflt dty th T head sb ub gid v st h2 TB OG RH SH RT SP KS W1 TB (proj1 OG) eq_refl DF R2)
        as (t1 & h1 & D1 & D2 & R1 & RP & IR & KP).
      assert (GT : gives (deser_space S types dflt le gid v st h2)
         (Ok (TreeSpaceModel.mkSpace S (ts_id S sp) (ts_name S sp) (mkRng gid dflt (t_init dty) None) t1 (KStatic S) (restored_ud (ts_ud S sp)), h1)) b1
         (TreeCodecSpec.plain T /\ ud_bytes (g_ud (ts_rng S sp)) = [] /\ ud_bytes (ts_ud S sp) = [])).
      { split; [exact D1|]. intros (P1 & P2 & P3). exact (D2 P1 P2 P3). }
      apply (tree_gives S types le dflt gid v st true csid h2 (fun _ => None) _ _ _ _ EM) in GT. cbn [ts_id] in GT. unfold elsewhere in GT. cbn [ts_name ts_rng ts_tree ts_kind ts_ud] in GT.
      destruct (RD2 mem true osid (recording (fun _ => None) (ts_id S sp) csid)) as (O1 & _ & _ & O4). clear RD2.
      split; [intro RF; eapply BAD; exact (gives_then rt ro jn _ _ b1 b2 _ True GT (O1 RF))|].
      exists t1, h1. split; [exact R1|]. split; [exact RP|]. split; [exact IR|]. split; [exact KP|]. intros GO EN OU.
      assert (FR : true = true -> recording (fun _ => None) (ts_id S sp) csid oid = None).
      { intros _. unfold recording. destruct (Z.eqb_spec oid (ts_id S sp)); [congruence|reflexivity]. }
      specialize (O4 GO OH FR).
      set (x := (TreeSpaceModel.mkSpace S csid (ts_name S sp) (mkRng gid dflt (t_init dty) None) t1 (KStatic S) (restored_ud (ts_ud S sp)), h1)) in *.
      destruct (ttuner_again mem eid cid csid osid qs x c' tmoved (restored_ud oud) QS G2 outer id
                  (mkRT (rt_id t) (rt_name t) (x, mkRS qs (EvalModel.mkSpace 6 c' tmoved) (restored_ud oud)) H (rt_optima t) (rt_ud t))
                  eq_refl eq_refl eq_refl eq_refl eq_refl EN OU) as (os & SO' & TO).
      exists (all_tagain eid cid csid osid 0 H), os. split; [eapply thistory_again; eassumption|]. split; [exact SO'|].
      eapply HAD; [exact (gives_then rt ro jn _ _ b1 b2 _ _ GT O4)|]. apply so_tuner. exact TO.
    - intros vs st0 KD.
      assert (FAIL : forall e, match v with None => e = ERR_INVALID_VALUE | Some vr => exists f, tv_load S vr = Some f /\ f st [] = Err e end -> gives read (Err e) bs True).
      { intros e LD. apply (BAD e True). refine (gives_fails rt ro jn e b1 b2 True _). apply (tree_fails S types le dflt gid v st true csid h2 (fun _ => None) e b1 True EM).
        intros tl n N1 N2. unfold b1 in *. rewrite <- !app_assoc in *.
        apply (dynamic_refused S types types le le sp ty ty (g_type (ts_rng S sp)) dflt dty th T head sb ub gid vs st0 v st e h2 TB OG RH SH RT SP KD W1 TB (proj1 OG) eq_refl DF R2 LD (sb ++ ub ++ tl) n); [|exact N2].
        pose proof (lenZ_nonneg sb). pose proof (lenZ_nonneg ub). rewrite !lenZ_app in *. lia. }
      split; [intros ->; now apply FAIL|]. split; [intros vr g e -> LD GE; apply FAIL; eauto|].
      intros vr st' -> LD UD. pose proof W1 as (lh & nm & gb & tb & _ & _ & _ & _ & _ & _ & WU). rewrite UD in WU.
      destruct (dynamic_restored S types types le le sp ty ty (g_type (ts_rng S sp)) dflt dty th T head sb ub gid vs st0 vr st st' h2 TB OG RH SH RT SP KD W1 TB (proj1 OG) eq_refl DF R2 LD)
        as (t1 & h1 & D1 & D2 & _).
      eapply (BAD _ (_ /\ True)). unfold b1. replace ((head ++ sb ++ ub) ++ b2) with ((head ++ sb) ++ ub ++ b2) by now rewrite <- !app_assoc.
      refine (gives_then rt ro jn _ (Err ERR_INVALID_TYPE) (head ++ sb) (ub ++ b2) _ True (tree_gives S types le dflt gid (Some vr) st true csid h2 (fun _ => None) _ _ _ (TreeCodecSpec.plain T /\ ud_bytes (g_ud (ts_rng S sp)) = [] /\ match tv_save S vs with Some f => f st0 = [] | None => True end) EM _) _).
      + split; [exact D1|]. intros (P1 & P2 & P3). exact (D2 P1 P2 P3).
      + unfold ro. eapply shifted; eassumption.
  Qed.
End Whole.
