(** Proofs about saving and restoring a user defined tuner together with its spaces. *)
From Coq Require Import ZArith List Bool Lia Arith.
From Verif Require Import Base Datum CmpModel CmpSpec CodecModel CodecSpec CodecProofs ParamModel ParamSpec ContextModel ContextSpec ContextProofs ExprModel ExprSpec ExprProofs ExprCodec TreeModel RngModel RngSpec RngProofs TreeCodecSpec TreeSpaceModel TreeSpaceSpec TreeConfModel TreeConfSpec RestoreModel RestoreSpec RestoreProofs TunerCodecModel TunerCodecSpec TunerCodecProofs DistModel DistCodecModel DistCodecSpec EvalModel EvalFacts SpaceCodecModel SpaceCodecSpec SpaceCodecProofs SpaceModel SpaceSpec SpaceReach SpaceMain ConfCodecModel ConfCodecSpec ConfMeaning ConfBuild ConfCodecMain ConfCodecFacts WholeModel WholeSpec WholeProofs UserTunerModel UserTunerSpec UserTunerProofs UserTunerKinds UserWholeModel UserWholeSpec.
Import ListNotations.
Open Scope Z_scope.

(** what the application makes of what it is told *)
Lemma back_saved {E Sp D St} mem (step : Sp -> nat -> hmap -> eobj E -> res (eobj E * hmap) -> Prop) (v : vector E D St) data outer id (t : rtuner E Sp) st sp m t' k :
  tuner_outcome E Sp mem (step sp) None id t sp m (Ok (t', k)) -> (forall x, takes_back v data (rt_history t') (rt_optima t') st <> UB x) ->
  user_saved E Sp D St mem step v data outer id t st (Ok (sp, m)) (user_back v data outer id t sp (rt_history t') (rt_optima t') st).
Proof.
  intros TO NU. unfold user_back. destruct (v_complete v) eqn:C; [|apply ud_fails; exact (us_vector _ _ _ _ _ _ v data outer id t st sp m t' k TO C)].
  destruct (takes_back v data (rt_history t') (rt_optima t') st) as [x|e|u] eqn:TB; [|apply ud_fails; exact (us_refused _ _ _ _ _ _ v data outer id t st sp m t' k e TO C TB)|now destruct (NU u)].
  destruct outer as [known|].
  - destruct (known (rt_id t)) eqn:K.
    + apply ud_fails. eapply us_again; eauto. congruence.
    + apply ud_had. eapply us_had; eauto. intros q [= <-]. exact K.
  - apply ud_had. exact (us_had _ _ _ _ _ _ v data None id t st sp m t' k x TO C TB ltac:(discriminate)).
Qed.
(** a tuner whose spaces cannot be read *)
Section Breaks.
  Variables (E Sp D St : Type) (mem : Z -> bool) (deser_spaces : hmap -> rstate -> res ((Sp * hmap) * rstate)) (read_e : Sp -> nat -> hmap -> rstate -> res ((eobj E * hmap) * rstate)).
  Variables (oty unsupported : Z) (v : vector E D St) (data : D) (outer : option hmap) (id : Z).
  Definition marked (s : rstate) : res ((rtuner E Sp + utuner Sp St) * option hmap * rstate) :=
    do (o, s) <- deser_object_internal s; do _ <- refute (negb (fst o =? oty)) ERR_INVALID_TYPE; do x <- peek_enum s;
    if x =? TUNER_USER_DEFINED then do (r, s) <- deser_user_tuner E Sp mem D St deser_spaces read_e v data outer (snd o) id s; Ok ((inr (fst r), snd r), s) else Err 0.
  Lemma any_marked s : (exists e, marked s = Err e) \/ deser_any_tuner E Sp mem D St deser_spaces read_e oty unsupported (Some v) data outer id s = marked s.
  Proof.
    unfold marked, deser_any_tuner. destruct (deser_object_internal s) as [[o s1]| |]; cbn [bind]; auto. destruct (refute _ _); cbn [bind]; auto. destruct (peek_enum s1) as [x| |]; cbn [bind]; auto.
    destruct (x =? TUNER_USER_DEFINED); [auto|left; eauto].
  Qed.
  Lemma user_breaks (Sp' : Type) (t : rtuner E Sp') sb storable_e wire_e st bs u : 0 <= oty < 128 -> storable_tuner storable_e t -> wire_user oty sb wire_e t st bs ->
    breaks (deser_spaces (fun _ => None)) u sb -> breaks (deser_any_tuner E Sp mem D St deser_spaces read_e oty unsupported (Some v) data outer id) u bs.
  Proof.
    intros TY (I & NM & _) (lh & nb & hn & on & hb & ob & tb & ub & Lh & Nb & _ & _ & _ & _ & _ & _ & ->) B. assert (M : breaks marked u ((oty :: lh) ++ [1] ++ nb ++ sb ++ hn ++ on ++ hb ++ ob ++ tb ++ ub)).
    { apply falls_breaks. intro L. unfold marked.
      fb; [apply (decodes_dec false), (deser_object_internal_decodes oty (rt_id t) lh TY I Lh)|]. cbn [fst snd]. rewrite Z.eqb_refl. cbn [negb refute bind].
      cbn [List.app]. apply (falls_peek u _ 1 (fun x s => if x =? TUNER_USER_DEFINED then do (r, s) <- deser_user_tuner E Sp mem D St deser_spaces read_e v data outer (rt_id t) id s; Ok ((inr (fst r), snd r), s) else Err 0)); [lia|]. cbn [Z.eqb TUNER_USER_DEFINED Pos.eqb].
      replace (1 :: nb ++ sb ++ hn ++ on ++ hb ++ ob ++ tb ++ ub) with (([1] ++ nb ++ sb) ++ hn ++ on ++ hb ++ ob ++ tb ++ ub) by now rewrite <- !app_assoc.
      apply falls_head. unfold deser_user_tuner. rewrite <- (app_nil_r ([1] ++ nb ++ sb)). apply breaks_first. apply falls_breaks. intro L'. unfold deser_tuner_data. fb; [apply (decodes_dec false), (deser_enum_small 1); lia|].
      fb; [apply (decodes_dec false), (deser_string_decodes (rt_name t)); destruct NM; assumption|]. rewrite <- (app_nil_r sb). now apply falls_head. }
    intros tl n N1 N2. specialize (M tl n N1 N2). destruct (any_marked (mkR (((oty :: lh) ++ [1] ++ nb ++ sb ++ hn ++ on ++ hb ++ ob ++ tb ++ ub) ++ tl) n)) as [[e X]|X]; congruence.
  Qed.
End Breaks.

Section Config.
  Variables (jen : list Z -> Z) (le : bool) (heap : Z -> param) (pud : Z -> option (list Z)).
  Variables (types : list gtype) (flog : Z -> Z) (dheap : Z -> cdist) (dimension : Z -> nat) (ddist0 : Z -> Z).
  Variables (R : Type) (draw : Z -> list Z -> R -> res (list datum) * R) (known : Z -> Prop).
  Hypothesis KN : sound_space heap jen dimension ddist0 known.
  Variables (S : nat -> Prop) (s : SpaceModel.space).
  Hypothesis RE : reach heap jen dimension ddist0 R draw known S s.
  Variables (g : rng) (ty : gtype) (ud : option (list Z)).
  Hypothesis ST : storable_conf jen heap pud types flog dheap dimension g ty ud s.
  Variables (oid : Z) (oud : option (list Z)) (osp : EvalModel.space) (A : list Z).
  Notation objs := (sp_objectives osp).
  Hypothesis SO : storable_space jen heap pud oid oud (sp_ctx osp) A.
  Hypothesis OB : Forall (storable_objective A) objs.
  Hypothesis RM : 8 * lenZ A + 12 * lenZ objs < 2 ^ 64.
  Variables (pid qid did : nat -> Z) (f h : Z -> Z) (otype : Z -> option Z).
  Hypothesis PI : addresses pid (length (s_params s)).
  Hypothesis QI : addresses qid (length A).
  Hypothesis DJ : disjoint pid (length (s_params s)) qid (length A).
  Hypothesis MV : moves pid (s_params s) f.
  Hypothesis MQ : moves qid A h.
  Hypothesis OT : forall i, (i < length (s_params s))%nat -> otype (pid i) = Some OBJ_PARAMETER.
  Hypothesis OQ : forall i, (i < length A)%nat -> otype (qid i) = Some OBJ_PARAMETER.
  Variables (dimension' : Z -> nat) (ddist : Z -> Z) (R' : Type) (draw' : Z -> list Z -> R' -> res (list datum) * R').
  Hypothesis DD : forall h, dimension' (ddist h) = 1%nat.
  Hypothesis DI : forall i w, nth_error (s_dists s) i = Some w -> dimension' (did i) = dimension (dw_dist w).
  Variables (tu : utuner saved (app bobj)) (Hs : list (eobj bobj)) (Os st : list Z) (wmem : Z -> bool).
  Hypothesis AN : answers (ut_state tu) Hs Os st.
  Hypothesis LST : lenZ st < 2 ^ 64.
  Hypothesis WM : granted wmem (8 * (lenZ Hs + lenZ Os)).
  Notation t := (speaks tu Hs Os).
  Hypothesis TS : storable_tuner (storable_eval storable_bobj) t.
  Hypothesis TE : rt_spaces t = mkSaved g ud s oid oud osp.
  Notation P := (s_params s).
  Notation H := Hs.


  Hypothesis EV : Forall (evaluation_in heap (s_self s) P oid A) H.
  Hypothesis EA : evaluations_apart (s_self s) oid H.
  Hypothesis OI : incl (rt_optima t) (map eo_id H).
  Hypothesis NS : s_self s <> oid.

  Hypothesis OW : own g s.
  Hypothesis OH : own_handles A objs.
  Lemma user_whole_saved :
    exists bs ps qs c', (exists b1 b2, wire_conf_space heap pud dheap le g ty ud s b1 /\ wire_objective_space heap pud oid oud (c_name (sp_ctx osp)) A objs b2 /\
        wire_user 8 (b1 ++ b2) (wire_eval 7 (wire_bobj 5)) t st bs) /\
      encodes (save_user wmem le heap pud types dheap tu) bs /\ size_saved_user wmem le heap pud types dheap tu = Ok (lenZ bs) /\
      same_parameters heap pud pid P ps /\ same_parameters heap pud qid A qs /\ SpaceCodecSpec.same_space (sp_ctx osp) qs c' /\
      forall D St (v : vector bobj D St) data mem eid cid csid osid outer id, csid <> osid ->
        let read := restore_user jen le types flog mem otype pid qid did ddist csid osid eid cid D St v data outer id in
        (refused_memory mem (block s) -> gives read (Err ERR_OUT_OF_MEMORY) bs True) /\
        (granted mem (block s) -> forall e, parts_fail mem (dists_of dheap s) e -> gives read (Err e) bs True) /\
        (granted mem (block s) -> forall rs, dists_back mem did (dists_of dheap s) rs ->
           exists r, clauses_outcome heap s (new_defaults ps) r /\
             match r with
             | Err e => gives read (Err e) bs True
             | UB u => breaks read u bs
             | Ok _ =>
                 (refused_memory mem (8 * lenZ A + 12 * lenZ objs) -> gives read (Err ERR_OUT_OF_MEMORY) bs True) /\
                 exists s', ConfCodecSpec.rebuilt pid did f s csid s' /\
                   reach (at_address ps) jen dimension' ddist R' draw' (fun h => In h (map po_id ps)) everything s' /\
                   (granted mem (8 * lenZ A + 12 * lenZ objs) -> enough mem t ->
                    exists H' os, same_history eid cid csid osid H H' /\ same_optima H H' (rt_optima t) os /\
                      ((forall x, takes_back v data H' os st <> UB x) -> gives read (user_back v data outer id t (mkRC ps (rng_back g) rs s' (restored_ud ud), mkRS qs (EvalModel.mkSpace 6 c' (map (fun o => (restored h (fst o), snd o)) objs)) (restored_ud oud)) H' os st) bs
                        ((plain pud dheap g ud s /\ (ud_bytes oud = [] /\ SpaceCodecSpec.no_data pud A) /\ Forall (fun o => no_user_data (fst o)) objs) /\ plain_tuner plain_bobj t)))
             end).
  Proof.
    destruct (conf_space_saved jen le heap pud types flog dheap dimension ddist0 R draw known KN S s RE g ty ud ST pid did f otype PI MV OT dimension' ddist R' draw' DD DI)
      as (b1 & ps & W1 & E1 & Z1 & PS & RD1).
    destruct (objective_space_made jen le heap pud qid oid oud (sp_ctx osp) A SO QI otype h OQ MQ objs OB RM osp eq_refl eq_refl)
      as (b2 & qs & c' & W2 & E2 & Z2 & QS & SC & NW & RD2).
    assert (G2 : good (at_address qs) c' (map po_id qs)).
    { pose proof (new_good _ _ _ _ NW) as G. destruct SC as [_ D]. rewrite (describes_params _ jen _ _ (D (at_address qs) ltac:(intros q Q; apply find_here; [rewrite (proj1 QS); now apply addresses_nodup|exact Q]))) in G. exact G. }
    assert (ES : encodes (ser_saved le heap pud types dheap (rt_spaces t)) (b1 ++ b2)) by (rewrite TE; unfold ser_saved; now apply encodes_seq).
    assert (SS : size_saved le heap pud types dheap (rt_spaces t) = Ok (lenZ (b1 ++ b2))).
    { rewrite TE. unfold size_saved. cbn [sv_rng sv_cud sv_conf sv_oid sv_oud sv_obj]. rewrite Z1, Z2. cbn [bind]. now rewrite lenZ_app. }
    destruct (users_written wmem le saved (ser_saved le heap pud types dheap) (size_saved le heap pud types dheap) st (b1 ++ b2)) as [TW _]. destruct (TW tu Hs Os AN TS LST WM ES SS) as (bs & WT & ET & ZT). clear TW.
    exists bs, ps, qs, c'. split; [exists b1, b2; auto|]. split; [exact ET|]. split; [exact ZT|]. split; [exact PS|]. split; [exact QS|]. split; [exact SC|].
    intros D St v data mem eid cid csid osid outer id CO read. destruct (RD1 mem true csid (fun _ => None)) as (C1 & C2 & _ & C4). clear RD1.
    (** the same tuner with other spaces *)
    assert (HAD : forall rs whole, gives (deser_saved jen le types flog mem otype pid qid did ddist csid osid (fun _ => None)) rs (b1 ++ b2) whole ->
      forall (d : had) r, user_saved bobj had D St mem (fun sp => evaluation_step mem jen (alive csid osid sp) eid cid) v data outer id (mkRT (rt_id t) (rt_name t) d H (rt_optima t) (rt_ud t)) st rs r ->
      gives read r bs (whole /\ plain_tuner plain_bobj t)).
    { intros rs whole GS d r O. exact (user_had mem jen le had D St (alive csid osid) eid cid _ (b1 ++ b2) whole v data outer id bs st rs GS LST (mkRT (rt_id t) (rt_name t) d H (rt_optima t) (rt_ud t)) r TS WT O). }
    assert (BAD : forall e w, (exists d : had, True) -> gives (deser_saved jen le types flog mem otype pid qid did ddist csid osid (fun _ => None)) (Err e) (b1 ++ b2) w -> gives read (Err e) bs True).
    { intros e w [d _] GS. exact (HAD (Err e) w GS d (Err e) (ud_spaces _ _ _ _ _ _ _ _ _ _ _ _ e)). }
    assert (HV : exists d : had, True).
    { exists (mkRC [] g [] s ud, mkRS [] osp oud). exact Logic.I. }
    assert (FIRST : forall e, gives (deser_conf_space jen le types flog mem otype pid did ddist true csid (fun _ => None)) (Err e) b1 True -> gives read (Err e) bs True).
    { intros e GS. apply (BAD e True HV). exact (gives_fails _ _ (fun c o => ((fst c, fst o), snd o)) e b1 b2 True GS). }
    split; [intro RF; apply FIRST; now apply C1|]. split; [intros GR e PF; apply FIRST; now apply (C2 GR OW)|].
    intros GR rs DB. destruct (C4 GR OW rs DB) as (r & CL & M). exists r. split; [exact CL|]. destruct r as [[]|e|u].
    - destruct M as (_ & s' & RB & RC & GV). specialize (GV (fun _ => eq_refl)). destruct (RD2 mem true osid (recording (fun _ => None) (s_self s) csid)) as (O1 & _ & _ & O4). clear RD2.
      split.
      { intro RF. apply (BAD _ (plain pud dheap g ud s /\ True) HV).
        exact (gives_then _ (fun x s => deser_objective_space jen le qid mem otype true osid (snd x) s) (fun c o => ((fst c, fst o), snd o)) _ _ b1 b2 _ True GV (O1 RF)). }
      exists s'. split; [exact RB|]. split; [exact RC|]. intros GO EN. specialize (O4 GO OH).
      assert (FR : true = true -> recording (fun _ => None) (s_self s) csid oid = None).
      { intros _. unfold recording. destruct (Z.eqb_spec oid (s_self s)); [congruence|reflexivity]. }
      specialize (O4 FR). assert (G1 : good (at_address ps) (s_ctx s') (map po_id ps)).
      { assert (KN' : sound_space (at_address ps) jen dimension' ddist (fun h => In h (map po_id ps))).
        { split; [|split; [|exact DD]].
          - intros x X. destruct (in_map_iff po_id ps x) as [Q _]. destruct (Q X) as (q & <- & I). rewrite find_here; [|rewrite (proj1 PS); now apply addresses_nodup|exact I].
            destruct (In_nth_error _ _ I) as [i N]. destruct PS as [_ F]. assert (LL : (i < length P)%nat) by (rewrite (Forall2_len _ _ _ F); apply nth_error_Some; congruence).
            destruct (nth_error P i) as [a|] eqn:NA; [|apply nth_error_None in NA; lia]. destruct (Forall2_nth _ _ _ _ _ F NA) as (q' & Q' & RBK & _). replace q' with q in * by congruence.
            apply (back_created jen (heap a)); [exact (created_conf jen heap dimension ddist0 R draw known KN S s RE a (nth_error_In _ _ NA))|exact RBK].
          - intros x X. rewrite (proj1 PS) in X. apply in_map_iff in X. destruct X as (i & <- & I). apply in_seq in I. destruct PI as [PO _]. apply PO. lia. }
        pose proof (reach_sinv (at_address ps) jen dimension' ddist R' draw' _ KN' _ s' RC) as V. pose proof (v_good _ _ _ _ _ V) as G. destruct RB as (_ & _ & EP & _). rewrite EP, <- (proj1 PS) in G. exact G. }
      destruct (tuner_again jen heap pud dimension ddist0 R draw known KN S s RE oid oud osp A SO pid qid did otype PI QI DJ OT OQ dimension' ddist R' draw' DD DI t EV EA OI NS mem eid cid csid osid CO ps qs (rng_back g) rs s' c' (map (fun o => (restored h (fst o), snd o)) objs) (restored_ud ud) (restored_ud oud) PS QS G1 G2 None id
                  (mkRT (rt_id t) (rt_name t) (mkRC ps (rng_back g) rs s' (restored_ud ud), mkRS qs (EvalModel.mkSpace 6 c' (map (fun o => (restored h (fst o), snd o)) objs)) (restored_ud oud)) H (rt_optima t) (rt_ud t))
                  eq_refl eq_refl eq_refl eq_refl eq_refl EN ltac:(discriminate)) as (os & SO' & TO).
      exists (all_again eid cid csid osid 0 H), os. split; [exact (history_again dimension s A pid qid did otype OT OQ dimension' ddist R' draw' DD DI t mem eid cid csid osid)|]. split; [exact SO'|]. intro NU.
      eapply HAD; [exact (gives_then _ (fun x s => deser_objective_space jen le qid mem otype true osid (snd x) s) (fun c o => ((fst c, fst o), snd o)) _ _ b1 b2 _ _ GV O4)|].
      exact (back_saved mem (fun sp => evaluation_step mem jen (alive csid osid sp) eid cid) v data outer id _ st _ _ _ _ TO NU).
    - now apply FIRST.
    - refine (user_breaks _ _ _ _ mem _ _ 8 _ v data outer id _ t (b1 ++ b2) (storable_eval storable_bobj) (wire_eval 7 (wire_bobj 5)) st bs u _ TS WT _); [lia|]. unfold deser_saved. now apply breaks_first.
  Qed.
End Config.
