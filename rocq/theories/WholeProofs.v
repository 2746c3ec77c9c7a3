(** Proofs about saving and restoring a tuner together with its spaces. *)
From Coq Require Import ZArith List Bool Lia Arith.
From Verif Require Import Base Datum CmpModel CmpSpec CodecModel CodecSpec CodecProofs ParamModel ParamSpec ContextModel ContextSpec ContextProofs ExprModel ExprSpec ExprProofs ExprCodec TreeModel RngModel RngSpec RngProofs TreeCodecSpec TreeSpaceModel TreeSpaceSpec TreeConfModel TreeConfSpec RestoreModel RestoreSpec RestoreProofs TunerCodecModel TunerCodecSpec TunerCodecProofs DistModel DistCodecModel DistCodecSpec EvalModel EvalFacts SpaceCodecModel SpaceCodecSpec SpaceCodecProofs SpaceModel SpaceSpec SpaceReach SpaceMain ConfCodecModel ConfCodecSpec ConfMeaning ConfBuild ConfCodecMain ConfCodecFacts WholeModel WholeSpec.
Import ListNotations.
Open Scope Z_scope.

(** ** Readers *)
Ltac db := eapply dec_bind; [|intros _; cbv beta iota].
(** one reader after the other *)
Lemma gives_then {A B C} (f : rstate -> res (A * rstate)) (k : A -> rstate -> res (B * rstate)) (h : A -> B -> C) a r b1 b2 w1 w2 :
  gives f (Ok a) b1 w1 -> gives (k a) r b2 w2 ->
  gives (fun s => do (x, s) <- f s; do (y, s) <- k x s; Ok (h x y, s)) (match r with Ok b => Ok (h a b) | Err e => Err e | UB u => UB u end) (b1 ++ b2) (w1 /\ w2).
Proof.
  intros G1 G2. apply gives_takes in G1. apply gives_takes in G2. apply takes_gives. destruct r as [b|e|u]; cbn [takes] in *; [| |exact G2].
  - intros u L W. db; [apply G1; intro Q; apply (W Q)|]. rewrite <- (app_nil_r b2). db; [apply G2; intro Q; apply (W Q)|]. apply dec_ret.
  - intro L. rb; [apply (G1 false); discriminate|]. rewrite <- (app_nil_r b2). apply rej_head. apply G2.
Qed.
Lemma gives_fails {A B C} (f : rstate -> res (A * rstate)) (k : A -> rstate -> res (B * rstate)) (h : A -> B -> C) e b1 b2 w :
  gives f (Err e) b1 w -> gives (fun s => do (x, s) <- f s; do (y, s) <- k x s; Ok (h x y, s)) (Err e) (b1 ++ b2) True.
Proof. intro G. apply gives_takes in G. apply takes_gives. cbn [takes] in *. intro L. apply rej_head, G. Qed.

Lemma falls_head {A B} u L (f : rstate -> res (A * rstate)) (k : A * rstate -> res (B * rstate)) bs cs :
  breaks f u bs -> falls u L (fun s => bind (f s) k) (bs ++ cs).
Proof.
  intros F N tl n R R'. pose proof (lenZ_nonneg cs). pose proof (lenZ_nonneg bs). pose proof (lenZ_nonneg tl).
  rewrite <- app_assoc in *. rewrite F; [reflexivity| |exact R']. rewrite !lenZ_app in *. lia.
Qed.
Lemma falls_peek {A} u L t (g : Z -> rstate -> res (A * rstate)) bs : 0 <= t < 128 ->
  falls u L (g t) (t :: bs) -> falls u L (fun s => do x <- peek_enum s; g x s) (t :: bs).
Proof.
  intros Ht H Hl tl n Hn Hn2. destruct (deser_enum_small t Ht) as [D1 _]. unfold peek_enum. cbn [app] in *. pose proof (lenZ_nonneg bs).
  assert (L1 : lenZ [t] = 1) by reflexivity.
  rewrite (D1 (bs ++ tl) n); [|split; [rewrite lenZ_cons in Hn; lia|apply Hn]|exact Hn2]. cbn [bind fst]. apply H; auto.
Qed.
Lemma breaks_then {A B C} (f : rstate -> res (A * rstate)) (k : A -> rstate -> res (B * rstate)) (h : A -> B -> C) a u b1 b2 w1 :
  gives f (Ok a) b1 w1 -> breaks (k a) u b2 -> breaks (fun s => do (x, s) <- f s; do (y, s) <- k x s; Ok (h x y, s)) u (b1 ++ b2).
Proof.
  intros G1 G2. apply gives_takes in G1. apply falls_breaks. intro L. fb; [apply (G1 false); discriminate|]. rewrite <- (app_nil_r b2). now apply falls_head.
Qed.
Lemma breaks_first {A B} (f : rstate -> res (A * rstate)) (k : A * rstate -> res (B * rstate)) u b1 b2 :
  breaks f u b1 -> breaks (fun s => bind (f s) k) u (b1 ++ b2).
Proof. intro F. apply falls_breaks. intro L. now apply falls_head. Qed.
(** a tuner whose spaces cannot be read *)
Lemma tuner_breaks {E Sp} mem (deser_spaces : hmap -> rstate -> res ((Sp * hmap) * rstate)) (read_e : Sp -> nat -> hmap -> rstate -> res ((eobj E * hmap) * rstate)) oty unsupported outer id
  (Sp' : Type) (t : rtuner E Sp') sb storable_e wire_e bs u : 0 <= oty < 128 -> storable_tuner storable_e t -> wire_tuner oty sb wire_e t bs ->
  breaks (deser_spaces (fun _ => None)) u sb -> breaks (deser_tuner E Sp mem deser_spaces read_e oty unsupported outer id) u bs.
Proof.
  intros TY (I & NM & _) (lh & nb & hn & on & hb & ob & ub & Lh & Nb & _ & _ & _ & _ & _ & ->) B. apply falls_breaks. intro L. unfold deser_tuner.
  fb; [apply (decodes_dec false), (deser_object_internal_decodes oty (rt_id t) lh TY I Lh)|]. cbn [fst snd]. rewrite Z.eqb_refl. cbn [negb refute bind].
  cbn [app]. apply falls_peek; [lia|]. cbn [refute bind negb Z.eqb TUNER_USER_DEFINED TUNER_RANDOM].
  replace (0 :: nb ++ sb ++ hn ++ on ++ hb ++ ob ++ ub) with (([0] ++ nb ++ sb) ++ hn ++ on ++ hb ++ ob ++ ub) by now rewrite <- !app_assoc.
  apply falls_head. apply falls_breaks. intro L'. unfold deser_tuner_data. fb; [apply (decodes_dec false), (deser_enum_small 0); lia|].
  fb; [apply (decodes_dec false), (deser_string_decodes (rt_name t)); destruct NM; assumption|]. rewrite <- (app_nil_r sb). now apply falls_head.
Qed.

(** ** The spaces that were made *)
Lemma nodup_left {A} (l l' : list A) : NoDup (l ++ l') -> NoDup l.
Proof. induction l as [|x l IH]; [constructor|]. cbn. intro N. inversion N; subst. constructor; [intro I; apply H1; apply in_or_app; now left|now apply IH]. Qed.
Lemma run_names heap nm : forall A P, NoDup (map (name_of heap) (P ++ A)) ->
  exists rs, add_run heap KFeatures (mkContext nm P (entries heap P 0)) (map (fun h => (h, None)) A) = (rs, mkContext nm (P ++ A) (entries heap (P ++ A) 0)).
Proof.
  induction A as [|h A IH]; intros P ND; [exists []; now rewrite app_nil_r|]. cbn [map add_run].
  assert (G : good heap (mkContext nm P (entries heap P 0)) P) by (split; [reflexivity|split; [reflexivity|]]; rewrite map_app in ND; exact (nodup_left _ _ ND)).
  assert (E : add_parameter heap KFeatures (mkContext nm P (entries heap P 0)) h None = (0, mkContext nm (P ++ [h]) (entries heap (P ++ [h]) 0))).
  { destruct (add_spec heap KFeatures _ P h None G) as (r & B & AD & E1 & G').
    inversion AD as [E _|_ [x [I E]]|d K|]; subst; try discriminate.
    - exfalso. rewrite map_app in ND. cbn [map] in ND. apply NoDup_remove_2 in ND. apply ND. apply in_or_app. left. rewrite <- E. now apply in_map.
    - rewrite (surjective_pairing (add_parameter _ _ _ _ _)). f_equal; [congruence|]. destruct G' as (A1 & A2 & _).
      destruct (snd (add_parameter heap KFeatures (mkContext nm P (entries heap P 0)) h None)) as [n' p' h'] eqn:Q. cbn in A1, A2. subst p' h'. f_equal.
      revert Q. unfold add_parameter. destruct (find_name _ _); cbn [snd]; intro E'; exact (eq_sym (f_equal c_name E')). }
  rewrite E. replace (P ++ h :: A) with ((P ++ [h]) ++ A) in * by now rewrite <- app_assoc. destruct (IH (P ++ [h]) ND) as [rs R]. rewrite R. now exists (0 :: rs).
Qed.
Lemma good_run heap c A : good heap c A -> exists l rs, map fst l = A /\ add_run heap KFeatures (new_context (c_name c)) l = (rs, c).
Proof.
  intros (E1 & E2 & ND). exists (map (fun h => (h, None)) A). destruct (run_names heap (c_name c) A [] ND) as [rs R]. exists rs. split; [rewrite map_map; apply map_id|].
  cbn [app entries] in R. unfold new_context. rewrite R. f_equal. destruct c. cbn in *. congruence.
Qed.
Lemma good_agree h1 h2 c A : (forall h, In h A -> h1 h = h2 h) -> good h1 c A -> good h2 c A.
Proof.
  intros AG (E1 & E2 & ND). assert (EN : forall l i, incl l A -> entries h1 l i = entries h2 l i).
  { induction l as [|h l IH]; intros i I; [reflexivity|]. cbn. unfold name_of. rewrite AG by (apply I; now left). f_equal. apply IH. intros x X. apply I. now right. }
  split; [exact E1|]. split; [rewrite E2; apply EN; now intros x|]. replace (map (name_of h2) A) with (map (name_of h1) A); [exact ND|]. apply map_ext_in. intros h I. unfold name_of. now rewrite AG.
Qed.
Lemma becomes_good heap jen at_ m old sty space c A : option_map d_val (m old) = Some (VObject space) -> at_ space = Some (sty, c) ->
  good heap c A -> (forall h, In h A -> created jen (heap h)) -> becomes heap jen at_ m old sty space A.
Proof.
  intros M S G C. split; [exact M|]. destruct (good_run heap c A G) as (l & rs & E & R). exists c, KFeatures, (c_name c), l, rs. split; [exact S|].
  split; [rewrite E; exact C|]. split; [exact R|]. apply G.
Qed.
Lemma new_good k nm ps c : SpaceCodecModel.new_space k nm ps = Ok c -> good (at_address ps) c (c_params c).
Proof.
  unfold SpaceCodecModel.new_space. destruct (adds_spec (at_address ps) k (map (fun p => (po_id p, None)) ps) _ _ (good_new (at_address ps) nm)) as (r & c' & B & E & _ & G). rewrite E.
  destruct (r =? CCS_RESULT_SUCCESS); [intros [= <-]|discriminate]. pose proof G as (P & _). now rewrite P.
Qed.
(** ** Values *)
Lemma read_domain p p' v : read_back p p' -> domain p v -> domain p' v.
Proof. intros (d & -> & _) D. exact D. Qed.
Lemma fits_read heap heap' P P' vals : Forall2 (fun h h' => read_back (heap h) (heap' h')) P P' -> fits heap P vals -> fits heap' P' vals.
Proof.
  intros F I i d s N V. destruct (I i d s N V) as (h & H & D). destruct (Forall2_nth _ _ _ _ _ F H) as (h' & H' & RB). exists h'. split; [exact H'|]. now apply (read_domain (heap h)).
Qed.
Lemma settles_same heap A vals : length vals = length A -> fits heap A vals -> settles heap A vals (Ok (map RestoreSpec.settled vals)).
Proof.
  intros L I. destruct vals as [|v vals]; [|now apply all_fit]. destruct A; [|discriminate]. now apply (no_values heap []).
Qed.

Section Whole.
  Variables (jen : list Z -> Z) (le : bool) (heap : Z -> param) (pud : Z -> option (list Z)).
  Variables (types : list gtype) (flog : Z -> Z) (dheap : Z -> cdist) (dimension : Z -> nat) (ddist0 : Z -> Z).
  Variables (R : Type) (draw : Z -> list Z -> R -> res (list datum) * R) (known : Z -> Prop).
  Hypothesis KN : sound_space heap jen dimension ddist0 known.
  Variables (S : nat -> Prop) (s : SpaceModel.space).
  Hypothesis RE : reach heap jen dimension ddist0 R draw known S s.
  Variables (g : rng) (ty : gtype) (ud : option (list Z)).
  Hypothesis ST : storable_conf jen heap pud types flog dheap dimension g ty ud s.
  Variables (oid : Z) (oud : option (list Z)) (osp : EvalModel.space) (A : list Z).
  Notation objs := (sp_objectives osp).
  Hypothesis SO : storable_space jen heap pud oid oud (sp_ctx osp) A.
  Hypothesis OB : Forall (storable_objective A) objs.
  Hypothesis RM : 8 * lenZ A + 12 * lenZ objs < 2 ^ 64.
  Variables (pid qid did : nat -> Z) (f h : Z -> Z) (otype : Z -> option Z).
  Hypothesis PI : addresses pid (length (s_params s)).
  Hypothesis QI : addresses qid (length A).
  Hypothesis DJ : disjoint pid (length (s_params s)) qid (length A).
  Hypothesis MV : moves pid (s_params s) f.
  Hypothesis MQ : moves qid A h.
  Hypothesis OT : forall i, (i < length (s_params s))%nat -> otype (pid i) = Some OBJ_PARAMETER.
  Hypothesis OQ : forall i, (i < length A)%nat -> otype (qid i) = Some OBJ_PARAMETER.
  Variables (dimension' : Z -> nat) (ddist : Z -> Z) (R' : Type) (draw' : Z -> list Z -> R' -> res (list datum) * R').
  Hypothesis DD : forall h, dimension' (ddist h) = 1%nat.
  Hypothesis DI : forall i w, nth_error (s_dists s) i = Some w -> dimension' (did i) = dimension (dw_dist w).
  Variable t : rtuner bobj saved.
  Hypothesis TS : storable_tuner (storable_eval storable_bobj) t.
  Hypothesis TE : rt_spaces t = mkSaved g ud s oid oud osp.
  Notation P := (s_params s).
  Notation H := (rt_history t).

  (** the parameters of both spaces together *)
  Section Heaps.
    Variables (ps qs : list pobj).
    Hypothesis PS : same_parameters heap pud pid P ps.
    Hypothesis QS : same_parameters heap pud qid A qs.
    Lemma both_ids : NoDup (map po_id (ps ++ qs)).
    Proof.
      rewrite map_app, (proj1 PS), (proj1 QS). assert (NA : NoDup (map pid (seq 0 (length P)))) by now apply addresses_nodup. assert (NB : NoDup (map qid (seq 0 (length A)))) by now apply addresses_nodup.
      assert (X : forall x, In x (map pid (seq 0 (length P))) -> ~ In x (map qid (seq 0 (length A)))).
      { intros x I J. apply in_map_iff in I. apply in_map_iff in J. destruct I as (i & <- & I), J as (j & E & J). apply in_seq in I. apply in_seq in J. apply (DJ i j); [lia|lia|now symmetry]. }
      revert NA X. induction (map pid (seq 0 (length P))) as [|x l IH]; intros NA X; [exact NB|]. cbn. inversion NA; subst. constructor.
      - intro I. apply in_app_or in I. destruct I as [I|I]; [contradiction|]. apply (X x); [now left|exact I].
      - apply IH; [assumption|]. intros y Y. apply X. now right.
    Qed.
    Lemma both_here q : In q (ps ++ qs) -> at_address (ps ++ qs) (po_id q) = po_param q.
    Proof. apply find_here, both_ids. Qed.
    Lemma read_all p l ls : same_parameters heap pud p l ls -> incl ls (ps ++ qs) -> (forall x, In x l -> created jen (heap x)) ->
      Forall2 (fun a b => read_back (heap a) (at_address (ps ++ qs) b)) l (map po_id ls) /\ (forall x, In x (map po_id ls) -> created jen (at_address (ps ++ qs) x)).
    Proof.
      intros [_ F] I C. split.
      - clear C. induction F as [|a q l ls [RB _] F IH]; [constructor|]. cbn. constructor; [|apply IH; intros x X; apply I; now right]. rewrite both_here by (apply I; now left). exact RB.
      - induction F as [|a q l ls [RB _] F IH]; [easy|]. cbn. intros x [<-|X]; [|apply IH; auto; [intros y Y; apply I; now right|intros y Y; apply C; now right]].
        rewrite both_here by (apply I; now left). apply (back_created jen (heap a)); [apply C; now left|exact RB].
    Qed.
  End Heaps.

  Hypothesis EV : Forall (evaluation_in heap (s_self s) P oid A) H.
  Hypothesis EA : evaluations_apart (s_self s) oid H.
  Hypothesis OI : incl (rt_optima t) (map eo_id H).
  Hypothesis NS : s_self s <> oid.
  Definition room : Z := 8 * lenZ A + 12 * lenZ objs.
  Definition moved_objectives : list (expr * Z) := map (fun o => (restored h (fst o), snd o)) objs.
  Lemma created_conf x : In x P -> created jen (heap x).
  Proof. intro I. exact (proj1 (src_created jen heap dimension ddist0 R draw known KN S s RE x I)). Qed.
  Lemma created_obj x : In x A -> created jen (heap x).
  Proof. destruct SO as (_ & _ & _ & _ & F & _). rewrite Forall_forall in F. intro I. apply (F x I). Qed.
  (** the evaluations *)
  Section Steps.
    Variables (mem : Z -> bool) (eid cid : nat -> Z) (csid osid : Z).
    Hypothesis CO : csid <> osid.
    Variables (ps qs : list pobj) (g' : rng) (rs : list cdist) (s' : SpaceModel.space) (c' : context) (l' : list (expr * Z)) (ud1 ud2 : option (list Z)).
    Hypothesis PS : same_parameters heap pud pid P ps.
    Hypothesis QS : same_parameters heap pud qid A qs.
    Hypothesis G1 : good (at_address ps) (s_ctx s') (map po_id ps).
    Hypothesis G2 : good (at_address qs) c' (map po_id qs).
    Notation sp := ((mkRC ps g' rs s' ud1, mkRS qs (EvalModel.mkSpace 6 c' l') ud2) : had).
    Notation m := (recording (recording (fun _ => None) (s_self s) csid) oid osid).
    Notation heap' := (at_address (ps ++ qs)).
    Lemma left_here x : In x (map po_id ps) -> at_address ps x = heap' x.
    Proof.
      intro I. apply in_map_iff in I. destruct I as (q & <- & I). rewrite (both_here ps qs PS QS) by (apply in_or_app; now left). apply find_here; [|exact I].
      pose proof (both_ids ps qs PS QS) as N. rewrite map_app in N. exact (nodup_left _ _ N).
    Qed.
    Lemma right_here x : In x (map po_id qs) -> at_address qs x = heap' x.
    Proof.
      intro I. apply in_map_iff in I. destruct I as (q & <- & I). rewrite (both_here ps qs PS QS) by (apply in_or_app; now right). apply find_here; [|exact I].
      rewrite (proj1 QS). now apply addresses_nodup.
    Qed.
    Lemma conf_becomes : becomes heap' jen (lv_at (alive csid osid sp)) m (s_self s) OT_CONFIGURATION_SPACE csid (map po_id ps).
    Proof.
      apply (becomes_good _ _ _ _ _ _ _ (s_ctx s')).
      - unfold recording. destruct (Z.eqb_spec (s_self s) oid); [contradiction|]. now rewrite Z.eqb_refl.
      - cbn. now rewrite Z.eqb_refl.
      - exact (good_agree _ _ _ _ left_here G1).
      - apply (read_all ps qs PS QS pid P ps PS); [intros x X; apply in_or_app; now left|exact created_conf].
    Qed.
    Lemma obj_becomes : becomes heap' jen (lv_at (alive csid osid sp)) m oid OT_OBJECTIVE_SPACE osid (map po_id qs).
    Proof.
      apply (becomes_good _ _ _ _ _ _ _ c').
      - unfold recording. now rewrite Z.eqb_refl.
      - cbn. destruct (Z.eqb_spec osid csid); [congruence|]. now rewrite Z.eqb_refl.
      - exact (good_agree _ _ _ _ right_here G2).
      - apply (read_all ps qs PS QS qid A qs QS); [intros x X; apply in_or_app; now right|exact created_obj].
    Qed.
    Definition again (i : nat) (e : eobj bobj) : eobj bobj :=
      mkE (eid i) osid (map RestoreSpec.settled (eo_vals e)) (mkB (cid i) csid (map RestoreSpec.settled (bo_vals (eo_about e))) (restored_ud (bo_ud (eo_about e)))) (eo_result e) (restored_ud (eo_ud e)).
    Lemma again_step i e : enough mem t -> In e H -> evaluation_step mem jen (alive csid osid sp) eid cid i m e (Ok (again i e, recording m (eo_id e) (eid i))).
    Proof.
      intros [_ EN] I. destruct (EN e I) as [M1 M2]. rewrite Forall_forall in EV. destruct (EV e I) as (C1 & L1 & F1 & C2 & L2 & F2). destruct EA as [_ AP]. destruct (AP e I) as [N1 N2].
      destruct (read_all ps qs PS QS pid P ps PS ltac:(intros x X; apply in_or_app; now left) created_conf) as [FP _].
      destruct (read_all ps qs PS QS qid A qs QS ltac:(intros x X; apply in_or_app; now right) created_obj) as [FQ _].
      apply (eo_had mem heap' jen (lv_at (alive csid osid sp)) m _ true (eid i) e _ osid (map po_id qs)).
      - exact M1.
      - apply co_had. apply (bo_had mem heap' jen (lv_at (alive csid osid sp)) m OT_CONFIGURATION_SPACE false (cid i) (eo_about e) csid (map po_id ps)).
        + exact M2.
        + rewrite C1. exact conf_becomes.
        + apply settles_same; [rewrite L1; exact (Forall2_len _ _ _ FP)|exact (fits_read _ _ _ _ _ FP F1)].
        + discriminate.
      - rewrite C2. exact obj_becomes.
      - apply settles_same; [rewrite L2; exact (Forall2_len _ _ _ FQ)|exact (fits_read _ _ _ _ _ FQ F2)].
      - intros _. unfold recording. destruct (Z.eqb_spec (eo_id e) oid); [contradiction|]. destruct (Z.eqb_spec (eo_id e) (s_self s)); [contradiction|reflexivity].
    Qed.
    Fixpoint all_again (i : nat) (l : list (eobj bobj)) : list (eobj bobj) :=
      match l with [] => [] | e :: l => again i e :: all_again (Datatypes.S i) l end.
    Lemma all_again_length : forall l i, length (all_again i l) = length l.
    Proof. induction l; intro i; cbn; auto. Qed.
    Lemma all_again_nth : forall l i j, nth_error (all_again i l) j = option_map (again (i + j)) (nth_error l j).
    Proof. induction l as [|e l IH]; intros i [|j]; cbn; try reflexivity; [now rewrite Nat.add_0_r|]. rewrite IH. now replace (i + Datatypes.S j)%nat with (Datatypes.S i + j)%nat by lia. Qed.
    Lemma history_again : same_history eid cid csid osid H (all_again 0 H).
    Proof.
      split; [apply all_again_length|]. intros i e e' N N'. rewrite all_again_nth, N in N'. cbn in N'. injection N' as <-. repeat split.
    Qed.
    Lemma tuner_again outer id (t' : rtuner bobj had) : rt_history t' = H -> rt_optima t' = rt_optima t -> rt_id t' = rt_id t -> rt_name t' = rt_name t -> rt_ud t' = rt_ud t ->
      enough mem t -> (forall k, outer = Some k -> k (rt_id t) = None) ->
      exists os, same_optima H (all_again 0 H) (rt_optima t) os /\
        tuner_outcome bobj had mem (evaluation_step mem jen (alive csid osid sp) eid cid) outer id t' sp m
          (Ok (mkRT id (rt_name t) sp (all_again 0 H) os (restored_ud (rt_ud t)), TunerCodecSpec.noted outer (rt_id t) id)).
    Proof.
      intros E1 E2 E3 E4 E5 EN OU. destruct (all_restore mem jen (alive csid osid sp) eid cid cid had) as [RS _]. destruct (RS m outer id t' sp) as [_ RS'].
      destruct (RS' (all_again 0 H)) as [_ X].
      - rewrite E1, E2. apply EN.
      - rewrite E1. split; [apply all_again_length|]. intros i e e' N N'. rewrite all_again_nth, N in N'. cbn in N'. injection N' as <-. eexists. apply again_step; [exact EN|exact (nth_error_In _ _ N)].
      - rewrite E1, E2, E3, E4, E5 in X. destruct X as (os & T & SAME); [| |exact OU|exists os; auto].
        + destruct EA as [ND AP]. split; [exact ND|]. intros e I. destruct (AP e I) as [N1 N2]. unfold recording. destruct (Z.eqb_spec (eo_id e) oid); [contradiction|]. destruct (Z.eqb_spec (eo_id e) (s_self s)); [contradiction|reflexivity].
        + exact OI.
    Qed.
  End Steps.

  Hypothesis OW : own g s.
  Hypothesis OH : own_handles A objs.
  Lemma whole_saved :
    exists bs ps qs c', (exists b1 b2, wire_conf_space heap pud dheap le g ty ud s b1 /\ wire_objective_space heap pud oid oud (c_name (sp_ctx osp)) A objs b2 /\
        wire_tuner 8 (b1 ++ b2) (wire_eval 7 (wire_bobj 5)) t bs) /\
      encodes (save_tuner le heap pud types dheap t) bs /\ size_saved_tuner le heap pud types dheap t = Ok (lenZ bs) /\
      same_parameters heap pud pid P ps /\ same_parameters heap pud qid A qs /\ SpaceCodecSpec.same_space (sp_ctx osp) qs c' /\
      forall mem eid cid csid osid outer id, csid <> osid ->
        let read := restore_tuner jen le types flog mem otype pid qid did ddist csid osid eid cid outer id in
        (refused_memory mem (block s) -> gives read (Err ERR_OUT_OF_MEMORY) bs True) /\
        (granted mem (block s) -> forall e, parts_fail mem (dists_of dheap s) e -> gives read (Err e) bs True) /\
        (granted mem (block s) -> forall rs, dists_back mem did (dists_of dheap s) rs ->
           exists r, clauses_outcome heap s (new_defaults ps) r /\
             match r with
             | Err e => gives read (Err e) bs True
             | UB u => breaks read u bs
             | Ok _ =>
                 (refused_memory mem room -> gives read (Err ERR_OUT_OF_MEMORY) bs True) /\
                 exists s', ConfCodecSpec.rebuilt pid did f s csid s' /\
                   reach (at_address ps) jen dimension' ddist R' draw' (fun h => In h (map po_id ps)) everything s' /\
                   (granted mem room -> enough mem t -> (forall k, outer = Some k -> k (rt_id t) = None) ->
                    exists H' os, same_history eid cid csid osid H H' /\ same_optima H H' (rt_optima t) os /\
                      gives read (Ok (mkRT id (rt_name t) (mkRC ps (rng_back g) rs s' (restored_ud ud), mkRS qs (EvalModel.mkSpace 6 c' moved_objectives) (restored_ud oud)) H' os (restored_ud (rt_ud t)),
                                      TunerCodecSpec.noted outer (rt_id t) id)) bs
                        ((plain pud dheap g ud s /\ (ud_bytes oud = [] /\ SpaceCodecSpec.no_data pud A) /\ Forall (fun o => no_user_data (fst o)) objs) /\ plain_tuner plain_bobj t))
             end).
  Proof.
    destruct (conf_space_saved jen le heap pud types flog dheap dimension ddist0 R draw known KN S s RE g ty ud ST pid did f otype PI MV OT dimension' ddist R' draw' DD DI)
      as (b1 & ps & W1 & E1 & Z1 & PS & RD1).
    destruct (objective_space_made jen le heap pud qid oid oud (sp_ctx osp) A SO QI otype h OQ MQ objs OB RM osp eq_refl eq_refl)
      as (b2 & qs & c' & W2 & E2 & Z2 & QS & SC & NW & RD2).
    assert (G2 : good (at_address qs) c' (map po_id qs)).
    { pose proof (new_good _ _ _ _ NW) as G. destruct SC as [_ D]. rewrite (describes_params _ jen _ _ (D (at_address qs) ltac:(intros q Q; apply find_here; [rewrite (proj1 QS); now apply addresses_nodup|exact Q]))) in G. exact G. }
    assert (ES : encodes (ser_saved le heap pud types dheap (rt_spaces t)) (b1 ++ b2)) by (rewrite TE; unfold ser_saved; now apply encodes_seq).
    assert (SS : size_saved le heap pud types dheap (rt_spaces t) = Ok (lenZ (b1 ++ b2))).
    { rewrite TE. unfold size_saved. cbn [sv_rng sv_cud sv_conf sv_oid sv_oud sv_obj]. rewrite Z1, Z2. cbn [bind]. now rewrite lenZ_app. }
    destruct (tuners_written le saved (ser_saved le heap pud types dheap) (size_saved le heap pud types dheap) (b1 ++ b2)) as [TW _]. destruct (TW t TS ES SS) as (bs & WT & ET & ZT). clear TW.
    exists bs, ps, qs, c'. split; [exists b1, b2; auto|]. split; [exact ET|]. split; [exact ZT|]. split; [exact PS|]. split; [exact QS|]. split; [exact SC|].
    intros mem eid cid csid osid outer id CO read. destruct (RD1 mem true csid (fun _ => None)) as (C1 & C2 & _ & C4). clear RD1.
    (** the same tuner with other spaces *)
    assert (HAD : forall rs whole, gives (deser_saved jen le types flog mem otype pid qid did ddist csid osid (fun _ => None)) rs (b1 ++ b2) whole ->
      forall (d : had) r, saved_outcome bobj had mem (fun sp => evaluation_step mem jen (alive csid osid sp) eid cid) outer id (mkRT (rt_id t) (rt_name t) d H (rt_optima t) (rt_ud t)) rs r ->
      gives read r bs (whole /\ plain_tuner plain_bobj t)).
    { intros rs whole GS d r O. exact (tuner_had mem jen le had (alive csid osid) eid cid _ (b1 ++ b2) whole outer id bs rs GS (mkRT (rt_id t) (rt_name t) d H (rt_optima t) (rt_ud t)) r TS WT O). }
    assert (BAD : forall e w, (exists d : had, True) -> gives (deser_saved jen le types flog mem otype pid qid did ddist csid osid (fun _ => None)) (Err e) (b1 ++ b2) w -> gives read (Err e) bs True).
    { intros e w [d _] GS. exact (HAD (Err e) w GS d (Err e) (so_spaces _ _ _ _ _ _ _ e)). }
    assert (HV : exists d : had, True).
    { exists (mkRC [] g [] s ud, mkRS [] osp oud). exact Logic.I. }
    assert (FIRST : forall e, gives (deser_conf_space jen le types flog mem otype pid did ddist true csid (fun _ => None)) (Err e) b1 True -> gives read (Err e) bs True).
    { intros e GS. apply (BAD e True HV). exact (gives_fails _ _ (fun c o => ((fst c, fst o), snd o)) e b1 b2 True GS). }
    split; [intro RF; apply FIRST; now apply C1|]. split; [intros GR e PF; apply FIRST; now apply (C2 GR OW)|].
    intros GR rs DB. destruct (C4 GR OW rs DB) as (r & CL & M). exists r. split; [exact CL|]. destruct r as [[]|e|u].
    - destruct M as (_ & s' & RB & RC & GV). specialize (GV (fun _ => eq_refl)). destruct (RD2 mem true osid (recording (fun _ => None) (s_self s) csid)) as (O1 & _ & _ & O4). clear RD2.
      split.
      { intro RF. apply (BAD _ (plain pud dheap g ud s /\ True) HV).
        exact (gives_then _ (fun x s => deser_objective_space jen le qid mem otype true osid (snd x) s) (fun c o => ((fst c, fst o), snd o)) _ _ b1 b2 _ True GV (O1 RF)). }
      exists s'. split; [exact RB|]. split; [exact RC|]. intros GO EN OU. specialize (O4 GO OH).
      assert (FR : true = true -> recording (fun _ => None) (s_self s) csid oid = None).
      { intros _. unfold recording. destruct (Z.eqb_spec oid (s_self s)); [congruence|reflexivity]. }
      specialize (O4 FR). assert (G1 : good (at_address ps) (s_ctx s') (map po_id ps)).
      { assert (KN' : sound_space (at_address ps) jen dimension' ddist (fun h => In h (map po_id ps))).
        { split; [|split; [|exact DD]].
          - intros x X. destruct (in_map_iff po_id ps x) as [Q _]. destruct (Q X) as (q & <- & I). rewrite find_here; [|rewrite (proj1 PS); now apply addresses_nodup|exact I].
            destruct (In_nth_error _ _ I) as [i N]. destruct PS as [_ F]. assert (LL : (i < length P)%nat) by (rewrite (Forall2_len _ _ _ F); apply nth_error_Some; congruence).
            destruct (nth_error P i) as [a|] eqn:NA; [|apply nth_error_None in NA; lia]. destruct (Forall2_nth _ _ _ _ _ F NA) as (q' & Q' & RBK & _). replace q' with q in * by congruence.
            apply (back_created jen (heap a)); [exact (created_conf a (nth_error_In _ _ NA))|exact RBK].
          - intros x X. rewrite (proj1 PS) in X. apply in_map_iff in X. destruct X as (i & <- & I). apply in_seq in I. destruct PI as [PO _]. apply PO. lia. }
        pose proof (reach_sinv (at_address ps) jen dimension' ddist R' draw' _ KN' _ s' RC) as V. pose proof (v_good _ _ _ _ _ V) as G. destruct RB as (_ & _ & EP & _). rewrite EP, <- (proj1 PS) in G. exact G. }
      destruct (tuner_again mem eid cid csid osid CO ps qs (rng_back g) rs s' c' moved_objectives (restored_ud ud) (restored_ud oud) PS QS G1 G2 outer id
                  (mkRT (rt_id t) (rt_name t) (mkRC ps (rng_back g) rs s' (restored_ud ud), mkRS qs (EvalModel.mkSpace 6 c' moved_objectives) (restored_ud oud)) H (rt_optima t) (rt_ud t))
                  eq_refl eq_refl eq_refl eq_refl eq_refl EN OU) as (os & SO' & TO).
      exists (all_again eid cid csid osid 0 H), os. split; [eapply history_again; eassumption|]. split; [exact SO'|].
      eapply HAD; [exact (gives_then _ (fun x s => deser_objective_space jen le qid mem otype true osid (snd x) s) (fun c o => ((fst c, fst o), snd o)) _ _ b1 b2 _ _ GV O4)|].
      apply so_tuner. exact TO.
    - now apply FIRST.
    - refine (tuner_breaks mem _ _ 8 _ outer id _ t (b1 ++ b2) (storable_eval storable_bobj) (wire_eval 7 (wire_bobj 5)) bs u _ TS WT _); [lia|]. unfold deser_saved. now apply breaks_first.
  Qed.
End Whole.
