(** Proofs about saving and restoring configuration spaces: the whole. *)
From Coq Require Import ZArith List Bool Lia Arith.
From Verif Require Import Base Datum CodecModel CodecSpec CodecProofs ParamModel ParamSpec ContextModel ContextSpec ContextProofs ExprModel ExprSpec ExprProofs ExprCodec RngModel RngSpec RngProofs TreeCodecSpec TreeCodec TreeSpaceSpec TreeSpaceCodec TreeConfModel RestoreSpec RestoreProofs TunerCodecSpec TunerCodecProofs DistModel DistCodecModel DistCodecSpec DistCodecProofs EvalModel SpaceCodecModel SpaceCodecSpec SpaceCodecProofs SpaceModel SpaceSpec SpaceReach SpaceDist SpaceLemmas SpaceMain ConfCodecModel ConfCodecSpec ConfMeaning ConfCodecProofs ConfBuild.
Import ListNotations.
Open Scope Z_scope.

Lemma conditions_in l e : In e (conditions_of l) <-> exists i, nth_error l i = Some (Some e).
Proof.
  unfold conditions_of. rewrite in_flat_map. split.
  - intros (c & I & J). destruct c as [e'|]; [|destruct J]. destruct J as [->|[]]. now apply In_nth_error in I.
  - intros (i & N). exists (Some e). split; [now apply nth_error_In in N|now left].
Qed.
Lemma redone_back mem did ds rs : dists_back mem did ds rs -> exists ds', parts_had mem ds ds' /\ redone did 0 ds ds' = rs.
Proof.
  assert (X : forall ds k rs, length rs = length ds -> (forall i d, nth_error ds i = Some d -> exists d', outcome mem d (Ok d') /\
      nth_error rs i = Some (set_dobj d' (mkObj (did (k + i)%nat) (restored_ud (o_ud (dobj_of d)))))) -> exists ds', parts_had mem ds ds' /\ redone did k ds ds' = rs).
  { induction ds0 as [|d l IH]; intros k [|r rs0] L H; try discriminate; [exists []; split; [constructor|reflexivity]|].
    destruct (H O d eq_refl) as (d' & O & N). cbn in N. rewrite Nat.add_0_r in N. injection N as ->.
    destruct (IH (S k) rs0 ltac:(cbn in L; congruence)) as (ds' & P & E).
    { intros i x N. destruct (H (S i) x N) as (x' & O' & N'). exists x'. split; [exact O'|]. cbn in N'. rewrite N'. now replace (S k + i)%nat with (k + S i)%nat by lia. }
    exists (d' :: ds'). split; [now constructor|]. cbn [redone]. now rewrite E. }
  intros [L H]. apply (X ds O rs L). exact H.
Qed.
Lemma redone_nth mem did : forall ds ds' k j d, parts_had mem ds ds' -> nth_error (redone did k ds ds') j = Some d ->
  exists x x', nth_error ds j = Some x /\ outcome mem x (Ok x') /\ d = set_dobj x' (mkObj (did (k + j)%nat) (restored_ud (o_ud (dobj_of x)))).
Proof.
  induction ds as [|x ds IH]; intros ds' k j d P N; inversion P as [|? ? x' ds0 O P0]; subst; [destruct j; discriminate|]. cbn [redone] in N. destruct j as [|j]; cbn in N.
  - injection N as <-. exists x, x'. rewrite Nat.add_0_r. auto.
  - destruct (IH ds0 (S k) j d P0 N) as (y & y' & A & B & C). exists y, y'. split; [exact A|]. split; [exact B|]. rewrite C. now replace (S k + j)%nat with (k + S j)%nat by lia.
Qed.
Lemma redone_length mem did : forall ds ds' k, parts_had mem ds ds' -> length (redone did k ds ds') = length ds.
Proof. induction ds as [|x ds IH]; intros ds' k P; inversion P; subst; [reflexivity|]. cbn. f_equal. auto. Qed.
Lemma combine_fst {X Y} (a : list X) (b : list Y) : length a = length b -> map fst (combine a b) = a.
Proof. revert b. induction a as [|x a IH]; intros [|y b] L; cbn in *; try discriminate; [reflexivity|]. now rewrite IH by congruence. Qed.
Lemma dobj_set d o : dobj_of (set_dobj d o) = o.
Proof. destruct d; reflexivity. Qed.

Lemma indexes_length n l : NoDup l -> (forall i, In i l <-> (i < n)%nat) -> length l = n.
Proof.
  intros ND I. rewrite <- (seq_length n 0). apply Permutation.Permutation_length, Permutation.NoDup_Permutation; [exact ND|apply seq_NoDup|]. intro i. rewrite I, in_seq. lia.
Qed.

(** Ending with an undefined behaviour *)
Definition falls {A} (u : ub) (L : nat) (de : rstate -> res (A * rstate)) (bs : list Z) : Prop :=
  (length bs <= L)%nat -> forall tl n, lenZ bs <= n <= lenZ (bs ++ tl) -> n < 2 ^ 64 -> de (mkR (bs ++ tl) n) = UB u.
Lemma falls_now {A} u L (de : rstate -> res (A * rstate)) bs : (forall s, de s = UB u) -> falls u L de bs.
Proof. intros H _ tl n _ _. apply H. Qed.
Lemma falls_bind {A B} w u L (f : rstate -> res (A * rstate)) (k : A * rstate -> res (B * rstate)) a bs cs :
  dec w L f a bs -> ((length bs <= L)%nat -> falls u (L - length bs) (fun s => k (a, s)) cs) -> falls u L (fun s => bind (f s) k) (bs ++ cs).
Proof.
  intros [F _] K N tl n R R'. rewrite app_length in N. rewrite lenZ_app in R. rewrite <- app_assoc in *. pose proof (lenZ_nonneg cs). pose proof (lenZ_nonneg bs).
  pose proof (lenZ_nonneg tl). rewrite !lenZ_app in R.
  rewrite F; [|lia|rewrite !lenZ_app; lia|exact R']. cbn [bind]. apply (K ltac:(lia)); [lia| |lia]. rewrite lenZ_app. lia.
Qed.
Lemma falls_breaks {A} (de : rstate -> res (A * rstate)) u bs : (forall L, falls u L de bs) -> breaks de u bs.
Proof. intros D tl n N N'. apply (D (length bs)); auto. Qed.
Ltac fb := eapply falls_bind; [|intros _; cbv beta iota].

Section Main.
  Variables (jen : list Z -> Z) (le : bool) (heap : Z -> param) (pud : Z -> option (list Z)).
  Variables (types : list gtype) (flog : Z -> Z) (dheap : Z -> cdist) (dimension : Z -> nat) (ddist0 : Z -> Z).
  Variables (R : Type) (draw : Z -> list Z -> R -> res (list datum) * R) (known : Z -> Prop).
  Hypothesis KN : sound_space heap jen dimension ddist0 known.
  Variables (S : nat -> Prop) (s : space).
  Hypothesis RE : reach heap jen dimension ddist0 R draw known S s.
  Notation A := (s_params s).
  Notation conds := (s_conds s).
  Notation clauses := (s_forbidden s).
  Let V : sinv heap jen known S s := reach_sinv heap jen dimension ddist0 R draw known KN S s RE.
  Let D : dinv dimension (fun _ => False) s := reach_dinv heap jen dimension ddist0 R draw known KN S s RE.
  Lemma src_nodup : NoDup A.
  Proof. destruct (v_good _ _ _ _ _ V) as (_ & _ & N). clear -N. induction A as [|h l IH]; [constructor|]. cbn in N. inversion N as [|? ? NI N']; subst. constructor; [|now apply IH]. intro I. apply NI. now apply (in_map (name_of heap)). Qed.
  Lemma src_names : NoDup (map (fun h => p_name (heap h)) A).
  Proof. destruct (v_good _ _ _ _ _ V) as (_ & _ & N). exact N. Qed.
  Lemma src_created h : In h A -> created jen (heap h) /\ p_type (heap h) <> PSTRING.
  Proof. intro I. destruct (v_known _ _ _ _ _ V h I) as [K T]. split; [now apply (proj1 KN)|exact T]. Qed.
  Lemma src_conds i e : nth_error conds i = Some (Some e) -> wf_expr (fun h => In h A) e.
  Proof. intro N. destruct (v_conds _ _ _ _ _ V i e N) as [W O]. now apply (wf_expr_in known). Qed.
  Lemma src_conditions : Forall (wf_expr (fun h => In h A)) (conditions_of conds).
  Proof. apply Forall_forall. intros e I. apply conditions_in in I. destruct I as [i N]. exact (src_conds i e N). Qed.
  Lemma src_clauses : Forall (wf_expr (fun h => In h A)) clauses.
  Proof.
    pose proof (v_forb _ _ _ _ _ V) as F. rewrite Forall_forall in *. intros e I. destruct (F e I) as [W (c0 & A0 & A1 & conds0 & so & u & d & EA & _ & _ & _ & _ & _ & O & _)].
    apply (wf_expr_in known); [exact W|]. intros h Oh. rewrite EA. apply in_or_app. left. now apply O.
  Qed.
  Lemma src_small : Forall small (s_dists s).
  Proof.
    destruct (partition_flat dimension s D) as [ND PI]. pose proof (v_small _ _ _ _ _ V) as SM. apply Forall_forall. intros w I. split.
    - assert (L : (length (dw_indexes w) <= length A)%nat); [|unfold lenZ in *; lia]. rewrite <- (seq_length (length A) 0). apply NoDup_incl_length.
      + apply in_split in I. destruct I as (l1 & l2 & E). rewrite E, flat_map_app in ND. cbn [flat_map] in ND. now apply NoDup_mid in ND.
      + intros i J. apply in_seq. split; [lia|]. apply PI. apply in_flat_map. eauto.
    - apply Forall_forall. intros i J. assert (i < length A)%nat by (apply PI, in_flat_map; eauto). unfold lenZ in *. lia.
  Qed.

  Variables (g : rng) (ty : gtype) (ud : option (list Z)).
  Hypothesis ST : storable_conf jen heap pud types flog dheap dimension g ty ud s.
  Lemma src_space : storable_space jen heap pud (s_self s) ud (s_ctx s) A.
  Proof.
    destruct ST as (I & U & N & P & _). split; [exact I|]. split; [exact U|]. split; [exact N|]. split; [apply good_describes, (v_good _ _ _ _ _ V)|]. split; [exact P|]. pose proof (v_small _ _ _ _ _ V). lia.
  Qed.
  Variables (pid did : nat -> Z) (f : Z -> Z) (otype : Z -> option Z).
  Hypothesis PI : addresses pid (length A).
  Hypothesis MV : moves pid A f.
  Hypothesis OT : forall i, (i < length A)%nat -> otype (pid i) = Some OBJ_PARAMETER.
  Variables (dimension' : Z -> nat) (ddist : Z -> Z) (R' : Type) (draw' : Z -> list Z -> R' -> res (list datum) * R').
  Hypothesis DD : forall h, dimension' (ddist h) = 1%nat.
  Hypothesis DI : forall i w, nth_error (s_dists s) i = Some w -> dimension' (did i) = dimension (dw_dist w).
  Notation first := [(g_id g, g_id g)].
  Notation notes1 := (first ++ combine A (map pid (seq 0 (length A)))).
  Lemma combine_names : map (@fst Z Z) (combine A (map pid (seq 0 (length A)))) = A.
  Proof. apply combine_fst. now rewrite map_length, seq_length. Qed.
  Lemma notes1_shares : shares A f notes1.
  Proof.
    destruct ST as (_ & _ & _ & _ & _ & _ & _ & _ & _ & _ & _ & SR & NI). pose proof (shares_first jen heap pud pid (s_self s) ud (s_ctx s) A src_space f MV) as [H1 H2].
    split; [apply handled_app; [repeat constructor; apply SR|exact H1]|]. intros h I. rewrite assoc_app; [now apply H2|]. intros [E|[]]. cbn in E. subst h. contradiction.
  Qed.
  Lemma shares_exprs l : Forall ExprSpec.storable l -> forall hl, shares A f hl -> shares A f (noted_exprs hl l).
  Proof.
    unfold noted_exprs. induction 1 as [|e l SE F IH]; intros hl SH; cbn [map]; [now rewrite app_nil_r|].
    change (?a ++ ?x :: ?b) with (a ++ [x] ++ b). rewrite app_assoc. apply IH. eapply shares_more; [exact SH|]. now apply storable_id.
  Qed.
  Lemma shares_dists l hl : Forall (storable_wrapper flog dheap dimension) l -> shares A f hl -> forall i, shares A f (noted_dists did hl i l).
  Proof.
    unfold noted_dists. intro F. revert hl. induction F as [|w l (_ & SD & E & _) F IH]; intros hl SH i; cbn [map length seq combine]; [now rewrite app_nil_r|].
    change (?a ++ ?x :: ?b) with (a ++ [x] ++ b). rewrite app_assoc. apply IH. eapply shares_more; [exact SH|]. cbn [fst]. rewrite <- E. apply (storable_inv _ SD).
  Qed.
  (** every handle is new exactly when the three lists are fresh in turn *)
  Lemma own_fresh : own g s <-> fresh notes1 (map name_of_expr (conditions_of conds)) /\
    fresh (noted_exprs notes1 (conditions_of conds)) (map dw_dist (s_dists s)) /\
    fresh (noted_dists did (noted_exprs notes1 (conditions_of conds)) 0 (s_dists s)) (map name_of_expr clauses).
  Proof.
    destruct ST as (_ & _ & _ & _ & _ & _ & _ & _ & _ & _ & _ & SR & NI).
    assert (X : own g s <-> fresh notes1 (map name_of_expr (conditions_of conds) ++ map dw_dist (s_dists s) ++ map name_of_expr clauses)).
    { unfold own, all_handles, fresh. rewrite map_app, combine_names. cbn [map fst app]. split.
      - intro N. change (g_id g :: A ++ ?l) with ((g_id g :: A) ++ l) in N. change (g_id g :: s_params s ++ ?l) with ((g_id g :: A) ++ l) in N. apply (NoDup_mid _ _ []). now rewrite app_nil_r.
      - intros [N F]. change (g_id g :: A ++ ?l) with ((g_id g :: A) ++ l). generalize dependent (map name_of_expr (conditions_of conds) ++ map dw_dist (s_dists s) ++ map name_of_expr clauses). intros l N F.
        assert (N1 : NoDup (g_id g :: A)) by (constructor; [exact NI|exact src_nodup]). revert F N. generalize dependent (g_id g :: A). intros a NA F N. revert F. induction NA as [|x a NX NA IH]; intro F; cbn [app]; [exact N|].
        constructor; [|apply IH; intros h I J; apply (F h I); now right]. intro Q. apply in_app_or in Q. destruct Q as [Q|Q]; [contradiction|]. apply (F x Q). now left. }
    rewrite X. rewrite (fresh_app _ _ _ _ (noted_exprs_fst (conditions_of conds))). fold (noted_exprs notes1 (conditions_of conds)).
    rewrite (fresh_app _ _ _ _ (noted_dists_fst did 0 (s_dists s))). reflexivity.
  Qed.

  Lemma rng_back_eq : nth_error types (g_type g) = Some ty -> lenZ (g_state g) = lenZ (t_init ty) ->
    mkRng (g_id g) (g_type g) (restored_state le le ty (g_state g)) (read_ud (ud_bytes (g_ud g))) = rng_back g.
  Proof. intros _ E. unfold rng_back, restored_state. rewrite Bool.eqb_reflx, E, Z.eqb_refl. now rewrite restored_ud_eq. Qed.
  Lemma conf_space_saved :
    exists bs ps, wire_conf_space heap pud dheap le g ty ud s bs /\
      encodes (ser_conf_space le heap pud types dheap g ud s) bs /\ size_conf_space le heap pud types dheap g ud s = Ok (lenZ bs) /\
      same_parameters heap pud pid A ps /\
      forall mem (keep : bool) id m,
        (refused_memory mem (block s) -> gives (deser_conf_space jen le types flog mem otype pid did ddist keep id m) (Err ERR_OUT_OF_MEMORY) bs True) /\
        (granted mem (block s) -> own g s -> forall e, parts_fail mem (dists_of dheap s) e ->
           gives (deser_conf_space jen le types flog mem otype pid did ddist keep id m) (Err e) bs True) /\
        (granted mem (block s) -> ~ own g s -> forall ds', parts_had mem (dists_of dheap s) ds' ->
           uses_freed (deser_conf_space jen le types flog mem otype pid did ddist keep id m) bs) /\
        (granted mem (block s) -> own g s -> forall rs, dists_back mem did (dists_of dheap s) rs ->
           exists r, clauses_outcome heap s (new_defaults ps) r /\
             match r with
             | Err e => gives (deser_conf_space jen le types flog mem otype pid did ddist keep id m) (Err e) bs True
             | UB u => breaks (deser_conf_space jen le types flog mem otype pid did ddist keep id m) u bs
             | Ok _ =>
                 (keep = true -> m (s_self s) <> None -> gives (deser_conf_space jen le types flog mem otype pid did ddist keep id m) (Err ERR_DUPLICATE_HANDLE) bs True) /\
                 exists s', ConfCodecSpec.rebuilt pid did f s id s' /\
                   reach (at_address ps) jen dimension' ddist R' draw' (fun h => In h (map po_id ps)) everything s' /\
                   ((keep = true -> m (s_self s) = None) ->
                     gives (deser_conf_space jen le types flog mem otype pid did ddist keep id m)
                       (Ok (mkRC ps (rng_back g) rs s' (restored_ud ud), if keep then recording m (s_self s) id else m)) bs (plain pud dheap g ud s))
             end).
  Proof.
    pose proof ST as (I & U & [NC NL] & FP & SC & SF & LF & FD & LD & TB & OF & SR & NI). pose proof src_conditions as CWF. pose proof src_clauses as FWF. pose proof src_small as SMALL.
    pose proof (v_small _ _ _ _ _ V) as SA. pose proof (v_len _ _ _ _ _ V) as LC. destruct (partition_flat dimension s D) as [PND PIN].
    pose proof (indexes_length _ _ PND PIN) as FL. pose proof (conditions_less conds) as CL.
    pose proof (lenZ_nonneg A) as L0. pose proof (lenZ_nonneg (conditions_of conds)) as L1. pose proof (lenZ_nonneg (s_dists s)) as L2. pose proof (lenZ_nonneg clauses) as L3.
    assert (LCA : lenZ conds = lenZ A) by (unfold lenZ; congruence).
    assert (LFL : lenZ (flat_map dw_indexes (s_dists s)) = lenZ A) by (unfold lenZ; congruence).
    destruct (leb128_exists (s_self s)) as [lh LH]; [destruct I; lia|]. destruct (wire_blob_exists (c_name (s_ctx s) ++ [0])) as [nb NB].
    destruct (leb128_exists _ L0) as [l1 W1]. destruct (leb128_exists _ L1) as [l2 W2]. destruct (leb128_exists _ L2) as [l3 W3]. destruct (leb128_exists _ L3) as [l4 W4].
    destruct (rng_written le types g ty TB OF SR) as (gb & WG & EG & SG). destruct (parameters_written jen le heap pud pid A FP) as (pb & ps0 & WP & EP & SP & RP & DP).
    destruct (conditions_written le flog dheap dimension (fun h => In h A) conds SC CWF 0 ltac:(lia) ltac:(lia)) as (cb & WC & EC & SZC).
    destruct (dists_written le flog dheap dimension (s_dists s) FD SMALL) as (db & WD & ED & SZD).
    destruct (clauses_written le (fun h => In h A) clauses SF FWF) as (fb & WF & EF & SZF). destruct (wire_blob_exists (ud_bytes ud)) as [ub WUB].
    set (ps := placed pud pid 0 A ps0).
    assert (SAME : same_parameters heap pud pid A ps).
    { split; [apply placed_ids; rewrite <- (map_length heap A); exact (Forall2_len _ _ _ RP)|now apply placed_same]. }
    assert (B0 : in_unsigned 64 (lenZ A)) by (split; lia). assert (B1 : in_unsigned 64 (lenZ (conditions_of conds))) by (split; lia).
    assert (B2 : in_unsigned 64 (lenZ (s_dists s))) by (split; lia). assert (B3 : in_unsigned 64 (lenZ clauses)) by (split; lia).
    exists ((4 :: lh) ++ nb ++ l1 ++ l2 ++ l3 ++ l4 ++ gb ++ pb ++ cb ++ db ++ fb ++ ub), ps.
    split; [exists lh, nb, l1, l2, l3, l4, gb, pb, cb, db, fb, ub; repeat (split; [assumption|]); reflexivity|].
    split.
    { unfold ser_conf_space. rewrite count_is. apply encodes_seq; [now apply ser_object_internal_encodes|]. apply encodes_seq; [now apply ser_string_encodes|].
      apply encodes_seq; [apply ser_uint_encodes; auto using okw64|]. apply encodes_seq; [apply ser_uint_encodes; auto using okw64|]. apply encodes_seq; [apply ser_uint_encodes; auto using okw64|]. apply encodes_seq; [apply ser_uint_encodes; auto using okw64|].
      apply encodes_seq; [exact EG|]. apply encodes_seq; [exact EP|]. apply encodes_seq; [exact EC|]. apply encodes_seq; [exact ED|]. apply encodes_seq; [exact EF|]. now apply ser_user_data_encodes. }
    split.
    { unfold size_conf_space. change OT_CONFIGURATION_SPACE with 4. rewrite count_is, SG, SP, SZC, SZD, SZF. cbn [bind]. rewrite (size_object_internal_ok 4 (s_self s) lh) by (auto; lia). rewrite (size_string_ok _ nb) by auto.
      unfold size_size. rewrite (size_uint_ok 64 _ l1), (size_uint_ok 64 _ l2), (size_uint_ok 64 _ l3), (size_uint_ok 64 _ l4) by auto using okw64. rewrite (size_user_data_ok ud ub) by auto. f_equal. rewrite !lenZ_app, lenZ_cons. lia. }
    split; [exact SAME|]. intros mem keep id m.
    assert (HD : forall u L, dec u L deser_object_internal (4, s_self s) (4 :: lh)) by (intros; apply decodes_dec; apply deser_object_internal_decodes; [lia|exact I|exact LH]).
    assert (ND : forall u L, dec u L deser_string (c_name (s_ctx s)) nb) by (intros; apply decodes_dec; now apply deser_string_decodes).
    assert (D1 : forall u L, dec u L deser_size (lenZ A) l1) by (intros; apply decodes_dec, deser_uint_decodes; auto using okw64).
    assert (D2 : forall u L, dec u L deser_size (lenZ (conditions_of conds)) l2) by (intros; apply decodes_dec, deser_uint_decodes; auto using okw64).
    assert (D3 : forall u L, dec u L deser_size (lenZ (s_dists s)) l3) by (intros; apply decodes_dec, deser_uint_decodes; auto using okw64).
    assert (D4 : forall u L, dec u L deser_size (lenZ clauses) l4) by (intros; apply decodes_dec, deser_uint_decodes; auto using okw64).
    assert (UD : forall u L, (u = true -> ud_bytes ud = []) -> dec u L deser_user_data (ud_bytes ud) ub) by (intros; now apply user_data_dec).
    assert (GD : forall u L, (u = true -> ud_bytes (g_ud g) = []) -> dec u L (deser_rng le types) (rng_back g) gb).
    { intros u L W. destruct OF as [O1 O2]. rewrite <- (rng_back_eq O1 O2). eapply rng_dec; eauto. now split. }
    assert (X1 : wrap 64 (lenZ A + lenZ (conditions_of conds) + lenZ (s_dists s) + lenZ clauses) = lenZ A + lenZ (conditions_of conds) + lenZ (s_dists s) + lenZ clauses) by (unfold wrap; apply Z.mod_small; lia).
    assert (X2 : wrap 64 (lenZ A * 16 + lenZ (conditions_of conds) * 16 + lenZ (s_dists s) * 16 + lenZ clauses * 8) = block s) by (unfold wrap, block; rewrite Z.mod_small; lia).
    assert (NN : forall X (l : list X), Z.to_nat (lenZ l) = length l) by (intros; unfold lenZ; now rewrite Nat2Z.id).
    assert (NOTE : released_twice (note jen [] (g_id (rng_back g)) (g_id (rng_back g))) = Ok first).
    { cbn [rng_back g_id]. rewrite note_fresh; [reflexivity|constructor|apply SR|intros []]. }
    assert (NW : new_to (Some first) A).
    { intros l [= <-]. split; [repeat constructor; apply SR|]. split; [|exact src_nodup]. intros h Ih [E|[]]. cbn in E. subst h. contradiction. }

    pose proof notes1_shares as SH1. pose proof (shares_exprs _ SC _ SH1) as SH2. pose proof (shares_dists _ _ FD SH2 0) as SH3.
    set (data := nb ++ l1 ++ l2 ++ l3 ++ l4 ++ gb ++ pb ++ cb ++ db ++ fb).
    assert (BYTES : (4 :: lh) ++ nb ++ l1 ++ l2 ++ l3 ++ l4 ++ gb ++ pb ++ cb ++ db ++ fb ++ ub = (4 :: lh) ++ data ++ ub) by (unfold data; now rewrite <- !app_assoc).
    rewrite BYTES.
    assert (RM : block s = 8 * (2 * lenZ A + 2 * lenZ (conditions_of conds) + 2 * lenZ (s_dists s) + lenZ clauses)) by (unfold block; lia).
    assert (ZERO : lenZ A + lenZ (conditions_of conds) + lenZ (s_dists s) + lenZ clauses <> 0 -> block s <> 0) by lia.
    pose proof (conditions_dec jen le heap pud pid did flog dheap dimension (s_self s) ud (s_ctx s) A src_space otype f mem OT MV (block s)) as CDEC. pose proof (conditions_die jen le heap pud pid did flog dheap dimension (s_self s) ud (s_ctx s) A src_space otype f mem OT MV (block s)) as CDIE.
    pose proof (clauses_dec jen le heap pud pid did flog dheap dimension (s_self s) ud (s_ctx s) A src_space otype f mem OT MV (block s)) as FDEC. pose proof (clauses_die jen le heap pud pid did flog dheap dimension (s_self s) ud (s_ctx s) A src_space otype f mem OT MV (block s)) as FDIE.
    pose proof (dists_dec jen le pid did flog dheap dimension A otype mem OT (block s)) as DDEC. pose proof (dists_die jen le pid did flog dheap dimension A otype mem OT (block s)) as DDIE. pose proof (dists_rej jen le pid did flog dheap dimension A otype mem OT (block s)) as DREJ.
    assert (DATA : granted mem (block s) -> own g s -> forall ds', parts_had mem (dists_of dheap s) ds' -> forall u L, (u = true -> plain pud dheap g ud s) ->
      dec u L (deser_conf_data jen le types flog mem otype pid did)
        (mkCD (c_name (s_ctx s)) (rng_back g) ps (map (back_cond f) (numbered 0 conds)) (combine (redone did 0 (dists_of dheap s) ds') (index_list (s_dists s))) (map (restored f) clauses)) data).
    { intros G OW ds' PH u L PL. apply own_fresh in OW. destruct OW as (F1 & F2 & F3). unfold deser_conf_data, data. db; [apply ND|]. db; [apply D1|]. db; [apply D2|]. db; [apply D3|]. db; [apply D4|]. db; [apply GD; intro Q; apply (PL Q)|].
      rewrite NOTE. cbn [bind]. rewrite X1. cbv zeta. rewrite X2. destruct (Z.eqb_spec (lenZ A + lenZ (conditions_of conds) + lenZ (s_dists s) + lenZ clauses) 0) as [Z0|NZ].
      - assert (ZA : A = []) by (apply lenZ_0; lia). assert (ZC : conditions_of conds = []) by (apply lenZ_0; lia). assert (ZD : s_dists s = []) by (apply lenZ_0; lia). assert (ZF : clauses = []) by (apply lenZ_0; lia).
        assert (ZN : conds = []) by (apply lenZ_0; lia).
        replace (lenZ A =? 0) with true by (symmetry; apply Z.eqb_eq; lia). replace (lenZ (conditions_of conds) + lenZ (s_dists s) + lenZ clauses =? 0) with true by (symmetry; apply Z.eqb_eq; lia). cbn [negb].
        rewrite ZA in WP. rewrite ZN in WC. rewrite ZD in WD. rewrite ZF in WF. inversion WP; subst pb. inversion WC; subst cb. inversion WD; subst db. inversion WF; subst fb.
        replace ps with (@nil pobj) by (unfold ps; now rewrite ZA). rewrite ZN, ZF. unfold dists_of. rewrite ZD. cbn. apply dec_ret.
      - rewrite (G (ZERO NZ)). cbn [negb]. rewrite !NN. db; [apply DP; [exact NW|intro Q; apply (PL Q)|lia]|]. cbn [fst snd noted option_map].
        db; [eapply CDEC; try eassumption; [lia|lia|lia|intro Q; apply (PL Q)]|]. cbn [fst snd].
        db; [eapply DDEC; try eassumption; [lia|apply SH2|lia|lia|intro Q; apply (PL Q)]|]. cbn [fst snd].
        rewrite <- (app_nil_r fb). db; [eapply FDEC; try eassumption; [lia|intro Q; apply (PL Q)]|]. cbn [fst snd]. apply dec_ret. }
    assert (BUILD : forall ds', parts_had mem (dists_of dheap s) ds' -> exists r s', clauses_outcome heap s (new_defaults ps) r /\
      build_conf_space jen ddist id (mkCD (c_name (s_ctx s)) (rng_back g) ps (map (back_cond f) (numbered 0 conds)) (combine (redone did 0 (dists_of dheap s) ds') (index_list (s_dists s))) (map (restored f) clauses)) =
        match r with Ok _ => Ok s' | Err e => Err e | UB u => UB u end /\
      (r = Ok tt -> reach (at_address ps) jen dimension' ddist R' draw' (fun h => In h (map po_id ps)) everything s' /\ ConfCodecSpec.rebuilt pid did f s id s')).
    { intros ds' PH. assert (DIMS : forall w, In w (s_dists s) -> length (dw_indexes w) = dimension (dw_dist w)) by (pose proof (d_dim _ _ _ D) as F; rewrite Forall_forall in F; exact F).
      destruct (space_built jen heap pud pid did f s ps src_nodup src_names src_created SA LC src_conds (v_acyclic _ _ _ _ _ V) FWF PND PIN SAME PI MV dimension' ddist R' draw' DD) with (rds := redone did 0 (dists_of dheap s) ds') (id := id) (name := c_name (s_ctx s)) (g := rng_back g) as (r & s' & CO & BD & OK).
      - intros i w N. rewrite (DI i w N). symmetry. apply DIMS. now apply nth_error_In in N.
      - rewrite (redone_length mem) by exact PH. unfold dists_of. apply map_length.
      - intros j d w N1 N2. destruct (redone_nth mem did _ _ 0 j d PH N1) as (x & x' & N & O & ->). unfold dists_of in N. rewrite nth_error_map, N2 in N. injection N as <-. rewrite dobj_set. split; [reflexivity|].
        rewrite component_renamed. apply nth_error_In in N2. rewrite Forall_forall in FD. destruct (FD w N2) as (MD & _ & _ & DM). rewrite (oc_component flog mem _ _ MD O), DM. symmetry. now apply DIMS.
      - exists r, s'. split; [exact CO|]. split; [exact BD|]. intro Q. destruct (OK Q) as (K1 & K). split; [exact K1|exact K]. }
    assert (TYPE : negb (4 =? OT_CONFIGURATION_SPACE) = false) by reflexivity.
    split; [|split; [|split]].
    - intros [NZ RF]. apply (takes_gives _ (Err _)). intro L. unfold deser_conf_space. rb; [apply (HD false)|]. cbn [fst snd]. rewrite TYPE. cbn [refute bind].
      apply rej_head. unfold deser_conf_data, data. rb; [apply (ND false)|]. rb; [apply (D1 false)|]. rb; [apply (D2 false)|]. rb; [apply (D3 false)|]. rb; [apply (D4 false)|]. rb; [apply (GD false); discriminate|].
      rewrite NOTE. cbn [bind]. rewrite X1. cbv zeta. rewrite X2. apply rej_now. intro st. replace (lenZ A + lenZ (conditions_of conds) + lenZ (s_dists s) + lenZ clauses =? 0) with false by (symmetry; apply Z.eqb_neq; lia). now rewrite RF.
    - intros G OW e PF. apply (takes_gives _ (Err _)). intro L. unfold deser_conf_space. rb; [apply (HD false)|]. cbn [fst snd]. rewrite TYPE. cbn [refute bind].
      apply own_fresh in OW. destruct OW as (F1 & F2 & F3).
      apply rej_head. unfold deser_conf_data, data. rb; [apply (ND false)|]. rb; [apply (D1 false)|]. rb; [apply (D2 false)|]. rb; [apply (D3 false)|]. rb; [apply (D4 false)|]. rb; [apply (GD false); discriminate|].
      rewrite NOTE. cbn [bind]. rewrite X1. cbv zeta. rewrite X2. destruct (Z.eqb_spec (lenZ A + lenZ (conditions_of conds) + lenZ (s_dists s) + lenZ clauses) 0) as [Z0|NZ].
      { exfalso. assert (ZD : s_dists s = []) by (apply lenZ_0; lia). unfold dists_of in PF. rewrite ZD in PF. inversion PF. }
      rewrite (G (ZERO NZ)). cbn [negb]. rewrite !NN. rb; [apply (DP _ _ _ false); [exact NW|discriminate|lia]|]. cbn [fst snd noted option_map].
      rb; [eapply CDEC with (u := false); try eassumption; [lia|lia|lia|discriminate]|]. cbn [fst snd].
      apply rej_head. eapply DREJ; try eassumption; [lia|apply SH2|lia|lia].
    - intros G BAD ds' PH. apply dies_uses. intro L. unfold deser_conf_space. ub; [apply (HD false)|]. cbn [fst snd]. rewrite TYPE. cbn [refute bind].
      apply dies_head. unfold deser_conf_data, data. ub; [apply (ND false)|]. ub; [apply (D1 false)|]. ub; [apply (D2 false)|]. ub; [apply (D3 false)|]. ub; [apply (D4 false)|]. ub; [apply (GD false); discriminate|].
      rewrite NOTE. cbn [bind]. rewrite X1. cbv zeta. rewrite X2. rewrite own_fresh in BAD.
      destruct (Z.eqb_spec (lenZ A + lenZ (conditions_of conds) + lenZ (s_dists s) + lenZ clauses) 0) as [Z0|NZ].
      { exfalso. apply BAD. assert (ZC : conditions_of conds = []) by (apply lenZ_0; lia). assert (ZD : s_dists s = []) by (apply lenZ_0; lia). assert (ZF : clauses = []) by (apply lenZ_0; lia). rewrite ZC, ZD, ZF. split; [apply fresh_nil|]. split; apply fresh_nil. }
      rewrite (G (ZERO NZ)). cbn [negb]. rewrite !NN. ub; [apply (DP _ _ _ false); [exact NW|discriminate|lia]|]. cbn [fst snd noted option_map].
      destruct (fresh_dec notes1 (map name_of_expr (conditions_of conds))) as [F1|F1]; [|apply dies_head; eapply CDIE; try eassumption; [lia|lia|lia]].
      ub; [eapply CDEC with (u := false); try eassumption; [lia|lia|lia|discriminate]|]. cbn [fst snd].
      destruct (fresh_dec (noted_exprs notes1 (conditions_of conds)) (map dw_dist (s_dists s))) as [F2|F2]; [|apply dies_head; eapply DDIE; try eassumption; [lia|apply SH2|lia|lia]].
      ub; [eapply DDEC with (u := false); try eassumption; [lia|apply SH2|lia|lia|discriminate]|]. cbn [fst snd].
      destruct (fresh_dec (noted_dists did (noted_exprs notes1 (conditions_of conds)) 0 (s_dists s)) (map name_of_expr clauses)) as [F3|F3]; [destruct BAD; auto|].
      rewrite <- (app_nil_r fb). apply dies_head. eapply FDIE; try eassumption; [lia].
    - intros G OW rs DB. destruct (redone_back mem did _ _ DB) as (ds' & PH & ER). destruct (BUILD ds' PH) as (r & s' & CO & BD & OK). exists r. split; [exact CO|].
      destruct r as [[]|e|u].
      + destruct (OK eq_refl) as [K1 K2]. split.
        * intros K M. apply (takes_gives _ (Err _)). intro L. unfold deser_conf_space. rb; [apply (HD false)|]. cbn [fst snd]. rewrite TYPE. cbn [refute bind].
          rb; [apply (DATA G OW ds' PH false); discriminate|]. rewrite BD. cbn [bind]. subst keep. unfold handle_check_add. destruct (m (s_self s)) as [x|]; [|congruence]. cbn [bind]. now apply rej_now.
        * exists s'. split; [exact K2|]. split; [exact K1|]. intro M. apply (takes_gives _ (Ok _)). intros u L W. unfold deser_conf_space. db; [apply HD|]. cbn [fst snd]. rewrite TYPE. cbn [refute bind].
          db; [apply (DATA G OW ds' PH); exact W|]. rewrite BD. cbn [bind].
          assert (HM : (if keep then handle_check_add m (s_self s) id else Ok m) = Ok (if keep then recording m (s_self s) id else m)).
          { destruct keep; [|reflexivity]. unfold handle_check_add. now rewrite (M eq_refl). }
          rewrite HM. cbn [bind]. rewrite <- (app_nil_r ub). db; [apply UD; intro Q; apply (W Q)|]. rewrite restored_ud_eq. cbn [cd_params cd_rng cd_dists]. rewrite combine_fst, ER by (rewrite (redone_length mem) by exact PH; unfold dists_of, index_list; now rewrite !map_length). apply dec_ret.
      + apply (takes_gives _ (Err _)). intro L. unfold deser_conf_space. rb; [apply (HD false)|]. cbn [fst snd]. rewrite TYPE. cbn [refute bind].
        rb; [apply (DATA G OW ds' PH false); discriminate|]. rewrite BD. now apply rej_now.
      + apply falls_breaks. intro L. unfold deser_conf_space. fb; [apply (HD false)|]. cbn [fst snd]. rewrite TYPE. cbn [refute bind].
        fb; [apply (DATA G OW ds' PH false); discriminate|]. rewrite BD. now apply falls_now.
  Qed.
End Main.
