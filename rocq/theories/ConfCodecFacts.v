(** Proofs about saving and restoring configuration spaces: consequences. *)
From Coq Require Import ZArith List Bool Lia Arith.
From Verif Require Import Base Datum CmpSpec CodecModel CodecSpec CodecProofs ParamModel ParamSpec ContextModel ContextSpec ContextProofs ExprModel ExprSpec ExprProofs ExprCodec RngModel RngSpec RngProofs TreeCodecSpec TreeSpaceSpec TreeConfModel RestoreSpec RestoreProofs DistModel DistCodecModel DistCodecSpec EvalModel SpaceCodecModel SpaceCodecSpec SpaceCodecProofs SpaceModel SpaceSpec SpaceLemmas SpaceCheck SpaceReach SpaceDist SpaceMain ConfCodecModel ConfCodecSpec ConfMeaning ConfCodecProofs ConfBuild ConfCodecMain.
Import ListNotations.
Open Scope Z_scope.

Section Facts.
  Variables (jen : list Z -> Z) (heap : Z -> param) (pud : Z -> option (list Z)) (dimension : Z -> nat) (ddist : Z -> Z).
  Variables (R : Type) (draw : Z -> list Z -> R -> res (list datum) * R) (known : Z -> Prop).
  Hypothesis KN : sound_space heap jen dimension ddist known.
  Variables (S : nat -> Prop) (s : space).
  Hypothesis RE : reach heap jen dimension ddist R draw known S s.
  Notation A := (s_params s).
  (** the same space with its graph *)
  Lemma graphed : exists s1, same_space s s1 /\ reach heap jen dimension ddist R draw known everything s1.
  Proof.
    destruct (check_configuration_values heap jen s []) as [r s1] eqn:E. exists s1. split.
    - exact (proj2 (proj2 (main_check heap jen dimension ddist R draw known KN S s [] r s1 RE (Forall_nil _) E))).
    - exact (re_check_values heap jen dimension ddist R draw known S s [] r s1 RE E).
  Qed.
  Lemma outcome_ok initial r : length initial = length A -> Forall wf_datum initial ->
    clauses_outcome heap s initial (Ok tt) -> clauses_outcome heap s initial r -> r = Ok tt.
  Proof.
    intros LI WI. destruct graphed as (s1 & (_ & E2 & E3 & _ & _ & _ & E7) & R1).
    pose proof (reach_sinv heap jen dimension ddist R draw known KN _ s1 R1) as V.
    assert (EP : s_params s1 = A) by (unfold s_params; now rewrite E2).
    assert (UN : forall vs vs', solves heap A (s_conds s) everything initial vs -> solves heap A (s_conds s) everything initial vs' -> vs = vs').
    { rewrite <- EP, <- E3. intros vs vs'. apply (main_unique heap jen dimension ddist R draw known KN everything s1 initial vs vs'); [exact R1|now rewrite EP|exact WI]. }
    assert (NU : forall vs (r : res unit), solves heap A (s_conds s) everything initial vs -> unsettled heap A (s_conds s) everything initial r -> False).
    { rewrite <- EP, <- E3. intros vs r0. apply (solves_settles heap jen known (proj1 KN) s1 (v_good _ _ _ _ _ V) (v_len _ _ _ _ _ V) (cond_wf heap jen known everything s1 V) everything (v_in _ _ _ _ _ V) (v_order _ _ _ _ _ V)); [now rewrite EP|exact WI]. }
    assert (WF : forall vs, solves heap A (s_conds s) everything initial vs -> Forall wf_datum vs).
    { rewrite <- EP, <- E3. intros vs. apply (solves_wf heap s1 (v_len _ _ _ _ _ V) everything (v_in _ _ _ _ _ V) initial vs WI). }
    pose proof (forb_wf heap jen known everything s1 V) as FW. rewrite E7 in FW.
    assert (HF : forall vs e, Forall wf_datum vs -> wf_expr known e -> holds heap A vs e -> fails heap A vs e -> False) by (rewrite <- EP; intros; eapply (holds_fails heap jen known (proj1 KN) s1 (v_good _ _ _ _ _ V)); eauto).
    assert (SN : forall vs e (r : res unit), Forall wf_datum vs -> wf_expr known e -> stuck heap A vs e r -> fails heap A vs e -> False) by (rewrite <- EP; intros vs e r0 W We ST F; destruct (stuck_not heap jen known (proj1 KN) s1 (v_good _ _ _ _ _ V) vs e r0 W We ST) as [_ N]; exact (N F)).
    intros O1 O2. inversion O1 as [N1|vs SO FA|?|vs l1 e l2 r1 SO FE FL ST E|r1 N US E].
    - inversion O2 as [?|?|vs l1 e l2 SO FE|vs l1 e l2 r1 SO FE|r1 N US]; try reflexivity; exfalso; [rewrite N1 in FE; now destruct l1..|contradiction].
    - inversion O2 as [?|?|vs' l1 e l2 SO' FE FL HO|vs' l1 e l2 r1 SO' FE FL ST E|r1 N US E]; try reflexivity; exfalso.
      + rewrite (UN vs' vs SO' SO) in *. rewrite FE in FA, FW. apply Forall_app in FA. apply Forall_app in FW. destruct FA as [_ FA], FW as [_ FW]. inversion FA. inversion FW. eapply (HF vs e); eauto.
      + rewrite (UN vs' vs SO' SO) in *. rewrite FE in FA, FW. apply Forall_app in FA. apply Forall_app in FW. destruct FA as [_ FA], FW as [_ FW]. inversion FA. inversion FW. eapply (SN vs e); eauto.
      + eapply NU; eauto.
    - exfalso. destruct ST as (r' & _ & Q). destruct r'; exact Q.
    - exfalso. destruct US as (u & j & x & _ & _ & _ & _ & _ & (r' & _ & Q)). destruct r'; exact Q.
  Qed.
  Variables (pid did : nat -> Z) (f : Z -> Z) (ps : list pobj).
  Hypothesis SP : same_parameters heap pud pid A ps.
  Hypothesis PI : addresses pid (length A).
  Hypothesis MV : moves pid A f.
  Lemma defaults_good : length (new_defaults ps) = length A /\ Forall wf_datum (new_defaults ps).
  Proof.
    destruct SP as [E F]. split; [unfold new_defaults; rewrite map_length; symmetry; exact (Forall2_len _ _ _ F)|].
    apply Forall_forall. intros d I. apply in_map_iff in I. destruct I as (q & <- & I). destruct (In_nth_error _ _ I) as [i N].
    assert (L : (i < length A)%nat) by (rewrite (Forall2_len _ _ _ F); apply nth_error_Some; congruence). destruct (nth_error A i) as [h|] eqn:N'; [|apply nth_error_None in N'; lia].
    destruct (Forall2_nth _ _ _ _ _ F N') as (q' & Q & RB & _). replace q' with q in * by congruence.
    apply (created_default_wf jen). apply (back_created jen (heap h)); [|exact RB]. eapply (proj1 (src_created jen heap dimension ddist R draw known KN S s RE h (nth_error_In _ _ N'))).
  Qed.
  Lemma same_meaning id s' : ConfCodecSpec.rebuilt pid did f s id s' ->
    forall vs, valid heap A (s_conds s) (s_forbidden s) vs <-> valid (at_address ps) (s_params s') (s_conds s') (s_forbidden s') vs.
  Proof.
    intros (_ & _ & E1 & E2 & _ & E3) vs. rewrite E1, E2, E3.
    assert (MVD : forall i h, nth_error A i = Some h -> nth_error (map pid (seq 0 (length A))) i = Some (f h)).
    { intros i h N. rewrite (MV i h N). assert (L : (i < length A)%nat) by (apply nth_error_Some; congruence).
      rewrite (nth_error_map pid), nth_error_nth' with (d := O) by (rewrite seq_length; lia). rewrite seq_nth by lia. reflexivity. }
    apply b_valid.
    - intros i h h' N N'. eapply (kin_at heap pud pid A ps SP PI); eauto.
    - now rewrite map_length, seq_length.
    - exact (src_nodup jen heap dimension ddist R draw known KN S s RE).
    - now apply addresses_nodup.
    - assert (X : forall l, (forall i e, nth_error l i = Some (Some e) -> wf_expr (fun h => In h A) e) -> Forall2 (oalike A (map pid (seq 0 (length A)))) l (map (option_map (restored f)) l)).
      { induction l as [|c l IH]; intro H; cbn [map]; constructor; [|apply IH; intros i e N; exact (H (Datatypes.S i) e N)]. destruct c as [e|]; cbn; [|exact Logic.I].
        apply restored_alike; [exact MVD|]. intros h Oh. exact (SpaceCodecProofs.occurs_known A e h (H O e eq_refl) Oh). }
      apply X. intros i e N. exact (src_conds jen heap dimension ddist R draw known KN S s RE i e N).
    - pose proof (src_clauses jen heap dimension ddist R draw known KN S s RE) as W. clear E3. induction W as [|e l We W IH]; cbn [map]; [constructor|]. constructor; [|exact IH].
      apply restored_alike; [exact MVD|]. intros h Oh. exact (SpaceCodecProofs.occurs_known A e h We Oh).
  Qed.
End Facts.
Lemma other_conf jen le types flog mem otype pid did ddist keep id m ty h lh : 0 <= ty < 128 -> in_unsigned 64 h -> leb128 h lh -> ty <> 4 ->
  gives (deser_conf_space jen le types flog mem otype pid did ddist keep id m) (Err ERR_INVALID_TYPE) (ty :: lh) True.
Proof.
  intros T I L N. apply (takes_gives _ (Err _)). intro L0. rewrite <- (app_nil_r (ty :: lh)). unfold deser_conf_space.
  rb; [apply (decodes_dec false), (deser_object_internal_decodes ty h lh T I L)|]. cbn [fst]. destruct (Z.eqb_spec ty OT_CONFIGURATION_SPACE); [contradiction|]. cbn [negb refute bind]. now apply rej_now.
Qed.

(** ** Any bytes *)
Lemma leb_loop_range w : 0 <= w -> forall m v shift size x s, leb_deser_loop w v shift size m = Ok (x, s) -> 0 <= x < 2 ^ w.
Proof.
  intros W. induction m as [|y m IH]; intros v shift size x s H; cbn [leb_deser_loop] in H; destruct (size <? 1); try discriminate.
  destruct (c_shl w (Z.land y 127) shift) as [g| |]; cbn [bind] in H; try discriminate. destruct (Z.land y 128 =? 0); [|exact (IH _ _ _ _ _ H)]. injection H as <- _.
  unfold wrap. apply Z.mod_pos_bound. apply Z.pow_pos_nonneg; lia.
Qed.
Lemma size_range s x s' : deser_size s = Ok (x, s') -> 0 <= x < 2 ^ 64.
Proof. apply leb_loop_range. lia. Qed.
Lemma parameters_count jen le pid room : forall n i hl s ps hl' s', deser_parameters jen le pid room n i hl s = Ok ((ps, hl'), s') -> length ps = n.
Proof.
  induction n as [|n IH]; intros i hl s ps hl' s' H; cbn [deser_parameters] in H; [now injection H as <- _ _|]. destruct (room <? _); [discriminate|].
  destruct (deser_parameter jen le hl (pid i) s) as [[x s1]| |]; cbn [bind] in H; try discriminate. destruct (deser_parameters jen le pid room n (S i) (snd x) s1) as [[[y hy] s2]| |] eqn:E; cbn [bind] in H; try discriminate.
  cbn [fst snd] in H. injection H as <- _ _. cbn [length]. f_equal. exact (IH _ _ _ _ _ _ E).
Qed.
Lemma indexes_count room base np : forall n used s l s', deser_indexes room base np n used s = Ok (l, s') -> length l = n /\ (n <> O -> used + Z.of_nat n <= np).
Proof.
  induction n as [|n IH]; intros used s l s' H; cbn [deser_indexes] in H; [injection H as <- _; split; [reflexivity|contradiction]|]. destruct (Z.leb_spec np used); [discriminate|].
  destruct (cell room (base + used)); cbn [bind] in H; try discriminate. destruct (deser_size s) as [[k s1]| |]; cbn [bind] in H; try discriminate.
  destruct (deser_indexes room base np n (used + 1) s1) as [[l' s2]| |] eqn:E; cbn [bind] in H; try discriminate. injection H as <- _. destruct (IH _ _ _ _ E) as [L B]. split; [cbn [length]; congruence|].
  intros _. destruct n; [lia|]. specialize (B ltac:(discriminate)). lia.
Qed.
Lemma dists_count jen le flog mem did room np nc nd : forall n i used hl s l hl' s', deser_dists jen le flog mem did room np nc nd n i used hl s = Ok ((l, hl'), s') ->
  used <= np -> used + lenZ (flat_map snd l) <= np.
Proof.
  induction n as [|n IH]; intros i used hl s l hl' s' H U; cbn [deser_dists] in H; [injection H as <- _ _; cbn; lia|].
  destruct (cell room (np + 2 * nc + Z.of_nat i)); cbn [bind] in H; try discriminate. destruct (deser_distribution jen le flog mem hl (did i) s) as [[x s1]| |]; cbn [bind] in H; try discriminate.
  destruct (cell room (np + 2 * nc + nd + Z.of_nat i)); cbn [bind] in H; try discriminate. destruct (deser_size s1) as [[dim s2]| |] eqn:DS; cbn [bind] in H; try discriminate. apply size_range in DS.
  match type of H with context [deser_indexes ?a ?b ?c ?d ?e ?f] => destruct (deser_indexes a b c d e f) as [[k s3]| |] eqn:DI end; cbn [bind] in H; try discriminate. apply indexes_count in DI. destruct DI as [L B].
  match type of H with context [deser_dists ?a ?b ?c ?d ?e ?f ?g ?h ?i ?j ?k ?l ?m ?n] => destruct (deser_dists a b c d e f g h i j k l m n) as [[[y hy] s4]| |] eqn:E end; cbn [bind] in H; try discriminate.
  cbn [fst snd] in H. injection H as <- _ _. assert (LK : lenZ k = dim) by (unfold lenZ; lia). assert (used + dim <= np) by (destruct (Z.to_nat dim) eqn:T; [lia|specialize (B ltac:(discriminate)); lia]).
  apply IH in E; [|assumption]. cbn [flat_map snd]. rewrite lenZ_app. lia.
Qed.
Lemma indexes_fit jen le types flog mem otype pid did s d s' : deser_conf_data jen le types flog mem otype pid did s = Ok (d, s') -> lenZ (flat_map snd (cd_dists d)) <= lenZ (cd_params d).
Proof.
  unfold deser_conf_data. intro H. destruct (deser_string s) as [[name s1]| |]; cbn [bind] in H; try discriminate. destruct (deser_size s1) as [[np s2]| |] eqn:NP; cbn [bind] in H; try discriminate. apply size_range in NP.
  destruct (deser_size s2) as [[nc s3]| |]; cbn [bind] in H; try discriminate. destruct (deser_size s3) as [[nd s4]| |]; cbn [bind] in H; try discriminate. destruct (deser_size s4) as [[nf s5]| |]; cbn [bind] in H; try discriminate.
  destruct (deser_rng le types s5) as [[g s6]| |]; cbn [bind] in H; try discriminate. destruct (released_twice _) as [hl| |]; cbn [bind] in H; try discriminate.
  destruct (wrap 64 (np + nc + nd + nf) =? 0).
  { destruct (negb (np =? 0)); [discriminate|]. destruct (negb (nc + nd + nf =? 0)); [discriminate|]. injection H as <- _. cbn. lia. }
  destruct (negb (mem _)); [discriminate|].
  match type of H with context [deser_parameters ?a ?b ?c ?d ?e ?f ?g ?h] => destruct (deser_parameters a b c d e f g h) as [[[ps hp] s7]| |] eqn:PS end; cbn [bind] in H; try discriminate. apply parameters_count in PS.
  destruct (deser_conditions _ _ _ _ _ _ _ _ _) as [[[cs hc] s8]| |]; cbn [bind] in H; try discriminate.
  match type of H with context [deser_dists ?a ?b ?c ?d ?e ?f ?g ?h ?i ?j ?k ?l ?m ?n] => destruct (deser_dists a b c d e f g h i j k l m n) as [[[ds hd] s9]| |] eqn:E end; cbn [bind] in H; try discriminate.
  destruct (deser_clauses _ _ _ _ _ _ _ _) as [[[fs hf] s10]| |]; cbn [bind] in H; try discriminate. injection H as <- _. cbn [cd_dists cd_params fst]. apply dists_count in E; [|lia]. unfold lenZ in *. lia.
Qed.
