(** Proofs about the restoration of configuration spaces: building the space. *)
From Coq Require Import ZArith List Bool Lia Arith Relations.
From Verif Require Import Base Datum CodecModel CodecSpec CodecProofs CmpModel CmpSpec ParamModel ParamSpec ParamProofs ContextModel ContextSpec ContextProofs ExprModel ExprSpec ExprProofs ExprLemmas RngModel TreeCodecSpec DistModel DistCodecModel DistCodecSpec DistCodecProofs EvalModel SpaceCodecModel SpaceCodecSpec SpaceCodecProofs SpaceModel SpaceSpec SpaceReach SpaceDist SpaceLemmas SpaceMain ConfCodecModel ConfCodecSpec ConfMeaning ConfCodecProofs.
Import ListNotations.
Open Scope Z_scope.

(** A parameter read back is one that a constructor makes *)
Lemma back_created jen p p' : created jen p -> read_back p p' -> created jen p'.
Proof.
  intros C (d & -> & D). pose proof C as C0. destruct C as [nm t lo up q def p' N M1 M2 M3 M4 H | t nm vals idx p' K N W Hi H | nm N].
  - destruct (check_numerical jen _ _ _ _ _ _ _ H) as (_ & E & _). subst p'. cbn [p_type] in D. cbn in D. subst d. exact C0.
  - destruct (created_cat_inv _ _ _ _ _ _ W Hi H) as [-> (L & X & Y & Z)]. cbn [p_type p_values p_default] in D.
    replace ((t =? PNUMERICAL) || (t =? PSTRING)) with false in D by (destruct K as [->|[->| ->]]; reflexivity).
    destruct D as (l1 & l2 & E & _). assert (LL : lenZ l1 < lenZ vals).
    { apply (f_equal (@length datum)) in E. rewrite map_length, app_length in E. cbn in E. unfold lenZ. lia. }
    apply (created_categorical jen t nm vals (lenZ l1)); auto; [unfold lenZ; lia|].
    destruct (create_categorical_spec jen t nm vals (lenZ l1) W ltac:(unfold lenZ; lia)) as [[_ Q]|[NQ _]]; [|destruct NQ; repeat split; auto].
    rewrite Q. unfold with_default. cbn [p_type p_name p_interval p_quant p_values]. do 2 f_equal.
    replace (Z.to_nat (lenZ l1)) with (length l1) by (unfold lenZ; lia). rewrite E, app_nth2, Nat.sub_diag by lia. reflexivity.
  - cbn in D. subst d. exact C0.
Qed.
Lemma wf_expr_in (known : Z -> Prop) (A : list Z) e : wf_expr known e -> (forall h, occurs h e -> In h A) -> wf_expr (fun h => In h A) e.
Proof.
  induction e as [o d|o g|o t nodes IH] using expr_rect'; intros W O; inversion W; subst; constructor; auto.
  - apply O. constructor.
  - rewrite Forall_forall in *. intros n I. apply IH; auto. intros h Oh. apply O. econstructor; eauto.
Qed.
Lemma restored_wf (f : Z -> Z) (P Q : Z -> Prop) e : (forall h, P h -> Q (f h)) -> wf_expr P e -> wf_expr Q (restored f e).
Proof.
  intro M. induction e as [o d|o g|o t nodes IH] using expr_rect'; intro W; inversion W; subst; cbn [restored]; constructor; auto.
  - now rewrite map_length.
  - rewrite Forall_forall in *. intros n I. apply in_map_iff in I. destruct I as (x & <- & I). auto.
Qed.
Lemma component_renamed d o : component_of (set_dobj d o) = component_of d.
Proof. destruct d; reflexivity. Qed.

(** ** Lists *)
Lemma filter_map {X Y} (g : X -> Y) p l : filter p (map g l) = map g (filter (fun x => p (g x)) l).
Proof. induction l as [|x l IH]; cbn; [reflexivity|]. destruct (p (g x)); cbn; now rewrite IH. Qed.
Lemma filter_filter {X} (p q : X -> bool) l : filter p (filter q l) = filter (fun x => q x && p x) l.
Proof. induction l as [|x l IH]; cbn; [reflexivity|]. destruct (q x); cbn; [destruct (p x)|]; now rewrite IH. Qed.
Lemma filter_all {X} (p : X -> bool) l : (forall x, In x l -> p x = true) -> filter p l = l.
Proof. induction l as [|x l IH]; intro H; cbn; [reflexivity|]. rewrite (H x) by now left. f_equal. apply IH. intros y I. apply H. now right. Qed.
Lemma filter_none {X} (p : X -> bool) l : (forall x, In x l -> p x = false) -> filter p l = [].
Proof. induction l as [|x l IH]; intro H; cbn; [reflexivity|]. rewrite (H x) by now left. apply IH. intros y I. apply H. now right. Qed.
Lemma memb_in i l : memb i l = true <-> In i l.
Proof. unfold memb. rewrite existsb_exists. split; [intros (x & I & E); apply Nat.eqb_eq in E; now subst|intro I; exists i; split; [exact I|apply Nat.eqb_refl]]. Qed.
Lemma memb_not i l : memb i l = false <-> ~ In i l.
Proof. rewrite <- memb_in. destruct (memb i l); split; intro H; try congruence; destruct H; reflexivity. Qed.
Lemma nth_error_ext' {X} (l m : list X) : (forall i, nth_error l i = nth_error m i) -> l = m.
Proof.
  revert m. induction l as [|x l IH]; intros [|y m] H; [reflexivity|specialize (H O); discriminate..|]. f_equal; [specialize (H O); cbn in H; congruence|]. apply IH. intro i. exact (H (S i)).
Qed.
Lemma nth_error_app_mid {X} (a : list X) x b : nth_error (a ++ x :: b) (length a) = Some x.
Proof. rewrite nth_error_app2, Nat.sub_diag by lia. reflexivity. Qed.

(** ** The indexes of a partition *)
Lemma partition_flat dimension s : dinv dimension (fun _ => False) s -> NoDup (flat_map dw_indexes (s_dists s)) /\ forall i, In i (flat_map dw_indexes (s_dists s)) <-> (i < length (s_params s))%nat.
Proof.
  intro D. split.
  - pose proof (d_ids _ _ _ D) as ND. pose proof (d_att _ _ _ D) as AT. unfold component in AT. revert ND AT. generalize (s_dists s). induction l as [|w l IH]; intros ND AT; cbn; [constructor|].
    inversion ND as [|? ? NI ND']; subst.
    assert (NL : NoDup (flat_map dw_indexes l)) by (apply IH; [exact ND'|]; intros w' k i [I X]; apply (AT w' k i); split; [now right|exact X]).
    assert (NW : NoDup (dw_indexes w)).
    { apply NoDup_nth_error. intros a b La E. destruct (nth_error (dw_indexes w) a) as [i|] eqn:Ea; [|apply nth_error_None in Ea; lia].
      pose proof (AT w a i (conj (or_introl eq_refl) Ea)) as [X _]. pose proof (AT w b i (conj (or_introl eq_refl) (eq_sym E))) as [Y _]. congruence. }
    assert (DJ : forall i, In i (dw_indexes w) -> ~ In i (flat_map dw_indexes l)).
    { intros i I Q. apply in_flat_map in Q. destruct Q as (w' & I' & J). apply In_nth_error in I, J. destruct I as [a Ea], J as [b Eb].
      pose proof (AT w a i (conj (or_introl eq_refl) Ea)) as [X _]. pose proof (AT w' b i (conj (or_intror I') Eb)) as [Y _]. apply NI. replace (dw_id w) with (dw_id w') by congruence. now apply in_map. }
    clear -NL NW DJ. induction NW as [|x m NI NM IH]; cbn; [exact NL|]. constructor; [|apply IH; intros i I; apply DJ; now right].
    intro Q. apply in_app_or in Q. destruct Q as [Q|Q]; [contradiction|]. exact (DJ x (or_introl eq_refl) Q).
  - intro i. rewrite in_flat_map. split.
    + intros (w & I & J). apply In_nth_error in J. destruct J as [k J]. destruct (d_att _ _ _ D w k i (conj I J)) as [X _]. rewrite <- (d_len _ _ _ D). apply nth_error_Some. congruence.
    + intro L. destruct (d_all _ _ _ D i L (fun x => x)) as (w & k & I & J). exists w. split; [exact I|now apply nth_error_In in J].
Qed.

Section Build.
  Variables (jen : list Z -> Z) (heap : Z -> param) (pud : Z -> option (list Z)) (pid did : nat -> Z) (f : Z -> Z).
  Variables (A : list Z) (conds : list (option expr)) (clauses : list expr) (wl : list dwrapper).
  Hypothesis NDA : NoDup A.
  Hypothesis NAMES : NoDup (map (fun h => p_name (heap h)) A).
  Hypothesis CR : forall h, In h A -> created jen (heap h) /\ p_type (heap h) <> PSTRING.
  Hypothesis SM : lenZ A < 2 ^ 32.
  Hypothesis LC : length conds = length A.
  Hypothesis CW : forall i e, nth_error conds i = Some (Some e) -> wf_expr (fun h => In h A) e.
  Hypothesis AC : acyclic A conds.
  Hypothesis FW : Forall (wf_expr (fun h => In h A)) clauses.
  Hypothesis PND : NoDup (flat_map dw_indexes wl).
  Hypothesis PIN : forall i, In i (flat_map dw_indexes wl) <-> (i < length A)%nat.
  Variable ps : list pobj.
  Hypothesis SP : same_parameters heap pud pid A ps.
  Hypothesis PI : addresses pid (length A).
  Hypothesis MV : moves pid A f.
  Variables (dimension : Z -> nat) (ddist : Z -> Z) (R : Type) (draw : Z -> list Z -> R -> res (list datum) * R).
  Hypothesis DD : forall h, dimension (ddist h) = 1%nat.
  Hypothesis DI : forall i w, nth_error wl i = Some w -> dimension (did i) = length (dw_indexes w).
  Notation heap' := (at_address ps).
  Notation A' := (map pid (seq 0 (length A))).
  Notation known' := (fun h => In h A').
  Notation rch := (reach heap' jen dimension ddist R draw known').
  Notation conds' := (map (option_map (restored f)) conds).
  Notation clauses' := (map (restored f) clauses).
  Lemma ids : map po_id ps = A'. Proof. apply SP. Qed.
  Lemma ND' : NoDup A'. Proof. now apply addresses_nodup. Qed.
  Lemma len_A' : length A' = length A. Proof. now rewrite map_length, seq_length. Qed.
  Lemma moved i h : nth_error A i = Some h -> nth_error A' i = Some (f h).
  Proof.
    intro N. rewrite (MV i h N). assert (L : (i < length A)%nat) by (apply nth_error_Some; congruence).
    rewrite (nth_error_map pid), nth_error_nth' with (d := O) by (rewrite seq_length; lia). rewrite seq_nth by lia. reflexivity.
  Qed.
  Lemma moved_known h : In h A -> In (f h) A'.
  Proof. intro I. destruct (In_nth_error _ _ I) as [i N]. apply moved in N. now apply nth_error_In in N. Qed.
  Lemma read_at i h h' : nth_error A i = Some h -> nth_error A' i = Some h' -> read_back (heap h) (heap' h').
  Proof.
    intros N N'. destruct SP as [I F]. rewrite <- I in N'. rewrite nth_error_map in N'. destruct (nth_error ps i) as [q|] eqn:Q; [|discriminate]. injection N' as <-.
    destruct (Forall2_nth _ _ _ _ _ F N) as (q' & Q' & RB & _). replace q' with q in * by congruence. rewrite find_here; [exact RB|rewrite I; exact ND'|now apply nth_error_In in Q].
  Qed.
  Lemma kin_at i h h' : nth_error A i = Some h -> nth_error A' i = Some h' -> kin (heap h) (heap' h').
  Proof. intros N N'. destruct (read_at i h h' N N') as (d & E & _). now exists d. Qed.
  Lemma sound' : sound_space heap' jen dimension ddist known'.
  Proof.
    split; [|split; [|exact DD]].
    - intros h I. destruct (In_nth_error _ _ I) as [i N']. assert (L : (i < length A)%nat) by (rewrite <- len_A'; apply nth_error_Some; congruence).
      destruct (nth_error A i) as [g|] eqn:N; [|apply nth_error_None in N; lia]. apply (back_created jen (heap g)); [apply CR; now apply nth_error_In in N|exact (read_at i g h N N')].
    - intros h I. apply in_map_iff in I. destruct I as (i & <- & J). apply in_seq in J. apply PI. lia.
  Qed.
  Lemma string' h : In h A' -> p_type (heap' h) <> PSTRING.
  Proof.
    intro I. destruct (In_nth_error _ _ I) as [i N']. assert (L : (i < length A)%nat) by (rewrite <- len_A'; apply nth_error_Some; congruence).
    destruct (nth_error A i) as [g|] eqn:N; [|apply nth_error_None in N; lia]. rewrite (proj2 (back_name _ _ (read_at i g h N N'))). apply CR. now apply nth_error_In in N.
  Qed.
  Lemma names' : NoDup (map (fun h => p_name (heap' h)) A').
  Proof.
    replace (map (fun h => p_name (heap' h)) A') with (map (fun h => p_name (heap h)) A); [exact NAMES|].
    apply nth_error_ext'. intro i. rewrite !nth_error_map. destruct (nth_error A i) as [h|] eqn:N.
    - rewrite <- (nth_error_map pid), (moved i h N). cbn. f_equal. symmetry. apply (back_name _ _ (read_at i h (f h) N (moved i h N))).
    - apply nth_error_None in N. replace (nth_error (seq 0 (length A)) i) with (@None nat); [reflexivity|]. symmetry. apply nth_error_None. rewrite seq_length. lia.
  Qed.

  (** *** The parameters *)
  Lemma everything_now S s : rch S s -> s_graph_ok s = true -> rch everything s.
  Proof.
    intros RE G. destruct (check_configuration_values heap' jen s []) as [r s1] eqn:E. assert (s1 = s) as -> by (unfold check_configuration_values, ensure_graph in E; rewrite G in E; now injection E as _ <-).
    exact (re_check_values heap' jen dimension ddist R draw known' S s [] r s RE E).
  Qed.
  Lemma dims_unused d1 d2 l : forall s, space_adds heap' d1 ddist s (map (fun p => (po_id p, None)) l) = space_adds heap' d2 ddist s (map (fun p => (po_id p, None)) l).
  Proof.
    induction l as [|q l IH]; intro s; [reflexivity|]. cbn [map space_adds]. replace (space_add heap' d1 ddist s (po_id q) None) with (space_add heap' d2 ddist s (po_id q) None) by reflexivity.
    destruct (space_add heap' d2 ddist s (po_id q) None) as [r s1]. destruct (r =? CCS_RESULT_SUCCESS); auto.
  Qed.
  Definition single (i : nat) : Z * list nat := (ddist (pid i), [i]).
  Lemma adding l : forall k s r s', (k + length l = length A)%nat -> map po_id l = map pid (seq k (length l)) ->
    adds_parameters heap' dimension ddist s (map (fun p => (po_id p, None)) l) r s' ->
    s_params s = map pid (seq 0 k) -> s_conds s = repeat None k -> map sampled_by (s_dists s) = map single (seq 0 k) ->
    r = 0 /\ s_params s' = A' /\ s_conds s' = repeat None (length A) /\ map sampled_by (s_dists s') = map single (seq 0 (length A)) /\
      s_self s' = s_self s /\ c_name (s_ctx s') = c_name (s_ctx s) /\ s_forbidden s' = s_forbidden s /\ s_graph_ok s' = s_graph_ok s.
  Proof.
    induction l as [|q l IH]; intros k s r s' LK IDS AD P C D.
    - cbn [length] in LK. rewrite Nat.add_0_r in LK. subst k. inversion AD; subst. repeat split; auto.
    - cbn [map length seq] in *. injection IDS as IQ IDS.
      assert (ONE : forall r1 s1, adds_parameter heap' dimension ddist s (po_id q) None r1 s1 -> r1 = 0).
      { intros r1 s1 Q. inversion Q as [? AM NZ|]; subst; [|reflexivity]. cbn [option_map] in AM. destruct AM as [_ TS|_ [g [I E]]|d0 _ _ _ X _|]; [| |discriminate|destruct NZ; reflexivity].
        - exfalso. rewrite IQ in TS. apply (string' (pid k)); [|exact TS]. apply in_map. apply in_seq. lia.
        - exfalso. pose proof names' as NN. rewrite P in I. rewrite IQ in E. unfold name_of in E.
          assert (SEQ : seq 0 (length A) = seq 0 k ++ k :: seq (S k) (length l)). { rewrite <- LK. rewrite seq_app. reflexivity. }
          rewrite SEQ, !map_app in NN. cbn [map] in NN. apply NoDup_remove_2 in NN. apply NN. apply in_or_app. left. rewrite <- E. now apply (in_map (fun h => p_name (heap' h))). }
      inversion AD as [|? ? ? s1 ? ? ? A1 AL|? ? ? ? ? ? A1 NZ]; subst; [|destruct (NZ (ONE _ _ A1))].
      inversion A1 as [? ? X|? AM E1 E2 E3 E4 E5 E6 E7 E8]; subst; [destruct (X eq_refl)|]. rewrite P, IQ in *.
      destruct (IH (S k) s1 r s') as (B1 & B2 & B3 & B4 & B5 & B6 & B7 & B8); auto; [lia| | | |].
      + rewrite E1. replace (S k) with (k + 1)%nat by lia. rewrite seq_app, map_app. reflexivity.
      + rewrite E2, C. replace (S k) with (k + 1)%nat by lia. now rewrite repeat_app.
      + rewrite E6, D, map_length, seq_length. replace (S k) with (k + 1)%nat by lia. rewrite seq_app, map_app. reflexivity.
      + repeat split; auto; congruence.
  Qed.
  Record made_so_far (id : Z) (name : list Z) (cs : list (option expr)) (ds : list (Z * list nat)) (fs : list expr) (s : space) : Prop := mkMade {
    m_reach : rch everything s; m_self : s_self s = id; m_name : c_name (s_ctx s) = name; m_params : s_params s = A';
    m_conds : s_conds s = cs; m_dists : map sampled_by (s_dists s) = ds; m_forb : s_forbidden s = fs }.
  Lemma parameters_built id name : exists s, space_adds heap' (fun _ => O) ddist (new_space id name) (map (fun p => (po_id p, None)) ps) = (0, s) /\
    made_so_far id name (repeat None (length A)) (map single (seq 0 (length A))) [] s.
  Proof.
    destruct (space_adds heap' (fun _ => O) ddist (new_space id name) (map (fun p => (po_id p, None)) ps)) as [r s] eqn:E. rewrite (dims_unused _ dimension) in E.
    assert (LP : length ps = length A) by (rewrite <- (map_length po_id), ids; apply len_A').
    assert (KN : Forall (fun hd => known' (fst hd)) (map (fun p => (po_id p, @None Z)) ps)).
    { apply Forall_forall. intros x I. apply in_map_iff in I. destruct I as (q & <- & I). cbn [fst]. rewrite <- ids. now apply in_map. }
    assert (FEW : lenZ (s_params (new_space id name)) + lenZ (map (fun p => (po_id p, @None Z)) ps) < 2 ^ 32).
    { unfold new_space, s_params, lenZ in *. cbn [c_params s_ctx new_context length]. rewrite map_length, LP. exact SM. }
    destruct (main_adds heap' jen dimension ddist R draw known' sound' _ everything _ r s (re_new _ _ _ _ _ _ _ id name) KN FEW E) as [AD [S' RE]].
    destruct (adding ps O (new_space id name) r s) as (-> & B2 & B3 & B4 & B5 & B6 & B7 & B8); auto; [now rewrite ids, LP|].
    exists s. split; [reflexivity|]. constructor; auto. apply (everything_now S'); [exact RE|now rewrite B8].
  Qed.

  (** *** The conditions *)
  Lemma conds_alike : Forall2 (oalike A A') conds conds'.
  Proof.
    assert (X : forall l, (forall i e, nth_error l i = Some (Some e) -> wf_expr (fun h => In h A) e) -> Forall2 (oalike A A') l (map (option_map (restored f)) l)).
    { induction l as [|c l IH]; intro H; cbn [map]; constructor; [|apply IH; intros i e N; exact (H (S i) e N)]. destruct c as [e|]; cbn; [|exact Logic.I].
      apply restored_alike; [exact moved|]. intros h Oh. exact (SpaceCodecProofs.occurs_known A e h (H O e eq_refl) Oh). }
    apply X. exact CW.
  Qed.
  Lemma clauses_alike : Forall2 (alike A A') clauses clauses'.
  Proof.
    revert FW. induction clauses as [|e l IH]; intro H; cbn [map]; constructor; inversion H; subst; auto. apply restored_alike; [exact moved|]. intros h O. now apply (SpaceCodecProofs.occurs_known A e h).
  Qed.
  Lemma acyclic' : acyclic A' conds'.
  Proof. eapply b_acyclic; eauto using ND', conds_alike. Qed.
  Lemma depends_more B c1 c2 i j : (forall i e, nth_error c1 i = Some (Some e) -> nth_error c2 i = Some (Some e)) -> depends B c1 i j -> depends B c2 i j.
  Proof. intros H D. induction D as [x y Q|x y z D1 IH1 D2 IH2]; [apply t_step; eapply reads_more; eauto|eapply t_trans; eauto]. Qed.
  Lemma repeat_none_nth n i c : nth_error (repeat (@None expr) n) i = Some c -> c = None.
  Proof. intro N. apply nth_error_In in N. now apply repeat_spec in N. Qed.
  Lemma conditions_built suf : forall pre id name ds s, conds = pre ++ suf ->
    made_so_far id name (map (option_map (restored f)) pre ++ repeat None (length suf)) ds [] s ->
    exists s', set_conditions s (map (back_cond f) (numbered (lenZ pre) suf)) = Ok s' /\ made_so_far id name conds' ds [] s'.
  Proof.
    induction suf as [|c suf IH]; intros pre id name ds s EC M.
    - cbn in *. rewrite app_nil_r in *. subst pre. exists s. split; [reflexivity|exact M].
    - assert (EC' : conds = (pre ++ [c]) ++ suf) by now rewrite <- app_assoc. assert (LP : lenZ (pre ++ [c]) = lenZ pre + 1) by (rewrite lenZ_app; reflexivity).
      destruct c as [e|]; cbn [numbered map].
      + assert (We : wf_expr (fun h => In h A) e) by (apply (CW (length pre)); rewrite EC; apply nth_error_app_mid).
        pose proof (restored_wf f (fun h => In h A) known' e moved_known We) as We'.
        destruct (set_condition s (lenZ pre) (restored f e)) as [r s1] eqn:E. pose proof (main_condition heap' jen dimension ddist R draw known' sound' everything s _ _ r s1 (m_reach _ _ _ _ _ _ M) We' E) as SC.
        assert (LL : (length pre < length A)%nat) by (rewrite <- LC, EC, app_length; cbn; lia).
        assert (WR : Z.to_nat (wrap 32 (lenZ pre)) = length pre).
        { unfold wrap, lenZ in *. rewrite Z.mod_small by lia. lia. }
        assert (HERE : nth_error (s_conds s) (length pre) = Some None).
        { rewrite (m_conds _ _ _ _ _ _ M). replace (length pre) with (length (map (option_map (restored f)) pre)) by apply map_length. cbn [length repeat]. apply nth_error_app_mid. }
        set (next := map (option_map (restored f)) (pre ++ [Some e]) ++ repeat None (length suf)).
        assert (CN : forall cs', conditioned (s_conds s) (length pre) (restored f e) cs' -> cs' = next).
        { intros cs' Q. apply (conditioned_unique _ _ _ _ next Q). rewrite (m_conds _ _ _ _ _ _ M). unfold next. rewrite map_app, <- app_assoc. cbn [map option_map app length repeat].
          split; [rewrite !app_length; reflexivity|]. rewrite <- (map_length (option_map (restored f)) pre). split; [apply nth_error_app_mid|]. intros j NJ. destruct (Nat.lt_ge_cases j (length (map (option_map (restored f)) pre))) as [Lt|Ge].
          - now rewrite !nth_error_app1 by exact Lt.
          - rewrite !nth_error_app2 by exact Ge. destruct (j - length (map (option_map (restored f)) pre))%nat as [|m] eqn:EJ; [lia|reflexivity]. }
        assert (AN : acyclic A' next).
        { intros i D. apply (acyclic' i). eapply depends_more; [|exact D]. intros j g N. unfold next in N. rewrite EC', (map_app _ (pre ++ [Some e]) suf).
          destruct (Nat.lt_ge_cases j (length (map (option_map (restored f)) (pre ++ [Some e])))) as [Lt|Ge].
          - rewrite nth_error_app1 in N by exact Lt. now rewrite nth_error_app1 by exact Lt.
          - rewrite nth_error_app2 in N by exact Ge. apply repeat_none_nth in N. discriminate. }
        assert (OC : forall h, occurs h (restored f e) -> In h A') by (intros h O; exact (SpaceReach.occurs_known known' (restored f e) We' h O)).
        inversion SC as [X|e' X|h s0 X O NI|cs' s0 X _ Q NA|cs' s0 X _ Q A0 E0 SA]; subst; try rewrite WR in *.
        * exfalso. rewrite (m_conds _ _ _ _ _ _ M), lenZ_app in X. cbn [length repeat] in X. rewrite lenZ_cons in X. unfold wrap in X. rewrite Z.mod_small in X by (unfold lenZ in *; lia). pose proof (lenZ_nonneg (repeat (@None expr) (length suf))). unfold lenZ in *. rewrite map_length in X. lia.
        * rewrite HERE in X. discriminate.
        * exfalso. apply NI. rewrite (m_params _ _ _ _ _ _ M). now apply OC.
        * exfalso. apply NA. rewrite (m_params _ _ _ _ _ _ M), (CN _ Q). exact AN.
        * cbn [set_conditions back_cond fst snd]. rewrite E. destruct SA as (T1 & T2 & T3 & T4 & T5 & T6 & T7). cbn in T1, T2, T3, T5, T7.
          destruct (IH (pre ++ [Some e]) id name ds s1 EC') as (s' & E' & M').
          { constructor.
            - exact (re_condition heap' jen dimension ddist R draw known' everything s _ _ s1 (m_reach _ _ _ _ _ _ M) We' E).
            - rewrite T1. apply M.
            - rewrite T2. apply M.
            - unfold s_params. rewrite T2. apply M.
            - rewrite (CN _ Q). reflexivity.
            - rewrite T5. apply M.
            - rewrite T7. apply M. }
          rewrite LP in E'. exists s'. split; [exact E'|exact M'].
      + destruct (IH (pre ++ [None]) id name ds s EC') as (s' & E' & M').
        { destruct M as [M1 M2 M3 M4 M5 M6 M7]. constructor; auto. rewrite M5, map_app, <- app_assoc. reflexivity. }
        rewrite LP in E'. exists s'. split; [exact E'|exact M'].
  Qed.

  (** *** The distributions *)
  Definition current (pre : list dwrapper) : list (Z * list nat) :=
    map single (filter (fun i => negb (memb i (flat_map dw_indexes pre))) (seq 0 (length A))) ++ combine (map did (seq 0 (length pre))) (map dw_indexes pre).
  Lemma survivors_filter idx l m : survivors idx l m ->
    map sampled_by m = filter (fun p => negb (existsb (fun i => memb i (snd p)) idx)) (map sampled_by l).
  Proof.
    induction 1 as [|w l m AP _ IH|w l m AP _ IH]; cbn [map filter]; [reflexivity| |]; unfold sampled_by at 2 3; cbn [snd]; destruct (existsb (fun i => memb i (dw_indexes w)) idx) eqn:E; cbn [negb].
    - apply existsb_exists in E. destruct E as (i & I & J). apply memb_in in J. destruct (AP i I J).
    - cbn [map]. f_equal. exact IH.
    - exact IH.
    - exfalso. apply AP. intros i I J. apply memb_in in J. assert (existsb (fun i => memb i (dw_indexes w)) idx = true) by (apply existsb_exists; eauto). congruence.
  Qed.
  Lemma met_inv s seen idx gone : met s seen idx gone -> forall w, In w gone -> In w (s_dists s) /\ exists i, In i idx /\ In i (dw_indexes w).
  Proof.
    induction 1 as [|seen i l ws w I J M IH|seen i l ws w I N J M IH]; intros v Iv; [destruct Iv| |].
    - destruct (IH v Iv) as (B & j & X & Y). split; [exact B|]. exists j. split; [now right|exact Y].
    - destruct Iv as [<- |Iv]; [split; [exact I|]; exists i; split; [now left|exact J]|]. destruct (IH v Iv) as (B & j & X & Y). split; [exact B|]. exists j. split; [now right|exact Y].
  Qed.
  Lemma without_none idx l m : without idx l m -> (forall i, In i l -> In i idx) -> m = [].
  Proof. induction 1 as [|i l m N _ IH|i l m I _ IH]; intro H; [reflexivity| |]; [destruct N; apply H; now left|apply IH; intros j J; apply H; now right]. Qed.
  Lemma current_in pre d l : In (d, l) (current pre) -> (exists i, l = [i]) \/ (forall i, In i l -> In i (flat_map dw_indexes pre)).
  Proof.
    intro I. apply in_app_or in I. destruct I as [I|I].
    - apply in_map_iff in I. destruct I as (i & E & _). injection E as _ <-. left. now exists i.
    - right. intros i J. apply in_combine_r in I. apply in_map_iff in I. destruct I as (w & <- & I). apply in_flat_map. eauto.
  Qed.
  Lemma current_step pre w : (forall i, In i (dw_indexes w) -> ~ In i (flat_map dw_indexes pre)) ->
    filter (fun p => negb (existsb (fun i => memb i (snd p)) (dw_indexes w))) (current pre) ++ [(did (length pre), dw_indexes w)] = current (pre ++ [w]).
  Proof.
    intro DJ. unfold current. rewrite filter_app, filter_map, filter_filter, <- app_assoc. f_equal.
    - f_equal. apply filter_ext. intro i. unfold single. cbn [snd]. rewrite flat_map_app. cbn [flat_map]. rewrite app_nil_r. apply Bool.eq_iff_eq_true. rewrite andb_true_iff, !negb_true_iff, !memb_not.
      assert (X : existsb (fun j => memb j [i]) (dw_indexes w) = false <-> ~ In i (dw_indexes w)).
      { rewrite <- Bool.not_true_iff_false. rewrite existsb_exists. split; intros N Q; apply N; [exists i; split; [exact Q|apply memb_in; now left]|]. destruct Q as (j & J & K). apply memb_in in K. destruct K as [->|[]]. exact J. }
      rewrite X, in_app_iff. tauto.
    - rewrite filter_all.
      + rewrite app_length. cbn [length]. rewrite seq_app, !map_app. cbn [map seq Nat.add]. 
        assert (CA : forall (a b : list Z) (c d : list (list nat)), length a = length c -> combine (a ++ b) (c ++ d) = combine a c ++ combine b d).
        { induction a as [|x a IH]; intros b [|y c] d0 L; cbn in *; try discriminate; [reflexivity|]. now rewrite IH by congruence. }
        rewrite CA by now rewrite !map_length, seq_length. reflexivity.
      + intros [d l] I. cbn [snd]. apply negb_true_iff, Bool.not_true_iff_false. rewrite existsb_exists. intros (i & J & K). apply memb_in in K. apply (DJ i J). apply in_combine_r in I. apply in_map_iff in I. destruct I as (v & <- & I). apply in_flat_map. eauto.
  Qed.
  Lemma NoDup_mid {X} (a b c : list X) : NoDup (a ++ b ++ c) -> NoDup b /\ (forall x, In x b -> ~ In x a).
  Proof.
    induction a as [|x a IH]; cbn [app]; intro N.
    - split; [|intros x _ []]. induction b as [|y b IH]; [constructor|]. cbn in N. inversion N; subst. constructor; [intro I; apply H1; apply in_or_app; now left|now apply IH].
    - inversion N as [|? ? NI ND]; subst. destruct (IH ND) as [B D]. split; [exact B|]. intros y I [->|J]; [apply NI; apply in_or_app; right; apply in_or_app; now left|exact (D y I J)].
  Qed.
  Lemma distributions_built suf : forall pre rds id name s, wl = pre ++ suf -> length rds = length suf ->
    (forall j d w, nth_error rds j = Some d -> nth_error suf j = Some w -> o_id (dobj_of d) = did (length pre + j) /\ length (c_types (component_of d)) = length (dw_indexes w)) ->
    made_so_far id name conds' (current pre) [] s ->
    exists s', set_distributions ddist s (combine rds (index_list suf)) (concat (index_list suf)) = Ok s' /\ made_so_far id name conds' (current wl) [] s'.
  Proof.
    induction suf as [|w suf IH]; intros pre rds id name s EW LR HR M.
    - destruct rds; [|discriminate]. rewrite app_nil_r in EW. subst pre. exists s. split; [reflexivity|exact M].
    - destruct rds as [|d rds]; [discriminate|]. cbn [length] in LR. injection LR as LR. unfold index_list. cbn [map combine concat set_distributions]. fold (index_list suf).
      destruct (HR O d w eq_refl eq_refl) as [Hid Hdim]. rewrite Nat.add_0_r in Hid. rewrite Hdim, Hid.
      set (idx := dw_indexes w) in *. assert (LI : length (map Z.of_nat idx) = length idx) by apply map_length.
      replace (length (map Z.of_nat idx ++ concat (index_list suf)) <? length idx)%nat with false by (symmetry; apply Nat.ltb_ge; rewrite app_length; lia).
      replace (firstn (length idx) (map Z.of_nat idx ++ concat (index_list suf))) with (map Z.of_nat idx) by (rewrite firstn_app, LI, Nat.sub_diag, <- LI, firstn_all; cbn; now rewrite app_nil_r).
      replace (map Z.to_nat (map Z.of_nat idx)) with idx by (rewrite map_map; rewrite <- (map_id idx) at 1; apply map_ext; intro; now rewrite Nat2Z.id).
      destruct (set_distribution ddist s (did (length pre)) idx) as [r s1] eqn:E.
      assert (DIM : length idx = dimension (did (length pre))) by (symmetry; apply DI; rewrite EW; apply nth_error_app_mid).
      pose proof (main_distribution heap' jen dimension ddist R draw known' sound' everything s _ idx r s1 (m_reach _ _ _ _ _ _ M) DIM E) as SD.
      pose proof (re_dist heap' jen dimension ddist R draw known' everything s _ idx r s1 (m_reach _ _ _ _ _ _ M) DIM E) as RE.
      assert (ND : NoDup idx /\ (forall i, In i idx -> ~ In i (flat_map dw_indexes pre))).
      { pose proof PND as N. rewrite EW, flat_map_app in N. cbn [flat_map] in N. exact (NoDup_mid _ _ _ N). }
      destruct ND as [NI DJ].
      assert (BND : Forall (fun i => (i < length (s_params s))%nat) idx).
      { rewrite (m_params _ _ _ _ _ _ M), len_A'. apply Forall_forall. intros i I. apply PIN. rewrite EW, flat_map_app. apply in_or_app. right. cbn [flat_map]. apply in_or_app. now left. }
      inversion SD as [BAD|kept gone orphans s0 _ _ SV ME WO MD T1 T2 T3 T4 T5 T6]; subst; [destruct BAD; now split|].
      cbn [Z.eqb CCS_RESULT_SUCCESS].
      assert (NO : orphans = []).
      { apply (without_none _ _ _ WO). intros i I. apply in_flat_map in I. destruct I as (v & Iv & J). destruct (met_inv _ _ _ _ ME v Iv) as (B & j & X & Y).
        assert (CI : In (sampled_by v) (current pre)) by (rewrite <- (m_dists _ _ _ _ _ _ M); now apply in_map). destruct (current_in _ _ _ CI) as [[k EK]|K].
        - rewrite EK in J, Y. destruct J as [<- |[]]. destruct Y as [-> |[]]. exact X.
        - destruct (DJ j X (K j Y)). }
      subst orphans. cbn [map] in MD. rewrite (survivors_filter _ _ _ SV), (m_dists _ _ _ _ _ _ M) in MD. pose proof (current_step pre w DJ) as CS. fold idx in CS. rewrite CS in MD.
      destruct (IH (pre ++ [w]) rds id name s1) as (s' & E' & M'); auto.
      + now rewrite <- app_assoc.
      + intros j d' w' N1 N2. destruct (HR (S j) d' w' N1 N2) as [B1 B2]. split; [|exact B2]. rewrite B1. f_equal. rewrite app_length. cbn. lia.
      + destruct M as [M1 M2 M3 M4 M5 M6 M7]. constructor; auto; try congruence. unfold s_params in *. now rewrite T2.
      + exists s'. split; [|exact M']. rewrite <- E'. f_equal. now rewrite skipn_app, LI, Nat.sub_diag, <- LI, skipn_all.
  Qed.
  Lemma current_end : current wl = combine (map did (seq 0 (length wl))) (map dw_indexes wl).
  Proof.
    unfold current. rewrite filter_none; [reflexivity|]. intros i I. apply in_seq in I. apply negb_false_iff, memb_in, PIN. lia.
  Qed.
  Lemma current_start : current [] = map single (seq 0 (length A)).
  Proof. unfold current. cbn. rewrite filter_all; [apply app_nil_r|reflexivity]. Qed.

  (** *** The clauses *)
  Lemma new_defaults_eq : defaults heap' A' = new_defaults ps.
  Proof.
    unfold defaults, new_defaults. rewrite <- ids, map_map. apply map_ext_in. intros q I. rewrite find_here; [reflexivity|rewrite ids; exact ND'|exact I].
  Qed.
  Lemma back_solves vs : solves heap' A' conds' everything (new_defaults ps) vs -> solves heap A conds everything (new_defaults ps) vs.
  Proof. eapply m_solves; eauto using ND', len_A'. - eapply PP'. exact kin_at. - eapply CC'. exact conds_alike. Qed.
  Lemma clauses_built (s0 : space) : s_params s0 = A -> s_conds s0 = conds -> s_forbidden s0 = clauses ->
    forall suf pre id name ds s, clauses = pre ++ suf -> made_so_far id name conds' ds (map (restored f) pre) s ->
    pre = [] \/ (exists vs, solves heap' A' conds' everything (new_defaults ps) vs /\ Forall (fails heap A vs) pre) ->
    exists r s', add_forbidden_clauses heap' jen s (map (restored f) suf) = (r, s') /\ clauses_outcome heap s0 (new_defaults ps) r /\
      (r = Ok tt -> made_so_far id name conds' ds clauses' s').
  Proof.
    intros S1 S2 S3. induction suf as [|e suf IH]; intros pre id name ds s EC M PR.
    - rewrite app_nil_r in EC. subst pre. exists (Ok tt), s. split; [reflexivity|]. split; [|intros _; exact M].
      destruct PR as [N|(vs & SO & F)]; [apply co_none; congruence|]. apply (co_fine heap s0 (new_defaults ps) vs); rewrite ?S1, ?S2, ?S3; auto using back_solves.
    - assert (EC' : clauses = (pre ++ [e]) ++ suf) by now rewrite <- app_assoc.
      assert (We : wf_expr (fun h => In h A) e) by (pose proof FW as F; rewrite EC, Forall_app in F; destruct F as [_ F]; now inversion F).
      pose proof (restored_wf f (fun h => In h A) known' e moved_known We) as We'.
      assert (LE : alike A A' e (restored f e)) by (apply restored_alike; [exact moved|]; intros h O; now apply (SpaceCodecProofs.occurs_known A e h)).
      pose proof (alike_sym _ _ _ _ LE) as EL.
      destruct (add_forbidden_clause heap' jen s (restored f e)) as [r s1] eqn:E.
      pose proof (main_clause heap' jen dimension ddist R draw known' sound' everything s _ r s1 (m_reach _ _ _ _ _ _ M) We' E) as AC1.
      pose proof (re_clause heap' jen dimension ddist R draw known' everything s _ r s1 (m_reach _ _ _ _ _ _ M) We' E) as RE.
      assert (OC : forall h, occurs h (restored f e) -> In h A') by (intros h O; exact (SpaceReach.occurs_known known' (restored f e) We' h O)).
      assert (FOL : forall vs, solves heap' A' conds' everything (new_defaults ps) vs -> Forall (fails heap A vs) pre).
      { intros vs SO. destruct PR as [-> |(vs0 & SO0 & F)]; [constructor|]. replace vs with vs0; [exact F|].
        pose proof (m_reach _ _ _ _ _ _ M) as RS. apply (main_unique heap' jen dimension ddist R draw known' sound' everything s (new_defaults ps) vs0 vs RS).
        - rewrite (m_params _ _ _ _ _ _ M), <- new_defaults_eq. apply map_length.
        - rewrite <- new_defaults_eq, <- (m_params _ _ _ _ _ _ M). apply (defaults_wf heap' jen known' (proj1 sound') everything s). now apply (reach_sinv heap' jen dimension ddist R draw known' sound').
        - rewrite (m_params _ _ _ _ _ _ M), (m_conds _ _ _ _ _ _ M). exact SO0.
        - rewrite (m_params _ _ _ _ _ _ M), (m_conds _ _ _ _ _ _ M). exact SO. }
      cbn [map add_forbidden_clauses]. rewrite E.
      assert (STUCK : r <> Ok tt -> clauses_outcome heap s0 (new_defaults ps) r -> exists r' s', match r with Ok _ => add_forbidden_clauses heap' jen s1 (map (restored f) suf) | _ => (r, s1) end = (r', s') /\
        clauses_outcome heap s0 (new_defaults ps) r' /\ (r' = Ok tt -> made_so_far id name conds' ds clauses' s')).
      { intros NO CO. exists r, s1. split; [destruct r as [[]| |]; [destruct NO; reflexivity|reflexivity..]|]. split; [exact CO|]. intro X. destruct (NO X). }
      pose proof kin_at as KA. pose proof conds_alike as CA. pose proof ND' as NDp. pose proof len_A' as LA.
      inversion AC1 as [h O NI|r0 _ US|vs r0 _ SO ST|vs _ SO HO|vs s2 _ SO FA FE SA E5 E6]; try subst r; try subst s1; rewrite ?(m_params _ _ _ _ _ _ M), ?(m_conds _ _ _ _ _ _ M), ?new_defaults_eq in *.
      + destruct (NI (OC h O)).
      + destruct STUCK as (r' & s' & Q1 & Q2); [|apply co_unsettled; [rewrite S3, EC; destruct pre; discriminate|]|exists r', s'; split; [rewrite <- Q1; try destruct r0; reflexivity|exact Q2]].
        * destruct US as (u & j & g & _ & _ & _ & _ & _ & (r1 & _ & Q)). intros ->. destruct r1; exact Q.
        * rewrite S1, S2. eapply b_unsettled; [..|exact US]; eauto using PP', CC'.
      + destruct STUCK as (r' & s' & Q1 & Q2); [|eapply (co_stuck heap s0 (new_defaults ps) vs pre e suf)|exists r', s'; split; [rewrite <- Q1; try destruct r0; reflexivity|exact Q2]]; rewrite ?S1, ?S2, ?S3; auto using back_solves.
        * destruct ST as (r1 & _ & Q). intros ->. destruct r1; exact Q.
        * eapply m_stuck; [..|exact ST]; eauto using PP'.
      + destruct STUCK as (r' & s' & Q1 & Q2); [discriminate|eapply (co_true heap s0 (new_defaults ps) vs pre e suf)|exists r', s'; split; [rewrite <- Q1; try destruct r0; reflexivity|exact Q2]]; rewrite ?S1, ?S2, ?S3; auto using back_solves.
        eapply m_holds; [..|exact HO]; eauto using PP'.
      + destruct SA as (T1 & T2 & T3 & T4 & T5 & T6 & T7). cbn in T1, T2, T3, T4, T5, T6, T7.
        apply (IH (pre ++ [e]) id name ds s2 EC').
        * destruct M as [M1 M2 M3 M4 M5 M6 M7]. constructor; auto; try congruence. -- unfold s_params in *. now rewrite T2. -- rewrite FE, M7, map_app. reflexivity.
        * right. exists vs. split; [exact SO|]. apply Forall_app. split; [now apply FOL|]. constructor; [|constructor]. eapply m_fails; [..|exact FA]; eauto using PP'.
  Qed.
End Build.
Section Whole.
  Variables (jen : list Z -> Z) (heap : Z -> param) (pud : Z -> option (list Z)) (pid did : nat -> Z) (f : Z -> Z).
  Variables (s : space) (ps : list pobj).
  Notation A := (s_params s).
  Hypothesis NDA : NoDup A.
  Hypothesis NAMES : NoDup (map (fun h => p_name (heap h)) A).
  Hypothesis CR : forall h, In h A -> created jen (heap h) /\ p_type (heap h) <> PSTRING.
  Hypothesis SM : lenZ A < 2 ^ 32.
  Hypothesis LC : length (s_conds s) = length A.
  Hypothesis CW : forall i e, nth_error (s_conds s) i = Some (Some e) -> wf_expr (fun h => In h A) e.
  Hypothesis AC : acyclic A (s_conds s).
  Hypothesis FW : Forall (wf_expr (fun h => In h A)) (s_forbidden s).
  Hypothesis PND : NoDup (flat_map dw_indexes (s_dists s)).
  Hypothesis PIN : forall i, In i (flat_map dw_indexes (s_dists s)) <-> (i < length A)%nat.
  Hypothesis SP : same_parameters heap pud pid A ps.
  Hypothesis PI : addresses pid (length A).
  Hypothesis MV : moves pid A f.
  Variables (dimension : Z -> nat) (ddist : Z -> Z) (R : Type) (draw : Z -> list Z -> R -> res (list datum) * R).
  Hypothesis DD : forall h, dimension (ddist h) = 1%nat.
  Hypothesis DI : forall i w, nth_error (s_dists s) i = Some w -> dimension (did i) = length (dw_indexes w).
  Lemma flat_length : length (flat_map dw_indexes (s_dists s)) = length A.
  Proof.
    rewrite <- (seq_length (length A) 0). apply Permutation.Permutation_length, Permutation.NoDup_Permutation; [exact PND|apply seq_NoDup|].
    intro i. rewrite PIN, in_seq. lia.
  Qed.
  Lemma cells_length (l : list dwrapper) : length (concat (index_list l)) = length (flat_map dw_indexes l).
  Proof. induction l as [|w l IH]; cbn; [reflexivity|]. rewrite !app_length, map_length. unfold index_list in IH. lia. Qed.
  Lemma combine_snd {X Y} (a : list X) (b : list (list Y)) : length a = length b -> flat_map snd (combine a b) = concat b.
  Proof. revert b. induction a as [|x a IH]; intros [|y b] L; cbn in *; try discriminate; [reflexivity|]. now rewrite IH by congruence. Qed.
  Lemma space_built rds id name g : length rds = length (s_dists s) ->
    (forall j d w, nth_error rds j = Some d -> nth_error (s_dists s) j = Some w -> o_id (dobj_of d) = did j /\ length (c_types (component_of d)) = length (dw_indexes w)) ->
    exists r s', clauses_outcome heap s (new_defaults ps) r /\
      build_conf_space jen ddist id (mkCD name g ps (map (back_cond f) (numbered 0 (s_conds s))) (combine rds (index_list (s_dists s))) (map (restored f) (s_forbidden s))) =
        match r with Ok _ => Ok s' | Err e => Err e | UB u => UB u end /\
      (r = Ok tt -> reach (at_address ps) jen dimension ddist R draw (fun h => In h (map po_id ps)) everything s' /\
        s_self s' = id /\ c_name (s_ctx s') = name /\ s_params s' = map pid (seq 0 (length A)) /\ s_conds s' = map (option_map (restored f)) (s_conds s) /\
        map sampled_by (s_dists s') = combine (map did (seq 0 (length (s_dists s)))) (map dw_indexes (s_dists s)) /\ s_forbidden s' = map (restored f) (s_forbidden s)).
  Proof.
    intros LR HR. unfold build_conf_space. cbn [cd_params cd_name cd_conds cd_dists cd_clauses].
    assert (IDS : map po_id ps = map pid (seq 0 (length A))) by apply SP.
    assert (CELLS : index_cells (mkCD name g ps (map (back_cond f) (numbered 0 (s_conds s))) (combine rds (index_list (s_dists s))) (map (restored f) (s_forbidden s))) = concat (index_list (s_dists s))).
    { unfold index_cells. cbn [cd_dists cd_params]. rewrite combine_snd by (unfold index_list; now rewrite map_length). rewrite cells_length, flat_length.
      replace (length ps) with (length A) by (rewrite <- (map_length po_id ps), IDS, map_length; symmetry; apply seq_length). rewrite Nat.sub_diag. apply app_nil_r. }
    rewrite CELLS.
    destruct (parameters_built jen heap pud pid did f A (s_conds s) (s_dists s) NAMES CR SM LC CW PIN ps SP PI MV dimension ddist R draw DD DI id name) as (s1 & E1 & M1).
    rewrite E1. cbn [Z.eqb CCS_RESULT_SUCCESS negb refute bind].
    destruct (conditions_built jen heap pud pid did f A (s_conds s) (s_dists s) CR SM LC CW AC PIN ps SP PI MV dimension ddist R draw DD DI (s_conds s) [] id name (map (single pid ddist) (seq 0 (length A))) s1 eq_refl) as (s2 & E2 & M2).
    { cbn [map app]. rewrite LC. exact M1. }
    change (lenZ []) with 0 in E2. rewrite E2. cbn [bind].
    rewrite <- (current_start pid did A ddist) in M2.
    destruct (distributions_built jen heap pud pid did f A (s_conds s) (s_dists s) CR LC CW PND PIN ps SP PI dimension ddist R draw DD DI (s_dists s) [] rds id name s2 eq_refl LR HR M2) as (s3 & E3 & M3).
    rewrite E3. cbn [bind].
    destruct (clauses_built jen heap pud pid did f A (s_conds s) (s_forbidden s) (s_dists s) NDA CR LC CW FW PIN ps SP PI MV dimension ddist R draw DD DI s eq_refl eq_refl eq_refl (s_forbidden s) [] id name _ s3 eq_refl M3 (or_introl eq_refl)) as (r & s4 & E4 & CO & M4).
    rewrite E4. exists r, s4. split; [exact CO|]. split; [destruct r; reflexivity|]. intro Q. specialize (M4 Q). destruct M4 as [B1 B2 B3 B4 B5 B6 B7]. rewrite <- IDS in B1.
    rewrite (current_end pid did A (s_conds s) (s_dists s) LC CW PIN dimension ddist R draw DI) in B6.
    repeat split; auto.
  Qed.
End Whole.
