(** Proofs about configuration spaces: activity, validity, defaults. *)
From Coq Require Import ZArith List Bool Lia Relations.
From Verif Require Import Base Datum CodecModel CmpModel CmpSpec ParamModel ParamSpec ParamProofs ContextModel ContextSpec ContextProofs.
From Verif Require Import ExprModel ExprSpec ExprProofs ExprLemmas ExprSem SpaceModel SpaceSpec SpaceGraph SpaceProofs.
Import ListNotations.
Open Scope Z_scope.

Lemma created_check jen p v : created jen p -> wf_datum v -> p_type p <> PSTRING ->
  (check_value jen p v = true <-> domain p (d_val v)).
Proof.
  intros C Wv NS. destruct C as [nm t lo up q def p' N M1 M2 M3 M4 H | t nm vals idx p' K N W Hi H | nm N].
  - destruct (check_numerical jen _ _ _ _ _ _ _ H) as (T & E & D). destruct (D v) as [D1 D2].
    rewrite D1. unfold domain. rewrite E. reflexivity.
  - destruct (check_categorical jen t nm vals idx p' K W Hi H) as (T & _ & V & _ & D). rewrite (proj1 (D v Wv)). unfold domain. rewrite V, map_map.
    destruct K as [-> | [-> | ->]]; rewrite T; reflexivity.
  - now contradiction NS.
Qed.
Lemma created_default_wf jen p : created jen p -> wf_datum (p_default p).
Proof.
  intros C. destruct C as [nm t lo up q def p' N M1 M2 M3 M4 H | t nm vals idx p' K N W Hi H | nm N].
  - destruct (check_numerical jen _ _ _ _ _ _ _ H) as (T & -> & _). cbn [p_default]. unfold machine in M4. change NUM_FLOAT with 2.
    destruct (t =? 2); exact M4.
  - destruct (check_categorical jen t nm vals idx p' K W Hi H) as (_ & _ & _ & E & _). rewrite E. unfold wf_datum. cbn [clean d_val].
    rewrite Forall_forall in W. destruct (Nat.lt_ge_cases (Z.to_nat idx) (length vals)) as [L|L].
    + apply W, nth_In, L.
    + rewrite nth_overflow by exact L. exact Logic.I.
  - exact Logic.I.
Qed.

Lemma is_true_iff d : is_true d = true <-> d_val d = VBool 1.
Proof.
  unfold is_true. destruct (d_val d); try (split; discriminate). rewrite Z.eqb_eq. split; [intros ->; reflexivity|now intros [= ->]].
Qed.
Lemma is_inactive_iff d : wf_datum d -> is_inactive d = true <-> d_val d = VInactive.
Proof.
  unfold wf_datum, is_inactive. destruct (d_val d); cbn; try (split; discriminate); try (split; reflexivity).
  intros [W _]. rewrite Z.eqb_eq. change TYPE_INACTIVE with 5. split; [lia|discriminate].
Qed.
Lemma failure_not_ok {X Y} (r : res X) (r' : res Y) : failure r r' -> (forall x, r <> Ok x) /\ (forall y, r' <> Ok y).
Proof. destruct r, r'; cbn; intros []; split; discriminate. Qed.

Section World.
  Variable heap : Z -> param.
  Variable jen : list Z -> Z.
  Variable known : Z -> Prop.
  Hypothesis KN : forall h, known h -> created jen (heap h).
  Variable c : context.
  Variable A : list Z.
  Hypothesis G : good heap c A.
  Notation ev vs e := (eval heap jen (Some c) (Some vs) e).
  Lemma world_nodup : NoDup A.
  Proof. destruct G as (_ & _ & N). exact (NoDup_map_inv _ _ N). Qed.
  Lemma ev_evaluates vs e : Forall wf_datum vs -> wf_expr known e -> evaluates heap (Some A) (Some vs) e (ev vs e).
  Proof.
    intros W E. apply (eval_evaluates heap jen (Some c) (Some A) (Some vs) known); [|exact (good_describes heap c A G)|exact E].
    split; [exact KN|]. intros vs' [= <-]. exact W.
  Qed.
  Lemma ev_unique vs e r : Forall wf_datum vs -> wf_expr known e -> evaluates heap (Some A) (Some vs) e r -> r = ev vs e.
  Proof.
    intros W E H. apply (evaluates_func heap (Some A) (Some vs)) with (e := e); [|exact H|now apply ev_evaluates].
    intros l [= <-]. exact world_nodup.
  Qed.
  Lemma holds_ev vs e : Forall wf_datum vs -> wf_expr known e -> (holds heap A vs e <-> exists d, ev vs e = Ok d /\ is_true d = true).
  Proof.
    intros W E. split; intros (d & H1 & H2); exists d.
    - apply ev_unique in H1; auto. split; [now symmetry|now apply is_true_iff].
    - split; [rewrite <- H1; now apply ev_evaluates|now apply is_true_iff].
  Qed.
  Lemma fails_ev vs e : Forall wf_datum vs -> wf_expr known e -> (fails heap A vs e <-> exists d, ev vs e = Ok d /\ is_true d = false).
  Proof.
    intros W E. split; intros (d & H1 & H2); exists d.
    - apply ev_unique in H1; auto. split; [now symmetry|]. apply not_true_is_false. rewrite is_true_iff. exact H2.
    - split; [rewrite <- H1; now apply ev_evaluates|]. rewrite <- is_true_iff. congruence.
  Qed.
  Lemma stuck_ev {X} vs e (r : res X) : Forall wf_datum vs -> wf_expr known e -> (stuck heap A vs e r <-> failure (ev vs e) r).
  Proof.
    intros W E. split.
    - intros (r' & H1 & H2). apply ev_unique in H1; auto. now subst.
    - intro F. exists (ev vs e). split; [now apply ev_evaluates|exact F].
  Qed.
  Lemma ev_ext vs vs' e : (forall h i, occurs h e -> nth_error A i = Some h -> nth_error vs i = nth_error vs' i) -> ev vs e = ev vs' e.
  Proof.
    intro H. pose proof (good_describes heap c A G) as D. apply (eval_depends heap jen c A vs c A vs'); auto.
    intros h r r' O V V'. pose proof world_nodup as N.
    assert (U : forall i j, nth_error A i = Some h -> nth_error A j = Some h -> i = j).
    { intros i j Hi Hj. apply (proj1 (NoDup_nth_error A) N); [apply nth_error_Some; congruence|congruence]. }
    inversion V as [i d I1 I2|i I1 I2|I]; subst; inversion V' as [j d' J1 J2|j J1 J2|J]; subst;
    try (pose proof (U i j I1 J1); subst j; pose proof (H h i O I1)); try congruence;
    exfalso; match goal with X : ~ In h A |- _ => apply X; eapply nth_error_In; eassumption end.
  Qed.

  Variable conds : list (option expr).
  Hypothesis CL : length conds = length A.
  Hypothesis CW : forall i e, nth_error conds i = Some (Some e) -> wf_expr known e.
  Variable S : nat -> Prop.
  Variable sorted : list nat.
  Hypothesis SN : NoDup sorted.
  Hypothesis SI : forall i, In i sorted <-> (i < length A)%nat /\ S i.
  Hypothesis SO : dependencies_first A conds sorted.

  Lemma order_ind (Q : nat -> Prop) : (forall i, In i sorted -> (forall j, reads A conds j i -> Q j) -> Q i) ->
    forall i, In i sorted -> Q i.
  Proof.
    intro H. cut (forall l1 l2, sorted = l1 ++ l2 -> forall i, In i l1 -> Q i). { intros K. apply (K sorted []). now rewrite app_nil_r. }
    induction l1 as [|x l1 IH] using rev_ind; intros l2 E i I; [destruct I|]. rewrite <- app_assoc in E. cbn [app] in E.
    apply in_app_or in I. destruct I as [I|[<- | []]]; [exact (IH _ E i I)|]. apply H.
    - rewrite E, in_app_iff. right. now left.
    - intros j R. apply (IH _ E). exact (SO l1 x l2 j E R).
  Qed.
  Lemma reads_sorted j i : reads A conds j i -> In i sorted -> In j sorted.
  Proof.
    intros R I. apply in_split in I. destruct I as (l1 & l2 & E). pose proof (SO l1 i l2 j E R) as J. rewrite E, in_app_iff. now left.
  Qed.
  Lemma depends_sorted j i : depends A conds j i -> In i sorted -> In j sorted.
  Proof. intro D. apply clos_trans_t1n in D. induction D as [j i R|j k i R D IH]; intro I; [now apply (reads_sorted j i)|apply (reads_sorted j k); auto]. Qed.
  Lemma reads_range j i : reads A conds j i -> (j < length A)%nat /\ (i < length A)%nat.
  Proof. intros (e & h & H1 & H2 & _). split; [apply nth_error_Some; congruence|rewrite <- CL; apply nth_error_Some; congruence]. Qed.

  (** vectors settled on a set closed under dependencies agree there *)
  Lemma settled_agree (P : nat -> Prop) initial vs vs' : Forall wf_datum vs -> Forall wf_datum vs' ->
    (forall i j, P i -> reads A conds j i -> P j) ->
    (forall i, P i -> settled heap A conds S initial vs i) -> (forall i, P i -> settled heap A conds S initial vs' i) ->
    forall i, P i -> nth_error vs i = nth_error vs' i.
  Proof.
    intros W W' PC H H'.
    assert (B : forall i, ~ In i sorted -> P i -> nth_error vs i = nth_error vs' i).
    { intros i N Pi. specialize (H i Pi). specialize (H' i Pi). unfold settled in H, H'. destruct (nth_error conds i) as [[e|]|] eqn:E; try congruence.
      assert (NS : ~ S i). { intro Si. apply N, SI. split; [rewrite <- CL; apply nth_error_Some; congruence|exact Si]. }
      rewrite (proj2 H NS), (proj2 H' NS). reflexivity. }
    assert (C : forall i, In i sorted -> P i -> nth_error vs i = nth_error vs' i).
    { apply (order_ind (fun i => P i -> nth_error vs i = nth_error vs' i)). intros i I IH Pi.
      specialize (H i Pi). specialize (H' i Pi). unfold settled in H, H'. destruct (nth_error conds i) as [[e|]|] eqn:E; try congruence.
      apply SI in I. destruct I as [_ Si]. destruct H as [H _]. destruct H' as [H' _]. specialize (H Si). specialize (H' Si).
      assert (X : ev vs e = ev vs' e).
      { apply ev_ext. intros h j O Aj. assert (R : reads A conds j i) by (exists e, h; auto). apply IH; [exact R|exact (PC i j Pi R)]. }
      pose proof (CW i e E) as We. rewrite holds_ev, fails_ev in H, H' by assumption. rewrite X in H.
      destruct H as [[(d & H1 & H2) H3]|[(d & H1 & H2) H3]], H' as [[(d' & H1' & H2') H3']|[(d' & H1' & H2') H3']]; congruence. }
    intros i Pi. destruct (in_dec Nat.eq_dec i sorted) as [I|I]; auto.
  Qed.
  Lemma nth_ext_eq (vs vs' : list datum) : (forall i, nth_error vs i = nth_error vs' i) -> vs = vs'.
  Proof.
    revert vs'. induction vs as [|x vs IH]; intros [|y vs'] H; auto; pose proof (H O) as H0; cbn in H0; try discriminate.
    injection H0 as ->. f_equal. apply IH. intro i. exact (H (Datatypes.S i)).
  Qed.
  Lemma solves_settled initial vs i : solves heap A conds S initial vs -> settled heap A conds S initial vs i \/ (length initial <= i)%nat.
  Proof. intros [_ H]. destruct (Nat.lt_ge_cases i (length initial)); auto. Qed.
  Lemma solves_unique initial vs vs' : length initial = length A -> Forall wf_datum vs -> Forall wf_datum vs' ->
    solves heap A conds S initial vs -> solves heap A conds S initial vs' -> vs = vs'.
  Proof.
    intros L W W' [H1 H2] [H1' H2']. apply nth_ext_eq. intro i. destruct (Nat.lt_ge_cases i (length initial)) as [I|I].
    - apply (settled_agree (fun i => (i < length initial)%nat) initial); auto. intros k j _ R. apply reads_range in R. lia.
    - rewrite !(proj2 (nth_error_None _ _)) by lia. reflexivity.
  Qed.

  Lemma wf_update vs i d : Forall wf_datum vs -> wf_datum d -> Forall wf_datum (update vs i d).
  Proof.
    intros W Wd. revert i. induction W as [|x vs Wx W IH]; intros [|i]; cbn; auto.
  Qed.
  Lemma sub_firstn_nodup done i todo : sorted = done ++ i :: todo -> ~ In i done.
  Proof. intros E. rewrite E in SN. apply nodup_mid in SN. tauto. Qed.
End World.

Section Space.
  Variable heap : Z -> param.
  Variable jen : list Z -> Z.
  Variable known : Z -> Prop.
  Hypothesis KN : forall h, known h -> created jen (heap h).
  Variable s : space.
  Hypothesis G : good heap (s_ctx s) (s_params s).
  Hypothesis CL : length (s_conds s) = length (s_params s).
  Hypothesis CW : forall i e, nth_error (s_conds s) i = Some (Some e) -> wf_expr known e.
  Hypothesis FW : Forall (wf_expr known) (s_forbidden s).
  Variable S : nat -> Prop.
  Hypothesis SN : NoDup (s_sorted s).
  Hypothesis SI : forall i, In i (s_sorted s) <-> (i < length (s_params s))%nat /\ S i.
  Hypothesis SO : dependencies_first (s_params s) (s_conds s) (s_sorted s).
  Notation A := (s_params s).
  Notation conds := (s_conds s).

  Lemma seval_cases vs e : Forall wf_datum vs -> wf_expr known e ->
    (exists d, seval heap jen s vs e = Ok d /\ is_true d = true /\ holds heap A vs e) \/
    (exists d, seval heap jen s vs e = Ok d /\ is_true d = false /\ fails heap A vs e) \/
    ((exists x, seval heap jen s vs e = Err x /\ forall X, stuck heap A vs e (@Err X x)) \/
     (exists x, seval heap jen s vs e = UB x /\ forall X, stuck heap A vs e (@UB X x))).
  Proof.
    intros W E. pose proof (holds_ev heap jen known KN (s_ctx s) A G vs e W E) as H1. pose proof (fails_ev heap jen known KN (s_ctx s) A G vs e W E) as H2.
    assert (H3 : forall X (r : res X), failure (eval heap jen (Some (s_ctx s)) (Some vs) e) r -> stuck heap A vs e r).
    { intros X r F. now apply (stuck_ev heap jen known KN (s_ctx s) A G vs e r W E). }
    unfold seval. destruct (eval heap jen (Some (s_ctx s)) (Some vs) e) as [d|x|x].
    - destruct (is_true d) eqn:T; [left|right; left]; exists d; (split; [reflexivity|]); (split; [exact T|]); [apply H1|apply H2]; exists d; auto.
    - right; right; left. exists x. split; [reflexivity|]. intro X. apply H3. reflexivity.
    - right; right; right. exists x. split; [reflexivity|]. intro X. apply H3. reflexivity.
  Qed.
  Lemma cond_nth i : (i < length A)%nat -> nth_error conds i = Some (nth i conds None).
  Proof. intro H. apply nth_error_nth'. rewrite CL. exact H. Qed.

  Lemma actives_spec initial todo : length initial = length A -> forall done vs, s_sorted s = done ++ todo ->
    Forall wf_datum vs -> length vs = length A ->
    (forall i, In i done -> settled heap A conds S initial vs i) ->
    (forall i, ~ In i done -> nth_error vs i = nth_error initial i) ->
    (exists vs', actives_loop heap jen s todo vs = Ok vs' /\ solves heap A conds S initial vs' /\ Forall wf_datum vs') \/
    (unsettled heap A conds S initial (actives_loop heap jen s todo vs)).
  Proof.
    intro LI. induction todo as [|i todo IH]; intros done vs E W L HD HN; cbn [actives_loop].
    - left. exists vs. split; [reflexivity|]. split; [|exact W]. split; [congruence|]. intros i Hi.
      rewrite app_nil_r in E. destruct (in_dec Nat.eq_dec i done) as [I|I]; [auto|]. unfold settled. rewrite (HN i I).
      destruct (nth_error conds i) as [[e|]|]; auto. split; [|auto]. intro Si. exfalso. apply I. rewrite <- E. apply SI. split; [lia|exact Si].
    - assert (I : In i (s_sorted s)) by (rewrite E, in_app_iff; right; now left). pose proof I as I'. apply SI in I'. destruct I' as [Li Si].
      assert (ND : ~ In i done) by exact (sub_firstn_nodup (s_sorted s) SN done i todo E).
      assert (E' : s_sorted s = (done ++ [i]) ++ todo) by (rewrite <- app_assoc; exact E).
      assert (KEEP : nth_error conds i = Some None -> (exists vs', actives_loop heap jen s todo vs = Ok vs' /\ solves heap A conds S initial vs' /\ Forall wf_datum vs') \/
         (unsettled heap A conds S initial (actives_loop heap jen s todo vs))).
      { intro Ci. apply (IH (done ++ [i]) vs E' W L).
        - intros j J. apply in_app_or in J. destruct J as [J|[<- | []]]; [auto|]. unfold settled. rewrite Ci. now apply HN.
        - intros j J. apply HN. intro J'. apply J. rewrite in_app_iff. now left. }
      pose proof (cond_nth i Li) as Ci. destruct (nth i conds None) as [e|]; [|auto].
      pose proof (CW i e Ci) as We.
      assert (STUCK : forall (r : res (list datum)), stuck heap A vs e r -> unsettled heap A conds S initial r).
      { intros r ST. exists vs, i, e. split; [congruence|]. split; [exact W|]. split; [exact Ci|]. split; [exact Si|]. split; [|exact ST].
        intros j D. apply HD. apply clos_trans_tn1 in D.
        assert (X : forall j k, clos_trans nat (reads A conds) j k -> In k done -> In j done).
        { intros a b D'. apply clos_trans_t1n in D'. induction D' as [a b R|a b d R D' IHD]; intro K.
          - apply in_split in K. destruct K as (l1 & l2 & ->). rewrite in_app_iff. left. apply (SO l1 b (l2 ++ i :: todo) a); [|exact R].
            rewrite E, <- app_assoc. reflexivity.
          - specialize (IHD K). apply in_split in IHD. destruct IHD as (l1 & l2 & ->). rewrite in_app_iff. left.
            apply (SO l1 b (l2 ++ i :: todo) a); [|exact R]. rewrite E, <- app_assoc. reflexivity. }
        inversion D as [? R|k ? R D']; subst; [exact (SO done i todo j E R)|]. apply (X j k); [now apply clos_tn1_trans|exact (SO done i todo k E R)]. }
      destruct (seval_cases vs e W We) as [(d & R & T & H)|[(d & R & T & H)|[(x & R & H)|(x & R & H)]]]; rewrite R; cbn [bind]; try rewrite T.
      + apply (IH (done ++ [i]) vs E' W L).
        * intros j J. apply in_app_or in J. destruct J as [J|[<- | []]]; [auto|]. unfold settled. rewrite Ci. split; [|intro N; contradiction].
          intros _. left. split; [exact H|now apply HN].
        * intros j J. apply HN. intro J'. apply J. rewrite in_app_iff. now left.
      + set (vs' := update vs i ccs_inactive).
        assert (W' : Forall wf_datum vs') by (apply wf_update; [exact W|exact Logic.I]).
        assert (SAME : forall j e', In j (done ++ [i]) -> nth_error conds j = Some (Some e') -> eval heap jen (Some (s_ctx s)) (Some vs) e' = eval heap jen (Some (s_ctx s)) (Some vs') e').
        { intros j e' J Cj. apply (ev_ext heap jen (s_ctx s) A G). intros h k O Ak. unfold vs'. symmetry. apply update_other. intros ->.
          assert (R' : reads A conds i j) by (exists e', h; auto). apply ND.
          apply in_app_or in J. destruct J as [J|[<- | []]].
          - apply in_split in J. destruct J as (l1 & l2 & ->). rewrite in_app_iff. left. apply (SO l1 j (l2 ++ i :: todo) i); [|exact R'].
            rewrite E, <- app_assoc. reflexivity.
          - exact (SO done i todo i E R'). }
        apply (IH (done ++ [i]) vs' E' W').
        * unfold vs'. rewrite update_length. exact L.
        * intros j J. pose proof J as J'. apply in_app_or in J. unfold settled. destruct (nth_error conds j) as [[e'|]|] eqn:Cj.
          -- pose proof (CW j e' Cj) as We'. pose proof (SAME j e' J' Cj) as X.
             assert (HX : holds heap A vs' e' <-> holds heap A vs e').
             { rewrite !(holds_ev heap jen known KN (s_ctx s) A G) by assumption. rewrite X. tauto. }
             assert (FX : fails heap A vs' e' <-> fails heap A vs e').
             { rewrite !(fails_ev heap jen known KN (s_ctx s) A G) by assumption. rewrite X. tauto. }
             rewrite HX, FX. destruct (Nat.eq_dec j i) as [-> | NE].
             ++ assert (e' = e) by congruence. subst e'. split; [|contradiction]. intros _. right. split; [exact H|]. unfold vs'. rewrite update_same by lia. reflexivity.
             ++ unfold vs'. rewrite update_other by exact NE. destruct J as [J|[<- | []]]; [|contradiction]. specialize (HD j J). unfold settled in HD. rewrite Cj in HD. exact HD.
          -- destruct J as [J|[<- | []]]; [|congruence]. unfold vs'. rewrite update_other by (intros ->; contradiction).
             specialize (HD j J). unfold settled in HD. rewrite Cj in HD. exact HD.
          -- destruct J as [J|[<- | []]]; [|congruence]. unfold vs'. rewrite update_other by (intros ->; contradiction).
             specialize (HD j J). unfold settled in HD. rewrite Cj in HD. exact HD.
        * intros j J. unfold vs'. rewrite update_other by (intros ->; apply J; rewrite in_app_iff; right; now left).
          apply HN. intro J'. apply J. rewrite in_app_iff. now left.
      + right. apply STUCK, H.
      + right. apply STUCK, H.
  Qed.
  Lemma set_actives_spec initial : length initial = length A -> Forall wf_datum initial ->
    (exists vs, set_actives heap jen s initial = Ok vs /\ solves heap A conds S initial vs /\ Forall wf_datum vs) \/
    unsettled heap A conds S initial (set_actives heap jen s initial).
  Proof.
    intros L W. apply (actives_spec initial (s_sorted s) L [] initial eq_refl W L); [intros i []|reflexivity].
  Qed.
  (** when a solution exists no evaluation gets stuck *)
  Lemma solves_wf initial vs : Forall wf_datum initial -> solves heap A conds S initial vs -> Forall wf_datum vs.
  Proof.
    intros W [L H]. apply Forall_forall. intros d Hd. apply In_nth_error in Hd. destruct Hd as [i Hi].
    assert (I : (i < length initial)%nat) by (rewrite <- L; apply nth_error_Some; congruence).
    assert (X : nth_error vs i = nth_error initial i \/ nth_error vs i = Some inactive).
    { specialize (H i I). unfold settled in H. destruct (nth_error conds i) as [[e|]|] eqn:Ci; auto.
      destruct (in_dec Nat.eq_dec i (s_sorted s)) as [J|J].
      - apply SI in J. destruct H as [H _]. destruct (H (proj2 J)) as [[_ K]|[_ K]]; auto.
      - left. apply H. intro Si. apply J, SI. split; [rewrite <- CL; apply nth_error_Some; congruence|exact Si]. }
    destruct X as [X|X]; rewrite Hi in X.
    - symmetry in X. apply nth_error_In in X. rewrite Forall_forall in W. now apply W.
    - injection X as ->. exact Logic.I.
  Qed.
  Lemma solves_settles {X} initial vs (r : res X) : length initial = length A -> Forall wf_datum initial ->
    solves heap A conds S initial vs -> unsettled heap A conds S initial r -> False.
  Proof.
    intros L W SV. pose proof (solves_wf initial vs W SV) as Wv. destruct SV as [S1 S2]. intros (u & i & e & Lu & Wu & Ci & Si & D & ST).
    pose proof (CW i e Ci) as We. assert (Li : (i < length A)%nat) by (rewrite <- CL; apply nth_error_Some; congruence).
    assert (X1 : eval heap jen (Some (s_ctx s)) (Some u) e = eval heap jen (Some (s_ctx s)) (Some vs) e).
    { apply (ev_ext heap jen (s_ctx s) A G). intros h j O Aj.
      apply (settled_agree heap jen known KN (s_ctx s) A G conds CL CW S (s_sorted s) SI SO (fun j => depends A conds j i) initial); auto.
      - intros a b Da R. apply t_trans with a; [now apply t_step|exact Da].
      - intros k Dk. apply S2. rewrite L. apply clos_trans_t1n in Dk. inversion Dk as [? R|? ? R _]; subst; apply (reads_range A conds CL) in R; tauto.
      - apply t_step. exists e, h. auto. }
    apply (stuck_ev heap jen known KN (s_ctx s) A G) in ST; auto. rewrite X1 in ST.
    specialize (S2 i). unfold settled in S2. rewrite Ci in S2. destruct S2 as [S2 _]; [lia|].
    destruct (S2 Si) as [[H _]|[H _]]; [apply (holds_ev heap jen known KN (s_ctx s) A G) in H; auto|apply (fails_ev heap jen known KN (s_ctx s) A G) in H; auto];
    destruct H as (d & H & _); rewrite H in ST; destruct r; exact ST.
  Qed.
End Space.
