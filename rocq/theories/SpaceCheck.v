(** Proofs about configuration spaces: checking values, the default configuration. *)
From Coq Require Import ZArith List Bool Lia Relations.
From Verif Require Import Base Datum CodecModel CmpModel CmpSpec ParamModel ParamSpec ParamProofs ContextModel ContextSpec ContextProofs.
From Verif Require Import ExprModel ExprSpec ExprProofs ExprLemmas ExprSem SpaceModel SpaceSpec SpaceGraph SpaceProofs SpaceLemmas.
Import ListNotations.
Open Scope Z_scope.

Section Space.
  Variable heap : Z -> param.
  Variable jen : list Z -> Z.
  Variable known : Z -> Prop.
  Hypothesis KN : forall h, known h -> created jen (heap h).
  Variable s : space.
  Hypothesis G : good heap (s_ctx s) (s_params s).
  Hypothesis PK : forall h, In h (s_params s) -> known h /\ p_type (heap h) <> PSTRING.
  Hypothesis CL : length (s_conds s) = length (s_params s).
  Hypothesis CW : forall i e, nth_error (s_conds s) i = Some (Some e) -> wf_expr known e.
  Hypothesis FW : Forall (wf_expr known) (s_forbidden s).
  Notation A := (s_params s).
  Notation conds := (s_conds s).
  Notation F := (s_forbidden s).

  Lemma forbidden_spec vs : Forall wf_datum vs -> forall todo done, F = done ++ todo -> Forall (fails heap A vs) done ->
    tested heap A F vs (test_forbidden heap jen s todo vs).
  Proof.
    intro W. induction todo as [|e todo IH]; intros done E D; cbn [test_forbidden].
    - rewrite app_nil_r in E. apply ts_clean. now rewrite E.
    - assert (We : wf_expr known e). { rewrite Forall_forall in FW. apply FW. rewrite E, in_app_iff. right. now left. }
      assert (NEXT : fails heap A vs e -> tested heap A F vs (test_forbidden heap jen s todo vs)).
      { intro Fe. apply (IH (done ++ [e])); [rewrite <- app_assoc; exact E|]. apply Forall_app. split; [exact D|]. constructor; [exact Fe|constructor]. }
      destruct (seval_cases heap jen known KN s G vs e W We) as [(d & R & T & H)|[(d & R & T & H)|[(x & R & H)|(x & R & H)]]]; rewrite R; cbn [bind].
      + rewrite T. assert (IN : is_inactive d = false). { apply is_true_iff in T. unfold is_inactive. now rewrite T. } rewrite IN.
        exact (ts_forbidden heap A F vs done e todo E D H).
      + rewrite T. destruct (is_inactive d); auto.
      + exact (ts_stuck heap A F vs done e todo _ E D (H bool)).
      + exact (ts_stuck heap A F vs done e todo _ E D (H bool)).
  Qed.
  Lemma tested_spec vs : Forall wf_datum vs -> tested heap A F vs (test_forbidden heap jen s F vs).
  Proof. intro W. apply (forbidden_spec vs W F []); [reflexivity|constructor]. Qed.

  Lemma check_spec vs : Forall wf_datum vs -> length vs = length A ->
    forall todo done, s_sorted s = done ++ todo -> (forall i, In i (s_sorted s) <-> (i < length A)%nat) ->
    (forall i, In i done -> right_value heap A conds vs i) ->
    checked_values heap A conds F vs (check_loop heap jen s todo vs).
  Proof.
    intros W L todo done E ALL. revert done E. induction todo as [|i todo IH]; intros done E D; cbn [check_loop].
    - apply cv_clauses; [exact L| |now apply tested_spec]. intros i Hi. apply D. rewrite app_nil_r in E. rewrite <- E. now apply ALL.
    - assert (I : (i < length A)%nat) by (apply ALL; rewrite E, in_app_iff; right; now left).
      assert (NEXT : right_value heap A conds vs i -> checked_values heap A conds F vs (check_loop heap jen s todo vs)).
      { intro R. apply (IH (done ++ [i])); [rewrite <- app_assoc; exact E|]. intros j J. apply in_app_or in J. destruct J as [J|[<- | []]]; auto. }
      pose proof (nth_error_nth' vs i ccs_none ltac:(lia)) as Vi. set (v := nth i vs ccs_none) in *.
      pose proof (nth_error_nth' A i 0 I) as Ai. set (h := nth i A 0) in *.
      assert (Wv : wf_datum v). { rewrite Forall_forall in W. apply W. now apply nth_error_In in Vi. }
      destruct (PK h (nth_error_In _ _ Ai)) as [Kh NSt].
      pose proof (created_check jen (heap h) v (KN h Kh) Wv NSt) as CK. pose proof (is_inactive_iff v Wv) as II.
      assert (LIVE : live heap A conds vs i -> checked_values heap A conds F vs
         (if negb (Bool.eqb true (negb (is_inactive v))) then Ok false
          else if check_value jen (heap h) v then check_loop heap jen s todo vs else Ok false)).
      { intro Lv. destruct (is_inactive v); cbn.
        - apply (cv_wrong heap A conds F vs i); [exact L|]. exists h, v. split; [exact Ai|]. split; [exact Vi|]. left. split; [exact Lv|]. left. now apply II.
        - assert (NI : d_val v <> VInactive) by (intro X; apply II in X; discriminate).
          destruct (check_value jen (heap h) v).
          + apply NEXT. exists h, v. split; [exact Ai|]. split; [exact Vi|]. left. split; [exact Lv|]. split; [exact NI|]. now apply CK.
          + apply (cv_wrong heap A conds F vs i); [exact L|]. exists h, v. split; [exact Ai|]. split; [exact Vi|]. left. split; [exact Lv|]. right.
            intro X. apply CK in X. discriminate. }
      pose proof (cond_nth s CL i I) as Ci. destruct (nth i conds None) as [e|].
      + pose proof (CW i e Ci) as We.
        destruct (seval_cases heap jen known KN s G vs e W We) as [(d & R & T & H)|[(d & R & T & H)|[(x & R & H)|(x & R & H)]]]; rewrite R; cbn [bind].
        * rewrite T. apply LIVE. unfold live. now rewrite Ci.
        * rewrite T. destruct (is_inactive v); cbn.
          -- apply NEXT. exists h, v. split; [exact Ai|]. split; [exact Vi|]. right. split; [unfold dormant; now rewrite Ci|now apply II].
          -- apply (cv_wrong heap A conds F vs i); [exact L|]. exists h, v. split; [exact Ai|]. split; [exact Vi|]. right. split; [unfold dormant; now rewrite Ci|].
             intro X. apply II in X. discriminate.
        * exact (cv_stuck heap A conds F vs i e _ L Ci (H bool)).
        * exact (cv_stuck heap A conds F vs i e _ L Ci (H bool)).
      + cbn [bind]. apply LIVE. unfold live. now rewrite Ci.
  Qed.
  Lemma check_values_spec vs : Forall wf_datum vs -> (forall i, In i (s_sorted s) <-> (i < length A)%nat) ->
    checked_values heap A conds F vs (check_values heap jen s vs).
  Proof.
    intros W ALL. unfold check_values. destruct (Nat.eqb_spec (length vs) (length A)) as [L|L]; cbn [negb refute bind].
    - apply (check_spec vs W L (s_sorted s) []); auto. intros i [].
    - now apply cv_length.
  Qed.
  Lemma holds_fails vs e : Forall wf_datum vs -> wf_expr known e -> holds heap A vs e -> fails heap A vs e -> False.
  Proof.
    intros W We H1 H2. apply (holds_ev heap jen known KN (s_ctx s) A G) in H1; auto. apply (fails_ev heap jen known KN (s_ctx s) A G) in H2; auto.
    destruct H1 as (d & H1 & T1), H2 as (d' & H2 & T2). congruence.
  Qed.
  Lemma stuck_not {X} vs e (r : res X) : Forall wf_datum vs -> wf_expr known e -> stuck heap A vs e r -> ~ holds heap A vs e /\ ~ fails heap A vs e.
  Proof.
    intros W We ST. apply (stuck_ev heap jen known KN (s_ctx s) A G) in ST; auto. split; intro H.
    - apply (holds_ev heap jen known KN (s_ctx s) A G) in H; auto. destruct H as (d & H & _). rewrite H in ST. destruct r; exact ST.
    - apply (fails_ev heap jen known KN (s_ctx s) A G) in H; auto. destruct H as (d & H & _). rewrite H in ST. destruct r; exact ST.
  Qed.
  Lemma live_dormant vs i : Forall wf_datum vs -> live heap A conds vs i -> dormant heap A conds vs i -> False.
  Proof.
    intros W. unfold live, dormant. destruct (nth_error conds i) as [[e|]|] eqn:Ci; auto. apply holds_fails; [exact W|exact (CW i e Ci)].
  Qed.
  Lemma tested_true vs : tested heap A F vs (Ok true) -> Forall (fails heap A vs) F.
  Proof.
    intro H. inversion H as [H1| |l1 e l2 r E H1 H2]; subst; [assumption|].
    destruct H2 as (r' & _ & X). destruct r'; contradiction.
  Qed.
  Lemma checked_valid vs r : Forall wf_datum vs -> checked_values heap A conds F vs r -> (r = Ok true <-> valid heap A conds F vs).
  Proof.
    intros W C. split.
    - intros ->. inversion C as [| |i e r L Ci ST|r L RV T]; subst.
      + destruct ST as (r' & _ & X). destruct r'; contradiction.
      + split; [exact L|]. split; [exact RV|]. now apply tested_true.
    - intros (L & RV & FF). destruct C as [NL|i L' (h & v & Ai & Vi & H)|i e r L' Ci ST|r L' RV' T].
      + contradiction.
      + exfalso. destruct (RV i) as (h' & v' & Ai' & Vi' & H'); [apply nth_error_Some; congruence|].
        assert (h' = h) by congruence. assert (v' = v) by congruence. subst h' v'.
        destruct H as [[Lv Q]|[Dm Q]], H' as [(Lv' & Q1 & Q2)|[Dm' Q']]; try tauto; eauto using live_dormant.
      + exfalso. destruct (RV i) as (h' & v' & Ai' & Vi' & H'); [rewrite <- CL; apply nth_error_Some; congruence|].
        destruct (stuck_not vs e r W (CW i e Ci) ST) as [N1 N2]. unfold live, dormant in H'. rewrite Ci in H'. tauto.
      + destruct T as [T|l1 e l2 E T H|l1 e l2 r E T H]; [reflexivity|exfalso|exfalso];
        (assert (Fe : fails heap A vs e) by (rewrite Forall_forall in FF; apply FF; rewrite E, in_app_iff; right; now left));
        (assert (We : wf_expr known e) by (rewrite Forall_forall in FW; apply FW; rewrite E, in_app_iff; right; now left)).
        * exact (holds_fails vs e W We H Fe).
        * exact (proj2 (stuck_not vs e r W We H) Fe).
  Qed.

  (** ** Values that solve the conditions and avoid the clauses are valid *)
  Lemma solved_valid initial vs : length initial = length A -> Forall wf_datum initial ->
    (forall i h d, nth_error A i = Some h -> nth_error initial i = Some d -> d_val d <> VInactive /\ domain (heap h) (d_val d)) ->
    solves heap A conds (fun _ => True) initial vs -> Forall (fails heap A vs) F -> valid heap A conds F vs.
  Proof.
    intros L W DOM [L' SV] FF. split; [congruence|]. split; [|exact FF]. intros i Hi.
    pose proof (nth_error_nth' A i 0 Hi) as Ai. pose proof (nth_error_nth' initial i ccs_none ltac:(lia)) as Ii.
    destruct (DOM i _ _ Ai Ii) as [D1 D2]. exists (nth i A 0). specialize (SV i ltac:(lia)). unfold settled in SV.
    unfold live, dormant. destruct (nth_error conds i) as [[e|]|] eqn:Ci.
    - destruct SV as [SV _]. destruct (SV Logic.I) as [[H V]|[H V]].
      + exists (nth i initial ccs_none). split; [exact Ai|]. split; [congruence|]. left. auto.
      + exists inactive. split; [exact Ai|]. split; [exact V|]. right. auto.
    - exists (nth i initial ccs_none). split; [exact Ai|]. split; [congruence|]. left. auto.
    - exists (nth i initial ccs_none). split; [exact Ai|]. split; [congruence|]. left. auto.
  Qed.
  Lemma forbidden_ok vs : Forall wf_datum vs -> (forall e, In e F -> ~ holds heap A vs e) ->
    tested heap A F vs (Ok true) \/ exists l1 e l2, F = l1 ++ e :: l2 /\ Forall (fails heap A vs) l1 /\ exists r : res bool, stuck heap A vs e r.
  Proof.
    intros W H. pose proof (tested_spec vs W) as T. destruct T as [T|l1 e l2 E T Q|l1 e l2 r E T Q].
    - left. now apply ts_clean.
    - exfalso. apply (H e); [|exact Q]. rewrite E, in_app_iff. right. now left.
    - right. exists l1, e, l2. split; [exact E|]. split; [exact T|]. now exists r.
  Qed.
End Space.
