(** Proofs about configuration spaces: sampling. *)
From Coq Require Import ZArith List Bool Lia Relations.
From Verif Require Import Base Datum CodecModel CmpModel CmpSpec ParamModel ParamSpec ContextModel ContextSpec ContextProofs.
From Verif Require Import ExprModel ExprSpec ExprProofs ExprLemmas ExprSem SpaceModel SpaceSpec SpaceGraph SpaceProofs SpaceLemmas SpaceCheck SpaceReach SpaceDist SpaceHistory.
Import ListNotations.
Open Scope Z_scope.

Lemma scatter_spec idx : forall l vs, NoDup idx -> length l = length idx -> Forall (fun i => (i < length vs)%nat) idx ->
  length (scatter vs idx l) = length vs /\
  (forall k i, nth_error idx k = Some i -> nth_error (scatter vs idx l) i = nth_error l k) /\
  (forall i, ~ In i idx -> nth_error (scatter vs idx l) i = nth_error vs i).
Proof.
  induction idx as [|i idx IH]; intros l vs ND L F; cbn [scatter].
  - split; [reflexivity|]. split; [intros [|k] i; discriminate|auto].
  - destruct l as [|d l]; [discriminate|]. inversion ND; inversion F; subst. destruct (IH l (update vs i d)) as (P & Q & R); auto.
    { rewrite Forall_forall in *. intros j J. rewrite update_length. auto. }
    rewrite update_length in P. split; [exact P|]. split.
    + intros [|k] j; cbn; intro E; [|exact (Q k j E)]. injection E as <-. rewrite R by assumption. now apply update_same.
    + intros j J. rewrite R by (intro; apply J; now right). apply update_other. intros ->. apply J. now left.
Qed.

Section Sample.
  Variable heap : Z -> param.
  Variable jen : list Z -> Z.
  Variable known : Z -> Prop.
  Hypothesis KN : forall h, known h -> created jen (heap h).
  Hypothesis KP : forall h, known h -> 0 < h.
  Variable dimension : Z -> nat.
  Variable rng : Type.
  Variable draw : Z -> list Z -> rng -> res (list datum) * rng.
  Hypothesis WD : well_drawn rng draw.
  Variable s : space.
  Hypothesis V : sinv heap jen known everything s.
  Hypothesis D : dinv dimension (fun _ => False) s.
  Notation A := (s_params s).
  Notation conds := (s_conds s).
  Notation F := (s_forbidden s).
  Notation dists := (s_dists s).

  Lemma draw_all_spec ws : forall g vs, length vs = length A -> (forall w, In w ws -> In w dists) -> NoDup ws ->
    (exists ls vs' g', draw_all rng draw s ws g vs = (Ok vs', g') /\ draws A rng draw ws g ls g' /\ length vs' = length A /\
      (forall l, In l ls -> Forall wf_datum l) /\
      (forall a w l k i, nth_error ws a = Some w -> nth_error ls a = Some l -> nth_error (dw_indexes w) k = Some i -> nth_error vs' i = nth_error l k) /\
      (forall i, (forall w, In w ws -> ~ In i (dw_indexes w)) -> nth_error vs' i = nth_error vs i)) \/
    (exists ws1 w ws2 ls g1 (r : res (list datum)) g2, ws = ws1 ++ w :: ws2 /\ draws A rng draw ws1 g ls g1 /\ ask A rng draw w g1 = (r, g2) /\
      exists r', failure r r' /\ draw_all rng draw s ws g vs = (r', g2)).
  Proof.
    induction ws as [|w ws IH]; intros g vs L SUB ND; cbn [draw_all].
    - left. exists [], vs, g. split; [reflexivity|]. split; [constructor|]. split; [exact L|]. split; [intros l []|]. split; [intros [|a] w l k i; discriminate|auto].
    - inversion ND as [|? ? N1 N2]; subst. assert (W : In w dists) by (apply SUB; now left).
      fold (ask A rng draw w g). destruct (ask A rng draw w g) as [r g1] eqn:E.
      destruct r as [l|c|u].
      + assert (LW : length l = length (dw_indexes w) /\ Forall wf_datum l).
        { destruct (WD _ _ _ _ _ E) as [X Y]. rewrite map_length in X. auto. }
        destruct LW as [LL WW].
        destruct (scatter_spec (dw_indexes w) l vs (index_nodup dimension _ s w D W) LL) as (P & Q & R).
        { apply Forall_forall. intros i I. apply In_nth_error in I. destruct I as [k K]. rewrite L. exact (dinv_in dimension _ s w k i D (conj W K)). }
        destruct (IH g1 (scatter vs (dw_indexes w) l)) as [(ls & vs' & g' & E1 & E2 & E3 & E4 & E5 & E6)|(ws1 & w' & ws2 & ls & g2 & r & g3 & E1 & E2 & E3 & r' & E4 & E5)]; auto.
        { congruence. }
        { intros; apply SUB; now right. }
        * left. exists (l :: ls), vs', g'. split; [exact E1|]. split; [exact (dr_cons A rng draw w ws g l g1 ls g' E E2)|]. split; [exact E3|].
          split; [intros x [<- | X]; auto|]. split.
          -- intros [|a] w' l' k i; cbn; intros Ha Hl Hk; [|exact (E5 a w' l' k i Ha Hl Hk)]. injection Ha as <-. injection Hl as <-.
             rewrite E6; [exact (Q k i Hk)|]. intros w' W' I. apply In_nth_error in I. destruct I as [k' K'].
             destruct (dinv_unique dimension _ s w k w' k' i D (conj W Hk) (conj (SUB w' (or_intror W')) K')) as [-> _]. contradiction.
          -- intros i H. rewrite E6 by (intros w' W'; apply H; now right). apply R. apply H. now left.
        * right. exists (w :: ws1), w', ws2, (l :: ls), g2, r, g3. split; [cbn; congruence|]. split; [exact (dr_cons A rng draw w ws1 g l g1 ls g2 E E2)|].
          split; [exact E3|]. exists r'. auto.
      + right. exists [], w, ws, [], g, (Err c), g1. split; [reflexivity|]. split; [constructor|]. split; [exact E|]. exists (Err c). split; reflexivity.
      + right. exists [], w, ws, [], g, (UB u), g1. split; [reflexivity|]. split; [constructor|]. split; [exact E|]. exists (UB u). split; reflexivity.
  Qed.
  Lemma draws_length ws g ls g' : draws A rng draw ws g ls g' -> length ls = length ws.
  Proof. induction 1; cbn; congruence. Qed.
  Lemma draw_spec g vs : length vs = length A ->
    (exists initial g', draw_all rng draw s dists g vs = (Ok initial, g') /\ drawn A rng draw dists g initial g' /\ Forall wf_datum initial /\
       (drawn_in_domains heap rng draw ->
        forall i h d, nth_error A i = Some h -> nth_error initial i = Some d -> d_val d <> VInactive /\ domain (heap h) (d_val d))) \/
    (exists ws1 w ws2 ls g1 (r : res (list datum)) g2, dists = ws1 ++ w :: ws2 /\ draws A rng draw ws1 g ls g1 /\ ask A rng draw w g1 = (r, g2) /\
      exists r', failure r r' /\ draw_all rng draw s dists g vs = (r', g2)).
  Proof.
    intro L. destruct (draw_all_spec dists g vs L ltac:(auto)) as [(ls & vs' & g' & E1 & E2 & E3 & E4 & E5 & E6)|H]; [|left|right; exact H].
    { apply (NoDup_map_inv dw_id). exact (d_ids _ _ _ D). }
    exists vs', g'. split; [exact E1|]. split; [exists ls; auto|].
    assert (COV : forall i, (i < length A)%nat -> exists a w l k, nth_error dists a = Some w /\ nth_error ls a = Some l /\ nth_error (dw_indexes w) k = Some i).
    { intros i I. destruct (d_all _ _ _ D i I ltac:(auto)) as (w & k & W & K). apply In_nth_error in W. destruct W as [a W].
      exists a, w, (nth a ls []), k. split; [exact W|]. split; [|exact K]. apply nth_error_nth'. rewrite (draws_length _ _ _ _ E2). apply nth_error_Some. congruence. }
    split.
    - apply Forall_forall. intros d Hd. apply In_nth_error in Hd. destruct Hd as [i Hi].
      destruct (COV i) as (a & w & l & k & Ha & Hl & Hk); [rewrite <- E3; apply nth_error_Some; congruence|].
      rewrite (E5 a w l k i Ha Hl Hk) in Hi. specialize (E4 l (nth_error_In _ _ Hl)). rewrite Forall_forall in E4. apply E4. now apply nth_error_In in Hi.
    - intros ID i h d Hh Hd. destruct (COV i) as (a & w & l & k & Ha & Hl & Hk); [apply nth_error_Some; congruence|].
      rewrite (E5 a w l k i Ha Hl Hk) in Hd.
      assert (AK : exists g1 g2, ask A rng draw w g1 = (Ok l, g2)).
      { clear - E2 Ha Hl. revert a Ha Hl. induction E2 as [|w0 ws g l0 g1 ls g2 E E2 IH]; intros [|a] Ha Hl; cbn in *; try discriminate; [|eauto].
        injection Ha as <-. injection Hl as <-. eauto. }
      destruct AK as (g1 & g2 & AK). pose proof (ID _ _ _ _ _ AK) as F2.
      assert (X : forall (ps : list Z) (l : list datum), Forall2 (fun h v => d_val v <> VInactive /\ domain (heap h) (d_val v)) ps l ->
        forall k h d, nth_error ps k = Some h -> nth_error l k = Some d -> d_val d <> VInactive /\ domain (heap h) (d_val d)).
      { clear. induction 1 as [|p v ps l P F2 IH]; intros [|k] h d; cbn; try discriminate; [|apply IH]. intros E1 E2. injection E1 as <-. injection E2 as <-. exact P. }
      apply (X _ l F2 k h d); [|exact Hd]. rewrite nth_error_map, Hk. cbn. f_equal. apply nth_error_nth with (1 := Hh).
  Qed.

  Lemma attempt_spec g vs : length vs = length A -> forall r g', sample_once heap jen rng draw s g vs = (r, g') ->
    attempt heap A conds F rng draw dists g r g' /\ (forall v b, r = Ok (v, b) -> length v = length A) /\
    (drawn_in_domains heap rng draw -> forall v, r = Ok (v, true) -> valid heap A conds F v /\ Forall wf_datum v).
  Proof.
    intros L r g'. unfold sample_once.
    pose proof (fun i e C => proj1 (v_conds _ _ _ _ _ V i e C)) as CW.
    assert (FW : Forall (wf_expr known) F) by (generalize (v_forb _ _ _ _ _ V); apply Forall_impl; tauto).
    destruct (draw_spec g vs L) as [(initial & g1 & E & DR & W & ID)|(ws1 & w & ws2 & ls & g1 & r0 & g2 & E1 & E2 & E3 & r1 & E4 & E5)].
    - rewrite E. cbn [bind]. intro Q. assert (LI : length initial = length A) by (destruct DR as (ls & _ & X & _); exact X).
      destruct (set_actives_spec heap jen known KN s (v_good _ _ _ _ _ V) (v_len _ _ _ _ _ V) CW everything
        (v_nodup _ _ _ _ _ V) (v_in _ _ _ _ _ V) (v_order _ _ _ _ _ V) initial LI W) as [(v & E1 & SV & Wv)|US].
      + rewrite E1 in Q. cbn [bind] in Q. pose proof (tested_spec heap jen known KN s (v_good _ _ _ _ _ V) FW v Wv) as T.
        assert (LV : length v = length A) by (destruct SV as [X _]; congruence).
        destruct (test_forbidden heap jen s F v) as [b|c|u] eqn:E2; cbn [bind] in Q; injection Q as <- <-.
        * split; [exact (at_done heap A conds F rng draw dists g initial v b g1 DR SV T)|]. split; [intros ? ? X; injection X as <- _; exact LV|].
          intros IDD ? X. injection X as <- ->. split; [|exact Wv]. exact (solved_valid heap known s (v_len _ _ _ _ _ V) CW initial v LI W (ID IDD) SV (tested_true heap s v T)).
        * split; [|split; discriminate]. exact (at_clause heap A conds F rng draw dists g initial v (Err c) (Err c) g1 DR SV T eq_refl).
        * split; [|split; discriminate]. exact (at_clause heap A conds F rng draw dists g initial v (UB u) (UB u) g1 DR SV T eq_refl).
      + destruct (set_actives heap jen s initial) as [v|c|u] eqn:E1; cbn [bind] in Q; injection Q as <- <-.
        * exfalso. destruct US as (u & j & f & _ & _ & _ & _ & _ & (r' & _ & X)). destruct r'; exact X.
        * split; [|split; discriminate]. apply (at_condition heap A conds F rng draw dists g initial); [exact DR|].
          destruct US as (x & j & f & U1 & U2 & U3 & U4 & U5 & (r' & U6 & U7)). exists x, j, f. repeat (split; [assumption|]). exists r'. split; [exact U6|]. destruct r'; exact U7.
        * split; [|split; discriminate]. apply (at_condition heap A conds F rng draw dists g initial); [exact DR|].
          destruct US as (x & j & f & U1 & U2 & U3 & U4 & U5 & (r' & U6 & U7)). exists x, j, f. repeat (split; [assumption|]). exists r'. split; [exact U6|]. destruct r'; exact U7.
    - rewrite E5. intro Q. destruct r1 as [v|c|u]; cbn [bind] in Q; injection Q as <- <-.
      + destruct r0; destruct E4.
      + split; [|split; discriminate]. apply (at_draw heap A conds F rng draw dists g ws1 w ws2 ls g1 r0 _ g2 E1 E2 E3). destruct r0; exact E4.
      + split; [|split; discriminate]. apply (at_draw heap A conds F rng draw dists g ws1 w ws2 ls g1 r0 _ g2 E1 E2 E3). destruct r0; exact E4.
  Qed.
  Lemma attempts_spec tries : forall g vs, length vs = length A -> forall r g', sample_loop heap jen rng draw s tries g vs = (r, g') ->
    attempts heap A conds F rng draw dists tries g r g' /\ (drawn_in_domains heap rng draw -> forall v, r = Ok v -> valid heap A conds F v /\ Forall wf_datum v).
  Proof.
    induction tries as [|tries IH]; intros g vs L r g' E; cbn [sample_loop] in E.
    - injection E as <- <-. split; [constructor|discriminate].
    - destruct (sample_once heap jen rng draw s g vs) as [r1 g1] eqn:E1. destruct (attempt_spec g vs L r1 g1 E1) as (AT & LV & VA).
      destruct r1 as [[v b]|c|u].
      + destruct b.
        * injection E as <- <-. split; [exact (ats_found heap A conds F rng draw dists tries g v g1 AT)|]. intros ID v' X. injection X as <-. exact (VA ID v eq_refl).
        * destruct (IH g1 v (LV v false eq_refl) r g' E) as [A1 A2]. split; [|exact A2]. exact (ats_again heap A conds F rng draw dists tries g v g1 r g' AT A1).
      + injection E as <- <-. split; [|discriminate]. exact (ats_fail heap A conds F rng draw dists tries g (Err c) g1 (Err c) AT eq_refl).
      + injection E as <- <-. split; [|discriminate]. exact (ats_fail heap A conds F rng draw dists tries g (UB u) g1 (UB u) AT eq_refl).
  Qed.
  Lemma blank_length : length (blank s) = length A. Proof. apply repeat_length. Qed.
  Lemma harvest_spec tries : forall n g cur found, (forall v, cur = Some v -> length v = length A) ->
    forall r found' g', samples_loop heap jen rng draw s tries n g cur found = (r, found', g') ->
    exists l, found' = found ++ l /\ harvest heap A conds F rng draw dists tries n g r l g' /\
      (drawn_in_domains heap rng draw -> Forall (fun v => valid heap A conds F v /\ Forall wf_datum v) l) /\ (length l <= n)%nat /\ (r = Ok tt -> length l = n).
  Proof.
    induction tries as [|tries IH]; intros n g cur found LC r found' g' E; destruct n as [|n]; cbn [samples_loop] in E.
    - injection E as <- <- <-. exists []. rewrite app_nil_r. split; [reflexivity|]. split; [constructor|]. split; [constructor|]. cbn. auto.
    - injection E as <- <- <-. exists []. rewrite app_nil_r. split; [reflexivity|]. split; [constructor|]. split; [constructor|]. split; [cbn; lia|discriminate].
    - injection E as <- <- <-. exists []. rewrite app_nil_r. split; [reflexivity|]. split; [constructor|]. split; [constructor|]. cbn. auto.
    - set (buf := match cur with Some v => v | None => blank s end) in *.
      assert (LB : length buf = length A) by (unfold buf; destruct cur; [now apply LC|apply blank_length]).
      destruct (sample_once heap jen rng draw s g buf) as [r1 g1] eqn:E1. destruct (attempt_spec g buf LB r1 g1 E1) as (AT & LV & VA).
      destruct r1 as [[v b]|c|u].
      + destruct b.
        * destruct (IH n g1 None (found ++ [v]) ltac:(discriminate) r found' g' E) as (l & E2 & H & VL & LL & LO).
          exists (v :: l). split; [rewrite E2, <- app_assoc; reflexivity|]. split; [exact (hv_found heap A conds F rng draw dists tries n g v g1 r l g' AT H)|].
          split; [intro ID; constructor; auto; exact (VA ID v eq_refl)|]. cbn. split; [lia|]. intro X. f_equal. auto.
        * destruct (IH (Datatypes.S n) g1 (Some v) found ltac:(intros x X; injection X as <-; exact (LV v false eq_refl)) r found' g' E) as (l & E2 & H & R).
          exists l. split; [exact E2|]. split; [exact (hv_again heap A conds F rng draw dists tries n g v g1 r l g' AT H)|exact R].
      + injection E as <- <- <-. exists []. rewrite app_nil_r. split; [reflexivity|]. split; [exact (hv_fail heap A conds F rng draw dists tries n g (Err c) g1 (Err c) AT eq_refl)|].
        split; [constructor|]. split; [cbn; lia|discriminate].
      + injection E as <- <- <-. exists []. rewrite app_nil_r. split; [reflexivity|]. split; [exact (hv_fail heap A conds F rng draw dists tries n g (UB u) g1 (UB u) AT eq_refl)|].
        split; [constructor|]. split; [cbn; lia|discriminate].
  Qed.
End Sample.
