(** Configuration spaces: the properties of every history. *)
From Coq Require Import ZArith List Bool Lia Relations.
From Verif Require Import Base Datum CodecModel CmpModel CmpSpec ParamModel ParamSpec ContextModel ContextSpec ContextProofs.
From Verif Require Import ExprModel ExprSpec ExprProofs ExprLemmas ExprSem SpaceModel SpaceSpec SpaceGraph SpaceProofs SpaceLemmas SpaceCheck SpaceReach SpaceDist SpaceHistory SpaceSample.
Import ListNotations.
Open Scope Z_scope.

Lemma getter_spec {T} (l : list (option T)) arr :
  listed l arr (match arr with
    | None => Ok (None, length l)
    | Some n => do _ <- refute (n <? length l)%nat ERR_INVALID_VALUE; Ok (Some (l ++ repeat None (n - length l)), length l)
    end).
Proof.
  destruct arr as [n|]; [|reflexivity]. unfold listed. destruct (Nat.ltb_spec n (length l)) as [L|L]; [right|left]; (split; [lia|reflexivity]).
Qed.
Lemma conditions_spec s arr i : listed (s_conds s) arr (get_conditions s arr) /\
  (match nth_error (s_conds s) (Z.to_nat (wrap 32 i)) with
   | Some c => get_condition s i = Ok c
   | None => get_condition s i = Err ERR_OUT_OF_BOUNDS
   end).
Proof. split; [apply (getter_spec (s_conds s) arr)|]. unfold get_condition. now destruct (nth_error _ _). Qed.
Lemma clauses_listed s arr i : listed (map Some (s_forbidden s)) arr (get_forbidden_clauses s arr) /\
  (match nth_error (s_forbidden s) (Z.to_nat (wrap 32 i)) with
   | Some c => get_forbidden_clause s i = Ok c
   | None => get_forbidden_clause s i = Err ERR_OUT_OF_BOUNDS
   end).
Proof.
  split; [|unfold get_forbidden_clause; now destruct (nth_error _ _)].
  pose proof (getter_spec (map Some (s_forbidden s)) arr) as H. rewrite map_length in H. exact H.
Qed.

Section Main.
  Variable heap : Z -> param.
  Variable jen : list Z -> Z.
  Variable dimension : Z -> nat.
  Variable default_dist : Z -> Z.
  Variable rng : Type.
  Variable draw : Z -> list Z -> rng -> res (list datum) * rng.
  Variable known : Z -> Prop.
  Hypothesis SS : sound_space heap jen dimension default_dist known.
  Notation rch := (reach heap jen dimension default_dist rng draw known).
  Let KN : forall h, known h -> created jen (heap h) := proj1 SS.
  Let KP : forall h, known h -> 0 < h := proj1 (proj2 SS).
  Let DD : forall h, dimension (default_dist h) = 1%nat := proj2 (proj2 SS).
  Lemma reach_sinv S s : rch S s -> sinv heap jen known S s.
  Proof. intro R. exact (proj1 (reach_inv heap jen known KN KP dimension default_dist DD rng draw S s R)). Qed.
  Lemma reach_dinv S s : rch S s -> dinv dimension (fun _ => False) s.
  Proof. intro R. exact (proj2 (reach_inv heap jen known KN KP dimension default_dist DD rng draw S s R)). Qed.

  Lemma main_condition S s i e r s' : rch S s -> wf_expr known e -> set_condition s i e = (r, s') -> sets_condition s i e r s'.
  Proof. intros R We E. exact (proj1 (condition_spec heap jen known KN KP S s i e (reach_sinv S s R) We r s' E)). Qed.
  Lemma main_order S s : rch S s -> acyclic (s_params s) (s_conds s) /\ NoDup (s_sorted s) /\
    dependencies_first (s_params s) (s_conds s) (s_sorted s) /\ forall i, In i (s_sorted s) <-> (i < length (s_params s))%nat /\ S i.
  Proof. intro R. destruct (reach_sinv S s R) as [G K SM CL CW AC N SI SO GR F]. auto. Qed.

  Lemma forb_wf S s : sinv heap jen known S s -> Forall (wf_expr known) (s_forbidden s).
  Proof. intro V. generalize (v_forb _ _ _ _ _ V). apply Forall_impl. tauto. Qed.
  Lemma cond_wf S s : sinv heap jen known S s -> forall i e, nth_error (s_conds s) i = Some (Some e) -> wf_expr known e.
  Proof. intros V i e C. exact (proj1 (v_conds _ _ _ _ _ V i e C)). Qed.
  Lemma unsettled_not_ok {X} S s initial (r : res X) : unsettled heap (s_params s) (s_conds s) S initial r -> forall x, r <> Ok x.
  Proof. intros (u & j & f & _ & _ & _ & _ & _ & (r' & _ & Q)) x ->. destruct r'; exact Q. Qed.
  Lemma actives_exact S s initial : rch S s -> length initial = length (s_params s) -> Forall wf_datum initial ->
    (forall vs, set_actives heap jen s initial = Ok vs <-> solves heap (s_params s) (s_conds s) S initial vs) /\
    ((forall vs, set_actives heap jen s initial <> Ok vs) -> unsettled heap (s_params s) (s_conds s) S initial (set_actives heap jen s initial)) /\
    (forall vs vs', solves heap (s_params s) (s_conds s) S initial vs -> solves heap (s_params s) (s_conds s) S initial vs' -> vs = vs').
  Proof.
    intros R L W. pose proof (reach_sinv S s R) as V.
    assert (U : forall vs vs', solves heap (s_params s) (s_conds s) S initial vs -> solves heap (s_params s) (s_conds s) S initial vs' -> vs = vs').
    { intros vs vs' H H'.
      apply (solves_unique heap jen known KN (s_ctx s) (s_params s) (v_good _ _ _ _ _ V) (s_conds s) (v_len _ _ _ _ _ V) (cond_wf S s V) S (s_sorted s) (v_in _ _ _ _ _ V) (v_order _ _ _ _ _ V) initial); auto.
      - exact (solves_wf heap s (v_len _ _ _ _ _ V) S (v_in _ _ _ _ _ V) initial vs W H).
      - exact (solves_wf heap s (v_len _ _ _ _ _ V) S (v_in _ _ _ _ _ V) initial vs' W H'). }
    destruct (set_actives_spec heap jen known KN s (v_good _ _ _ _ _ V) (v_len _ _ _ _ _ V) (cond_wf S s V) S
        (v_nodup _ _ _ _ _ V) (v_in _ _ _ _ _ V) (v_order _ _ _ _ _ V) initial L W) as [(vs & E & SV & Wv)|US].
    - split; [|split; [|exact U]].
      + intro x. rewrite E. split; [intro Q; injection Q as <-; exact SV|intro H; f_equal; exact (U vs x SV H)].
      + intro N. destruct (N vs E).
    - pose proof (unsettled_not_ok S s initial _ US) as NO. split; [|split; [auto|exact U]].
      intro x. split; [intro Q; destruct (NO x Q)|]. intro H. exfalso.
      exact (solves_settles heap jen known KN s (v_good _ _ _ _ _ V) (v_len _ _ _ _ _ V) (cond_wf S s V) S
        (v_in _ _ _ _ _ V) (v_order _ _ _ _ _ V) initial x _ L W H US).
  Qed.
  Lemma main_actives S s initial : rch S s -> length initial = length (s_params s) -> Forall wf_datum initial ->
    (forall vs, set_actives heap jen s initial = Ok vs <-> solves heap (s_params s) (s_conds s) S initial vs) /\
    ((forall vs, set_actives heap jen s initial <> Ok vs) -> unsettled heap (s_params s) (s_conds s) S initial (set_actives heap jen s initial)).
  Proof. intros R L W. destruct (actives_exact S s initial R L W) as (A & B & _). auto. Qed.
  Lemma main_unique S s initial vs vs' : rch S s -> length initial = length (s_params s) -> Forall wf_datum initial ->
    solves heap (s_params s) (s_conds s) S initial vs -> solves heap (s_params s) (s_conds s) S initial vs' -> vs = vs'.
  Proof. intros R L W. apply (actives_exact S s initial R L W). Qed.
  Lemma main_default S s : rch S s ->
    (forall vs, get_default_configuration heap jen s = Ok vs <-> solves heap (s_params s) (s_conds s) S (defaults heap (s_params s)) vs) /\
    ((forall vs, get_default_configuration heap jen s <> Ok vs) ->
      unsettled heap (s_params s) (s_conds s) S (defaults heap (s_params s)) (get_default_configuration heap jen s)).
  Proof.
    intro R. apply (main_actives S s (defaults heap (s_params s)) R); [apply map_length|]. exact (defaults_wf heap jen known KN S s (reach_sinv S s R)).
  Qed.

  Lemma ensure_ok s s1 : ensure_graph s = (Ok tt, s1) -> s_graph_ok s1 = true.
  Proof.
    unfold ensure_graph. destruct (s_graph_ok s) eqn:G; [intro E; injection E as <-; exact G|]. unfold generate_constraints.
    destruct (recompute_graph _ _) as [[p c]|c|u]; try discriminate. destruct (topological_sort p c) as [l|x|u]; try discriminate.
    destruct (length l <? length (s_conds s))%nat; [discriminate|]. intro E. injection E as <-. reflexivity.
  Qed.
  Lemma all_sorted s : sinv heap jen known everything s -> forall i, In i (s_sorted s) <-> (i < length (s_params s))%nat.
  Proof. intros V i. rewrite (v_in _ _ _ _ _ V). unfold everything. tauto. Qed.
  Lemma checked_same s s1 vs r : same_space s s1 ->
    checked_values heap (s_params s1) (s_conds s1) (s_forbidden s1) vs r -> checked_values heap (s_params s) (s_conds s) (s_forbidden s) vs r.
  Proof. intros (_ & E2 & E3 & _ & _ & _ & E7). unfold s_params. now rewrite E2, E3, E7. Qed.
  Lemma check_inv S s vs r s' : rch S s -> Forall wf_datum vs -> check_configuration_values heap jen s vs = (r, s') ->
    same_space s s' /\ s_graph_ok s' = true /\ checked_values heap (s_params s) (s_conds s) (s_forbidden s) vs r /\
    (r = Ok true <-> valid heap (s_params s) (s_conds s) (s_forbidden s) vs).
  Proof.
    intros R W E. pose proof (reach_sinv S s R) as V. destruct (ensure_spec heap jen known KP S s V) as (s1 & E1 & V1 & Q).
    pose proof (ensure_ok s s1 E1) as GO. unfold check_configuration_values in E. rewrite E1 in E. injection E as <- <-.
    split; [exact Q|]. split; [exact GO|].
    pose proof (check_values_spec heap jen known KN s1 (v_good _ _ _ _ _ V1) (v_known _ _ _ _ _ V1) (v_len _ _ _ _ _ V1) (cond_wf _ s1 V1) (forb_wf _ s1 V1) vs W (all_sorted s1 V1)) as C.
    apply (checked_same s s1 vs _ Q) in C. split; [exact C|].
    apply (checked_valid heap jen known KN s (v_good _ _ _ _ _ V) (v_len _ _ _ _ _ V) (cond_wf _ s V) (forb_wf _ s V) vs _ W C).
  Qed.
  Lemma main_check S s vs r s' : rch S s -> Forall wf_datum vs -> check_configuration_values heap jen s vs = (r, s') ->
    checked_values heap (s_params s) (s_conds s) (s_forbidden s) vs r /\
    (r = Ok true <-> valid heap (s_params s) (s_conds s) (s_forbidden s) vs) /\ same_space s s'.
  Proof. intros R W E. destruct (check_inv S s vs r s' R W E) as (A & _ & B & C). auto. Qed.
  Lemma main_owner S s owner vs : rch S s -> 
    check_configuration heap jen s owner vs =
      (if Z.eq_dec owner (s_self s) then check_configuration_values heap jen s vs else (Err ERR_INVALID_CONFIGURATION, s)).
  Proof. intros _. unfold check_configuration. destruct (Z.eqb_spec owner (s_self s)), (Z.eq_dec owner (s_self s)); congruence. Qed.

  Hypothesis WD : well_drawn rng draw.
  Lemma main_sample S s g r g' s' : rch S s -> sample heap jen rng draw s g = (r, g', s') ->
    attempts heap (s_params s) (s_conds s) (s_forbidden s) rng draw (s_dists s) 100 g r g' /\ same_space s s'.
  Proof.
    intros R E. pose proof (reach_sinv S s R) as V. destruct (ensure_spec heap jen known KP S s V) as (s1 & E1 & V1 & Q).
    unfold sample in E. rewrite E1 in E. injection E as E <-. split; [|exact Q].
    pose proof (dinv_same dimension s s1 Q (reach_dinv S s R)) as D1.
    destruct (attempts_spec heap jen known KN dimension rng draw WD s1 V1 D1 100 g (blank s1) (blank_length s1) r g' E) as [A _].
    destruct Q as (_ & E2 & E3 & _ & E5 & _ & E7). unfold s_params in *. now rewrite E2, E3, E5, E7 in A.
  Qed.
  Lemma main_samples S s n g arr r arr' g' s' : rch S s -> n <> O -> samples heap jen rng draw s n g arr = (r, arr', g', s') ->
    exists l, harvest heap (s_params s) (s_conds s) (s_forbidden s) rng draw (s_dists s) (100 * n) n g r l g' /\
      (length l <= n)%nat /\ arr' = map Some l ++ repeat None (n - length l) /\ (r = Ok tt -> length l = n) /\ same_space s s'.
  Proof.
    intros R NZ E. pose proof (reach_sinv S s R) as V. destruct (ensure_spec heap jen known KP S s V) as (s1 & E1 & V1 & Q).
    pose proof (dinv_same dimension s s1 Q (reach_dinv S s R)) as D1.
    unfold samples in E. destruct n as [|n]; [contradiction|]. rewrite E1 in E.
    destruct (samples_loop heap jen rng draw s1 (100 * Datatypes.S n) (Datatypes.S n) g None []) as [[r0 f0] g0] eqn:E2. injection E as <- <- <- <-.
    destruct (harvest_spec heap jen known KN KP dimension rng draw WD s1 V1 D1 _ (Datatypes.S n) g None [] ltac:(discriminate) r0 f0 g0 E2) as (l & F & H & _ & LL & LO).
    cbn [app] in F. subst f0. exists l. pose proof Q as (_ & X2 & X3 & _ & X5 & _ & X7). unfold s_params in *. rewrite X2, X3, X5, X7 in H.
    split; [exact H|]. split; [exact LL|]. split; [reflexivity|]. split; [exact LO|exact Q].
  Qed.
  Lemma main_sampled_valid S s g vs g' s' : drawn_in_domains heap rng draw -> rch S s -> sample heap jen rng draw s g = (Ok vs, g', s') ->
    valid heap (s_params s) (s_conds s) (s_forbidden s) vs /\ check_configuration heap jen s' (s_self s) vs = (Ok true, s').
  Proof.
    intros ID R E. pose proof (reach_sinv S s R) as V. pose proof (re_sample heap jen dimension default_dist rng draw known S s g (Ok vs) g' s' R E) as R'.
    destruct (ensure_spec heap jen known KP S s V) as (s1 & E1 & V1 & Q).
    unfold sample in E. rewrite E1 in E. injection E as E <-.
    pose proof (dinv_same dimension s s1 Q (reach_dinv S s R)) as D1.
    destruct (attempts_spec heap jen known KN dimension rng draw WD s1 V1 D1 100 g (blank s1) (blank_length s1) (Ok vs) g' E) as [_ A].
    destruct (A ID vs eq_refl) as [VA Wv].
    assert (VS : valid heap (s_params s) (s_conds s) (s_forbidden s) vs).
    { destruct Q as (_ & E2 & E3 & _ & _ & _ & E7). unfold s_params in *. now rewrite E2, E3, E7 in VA. }
    split; [exact VS|]. unfold check_configuration. pose proof Q as (E0 & _). rewrite E0, Z.eqb_refl.
    destruct (check_configuration_values heap jen s1 vs) as [r s2] eqn:C. destruct (check_inv everything s1 vs r s2 R' Wv C) as (_ & _ & _ & VV).
    apply VV in VA. subst r. f_equal. unfold check_configuration_values in C. unfold ensure_graph in C. rewrite (ensure_ok s s1 E1) in C. injection C as _ C. now symmetry.
  Qed.
  Lemma main_samples_valid S s n g arr r arr' g' s' : drawn_in_domains heap rng draw -> rch S s -> n <> O -> samples heap jen rng draw s n g arr = (r, arr', g', s') ->
    forall vs, In (Some vs) arr' -> valid heap (s_params s) (s_conds s) (s_forbidden s) vs /\ check_configuration heap jen s' (s_self s) vs = (Ok true, s').
  Proof.
    intros ID R NZ E. pose proof (reach_sinv S s R) as V.
    pose proof (re_samples heap jen dimension default_dist rng draw known S s n g arr r arr' g' s' R NZ E) as R'.
    destruct (ensure_spec heap jen known KP S s V) as (s1 & E1 & V1 & Q).
    pose proof (dinv_same dimension s s1 Q (reach_dinv S s R)) as D1.
    unfold samples in E. destruct n as [|n]; [contradiction|]. rewrite E1 in E.
    destruct (samples_loop heap jen rng draw s1 (100 * Datatypes.S n) (Datatypes.S n) g None []) as [[r0 f0] g0] eqn:E2. injection E as <- <- <- <-.
    destruct (harvest_spec heap jen known KN KP dimension rng draw WD s1 V1 D1 _ (Datatypes.S n) g None [] ltac:(discriminate) r0 f0 g0 E2) as (l & F & _ & VL & _).
    cbn [app] in F. subst f0. intros vs I. unfold pad in I. apply in_app_or in I. destruct I as [I|I]; [|apply repeat_spec in I; discriminate].
    apply in_map_iff in I. destruct I as (x & X & I). injection X as ->. specialize (VL ID). rewrite Forall_forall in VL. destruct (VL vs I) as [VA Wv].
    split.
    { destruct Q as (_ & X2 & X3 & _ & _ & _ & X7). unfold s_params in *. now rewrite X2, X3, X7 in VA. }
    unfold check_configuration. pose proof Q as (E0 & _). rewrite E0, Z.eqb_refl.
    destruct (check_configuration_values heap jen s1 vs) as [rr s2] eqn:C. destruct (check_inv everything s1 vs rr s2 R' Wv C) as (_ & _ & _ & VV).
    apply VV in VA. subst rr. f_equal. unfold check_configuration_values in C. unfold ensure_graph in C. rewrite (ensure_ok s s1 E1) in C. injection C as _ C. now symmetry.
  Qed.

  Lemma main_clause S s e r s' : rch S s -> wf_expr known e -> add_forbidden_clause heap jen s e = (r, s') -> adds_clause heap S s e r s'.
  Proof. intros R We E. exact (proj1 (clause_spec heap jen known KN KP S s e (reach_sinv S s R) We r s' E)). Qed.
  Lemma main_clauses S s l r s' : rch S s -> Forall (wf_expr known) l -> add_forbidden_clauses heap jen s l = (r, s') -> adds_clauses heap S s l r s'.
  Proof. intros R We E. exact (proj1 (clauses_spec heap jen known KN KP S l s (reach_sinv S s R) We r s' E)). Qed.
  Lemma main_not_forbidden s vs : rch everything s -> get_default_configuration heap jen s = Ok vs ->
    forall e, In e (s_forbidden s) -> ~ holds heap (s_params s) vs e.
  Proof.
    intros R E e I. apply (fading heap jen known KN KP dimension default_dist DD rng draw s vs e (reach_sinv _ s R) I). now apply (proj1 (main_default everything s R)).
  Qed.
  Lemma main_default_valid s vs r s' : rch everything s -> get_default_configuration heap jen s = Ok vs ->
    (forall h, In h (s_params s) -> d_val (p_default (heap h)) <> VInactive /\ domain (heap h) (d_val (p_default (heap h)))) ->
    check_configuration heap jen s (s_self s) vs = (r, s') ->
    r = Ok true \/ exists e, In e (s_forbidden s) /\ stuck heap (s_params s) vs e r.
  Proof.
    intros R E DM C. pose proof (reach_sinv _ s R) as V. pose proof (proj1 (proj1 (main_default everything s R) vs) E) as SV.
    pose proof (defaults_wf heap jen known KN everything s V) as WI.
    pose proof (solves_wf heap s (v_len _ _ _ _ _ V) everything (v_in _ _ _ _ _ V) _ vs WI SV) as W.
    unfold check_configuration in C. rewrite Z.eqb_refl in C. destruct (check_inv _ s vs r s' R W C) as (_ & _ & CV & VV).
    assert (DOM : forall i h d, nth_error (s_params s) i = Some h -> nth_error (defaults heap (s_params s)) i = Some d -> d_val d <> VInactive /\ domain (heap h) (d_val d)).
    { intros i h d Hh Hd. unfold defaults in Hd. rewrite nth_error_map, Hh in Hd. cbn in Hd. injection Hd as <-. apply DM. now apply nth_error_In in Hh. }
    destruct (forbidden_ok heap jen known KN s (v_good _ _ _ _ _ V) (forb_wf _ s V) vs W (main_not_forbidden s vs R E)) as [T|(l1 & e & l2 & FE & FF & r0 & ST)].
    - left. apply VV. apply (solved_valid heap known s (v_len _ _ _ _ _ V) (cond_wf _ s V) _ vs (map_length _ _) WI DOM SV). exact (tested_true heap s vs T).
    - right. exists e. split; [rewrite FE, in_app_iff; right; now left|].
      assert (RV : forall i, (i < length (s_params s))%nat -> right_value heap (s_params s) (s_conds s) vs i).
      { assert (X : valid heap (s_params s) (s_conds s) [] vs); [|exact (proj1 (proj2 X))].
        set (s0 := with_forbidden s []). exact (solved_valid heap known s0 (v_len _ _ _ _ _ V) (cond_wf _ s V) _ vs (map_length _ _) WI DOM SV (Forall_nil _)). }
      assert (NF : ~ fails heap (s_params s) vs e /\ ~ holds heap (s_params s) vs e).
      { pose proof (forb_wf _ s V) as FW. rewrite FE, Forall_app in FW. destruct FW as [_ FW]. inversion FW; subst.
        destruct (stuck_not heap jen known KN s (v_good _ _ _ _ _ V) vs e r0 W) as [N1 N2]; auto. }
      destruct CV as [NL|i L' (h & v & Ai & Vi & H)|i f r L' Ci STf|r L' RV' T].
      + exfalso. apply NL. destruct SV as [X _]. unfold defaults in X. now rewrite map_length in X.
      + exfalso. destruct (RV i) as (h' & v' & Ai' & Vi' & H'); [apply nth_error_Some; congruence|].
        assert (h' = h) by congruence. assert (v' = v) by congruence. subst h' v'.
        pose proof (live_dormant heap jen known KN s (v_good _ _ _ _ _ V) (cond_wf _ s V) vs i W) as LD.
        destruct H as [[Lv X]|[Dm X]], H' as [(Lv' & Q1 & Q2)|[Dm' X']]; tauto.
      + exfalso. destruct (RV i) as (h' & v' & Ai' & Vi' & H'); [rewrite <- (v_len _ _ _ _ _ V); apply nth_error_Some; congruence|].
        destruct (stuck_not heap jen known KN s (v_good _ _ _ _ _ V) vs f r W (cond_wf _ s V i f Ci) STf) as [N1 N2]. unfold live, dormant in H'. rewrite Ci in H'. tauto.
      + destruct T as [T|m1 f m2 FE' T Q|m1 f m2 r FE' T Q].
        * exfalso. rewrite FE, Forall_app in T. destruct T as [_ T]. inversion T; subst. tauto.
        * exfalso. apply (main_not_forbidden s vs R E f); [|exact Q]. rewrite FE', in_app_iff. right. now left.
        * assert (m1 = l1 /\ f = e) as [-> ->]; [|exact Q].
          assert (NFf : ~ fails heap (s_params s) vs f).
          { pose proof (forb_wf _ s V) as FW. rewrite FE', Forall_app in FW. destruct FW as [_ FW]. inversion FW; subst.
            destruct (stuck_not heap jen known KN s (v_good _ _ _ _ _ V) vs f r W) as [N1 N2]; auto. }
          rewrite FE in FE'. clear - FE' FF T NF NFf. destruct NF as [NF _]. revert m1 FE' T. induction l1 as [|x l1 IH]; intros [|y m1] FE' T; cbn in FE'; injection FE' as E1 E2.
          -- auto.
          -- exfalso. subst. inversion T; subst. tauto.
          -- exfalso. subst. inversion FF; subst. tauto.
          -- subst. inversion FF; inversion T; subst. destruct (IH ltac:(assumption) m1 E2) as [-> ->]; auto.
  Qed.

  Lemma main_distribution S s d idx r s' : rch S s -> length idx = dimension d -> set_distribution default_dist s d idx = (r, s') ->
    sets_distribution default_dist s d idx r s'.
  Proof. intros R L E. exact (proj1 (set_distribution_spec dimension default_dist DD s d idx r s' (reach_dinv S s R) L E)). Qed.
  Lemma main_partition S s : rch S s -> partitioned s /\ attached s /\ Forall (fun w => length (dw_indexes w) = dimension (dw_dist w)) (s_dists s).
  Proof.
    intro R. pose proof (reach_dinv S s R) as D. split; [exact (dinv_partitioned dimension s D)|]. split; [exact (dinv_attached dimension s D)|exact (d_dim _ _ _ D)].
  Qed.
  Lemma main_add S s h d r s' : rch S s -> known h -> lenZ (s_params s) + 1 < 2 ^ 32 -> space_add heap dimension default_dist s h d = (r, s') ->
    adds_parameter heap dimension default_dist s h d r s'.
  Proof. intros R K SM E. exact (proj1 (add_spec heap jen known KN KP dimension default_dist DD S s h d r s' (reach_sinv S s R) (reach_dinv S s R) K SM E)). Qed.
  Lemma main_adds l : forall S s r s', rch S s -> Forall (fun hd => known (fst hd)) l -> lenZ (s_params s) + lenZ l < 2 ^ 32 ->
    space_adds heap dimension default_dist s l = (r, s') -> adds_parameters heap dimension default_dist s l r s' /\ exists S', rch S' s'.
  Proof.
    induction l as [|[h d] l IH]; intros S s r s' R K SM E; cbn [space_adds] in E.
    - injection E as <- <-. split; [constructor|now exists S].
    - inversion K as [|? ? Kh Kl]; subst. cbn [fst] in Kh. destruct (space_add heap dimension default_dist s h d) as [r1 s1] eqn:E1.
      assert (SM1 : lenZ (s_params s) + 1 < 2 ^ 32) by (unfold lenZ in *; cbn [length] in SM; lia).
      pose proof (main_add S s h d r1 s1 R Kh SM1 E1) as A1.
      pose proof (re_add heap jen dimension default_dist rng draw known S s h d r1 s1 R Kh SM1 E1) as R1.
      destruct (Z.eqb_spec r1 CCS_RESULT_SUCCESS) as [-> |NZ].
      + destruct (IH _ s1 r s' R1 Kl) as [A2 R2]; auto.
        { inversion A1 as [? ? Q|s0 X1 X2]; subst; [destruct Q; reflexivity|]. rewrite X2. unfold lenZ in *. rewrite app_length. cbn [length] in *. lia. }
        split; [|exact R2]. exact (aps_ok heap dimension default_dist s h d s1 l r s' A1 A2).
      + injection E as <- <-. split; [|eauto]. exact (aps_fail heap dimension default_dist s h d r1 s1 l A1 NZ).
  Qed.
End Main.
