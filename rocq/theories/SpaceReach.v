(** Proofs about configuration spaces: what every history preserves. *)
From Coq Require Import ZArith List Bool Lia Relations.
From Verif Require Import Base Datum CodecModel CmpModel CmpSpec ParamModel ParamSpec ParamProofs ContextModel ContextSpec ContextProofs.
From Verif Require Import ExprModel ExprSpec ExprProofs ExprLemmas ExprSem SpaceModel SpaceSpec SpaceGraph SpaceProofs SpaceLemmas SpaceCheck.
Import ListNotations.
Open Scope Z_scope.

Lemma occurs_known known e : wf_expr known e -> forall h, occurs h e -> known h.
Proof.
  revert e. fix IH 2. intros e W h O. destruct W as [o d L V Fl|o h0 K|o t nodes T F]; inversion O; subst; auto.
  revert n H1 H3. clear O T. induction F as [|n0 l Wn F IHF]; intros n I0 On; [destruct I0|].
  destruct I0 as [<- | I0]; [exact (IH _ Wn h On)|exact (IHF n I0 On)].
Qed.
Lemma conditioned_update conds i e : nth_error conds i = Some None -> conditioned conds i e (update conds i (Some e)).
Proof.
  intro H. assert (L : (i < length conds)%nat) by (apply nth_error_Some; congruence).
  split; [apply update_length|]. split; [now apply update_same|]. intros j J. now apply update_other.
Qed.
Lemma conditioned_unique conds i e c1 c2 : conditioned conds i e c1 -> conditioned conds i e c2 -> c1 = c2.
Proof.
  intros (L1 & S1 & O1) (L2 & S2 & O2). assert (X : forall j, nth_error c1 j = nth_error c2 j).
  { intro j. destruct (Nat.eq_dec j i) as [-> |N]; [congruence|]. now rewrite O1, O2. }
  clear - X. revert c2 X. induction c1 as [|a l IH]; intros [|b m] X; auto; [specialize (X O); discriminate..|].
  f_equal; [specialize (X O); cbn in X; congruence|]. apply IH. intro j. exact (X (Datatypes.S j)).
Qed.
Lemma reads_more A conds conds' j i : (forall i e, nth_error conds i = Some (Some e) -> nth_error conds' i = Some (Some e)) ->
  reads A conds j i -> reads A conds' j i.
Proof. intros H (e & h & C & P & O). exists e, h. auto. Qed.
Lemma same_refl s : same_space s s. Proof. repeat split. Qed.

Section Reach.
  Variable heap : Z -> param.
  Variable jen : list Z -> Z.
  Variable known : Z -> Prop.
  Hypothesis KN : forall h, known h -> created jen (heap h).
  Hypothesis KP : forall h, known h -> 0 < h.

  (** the clause was not true of the default configuration when it was added *)
  Definition past (A : list Z) (conds : list (option expr)) (e : expr) : Prop :=
    exists c0 A0 A1 conds0 sorted0 u d, A = A0 ++ A1 /\ good heap c0 A0 /\
      (forall i e', nth_error conds0 i = Some (Some e') -> wf_expr known e' /\ forall h, occurs h e' -> In h A0) /\
      (forall i e', nth_error conds0 i = Some (Some e') -> nth_error conds i = Some (Some e')) /\
      Forall wf_datum u /\ solves heap A0 conds0 (fun i => In i sorted0) (defaults heap A0) u /\
      (forall h, occurs h e -> In h A0) /\ eval heap jen (Some c0) (Some u) e = Ok d /\ is_true d = false.
  Record sinv (S : nat -> Prop) (s : space) : Prop := mkSinv {
    v_good : good heap (s_ctx s) (s_params s);
    v_known : forall h, In h (s_params s) -> known h /\ p_type (heap h) <> PSTRING;
    v_small : lenZ (s_params s) < 2 ^ 32;
    v_len : length (s_conds s) = length (s_params s);
    v_conds : forall i e, nth_error (s_conds s) i = Some (Some e) -> wf_expr known e /\ forall h, occurs h e -> In h (s_params s);
    v_acyclic : acyclic (s_params s) (s_conds s);
    v_nodup : NoDup (s_sorted s);
    v_in : forall i, In i (s_sorted s) <-> (i < length (s_params s))%nat /\ S i;
    v_order : dependencies_first (s_params s) (s_conds s) (s_sorted s);
    v_graph : s_graph_ok s = true -> forall i, (i < length (s_params s))%nat -> S i;
    v_forb : Forall (fun e => wf_expr known e /\ past (s_params s) (s_conds s) e) (s_forbidden s) }.

  Lemma sinv_ext (S S' : nat -> Prop) s : (forall i, (i < length (s_params s))%nat -> (S i <-> S' i)) -> sinv S s -> sinv S' s.
  Proof.
    intros H [G K SM CL CW AC N SI SO GR F]. constructor; auto.
    - intro i. rewrite SI. split; intros [L X]; (split; [exact L|]); now apply H.
    - intros Q i L. apply H; auto.
  Qed.
  Lemma positive S s : sinv S s -> forall i e h, nth_error (s_conds s) i = Some (Some e) -> occurs h e -> 0 < h.
  Proof. intros V i e h C O. apply KP. destruct (v_conds S s V i e C) as [W _]. exact (occurs_known known e W h O). Qed.
  Lemma past_more A A' conds conds' e : (exists B, A' = A ++ B) ->
    (forall i e, nth_error conds i = Some (Some e) -> nth_error conds' i = Some (Some e)) -> past A conds e -> past A' conds' e.
  Proof.
    intros [B ->] H (c0 & A0 & A1 & conds0 & sorted0 & u & d & E & G & W & M & R). subst A.
    exists c0, A0, (A1 ++ B), conds0, sorted0, u, d. split; [now rewrite app_assoc|]. split; [exact G|]. split; [exact W|]. split; [eauto|exact R].
  Qed.

  (** *** Generating the constraints *)
  Lemma generate_spec s : good heap (s_ctx s) (s_params s) -> lenZ (s_params s) < 2 ^ 32 -> length (s_conds s) = length (s_params s) ->
    (forall i e h, nth_error (s_conds s) i = Some (Some e) -> occurs h e -> 0 < h) ->
    ((exists i e h, nth_error (s_conds s) i = Some (Some e) /\ occurs h e /\ ~ In h (s_params s)) /\
      generate_constraints s = (Err ERR_INVALID_PARAMETER, s)) \/
    ((forall i e h, nth_error (s_conds s) i = Some (Some e) -> occurs h e -> In h (s_params s)) /\
      exists sorted, NoDup sorted /\ dependencies_first (s_params s) (s_conds s) sorted /\
        (forall i, In i sorted <-> (i < length (s_params s))%nat /\ ~ tangled (s_params s) (s_conds s) i) /\
        ((acyclic (s_params s) (s_conds s) /\ generate_constraints s = (Ok tt, with_graph (with_sorted s sorted) true)) \/
         (~ acyclic (s_params s) (s_conds s) /\ generate_constraints s = (Err ERR_INVALID_GRAPH, with_sorted s sorted)))).
  Proof.
    intros G SM CL P. unfold generate_constraints.
    destruct (sorted_spec heap (s_ctx s) (s_params s) (good_describes heap _ _ G) (s_conds s) CL SM P)
      as [[H E]|(H & parents & children & sorted & E & T & ND & ORD & IN & LT)].
    - left. split; [exact H|]. now rewrite E.
    - right. split; [exact H|]. exists sorted. split; [exact ND|]. split; [exact ORD|]. split; [exact IN|]. rewrite E, T.
      destruct (Nat.ltb_spec (length sorted) (length (s_conds s))) as [Q|Q].
      + right. split; [now apply LT|reflexivity].
      + left. split; [|reflexivity]. intros i D.
        assert (NA : ~ acyclic (s_params s) (s_conds s)) by (intro AC; exact (AC i D)). apply LT in NA. lia.
  Qed.
  Lemma acyclic_untangled A conds i : acyclic A conds -> ~ tangled A conds i.
  Proof. intros AC (c & D & _). exact (AC c D). Qed.
  Lemma ensure_spec S s : sinv S s -> exists s1, ensure_graph s = (Ok tt, s1) /\ sinv everything s1 /\ same_space s s1.
  Proof.
    intro V. unfold ensure_graph. destruct (s_graph_ok s) eqn:GO.
    - exists s. split; [reflexivity|]. split; [|apply same_refl]. apply (sinv_ext S); [|exact V].
      intros i L. split; intro X; [exact Logic.I|]. exact (v_graph S s V GO i L).
    - destruct (generate_spec s (v_good _ _ V) (v_small _ _ V) (v_len _ _ V) (positive S s V))
        as [[(i & e & h & C & O & N) _]|(H & sorted & ND & ORD & IN & [[AC E]|[NA _]])].
      + exfalso. apply N. exact (proj2 (v_conds _ _ V i e C) h O).
      + eexists. split; [exact E|]. split; [|repeat split]. destruct V as [G K SM CL CW AC' N SI SO GR F]. constructor; auto; cbn.
        * intro i. rewrite IN. unfold everything. pose proof (acyclic_untangled _ _ i AC). tauto.
        * intros; exact Logic.I.
      + exfalso. apply NA. exact (v_acyclic _ _ V).
  Qed.

  (** *** Conditions *)
  Lemma condition_spec S s i e : sinv S s -> wf_expr known e -> forall r s', set_condition s i e = (r, s') ->
    sets_condition s i e r s' /\
    (r = Ok tt -> sinv everything s') /\
    (r = Err ERR_INVALID_GRAPH -> forall conds', conditioned (s_conds s) (Z.to_nat (wrap 32 i)) e conds' ->
      sinv (fun j => ~ tangled (s_params s) conds' j) s') /\
    (r <> Ok tt -> r <> Err ERR_INVALID_GRAPH -> sinv S s').
  Proof.
    intros V We r s'. unfold set_condition. set (n := Z.to_nat (wrap 32 i)).
    assert (WR : 0 <= wrap 32 i) by (unfold wrap; apply Z.mod_pos_bound; lia).
    destruct (nth_error (s_conds s) n) as [[e'|]|] eqn:Cn.
    - intro E. injection E as <- <-. split; [exact (sc_taken s i e e' Cn)|]. split; [discriminate|]. split; [discriminate|]. auto.
    - set (conds' := update (s_conds s) n (Some e)). set (s0 := with_graph (with_conds s conds') false).
      pose proof (conditioned_update _ _ e Cn) as CO. fold conds' in CO.
      assert (SUB : forall i e, nth_error (s_conds s) i = Some (Some e) -> nth_error conds' i = Some (Some e)).
      { intros j f Cj. destruct CO as (_ & _ & CO). rewrite CO; [exact Cj|]. intros ->. congruence. }
      assert (CW' : forall j f, nth_error conds' j = Some (Some f) -> (j = n /\ f = e) \/ nth_error (s_conds s) j = Some (Some f)).
      { intros j f Cj. destruct CO as (_ & C1 & C2). destruct (Nat.eq_dec j n) as [-> |N]; [left; split; congruence|right; now rewrite <- C2]. }
      assert (BACK : update conds' n None = s_conds s) by now apply update_back.
      destruct (generate_spec s0 (v_good _ _ V) (v_small _ _ V)) as [[(j & f & h & C & O & N) E]|(H & sorted & ND & ORD & IN & [[AC E]|[NA E]])].
      + cbn. unfold conds'. rewrite update_length. exact (v_len _ _ V).
      + cbn. intros j f h Cj O. apply KP. destruct (CW' j f Cj) as [[_ ->]|Cj']; [exact (occurs_known known e We h O)|].
        exact (occurs_known known f (proj1 (v_conds _ _ V j f Cj')) h O).
      + cbn in C, N. rewrite E. intro Q. injection Q as <- <-. cbn. rewrite BACK.
        assert (O' : occurs h e). { destruct (CW' j f C) as [[_ ->]|Cj']; [exact O|]. exfalso. apply N. exact (proj2 (v_conds _ _ V j f Cj') h O). }
        split; [apply (sc_foreign s i e h _ Cn O' N); repeat split|]. split; [discriminate|]. split; [discriminate|]. intros _ _.
        destruct V as [G K SM CL CW AC' N' SI SO GR F]. constructor; auto. cbn. discriminate.
      + cbn in AC, H, IN, ORD. rewrite E. intro Q. injection Q as <- <-.
        split; [apply (sc_ok s i e conds'); auto; [|repeat split]|].
        { intros h O. apply (H n e h); [exact (proj1 (proj2 CO))|exact O]. }
        split; [intros _|split; [discriminate|congruence]].
        destruct V as [G K SM CL CW AC' N' SI SO GR F]. constructor; auto; cbn.
        * unfold conds'. now rewrite update_length.
        * intros j f Cj. split; [|intros h O; exact (H j f h Cj O)]. destruct (CW' j f Cj) as [[_ ->]|Cj']; [exact We|exact (proj1 (CW j f Cj'))].
        * intro j. rewrite IN. unfold everything. pose proof (acyclic_untangled _ _ j AC). tauto.
        * intros; exact Logic.I.
        * revert F. apply Forall_impl. intros f [Wf Pf]. split; [exact Wf|]. apply (past_more (s_params s) _ (s_conds s) _ f); auto. exists []. now rewrite app_nil_r.
      + cbn in NA, H, IN, ORD. rewrite E. intro Q. injection Q as <- <-. cbn. rewrite BACK.
        split; [apply (sc_cycle s i e conds'); auto; [|repeat split]|].
        { intros h O. apply (H n e h); [exact (proj1 (proj2 CO))|exact O]. }
        split; [discriminate|]. split; [|congruence]. intros _ conds'' CO'. rewrite (conditioned_unique _ _ _ _ _ CO' CO).
        destruct V as [G K SM CL CW AC' N' SI SO GR F]. constructor; auto; cbn; [|discriminate].
        intros l1 a l2 b E' R. apply (ORD l1 a l2 b E'). exact (reads_more _ _ _ b a SUB R).
    - intro E. injection E as <- <-. split; [apply sc_range|split; [discriminate|]; split; [discriminate|]; auto].
      apply nth_error_None in Cn. unfold lenZ, n in *. lia.
  Qed.

  (** *** Clauses *)
  Lemma defaults_wf S s : sinv S s -> Forall wf_datum (defaults heap (s_params s)).
  Proof.
    intro V. apply Forall_forall. intros d Hd. apply in_map_iff in Hd. destruct Hd as (h & <- & Hh).
    apply (created_default_wf jen), KN. exact (proj1 (v_known _ _ V h Hh)).
  Qed.
  Lemma default_spec S s : sinv S s ->
    (exists vs, get_default_configuration heap jen s = Ok vs /\
      solves heap (s_params s) (s_conds s) S (defaults heap (s_params s)) vs /\ Forall wf_datum vs) \/
    unsettled heap (s_params s) (s_conds s) S (defaults heap (s_params s)) (get_default_configuration heap jen s).
  Proof.
    intro V. unfold get_default_configuration. fold (defaults heap (s_params s)).
    apply (set_actives_spec heap jen known KN s (v_good _ _ V) (v_len _ _ V) (fun i e C => proj1 (v_conds _ _ V i e C)) S (v_nodup _ _ V) (v_in _ _ V) (v_order _ _ V)).
    - apply map_length.
    - exact (defaults_wf S s V).
  Qed.
  Lemma clause_spec S s e : sinv S s -> wf_expr known e -> forall r s', add_forbidden_clause heap jen s e = (r, s') ->
    adds_clause heap S s e r s' /\ sinv S s'.
  Proof.
    intros V We r s'. unfold add_forbidden_clause.
    destruct (check_context_spec heap e (Some (s_ctx s)) (s_params s)) as [(_ & IN & E)|[(Q & _)|(_ & (h & O & N) & E)]].
    { intros h O. apply KP. exact (occurs_known known e We h O). }
    { intros c Hc. injection Hc as <-. exact (good_describes heap _ _ (v_good _ _ V)). }
    - rewrite E. cbn [bind]. specialize (IN ltac:(discriminate)).
      destruct (default_spec S s V) as [(vs & D & SV & W)|US].
      + rewrite D. cbn [bind].
        destruct (seval_cases heap jen known KN s (v_good _ _ V) vs e W We) as [(d & R & T & H)|[(d & R & T & H)|[(x & R & H)|(x & R & H)]]]; rewrite R; cbn [bind].
        * rewrite T. cbn. intro Q. injection Q as <- <-. split; [exact (ac_forbids heap S s e vs IN SV H)|exact V].
        * rewrite T. cbn. intro Q. injection Q as <- <-. split; [apply (ac_ok heap S s e vs); auto; repeat split|].
          destruct V as [G K SM CL CW AC N SI SO GR F]. constructor; auto. cbn. apply Forall_app. split; [exact F|]. constructor; [|constructor].
          split; [exact We|]. exists (s_ctx s), (s_params s), [], (s_conds s), (s_sorted s), vs, d.
          split; [now rewrite app_nil_r|]. split; [exact G|]. split; [exact CW|]. split; [auto|]. split; [exact W|].
          split; [|split; [exact IN|split; [exact R|exact T]]].
          destruct SV as [L SV]. split; [exact L|]. intros i Hi. specialize (SV i Hi). unfold settled in *.
          unfold defaults in Hi. rewrite map_length in Hi.
          destruct (nth_error (s_conds s) i) as [[f|]|]; auto. destruct SV as [S1 S2]. split; intro Q.
          -- apply S1. now apply SI.
          -- apply S2. intro X. apply Q, SI. auto.
        * intro Q. injection Q as <- <-. split; [exact (ac_stuck heap S s e vs _ IN SV (H unit))|exact V].
        * intro Q. injection Q as <- <-. split; [exact (ac_stuck heap S s e vs _ IN SV (H unit))|exact V].
      + destruct (get_default_configuration heap jen s) as [vs|c|u] eqn:D; cbn [bind].
        * exfalso. destruct US as (u & j & f & _ & _ & _ & _ & _ & (r' & _ & X)). destruct r'; exact X.
        * intro Q. injection Q as <- <-. split; [|exact V]. apply ac_condition; [exact IN|].
          destruct US as (u & j & f & U1 & U2 & U3 & U4 & U5 & (r' & U6 & U7)). exists u, j, f. repeat (split; [assumption|]). exists r'. split; [exact U6|]. destruct r'; exact U7.
        * intro Q. injection Q as <- <-. split; [|exact V]. apply ac_condition; [exact IN|].
          destruct US as (u' & j & f & U1 & U2 & U3 & U4 & U5 & (r' & U6 & U7)). exists u', j, f. repeat (split; [assumption|]). exists r'. split; [exact U6|]. destruct r'; exact U7.
    - discriminate.
    - rewrite E. cbn [bind]. intro Q. injection Q as <- <-. split; [exact (ac_foreign heap S s e h O N)|exact V].
  Qed.
  Lemma clauses_spec S l : forall s, sinv S s -> Forall (wf_expr known) l -> forall r s', add_forbidden_clauses heap jen s l = (r, s') ->
    adds_clauses heap S s l r s' /\ sinv S s'.
  Proof.
    induction l as [|e l IH]; intros s V W r s' E; cbn [add_forbidden_clauses] in E.
    - injection E as <- <-. split; [constructor|exact V].
    - inversion W as [|? ? We Wl]; subst. destruct (add_forbidden_clause heap jen s e) as [r1 s1] eqn:E1.
      destruct (clause_spec S s e V We r1 s1 E1) as [A1 V1]. destruct r1 as [[]|c|u].
      + destruct (IH s1 V1 Wl r s' E) as [A2 V2]. split; [exact (acs_ok heap S s e s1 l r s' A1 A2)|exact V2].
      + injection E as <- <-. split; [|exact V1]. apply acs_fail; [exact A1|discriminate].
      + injection E as <- <-. split; [|exact V1]. apply acs_fail; [exact A1|discriminate].
  Qed.
End Reach.
