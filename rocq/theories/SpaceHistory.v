(** Proofs about configuration spaces: histories and the default configuration. *)
From Coq Require Import ZArith List Bool Lia Relations.
From Verif Require Import Base Datum CodecModel CmpModel CmpSpec ParamModel ParamSpec ParamProofs ContextModel ContextSpec ContextProofs.
From Verif Require Import ExprModel ExprSpec ExprProofs ExprLemmas ExprSem SpaceModel SpaceSpec SpaceGraph SpaceProofs SpaceLemmas SpaceCheck SpaceReach SpaceDist.
Import ListNotations.
Open Scope Z_scope.

Lemma nodup_names heap A : NoDup (map (name_of heap) A) -> NoDup A.
Proof. apply NoDup_map_inv. Qed.

Section History.
  Variable heap : Z -> param.
  Variable jen : list Z -> Z.
  Variable known : Z -> Prop.
  Hypothesis KN : forall h, known h -> created jen (heap h).
  Hypothesis KP : forall h, known h -> 0 < h.
  Variable dimension : Z -> nat.
  Variable default_dist : Z -> Z.
  Hypothesis DD : forall h, dimension (default_dist h) = 1%nat.

  Lemma reads_extend A conds h : length conds = length A -> NoDup (A ++ [h]) ->
    (forall i e, nth_error conds i = Some (Some e) -> forall x, occurs x e -> In x A) ->
    forall j i, reads (A ++ [h]) (conds ++ [None]) j i -> reads A conds j i.
  Proof.
    intros L ND CW j i (e & x & C & P & O). assert (Li : (i < length conds)%nat).
    { destruct (Nat.lt_ge_cases i (length conds)) as [Q|Q]; [exact Q|]. rewrite nth_error_app2 in C by exact Q.
      destruct (i - length conds)%nat as [|[|k]]; discriminate. }
    rewrite nth_error_app1 in C by exact Li. exists e, x. split; [exact C|]. split; [|exact O].
    pose proof (CW i e C x O) as Ix. apply In_nth_error in Ix. destruct Ix as [k K].
    assert (K' : nth_error (A ++ [h]) k = Some x) by (rewrite nth_error_app1; [exact K|apply nth_error_Some; congruence]).
    assert (k = j) as ->; [|exact K]. rewrite NoDup_nth_error in ND. apply ND; [apply nth_error_Some; congruence|congruence].
  Qed.
  Lemma add_spec S s h d r s' : sinv heap jen known S s -> dinv dimension (fun _ => False) s -> known h -> lenZ (s_params s) + 1 < 2 ^ 32 ->
    space_add heap dimension default_dist s h d = (r, s') ->
    adds_parameter heap dimension default_dist s h d r s' /\
    sinv heap jen known (fun i => S i \/ i = length (s_params s)) s' /\ dinv dimension (fun _ => False) s'.
  Proof.
    intros V W Kh SM. unfold space_add. set (dim := option_map (fun d => Z.of_nat (dimension d)) d).
    destruct (ContextProofs.add_spec heap KConfiguration (s_ctx s) (s_params s) h dim (v_good _ _ _ _ _ V)) as (r0 & B & AD & E1 & G).
    assert (NM : c_name (snd (add_parameter heap KConfiguration (s_ctx s) h dim)) = c_name (s_ctx s)).
    { unfold add_parameter. destruct (p_type (heap h) =? PSTRING); [reflexivity|]. destruct (find_name _ _); [reflexivity|].
      destruct dim as [z|]; [|reflexivity]. now destruct (z =? 1). }
    destruct (add_parameter heap KConfiguration (s_ctx s) h dim) as [r1 c]. cbn [fst snd] in E1, G, NM. subst r1. unfold CCS_RESULT_SUCCESS.
    destruct (Z.eqb_spec r0 0) as [-> |NZ]; intro E; injection E as <- <-.
    - assert (NST : p_type (heap h) <> PSTRING) by (inversion AD; subst; tauto).
      assert (DM : dim = None \/ dim = Some 1) by (inversion AD; subst; auto).
      assert (EB : B = s_params s ++ [h]) by (inversion AD; reflexivity). subst B. pose proof G as (GP & _ & GN).
      pose proof (nodup_names heap _ GN) as ND.
      set (A := s_params s) in *. set (n := length A) in *.
      assert (RE : forall j i, reads (A ++ [h]) (s_conds s ++ [None]) j i -> reads A (s_conds s) j i).
      { apply reads_extend; auto; [exact (v_len _ _ _ _ _ V)|]. intros i e C. exact (proj2 (v_conds _ _ _ _ _ V i e C)). }
      assert (CI : forall i e, nth_error (s_conds s ++ [None]) i = Some (Some e) -> nth_error (s_conds s) i = Some (Some e)).
      { intros i e C. destruct (Nat.lt_ge_cases i (length (s_conds s))) as [Q|Q]; [now rewrite nth_error_app1 in C|].
        rewrite nth_error_app2 in C by exact Q. destruct (i - length (s_conds s))%nat as [|[|k]]; discriminate. }
      assert (NS : ~ In n (s_sorted s)). { intro Q. apply (v_in _ _ _ _ _ V) in Q. unfold n in Q. fold A in Q. lia. }
      split; [|split].
      + apply ap_ok; auto. cbn. rewrite map_app. reflexivity.
      + constructor; unfold s_params; cbn; rewrite ?GP; auto.
        * intros x X. apply in_app_or in X. destruct X as [X|[<- | []]]; [exact (v_known _ _ _ _ _ V x X)|auto].
        * unfold lenZ in *. rewrite app_length. cbn. lia.
        * rewrite !app_length. cbn. rewrite (v_len _ _ _ _ _ V). reflexivity.
        * intros i e C. destruct (v_conds _ _ _ _ _ V i e (CI i e C)) as [We Oe]. split; [exact We|]. intros x O. apply in_or_app. left. exact (Oe x O).
        * intros i D. apply (v_acyclic _ _ _ _ _ V i). revert D. apply ct_mono. exact RE.
        * apply nodup_app; [exact (v_nodup _ _ _ _ _ V)|constructor; [intros []|constructor]|]. intros x X [<- | []]. contradiction.
        * intro i. rewrite in_app_iff, app_length, (v_in _ _ _ _ _ V). cbn. fold A. unfold n. split.
          -- intros [[L X]|[<- | []]]; (split; [lia|tauto]).
          -- intros [L [X| ->]]; [|right; now left]. destruct (Nat.eq_dec i (length A)) as [-> |NE]; [right; now left|left; split; [lia|exact X]].
        * intros l1 i l2 j EQ R. destruct (exists_last_or l2) as [-> |(l2' & y & ->)].
          -- apply app_inj_tail in EQ. destruct EQ as [<- <-]. exfalso. apply RE in R. destruct R as (e & x & C & _).
             assert ((n < length (s_conds s))%nat) by (apply nth_error_Some; congruence). rewrite (v_len _ _ _ _ _ V) in H. unfold n in H. fold A in H. lia.
          -- rewrite app_comm_cons, app_assoc in EQ. apply app_inj_tail in EQ. destruct EQ as [EQ _].
             exact (v_order _ _ _ _ _ V l1 i l2' j EQ (RE j i R)).
        * intros GO i L. rewrite app_length in L. cbn in L. destruct (Nat.eq_dec i n) as [-> |NE]; [now right|left].
          apply (v_graph _ _ _ _ _ V GO). unfold n in NE. fold A. lia.
        * pose proof (v_forb _ _ _ _ _ V) as F. revert F. apply Forall_impl. intros e [We Pe]. split; [exact We|].
          apply (past_more heap jen known A _ (s_conds s)); [now exists [h]| |exact Pe].
          intros i f C. rewrite nth_error_app1; [exact C|apply nth_error_Some; congruence].
      + destruct W as [A1 A2 A3 A4 A5 A6]. constructor; unfold component, s_params in *; cbn; rewrite ?GP.
        * rewrite map_app. cbn. apply nodup_app; [exact A1|constructor; [intros []|constructor]|].
          intros x X [<- | []]. apply in_map_iff in X. destruct X as (w & E & X). specialize (A2 w X). lia.
        * intros w X. apply in_app_or in X. destruct X as [X|[<- | []]]; [specialize (A2 w X); lia|cbn; lia].
        * rewrite !app_length. cbn. rewrite A3. reflexivity.
        * intros w k i [X K]. split; [|auto]. apply in_app_or in X. destruct X as [X|[<- | []]].
          -- destruct (A4 w k i (conj X K)) as [E _]. rewrite nth_error_app1; [exact E|]. apply nth_error_Some. congruence.
          -- cbn in K |- *. destruct k as [|k]; [injection K as <-|destruct k; discriminate]. unfold n, A, s_params. rewrite <- A3, nth_error_app2, Nat.sub_diag; [reflexivity|lia].
        * intros i L _. rewrite app_length in L. cbn in L. destruct (Nat.eq_dec i n) as [-> |NE].
          -- exists (mkDW (s_next s) match d with Some d0 => d0 | None => default_dist h end [n]), O. split; [apply in_or_app; right; now left|reflexivity].
          -- destruct (A5 i) as (w & k & X & K); [unfold n, A, s_params in *; lia|auto|]. exists w, k. split; [apply in_or_app; now left|exact K].
        * apply Forall_app. split; [exact A6|]. constructor; [|constructor]. cbn. destruct d as [z|]; [|now rewrite DD].
          unfold dim in DM. cbn in DM. destruct DM as [DM|DM]; [discriminate|]. injection DM as DM. lia.
    - destruct (admits_code heap _ _ _ _ _ _ AD) as [? | [_ ->]]; [contradiction|]. split; [|split].
      + now apply ap_refused.
      + apply (sinv_ext heap jen known S); [|exact V]. intros i L. split; [auto|]. intros [X| ->]; [exact X|lia].
      + exact W.
  Qed.
  Lemma distribution_sinv S s d idx r s' : sets_distribution default_dist s d idx r s' -> sinv heap jen known S s -> sinv heap jen known S s'.
  Proof.
    intros SD V. destruct SD as [|kept gone orphans s' _ _ _ _ _ _ E1 E2 E3 E4 E5 E6]; [exact V|].
    destruct V as [G K SM CL CW AC N SI SO GR F]. unfold s_params in *. constructor; unfold s_params; rewrite ?E2, ?E3, ?E4, ?E5, ?E6; auto.
  Qed.

  Variable rng : Type.
  Variable draw : Z -> list Z -> rng -> res (list datum) * rng.
  Lemma new_sinv self name : sinv heap jen known everything (new_space self name).
  Proof.
    constructor; cbn; auto.
    - apply good_new.
    - intros h [].
    - reflexivity.
    - intros [|i] e; discriminate.
    - intros i D. apply clos_trans_t1n in D. inversion D as [? (e & x & C & _)|? ? (e & x & C & _)]; [destruct i|destruct y]; discriminate.
    - constructor.
    - intro i. split; [intros []|intros [L _]; lia].
    - intros l1 i l2 j E. destruct l1; discriminate.
    - intros _ i L. lia.
  Qed.
  Lemma same_next s s' : same_space s s' -> dinv dimension (fun _ => False) s -> dinv dimension (fun _ => False) s'.
  Proof. apply dinv_same. Qed.
  Lemma check_values_state s vs r s' s1 : ensure_graph s = (Ok tt, s1) -> check_configuration_values heap jen s vs = (r, s') -> s' = s1.
  Proof. unfold check_configuration_values. intros ->. intro E. now injection E. Qed.
  Lemma reach_inv S s : reach heap jen dimension default_dist rng draw known S s -> sinv heap jen known S s /\ dinv dimension (fun _ => False) s.
  Proof.
    induction 1 as [self name|S s h d r s' H [V W] K SM E|S s d idx r s' H [V W] L E|S s i e s' H [V W] We E|S s i e s' r H [V W] We E N1 N2
      |S s i e s' conds' H [V W] We E CO|S s e r s' H [V W] We E|S s owner vs r s' H [V W] E OW|S s vs r s' H [V W] E|S s g r g' s' H [V W] E|S s n g arr r arr' g' s' H [V W] NZ E].
    - split; [apply new_sinv|apply new_dinv].
    - exact (proj2 (add_spec S s h d r s' V W K SM E)).
    - destruct (set_distribution_spec dimension default_dist DD s d idx r s' W L E) as [SD W']. split; [exact (distribution_sinv S s d idx r s' SD V)|exact W'].
    - destruct (condition_spec heap jen known KN KP S s i e V We _ s' E) as (SC & V1 & _). split; [auto|].
      inversion SC as [| | | |conds' s0 X1 X2 X3 X4 X5 X6]; subst. apply (dinv_same dimension _ s' X6). destruct W; constructor; auto.
    - destruct (condition_spec heap jen known KN KP S s i e V We _ s' E) as (SC & _ & _ & V1). split; [auto|].
      inversion SC as [| | h s0 X1 X2 X3 X4 | | ]; subst; auto; [exact (dinv_same dimension s s' X4 W)|contradiction..].
    - destruct (condition_spec heap jen known KN KP S s i e V We _ s' E) as (SC & _ & V1 & _). split; [auto|].
      inversion SC as [| | |conds0 s0 X1 X2 X3 X4 X5| ]; subst. exact (dinv_same dimension s s' X5 W).
    - destruct (clause_spec heap jen known KN KP S s e V We r s' E) as [AC V1]. split; [exact V1|].
      destruct AC as [| | | |vs s0 X1 X2 X3 X4 X5]; auto. apply (dinv_same dimension _ s0 X5). destruct W; constructor; auto.
    - destruct (ensure_spec heap jen known KP S s V) as (s1 & E1 & V1 & SS). unfold check_configuration in E. subst owner. rewrite Z.eqb_refl in E.
      rewrite (check_values_state s vs r s' s1 E1 E). split; [exact V1|exact (dinv_same dimension s s1 SS W)].
    - destruct (ensure_spec heap jen known KP S s V) as (s1 & E1 & V1 & SS).
      rewrite (check_values_state s vs r s' s1 E1 E). split; [exact V1|exact (dinv_same dimension s s1 SS W)].
    - destruct (ensure_spec heap jen known KP S s V) as (s1 & E1 & V1 & SS). unfold sample in E. rewrite E1 in E. injection E as _ <-.
      split; [exact V1|exact (dinv_same dimension s s1 SS W)].
    - destruct (ensure_spec heap jen known KP S s V) as (s1 & E1 & V1 & SS). unfold samples in E. destruct n as [|n]; [contradiction|]. rewrite E1 in E.
      destruct (samples_loop _ _ _ _ _ _ _ _ _ _) as [[r0 f0] g0]. injection E as _ _ _ <-.
      split; [exact V1|exact (dinv_same dimension s s1 SS W)].
  Qed.

  (** *** The default configuration and the clauses *)
  Lemma fading s v e : sinv heap jen known everything s -> In e (s_forbidden s) ->
    solves heap (s_params s) (s_conds s) everything (defaults heap (s_params s)) v -> ~ holds heap (s_params s) v e.
  Proof.
    intros V IF SV HO.
    assert (Wv : Forall wf_datum v).
    { exact (solves_wf heap s (v_len _ _ _ _ _ V) everything (v_in _ _ _ _ _ V) _ _ (defaults_wf heap jen known KN everything s V) SV). }
    pose proof (v_forb _ _ _ _ _ V) as F. rewrite Forall_forall in F. destruct (F e IF) as [We (c0 & A0 & A1 & conds0 & sorted0 & u & d & EA & G0 & CW0 & SUB & Wu & SU & OC & EV & T)].
    pose proof (v_good _ _ _ _ _ V) as G. pose proof (good_describes heap _ _ G) as D. pose proof (good_describes heap _ _ G0) as D0.
    assert (Ix : forall h i, nth_error A0 i = Some h -> nth_error (s_params s) i = Some h).
    { intros h i X. rewrite EA, nth_error_app1; [exact X|apply nth_error_Some; congruence]. }
    assert (VE : forall h i, nth_error A0 i = Some h -> (forall a b, nth_error u i = Some a -> nth_error v i = Some b -> fades a b) ->
      mono (var_eval (Some c0) (Some u) h) (var_eval (Some (s_ctx s)) (Some v) h)).
    { intros h i X FA. unfold var_eval, mono. rewrite (desc_index heap c0 A0 D0 h i X), (desc_index heap _ _ D h i (Ix h i X)). cbn [bind].
      intros a b Ea Eb. apply FA; [destruct (nth_error u i)|destruct (nth_error v i)]; congruence. }
    destruct SU as [LU SU]. destruct SV as [LV SV]. unfold defaults in LU, LV, SU, SV. rewrite map_length in LU, LV, SU, SV.
    assert (FADE : forall i, In i (s_sorted s) -> (i < length A0)%nat -> forall a b, nth_error u i = Some a -> nth_error v i = Some b -> fades a b).
    { apply (order_ind (s_params s) (s_conds s) (s_sorted s) (v_order _ _ _ _ _ V) (fun i => (i < length A0)%nat -> forall a b, nth_error u i = Some a -> nth_error v i = Some b -> fades a b)).
      intros i Ii IH L a b Ea Eb. specialize (SU i L).
      assert (L' : (i < length (s_params s))%nat) by (rewrite EA, app_length; lia). specialize (SV i L').
      assert (DEF : nth_error (map (fun h => p_default (heap h)) A0) i = nth_error (map (fun h => p_default (heap h)) (s_params s)) i).
      { rewrite EA, map_app, nth_error_app1; [reflexivity|now rewrite map_length]. }
      assert (VI : nth_error v i = nth_error (map (fun h => p_default (heap h)) (s_params s)) i \/ nth_error v i = Some inactive).
      { unfold settled in SV. destruct (nth_error (s_conds s) i) as [[f|]|]; auto. destruct SV as [SV _]. destruct (SV Logic.I) as [[_ X]|[_ X]]; auto. }
      assert (KEEP : nth_error u i = nth_error (map (fun h => p_default (heap h)) A0) i -> fades a b).
      { intro X. destruct VI as [Y|Y]; [left; congruence|]. right. rewrite Y in Eb. injection Eb as <-. reflexivity. }
      unfold settled in SU. destruct (nth_error conds0 i) as [[f|]|] eqn:C0; auto.
      destruct SU as [S1 S2]. destruct (in_dec Nat.eq_dec i sorted0) as [J|J]; [|auto]. destruct (S1 J) as [[_ X]|[FU X]]; [auto|].
      rewrite X in Ea. injection Ea as <-.
      pose proof (SUB i f C0) as C1. unfold settled in SV. rewrite C1 in SV. destruct SV as [SV _]. destruct (CW0 i f C0) as [Wf Of].
      destruct (SV Logic.I) as [[HV Y]|[_ Y]]; [|left; congruence]. exfalso.
      apply (holds_ev heap jen known KN _ _ G v f Wv Wf) in HV. apply (fails_ev heap jen known KN _ _ G0 u f Wu Wf) in FU.
      destruct HV as (dv & HV & TV), FU as (du & FU & TU).
      assert (M : fades du dv).
      { apply (eval_mono heap jen (Some c0) (Some u) (Some (s_ctx s)) (Some v) f); auto. intros h O. pose proof (Of h O) as Ih. apply In_nth_error in Ih.
        destruct Ih as [k K]. apply (VE h k K). apply IH; [|apply nth_error_Some; congruence].
        exists f, h. split; [exact C1|]. split; [exact (Ix h k K)|exact O]. }
      destruct M as [-> | M]; [congruence|]. apply is_true_iff in TV. congruence. }
    apply (holds_ev heap jen known KN _ _ G v e Wv We) in HO. destruct HO as (dv & HO & TV).
    assert (M : fades d dv).
    { apply (eval_mono heap jen (Some c0) (Some u) (Some (s_ctx s)) (Some v) e); auto. intros h O. pose proof (OC h O) as Ih. apply In_nth_error in Ih.
      destruct Ih as [k K]. apply (VE h k K). assert (LK : (k < length A0)%nat) by (apply nth_error_Some; congruence). apply FADE; [|exact LK].
      apply (v_in _ _ _ _ _ V). split; [rewrite EA, app_length; lia|exact Logic.I]. }
    destruct M as [-> | M]; [congruence|]. apply is_true_iff in TV. congruence.
  Qed.
End History.
