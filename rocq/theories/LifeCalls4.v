(** Calls that change an object. *)
From Coq Require Import ZArith List Bool Lia.
From Verif Require Import Base LifeModel LifeSpec LifeProofs LifeOps LifeCalls LifeCalls2 LifeCalls3.
Import ListNotations.
Open Scope Z_scope.

(** ** States that are the same *)

Lemma ok_objs : forall s s' e, s_objs s' = s_objs s -> ok s e -> ok s' e.
Proof.
  intros s s' e E O. unfold ok, counted, sound_but, live, held in *.
  assert (L : forall x, look s' x = look s x) by (now apply look_objs).
  destruct O as [C S]. split.
  - intros x. rewrite L, E. apply C.
  - intros y o [Ly P]. rewrite L in Ly. destruct (S y o (conj Ly P)) as (F & Cv & W).
    split; auto. split; auto. intros x t I. destruct (W x t I) as (ox & [Lx Px] & T).
    exists ox. rewrite L. auto.
Qed.

Lemma same_undisturbed : forall s s', s_objs s' = s_objs s -> s_log s' = s_log s -> undisturbed s s'.
Proof.
  intros s s' E Lg. assert (L : forall x, look s' x = look s x) by (now apply look_objs).
  split; auto. constructor.
  - now rewrite (size_objs _ _ E).
  - intros h o [Lo P]. exists (o_ref o). split; auto. rewrite L, Lo. now destruct o.
  - auto.
  - exists []. rewrite app_nil_r. split; auto. split; auto.
    intros h G. rewrite L, look_big, (size_objs _ _ E) by auto.
    destruct (Nat.ltb_spec h (size s)); [lia|reflexivity].
  - intros h o G Lh. rewrite L, look_big in Lh by auto. discriminate.
Qed.

Lemma wp_retain_exact : forall s h o (Q : unit -> st -> Prop) (F : Z -> st -> Prop),
  live s h o -> Q tt (put s h (Some (with_ref o (o_ref o + 1)))) -> wp (retain (Some h)) s Q F.
Proof.
  intros s h o Q F [L P] H. unfold retain. apply wp_bind. eapply wp_deref; eauto.
  apply wp_bind. apply wp_refute; intros E; [apply Z.leb_le in E; lia|].
  destruct (o_ref o =? INT32_MAX); [reflexivity|]. exact H.
Qed.

Lemma wp_drop_many : forall s h o (Q : unit -> st -> Prop) (F : Z -> st -> Prop),
  look s h = Some o -> 1 < o_ref o -> Q tt (put s h (Some (with_ref o (o_ref o - 1)))) ->
  wp (drop h) s Q F.
Proof.
  intros s h o Q F L P H. apply wp_ignore. unfold release. cbn [release_n]. unfold wp.
  cbv beta. unfold bindp at 1. rewrite (deref_look _ _ _ L). unfold bindp at 1. unfold refutep.
  destruct (Z.leb_spec (o_ref o) 0); [lia|]. unfold ret at 1. unfold bindp at 1. unfold store at 1.
  destruct (Z.eqb_spec (o_ref o - 1) 0); [lia|]. exact H.
Qed.

(** Taking a reference, changing an object and undoing both. *)
Lemma wp_undo : forall s h oh x ox p (Q : unit -> st -> Prop) (F : Z -> st -> Prop),
  live s h oh -> look s x = Some ox ->
  (forall s', s_objs s' = s_objs s -> s_log s' = s_log s -> Q tt s') ->
  wp (retain (Some h) ;;; set_data x p ;;; drop h ;;; set_data x (o_data ox)) s Q F.
Proof.
  intros s h oh x ox p Q F Lh Lx H. assert (h < size s)%nat as Sh by (eapply look_lt; apply Lh).
  assert (x < size s)%nat as Sx by (eapply look_lt; eauto).
  apply wp_bind. eapply wp_retain_exact; [exact Lh|]. destruct Lh as [Lh Ph].
  set (s1 := put s h _).
  assert (L1 : forall y, look s1 y = if Nat.eq_dec y h then Some (with_ref oh (o_ref oh + 1)) else look s y)
    by (intros; unfold s1; now rewrite look_put).
  assert (exists o1, look s1 x = Some o1 /\ o_ref o1 = o_ref ox + is x h /\ o_type o1 = o_type ox /\
                     o_cbs o1 = o_cbs ox /\ o_data o1 = o_data ox) as (o1 & X1 & R1 & T1 & C1 & D1).
  { rewrite L1. unfold is. destruct (Nat.eq_dec x h) as [->|].
    - rewrite Lx in Lh. inversion Lh; subst. eexists. split; [reflexivity|]. cbn. auto.
    - exists ox. repeat split; auto. lia. }
  apply wp_bind. eapply wp_set_data; [exact X1|]. set (s2 := put s1 x _).
  assert (L2 : forall y, look s2 y = if Nat.eq_dec y x then Some (with_data o1 p) else look s1 y).
  { intros; unfold s2. rewrite look_put; auto. unfold s1. now rewrite size_put. }
  assert (exists o2, look s2 h = Some o2 /\ o_ref o2 = o_ref oh + 1 /\ o_type o2 = o_type oh /\
                     o_cbs o2 = o_cbs oh /\ (h <> x -> o_data o2 = o_data oh)) as (o2 & X2 & R2 & T2 & C2 & D2).
  { rewrite L2. destruct (Nat.eq_dec h x) as [->|N].
    - rewrite Lx in Lh. inversion Lh; subst oh. eexists. split; [reflexivity|]. cbn.
      rewrite is_same in R1. repeat split; auto. easy.
    - rewrite L1. destruct (Nat.eq_dec h h); [|easy]. eexists. split; [reflexivity|]. cbn. auto. }
  apply wp_bind. eapply wp_drop_many; [exact X2|lia|]. set (s3 := put s2 h _).
  assert (Sz2 : size s2 = size s) by (unfold s2, s1; now rewrite !size_put).
  assert (L3 : forall y, look s3 y = if Nat.eq_dec y h then Some (with_ref o2 (o_ref o2 - 1)) else look s2 y).
  { intros; unfold s3. rewrite look_put; auto. now rewrite Sz2. }
  assert (exists o3, look s3 x = Some o3 /\ o_ref o3 = o_ref ox /\ o_type o3 = o_type ox /\
                     o_cbs o3 = o_cbs ox) as (o3 & X3 & R3 & T3 & C3).
  { rewrite L3. destruct (Nat.eq_dec x h) as [->|N].
    - eexists. split; [reflexivity|]. cbn. rewrite Lx in Lh. inversion Lh; subst oh. repeat split; auto. lia.
    - rewrite L2. destruct (Nat.eq_dec x x); [|easy]. eexists. split; [reflexivity|]. cbn.
      rewrite is_other in R1 by auto. repeat split; auto. lia. }
  eapply wp_set_data; [exact X3|]. set (s4 := put s3 x _).
  assert (L4 : forall y, look s4 y = if Nat.eq_dec y x then Some (with_data o3 (o_data ox)) else look s3 y).
  { intros; unfold s4. rewrite look_put; auto. unfold s3. now rewrite size_put, Sz2. }
  apply H; [|reflexivity]. apply st_ext.
  - unfold s4, s3. now rewrite !size_put, Sz2.
  - intros y. rewrite L4. destruct (Nat.eq_dec y x) as [->|N].
    + rewrite Lx. f_equal. destruct o3, ox; unfold with_data; cbn in *; congruence.
    + rewrite L3. destruct (Nat.eq_dec y h) as [->|N'].
      * rewrite Lh. f_equal. specialize (D2 N). destruct o2, oh; unfold with_ref; cbn in *. f_equal; try congruence. lia.
      * rewrite L2. destruct (Nat.eq_dec y x); [easy|]. rewrite L1. now destruct (Nat.eq_dec y h).
Qed.

(** ** Shapes *)

Ltac check h o L T :=
  apply wp_bind; apply wp_check; [assumption|try failing_|intros h o -> L T].

Lemma wants_space : forall y T ps cl ds rg,
  In (y, T) (wants T_CONFIGURATION_SPACE (PSpace ps cl ds rg)) <->
  (T = T_PARAMETER /\ In y (map fst ps)) \/ (T = T_EXPRESSION /\ exists w, In w ps /\ snd w = Some y) \/
  (T = T_EXPRESSION /\ In y cl) \/ (T = T_DISTRIBUTION /\ In y (map fst ds)) \/ (T = T_RNG /\ y = rg).
Proof.
  intros. cbn [wants]. rewrite !in_app_iff.
  assert (M : forall (l : list handle) U, In (y, T) (map (fun x => (x, U)) l) <-> T = U /\ In y l).
  { intros l U. rewrite in_map_iff. split.
    - intros (z & [= <- <-] & I). auto.
    - intros (-> & I). eauto. }
  rewrite !M. rewrite <- (map_map fst (fun x => (x, T_DISTRIBUTION))), M, in_flat_map.
  assert (E1 : (exists w : handle * option handle, In w ps /\
             In (y, T) match snd w with Some x => [(x, T_EXPRESSION)] | None => [] end) <->
          (T = T_EXPRESSION /\ exists w, In w ps /\ snd w = Some y)).
  { split.
    - intros (w & I & H). destruct (snd w) eqn:E; [|easy]. destruct H as [H|[]]. injection H as <- <-. eauto.
    - intros (-> & w & I & E). exists w. split; auto. rewrite E. now left. }
  rewrite E1. cbn [In].
  assert (E2 : (rg, T_RNG) = (y, T) \/ False <-> T = T_RNG /\ y = rg).
  { split; [intros [[= <- <-]|[]]; auto|intros (-> & ->); auto]. }
  rewrite E2. tauto.
Qed.


Ltac shape F D :=
  destruct D; cbn in F; try (exfalso; clear -F; compute in F; intuition discriminate); eauto 8.

Lemma sum_one : forall A (f : A -> Z) a, sum f [a] = f a.
Proof. intros. unfold sum. cbn. lia. Qed.

Section Calls.
Variables (s0 : st) (e0 : handle -> Z).
Hypothesis O0 : ok s0 e0.
Let A0 : at_ s0 e0 s0 := at_refl s0 e0 O0.

Lemma fits_live : forall h o, live s0 h o -> fits (o_type o) (o_data o).
Proof. intros h o L. exact (proj1 (proj2 O0 h o L)). Qed.
Lemma covered_live : forall h o, live s0 h o -> covered (o_data o).
Proof. intros h o L. exact (proj1 (proj2 (proj2 O0 h o L)) eq_refl). Qed.
Lemma wants_live : forall h o, live s0 h o -> forall x t, In (x, t) (wants (o_type o) (o_data o)) ->
  exists ox, live s0 x ox /\ o_type ox = t.
Proof. intros h o L. exact (proj2 (proj2 (proj2 O0 h o L))). Qed.

Lemma space_shape : forall h o, live s0 h o -> o_type o = T_CONFIGURATION_SPACE ->
  exists ps cl ds rg, o_data o = PSpace ps cl ds rg.
Proof. intros h o L T. pose proof (fits_live h o L) as F. rewrite T in F. shape F (o_data o). Qed.
Lemma context_shape : forall h o t, live s0 h o -> o_type o = t ->
  t = T_OBJECTIVE_SPACE \/ t = T_FEATURES_SPACE -> exists ps es, o_data o = PContext ps es.
Proof.
  intros h o t L <- H. pose proof (fits_live h o L) as F. destruct H as [H|H]; rewrite H in F; clear H; shape F (o_data o).
Qed.
Lemma tree_shape : forall h o, live s0 h o -> o_type o = T_TREE -> exists ch, o_data o = PTree ch.
Proof. intros h o L T. pose proof (fits_live h o L) as F. rewrite T in F. shape F (o_data o). Qed.
Lemma map_shape : forall h o, live s0 h o -> o_type o = T_MAP -> exists l, o_data o = PMap l.
Proof. intros h o L T. pose proof (fits_live h o L) as F. rewrite T in F. shape F (o_data o). Qed.
Lemma tree_space_shape : forall h o, live s0 h o -> o_type o = T_TREE_SPACE ->
  (exists r t, o_data o = PTreeSpace r t) \/ (exists c r t, o_data o = PUserTreeSpace c r t).
Proof. intros h o L T. pose proof (fits_live h o L) as F. rewrite T in F. shape F (o_data o). Qed.

(** The application owns it. *)
Definition own (x : option handle) : Prop := match x with Some h => 0 < e0 h | None => True end.
Lemma own_valid : forall x, own x -> valid s0 x.
Proof. intros [h|] H; cbn in *; auto. eapply ok_alive; eauto. Qed.

Definition changed_ (h : handle) (p : payload) (s1 : st) : Prop := ev_ s0 (Some (h, p)) e0 s1.

Lemma wp_get_at : forall e s h o (Q : payload -> st -> Prop) (F : Z -> st -> Prop),
  at_ s0 e s -> live s0 h o -> Q (o_data o) s -> wp (get_data h) s Q F.
Proof.
  intros e s h o Q F A L H. destruct (at_live _ _ _ _ _ A L) as (r & _ & Lr).
  eapply wp_get_data; [apply Lr|]. exact H.
Qed.

(** Changing the contents, from a state where nothing has changed. *)
Lemma wp_set_at : forall e e' s x o p (Q : unit -> st -> Prop) (F : Z -> st -> Prop),
  at_ s0 e s -> live s0 x o ->
  (forall y, e' y = e y + holds (o_data o) y - holds p y) ->
  (forall y, 0 <= e' y) ->
  fits (o_type o) p -> covered p ->
  (forall y T, In (y, T) (wants (o_type o) p) -> exists oy, live s y oy /\ o_type oy = T) ->
  (forall s', ev_ s0 (Some (x, p)) e' s' -> (forall y, y <> x -> look s' y = look s y) -> Q tt s') ->
  wp (set_data x p) s Q F.
Proof.
  intros e e' s x o p Q F A L E N Ft Cv W H.
  destruct (at_live _ _ _ _ _ A L) as (r & Pr & Lr).
  assert (W1 : wp (set_data x p) s (fun _ s' => ev_ s0 (Some (x, p)) e' s') (fun _ _ => False)).
  { eapply wp_set_ev; [apply at_ev; exact A|exact L|eexists; exact Lr|now left|exact E|exact N|exact Ft|auto|exact W|auto]. }
  assert (W2 : wp (set_data x p) s (fun _ s' => forall y, y <> x -> look s' y = look s y) (fun _ _ => False)).
  { eapply wp_set_data; [apply Lr|]. intros y Ny. rewrite look_put by (eapply look_lt; apply Lr).
    now destruct (Nat.eq_dec y x). }
  eapply wp_conseq; [apply (wp_and _ _ _ _ _ _ _ W1 W2)| |intros c s' [[] _]].
  intros [] s' [V Lk]. auto.
Qed.

(** *** Random number generators *)

Lemma space_set_rng_ok : forall x r, own x -> valid s0 r ->
  wp (space_set_rng x r) s0
     (fun _ s1 => exists h g o ps cl ds tmp, x = Some h /\ r = Some g /\ live s0 h o /\
        o_data o = PSpace ps cl ds tmp /\ changed_ h (PSpace ps cl ds g) s1)
     (failed_ s0 e0).
Proof.
  intros x r Ow V. pose proof (own_valid x Ow) as Vx. pose proof A0 as A. unfold space_set_rng.
  check h o L T. check g og Lg Tg. step1. step1.
  destruct (space_shape _ _ L T) as (ps & cl & ds & tmp & D).
  apply wp_bind. eapply wp_get_at; [eassumption|exact L|]. rewrite D. apply wp_bind.
  pose proof (wants_live _ _ L) as W. rewrite D, T in W.
  destruct (W tmp T_RNG) as (ot & Lt & Tt); [apply wants_space; intuition|].
  eapply wp_set_at with (e' := plus e0 tmp); [eassumption|exact L| | |rewrite T; reflexivity| | |].
  - intros y. rewrite D. cbn [holds]. unfold plus. lia.
  - intros y. unfold plus. nonneg. lia.
  - pose proof (covered_live _ _ L) as Cv. rewrite D in Cv. exact Cv.
  - rewrite T. intros y U I. apply wants_space in I.
    assert (exists oy, live s0 y oy /\ o_type oy = U) as (oy & Ly & Ty).
    { destruct I as [I|[I|[I|[I|(-> & ->)]]]]; eauto; apply W, wants_space; intuition. }
    eapply wants_at; eauto.
  - intros s1 V1 _.
    assert (alive s1 tmp) as (o1 & L1 & P1).
    { eapply ok_alive; [apply V1|]. unfold plus. rewrite is_same. nonneg. lia. }
    destruct (ev_target _ _ _ _ _ _ V1 Lt ltac:(exists o1; split; auto)) as (q & Pq & Lq).
    assert (contents (Some (h, PSpace ps cl ds g)) tmp (o_data ot) = PPlain) as Ct.
    { cbn. destruct (Nat.eq_dec tmp h) as [->|N].
      - exfalso. assert (o = ot) by (eapply live_fun; eauto). subst. rewrite T in Tt. discriminate.
      - apply (fits_plain T_RNG); [|auto]. rewrite <- Tt. eapply fits_live; eauto. }
    eapply wp_release_ev; [exact V1| | |split; [exact Lq|exact Pq]|cbn [o_data]; rewrite Ct; reflexivity|].
    + unfold plus. rewrite is_same. nonneg. lia.
    + intros y p [= <- <-]. cbn in Ow. unfold minus, plus. lia.
    + intros s2 V2. exists h, g, o, ps, cl, ds, tmp. split; auto. split; auto. split; auto. split; auto.
      eapply ev_ext; [|exact V2]. intros y. unfold plus, minus. lia.
Qed.

Lemma tree_space_set_rng_ok : forall x r, own x -> valid s0 r ->
  wp (tree_space_set_rng x r) s0
     (fun _ s1 => exists h g o p', x = Some h /\ r = Some g /\ live s0 h o /\
        ((exists tmp t, o_data o = PTreeSpace tmp t /\ p' = PTreeSpace g t) \/
         (exists c tmp t, o_data o = PUserTreeSpace c tmp t /\ p' = PUserTreeSpace c g t)) /\
        changed_ h p' s1)
     (failed_ s0 e0).
Proof.
  intros x r Ow V. pose proof (own_valid x Ow) as Vx. pose proof A0 as A. unfold tree_space_set_rng.
  check h o L T. check g og Lg Tg. step1. step1.
  assert (G : forall p p' tmp t, o_data o = p -> (forall y, holds p y = is y tmp + is y t) ->
    (forall y, holds p' y = is y g + is y t) -> fits T_TREE_SPACE p' -> covered p' ->
    wants T_TREE_SPACE p = [(tmp, T_RNG); (t, T_TREE)] ->
    wants T_TREE_SPACE p' = [(g, T_RNG); (t, T_TREE)] ->
    wp (set_data h p' ;;; release (Some tmp)) s'
       (fun _ s1 => changed_ h p' s1) (failed_ s0 e0)).
  { intros p p' tmp t D Hp Hp' Ft Cv Wp Wp'. apply wp_bind.
    pose proof (wants_live _ _ L) as W. rewrite D, T, Wp in W.
    destruct (W tmp T_RNG) as (ot & Lt & Tt); [now left|].
    destruct (W t T_TREE) as (ott & Ltt & Ttt); [right; now left|].
    eapply wp_set_at with (e' := plus e0 tmp); [eassumption|exact L| | |rewrite T; exact Ft|exact Cv| |].
    - intros y. rewrite D, Hp, Hp'. unfold plus. lia.
    - intros y. unfold plus. nonneg. lia.
    - rewrite T, Wp'. intros y U [I|[I|[]]]; injection I as <- <-; eapply wants_at; eauto.
    - intros s1 V1 _.
      assert (alive s1 tmp) as (o1 & L1 & P1).
      { eapply ok_alive; [apply V1|]. unfold plus. rewrite is_same. nonneg. lia. }
      destruct (ev_target _ _ _ _ _ _ V1 Lt ltac:(exists o1; split; auto)) as (q & Pq & Lq).
      assert (contents (Some (h, p')) tmp (o_data ot) = PPlain) as Ct.
      { cbn. destruct (Nat.eq_dec tmp h) as [->|N].
        - exfalso. assert (o = ot) by (eapply live_fun; eauto). subst. rewrite T in Tt. discriminate.
        - apply (fits_plain T_RNG); [|auto]. rewrite <- Tt. eapply fits_live; eauto. }
      eapply wp_release_ev; [exact V1| | |split; [exact Lq|exact Pq]|cbn [o_data]; rewrite Ct; reflexivity|].
      + unfold plus. rewrite is_same. nonneg. lia.
      + intros y q' [= <- <-]. cbn in Ow. unfold minus, plus. lia.
      + intros s2 V2. eapply ev_ext; [|exact V2]. intros y. unfold plus, minus. lia. }
  apply wp_bind. eapply wp_get_at; [eassumption|exact L|].
  destruct (tree_space_shape _ _ L T) as [(tmp & t & D)|(c & tmp & t & D)]; rewrite D.
  - eapply wp_conseq; [eapply G; eauto; reflexivity| |auto]. intros [] s1 C. exists h, g, o, (PTreeSpace g t).
    split; [auto|]. split; [auto|]. split; [auto|]. split; [left; eauto|exact C].
  - eapply wp_conseq; [eapply G; eauto; reflexivity| |auto]. intros [] s1 C. exists h, g, o, (PUserTreeSpace c g t).
    split; [auto|]. split; [auto|]. split; [auto|]. split; [right; eauto|exact C].
Qed.

(** *** Parameters, objectives *)

Lemma context_add_parameter_ok : forall t x p v, t = T_OBJECTIVE_SPACE \/ t = T_FEATURES_SPACE ->
  own x -> valid s0 p ->
  wp (context_add_parameter t x p v) s0
     (fun _ s1 => exists h g o ps es, x = Some h /\ p = Some g /\ live s0 h o /\ o_type o = t /\
        o_data o = PContext ps es /\ changed_ h (PContext (ps ++ [g]) es) s1)
     (failed_ s0 e0).
Proof.
  intros t x p v Ht Ow V. pose proof (own_valid x Ow) as Vx. pose proof A0 as A. unfold context_add_parameter.
  check h o L T. check g og Lg Tg. step1. step1. step1. step1. step1. step1. step1; [|step1; failing_].
  destruct (context_shape _ _ _ L T Ht) as (ps & es & D).
  apply wp_bind. eapply wp_get_at; [eassumption|exact L|]. rewrite D.
  pose proof (wants_live _ _ L) as W. rewrite D in W.
  eapply wp_set_at with (e' := e0); [eassumption|exact L| | |rewrite T; exact Ht|exact Logic.I| |].
  - intros y. rewrite D. cbn [holds]. rewrite times_app, times_cons, times_nil. unfold plus. lia.
  - intros y. nonneg. lia.
  - intros y U I. cbn [wants] in *. rewrite map_app in I. rewrite !in_app_iff in I. cbn in I.
    assert (exists oy, live s0 y oy /\ o_type oy = U) as (oy & Ly & Ty).
    { destruct I as [[I|[I|[]]]|I].
      - apply W, in_or_app. auto.
      - injection I as <- <-. eauto.
      - apply W, in_or_app. auto. }
    eapply wants_at; eauto.
  - intros s1 V1 _. exists h, g, o, ps, es. split; [auto|]. split; [auto|]. split; [auto|]. split; [auto|]. split; [auto|exact V1].
Qed.

Lemma add_objective_ok : forall x e v, own x -> valid s0 e ->
  wp (add_objective x e v) s0
     (fun _ s1 => exists h g o ps es, x = Some h /\ e = Some g /\ live s0 h o /\
        o_type o = T_OBJECTIVE_SPACE /\
        o_data o = PContext ps es /\ changed_ h (PContext ps (es ++ [g])) s1)
     (failed_ s0 e0).
Proof.
  intros x e v Ow V. pose proof (own_valid x Ow) as Vx. pose proof A0 as A. unfold add_objective.
  check h o L T. check g og Lg Tg. step1. step1. step1. step1.
  destruct (context_shape _ _ _ L T ltac:(auto)) as (ps & es & D).
  apply wp_bind. eapply wp_get_at; [eassumption|exact L|]. rewrite D.
  pose proof (wants_live _ _ L) as W. rewrite D in W.
  eapply wp_set_at with (e' := e0); [eassumption|exact L| | |rewrite T; left; reflexivity|exact Logic.I| |].
  - intros y. rewrite D. cbn [holds]. rewrite times_app, times_cons, times_nil. unfold plus. lia.
  - intros y. nonneg. lia.
  - intros y U I. cbn [wants] in *. rewrite map_app in I. rewrite !in_app_iff in I. cbn in I.
    assert (exists oy, live s0 y oy /\ o_type oy = U) as (oy & Ly & Ty).
    { destruct I as [I|[I|[I|[]]]].
      - apply W, in_or_app. auto.
      - apply W, in_or_app. auto.
      - injection I as <- <-. eauto. }
    eapply wants_at; eauto.
  - intros s1 V1 _. exists h, g, o, ps, es. split; [auto|]. split; [auto|]. split; [auto|]. split; [auto|]. split; [auto|exact V1].
Qed.

Lemma covered_snoc : forall ps cl ds rg p d, covered (PSpace ps cl ds rg) ->
  covered (PSpace (ps ++ [p]) cl (ds ++ [(d, [length ps])]) rg).
Proof.
  intros ps cl ds rg p d (Cv & Nd & Ne). cbn [covered]. rewrite flat_map_app, app_length. cbn [flat_map snd app length].
  split; [|split].
  - intros i. rewrite in_app_iff. rewrite <- Cv. cbn. split; [intros|intros [|[->|[]]]]; try lia.
  - apply nodup_snoc; auto. intros I. apply Cv in I. lia.
  - intros w I. apply in_app_or in I as [I|[<-|[]]]; auto. easy.
Qed.

Lemma space_add_parameter_ok : forall x p d v dim1, own x -> valid s0 p -> valid s0 d ->
  wp (space_add_parameter x p d v dim1) s0
     (fun _ s1 => exists h g k o ps cl ds rg, x = Some h /\ p = Some g /\ live s0 h o /\
        o_data o = PSpace ps cl ds rg /\
        match d with Some k' => k = k' | None => fresh s0 s1 k T_DISTRIBUTION PPlain end /\
        changed_ h (PSpace (ps ++ [(g, None)]) cl (ds ++ [(k, [length ps])]) rg) s1)
     (failed_ s0 e0).
Proof.
  intros x p d v dim1 Ow V Vd. pose proof (own_valid x Ow) as Vx. pose proof A0 as A. unfold space_add_parameter.
  check h o L T. check g og Lg Tg. step1. step1. step1. step1. step1.
  assert (Lh : (h < size s0)%nat) by (eapply look_lt; apply L).
  destruct (space_shape _ _ L T) as (ps & cl & ds & rg & D).
  pose proof (wants_live _ _ L) as W. rewrite D, T in W.
  pose proof (covered_live _ _ L) as Cv. rewrite D in Cv.
  (* the end, once the distribution is there *)
  assert (G : forall k s2, at_ s0 (plus (plus e0 g) k) s2 ->
    (exists ok, live s2 k ok /\ o_type ok = T_DISTRIBUTION) -> (k < size s2)%nat ->
    match d with Some k' => k = k' | None => fresh s0 s2 k T_DISTRIBUTION PPlain end ->
    wp (orelse alloc (drop k ;;; drop g) ;;;
        orelse alloc (drop k ;;; drop g) ;;;
        dt <~ get_data h ;;
        match dt with
        | PSpace params clauses dists rng =>
            set_data h (PSpace (params ++ [(g, None)]) clauses
                                (dists ++ [(k, [length params])]) rng)
        | _ => fun _ => Undef UBBounds
        end) s2
     (fun _ s1 => exists h' g' k o ps cl ds rg, Some h = Some h' /\ Some g = Some g' /\ live s0 h' o /\
        o_data o = PSpace ps cl ds rg /\
        match d with Some k' => k = k' | None => fresh s0 s1 k T_DISTRIBUTION PPlain end /\
        changed_ h' (PSpace (ps ++ [(g', None)]) cl (ds ++ [(k, [length ps])]) rg) s1)
     (failed_ s0 e0)).
  { match goal with A : at_ _ _ _ |- _ => clear A end. intros k s2 A2 Wk Lk Fk.
    assert (Bad : forall s3, at_ s0 (plus (plus e0 g) k) s3 ->
              wp (drop k ;;; drop g) s3 (fun _ => failed_ s0 e0 ERR_OUT_OF_MEMORY)
                                        (fun _ => failed_ s0 e0 ERR_OUT_OF_MEMORY)).
    { clear A2. intros s3 A3. step1. step1. step1. failing_. }
    apply wp_bind. apply wp_orelse. eapply wp_alloc_look; [exact A2| |intros; apply Bad; auto].
    intros s3 A3 E3 _ _. apply wp_bind. apply wp_orelse. eapply wp_alloc_look; [exact A3| |intros; apply Bad; auto].
    intros s4 A4 E4 _ _. rewrite <- E4 in E3.
    assert (Lk4 : forall y, look s4 y = look s2 y).
    { intros y. apply look_objs. congruence. }
    apply wp_bind. eapply wp_get_at; [exact A4|exact L|]. rewrite D.
    eapply wp_set_at with (e' := e0); [exact A4|exact L| | |rewrite T; reflexivity|now apply covered_snoc| |].
    - intros y. rewrite D. cbn [holds]. rewrite !sum_app, !sum_one. cbn [fst snd is_some]. unfold plus. lia.
    - intros y. nonneg. lia.
    - rewrite T. intros y U I. apply wants_space in I. rewrite !map_app, !in_app_iff in I.
      destruct I as [(-> & [I|[<-|[]]])|[(-> & w & I & E)|[I|[(-> & [I|[<-|[]]])|I]]]].
      + destruct (W y T_PARAMETER) as (oy & Ly & Ty); [apply wants_space; auto|]. exact (wants_at _ _ _ A4 _ _ _ Ly Ty).
      + exact (wants_at _ _ _ A4 _ _ _ Lg Tg).
      + apply in_app_or in I as [I|[<-|[]]]; [|discriminate].
        destruct (W y T_EXPRESSION) as (oy & Ly & Ty); [apply wants_space; eauto 12|]. exact (wants_at _ _ _ A4 _ _ _ Ly Ty).
      + destruct (W y U) as (oy & Ly & Ty); [apply wants_space; auto|]. exact (wants_at _ _ _ A4 _ _ _ Ly Ty).
      + destruct (W y T_DISTRIBUTION) as (oy & Ly & Ty); [apply wants_space; auto 8|]. exact (wants_at _ _ _ A4 _ _ _ Ly Ty).
      + cbn. destruct Wk as (ok & [Ly Py] & Ty). exists ok. split; auto. split; auto. now rewrite Lk4.
      + destruct (W y U) as (oy & Ly & Ty); [apply wants_space; auto 8|]. exact (wants_at _ _ _ A4 _ _ _ Ly Ty).
    - intros s5 V5 L5. exists h, g, k, o, ps, cl, ds, rg. split; auto. split; auto. split; auto. split; auto.
      split; auto. destruct d as [k'|]; auto. destruct Fk as (Gk & Ek). split; auto.
      rewrite L5, Lk4; auto. lia. }
  destruct d as [k|].
  - destruct Vd as (ok & Lk).
    match goal with A : at_ _ _ _ |- _ => destruct (at_live _ _ _ _ _ A Lk) as (q & Pq & Lq) end.
    apply wp_bind. apply wp_orelse. apply wp_check; [eexists; exact Lq| |].
    + step1. failing_.
    + intros k' ok' [= <-] Lk' Tk'.
      assert (o_type ok = T_DISTRIBUTION) as Tk.
      { assert (ok' = with_ref ok q) by (eapply live_fun; eauto). subst ok'. exact Tk'. }
      apply wp_bind. apply wp_orelse. apply wp_refute; intros _.
      * step1. failing_.
      * apply wp_bind. apply wp_orelse. eapply wp_retain_at0; [eassumption|eexists; eassumption|].
        intros s2 A2. apply wp_ret. apply G; auto.
        -- eapply wants_at; eauto.
        -- destruct (at_live _ _ _ _ _ A2 Lk) as (r & _ & Lr & _). eapply look_lt; eauto.
  - apply wp_orelse. eapply wp_plain_at; [eassumption|cbn; auto| |].
    + intros s2 k A2 Ge Ek L2 Lk _. apply G; auto.
      * eexists. split; [split; [exact Lk|cbn; lia]|reflexivity].
      * eapply look_lt; eauto.
      * split; auto.
    + match goal with A : at_ _ _ _ |- _ => clear A end. intros s2 A2 _. step1. failing_.
Qed.
End Calls.
