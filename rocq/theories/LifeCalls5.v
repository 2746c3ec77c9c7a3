(** Calls that change an object and may have to undo the change; maps, tuners. *)
From Coq Require Import ZArith List Bool Lia.
From Verif Require Import Base LifeModel LifeSpec LifeProofs LifeOps LifeCalls LifeCalls2 LifeCalls3 LifeCalls4.
Import ListNotations.
Open Scope Z_scope.

Lemma wp_refused : forall h x p p' c s (Q : unit -> st -> Prop) (F : Z -> st -> Prop),
  c < 0 ->
  wp (retain (Some h) ;;; set_data x p ;;; drop h ;;; set_data x p') s
     (fun _ s' => F c s') (fun _ _ => False) ->
  wp (retain (Some h) ;;; set_data x p ;;;
      orelse (verdict (Some c)) (drop h ;;; set_data x p')) s Q F.
Proof.
  intros h x p p' c s Q F N H. unfold wp in *. unfold bindp at 1 in H. unfold bindp at 1.
  destruct (retain (Some h) s) as [[] s1|k s1|w]; try easy.
  unfold bindp at 1 in H. unfold bindp at 1.
  destruct (set_data x p s1) as [[] s2|k s2|w]; try easy.
  unfold orelse, verdict, refutep. destruct (Z.ltb_spec c 0); [|lia]. cbn [raise].
  destruct ((drop h ;;; set_data x p') s2); easy.
Qed.

(** The history extended, and what extends it. *)
Definition told (p : payload) (l : list handle) : payload :=
  match p with
  | PTuner cs os hist => PTuner cs os (hist ++ l)
  | PFeaturesTuner cs os fs hist => PFeaturesTuner cs os fs (hist ++ l)
  | _ => p
  end.
Definition goods (l : list (option handle * bool)) : list handle :=
  flat_map (fun e : option handle * bool => if snd e then olist (fst e) else @nil handle) l.

Section Calls.
Variables (s0 : st) (e0 : handle -> Z).
Hypothesis O0 : ok s0 e0.
Let A0 : at_ s0 e0 s0 := at_refl s0 e0 O0.

Notation changed_ := (changed_ s0 e0).
Notation own := (own e0).
Notation own_valid := (own_valid s0 e0 O0).
Notation wp_get_at := (wp_get_at s0).
Notation wp_set_at := (wp_set_at s0).
Notation wants_live := (wants_live s0 e0 O0).
Notation covered_live := (covered_live s0 e0 O0).
Notation space_shape := (space_shape s0 e0 O0).
Notation tree_shape := (tree_shape s0 e0 O0).
Notation map_shape := (map_shape s0 e0 O0).

Lemma same_failed : forall s' c, s_objs s' = s_objs s0 -> s_log s' = s_log s0 -> c < 0 ->
  failed_ s0 e0 c s'.
Proof.
  intros s' c E Lg N. split; auto. split; [eapply ok_objs; eauto|now apply same_undisturbed].
Qed.

Lemma in_set_nth : forall A (l : list A) i a b, In a (set_nth l i b) -> a = b \/ In a l.
Proof.
  induction l as [|c l IH]; intros [|i] a b; cbn; auto.
  - intros [->|I]; auto.
  - intros [->|I]; auto. destruct (IH _ _ _ I); auto.
Qed.

(** *** Conditions *)

Lemma set_condition_ok : forall x i e v, own x -> valid s0 e ->
  wp (set_condition x i e v) s0
     (fun _ s1 => exists h g o ps cl ds rg par, x = Some h /\ e = Some g /\ live s0 h o /\
        o_data o = PSpace ps cl ds rg /\ nth_error ps i = Some (par, None) /\ refused_value v = false /\
        changed_ h (PSpace (set_nth ps i (par, Some g)) cl ds rg) s1)
     (failed_ s0 e0).
Proof.
  intros x i e v Ow V. pose proof (own_valid x Ow) as Vx. pose proof A0 as A. unfold set_condition.
  check h o L T. check g og Lg Tg.
  destruct (space_shape _ _ L T) as (ps & cl & ds & rg & D).
  pose proof (wants_live _ _ L) as W. rewrite D, T in W.
  pose proof (covered_live _ _ L) as Cv. rewrite D in Cv.
  apply wp_bind. eapply wp_get_at; [exact A|exact L|]. rewrite D.
  destruct (nth_error ps i) as [[par [c|]]|] eqn:Np; [apply wp_raise; failing_| |apply wp_raise; failing_].
  destruct (refused_value v) eqn:Rv.
  - destruct v as [c|]; [|discriminate]. cbn in Rv. apply Z.ltb_lt in Rv.
    apply wp_refused; auto. rewrite <- D. eapply wp_undo; [exact Lg|apply L|].
    intros s' E1 E2. now apply same_failed.
  - step1. step1. apply wp_bind.
    eapply wp_set_at with (e' := e0); [eassumption|exact L| | |rewrite T; reflexivity| | |].
    + intros y. rewrite D. cbn [holds].
      rewrite (sum_set_nth _ _ _ _ (par, None)), (sum_set_nth _ _ _ _ (par, None)) by auto.
      cbn [fst snd is_some]. unfold plus. lia.
    + intros y. nonneg. lia.
    + destruct Cv as (C1 & C2). split; auto. intros j. rewrite set_nth_length. apply C1.
    + rewrite T. intros y U I. apply wants_space in I.
      assert (exists oy, live s0 y oy /\ o_type oy = U) as (oy & Ly & Ty).
      { destruct I as [(-> & I)|[(-> & w & I & E)|I]].
        - apply in_map_iff in I as (w & <- & I). apply in_set_nth in I as [->|I].
          + cbn. apply W, wants_space. left. split; auto. change par with (fst (par, @None handle)).
            apply in_map. eapply nth_error_In; eauto.
          + apply W, wants_space. left. split; auto. now apply in_map.
        - apply in_set_nth in I as [->|I].
          + injection E as <-. eauto.
          + apply W, wants_space. right. left. eauto.
        - apply W, wants_space. auto. }
      exact (wants_at _ _ _ H _ _ _ Ly Ty).
    + intros s1 V1 _. apply wp_orelse. apply wp_verdict.
      * intros c -> N. exfalso. cbn in Rv. apply Z.ltb_ge in Rv. lia.
      * intros _. exists h, g, o, ps, cl, ds, rg, par.
        split; [auto|]. split; [auto|]. split; [auto|]. split; [auto|]. split; [auto|]. split; [auto|exact V1].
Qed.

Lemma tree_set_child_ok : forall x i c v1 v2, own x -> valid s0 c ->
  wp (tree_set_child x i c v1 v2) s0
     (fun _ s1 => exists h g o ch, x = Some h /\ c = Some g /\ live s0 h o /\
        o_data o = PTree ch /\ nth_error ch i = Some None /\ refused_value v1 = false /\ refused_value v2 = false /\
        changed_ h (PTree (set_nth ch i (Some g))) s1)
     (failed_ s0 e0).
Proof.
  intros x i c v1 v2 Ow V. pose proof (own_valid x Ow) as Vx. pose proof A0 as A. unfold tree_set_child.
  check h o L T. check g og Lg Tg.
  destruct (tree_shape _ _ L T) as (ch & D).
  pose proof (wants_live _ _ L) as W. rewrite D, T in W.
  apply wp_bind. eapply wp_get_at; [exact A|exact L|]. rewrite D.
  destruct (nth_error ch i) as [[k|]|] eqn:Np; [apply wp_raise; failing_| |apply wp_raise; failing_].
  apply wp_bind. apply wp_verdict; [intros k _ N; failing_|]. intros Nv1.
  assert (R1 : refused_value v1 = false).
  { destruct v1; auto. cbn. apply Z.ltb_ge. auto. }
  destruct (refused_value v2) eqn:Rv.
  - destruct v2 as [k|]; [|discriminate]. cbn in Rv. apply Z.ltb_lt in Rv.
    apply wp_refused; auto. rewrite <- D. eapply wp_undo; [exact Lg|apply L|].
    intros s' E1 E2. now apply same_failed.
  - step1. step1. apply wp_bind.
    eapply wp_set_at with (e' := e0); [eassumption|exact L| | |rewrite T; reflexivity|exact Logic.I| |].
    + intros y. rewrite D. cbn [holds].
      rewrite (sum_set_nth _ _ _ _ None) by auto.
      cbn [is_some]. unfold plus. lia.
    + intros y. nonneg. lia.
    + rewrite T. intros y U I. cbn [wants] in *. apply in_flat_map in I as (w & I & E).
      assert (exists oy, live s0 y oy /\ o_type oy = U) as (oy & Ly & Ty).
      { apply in_set_nth in I as [->|I].
        - destruct E as [E|[]]. injection E as <- <-. eauto.
        - apply W, in_flat_map. eauto. }
      eapply (wants_at s0); eauto.
    + intros s1 V1 _. apply wp_orelse. apply wp_verdict.
      * intros k -> N. exfalso. cbn in Rv. apply Z.ltb_ge in Rv. lia.
      * intros _. exists h, g, o, ch.
        split; [auto|]. split; [auto|]. split; [auto|]. split; [auto|]. split; [auto|]. split; [auto|]. split; [auto|exact V1].
Qed.

(** *** Forbidden clauses *)

Lemma add_forbidden_clause_ok : forall x e v1 vd v2, own x -> valid s0 e ->
  wp (add_forbidden_clause x e v1 vd v2) s0
     (fun _ s1 => exists h g o ps cl ds rg, x = Some h /\ e = Some g /\ live s0 h o /\
        o_data o = PSpace ps cl ds rg /\ changed_ h (PSpace ps (cl ++ [g]) ds rg) s1)
     (failed_ s0 e0).
Proof.
  intros x e v1 vd v2 Ow V. pose proof (own_valid x Ow) as Vx. pose proof A0 as A. unfold add_forbidden_clause.
  check h o L T. check g og Lg Tg.
  destruct (space_shape _ _ L T) as (ps & cl & ds & rg & D).
  pose proof (wants_live _ _ L) as W. rewrite D, T in W.
  pose proof (covered_live _ _ L) as Cv. rewrite D in Cv.
  step1. step1. unfold get_default_configuration. apply wp_bind. apply wp_bind.
  eapply wp_check_live; [apply L|exact T|]. apply wp_bind.
  eapply (create_configuration_at s0); [exact A|eassumption|assumption| |intros; failing_].
  intros s1 cf A1 Ge Ec L1 Lc. clear A. step1. step1. apply wp_verdict; [intros c _ N; step1; failing_|].
  intros _. step1. step1. step1. step1. apply wp_verdict; [intros c _ N; step1; failing_|]. intros _.
  eapply wp_retain_at0; [exact A1|eexists; eassumption|]. intros s2 A2. clear A1.
  apply wp_bind. eapply wp_get_at; [exact A2|exact L|]. rewrite D. apply wp_bind.
  eapply wp_set_at with (e' := plus e0 cf); [exact A2|exact L| | |rewrite T; reflexivity|exact Cv| |].
  - intros y. rewrite D. cbn [holds]. rewrite times_app, times_cons, times_nil. unfold plus. lia.
  - intros y. unfold plus. nonneg. lia.
  - rewrite T. intros y U I. apply wants_space in I. rewrite in_app_iff in I.
    assert (exists oy, live s0 y oy /\ o_type oy = U) as (oy & Ly & Ty).
    { destruct I as [I|[I|[(-> & [I|[<-|[]]])|I]]]; eauto; apply W, wants_space; auto. }
    exact (wants_at _ _ _ A2 _ _ _ Ly Ty).
  - intros s3 V3 _. eapply wp_drop_ev; [exact V3| | |].
    + unfold plus. rewrite is_same. nonneg. lia.
    + intros y p [= <- <-]. cbn in Ow. unfold minus, plus. nonneg. lia.
    + intros s4 V4. exists h, g, o, ps, cl, ds, rg.
      split; [auto|]. split; [auto|]. split; [auto|]. split; [auto|].
      eapply ev_ext; [|exact V4]. intros y. unfold plus, minus. lia.
Qed.

(** *** Tuners *)

Lemma ev_some : forall e s x o, ev_ s0 None e s -> live s0 x o -> ev_ s0 (Some (x, o_data o)) e s.
Proof.
  intros e s x o (O & Af & U) L. split; auto. split; auto.
  destruct (a_log _ _ _ Af) as (ev & Lg & Old & Rest). constructor; [apply Af|].
  exists ev. split; auto. split; auto. intros h oh Lh. destruct (Old h oh Lh) as [(Ab & r & P & R)|]; auto.
  left. split; auto. exists r. split; auto. rewrite R. cbn. destruct (Nat.eq_dec h x); auto. subst.
  assert (oh = o) by (eapply live_fun; eauto). now subst.
Qed.

(** As long as nothing is logged nothing is destroyed. *)
Lemma quiet_live : forall c e s h o, ev_ s0 c e s -> s_log s = s_log s0 -> live s0 h o ->
  exists r, 0 < r /\ look s h = Some (mkObj (o_type o) r (o_cbs o) (contents c h (o_data o))).
Proof.
  intros c e s h o (O & Af & _) Lg L. destruct (a_log _ _ _ Af) as (ev & Le & Old & _).
  destruct (Old h o L) as [(_ & R)|(Ab & _)]; auto. exfalso.
  rewrite Lg in Le. assert (ev = []) as -> by (apply (app_inv_head (s_log s0)); now rewrite app_nil_r).
  cbn in Ab. symmetry in Ab. unfold farewell in Ab. apply app_eq_nil in Ab as [_ Ab].
  destruct (o_data o); try discriminate.
Qed.

Lemma wp_retain_quiet : forall c e s h (Q : unit -> st -> Prop) (F : Z -> st -> Prop),
  ev_ s0 c e s -> alive s h ->
  (forall s', ev_ s0 c (plus e h) s' -> s_log s' = s_log s -> Q tt s') -> wp (retain (Some h)) s Q F.
Proof.
  intros c e s h Q F V (o & L) H.
  assert (W1 : wp (retain (Some h)) s (fun _ s' => ev_ s0 c (plus e h) s') (fun _ _ => False)).
  { eapply wp_retain_ev; eauto. eexists; eauto. }
  assert (W2 : wp (retain (Some h)) s (fun _ s' => s_log s' = s_log s) (fun _ _ => False)).
  { eapply wp_retain_exact; eauto. }
  eapply wp_conseq; [apply (wp_and _ _ _ _ _ _ _ W1 W2)| |intros k s' [[] _]].
  intros [] s' [V' E]. auto.
Qed.

Lemma wp_set_quiet : forall c e e' s x o p (Q : unit -> st -> Prop) (F : Z -> st -> Prop),
  ev_ s0 c e s -> live s0 x o -> alive s x ->
  (c = None \/ exists p', c = Some (x, p')) ->
  (forall y, e' y = e y + holds (contents c x (o_data o)) y - holds p y) ->
  (forall y, 0 <= e' y) ->
  fits (o_type o) p -> covered p ->
  (forall y T, In (y, T) (wants (o_type o) p) -> exists oy, live s y oy /\ o_type oy = T) ->
  (forall s', ev_ s0 (Some (x, p)) e' s' -> s_log s' = s_log s -> Q tt s') ->
  wp (set_data x p) s Q F.
Proof.
  intros c e e' s x o p Q F V L A Hc E N Ft Cv W H.
  assert (W1 : wp (set_data x p) s (fun _ s' => ev_ s0 (Some (x, p)) e' s') (fun _ _ => False)).
  { eapply wp_set_ev; eauto. }
  assert (W2 : wp (set_data x p) s (fun _ s' => s_log s' = s_log s) (fun _ _ => False)).
  { destruct A as (o1 & L1 & _). eapply wp_set_data; eauto. }
  eapply wp_conseq; [apply (wp_and _ _ _ _ _ _ _ W1 W2)| |intros k s' [[] _]].
  intros [] s' [V' Lg]. auto.
Qed.

Definition typed (te : Z) (e : option handle * bool) : Prop :=
  exists h o, fst e = Some h /\ live s0 h o /\ o_type o = te.

Lemma tell_loop_ok : forall t te tun o p, live s0 tun o -> o_type o = t ->
  (t = T_TUNER /\ te = T_EVALUATION \/ t = T_TREE_TUNER /\ te = T_TREE_EVALUATION \/
   t = T_FEATURES_TUNER /\ te = T_FEATURES_EVALUATION) ->
  o_data o = p -> user_del p = None -> 0 < e0 tun ->
  forall l hist s, ev_ s0 (Some (tun, told p hist)) e0 s -> s_log s = s_log s0 ->
  Forall (fun e => valid s0 (fst e)) l ->
  wp (tell_loop te tun l) s
     (fun _ s1 => Forall (typed te) l /\
        ev_ s0 (Some (tun, told p (hist ++ goods l))) e0 s1 /\ s_log s1 = s_log s0)
     (fun c s1 => c = ERR_INVALID_OBJECT /\ exists l1 e l2, l = l1 ++ e :: l2 /\
        Forall (typed te) l1 /\ ~ typed te e /\
        ev_ s0 (Some (tun, told p (hist ++ goods l1))) e0 s1 /\ s_log s1 = s_log s0).
Proof.
  intros t te tun o p L T Tt D U Pt.
  assert (Sh : (exists cs os h, p = PTuner cs os h /\ (t = T_TUNER \/ t = T_TREE_TUNER)) \/
               (exists cs os fs h, p = PFeaturesTuner cs os fs h /\ t = T_FEATURES_TUNER)).
  { pose proof (fits_live s0 e0 O0 _ _ L) as F. rewrite D, T in F. clear -F U Tt.
    destruct p; cbn in F; try discriminate; eauto 10;
      exfalso; destruct Tt as [(-> & _)|[(-> & _)|(-> & _)]]; compute in F; intuition discriminate. }
  induction l as [|[x good] l IH]; intros hist s V Lg Va; cbn [tell_loop].
  - apply wp_ret. split; auto. cbn [goods flat_map]. rewrite app_nil_r. auto.
  - inversion Va; subst x0 l0. clear Va. cbn [fst] in *. apply wp_bind.
    assert (Va' : valid s x).
    { destruct x as [h|]; cbn in *; auto. destruct H1 as (oh & Lh).
      destruct (quiet_live _ _ _ _ _ V Lg Lh) as (r & P & R). eexists. split; eauto. }
    destruct x as [h|].
    2:{ cbn. split; auto. exists [], (None, good), l. split; auto. split; auto. split.
        - intros (h & oh & [=] & _).
        - cbn. rewrite app_nil_r. auto. }
    destruct H1 as (oh & Lh). destruct (quiet_live _ _ _ _ _ V Lg Lh) as (r & P & R).
    apply wp_bind. eapply wp_deref; [exact R|]. cbn [o_type]. apply wp_bind. apply wp_refute; intros E.
    { split; auto. exists [], (Some h, good), l. split; auto. split; auto. split.
      - intros (h' & oh' & [= <-] & Lh' & Th'). assert (oh' = oh) by (eapply live_fun; eauto). subst.
        rewrite Z.eqb_refl in E. discriminate.
      - cbn. rewrite app_nil_r. auto. }
    assert (Th : o_type oh = te) by (destruct (Z.eqb_spec (o_type oh) te); [auto|discriminate]).
    assert (Ty : typed te (Some h, good)) by (exists h, oh; auto).
    apply wp_ret. apply wp_bind.
    assert (Next : forall s', ev_ s0 (Some (tun, told p (hist ++ if good then [h] else []))) e0 s' -> s_log s' = s_log s0 ->
      wp (tell_loop te tun l) s'
        (fun _ s1 => Forall (typed te) ((Some h, good) :: l) /\
           ev_ s0 (Some (tun, told p (hist ++ goods ((Some h, good) :: l)))) e0 s1 /\ s_log s1 = s_log s0)
        (fun c s1 => c = ERR_INVALID_OBJECT /\ exists l1 e l2, (Some h, good) :: l = l1 ++ e :: l2 /\
           Forall (typed te) l1 /\ ~ typed te e /\
           ev_ s0 (Some (tun, told p (hist ++ goods l1))) e0 s1 /\ s_log s1 = s_log s0)).
    { intros s' V' Lg'. eapply wp_conseq; [apply (IH _ _ V' Lg' H2)| |].
      - intros [] s1 (F1 & V1 & Lg1). split; [constructor; auto|]. split; auto.
        rewrite <- app_assoc in V1. cbn [goods flat_map fst snd]. destruct good; exact V1.
      - intros c s1 (-> & l1 & e & l2 & -> & F1 & Ne & V1 & Lg1). split; auto.
        exists ((Some h, good) :: l1), e, l2. split; auto. split; [constructor; auto|]. split; auto. split; auto.
        rewrite <- app_assoc in V1. cbn [goods flat_map fst snd]. destruct good; exact V1. }
    assert (At : alive s tun).
    { eapply ok_alive; [apply V|auto]. }
    destruct good.
    + apply wp_bind. apply wp_ignore. eapply wp_retain_quiet; [exact V|eexists; split; eauto|].
      intros s1 V1 Lg1. apply wp_bind.
      assert (At1 : alive s1 tun).
      { eapply ok_alive; [apply V1|]. unfold plus. nonneg. lia. }
      destruct (ev_target _ _ _ _ _ _ V1 L At1) as (q & Pq & Rq).
      eapply wp_get_data; [exact Rq|]. cbn [o_data contents]. destruct (Nat.eq_dec tun tun) as [_|]; [|easy].
      assert (exists p', remember (told p hist) h = Some p' /\ p' = told p (hist ++ [h])) as (p' & -> & ->).
      { destruct Sh as [(cs & os & hh & -> & _)|(cs & os & fs & hh & -> & _)]; cbn;
          eexists; (split; [reflexivity|]); now rewrite app_assoc. }
      assert (Wl : forall y U', In (y, U') (wants (o_type o) (o_data o)) \/ (y = h /\ U' = te) \/
                     (In y hist /\ U' = te) -> exists oy, live s1 y oy /\ o_type oy = U').
      { intros y U' I.
        assert (Q : forall yo, live s0 y yo -> exists oy, live s1 y oy /\ o_type oy = o_type yo).
        { intros yo Ly. destruct (quiet_live _ _ _ _ _ V1 (eq_trans Lg1 Lg) Ly) as (k & Pk & Rk).
          eexists. split; [split; [exact Rk|exact Pk]|reflexivity]. }
        destruct I as [I|[(-> & ->)|(I & ->)]].
        - destruct (wants_live _ _ L _ _ I) as (oy & Ly & <-). auto.
        - rewrite <- Th. auto.
        - (* already in the history *)
          pose proof (proj2 (proj2 (proj2 (proj1 V1) tun _ (conj Rq Pq)))) as W.
          cbn [o_data o_type contents] in W. destruct (Nat.eq_dec tun tun) as [_|]; [|easy]. rewrite T in W.
          apply W.
          destruct Sh as [(cs & os & hh & -> & Ht)|(cs & os & fs & hh & -> & Ht)]; cbn [told wants].
          + apply in_or_app. right. apply in_map_iff. exists y. split; [|apply in_or_app; auto].
            f_equal. destruct Tt as [(-> & ->)|[(-> & ->)|(-> & ->)]]; auto. exfalso; clear -Ht; destruct Ht as [Ht|Ht]; discriminate Ht.
          + apply in_or_app. right. apply in_map_iff. exists y. split; [|apply in_or_app; auto].
            f_equal. rewrite Ht in Tt. destruct Tt as [(E1 & ->)|[(E1 & ->)|(E1 & ->)]]; auto; discriminate E1. }
      eapply wp_set_quiet with (e' := e0); [exact V1|exact L|exact At1|right; eauto| | | | | |].
      * intros y. cbn [contents]. destruct (Nat.eq_dec tun tun) as [_|]; [|easy].
        assert (holds (told p (hist ++ [h])) y = holds (told p hist) y + is y h) as ->.
        { destruct Sh as [(cs & os & hh & -> & _)|(cs & os & fs & hh & -> & _)]; cbn [told holds];
            rewrite !times_app, times_cons, times_nil; lia. }
        unfold plus. lia.
      * intros y. nonneg. lia.
      * pose proof (fits_live s0 e0 O0 _ _ L) as F. rewrite D in F.
        destruct Sh as [(cs & os & hh & -> & _)|(cs & os & fs & hh & -> & _)]; exact F.
      * destruct Sh as [(cs & os & hh & -> & _)|(cs & os & fs & hh & -> & _)]; exact Logic.I.
      * intros y U' I. apply Wl. rewrite D.
        destruct Sh as [(cs & os & hh & -> & Ht)|(cs & os & fs & hh & -> & Ht)]; cbn [told wants] in *; rewrite T in *.
        -- apply in_app_or in I as [I|I]; [left; apply in_or_app; auto|].
           apply in_map_iff in I as (z & [= <- <-] & I).
           assert (Ete : (if t =? T_TUNER then T_EVALUATION else T_TREE_EVALUATION) = te).
           { destruct Tt as [(-> & ->)|[(-> & ->)|(-> & ->)]]; auto. exfalso; clear -Ht; destruct Ht as [Ht|Ht]; discriminate Ht. }
           apply in_app_or in I as [I|I].
           ++ left. apply in_or_app. right. apply in_map_iff. eauto.
           ++ rewrite Ete. apply in_app_or in I as [I|[<-|[]]]; auto.
        -- apply in_app_or in I as [I|I]; [left; apply in_or_app; auto|].
           apply in_map_iff in I as (z & [= <- <-] & I).
           assert (Ete : T_FEATURES_EVALUATION = te).
           { rewrite Ht in Tt. destruct Tt as [(E1 & ->)|[(E1 & ->)|(E1 & ->)]]; auto; discriminate E1. }
           apply in_app_or in I as [I|I].
           ++ left. apply in_or_app. right. apply in_map_iff. eauto.
           ++ rewrite Ete. apply in_app_or in I as [I|[<-|[]]]; auto.
      * intros s2 V2 Lg2. apply Next; auto. congruence.
    + apply wp_ret. apply Next; auto. now rewrite app_nil_r.
Qed.

Lemma told_nil : forall p, told p [] = p.
Proof. destruct p; cbn; auto; now rewrite app_nil_r. Qed.

Lemma tuner_tell_ok : forall t x l, t = T_TUNER \/ t = T_TREE_TUNER \/ t = T_FEATURES_TUNER ->
  own x -> Forall (fun e => valid s0 (fst e)) l ->
  wp (tuner_tell t (evaluation_type t) x l) s0
     (fun _ s1 => exists h o, x = Some h /\ live s0 h o /\ o_type o = t /\
        ((user_del (o_data o) <> None /\ s1 = s0) \/
         (user_del (o_data o) = None /\ Forall (typed (evaluation_type t)) l /\
          changed_ h (told (o_data o) (goods l)) s1 /\ s_log s1 = s_log s0)))
     (fun c s1 => c < 0 /\
        (failed_ s0 e0 c s1 \/
         exists h o l1 e l2, c = ERR_INVALID_OBJECT /\ x = Some h /\ live s0 h o /\ o_type o = t /\ user_del (o_data o) = None /\
           l = l1 ++ e :: l2 /\ Forall (typed (evaluation_type t)) l1 /\ ~ typed (evaluation_type t) e /\
           changed_ h (told (o_data o) (goods l1)) s1 /\ s_log s1 = s_log s0)).
Proof.
  intros t x l Ht Ow Va. pose proof (own_valid x Ow) as Vx. pose proof A0 as A. unfold tuner_tell.
  apply wp_bind. apply wp_check; [auto| |].
  { split; [reflexivity|]. left. failing_. }
  intros h o -> L T. change (0 < e0 h) in Ow. apply wp_bind. eapply wp_get_data; [apply L|].
  destruct (user_del (o_data o)) eqn:U.
  - apply wp_ret. exists h, o. split; auto. split; auto. split; auto. left. split; auto. congruence.
  - eapply wp_conseq; [eapply (tell_loop_ok t _ h o (o_data o)) with (hist := []); eauto| |].
    + unfold evaluation_type. destruct Ht as [-> | [-> | ->]]; cbn; auto.
    + rewrite told_nil. apply ev_some; auto. apply at_ev. exact A.
    + intros [] s1 (F & V & Lg). exists h, o. repeat (split; [assumption || reflexivity|]). right. auto.
    + intros c s1 (-> & l1 & e & l2 & -> & F & N & V & Lg). split; [reflexivity|]. right.
      exists h, o, l1, e, l2. repeat (split; [solve [auto]|]). auto.
Qed.
End Calls.
