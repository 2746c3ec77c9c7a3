(** Constructors that make or take several objects. *)
From Coq Require Import ZArith List Bool Lia.
From Verif Require Import Base LifeModel LifeSpec LifeProofs LifeOps LifeCalls.
Import ListNotations.
Open Scope Z_scope.

Lemma look_objs : forall s s', s_objs s' = s_objs s -> forall x, look s' x = look s x.
Proof. intros s s' E x. unfold look. now rewrite E. Qed.
Lemma size_objs : forall s s', s_objs s' = s_objs s -> size s' = size s.
Proof. intros s s' E. unfold size. now rewrite E. Qed.

Lemma wp_plain_at : forall s0 e s t (Q : handle -> st -> Prop) (F : Z -> st -> Prop),
  at_ s0 e s -> fits t PPlain ->
  (forall s' h, at_ s0 (plus e h) s' -> (size s0 <= h)%nat -> h = size s ->
     (forall x, x <> h -> look s' x = look s x) -> look s' h = Some (mkObj t 1 [] PPlain) ->
     (s_mem s = [] -> s_mem s' = []) -> Q h s') ->
  (forall s', at_ s0 e s' -> memory s = false -> F ERR_OUT_OF_MEMORY s') ->
  wp (create_plain t) s Q F.
Proof.
  intros s0 e s t Q F A Ft HQ HF. unfold create_plain. apply wp_bind.
  eapply wp_alloc_look; [eassumption| |].
  - intros s1 A1 E1 M1 M2.
    assert (M' : s_mem s = [] -> s_mem (added s1 t PPlain) = []) by auto.
    unfold wp, new. fold (added s1 t PPlain). fold (size s1).
    destruct A1 as (O1 & K1 & Y1).
    assert (size s1 = size s) as Sz by (unfold size; now rewrite E1).
    assert (W : forall x T, In (x, T) (wants t PPlain) -> exists ox, live s1 x ox /\ o_type ox = T) by easy.
    apply HQ; auto.
    + split; [|split].
      * eapply ok_ext; [|eapply (added_ok s1 e t PPlain O1); auto; [cbn; intros; eapply ok_nonneg; eauto|exact Logic.I]].
        intros x. cbn. unfold plus. lia.
      * apply added_kept; auto.
      * intros h o Ge L. rewrite look_added in L. destruct (Nat.eq_dec h (size s1)).
        -- inversion L; subst o. cbn. split; [lia|]. split; auto. split; auto. intros; lia.
        -- eapply Y1; eauto.
    + apply K1.
    + intros x N. rewrite look_added. destruct (Nat.eq_dec x (size s1)); [easy|]. now apply look_objs.
    + rewrite look_added. now destruct (Nat.eq_dec (size s1) (size s1)).
  - intros s1 A1 E1 M1. apply HF; auto.
Qed.

(** [check_obj] on an object known to have the right type. *)
Lemma wp_check_live : forall h o t s (Q : handle -> st -> Prop) (F : Z -> st -> Prop),
  look s h = Some o -> o_type o = t -> Q h s -> wp (check_obj (Some h) t) s Q F.
Proof.
  intros h o t s Q F L T HQ. cbn. apply wp_bind. eapply wp_deref; eauto.
  apply wp_bind. apply wp_refute; intros E; [rewrite T, Z.eqb_refl in E; discriminate|].
  apply wp_ret. auto.
Qed.

Lemma wp_variable_at : forall s0 e s p o (Q : handle -> st -> Prop) (F : Z -> st -> Prop),
  at_ s0 e s -> live s0 p o -> o_type o = T_PARAMETER ->
  (forall s' h, at_ s0 (plus e h) s' -> (size s0 <= h)%nat -> h = size s ->
     (forall x, x <> h -> x <> p -> look s' x = look s x) ->
     look s' h = Some (mkObj T_EXPRESSION 1 [] (PVariable p)) -> Q h s') ->
  (forall s', at_ s0 e s' -> F ERR_OUT_OF_MEMORY s') ->
  wp (create_variable (Some p)) s Q F.
Proof.
  intros s0 e s p o Q F A L T HQ HF. unfold create_variable. apply wp_bind.
  destruct (at_live _ _ _ _ _ A L) as (r & Pr & Lr).
  eapply wp_check_live; [apply Lr|exact T|]. apply wp_bind.
  eapply wp_alloc_look; [eassumption| |].
  2:{ intros; apply HF; auto. }
  intros s1 A1 E1 _ _. apply wp_bind. eapply wp_retain_look; [exact A1|eexists; eauto|].
  intros s2 A2 L2 Sz2. pose proof (size_objs _ _ E1) as Sz1.
  eapply wp_new_at; [exact A2| |cbn; auto|exact Logic.I|reflexivity| |].
  - intros x. cbn. unfold plus. pose proof (ok_nonneg _ _ x (proj1 A1)). lia.
  - intros x U I. destruct I as [I|[]]. injection I as <- <-. eapply wants_at; eauto.
  - intros s3 e3 A3 E3 Ge L3. apply HQ.
    + eapply at_ext; [|exact A3]. intros x. rewrite E3. cbn. unfold plus. lia.
    + exact Ge.
    + congruence.
    + intros x N Np. rewrite L3. destruct (Nat.eq_dec x (size s2)); [easy|].
      rewrite L2 by auto. now apply look_objs.
    + rewrite L3. now destruct (Nat.eq_dec (size s2) (size s2)).
Qed.

Section Calls.
Variables (s0 : st) (e0 : handle -> Z).
Hypothesis O0 : ok s0 e0.
Let A0 : at_ s0 e0 s0 := at_refl s0 e0 O0.

(** *** Configurations *)

Definition leaks (x : option handle) (v : values) : bool :=
  match x, v with Some h, VArray l => refused_values s0 h l | _, _ => false end.

Lemma create_configuration_at : forall e s cs o n (Q : handle -> st -> Prop) (F : Z -> st -> Prop),
  at_ s0 e s -> live s0 cs o -> o_type o = T_CONFIGURATION_SPACE ->
  (forall s' h, at_ s0 (plus e h) s' -> (size s0 <= h)%nat -> h = size s ->
     (forall x, x <> h -> x <> cs -> look s' x = look s x) ->
     look s' h = Some (mkObj T_CONFIGURATION 1 [] (PConfiguration cs)) -> Q h s') ->
  (forall s' c, c < 0 -> at_ s0 e s' -> F c s') ->
  wp (create_configuration (Some cs) (VNull n)) s Q F.
Proof.
  intros e s cs o n Q F A L T HQ HF. unfold create_configuration. apply wp_bind.
  destruct (at_live _ _ _ _ _ A L) as (r & Pr & Lr).
  eapply wp_check_live; [apply Lr|exact T|]. apply wp_bind.
  eapply wp_num_parameters; [apply Lr|]. intros m. apply wp_bind.
  apply wp_check_values; [|apply HF; [reflexivity|auto]].
  apply wp_bind. eapply wp_alloc_look; [eassumption| |].
  2:{ intros; apply HF; [reflexivity|auto]. }
  intros s1 A1 E1 _ _. apply wp_bind. eapply wp_retain_look; [exact A1|eexists; eauto|].
  intros s2 A2 L2 Sz2. pose proof (size_objs _ _ E1) as Sz1. apply wp_bind. apply wp_ret.
  eapply wp_new_at; [exact A2| |cbn; auto|exact Logic.I|reflexivity| |].
  - intros x. cbn. unfold plus. pose proof (ok_nonneg _ _ x (proj1 A1)). lia.
  - intros x U I. destruct I as [I|[]]. injection I as <- <-. eapply wants_at; eauto.
  - intros s3 e3 A3 E3 Ge L3. apply HQ.
    + eapply at_ext; [|exact A3]. intros x. rewrite E3. cbn. unfold plus. lia.
    + exact Ge.
    + congruence.
    + intros x N Np. rewrite L3. destruct (Nat.eq_dec x (size s2)); [easy|].
      rewrite L2 by auto. now apply look_objs.
    + rewrite L3. now destruct (Nat.eq_dec (size s2) (size s2)).
Qed.

Definition leaked_ (h : handle) : Z -> st -> Prop :=
  fun c s1 => c < 0 /\ ok s1 (plus e0 h) /\ kept s0 s1 /\
    forall x, look s1 x = match look s0 x with
                          | Some o => Some (if Nat.eq_dec x h then with_ref o (o_ref o + 1) else o)
                          | None => None
                          end.

Lemma create_configuration_ok : forall x v, valid s0 x ->
  wp (create_configuration x v) s0
     (fun h s1 => leaks x v = false /\
                  exists cs, x = Some cs /\ made_ s0 e0 T_CONFIGURATION (PConfiguration cs) h s1)
     (fun c s1 => if leaks x v then exists cs, x = Some cs /\ leaked_ cs c s1
                  else failed_ s0 e0 c s1).
Proof.
  intros x v V. pose proof A0 as A. unfold create_configuration. apply wp_bind.
  destruct x as [cs|].
  2:{ cbn. failing_. }
  destruct V as (o & L). apply wp_bind. destruct L as [L P].
  eapply wp_deref; [exact L|]. apply wp_bind. apply wp_refute; intros T.
  { assert (leaks (Some cs) v = false) as ->; [|failing_].
    cbn. destruct v; auto. unfold refused_values. rewrite L.
    destruct (o_type o =? T_CONFIGURATION_SPACE); [discriminate|reflexivity]. }
  assert (o_type o = T_CONFIGURATION_SPACE) as T' by (destruct (Z.eqb_spec (o_type o) T_CONFIGURATION_SPACE); [auto|discriminate]).
  assert (exists ps cl ds rg, o_data o = PSpace ps cl ds rg) as (ps & cl & ds & rg & D).
  { pose proof (proj2 O0) as S. destruct (S cs o (conj L P)) as (Ft & _). rewrite T' in Ft.
    destruct (o_data o); cbn in Ft; try (exfalso; compute in Ft; intuition discriminate).
    eauto. }
  apply wp_ret. apply wp_bind. apply wp_bind. eapply wp_get_data; [exact L|]. apply wp_ret. rewrite D.
  apply wp_bind.
  assert (Lk : forall l, leaks (Some cs) (VArray l) =
             Nat.eqb (length ps) (length l) && memory s0 && existsb refused_value l).
  { intros l. cbn. unfold refused_values. rewrite L, T', Z.eqb_refl, D. reflexivity. }
  assert (CV : wp (check_values v (length ps)) s0
    (fun _ s => s = s0 /\ forall l, v = VArray l -> Nat.eqb (length ps) (length l) = true)
    (fun c s => s = s0 /\ c < 0 /\ leaks (Some cs) v = false)).
  { destruct v as [n|l]; apply wp_refute; intros E.
    - split; auto. split; [reflexivity|auto].
    - split; auto. discriminate.
    - split; auto. split; [reflexivity|]. rewrite Lk. apply negb_true_iff in E. now rewrite E.
    - split; auto. intros l' [= <-]. now apply negb_false_iff in E. }
  eapply wp_conseq; [exact CV| |].
  2:{ intros c s (-> & N & ->). failing_. }
  intros _ s (-> & Len). apply wp_bind.
  eapply wp_alloc_look; [exact A| |].
  2:{ intros s1 A1 E1 M. assert (leaks (Some cs) v = false) as ->; [|failing_].
      destruct v as [n|l]; auto. rewrite Lk, M. now rewrite andb_false_r. }
  intros s1 A1 E1 M _. apply wp_bind. eapply wp_retain_at0; [exact A1|exists o; split; auto|].
  intros s2 A2. apply wp_bind.
  assert (Vd : wp (validate v) s2
    (fun _ s => s = s2 /\ leaks (Some cs) v = false)
    (fun c s => s = s2 /\ c < 0 /\ leaks (Some cs) v = true)).
  { destruct v as [n|l]; [apply wp_ret; auto|]. apply wp_validate_values.
    - intros E. split; auto. rewrite Lk, E. now rewrite andb_false_r.
    - intros c E N. split; auto. split; auto. rewrite Lk, E, M, (Len l eq_refl). reflexivity. }
  eapply wp_conseq; [exact Vd| |].
  - intros _ s (-> & Lf).
    eapply wp_new_final; [exact A2|refs|cbn; auto; fail|exact Logic.I| |].
    + intros y U I. destruct I as [I|[]]. injection I as <- <-. eapply wants_at; eauto. split; auto.
    + intros s' O K ? ? L'. split; [exact Lf|]. exists cs. split; auto.
      split; [eapply ok_ext; [|exact O]; refs|]. split; auto. split; auto.
      rewrite L'. now destruct (Nat.eq_dec (size s2) (size s2)).
  - intros c s (-> & N & ->). exists cs. split; auto. split; auto.
    split; [apply A2|]. split; [apply A2|]. intros y.
    rewrite (at_counts _ _ _ _ A2 O0).
    + destruct (look s0 y) as [oy|] eqn:Y; auto. destruct (Z.ltb_spec 0 (o_ref oy)).
      * f_equal. unfold plus, is. destruct (Nat.eq_dec y cs); [f_equal; lia|].
        unfold with_ref. destruct oy; cbn. f_equal. lia.
      * destruct (Nat.eq_dec y cs); auto. subst. rewrite L in Y. inversion Y; subst. lia.
    + intros z Ge. unfold plus. rewrite is_other.
      * destruct (counted_big s0 e0 z (proj1 O0) Ge). lia.
      * intros ->. apply look_lt in L. lia.
Qed.

(** *** Spaces *)

Lemma create_configuration_space_ok :
  wp create_configuration_space s0
     (fun h s1 => exists r, r <> h /\ fresh s0 s1 r T_RNG PPlain /\
                            made_ s0 e0 T_CONFIGURATION_SPACE (PSpace [] [] [] r) h s1)
     (failed_ s0 e0).
Proof.
  pose proof A0 as A. unfold create_configuration_space. apply wp_bind.
  eapply wp_alloc_at; [exact A| |intros s1 A1; failing_]. intros s1 A1. apply wp_bind.
  eapply wp_plain_at; [exact A1|cbn; auto| |intros s2 A2 _; failing_].
  intros s2 r A2 Ge Er L2 Lr _.
  eapply wp_new_final; [exact A2|refs|reflexivity| | |].
  - cbn. split; [intros; cbn; lia|]. split; [constructor|easy].
  - intros x T I. cbn in I. destruct I as [I|[]]. injection I as <- <-.
    eexists. split; [split; [exact Lr|cbn; lia]|reflexivity].
  - intros s3 O3 K3 Ge3 Sz3 L3. exists r.
    assert (r < size s2)%nat as Rs by (eapply look_lt; eauto).
    split; [lia|]. split.
    + split; auto. rewrite L3. destruct (Nat.eq_dec r (size s2)); [lia|auto].
    + split; [eapply ok_ext; [|exact O3]; refs|]. split; [auto|]. split; [auto|].
      rewrite L3. now destruct (Nat.eq_dec (size s2) (size s2)).
Qed.

Lemma create_tree_space_at : forall (mk : handle -> handle -> payload) tree o,
  (forall r t x, holds (mk r t) x = is x r + is x t) ->
  (forall r t, fits T_TREE_SPACE (mk r t)) ->
  (forall r t, covered (mk r t)) ->
  (forall r t, wants T_TREE_SPACE (mk r t) = [(r, T_RNG); (t, T_TREE)]) ->
  live s0 tree o -> o_type o = T_TREE ->
  wp (alloc ;;; rng <~ create_plain T_RNG ;;
      orelse (retain (Some tree)) (drop rng) ;;;
      new T_TREE_SPACE (mk rng tree)) s0
     (fun h s1 => exists r, r <> h /\ fresh s0 s1 r T_RNG PPlain /\
                            made_ s0 e0 T_TREE_SPACE (mk r tree) h s1)
     (failed_ s0 e0).
Proof.
  intros mk tree o Hh Hf Hc Hw L T. pose proof A0 as A. apply wp_bind.
  eapply wp_alloc_at; [exact A| |intros s1 A1; failing_]. intros s1 A1. apply wp_bind.
  eapply wp_plain_at; [exact A1|cbn; auto| |intros s2 A2 _; failing_].
  intros s2 r A2 Ge Er L2 Lr _. apply wp_bind. apply wp_orelse.
  eapply wp_retain_look; [exact A2|eexists; eauto|]. intros s3 A3 L3 Sz3.
  assert (r <> tree) as Nr by (intros ->; destruct L as [L _]; apply look_lt in L; lia).
  assert (look s3 r = Some (mkObj T_RNG 1 [] PPlain)) as Lr3 by (rewrite L3; auto).
  eapply wp_new_final; [exact A3|intros; rewrite Hh; refs|auto|auto| |].
  - intros x U I. rewrite Hw in I. destruct I as [I|[I|[]]]; injection I as <- <-.
    + eexists. split; [split; [exact Lr3|cbn; lia]|reflexivity].
    + eapply wants_at; eauto.
  - intros s4 O4 K4 Ge4 Sz4 L4. exists r.
    assert (r < size s3)%nat as Rs by (eapply look_lt; eauto).
    split; [lia|]. split.
    + split; auto. rewrite L4. destruct (Nat.eq_dec r (size s3)); [lia|auto].
    + split; [eapply ok_ext; [|exact O4]; intros; cbv beta; rewrite Hh; refs|]. split; [auto|]. split; [auto|].
      rewrite L4. now destruct (Nat.eq_dec (size s3) (size s3)).
Qed.

Lemma create_static_tree_space_ok : forall x, valid s0 x ->
  wp (create_static_tree_space x) s0
     (fun h s1 => exists t r, x = Some t /\ r <> h /\ fresh s0 s1 r T_RNG PPlain /\
                              made_ s0 e0 T_TREE_SPACE (PTreeSpace r t) h s1)
     (failed_ s0 e0).
Proof.
  intros x V. pose proof A0 as A. unfold create_static_tree_space. step1. step1.
  eapply wp_conseq; [apply (create_tree_space_at PTreeSpace) with (o := o); auto| |auto].
  - reflexivity.
  - cbn. auto.
  - intros a s' (r & R). exists h, r. split; auto.
Qed.

Lemma create_dynamic_tree_space_ok : forall x null code, valid s0 x ->
  wp (create_dynamic_tree_space x null code) s0
     (fun h s1 => exists t r, x = Some t /\ r <> h /\ fresh s0 s1 r T_RNG PPlain /\
                              made_ s0 e0 T_TREE_SPACE (PUserTreeSpace code r t) h s1)
     (failed_ s0 e0).
Proof.
  intros x null code V. pose proof A0 as A. unfold create_dynamic_tree_space. step1. step1. step1. step1.
  eapply wp_conseq; [apply (create_tree_space_at (PUserTreeSpace code)) with (o := o); auto| |auto].
  - reflexivity.
  - cbn. auto.
  - intros a s' (r & R). exists h, r. split; auto.
Qed.

(** *** Distributions *)

Lemma wp_check_objs : forall l t s (Q : list handle -> st -> Prop) (F : Z -> st -> Prop),
  Forall (valid s) l -> F ERR_INVALID_OBJECT s ->
  (forall hs, l = map Some hs -> (forall h, In h hs -> exists o, live s h o /\ o_type o = t) -> Q hs s) ->
  wp (check_objs l t) s Q F.
Proof.
  induction l as [|x l IH]; intros t s Q F V HF HQ; cbn [check_objs].
  - apply wp_ret. apply HQ; auto. easy.
  - inversion V; subst. apply wp_bind. apply wp_check; auto. intros h o -> L T.
    apply wp_bind. apply IH; auto. intros hs -> H. apply wp_ret. apply HQ; auto.
    intros y [<-|I]; eauto.
Qed.

Lemma wp_retain_each : forall l got e s (Q : unit -> st -> Prop) (F : Z -> st -> Prop),
  at_ s0 e s -> (forall h, In h l -> alive s0 h) ->
  (forall s', at_ s0 (fun x => e x + times x l) s' -> Q tt s') -> wp (retain_each got l) s Q F.
Proof.
  induction l as [|h l IH]; intros got e s Q F A Al HQ; cbn [retain_each].
  - apply wp_ret. apply HQ. eapply at_ext; [|exact A]. intros. rewrite times_nil. lia.
  - apply wp_bind. apply wp_orelse. eapply wp_retain_at0; [exact A|apply Al; now left|].
    intros s1 A1. eapply IH; [exact A1|intros; apply Al; now right|].
    intros s2 A2. apply HQ. eapply at_ext; [|exact A2]. intros x. cbv beta. rewrite times_cons. unfold plus. lia.
Qed.

Lemma create_distributions_at : forall hs s,
  at_ s0 e0 s -> (forall h, In h hs -> exists o, live s0 h o /\ o_type o = T_DISTRIBUTION) ->
  wp (retain_each [] hs ;;; new T_DISTRIBUTION (PDistributions hs)) s
     (made_ s0 e0 T_DISTRIBUTION (PDistributions hs)) (failed_ s0 e0).
Proof.
  intros hs s A H. apply wp_bind. eapply wp_retain_each; [exact A| |].
  - intros h I. destruct (H h I) as (o & L & _). exists o; auto.
  - intros s1 A1. eapply wp_new_final; [exact A1|refs|reflexivity|exact Logic.I| |].
    + intros x T I. cbn in I. apply in_map_iff in I as (y & [= <- <-] & I).
      destruct (H y I) as (o & L & T). eapply wants_at; eauto.
    + intros s2 O2 K2 Ge Sz L2. split; [eapply ok_ext; [|exact O2]; refs|]. split; [auto|]. split; [auto|].
      rewrite L2. now destruct (Nat.eq_dec (size s1) (size s1)).
Qed.

Lemma create_multivariate_ok : forall l, Forall (valid s0) l ->
  wp (create_multivariate l) s0
     (fun h s1 => exists ds, l = map Some ds /\ made_ s0 e0 T_DISTRIBUTION (PDistributions ds) h s1)
     (failed_ s0 e0).
Proof.
  intros l V. pose proof A0 as A. unfold create_multivariate. step1. step1. step1.
  apply wp_check_objs; [auto|failing_|]. intros hs -> H'.
  step1. step1. eapply wp_conseq; [apply create_distributions_at; eauto| |auto].
  intros h s1 M. exists hs. split; auto.
Qed.

Lemma create_mixture_ok : forall l v1 v2, Forall (valid s0) l ->
  wp (create_mixture l v1 v2) s0
     (fun h s1 => exists ds, l = map Some ds /\ made_ s0 e0 T_DISTRIBUTION (PDistributions ds) h s1)
     (failed_ s0 e0).
Proof.
  intros l v1 v2 V. pose proof A0 as A. unfold create_mixture. step1. step1. step1.
  apply wp_check_objs; [auto|failing_|]. intros hs -> H'.
  step1. step1. step1. step1. step1. step1. step1. step1.
  eapply wp_conseq; [apply create_distributions_at; eauto| |auto].
  intros h s1 M. exists hs. split; auto.
Qed.

(** *** Expressions *)

Lemma Forall2_weak : forall {A B} (P Q : A -> B -> Prop) l m,
  (forall a b, P a b -> Q a b) -> Forall2 P l m -> Forall2 Q l m.
Proof. induction 2; constructor; auto. Qed.


Definition node_of (s : st) (n : node) (x : handle) : Prop :=
  match n with
  | NObject (Some h) =>
      exists o, live s0 h o /\
        ((o_type o = T_EXPRESSION /\ x = h) \/
         (o_type o = T_PARAMETER /\ fresh s0 s x T_EXPRESSION (PVariable h)))
  | NObject None => False
  | NValue => fresh s0 s x T_EXPRESSION PPlain
  | NInvalid => False
  end.

Definition good_node (n : node) : Prop :=
  match n with
  | NObject (Some h) => exists o, live s0 h o /\ (o_type o = T_PARAMETER \/ o_type o = T_EXPRESSION)
  | NObject None => False
  | NValue => True
  | NInvalid => False
  end.

Lemma wp_check_nodes : forall l (Q : unit -> st -> Prop) (F : Z -> st -> Prop),
  Forall (valid_node s0) l -> (forall c, c < 0 -> F c s0) ->
  (Forall good_node l -> Q tt s0) -> wp (check_nodes l) s0 Q F.
Proof.
  induction l as [|n l IH]; intros Q F V HF HQ; cbn [check_nodes].
  - apply wp_ret. apply HQ. constructor.
  - inversion V; subst. apply wp_bind.
    assert (G : good_node n -> wp (check_nodes l) s0 Q F).
    { intros G. apply IH; auto. }
    destruct n as [[h|]| |]; cbn in H1.
    + destruct H1 as (o & L). apply wp_bind. eapply wp_deref; [apply L|]. apply wp_refute; intros E.
      * apply HF. reflexivity.
      * apply G. exists o. split; auto. apply andb_false_iff in E as [E|E]; apply negb_false_iff in E;
          apply Z.eqb_eq in E; auto.
    + apply wp_raise. apply HF. reflexivity.
    + apply wp_ret. apply G. exact Logic.I.
    + apply wp_raise. apply HF. reflexivity.
Qed.

Lemma wp_make_node : forall n e s (Q : handle -> st -> Prop) (F : Z -> st -> Prop),
  good_node n -> at_ s0 e s ->
  (forall h s', at_ s0 (plus e h) s' -> node_of s' n h ->
     (forall x, (size s0 <= x < size s)%nat -> look s' x = look s x) -> (size s <= size s')%nat ->
     (h < size s')%nat -> Q h s') ->
  (forall s' c, c < 0 -> at_ s0 e s' -> F c s') ->
  wp (make_node n) s Q F.
Proof.
  intros n e s Q F G A HQ HF. pose proof (k_size _ _ (proj1 (proj2 A))) as Sz.
  destruct n as [[h|]| |]; cbn in G; try easy; cbn [make_node].
  - destruct G as (o & L & T). destruct (at_live _ _ _ _ _ A L) as (r & Pr & Lr).
    assert (h < size s0)%nat as Hs by (eapply look_lt; apply L).
    apply wp_bind. eapply wp_deref; [apply Lr|]. cbn [with_ref o_type].
    destruct (Z.eqb_spec (o_type o) T_EXPRESSION) as [E|E].
    + apply wp_bind. eapply wp_retain_look; [exact A|eexists; eauto|].
      intros s1 A1 L1 Sz1. apply wp_ret. apply HQ; auto; try lia.
      * exists o. auto.
      * intros x X. apply L1. lia.
    + destruct T as [T|T]; [|easy].
      eapply wp_variable_at; [exact A|exact L|exact T| |intros; apply HF; [reflexivity|auto]].
      intros s1 x A1 Ge Ex L1 Lx. apply HQ; auto.
      * exists o. split; auto. right. split; auto. split; auto.
      * intros y Y. apply L1; lia.
      * apply look_lt in Lx. lia.
      * eapply look_lt; eauto.
  - eapply wp_plain_at; [exact A|cbn; auto| |intros; apply HF; [reflexivity|auto]].
    intros s1 x A1 Ge Ex L1 Lx _. apply HQ; auto.
    + split; auto.
    + intros y Y. apply L1; lia.
    + apply look_lt in Lx. lia.
    + eapply look_lt; eauto.
Qed.

Lemma wp_drops_at : forall l e s (Q : unit -> st -> Prop) (F : Z -> st -> Prop),
  at_ s0 e s -> (forall x, e0 x + times x l <= e x) ->
  (forall s', at_ s0 (fun x => e x - times x l) s' -> Q tt s') -> wp (drops l) s Q F.
Proof.
  induction l as [|h l IH]; intros e s Q F A E HQ; cbn [drops].
  - apply wp_ret. apply HQ. eapply at_ext; [|exact A]. intros. rewrite times_nil. lia.
  - assert (E' : forall x, e0 x + is x h + times x l <= e x).
    { intros x. specialize (E x). rewrite times_cons in E. lia. }
    apply wp_bind. eapply (wp_drop_at s0 e0); [exact O0|exact A| | |].
    + specialize (E' h). rewrite is_same in E'. pose proof (ok_nonneg _ _ h O0). pose proof (times_nonneg h l). lia.
    + intros x. specialize (E' x). pose proof (times_nonneg x l). unfold minus. lia.
    + intros s1 A1. eapply IH; [exact A1| |].
      * intros x. specialize (E' x). unfold minus. lia.
      * intros s2 A2. apply HQ. eapply at_ext; [|exact A2]. intros x. cbv beta. rewrite times_cons. unfold minus. lia.
Qed.

Lemma wp_make_nodes : forall l done got s (Q : list handle -> st -> Prop),
  Forall good_node l -> at_ s0 (fun x => e0 x + times x got) s ->
  Forall2 (node_of s) done got -> Forall (fun x => (x < size s)%nat) got ->
  (forall nodes s', at_ s0 (fun x => e0 x + times x nodes) s' ->
     Forall2 (node_of s') (done ++ l) nodes -> Q nodes s') ->
  wp (make_nodes got l) s Q (failed_ s0 e0).
Proof.
  induction l as [|n l IH]; intros don got s Q G A F2 B HQ; cbn [make_nodes].
  - apply wp_ret. apply HQ; auto. now rewrite app_nil_r.
  - inversion G; subst. apply wp_bind. apply wp_orelse.
    eapply wp_make_node; [auto|exact A| |].
    + intros h s1 A1 Nh L1 Sz Lh. eapply IH with (done := don ++ [n]); [auto| | | |].
      * eapply at_ext; [|exact A1]. intros x. unfold plus. rewrite times_app, times_cons, times_nil. lia.
      * apply Forall2_app; [|constructor; auto].
        (* the nodes made before are untouched *)
        clear -F2 B L1. induction F2 as [|m y ms ys N F2 IH]; constructor.
        -- inversion B; subst. destruct m as [[z|]| |]; cbn in *; auto.
           ++ destruct N as (o & Lo & [N|(T & Ge & Lx)]); exists o; split; auto. right. split; auto.
              split; auto. rewrite L1; auto.
           ++ destruct N as (Ge & Lx). split; auto. rewrite L1; auto.
        -- apply IH. now inversion B.
      * apply Forall_app. split.
        -- eapply Forall_impl; [|exact B]. cbn. intros; lia.
        -- constructor; auto.
      * intros nodes s' A' F'. apply HQ; auto. now rewrite <- app_assoc in F'.
    + intros s1 c N A1. eapply wp_drops_at; [exact A1|intros; cbv beta; lia|].
      intros s2 A2. eapply at_failed; [exact O0|exact A2|intros; cbv beta; lia|auto].
Qed.

Lemma create_expression_ok : forall l v, Forall (valid_node s0) l ->
  wp (create_expression l v) s0
     (fun h s1 => exists nodes, Forall2 (node_of s1) l nodes /\
                                made_ s0 e0 T_EXPRESSION (PNodes nodes) h s1)
     (failed_ s0 e0).
Proof.
  intros l v V. pose proof A0 as A. unfold create_expression. step1. step1. step1.
  apply wp_check_nodes; [auto|intros; failing_|]. intros G. step1. step1. step1.
  eapply wp_make_nodes with (done := []); [auto| |constructor|constructor|].
  - eapply at_ext; [|eassumption]. intros. cbv beta. rewrite times_nil. lia.
  - intros nodes s1 A1 F1.
    assert (W : forall x, In x nodes -> exists ox, live s1 x ox /\ o_type ox = T_EXPRESSION).
    { intros x I. cbn [app] in F1. assert (exists e, at_ s0 e s1) as (e & Ae) by eauto. clear -F1 I Ae. induction F1 as [|n y ns ys N F IH]; [easy|].
      destruct I as [->|I]; [|auto].
      destruct n as [[z|]| |]; cbn in N; try contradiction.
      - destruct N as (o & Lo & [(T & ->)|(T & Ge & Lx)]).
        + eapply wants_at; eauto.
        + eexists. split; [split; [exact Lx|cbn; lia]|reflexivity].
      - destruct N as (Ge & Lx). eexists. split; [split; [exact Lx|cbn; lia]|reflexivity]. }
    eapply wp_new_final; [exact A1|refs|reflexivity|exact Logic.I| |].
    + intros x T I. cbn in I. apply in_map_iff in I as (y & [= <- <-] & I). auto.
    + intros s2 O2 K2 Ge Sz L2. exists nodes. split.
      * cbn [app] in F1. eapply Forall2_weak; [|exact F1]. intros n x N.
        assert (Lk : forall x t p, fresh s0 s1 x t p -> fresh s0 s2 x t p).
        { intros y t p (Gy & Ly). split; auto. rewrite L2. destruct (Nat.eq_dec y (size s1)); auto.
          apply look_lt in Ly. lia. }
        destruct n as [[z|]| |]; cbn in *; auto.
        destruct N as (o & Lo & [N|(T & N)]); exists o; split; auto.
      * split; [eapply ok_ext; [|exact O2]; refs|]. split; [auto|]. split; [auto|].
        rewrite L2. now destruct (Nat.eq_dec (size s1) (size s1)).
Qed.
End Calls.
