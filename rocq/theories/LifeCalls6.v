(** Maps, and the calls on any object. *)
From Coq Require Import ZArith List Bool Lia.
From Verif Require Import Base LifeModel LifeSpec LifeProofs LifeOps LifeCalls LifeCalls2 LifeCalls3 LifeCalls4 LifeCalls5.
Import ListNotations.
Open Scope Z_scope.

Definition held_by (d : mdatum) : option handle := match d with MObject x => x | MOther => None end.
Definition refs_of (e : entry) (x : handle) : Z := is_some x (e_kobj e) + is_some x (e_vobj e).

(** The first entry with a key, and the others. *)
Lemma find_without : forall k l,
  match find (fun e => e_key e =? k) l with
  | Some e => exists l1 l2, l = l1 ++ e :: l2 /\ e_key e = k /\ (forall a, In a l1 -> e_key a <> k) /\
                            without k l = l1 ++ l2
  | None => forall a, In a l -> e_key a <> k
  end.
Proof.
  induction l as [|a l IH]; cbn; [easy|]. destruct (Z.eqb_spec (e_key a) k) as [E|E].
  - exists [], l. auto.
  - destruct (find _ l) as [e|].
    + destruct IH as (l1 & l2 & -> & Ek & N & W). exists (a :: l1), l2. cbn. rewrite W.
      split; auto. split; auto. split; auto. intros b [<-|I]; auto.
    + intros b [<-|I]; auto.
Qed.

Section Calls.
Variables (s0 : st) (e0 : handle -> Z).
Hypothesis O0 : ok s0 e0.
Let A0 : at_ s0 e0 s0 := at_refl s0 e0 O0.

Notation changed_ := (changed_ s0 e0).
Notation own := (own e0).
Notation own_valid := (own_valid s0 e0 O0).
Notation wp_get_at := (wp_get_at s0).
Notation wp_set_at := (wp_set_at s0).
Notation map_shape := (map_shape s0 e0 O0).

Lemma wp_odrop_at : forall e s x (Q : unit -> st -> Prop) (F : Z -> st -> Prop),
  at_ s0 e s -> (forall y, e0 y + is_some y x <= e y) ->
  (forall s', at_ s0 (fun y => e y - is_some y x) s' -> Q tt s') -> wp (odrop x) s Q F.
Proof.
  intros e s [h|] Q F A E H; cbn [odrop is_some] in *.
  - eapply (wp_drop_at s0 e0); [exact O0|exact A| | |].
    + specialize (E h). rewrite is_same in E. pose proof (ok_nonneg _ _ h O0). lia.
    + intros x. specialize (E x). unfold minus. lia.
    + intros s' A'. apply H. eapply at_ext; [|exact A']. intros x. unfold minus. reflexivity.
  - apply wp_ret. apply H. eapply at_ext; [|exact A]. intros. cbv beta. lia.
Qed.

Lemma wp_odrop_ev : forall c e s x (Q : unit -> st -> Prop) (F : Z -> st -> Prop),
  ev_ s0 c e s -> (forall y, e0 y + is_some y x <= e y) ->
  (forall y p, c = Some (y, p) -> 0 < e0 y) ->
  (forall s', ev_ s0 c (fun y => e y - is_some y x) s' -> Q tt s') -> wp (odrop x) s Q F.
Proof.
  intros c e s [h|] Q F A E T H; cbn [odrop is_some] in *.
  - eapply wp_drop_ev; [exact A| | |].
    + specialize (E h). rewrite is_same in E. pose proof (ok_nonneg _ _ h O0). lia.
    + intros y p Ec. specialize (E y). specialize (T y p Ec). unfold minus. lia.
    + intros s' A'. apply H. eapply ev_ext; [|exact A']. intros x. unfold minus. reflexivity.
  - apply wp_ret. apply H. eapply ev_ext; [|exact A]. intros. cbv beta. lia.
Qed.

Lemma wp_hold_at : forall e s d (Q : option handle -> st -> Prop) (F : Z -> st -> Prop),
  at_ s0 e s -> valid_datum s0 d ->
  (forall s', at_ s0 (fun y => e y + is_some y (held_by d)) s' -> (d = MObject None -> False) ->
     Q (held_by d) s') ->
  (d = MObject None -> F ERR_INVALID_OBJECT s) -> wp (hold d) s Q F.
Proof.
  intros e s [[h|]|] Q F A V HQ HF; cbn [hold held_by] in *.
  - apply wp_bind. eapply wp_retain_at0; [exact A|exact V|]. intros s1 A1. apply wp_ret. apply HQ; [|discriminate].
    eapply at_ext; [|exact A1]. intros. unfold plus. cbn. reflexivity.
  - apply wp_bind. cbn [retain]. apply wp_raise. auto.
  - apply wp_ret. apply HQ; [|discriminate]. eapply at_ext; [|exact A]. intros. cbn. lia.
Qed.

Lemma wp_map_entries : forall s m r t cbs l (Q : list entry -> st -> Prop) (F : Z -> st -> Prop),
  look s m = Some (mkObj t r cbs (PMap l)) -> Q l s -> wp (map_entries m) s Q F.
Proof. intros. apply wp_bind. eapply wp_get_data; [eassumption|]. cbn [o_data]. now apply wp_ret. Qed.

Lemma wp_entries_ev : forall s m o l e (Q : list entry -> st -> Prop) (F : Z -> st -> Prop),
  ev_ s0 (Some (m, PMap l)) e s -> live s0 m o -> 0 < e m -> Q l s -> wp (map_entries m) s Q F.
Proof.
  intros s m o l e Q F V L P H.
  assert (alive s m) as Al by (eapply ok_alive; [apply V|auto]).
  destruct (ev_target _ _ _ _ _ _ V L Al) as (r & Pr & R). cbn [contents] in R.
  destruct (Nat.eq_dec m m) as [_|]; [|easy]. eapply wp_map_entries; eauto.
Qed.

Lemma wp_set_map : forall s c m o l' e e' (Q : unit -> st -> Prop) (F : Z -> st -> Prop),
  ev_ s0 c e s -> live s0 m o -> o_type o = T_MAP -> 0 < e m ->
  (c = None \/ exists p', c = Some (m, p')) ->
  (forall y, e' y = e y + holds (contents c m (o_data o)) y - holds (PMap l') y) ->
  (forall y, 0 <= e' y) ->
  (forall s', ev_ s0 (Some (m, PMap l')) e' s' -> Q tt s') -> wp (set_data m (PMap l')) s Q F.
Proof.
  intros s c m o l' e e' Q F V L T P Hc E N H.
  eapply wp_set_ev; [exact V|exact L|eapply ok_alive; [apply V|auto]|exact Hc|exact E|exact N| | | |exact H].
  - rewrite T. reflexivity.
  - intros _. exact Logic.I.
  - intros y U [].
Qed.

(** Removing an entry, from a state where nothing has changed but for [more]
    references taken. *)
Lemma wp_map_remove : forall s m o l l1 a l2 more (Q : unit -> st -> Prop) (F : Z -> st -> Prop),
  at_ s0 (fun y => e0 y + more y) s -> (forall y, 0 <= more y) ->
  live s0 m o -> o_type o = T_MAP -> o_data o = PMap l -> 0 < e0 m ->
  l = l1 ++ a :: l2 -> without (e_key a) l = l1 ++ l2 ->
  (forall s', ev_ s0 (Some (m, PMap (l1 ++ l2))) (fun y => e0 y + more y) s' -> Q tt s') ->
  wp (map_remove m a) s Q F.
Proof.
  intros s m o l l1 a l2 more Q F A Nm L T D P El Ew H. unfold map_remove. apply wp_bind.
  destruct (at_live _ _ _ _ _ A L) as (r & Pr & Lr & _). destruct o as [t0 r0 c0 d0]. cbn in D, T, Lr. subst d0.
  eapply wp_map_entries; [exact Lr|]. rewrite Ew. apply wp_bind.
  eapply wp_set_map with (e' := fun y => e0 y + more y + refs_of a y);
    [apply at_ev; exact A|exact L|exact T| |now left| | |].
  - specialize (Nm m). lia.
  - intros y. cbn [contents o_data holds]. rewrite El, !sum_app. unfold refs_of, sum at 2; cbn [fold_right].
    fold (sum (fun e : entry => is_some y (e_kobj e) + is_some y (e_vobj e)) l2). lia.
  - intros y. specialize (Nm y). unfold refs_of. nonneg. lia.
  - intros s1 V1. apply wp_bind. eapply wp_odrop_ev; [exact V1| | |].
    + intros y. specialize (Nm y). unfold refs_of. nonneg. lia.
    + intros y p [= <- _]. exact P.
    + intros s2 V2. eapply wp_odrop_ev; [exact V2| | |].
      * intros y. specialize (Nm y). unfold refs_of. nonneg. lia.
      * intros y p [= <- _]. exact P.
      * intros s3 V3. apply H. eapply ev_ext; [|exact V3]. intros y. unfold refs_of. lia.
Qed.

Lemma map_del_ok : forall x k, own x ->
  wp (map_del x k) s0
     (fun _ s1 => exists m o l1 a l2, x = Some m /\ live s0 m o /\ o_type o = T_MAP /\
        o_data o = PMap (l1 ++ a :: l2) /\ e_key a = k /\ (forall b, In b l1 -> e_key b <> k) /\
        changed_ m (PMap (l1 ++ l2)) s1)
     (failed_ s0 e0).
Proof.
  intros x k Ow. pose proof (own_valid x Ow) as Vx. pose proof A0 as A. unfold map_del.
  check m o L T. change (0 < e0 m) in Ow. destruct (map_shape _ _ L T) as (l & D). apply wp_bind.
  pose proof L as [Lk _]. destruct o as [t0 r0 c0 d0]. cbn in D, T. subst d0.
  eapply wp_map_entries; [exact Lk|].
  pose proof (find_without k l) as Fw. destruct (find _ l) as [a|].
  - destruct Fw as (l1 & l2 & El & Ek & N & Ew). rewrite <- Ek in Ew.
    eapply wp_map_remove with (more := fun _ => 0); [|intros; cbv beta; lia|exact L|exact T|reflexivity|exact Ow|exact El|exact Ew|].
    + eapply at_ext; [|exact A]. intros. cbv beta. lia.
    + intros s1 V1. exists m, (mkObj t0 r0 c0 (PMap l)), l1, a, l2.
      split; [auto|]. split; [auto|]. split; [auto|]. split; [cbn; congruence|]. split; [auto|]. split; [auto|].
      eapply ev_ext; [|exact V1]. intros. cbv beta. lia.
  - apply wp_raise. failing_.
Qed.

Lemma map_set_ok : forall x k kd vd same, own x -> valid_datum s0 kd -> valid_datum s0 vd ->
  wp (map_set x k kd vd same) s0
     (fun _ s1 => exists m o l, x = Some m /\ live s0 m o /\ o_type o = T_MAP /\ o_data o = PMap l /\
        ((same = true /\ (exists a, In a l /\ e_key a = k) /\ s1 = s0) \/
         (kd <> MObject None /\ vd <> MObject None /\
          exists l1 l2,
            ((forall a, In a l -> e_key a <> k) /\ l = l1 ++ l2 \/
             exists a, same = false /\ l = l1 ++ a :: l2 /\ e_key a = k /\ (forall b, In b l1 -> e_key b <> k)) /\
            changed_ m (PMap (l1 ++ l2 ++ [mkEntry k (held_by kd) (held_by vd)])) s1)))
     (failed_ s0 e0).
Proof.
  intros x k kd vd same Ow Vk Vv. pose proof (own_valid x Ow) as Vx. pose proof A0 as A. unfold map_set.
  check m o L T. change (0 < e0 m) in Ow. destruct (map_shape _ _ L T) as (l & D). apply wp_bind.
  pose proof L as [Lk _]. destruct o as [t0 r0 c0 d0]. cbn in D, T. subst d0.
  eapply wp_map_entries; [exact Lk|].
  set (newe := mkEntry k (held_by kd) (held_by vd)).
  set (Q := fun (_ : unit) (s1 : st) => _).
  assert (Main : find (fun e => e_key e =? k) l = None \/ same = false ->
    wp (ko <~ hold kd ;;
        vo <~ orelse (hold vd) (odrop ko) ;;
        orelse alloc (odrop vo ;;; odrop ko) ;;;
        (match find (fun e => e_key e =? k) l with Some e => map_remove m e | None => ret tt end) ;;;
        l2 <~ map_entries m ;;
        set_data m (PMap (l2 ++ [mkEntry k ko vo]))) s0 Q (failed_ s0 e0)).
  { intros Hs. apply wp_bind. eapply wp_hold_at; [exact A|exact Vk| |intros _; failing_].
    intros s1 A1 Nk. apply wp_bind. apply wp_orelse. eapply wp_hold_at; [exact A1|exact Vv| |].
    2:{ intros _. eapply wp_odrop_at; [exact A1|intros; cbv beta; lia|]. intros s2 A2. clear A A1.
        eapply at_failed; [exact O0|exact A2|intros; cbv beta; lia|reflexivity]. }
    intros s2 A2 Nv. apply wp_bind. apply wp_orelse. eapply wp_alloc_at; [exact A2| |].
    2:{ intros s3 A3. apply wp_bind. eapply wp_odrop_at; [exact A3|intros; cbv beta; nonneg; lia|].
        intros s4 A4. eapply wp_odrop_at; [exact A4|intros; cbv beta; nonneg; lia|]. intros s5 A5.
        eapply at_failed; [exact O0|exact A5|intros; cbv beta; lia|reflexivity]. }
    intros s3 A3. clear A A1 A2. apply wp_bind.
    (* the references of the new entry *)
    assert (A3' : at_ s0 (fun y => e0 y + refs_of newe y) s3).
    { eapply at_ext; [|exact A3]. intros y. unfold refs_of, newe. cbn [e_kobj e_vobj]. lia. }
    assert (Nn : forall y, 0 <= refs_of newe y) by (intros y; unfold refs_of; nonneg; lia).
    assert (End : forall l1 l2 s4, ev_ s0 (Some (m, PMap (l1 ++ l2))) (fun y => e0 y + refs_of newe y) s4 ->
      ((forall a, In a l -> e_key a <> k) /\ l = l1 ++ l2 \/
        exists a, same = false /\ l = l1 ++ a :: l2 /\ e_key a = k /\ (forall b, In b l1 -> e_key b <> k)) ->
      wp (l3 <~ map_entries m ;; set_data m (PMap (l3 ++ [newe]))) s4 Q (failed_ s0 e0)).
    { intros l1 l2 s4 V4 Hl. apply wp_bind. eapply wp_entries_ev; [exact V4|exact L| |].
      - specialize (Nn m). lia.
      - eapply wp_set_map with (e' := e0); [exact V4|exact L|exact T| |right; eauto| | |].
        + specialize (Nn m). lia.
        + intros y. cbn [contents]. destruct (Nat.eq_dec m m) as [_|]; [|easy]. cbn [holds].
          rewrite (sum_app _ _ (l1 ++ l2)), sum_one. unfold refs_of. lia.
        + intros y. nonneg. lia.
        + intros s5 V5. exists m, (mkObj t0 r0 c0 (PMap l)), l.
          split; [auto|]. split; [auto|]. split; [auto|]. split; [auto|]. right.
          split; [auto|]. split; [auto|]. exists l1, l2. split; [auto|]. rewrite <- app_assoc in V5. exact V5. }
    pose proof (find_without k l) as Fw. destruct (find _ l) as [a|] eqn:Fd.
    - destruct Fw as (l1 & l2 & El & Ek & N & Ew). rewrite <- Ek in Ew.
      eapply wp_map_remove; [exact A3'|exact Nn|exact L|exact T|reflexivity|exact Ow|exact El|exact Ew|].
      intros s4 V4. apply (End l1 l2 s4 V4). right. exists a. destruct Hs as [Hs|Hs]; [congruence|]. auto.
    - apply wp_ret. apply (End l [] s3).
      + rewrite app_nil_r. apply (ev_some s0 _ _ m (mkObj t0 r0 c0 (PMap l))); [apply at_ev; exact A3'|exact L].
      + left. split; auto. now rewrite app_nil_r. }
  pose proof (find_without k l) as Fw. destruct (find _ l) as [a|] eqn:Fd.
  - destruct same.
    + apply wp_ret. exists m, (mkObj t0 r0 c0 (PMap l)), l.
      split; [auto|]. split; [auto|]. split; [auto|]. split; [auto|]. left. split; auto. split; auto.
      destruct Fw as (l1 & l2 & -> & Ek & _). exists a. split; auto. apply in_or_app. right. now left.
    + apply Main. auto.
  - destruct same; apply Main; auto.
Qed.

(** *** Any object *)

Definition noted_ (h : handle) (o' : obj) (s1 : st) : Prop :=
  size s1 = size s0 /\ s_log s1 = s_log s0 /\
  forall y, look s1 y = if Nat.eq_dec y h then Some o' else look s0 y.

Lemma retain_call_ok : forall x, valid s0 x ->
  wp (retain x) s0
     (fun _ s1 => exists h o, x = Some h /\ live s0 h o /\ ok s1 (plus e0 h) /\
        noted_ h (with_ref o (o_ref o + 1)) s1)
     (failed_ s0 e0).
Proof.
  intros x V. pose proof A0 as A. destruct x as [h|]; [|cbn; failing_]. destruct V as (o & L).
  eapply wp_retain_exact; [exact L|]. exists h, o. split; auto. split; auto. split.
  - now apply retain_ok.
  - split; [apply size_put|]. split; auto. intros y. rewrite look_put by (eapply look_lt; apply L). reflexivity.
Qed.

Lemma set_destroy_callback_ok : forall x cb ud, valid s0 x ->
  wp (set_destroy_callback x cb ud) s0
     (fun _ s1 => exists h o, x = Some h /\ live s0 h o /\ cb <> 0 /\ ok s1 e0 /\
        noted_ h (with_cbs o (o_cbs o ++ [(cb, ud)])) s1)
     (failed_ s0 e0).
Proof.
  intros x cb ud V. pose proof A0 as A. destruct x as [h|]; [|cbn; failing_]. destruct V as (o & L).
  unfold set_destroy_callback. apply wp_bind. apply wp_refute; [intros _; failing_|]. intros E.
  apply wp_bind. eapply wp_deref; [apply L|]. unfold wp, store.
  exists h, o. split; auto. split; auto. split; [intros ->; discriminate|].
  assert (Lt : (h < size s0)%nat) by (eapply look_lt; apply L). split.
  - destruct (proj2 O0 h o L) as (Ft & Cv & W). split.
    + eapply counted_put with (o := o) (e := e0); eauto.
      * apply O0.
      * apply L.
      * intros y. nonneg. lia.
      * intros y. cbn. destruct (Nat.eq_dec y h); lia.
    + eapply sound_put with (o := o); eauto; try apply O0; apply L.
  - split; [apply size_put|]. split; auto. intros y. rewrite look_put by auto. reflexivity.
Qed.
End Calls.
