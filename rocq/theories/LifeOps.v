(** Reasoning about the calls: what is kept, what may change, and the invariant. *)
From Coq Require Import ZArith List Bool Lia.
From Verif Require Import Base LifeModel LifeSpec LifeProofs.
Import ListNotations.
Open Scope Z_scope.

(** ** The invariant *)

(** While a call replaces the distributions of a space its parameters are not
    all covered: such a space is exempted. *)
Class exempt := exempted : handle -> bool.
Definition sound_but (X : exempt) (s : st) : Prop :=
  forall y o, live s y o ->
    fits (o_type o) (o_data o) /\ (X y = false -> covered (o_data o)) /\
    forall x t, In (x, t) (wants (o_type o) (o_data o)) ->
                exists ox, live s x ox /\ o_type ox = t.
Definition nobody : exempt := fun _ => false.

Section Ops.
Context {Ex : exempt}.

Definition ok (s : st) (e : handle -> Z) : Prop := counted s e /\ sound_but Ex s.

Lemma ok_ext : forall s e e', (forall x, e x = e' x) -> ok s e -> ok s e'.
Proof. intros s e e' E [C S]. split; auto. eapply counted_ext; eauto. Qed.

Lemma fits_plain : forall t p, fits t p -> t = T_RNG \/ t = T_PARAMETER -> p = PPlain.
Proof.
  intros t p F H. unfold T_RNG, T_PARAMETER in *.
  destruct p; cbn in F; auto; exfalso; compute in F; destruct H; subst; intuition discriminate.
Qed.

Lemma wants_holds : forall t p x T, In (x, T) (wants t p) -> 0 < holds p x.
Proof.
  intros t p x T H. rewrite <- released_holds. apply times_in.
  assert (M : forall A (f : A -> handle) (l : list A) (U : Z),
    In (x, T) (map (fun y => (f y, U)) l) -> In x (map f l)).
  { intros A f l U I. apply in_map_iff in I as (y & E & I). inversion E. subst. now apply in_map. }
  assert (M' : forall (l : list handle) (U : Z), In (x, T) (map (fun y => (y, U)) l) -> In x l).
  { intros l U I. apply (M _ (fun y => y)) in I. now rewrite map_id in I. }
  destruct p; cbn [wants released] in *; rewrite ?in_app_iff in *; cbn [In] in *;
    repeat match goal with
    | H : _ \/ _ |- _ => destruct H as [H|H]
    | H : (_, _) = (_, _) |- _ => injection H as <- <-
    | H : False |- _ => destruct H
    end; auto; try (apply M' in H; auto; fail).
  - left. apply M' in H. apply in_map_iff in H as (w & <- & I). apply in_flat_map. exists w. split; auto. now left.
  - left. apply in_flat_map in H as (w & I & H). apply in_flat_map. exists w. split; auto.
    destruct (snd w); [|easy]. destruct H as [H|[]]. inversion H. right. now left.
  - apply (M _ fst) in H. auto.
  - apply in_flat_map in H as (w & I & H). apply in_flat_map. exists w. split; auto.
    destruct w; [|easy]. destruct H as [H|[]]. inversion H. now left.
Qed.

Lemma sound_variables : forall s, sound_but Ex s -> plain_variables s.
Proof.
  intros s S y o v L D. destruct (S y o L) as (_ & _ & W). rewrite D in W.
  destruct (W v T_PARAMETER (or_introl eq_refl)) as (ov & Lv & T).
  exists ov. split; [apply Lv|]. destruct (S v ov Lv) as (F & _ & _).
  rewrite (fits_plain _ _ F); auto.
Qed.

Lemma effect_sound : forall s e s' ev k, effect s e s' ev -> counted s' k -> sound_but Ex s -> sound_but Ex s'.
Proof.
  intros s e s' ev k F C S y o L.
  destruct (effect_stays _ _ _ _ _ _ F L) as (o0 & L0 & E).
  destruct (S y o0 L0) as (Ft & Cv & W). rewrite E. cbn [with_ref o_type o_data].
  split; [exact Ft|]. split; [exact Cv|].
  intros x t I. destruct (W x t I) as (ox & Lx & T).
  assert (holder s' y x) as H.
  { exists o. split; auto. rewrite E. eapply wants_holds; eauto. }
  assert (alive s' x) as (ox' & Ax).
  { eapply counted_alive; eauto. pose proof (counted_nonneg _ _ x C).
    pose proof (holder_held _ _ _ H). lia. }
  destruct (effect_stays _ _ _ _ _ _ F Ax) as (ox0 & L1 & E1).
  exists ox'. split; auto. rewrite E1. cbn. assert (ox0 = ox) by (eapply live_fun; eauto). congruence.
Qed.

Lemma release_ok : forall s e h, ok s e -> 0 < e h ->
  exists s' ev,
    (release (Some h) s = Done tt s' \/
     exists c o, release (Some h) s = Fail c s' /\ c < 0 /\ live s h o /\
                 user_del (o_data o) = Some c /\ gone s' h o) /\
    effect s (minus e h) s' ev /\ ok s' (minus e h).
Proof.
  intros s e h [C S] P.
  destruct (release_spec s e h C (sound_variables _ S) P) as (s' & ev & O & F & C').
  exists s', ev. split; auto. split; auto. split; auto. eapply effect_sound; eauto.
Qed.

(** ** Programs *)

Definition wp {A} (p : prog A) (s : st) (Q : A -> st -> Prop) (F : Z -> st -> Prop) : Prop :=
  match p s with
  | Done a s' => Q a s'
  | Fail c s' => F c s'
  | Undef w => w = UBOverflow
  end.

Lemma wp_bind : forall A B (p : prog A) (f : A -> prog B) s Q F,
  wp p s (fun a s' => wp (f a) s' Q F) F -> wp (bindp p f) s Q F.
Proof. unfold wp, bindp. intros A B p f s Q F H. destruct (p s); auto. Qed.
Lemma wp_orelse : forall A (p : prog A) c s Q F,
  wp p s Q (fun k s' => wp c s' (fun _ s2 => F k s2) (fun _ s2 => F k s2)) ->
  wp (orelse p c) s Q F.
Proof. unfold wp, orelse. intros A p c s Q F H. destruct (p s); auto. destruct (c s0); auto. Qed.
Lemma wp_ignore : forall A (p : prog A) s Q F,
  wp p s (fun _ s' => Q tt s') (fun _ s' => Q tt s') -> wp (ignore p) s Q F.
Proof. unfold wp, ignore. intros A p s Q F H. destruct (p s); auto. Qed.
Lemma wp_ret : forall A (a : A) s (Q : A -> st -> Prop) F, Q a s -> wp (ret a) s Q F.
Proof. auto. Qed.
Lemma wp_raise : forall A c s (Q : A -> st -> Prop) (F : Z -> st -> Prop), F c s -> wp (raise c) s Q F.
Proof. auto. Qed.
Lemma wp_refute : forall b c s (Q : unit -> st -> Prop) (F : Z -> st -> Prop),
  (b = true -> F c s) -> (b = false -> Q tt s) -> wp (refutep b c) s Q F.
Proof. intros [] c s Q F H1 H2; [apply wp_raise|apply wp_ret]; auto. Qed.
Lemma wp_verdict : forall v s (Q : unit -> st -> Prop) (F : Z -> st -> Prop),
  (forall c, v = Some c -> c < 0 -> F c s) ->
  ((forall c, v = Some c -> 0 <= c) -> Q tt s) -> wp (verdict v) s Q F.
Proof.
  intros [c|] s Q F H1 H2; cbn.
  - apply wp_refute; intros E.
    + apply Z.ltb_lt in E. auto.
    + apply Z.ltb_ge in E. apply H2. intros c' H. inversion H. subst. auto.
  - apply H2. intros c E. discriminate E.
Qed.
Lemma wp_conseq : forall A (p : prog A) s (Q Q' : A -> st -> Prop) (F F' : Z -> st -> Prop),
  wp p s Q F -> (forall a s', Q a s' -> Q' a s') -> (forall c s', F c s' -> F' c s') ->
  wp p s Q' F'.
Proof. unfold wp. intros A p s Q Q' F F' H HQ HF. destruct (p s); auto. Qed.

Lemma wp_deref : forall h o s (Q : obj -> st -> Prop) F, look s h = Some o -> Q o s -> wp (deref h) s Q F.
Proof. intros. unfold wp. rewrite (deref_look _ _ _ H). auto. Qed.
Lemma wp_get_data : forall h o s (Q : payload -> st -> Prop) F, look s h = Some o -> Q (o_data o) s -> wp (get_data h) s Q F.
Proof. intros. apply wp_bind. eapply wp_deref; eauto. Qed.
Lemma wp_set_data : forall h p o s (Q : unit -> st -> Prop) (F : Z -> st -> Prop), look s h = Some o ->
  Q tt (put s h (Some (with_data o p))) -> wp (set_data h p) s Q F.
Proof. intros. apply wp_bind. eapply wp_deref; eauto. Qed.
Lemma wp_check : forall x t s (Q : handle -> st -> Prop) (F : Z -> st -> Prop),
  valid s x ->
  (F ERR_INVALID_OBJECT s) ->
  (forall h o, x = Some h -> live s h o -> o_type o = t -> Q h s) ->
  wp (check_obj x t) s Q F.
Proof.
  intros [h|] t s Q F V HF HQ; cbn.
  - destruct V as (o & L). apply wp_bind. eapply wp_deref; [apply L|].
    apply wp_bind. apply wp_refute; intros E; auto.
    apply wp_ret. eapply HQ; eauto. destruct (Z.eqb_spec (o_type o) t); [auto|discriminate].
  - exact HF.
Qed.

(** ** What is kept *)

(** The objects made since: fresh, and referencing older objects only. *)
Definition young (s0 s : st) : Prop :=
  forall h o, (size s0 <= h)%nat -> look s h = Some o ->
    0 < o_ref o /\ o_cbs o = [] /\ user_del (o_data o) = None /\
    forall x, 0 < holds (o_data o) x -> (x < h)%nat.

Definition at_ (s0 : st) (e : handle -> Z) (s : st) : Prop :=
  ok s e /\ kept s0 s /\ young s0 s.

Lemma kept_refl : forall s, kept s s.
Proof.
  intros s. constructor; auto.
  - intros h o [L P]. exists (o_ref o). split; auto. rewrite L. now destruct o.
  - exists []. rewrite app_nil_r. split; auto. split; auto.
    intros h H. rewrite look_big by auto. destruct (Nat.ltb_spec h (size s)); [lia|reflexivity].
  - intros h o Ge L. rewrite look_big in L by auto. discriminate.
Qed.
Lemma at_refl : forall s e, ok s e -> at_ s e s.
Proof.
  intros s e H. split; auto. split; [apply kept_refl|].
  intros h o L H'. rewrite look_big in H' by auto. discriminate.
Qed.
Lemma at_ext : forall s0 e e' s, (forall x, e x = e' x) -> at_ s0 e s -> at_ s0 e' s.
Proof. intros s0 e e' s E (O & K). split; auto. eapply ok_ext; eauto. Qed.

Lemma at_live : forall s0 e s h o, at_ s0 e s -> live s0 h o ->
  exists r, 0 < r /\ live s h (with_ref o r).
Proof.
  intros s0 e s h o (_ & K & _) L. destruct (k_live _ _ K h o L) as (r & P & E).
  exists r. split; auto. split; auto.
Qed.
Lemma at_alive : forall s0 e s h, at_ s0 e s -> alive s0 h -> alive s h.
Proof. intros s0 e s h A (o & L). destruct (at_live _ _ _ _ _ A L) as (r & _ & H). eexists; eauto. Qed.

(** Nothing of [s0] is destroyed as long as its references from outside remain. *)
Lemma not_doomed : forall s0 e0 s e x, ok s0 e0 -> kept s0 s ->
  (forall x, e0 x <= e x) -> doomed s e x -> ~ alive s0 x.
Proof.
  intros s0 e0 s e x [C0 _] K E D. induction D as [x A Z H IH].
  intros (o & L). pose proof (counted_live _ _ _ _ C0 L) as R. destruct L as [L P].
  pose proof (counted_nonneg _ _ x C0). specialize (E x).
  assert (0 < held s0 x) as Hh by lia. apply held_holder in Hh as (y & oy & Ly & Hy).
  destruct (k_live _ _ K y oy Ly) as (r & Pr & Er).
  apply (IH y); [|exists oy; auto]. exists (with_ref oy r). split; [split; auto|exact Hy].
Qed.

Lemma wp_drop_at : forall s0 e0 e s h (Q : unit -> st -> Prop) (F : Z -> st -> Prop),
  ok s0 e0 -> at_ s0 e s -> 0 < e h -> (forall x, e0 x <= minus e h x) ->
  (forall s', at_ s0 (minus e h) s' -> Q tt s') -> wp (drop h) s Q F.
Proof.
  intros s0 e0 e s h Q F O0 (O & K & Y) P E H. apply wp_ignore.
  destruct (release_ok s e h O P) as (s' & ev & R & Ef & O').
  assert (Y' : young s0 s').
  { intros x o Ge L.
      destruct (Z_lt_dec 0 (o_ref o)) as [Po|Po].
      + destruct (effect_stays _ _ _ _ _ _ Ef (conj L Po)) as (o1 & [L1 P1] & E1).
        destruct (Y x o1 Ge L1) as (_ & Cx & Ux & Hx). rewrite E1. cbn. auto.
      + exfalso. destruct (look s x) as [o1|] eqn:X.
        * destruct (Y x o1 Ge X) as (Px & _ & Ux & _).
          destruct (ef_live _ _ _ _ Ef x o1 (conj X Px)) as [[(r & R' & S) _]|(G & _ & _)].
          -- rewrite S in L. inversion L; subst o. cbn in Po. lia.
          -- unfold gone, zombie in G. rewrite Ux in G. congruence.
        * rewrite (ef_none _ _ _ _ Ef x X) in L. discriminate. }
  assert (A : at_ s0 (minus e h) s').
  { split; auto.
    assert (ND : forall x, doomed s (minus e h) x -> ~ alive s0 x) by (intros; eapply not_doomed; eauto).
    split.
    - constructor.
      + rewrite (ef_size _ _ _ _ Ef). apply K.
      + intros x o L. destruct (k_live _ _ K x o L) as (r & Pr & Lr).
        assert (live s x (with_ref o r)) as L1 by (split; auto).
        destruct (ef_live _ _ _ _ Ef x _ L1) as [[(r2 & R2 & S) _]|(_ & _ & D)].
        * exists r2. split; [lia|]. rewrite S. now destruct o.
        * exfalso. eapply ND; eauto. exists o; auto.
      + intros x Lt N. pose proof (k_dead _ _ K x Lt N) as D.
        rewrite <- D. destruct (look s x) as [o|] eqn:X.
        * eapply ef_dying; eauto. destruct (Z_lt_dec 0 (o_ref o)); [|lia].
          exfalso. apply N. exists o. split; auto.
        * eapply ef_none; eauto.
      + destruct (k_log _ _ K) as (ev0 & L0 & Old & New). exists (ev0 ++ ev).
        rewrite (ef_log _ _ _ _ Ef), L0, app_assoc. split; auto. split.
        * intros x Lt. rewrite about_app, Old by auto. cbn.
          destruct (alive_dec s x) as [(ox & Lx)|N]; [|eapply ef_dead; eauto].
          destruct (ef_live _ _ _ _ Ef x ox Lx) as [[_ ?]|(_ & _ & D)]; auto.
          exfalso. apply (ND x D). destruct (alive_dec s0 x) as [|N]; auto. exfalso.
          pose proof (k_dead _ _ K x Lt N) as D'. apply N. exists ox. destruct Lx. split; congruence.
        * intros x Ge. rewrite about_app, (New x Ge), (ef_size _ _ _ _ Ef).
          destruct (look s x) as [ox|] eqn:X.
          -- destruct (Y x ox Ge X) as (Px & Cx & Ux & _).
             destruct (ef_live _ _ _ _ Ef x ox (conj X Px)) as [[(r & _ & S) A]|(G & A & _)].
             ++ now rewrite S, A.
             ++ unfold gone, zombie in G. rewrite Ux in G. rewrite G, A.
                assert (x < size s)%nat by (eapply look_lt; eauto).
                destruct (Nat.ltb_spec x (size s)); [|lia].
                unfold farewell. rewrite Cx. cbn. destruct (o_data ox); auto; discriminate.
          -- rewrite (ef_none _ _ _ _ Ef x X), (ef_dead _ _ _ _ Ef x), app_nil_r; auto.
             intros (ox & Lx & _). congruence.
      + intros x o Ge L. destruct (Y' x o Ge L) as (Px & Cx & _). auto.
    - exact Y'. }
  unfold wp. destruct R as [->|(c & o & -> & _)]; auto.
Qed.

Lemma live_put_ref : forall s h o r x ox, look s h = Some o -> 0 < o_ref o -> 0 < r ->
  live (put s h (Some (with_ref o r))) x ox ->
  exists o1, live s x o1 /\ o_type ox = o_type o1 /\ o_data ox = o_data o1 /\ o_cbs ox = o_cbs o1.
Proof.
  intros s h o r x ox L P R [Lx Px]. rewrite look_put in Lx by (eapply look_lt; eauto).
  destruct (Nat.eq_dec x h) as [->|N].
  - inversion Lx; subst. exists o. split; [split; auto|]. auto.
  - exists ox. split; [split; auto|]. auto.
Qed.

Lemma sound_put_ref : forall s h o r, sound_but Ex s -> live s h o -> 0 < r ->
  sound_but Ex (put s h (Some (with_ref o r))).
Proof.
  intros s h o r S [L P] R y oy Ly.
  destruct (live_put_ref _ _ _ _ _ _ L P R Ly) as (o1 & L1 & T1 & D1 & _).
  rewrite T1, D1. destruct (S y o1 L1) as (F & C & W). split; auto. split; auto.
  intros x t I. destruct (W x t I) as (ox & Lx & T).
  destruct (Nat.eq_dec x h) as [->|N].
  - assert (ox = o) by (eapply live_fun; eauto; split; auto). subst.
    exists (with_ref o r). split; auto. split; [|auto].
    rewrite look_put by (eapply look_lt; eauto). now destruct (Nat.eq_dec h h).
  - exists ox. split; auto. destruct Lx. split; auto.
    rewrite look_put by (eapply look_lt; eauto). now destruct (Nat.eq_dec x h).
Qed.

(** Taking one more reference. *)
Lemma retain_ok : forall s e h o, ok s e -> live s h o ->
  let s' := put s h (Some (with_ref o (o_ref o + 1))) in ok s' (plus e h).
Proof.
  intros s e h o [C S] L s'. split.
  - eapply counted_put; eauto.
    + cbn. destruct L. lia.
    + intros x. unfold plus. pose proof (counted_nonneg _ _ x C). pose proof (is_nonneg x h). lia.
    + intros x. cbn. unfold plus, is. destruct (Nat.eq_dec x h); lia.
  - apply sound_put_ref; auto. destruct L. lia.
Qed.

Lemma kept_put_ref : forall s0 s h o r, kept s0 s -> look s h = Some o -> 0 < o_ref o -> 0 < r ->
  kept s0 (put s h (Some (with_ref o r))).
Proof.
  intros s0 s h o r K L P R.
  assert (LP : forall x, look (put s h (Some (with_ref o r))) x =
                         if Nat.eq_dec x h then Some (with_ref o r) else look s x)
    by (intros; rewrite look_put by (eapply look_lt; eauto); reflexivity).
  constructor.
  - rewrite size_put. apply K.
  - intros x ox Lx. destruct (k_live _ _ K x ox Lx) as (q & Q & E). rewrite LP.
    destruct (Nat.eq_dec x h) as [->|N]; [|eauto].
    exists r. split; auto. rewrite L in E. inversion E. now destruct ox.
  - intros x Lt N. rewrite LP. destruct (Nat.eq_dec x h) as [->|]; [|apply K; auto].
    exfalso. apply N. exists o. rewrite (k_dead _ _ K h Lt N) in L. split; auto.
  - destruct (k_log _ _ K) as (ev & E & Old & New). exists ev. split; auto. split; auto.
    intros x Ge. rewrite LP, size_put, (New x Ge). destruct (Nat.eq_dec x h) as [->|]; auto.
    now rewrite L.
  - intros x ox Ge Lx. rewrite LP in Lx. destruct (Nat.eq_dec x h) as [->|]; [|eapply k_new; eauto].
    injection Lx as <-. cbn. split; auto. apply (k_new _ _ K h o Ge L).
Qed.

Lemma young_put_ref : forall s0 s h o r, young s0 s -> look s h = Some o -> 0 < o_ref o -> 0 < r ->
  young s0 (put s h (Some (with_ref o r))).
Proof.
  intros s0 s h o r Y L P R x ox Ge Lx. rewrite look_put in Lx by (eapply look_lt; eauto).
  destruct (Nat.eq_dec x h) as [->|N]; [|eauto].
  inversion Lx; subst. destruct (Y h o Ge L) as (_ & A & B & C). auto.
Qed.

Lemma wp_retain_at : forall s0 e s h o (Q : unit -> st -> Prop) (F : Z -> st -> Prop),
  at_ s0 e s -> live s h o -> (forall s', at_ s0 (plus e h) s' -> Q tt s') ->
  wp (retain (Some h)) s Q F.
Proof.
  intros s0 e s h o Q F (O & K & Y) [L P] H. unfold retain. apply wp_bind. eapply wp_deref; eauto.
  apply wp_bind. apply wp_refute; intros E; [apply Z.leb_le in E; lia|].
  destruct (o_ref o =? INT32_MAX); [reflexivity|]. cbn. apply H. split; [|split].
  - apply retain_ok; auto. split; auto.
  - apply kept_put_ref; auto. lia.
  - apply young_put_ref; auto. lia.
Qed.

Lemma wp_retain_look : forall s0 e s h (Q : unit -> st -> Prop) (F : Z -> st -> Prop),
  at_ s0 e s -> alive s0 h ->
  (forall s', at_ s0 (plus e h) s' -> (forall x, x <> h -> look s' x = look s x) ->
     size s' = size s -> Q tt s') ->
  wp (retain (Some h)) s Q F.
Proof.
  intros s0 e s h Q F A Al H. destruct (at_alive _ _ _ _ A Al) as (o & L & P).
  destruct A as (O & K & Y). unfold retain. apply wp_bind. eapply wp_deref; eauto.
  apply wp_bind. apply wp_refute; intros E; [apply Z.leb_le in E; lia|].
  destruct (o_ref o =? INT32_MAX); [reflexivity|]. cbn. apply H.
  - split; [|split].
    + apply retain_ok; auto. split; auto.
    + apply kept_put_ref; auto. lia.
    + apply young_put_ref; auto. lia.
  - intros x N. rewrite look_put by (eapply look_lt; eauto). now destruct (Nat.eq_dec x h).
  - apply size_put.
Qed.

(** Memory. *)
Lemma at_mem : forall s0 e s m, at_ s0 e s -> at_ s0 e (mkSt (s_objs s) (s_log s) m).
Proof.
  intros s0 e s m (O & K & Y). split; [exact O|]. split; [|exact Y].
  destruct K. constructor; auto.
Qed.
Lemma wp_alloc_at : forall s0 e s (Q : unit -> st -> Prop) (F : Z -> st -> Prop),
  at_ s0 e s -> (forall s', at_ s0 e s' -> Q tt s') ->
  (forall s', at_ s0 e s' -> F ERR_OUT_OF_MEMORY s') -> wp alloc s Q F.
Proof.
  intros s0 e s Q F A HQ HF. unfold wp, alloc.
  destruct (s_mem s) as [|[] m]; [apply HQ; auto|apply HQ, at_mem; auto|apply HF, at_mem; auto].
Qed.

Definition memory (s : st) : bool := match s_mem s with false :: _ => false | _ => true end.
Lemma wp_alloc_look : forall s0 e s (Q : unit -> st -> Prop) (F : Z -> st -> Prop),
  at_ s0 e s ->
  (forall s', at_ s0 e s' -> s_objs s' = s_objs s -> memory s = true ->
              (s_mem s = [] -> s_mem s' = []) -> Q tt s') ->
  (forall s', at_ s0 e s' -> s_objs s' = s_objs s -> memory s = false -> F ERR_OUT_OF_MEMORY s') ->
  wp alloc s Q F.
Proof.
  intros s0 e s Q F A HQ HF. unfold wp, alloc, memory in *.
  destruct (s_mem s) as [|[] m] eqn:M.
  - apply HQ; auto.
  - apply HQ; auto; [apply at_mem; auto|discriminate].
  - apply HF; auto. apply at_mem; auto.
Qed.

(** A new object. *)
Definition added (s : st) (t : Z) (p : payload) : st :=
  mkSt (s_objs s ++ [Some (mkObj t 1 [] p)]) (s_log s) (s_mem s).

Lemma look_added : forall s t p x,
  look (added s t p) x = if Nat.eq_dec x (size s) then Some (mkObj t 1 [] p) else look s x.
Proof.
  intros. unfold look, added; cbn [s_objs]. destruct (Nat.eq_dec x (size s)) as [->|X].
  - unfold size. rewrite nth_error_app2, Nat.sub_diag by lia. reflexivity.
  - destruct (Nat.lt_ge_cases x (size s)).
    + rewrite nth_error_app1 by auto. reflexivity.
    + rewrite (proj2 (nth_error_None _ _)), (proj2 (nth_error_None _ _)); auto.
      rewrite app_length; cbn. unfold size in *. lia.
Qed.
Lemma size_added : forall s t p, size (added s t p) = S (size s).
Proof. intros. unfold size, added; cbn. rewrite app_length. cbn. lia. Qed.

Lemma added_ok : forall s e t p,
  ok s e -> (forall x, holds p x <= e x) -> fits t p -> covered p ->
  (forall x T, In (x, T) (wants t p) -> exists ox, live s x ox /\ o_type ox = T) ->
  ok (added s t p) (fun x => e x - holds p x + is x (size s)).
Proof.
  intros s e t p [C S] H Ft Cv W. split.
  - eapply counted_new; eauto. intros x. specialize (H x). pose proof (is_nonneg x (size s)). cbv beta. lia.
  - assert (Old : forall x ox, live s x ox -> live (added s t p) x ox).
    { intros x ox [L P]. split; auto. rewrite look_added.
      destruct (Nat.eq_dec x (size s)); auto. subst. rewrite look_big in L by auto. discriminate. }
    intros y o [L P]. rewrite look_added in L. destruct (Nat.eq_dec y (size s)).
    + inversion L; subst o. cbn. split; auto. split; auto. intros x T I.
      destruct (W x T I) as (ox & Lx & Tx). exists ox. auto.
    + destruct (S y o (conj L P)) as (F & K & V). split; auto. split; auto.
      intros x T I. destruct (V x T I) as (ox & Lx & Tx). exists ox. auto.
Qed.

Lemma added_kept : forall s0 s t p, kept s0 s -> kept s0 (added s t p).
Proof.
  intros s0 s t p K. pose proof (k_size _ _ K). constructor.
  - rewrite size_added. lia.
  - intros h o L. destruct (k_live _ _ K h o L) as (r & P & E). exists r. split; auto.
    rewrite look_added. destruct (Nat.eq_dec h (size s)); auto.
    subst. rewrite look_big in E by auto. discriminate.
  - intros h Lt N. rewrite look_added. destruct (Nat.eq_dec h (size s)); [lia|apply K; auto].
  - destruct (k_log _ _ K) as (ev & E & Old & New). exists ev. split; auto. split; auto.
    intros h Ge. rewrite (New h Ge), look_added, size_added.
    destruct (Nat.eq_dec h (size s)) as [->|N].
    + rewrite look_big by auto. destruct (Nat.ltb_spec (size s) (size s)); auto. lia.
    + destruct (look s h); auto.
      destruct (Nat.ltb_spec h (size s)), (Nat.ltb_spec h (Datatypes.S (size s))); auto; lia.
  - intros h o Ge L. rewrite look_added in L. destruct (Nat.eq_dec h (size s)); [|eapply k_new; eauto].
    injection L as <-. cbn. split; [lia|auto].
Qed.

Lemma wp_new_at : forall s0 e s t p (Q : handle -> st -> Prop) F,
  at_ s0 e s -> (forall x, holds p x <= e x) -> fits t p -> covered p -> user_del p = None ->
  (forall x T, In (x, T) (wants t p) -> exists ox, live s x ox /\ o_type ox = T) ->
  (forall s' e', at_ s0 e' s' -> (forall x, e' x = e x - holds p x + is x (size s)) ->
     (size s0 <= size s)%nat ->
     (forall x, look s' x = if Nat.eq_dec x (size s) then Some (mkObj t 1 [] p) else look s x) ->
     Q (size s) s') ->
  wp (new t p) s Q F.
Proof.
  intros s0 e s t p Q F (O & K & Y) H Ft Cv U W HQ. unfold wp, new.
  apply (HQ (added s t p) (fun x => e x - holds p x + is x (size s))); auto.
  - split; [apply added_ok; auto|]. split; [apply added_kept; auto|].
    intros h o Ge L. rewrite look_added in L. destruct (Nat.eq_dec h (size s)).
    + inversion L; subst o. cbn. split; [lia|]. split; auto. split; auto.
      intros x P. destruct (Nat.lt_ge_cases x h); auto. exfalso.
      destruct O as [C _]. destruct (counted_big s e x C ltac:(lia)). specialize (H x). lia.
    + eapply Y; eauto.
  - apply K.
  - intros. apply look_added.
Qed.

(** The object a constructor returns: everything else is as it was, but for counts. *)
Lemma wp_new_final : forall s0 e s t p (Q : handle -> st -> Prop) F,
  at_ s0 e s -> (forall x, holds p x <= e x) -> fits t p -> covered p ->
  (forall x T, In (x, T) (wants t p) -> exists ox, live s x ox /\ o_type ox = T) ->
  (forall s', ok s' (fun x => e x - holds p x + is x (size s)) -> kept s0 s' ->
     (size s0 <= size s)%nat -> size s' = Datatypes.S (size s) ->
     (forall x, look s' x = if Nat.eq_dec x (size s) then Some (mkObj t 1 [] p) else look s x) ->
     Q (size s) s') ->
  wp (new t p) s Q F.
Proof.
  intros s0 e s t p Q F (O & K & Y) H Ft Cv W HQ. unfold wp, new.
  apply (HQ (added s t p)).
  - apply added_ok; auto.
  - apply added_kept; auto.
  - apply K.
  - apply size_added.
  - intros. apply look_added.
Qed.

(** Back where we started. *)
Lemma st_ext : forall s s', size s' = size s -> (forall h, look s' h = look s h) ->
  s_objs s' = s_objs s.
Proof.
  unfold size, look. intros s s'. generalize (s_objs s) (s_objs s').
  intros l l'. revert l. induction l' as [|a l' IH]; intros [|b l] L H; try discriminate; auto.
  f_equal.
  - specialize (H O). cbn in H. destruct a, b; congruence.
  - apply IH; auto. intros h. exact (H (Datatypes.S h)).
Qed.

(** Without references to new objects there are none, and the counts follow. *)
Lemma at_counts : forall s0 e0 e s, at_ s0 e s -> ok s0 e0 ->
  (forall h, (size s0 <= h)%nat -> e h = 0) ->
  forall h, look s h = match look s0 h with
                       | Some o => if 0 <? o_ref o then Some (with_ref o (o_ref o + e h - e0 h)) else Some o
                       | None => None
                       end.
Proof.
  intros s0 e0 e s ([C S] & K & Y) [C0 S0] Ez0.
  assert (N : forall h, (size s0 <= h)%nat -> look s h = None).
  { (* the youngest would have no owner *)
    assert (B : forall n h, (size s - h <= n)%nat -> (size s0 <= h)%nat -> look s h = None).
    { induction n as [|n IH]; intros h Ln Ge; [apply look_big; lia|].
      destruct (look s h) as [o|] eqn:L; auto. exfalso.
      destruct (Y h o Ge L) as (P & _ & _ & _).
      pose proof (counted_live _ _ _ _ C (conj L P)) as R.
      destruct (counted_big s0 e0 h C0 Ge) as [Hz _]. pose proof (Ez0 h Ge) as Ez.
      assert (0 < held s h) as Hh by lia. apply held_holder in Hh as (y & oy & [Ly Py] & Hy).
      destruct (Nat.lt_ge_cases y (size s0)) as [Lt|Gy].
      - destruct (alive_dec s0 y) as [(o0 & L0)|Na].
        + destruct (k_live _ _ K y o0 L0) as (r & _ & E). rewrite E in Ly. inversion Ly; subst oy.
          assert (holder s0 y h) as Hd by (exists o0; split; auto).
          apply holder_held in Hd. lia.
        + rewrite (k_dead _ _ K y Lt Na) in Ly. apply Na. exists oy. split; auto.
      - destruct (Y y oy Gy Ly) as (_ & _ & _ & Lt).
        specialize (Lt h Hy). rewrite (IH y) in Ly; [discriminate|lia|auto]. }
    intros h Ge. apply (B (size s - h)%nat); auto. }
  assert (Hd : forall x, held s x = held s0 x).
  { (* the same objects, with the same contents *)
    intros x. unfold held.
    assert (G : forall l l0 : list (option obj), (length l0 <= length l)%nat ->
      (forall h, (h < length l0)%nat -> forall a b, nth_error l h = Some a -> nth_error l0 h = Some b -> owned x a = owned x b) ->
      (forall h, (length l0 <= h)%nat -> forall a, nth_error l h = Some a -> owned x a = 0) ->
      sum (owned x) l = sum (owned x) l0).
    { induction l as [|a l IH]; intros [|b l0] Ll H1 H2; cbn in Ll; try lia; auto.
      - unfold sum; cbn. fold (sum (owned x) l). rewrite (H2 O ltac:(cbn; lia) a eq_refl).
        rewrite (IH []); [reflexivity|cbn; lia|cbn; intros; lia|].
        intros h _ c E. apply (H2 (Datatypes.S h)); cbn; auto. lia.
      - unfold sum; cbn. fold (sum (owned x) l). fold (sum (owned x) l0).
        rewrite (H1 O ltac:(cbn; lia) a b eq_refl eq_refl). f_equal. apply IH; [lia| |].
        + intros h Lh c d E1 E2. apply (H1 (Datatypes.S h)); cbn; auto. lia.
        + intros h Lh c E. apply (H2 (Datatypes.S h)); cbn; auto. lia. }
    apply G; [apply K| |].
    - intros h Lt a b Ea Eb.
      destruct (alive_dec s0 h) as [(o & L)|Na].
      + destruct (k_live _ _ K h o L) as (r & Pr & E).
        destruct L as [L P]. apply look_nth in L. apply look_nth in E.
        rewrite Ea in E. rewrite Eb in L. inversion E. inversion L. subst.
        cbn. destruct (Z.ltb_spec 0 r), (Z.ltb_spec 0 (o_ref o)); auto; lia.
      + pose proof (k_dead _ _ K h Lt Na) as D. unfold look in D. rewrite Ea, Eb in D.
        destruct a, b; congruence.
    - intros h Ge a Ea. specialize (N h Ge). unfold look in N. rewrite Ea in N. destruct a; [discriminate|reflexivity]. }
  intros h. destruct (Nat.lt_ge_cases h (size s0)) as [Lt|Ge].
  - destruct (alive_dec s0 h) as [(o & L)|Na].
    + destruct (k_live _ _ K h o L) as (r & Pr & E).
      pose proof (counted_live _ _ _ _ C0 L) as R0.
      assert (live s h (with_ref o r)) as L1 by (split; auto).
      pose proof (counted_live _ _ _ _ C L1) as R1. cbn in R1. rewrite Hd in R1.
      destruct L as [L P]. rewrite L, E. destruct (Z.ltb_spec 0 (o_ref o)); [|lia].
      unfold with_ref. f_equal. f_equal. lia.
    + rewrite (k_dead _ _ K h Lt Na). destruct (look s0 h) as [o|] eqn:X; auto.
      destruct (Z.ltb_spec 0 (o_ref o)); auto. exfalso. apply Na. exists o; split; auto.
  - rewrite N by auto. now rewrite look_big.
Qed.

Lemma at_restored : forall s0 e s, at_ s0 e s -> ok s0 e -> forall h, look s h = look s0 h.
Proof.
  intros s0 e s A O h. rewrite (at_counts _ _ _ _ A O).
  - destruct (look s0 h) as [o|]; auto. destruct (0 <? o_ref o); auto.
    f_equal. destruct o; unfold with_ref; cbn. f_equal. lia.
  - intros x Ge. destruct O as [C _]. now destruct (counted_big s0 e x C Ge).
Qed.

(** ** What may change *)

Lemma gone_destroyed : forall s h o, gone s h o <-> destroyed s h o.
Proof.
  intros. unfold gone, destroyed.
  replace (zombie (o_data o)) with (failing (o_data o)) by (destruct (o_data o); reflexivity).
  reflexivity.
Qed.

Definition ev_ (s0 : st) (c : option (handle * payload)) (e : handle -> Z) (s : st) : Prop :=
  ok s e /\ after s0 c s /\
  forall h o, (size s0 <= h)%nat -> look s h = Some o -> user_del (o_data o) = None.

Lemma ev_ext : forall s0 c e e' s, (forall x, e x = e' x) -> ev_ s0 c e s -> ev_ s0 c e' s.
Proof. intros s0 c e e' s E (O & K). split; auto. eapply ok_ext; eauto. Qed.

Lemma kept_after : forall s0 s, kept s0 s ->
  (forall h o, (size s0 <= h)%nat -> look s h = Some o -> 0 < o_ref o /\ o_cbs o = []) ->
  after s0 None s.
Proof.
  intros s0 s K N. constructor; [apply K|].
  destruct (k_log _ _ K) as (ev & E & Old & New). exists ev. split; auto. split; [|split].
  - intros h o L. left. destruct (k_live _ _ K h o L) as (r & P & R). split; [|exists r; auto].
    apply Old. eapply look_lt. apply L.
  - intros h Lt Na. split; [apply K; auto|auto].
  - intros h Ge. pose proof (New h Ge) as A. destruct (look s h) eqn:X; [|exact A].
    destruct (N h o Ge X). auto.
Qed.

Lemma at_ev : forall s0 e s, at_ s0 e s -> ev_ s0 None e s.
Proof.
  intros s0 e s (O & K & Y). split; auto. split.
  - apply kept_after; auto. intros h o Ge L. destruct (Y h o Ge L) as (A & B & _). auto.
  - intros h o Ge L. apply (Y h o Ge L).
Qed.

Lemma ev_target : forall s0 c e s h o, ev_ s0 c e s -> live s0 h o -> alive s h ->
  exists r, 0 < r /\ look s h = Some (mkObj (o_type o) r (o_cbs o) (contents c h (o_data o))).
Proof.
  intros s0 c e s h o (O & A & _) L (o1 & L1 & P1).
  destruct (a_log _ _ _ A) as (ev & _ & Live & _).
  destruct (Live h o L) as [(_ & r & P & R)|(_ & D)]; [eauto|].
  exfalso. apply gone_destroyed in D. eapply gone_not_alive; eauto. exists o1; split; auto.
Qed.
Lemma ok_alive : forall s e h, ok s e -> 0 < e h -> alive s h.
Proof. intros s e h [C _] P. eapply counted_alive; eauto. pose proof (held_nonneg s h). lia. Qed.

(** The objects of [s] are those of [s1] up to counts and, for [x], contents. *)
Lemma sound_put : forall s h o o', sound_but Ex s -> live s h o -> 0 < o_ref o' -> o_type o' = o_type o ->
  fits (o_type o') (o_data o') -> (Ex h = false -> covered (o_data o')) ->
  (forall x T, In (x, T) (wants (o_type o') (o_data o')) -> exists ox, live s x ox /\ o_type ox = T) ->
  sound_but Ex (put s h (Some o')).
Proof.
  intros s h o o' S L P' T F C W.
  assert (LP : forall x, look (put s h (Some o')) x = if Nat.eq_dec x h then Some o' else look s x).
  { intros. rewrite look_put by (eapply look_lt; apply L). reflexivity. }
  assert (G : forall x T', (exists ox, live s x ox /\ o_type ox = T') ->
                          exists ox, live (put s h (Some o')) x ox /\ o_type ox = T').
  { intros x T' (ox & [Lx Px] & Tx). destruct (Nat.eq_dec x h) as [->|N].
    - exists o'. split; [split; auto; rewrite LP; now destruct (Nat.eq_dec h h)|].
      destruct L as [L _]. congruence.
    - exists ox. split; auto. split; auto. rewrite LP. now destruct (Nat.eq_dec x h). }
  intros y oy [Ly Py]. rewrite LP in Ly. destruct (Nat.eq_dec y h) as [->|N].
  - inversion Ly; subst oy. auto.
  - destruct (S y oy (conj Ly Py)) as (F' & C' & W'). split; auto.
Qed.

(** Changing the contents of [x]. *)
Lemma wp_set_ev : forall s0 c e e' s x o p (Q : unit -> st -> Prop) (F : Z -> st -> Prop),
  ev_ s0 c e s -> live s0 x o -> alive s x ->
  (c = None \/ exists p', c = Some (x, p')) ->
  (forall y, e' y = e y + holds (contents c x (o_data o)) y - holds p y) ->
  (forall y, 0 <= e' y) ->
  fits (o_type o) p -> (Ex x = false -> covered p) ->
  (forall y T, In (y, T) (wants (o_type o) p) -> exists oy, live s y oy /\ o_type oy = T) ->
  (forall s', ev_ s0 (Some (x, p)) e' s' -> Q tt s') ->
  wp (set_data x p) s Q F.
Proof.
  intros s0 c e e' s x o p Q F V L A Hc E N Ft Cv W HQ.
  destruct (ev_target _ _ _ _ _ _ V L A) as (r & P & R).
  eapply wp_set_data; [exact R|]. apply HQ.
  set (o1 := mkObj _ _ _ _) in *. set (o' := with_data o1 p).
  destruct V as ((C & S) & Af & U).
  assert (Lx : (x < size s)%nat) by (eapply look_lt; eauto).
  assert (LP : forall y, look (put s x (Some o')) y = if Nat.eq_dec y x then Some o' else look s y)
    by (intros; rewrite look_put by auto; reflexivity).
  split; [split|split].
  - eapply counted_put with (o := o1); eauto; [split; auto|].
    intros y. rewrite E. cbn. destruct (Nat.eq_dec y x); lia.
  - eapply sound_put with (o := o1); eauto. split; auto.
  - destruct (a_log _ _ _ Af) as (ev & Lg & Old & Dead & New).
    constructor; [rewrite size_put; apply Af|]. exists ev. split; [exact Lg|]. split; [|split].
    + intros y oy Ly. destruct (Nat.eq_dec y x) as [->|Ny].
      * left. assert (oy = o) by (eapply live_fun; eauto). subst oy.
        destruct (Old x o L) as [(Ab & _)|(_ & D)].
        -- split; auto. exists r. split; auto. rewrite LP. cbn. destruct (Nat.eq_dec x x); [|easy]. reflexivity.
        -- exfalso. apply gone_destroyed in D. eapply gone_not_alive; eauto.
      * destruct (Old y oy Ly) as [(Ab & q & Q1 & Q2)|(Ab & D)].
        -- left. split; auto. exists q. split; auto. rewrite LP. destruct (Nat.eq_dec y x); [easy|].
           rewrite Q2. f_equal. f_equal. cbn. destruct (Nat.eq_dec y x); [easy|].
           destruct Hc as [->|(p' & ->)]; auto. cbn. now destruct (Nat.eq_dec y x).
        -- right. split; auto. unfold destroyed in *. rewrite LP. now destruct (Nat.eq_dec y x).
    + intros y Lt Na. rewrite LP. destruct (Nat.eq_dec y x) as [->|]; [|auto].
      exfalso. apply Na. exists o; auto.
    + intros y Ge. rewrite LP, size_put. destruct (Nat.eq_dec y x) as [->|]; [|apply New; auto].
      destruct L as [L _]. rewrite look_big in L by auto. discriminate.
  - intros y oy Ge Ly. rewrite LP in Ly. destruct (Nat.eq_dec y x) as [->|]; [|eapply U; eauto].
    destruct L as [L _]. rewrite look_big in L by auto. discriminate.
Qed.

Lemma effect_ev : forall s0 c e s h s' ev,
  ev_ s0 c e s -> effect s (minus e h) s' ev -> ok s' (minus e h) ->
  (forall x p, c = Some (x, p) -> 0 < minus e h x) ->
  ev_ s0 c (minus e h) s'.
Proof.
  intros s0 c e s h s' ev (O & Af & U) Ef O' T.
  destruct (a_log _ _ _ Af) as (ev0 & Lg & Old & Dead & New).
  split; auto. split.
  - constructor; [rewrite (ef_size _ _ _ _ Ef); apply Af|].
    exists (ev0 ++ ev). split; [rewrite (ef_log _ _ _ _ Ef), Lg, app_assoc; reflexivity|].
    split; [|split].
    + intros x o L. rewrite about_app. destruct (Old x o L) as [(Ab & r & P & R)|(Ab & D)].
      * assert (live s x (mkObj (o_type o) r (o_cbs o) (contents c x (o_data o)))) as L1 by (split; auto).
        destruct (ef_live _ _ _ _ Ef x _ L1) as [[(q & Q1 & Q2) A]|(G & A & D)].
        -- left. rewrite Ab, A. split; auto. exists q. split; [lia|]. rewrite Q2. reflexivity.
        -- assert (contents c x (o_data o) = o_data o) as Cx.
           { destruct c as [(y, p)|]; auto. cbn. destruct (Nat.eq_dec x y); auto. subst y.
             specialize (T x p eq_refl). inversion D. lia. }
           right. rewrite Ab, A. split.
           ++ unfold farewell. cbn. now rewrite Cx.
           ++ apply gone_destroyed. unfold gone in *. cbn in G. rewrite Cx in G.
              rewrite G. now destruct o.
      * right. rewrite Ab. split.
        -- rewrite (ef_dead _ _ _ _ Ef), app_nil_r; auto. apply gone_destroyed in D.
           eapply gone_not_alive; eauto.
        -- unfold destroyed in *. destruct (failing (o_data o)).
           ++ eapply ef_dying; eauto. cbn. lia.
           ++ eapply ef_none; eauto.
    + intros x Lt Na. destruct (Dead x Lt Na) as [D A]. rewrite about_app, A.
      assert (Nb : ~ alive s x).
      { intros (ox & Lx & Px). rewrite D in Lx. apply Na. exists ox; split; auto. }
      rewrite (ef_dead _ _ _ _ Ef x Nb). split; auto. rewrite <- D.
      destruct (look s x) as [ox|] eqn:X.
      * eapply ef_dying; eauto. destruct (Z_lt_dec 0 (o_ref ox)); [|lia].
        exfalso. apply Nb. exists ox; split; auto.
      * eapply ef_none; eauto.
    + intros x Ge. pose proof (New x Ge) as Nx. rewrite about_app, (ef_size _ _ _ _ Ef).
      destruct (look s x) as [ox|] eqn:X.
      * destruct Nx as (Px & Cx & Ax). pose proof (U x ox Ge X) as Ux.
        destruct (ef_live _ _ _ _ Ef x ox (conj X Px)) as [[(r & Rr & S) A]|(G & A & _)].
        -- rewrite S, Ax, A. cbn. split; [lia|]. auto.
        -- unfold gone, zombie in G. rewrite Ux in G. rewrite G, A, Ax.
           assert (x < size s)%nat by (eapply look_lt; eauto).
           destruct (Nat.ltb_spec x (size s)); [|lia].
           unfold farewell. rewrite Cx. cbn. destruct (o_data ox); auto; discriminate.
      * rewrite (ef_none _ _ _ _ Ef x X), (ef_dead _ _ _ _ Ef x), app_nil_r; auto.
        intros (ox & Lx & _). congruence.
  - intros x ox Ge Lx. destruct (look s x) as [o1|] eqn:X.
    + pose proof (New x Ge) as Nx. rewrite X in Nx. destruct Nx as (Px & _ & _).
      pose proof (U x o1 Ge X) as Ux.
      destruct (ef_live _ _ _ _ Ef x o1 (conj X Px)) as [[(r & _ & S) _]|(G & _ & _)].
      * rewrite S in Lx. inversion Lx; subst ox. exact Ux.
      * unfold gone, zombie in G. rewrite Ux in G. congruence.
    + rewrite (ef_none _ _ _ _ Ef x X) in Lx. discriminate.
Qed.

Lemma wp_drop_ev : forall s0 c e s h (Q : unit -> st -> Prop) (F : Z -> st -> Prop),
  ev_ s0 c e s -> 0 < e h -> (forall x p, c = Some (x, p) -> 0 < minus e h x) ->
  (forall s', ev_ s0 c (minus e h) s' -> Q tt s') -> wp (drop h) s Q F.
Proof.
  intros s0 c e s h Q F V P T HQ. apply wp_ignore.
  destruct (release_ok s e h (proj1 V) P) as (s' & ev & R & Ef & O').
  assert (ev_ s0 c (minus e h) s') as V' by (eapply effect_ev; eauto).
  unfold wp. destruct R as [->|(k & o & -> & _)]; auto.
Qed.

Lemma wp_release_ev : forall s0 c e s h o (Q : unit -> st -> Prop) (F : Z -> st -> Prop),
  ev_ s0 c e s -> 0 < e h -> (forall x p, c = Some (x, p) -> 0 < minus e h x) ->
  live s h o -> user_del (o_data o) = None ->
  (forall s', ev_ s0 c (minus e h) s' -> Q tt s') -> wp (release (Some h)) s Q F.
Proof.
  intros s0 c e s h o Q F V P T L U HQ.
  destruct (release_ok s e h (proj1 V) P) as (s' & ev & R & Ef & O').
  assert (ev_ s0 c (minus e h) s') as V' by (eapply effect_ev; eauto).
  unfold wp. destruct R as [->|(k & o1 & -> & _ & L1 & U1 & _)]; auto.
  exfalso. assert (o1 = o) by (eapply live_fun; eauto). subst. congruence.
Qed.

Lemma after_put_ref : forall s0 c s h o r, after s0 c s -> look s h = Some o -> 0 < o_ref o -> 0 < r ->
  after s0 c (put s h (Some (with_ref o r))).
Proof.
  intros s0 c s h o r Af L P R.
  assert (LP : forall x, look (put s h (Some (with_ref o r))) x =
                         if Nat.eq_dec x h then Some (with_ref o r) else look s x)
    by (intros; rewrite look_put by (eapply look_lt; eauto); reflexivity).
  destruct (a_log _ _ _ Af) as (ev & Lg & Old & Dead & New).
  constructor; [rewrite size_put; apply Af|]. exists ev. split; auto. split; [|split].
  - intros x ox Lx. destruct (Old x ox Lx) as [(Ab & q & Q1 & Q2)|(Ab & D)].
    + left. split; auto. rewrite LP. destruct (Nat.eq_dec x h) as [->|]; [|eauto].
      exists r. split; auto. rewrite L in Q2. inversion Q2. reflexivity.
    + right. split; auto. unfold destroyed. rewrite LP. destruct (Nat.eq_dec x h) as [->|]; auto.
      exfalso. apply gone_destroyed in D. eapply gone_not_alive; eauto. exists o; split; auto.
  - intros x Lt Na. rewrite LP. destruct (Nat.eq_dec x h) as [->|]; auto.
    exfalso. apply Na. exists o. rewrite (proj1 (Dead h Lt Na)) in L. split; auto.
  - intros x Ge. rewrite LP, size_put. pose proof (New x Ge) as N.
    destruct (Nat.eq_dec x h) as [->|]; auto. rewrite L in N. cbn. intuition.
Qed.

Lemma wp_retain_ev : forall s0 c e s h (Q : unit -> st -> Prop) (F : Z -> st -> Prop),
  ev_ s0 c e s -> alive s h -> (forall s', ev_ s0 c (plus e h) s' -> Q tt s') ->
  wp (retain (Some h)) s Q F.
Proof.
  intros s0 c e s h Q F (O & Af & U) (o & L & P) HQ. unfold retain. apply wp_bind.
  eapply wp_deref; eauto. apply wp_bind.
  apply wp_refute; intros E; [apply Z.leb_le in E; lia|].
  destruct (o_ref o =? INT32_MAX); [reflexivity|]. cbn. apply HQ. split; [|split].
  - apply retain_ok; auto. split; auto.
  - apply after_put_ref; auto. lia.
  - intros x ox Ge Lx. rewrite look_put in Lx by (eapply look_lt; eauto).
    destruct (Nat.eq_dec x h) as [->|]; [|eauto]. inversion Lx; subst ox. cbn. eauto.
Qed.

(** ** Results of the calls *)

Definition made_ (s0 : st) (e0 : handle -> Z) (t : Z) (p : payload) : handle -> st -> Prop :=
  fun h s1 => ok s1 (plus e0 h) /\ kept s0 s1 /\ fresh s0 s1 h t p.
Definition failed_ (s0 : st) (e0 : handle -> Z) : Z -> st -> Prop :=
  fun c s1 => c < 0 /\ ok s1 e0 /\ undisturbed s0 s1.

Lemma at_failed : forall s0 e0 e s c, ok s0 e0 -> at_ s0 e s -> (forall x, e x = e0 x) -> c < 0 ->
  failed_ s0 e0 c s.
Proof.
  intros s0 e0 e s c O A E N. apply (at_ext _ _ _ _ E) in A. split; auto. split; [apply A|].
  split; [apply A|]. eapply at_restored; eauto.
Qed.

Lemma wp_retain_at0 : forall s0 e s h (Q : unit -> st -> Prop) (F : Z -> st -> Prop),
  at_ s0 e s -> alive s0 h -> (forall s', at_ s0 (plus e h) s' -> Q tt s') ->
  wp (retain (Some h)) s Q F.
Proof.
  intros s0 e s h Q F A Al H. destruct (at_alive _ _ _ _ A Al) as (o & L). eapply wp_retain_at; eauto.
Qed.

Lemma ok_nonneg : forall s e x, ok s e -> 0 <= e x.
Proof. intros s e x [C _]. now apply C. Qed.
End Ops.

#[export] Existing Instance nobody.

Lemma ok_sound : forall s e, ok s e -> sound s.
Proof. intros s e [_ S] y o L. destruct (S y o L) as (F & C & W). split; auto. Qed.
Lemma sound_ok : forall s e, counted s e -> sound s -> ok s e.
Proof. intros s e C S. split; auto. intros y o L. destruct (S y o L) as (F & Cv & W). split; auto. Qed.

(** Exempting a space, and taking it back. *)
Lemma ok_exempt : forall X s e, ok (Ex := nobody) s e -> ok (Ex := X) s e.
Proof. intros X s e [C S]. split; auto. intros y o L. destruct (S y o L) as (F & Cv & W). split; auto. Qed.
Lemma ok_back : forall X s e, ok (Ex := X) s e ->
  (forall y o, live s y o -> X y = true -> covered (o_data o)) -> ok (Ex := nobody) s e.
Proof.
  intros X s e [C S] H. split; auto. intros y o L. destruct (S y o L) as (F & Cv & W). split; auto.
  split; auto. intros _. destruct (X y) eqn:E; eauto.
Qed.
Lemma ev_exempt : forall X s0 c e s, ev_ (Ex := nobody) s0 c e s -> ev_ (Ex := X) s0 c e s.
Proof. intros X s0 c e s (O & R). split; auto. now apply ok_exempt. Qed.

Lemma wp_and : forall A (p : prog A) s (Q1 Q2 : A -> st -> Prop) (F1 F2 : Z -> st -> Prop),
  wp p s Q1 F1 -> wp p s Q2 F2 ->
  wp p s (fun a s' => Q1 a s' /\ Q2 a s') (fun c s' => F1 c s' /\ F2 c s').
Proof. unfold wp. intros A p s Q1 Q2 F1 F2 H1 H2. destruct (p s); auto. Qed.
