(** Counting references is preserved by every primitive; what a release destroys. *)
From Coq Require Import ZArith List Bool Lia.
From Verif Require Import Base LifeModel LifeSpec.
Import ListNotations.
Open Scope Z_scope.

(** ** Lists *)

Lemma set_nth_length : forall A (l : list A) i x, length (set_nth l i x) = length l.
Proof. induction l; intros [|i] x; cbn; auto. Qed.

Lemma set_nth_nth : forall A (l : list A) i j x,
  nth_error (set_nth l i x) j =
  if Nat.eq_dec j i then (if nth_error l i then Some x else None) else nth_error l j.
Proof.
  induction l as [|a l IH]; intros i j x.
  - destruct i, j; cbn [set_nth nth_error]; destruct (Nat.eq_dec _ _); auto.
  - destruct i, j; cbn [set_nth nth_error]; try (destruct (Nat.eq_dec _ _); easy).
    rewrite IH. destruct (Nat.eq_dec j i), (Nat.eq_dec (S j) (S i)); try congruence; auto.
Qed.

Lemma set_nth_same : forall A (l : list A) i x y, set_nth (set_nth l i x) i y = set_nth l i y.
Proof. induction l; intros [|i] x y; cbn; auto. f_equal. apply IHl. Qed.

Lemma set_nth_id : forall A (l : list A) i x, nth_error l i = Some x -> set_nth l i x = l.
Proof.
  induction l; intros [|i] x H; cbn in *; try discriminate; auto.
  - now inversion H.
  - f_equal. now apply IHl.
Qed.

Lemma sum_app : forall A (f : A -> Z) l l', sum f (l ++ l') = sum f l + sum f l'.
Proof. induction l; intros; unfold sum in *; cbn in *; [lia|]. rewrite IHl. lia. Qed.

Lemma sum_nonneg : forall A (f : A -> Z) l, (forall a, In a l -> 0 <= f a) -> 0 <= sum f l.
Proof.
  induction l; intros H; unfold sum in *; cbn in *; [lia|].
  pose proof (H a (or_introl eq_refl)). assert (0 <= fold_right (fun a n => f a + n) 0 l) by (apply IHl; auto). lia.
Qed.

Lemma sum_set_nth : forall A (f : A -> Z) l i a b,
  nth_error l i = Some a -> sum f (set_nth l i b) = sum f l - f a + f b.
Proof.
  induction l; intros [|i] x b H; unfold sum in *; cbn in *; try discriminate.
  - inversion H. lia.
  - rewrite (IHl _ _ b H). lia.
Qed.

Lemma sum_in : forall A (f : A -> Z) l a,
  (forall x, In x l -> 0 <= f x) -> In a l -> f a <= sum f l.
Proof.
  induction l; intros x H I; [easy|]. unfold sum in *; cbn in *.
  pose proof (H a (or_introl eq_refl)).
  assert (0 <= fold_right (fun a n => f a + n) 0 l)
    by (apply (sum_nonneg A f); auto).
  destruct I as [->|I]; [lia|].
  assert (f x <= fold_right (fun a n => f a + n) 0 l) by (apply IHl; auto). lia.
Qed.

Lemma sum_pos : forall A (f : A -> Z) l,
  (forall x, In x l -> 0 <= f x) -> 0 < sum f l -> exists a, In a l /\ 0 < f a.
Proof.
  induction l; intros H P; unfold sum in *; cbn in *; [lia|].
  destruct (Z_lt_dec 0 (f a)); [exists a; auto|].
  destruct IHl as (x & I & F); auto.
  - pose proof (H a (or_introl eq_refl)). lia.
  - exists x; auto.
Qed.

Lemma sum_ext : forall A (f g : A -> Z) l, (forall a, In a l -> f a = g a) -> sum f l = sum g l.
Proof.
  induction l; intros H; unfold sum in *; cbn in *; auto.
  rewrite (H a), IHl; auto.
Qed.

Lemma times_nil : forall x, times x [] = 0. Proof. reflexivity. Qed.
Lemma times_cons : forall x y l, times x (y :: l) = is x y + times x l.
Proof.
  intros. unfold times, is. cbn. destruct (Nat.eq_dec y x), (Nat.eq_dec x y); try congruence; lia.
Qed.
Lemma times_app : forall x l l', times x (l ++ l') = times x l + times x l'.
Proof. induction l; intros; [reflexivity|]. cbn [app]. rewrite !times_cons, IHl. lia. Qed.
Lemma times_nonneg : forall x l, 0 <= times x l.
Proof. intros. unfold times. lia. Qed.
Lemma times_in : forall x l, 0 < times x l <-> In x l.
Proof. intros. unfold times. rewrite (count_occ_In Nat.eq_dec). lia. Qed.
Lemma is_nonneg : forall x y, 0 <= is x y.
Proof. intros. unfold is. destruct (Nat.eq_dec x y); lia. Qed.
Lemma is_same : forall x, is x x = 1.
Proof. intros. unfold is. now destruct (Nat.eq_dec x x). Qed.
Lemma is_other : forall x y, x <> y -> is x y = 0.
Proof. intros. unfold is. now destruct (Nat.eq_dec x y). Qed.
Lemma is_some_nonneg : forall x y, 0 <= is_some x y.
Proof. intros x [y|]; cbn; [apply is_nonneg|lia]. Qed.
Lemma times_olist : forall x o, times x (olist o) = is_some x o.
Proof. intros x [y|]; cbn; [rewrite times_cons, times_nil; lia|reflexivity]. Qed.

(** The del functions release exactly what the contents hold. *)
Lemma times_flat_map : forall A (f : A -> list handle) l x,
  times x (flat_map f l) = sum (fun a => times x (f a)) l.
Proof. induction l; intros; cbn; auto. rewrite times_app, IHl. reflexivity. Qed.
Lemma times_map : forall A (f : A -> handle) l x,
  times x (map f l) = sum (fun a => is x (f a)) l.
Proof. induction l; intros; cbn; auto. rewrite times_cons, IHl. reflexivity. Qed.
Lemma sum_plus : forall A (f g : A -> Z) l, sum (fun a => f a + g a) l = sum f l + sum g l.
Proof. induction l; unfold sum in *; cbn in *; [lia|]. rewrite IHl. lia. Qed.

Lemma released_holds : forall p x, times x (released p) = holds p x.
Proof.
  intros p x; destruct p; cbn -[times is]; rewrite ?times_cons, ?times_nil, ?times_app; try lia.
  - rewrite times_cons, times_nil, times_flat_map, times_map.
    rewrite (sum_ext _ (fun a => times x (fst a :: olist (snd a)))
               (fun a => is x (fst a) + is_some x (snd a)))
      by (intros; rewrite times_cons, times_olist; reflexivity).
    rewrite sum_plus. lia.
  - rewrite times_flat_map. apply sum_ext. intros. now rewrite times_app, !times_olist.
  - rewrite times_flat_map. apply sum_ext. intros. now rewrite times_olist.
Qed.

Lemma holds_nonneg : forall p x, 0 <= holds p x.
Proof. intros. rewrite <- released_holds. apply times_nonneg. Qed.

Lemma owned_nonneg : forall x e, 0 <= owned x e.
Proof. intros x [o|]; cbn; [|lia]. destruct (0 <? o_ref o); [apply holds_nonneg|lia]. Qed.
Lemma held_nonneg : forall s x, 0 <= held s x.
Proof. intros. apply sum_nonneg. intros. apply owned_nonneg. Qed.

(** ** Reading and writing states *)

Lemma look_nth : forall s h o, look s h = Some o -> nth_error (s_objs s) h = Some (Some o).
Proof. unfold look. intros s h o H. destruct (nth_error (s_objs s) h) as [[x|]|]; congruence. Qed.
Lemma look_lt : forall s h o, look s h = Some o -> (h < size s)%nat.
Proof. intros s h o H. apply look_nth in H. apply nth_error_Some. congruence. Qed.
Lemma look_big : forall s h, (size s <= h)%nat -> look s h = None.
Proof. intros. unfold look. rewrite (proj2 (nth_error_None _ _)); auto. Qed.

Lemma deref_look : forall s h o, look s h = Some o -> deref h s = Done o s.
Proof. intros s h o H. unfold deref. now rewrite (look_nth _ _ _ H). Qed.

Lemma size_put : forall s h x, size (put s h x) = size s.
Proof. intros. apply set_nth_length. Qed.
Lemma look_put : forall s h x y, (h < size s)%nat ->
  look (put s h x) y = if Nat.eq_dec y h then x else look s y.
Proof.
  intros s h x y L. unfold look, put; cbn. rewrite set_nth_nth.
  destruct (Nat.eq_dec y h) as [->|N]; auto.
  destruct (nth_error (s_objs s) h) eqn:E.
  - now destruct x.
  - apply nth_error_None in E. unfold size in L. lia.
Qed.
Lemma held_put : forall s h o e x, look s h = Some o ->
  held (put s h e) x = held s x - owned x (Some o) + owned x e.
Proof.
  intros s h o e x H. unfold held. cbn [put s_objs]. apply (sum_set_nth _ (owned x)). now apply look_nth.
Qed.
Lemma look_logs : forall s l h, look (logs s l) h = look s h. Proof. reflexivity. Qed.
Lemma held_logs : forall s l h, held (logs s l) h = held s h. Proof. reflexivity. Qed.

Lemma holder_held : forall s y x, holder s y x -> 0 < held s x.
Proof.
  intros s y x (o & (L & P) & H). apply look_nth, nth_error_In in L.
  assert (owned x (Some o) <= held s x).
  { apply sum_in; auto. intros; apply owned_nonneg. }
  cbn in H0. destruct (Z.ltb_spec 0 (o_ref o)); lia.
Qed.
Lemma held_holder : forall s x, 0 < held s x -> exists y, holder s y x.
Proof.
  intros s x H. apply sum_pos in H; [|intros; apply owned_nonneg].
  destruct H as ([o|] & I & P); [|cbn in P; lia].
  apply In_nth_error in I as (y & I). exists y, o. split.
  - split; [unfold look; now rewrite I|]. cbn in P. destruct (Z.ltb_spec 0 (o_ref o)); lia.
  - cbn in P. destruct (Z.ltb_spec 0 (o_ref o)); lia.
Qed.

(** ** Counting *)

Definition plus (e : handle -> Z) (h : handle) : handle -> Z := fun x => e x + is x h.
Definition minus (e : handle -> Z) (h : handle) : handle -> Z := fun x => e x - is x h.

Lemma counted_ext : forall s e e', (forall x, e x = e' x) -> counted s e -> counted s e'.
Proof. intros s e e' E C x. rewrite <- E. apply C. Qed.

Lemma counted_live : forall s e h o, counted s e -> live s h o -> o_ref o = e h + held s h.
Proof.
  intros s e h o C [L P]. destruct (C h) as [_ H]. rewrite L in H.
  destruct (Z.ltb_spec 0 (o_ref o)); lia.
Qed.
Lemma counted_alive : forall s e h, counted s e -> 0 < e h + held s h -> alive s h.
Proof.
  intros s e h C P. destruct (C h) as [_ H]. destruct (look s h) as [o|] eqn:E; [|lia].
  exists o. split; auto. destruct (Z.ltb_spec 0 (o_ref o)); lia.
Qed.
Lemma counted_dead : forall s e h, counted s e -> ~ alive s h -> held s h = 0 /\ e h = 0.
Proof.
  intros s e h C N. destruct (C h) as [E H]. pose proof (held_nonneg s h).
  assert (e h + held s h <= 0) by (destruct (Z_lt_dec 0 (e h + held s h)); [exfalso; eauto using counted_alive|lia]).
  lia.
Qed.
Lemma counted_nonneg : forall s e h, counted s e -> 0 <= e h.
Proof. intros s e h C. apply C. Qed.
Lemma counted_big : forall s e h, counted s e -> (size s <= h)%nat -> held s h = 0 /\ e h = 0.
Proof.
  intros s e h C L. apply (counted_dead s e); auto. intros (o & H & _).
  rewrite look_big in H; easy.
Qed.
Lemma alive_dec : forall s h, alive s h \/ ~ alive s h.
Proof.
  intros. unfold alive, live. destruct (look s h) as [o|].
  - destruct (Z_lt_dec 0 (o_ref o)); [left; eauto|right; intros (o' & E & P); congruence].
  - right; intros (o' & E & _); congruence.
Qed.
Lemma live_fun : forall s h o o', live s h o -> live s h o' -> o = o'.
Proof. intros s h o o' [] []. congruence. Qed.

(** Replacing an object: counts and contents may change together. *)
Lemma counted_put : forall s e h o o' e',
  counted s e -> live s h o -> 0 < o_ref o' ->
  (forall x, 0 <= e' x) ->
  (forall x, e' x = e x + (if Nat.eq_dec x h then o_ref o' - o_ref o else 0)
                    + holds (o_data o) x - holds (o_data o') x) ->
  counted (put s h (Some o')) e'.
Proof.
  intros s e h o o' e' C [L P] P' N E x. split; [auto|].
  rewrite look_put by (eapply look_lt; eauto). rewrite (held_put _ _ _ _ _ L). cbn.
  assert (0 <? o_ref o = true) as -> by (apply Z.ltb_lt; lia).
  assert (0 <? o_ref o' = true) as Q by (apply Z.ltb_lt; lia).
  rewrite Q, E. destruct (C x) as [_ H].
  destruct (Nat.eq_dec x h) as [->|X].
  - rewrite L in H. destruct (Z.ltb_spec 0 (o_ref o)); [|lia].
    rewrite Q. lia.
  - destruct (look s x) as [ox|]; [destruct (0 <? o_ref ox)|]; lia.
Qed.

(** Objects that change hands: from outside into a new object. *)
Lemma counted_new : forall s e t p e',
  counted s e -> (forall x, 0 <= e' x) ->
  (forall x, e' x = e x - holds p x + is x (size s)) ->
  counted (mkSt (s_objs s ++ [Some (mkObj t 1 [] p)]) (s_log s) (s_mem s)) e'.
Proof.
  intros s e t p e' C N E x. split; [auto|].
  set (s' := mkSt _ _ _).
  assert (held s' x = held s x + holds p x) as H1.
  { unfold held, s'. cbn [s_objs]. rewrite sum_app. unfold sum at 2; cbn. lia. }
  assert (look s' x = if Nat.eq_dec x (size s) then Some (mkObj t 1 [] p) else look s x) as H2.
  { unfold look, s'; cbn. destruct (Nat.eq_dec x (size s)) as [->|X].
    - unfold size. rewrite nth_error_app2, Nat.sub_diag by lia. reflexivity.
    - destruct (Nat.lt_ge_cases x (size s)).
      + rewrite nth_error_app1 by auto. reflexivity.
      + rewrite (proj2 (nth_error_None _ _)), (proj2 (nth_error_None _ _)); auto.
        rewrite app_length; cbn. unfold size in *. lia. }
  rewrite H2, H1, E. destruct (C x) as [_ H]. unfold is.
  destruct (Nat.eq_dec x (size s)) as [->|X].
  - rewrite (look_big s (size s)) in H by auto. cbn [o_ref]. change (0 <? 1) with true. cbv iota. lia.
  - destruct (look s x) as [ox|]; [destruct (0 <? o_ref ox)|]; lia.
Qed.

(** ** What a release does *)

Definition zombie (p : payload) : bool :=
  match user_del p with Some c => c <? 0 | None => false end.

Definition stays (s' : st) (h : handle) (o : obj) : Prop :=
  exists r, 0 < r <= o_ref o /\ look s' h = Some (with_ref o r).
Definition gone (s' : st) (h : handle) (o : obj) : Prop :=
  look s' h = if zombie (o_data o) then Some (with_ref o 0) else None.

Record effect (s : st) (e : handle -> Z) (s' : st) (ev : list event) : Prop := {
  ef_size : size s' = size s;
  ef_mem : s_mem s' = s_mem s;
  ef_log : s_log s' = s_log s ++ ev;
  ef_none : forall x, look s x = None -> look s' x = None;
  ef_dying : forall x o, look s x = Some o -> o_ref o <= 0 -> look s' x = Some o;
  ef_live : forall x o, live s x o ->
    (stays s' x o /\ about x ev = []) \/
    (gone s' x o /\ about x ev = farewell x o /\ doomed s e x);
  ef_dead : forall x, ~ alive s x -> about x ev = [];
  ef_order : forall l1 x cb ud l2 y,
    ev = l1 ++ ECallback x cb ud :: l2 -> holder s x y ->
    forall v, In v l1 -> subject v <> y }.

Lemma about_app : forall x l l', about x (l ++ l') = about x l ++ about x l'.
Proof. intros. apply filter_app. Qed.
Lemma about_cons : forall x v l,
  about x (v :: l) = if Nat.eq_dec (subject v) x then v :: about x l else about x l.
Proof. intros. unfold about. cbn [filter]. now destruct (Nat.eq_dec (subject v) x). Qed.
Lemma about_in : forall x l v, In v l -> subject v = x -> about x l <> [].
Proof.
  intros x l v I E N. assert (In v (about x l)).
  { apply filter_In. split; auto. now destruct (Nat.eq_dec (subject v) x). }
  rewrite N in H. easy.
Qed.
Lemma about_all : forall x l, (forall v, In v l -> subject v = x) -> about x l = l.
Proof.
  induction l; intros H; auto. rewrite about_cons.
  destruct (Nat.eq_dec (subject a) x) as [E|E]; [|exfalso; apply E, H; now left].
  f_equal. apply IHl. intros. apply H. now right.
Qed.
Lemma about_none : forall x l, (forall v, In v l -> subject v <> x) -> about x l = [].
Proof.
  induction l; intros H; auto. rewrite about_cons.
  destruct (Nat.eq_dec (subject a) x) as [E|E]; [exfalso; eapply H; [now left|auto]|].
  apply IHl. intros. apply H. now right.
Qed.

Lemma stays_live : forall s' h o, stays s' h o -> exists r, 0 < r <= o_ref o /\ live s' h (with_ref o r).
Proof. intros s' h o (r & P & L). exists r. split; [lia|]. split; [auto|cbn; lia]. Qed.
Lemma gone_not_alive : forall s' h o, gone s' h o -> ~ alive s' h.
Proof.
  unfold gone. intros s' h o G (o' & L & P). rewrite L in G.
  destruct (zombie (o_data o)); inversion G. subst. cbn in P. lia.
Qed.

Lemma effect_refl : forall s e, effect s e s [].
Proof.
  intros. constructor; auto.
  - now rewrite app_nil_r.
  - intros x o [L P]. left. split; auto. exists (o_ref o). split; [lia|].
    rewrite L. now destruct o.
  - intros [|] * H; inversion H.
Qed.

(** Being doomed later is being doomed now. *)
Lemma doomed_lift : forall s e s1 ev e1 x,
  effect s e s1 ev -> (forall x, 0 <= e x <= e1 x) -> doomed s1 e1 x -> doomed s e x.
Proof.
  intros s e s1 ev e1 x F E D. induction D as [x (o1 & L1 & P1) Z H IH].
  assert (alive s x) as A.
  { destruct (alive_dec s x) as [|N]; auto. exfalso.
    destruct (look s x) as [o|] eqn:X.
    - assert (o_ref o <= 0) by (destruct (Z_lt_dec 0 (o_ref o)); [exfalso; apply N; exists o; split; auto|lia]).
      rewrite (ef_dying _ _ _ _ F _ _ X H0) in L1. inversion L1; subst. lia.
    - rewrite (ef_none _ _ _ _ F _ X) in L1. discriminate. }
  constructor; auto.
  - specialize (E x). lia.
  - intros y (oy & Ly & Hy). destruct (ef_live _ _ _ _ F y oy Ly) as [[S _]|(_ & _ & D)]; auto.
    apply IH. apply stays_live in S as (r & _ & S). exists (with_ref oy r). split; auto.
Qed.

Lemma effect_trans : forall s e s1 e1 s2 ev1 ev2 k1,
  effect s e s1 ev1 -> effect s1 e1 s2 ev2 ->
  (forall x, 0 <= e x <= e1 x) -> counted s1 k1 ->
  effect s e s2 (ev1 ++ ev2).
Proof.
  intros s e s1 e1 s2 ev1 ev2 k1 F G E C. constructor.
  - rewrite (ef_size _ _ _ _ G). apply F.
  - rewrite (ef_mem _ _ _ _ G). apply F.
  - rewrite (ef_log _ _ _ _ G), (ef_log _ _ _ _ F). now rewrite app_assoc.
  - intros. eapply ef_none; eauto. eapply ef_none; eauto.
  - intros. eapply ef_dying; eauto. eapply ef_dying; eauto.
  - intros x o L. rewrite about_app. destruct (ef_live _ _ _ _ F x o L) as [[S A]|(S & A & D)].
    + apply stays_live in S as (r' & R & L1).
      destruct (ef_live _ _ _ _ G x _ L1) as [[S2 A2]|(S2 & A2 & D2)].
      * left. rewrite A, A2. split; auto. destruct S2 as (r2 & R2 & L2). exists r2. cbn in R2.
        split; [lia|]. rewrite L2. now destruct o.
      * right. rewrite A, A2. split; [|split; auto].
        -- unfold gone in *. cbn in S2. rewrite S2. destruct (zombie _); auto.
        -- eapply doomed_lift; eauto.
    + right. rewrite A, (ef_dead _ _ _ _ G), app_nil_r by (eapply gone_not_alive; eauto).
      split; [|split; auto]. unfold gone in *. destruct (zombie (o_data o)).
      * eapply ef_dying; eauto. cbn. lia.
      * eapply ef_none; eauto.
  - intros x N. rewrite about_app, (ef_dead _ _ _ _ F), (ef_dead _ _ _ _ G); auto.
    intros (o1 & L1 & P1). apply N. destruct (look s x) as [o|] eqn:X.
    + destruct (Z_lt_dec 0 (o_ref o)); [exists o; split; auto|].
      rewrite (ef_dying _ _ _ _ F _ _ X) in L1 by lia. inversion L1; subst. lia.
    + rewrite (ef_none _ _ _ _ F _ X) in L1. discriminate.
  - intros l1 x cb ud l2 y H (o & L & Y) v I V.
    assert (In (ECallback x cb ud) (ev1 ++ ev2)) as J
      by (rewrite H; apply in_or_app; right; now left).
    destruct (ef_live _ _ _ _ F x o L) as [[S A]|(S & A & D)].
    + (* x is still alive in the middle: its events are in ev2 *)
      assert (exists l1', l1 = ev1 ++ l1' /\ ev2 = l1' ++ ECallback x cb ud :: l2) as (l1' & -> & H2).
      { clear -H A. revert l1 H. induction ev1 as [|a ev1 IH]; intros l1 H.
        - exists l1. auto.
        - destruct l1 as [|b l1]; cbn in H; inversion H; subst.
          + rewrite about_cons in A. cbn [subject] in A. destruct (Nat.eq_dec x x); easy.
          + rewrite about_cons in A. destruct (Nat.eq_dec (subject b) x); [discriminate|].
            destruct (IH A l1 H2) as (l1' & -> & ->). exists l1'. auto. }
      apply stays_live in S as (r & _ & L1).
      assert (holder s1 x y) as Y1 by (exists (with_ref o r); auto).
      apply in_app_or in I as [I|I].
      * assert (alive s1 y) as AY.
        { eapply counted_alive; eauto. pose proof (counted_nonneg _ _ y C).
          pose proof (holder_held _ _ _ Y1). lia. }
        destruct (alive_dec s y) as [(oy & Ly)|N].
        -- destruct (ef_live _ _ _ _ F y oy Ly) as [[_ B]|(B & _ & _)].
           ++ eapply about_in in I; eauto.
           ++ eapply gone_not_alive; eauto.
        -- pose proof (ef_dead _ _ _ _ F y N). eapply about_in in I; eauto.
      * eapply (ef_order _ _ _ _ G); eauto.
    + (* x died in the first part: the callback is there *)
      assert (exists l2', ev1 = l1 ++ ECallback x cb ud :: l2') as (l2' & H1).
      { assert (about x ev2 = []) as A2 by (eapply ef_dead; eauto using gone_not_alive).
        clear -H A2. revert ev1 H. induction l1 as [|b l1 IH]; intros ev1 H.
        - destruct ev1 as [|a ev1]; cbn in H.
          + subst ev2. rewrite about_cons in A2. cbn [subject] in A2. destruct (Nat.eq_dec x x); easy.
          + inversion H; subst. exists ev1; auto.
        - destruct ev1 as [|a ev1]; cbn in H.
          + subst ev2. exfalso. eapply (about_in x) with (v := ECallback x cb ud); [| |exact A2]; auto.
            right. apply in_or_app. right. now left.
          + inversion H; subst. destruct (IH _ H2) as (l2' & ->). exists l2'; auto. }
      eapply (ef_order _ _ _ _ F); eauto. exists o; auto.
Qed.

(** Number of objects alive: bounds the depth of destructions. *)
Definition lives (s : st) : Z :=
  sum (fun e => match e with Some o => if 0 <? o_ref o then 1 else 0 | None => 0 end) (s_objs s).

Lemma lives_nonneg : forall s, 0 <= lives s.
Proof. intros. apply sum_nonneg. intros [o|] _; [destruct (0 <? o_ref o)|]; lia. Qed.
Lemma lives_size : forall s, lives s <= Z.of_nat (size s).
Proof.
  intros. unfold lives, size. induction (s_objs s) as [|[o|] l IH]; unfold sum in *; cbn -[Z.of_nat] in *; try lia.
  destruct (0 <? o_ref o); lia.
Qed.

Lemma lives_effect : forall s e s' ev, effect s e s' ev -> lives s' <= lives s.
Proof.
  intros s e s' ev F.
  assert (forall l l' : list (option obj), length l' = length l ->
    (forall i, match nth_error l' i with
               | Some (Some o) => 0 < o_ref o -> exists o', nth_error l i = Some (Some o') /\ 0 < o_ref o'
               | _ => True end) ->
    sum (fun e => match e with Some o => if 0 <? o_ref o then 1 else 0 | None => 0 end) l' <=
    sum (fun e => match e with Some o => if 0 <? o_ref o then 1 else 0 | None => 0 end) l) as G.
  { induction l as [|a l IH]; intros [|b l'] L H; cbn in L; try discriminate; try reflexivity.
    unfold sum in *; cbn. assert (length l' = length l) as L' by lia.
    specialize (IH l' L'). assert (forall i, match nth_error l' i with
               | Some (Some o) => 0 < o_ref o -> exists o', nth_error l i = Some (Some o') /\ 0 < o_ref o'
               | _ => True end) as H' by (intros i; exact (H (S i))).
    specialize (IH H'). specialize (H O). cbn in H.
    assert ((match b with Some o => if 0 <? o_ref o then 1 else 0 | None => 0 end) <=
            (match a with Some o => if 0 <? o_ref o then 1 else 0 | None => 0 end)); [|lia].
    destruct b as [o|].
    - destruct (Z.ltb_spec 0 (o_ref o)).
      + destruct H as (o' & E & P); auto. inversion E; subst. destruct (Z.ltb_spec 0 (o_ref o')); lia.
      + destruct a as [o'|]; [destruct (0 <? o_ref o')|]; lia.
    - destruct a as [o'|]; [destruct (0 <? o_ref o')|]; lia. }
  apply G; [exact (ef_size _ _ _ _ F)|].
  intros i. destruct (nth_error (s_objs s') i) as [[o|]|] eqn:X; auto. intros P.
  assert (look s' i = Some o) as L by (unfold look; now rewrite X).
  destruct (look s i) as [o0|] eqn:Y.
  - exists o0. split; [now apply look_nth|].
    destruct (Z_lt_dec 0 (o_ref o0)); auto. rewrite (ef_dying _ _ _ _ F _ _ Y) in L by lia.
    inversion L; subst. lia.
  - rewrite (ef_none _ _ _ _ F _ Y) in L. discriminate.
Qed.

Fixpoint release_each (k : nat) (l : list handle) : prog unit :=
  match l with
  | [] => ret tt
  | y :: l' => ignore (release_n k (Some y)) ;;; release_each k l'
  end.

Lemma go_release_each : forall k l,
  (fix go (l : list handle) : prog unit :=
     match l with
     | [] => ret tt
     | y :: l' => ignore (release_n k (Some y)) ;;; go l'
     end) l = release_each k l.
Proof. induction l; cbn; auto. now rewrite IHl. Qed.

Definition del_fn (k : nat) (h : handle) (p : payload) : prog unit :=
  match p with
  | PVariable v => release_n k (Some v)
  | d =>
      say (match user_del d with Some _ => [EUserDel h] | None => [] end) ;;;
      release_each k (released d) ;;;
      (match user_del d with Some c => refutep (c <? 0) c | None => ret tt end)
  end.

(** The outcome of a release and of a series of releases. *)
Definition released_to (r : out unit) (s : st) (e : handle -> Z) (h : handle) : Prop :=
  exists s' ev,
    (r = Done tt s' \/ exists c o, r = Fail c s' /\ c < 0 /\ live s h o /\
                                   user_del (o_data o) = Some c /\ gone s' h o) /\
    effect s (minus e h) s' ev /\ counted s' (minus e h).

(** A variable references a parameter: releasing it cannot fail. *)
Definition plain_variables (s : st) : Prop :=
  forall y o v, live s y o -> o_data o = PVariable v ->
    exists ov, look s v = Some ov /\ user_del (o_data ov) = None.

Lemma effect_stays : forall s e s' ev x o', effect s e s' ev -> live s' x o' ->
  exists o, live s x o /\ o' = with_ref o (o_ref o').
Proof.
  intros s e s' ev x o' F [L P]. destruct (look s x) as [o|] eqn:X.
  - destruct (Z_lt_dec 0 (o_ref o)) as [Q|Q].
    + exists o. split; [split; auto|].
      destruct (ef_live _ _ _ _ F x o (conj X Q)) as [[(r & R & S) _]|(G & _)].
      * rewrite S in L. inversion L. reflexivity.
      * exfalso. eapply gone_not_alive; eauto. exists o'; split; auto.
    + rewrite (ef_dying _ _ _ _ F x o X) in L by lia. inversion L; subst. lia.
  - rewrite (ef_none _ _ _ _ F x X) in L. discriminate.
Qed.

Lemma effect_variables : forall s e s' ev k,
  effect s e s' ev -> counted s' k -> plain_variables s -> plain_variables s'.
Proof.
  intros s e s' ev k F C V y o v L D.
  destruct (effect_stays _ _ _ _ _ _ F L) as (o0 & L0 & E).
  assert (o_data o0 = PVariable v) as D0 by (rewrite E in D; exact D).
  destruct (V y o0 v L0 D0) as (ov & Lv & Uv).
  assert (holder s' y v) as H by (exists o; split; auto; rewrite D; cbn; rewrite is_same; lia).
  assert (alive s' v) as (ov' & Av).
  { eapply counted_alive; eauto. pose proof (counted_nonneg _ _ v C).
    pose proof (holder_held _ _ _ H). lia. }
  destruct (effect_stays _ _ _ _ _ _ F Av) as (ov0 & L1 & E1).
  exists ov'. split; [apply Av|]. rewrite E1. cbn. destruct L1 as [L1 _]. congruence.
Qed.

Lemma release_each_spec : forall k l s e,
  (forall s e h, counted s e -> plain_variables s -> 0 < e h -> lives s < Z.of_nat k ->
     released_to (release_n k (Some h) s) s e h) ->
  counted s e -> plain_variables s -> lives s < Z.of_nat k ->
  (forall x, times x l <= e x) ->
  exists s' ev, release_each k l s = Done tt s' /\
    effect s (fun x => e x - times x l) s' ev /\ counted s' (fun x => e x - times x l).
Proof.
  intros k l. induction l as [|h l IH]; intros s e R C V L T.
  - exists s, []. split; [reflexivity|]. split; [apply effect_refl|].
    eapply counted_ext; [|exact C]. intros; rewrite times_nil; lia.
  - assert (0 < e h).
    { specialize (T h). rewrite times_cons, is_same in T. pose proof (times_nonneg h l). lia. }
    destruct (R s e h C V H L) as (s1 & ev1 & O1 & F1 & C1).
    destruct (IH s1 (minus e h) R C1) as (s2 & ev2 & O2 & F2 & C2).
    + eapply effect_variables; eauto.
    + pose proof (lives_effect _ _ _ _ F1). lia.
    + intros x. specialize (T x). rewrite times_cons in T. unfold minus. lia.
    + exists s2, (ev1 ++ ev2). split; [|split].
      * cbn. unfold bindp, ignore. destruct O1 as [->|(c & o & -> & _)]; exact O2.
      * apply (effect_trans s _ s1 (fun x => minus e h x - times x l) s2 ev1 ev2 (minus e h));
          [|exact F2| |exact C1].
        -- assert (E : forall x, e x - times x (h :: l) = minus e h x - times x l)
             by (intros; rewrite times_cons; unfold minus; lia).
           (* the first effect, relative to a smaller ext *)
           destruct F1. constructor; auto.
           intros x o Lx. destruct (ef_live0 x o Lx) as [?|(G & A & D)]; [left; auto|right].
           split; [exact G|]. split; [exact A|].
           assert (P : forall x, 0 <= e x - times x (h :: l) <= minus e h x).
           { intros z. split.
             - rewrite E. specialize (T z). rewrite times_cons in T. unfold minus. lia.
             - rewrite E. pose proof (times_nonneg z l). lia. }
           eapply (doomed_lift s _ s []); [apply effect_refl|exact P|exact D].
        -- intros x. rewrite times_cons. unfold minus. specialize (T x). rewrite times_cons in T. lia.
      * eapply counted_ext; [|exact C2]. intros; cbn. rewrite times_cons. unfold minus. lia.
Qed.

Lemma release_main : forall n s e h,
  counted s e -> plain_variables s -> 0 < e h -> lives s < Z.of_nat n ->
  released_to (release_n n (Some h) s) s e h.
Proof.
  induction n as [|k IH]; intros s e h C V E L; [pose proof (lives_nonneg s); lia|].
  pose proof (held_nonneg s h) as HN.
  destruct (counted_alive s e h C ltac:(lia)) as (o & Lo & Po).
  pose proof (counted_live s e h o C (conj Lo Po)) as Ro.
  assert (NN : forall x, 0 <= minus e h x).
  { intros x. unfold minus, is. destruct (Nat.eq_dec x h); [subst; lia|].
    pose proof (counted_nonneg s e x C). lia. }
  set (s0 := put s h (Some (with_ref o (o_ref o - 1)))).
  assert (Pre : release_n (S k) (Some h) s =
    (if o_ref o - 1 =? 0 then
            say (map (fun c => ECallback h (fst c) (snd c)) (rev (o_cbs o))) ;;;
            del_fn k h (o_data o) ;;;
            store h None ;;;
            say [EFree h]
          else ret tt) s0).
  { cbn -[Z.sub Z.eqb Z.leb]. unfold bindp at 1. rewrite (deref_look _ _ _ Lo).
    unfold refutep at 1. destruct (Z.leb_spec (o_ref o) 0); [lia|].
    unfold bindp at 1, ret at 1. unfold bindp at 1, store at 1. fold s0.
    destruct (o_ref o - 1 =? 0); [|reflexivity].
    destruct (o_data o); rewrite ?go_release_each; reflexivity. }
  destruct (Z.eqb_spec (o_ref o - 1) 0) as [Z0|NZ].
  2:{ (* still referenced *)
    exists s0, []. rewrite Pre. split; [left; reflexivity|].
    assert (Ls0 : forall x, look s0 x = if Nat.eq_dec x h then Some (with_ref o (o_ref o - 1)) else look s x).
    { intros x. unfold s0. rewrite look_put by (eapply look_lt; eauto). reflexivity. }
    split.
    - constructor.
      + apply size_put.
      + reflexivity.
      + cbn. now rewrite app_nil_r.
      + intros x N. rewrite Ls0. destruct (Nat.eq_dec x h); congruence.
      + intros x o1 X P. rewrite Ls0. destruct (Nat.eq_dec x h); [subst; rewrite Lo in X; inversion X; subst; lia|auto].
      + intros x o1 [X P]. left. split; auto. unfold stays. rewrite Ls0.
        destruct (Nat.eq_dec x h).
        * subst. rewrite Lo in X. inversion X; subst o1. exists (o_ref o - 1). split; [lia|auto].
        * exists (o_ref o1). split; [lia|]. rewrite X. now destruct o1.
      + reflexivity.
      + intros [|] * H; inversion H.
    - unfold s0. eapply counted_put; [exact C|split; eauto|cbn; lia|exact NN|].
      intros x. cbn. unfold minus, is. destruct (Nat.eq_dec x h); lia. }
  (* last reference: h dies *)
  assert (e h = 1 /\ held s h = 0) as [E1 H0] by lia.
  assert (Dh : doomed s (minus e h) h).
  { constructor.
    - exists o; split; auto.
    - unfold minus. rewrite is_same. lia.
    - intros y Y. apply holder_held in Y. lia. }
  set (cbs := map (fun c => ECallback h (fst c) (snd c)) (rev (o_cbs o))) in *.
  assert (Ls0 : forall x, look s0 x = if Nat.eq_dec x h then Some (with_ref o 0) else look s x).
  { intros x. unfold s0. rewrite look_put by (eapply look_lt; eauto). now rewrite Z0. }
  assert (Hs0 : forall x, held s0 x = held s x - holds (o_data o) x).
  { intros x. unfold s0. rewrite (held_put _ _ _ _ _ Lo). cbn.
    destruct (Z.ltb_spec 0 (o_ref o)); [|lia]. rewrite Z0. cbn. lia. }
  assert (C0 : counted s0 (fun x => minus e h x + holds (o_data o) x)).
  { intros x. split; [pose proof (NN x); pose proof (holds_nonneg (o_data o) x); lia|].
    rewrite Ls0, Hs0. destruct (C x) as [_ Hx]. unfold minus, is. destruct (Nat.eq_dec x h).
    - subst. cbn. rewrite H0, E1. lia.
    - destruct (look s x) as [ox|]; [destruct (0 <? o_ref ox)|]; lia. }
  assert (L0 : lives s0 < Z.of_nat k).
  { unfold lives, s0. cbn [put s_objs]. rewrite (sum_set_nth _ _ _ _ (Some o)) by (now apply look_nth).
    destruct (Z.ltb_spec 0 (o_ref o)); [|lia]. cbn. rewrite Z0. cbn.
    unfold lives in L. lia. }
  assert (V0 : plain_variables s0).
  { intros y oy v [Ly Py] Dy. rewrite Ls0 in Ly.
    assert (live s y oy) as Ly'.
    { destruct (Nat.eq_dec y h); [inversion Ly; subst oy; cbn in Py; lia|split; auto]. }
    destruct (V y oy v Ly' Dy) as (ov & Lv & Uv). rewrite Ls0.
    destruct (Nat.eq_dec v h); [|eauto]. subst v. exists (with_ref o 0). split; auto. cbn. congruence. }
  (* the del function *)
  set (ud := match user_del (o_data o) with Some _ => [EUserDel h] | None => [] end).
  assert (Hse : forall evs,
    let s1 := logs s0 evs in
    exists s2 ev, release_each k (released (o_data o)) s1 = Done tt s2 /\
      effect s1 (minus e h) s2 ev /\ counted s2 (minus e h)).
  { intros evs s1.
    destruct (release_each_spec k (released (o_data o)) s1
                (fun x => minus e h x + holds (o_data o) x) IH) as (s2 & ev & O & F & K).
    - exact C0.
    - exact V0.
    - exact L0.
    - intros x. rewrite released_holds. pose proof (NN x). lia.
    - exists s2, ev. split; auto. split.
      + destruct F. constructor; auto. intros x ox Lx.
        destruct (ef_live0 x ox Lx) as [?|(G & A & D)]; [left; auto|right].
        split; auto. split; auto.
        eapply (doomed_lift s1 _ s1 []); [apply effect_refl| |exact D].
        intros z. cbv beta. rewrite released_holds. pose proof (NN z). lia.
      + eapply counted_ext; [|exact K]. intros x; cbn. rewrite released_holds. lia. }
  assert (exists s2 ev,
    (del_fn k h (o_data o) (logs s0 cbs) =
      match user_del (o_data o) with
      | Some c => if c <? 0 then Fail c s2 else Done tt s2
      | None => Done tt s2
      end) /\
    effect (logs s0 (cbs ++ ud)) (minus e h) s2 ev /\ counted s2 (minus e h))
    as (s2 & ev & O2 & F2 & C2).
  { destruct (match o_data o with PVariable v => Some v | _ => None end) as [v|] eqn:Ov.
    - destruct (o_data o) as [| |v'| | | | | | | | | | | | | |] eqn:Od; inversion Ov; subst v'.
      unfold ud. cbn [user_del]. rewrite app_nil_r.
      destruct (Hse cbs) as (s2 & ev & O & F & K). cbn [released release_each] in O.
      exists s2, ev. split; [|split; auto].
      unfold bindp, ignore in O.
      destruct (release_n k (Some v) (logs s0 cbs)) as [[] z|c z|w] eqn:X; cbn in O.
      + inversion O; subst; auto.
      + (* the parameter cannot fail to be released: it would be user defined *)
        exfalso.
        destruct (IH (logs s0 cbs) (fun x => minus e h x + holds (PVariable v) x) v) as (s3 & ev3 & O3 & F3 & K3).
        * exact C0.
        * exact V0.
        * cbn. rewrite is_same. pose proof (NN v). lia.
        * exact L0.
        * rewrite X in O3. destruct O3 as [O3|(c' & o' & O3 & N3 & L3 & U3 & G3)]; [discriminate|].
          destruct (V h o v (conj Lo Po) Od) as (ov & Lv & Uv).
          destruct L3 as [L3 P3]. rewrite look_logs, Ls0 in L3.
          destruct (Nat.eq_dec v h).
          -- subst v. inversion L3; subst o'. cbn in P3. lia.
          -- congruence.
      + discriminate.
    - destruct (Hse (cbs ++ ud)) as (s2 & ev & O & F & K).
      exists s2, ev. split; [|split; auto].
      assert (Hl : logs s0 (cbs ++ ud) = logs (logs s0 cbs) ud)
        by (unfold logs; cbn; now rewrite app_assoc).
      rewrite Hl in O.
      assert (G : forall (r : prog unit),
        (say ud ;;; release_each k (released (o_data o)) ;;; r) (logs s0 cbs) = r s2).
      { intros r. unfold bindp, say. now rewrite O. }
      assert (G' : del_fn k h (o_data o) (logs s0 cbs) =
                   (match user_del (o_data o) with Some c => refutep (c <? 0) c | None => ret tt end) s2).
      { rewrite <- G. unfold ud. destruct (o_data o); try discriminate; reflexivity. }
      rewrite G'. unfold refutep, raise, ret.
      destruct (user_del (o_data o)) as [c|]; [destruct (c <? 0)|]; reflexivity. }
  (* everything together *)
  assert (Nself : holds (o_data o) h = 0).
  { destruct (Z_lt_dec 0 (holds (o_data o) h)) as [Q|Q].
    - exfalso. assert (holder s h h) as Y by (exists o; split; [split|]; auto). apply holder_held in Y. lia.
    - pose proof (holds_nonneg (o_data o) h). lia. }
  assert (Nheld : forall y, ~ holder s y h) by (intros y Y; apply holder_held in Y; lia).
  set (fin := if zombie (o_data o) then [] else [EFree h]).
  set (s3 := if zombie (o_data o) then s2 else logs (put s2 h None) [EFree h]).
  assert (L2h : look s2 h = Some (with_ref o 0)).
  { eapply (ef_dying _ _ _ _ F2); [rewrite look_logs, Ls0; now destruct (Nat.eq_dec h h)|cbn; lia]. }
  assert (Sz2 : size s2 = size s) by (rewrite (ef_size _ _ _ _ F2); apply size_put).
  assert (L3 : forall x, look s3 x = if Nat.eq_dec x h then (if zombie (o_data o) then Some (with_ref o 0) else None)
                                   else look s2 x).
  { intros x. unfold s3. destruct (zombie (o_data o)).
    - destruct (Nat.eq_dec x h); subst; auto.
    - rewrite look_logs, look_put by (eapply look_lt; eauto). reflexivity. }
  assert (H3 : forall x, held s3 x = held s2 x).
  { intros x. unfold s3. destruct (zombie (o_data o)); auto.
    rewrite held_logs, (held_put _ _ _ _ _ L2h). cbn. lia. }
  assert (Oc : forall x ox, x <> h -> (live s x ox <-> live (logs s0 (cbs ++ ud)) x ox)).
  { intros x ox N. unfold live. rewrite look_logs, Ls0. destruct (Nat.eq_dec x h); tauto. }
  assert (Hh : forall y x, y <> h -> (holder s y x <-> holder (logs s0 (cbs ++ ud)) y x)).
  { intros y x N. unfold holder. split; intros (oy & Ly & P); exists oy; split; auto; now apply (Oc y oy N). }
  assert (Dd : forall x, doomed (logs s0 (cbs ++ ud)) (minus e h) x -> doomed s (minus e h) x).
  { intros x D. induction D as [x (ox & Ax) Z H IHD].
    assert (x <> h) as N.
    { intros ->. destruct Ax as [Ax Px]. rewrite look_logs, Ls0 in Ax. destruct (Nat.eq_dec h h); [|easy].
      inversion Ax; subst ox. cbn in Px. lia. }
    constructor; auto.
    - exists ox. now apply Oc.
    - intros y Y. destruct (Nat.eq_dec y h) as [->|Ny]; [exact Dh|]. apply IHD. now apply Hh. }
  assert (Scb : forall v, In v cbs -> subject v = h).
  { intros v Iv. unfold cbs in Iv. apply in_map_iff in Iv as (c & <- & _). reflexivity. }
  assert (Sud : forall v, In v ud -> subject v = h).
  { intros v Iv. unfold ud in Iv. destruct (user_del (o_data o)); [|easy]. destruct Iv as [<-|[]]. reflexivity. }
  assert (Sfin : forall v, In v fin -> subject v = h).
  { intros v Iv. unfold fin in Iv. destruct (zombie (o_data o)); [easy|]. destruct Iv as [<-|[]]. reflexivity. }
  assert (Aev : about h ev = []).
  { eapply (ef_dead _ _ _ _ F2). intros (oh & [Lh Ph]). rewrite look_logs, Ls0 in Lh.
    destruct (Nat.eq_dec h h); [|easy]. inversion Lh; subst oh; cbn in Ph; lia. }
  assert (Fw : cbs ++ ud ++ fin = farewell h o).
  { unfold farewell, fin, ud, cbs, zombie. f_equal.
    destruct (o_data o); cbn [user_del]; try reflexivity; destruct (code <? 0); reflexivity. }
  exists s3, (cbs ++ ud ++ ev ++ fin). split; [|split].
  - assert (Run : release_n (S k) (Some h) s =
              match user_del (o_data o) with
              | Some c => if c <? 0 then Fail c s2 else Done tt (logs (put s2 h None) [EFree h])
              | None => Done tt (logs (put s2 h None) [EFree h])
              end).
    { rewrite Pre. unfold bindp at 1, say at 1. unfold bindp at 1. rewrite O2.
      destruct (user_del (o_data o)) as [c|]; [destruct (c <? 0)|]; reflexivity. }
    rewrite Run. unfold s3, zombie. destruct (user_del (o_data o)) as [c|] eqn:U.
    + destruct (Z.ltb_spec c 0).
      * right. exists c, o. split; [reflexivity|]. split; [auto|]. split; [split; auto|].
        split; [auto|]. unfold gone, zombie. rewrite U. destruct (Z.ltb_spec c 0); [auto|lia].
      * left. reflexivity.
    + left. reflexivity.
  - constructor.
    + unfold s3. destruct (zombie (o_data o)); auto. unfold size, logs; cbn. rewrite set_nth_length. exact Sz2.
    + pose proof (ef_mem _ _ _ _ F2) as M. cbn in M. unfold s3. destruct (zombie (o_data o)); auto.
    + pose proof (ef_log _ _ _ _ F2) as M. cbn in M. unfold s3, fin. destruct (zombie (o_data o)); cbn; rewrite M.
      * now rewrite <- !app_assoc, app_nil_r.
      * now rewrite <- !app_assoc.
    + intros x X. rewrite L3. destruct (Nat.eq_dec x h); [congruence|].
      eapply (ef_none _ _ _ _ F2). rewrite look_logs, Ls0. now destruct (Nat.eq_dec x h).
    + intros x ox X Px. rewrite L3. destruct (Nat.eq_dec x h).
      * subst. rewrite Lo in X. inversion X; subst. lia.
      * eapply (ef_dying _ _ _ _ F2); auto. rewrite look_logs, Ls0. now destruct (Nat.eq_dec x h).
    + intros x ox Lx. destruct (Nat.eq_dec x h) as [->|N].
      * right. assert (ox = o) by (eapply live_fun; [exact Lx|split; auto]). subst ox.
        split; [|split; auto].
        -- unfold gone. rewrite L3. now destruct (Nat.eq_dec h h).
        -- rewrite !about_app, Aev, (about_all h cbs), (about_all h ud), (about_all h fin) by auto.
           exact Fw.
      * assert (A0 : about x (cbs ++ ud ++ ev ++ fin) = about x ev).
        { rewrite !about_app, (about_none x cbs), (about_none x ud), (about_none x fin), app_nil_r; auto;
            intros v Iv; [rewrite (Sfin v Iv)|rewrite (Sud v Iv)|rewrite (Scb v Iv)]; auto. }
        rewrite A0. destruct (ef_live _ _ _ _ F2 x ox (proj1 (Oc x ox N) Lx)) as [[S A]|(S & A & D)].
        -- left. split; auto. destruct S as (r & R & S). exists r. split; auto. rewrite L3. now destruct (Nat.eq_dec x h).
        -- right. split; [|split; auto]. unfold gone in *. rewrite L3. now destruct (Nat.eq_dec x h).
    + intros x N. assert (x <> h) as Nx by (intros ->; apply N; exists o; split; auto).
      rewrite !about_app, (about_none x cbs), (about_none x ud), (about_none x fin), app_nil_r;
        try (intros v Iv; first [rewrite (Sfin v Iv)|rewrite (Sud v Iv)|rewrite (Scb v Iv)]; auto).
      cbn. eapply (ef_dead _ _ _ _ F2). intros (ox & Lx). apply N. exists ox. now apply Oc.
    + intros l1 x cb u l2 y H Y v Iv.
      destruct (Nat.eq_dec x h) as [->|Nx].
      * (* its own callbacks come first *)
        assert (exists l2', cbs = l1 ++ ECallback h cb u :: l2') as (l2' & Hc).
        { assert (forall v, In v (ud ++ ev ++ fin) -> v <> ECallback h cb u) as Q.
          { intros v' Iv' ->. apply in_app_or in Iv' as [Iv'|Iv'].
            - unfold ud in Iv'. destruct (user_del (o_data o)); [destruct Iv' as [Iv'|[]]; discriminate|easy].
            - apply in_app_or in Iv' as [Iv'|Iv'].
              + eapply about_in in Iv'; eauto.
              + unfold fin in Iv'. destruct (zombie (o_data o)); [easy|destruct Iv' as [Iv'|[]]; discriminate]. }
          clear -H Q. revert l1 H. induction cbs as [|a c IH]; intros l1 H.
          - exfalso. cbn in H. apply (Q (ECallback h cb u)); auto. rewrite H. apply in_or_app. right. now left.
          - destruct l1 as [|b l1]; cbn in H; inversion H; subst; [exists c; auto|].
            destruct (IH _ H2) as (l2' & ->). exists l2'. auto. }
        assert (subject v = h) as -> by (apply Scb; rewrite Hc; apply in_or_app; now left).
        intros <-. exact (Nheld h Y).
      * (* the callback of another object *)
        assert (exists l1' l2', l1 = cbs ++ ud ++ l1' /\ ev = l1' ++ ECallback x cb u :: l2') as (l1' & l2' & -> & He).
        { rewrite app_assoc in H.
          assert (forall v, In v (cbs ++ ud) -> v <> ECallback x cb u) as Q1.
          { intros v' Iv' ->. apply Nx. apply in_app_or in Iv' as [Iv'|Iv']; [apply Scb in Iv'|apply Sud in Iv']; auto. }
          assert (forall v, In v fin -> v <> ECallback x cb u) as Q2.
          { intros v' Iv' ->. apply Nx. apply Sfin in Iv'. auto. }
          clear -H Q1 Q2.
          assert (exists l1', l1 = (cbs ++ ud) ++ l1' /\ ev ++ fin = l1' ++ ECallback x cb u :: l2) as (l1' & -> & H').
          { revert l1 H. induction (cbs ++ ud) as [|a c IH]; intros l1 H; [exists l1; auto|].
            destruct l1 as [|b l1]; cbn in H; inversion H; subst.
            - exfalso. eapply Q1; [now left|reflexivity].
            - destruct IH with (l1 := l1) as (l1' & -> & ->); auto; [intros; apply Q1; now right|]. exists l1'; auto. }
          exists l1'. rewrite app_assoc.
          assert (exists l2', ev = l1' ++ ECallback x cb u :: l2') as (l2' & ?).
          { clear H Q1. revert ev H'. induction l1' as [|b l IH]; intros ev H'.
            - destruct ev as [|a ev]; cbn in H'; [exfalso; eapply Q2; [rewrite H'; now left|auto]|].
              inversion H'; subst. exists ev; auto.
            - destruct ev as [|a ev]; cbn in H'.
              + exfalso. eapply Q2; [rewrite H'; right; apply in_or_app; right; now left|auto].
              + inversion H'; subst. destruct (IH _ H1) as (l2' & ->). exists l2'; auto. }
          exists l2'. auto. }
        assert (y <> h) as Ny by (intros ->; exact (Nheld x Y)).
        apply in_app_or in Iv as [Iv|Iv]; [rewrite (Scb v Iv); auto|].
        apply in_app_or in Iv as [Iv|Iv]; [rewrite (Sud v Iv); auto|].
        eapply (ef_order _ _ _ _ F2); eauto. now apply Hh.
  - intros x. split; [apply NN|]. destruct (C2 x) as [_ K]. rewrite L3, H3.
    destruct (Nat.eq_dec x h); [|exact K]. subst x. rewrite L2h in K. cbn in K.
    destruct (zombie (o_data o)); [cbn; exact K|exact K].
Qed.

Lemma release_spec : forall s e h,
  counted s e -> plain_variables s -> 0 < e h -> released_to (release (Some h) s) s e h.
Proof.
  intros. apply release_main; auto. pose proof (lives_size s). unfold size in *. lia.
Qed.
