(** Which calls succeed. *)
From Coq Require Import ZArith List Bool Lia.
From Verif Require Import Base LifeModel LifeSpec LifeEffects LifeProofs LifeOps LifeCalls LifeCalls2
  LifeCalls3 LifeCalls4 LifeCalls5 LifeCalls6 LifeCalls7 LifeSteps.
Import ListNotations.
Open Scope Z_scope.

(** [P] is why the program cannot fail. *)
Definition jd {A} (P : Prop) (p : prog A) (s : st) (Q : A -> st -> Prop) : Prop :=
  match p s with Done a s' => Q a s' | Fail c _ => c <> CCS_RESULT_SUCCESS /\ ~ P | Undef _ => True end.

Section Rules.
Variable P : Prop.

Lemma jd_bind : forall A B (p : prog A) (f : A -> prog B) s Q,
  jd P p s (fun a s' => jd P (f a) s' Q) -> jd P (bindp p f) s Q.
Proof. unfold jd, bindp. intros A B p f s Q H. destruct (p s); auto. Qed.
Lemma jd_orelse : forall A (p : prog A) c s Q, jd P p s Q -> jd P (orelse p c) s Q.
Proof. unfold jd, orelse. intros A p c s Q H. destruct (p s); auto. destruct (c s0); auto. Qed.
Lemma jd_ret : forall A (a : A) s (Q : A -> st -> Prop), Q a s -> jd P (ret a) s Q.
Proof. auto. Qed.
Lemma jd_raise : forall A c s (Q : A -> st -> Prop), c <> CCS_RESULT_SUCCESS -> ~ P -> jd P (raise c) s Q.
Proof. intros. split; auto. Qed.
Lemma jd_undef : forall A w s (Q : A -> st -> Prop), jd P (fun _ => Undef w) s Q.
Proof. cbn. auto. Qed.
Lemma jd_refute : forall b c s (Q : unit -> st -> Prop), c <> CCS_RESULT_SUCCESS ->
  (b = true -> ~ P) -> (b = false -> Q tt s) -> jd P (refutep b c) s Q.
Proof. intros [] c s Q H0 H1 H2; cbn; auto. Qed.
Lemma jd_verdict : forall v s (Q : unit -> st -> Prop),
  (refused_value v = true -> ~ P) -> (refused_value v = false -> Q tt s) -> jd P (verdict v) s Q.
Proof. intros [c|] s Q H1 H2; cbn in *; [|auto]. unfold jd, refutep.
  destruct (c <? 0) eqn:E; cbn; auto. split; auto. apply Z.ltb_lt in E. unfold CCS_RESULT_SUCCESS. lia.
Qed.
Lemma jd_conseq : forall A (p : prog A) s (Q Q' : A -> st -> Prop),
  jd P p s Q -> (forall a s', Q a s' -> Q' a s') -> jd P p s Q'.
Proof. unfold jd. intros A p s Q Q' H I. destruct (p s); auto. Qed.
Lemma jd_ignore : forall A (p : prog A) s (Q : unit -> st -> Prop), (forall s', Q tt s') -> jd P (ignore p) s Q.
Proof. unfold jd, ignore. intros A p s Q H. destruct (p s); auto. Qed.
Lemma jd_drop : forall h s (Q : unit -> st -> Prop), (forall s', Q tt s') -> jd P (drop h) s Q.
Proof. intros. now apply jd_ignore. Qed.
Lemma jd_get_any : forall h s (Q : payload -> st -> Prop), (forall p, Q p s) -> jd P (get_data h) s Q.
Proof. intros h s Q H. unfold get_data, bindp, jd, deref. destruct (nth_error (s_objs s) h) as [[o|]|]; cbn; auto. Qed.
Lemma jd_set_any : forall h p s (Q : unit -> st -> Prop), (forall s', Q tt s') -> jd P (set_data h p) s Q.
Proof. intros h p s Q H. unfold set_data, bindp, jd, deref, store. destruct (nth_error (s_objs s) h) as [[o|]|]; cbn; auto. Qed.
End Rules.

(** Objects only gain references, and [c] may change. *)
Record grows (s0 : st) (c : handle) (s : st) : Prop := {
  g_mem : s_mem s0 = [] -> s_mem s = [];
  g_size : (size s0 <= size s)%nat;
  g_live : forall h o, live s0 h o -> exists r p, 0 < r /\ look s h = Some (mkObj (o_type o) r (o_cbs o) p) /\
                                              (h <> c -> p = o_data o) }.

Section Growing.
Variables (s0 : st) (c : handle) (P : Prop).
Hypothesis PM : P -> s_mem s0 = [].
Notation grows := (grows s0 c).

Lemma grows_refl : grows s0.
Proof.
  constructor; auto. intros h o [L R]. exists (o_ref o), (o_data o). split; auto. rewrite L. split; auto. now destruct o.
Qed.

Lemma jd_check : forall x t s (Q : handle -> st -> Prop), valid s0 x -> grows s ->
  (x = None -> ~ P) ->
  (forall h o, x = Some h -> live s0 h o -> o_type o <> t -> ~ P) ->
  (forall h o, x = Some h -> live s0 h o -> o_type o = t -> Q h s) -> jd P (check_obj x t) s Q.
Proof.
  intros [h|] t s Q V G H1 H2 H3; cbn [check_obj]; [|apply jd_raise; [discriminate|auto]]. destruct V as (o & L).
  destruct (g_live _ _ _ G h o L) as (r & p & R & Lk & _). apply jd_bind. unfold jd at 1.
  rewrite (deref_look _ _ _ Lk). apply jd_bind. apply jd_refute; [discriminate| |]; cbn [o_type]; intros E.
  - apply (H2 h o); auto. intros T. rewrite T, Z.eqb_refl in E. discriminate.
  - apply jd_ret. apply (H3 h o); auto. apply negb_false_iff, Z.eqb_eq in E. auto.
Qed.

Lemma jd_alloc : forall s (Q : unit -> st -> Prop), grows s ->
  (forall s', grows s' -> s_objs s' = s_objs s -> Q tt s') -> jd P alloc s Q.
Proof.
  intros s Q G H. unfold jd, alloc. destruct (s_mem s) as [|[] m] eqn:M.
  - apply H; auto.
  - apply H; auto. destruct G as [gm gs gl]. constructor; auto. intros E. rewrite (gm E) in M. discriminate.
  - split; [discriminate|]. intros p. rewrite (g_mem _ _ _ G (PM p)) in M. discriminate.
Qed.

Lemma jd_retain : forall h s (Q : unit -> st -> Prop), alive s0 h -> grows s ->
  (forall s', grows s' -> Q tt s') -> jd P (retain (Some h)) s Q.
Proof.
  intros h s Q (o & L) G H. destruct (g_live _ _ _ G h o L) as (r & p & R & Lk & D).
  unfold retain. apply jd_bind. unfold jd at 1. rewrite (deref_look _ _ _ Lk). apply jd_bind. cbn [o_ref].
  apply jd_refute; [discriminate| |]; intros E; [apply Z.leb_le in E; lia|]. destruct (r =? INT32_MAX); [exact Logic.I|].
  unfold jd, store. apply H. constructor; [apply G|rewrite size_put; apply G|]. intros y oy Ly.
  rewrite look_put by (eapply look_lt; eauto). destruct (Nat.eq_dec y h) as [->|N]; [|now apply (g_live _ _ _ G)].
  assert (oy = o) by (eapply live_fun; eauto). subst oy. exists (r + 1), p. split; [lia|]. auto.
Qed.

Lemma jd_retain_new : forall h ob s (Q : unit -> st -> Prop), look s h = Some ob -> 0 < o_ref ob ->
  (forall s', Q tt s') -> jd P (retain (Some h)) s Q.
Proof.
  intros h ob s Q Lk R H. unfold retain. apply jd_bind. unfold jd at 1. rewrite (deref_look _ _ _ Lk). apply jd_bind.
  apply jd_refute; [discriminate| |]; intros E; [apply Z.leb_le in E; lia|]. destruct (o_ref ob =? INT32_MAX); [exact Logic.I|]. apply H.
Qed.

Lemma jd_new : forall t p s (Q : handle -> st -> Prop), grows s ->
  (forall s', grows s' -> look s' (size s) = Some (mkObj t 1 [] p) -> Q (size s) s') -> jd P (new t p) s Q.
Proof.
  intros t p s Q G H. unfold jd, new. fold (added s t p). fold (size s). apply H.
  - constructor; [apply G|rewrite size_added; pose proof (g_size _ _ _ G); lia|]. intros h o L.
    destruct (g_live _ _ _ G h o L) as (r & q & R & Lk & D). exists r, q. split; auto. rewrite look_added.
    destruct (Nat.eq_dec h (size s)); auto. apply look_lt in Lk. lia.
  - rewrite look_added. now destruct (Nat.eq_dec (size s) (size s)).
Qed.

Lemma jd_plain : forall t s (Q : handle -> st -> Prop), grows s ->
  (forall s' h, grows s' -> Q h s') -> jd P (create_plain t) s Q.
Proof. intros t s Q G H. apply jd_bind. apply jd_alloc; auto. intros s1 G1 _. apply jd_new; auto. Qed.

Lemma jd_get : forall h o s (Q : payload -> st -> Prop), live s0 h o -> grows s -> h <> c ->
  Q (o_data o) s -> jd P (get_data h) s Q.
Proof.
  intros h o s Q L G N H. destruct (g_live _ _ _ G h o L) as (r & p & R & Lk & D).
  unfold get_data. apply jd_bind. unfold jd at 1. rewrite (deref_look _ _ _ Lk). apply jd_ret. cbn. now rewrite D.
Qed.
Lemma jd_get0 : forall h o (Q : payload -> st -> Prop), live s0 h o ->
  Q (o_data o) s0 -> jd P (get_data h) s0 Q.
Proof.
  intros h o Q [L _] H. unfold get_data. apply jd_bind. unfold jd at 1. rewrite (deref_look _ _ _ L). now apply jd_ret.
Qed.

Lemma jd_set : forall p s (Q : unit -> st -> Prop), grows s ->
  (forall s', grows s' -> Q tt s') -> jd P (set_data c p) s Q.
Proof.
  intros p s Q G H. unfold set_data. apply jd_bind. unfold jd at 1.
  destruct (look s c) as [ob|] eqn:Lc.
  - rewrite (deref_look _ _ _ Lc). unfold jd, store. apply H.
    constructor; [apply G|rewrite size_put; apply G|]. intros y oy Ly.
    destruct (g_live _ _ _ G y oy Ly) as (r & q & R & Lk & D).
    rewrite look_put by (eapply look_lt; eauto). destruct (Nat.eq_dec y c) as [->|N]; [|eauto 8].
    rewrite Lk in Lc. injection Lc as <-. exists r, p. split; auto. split; auto. easy.
  - unfold look in Lc. unfold deref. destruct (nth_error (s_objs s) c) as [[|]|]; auto. discriminate.
Qed.
End Growing.

Lemma jd_release : forall P h o s (Q : unit -> st -> Prop), look s h = Some o -> 0 < o_ref o -> o_data o = PPlain ->
  (forall s', Q tt s') -> jd P (release (Some h)) s Q.
Proof.
  intros P h o s Q L R D H. unfold jd, release. cbn [release_n]. unfold bindp at 1. rewrite (deref_look _ _ _ L).
  unfold bindp at 1, refutep. destruct (Z.leb_spec (o_ref o) 0); [lia|]. cbn [ret].
  unfold bindp at 1, store at 1. destruct (o_ref o - 1 =? 0); [|apply H].
  unfold bindp at 1, say at 1. rewrite D. cbn. apply H.
Qed.

Lemma are_none : forall s t l, ~ are s t (None :: l).
Proof. intros s t l H. destruct (H None (or_introl eq_refl)) as (h & [=] & _). Qed.
Lemma are_other : forall s t h o l, live s h o -> o_type o <> t -> ~ are s t (Some h :: l).
Proof.
  intros s t h o l L N H. destruct (H (Some h) (or_introl eq_refl)) as (k & [= <-] & K). rewrite (kind_live _ _ _ L) in K. congruence.
Qed.
Lemma are_here : forall s t h o, live s h o -> o_type o = t -> are s t [Some h].
Proof. intros s t h o L <- x [<-|[]]. exists h. split; auto. now apply kind_live. Qed.
Lemma are_nil : forall s t, are s t [].
Proof. intros s t x []. Qed.
Lemma are_cons : forall s t x l, are s t (x :: l) <-> are s t [x] /\ are s t l.
Proof.
  intros s t x l. split.
  - intros H. split; intros y I; apply H; cbn in *; tauto.
  - intros [H1 H2] y [<-|I]; [apply H1; now left|auto].
Qed.

Section Calls.
Variables (s0 : st) (e0 : handle -> Z).
Hypothesis O0 : ok s0 e0.
Variable app : handle -> Z.
Hypothesis Has : forall h, app h <= e0 h.

Definition fine (o : op) : Prop := s_mem s0 = [] /\ accepted s0 e0 o.
Lemma fine_mem : forall o, fine o -> s_mem s0 = [].
Proof. intros o [M _]. exact M. Qed.

Ltac destr :=
  repeat match goal with
  | H : _ /\ _ |- _ => destruct H
  | H : are _ _ (None :: _) |- _ => exfalso; exact (are_none _ _ _ H)
  | L : live ?s ?h ?o, N : o_type ?o <> ?t, H : are ?s ?t (Some ?h :: _) |- _ => exfalso; exact (are_other _ _ _ _ _ L N H)
  | H : Some _ = Some _ |- _ => injection H as H; subst
  | H : Some _ <> None -> _ |- _ => specialize (H ltac:(discriminate))
  | H : ?a <> ?a |- _ => exfalso; apply H; reflexivity
  | H : true = false |- _ => discriminate H
  | H : false = true |- _ => discriminate H
  end.
Ltac no :=
  let M := fresh "M" in let K := fresh "K" in
  intros (M & K); cbn [accepted] in K; subst; destr; subst; try congruence; try discriminate.
Ltac yes := cbn [accepted]; repeat split; auto; try (eapply are_here; eassumption); try congruence.

Ltac pm := match goal with |- _ -> s_mem s0 = [] => exact (fine_mem _) end.
Ltac stp :=
  lazymatch goal with
  | |- jd _ (bindp _ _) _ _ => apply jd_bind
  | |- jd _ (orelse _ _) _ _ => apply jd_orelse
  | |- jd _ (ret _) _ _ => apply jd_ret
  | |- jd _ (verdict _) _ _ => apply jd_verdict; [intros; no|intros]
  | |- jd _ (refutep _ _) _ _ => apply jd_refute; [discriminate|intros; no|intros]
  | G : grows s0 ?c ?s |- jd _ (check_obj ?x _) ?s _ =>
      apply (jd_check s0 c); [assumption|exact G|intros; no|intros; no|
        let E := fresh in intros ? ? E ? ?; first [injection E as E; subst|subst]]
  | G : grows s0 ?c ?s |- jd _ alloc ?s _ =>
      apply (jd_alloc s0 c); [pm|exact G|clear G; let s' := fresh "s" in let G' := fresh "G" in intros s' G' ?]
  | G : grows s0 ?c ?s |- jd _ (retain _) ?s _ =>
      apply (jd_retain s0 c); [assumption || (eexists; eassumption)|exact G|clear G; let s' := fresh "s" in let G' := fresh "G" in intros s' G']
  | G : grows s0 ?c ?s |- jd _ (new _ _) ?s _ =>
      apply (jd_new s0 c); [exact G|clear G; let s' := fresh "s" in let G' := fresh "G" in intros s' G' ?]
  | G : grows s0 ?c ?s |- jd _ (create_plain _) ?s _ =>
      apply (jd_plain s0 c); [pm|exact G|clear G; let s' := fresh "s" in let h' := fresh "h" in let G' := fresh "G" in intros s' h' G']
  end.
Ltac start_ := let G := fresh "G" in pose proof (grows_refl s0 (size s0)) as G.
Ltac fin := subst; yes.

Lemma jd_values : forall P h o s v (Q : unit -> st -> Prop), live s0 h o ->
  (~ values_for s0 h v -> ~ P) ->
  (match v with VNull n => n <= 0 | VArray l => length l = number (data s0 h) end -> Q tt s) ->
  jd P (check_values v (number (Some (o_data o)))) s Q.
Proof.
  intros P h o s v Q L H1 H2. destruct v as [n|l]; cbn [check_values].
  - apply jd_refute; [discriminate| |]; intros E.
    + apply H1. cbn. apply Z.ltb_lt in E. lia.
    + apply H2. apply Z.ltb_ge in E. lia.
  - apply jd_refute; [discriminate| |]; intros E.
    + apply H1. cbn. rewrite (data_live _ _ _ L). intros (X & _). apply negb_true_iff, Nat.eqb_neq in E. lia.
    + apply H2. rewrite (data_live _ _ _ L). apply negb_false_iff, Nat.eqb_eq in E. lia.
Qed.

Lemma jd_number : forall P h o s (Q : nat -> st -> Prop), live s0 h o -> grows s0 (size s0) s ->
  Q (number (Some (o_data o))) s -> jd P (num_parameters h) s Q.
Proof.
  intros P h o s Q L G H. unfold num_parameters. apply jd_bind. eapply jd_get; [exact L|exact G| |].
  - intros ->. destruct L as [L _]. apply look_lt in L. lia.
  - apply jd_ret. destruct (o_data o); exact H.
Qed.

Lemma jd_validate : forall P h v s (Q : unit -> st -> Prop),
  (~ values_for s0 h v -> ~ P) ->
  (match v with VNull n => True | VArray l => forall x, In x l -> refused_value x = false end -> Q tt s) ->
  jd P (validate v) s Q.
Proof.
  intros P h [n|l] s Q H1 H2; cbn [validate]; [apply jd_ret; auto|].
  assert (K : forall l', incl l' l -> ((forall x, In x l' -> refused_value x = false) -> Q tt s) -> jd P (validate_values l') s Q).
  { induction l' as [|x l' IH]; intros I HQ; cbn [validate_values].
    - apply jd_ret. apply HQ. easy.
    - apply jd_bind. apply jd_verdict; intros E.
      + apply H1. cbn. intros (_ & X). rewrite (X x) in E; [discriminate|]. apply I. now left.
      + apply IH; [intros y J; apply I; now right|]. intros X. apply HQ. intros y [<-|J]; auto. }
  apply K; auto. apply incl_refl.
Qed.

Definition says (o : op) (r : Z * list handle) (_ : st) : Prop :=
  (fst r = CCS_RESULT_SUCCESS -> accepted s0 e0 o) /\ (fst r <> CCS_RESULT_SUCCESS -> ~ fine o).

Lemma jd_give : forall o p, jd (fine o) p s0 (fun _ _ => accepted s0 e0 o) -> jd (fine o) (give p) s0 (says o).
Proof.
  intros o p H. unfold give. apply jd_bind. eapply jd_conseq; [exact H|]. intros h s1 A. apply jd_ret. split; [auto|]. cbn. easy.
Qed.
Lemma jd_act : forall o p, jd (fine o) p s0 (fun _ _ => accepted s0 e0 o) -> jd (fine o) (act p) s0 (says o).
Proof.
  intros o p H. unfold act. apply jd_bind. eapply jd_conseq; [exact H|]. intros h s1 A. apply jd_ret. split; [auto|]. cbn. easy.
Qed.

Lemma jd_objs : forall P t l s (Q : list handle -> st -> Prop), Forall (valid s0) l -> grows s0 (size s0) s ->
  (~ are s0 t l -> ~ P) ->
  (forall ds, are s0 t l -> Forall (alive s0) ds -> Q ds s) -> jd P (check_objs l t) s Q.
Proof.
  induction l as [|x l IH]; intros s Q V G N H; cbn [check_objs].
  - apply jd_ret. apply H; [apply are_nil|constructor].
  - apply Forall_cons_iff in V as [Vx V]. apply jd_bind. apply (jd_check s0 (size s0)); auto.
    + intros ->. apply N. apply are_none.
    + intros h o -> L T. apply N. eapply are_other; eauto.
    + intros h o -> L T. apply jd_bind. apply IH; auto.
      * intros E. apply N. intros A. apply E. now apply are_cons in A as [_ A].
      * intros ds A F. apply jd_ret. apply H.
        -- apply are_cons. split; [eapply are_here; eauto|exact A].
        -- constructor; [now exists o|auto].
Qed.

Lemma jd_each : forall P l got s (Q : unit -> st -> Prop), Forall (alive s0) l -> grows s0 (size s0) s ->
  (forall s', grows s0 (size s0) s' -> Q tt s') -> jd P (retain_each got l) s Q.
Proof.
  induction l as [|h l IH]; intros got s Q F G H; cbn [retain_each]; [apply jd_ret; auto|].
  apply Forall_cons_iff in F as [A F]. apply jd_bind. apply jd_orelse. apply (jd_retain s0 (size s0)); auto.
Qed.

Lemma jd_configuration : forall o x v s (Q : handle -> st -> Prop), valid s0 x -> grows s0 (size s0) s ->
  (~ (are s0 T_CONFIGURATION_SPACE [x] /\ forall h, x = Some h -> values_for s0 h v) -> ~ fine o) ->
  (forall h s', are s0 T_CONFIGURATION_SPACE [x] -> (forall h, x = Some h -> values_for s0 h v) ->
     grows s0 (size s0) s' -> Q h s') ->
  jd (fine o) (create_configuration x v) s Q.
Proof.
  intros o x v s Q V G N H. unfold create_configuration. apply jd_bind. apply (jd_check s0 (size s0)); auto.
  - intros ->. apply N. intros (K & _). now apply are_none in K.
  - intros h ob -> L T. apply N. intros (K & _). eapply are_other; eauto.
  - intros h ob -> L T. apply jd_bind. eapply jd_number; [exact L|exact G|]. apply jd_bind.
    eapply jd_values; [exact L| |].
    { intros E. apply N. intros (_ & K). apply E. auto. }
    intros Cv. stp. stp. stp. stp. stp. apply (jd_validate (fine o) h).
    { intros E. apply N. intros (_ & K). apply E. auto. }
    intros Vv. apply (jd_new s0 (size s0)); auto. intros s' G' _. apply H; auto.
    + eapply are_here; eauto.
    + intros k [= <-]. destruct v; cbn in *; auto.
Qed.

Lemma plain_rng : forall h o T, live s0 h o -> o_type o = T_RNG -> T = T_RNG -> o_data o = PPlain.
Proof.
  intros h o T L E _. apply (fits_plain T_RNG); auto. rewrite <- E. apply (proj2 O0 h o L).
Qed.

Lemma nat_seen : forall l i, existsb (Nat.eqb i) l = true <-> In i l.
Proof. intros l i. rewrite existsb_exists. setoid_rewrite Nat.eqb_eq. split; [intros (j & I & ->); auto|eauto]. Qed.
Lemma distinct_nodup : forall l, distinct l = true <-> NoDup l.
Proof.
  induction l as [|i l IH]; cbn; [split; auto; constructor|]. rewrite andb_true_iff, negb_true_iff, IH. split.
  - intros [H N]. constructor; auto. rewrite <- nat_seen. congruence.
  - intros H. inversion H as [|? ? H1 H2]; subst. split; auto. destruct (existsb (Nat.eqb i) l) eqn:E; auto.
    now apply nat_seen in E.
Qed.

Lemma jd_wrappers : forall o l added s (Q : list (handle * list nat) -> st -> Prop), grows s0 (size s0) s ->
  (forall m s', Q m s') -> jd (fine o) (default_wrappers added l) s Q.
Proof.
  induction l as [|i l IH]; intros added s Q G H; cbn [default_wrappers]; [apply jd_ret; auto|].
  stp. stp. stp. stp. stp. stp. apply IH; auto. intros m s'. now apply jd_ret.
Qed.

Lemma jd_delete : forall P cs l s (Q : unit -> st -> Prop), (forall s', Q tt s') -> jd P (delete_wrappers cs l) s Q.
Proof.
  induction l as [|w l IH]; intros s Q H; cbn [delete_wrappers]; [apply jd_ret; auto|].
  apply jd_bind. apply jd_get_any. intros p. destruct p; try apply jd_undef.
  apply jd_bind. apply jd_set_any. intros s'. apply jd_bind. apply jd_drop. auto.
Qed.

Lemma jd_nodes : forall o l got s (Q : list handle -> st -> Prop), grows s0 (size s0) s ->
  Forall (valid_node s0) l -> (forall n, In n l -> acceptable s0 n) ->
  (forall m s', grows s0 (size s0) s' -> Q m s') -> jd (fine o) (make_nodes got l) s Q.
Proof.
  induction l as [|n l IH]; intros got s Q G V Ac H; cbn [make_nodes]; [apply jd_ret; auto|].
  apply Forall_cons_iff in V as [Vn V]. stp. stp.
  assert (An := Ac n (or_introl eq_refl)).
  assert (R : forall (h : handle) s', grows s0 (size s0) s' -> jd (fine o) (make_nodes (got ++ [h]) l) s' Q).
  { intros h s' G'. apply IH; auto. intros n' I. apply Ac. now right. }
  destruct n as [[h|]| |]; cbn [make_node]; try easy.
  - destruct Vn as (ob & L). stp. destruct (g_live _ _ _ G h ob L) as (r & p & Pr & Lk & _).
    unfold jd at 1. rewrite (deref_look _ _ _ Lk). cbn [o_type].
    destruct (Z.eqb_spec (o_type ob) T_EXPRESSION) as [T|T].
    + stp. stp. apply jd_ret. auto.
    + cbn in An. rewrite (kind_live _ _ _ L) in An. destruct An as [An|An]; [congruence|].
      unfold create_variable. stp. apply (jd_check s0 (size s0)); auto; [eexists; eauto|easy| |].
      * intros h' o' [= <-] L' N'. assert (o' = ob) by (eapply live_fun; eauto). congruence.
      * intros h' o' [= <-] L' T'. stp. stp. stp. stp. stp. auto.
  - stp. auto.
Qed.

Lemma jd_check_nodes : forall o l s (Q : unit -> st -> Prop), grows s0 (size s0) s -> Forall (valid_node s0) l ->
  (~ (forall n, In n l -> acceptable s0 n) -> ~ fine o) ->
  ((forall n, In n l -> acceptable s0 n) -> Q tt s) -> jd (fine o) (check_nodes l) s Q.
Proof.
  induction l as [|n l IH]; intros s Q G V N H; cbn [check_nodes]; [apply jd_ret; apply H; easy|].
  apply Forall_cons_iff in V as [Vn V]. stp.
  assert (B : ~ acceptable s0 n -> ~ fine o) by (intros E; apply N; intros A; apply E, A; now left).
  assert (R : acceptable s0 n -> jd (fine o) (check_nodes l) s Q).
  { intros A. apply IH; auto.
    - intros E. apply N. intros A'. apply E. intros n' I. apply A'. now right.
    - intros A'. apply H. intros n' [<-|I]; auto. }
  destruct n as [[h|]| |].
  - destruct Vn as (ob & L). stp. destruct (g_live _ _ _ G h ob L) as (r & p & Pr & Lk & _).
    unfold jd at 1. rewrite (deref_look _ _ _ Lk). cbn [o_type]. cbn in B, R. rewrite (kind_live _ _ _ L) in B, R.
    apply jd_refute; [discriminate| |]; intros E.
    + apply B. apply andb_true_iff in E as [E1 E2]. rewrite negb_true_iff, Z.eqb_neq in *. intros [K|K]; congruence.
    + apply R. apply andb_false_iff in E as [E|E]; apply negb_false_iff, Z.eqb_eq in E; rewrite E; auto.
  - apply jd_raise; [discriminate|]. apply B. easy.
  - apply jd_ret. apply R. exact Logic.I.
  - apply jd_raise; [discriminate|]. apply B. easy.
Qed.

Lemma attempt_cons : forall a l j, attempt (a :: l) (S j) = attempt l j.
Proof. reflexivity. Qed.

Lemma jd_sample : forall P n l s (Q : unit -> st -> Prop), errors l -> (~ finds n l -> ~ P) -> (finds n l -> Q tt s) ->
  jd P (sample_loop n l) s Q.
Proof.
  induction n as [|n IH]; intros l s Q Er N H; cbn [sample_loop].
  - apply jd_raise; [discriminate|]. apply N. intros (k & Lt & _). lia.
  - destruct l as [|[| |c] l].
    + apply jd_ret. apply H. exists O. split; [lia|]. split; auto. lia.
    + apply jd_ret. apply H. exists O. split; [lia|]. split; auto. lia.
    + assert (E : finds n l <-> finds (S n) (TMissed :: l)).
      { split.
        - intros (k & Lt & F & M). exists (S k). split; [lia|]. split; auto. intros [|j] Lj; auto. rewrite attempt_cons. apply M. lia.
        - intros (k & Lt & F & M). destruct k as [|k]; [discriminate|]. exists k. split; [lia|]. split; auto.
          intros j Lj. rewrite <- (attempt_cons TMissed). apply M. lia. }
      apply IH; rewrite ?E; auto. intros c I. apply Er. now right.
    + apply jd_raise; [specialize (Er c (or_introl eq_refl)); unfold CCS_RESULT_SUCCESS; lia|]. apply N. intros (k & Lt & F & M). destruct k as [|k]; [discriminate|]. specialize (M O ltac:(lia)). discriminate.
Qed.

Lemma found_cons : forall a l m, found (a :: l) (S m) = ((match a with TFound => 1 | _ => 0 end) + found l m)%nat.
Proof.
  intros a l m. unfold found. cbn [seq filter]. change (attempt (a :: l) 0) with a.
  rewrite <- seq_shift.
  assert (E : length (filter (fun j => match attempt (a :: l) j with TFound => true | _ => false end) (map S (seq 0 m))) =
              length (filter (fun j => match attempt l j with TFound => true | _ => false end) (seq 0 m))).
  { generalize (seq 0 m). induction l0 as [|j l0 IH]; auto. cbn [map filter]. rewrite attempt_cons.
    destruct (attempt l j); cbn; auto. }
  destruct a; cbn [length]; rewrite E; reflexivity.
Qed.
Lemma found_nil : forall m, found [] m = m.
Proof.
  intros m. unfold found. rewrite <- (seq_length m 0) at 2. f_equal. generalize (seq 0 m).
  induction l as [|j l IH]; auto. cbn [filter].
  assert (A : attempt [] j = TFound) by (unfold attempt; now destruct j). now rewrite A, IH.
Qed.
Lemma found_0 : forall l, found l 0 = 0%nat.
Proof. reflexivity. Qed.

Lemma all_missed : forall k w l, finds_all (S k) (S w) (TMissed :: l) <-> finds_all k (S w) l.
Proof.
  intros k w l. split.
  - intros (m & Lm & F & E). destruct m as [|m]; [discriminate|]. rewrite found_cons in F. exists m. split; [lia|].
    split; [exact F|]. intros j c Lj. rewrite <- (attempt_cons TMissed). apply E. lia.
  - intros (m & Lm & F & E). exists (S m). rewrite found_cons. split; [lia|]. split; [exact F|]. intros [|j] c Lj; [easy|]. apply E. lia.
Qed.
Lemma all_found : forall k w l, (forall c, attempt l 0 <> TError c) -> attempt l 0 <> TMissed ->
  finds_all (S k) (S w) l <-> finds_all k w (tl l).
Proof.
  intros k w l N M.
  assert (F1 : forall m, found l (S m) = S (found (tl l) m)).
  { intros m. destruct l as [|a l]; [now rewrite !found_nil|]. rewrite found_cons. cbn [tl]. cbn in N, M. destruct a; auto; [easy|]. now destruct (N c). }
  assert (A1 : forall j, attempt l (S j) = attempt (tl l) j).
  { intros j. destruct l; auto. now destruct j. }
  split.
  - intros (m & Lm & F & E). destruct m as [|m]; [discriminate|]. rewrite F1 in F. exists m. split; [lia|]. split; [lia|].
    intros j c Lj. rewrite <- A1. apply E. lia.
  - intros (m & Lm & F & E). exists (S m). rewrite F1. split; [lia|]. split; [lia|]. intros [|j] c Lj; [auto|]. rewrite A1. apply E. lia.
Qed.
Lemma all_error : forall k w c l, ~ finds_all k (S w) (TError c :: l).
Proof.
  intros k w c l (m & Lm & F & E). destruct m as [|m]; [discriminate|]. apply (E O c); [lia|reflexivity].
Qed.

Lemma jd_samples : forall (P : Prop) cs os n want l cur arr s, (P -> s_mem s0 = []) -> live s0 cs os -> o_type os = T_CONFIGURATION_SPACE ->
  errors l -> (length arr <= want)%nat -> grows s0 (size s0) s ->
  (P -> finds_all n (want - length arr) l) ->
  jd False (samples_loop cs n want cur arr l) s
     (fun r _ => (fst r = CCS_RESULT_SUCCESS -> finds_all n (want - length arr) l) /\ (fst r <> CCS_RESULT_SUCCESS -> ~ P)).
Proof.
  intros P cs os n want. induction n as [|n IH]; intros l cur arr s PM L T Er Le G H; cbn [samples_loop].
  - destruct (Nat.ltb_spec (length arr) want) as [Lt|Ge]; apply jd_ret; cbn [fst].
    + split; [discriminate|]. intros _ p. destruct (H p) as (m & Lm & F & _). assert (m = O) by lia. subst. rewrite found_0 in F. lia.
    + split; [|easy]. intros _. exists O. split; [lia|]. rewrite found_0. split; [lia|]. lia.
  - destruct (Nat.ltb_spec (length arr) want) as [Lt|Ge].
    2: { apply jd_ret. cbn [fst]. split; [|easy]. intros _. exists O. split; [lia|]. rewrite found_0. split; [lia|]. lia. }
    assert (W : exists w, (want - length arr)%nat = S w) by (exists (pred (want - length arr)); lia). destruct W as (w & W).
    assert (J : match (match cur with Some c => Done c s | None => create_configuration (Some cs) (VNull 0) s end) with
                | Done _ s1 => grows s0 (size s0) s1 | Fail c _ => c <> CCS_RESULT_SUCCESS /\ ~ P | Undef _ => True end).
    { destruct cur; [exact G|].
      assert (JC : jd P (create_configuration (Some cs) (VNull 0)) s (fun _ s1 => grows s0 (size s0) s1)).
      { unfold create_configuration. apply jd_bind. apply (jd_check s0 (size s0)); [eexists; eauto|auto|easy| |].
        - intros h o [= <-] L' N'. assert (o = os) by (eapply live_fun; eauto). congruence.
        - intros h o [= <-] L' _. apply jd_bind. eapply jd_number; [exact L'|exact G|]. apply jd_bind. cbn [check_values].
          apply jd_refute; [discriminate|discriminate|intros _]. apply jd_bind. apply (jd_alloc s0 (size s0)); auto. intros s1 G1 _.
          apply jd_bind. apply (jd_retain s0 (size s0)); [eexists; eauto|auto|]. intros s2 G2. apply jd_bind. apply jd_ret.
          apply (jd_new s0 (size s0)); auto. }
      unfold jd in JC. destruct (create_configuration (Some cs) (VNull 0) s); auto. }
    unfold jd. destruct (match cur with Some c => Done c s | None => create_configuration (Some cs) (VNull 0) s end) as [config s1|c s1|wh];
      [|cbn [fst]; split; [tauto|intros _; apply J]|exact Logic.I].
    assert (Et : errors (tl l)) by (intros c I; apply Er; destruct l; [easy|now right]).
    assert (Fo : (forall c, attempt l 0 <> TError c) -> attempt l 0 <> TMissed ->
      jd False (samples_loop cs n want None (arr ++ [config]) (tl l)) s1
        (fun r _ => (fst r = CCS_RESULT_SUCCESS -> finds_all (S n) (want - length arr) l) /\ (fst r <> CCS_RESULT_SUCCESS -> ~ P))).
    { intros N1 N2. assert (Ln : (want - length (arr ++ [config]))%nat = w) by (rewrite app_length; cbn; lia).
      eapply jd_conseq; [apply IH; auto|].
      - rewrite app_length. cbn. lia.
      - rewrite Ln. intros p. apply (proj1 (all_found n w l N1 N2)). rewrite <- W. auto.
      - rewrite Ln, W. intros r _ (A & B). split; [|exact B]. intros E. apply (proj2 (all_found n w l N1 N2)). auto. }
    destruct l as [|[| |c] l].
    + apply Fo; easy.
    + apply Fo; easy.
    + eapply jd_conseq; [apply IH; auto|].
      * rewrite W in *. intros p. apply all_missed. auto.
      * rewrite W. intros r _ (A & B). split; [|exact B]. intros E. apply all_missed. auto.
    + assert (Nz : c <> CCS_RESULT_SUCCESS) by (specialize (Er c (or_introl eq_refl)); unfold CCS_RESULT_SUCCESS; lia).
      apply jd_bind. apply jd_drop. intros s2. apply jd_ret. cbn [fst]. split; [tauto|]. intros _ p.
      specialize (H p). rewrite W in H. now apply all_error in H.
Qed.

Lemma jd_tell : forall o t h l s, grows s0 h s -> Forall (fun e => valid s0 (fst e)) l ->
  (~ evaluations s0 t l -> ~ fine o) -> (t = T_TUNER \/ t = T_TREE_TUNER \/ t = T_FEATURES_TUNER) ->
  jd (fine o) (tell_loop (evaluation_type t) h l) s (fun _ _ => evaluations s0 t l).
Proof.
  intros o t h l s G V N Ht. revert s G V N. induction l as [|[x good] l IH]; intros s G V N; cbn [tell_loop].
  - apply jd_ret. intros e [].
  - apply Forall_cons_iff in V as [Vx V]. cbn [fst] in Vx. apply jd_bind. apply (jd_check s0 h); auto.
    + intros ->. apply N. intros E. destruct (E _ (or_introl eq_refl)) as (k & K & _). discriminate.
    + intros y oy -> L T. apply N. intros E. destruct (E _ (or_introl eq_refl)) as (k & K & Kk). cbn in K. injection K as <-.
      rewrite (kind_live _ _ _ L) in Kk. injection Kk as Kk. apply T. rewrite Kk. reflexivity.
    + intros y oy -> L T. apply jd_bind.
      assert (R : forall s1, grows s0 h s1 -> jd (fine o) (tell_loop (evaluation_type t) h l) s1 (fun _ _ => evaluations s0 t ((Some y, good) :: l))).
      { intros s1 G1. eapply jd_conseq; [apply IH; auto|].
        - intros E. apply N. intros E'. apply E. intros e I. apply E'. now right.
        - intros a s2 E e [<-|I]; [|auto]. exists y. split; auto. rewrite (kind_live _ _ _ L), T. reflexivity. }
      destruct good; [|apply jd_ret; auto]. apply jd_bind.
      assert (J : jd True (retain (Some y)) s (fun _ s1 => grows s0 h s1)).
      { apply (jd_retain s0 h); [now exists oy|auto|auto]. }
      unfold jd in J |- * at 1. unfold ignore. destruct (retain (Some y) s) as [[] s1|c s1|w]; [|tauto|exact Logic.I].
      apply jd_bind. apply jd_get_any. intros p. destruct (remember p y); [|apply jd_undef]. apply (jd_set s0 h); auto.
Qed.

Lemma set_rng_release : forall h o tmp s, live s0 h o -> o_type o <> T_RNG -> In (tmp, T_RNG) (wants (o_type o) (o_data o)) ->
  grows s0 h s -> exists ot, look s tmp = Some ot /\ 0 < o_ref ot /\ o_data ot = PPlain.
Proof.
  intros h o tmp s L T I G. destruct (proj2 O0 h o L) as (_ & _ & W). destruct (W _ _ I) as (ot & Lt & Tt).
  destruct (g_live _ _ _ G tmp ot Lt) as (r & p & Pr & Lk & D). eexists. split; [exact Lk|]. split; auto. cbn. rewrite D.
  - eapply plain_rng; eauto.
  - intros ->. assert (ot = o) by (eapply live_fun; eauto). congruence.
Qed.

Ltac own1 H := apply (mine_own e0 app Has) in H.
Ltac vals v h :=
  match goal with L : live s0 h ?ob |- _ =>
    apply jd_bind; eapply jd_number; [exact L|eassumption|]; apply jd_bind; eapply jd_values; [exact L| |]
  end.

Ltac bad := let N := fresh "N" in intros N; no; match goal with K : forall h, _ = Some h -> values_for _ _ _ |- _ => apply N, K; reflexivity end.
Ltac good h :=
  apply (jd_validate _ h); [bad|intros Vv]; stp; yes;
  match goal with |- forall k, _ = Some k -> _ =>
    let k := fresh in intros k [= <-]; match goal with |- values_for _ _ ?v => destruct v; cbn in *; auto end end.
Lemma grows_any : forall c s, grows s0 (size s0) s -> grows s0 c s.
Proof.
  intros c s [gm gs gl]. constructor; auto. intros h o L. destruct (gl h o L) as (r & p & Pr & Lk & D).
  exists r, p. split; auto. split; auto. intros _. apply D. intros ->. destruct L as [L _]. apply look_lt in L. lia.
Qed.
Ltac got :=
  match goal with
  | G : grows s0 (size s0) ?s, L : live s0 ?h ?o |- jd _ (get_data ?h) ?s _ =>
      eapply (jd_get s0 (size s0)); [exact L|exact G|
        let E := fresh in intros E; rewrite E in L; destruct L as [L _]; apply look_lt in L; lia|]
  end.
Lemma call_accepts : forall o, allowed s0 app o -> jd (fine o) (call o) s0 (says o).
Proof.
  intros o Al. destruct o; cbn [allowed] in Al; cbn [call].
  - (* retain *) apply jd_act. destruct x as [h|]; [|apply jd_raise; [discriminate|no]]. destruct Al as (ob & L).
    eapply jd_retain with (s0 := s0) (c := size s0); [eexists; exact L|apply grows_refl|]. intros _ _. cbn. discriminate.
  - (* release *) apply jd_act. pose proof (release_call_ok s0 e0 O0 x (mine_own e0 app Has x Al)) as W. unfold wp in W. unfold jd.
    destruct (release x s0) as [r s1|c s1|w]; [| |exact Logic.I].
    + destruct W as ((h & -> & _) & C). destruct (C h eq_refl) as (ob & L & [(_ & C')|(C' & _)]); [|unfold CCS_RESULT_SUCCESS in C'; lia].
      exists h. split; auto. intros p Dp Fp Dm. rewrite (data_live _ _ _ L) in Dp. injection Dp as <-. rewrite (C' Dm) in Fp. discriminate.
    + assert (N : c < 0) by (destruct W as [((N & _) & _)|(_ & N & _)]; exact N).
      split; [unfold CCS_RESULT_SUCCESS; lia|]. intros (_ & h & -> & A). destruct W as [(_ & [=])|(_ & _ & C)].
      destruct (C h eq_refl) as (ob & L & [(C' & _)|(_ & Dm & (cs & os & fs & rng & t & D))]); [unfold CCS_RESULT_SUCCESS in C'; lia|].
      apply (A (o_data ob)); auto; [now apply data_live|]. apply Z.ltb_lt in N. destruct D as [D|[D|D]]; rewrite D; cbn; exact N.
  - (* callback *) apply jd_act. destruct x as [h|]; cbn [set_destroy_callback]; [|apply jd_raise; [discriminate|no]].
    destruct Al as (ob & L). apply jd_bind. apply jd_refute; [discriminate| |]; intros E.
    { apply Z.eqb_eq in E. no. }
    apply jd_bind. unfold jd at 1. rewrite (deref_look _ _ _ (proj1 L)). unfold jd, store. cbn. split; [easy|]. intros ->. discriminate.
  - apply jd_give. start_. stp. yes.
  - apply jd_give. start_. unfold create_map. stp. stp. stp. exact Logic.I.
  - apply jd_give. start_. unfold create_context. stp. stp. stp. exact Logic.I.
  - apply jd_give. start_. unfold create_configuration_space. stp. stp. stp. stp. stp. exact Logic.I.
  - (* multivariate *) apply jd_give. start_. unfold create_multivariate. stp. apply jd_refute; [discriminate| |]; intros E.
    { destruct l; [|discriminate]. no. }
    assert (Nl : l <> []) by (intros ->; discriminate).
    stp. apply jd_objs; auto. { intros N. no. } intros ds A F. stp. stp. stp. apply jd_each; auto. intros s9 G9. stp. yes.
  - (* mixture *) apply jd_give. start_. unfold create_mixture. stp. apply jd_refute; [discriminate| |]; intros E.
    { destruct l; [|discriminate]. no. }
    assert (Nl : l <> []) by (intros ->; discriminate).
    stp. apply jd_objs; auto. { intros N. no. } intros ds A F. repeat stp. apply jd_each; auto. intros s9 G9. stp. yes.
  - (* variable *) apply jd_give. start_. unfold create_variable. repeat stp. fin.
  - (* expression *) apply jd_give. start_. unfold create_expression. stp. stp. stp. apply jd_check_nodes; auto. { intros N. no. }
    intros A. stp. stp. stp. apply jd_nodes; auto. intros m s9 G9. stp. yes.
  - (* configuration *) apply jd_give. start_. apply jd_configuration; auto.
    + intros N (_ & K). exact (N K).
    + intros h s1 A Vf _. split; auto.
  - (* features *) apply jd_give. start_. unfold create_features. stp. stp. vals v h. { bad. } intros Cv. repeat stp.
    good h. 
  - apply jd_give. start_. destruct Al. unfold create_evaluation. stp. stp. stp. stp. vals v h. { bad. } intros Cv. repeat stp.
    good h. 
  - apply jd_give. start_. destruct Al. unfold create_tree_evaluation. stp. stp. stp. stp. vals v h. { bad. } intros Cv. repeat stp.
    good h. 
  - apply jd_give. start_. destruct Al as (? & ? & ?). unfold create_features_evaluation. stp. stp. stp. stp. stp. stp. vals v h. { bad. } intros Cv. repeat stp.
    good h. 
  - apply jd_give. start_. unfold create_tree_configuration. repeat stp. fin.
  - apply jd_give. start_. destruct Al. unfold create_random_tuner. repeat stp. fin.
  - apply jd_give. start_. destruct Al. unfold create_random_tree_tuner. repeat stp. fin.
  - apply jd_give. start_. destruct Al as (? & ? & ?). unfold create_random_features_tuner. repeat stp. fin.
  - apply jd_give. start_. destruct Al. unfold create_user_tuner. repeat stp. fin.
  - apply jd_give. start_. destruct Al. unfold create_user_tree_tuner. repeat stp. fin.
  - apply jd_give. start_. destruct Al as (? & ? & ?). unfold create_user_features_tuner. repeat stp. fin.
  - apply jd_give. start_. unfold create_tree. repeat stp. fin.
  - apply jd_give. start_. unfold create_static_tree_space. repeat stp. fin.
  - apply jd_give. start_. unfold create_dynamic_tree_space. repeat stp. fin.
  - (* set rng *) apply jd_act. destruct Al as (M & V). own1 M. apply (own_valid s0 e0 O0) in M.
    start_. unfold space_set_rng. repeat stp. got. destruct (o_data o) eqn:D; try apply jd_undef.
    stp. apply (jd_set s0 h); [apply grows_any; auto|]. intros s2 G2.
    destruct (set_rng_release h o rng s2) as (ot & Lt & Pt & Dt); auto; [rewrite H1; discriminate| |].
    { rewrite D. apply wants_space. intuition. }
    eapply jd_release; eauto. intros s3. fin.
  - apply jd_act. destruct Al as (M & V). own1 M. apply (own_valid s0 e0 O0) in M.
    start_. unfold tree_space_set_rng. repeat stp. got. destruct (o_data o) eqn:D; try apply jd_undef.
    + stp. apply (jd_set s0 h); [apply grows_any; auto|]. intros s2 G2.
      destruct (set_rng_release h o rng s2) as (ot & Lt & Pt & Dt); auto; [rewrite H1; discriminate| |].
      { rewrite D. now left. }
      eapply jd_release; eauto. intros s3. fin.
    + stp. apply (jd_set s0 h); [apply grows_any; auto|]. intros s2 G2.
      destruct (set_rng_release h o rng s2) as (ot & Lt & Pt & Dt); auto; [rewrite H1; discriminate| |].
      { rewrite D. now left. }
      eapply jd_release; eauto. intros s3. fin.
  - (* add parameter *) apply jd_act. destruct Al as (M & V & Vd). own1 M. apply (own_valid s0 e0 O0) in M.
    start_. unfold space_add_parameter. repeat stp. destruct d as [d|].
    + repeat stp. got. destruct (o_data o); try apply jd_undef. apply jd_set_any. intros. fin. destruct dim1; [auto|discriminate].
    + repeat stp. got. destruct (o_data o); try apply jd_undef. apply jd_set_any. intros. fin. 
  - apply jd_act. destruct Al as (M & V). own1 M. apply (own_valid s0 e0 O0) in M.
    start_. unfold context_add_parameter. repeat stp. got. destruct (o_data o); try apply jd_undef. apply jd_set_any. intros. fin.
  - apply jd_act. destruct Al as (M & V). own1 M. apply (own_valid s0 e0 O0) in M.
    start_. unfold add_objective. repeat stp. got. destruct (o_data o); try apply jd_undef. apply jd_set_any. intros. fin.
  - (* condition *) apply jd_act. destruct Al as (M & V). own1 M. apply (own_valid s0 e0 O0) in M.
    start_. unfold set_condition. repeat stp. got. destruct (o_data o) eqn:D; try apply jd_undef.
    assert (Dh : data s0 h = Some (PSpace params clauses dists rng)) by (erewrite data_live by eassumption; congruence).
    destruct (nth_error params i) as [[par [c|]]|] eqn:N.
    + apply jd_raise; [discriminate|]. intros (M0 & _ & _ & _ & (h' & ps & cl & ds & r & p & [= <-] & D' & N')). congruence.
    + repeat stp. apply jd_set_any. intros s2. repeat stp. fin. repeat eexists; eauto.
    + apply jd_raise; [discriminate|]. intros (M0 & _ & _ & _ & (h' & ps & cl & ds & r & p & [= <-] & D' & N')). congruence.
  - (* clause *) apply jd_act. destruct Al as (M & V). own1 M. apply (own_valid s0 e0 O0) in M.
    start_. unfold add_forbidden_clause. repeat stp. unfold get_default_configuration. repeat stp.
    apply jd_configuration; auto.
    { intros N. no. apply N. split; [eapply are_here; eauto|]. intros k _. cbn. lia. }
    intros cf s9 A Vf G9. repeat stp. got. destruct (o_data o1); try apply jd_undef.
    stp. apply jd_set_any. intros s2. apply jd_drop. intros. fin.
  - (* default *) apply jd_give. start_. unfold get_default_configuration. repeat stp.
    apply jd_configuration; auto.
    { intros N. no. apply N. split; [eapply are_here; eauto|]. intros k _. cbn. lia. }
    intros cf s9 A Vf G9. repeat stp. fin.
  - (* sample *) apply jd_give. start_. destruct Al as (V & Er). unfold space_sample. repeat stp.
    apply jd_configuration; auto.
    { intros N. no. apply N. split; [eapply are_here; eauto|]. intros k _. cbn. lia. }
    intros cf s9 A Vf G9. repeat stp. apply jd_sample; auto. { intros N. no. } intros F. repeat stp. fin.
  - (* samples *) start_. destruct Al as (V & Er). unfold space_samples. stp. stp.
    eapply jd_conseq with (Q := fun r _ => (fst r = CCS_RESULT_SUCCESS -> finds_all (100 * want) (want - length (@nil handle)) l) /\
                                   (fst r <> CCS_RESULT_SUCCESS -> ~ fine (OSamples (Some h) want l))).
    + assert (J : jd False (samples_loop h (100 * want) want None [] l) s0 (fun r _ =>
        (fst r = CCS_RESULT_SUCCESS -> finds_all (100 * want) (want - length (@nil handle)) l) /\
        (fst r <> CCS_RESULT_SUCCESS -> ~ fine (OSamples (Some h) want l)))).
      { eapply jd_samples; eauto; [apply fine_mem|cbn; lia|]. intros (_ & _ & F). cbn [length]. now rewrite Nat.sub_0_r. }
      unfold jd in J |- *. destruct (samples_loop h (100 * want) want None [] l s0) as [r s1|c s1|w] eqn:E; auto.
      exfalso. clear -E. 
      assert (K : forall n cur arr l s c s1, samples_loop h n want cur arr l s <> Fail c s1).
      { clear. induction n as [|n IH]; intros cur arr l s c s1; cbn [samples_loop]; destruct (length arr <? want)%nat; try discriminate.
        destruct (match cur with Some c => Done c s | None => create_configuration (Some h) (VNull 0) s end); try discriminate.
        destruct l as [|[| |k] l]; try apply IH. unfold bindp, drop, ignore. destruct (release (Some a) s0); discriminate. }
      now apply K in E.
    + cbn [length]. rewrite Nat.sub_0_r. intros r s1 (A & B). split; [|exact B]. intros Sc. split; [eapply are_here; eauto|auto].
  - (* distribution *) apply jd_act. destruct Al as (M & V & Ne & Mm). own1 M. apply (own_valid s0 e0 O0) in M.
    start_. unfold set_distribution. repeat stp. got. destruct (o_data o) eqn:D; try apply jd_undef.
    assert (Dh : data s0 h = Some (PSpace params clauses dists rng)) by (erewrite data_live by eassumption; congruence).
    stp. apply jd_refute; [discriminate| |]; intros E.
    { intros (_ & _ & _ & Nd & B). apply orb_true_iff in E as [E|E]; apply negb_true_iff in E.
      - enough (forallb (fun i => (i <? length params)%nat) idx = true) by congruence. apply forallb_forall. intros i I.
        apply Nat.ltb_lt. specialize (B h i eq_refl I). rewrite Dh in B. exact B.
      - apply distinct_nodup in Nd. congruence. }
    apply orb_false_iff in E as [E1 E2]. rewrite negb_false_iff in E1, E2. rewrite distinct_nodup in E2. rewrite forallb_forall in E1.
    stp. stp. destruct (to_delete dists idx []); [|apply jd_undef]. repeat stp. apply jd_wrappers; auto. intros more s9.
    stp. apply jd_delete. intros s10. stp. apply jd_get_any. intros p. destruct p; try apply jd_undef. apply jd_set_any. intros. fin.
    intros k i [= <-] I. rewrite Dh. cbn. apply Nat.ltb_lt. auto.
  - (* child *) apply jd_act. destruct Al as (M & V). own1 M. apply (own_valid s0 e0 O0) in M.
    start_. unfold tree_set_child. repeat stp. got. destruct (o_data o) eqn:D; try apply jd_undef.
    assert (Dh : data s0 h = Some (PTree children)) by (erewrite data_live by eassumption; congruence).
    destruct (nth_error children i) as [[ch|]|] eqn:N.
    + apply jd_raise; [discriminate|]. intros (M0 & _ & _ & _ & _ & (h' & ch' & [= <-] & D' & N')). congruence.
    + repeat stp. apply jd_set_any. intros s2. repeat stp. fin. repeat eexists; eauto.
    + apply jd_raise; [discriminate|]. intros (M0 & _ & _ & _ & _ & (h' & ch' & [= <-] & D' & N')). congruence.
  - (* tell *) apply jd_act. destruct Al as (Ht & M & V). own1 M. apply (own_valid s0 e0 O0) in M.
    start_. unfold tuner_tell. repeat stp. got.
    assert (Dh : data s0 h = Some (o_data o)) by (erewrite data_live by eassumption; congruence).
    assert (Ud : user_defined (o_data o) = match user_del (o_data o) with Some _ => true | None => false end).
    { destruct (proj2 O0 h o) as (Ft & _); auto. destruct (o_data o); auto. cbn in Ft. 
      exfalso. clear -Ht Ft. rewrite Ft in Ht. compute in Ht. intuition discriminate. }
    destruct (user_del (o_data o)).
    + apply jd_ret. split; [eapply are_here; eauto|]. intros k p [= <-] Dk Uk. congruence.
    + eapply jd_conseq; [apply jd_tell; auto|].
      * apply grows_any; auto.
      * intros N (_ & _ & K). apply N. eapply K; eauto.
      * intros ? s1 Ev. split; [eapply are_here; eauto|]. auto.
  - (* map set *) apply jd_act. destruct Al as (M & Vk & Vv). own1 M. apply (own_valid s0 e0 O0) in M.
    start_. unfold map_set. stp. stp. unfold map_entries at 1. stp. stp. got. destruct (o_data o) eqn:D; try apply jd_undef. stp.
    rename entries into es.
    assert (Dh : data s0 h = Some (PMap es)) by (erewrite data_live by eassumption; congruence).
    set (old := find (fun e => e_key e =? k) es).
    assert (Re : ~ (same = true /\ exists h' l a, Some h = Some h' /\ data s0 h' = Some (PMap l) /\ In a l /\ e_key a = k) ->
      jd (fine (OMapSet (Some h) k kd vd same))
         (ko <~ hold kd ;; vo <~ orelse (hold vd) (odrop ko) ;; orelse alloc (odrop vo ;;; odrop ko) ;;;
          (match old with Some e => map_remove h e | None => ret tt end) ;;;
          l2 <~ map_entries h ;; set_data h (PMap (l2 ++ [mkEntry k ko vo]))) s0
         (fun _ _ => accepted s0 e0 (OMapSet (Some h) k kd vd same))).
    { intros Nl.
      assert (Hd : forall d s (Q : option handle -> st -> Prop), valid_datum s0 d -> grows s0 (size s0) s ->
        (d = MObject None -> ~ fine (OMapSet (Some h) k kd vd same)) ->
        (forall x s', d <> MObject None -> grows s0 (size s0) s' -> Q x s') ->
        jd (fine (OMapSet (Some h) k kd vd same)) (hold d) s Q).
      { intros [[y|]|] s Q Vd Gs N H; cbn [hold].
        - stp. apply (jd_retain s0 (size s0)); auto. intros s' G'. stp. apply H; auto. discriminate.
        - stp. apply jd_raise; [discriminate|auto].
        - stp. apply H; auto. discriminate. }
      stp. apply Hd; auto. { intros E (_ & _ & [K|(K & _)]); contradiction. } intros ko s1 Nk G1.
      stp. stp. apply Hd; auto. { intros E (_ & _ & [K|(_ & K)]); contradiction. } intros vo s2 Nv G2.
      stp. stp. stp.
      assert (Z1 : forall P p s (Q : unit -> st -> Prop), (forall x s', Q x s') ->
                     jd P (bindp (map_entries h) (fun l2 => set_data h (p l2))) s Q).
      { intros P p s' Q HQ. apply jd_bind. unfold map_entries. apply jd_bind. apply jd_get_any. intros [] ; try apply jd_undef.
        apply jd_ret. apply jd_set_any. auto. }
      assert (Fi : accepted s0 e0 (OMapSet (Some h) k kd vd same)) by (split; [eapply are_here; eauto|right; auto]).
      apply jd_bind. destruct old as [a|]; [|apply jd_ret; apply Z1; auto].
      unfold map_remove. stp. unfold map_entries. stp. apply jd_get_any. intros [] ; try apply jd_undef.
      apply jd_ret. stp. apply jd_set_any. intros s4. 
      assert (Od : forall P x s (Q : unit -> st -> Prop), (forall s', Q tt s') -> jd P (odrop x) s Q).
      { intros P [y|] s5 Q HQ; [apply jd_drop; auto|apply jd_ret; auto]. }
      stp. apply Od. intros s5. apply Od. intros s6. apply Z1. auto. }
    destruct old as [a|] eqn:Fd; [destruct same|].
    + apply find_some in Fd as [I Ek]. apply Z.eqb_eq in Ek. apply jd_ret. split; [eapply are_here; eauto|]. left. split; auto. eauto 8.
    + apply Re. intros ([=] & _).
    + apply Re. intros (_ & h' & l & a & [= <-] & Da & I & Ek). rewrite Dh in Da. injection Da as <-.
      pose proof (find_none _ _ Fd a I) as X. cbn in X. apply Z.eqb_neq in X. auto.
  - (* map del *) apply jd_act. own1 Al. apply (own_valid s0 e0 O0) in Al.
    start_. unfold map_del. stp. destruct x as [h|]; [|apply jd_raise; [discriminate|intros (_ & h & l & a & [=] & _)]].
    apply (jd_check s0 (size s0)); [auto|auto|easy| |].
    { intros h' o [= <-] L T (_ & h2 & l & a & [= <-] & Da & _). rewrite (data_live _ _ _ L) in Da. injection Da as Da.
      destruct (proj2 O0 h o L) as (Ft & _). rewrite Da in Ft. auto. }
    intros h' o [= <-] L T. stp. unfold map_entries at 1. stp. got. destruct (o_data o) eqn:D; try apply jd_undef. stp.
    rename entries into es.
    assert (Dh : data s0 h = Some (PMap es)) by (erewrite data_live by eassumption; congruence).
    destruct (find (fun e => e_key e =? k) es) as [a|] eqn:Fd.
    + apply find_some in Fd as [I Ek]. apply Z.eqb_eq in Ek. unfold map_remove, map_entries. stp. stp.
      apply jd_get_any. intros []; try apply jd_undef. apply jd_ret. stp. apply jd_set_any. intros s4.
      assert (Od : forall P x s (Q : unit -> st -> Prop), (forall s', Q tt s') -> jd P (odrop x) s Q).
      { intros P [y|] s5 Q HQ; [apply jd_drop; auto|apply jd_ret; auto]. }
      stp. apply Od. intros s5. apply Od. intros s6. cbn. eauto 8.
    + apply jd_raise; [discriminate|]. intros (_ & h' & l & a & [= <-] & Da & I & Ek). rewrite Dh in Da. injection Da as <-.
      pose proof (find_none _ _ Fd a I) as X. cbn in X. apply Z.eqb_neq in X. auto.
Qed.
End Calls.
