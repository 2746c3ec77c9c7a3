(** Each operation on trees: what it changes, and that the invariant is kept. *)
From Coq Require Import ZArith List Bool Lia ZifyBool Arith.
From Verif Require Import Base Datum CodecModel FloatModel FloatSpec FloatProofs FloatRound IntervalSpec DistModel DistSpec DistRoulette CmpSpec TreeModel TreeSpec TreeHeap TreeProofs.
Import ListNotations.
Open Scope Z_scope.

Lemma seen_of h x n : node_at h x = Some n -> seen h x = Some (view_of n).
Proof. intro E. apply seen_node. eauto. Qed.
Lemma links_of_views h h' t v v' : (forall x, seen h' x = changed (seen h) t (Some v') x) -> seen h t = Some v ->
  v_arity v' = v_arity v -> v_children v' = v_children v -> v_parent v' = v_parent v -> same_links h h'.
Proof.
  intros V E A B C x. rewrite V. unfold changed. destruct (Nat.eqb_spec x t) as [->|]; [|reflexivity]. rewrite E. cbn. congruence.
Qed.

(** ** Weights *)
Lemma update_weight_ok h t n i w : forest h -> shapes h -> sums_but h (fun _ => False) -> slots_but h (fun x k => x = t /\ k = i) ->
  node_at h t = Some n -> (i <= n_arity n)%nat -> in_range w ->
  ((i < n_arity n)%nat -> same_num w (expected h (nth i (n_children n) None))) ->
  exists h', update_weight h t i w = Ok h' /\ length h' = length h /\ inv h' /\
    forall x, seen h' x = changed (seen h) t
      (Some (if Nat.eqb i (n_arity n)
             then v_with_weight (view_of n) (if feq w (nth (n_arity n) (n_weights n) 0) then nth (n_arity n) (n_weights n) 0 else w)
             else view_of n)) x.
Proof.
  intros F SH SU SL E I W X. unfold update_weight. rewrite (read_node _ _ _ E). cbn [bind].
  destruct (Nat.ltb_spec (n_arity n) i) as [Q|_]; [lia|]. cbn [refute bind].
  destruct (feq w (nth i (n_weights n) 0)) eqn:FE.
  - exists h. split; [reflexivity|]. split; [reflexivity|]. split.
    + split; [exact F|]. split; [exact SH|]. split; [exact SU|]. intros x m k Em K _.
      destruct (Nat.eq_dec x t) as [->|NX]; [|apply (SL x m k Em K); intros [Q _]; contradiction].
      destruct (Nat.eq_dec k i) as [->|NK]; [|apply (SL t m k Em K); intros [_ Q]; contradiction].
      rewrite E in Em. injection Em as <-. unfold same_num. etransitivity; [|apply X; exact K].
      apply feq_key in FE. destruct (fkey w), (fkey (nth i (n_weights n) 0)); cbn in FE; try contradiction. now subst.
    + intro x. unfold changed. destruct (Nat.eqb_spec x t) as [->|]; [|reflexivity]. rewrite (seen_of _ _ _ E).
      destruct (Nat.eqb_spec i (n_arity n)) as [->|]; [|reflexivity]. rewrite FE. reflexivity.
  - destruct (seen_rooted _ _ _ F E) as [d R].
    destruct (update_loop_ok d h t n i w (S (length h)) R) as (h' & U & L & IV & V); auto.
    + pose proof (rooted_len _ _ _ R). lia.
    + intros x m Em _. now apply (SU x).
    + exists h'. split; [exact U|]. split; [exact L|]. split; [exact IV|]. intro x. rewrite V.
      destruct (Nat.eqb_spec i (n_arity n)) as [->|]; [|reflexivity]. now rewrite FE.
Qed.
Lemma not_negative_range w : pattern w -> flt w 0 = false -> in_range w.
Proof. intros P N. split; [exact P|]. rewrite <- flt_key. congruence. Qed.
Lemma keq_comm a b : keq a b <-> keq b a.
Proof. destruct a, b; cbn; intuition congruence. Qed.
Lemma replaced_feq old new : replaced old new (if feq new old then old else new).
Proof.
  unfold replaced. rewrite keq_comm, <- feq_key. destruct (feq new old); [left|right]; auto.
Qed.
Lemma none_bad h : slots_but h (fun _ _ => False) -> forall bad, slots_but h bad.
Proof. intros S bad x n k E K _. now apply (S x n k). Qed.

Lemma set_weight_ok h t n w : inv h -> node_at h t = Some n -> pattern w ->
  (negative w /\ set_weight h t w = Err ERR_INVALID_VALUE) \/
  (~ negative w /\ exists h' w', set_weight h t w = Ok h' /\ length h' = length h /\ inv h' /\ replaced (v_weight (view_of n)) w w' /\
     forall x, seen h' x = changed (seen h) t (Some (v_with_weight (view_of n) w')) x).
Proof.
  intros (F & SH & SU & SL) E P. unfold set_weight, negative. rewrite (read_node _ _ _ E). cbn [bind]. rewrite <- flt_key.
  destruct (flt w 0) eqn:N; cbn [refute bind]; [left; auto|right]. split; [congruence|].
  destruct (update_weight_ok h t n (n_arity n) w F SH SU (none_bad _ SL _) E) as (h' & U & L & IV & V); [lia|now apply not_negative_range|lia|].
  exists h'. eexists. split; [exact U|]. split; [exact L|]. split; [exact IV|]. rewrite Nat.eqb_refl in V. split; [|exact V]. apply replaced_feq.
Qed.

(** ** Biases *)
Lemma set_bias_ok h t n b : inv h -> node_at h t = Some n -> pattern b ->
  (negative b /\ set_bias h t b = Err ERR_INVALID_VALUE) \/
  (~ negative b /\ exists h' b', set_bias h t b = Ok h' /\ length h' = length h /\ inv h' /\ replaced (v_bias (view_of n)) b b' /\
     forall x, seen h' x = changed (seen h) t (Some (v_with_bias (view_of n) b')) x).
Proof.
  intros (F & SH & SU & SL) E P. unfold set_bias, negative. rewrite (read_node _ _ _ E). cbn [bind]. rewrite <- flt_key.
  destruct (flt b 0) eqn:N; cbn [refute bind]; [left; auto|right]. split; [congruence|].
  unfold update_bias. rewrite (read_node _ _ _ E). cbn [bind]. pose proof (replaced_feq (n_bias n) b) as RP.
  destruct (feq b (n_bias n)) eqn:FE.
  - exists h, (n_bias n). split; [reflexivity|]. split; [reflexivity|]. split; [exact (conj F (conj SH (conj SU SL)))|]. split; [exact RP|].
    intro x. unfold changed. destruct (Nat.eqb_spec x t) as [->|]; [|reflexivity]. rewrite (seen_of _ _ _ E). reflexivity.
  - pose proof (node_len _ _ _ E) as LT. set (n' := with_bias n b).
    assert (LK : same_links h (write h t n')) by (eapply seen_links; eauto). pose proof (forest_links _ _ LK F) as F'.
    assert (SH' : shapes (write h t n')).
    { intros x m Em. rewrite node_write in Em by auto. destruct (Nat.eqb_spec x t); [injection Em as <-|now apply (SH x)].
      destruct (SH t n E) as (A & B & C & D & _ & LA). exact (conj A (conj B (conj C (conj D (conj (not_negative_range _ P N) LA))))). }
    assert (SU' : sums_but (write h t n') (fun _ => False)).
    { intros x m Em _. rewrite node_write in Em by auto. destruct (Nat.eqb_spec x t); [injection Em as <-; exact (SU t n E (fun X => X))|now apply (SU x)]. }
    assert (SL' : forall x m k, node_at (write h t n') x = Some m -> (k < n_arity m)%nat -> nth k (n_children m) None <> Some t ->
      same_num (nth k (n_weights m) 0) (expected (write h t n') (nth k (n_children m) None))).
    { intros x m k Em K NT. rewrite expected_write by auto. rewrite node_write in Em by auto.
      destruct (Nat.eqb_spec x t) as [->|NX]; [injection Em as <-; exact (SL t n k E K (fun X => X))|now apply (SL x m k)]. }
    destruct (n_parent n) as [p|] eqn:PN.
    + pose proof (not_own_parent _ _ _ F E) as NP. rewrite PN in NP. destruct (parent_slot _ _ _ _ F E PN) as (m & Em & Cm & Km).
      assert (Em' : node_at (write h t n') p = Some m) by (rewrite node_write by auto; destruct (Nat.eqb_spec p t); [congruence|exact Em]).
      destruct (update_weight_ok (write h t n') p m (n_index n) (fmul (n_sum n) b) F' SH' SU') as (h' & U & L & IV & V); auto.
      * intros x k kk Ex K NB. eapply SL'; [exact Ex|exact K|]. intro Q. destruct (child_slot _ _ _ _ _ F' Ex Q) as (m' & Et & Pm & Im).
        rewrite node_write, Nat.eqb_refl in Et by auto. injection Et as <-. unfold n' in Pm, Im. cbn in Pm, Im. apply NB. split; congruence.
      * lia.
      * apply mul_in_range; [|now apply not_negative_range]. rewrite (proj1 (SU t n E (fun X => X))). apply total_in_range. apply (SH t n E).
      * intros _. rewrite nth_nth_error, Cm. cbn. rewrite node_write, Nat.eqb_refl by auto. reflexivity.
      * exists h', b. split; [exact U|]. split; [rewrite L; apply write_length|]. split; [exact IV|]. split; [exact RP|].
        intro x. rewrite V. destruct (Nat.eqb_spec (n_index n) (n_arity m)) as [Q|_]; [lia|]. unfold changed. destruct (Nat.eqb_spec x p) as [->|NXP].
        -- destruct (Nat.eqb_spec p t); [congruence|]. now rewrite (seen_of _ _ _ Em).
        -- rewrite seen_write by auto. reflexivity.
    + exists (write h t n'), b. split; [reflexivity|]. split; [apply write_length|]. split.
      * split; [exact F'|]. split; [exact SH'|]. split; [exact SU'|]. intros x m k Em K _. eapply SL'; [exact Em|exact K|]. intro Q.
        destruct (child_slot _ _ _ _ _ F' Em Q) as (m' & Em' & Pm & _). rewrite node_write, Nat.eqb_refl in Em' by auto. injection Em' as <-. unfold n' in Pm. cbn in Pm. congruence.
      * split; [exact RP|]. intro x. rewrite seen_write by auto. reflexivity.
Qed.

(** ** Children *)
Lemma attach_forest h h' t c i v u l : forest h -> ~ under h c t ->
  seen h t = Some v -> seen h c = Some u -> v_parent u = None -> nth_error (v_children v) i = Some None -> put_at (v_children v) i (Some c) l ->
  (forall x, seen h' x = changed (changed (seen h) t (Some (v_with_children v l))) c (Some (v_with_parent u (Some (t, i)))) x) -> forest h'.
Proof.
  intros F NU Et Ec PU SL (PL & PI & PO) V.
  assert (TC : t <> c) by (intros ->; apply NU; constructor).
  assert (Vc : seen h' c = Some (v_with_parent u (Some (t, i)))) by (rewrite V; unfold changed; now rewrite Nat.eqb_refl).
  assert (Vt : seen h' t = Some (v_with_children v l)) by (rewrite V; unfold changed; destruct (Nat.eqb_spec t c); [congruence|]; now rewrite Nat.eqb_refl).
  assert (Vo : forall x, x <> c -> x <> t -> seen h' x = seen h x).
  { intros x A B. rewrite V. unfold changed. destruct (Nat.eqb_spec x c); [contradiction|]. destruct (Nat.eqb_spec x t); [contradiction|reflexivity]. }
  assert (PAR : forall x w, x <> c -> seen h x = Some w -> exists w', seen h' x = Some w' /\ v_parent w' = v_parent w).
  { intros x w A B. destruct (Nat.eq_dec x t) as [->|NX]; [rewrite Et in B; injection B as <-; exists (v_with_children v l); auto|]. rewrite Vo by auto. eauto. }
  assert (RT : forall x d, rooted h x d -> ~ under h c x -> rooted h' x d).
  { intros x d R. induction R as [x w E P|x w p j d E P R IH]; intro N;
      (assert (x <> c) by (intros ->; apply N; constructor)); destruct (PAR x w H E) as (w' & E' & P').
    - eapply rooted_top; [exact E'|congruence].
    - eapply rooted_step; [exact E'|rewrite P'; exact P|]. apply IH. intro U. apply N. eapply under_step; eauto. }
  assert (RA : forall x d, rooted h x d -> exists d', rooted h' x d').
  { intros x d R. induction R as [x w E P|x w p j d E P R IH].
    - destruct (Nat.eq_dec x c) as [->|NX].
      + destruct (F t v Et) as (_ & _ & _ & d & Rt). exists (S d). eapply rooted_step; [exact Vc|reflexivity|]. now apply RT.
      + destruct (PAR x w NX E) as (w' & E' & P'). exists 0%nat. eapply rooted_top; [exact E'|congruence].
    - assert (NX : x <> c) by (intros ->; congruence). destruct (PAR x w NX E) as (w' & E' & P'). destruct IH as [d' R'].
      exists (S d'). eapply rooted_step; [exact E'|rewrite P'; exact P|exact R']. }
  assert (KIDS : forall x w k d, seen h x = Some w -> nth_error (v_children w) k = Some (Some d) -> exists w', seen h' d = Some w' /\ v_parent w' = Some (x, k)).
  { intros x w k d E N. destruct (F x w E) as (_ & D & _). destruct (D k d N) as (z & Ez & Pz).
    assert (d <> c) by (intros ->; congruence). destruct (PAR d z H Ez) as (z' & Ez' & Pz'). exists z'. split; [exact Ez'|congruence]. }
  intros x w E. destruct (Nat.eq_dec x c) as [->|NC]; [|destruct (Nat.eq_dec x t) as [->|NT]].
  - rewrite Vc in E. injection E as <-. destruct (F c u Ec) as (L & D & _ & d & R). cbn. split; [exact L|]. split; [|split].
    + intros k d0 N. eapply KIDS; eauto.
    + intros p j Q. injection Q as <- <-. exists (v_with_children v l). split; [exact Vt|exact PI].
    + destruct (RA c d R) as [d' R']. eauto.
  - rewrite Vt in E. injection E as <-. destruct (F t v Et) as (L & D & P & d & R). cbn. split; [congruence|]. split; [|split].
    + intros k d0 N. destruct (Nat.eq_dec k i) as [->|NK].
      * rewrite PI in N. injection N as <-. exists (v_with_parent u (Some (t, i))). auto.
      * rewrite PO in N by auto. eapply KIDS; eauto.
    + intros p j Q. destruct (P p j Q) as (z & Ez & Cz). destruct (Nat.eq_dec p c) as [->|NP].
      * rewrite Ec in Ez. injection Ez as <-. exists (v_with_parent u (Some (t, i))). auto.
      * destruct (Nat.eq_dec p t) as [->|NPT]; [|exists z; rewrite Vo by auto; auto].
        rewrite Et in Ez. injection Ez as <-. exists (v_with_children v l). split; [exact Vt|]. cbn. rewrite PO; [exact Cz|]. intros ->. congruence.
    + destruct (RA t d R) as [d' R']. eauto.
  - rewrite Vo in E by auto. destruct (F x w E) as (L & D & P & d & R). split; [exact L|]. split; [|split].
    + intros k d0 N. eapply KIDS; eauto.
    + intros p j Q. destruct (P p j Q) as (z & Ez & Cz). destruct (Nat.eq_dec p c) as [->|NP].
      * rewrite Ec in Ez. injection Ez as <-. exists (v_with_parent u (Some (t, i))). auto.
      * destruct (Nat.eq_dec p t) as [->|NPT]; [|exists z; rewrite Vo by auto; auto].
        rewrite Et in Ez. injection Ez as <-. exists (v_with_children v l). split; [exact Vt|]. cbn. rewrite PO; [exact Cz|]. intros ->. congruence.
    + destruct (RA x d R) as [d' R']. eauto.
Qed.
Lemma put_at_set {A} (l : list A) i x : (i < length l)%nat -> put_at l i x (set_nth l i x).
Proof. intro L. split; [apply set_nth_length|]. split; [now apply set_nth_same|]. intros j J. apply set_nth_other. auto. Qed.

Lemma set_child_ok h t n c m i : inv h -> node_at h t = Some n -> node_at h c = Some m -> ~ under h c t ->
  ((n_arity n <= i)%nat /\ set_child h t i c = Err ERR_OUT_OF_BOUNDS) \/
  (exists d, nth_error (n_children n) i = Some (Some d) /\ set_child h t i c = Err ERR_INVALID_VALUE) \/
  (nth_error (n_children n) i = Some None /\ n_parent m <> None /\ set_child h t i c = Err ERR_INVALID_TREE) \/
  (nth_error (n_children n) i = Some None /\ n_parent m = None /\ exists h', set_child h t i c = Ok h' /\ length h' = length h /\ inv h' /\
     forall x, seen h' x = changed (changed (seen h) t (Some (v_with_children (view_of n) (set_nth (n_children n) i (Some c))))) c
       (Some (v_with_parent (view_of m) (Some (t, i)))) x).
Proof.
  intros (F & SH & SU & SL) Et Ec NU. unfold set_child. rewrite (read_node _ _ _ Et), (read_node _ _ _ Ec). cbn [bind].
  destruct (SH t n Et) as (LC & LW & PIn & RW & RB & LA). destruct (SH c m Ec) as (LCm & LWm & PIm & RWm & RBm & LAm).
  destruct (Nat.leb_spec (n_arity n) i) as [I|I]; cbn [refute bind]; [left; auto|right].
  rewrite nth_nth_error. destruct (nth_error (n_children n) i) as [o|] eqn:NC; [|apply nth_error_None in NC; lia].
  destruct o as [d|]; cbn [is_some refute bind]; [left; eauto|right].
  destruct (n_parent m) as [p|] eqn:PM; cbn [is_some orb refute bind]; [left; repeat split; auto; congruence|right].
  rewrite (PIm eq_refl). cbn [Nat.eqb negb refute bind]. split; [reflexivity|]. split; [reflexivity|].
  assert (TC : t <> c) by (intros ->; apply NU; constructor).
  pose proof (node_len _ _ _ Et) as Lt. pose proof (node_len _ _ _ Ec) as Lc.
  set (h1 := write h c (with_parent m (Some t) i)).
  assert (E1 : node_at h1 t = Some n) by (unfold h1; rewrite node_write by auto; destruct (Nat.eqb_spec t c); [contradiction|exact Et]).
  rewrite (read_node _ _ _ E1). cbn [bind]. set (n2 := with_children n (set_nth (n_children n) i (Some c))).
  set (h2 := write h1 t n2).
  assert (L1 : (t < length h1)%nat) by (eapply node_len; eauto).
  assert (N2 : forall x, node_at h2 x = if Nat.eqb x t then Some n2 else if Nat.eqb x c then Some (with_parent m (Some t) i) else node_at h x).
  { intro x. unfold h2. rewrite node_write by auto. destruct (Nat.eqb x t); [reflexivity|]. unfold h1. now rewrite node_write by auto. }
  assert (V2 : forall x, seen h2 x = changed (changed (seen h) t (Some (v_with_children (view_of n) (set_nth (n_children n) i (Some c))))) c
       (Some (v_with_parent (view_of m) (Some (t, i)))) x).
  { intro x. unfold seen at 1, changed. rewrite N2. destruct (Nat.eqb_spec x t) as [->|]; [destruct (Nat.eqb_spec t c); [contradiction|reflexivity]|].
    now destruct (Nat.eqb_spec x c). }
  assert (F2 : forest h2).
  { eapply (attach_forest h h2 t c i (view_of n) (view_of m)); [exact F|exact NU|now apply seen_of|now apply seen_of|now apply parent_view_none|exact NC| |exact V2].
    apply put_at_set. cbn. lia. }
  assert (SH2 : shapes h2).
  { intros x k Ex. rewrite N2 in Ex. destruct (Nat.eqb_spec x t); [injection Ex as <-; refine (conj _ (conj LW (conj PIn (conj RW (conj RB LA))))); cbn; rewrite set_nth_length; exact LC|].
    destruct (Nat.eqb_spec x c); [injection Ex as <-; refine (conj LCm (conj LWm (conj _ (conj RWm (conj RBm LAm))))); cbn; discriminate|now apply (SH x)]. }
  assert (SU2 : sums_but h2 (fun _ => False)).
  { intros x k Ex _. rewrite N2 in Ex. destruct (Nat.eqb_spec x t); [injection Ex as <-; exact (SU t n Et (fun X => X))|].
    destruct (Nat.eqb_spec x c); [injection Ex as <-; exact (SU c m Ec (fun X => X))|now apply (SU x)]. }
  assert (EX : forall o, expected h2 o = expected h o).
  { intros [o|]; [|reflexivity]. cbn. rewrite N2. destruct (Nat.eqb_spec o t) as [->|]; [now rewrite Et|]. destruct (Nat.eqb_spec o c) as [->|]; [now rewrite Ec|reflexivity]. }
  assert (SL2 : slots_but h2 (fun x k => x = t /\ k = i)).
  { intros x k kk Ex K NB. rewrite EX. rewrite N2 in Ex. destruct (Nat.eqb_spec x t) as [->|NX].
    - injection Ex as <-. unfold n2 in *. cbn in *. rewrite set_nth_nth by lia. destruct (Nat.eqb_spec kk i) as [->|]; [tauto|]. now apply (SL t n kk).
    - destruct (Nat.eqb_spec x c) as [->|]; [injection Ex as <-; exact (SL c m kk Ec K (fun X => X))|now apply (SL x k kk)]. }
  assert (E2 : node_at h2 t = Some n2) by (rewrite N2, Nat.eqb_refl; reflexivity).
  destruct (update_weight_ok h2 t n2 i (fmul (n_sum m) (n_bias m)) F2 SH2 SU2 SL2 E2) as (h' & U & L & IV & V).
  - unfold n2. cbn. lia.
  - apply mul_in_range; [|exact RBm]. rewrite (proj1 (SU c m Ec (fun X => X))). now apply total_in_range.
  - intros _. unfold n2. cbn. rewrite set_nth_nth, Nat.eqb_refl by lia. cbn. rewrite N2. destruct (Nat.eqb_spec c t); [congruence|]. rewrite Nat.eqb_refl. reflexivity.
  - exists h'. split; [exact U|]. split; [rewrite L; unfold h2, h1; now rewrite !write_length|]. split; [exact IV|].
    intro x. rewrite V. unfold n2 at 1. cbn [n_arity with_children]. destruct (Nat.eqb_spec i (n_arity n)); [lia|]. unfold changed at 1. rewrite V2.
    destruct (Nat.eqb_spec x t) as [->|]; [|reflexivity]. unfold changed. destruct (Nat.eqb_spec t c); [contradiction|]. rewrite Nat.eqb_refl. reflexivity.
Qed.
