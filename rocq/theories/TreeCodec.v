(** Serialising and restoring trees. *)
From Coq Require Import ZArith List Bool Lia ZifyBool Arith.
From Verif Require Import Base Datum CodecModel CodecSpec CodecProofs FloatModel FloatSpec FloatProofs FloatRound IntervalSpec DistModel DistSpec CmpSpec ExprCodec TreeModel TreeSpec TreeHeap TreeProofs TreeOps TreeSteps TreeRep TreeCodecSpec.
Import ListNotations.
Open Scope Z_scope.

(** ** What histories leave in nodes *)
Definition kept (v : view) : Prop :=
  good_value (d_val (v_value v)) /\ wf_datum (v_value v) /\ d_flags (v_value v) = FLAG_DEFAULT /\
  match d_val (v_value v) with VString (Some s) => lenZ s <= 2 ^ 40 | _ => True end.
Lemma reached_kept h : reached h -> forall x v, seen h x = Some v -> kept v.
Proof.
  induction 1 as [|h o h' R IH A S]; intros x v E; [destruct x; discriminate|].
  pose proof (proj1 (step_ok h o (reached_inv _ R) A)) as O. rewrite S in O.
  assert (C : forall f t w, (forall u, f t = Some u -> True) -> kept w -> (forall y u, f y = Some u -> kept u) -> forall y u, changed f t (Some w) y = Some u -> kept u).
  { intros f t w _ W F y u. unfold changed. destruct (Nat.eqb y t); [intro Q; injection Q as <-; exact W|apply F]. }
  inversion O as [arity value h1 G L V| |t i c v1 u1 l h1 Et Ec N P PA V L| | | |t w v1 w' h1 Et N P V L| |t w v1 w' h1 Et N P V L| |t ud v1 h1 Et V L|t v1 h1 Et N K Q L]; subst.
  - rewrite V in E. revert x v E. apply C; [auto| |exact IH]. destruct A as (_ & W & SL). unfold kept. cbn. destruct (d_val value) as [| | | |[]| | |] eqn:DV; try contradiction; unfold wf_datum in *; rewrite ?DV in *; cbn; auto.
  - rewrite V in E. revert x v E. apply C; [auto|exact (IH _ _ Ec)|]. apply C; [auto|exact (IH _ _ Et)|exact IH].
  - rewrite V in E. revert x v E. apply C; [auto|exact (IH _ _ Et)|exact IH].
  - rewrite V in E. revert x v E. apply C; [auto|exact (IH _ _ Et)|exact IH].
  - rewrite V in E. revert x v E. apply C; [auto|exact (IH _ _ Et)|exact IH].
  - destruct (Nat.eq_dec x t) as [->|X]; [congruence|].
    assert (D : (exists u i, seen h x = Some u /\ v_parent u = Some (t, i)) \/ (forall u i, seen h x = Some u -> v_parent u <> Some (t, i))).
    { destruct (seen h x) as [u|]; [|right; discriminate]. destruct (v_parent u) as [[p i]|] eqn:P; [|right; intros ? ? Y; injection Y as <-; congruence].
      destruct (Nat.eq_dec p t) as [->|NP]; [left; eauto|right]. intros ? ? Y; injection Y as <-; congruence. }
    destruct D as [(u & i & Eu & Pu)|D].
    + rewrite (K x u i Eu Pu) in E. injection E as <-. exact (IH _ _ Eu).
    + rewrite (Q x X D) in E. exact (IH _ _ E).
Qed.
Lemma good_serialisable v : good_value v -> serialisable v.
Proof. destruct v as [| | | |[]| | |]; cbn; tauto. Qed.
Lemma view_range h x v : inv h -> seen h x = Some v -> in_range (v_weight v) /\ in_range (v_bias v) /\ Z.of_nat (v_arity v) <= 2 ^ 40.
Proof.
  intros (F & SH & _) E. apply seen_node in E as (n & E & ->). destruct (SH x n E) as (LC & LW & PI & RW & RB & LA & AB). cbn. split; [|auto].
  rewrite Forall_forall in RW. apply RW. apply nth_In. lia.
Qed.
Lemma range_unsigned w : in_range w -> in_unsigned 64 w. Proof. intros [P _]. exact P. Qed.
Lemma seen_len h x v : seen h x = Some v -> (x < length h)%nat.
Proof. intro E. apply seen_node in E as (n & E & _). eapply node_len; eauto. Qed.

(** ** Writing *)
Section Write.
  Variables (le : bool) (h : heap).
  Hypothesis R : reached h.
  Hypothesis SB : storable_heap h.
  Lemma written_one : forall k t v d, seen h t = Some v -> rooted h t d -> (length h <= d + k)%nat ->
    exists bs, wire_tree h t bs /\ encodes (ser_tree le k h t) bs /\ size_tree k h t = Ok (lenZ bs).
  Proof.
    pose proof (reached_inv h R) as IV. pose proof IV as (F & SH & _).
    induction k as [|k IH]; intros t v d E RT L; [pose proof (rooted_len _ _ _ RT); lia|].
    destruct SB as [LH UB]. pose proof (seen_len _ _ _ E) as LT. destruct (view_range h t v IV E) as (RW & RB & RA). destruct (reached_kept h R t v E) as (GV & WV & _ & _).
    destruct (leb128_exists (Z.of_nat t)) as [lh Lh]; [lia|]. destruct (leb128_exists (Z.of_nat (v_arity v))) as [la La]; [lia|].
    destruct (wire_datum_exists (d_val (v_value v)) WV (good_serialisable _ GV)) as [vb Vb].
    destruct (leb128_exists (lenZ (ud_bytes (v_ud v)))) as [lu Lu]; [apply lenZ_nonneg|].
    assert (Ub : wire_blob (ud_bytes (v_ud v)) (lu ++ ud_bytes (v_ud v))) by (exists lu; auto).
    assert (K : exists cs, wire_kids h (v_children v) cs /\ encodes (ser_children (ser_tree le k h) (v_children v)) cs /\ size_children (size_tree k h) (v_children v) = Ok (lenZ cs)).
    { assert (KA : forall c, In (Some c) (v_children v) -> exists bs, wire_tree h c bs /\ encodes (ser_tree le k h c) bs /\ size_tree k h c = Ok (lenZ bs)).
      { intros c I. apply In_nth_error in I as [i N]. destruct (F t v E) as (_ & C & _). destruct (C i c N) as (u & Eu & Pu). apply (IH c u (S d) Eu); [eapply rooted_step; eauto|lia]. }
      induction (v_children v) as [|[c|] l IHl].
      - exists []. split; [constructor|]. split; [exact encodes_nil|reflexivity].
      - destruct IHl as (cs & W1 & W2 & W3); [intros c' I; apply KA; now right|]. destruct (KA c (or_introl eq_refl)) as (b & B1 & B2 & B3).
        exists ([1] ++ b ++ cs). split; [now constructor|]. split.
        + cbn [ser_children]. apply (encodes_seq (ser_enum CCS_TRUE)); [apply ser_enum_small; cbv; split; congruence|]. apply (encodes_seq (ser_tree le k h c)); [exact B2|exact W2].
        + cbn [size_children]. rewrite B3, W3. cbn [bind]. rewrite size_enum_small by (cbv; split; congruence). rewrite !lenZ_app. change (lenZ [1]) with 1. f_equal. lia.
      - destruct IHl as (cs & W1 & W2 & W3); [intros c' I; apply KA; now right|].
        exists ([0] ++ cs). split; [now constructor|]. split.
        + cbn [ser_children]. apply (encodes_seq (ser_enum CCS_FALSE)); [apply ser_enum_small; cbv; split; congruence|exact W2].
        + cbn [size_children]. rewrite W3. cbn [bind]. rewrite size_enum_small by (cbv; split; congruence). rewrite !lenZ_app. reflexivity. }
    destruct K as (cs & K1 & K2 & K3). eexists. split; [econstructor; eauto|].
    pose proof (UB t v E) as UL. apply seen_node in E as (n & E & ->). cbn [ser_tree size_tree]. rewrite (read_node _ _ _ E). cbn [bind]. cbn [view_of v_arity v_value v_weight v_bias v_children v_ud] in *.
    assert (HT : in_unsigned 64 (Z.of_nat t)) by (unfold in_unsigned; lia). split.
    - apply encodes_seq; [apply ser_object_internal_encodes; [cbv; split; congruence|exact HT|exact Lh]|].
      apply encodes_seq; [apply ser_uint_encodes; auto using okw64; lia|].
      apply encodes_seq; [apply ser_float_encodes; now apply range_unsigned|].
      apply encodes_seq; [exact K2|].
      apply encodes_seq; [apply ser_float_encodes; now apply range_unsigned|].
      apply encodes_seq; [now apply ser_datum_encodes|]. now apply ser_user_data_encodes.
    - rewrite K3. cbn [bind]. rewrite (size_datum_ok _ _ WV Vb). cbn [bind]. rewrite (size_object_internal_ok 15 _ lh); [|lia|exact HT|exact Lh].
      unfold size_size. rewrite (size_uint_ok 64 _ la); [|now right; right|lia|exact La]. rewrite (size_user_data_ok _ _ UL Ub).
      rewrite !lenZ_app. unfold size_float, size_fixed. f_equal. rewrite !word_lenZ. lia.
  Qed.
End Write.

(** ** Reading *)
Definition strip (v : view) : view := v_with_parent v None.
Definition like (h h' : heap) (x : nat) : Prop := option_map strip (seen h x) = option_map strip (seen h' x).
Lemma like_seen h h' x v : like h h' x -> seen h' x = Some v -> exists u, seen h x = Some u /\
  v_arity u = v_arity v /\ v_value u = v_value v /\ v_weight u = v_weight v /\ v_bias u = v_bias v /\ v_children u = v_children v /\ v_ud u = v_ud v.
Proof.
  unfold like. intros L E. rewrite E in L. destruct (seen h x) as [u|]; [|discriminate]. cbn in L. injection L as L1 L2 L3 L4 L5 L6. exists u. auto 8.
Qed.
Lemma like_trans h h' h'' x : like h h' x -> like h' h'' x -> like h h'' x.
Proof. unfold like. congruence. Qed.
(** A tree was built at [t] in the part from [lo] of a heap; what happens elsewhere does not
    matter *)
Definition built (lo : nat) (h : heap) (t : nat) (T : ttree) : Prop :=
  (lo <= t < length h)%nat /\ is_root h t /\
  forall h'', (forall x, (lo <= x < length h)%nat -> like h'' h x) -> represents h'' t T.
Definition built_kids (lo : nat) (h : heap) (cs : list (option nat)) (kids : list (option ttree)) : Prop :=
  length cs = length kids /\
  (forall c, In (Some c) cs -> (lo <= c < length h)%nat /\ is_root h c) /\
  (forall i j c, nth_error cs i = Some (Some c) -> nth_error cs j = Some (Some c) -> i = j) /\
  forall h'', (forall x, (lo <= x < length h)%nat -> like h'' h x) -> rep_kids h'' cs kids.
Definition keeps (h h' : heap) : Prop := (length h <= length h')%nat /\ forall x, (x < length h)%nat -> seen h' x = seen h x.
Lemma keeps_refl h : keeps h h. Proof. split; auto. Qed.
Lemma keeps_trans h h' h'' : keeps h h' -> keeps h' h'' -> keeps h h''.
Proof. intros [L K] [L' K']. split; [lia|]. intros x X. rewrite K' by lia. now apply K. Qed.
Lemma seen_out h x : (length h <= x)%nat -> seen h x = None.
Proof. intro L. unfold seen, node_at. now rewrite (proj2 (nth_error_None h x)). Qed.

Lemma one_pattern w : in_range w -> keq (fkey ONE) (fkey w) -> w = ONE.
Proof.
  intros [P _] K. assert (S : same_num w ONE).
  { unfold same_num. destruct (fkey w) as [k|]; destruct (fkey ONE) as [o|]; cbn in K; try contradiction. now rewrite K. }
  assert (NW : fkey w <> None) by (unfold same_num in S; rewrite S; discriminate).
  destruct (same_decode _ _ S) as [D|(s & s' & _ & D)]; [|discriminate D].
  rewrite <- (encode_decode w P NW), D. reflexivity.
Qed.
Lemma replaced_one w w' : in_range w -> replaced ONE w w' -> w' = w.
Proof. intros R [[K ->]|[_ ->]]; [|reflexivity]. symmetry. now apply one_pattern. Qed.

Lemma new_tree h arity v : reached h -> 0 <= arity <= 2 ^ 40 -> good_value (d_val v) -> wf_datum v ->
  match d_val v with VString (Some s) => lenZ s <= 2 ^ 40 | _ => True end ->
  exists h', create_tree h arity v = Ok (length h, h') /\ reached h' /\ length h' = S (length h) /\
    forall x, seen h' x = changed (seen h) (length h) (Some (mkView (Z.to_nat arity) (mkDatum (d_val v) FLAG_DEFAULT) ONE ONE (repeat None (Z.to_nat arity)) None None)) x.
Proof.
  intros R A G W S. destruct (create_ok h arity v A W S) as [[_ E]|[N _]]; [|contradiction].
  assert (AL : allowed h (OCreate arity v)) by (repeat split; [lia|lia|exact W|exact S]).
  assert (ST : step h (OCreate arity v) = Ok (h ++ [Some (new_node (Z.to_nat arity) v)])) by (cbn [step]; now rewrite E).
  exists (h ++ [Some (new_node (Z.to_nat arity) v)]). split; [exact E|]. split; [eapply reached_ok; eauto|].
  pose proof (proj1 (step_ok h _ (reached_inv _ R) AL)) as O. rewrite ST in O. inversion O; subst. auto.
Qed.
Lemma new_weight h t v w : reached h -> seen h t = Some v -> v_weight v = ONE -> in_range w ->
  exists h', set_weight h t w = Ok h' /\ reached h' /\ length h' = length h /\ forall x, seen h' x = changed (seen h) t (Some (v_with_weight v w)) x.
Proof.
  intros R E V W. assert (AL : allowed h (OSetWeight t w)) by (split; [unfold alive; congruence|apply W]).
  pose proof (proj1 (step_ok h _ (reached_inv _ R) AL)) as O. destruct (step h (OSetWeight t w)) as [h'|e|u] eqn:ST; inversion O; subst.
  - assert (v0 = v) by congruence. subst v0. rewrite V in *. match goal with H : replaced ONE w ?g |- _ => rewrite (replaced_one _ _ W H) in * end.
    exists h'. split; [exact ST|]. split; [eapply reached_ok; eauto|auto].
  - exfalso. destruct W. auto.
Qed.
Lemma new_bias h t v w : reached h -> seen h t = Some v -> v_bias v = ONE -> in_range w ->
  exists h', set_bias h t w = Ok h' /\ reached h' /\ length h' = length h /\ forall x, seen h' x = changed (seen h) t (Some (v_with_bias v w)) x.
Proof.
  intros R E V W. assert (AL : allowed h (OSetBias t w)) by (split; [unfold alive; congruence|apply W]).
  pose proof (proj1 (step_ok h _ (reached_inv _ R) AL)) as O. destruct (step h (OSetBias t w)) as [h'|e|u] eqn:ST; inversion O; subst.
  - assert (v0 = v) by congruence. subst v0. rewrite V in *. match goal with H : replaced ONE w ?g |- _ => rewrite (replaced_one _ _ W H) in * end.
    exists h'. split; [exact ST|]. split; [eapply reached_ok; eauto|auto].
  - exfalso. destruct W. auto.
Qed.
Lemma new_ud h t v ud : reached h -> seen h t = Some v ->
  exists h', set_user_data h t ud = Ok h' /\ reached h' /\ length h' = length h /\ forall x, seen h' x = changed (seen h) t (Some (v_with_ud v ud)) x.
Proof.
  intros R E. assert (AL : allowed h (OSetUserData t ud)) by (cbn; unfold alive; congruence).
  pose proof (proj1 (step_ok h _ (reached_inv _ R) AL)) as O. destruct (step h (OSetUserData t ud)) as [h'|e|u] eqn:ST; inversion O; subst.
  assert (v0 = v) by congruence. subst v0. exists h'. split; [exact ST|]. split; [eapply reached_ok; eauto|auto].
Qed.
Lemma new_child h t i c v u : reached h -> seen h t = Some v -> v_parent v = None -> seen h c = Some u -> v_parent u = None -> c <> t ->
  nth_error (v_children v) i = Some None ->
  exists h' l, set_child h t i c = Ok h' /\ reached h' /\ length h' = length h /\ put_at (v_children v) i (Some c) l /\
    forall x, seen h' x = changed (changed (seen h) t (Some (v_with_children v l))) c (Some (v_with_parent u (Some (t, i)))) x.
Proof.
  intros R Et Pt Ec Pc NE N. assert (AL : allowed h (OSetChild t i c)).
  { split; [unfold alive; congruence|]. split; [unfold alive; congruence|]. intro U. inversion U as [|id w p j Ew Pw]; subst; [congruence|]. congruence. }
  pose proof (proj1 (step_ok h _ (reached_inv _ R) AL)) as O. destruct (step h (OSetChild t i c)) as [h'|e|w] eqn:ST; inversion O; subst.
  - assert (v0 = v) by congruence. assert (u0 = u) by congruence. subst v0 u0. exists h', l. split; [exact ST|]. split; [eapply reached_ok; eauto|auto].
  - exfalso. assert (v0 = v) by congruence. subst v0. destruct (proj1 (reached_inv _ R) t v Et) as (LC & _). assert (i < length (v_children v))%nat by (apply nth_error_Some; congruence). lia.
  - exfalso. congruence.
  - exfalso. congruence.
Qed.

(** attaching the children that were read *)
Lemma link_ok t lo : forall cs done h v, reached h -> seen h t = Some v -> v_parent v = None ->
  v_children v = done ++ repeat None (length cs) ->
  (forall c, In (Some c) cs -> (lo <= c < t)%nat /\ is_root h c) -> (lo <= t)%nat ->
  (forall i j c, nth_error cs i = Some (Some c) -> nth_error cs j = Some (Some c) -> i = j) ->
  exists h', link_children h t (length done) cs = Ok h' /\ reached h' /\ length h' = length h /\
    seen h' t = Some (v_with_children v (done ++ cs)) /\ (forall x, (x < lo)%nat -> seen h' x = seen h x) /\
    forall x, x <> t -> like h' h x.
Proof.
  induction cs as [|[c|] cs IH]; intros done h v R E P C K LO ND; cbn [link_children length repeat] in *.
  - exists h. split; [reflexivity|]. split; [exact R|]. split; [reflexivity|]. split; [|split; [reflexivity|intros x X; reflexivity]].
    rewrite E. f_equal. rewrite <- C. now destruct v.
  - destruct (K c (or_introl eq_refl)) as [LC (u & Eu & Pu)].
    destruct (new_child h t (length done) c v u R E P Eu Pu) as (h1 & l & ST & R1 & L1 & PA & V); [lia|rewrite C, nth_error_app2, Nat.sub_diag by lia; reflexivity|].
    rewrite ST. cbn [bind].
    assert (El : l = (done ++ [Some c]) ++ repeat None (length cs)).
    { destruct PA as (PL & PS & PO). rewrite C in *. clear -PL PS PO. rewrite <- app_assoc. cbn [app]. apply nth_ext with (d := None) (d' := None); [rewrite PL, !app_length; reflexivity|].
      intros j J. destruct (Nat.eq_dec j (length done)) as [->|NJ].
      - rewrite (nth_error_nth _ _ _ PS). rewrite app_nth2, Nat.sub_diag by lia. reflexivity.
      - specialize (PO j NJ). rewrite !nth_nth_error, PO. destruct (Nat.lt_ge_cases j (length done)) as [Q|Q].
        + now rewrite !nth_error_app1 by lia.
        + rewrite !nth_error_app2 by lia. destruct (j - length done)%nat eqn:JJ; [lia|]. reflexivity. }
    assert (E1 : seen h1 t = Some (v_with_children v l)).
    { rewrite V. unfold changed. destruct (Nat.eqb_spec t c); [lia|]. now rewrite Nat.eqb_refl. }
    replace (S (length done)) with (length (done ++ [Some c])) by (rewrite app_length; cbn; lia).
    destruct (IH (done ++ [Some c]) h1 (v_with_children v l)) as (h' & L & R' & LL & E' & KP & LK); [exact R1|exact E1|exact P|exact El| |exact LO| |].
    + intros c' I. destruct (K c' (or_intror I)) as [LC' (u' & Eu' & Pu')]. split; [exact LC'|]. exists u'. split; [|exact Pu']. rewrite V. unfold changed.
      destruct (Nat.eqb_spec c' c) as [->|]; [|destruct (Nat.eqb_spec c' t); [lia|exact Eu']]. exfalso.
      apply In_nth_error in I as [j J]. specialize (ND 0%nat (S j) c eq_refl J). discriminate.
    + intros i j c' I J. specialize (ND (S i) (S j) c' I J). lia.
    + exists h'. split; [exact L|]. split; [exact R'|]. split; [lia|]. split; [rewrite E', <- app_assoc; reflexivity|]. split.
      * intros x X. rewrite KP by exact X. rewrite V. unfold changed. destruct (Nat.eqb_spec x c); [lia|]. destruct (Nat.eqb_spec x t); [lia|]. reflexivity.
      * intros x X. eapply like_trans; [apply LK; exact X|]. unfold like. rewrite V. unfold changed. destruct (Nat.eqb_spec x c) as [->|]; [|destruct (Nat.eqb_spec x t); [contradiction|reflexivity]].
        now rewrite Eu.
  - replace (S (length done)) with (length (done ++ [@None nat])) by (rewrite app_length; cbn; lia).
    destruct (IH (done ++ [None]) h v) as (h' & L & R' & LL & E' & KP & LK); [exact R|exact E|exact P|rewrite C, <- app_assoc; reflexivity| |exact LO| |].
    + intros c I. apply K. now right.
    + intros i j c I J. specialize (ND (S i) (S j) c I J). lia.
    + exists h'. split; [exact L|]. split; [exact R'|]. split; [exact LL|]. split; [rewrite E', <- app_assoc; reflexivity|]. auto.
Qed.

Scheme wire_ind2 := Minimality for wire_tree Sort Prop
  with wkids_ind2 := Minimality for wire_kids Sort Prop.
Definition restored_kid (k : option ttree) : option ttree := match k with None => None | Some c => Some (restored_tree c) end.
Section Read.
  Variables (le : bool) (h : heap).
  Hypothesis R : reached h.
  Hypothesis SB : storable_heap h.
  Variable u : bool.
  Definition reads_tree (t : nat) (bs : list Z) : Prop :=
    forall T, represents h t T -> (u = true -> plain T) -> forall h2, reached h2 ->
    exists t' h', (forall fuel L, (L < fuel)%nat -> dec u L (deser_tree le fuel h2) (t', h') bs) /\
      reached h' /\ keeps h2 h' /\ built (length h2) h' t' (restored_tree T).
  Definition reads_kids (l : list (option nat)) (bs : list Z) : Prop :=
    forall kids, rep_kids h l kids -> (u = true -> forall c, In (Some c) kids -> plain c) -> forall h2, reached h2 ->
    exists cs h', (forall fuel L, (L < fuel)%nat -> dec u L (deser_children (deser_tree le fuel) (length l) h2) (cs, h') bs) /\
      reached h' /\ keeps h2 h' /\ built_kids (length h2) h' cs (map restored_kid kids).
  Lemma is_root_keeps h1 h2 c : keeps h1 h2 -> (c < length h1)%nat -> is_root h1 c -> is_root h2 c.
  Proof. intros [_ K] L (v & E & P). exists v. split; [now rewrite K|exact P]. Qed.
  Lemma dec_eq {A} v L (de : rstate -> res (A * rstate)) a b bs : a = b -> dec v L de a bs -> dec v L de b bs.
  Proof. now intros ->. Qed.
  Lemma tree_reads : forall t bs, wire_tree h t bs -> reads_tree t bs.
  Proof.
    apply (wire_ind2 h reads_tree reads_kids).
    - intros id v lh la cs vb ub E Lh La WK IHK Vb Ub T RT PL h2 R2.
      inversion RT as [id' v' kids E' RK]; subst. assert (v' = v) by congruence. subst v'. clear E'.
      pose proof (reached_inv h R) as IV. pose proof IV as (F & SH & _). destruct SB as [LH UL].
      pose proof (seen_len _ _ _ E) as LT. destruct (view_range h id v IV E) as (RW & RB & RA). destruct (reached_kept h R id v E) as (GV & WV & FV & SV).
      assert (HI : in_unsigned 64 (Z.of_nat id)) by (unfold in_unsigned; lia). pose proof (UL id v E) as UV.
      destruct (F id v E) as (LC & _).
      assert (LK : u = true -> forall c, In (Some c) kids -> plain c) by (intros U c I; specialize (PL U); inversion PL; auto).
      destruct (IHK kids RK LK h2 R2) as (ks & h3 & D3 & R3 & K3 & B3L & B3R & B3N & B3F).
      assert (LKS : length ks = v_arity v).
      { rewrite B3L, map_length. clear -RK LC. rewrite <- LC. clear LC. induction RK; cbn; congruence. }
      set (dv := mkDatum (d_val (v_value v)) (wire_flags (d_val (v_value v)))).
      destruct (new_tree h3 (Z.of_nat (v_arity v)) dv R3) as (h4 & C4 & R4 & L4 & V4); [lia|exact GV|exact WV|exact SV|].
      set (t := length h3) in *. set (v4 := mkView _ _ _ _ _ _ _) in V4.
      assert (E4 : seen h4 t = Some v4) by (rewrite V4; unfold changed; now rewrite Nat.eqb_refl).
      destruct (new_weight h4 t v4 (v_weight v) R4 E4 eq_refl RW) as (h5 & C5 & R5 & L5 & V5).
      assert (E5 : seen h5 t = Some (v_with_weight v4 (v_weight v))) by (rewrite V5; unfold changed; now rewrite Nat.eqb_refl).
      destruct (new_bias h5 t _ (v_bias v) R5 E5 eq_refl RB) as (h6 & C6 & R6 & L6 & V6).
      set (v6 := v_with_bias (v_with_weight v4 (v_weight v)) (v_bias v)) in *.
      assert (E6 : seen h6 t = Some v6) by (rewrite V6; unfold changed; now rewrite Nat.eqb_refl).
      assert (S6 : forall x, x <> t -> seen h6 x = seen h3 x).
      { intros x X. rewrite V6. unfold changed. destruct (Nat.eqb_spec x t); [contradiction|]. rewrite V5. unfold changed. destruct (Nat.eqb_spec x t); [contradiction|].
        rewrite V4. unfold changed. destruct (Nat.eqb_spec x t); [contradiction|reflexivity]. }
      destruct (link_ok t (length h2) ks [] h6 v6 R6 E6 eq_refl) as (h7 & C7 & R7 & L7 & E7 & KP7 & LK7).
      { cbn [v6 v4 v_children v_with_bias v_with_weight app]. now rewrite LKS, Nat2Z.id. }
      { intros c I. destruct (B3R c I) as [Q (w & Ew & Pw)]. split; [exact Q|]. exists w. split; [rewrite S6; [exact Ew|unfold t; lia]|exact Pw]. }
      { destruct K3. exact H. }
      { exact B3N. }
      cbn [length app] in C7, E7. set (v7 := v_with_children v6 ks) in *.
      assert (U8 : exists h8, (match ud_bytes (v_ud v) with [] => Ok h7 | _ => set_user_data h7 t (Some (ud_bytes (v_ud v))) end) = Ok h8 /\ reached h8 /\ length h8 = length h7 /\
        forall x, seen h8 x = changed (seen h7) t (Some (v_with_ud v7 (restored_ud (v_ud v)))) x).
      { destruct (v_ud v) as [[|b0 b]|]; cbn [ud_bytes restored_ud].
        - exists h7. split; [reflexivity|]. split; [exact R7|]. split; [reflexivity|]. intro x. unfold changed. destruct (Nat.eqb_spec x t) as [->|]; [|reflexivity]. exact E7.
        - destruct (new_ud h7 t v7 (Some (b0 :: b)) R7 E7) as (h8 & C8 & R8 & L8 & V8). exists h8. auto.
        - exists h7. split; [reflexivity|]. split; [exact R7|]. split; [reflexivity|]. intro x. unfold changed. destruct (Nat.eqb_spec x t) as [->|]; [|reflexivity]. exact E7. }
      destruct U8 as (h8 & C8 & R8 & L8 & V8).
      exists t, h8. split; [|split; [exact R8|]].
      + intros fuel L LF. destruct fuel as [|fuel]; [lia|]. cbn [deser_tree].
        eapply dec_bind; [apply decodes_dec; apply (deser_object_internal_decodes 15 (Z.of_nat id)); [lia|exact HI|exact Lh]|]. intro Q1. cbv beta iota. cbn [fst snd Z.eqb Pos.eqb OBJ_TREE negb refute bind].
        eapply dec_bind; [apply decodes_dec; apply (deser_uint_decodes 64 (Z.of_nat (v_arity v)) la); auto using okw64; lia|]. intro Q2. cbv beta iota.
        eapply dec_bind; [apply decodes_dec; apply deser_float_decodes; now apply range_unsigned|]. intro Q3. cbv beta iota.
        destruct (Z.ltb_spec MAX_BLOCK (Z.of_nat (v_arity v) * 8)) as [Q|_]; [unfold MAX_BLOCK in Q; lia|]. cbn [refute bind].
        rewrite Nat2Z.id, <- LC.
        eapply dec_bind; [apply D3; cbn [length] in *; lia|]. intro Q4. cbv beta iota.
        eapply dec_bind; [apply decodes_dec; apply deser_float_decodes; now apply range_unsigned|]. intro Q5. cbv beta iota.
        eapply dec_bind; [apply decodes_dec; apply deser_datum_decodes; [exact WV|exact Vb]|]. intro Q6. cbv beta iota. cbn [fst snd].
        fold dv. rewrite LC, C4. cbn [bind]. fold t. rewrite C5. cbn [bind]. rewrite C6. cbn [bind]. rewrite C7. cbn [bind].
        rewrite <- (app_nil_r ub).
        eapply dec_bind; [apply (user_data_dec u _ (ud_bytes (v_ud v))); [exact UV|exact Ub|]|].
        { intro U. specialize (PL U). now inversion PL. }
        intro Q7. cbv beta iota. rewrite C8. cbn [bind]. apply dec_ret.
      + destruct K3 as [KL K3].
        assert (S7 : forall x, (x < length h2)%nat -> seen h8 x = seen h2 x).
        { intros x X. rewrite V8. unfold changed. destruct (Nat.eqb_spec x t); [unfold t in *; lia|]. rewrite KP7 by exact X. rewrite S6 by exact n. now apply K3. }
        split; [split; [unfold t in *; lia|exact S7]|].
        assert (E8 : seen h8 t = Some (v_with_ud v7 (restored_ud (v_ud v)))) by (rewrite V8; unfold changed; now rewrite Nat.eqb_refl).
        split; [unfold t in *; lia|]. split; [eexists; split; [exact E8|reflexivity]|].
        intros h'' LK''. destruct (like_seen h'' h8 t _ (LK'' t ltac:(unfold t in *; lia)) E8) as (w & Ew & W1 & W2 & W3 & W4 & W5 & W6).
        cbn [v7 v6 v4 v_with_ud v_with_children v_with_bias v_with_weight v_arity v_value v_weight v_bias v_children v_ud dv d_val] in *.
        cbn [restored_tree]. change (map (fun k => match k with None => None | Some c => Some (restored_tree c) end) kids) with (map restored_kid kids).
        replace (v_value v) with (v_value w) by (rewrite W2; destruct (v_value v); cbn in *; congruence).
        rewrite <- W3, <- W4, <- W6. constructor; [exact Ew|]. rewrite W5. apply B3F. intros x X.
        eapply like_trans; [apply LK''; unfold t in *; lia|]. unfold like at 1. rewrite V8. unfold changed. destruct (Nat.eqb_spec x t) as [->|NX]; [unfold t in X; lia|].
        change (like h7 h3 x). eapply like_trans; [apply LK7; exact NX|]. unfold like. now rewrite S6.
    - intros kids RK PL h2 R2. inversion RK; subst. exists [], h2. split; [intros; apply dec_ret|]. split; [exact R2|]. split; [apply keeps_refl|].
      split; [reflexivity|]. split; [intros c []|]. split; [intros [] j c; discriminate|]. intros; constructor.
    - intros l bs WK IHK kids RK PL h2 R2. inversion RK as [|l' kids' RK'|]; subst. destruct (IHK kids' RK') with (h2 := h2) as (cs & h' & D & R' & K & BL & BR & BN & BF); [intros U c I; apply PL; [exact U|now right]|exact R2|].
      exists (None :: cs), h'. split; [|split; [exact R'|split; [exact K|]]].
      + intros fuel L LF. cbn [length deser_children]. eapply dec_bind; [apply decodes_dec; apply (deser_enum_small 0); lia|]. intro Q. cbv beta iota. change (z2b 0) with false. cbn [bind fst snd].
        rewrite <- (app_nil_r bs). eapply dec_bind; [apply D; lia|]. intro Q'. cbv beta iota. cbn [fst snd]. apply dec_ret.
      + split; [cbn; now rewrite BL|]. split; [intros c [I|I]; [discriminate|now apply BR]|]. split.
        * intros [|i] [|j] c I J; try discriminate. f_equal. eapply BN; eauto.
        * intros h'' LK. cbn [map restored_kid]. constructor. now apply BF.
    - intros c l b bs WT IHT WK IHK kids RK PL h2 R2. inversion RK as [| |c' T l' kids' RT RK']; subst.
      destruct (IHT T RT) with (h2 := h2) as (t' & h3 & D3 & R3 & K3 & (B1 & B2 & B3)); [intro U; apply PL; [exact U|now left]|exact R2|].
      destruct (IHK kids' RK') with (h2 := h3) as (cs & h' & D & R' & K & BL & BR & BN & BF); [intros U x I; apply PL; [exact U|now right]|exact R3|].
      exists (Some t' :: cs), h'. split; [|split; [exact R'|split; [eapply keeps_trans; eauto|]]].
      + intros fuel L LF. cbn [length deser_children]. eapply dec_bind; [apply decodes_dec; apply (deser_enum_small 1); lia|]. intro Q. cbv beta iota. change (z2b 1) with true. cbn [bind fst snd].
        eapply (dec_bind u _ _ _ (Some t', h3)).
        * cbn. rewrite <- (app_nil_r b). eapply dec_bind; [apply D3; lia|]. intro Q'. cbv beta iota. cbn [fst snd]. apply dec_ret.
        * intro Q'. cbv beta iota. cbn [fst snd]. rewrite <- (app_nil_r bs). eapply dec_bind; [apply D; lia|]. intro Q''. cbv beta iota. cbn [fst snd]. apply dec_ret.
      + destruct K as [KL K]. destruct K3 as [KL3 K3]. split; [cbn; now rewrite BL|]. split; [|split].
        * intros x [I|I]; [injection I as <-; split; [lia|]; apply (is_root_keeps h3 h'); [split; assumption|lia|exact B2]|]. destruct (BR x I). split; [lia|assumption].
        * intros [|i] [|j] x I J; [reflexivity| | |f_equal; eapply BN; eauto].
          -- cbn in I, J. injection I as ->. apply nth_error_In in J. destruct (BR x J). lia.
          -- cbn in I, J. injection J as ->. apply nth_error_In in I. destruct (BR x I). lia.
        * intros h'' LK. cbn [map restored_kid]. constructor.
          -- apply B3. intros x X. eapply like_trans; [apply LK; lia|]. unfold like. now rewrite K by lia.
          -- apply BF. intros x X. apply LK. lia.
  Qed.
End Read.
Lemma tree_written le h t : reached h -> storable_heap h -> alive h t ->
  exists bs, wire_tree h t bs /\ encodes (ser_tree le (S (length h)) h t) bs /\ size_tree (S (length h)) h t = Ok (lenZ bs).
Proof.
  intros R SB A. unfold alive in A. destruct (seen h t) as [v|] eqn:E; [|congruence]. destruct (proj1 (reached_inv _ R) t v E) as (_ & _ & _ & d & RT).
  apply (written_one le h R SB (S (length h)) t v d E RT). lia.
Qed.
Lemma tree_restored le h t T bs h2 : reached h -> storable_heap h -> represents h t T -> wire_tree h t bs -> reached h2 ->
  exists t' h',
    (forall tl n, lenZ bs <= n <= lenZ (bs ++ tl) -> n < 2 ^ 64 -> deserialize_tree le h2 (mkR (bs ++ tl) n) = Ok ((t', h'), mkR tl (n - lenZ bs))) /\
    (plain T -> forall p q tl, bs = p ++ q -> q <> [] -> lenZ p < 2 ^ 64 -> deserialize_tree le h2 (mkR (p ++ tl) (lenZ p)) = Err ERR_NOT_ENOUGH_DATA) /\
    reached h' /\ represents h' t' (restored_tree T) /\ is_root h' t' /\ (forall x, alive h2 x -> seen h' x = seen h2 x).
Proof.
  intros R SB RT W R2.
  destruct (tree_reads le h R SB false t bs W T RT ltac:(discriminate) h2 R2) as (t' & h' & D & R' & [KL K] & (B1 & B2 & B3)).
  exists t', h'. split; [|split; [|split; [exact R'|split; [apply B3; reflexivity|split; [exact B2|]]]]].
  - intros tl n N N'. unfold deserialize_tree. cbn [r_mem]. destruct (D (S (length (bs ++ tl))) (length (bs ++ tl)) ltac:(lia)) as [D1 _]. apply D1; auto. rewrite app_length. lia.
  - intros P p q tl Q NQ LP. destruct (tree_reads le h R SB true t bs W T RT ltac:(auto) h2 R2) as (t1 & h1 & D' & _).
    unfold deserialize_tree. cbn [r_mem]. destruct (D' (S (length (p ++ tl))) (length (p ++ tl)) ltac:(lia)) as [_ D2]. apply (D2 eq_refl p q tl); auto. rewrite app_length. lia.
  - intros x A. apply K. unfold alive in A. destruct (seen h2 x) eqn:E; [|congruence]. eapply seen_len; eauto.
Qed.
