(** Finding one's way in trees. *)
From Coq Require Import ZArith List Bool Lia ZifyBool Arith.
From Verif Require Import Base Datum CodecModel FloatModel FloatSpec FloatProofs FloatRound IntervalSpec DistModel DistSpec DistRoulette DistMix CmpSpec TreeModel TreeSpec TreeHeap TreeProofs TreeOps TreeSteps TreeRep.
Import ListNotations.
Open Scope Z_scope.

Lemma des_alive h t l d : designates h t l d -> alive h d.
Proof. induction 1; auto. Qed.
Lemma des_start h t l d : designates h t l d -> alive h t.
Proof. intro D. destruct D; auto. unfold alive. congruence. Qed.
Lemma des_app h t l d l' e : designates h t l d -> designates h d l' e -> designates h t (l ++ l') e.
Proof. induction 1; intro D; cbn; auto. eapply des_down; eauto. Qed.
Lemma des_snoc h t l i d : designates h t (l ++ [i]) d -> exists p v, designates h t l p /\ seen h p = Some v /\ nth_error (v_children v) i = Some (Some d).
Proof.
  revert t. induction l as [|j l IH]; intros t D; cbn in D; inversion D as [|t' v i' c l' d' E N D']; subst.
  - inversion D' as [c' A|]; subst. exists t, v. split; [constructor; unfold alive; congruence|auto].
  - destruct (IH c D') as (p & u & P & U & Q). exists p, u. split; [eapply des_down; eauto|auto].
Qed.
Lemma des_fun h t l d d' : designates h t l d -> designates h t l d' -> d = d'.
Proof. intro D. revert d'. induction D as [|t v i c l d E N D IH]; intros d' D'; inversion D' as [|t' v' i' c' l' e E' N' D'']; subst; auto. apply IH. congruence. Qed.

Section Forest.
  Variable h : heap.
  Hypothesis F : forest h.
  Hypothesis SH : shapes h.

  Lemma child_error n t i : node_at h t = Some n -> (i < n_arity n)%nat -> nth_error (n_children n) i = Some (nth i (n_children n) None).
  Proof. intros E I. destruct (SH t n E) as (LC & _). apply nth_error_nth'. lia. Qed.
  Lemma child_alive t n i c : node_at h t = Some n -> nth_error (n_children n) i = Some (Some c) -> exists m, node_at h c = Some m.
  Proof. intros E N. destruct (child_slot h t n i c F E) as (m & Em & _); [now rewrite nth_nth_error, N|]. eauto. Qed.

  (** *** Down *)
  Lemma node_loop_ok l : forall t n, node_at h t = Some n ->
    (exists d, node_loop h t l = Ok d /\ designates h t l d) \/
    (node_loop h t l = Err ERR_INVALID_TREE /\ breaks h t l) \/ (node_loop h t l = Err ERR_OUT_OF_BOUNDS /\ strays h t l).
  Proof.
    induction l as [|i l IH]; intros t n E; cbn [node_loop].
    - left. exists t. split; [reflexivity|]. constructor. apply alive_node. eauto.
    - unfold get_child. rewrite (read_node _ _ _ E). cbn [bind]. assert (AL : alive h t) by (apply alive_node; eauto).
      destruct (Nat.leb_spec (n_arity n) i) as [I|I]; cbn [refute bind].
      + right. right. split; [reflexivity|]. exists [], i, l, t, (view_of n). split; [reflexivity|]. split; [now constructor|]. split; [now apply seen_of|exact I].
      + pose proof (child_error n t i E I) as C. destruct (nth i (n_children n) None) as [c|].
        * destruct (child_alive t n i c E C) as (m & Em). destruct (IH c m Em) as [(d & -> & D)|[[-> (l1 & l2 & -> & l' & j & d & v & -> & D & Ed & N)]|[-> (l1 & j & l2 & d & v & -> & D & Ed & N)]]].
          -- left. exists d. split; [reflexivity|]. eapply des_down; [apply (seen_of _ _ _ E)|exact C|exact D].
          -- right. left. split; [reflexivity|]. exists ((i :: l') ++ [j]), l2. split; [reflexivity|]. exists (i :: l'), j, d, v. split; [reflexivity|]. split; [|auto].
             eapply des_down; [apply (seen_of _ _ _ E)|exact C|exact D].
          -- right. right. split; [reflexivity|]. exists (i :: l1), j, l2, d, v. split; [reflexivity|]. split; [|auto]. eapply des_down; [apply (seen_of _ _ _ E)|exact C|exact D].
        * right. left. split; [reflexivity|]. exists [i], l. split; [reflexivity|]. exists [], i, t, (view_of n). split; [reflexivity|]. split; [now constructor|]. split; [now apply seen_of|exact C].
  Qed.
  Lemma values_loop_ok l : forall t n, node_at h t = Some n ->
    (exists vs, values_loop h t l = Ok vs /\ values_along h t l (n_value n :: vs)) \/
    (values_loop h t l = Err ERR_INVALID_TREE /\ breaks h t l) \/ (values_loop h t l = Err ERR_OUT_OF_BOUNDS /\ strays h t l).
  Proof.
    induction l as [|i l IH]; intros t n E; cbn [values_loop].
    - left. exists []. split; [reflexivity|]. apply (along_here h t (view_of n)). now apply seen_of.
    - unfold get_child. rewrite (read_node _ _ _ E). cbn [bind]. assert (AL : alive h t) by (apply alive_node; eauto).
      destruct (Nat.leb_spec (n_arity n) i) as [I|I]; cbn [refute bind].
      + right. right. split; [reflexivity|]. exists [], i, l, t, (view_of n). split; [reflexivity|]. split; [now constructor|]. split; [now apply seen_of|exact I].
      + pose proof (child_error n t i E I) as C. destruct (nth i (n_children n) None) as [c|].
        * destruct (child_alive t n i c E C) as (m & Em). rewrite (read_node _ _ _ Em). cbn [bind].
          destruct (IH c m Em) as [(vs & -> & D)|[[-> (l1 & l2 & -> & l' & j & d & v & -> & D & Ed & N)]|[-> (l1 & j & l2 & d & v & -> & D & Ed & N)]]]; cbn [bind].
          -- left. eexists. split; [reflexivity|]. apply (along_down h t (view_of n) i c); [now apply seen_of|exact C|exact D].
          -- right. left. split; [reflexivity|]. exists ((i :: l') ++ [j]), l2. split; [reflexivity|]. exists (i :: l'), j, d, v. split; [reflexivity|]. split; [|auto].
             eapply des_down; [apply (seen_of _ _ _ E)|exact C|exact D].
          -- right. right. split; [reflexivity|]. exists (i :: l1), j, l2, d, v. split; [reflexivity|]. split; [|auto]. eapply des_down; [apply (seen_of _ _ _ E)|exact C|exact D].
        * right. left. split; [reflexivity|]. exists [i], l. split; [reflexivity|]. exists [], i, t, (view_of n). split; [reflexivity|]. split; [now constructor|]. split; [now apply seen_of|exact C].
  Qed.
  Lemma along_length t l vs : values_along h t l vs -> length vs = S (length l).
  Proof. induction 1; cbn; auto. Qed.

  (** validity *)
  Lemma valid_none l : valid_loop h None l = Ok (match l with [] => true | _ => false end).
  Proof. now destruct l. Qed.
  Lemma valid_ok l : forall t n, node_at h t = Some n ->
    exists b, valid_loop h (Some t) l = Ok b /\ (b = true <-> (exists d, designates h t l d) \/ dangling h t l).
  Proof.
    induction l as [|i l IH]; intros t n E; cbn [valid_loop].
    - exists true. split; [reflexivity|]. split; [|reflexivity]. intros _. left. exists t. constructor. apply alive_node. eauto.
    - rewrite (read_node _ _ _ E). cbn [bind]. assert (AL : alive h t) by (apply alive_node; eauto).
      assert (ST : forall d, designates h t (i :: l) d -> exists c, nth_error (n_children n) i = Some (Some c) /\ designates h c l d).
      { intros d D. inversion D as [|t' v i' c l' d' Ev N D']; subst. apply seen_node in Ev as (n' & E' & ->). rewrite E in E'. injection E' as <-. eauto. }
      assert (SD : dangling h t (i :: l) -> (l = [] /\ nth_error (n_children n) i = Some None) \/ exists c, nth_error (n_children n) i = Some (Some c) /\ dangling h c l).
      { intros (l' & j & d & v & Q & D & Ev & N). destruct l' as [|k l']; cbn in Q; injection Q as -> ->.
        - left. split; [reflexivity|]. inversion D; subst. apply seen_node in Ev as (n' & E' & ->). rewrite E in E'. injection E' as <-. exact N.
        - right. inversion D as [|t' v' i' c l'' d' Ev' N' D']; subst. apply seen_node in Ev' as (n' & E' & ->). rewrite E in E'. injection E' as <-.
          exists c. split; [exact N'|]. exists l', j, d, v. auto. }
      destruct (Nat.leb_spec (n_arity n) i) as [I|I].
      + assert (NN : nth_error (n_children n) i = None) by (apply nth_error_None; destruct (SH t n E) as (LC & _); lia).
        exists false. split; [reflexivity|]. split; [discriminate|]. intros [(d & D)|D].
        * destruct (ST d D) as (c & N & _). congruence.
        * destruct (SD D) as [[_ N]|(c & N & _)]; congruence.
      + pose proof (child_error n t i E I) as C. destruct (nth i (n_children n) None) as [c|].
        * destruct (child_alive t n i c E C) as (m & Em). destruct (IH c m Em) as (b & -> & B). exists b. split; [reflexivity|]. rewrite B. split.
          -- intros [(d & D)|(l' & j & d & v & -> & D & Ev & N)].
             ++ left. exists d. eapply des_down; [apply (seen_of _ _ _ E)|exact C|exact D].
             ++ right. exists (i :: l'), j, d, v. split; [reflexivity|]. split; [|auto]. eapply des_down; [apply (seen_of _ _ _ E)|exact C|exact D].
          -- intros [(d & D)|D].
             ++ destruct (ST d D) as (c' & N & D'). left. exists d. congruence.
             ++ destruct (SD D) as [[_ N]|(c' & N & D')]; [congruence|]. right. congruence.
        * rewrite valid_none. eexists. split; [reflexivity|]. destruct l as [|j l].
          -- split; [|reflexivity]. intros _. right. exists [], i, t, (view_of n). split; [reflexivity|]. split; [now constructor|]. split; [now apply seen_of|exact C].
          -- split; [discriminate|]. intros [(d & D)|D].
             ++ destruct (ST d D) as (c & N & _). congruence.
             ++ destruct (SD D) as [[Q _]|(c & N & _)]; congruence.
  Qed.

  (** *** Up *)
  Lemma des_rooted t l d k : designates h t l d -> rooted h t k -> rooted h d (k + length l).
  Proof.
    intro D. revert k. induction D as [t A|t v i c l d E N D IH]; intros k R; cbn [length]; [now rewrite Nat.add_0_r|].
    replace (k + S (length l))%nat with (S k + length l)%nat by lia. apply IH.
    destruct (F t v E) as (_ & C & _). destruct (C i c N) as (u & Eu & Pu). eapply rooted_step; eauto.
  Qed.
  Lemma climb_index root l : forall t filled, designates h root l t -> climb n_index (length l) h (Some t) filled = Ok (l ++ filled).
  Proof.
    induction l as [|i l IH] using rev_ind; intros t filled D; [reflexivity|].
    destruct (des_snoc _ _ _ _ _ D) as (p & v & D' & Ev & N). rewrite app_length, Nat.add_comm. cbn [length Nat.add climb].
    destruct (F p v Ev) as (_ & C & _). destruct (C i t N) as (u & Eu & Pu). apply seen_node in Eu as (m & Em & ->). apply parent_view in Pu as [Pm Im].
    rewrite (read_node _ _ _ Em). cbn [bind]. rewrite Pm, Im. rewrite (IH p (i :: filled) D'). now rewrite <- app_assoc.
  Qed.
  Lemma along_snoc root l i : forall t v vs, values_along h root (l ++ [i]) vs -> designates h root (l ++ [i]) t -> seen h t = Some v ->
    exists p vs', designates h root l p /\ values_along h root l vs' /\ vs = vs' ++ [v_value v] /\ exists u, seen h t = Some u /\ v_parent u = Some (p, i).
  Proof.
    revert root. induction l as [|j l IH]; intros root t v vs A D Ev; cbn in *.
    - inversion A as [|t' w i' c l' ds E N A']; subst. inversion D as [|t' w' i' c' l' d' E' N' D']; subst. rewrite E in E'. injection E' as <-. rewrite N in N'. injection N' as <-.
      inversion D'; subst. inversion A' as [t' u Eu|]; subst. rewrite Ev in Eu. injection Eu as <-. exists root, [v_value w].
      split; [constructor; unfold alive; congruence|]. split; [now constructor|]. split; [reflexivity|]. destruct (F root w E) as (_ & C & _). destruct (C i t N) as (z & Ez & Pz). eauto.
    - inversion A as [|t' w i' c l' ds E N A']; subst. inversion D as [|t' w' i' c' l' d' E' N' D']; subst. rewrite E in E'. injection E' as <-. rewrite N in N'. injection N' as <-.
      destruct (IH c t v ds A' D' Ev) as (p & vs' & P & Q & -> & U). exists p, (v_value w :: vs'). split; [eapply des_down; eauto|]. split; [eapply along_down; eauto|]. split; [reflexivity|exact U].
  Qed.
  Lemma climb_value root l : forall t vs filled, designates h root l t -> values_along h root l vs -> climb n_value (S (length l)) h (Some t) filled = Ok (vs ++ filled).
  Proof.
    induction l as [|i l IH] using rev_ind; intros t vs filled D A.
    - inversion D as [t' AL|]; subst. inversion A as [t' v Ev|]; subst. apply seen_node in Ev as (m & Em & ->). cbn [length climb]. rewrite (read_node _ _ _ Em). reflexivity.
    - pose proof (des_alive _ _ _ _ D) as AL. apply alive_node in AL as (m & Em). destruct (along_snoc root l i t (view_of m) vs A D (seen_of _ _ _ Em)) as (p & vs' & P & Q & -> & u & Eu & Pu).
      rewrite (seen_of _ _ _ Em) in Eu. injection Eu as <-. apply parent_view in Pu as [Pm _].
      rewrite app_length, Nat.add_comm. cbn [length Nat.add]. cbn [climb]. rewrite (read_node _ _ _ Em). cbn [bind]. rewrite Pm.
      change (climb n_value (S (length l)) h (Some p) (n_value m :: filled) = Ok ((vs' ++ [v_value (view_of m)]) ++ filled)).
      rewrite (IH p vs' (n_value m :: filled) P Q). now rewrite <- app_assoc.
  Qed.
  Lemma along_exists root l t : designates h root l t -> exists vs, values_along h root l vs.
  Proof.
    induction 1 as [t A|t v i c l d E N D [vs IH]].
    - unfold alive in A. destruct (seen h t) as [v|] eqn:E; [|congruence]. exists [v_value v]. now constructor.
    - exists (v_value v :: vs). eapply along_down; eauto.
  Qed.
  Lemma root_exists t d : rooted h t d -> exists root l, is_root h root /\ designates h root l t.
  Proof.
    induction 1 as [t v E P|t v p i d E P R (root & l & Q & D)].
    - exists t, []. split; [exists v; auto|]. constructor. unfold alive. congruence.
    - exists root, (l ++ [i]). split; [exact Q|]. eapply des_app; [exact D|].
      destruct (F t v E) as (_ & _ & C & _). destruct (C p i P) as (u & Eu & N). eapply des_down; [exact Eu|exact N|]. constructor. unfold alive. congruence.
  Qed.
  Lemma depth_loop_ok p d : rooted h p d -> forall fuel k, (S d < fuel)%nat -> depth_loop fuel h (Some p) k = Ok (k + S d)%nat.
  Proof.
    induction 1 as [p v E P|p v q i d E P R IH]; intros fuel k FU; (destruct fuel as [|fuel]; [lia|]); cbn [depth_loop]; apply seen_node in E as (n & E & ->); rewrite (read_node _ _ _ E); cbn [bind].
    - apply parent_view_none in P. rewrite P. destruct fuel; [lia|]. cbn [depth_loop]. f_equal. lia.
    - apply parent_view in P as [P _]. rewrite P. rewrite IH by lia. f_equal. lia.
  Qed.
  Lemma depth_ok t d : rooted h t d -> depth_of h t = Ok d.
  Proof.
    intro R. pose proof (rooted_len _ _ _ R) as L. unfold depth_of. destruct R as [t v E P|t v q i d E P R]; apply seen_node in E as (n & E & ->); rewrite (read_node _ _ _ E); cbn [bind].
    - apply parent_view_none in P. rewrite P. reflexivity.
    - apply parent_view in P as [P _]. rewrite P. rewrite (depth_loop_ok q d R) by lia. reflexivity.
  Qed.
  Lemma root_rooted root : is_root h root -> rooted h root 0.
  Proof. intros (v & E & P). eapply rooted_top; eauto. Qed.

  Lemma get_position_ok root l t array count : is_root h root -> designates h root l t -> answered 0%nat l array count (get_position h t array count).
  Proof.
    intros R D. pose proof (des_rooted _ _ _ _ D (root_rooted _ R)) as RT. cbn [Nat.add] in RT. pose proof (des_alive _ _ _ _ D) as AL. apply alive_node in AL as (n & E).
    unfold get_position, answered. rewrite (read_node _ _ _ E), (depth_ok _ _ RT). cbn [bind]. destruct array as [size|].
    - cbn [is_some negb andb refute bind]. destruct (Nat.ltb_spec size (length l)) as [Q|Q]; cbn [refute bind]; [left; auto|right]. split; [exact Q|].
      rewrite (climb_index root l t [] D). cbn [bind]. unfold fill. rewrite app_nil_r. destruct (Nat.ltb_spec size (length l)); [lia|]. reflexivity.
    - destruct count; reflexivity.
  Qed.
  Lemma get_values_ok root l t vs array count : is_root h root -> designates h root l t -> values_along h root l vs -> answered ccs_none vs array count (get_values h t array count).
  Proof.
    intros R D A. pose proof (des_rooted _ _ _ _ D (root_rooted _ R)) as RT. cbn [Nat.add] in RT. pose proof (des_alive _ _ _ _ D) as AL. apply alive_node in AL as (n & E).
    pose proof (along_length _ _ _ A) as LV.
    unfold get_values, answered. rewrite (read_node _ _ _ E), (depth_ok _ _ RT). cbn [bind]. rewrite LV. destruct array as [size|].
    - cbn [is_some negb andb refute bind]. destruct (Nat.ltb_spec size (S (length l))) as [Q|Q]; cbn [refute bind]; [left; auto|right]. split; [exact Q|].
      rewrite (climb_value root l t vs [] D A). cbn [bind]. unfold fill. rewrite app_nil_r, LV. destruct (Nat.ltb_spec size (S (length l))); [lia|]. reflexivity.
    - destruct count; reflexivity.
  Qed.
  Lemma values_at_ok t n l size : node_at h t = Some n ->
    ((size <= length l)%nat /\ get_values_at_position h t l size = Err ERR_INVALID_VALUE) \/
    ((length l < size)%nat /\
     ((exists vs, values_along h t l vs /\ get_values_at_position h t l size = Ok (vs ++ repeat ccs_none (size - length vs))) \/
      (breaks h t l /\ get_values_at_position h t l size = Err ERR_INVALID_TREE) \/
      (strays h t l /\ get_values_at_position h t l size = Err ERR_OUT_OF_BOUNDS))).
  Proof.
    intro E. unfold get_values_at_position. rewrite (read_node _ _ _ E). cbn [bind]. destruct (Nat.ltb_spec size (S (length l))) as [Q|Q]; cbn [refute bind]; [left; split; [lia|reflexivity]|right].
    split; [lia|]. destruct (values_loop_ok l t n E) as [(vs & -> & A)|[[-> B]|[-> B]]]; cbn [bind]; [left|right; left; auto|right; right; auto].
    exists (n_value n :: vs). split; [exact A|]. pose proof (along_length _ _ _ A) as L. cbn in L. unfold fill. cbn [length]. destruct (Nat.ltb_spec size (S (length vs))); [lia|]. reflexivity.
  Qed.

  (** *** Drawing a position *)
  Lemma search_range values u : forall fuel lower upper index i, search_loop fuel values u lower upper index = Ok i -> 0 <= i /\ i + 1 < lenZ values.
  Proof.
    assert (RV : forall i v, read_value values i = Ok v -> 0 <= i < lenZ values).
    { intros i v. unfold read_value, lenZ. destruct (Z.ltb_spec i 0); [discriminate|]. destruct (nth_error values (Z.to_nat i)) eqn:N; [|discriminate]. intros _.
      assert (Z.to_nat i < length values)%nat by (apply nth_error_Some; congruence). lia. }
    induction fuel as [|fuel IH]; intros lower upper index i; cbn [search_loop]; [discriminate|].
    destruct (read_value values index) as [v| |] eqn:R; cbn [bind]; try discriminate. destruct (flt u v).
    - destruct (IntervalModel.chk64 _) as [s| |]; cbn [bind]; try discriminate. apply IH.
    - destruct (read_value values (index + 1)) as [w| |] eqn:R'; cbn [bind]; try discriminate. destruct (fge u w).
      + destruct (IntervalModel.chk64 _) as [s| |]; cbn [bind]; try discriminate. apply IH.
      + intro Q. injection Q as <-. apply RV in R, R'. lia.
  Qed.
  Lemma walk_valid fuel : forall t n us l rest, node_at h t = Some n -> walk fuel h t us = Ok (l, rest) ->
    ((exists d, designates h t l d) \/ dangling h t l) /\ exists used, us = used ++ rest.
  Proof.
    induction fuel as [|fuel IH]; intros t n us l rest E W; cbn [walk] in W; [discriminate|].
    rewrite (read_node _ _ _ E) in W. cbn [bind] in W. destruct us as [|u us]; [discriminate|]. assert (AL : alive h t) by (apply alive_node; eauto).
    unfold tree_sample in W. destruct (feq (n_sum n) 0); cbn [refute bind] in W; [discriminate|].
    destruct (dichotomic_search _ (n_areas n) u) as [i| |] eqn:DS; cbn [bind] in W; try discriminate.
    assert (RG : 0 <= i <= Z.of_nat (n_arity n)).
    { unfold dichotomic_search in DS. destruct (int_of_f _) as [x| |]; cbn [bind] in DS; try discriminate. apply search_range in DS.
      destruct (SH t n E) as (_ & _ & _ & _ & _ & LA & _). unfold lenZ in DS. lia. }
    destruct (Z.eqb_spec i (Z.of_nat (n_arity n))) as [Q|Q].
    - injection W as <- <-. split; [left; exists t; now constructor|]. now exists [u].
    - assert (I : (Z.to_nat i < n_arity n)%nat) by lia. pose proof (child_error n t _ E I) as C. destruct (nth (Z.to_nat i) (n_children n) None) as [c|].
      + destruct (child_alive t n _ c E C) as (m & Em). destruct (walk fuel h c us) as [[l' us']| |] eqn:W'; cbn [bind] in W; try discriminate. injection W as <- <-.
        destruct (IH c m us l' us' Em W') as [V (used & ->)]. split; [|now exists (u :: used)]. destruct V as [(d & D)|(l1 & j & d & v & -> & D & Ev & N)].
        * left. exists d. eapply des_down; [apply (seen_of _ _ _ E)|exact C|exact D].
        * right. exists (Z.to_nat i :: l1), j, d, v. split; [reflexivity|]. split; [|auto]. eapply des_down; [apply (seen_of _ _ _ E)|exact C|exact D].
      + injection W as <- <-. split; [|now exists [u]]. right. exists [], (Z.to_nat i), t, (view_of n). split; [reflexivity|]. split; [now constructor|]. split; [now apply seen_of|exact C].
  Qed.
End Forest.

Lemma samplable_kid T c : samplable T -> In (Some c) (t_kids T) -> samplable c.
Proof.
  destruct T as [v own b kids ud]. cbn [samplable t_kids]. intros (_ & _ & _ & A). clear -A. induction kids as [|[k|] kids IH]; intros []; try discriminate.
  - injection H as ->. apply A.
  - apply IH; [apply A|assumption].
  - apply IH; assumption.
Qed.
Lemma rep_kids_nth h l kids i c : rep_kids h l kids -> nth_error l i = Some (Some c) -> exists T, nth_error kids i = Some (Some T) /\ represents h c T.
Proof. intro K. revert i. induction K; intros [|i] N; cbn in *; try discriminate; [eapply IHK; eauto|injection N as ->; eauto|eapply IHK; eauto]. Qed.
Lemma samplable_weight T : samplable T -> finite (weight_of T) /\ klt (fkey 0) (fkey (weight_of T)) /\ finite (fdiv ONE (weight_of T)).
Proof. destruct T. cbn [samplable]. tauto. Qed.
Lemma walk_total h : inv h -> forall fuel t n T d us, node_at h t = Some n -> represents h t T -> samplable T -> rooted h t d ->
  (length h <= d + fuel)%nat -> (fuel <= length us)%nat -> Forall unit_draw us -> exists l rest, walk fuel h t us = Ok (l, rest).
Proof.
  intro IV. pose proof IV as (F & SH & SU & SL).
  induction fuel as [|fuel IH]; intros t n T d us E R S RT FU LU U.
  - pose proof (rooted_len _ _ _ RT). lia.
  - cbn [walk]. rewrite (read_node _ _ _ E). cbn [bind]. destruct us as [|u us]; [cbn in LU; lia|]. inversion U as [|u' us' U1 U2]; subst.
    destruct (samplable_weight T S) as (FT & PT & FI). destruct (rep_sampled h IV t T R n E) as (_ & SW & _).
    assert (NZ : feq (n_sum n) 0 = false).
    { destruct (feq (n_sum n) 0) eqn:Q; [|reflexivity]. apply feq_key in Q. unfold same_num in SW. rewrite SW in Q. change (fkey 0) with (Some 0) in *.
      destruct (fkey (weight_of T)); cbn in *; [lia|contradiction]. }
    unfold tree_sample. rewrite NZ. cbn [refute bind].
    destruct (sample_selects h t n T u IV E R FT PT FI U1) as (i & w & DS & NC & _). rewrite DS. cbn [bind].
    destruct (Z.eqb_spec (Z.of_nat i) (Z.of_nat (n_arity n))) as [Q|Q]; [eauto|]. rewrite Nat2Z.id.
    destruct (nth i (n_children n) None) as [c|] eqn:C; [|eauto].
    destruct (child_slot h t n i c F E C) as (m & Em & Pm & Im).
    assert (N : nth_error (n_children n) i = Some (Some c)) by (rewrite nth_nth_error in C; destruct (nth_error (n_children n) i); congruence).
    inversion R as [id v kids Ev K]; subst. rewrite (seen_of _ _ _ E) in Ev. injection Ev as <-. destruct (rep_kids_nth _ _ _ _ _ K N) as (Tc & NK & RC).
    destruct (IH c m Tc (Datatypes.S d) us Em RC) as (l & rest & ->); [eapply samplable_kid; [exact S|eapply nth_error_In; exact NK]|eapply rooted_step; [apply (seen_of _ _ _ Em)|apply parent_view; eauto|exact RT]|lia|cbn in LU; lia|exact U2|].
    cbn [bind]. eauto.
Qed.

(** ** Attaching a tree below itself *)
Lemma update_loop_cycle (S : nat -> Prop) fuel : forall h t i w, S t ->
  (forall x, S x -> exists n p, node_at h x = Some n /\ n_parent n = Some p /\ S p) ->
  update_loop fuel h t i w = UB UBDiverge.
Proof.
  induction fuel as [|fuel IH]; intros h t i w T C; cbn [update_loop]; [reflexivity|].
  destruct (C t T) as (n & p & E & P & Sp). rewrite (read_node _ _ _ E). cbn [bind]. rewrite P. apply IH; [exact Sp|].
  intros x X. rewrite node_write by (eapply node_len; eauto). destruct (Nat.eqb_spec x t) as [->|NX]; [|now apply C].
  eexists. exists p. split; [reflexivity|]. split; [exact P|exact Sp].
Qed.
Lemma set_child_cycle h t n c m i : inv h -> node_at h t = Some n -> node_at h c = Some m -> under h c t ->
  n_parent m = None -> nth_error (n_children n) i = Some None ->
  (~ keq (fkey (fmul (n_sum m) (n_bias m))) (fkey ONE) /\ set_child h t i c = UB UBDiverge) \/
  (keq (fkey (fmul (n_sum m) (n_bias m))) (fkey ONE) /\ exists h', set_child h t i c = Ok h' /\ ~ forest h').
Proof.
  intros (F & SH & SU & SL) Et Ec UN PM NC. unfold set_child. rewrite (read_node _ _ _ Et), (read_node _ _ _ Ec). cbn [bind].
  destruct (SH t n Et) as (LC & LW & PIn & RW & RB & LA & AB). destruct (SH c m Ec) as (LCm & LWm & PIm & RWm & RBm & _).
  assert (I : (i < n_arity n)%nat) by (rewrite <- LC; apply nth_error_Some; congruence).
  destruct (Nat.leb_spec (n_arity n) i) as [Q|_]; [lia|]. cbn [refute bind]. rewrite nth_nth_error, NC, PM, (PIm PM). cbn [is_some orb negb Nat.eqb refute bind].
  pose proof (node_len _ _ _ Et) as Lt. pose proof (node_len _ _ _ Ec) as Lc.
  set (h1 := write h c (with_parent m (Some t) i)).
  assert (E1 : exists n1, node_at h1 t = Some n1 /\ n_weights n1 = n_weights n /\ n_arity n1 = n_arity n /\ n_parent n1 = (if Nat.eqb t c then Some t else n_parent n)).
  { unfold h1. rewrite node_write by auto. destruct (Nat.eqb_spec t c) as [->|]; [|eauto]. rewrite Et in Ec. injection Ec as <-. eexists. split; [reflexivity|]. auto. }
  destruct E1 as (n1 & E1 & W1 & A1 & P1). rewrite (read_node _ _ _ E1). cbn [bind].
  set (h2 := write h1 t (with_children n1 (set_nth (n_children n1) i (Some c)))).
  assert (L1 : (t < length h1)%nat) by (eapply node_len; eauto).
  assert (CYC : forall x, under h c x -> exists k p, node_at h2 x = Some k /\ n_parent k = Some p /\ under h c p).
  { intros x X. unfold h2. rewrite node_write by auto. destruct (Nat.eqb_spec x t) as [->|NX].
    - eexists. destruct (Nat.eqb_spec t c) as [->|NT].
      + exists c. split; [reflexivity|]. split; [cbn; now rewrite P1|constructor].
      + inversion X as [|id v p j Ev Pv U]; subst; [contradiction|]. apply seen_node in Ev as (k & Ek & ->). rewrite Et in Ek. injection Ek as <-. apply parent_view in Pv as [Pv _].
        exists p. split; [reflexivity|]. split; [cbn; now rewrite P1|exact U].
    - unfold h1. rewrite node_write by auto. destruct (Nat.eqb_spec x c) as [->|NXC].
      + eexists. exists t. split; [reflexivity|]. split; [reflexivity|exact UN].
      + inversion X as [|id v p j Ev Pv U]; subst; [contradiction|]. apply seen_node in Ev as (k & Ek & ->). apply parent_view in Pv as [Pv _]. exists k, p. auto. }
  assert (E2 : node_at h2 t = Some (with_children n1 (set_nth (n_children n1) i (Some c)))) by (unfold h2; rewrite node_write, Nat.eqb_refl by auto; reflexivity).
  unfold update_weight. rewrite (read_node _ _ _ E2). cbn [bind]. cbn [n_arity with_children n_weights]. rewrite A1, W1.
  destruct (Nat.ltb_spec (n_arity n) i) as [Q|_]; [lia|]. cbn [refute bind].
  assert (SLOT : same_num (nth i (n_weights n) 0) ONE).
  { pose proof (SL t n i Et I (fun X => X)) as S. rewrite (nth_error_nth _ _ None NC) in S. exact S. }
  destruct (feq (fmul (n_sum m) (n_bias m)) (nth i (n_weights n) 0)) eqn:FE.
  - right. apply feq_key in FE. unfold same_num in SLOT. rewrite SLOT in FE. split; [exact FE|]. exists h2. split; [reflexivity|]. intro F2.
    destruct (seen_rooted _ _ _ F2 E2) as [d R]. clearbody h2. clear -R CYC UN. revert CYC UN. induction R as [x v E P|x v p j d E P R IH]; intros C U;
      destruct (C x U) as (k & q & Ek & Pk & Uq); apply seen_node in E as (k' & Ek' & ->); rewrite Ek in Ek'; injection Ek' as <-.
    + apply parent_view_none in P. congruence.
    + apply parent_view in P as [P _]. apply IH; [exact C|congruence].
  - left. split; [|apply (update_loop_cycle (under h c)); auto]. intro K. unfold same_num in SLOT. rewrite <- SLOT in K. apply feq_key in K. congruence.
Qed.
