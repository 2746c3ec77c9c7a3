(** Creating and destroying nodes; all operations together. *)
From Coq Require Import ZArith List Bool Lia ZifyBool Arith.
From Verif Require Import Base Datum CodecModel FloatModel FloatSpec FloatProofs FloatRound IntervalSpec DistModel DistSpec DistRoulette CmpSpec TreeModel TreeSpec TreeHeap TreeProofs TreeOps.
Import ListNotations.
Open Scope Z_scope.

(** ** Creation *)
Definition good_value (v : value) : Prop :=
  match v with VNone | VInt _ | VFloat _ | VBool _ | VString (Some _) => True | _ => False end.
Lemma node_app h n x : node_at (h ++ [Some n]) x = if Nat.eqb x (length h) then Some n else node_at h x.
Proof.
  unfold node_at. destruct (Nat.eqb_spec x (length h)) as [->|N].
  - rewrite nth_error_app2, Nat.sub_diag by lia. reflexivity.
  - destruct (Nat.lt_ge_cases x (length h)) as [L|L]; [now rewrite nth_error_app1|].
    rewrite nth_error_app2 by lia. destruct (x - length h)%nat as [|k] eqn:K; [lia|]. cbn [nth_error]. rewrite (proj2 (nth_error_None h x)) by lia. now destruct k.
Qed.
Lemma option_eq_dec {A} (D : forall a b : A, {a = b} + {a <> b}) (a b : option A) : {a = b} + {a <> b}.
Proof. decide equality. Qed.
Lemma nth_repeat_none {A} k n (a : A) d : nth k (repeat a n) d = if (k <? n)%nat then a else d.
Proof. revert k; induction n as [|n IH]; intros [|k]; cbn; auto. rewrite IH. reflexivity. Qed.
Lemma new_node_inv h arity value : inv h -> Z.of_nat arity <= 2 ^ 40 -> inv (h ++ [Some (new_node arity value)]).
Proof.
  intros (F & SH & SU & SL) A. set (nw := new_node arity value). set (h' := h ++ [Some nw]).
  assert (N : forall x, node_at h' x = if Nat.eqb x (length h) then Some nw else node_at h x) by apply node_app.
  assert (O : forall x n, node_at h x = Some n -> node_at h' x = Some n).
  { intros x n E. rewrite N. pose proof (node_len _ _ _ E). destruct (Nat.eqb_spec x (length h)); [lia|exact E]. }
  assert (V : forall x v, seen h x = Some v -> seen h' x = Some v).
  { intros x v E. apply seen_node in E. destruct E as (n & E & ->). apply seen_of. auto. }
  assert (NIL : forall k c, nth_error (repeat (@None nat) arity) k <> Some (Some c)).
  { intros k c Q. apply nth_error_In, repeat_spec in Q. discriminate. }
  assert (R : forall x d, rooted h x d -> rooted h' x d).
  { intros x d R. induction R; [eapply rooted_top|eapply rooted_step]; eauto. }
  assert (ONES : n_sum nw = total (n_weights nw)) by (unfold nw, new_node; cbn [n_sum n_weights]; rewrite ones_total by lia; reflexivity).
  split; [|split; [|split]].
  - intros x v E. apply seen_node in E. destruct E as (n & E & ->). rewrite N in E. destruct (Nat.eqb_spec x (length h)) as [->|NX].
    + injection E as <-. cbn. split; [apply repeat_length|]. split; [intros k c Q; now apply NIL in Q|]. split; [discriminate|].
      exists 0%nat. eapply rooted_top; [apply seen_of; rewrite N, Nat.eqb_refl; reflexivity|reflexivity].
    + destruct (F x _ (seen_of _ _ _ E)) as (L & D & P & d & Rx). split; [exact L|]. split; [|split].
      * intros k c Q. destruct (D k c Q) as (u & Eu & Pu). eauto.
      * intros p k Q. destruct (P p k Q) as (u & Eu & Pu). eauto.
      * eauto.
  - intros x n E. rewrite N in E. destruct (Nat.eqb_spec x (length h)) as [->|NX]; [injection E as <-|now apply (SH x)].
    unfold nw, new_node. refine (conj _ (conj _ (conj _ (conj _ (conj _ (conj _ _)))))); cbn [n_children n_weights n_arity n_parent n_index n_bias n_areas].
    + apply repeat_length.
    + apply repeat_length.
    + reflexivity.
    + apply Forall_forall. intros w W. apply repeat_spec in W. subst. apply in_range_one.
    + apply in_range_one.
    + now rewrite normalize_length, repeat_length.
    + exact A.
  - intros x n E _. rewrite N in E. destruct (Nat.eqb_spec x (length h)) as [->|NX]; [injection E as <-|now apply (SU x)].
    split; [exact ONES|]. reflexivity.
  - intros x n k E K _. rewrite N in E. destruct (Nat.eqb_spec x (length h)) as [->|NX].
    + injection E as <-. unfold nw, new_node in *. cbn [n_children n_weights n_arity] in *. rewrite !nth_repeat_none.
      destruct (Nat.ltb_spec k (S arity)); [|lia]. destruct (Nat.ltb_spec k arity); [|lia]. reflexivity.
    + assert (X : expected h' (nth k (n_children n) None) = expected h (nth k (n_children n) None)).
      { destruct (nth k (n_children n) None) as [c|] eqn:C; [|reflexivity]. destruct (child_slot _ _ _ _ _ F E C) as (m & Em & _). cbn. now rewrite Em, (O c m Em). }
      rewrite X. now apply (SL x n k).
Qed.
Lemma create_ok h arity value : 0 <= arity <= 2 ^ 40 -> wf_datum value ->
  match d_val value with VString (Some s) => lenZ s <= 2 ^ 40 | _ => True end ->
  (good_value (d_val value) /\ create_tree h arity value = Ok (length h, h ++ [Some (new_node (Z.to_nat arity) value)])) \/
  (~ good_value (d_val value) /\ create_tree h arity value = Err ERR_INVALID_VALUE).
Proof.
  intros A W S. unfold create_tree.
  assert (BIG : forall strs, 0 <= strs <= 2 ^ 41 -> (do _ <- refute (INT64_MAX - 1 <? arity) ERR_INVALID_VALUE;
     do strs <- Ok strs;
     let bytes := TREE_BYTES + (arity + 1) * 8 + (arity + 2) * 8 + arity * 8 + strs in
     do _ <- refute (MAX_BLOCK <? wrap 64 bytes) ERR_OUT_OF_MEMORY;
     if wrap 64 bytes <? bytes then UB UBBounds else Ok (length h, h ++ [Some (new_node (Z.to_nat arity) value)])) =
     Ok (length h, h ++ [Some (new_node (Z.to_nat arity) value)])).
  { intros strs SS. unfold INT64_MAX, TREE_BYTES, MAX_BLOCK. destruct (Z.ltb_spec (2 ^ 63 - 1 - 1) arity); [lia|]. cbn [refute bind].
    cbv zeta. unfold wrap. rewrite Z.mod_small by lia.
    destruct (Z.ltb_spec (2 ^ 56) (136 + (arity + 1) * 8 + (arity + 2) * 8 + arity * 8 + strs)); [lia|]. cbn [refute bind].
    now rewrite Z.ltb_irrefl. }
  unfold wf_datum in W. destruct (d_val value) as [| | | |[s|]| | |ty ?] eqn:E; cbn [type_of good_value] in *;
    try (left; split; [exact I|]; apply (BIG 0); lia).
  - left. split; [exact I|]. apply BIG. unfold lenZ in *. lia.
  - right. split; [auto|]. destruct (INT64_MAX - 1 <? arity); reflexivity.
  - right. auto.
  - right. auto.
  - right. split; [auto|]. cbn in W. replace (TYPE_STRING <? ty) with true; [reflexivity|]. symmetry. apply Z.ltb_lt. unfold TYPE_STRING. lia.
Qed.

(** ** Destruction *)
Lemma detach_ok l : forall h, (forall c, In (Some c) l -> exists m, node_at h c = Some m) ->
  exists h', detach h l = Ok h' /\ length h' = length h /\
    (forall x m, In (Some x) l -> node_at h x = Some m -> node_at h' x = Some (with_parent m None 0)) /\
    (forall x, ~ In (Some x) l -> node_at h' x = node_at h x).
Proof.
  induction l as [|[c|] l IH]; intros h H; cbn [detach].
  - exists h. split; [reflexivity|]. split; [reflexivity|]. split; [intros x m []|reflexivity].
  - destruct (H c (or_introl eq_refl)) as (m & Em). rewrite (read_node _ _ _ Em). cbn [bind]. pose proof (node_len _ _ _ Em) as L.
    destruct (IH (write h c (with_parent m None 0))) as (h' & D & Lh & A & B).
    + intros c' I. rewrite node_write by auto. destruct (Nat.eqb_spec c' c); [eauto|]. apply H. now right.
    + exists h'. split; [exact D|]. split; [rewrite Lh; apply write_length|]. split.
      * intros x k I Ek. destruct (in_dec (option_eq_dec Nat.eq_dec) (Some x) l) as [J|J].
        -- destruct (Nat.eq_dec x c) as [->|NX].
           ++ rewrite Em in Ek. injection Ek as <-. rewrite (A c (with_parent m None 0)); [reflexivity|exact J|]. rewrite node_write, Nat.eqb_refl by auto. reflexivity.
           ++ apply A; [exact J|]. rewrite node_write by auto. destruct (Nat.eqb_spec x c); [contradiction|exact Ek].
        -- destruct I as [I|I]; [|contradiction]. injection I as ->. rewrite B by auto. rewrite Em in Ek. injection Ek as <-. rewrite node_write, Nat.eqb_refl by auto. reflexivity.
      * intros x I. rewrite B by (intro J; apply I; now right). rewrite node_write by auto. destruct (Nat.eqb_spec x c) as [->|]; [|reflexivity]. exfalso. apply I. now left.
  - destruct (IH h) as (h' & D & Lh & A & B); [intros c I; apply H; now right|]. exists h'. split; [exact D|]. split; [exact Lh|]. split.
    + intros x m [I|I] E; [discriminate|now apply A].
    + intros x I. apply B. intro J. apply I. now right.
Qed.
Lemma destroy_ok h t n : inv h -> node_at h t = Some n -> n_parent n = None ->
  exists h', destroy h t = Ok h' /\ length h' = length h /\ inv h' /\ node_at h' t = None /\
    (forall x m, node_at h x = Some m -> n_parent m = Some t -> node_at h' x = Some (with_parent m None 0)) /\
    (forall x, x <> t -> (forall m, node_at h x = Some m -> n_parent m <> Some t) -> node_at h' x = node_at h x).
Proof.
  intros (F & SH & SU & SL) Et PT. unfold destroy. rewrite (read_node _ _ _ Et). cbn [bind].
  assert (KID : forall c, In (Some c) (n_children n) <-> exists m, node_at h c = Some m /\ n_parent m = Some t).
  { intro c. split; intro H.
    - apply In_nth_error in H. destruct H as [k K]. destruct (child_slot h t n k c F Et) as (m & Em & Pm & _); [now rewrite nth_nth_error, K|]. eauto.
    - destruct H as (m & Em & Pm). destruct (parent_slot _ _ _ _ F Em Pm) as (n0 & En & C & _). rewrite Et in En. injection En as <-. eapply nth_error_In; eauto. }
  destruct (detach_ok (n_children n) h) as (h1 & D & L & A & B); [intros c I; apply KID in I; destruct I as (m & Em & _); eauto|].
  rewrite D. cbn [bind]. set (h' := set_nth h1 t None). pose proof (node_len _ _ _ Et) as Lt.
  assert (N : forall x, node_at h' x = if Nat.eqb x t then None else node_at h1 x) by (intro x; unfold h'; apply node_clear; lia).
  assert (Nt : node_at h' t = None) by now rewrite N, Nat.eqb_refl.
  assert (NK : forall x m, node_at h x = Some m -> n_parent m = Some t -> node_at h' x = Some (with_parent m None 0)).
  { intros x m E P. assert (x <> t) by (intros ->; congruence). rewrite N. destruct (Nat.eqb_spec x t); [contradiction|]. apply A; [|exact E]. apply KID. eauto. }
  assert (NO : forall x, x <> t -> (forall m, node_at h x = Some m -> n_parent m <> Some t) -> node_at h' x = node_at h x).
  { intros x X Q. rewrite N. destruct (Nat.eqb_spec x t); [contradiction|]. apply B. rewrite KID. intros (m & Em & Pm). now apply (Q m Em). }
  assert (INV : forall x m', node_at h' x = Some m' -> exists m, node_at h x = Some m /\ x <> t /\
     ((n_parent m = Some t /\ m' = with_parent m None 0) \/ (n_parent m <> Some t /\ m' = m))).
  { intros x m' E. assert (X : x <> t) by (intros ->; congruence). destruct (node_at h x) as [m|] eqn:Em.
    - exists m. split; [reflexivity|]. split; [exact X|]. destruct (option_eq_dec Nat.eq_dec (n_parent m) (Some t)) as [P|P].
      + left. split; [exact P|]. rewrite (NK x m Em P) in E. congruence.
      + right. split; [exact P|]. rewrite (NO x X) in E; [congruence|]. intros k Ek. congruence.
    - rewrite (NO x X) in E; [congruence|]. intros k Ek. congruence. }
  assert (ALIVE : forall x m, node_at h x = Some m -> x <> t -> exists m', node_at h' x = Some m' /\ n_sum m' = n_sum m /\ n_bias m' = n_bias m /\ n_children m' = n_children m /\
     (n_parent m <> Some t -> m' = m)).
  { intros x m Em X. destruct (option_eq_dec Nat.eq_dec (n_parent m) (Some t)) as [P|P].
    - exists (with_parent m None 0). split; [now apply NK|]. repeat split. contradiction.
    - exists m. split; [|auto]. rewrite NO; auto. intros k Ek. congruence. }
  exists h'. split; [reflexivity|]. split; [unfold h'; rewrite set_nth_length; exact L|]. split; [|split; [exact Nt|split; [exact NK|exact NO]]].
  assert (R : forall x d, rooted h x d -> x <> t -> exists d', rooted h' x d').
  { intros x d R. induction R as [x v E P|x v p i d E P R IH]; intro X; apply seen_node in E; destruct E as (m & Em & ->).
    - exists 0%nat. apply parent_view_none in P. eapply rooted_top; [apply seen_of; rewrite NO; [exact Em|exact X|]; intros k Ek; congruence|now apply parent_view_none].
    - apply parent_view in P. destruct P as [P I]. destruct (Nat.eq_dec p t) as [->|NP].
      + exists 0%nat. eapply rooted_top; [apply seen_of, (NK x m Em P)|reflexivity].
      + destruct (IH NP) as [d' R']. exists (S d'). eapply rooted_step; [apply seen_of; rewrite NO; [exact Em|exact X|]; intros k Ek; congruence| |exact R'].
        apply parent_view. split; eauto. }
  split; [|split; [|split]].
  - intros x v E. apply seen_node in E. destruct E as (m' & E & ->). destruct (INV x m' E) as (m & Em & X & M).
    destruct (F x _ (seen_of _ _ _ Em)) as (LL & DD & PP & d & Rx).
    assert (SAME : n_children m' = n_children m /\ n_arity m' = n_arity m) by (destruct M as [[_ ->]|[_ ->]]; auto). destruct SAME as [SC SA].
    cbn [v_children v_arity view_of] in *. rewrite SC, SA. split; [exact LL|]. split; [|split].
    + intros k c Q. destruct (DD k c Q) as (u & Eu & Pu). apply seen_node in Eu. destruct Eu as (k' & Ek & ->). apply parent_view in Pu. destruct Pu as [Pu Iu].
      assert (c <> t) by (intros ->; congruence). destruct (ALIVE c k' Ek H) as (k'' & Ek' & _ & _ & _ & S).
      exists (view_of k''). split; [now apply seen_of|]. apply parent_view. rewrite S by congruence. auto.
    + intros p k Q. apply parent_view in Q. destruct M as [[_ ->]|[P ->]]; [destruct Q; discriminate|].
      destruct (PP p k) as (u & Eu & Cu); [now apply parent_view|]. apply seen_node in Eu. destruct Eu as (k' & Ek & ->).
      assert (p <> t) by (intros ->; tauto). destruct (ALIVE p k' Ek H) as (k'' & Ek' & _ & _ & CC & _). exists (view_of k''). split; [now apply seen_of|]. cbn. now rewrite CC.
    + destruct (R x d Rx X) as [d' R']. eauto.
  - intros x m' E. destruct (INV x m' E) as (m & Em & X & M). destruct (SH x m Em) as (A1 & A2 & A3 & A4 & A5).
    destruct M as [[_ ->]|[_ ->]]; [|exact (SH x m Em)]. exact (conj A1 (conj A2 (conj (fun _ => eq_refl) (conj A4 A5)))).
  - intros x m' E _. destruct (INV x m' E) as (m & Em & X & M). pose proof (SU x m Em (fun Y => Y)). destruct M as [[_ ->]|[_ ->]]; exact H.
  - intros x m' k E K _. destruct (INV x m' E) as (m & Em & X & M).
    assert (S : same_num (nth k (n_weights m) 0) (expected h' (nth k (n_children m) None))).
    { assert (K' : (k < n_arity m)%nat) by (destruct M as [[_ ->]|[_ ->]]; exact K).
      pose proof (SL x m k Em K' (fun Y => Y)) as S. destruct (nth k (n_children m) None) as [c|] eqn:C; [|exact S].
      destruct (child_slot _ _ _ _ _ F Em C) as (mc & Ec & Pc & _). assert (c <> t) by (intros ->; congruence).
      destruct (ALIVE c mc Ec H) as (mc' & Ec' & S1 & S2 & _). cbn in *. rewrite Ec'. rewrite Ec in S. now rewrite S1, S2. }
    destruct M as [[_ ->]|[_ ->]]; exact S.
Qed.

(** ** User data *)
Lemma set_user_data_ok h t n ud : inv h -> node_at h t = Some n ->
  exists h', set_user_data h t ud = Ok h' /\ length h' = length h /\ inv h' /\
    forall x, seen h' x = changed (seen h) t (Some (v_with_ud (view_of n) ud)) x.
Proof.
  intros (F & SH & SU & SL) E. unfold set_user_data. rewrite (read_node _ _ _ E). cbn [bind]. set (n' := mkNode _ _ _ _ _ _ _ _ _ _).
  pose proof (node_len _ _ _ E) as L. eexists. split; [reflexivity|]. split; [apply write_length|]. split.
  - split; [|split; [|split]].
    + eapply forest_links; [|exact F]. eapply seen_links; eauto.
    + intros x m Em. rewrite node_write in Em by auto. destruct (Nat.eqb_spec x t); [injection Em as <-; exact (SH t n E)|now apply (SH x)].
    + intros x m Em _. rewrite node_write in Em by auto. destruct (Nat.eqb_spec x t); [injection Em as <-; exact (SU t n E (fun X => X))|now apply (SU x)].
    + intros x m k Em K _. rewrite (expected_same h t n n') by auto. rewrite node_write in Em by auto.
      destruct (Nat.eqb_spec x t); [injection Em as <-; exact (SL t n k E K (fun X => X))|now apply (SL x m k)].
  - intro x. rewrite seen_write by auto. reflexivity.
Qed.

(** ** All operations *)
Lemma step_ok h o : inv h -> allowed h o -> outcome h o (step h o) /\ forall h', step h o = Ok h' -> inv h'.
Proof.
  intros IV AL. destruct o as [arity value|t i c|t w|t b|t ud|t]; cbn [allowed step] in *.
  - destruct AL as (A & W & SL). destruct (create_ok h arity value A W SL) as [[G ->]|[G ->]]; cbn [bind].
    + split.
      * constructor; [exact G|rewrite app_length; cbn; lia|]. intro x. unfold seen at 1, changed. rewrite node_app. destruct (Nat.eqb_spec x (length h)); [|reflexivity].
        cbn [option_map]. f_equal. unfold view_of, new_node. cbn [n_arity n_value n_weights n_bias n_children n_parent n_ud]. f_equal. rewrite nth_repeat_none. destruct (Nat.ltb_spec (Z.to_nat arity) (S (Z.to_nat arity))); [reflexivity|lia].
      * intros h' E. injection E as <-. apply new_node_inv; [exact IV|lia].
    + split; [|discriminate]. apply out_bad_value. unfold good_value in G. destruct (d_val value) as [| | | |[]| | |]; tauto.
  - destruct AL as (At & Ac & NU). apply alive_node in At, Ac. destruct At as (n & En), Ac as (m & Em).
    destruct (set_child_ok h t n c m i IV En Em NU) as [[I ->]|[(d & C & ->)|[(C & P & ->)|(C & P & h' & -> & L & IV' & V)]]].
    + split; [|discriminate]. eapply out_child_bounds; [apply seen_of; eauto|exact I].
    + split; [|discriminate]. eapply out_child_taken; [apply seen_of; eauto|exact C].
    + split; [|discriminate]. destruct (n_parent m) as [p|] eqn:PM; [|congruence].
      apply (out_child_parent h t i c (view_of n) (view_of m) (p, n_index m)); [now apply seen_of|exact C|now apply seen_of|]. now apply parent_view.
    + split; [|intros h'' E; injection E as <-; exact IV'].
      eapply (out_child h t i c (view_of n) (view_of m)); [now apply seen_of|now apply seen_of|exact C|now apply parent_view_none| |exact V|exact L].
      apply put_at_set. apply nth_error_Some. cbn. congruence.
  - destruct AL as (At & W). apply alive_node in At. destruct At as (n & En).
    destruct (set_weight_ok h t n w IV En W) as [[N ->]|(N & h' & w' & -> & L & IV' & R & V)].
    + split; [|discriminate]. now constructor.
    + split; [|intros h'' E; injection E as <-; exact IV']. eapply out_weight; [apply (seen_of _ _ _ En)|exact N|exact R|exact V|exact L].
  - destruct AL as (At & W). apply alive_node in At. destruct At as (n & En).
    destruct (set_bias_ok h t n b IV En W) as [[N ->]|(N & h' & w' & -> & L & IV' & R & V)].
    + split; [|discriminate]. now constructor.
    + split; [|intros h'' E; injection E as <-; exact IV']. eapply out_bias; [apply (seen_of _ _ _ En)|exact N|exact R|exact V|exact L].
  - apply alive_node in AL. destruct AL as (n & En). destruct (set_user_data_ok h t n ud IV En) as (h' & -> & L & IV' & V).
    split; [|intros h'' E; injection E as <-; exact IV']. eapply out_user_data; [apply (seen_of _ _ _ En)|exact V|exact L].
  - destruct AL as (v & Ev & Pv). apply seen_node in Ev as (n & En & ->). apply parent_view_none in Pv.
    destruct (destroy_ok h t n IV En Pv) as (h' & -> & L & IV' & NT & NK & NO).
    split; [|intros h'' E; injection E as <-; exact IV'].
    eapply out_destroy; [apply seen_of; exact En|unfold seen; now rewrite NT| | |exact L].
    + intros x u i Eu Pu. apply seen_node in Eu as (m & Em & ->). apply parent_view in Pu as [Pu _]. now rewrite (seen_of _ _ _ (NK x m Em Pu)).
    + intros x X Q. unfold seen. rewrite NO; [reflexivity|exact X|]. intros m Em Pm. apply (Q (view_of m) (n_index m)); [now apply seen_of|now apply parent_view].
Qed.
Lemma inv_nil : inv [].
Proof.
  assert (N : forall x, node_at [] x = None) by (intros [|x]; reflexivity).
  split; [|split; [|split]].
  - intros x v E. unfold seen in E. now rewrite N in E.
  - intros x n E. now rewrite N in E.
  - intros x n E. now rewrite N in E.
  - intros x n k E. now rewrite N in E.
Qed.
Lemma reached_inv h : reached h -> inv h.
Proof. induction 1 as [|h o h' R IH A S]; [apply inv_nil|]. now apply (step_ok h o IH A). Qed.
