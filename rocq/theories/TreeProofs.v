(** Operations on trees keep forests whose weights agree with the trees. *)
From Coq Require Import ZArith List Bool Lia ZifyBool Arith Floats.SpecFloat.
From Verif Require Import Base Datum CodecModel FloatModel FloatSpec FloatProofs FloatRound FloatInt IntervalSpec DistModel DistSpec DistRoulette CmpSpec TreeModel TreeSpec TreeHeap.
Import ListNotations.
Open Scope Z_scope.

(** ** The invariant *)
Definition in_range (w : Z) : Prop := pattern w /\ ~ klt (fkey w) (fkey 0).
Definition shape (n : node) : Prop :=
  length (n_children n) = n_arity n /\ length (n_weights n) = S (n_arity n) /\
  (n_parent n = None -> n_index n = 0%nat) /\ Forall in_range (n_weights n) /\ in_range (n_bias n) /\
  length (n_areas n) = S (S (n_arity n)) /\ Z.of_nat (n_arity n) <= 2 ^ 40.
Definition summed (n : node) : Prop :=
  n_sum n = total (n_weights n) /\ (flt 0 (n_sum n) = true -> n_areas n = normalize_areas (n_weights n) (fdiv ONE (n_sum n))).
Definition expected (h : heap) (c : option nat) : Z :=
  match c with
  | None => ONE
  | Some c => match node_at h c with Some m => fmul (n_sum m) (n_bias m) | None => 0 end
  end.
(** all slots are right but maybe slot [i] of [t] *)
Definition slots_but (h : heap) (bad : nat -> nat -> Prop) : Prop :=
  forall x n k, node_at h x = Some n -> (k < n_arity n)%nat -> ~ bad x k ->
    same_num (nth k (n_weights n) 0) (expected h (nth k (n_children n) None)).
Definition shapes (h : heap) : Prop := forall x n, node_at h x = Some n -> shape n.
Definition sums_but (h : heap) (bad : nat -> Prop) : Prop := forall x n, node_at h x = Some n -> ~ bad x -> summed n.
Definition inv (h : heap) : Prop :=
  forest h /\ shapes h /\ sums_but h (fun _ => False) /\ slots_but h (fun _ _ => False).

(** Forests only depend on links *)
Definition same_links (h h' : heap) : Prop :=
  forall x, option_map (fun v => (v_arity v, v_children v, v_parent v)) (seen h x) = option_map (fun v => (v_arity v, v_children v, v_parent v)) (seen h' x).
Lemma links_parents h h' : same_links h h' -> same_parents h h'.
Proof. intros S x. specialize (S x). destruct (seen h x), (seen h' x); cbn in *; congruence. Qed.
Lemma links_to h h' x u : same_links h h' -> seen h' x = Some u -> exists v, seen h x = Some v /\ v_arity v = v_arity u /\ v_children v = v_children u /\ v_parent v = v_parent u.
Proof. intros S E. specialize (S x). rewrite E in S. destruct (seen h x) as [v|]; cbn in S; [|discriminate]. injection S as A B C. eauto. Qed.
Lemma links_sym h h' : same_links h h' -> same_links h' h.
Proof. intros S x. symmetry. apply S. Qed.
Lemma forest_links h h' : same_links h h' -> forest h -> forest h'.
Proof.
  intros S F x u E. destruct (links_to _ _ _ _ S E) as (v & Ev & A & B & C). destruct (F x v Ev) as (L & D & P & d & R).
  pose proof (links_sym _ _ S) as S'.
  split; [congruence|]. split; [|split].
  - intros i c N. rewrite <- B in N. destruct (D i c N) as (w & Ew & Pw). destruct (links_to _ _ _ _ S' Ew) as (w' & Ew' & _ & _ & Q). exists w'. split; [exact Ew'|congruence].
  - intros p i N. rewrite <- C in N. destruct (P p i N) as (w & Ew & Pw). destruct (links_to _ _ _ _ S' Ew) as (w' & Ew' & _ & Q & _). exists w'. split; [exact Ew'|congruence].
  - exists d. eapply rooted_same; [apply links_parents|]; eauto.
Qed.

(** ** Adding numbers that are not negative *)
Lemma in_range_one : in_range ONE. Proof. split; vm_compute; [split; congruence|congruence]. Qed.
Lemma in_range_cases w : in_range w <-> pattern w /\ (fkey w = None \/ nonneg w).
Proof.
  unfold in_range, nonneg, pattern. change (fkey 0) with (Some 0). destruct (fkey w) as [k|] eqn:E; cbn; split; intros [P H]; (split; [exact P|]).
  - right. split; [exact P|lia].
  - destruct H as [H|[_ H]]; [discriminate|lia].
  - now left.
  - auto.
Qed.
Lemma fold_pattern l : Forall in_range l -> forall s, pattern s -> pattern (fold_left fadd l s).
Proof. induction 1 as [|a l A F IH]; intros s S; cbn [fold_left]; [exact S|]. apply IH, fadd_pattern; [exact S|apply A]. Qed.
Lemma fold_in_range l : Forall in_range l -> in_range (fold_left fadd l 0).
Proof.
  intro F. apply in_range_cases. split.
  - apply fold_pattern; [exact F|]. vm_compute; split; congruence.
  - destruct (fkey (fold_left fadd l 0)) eqn:E; [right|now left].
    assert (N : fkey (fold_left fadd l 0) <> None) by congruence. destruct (fold_nan _ _ N) as [_ N'].
    apply (fold_nonneg l 0 nonneg_0). rewrite Forall_forall in *. intros x I.
    destruct (proj1 (in_range_cases x) (F x I)) as [_ [C|C]]; [|exact C]. now apply N' in I.
Qed.
Lemma total_in_range l : Forall in_range l -> in_range (total l).
Proof. rewrite <- sum_total. apply fold_in_range. Qed.
Lemma mul_nan a b : fkey a = None \/ fkey b = None -> fkey (fmul a b) = None.
Proof.
  intros [N|N]; apply is_nan_key in N; unfold is_nan in N; unfold fmul.
  - destruct (decode a) eqn:E; try discriminate. reflexivity.
  - destruct (decode b) eqn:E; try discriminate. destruct (decode a); reflexivity.
Qed.
Lemma mul_inf a : nonneg a -> fkey (fmul INFINITY a) = None \/ fmul INFINITY a = INFINITY.
Proof.
  intro N. destruct (nonneg_cases a N) as [[F S]| ->]; [|right; reflexivity].
  unfold fmul. change (decode INFINITY) with (S754_infinity false). destruct (decode_finite a F) as [Z M|m e A1 A2 A3 A4 A5 A6].
  - left. destruct (f_sign a); reflexivity.
  - right. destruct (f_sign a) eqn:SG; [|reflexivity]. exfalso. cbn [cond_Zopp] in *.
    lia.
Qed.
Lemma mul_comm_key a b : fmul a b = fmul b a.
Proof.
  unfold fmul. f_equal. destruct (decode a) as [s|s| |s m e], (decode b) as [r|r| |r n f]; cbn [SFmul]; try reflexivity; try (now rewrite xorb_comm).
  rewrite (xorb_comm s r), (Pos.mul_comm m n), (Z.add_comm e f). reflexivity.
Qed.
Lemma mul_in_range a b : in_range a -> in_range b -> in_range (fmul a b).
Proof.
  intros A B. apply in_range_cases in A, B. apply in_range_cases. destruct A as [PA A], B as [PB B].
  split; [now apply fmul_pattern|].
  destruct A as [A|A]; [left; apply mul_nan; auto|]. destruct B as [B|B]; [left; apply mul_nan; auto|].
  assert (I : nonneg INFINITY) by (split; vm_compute; [split; [discriminate|reflexivity]|discriminate]).
  destruct (nonneg_cases a A) as [[FA SA]| ->].
  - destruct (nonneg_cases b B) as [[FB SB]| ->].
    + right. pose proof (fmul_rounds a b PA PB FA FB) as R. split; [exact (proj1 R)|].
      pose proof (zero_rounds false 1 ltac:(lia)) as R0. refine (rounds_mono 0 1 0 _ (2 ^ 1074) _ _ unit_pos _ R0 R); [lia|].
      rewrite Z.mul_0_l, Z.mul_1_r. now apply Z.mul_nonneg_nonneg.
    + rewrite mul_comm_key. destruct (mul_inf a A) as [->| ->]; auto.
  - destruct (mul_inf b B) as [->| ->]; auto.
Qed.

(** ** Going up *)
Lemma child_slot h x n k c : forest h -> node_at h x = Some n -> nth k (n_children n) None = Some c ->
  exists m, node_at h c = Some m /\ n_parent m = Some x /\ n_index m = k.
Proof.
  intros F E N. rewrite nth_nth_error in N. destruct (nth_error (n_children n) k) as [o|] eqn:K; [|discriminate]. subst o.
  assert (Ev : seen h x = Some (view_of n)) by (apply seen_node; eauto).
  destruct (F x _ Ev) as (_ & D & _). destruct (D k c K) as (u & Eu & P). apply seen_node in Eu. destruct Eu as (m & Em & ->).
  exists m. apply parent_view in P. tauto.
Qed.
Lemma parent_slot h x n p : forest h -> node_at h x = Some n -> n_parent n = Some p ->
  exists m, node_at h p = Some m /\ nth_error (n_children m) (n_index n) = Some (Some x) /\ (n_index n < n_arity m)%nat.
Proof.
  intros F E P. assert (Ev : seen h x = Some (view_of n)) by (apply seen_node; eauto).
  destruct (F x _ Ev) as (_ & _ & D & _). destruct (D p (n_index n)) as (u & Eu & C); [now apply parent_view|].
  pose proof Eu as Eu'. apply seen_node in Eu. destruct Eu as (m & Em & ->). exists m. split; [exact Em|]. split; [exact C|].
  destruct (F p _ Eu') as (L & _). cbn in L. rewrite <- L. apply nth_error_Some. cbn in C. congruence.
Qed.
Lemma seen_rooted h x n : forest h -> node_at h x = Some n -> exists d, rooted h x d.
Proof. intros F E. assert (Ev : seen h x = Some (view_of n)) by (apply seen_node; eauto). now destruct (F x _ Ev) as (_ & _ & _ & R). Qed.
Lemma not_own_parent h x n : forest h -> node_at h x = Some n -> n_parent n <> Some x.
Proof.
  intros F E P. destruct (seen_rooted _ _ _ F E) as [d R].
  destruct (rooted_parent h x (view_of n) x (n_index n) d R) as (d' & -> & R'); [apply seen_node; eauto|now apply parent_view|].
  pose proof (rooted_fun _ _ _ _ R R'). lia.
Qed.
Lemma expected_write h t n c : (t < length h)%nat -> c <> Some t -> expected (write h t n) c = expected h c.
Proof. intros L N. destruct c as [c|]; [|reflexivity]. cbn. rewrite node_write by auto. destruct (Nat.eqb_spec c t); [congruence|reflexivity]. Qed.
Lemma expected_same h t n n' c : node_at h t = Some n -> n_sum n' = n_sum n -> n_bias n' = n_bias n -> expected (write h t n') c = expected h c.
Proof.
  intros E A B. pose proof (node_len _ _ _ E) as L. destruct c as [c|]; [|reflexivity]. cbn. rewrite node_write by auto.
  destruct (Nat.eqb_spec c t) as [->|]; [now rewrite E, A, B|reflexivity].
Qed.
Lemma forall_set_nth {A} (P : A -> Prop) l i x : Forall P l -> P x -> Forall P (set_nth l i x).
Proof. revert i. induction l as [|y l IH]; intros [|i] F X; cbn; auto; inversion F; subst; constructor; auto. Qed.
Lemma seen_links h t n n' : node_at h t = Some n -> n_arity n' = n_arity n -> n_children n' = n_children n -> n_parent n' = n_parent n -> n_index n' = n_index n ->
  same_links h (write h t n').
Proof.
  intros E A B C D x. rewrite seen_write by (eapply node_len; eauto). unfold changed, seen. destruct (Nat.eqb_spec x t) as [->|]; [|reflexivity].
  rewrite E. cbn. now rewrite A, B, C, D.
Qed.

Lemma normalize_length l r : length (normalize_areas l r) = S (length l).
Proof.
  unfold normalize_areas. destruct (set_last_spec (0 :: map (fun x => fmul x r) (prefixes 0 l)) ONE ltac:(discriminate)) as (A & _).
  rewrite A. cbn. now rewrite map_length, prefixes_length.
Qed.
Lemma update_loop_ok d : forall h t n i w fuel, rooted h t d -> (d < fuel)%nat -> forest h -> shapes h ->
  sums_but h (fun x => x = t) -> slots_but h (fun x k => x = t /\ k = i) ->
  node_at h t = Some n -> (i <= n_arity n)%nat -> in_range w ->
  ((i < n_arity n)%nat -> same_num w (expected h (nth i (n_children n) None))) ->
  exists h', update_loop fuel h t i w = Ok h' /\ length h' = length h /\ inv h' /\
    forall x, seen h' x = changed (seen h) t (Some (if Nat.eqb i (n_arity n) then v_with_weight (view_of n) w else view_of n)) x.
Proof.
  induction d as [|d IH]; intros h t n i w fuel R FU F SH SU SL E I W X; (destruct fuel as [|fuel]; [lia|]); cbn [update_loop];
    rewrite (read_node _ _ _ E); cbn [bind];
    destruct (SH t n E) as (LC & LW & PI & RW & RB & LA & AB);
    set (ws := set_nth (n_weights n) i w);
    set (sum := sum_of ws);
    set (ar := if flt 0 sum then normalize_areas ws (fdiv ONE sum) else n_areas n);
    set (n' := with_weights n ws ar sum);
    pose proof (node_len _ _ _ E) as LT;
    assert (RWS : Forall in_range ws) by (apply forall_set_nth; auto);
    assert (LK : same_links h (write h t n')) by (eapply seen_links; eauto);
    pose proof (forest_links _ _ LK F) as F';
    assert (SH' : shapes (write h t n')) by
      (intros x m Em; rewrite node_write in Em by auto; destruct (Nat.eqb_spec x t); [injection Em as <-; split; [exact LC|]; split; [unfold n'; cbn; unfold ws; now rewrite set_nth_length|]; split; [exact PI|]; split; [exact RWS|]; split; [exact RB|]; split; [|exact AB]; unfold n'; cbn; unfold ar; destruct (flt 0 sum); [|exact LA]; rewrite normalize_length; unfold ws; rewrite set_nth_length; now rewrite LW|now apply (SH x)]);
    assert (SU' : sums_but (write h t n') (fun _ => False)) by
      (intros x m Em _; rewrite node_write in Em by auto; destruct (Nat.eqb_spec x t) as [|NX]; [injection Em as <-; split; [unfold n'; cbn; unfold sum; apply sum_total|]; unfold n'; cbn; intro FL; unfold ar; now rewrite FL|now apply (SU x)]);
    assert (VW : view_of n' = if Nat.eqb i (n_arity n) then v_with_weight (view_of n) w else view_of n) by
      (unfold view_of, n', v_with_weight; cbn; unfold ws; rewrite set_nth_nth by lia; rewrite Nat.eqb_sym; now destruct (Nat.eqb_spec i (n_arity n))).
  (* slots: those right before, and the one just set, unless they are for [t] *)
  all: assert (SL' : forall x m k, node_at (write h t n') x = Some m -> (k < n_arity m)%nat -> nth k (n_children m) None <> Some t ->
      same_num (nth k (n_weights m) 0) (expected (write h t n') (nth k (n_children m) None))).
  1,3: intros x m k Em K NT; rewrite expected_write by auto; rewrite node_write in Em by auto; destruct (Nat.eqb_spec x t) as [->|NX];
      [injection Em as <-; unfold n' in *; cbn [n_weights n_children n_arity with_weights] in *; unfold ws; rewrite set_nth_nth by lia;
       destruct (Nat.eqb_spec k i) as [->|NK]; [now apply X|apply (SL t n k E K); intros [_ Q]; contradiction]
      |apply (SL x m k Em K); intros [Q _]; contradiction].
  - inversion R as [y v Ev Pv|]; subst. assert (PN : n_parent n = None) by (apply seen_node in Ev; destruct Ev as (m & Em & ->); rewrite E in Em; injection Em as <-; now apply parent_view_none).
    rewrite PN. eexists. split; [reflexivity|]. split; [apply write_length|]. split.
    + split; [exact F'|]. split; [exact SH'|]. split; [exact SU'|]. intros x m k Em K _. eapply SL'; [exact Em|exact K|]. intro Q.
      destruct (child_slot _ _ _ _ _ F' Em Q) as (m' & Em' & Pm & _). rewrite node_write, Nat.eqb_refl in Em' by auto. injection Em' as <-. unfold n' in Pm. cbn in Pm. congruence.
    + intro x. rewrite seen_write by auto. now rewrite VW.
  - inversion R as [|y v p j d' Ev Pv Rp]; subst. assert (PN : n_parent n = Some p /\ n_index n = j) by (apply seen_node in Ev; destruct Ev as (m & Em & ->); rewrite E in Em; injection Em as <-; now apply parent_view).
    destruct PN as [PN PJ]. rewrite PN. pose proof (not_own_parent _ _ _ F E) as NP. rewrite PN in NP.
    destruct (parent_slot _ _ _ _ F E PN) as (m & Em & Cm & Km). rewrite PJ in *.
    assert (Em' : node_at (write h t n') p = Some m) by (rewrite node_write by auto; destruct (Nat.eqb_spec p t); [congruence|exact Em]).
    assert (SAME : same_num (fmul sum (n_bias n)) (expected (write h t n') (nth j (n_children m) None))).
    { rewrite nth_nth_error, Cm. cbn. rewrite node_write, Nat.eqb_refl by auto. reflexivity. }
    destruct (IH (write h t n') p m j (fmul sum (n_bias n)) fuel) as (h' & U & L & IV & V).
    + eapply rooted_same; [|exact Rp]. now apply links_parents.
    + lia.
    + exact F'.
    + exact SH'.
    + intros x k Ex _. now apply (SU' x).
    + intros x k kk Ex K NB. eapply SL'; [exact Ex|exact K|]. intro Q. destruct (child_slot _ _ _ _ _ F' Ex Q) as (m' & Et & Pm & Im).
      rewrite node_write, Nat.eqb_refl in Et by auto. injection Et as <-. unfold n' in Pm, Im. cbn in Pm, Im. apply NB. split; congruence.
    + exact Em'.
    + lia.
    + apply mul_in_range; [unfold sum; now apply fold_in_range|exact RB].
    + intro. exact SAME.
    + exists h'. split; [exact U|]. split; [rewrite L; apply write_length|]. split; [exact IV|].
      intro x. rewrite V. destruct (Nat.eqb_spec j (n_arity m)) as [Q|_]; [lia|]. unfold changed. destruct (Nat.eqb_spec x p) as [->|NXP].
      * destruct (Nat.eqb_spec p t); [congruence|]. unfold seen. now rewrite Em.
      * rewrite seen_write by auto. unfold changed. now rewrite VW.
Qed.
