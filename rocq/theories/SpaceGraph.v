(** Proofs about the graph of conditions: sorting, duplicates, the topological sort. *)
From Coq Require Import ZArith List Bool Lia Relations Permutation Sorting.Sorted Arith.Wf_nat.
From Verif Require Import Base SpaceModel.
Import ListNotations.
Open Scope Z_scope.

Section Update.
  Context {T : Type}.
  Lemma update_length (l : list T) : forall i x, length (update l i x) = length l.
  Proof. induction l as [|y l IH]; intros [|i] x; cbn; auto. Qed.
  Lemma update_same (l : list T) : forall i x, (i < length l)%nat -> nth_error (update l i x) i = Some x.
  Proof. induction l as [|y l IH]; intros [|i] x H; cbn in *; try lia; auto. apply IH. lia. Qed.
  Lemma update_other (l : list T) : forall i j x, j <> i -> nth_error (update l i x) j = nth_error l j.
  Proof. induction l as [|y l IH]; intros [|i] [|j] x H; cbn in *; try lia; auto. Qed.
  Lemma update_nth (l : list T) i j x d : (i < length l)%nat -> nth j (update l i x) d = if (j =? i)%nat then x else nth j l d.
  Proof.
    revert i j. induction l as [|y l IH]; intros [|i] [|j] H; cbn in *; try lia; auto. apply IH. lia.
  Qed.
  Lemma nth_error_nth' (l : list T) i d : (i < length l)%nat -> nth_error l i = Some (nth i l d).
  Proof. revert i. induction l as [|y l IH]; intros [|i] H; cbn in *; try lia; auto. apply IH. lia. Qed.
  Lemma update_back (l : list T) i x y : nth_error l i = Some y -> update (update l i x) i y = l.
  Proof. revert i. induction l as [|z l IH]; intros [|i] H; cbn in *; try discriminate; [congruence|]. f_equal. now apply IH. Qed.
End Update.

(** ** Sorting sizes and removing duplicates *)
Lemma ninsert_in x y l : In x (ninsert y l) <-> x = y \/ In x l.
Proof.
  induction l as [|z l IH]; cbn; [intuition|]. destruct (y <=? z)%nat; cbn; [intuition|]. rewrite IH. intuition.
Qed.
Lemma nsort_in x l : In x (nsort l) <-> In x l.
Proof. induction l as [|y l IH]; cbn; [tauto|]. rewrite ninsert_in, IH. intuition. Qed.
Lemma ninsert_sorted y l : StronglySorted le l -> StronglySorted le (ninsert y l).
Proof.
  induction l as [|z l IH]; intro H; cbn; [repeat constructor|].
  inversion H; subst. destruct (Nat.leb_spec y z).
  - constructor; [exact H|]. rewrite Forall_forall in *. intros w [<-|W]; [lia|]. specialize (H3 w W). lia.
  - constructor; [now apply IH|]. rewrite Forall_forall in *. intros w W. apply ninsert_in in W. destruct W as [-> | W]; [lia|auto].
Qed.
Lemma nsort_sorted l : StronglySorted le (nsort l).
Proof. induction l as [|y l IH]; cbn; [constructor|now apply ninsert_sorted]. Qed.
Lemma nuniq_spec l : forall p, StronglySorted le (p :: l) ->
  StronglySorted lt (p :: nuniq p l) /\ forall x, In x (p :: nuniq p l) <-> In x (p :: l).
Proof.
  induction l as [|y l IH]; intros p H; cbn [nuniq]; [split; [repeat constructor|tauto]|].
  inversion H as [|? ? H1 H2]; subst. inversion H1; subst. inversion H2; subst.
  destruct (Nat.eqb_spec y p) as [-> | N].
  - destruct (IH p) as [S1 S2]; [now constructor|]. split; [exact S1|]. intro x. rewrite S2. cbn. tauto.
  - destruct (IH y H1) as [S1 S2]. split.
    + constructor; [exact S1|]. rewrite Forall_forall. intros x X. apply S2 in X. cbn in X.
      destruct X as [<- | X]; [lia|]. rewrite Forall_forall in H5. specialize (H5 x X). lia.
    + intro x. specialize (S2 x). cbn [In] in *. tauto.
Qed.
Lemma sorted_nodup l : StronglySorted lt l -> NoDup l.
Proof.
  induction l as [|x l IH]; intro H; constructor; inversion H; subst; auto.
  intro I. rewrite Forall_forall in H3. specialize (H3 x I). lia.
Qed.
Lemma uniq_in x l : In x (uniq l) <-> In x l.
Proof.
  unfold uniq. pose proof (nsort_sorted l) as S. rewrite <- (nsort_in x l). destruct (nsort l) as [|y m]; [tauto|].
  apply nuniq_spec, S.
Qed.
Lemma uniq_nodup l : NoDup (uniq l).
Proof.
  unfold uniq. pose proof (nsort_sorted l) as S. destruct (nsort l) as [|y m]; [constructor|].
  apply sorted_nodup, nuniq_spec, S.
Qed.

(** ** Predecessors in a finite set lead to a cycle *)
Section Cycle.
  Variable R : nat -> nat -> Prop.
  Lemma walk_back (X : list nat) : (forall x, In x X -> exists y, In y X /\ R y x) ->
    forall n path x, (length X < n + length path)%nat -> NoDup path -> incl path X -> In x path ->
      (forall y, In y path -> clos_refl_trans nat R x y) ->
      exists c, clos_trans nat R c c /\ forall y, In y path -> clos_refl_trans nat R c y.
  Proof.
    intro P. induction n as [|n IH]; intros path x L N I Hx C.
    - exfalso. pose proof (NoDup_incl_length N I). cbn in L. lia.
    - destruct (P x (I x Hx)) as (y & Hy & Ryx). destruct (in_dec Nat.eq_dec y path) as [Q|Q].
      + exists y. assert (E : clos_trans nat R y x) by now apply t_step. split.
        * specialize (C y Q). clear - E C. apply clos_rt_rt1n in C. revert E. induction C as [|a b c H C IH]; intro E; [exact E|].
          apply IH. apply t_trans with a; [exact E|now apply t_step].
        * intros z Hz. apply rt_trans with x; [now apply rt_step|auto].
      + destruct (IH (y :: path) y) as (c & C1 & C2).
        * cbn [length]. lia.
        * now constructor.
        * intros z [<- | Z]; auto.
        * now left.
        * intros z [<- | Z]; [apply rt_refl|]. apply rt_trans with x; [now apply rt_step|auto].
        * exists c. split; [exact C1|]. intros z Z. apply C2. now right.
  Qed.
  Lemma cycle_behind (X : list nat) x : (forall x, In x X -> exists y, In y X /\ R y x) -> In x X ->
    exists c, clos_trans nat R c c /\ clos_refl_trans nat R c x.
  Proof.
    intros P Hx. destruct (walk_back X P (length X) [x] x) as (c & C1 & C2).
    - cbn. lia.
    - constructor; [intros []|constructor].
    - intros z [<- | []]. exact Hx.
    - now left.
    - intros z [<- | []]. apply rt_refl.
    - exists c. split; [exact C1|]. apply C2. now left.
  Qed.
End Cycle.

(** ** The topological sort *)
Lemma relax_spec cs : forall edges queue, NoDup cs -> Forall (fun c => (c < length edges)%nat /\ 1 <= nth c edges 0 < 2 ^ 64) cs ->
  exists edges', relax cs edges queue = (edges', queue ++ filter (fun c => nth c edges 0 =? 1) cs) /\
    length edges' = length edges /\
    forall i, (i < length edges)%nat -> nth i edges' 0 = if in_dec Nat.eq_dec i cs then nth i edges 0 - 1 else nth i edges 0.
Proof.
  induction cs as [|c cs IH]; intros edges queue N F; cbn [relax filter].
  - exists edges. rewrite app_nil_r. split; [reflexivity|]. split; [reflexivity|]. intros i Hi. now destruct (in_dec Nat.eq_dec i []) as [[]|].
  - inversion N; subst. inversion F as [|? ? [Hc Hv] F']; subst.
    assert (W : wrap 64 (nth c edges 0 - 1) = nth c edges 0 - 1) by (unfold wrap; apply Z.mod_small; lia).
    rewrite W. set (e1 := update edges c (nth c edges 0 - 1)).
    assert (E1 : forall i, i <> c -> nth i e1 0 = nth i edges 0).
    { intros i Hi. unfold e1. rewrite update_nth by exact Hc. destruct (Nat.eqb_spec i c); [contradiction|reflexivity]. }
    assert (L1 : length e1 = length edges) by apply update_length.
    assert (G : forall c', In c' cs -> c' <> c) by (intros c' Hc' ->; contradiction).
    destruct (IH e1 (if nth c edges 0 - 1 =? 0 then queue ++ [c] else queue)) as (e2 & R & L2 & V).
    + assumption.
    + rewrite Forall_forall in *. intros c' Hc'. destruct (F' c' Hc') as [P Q]. rewrite L1, E1 by auto. tauto.
    + exists e2. split; [|split].
      * rewrite R. f_equal.
        rewrite (filter_ext_in (fun c0 => nth c0 e1 0 =? 1) (fun c0 => nth c0 edges 0 =? 1)).
        2: { intros c' Hc'. rewrite E1; auto. }
        destruct (Z.eqb_spec (nth c edges 0) 1) as [e|ne].
        -- rewrite e. cbn. rewrite <- app_assoc. reflexivity.
        -- destruct (Z.eqb_spec (nth c edges 0 - 1) 0); [lia|reflexivity].
      * congruence.
      * intros i Hi. rewrite V by (rewrite L1; exact Hi).
        destruct (Nat.eq_dec i c) as [-> | Ne].
        -- destruct (in_dec Nat.eq_dec c cs); [contradiction|]. destruct (in_dec Nat.eq_dec c (c :: cs)) as [|X]; [|exfalso; apply X; now left].
           unfold e1. rewrite update_nth by exact Hc. rewrite Nat.eqb_refl. reflexivity.
        -- rewrite E1 by exact Ne. destruct (in_dec Nat.eq_dec i cs), (in_dec Nat.eq_dec i (c :: cs)) as [X|X]; auto.
           ++ exfalso. apply X. now right.
           ++ destruct X as [X|X]; [now symmetry in X|contradiction].
Qed.

Lemma nodup_app {T} (l m : list T) : NoDup l -> NoDup m -> (forall x, In x l -> ~ In x m) -> NoDup (l ++ m).
Proof.
  intros N M D. induction l as [|x l IH]; cbn; [exact M|]. inversion N; subst. constructor.
  - rewrite in_app_iff. intros [Q|Q]; [contradiction|]. apply (D x); [now left|exact Q].
  - apply IH; [assumption|]. intros y Y. apply D. now right.
Qed.
Lemma exists_last_or {T} (l : list T) : l = [] \/ exists l' x, l = l' ++ [x].
Proof. destruct l as [|y l] using rev_ind; [now left|right; eauto]. Qed.
Section Kahn.
  Variables parents children : list (list nat).
  Let n := length parents.
  Definition parent (j i : nat) : Prop := (i < n)%nat /\ In j (nth i parents []).
  Hypothesis small : Z.of_nat n < 2 ^ 64.
  Hypothesis nodup_parents : forall i, NoDup (nth i parents []).
  Hypothesis nodup_children : forall i, NoDup (nth i children []).
  Hypothesis parents_range : forall j i, parent j i -> (j < n)%nat.
  Hypothesis converse : forall j i, In i (nth j children []) <-> parent j i.

  (** parents of [i] that have not been output *)
  Definition waiting (sorted : list nat) (i : nat) : list nat :=
    filter (fun j => if in_dec Nat.eq_dec j sorted then false else true) (nth i parents []).
  Lemma waiting_in sorted i j : In j (waiting sorted i) <-> In j (nth i parents []) /\ ~ In j sorted.
  Proof. unfold waiting. rewrite filter_In. destruct (in_dec Nat.eq_dec j sorted); intuition discriminate. Qed.
  Lemma waiting_snoc sorted e i : ~ In e sorted ->
    lenZ (waiting (sorted ++ [e]) i) = lenZ (waiting sorted i) - (if in_dec Nat.eq_dec e (nth i parents []) then 1 else 0).
  Proof.
    intro N. unfold waiting. pose proof (nodup_parents i) as ND. induction (nth i parents []) as [|j l IH]; [reflexivity|].
    inversion ND; subst. cbn [filter]. specialize (IH H2).
    destruct (in_dec Nat.eq_dec j (sorted ++ [e])) as [I|I]; destruct (in_dec Nat.eq_dec j sorted) as [I'|I'];
    try (exfalso; apply I; rewrite in_app_iff; tauto); cbn [filter].
    - rewrite IH. destruct (in_dec Nat.eq_dec e l), (in_dec Nat.eq_dec e (j :: l)) as [Q|Q]; try lia.
      + exfalso. apply Q. now right.
      + destruct Q as [-> | Q]; contradiction.
    - apply in_app_or in I. destruct I as [I|[<- | []]]; [contradiction|]. rewrite IH.
      destruct (in_dec Nat.eq_dec e l); [contradiction|]. destruct (in_dec Nat.eq_dec e (e :: l)) as [Q|Q]; [|exfalso; apply Q; now left].
      unfold lenZ. cbn [length]. lia.
    - unfold lenZ in *. cbn [length]. destruct (in_dec Nat.eq_dec e l), (in_dec Nat.eq_dec e (j :: l)) as [Q|Q]; try lia.
      + exfalso. apply Q. now right.
      + destruct Q as [-> | Q]; [|contradiction]. exfalso. apply I. rewrite in_app_iff. right. now left.
  Qed.

  Record inv (queue : list nat) (edges : list Z) (sorted : list nat) : Prop := {
    inv_len : length edges = n;
    inv_nodup : NoDup (sorted ++ queue);
    inv_range : forall i, In i (sorted ++ queue) -> (i < n)%nat;
    inv_edges : forall i, (i < n)%nat -> nth i edges 0 = lenZ (waiting sorted i);
    inv_ready : forall i, (i < n)%nat -> (In i (sorted ++ queue) <-> waiting sorted i = []);
    inv_order : forall l1 i l2 j, sorted = l1 ++ i :: l2 -> parent j i -> In j l1 }.

  Lemma nodup_mid {T} (l1 l2 : list T) x : NoDup (l1 ++ x :: l2) -> ~ In x l1 /\ ~ In x l2.
  Proof. intro H. apply NoDup_remove_2 in H. rewrite in_app_iff in H. tauto. Qed.
  Lemma bounded_length l : NoDup l -> (forall i, In i l -> (i < n)%nat) -> (length l <= n)%nat.
  Proof.
    intros N B. rewrite <- (seq_length n 0). apply NoDup_incl_length; [exact N|]. intros i Hi. apply in_seq. specialize (B i Hi). lia.
  Qed.
  Lemma step_inv e queue edges sorted : inv (e :: queue) edges sorted ->
    exists edges' more, relax (nth e children []) edges queue = (edges', queue ++ more) /\ inv (queue ++ more) edges' (sorted ++ [e]).
  Proof.
    intros [I1 I2 I3 I4 I5 I6]. destruct (nodup_mid _ _ _ I2) as [Ne _].
    assert (B : forall i, (i < n)%nat -> lenZ (waiting sorted i) < 2 ^ 64).
    { intros i Hi. apply Z.le_lt_trans with (Z.of_nat n); [|exact small]. unfold lenZ. apply inj_le.
      transitivity (length (nth i parents [])); [|].
      - unfold waiting. clear. induction (nth i parents []) as [|j l IH]; cbn; [lia|]. destruct (in_dec Nat.eq_dec j sorted); cbn; lia.
      - apply bounded_length; [apply nodup_parents|]. intros j Hj. apply (parents_range j i). split; assumption. }
    assert (C : forall c, In c (nth e children []) -> (c < n)%nat /\ In e (waiting sorted c)).
    { intros c Hc. apply converse in Hc. destruct Hc as [L P]. split; [exact L|]. now apply waiting_in. }
    destruct (relax_spec (nth e children []) edges queue (nodup_children e)) as (edges' & R & L & V).
    { apply Forall_forall. intros c Hc. destruct (C c Hc) as [Lc W]. rewrite I1. split; [exact Lc|]. rewrite I4 by exact Lc.
      split; [|now apply B]. unfold lenZ. destruct (waiting sorted c); [destruct W|cbn [length]; lia]. }
    exists edges', (filter (fun c => nth c edges 0 =? 1) (nth e children [])). split; [exact R|].
    assert (V' : forall i, (i < n)%nat -> nth i edges' 0 = lenZ (waiting (sorted ++ [e]) i)).
    { intros i Hi. rewrite waiting_snoc by exact Ne. rewrite V by (rewrite I1; exact Hi). rewrite I4 by exact Hi.
      destruct (in_dec Nat.eq_dec i (nth e children [])) as [Q|Q], (in_dec Nat.eq_dec e (nth i parents [])) as [P|P]; try lia.
      - apply converse in Q. destruct Q. contradiction.
      - exfalso. apply Q, converse. now split. }
    assert (M : forall c, In c (filter (fun c => nth c edges 0 =? 1) (nth e children [])) <->
                (c < n)%nat /\ waiting sorted c <> [] /\ waiting (sorted ++ [e]) c = []).
    { intro c. rewrite filter_In. split.
      - intros [Hc E]. destruct (C c Hc) as [Lc W]. split; [exact Lc|]. split; [destruct (waiting sorted c); [destruct W|discriminate]|].
        apply Z.eqb_eq in E. rewrite I4 in E by exact Lc. pose proof (waiting_snoc sorted e c Ne) as WS.
        apply waiting_in in W. destruct (in_dec Nat.eq_dec e (nth c parents [])); [|tauto]. rewrite E in WS. unfold lenZ in WS.
        destruct (waiting (sorted ++ [e]) c); [reflexivity|cbn [length] in WS; lia].
      - intros (Lc & W1 & W2). pose proof (waiting_snoc sorted e c Ne) as WS. rewrite W2 in WS. change (lenZ (@nil nat)) with 0 in WS.
        destruct (in_dec Nat.eq_dec e (nth c parents [])) as [P|P].
        + split; [apply converse; now split|]. rewrite I4 by exact Lc. apply Z.eqb_eq. lia.
        + exfalso. apply W1. unfold lenZ in WS. destruct (waiting sorted c); [reflexivity|cbn [length] in WS; lia]. }
    set (more := filter (fun c => nth c edges 0 =? 1) (nth e children [])) in *.
    assert (A : (sorted ++ [e]) ++ queue ++ more = (sorted ++ e :: queue) ++ more) by (now rewrite <- !app_assoc).
    assert (ND : NoDup more) by apply NoDup_filter, nodup_children.
    assert (DJ : forall c, In c (sorted ++ e :: queue) -> ~ In c more).
    { intros c Hc Mc. apply M in Mc. destruct Mc as (Lc & W & _). apply W, I5; assumption. }
    constructor.
    - congruence.
    - rewrite A. now apply nodup_app.
    - intro i. rewrite A, in_app_iff. intros [Hi|Hi]; [now apply I3|]. now apply M in Hi.
    - exact V'.
    - intros i Hi. rewrite A, in_app_iff, (I5 i Hi), M. split.
      + intros [W|(_ & _ & W)]; [|exact W]. destruct (waiting (sorted ++ [e]) i) as [|j l] eqn:E; [reflexivity|].
        assert (X : In j (waiting (sorted ++ [e]) i)) by (rewrite E; now left). apply waiting_in in X.
        exfalso. assert (Y : In j (waiting sorted i)). { apply waiting_in. rewrite in_app_iff in X. tauto. } rewrite W in Y. destruct Y.
      + intro W. destruct (waiting sorted i) eqn:E; [now left|right]. rewrite <- E. split; [exact Hi|]. split; [rewrite E; discriminate|exact W].
    - intros l1 i l2 j E P. destruct (exists_last_or l2) as [-> | (l3 & x & ->)].
      + apply app_inj_tail in E. destruct E as [<- <-]. destruct (in_dec Nat.eq_dec j sorted) as [Q|Q]; [exact Q|exfalso].
        assert (W : waiting sorted e = []). { apply I5; [apply P|]. rewrite in_app_iff. right. now left. }
        assert (Y : In j (waiting sorted e)) by (apply waiting_in; split; [apply P|exact Q]). rewrite W in Y. destruct Y.
      + rewrite app_comm_cons, app_assoc in E. apply app_inj_tail in E. destruct E as [E _]. exact (I6 _ _ _ _ E P).
  Qed.
  Lemma kahn_inv fuel : forall queue edges sorted, inv queue edges sorted -> (n <= fuel + length sorted)%nat ->
    exists l edges', kahn fuel children queue edges sorted = Ok l /\ inv [] edges' l.
  Proof.
    induction fuel as [|fuel IH]; intros [|e queue] edges sorted I F; cbn [kahn].
    - eauto.
    - exfalso. pose proof (bounded_length _ (inv_nodup _ _ _ I) (inv_range _ _ _ I)) as B. rewrite app_length in B. cbn [length] in B. lia.
    - eauto.
    - destruct (step_inv e queue edges sorted I) as (edges' & more & R & I'). rewrite R. apply IH; [exact I'|].
      rewrite app_length. cbn [length]. lia.
  Qed.
  Lemma roots_inv : inv (roots parents) (map (fun l => lenZ l) parents) [].
  Proof.
    assert (W0 : forall i, waiting [] i = nth i parents []).
    { intro i. unfold waiting. induction (nth i parents []) as [|j l IH]; cbn; [reflexivity|]. f_equal. exact IH. }
    constructor; cbn [app].
    - apply map_length.
    - apply NoDup_filter, seq_NoDup.
    - intro i. unfold roots. rewrite filter_In, in_seq. lia.
    - intros i Hi. rewrite W0. change 0 with (lenZ (@nil nat)). apply map_nth.
    - intros i Hi. unfold roots. rewrite filter_In, in_seq, W0. destruct (nth i parents []); intuition (try discriminate; lia).
    - intros l1 i l2 j E. now destruct l1.
  Qed.
  (** the output is made of the nodes that do not hang behind a cycle, after their parents *)
  Lemma topological_spec : exists l, topological_sort parents children = Ok l /\ NoDup l /\
    (forall l1 i l2 j, l = l1 ++ i :: l2 -> parent j i -> In j l1) /\
    (forall i, In i l -> (i < n)%nat) /\
    (forall i, In i l -> ~ exists c, clos_trans nat parent c c /\ clos_refl_trans nat parent c i) /\
    (forall i, (i < n)%nat -> ~ In i l -> exists c, clos_trans nat parent c c /\ clos_refl_trans nat parent c i).
  Proof.
    destruct (kahn_inv n _ _ _ roots_inv) as (l & edges' & K & [I1 I2 I3 I4 I5 I6]); [lia|].
    rewrite app_nil_r in *. exists l. split; [exact K|]. split; [exact I2|]. split; [exact I6|]. split; [exact I3|].
    assert (UP : forall i, In i l -> forall j, parent j i -> In j l).
    { intros i Hi j P. apply in_split in Hi. destruct Hi as (l1 & l2 & ->). rewrite in_app_iff. left. now apply (I6 l1 i l2 j). }
    split.
    - intros i Hi (c & C1 & C2).
      assert (Hc : In c l). { clear - UP Hi C2. apply clos_rt_rtn1 in C2. induction C2 as [|y z P C2 IH]; auto. apply IH. now apply (UP z). }
      clear i Hi C2.
      assert (BEFORE : forall a b, clos_trans nat parent a b -> forall l1 l2, l = l1 ++ b :: l2 -> In a l1).
      { intros a b T. apply clos_trans_t1n in T. induction T as [a b P|a b d P T IH]; intros l1 l2 E; [exact (I6 _ _ _ _ E P)|].
        specialize (IH l1 l2 E). apply in_split in IH. destruct IH as (m1 & m2 & ->). rewrite <- app_assoc in E. cbn [app] in E.
        rewrite in_app_iff. left. exact (I6 _ _ _ _ E P). }
      pose proof Hc as Hc'. apply in_split in Hc'. destruct Hc' as (l1 & l2 & E). pose proof (BEFORE c c C1 l1 l2 E) as X.
      rewrite E in I2. apply nodup_mid in I2. tauto.
    - intros i Hi N. apply (cycle_behind parent (filter (fun k => if in_dec Nat.eq_dec k l then false else true) (seq 0 n)) i).
      + intros x X. rewrite filter_In, in_seq in X. destruct X as [X1 X2]. destruct (in_dec Nat.eq_dec x l) as [|NX]; [discriminate|].
        destruct (waiting l x) as [|j w] eqn:W.
        * exfalso. apply NX. apply I5; [lia|exact W].
        * assert (J : In j (waiting l x)) by (rewrite W; now left). apply waiting_in in J. destruct J as [J1 J2].
          assert (P : parent j x) by (split; [lia|exact J1]). exists j. split; [|exact P]. rewrite filter_In, in_seq.
          split; [pose proof (parents_range j x P); lia|]. now destruct (in_dec Nat.eq_dec j l).
      + rewrite filter_In, in_seq. split; [lia|]. now destruct (in_dec Nat.eq_dec i l).
  Qed.
End Kahn.
