(** Proofs about configuration spaces: distributions. *)
From Coq Require Import ZArith List Bool Lia.
From Verif Require Import Base Datum ParamModel ContextModel ContextSpec ExprModel SpaceModel SpaceSpec SpaceGraph.
Import ListNotations.
Open Scope Z_scope.

Lemma memb_in i l : memb i l = true <-> In i l.
Proof.
  unfold memb. rewrite existsb_exists. split; [intros (x & H & E); apply Nat.eqb_eq in E; now subst|].
  intro H. exists i. split; [exact H|apply Nat.eqb_refl].
Qed.
Lemma memb_false i l : memb i l = false <-> ~ In i l.
Proof. rewrite <- memb_in. destruct (memb i l); split; congruence. Qed.
Lemma bad_indexes_spec n l : bad_indexes n l = false <-> NoDup l /\ Forall (fun i => (i < n)%nat) l.
Proof.
  induction l as [|i l IH]; cbn [bad_indexes]; [split; auto; intros _; split; constructor|].
  rewrite !orb_false_iff, IH, Nat.leb_gt, memb_false. split.
  - intros [[A B] [C D]]. split; constructor; auto.
  - intros [A B]. inversion A; inversion B; subst. auto.
Qed.

Lemma attach_all_spec id idx : forall attach k0, NoDup idx -> Forall (fun i => (i < length attach)%nat) idx ->
  length (attach_all attach id k0 idx) = length attach /\
  (forall k i, nth_error idx k = Some i -> nth_error (attach_all attach id k0 idx) i = Some (id, (k0 + k)%nat)) /\
  (forall i, ~ In i idx -> nth_error (attach_all attach id k0 idx) i = nth_error attach i).
Proof.
  induction idx as [|i idx IH]; intros attach k0 ND F; cbn [attach_all].
  - split; [reflexivity|]. split; [intros [|k] i; discriminate|auto].
  - inversion ND; inversion F; subst. destruct (IH (update attach i (id, k0)) (S k0)) as (L & P & Q); auto.
    { rewrite Forall_forall in *. intros j J. rewrite update_length. auto. }
    rewrite update_length in L. split; [exact L|]. split.
    + intros [|k] j; cbn; intro E.
      * injection E as <-. rewrite Q by assumption. rewrite update_same by assumption. now rewrite Nat.add_0_r.
      * rewrite (P k j E). do 2 f_equal. lia.
    + intros j J. rewrite Q by (intro; apply J; now right). apply update_other. intros ->. apply J. now left.
Qed.

(** Every parameter is attached, except those in [U] *)
Record dinv (dimension : Z -> nat) (U : nat -> Prop) (s : space) : Prop := mkDinv {
  d_ids : NoDup (map dw_id (s_dists s));
  d_next : forall w, In w (s_dists s) -> (dw_id w < s_next s)%nat;
  d_len : length (s_attach s) = length (s_params s);
  d_att : forall w k i, component s w k i -> nth_error (s_attach s) i = Some (dw_id w, k) /\ ~ U i;
  d_all : forall i, (i < length (s_params s))%nat -> ~ U i -> exists w k, component s w k i;
  d_dim : Forall (fun w => length (dw_indexes w) = dimension (dw_dist w)) (s_dists s) }.
Lemma dinv_ext dimension (U U' : nat -> Prop) s : (forall i, U i <-> U' i) -> dinv dimension U s -> dinv dimension U' s.
Proof.
  intros E [A B C D F G]. constructor; auto.
  - intros w k i H. destruct (D w k i H) as [X Y]. split; [exact X|]. intro Q. apply Y. now apply E.
  - intros i L N. apply F; [exact L|]. intro Q. apply N. now apply E.
Qed.
Lemma same_wrapper (l : list dwrapper) w w' : NoDup (map dw_id l) -> In w l -> In w' l -> dw_id w = dw_id w' -> w = w'.
Proof.
  induction l as [|x l IH]; cbn; intros N; [intros []|]. inversion N as [|? ? N1 N2]; subst. intros [<- | H] [<- | H'] E; auto.
  - exfalso. apply N1. rewrite E. now apply in_map.
  - exfalso. apply N1. rewrite <- E. now apply in_map.
Qed.
Lemma find_wrapper (l : list dwrapper) w : NoDup (map dw_id l) -> In w l -> find (fun x => (dw_id x =? dw_id w)%nat) l = Some w.
Proof.
  induction l as [|x l IH]; cbn; intros N; [intros []|]. inversion N as [|? ? N1 N2]; subst. intros [-> | H]; [now rewrite Nat.eqb_refl|].
  destruct (Nat.eqb_spec (dw_id x) (dw_id w)) as [E|_]; [|auto]. exfalso. apply N1. rewrite E. now apply in_map.
Qed.
Section Dist.
  Variable dimension : Z -> nat.
  Variable default_dist : Z -> Z.
  Hypothesis DD : forall h, dimension (default_dist h) = 1%nat.

  Lemma dinv_in U s w k i : dinv dimension U s -> component s w k i -> (i < length (s_params s))%nat.
  Proof. intros V C. rewrite <- (d_len _ _ _ V). apply nth_error_Some. destruct (d_att _ _ _ V w k i C) as [-> _]. discriminate. Qed.
  Lemma dinv_unique U s w k w' k' i : dinv dimension U s -> component s w k i -> component s w' k' i -> w = w' /\ k = k'.
  Proof.
    intros V C C'. destruct (d_att _ _ _ V w k i C) as [E _], (d_att _ _ _ V w' k' i C') as [E' _]. rewrite E in E'. injection E' as E1 ->.
    split; [|reflexivity]. apply (same_wrapper (s_dists s)); [exact (d_ids _ _ _ V)|exact (proj1 C)|exact (proj1 C')|exact E1].
  Qed.
  Lemma dinv_partitioned s : dinv dimension (fun _ => False) s -> partitioned s.
  Proof.
    intro V. split; [|split].
    - intros i L. apply (d_all _ _ _ V i L). auto.
    - intros w k i C. exact (dinv_in _ s w k i V C).
    - intros w k w' k' i C C'. exact (dinv_unique _ s w k w' k' i V C C').
  Qed.
  Lemma dinv_attached s : dinv dimension (fun _ => False) s -> attached s.
  Proof.
    intros V i. unfold get_parameter_distribution. set (n := Z.to_nat (wrap 32 i)).
    assert (WR : 0 <= wrap 32 i) by (unfold wrap; apply Z.mod_pos_bound; lia).
    destruct (Nat.lt_ge_cases n (length (s_params s))) as [L|L].
    - left. destruct (d_all _ _ _ V n L ltac:(auto)) as (w & k & C). exists w, k. split; [exact C|].
      destruct (d_att _ _ _ V w k n C) as [-> _]. now rewrite (find_wrapper (s_dists s) w (d_ids _ _ _ V) (proj1 C)).
    - right. split; [unfold lenZ, n in *; lia|]. rewrite <- (d_len _ _ _ V) in L. apply nth_error_None in L. now rewrite L.
  Qed.
  Lemma index_nodup U s w : dinv dimension U s -> In w (s_dists s) -> NoDup (dw_indexes w).
  Proof.
    intros V W. apply NoDup_nth_error. intros a b La E. destruct (nth_error (dw_indexes w) a) as [i|] eqn:Ea; [|now apply nth_error_None in Ea; lia].
    exact (proj2 (dinv_unique U s w a w b i V (conj W Ea) (conj W (eq_sym E)))).
  Qed.

  (** *** Adding a distribution *)
  Lemma add_wrapper_dinv U s d idx : dinv dimension U s -> NoDup idx -> (forall i, In i idx -> U i /\ (i < length (s_params s))%nat) ->
    length idx = dimension d -> dinv dimension (fun i => U i /\ ~ In i idx) (add_wrapper s d idx).
  Proof.
    intros V ND F DIM.
    destruct (attach_all_spec (s_next s) idx (s_attach s) 0 ND) as (L & P & Q).
    { apply Forall_forall. intros i I. rewrite (d_len _ _ _ V). now apply F. }
    constructor; cbn.
    - rewrite map_app. cbn. apply nodup_app; [exact (d_ids _ _ _ V)|constructor; [intros []|constructor]|].
      intros x X [<- | []]. apply in_map_iff in X. destruct X as (w & E & W). pose proof (d_next _ _ _ V w W). lia.
    - intros w W. apply in_app_or in W. destruct W as [W|[<- | []]]; [pose proof (d_next _ _ _ V w W); lia|cbn; lia].
    - rewrite L. exact (d_len _ _ _ V).
    - intros w k i [W K]. cbn in W. apply in_app_or in W. destruct W as [W|[<- | []]].
      + destruct (d_att _ _ _ V w k i (conj W K)) as [E N]. split; [|tauto]. rewrite Q; [exact E|]. intro I. apply N. now apply F.
      + cbn in K |- *. split; [exact (P k i K)|]. apply nth_error_In in K. tauto.
    - intros i I N. destruct (in_dec Nat.eq_dec i idx) as [J|J].
      + apply In_nth_error in J. destruct J as [k K]. exists (mkDW (s_next s) d idx), k. split; [cbn; apply in_or_app; right; now left|exact K].
      + destruct (d_all _ _ _ V i I) as (w & k & W & K); [tauto|]. exists w, k. split; [cbn; apply in_or_app; now left|exact K].
    - apply Forall_app. split; [exact (d_dim _ _ _ V)|]. constructor; [exact DIM|constructor].
  Qed.
  Lemma orphans_dinv orphans : forall (U : nat -> Prop) s, dinv dimension U s -> NoDup orphans -> (forall i, In i orphans -> (i < length (s_params s))%nat) ->
    (forall i, U i <-> In i orphans) ->
    dinv dimension (fun _ => False) (fold_left (fun s j => add_wrapper s (default_dist (nth j (s_params s) 0)) [j]) orphans s).
  Proof.
    induction orphans as [|j orphans IH]; intros U s V ND R E; cbn [fold_left].
    - apply (dinv_ext dimension U); [|exact V]. intro i. rewrite E. tauto.
    - inversion ND as [|? ? N1 N2]; subst.
      apply (IH (fun i => U i /\ ~ In i [j])); auto.
      + apply add_wrapper_dinv; [exact V|constructor; [intros []|constructor]| |now rewrite DD].
        intros i [<- | []]. split; [apply E; now left|apply R; now left].
      + intros i I. apply (R i). now right.
      + intro i. cbn. rewrite E. cbn. split; [tauto|]. intro I. split; [now right|]. intros [<- | []]. contradiction.
  Qed.
  Lemma orphans_dists orphans : forall s, let s' := fold_left (fun s j => add_wrapper s (default_dist (nth j (s_params s) 0)) [j]) orphans s in
    map sampled_by (s_dists s') = map sampled_by (s_dists s) ++ map (fun j => (default_dist (nth j (s_params s) 0), [j])) orphans /\
    s_self s' = s_self s /\ s_ctx s' = s_ctx s /\ s_conds s' = s_conds s /\ s_forbidden s' = s_forbidden s /\
    s_sorted s' = s_sorted s /\ s_graph_ok s' = s_graph_ok s.
  Proof.
    induction orphans as [|j orphans IH]; intros s; cbn [fold_left map]; [rewrite app_nil_r; auto 10|].
    destruct (IH (add_wrapper s (default_dist (nth j (s_params s) 0)) [j])) as (A & B). split; [|exact B].
    rewrite A. cbn. rewrite map_app, <- app_assoc. reflexivity.
  Qed.

  (** *** Removing distributions *)
  Lemma to_delete_spec s : dinv dimension (fun _ => False) s -> forall l acc seen, Forall (fun i => (i < length (s_params s))%nat) l ->
    (forall w, In w seen -> In w (s_dists s)) -> (forall w, In w (s_dists s) -> (In (dw_id w) acc <-> In w seen)) ->
    exists gone, met s seen l gone /\ to_delete s l acc = acc ++ map dw_id gone /\
      NoDup gone /\ (forall w, In w gone -> In w (s_dists s) /\ ~ In w seen /\ exists i, In i l /\ In i (dw_indexes w)) /\
      (forall w i, In w (s_dists s) -> In i l -> In i (dw_indexes w) -> In w seen \/ In w gone).
  Proof.
    intro V. induction l as [|i l IH]; intros acc seen F SS AC; cbn [to_delete].
    - exists []. rewrite app_nil_r. split; [constructor|]. split; [reflexivity|]. split; [constructor|]. split; [intros w []|intros w i _ []].
    - inversion F as [|? ? Fi Fl]; subst. destruct (d_all _ _ _ V i Fi ltac:(auto)) as (w & k & C). pose proof C as [W K].
      destruct (d_att _ _ _ V w k i C) as [E _]. rewrite (nth_error_nth _ _ (0%nat, 0%nat) E). cbn [fst].
      pose proof (nth_error_In _ _ K) as Iw.
      assert (ONE : forall w', In w' (s_dists s) -> In i (dw_indexes w') -> w' = w).
      { intros w' W' I'. apply In_nth_error in I'. destruct I' as [k' K']. exact (proj1 (dinv_unique _ s w' k' w k i V (conj W' K') C)). }
      destruct (memb (dw_id w) acc) eqn:M.
      + apply memb_in in M. pose proof (proj1 (AC w W) M) as Sw. destruct (IH acc seen Fl SS AC) as (gone & G1 & G2 & G3 & G4 & G5).
        exists gone. split; [exact (met_old s seen i l gone w Sw Iw G1)|]. split; [exact G2|]. split; [exact G3|]. split.
        * intros x X. destruct (G4 x X) as (A & B & j & J1 & J2). split; [exact A|]. split; [exact B|]. exists j. split; [now right|exact J2].
        * intros x j X [<- | J] J2; [left; rewrite (ONE x X J2); exact Sw|exact (G5 x j X J J2)].
      + apply memb_false in M. assert (Nw : ~ In w seen) by (intro Q; apply M; now apply AC).
        destruct (IH (acc ++ [dw_id w]) (w :: seen) Fl) as (gone & G1 & G2 & G3 & G4 & G5).
        { intros x [<- | X]; auto. }
        { intros x X. rewrite in_app_iff. cbn. rewrite (AC x X). split.
          - intros [A|[A|[]]]; [now right|left]. exact (same_wrapper _ _ _ (d_ids _ _ _ V) W X A).
          - intros [<- | A]; auto. }
        exists (w :: gone). split; [exact (met_new s seen i l gone w W Nw Iw G1)|]. split; [rewrite G2, <- app_assoc; reflexivity|].
        split; [constructor; [|exact G3]|].
        { intro Q. destruct (G4 w Q) as (_ & B & _). apply B. now left. }
        split.
        * intros x [<- | X]; [split; [exact W|]; split; [exact Nw|]; exists i; split; [now left|exact Iw]|].
          destruct (G4 x X) as (A & B & j & J1 & J2). split; [exact A|]. split; [intro; apply B; now right|]. exists j. split; [now right|exact J2].
        * intros x j X [<- | J] J2; [right; left; symmetry; exact (ONE x X J2)|].
          destruct (G5 x j X J J2) as [[<- | A]|A]; [right; now left|now left|right; now right].
  Qed.
  Lemma wrapper_indexes_map s gone : NoDup (map dw_id (s_dists s)) -> (forall w, In w gone -> In w (s_dists s)) ->
    flat_map (wrapper_indexes s) (map dw_id gone) = flat_map dw_indexes gone.
  Proof.
    intros N. induction gone as [|w gone IH]; intro H; cbn; [reflexivity|]. f_equal; [|apply IH; intros; apply H; now right].
    unfold wrapper_indexes. now rewrite (find_wrapper _ w N (H w (or_introl eq_refl))).
  Qed.
  Lemma drop_index_filter i l : NoDup l -> In i l -> drop_index i l = filter (fun j => negb (j =? i)%nat) l.
  Proof.
    induction l as [|j l IH]; [intros _ []|]. intros N I. inversion N as [|? ? N1 N2]; subst.
    assert (ALL : ~ In i l -> filter (fun j => negb (j =? i)%nat) l = l).
    { clear. induction l as [|x l IH]; cbn; intro H; [reflexivity|]. destruct (Nat.eqb_spec x i) as [-> |_]; cbn; [exfalso; apply H; now left|].
      f_equal. apply IH. tauto. }
    destruct l as [|x l].
    - destruct I as [-> | []]. cbn. now rewrite Nat.eqb_refl.
    - cbn [drop_index]. change (drop_index i (j :: x :: l)) with (if (j =? i)%nat then x :: l else j :: drop_index i (x :: l)).
      cbn [filter]. destruct (Nat.eqb_spec j i) as [-> |NE]; cbn [negb].
      + symmetry. now apply ALL.
      + f_equal. apply IH; [exact N2|]. destruct I as [E|I]; [congruence|exact I].
  Qed.
  Lemma drop_all idx : forall l, NoDup l -> NoDup idx -> (forall i, In i idx -> In i l) ->
    fold_left (fun l i => drop_index i l) idx l = filter (fun j => negb (memb j idx)) l.
  Proof.
    induction idx as [|i idx IH]; intros l N NI H; cbn [fold_left].
    - induction l as [|x l IHl]; cbn; [reflexivity|]. f_equal. inversion N; subst. apply IHl; auto. intros i [].
    - inversion NI as [|? ? N1 N2]; subst. rewrite (drop_index_filter i l N (H i (or_introl eq_refl))). rewrite IH.
      + clear. induction l as [|x l IH]; cbn; [reflexivity|]. unfold memb in *. cbn. rewrite (Nat.eqb_sym x i) in *.
        destruct (Nat.eqb i x) eqn:E; cbn; [exact IH|]. destruct (existsb (Nat.eqb x) idx); cbn; [exact IH|now f_equal].
      + now apply NoDup_filter.
      + exact N2.
      + intros j J. apply filter_In. split; [apply H; now right|]. destruct (Nat.eqb_spec j i) as [-> |_]; [contradiction|reflexivity].
  Qed.
  Lemma without_filter idx l : without idx l (filter (fun j => negb (memb j idx)) l).
  Proof.
    induction l as [|x l IH]; cbn; [constructor|]. destruct (memb x idx) eqn:M; cbn.
    - apply wo_drop; [now apply memb_in|exact IH].
    - apply wo_keep; [now apply memb_false|exact IH].
  Qed.
  Lemma flat_nodup U s gone : dinv dimension U s -> NoDup gone -> (forall w, In w gone -> In w (s_dists s)) -> NoDup (flat_map dw_indexes gone).
  Proof.
    intros V. induction gone as [|w gone IH]; intros N H; cbn; [constructor|]. inversion N as [|? ? N1 N2]; subst.
    apply nodup_app; [exact (index_nodup U s w V (H w (or_introl eq_refl)))|apply IH; auto; intros; apply H; now right|].
    intros i I J. apply in_flat_map in J. destruct J as (w' & W' & J). apply In_nth_error in I, J. destruct I as [k K], J as [k' K'].
    pose proof (dinv_unique U s w k w' k' i V (conj (H w (or_introl eq_refl)) K) (conj (H w' (or_intror W')) K')) as [-> _]. contradiction.
  Qed.
  Lemma map_filter_nodup (f : dwrapper -> bool) l : NoDup (map dw_id l) -> NoDup (map dw_id (filter f l)).
  Proof.
    induction l as [|x l IH]; cbn; intro N; [constructor|]. inversion N as [|? ? N1 N2]; subst. destruct (f x); cbn; auto.
    constructor; auto. intro Q. apply N1. apply in_map_iff in Q. destruct Q as (w & E & W). apply filter_In in W. rewrite <- E. apply in_map. tauto.
  Qed.
  Lemma del_dinv s gone : dinv dimension (fun _ => False) s -> (forall w, In w gone -> In w (s_dists s)) ->
    dinv dimension (fun i => In i (flat_map dw_indexes gone)) (del_wrappers s (map dw_id gone)).
  Proof.
    intros V H. assert (FI : forall w, In w (filter (fun w => negb (memb (dw_id w) (map dw_id gone))) (s_dists s)) <-> In w (s_dists s) /\ ~ In w gone).
    { intro w. rewrite filter_In, negb_true_iff, memb_false. split; intros [A B]; (split; [exact A|]); intro Q; apply B.
      - now apply in_map.
      - apply in_map_iff in Q. destruct Q as (w' & E & W'). rewrite <- (same_wrapper _ w' w (d_ids _ _ _ V) (H w' W') A E). exact W'. }
    constructor; cbn.
    - apply map_filter_nodup. exact (d_ids _ _ _ V).
    - intros w W. apply FI in W. apply (d_next _ _ _ V). tauto.
    - exact (d_len _ _ _ V).
    - intros w k i [W K]. cbn in W. apply FI in W. destruct (d_att _ _ _ V w k i (conj (proj1 W) K)) as [E _]. split; [exact E|].
      intro Q. apply in_flat_map in Q. destruct Q as (w' & W' & I). apply In_nth_error in I. destruct I as [k' K'].
      pose proof (dinv_unique _ s w k w' k' i V (conj (proj1 W) K) (conj (H w' W') K')) as [-> _]. tauto.
    - intros i L N. destruct (d_all _ _ _ V i L ltac:(auto)) as (w & k & W & K). exists w, k. split; [|exact K]. apply FI. split; [exact W|].
      intro Q. apply N. apply in_flat_map. exists w. split; [exact Q|]. now apply nth_error_In in K.
    - apply Forall_forall. intros w W. apply FI in W. pose proof (d_dim _ _ _ V) as D. rewrite Forall_forall in D. apply D. tauto.
  Qed.
  Lemma survivors_filter s idx gone : NoDup (map dw_id (s_dists s)) -> (forall w, In w gone -> In w (s_dists s)) ->
    (forall w, In w (s_dists s) -> (In w gone <-> ~ apart idx w)) ->
    survivors idx (s_dists s) (filter (fun w => negb (memb (dw_id w) (map dw_id gone))) (s_dists s)).
  Proof.
    intros N H E. assert (GEN : forall l, (forall w, In w l -> In w (s_dists s)) -> survivors idx l (filter (fun w => negb (memb (dw_id w) (map dw_id gone))) l)).
    { induction l as [|w l IH]; intro L; cbn; [constructor|]. pose proof (L w (or_introl eq_refl)) as W. destruct (memb (dw_id w) (map dw_id gone)) eqn:M; cbn.
      - apply sv_drop; [|apply IH; intros; apply L; now right]. apply E; [exact W|]. apply memb_in, in_map_iff in M. destruct M as (w' & Ew & W').
        now rewrite <- (same_wrapper _ w' w N (H w' W') W Ew).
      - apply sv_keep; [|apply IH; intros; apply L; now right]. apply memb_false in M. intros i I J. apply M, in_map. apply E; [exact W|].
        intro Q. exact (Q i I J). }
    apply GEN. auto.
  Qed.

  Lemma set_distribution_spec s d idx r s' : dinv dimension (fun _ => False) s -> length idx = dimension d ->
    set_distribution default_dist s d idx = (r, s') ->
    sets_distribution default_dist s d idx r s' /\ dinv dimension (fun _ => False) s'.
  Proof.
    intros V DIM. unfold set_distribution. destruct (bad_indexes (length (s_params s)) idx) eqn:B.
    - intro E. injection E as <- <-. split; [|exact V]. apply sd_bad. rewrite <- bad_indexes_spec. congruence.
    - apply bad_indexes_spec in B. destruct B as [ND F].
      destruct (to_delete_spec s V idx [] [] F) as (gone & M & TD & NG & G4 & G5); [intros w []|intros; cbn; tauto|].
      rewrite TD. cbn [app]. assert (GI : forall w, In w gone -> In w (s_dists s)) by (intros w W; apply (G4 w W)).
      rewrite (wrapper_indexes_map s gone (d_ids _ _ _ V) GI).
      assert (COV : forall i, In i idx -> In i (flat_map dw_indexes gone)).
      { intros i I. rewrite Forall_forall in F. destruct (d_all _ _ _ V i (F i I) ltac:(auto)) as (w & k & W & K). apply nth_error_In in K.
        apply in_flat_map. exists w. split; [|exact K]. destruct (G5 w i W I K) as [[]|X]. exact X. }
      pose proof (flat_nodup _ s gone V NG GI) as NF. rewrite (drop_all idx _ NF ND COV).
      set (orphans := filter (fun j => negb (memb j idx)) (flat_map dw_indexes gone)).
      assert (OI : forall i, In i orphans <-> In i (flat_map dw_indexes gone) /\ ~ In i idx).
      { intro i. unfold orphans. now rewrite filter_In, negb_true_iff, memb_false. }
      assert (RNG : forall i, In i (flat_map dw_indexes gone) -> (i < length (s_params s))%nat).
      { intros i I. apply in_flat_map in I. destruct I as (w & W & I). apply In_nth_error in I. destruct I as [k K]. exact (dinv_in _ s w k i V (conj (GI w W) K)). }
      pose proof (del_dinv s gone V GI) as V1. set (s1 := del_wrappers s (map dw_id gone)) in *.
      pose proof (add_wrapper_dinv _ s1 d idx V1 ND (fun i I => conj (COV i I) (RNG i (COV i I))) DIM) as V2.
      set (s2 := add_wrapper s1 d idx) in *. intro E. injection E as <- <-.
      destruct (orphans_dists orphans s2) as (D1 & D2 & D3 & D4 & D5 & D6 & D7).
      split.
      + apply (sd_ok default_dist s d idx (filter (fun w => negb (memb (dw_id w) (map dw_id gone))) (s_dists s)) gone orphans); auto.
        * apply survivors_filter; [exact (d_ids _ _ _ V)|exact GI|]. intros w W. split.
          -- intros Q A. destruct (G4 w Q) as (_ & _ & i & I & J). exact (A i I J).
          -- intro Q. destruct (in_dec Nat.eq_dec (dw_id w) (map dw_id gone)) as [X|X].
             ++ apply in_map_iff in X. destruct X as (w' & Ew & W'). now rewrite <- (same_wrapper _ w' w (d_ids _ _ _ V) (GI w' W') W Ew).
             ++ exfalso. apply Q. intros i I J. apply X, in_map. destruct (G5 w i W I J) as [[]|Y]. exact Y.
        * unfold orphans. apply without_filter.
        * rewrite D1. cbn. rewrite map_app, <- app_assoc. reflexivity.
      + apply (orphans_dinv orphans (fun i => In i (flat_map dw_indexes gone) /\ ~ In i idx) s2 V2).
        * unfold orphans. now apply NoDup_filter.
        * intros i I. apply OI in I. now apply RNG.
        * intro i. symmetry. apply OI.
  Qed.

  Lemma new_dinv self name : dinv dimension (fun _ => False) (new_space self name).
  Proof.
    constructor; cbn; auto; [constructor|intros w []|intros w k i [[] _]|intros i L; exfalso; lia].
  Qed.
  (** *** Only the distributions matter *)
  Lemma dinv_same s s' : same_space s s' -> dinv dimension (fun _ => False) s -> dinv dimension (fun _ => False) s'.
  Proof.
    intros (E1 & E2 & E3 & E4 & E5 & E6 & E7) [A B C D F G]. unfold s_params in *. constructor; unfold component, s_params in *; rewrite ?E2, ?E4, ?E5, ?E6; auto.
  Qed.
End Dist.
