(** Proofs about configuration spaces: the graph of conditions. *)
From Coq Require Import ZArith List Bool Lia Relations.
From Verif Require Import Base Datum CmpModel ParamModel ParamSpec ContextModel ContextSpec ContextProofs.
From Verif Require Import ExprModel ExprSpec ExprProofs ExprLemmas ExprSem SpaceModel SpaceSpec SpaceGraph.
Import ListNotations.
Open Scope Z_scope.

Lemma ct_mono {T} (R R' : T -> T -> Prop) a b : (forall x y, R x y -> R' x y) -> clos_trans T R a b -> clos_trans T R' a b.
Proof. intros H C. induction C; [apply t_step; auto|eapply t_trans; eauto]. Qed.
Lemma rt_cases {T} (R : T -> T -> Prop) a b : clos_refl_trans T R a b <-> a = b \/ clos_trans T R a b.
Proof.
  split.
  - intro C. induction C as [a b H|a|a b c H1 IH1 H2 IH2]; [right; now apply t_step|now left|].
    destruct IH1 as [-> | IH1], IH2 as [-> | IH2]; auto. right. eapply t_trans; eauto.
  - intros [-> | C]; [apply rt_refl|]. induction C; [now apply rt_step|eapply rt_trans; eauto].
Qed.

Section Graph.
  Variable heap : Z -> param.
  Variable c : context.
  Variable A : list Z.
  Hypothesis D : describes heap c A.
  Lemma desc_index h i : nth_error A i = Some h -> get_index c h = Ok i.
  Proof. apply D. Qed.
  Lemma desc_nodup : NoDup A.
  Proof. destruct D as (N & _). exact (NoDup_map_inv _ _ N). Qed.
  Lemma desc_indexes hs : (Forall (fun h => In h A) hs /\ exists is, get_indexes c hs = Ok is /\ Forall2 (fun h i => nth_error A i = Some h) hs is) \/
    ((exists h, In h hs /\ ~ In h A) /\ get_indexes c hs = Err ERR_INVALID_PARAMETER).
  Proof.
    destruct (Forall_Exists_dec (fun h => In h A) (fun h => in_dec Z.eq_dec h A) hs) as [F|E].
    - left. split; [exact F|].
      assert (X : exists is, Forall2 (fun h i => nth_error A i = Some h) hs is).
      { clear D. induction F as [|h hs H F [is IH]]; [exists []; constructor|]. apply In_nth_error in H. destruct H as [i Hi]. exists (i :: is). now constructor. }
      destruct X as [is X]. exists is. split; [now apply D|exact X].
    - right. apply Exists_exists in E. split; [exact E|]. apply D. rewrite Forall_forall. intro F. destruct E as (h & H1 & H2). auto.
  Qed.

  (** arrays describing the conditions of the parameters before [index] *)
  Definition built (conds : list (option expr)) (index : nat) (parents children : list (list nat)) : Prop :=
    length parents = length A /\ length children = length A /\
    (forall i j, In j (nth i parents []) <-> (i < index)%nat /\ reads A conds j i) /\
    (forall i j, In i (nth j children []) <-> (i < index)%nat /\ reads A conds j i).
  Lemma push_children index is : forall children, Forall (fun i => (i < length children)%nat) is ->
    length (fold_left (push_child index) is children) = length children /\
    forall j i, In i (nth j (fold_left (push_child index) is children) []) <-> In i (nth j children []) \/ (i = index /\ In j is).
  Proof.
    induction is as [|p is IH]; intros children F; cbn [fold_left]; [split; [reflexivity|intros; cbn; tauto]|].
    inversion F; subst. destruct (IH (push_child index children p)) as [L M].
    - unfold push_child. rewrite update_length. assumption.
    - unfold push_child in *. rewrite update_length in L. split; [exact L|]. intros j i. rewrite M, update_nth by assumption.
      destruct (Nat.eqb_spec j p) as [-> | N]; [rewrite in_app_iff|]; cbn [In]; intuition subst; tauto.
  Qed.
  Lemma graph_spec conds : length conds = length A -> (forall i e h, nth_error conds i = Some (Some e) -> occurs h e -> 0 < h) ->
    forall rest index parents children, skipn index conds = rest -> built conds index parents children ->
    ((exists i e h, nth_error conds i = Some (Some e) /\ occurs h e /\ ~ In h A) /\
      graph_loop c index rest parents children = Err ERR_INVALID_PARAMETER) \/
    ((forall i e h, (index <= i)%nat -> nth_error conds i = Some (Some e) -> occurs h e -> In h A) /\
      exists parents' children', graph_loop c index rest parents children = Ok (map uniq parents', map uniq children') /\
        built conds (length A) parents' children').
  Proof.
    intros L P. induction rest as [|o rest IH]; intros index parents children E B.
    - right. assert (I : (length A <= index)%nat). { rewrite <- L. pose proof (skipn_length index conds) as S. rewrite E in S. cbn in S. lia. }
      split. { intros i e h Hi H. assert (nth_error conds i = None) by (apply nth_error_None; lia). congruence. }
      exists parents, children. split; [reflexivity|]. destruct B as (B1 & B2 & B3 & B4).
      assert (R : forall i j, reads A conds j i -> (i < length A)%nat).
      { intros i j (e & h & H & _). rewrite <- L. apply nth_error_Some. congruence. }
      split; [exact B1|]. split; [exact B2|]. split; intros i j; [rewrite B3|rewrite B4]; split; intros [H1 H2]; (split; [|exact H2]); [apply (R i j H2)| |apply (R i j H2)|];
      pose proof (R i j H2); lia.
    - assert (N : nth_error conds index = Some o).
      { rewrite <- (firstn_skipn index conds), E. rewrite nth_error_app2; rewrite firstn_length; [|lia].
        assert (index < length conds)%nat. { pose proof (skipn_length index conds) as S. rewrite E in S. cbn in S. lia. }
        replace (index - Nat.min index (length conds))%nat with O by lia. reflexivity. }
      assert (E' : skipn (S index) conds = rest).
      { clear - E. revert conds E. induction index as [|k IHk]; intros [|x l] E; try discriminate; cbn in *; [congruence|]. now apply IHk. }
      assert (I : (index < length A)%nat) by (rewrite <- L; apply nth_error_Some; congruence).
      assert (SKIP : (o = None \/ (exists e, o = Some e /\ (forall h, ~ occurs h e))) -> built conds (S index) parents children).
      { intro NONE. destruct B as (B1 & B2 & B3 & B4). split; [exact B1|]. split; [exact B2|].
        assert (X : forall i j, (i < S index)%nat /\ reads A conds j i <-> (i < index)%nat /\ reads A conds j i).
        { intros i j. split; intros [H1 H2]; (split; [|exact H2]); [|lia]. destruct (Nat.eq_dec i index) as [-> | ]; [|lia]. exfalso.
          destruct H2 as (e & h & Q1 & Q2 & Q3). destruct NONE as [-> | (e' & -> & Q)]; [congruence|]. rewrite N in Q1. injection Q1 as <-. exact (Q h Q3). }
        split; intros i j; [rewrite B3|rewrite B4]; symmetry; apply X. }
      destruct o as [e|]; cbn [graph_loop].
      + destruct (params_spec e) as [_ Q]; [intros h O; exact (P index e h N O)|].
        unfold expr_get_parameters. set (l := distinct 0 (sort (collect_params e))) in *. cbn [bind snd fst].
        destruct (Nat.eqb_spec (length l) 0) as [Z|NZ].
        * destruct (IH (S index) parents children E') as [H|[H1 H2]].
          -- apply SKIP. right. exists e. split; [reflexivity|]. intros h' O. apply Q in O. destruct l; [destruct O|discriminate].
          -- now left.
          -- right. split; [|exact H2]. intros i e' h Hi N' O. destruct (Nat.eq_dec i index) as [-> | ]; [|apply (H1 i e' h); auto; lia].
             rewrite N in N'. injection N' as <-. apply Q in O. destruct l; [destruct O|discriminate].
        * rewrite Nat.ltb_irrefl. cbn [refute bind fst]. rewrite Nat.sub_diag. cbn [repeat]. rewrite app_nil_r.
          destruct (desc_indexes l) as [(F & is & G & F2)|((h & H1 & H2) & G)]; rewrite G; cbn [bind].
          -- assert (IS : forall j, In j is <-> reads A conds j index).
             { intro j. split.
               - intro J. apply In_nth_error in J. destruct J as [k Hk].
                 assert (exists h, nth_error l k = Some h /\ nth_error A j = Some h) as (h & K1 & K2).
                 { clear - F2 Hk. revert k Hk. induction F2 as [|h i hs is' H F2 IHF]; intros [|k] Hk; try discriminate; cbn in *; [injection Hk as ->; eauto|now apply IHF]. }
                 exists e, h. split; [exact N|]. split; [exact K2|]. apply Q. now apply nth_error_In in K1.
               - intros (e' & h & K1 & K2 & K3). rewrite N in K1. injection K1 as <-. apply Q in K3. apply In_nth_error in K3. destruct K3 as [k Hk].
                 assert (exists i, nth_error is k = Some i /\ nth_error A i = Some h) as (i & K4 & K5).
                 { clear - F2 Hk. revert k Hk. induction F2 as [|h' i hs is' H F2 IHF]; intros [|k] Hk; try discriminate; cbn in *; [injection Hk as ->; eauto|now apply IHF]. }
                 assert (i = j). { apply (proj1 (NoDup_nth_error A) desc_nodup); [apply nth_error_Some; congruence|congruence]. } subst i. now apply nth_error_In in K4. }
             assert (RG : Forall (fun i => (i < length children)%nat) is).
             { apply Forall_forall. intros j J. apply IS in J. destruct J as (_ & h & _ & K & _). destruct B as (_ & -> & _). apply nth_error_Some. congruence. }
             destruct (push_children index is children RG) as [PL PM].
             destruct (IH (S index) (update parents index is) (fold_left (push_child index) is children) E') as [H|[H1 H2]].
             ++ destruct B as (B1 & B2 & B3 & B4). split; [rewrite update_length; exact B1|]. split; [rewrite PL; exact B2|]. split.
                ** intros i j. rewrite update_nth by (rewrite B1; exact I). destruct (Nat.eqb_spec i index) as [-> | NE].
                   --- rewrite IS. intuition lia.
                   --- rewrite B3. intuition lia.
                ** intros i j. rewrite PM, B4, IS. split.
                   --- intros [[K1 K2]|[-> K]]; [split; [lia|exact K2]|split; [lia|exact K]].
                   --- intros [K1 K2]. destruct (Nat.eq_dec i index) as [-> | ]; [right; auto|left; split; [lia|exact K2]].
             ++ now left.
             ++ right. split; [|exact H2]. intros i e' h Hi N' O. destruct (Nat.eq_dec i index) as [-> | ]; [|apply (H1 i e' h); auto; lia].
                rewrite N in N'. injection N' as <-. apply Q in O. rewrite Forall_forall in F. now apply F.
          -- left. split; [|reflexivity]. exists index, e, h. split; [exact N|]. split; [|exact H2]. now apply Q.
      + destruct (IH (S index) parents children E') as [H|[H1 H2]].
        * apply SKIP. now left.
        * now left.
        * right. split; [|exact H2]. intros i e' h Hi N' O. destruct (Nat.eq_dec i index) as [-> | ]; [congruence|apply (H1 i e' h); auto; lia].
  Qed.
  Lemma recompute_spec conds : length conds = length A -> (forall i e h, nth_error conds i = Some (Some e) -> occurs h e -> 0 < h) ->
    ((exists i e h, nth_error conds i = Some (Some e) /\ occurs h e /\ ~ In h A) /\
      recompute_graph c conds = Err ERR_INVALID_PARAMETER) \/
    ((forall i e h, nth_error conds i = Some (Some e) -> occurs h e -> In h A) /\
      exists parents children, recompute_graph c conds = Ok (parents, children) /\ length parents = length A /\
        (forall i, NoDup (nth i parents [])) /\ (forall i, NoDup (nth i children [])) /\
        (forall i j, In j (nth i parents []) <-> reads A conds j i) /\ (forall i j, In i (nth j children []) <-> reads A conds j i)).
  Proof.
    intros L P. unfold recompute_graph. destruct (graph_spec conds L P conds 0 (repeat [] (length conds)) (repeat [] (length conds)) eq_refl) as [H|[H1 (p & ch & G & B1 & B2 & B3 & B4)]].
    - split; [rewrite repeat_length; exact L|]. split; [rewrite repeat_length; exact L|].
      assert (X : forall i, nth i (repeat (@nil nat) (length conds)) [] = []). { intro i. generalize (length conds). induction i as [|i IHi]; intros [|n]; cbn; auto. }
      split; intros i j; rewrite X; cbn; split; try intros []; lia.
    - now left.
    - right. split; [intros i e h; apply H1; lia|]. exists (map uniq p), (map uniq ch).
      assert (X : forall l i, nth i (map uniq l) [] = uniq (nth i l [])) by (intros l i; change [] with (uniq []) at 1; apply map_nth).
      assert (R : forall i j, reads A conds j i -> (i < length A)%nat).
      { intros i j (e & h & H & _). rewrite <- L. apply nth_error_Some. congruence. }
      split; [exact G|]. split; [rewrite map_length; exact B1|]. split; [intro i; rewrite X; apply uniq_nodup|]. split; [intro i; rewrite X; apply uniq_nodup|].
      split; intros i j; rewrite X, uniq_in; [rewrite B3|rewrite B4]; (split; [tauto|]); intro Q; (split; [exact (R _ _ Q)|exact Q]).
  Qed.

  Lemma sorted_spec conds : length conds = length A -> lenZ A < 2 ^ 32 -> (forall i e h, nth_error conds i = Some (Some e) -> occurs h e -> 0 < h) ->
    ((exists i e h, nth_error conds i = Some (Some e) /\ occurs h e /\ ~ In h A) /\
      recompute_graph c conds = Err ERR_INVALID_PARAMETER) \/
    ((forall i e h, nth_error conds i = Some (Some e) -> occurs h e -> In h A) /\
      exists parents children sorted, recompute_graph c conds = Ok (parents, children) /\ topological_sort parents children = Ok sorted /\
        NoDup sorted /\ dependencies_first A conds sorted /\ (forall i, In i sorted <-> (i < length A)%nat /\ ~ tangled A conds i) /\
        ((length sorted < length conds)%nat <-> ~ acyclic A conds)).
  Proof.
    intros L SM P. destruct (recompute_spec conds L P) as [H|(H & parents & children & G & LP & N1 & N2 & R1 & R2)]; [now left|right].
    split; [exact H|]. exists parents, children.
    assert (PR : forall j i, parent parents j i <-> reads A conds j i).
    { intros j i. unfold parent. rewrite R1, LP. split; [tauto|]. intro Q. split; [|exact Q]. destruct Q as (e & h & Q & _). rewrite <- L. apply nth_error_Some. congruence. }
    destruct (topological_spec parents children) as (l & T & ND & ORD & RNG & GOOD & BAD); auto.
    { rewrite LP. unfold lenZ in SM. lia. }
    { intros j i Q. apply PR in Q. destruct Q as (_ & h & _ & Q & _). rewrite LP. apply nth_error_Some. congruence. }
    { intros j i. rewrite R2. symmetry. apply PR. }
    assert (TA : forall i, (exists cc, clos_trans nat (parent parents) cc cc /\ clos_refl_trans nat (parent parents) cc i) <-> tangled A conds i).
    { intro i. unfold tangled, depends. split; intros (cc & C1 & C2); exists cc.
      - split; [apply (ct_mono _ _ _ _ (fun x y => proj1 (PR x y)) C1)|]. apply rt_cases in C2. destruct C2 as [C2|C2]; [now left|right].
        apply (ct_mono _ _ _ _ (fun x y => proj1 (PR x y)) C2).
      - split; [apply (ct_mono _ _ _ _ (fun x y => proj2 (PR x y)) C1)|]. apply rt_cases. destruct C2 as [C2|C2]; [now left|right].
        apply (ct_mono _ _ _ _ (fun x y => proj2 (PR x y)) C2). }
    exists l. split; [exact G|]. split; [exact T|]. split; [exact ND|]. split.
    { intros l1 i l2 j E Q. apply (ORD l1 i l2 j E). now apply PR. }
    assert (IN : forall i, In i l <-> (i < length A)%nat /\ ~ tangled A conds i).
    { intro i. split.
      - intro I. split; [rewrite <- LP; now apply RNG|]. rewrite <- TA. now apply GOOD.
      - intros [I1 I2]. destruct (in_dec Nat.eq_dec i l) as [Q|Q]; [exact Q|]. exfalso. apply I2, TA, BAD; [rewrite LP; exact I1|exact Q]. }
    split; [exact IN|]. split.
    - intros LT AC. destruct (Forall_Exists_dec (fun i => In i l) (fun i => in_dec Nat.eq_dec i l) (seq 0 (length A))) as [F|E].
      + rewrite Forall_forall in F. pose proof (NoDup_incl_length (seq_NoDup (length A) 0) F) as X. rewrite seq_length in X. lia.
      + apply Exists_exists in E. destruct E as (i & I1 & I2). apply in_seq in I1. destruct (BAD i) as (cc & C1 & _); [rewrite LP; lia|exact I2|].
        apply (AC cc). exact (ct_mono _ _ _ _ (fun x y => proj1 (PR x y)) C1).
    - intro NA. destruct (Nat.lt_ge_cases (length l) (length conds)) as [Q|Q]; [exact Q|]. exfalso. apply NA. intros i DI.
      assert (I : (i < length A)%nat). { rewrite <- L. apply clos_trans_tn1 in DI. inversion DI as [? (e & h & K & _)|? ? (e & h & K & _)]; apply nth_error_Some; congruence. }
      assert (J : In i l).
      { apply (NoDup_length_incl ND (l' := seq 0 (length A))); [rewrite seq_length; lia| |apply in_seq; lia].
        intros k K. apply IN in K. apply in_seq. lia. }
      apply IN in J. apply (proj2 J). exists i. split; [exact DI|now left].
  Qed.
End Graph.
