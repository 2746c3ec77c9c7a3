(** The topological sort over doubly linked lists in memory is the one over lists. *)
From Coq Require Import ZArith List Bool Lia Relations.
From Verif Require Import Base ExprModel ExprSpec ContextModel ContextSpec SpaceModel SpaceGraph DlistModel DlistSpec DlistProofs.
From Verif Require SpaceSpec SpaceProofs UthashModel UthashLists.
Import ListNotations.
Open Scope Z_scope.

Section Topo.
  Variable base : Z.
  Hypothesis base_pos : 0 < base.
  Variable n : nat.

  Notation at_ := (elem base).
  Lemma elem_inj : forall i j, at_ i = at_ j -> i = j.
  Proof. unfold elem. intros. lia. Qed.
  Lemma elem_pos : forall i, at_ i <> 0.
  Proof. unfold elem. intros. lia. Qed.
  Lemma in_elems : forall c q, In (at_ c) (map at_ q) <-> In c q.
  Proof.
    intros c q. rewrite in_map_iff. split.
    - intros (x & E & X). apply elem_inj in E. now subst.
    - intros X. exists c. auto.
  Qed.

  Record sim (t : tstate) (queue : list nat) (edges : list Z) : Prop := mkSim {
    s_list : is_list (t_q t) (map at_ queue);
    s_live : forall i, (i < n)%nat -> live (t_q t) (at_ i) = true;
    s_edges : forall i, (i < n)%nat -> t_edges t (at_ i) = nth i edges 0;
    s_index : forall i, (i < n)%nat -> t_index t (at_ i) = Z.of_nat i }.

  Lemma relax_more : forall cs edges queue, exists more,
    snd (relax cs edges queue) = queue ++ more.
  Proof.
    induction cs as [|c cs IH]; intros edges queue; cbn [relax].
    - exists []. now rewrite app_nil_r.
    - destruct (IH (update edges c (wrap 64 (nth c edges 0 - 1)))
                  (if wrap 64 (nth c edges 0 - 1) =? 0 then queue ++ [c] else queue)) as (more & E).
      rewrite E. destruct (wrap 64 (nth c edges 0 - 1) =? 0); [|eauto].
      exists (c :: more). now rewrite <- app_assoc.
  Qed.

  Lemma nodup_app_l : forall (l m : list nat), NoDup (l ++ m) -> NoDup l.
  Proof.
    induction l as [|x l IH]; intros m H; [constructor|]. inversion H; subst. constructor; [|now apply (IH m)].
    intros X. apply H2. rewrite in_app_iff. now left.
  Qed.

  Lemma enqueue_ok : forall t queue edges c, sim t queue edges -> (c < n)%nat -> NoDup (queue ++ [c]) ->
    exists t', enqueue t (at_ c) = Ok t' /\ sim t' (queue ++ [c]) edges
      /\ live (t_q t') = live (t_q t) /\ t_edges t' = t_edges t /\ t_index t' = t_index t.
  Proof.
    intros t queue edges c [A B C D] Hc ND. unfold enqueue.
    destruct (append_ok (t_q t) (map at_ queue) (at_ c) A (elem_pos c) (B c Hc)) as (q & E & I & L).
    { rewrite in_elems. apply NoDup_remove_2 in ND. now rewrite app_nil_r in ND. }
    rewrite E. cbn [bind]. eexists. split; [reflexivity|]. split; [|auto].
    constructor; cbn [t_q t_edges t_index]; try assumption.
    - rewrite map_app. exact I.
    - intros i Hi. rewrite L. now apply B.
  Qed.

  Lemma relax_ok : forall cs t queue edges edges' queue', sim t queue edges ->
    length edges = n -> Forall (fun c => (c < n)%nat) cs ->
    relax cs edges queue = (edges', queue') -> NoDup queue' ->
    exists t', relax_loop base cs t = Ok t' /\ sim t' queue' edges'
      /\ live (t_q t') = live (t_q t) /\ t_index t' = t_index t.
  Proof.
    induction cs as [|c cs IH]; intros t queue edges edges' queue' I L F R ND; cbn [relax relax_loop] in *.
    - injection R as <- <-. exists t. auto.
    - inversion F as [|x y Hc F']; subst x y.
      unfold has. rewrite (s_live _ _ _ I c Hc). cbn [bind].
      rewrite (s_edges _ _ _ I c Hc).
      change ((nth c edges 0 - 1) mod 2 ^ 64) with (wrap 64 (nth c edges 0 - 1)).
      set (d := wrap 64 (nth c edges 0 - 1)) in *.
      set (t1 := mkT (t_q t) (put (t_edges t) (at_ c) d) (t_index t)).
      assert (I1 : sim t1 queue (update edges c d)).
      { destruct I as [A B C D]. constructor; try assumption. cbn [t1 t_edges]. intros i Hi.
        rewrite update_nth by (rewrite L; exact Hc). unfold UthashModel.put.
        destruct (Nat.eqb_spec i c) as [->|NE]; [now rewrite Z.eqb_refl|].
        destruct (Z.eqb_spec (at_ i) (at_ c)) as [E|_]; [apply elem_inj in E; contradiction|now apply C]. }
      assert (L1 : length (update edges c d) = n) by (rewrite update_length; exact L).
      destruct (Z.eqb_spec d 0) as [D0|DN].
      + pose proof (relax_more cs (update edges c d) (queue ++ [c])) as (more & MO).
        rewrite R in MO. cbn [snd] in MO.
        destruct (enqueue_ok t1 queue _ c I1 Hc) as (t2 & E2 & I2 & L2 & _ & X2).
        { rewrite MO in ND. now apply nodup_app_l in ND. }
        rewrite E2. cbn [bind].
        destruct (IH t2 _ _ _ _ I2 L1 F' R ND) as (t' & E & I' & L' & X').
        exists t'. split; [exact E|]. split; [exact I'|]. split; [exact (eq_trans L' L2)|exact (eq_trans X' X2)].
      + cbn [bind]. destruct (IH t1 _ _ _ _ I1 L1 F' R ND) as (t' & E & I' & L' & X').
        exists t'. split; [exact E|]. split; [exact I'|]. split; assumption.
  Qed.

  Variables parents children : list (list nat).
  Hypothesis count : length parents = n.
  Hypothesis gr : graph parents children.

  Lemma nodup_tail : forall (l m : list nat), NoDup (l ++ m) -> NoDup m.
  Proof. induction l as [|x l IH]; intros m H; [exact H|]. inversion H; subst. now apply IH. Qed.

  Lemma main_ok : forall fuel queue edges sorted t,
    sim t queue edges -> SpaceGraph.inv parents queue edges sorted ->
    (n < fuel + length sorted)%nat ->
    forall l, kahn (n - length sorted) children queue edges sorted = Ok l ->
    exists t', main_loop fuel base children t sorted = Ok (l, t') /\ live (t_q t') = live (t_q t)
      /\ head (t_q t') = 0.
  Proof.
    destruct gr as (G1 & G2 & G3 & G4 & G5 & G6). rewrite count in *.
    induction fuel as [|fuel IH]; intros queue edges sorted t I J F l K.
    - pose proof (bounded_length parents _ (inv_nodup _ _ _ _ J) (inv_range _ _ _ _ J)) as B.
      rewrite app_length, count in B. lia.
    - cbn [main_loop]. pose proof (s_list _ _ _ I) as IL. rewrite (il_head _ _ IL).
      destruct queue as [|e queue].
      + cbn [map hd]. rewrite Z.eqb_refl.
        assert (K' : l = sorted) by (destruct (n - length sorted)%nat; cbn [kahn] in K; congruence).
        exists t. subst l. split; [reflexivity|]. split; [reflexivity|]. rewrite (il_head _ _ IL). reflexivity.
      + cbn [map hd]. destruct (Z.eqb_spec (at_ e) 0) as [E0|_]; [destruct (elem_pos e E0)|].
        destruct (delete_ok (t_q t) [] (at_ e) (map at_ queue) IL) as (q & D & IQ & LQ & _).
        rewrite D. cbn [bind].
        assert (He : (e < n)%nat).
        { rewrite <- count. apply (inv_range _ _ _ _ J). rewrite in_app_iff. right. now left. }
        unfold has at 1. cbn [t_q]. rewrite LQ, (s_live _ _ _ I e He). cbn [bind t_index].
        rewrite (s_index _ _ _ I e He), Nat2Z.id.
        rewrite (nth_error_nth' children e []) by (rewrite G1; exact He).
        destruct (step_inv parents children) with (e := e) (queue := queue) (edges := edges) (sorted := sorted)
          as (edges' & more & R & J'); try assumption.
        { rewrite count. lia. }
        { intros j i (X1 & X2). rewrite count in *. now apply (G5 i j). }
        { intros j i. unfold parent. rewrite count. apply G6. }
        assert (I1 : sim (mkT q (t_edges t) (t_index t)) queue edges).
        { destruct I as [A B C DD]. constructor; cbn [t_q t_edges t_index]; try assumption.
          intros i Hi. rewrite LQ. now apply B. }
        destruct (relax_ok (nth e children []) _ queue edges edges' (queue ++ more) I1)
          as (t2 & R2 & I2 & L2 & X2); try assumption.
        { rewrite (inv_len _ _ _ _ J). exact count. }
        { apply Forall_forall. intros c Hc. now apply G6 in Hc. }
        { pose proof (inv_nodup _ _ _ _ J') as N'. now apply nodup_tail in N'. }
        rewrite R2. cbn [bind]. unfold has. rewrite L2. cbn [t_q]. rewrite LQ, (s_live _ _ _ I e He). cbn [bind].
        rewrite X2. cbn [t_index]. rewrite (s_index _ _ _ I e He), Nat2Z.id.
        assert (LS : (length sorted < n)%nat).
        { pose proof (bounded_length parents _ (inv_nodup _ _ _ _ J) (inv_range _ _ _ _ J)) as B.
          rewrite app_length, count in B. cbn [length] in B. lia. }
        destruct (n - length sorted)%nat as [|m] eqn:EM; [lia|]. cbn [kahn] in K.
        rewrite R in K.
        destruct (IH _ _ _ t2 I2 J') with (l := l) as (t' & E & L' & H').
        { rewrite app_length. cbn [length]. lia. }
        { rewrite app_length. cbn [length].
          replace (n - (length sorted + 1))%nat with m by lia. exact K. }
        exists t'. split; [exact E|]. split; [|exact H']. rewrite L', L2. cbn [t_q]. exact LQ.
  Qed.

  Lemma roots_from : forall (ps : list (list nat)) i, 
    filter (fun j => match nth (j - i) ps [] with [] => true | _ => false end) (seq i (length ps))
    = match ps with
      | [] => []
      | p :: ps' => match p with [] => [i] | _ => [] end
         ++ filter (fun j => match nth (j - S i) ps' [] with [] => true | _ => false end) (seq (S i) (length ps'))
      end.
  Proof.
    intros [|p ps] i; [reflexivity|].
    assert (E : filter (fun j => match nth (j - i) (p :: ps) [] with [] => true | _ => false end) (seq (S i) (length ps))
      = filter (fun j => match nth (j - S i) ps [] with [] => true | _ => false end) (seq (S i) (length ps))).
    { apply filter_ext_in. intros j J. apply in_seq in J.
      replace (j - i)%nat with (S (j - S i)) by lia. reflexivity. }
    rewrite <- E. cbn [length seq]. cbn [filter]. rewrite Nat.sub_diag. destruct p; reflexivity.
  Qed.

  (** The elements from [i] on are still to be filled *)
  Lemma init_ok : forall (ps : list (list nat)) i t queue,
    (i + length ps = n)%nat ->
    is_list (t_q t) (map at_ queue) -> (forall c, In c queue -> (c < i)%nat) ->
    (forall j, (j < n)%nat -> live (t_q t) (at_ j) = true) ->
    exists t', init_loop base i ps t = Ok t' /\ live (t_q t') = live (t_q t)
      /\ is_list (t_q t') (map at_ (queue
           ++ filter (fun j => match nth (j - i) ps [] with [] => true | _ => false end) (seq i (length ps))))
      /\ (forall j, (i <= j < n)%nat -> t_edges t' (at_ j) = Z.of_nat (length (nth (j - i) ps []))
                                        /\ t_index t' (at_ j) = Z.of_nat j)
      /\ (forall j, (j < i)%nat -> t_edges t' (at_ j) = t_edges t (at_ j)
                                        /\ t_index t' (at_ j) = t_index t (at_ j)).
  Proof.
    induction ps as [|p ps IH]; intros i t queue LN IL QB LV; cbn [init_loop].
    - exists t. split; [reflexivity|]. split; [reflexivity|]. cbn. rewrite app_nil_r.
      split; [exact IL|]. split; [|auto]. intros j J. cbn in LN. lia.
    - cbn [length] in LN. assert (Hi : (i < n)%nat) by lia.
      unfold has. rewrite (LV i Hi). cbn [bind].
      set (t1 := mkT (t_q t) (put (t_edges t) (at_ i) (Z.of_nat (length p))) (put (t_index t) (at_ i) (Z.of_nat i))).
      set (q1 := queue ++ match p with [] => [i] | _ => [] end).
      assert (exists t2, (if Z.of_nat (length p) =? 0 then enqueue t1 (at_ i) else Ok t1) = Ok t2
        /\ is_list (t_q t2) (map at_ q1) /\ live (t_q t2) = live (t_q t)
        /\ t_edges t2 = t_edges t1 /\ t_index t2 = t_index t1) as (t2 & E2 & I2 & L2 & X2 & Y2).
      { destruct p as [|x p]; cbn [length].
        - rewrite Z.eqb_refl. unfold enqueue.
          destruct (append_ok (t_q t1) (map at_ queue) (at_ i) IL (elem_pos i) (LV i Hi)) as (q & E & I & L).
          { rewrite in_elems. intros X. apply QB in X. lia. }
          rewrite E. cbn [bind]. eexists. split; [reflexivity|]. cbn [t_q t_edges t_index].
          unfold q1. rewrite map_app. split; [exact I|]. auto.
        - destruct (Z.eqb_spec (Z.of_nat (S (length p))) 0); [lia|]. exists t1. unfold q1. rewrite app_nil_r. auto. }
      rewrite E2. cbn [bind].
      destruct (IH (S i) t2 q1) as (t' & E & L & I & N1 & N2).
      + lia.
      + exact I2.
      + intros c C. unfold q1 in C. apply in_app_iff in C. destruct C as [C|C]; [apply QB in C; lia|].
        destruct p; [|destruct C]. destruct C as [<-|[]]. lia.
      + intros j J. rewrite L2. now apply LV.
      + exists t'. split; [exact E|]. split; [congruence|]. split.
        { rewrite roots_from. rewrite app_assoc. exact I. }
        assert (AT : t_edges t2 (at_ i) = Z.of_nat (length p) /\ t_index t2 (at_ i) = Z.of_nat i).
        { rewrite X2, Y2. cbn [t1 t_edges t_index]. rewrite !UthashLists.put_same. auto. }
        assert (OFF : forall j, j <> i -> t_edges t2 (at_ j) = t_edges t (at_ j)
                                          /\ t_index t2 (at_ j) = t_index t (at_ j)).
        { intros j J. rewrite X2, Y2. cbn [t1 t_edges t_index].
          rewrite !UthashLists.put_other by (intros EE; apply elem_inj in EE; contradiction). auto. }
        split.
        * intros j J. destruct (Nat.eq_dec j i) as [->|NE].
          -- destruct (N2 i ltac:(lia)) as (A & B). rewrite A, B, Nat.sub_diag. cbn [nth]. exact AT.
          -- destruct (N1 j ltac:(lia)) as (A & B). rewrite A, B.
             replace (j - i)%nat with (S (j - S i)) by lia. auto.
        * intros j J. destruct (N2 j ltac:(lia)) as (A & B). rewrite A, B. apply OFF. lia.
  Qed.

  Lemma allot_live : forall m t a, live (t_q (allot base m t)) a = true <->
    live (t_q t) a = true \/ exists i, (i < m)%nat /\ a = at_ i.
  Proof.
    induction m as [|m IH]; intros t a; cbn [allot].
    - split; [auto|]. intros [H|(i & I & _)]; [exact H|lia].
    - cbn [t_q live]. unfold UthashModel.put. destruct (Z.eqb_spec a (at_ m)) as [->|NE].
      + split; [|reflexivity]. intros _. right. exists m. split; [lia|reflexivity].
      + rewrite IH. split; (intros [H|(i & I & ->)]; [now left|right]); exists i; (split; [|reflexivity]); [lia|].
        destruct (Nat.eq_dec i m) as [->|]; [destruct NE; reflexivity|lia].
  Qed.

  Lemma dispose_live : forall m t a, live (t_q (dispose base m t)) a = true <->
    live (t_q t) a = true /\ forall i, (i < m)%nat -> a <> at_ i.
  Proof.
    induction m as [|m IH]; intros t a; cbn [dispose].
    - split; [intros H; split; [exact H|lia]|tauto].
    - cbn [t_q set_live live]. unfold UthashModel.put. destruct (Z.eqb_spec a (at_ m)) as [->|NE].
      + split; [discriminate|]. intros (_ & H). destruct (H m); [lia|reflexivity].
      + rewrite IH. split; intros (A & B); (split; [exact A|]); intros i I; [|apply B; lia].
        destruct (Nat.eq_dec i m) as [->|]; [exact NE|apply B; lia].
  Qed.
  Lemma topological_ok : forall fuel t,
    (n < fuel)%nat -> (forall i, (i < n)%nat -> live (t_q t) (at_ i) = false) ->
    exists sorted t',
      topological_sort parents children = Ok sorted
      /\ topological fuel base parents children t
         = Ok (sorted, if (length sorted <? n)%nat then ERR_INVALID_GRAPH else CCS_RESULT_SUCCESS, t')
      /\ (forall a, live (t_q t') a = live (t_q t) a).
  Proof.
    intros fuel t F FR. pose proof gr as (G1 & G2 & G3 & G4 & G5 & G6).
    destruct (topological_spec parents children) as (l & T & _); try assumption.
    { lia. }
    { intros j i (X1 & X2). now apply (G5 i j). }
    { intros j i. unfold parent. apply G6. }
    exists l. unfold topological. destruct (Z.eqb_spec base 0); [lia|]. rewrite count.
    set (t0 := mkT (set_head (t_q (allot base n t)) 0) (t_edges (allot base n t)) (t_index (allot base n t))).
    assert (LV0 : forall a, live (t_q t0) a = true <-> live (t_q t) a = true \/ exists i, (i < n)%nat /\ a = at_ i)
      by (intros a; apply (allot_live n t a)).
    destruct (init_ok parents 0 t0 []) as (t1 & E1 & L1 & I1 & N1 & _).
    { exact count. }
    { constructor; cbn; [constructor|tauto|tauto|reflexivity|exact Logic.I]. }
    { intros c []. }
    { intros j J. apply LV0. right. exists j. auto. }
    rewrite E1. cbn [bind].
    assert (RT : [] ++ filter (fun j => match nth (j - 0) parents [] with [] => true | _ => false end) (seq 0 (length parents))
                 = roots parents).
    { cbn [Datatypes.app]. unfold roots. apply filter_ext. intros j. now rewrite Nat.sub_0_r. }
    rewrite RT in I1.
    assert (SI : sim t1 (roots parents) (map (fun l => lenZ l) parents)).
    { constructor.
      - exact I1.
      - intros i Hi. rewrite L1. apply LV0. right. exists i. auto.
      - intros i Hi. destruct (N1 i ltac:(lia)) as (A & _). rewrite A, Nat.sub_0_r.
        change 0 with (lenZ (@nil nat)) at 1. rewrite map_nth. reflexivity.
      - intros i Hi. now destruct (N1 i ltac:(lia)). }
    destruct (main_ok fuel (roots parents) (map (fun l => lenZ l) parents) [] t1 SI) with (l := l)
      as (t2 & E2 & L2 & _).
    { apply (roots_inv parents). }
    { cbn [length]. lia. }
    { cbn [length]. rewrite Nat.sub_0_r, <- count. exact T. }
    rewrite E2. cbn [bind]. eexists. split; [exact T|]. split; [reflexivity|].
    intros a. pose proof (dispose_live n t2 a) as DL. rewrite L2, L1, LV0 in DL.
    destruct (live (t_q t) a) eqn:LA.
    - apply DL. split; [now left|]. intros i I ->. rewrite (FR i I) in LA. discriminate.
    - destruct (live (t_q (dispose base n t2)) a) eqn:LD; [|reflexivity].
      destruct (proj1 DL eq_refl) as ([X|(i & I & ->)] & Y); [discriminate|]. destruct (Y i I eq_refl).
  Qed.
End Topo.

Lemma topological_sorts : forall fuel base parents children t,
  0 < base -> graph parents children -> (length parents < fuel)%nat ->
  (forall i, (i < length parents)%nat -> live (t_q t) (elem base i) = false) ->
  exists sorted t',
    topological_sort parents children = Ok sorted
    /\ topological fuel base parents children t
       = Ok (sorted, if (length sorted <? length parents)%nat then ERR_INVALID_GRAPH else CCS_RESULT_SUCCESS, t')
    /\ (forall a, live (t_q t') a = live (t_q t) a).
Proof.
  intros fuel base parents children t B G F FR.
  exact (topological_ok base B (length parents) parents children eq_refl G fuel t F FR).
Qed.

Lemma topological_no_memory : forall fuel parents children t,
  topological fuel 0 parents children t = Ok ([], ERR_OUT_OF_MEMORY, t).
Proof. reflexivity. Qed.

(** What is sorted is what does not hang behind a cycle, after what it depends on *)
Lemma topological_means : forall fuel base parents children t,
  0 < base -> graph parents children -> (length parents < fuel)%nat ->
  (forall i, (i < length parents)%nat -> live (t_q t) (elem base i) = false) ->
  exists sorted code t',
    topological fuel base parents children t = Ok (sorted, code, t')
    /\ (forall a, live (t_q t') a = live (t_q t) a)
    /\ NoDup sorted
    /\ (forall l1 i l2 j, sorted = l1 ++ i :: l2 -> edge parents j i -> In j l1)
    /\ (forall i, In i sorted <-> (i < length parents)%nat /\ ~ behind_cycle parents i)
    /\ (code = CCS_RESULT_SUCCESS /\ (forall i, ~ clos_trans nat (edge parents) i i)
        \/ code = ERR_INVALID_GRAPH /\ (exists i, clos_trans nat (edge parents) i i)).
Proof.
  intros fuel base parents children t B G F FR.
  destruct (topological_sorts fuel base parents children t B G F FR) as (sorted & t' & T & E & L).
  pose proof G as (G1 & G2 & G3 & G4 & G5 & G6).
  destruct (topological_spec parents children) as (l & T' & ND & ORD & RNG & GOOD & BAD); try assumption.
  { lia. }
  { intros j i (X1 & X2). now apply (G5 i j). }
  { intros j i. unfold parent. apply G6. }
  rewrite T in T'. injection T' as <-.
  assert (DEC : forall i, In i sorted <-> (i < length parents)%nat /\ ~ behind_cycle parents i).
  { intros i. split.
    - intros X. split; [now apply RNG|]. exact (GOOD i X).
    - intros (X & Y). destruct (in_dec Nat.eq_dec i sorted) as [|N]; [assumption|]. destruct Y. exact (BAD i X N). }
  do 3 eexists. split; [exact E|]. split; [exact L|]. split; [exact ND|]. split; [exact ORD|]. split; [exact DEC|].
  assert (RC : forall i j, clos_trans nat (edge parents) i j -> (j < length parents)%nat).
  { intros i j C. apply clos_trans_tn1 in C. destruct C as [? (X & _)|? ? (X & _) _]; exact X. }
  destruct (Nat.ltb_spec (length sorted) (length parents)) as [LT|GE].
  - right. split; [reflexivity|].
    assert (exists i, In i (seq 0 (length parents)) /\ ~ In i sorted) as (i & I1 & I2).
    { destruct (Forall_Exists_dec (fun i => In i sorted) (fun i => in_dec Nat.eq_dec i sorted) (seq 0 (length parents))) as [A|A].
      - rewrite Forall_forall in A. pose proof (NoDup_incl_length (seq_NoDup (length parents) 0) A) as X.
        rewrite seq_length in X. lia.
      - apply Exists_exists in A. exact A. }
    apply in_seq in I1. destruct (BAD i ltac:(lia) I2) as (c & C & _). exists c. exact C.
  - left. split; [reflexivity|]. intros i C.
    assert (X : In i sorted).
    { apply (NoDup_length_incl (l' := seq 0 (length parents)) ND).
      - rewrite seq_length. exact GE.
      - intros x X. apply in_seq. apply RNG in X. lia.
      - apply in_seq. pose proof (RC _ _ C). lia. }
    apply DEC in X. destruct X as (_ & X). apply X. exists i. split; [exact C|apply rt_refl].
Qed.

(** ** The graphs of configuration spaces *)
Lemma graph_lengths : forall c conds index parents children p ch,
  graph_loop c index conds parents children = Ok (p, ch) ->
  length p = length parents /\ length ch = length children.
Proof.
  assert (PC : forall index is ch, length (fold_left (push_child index) is ch) = length ch).
  { intros index is. induction is as [|x is IH]; intros ch; cbn [fold_left]; [reflexivity|].
    rewrite IH. apply update_length. }
  intros c conds. induction conds as [|[e|] conds IH]; intros index parents children p ch E; cbn [graph_loop] in E.
  - injection E as <- <-. now rewrite !map_length.
  - destruct (expr_get_parameters e None) as [count| |]; cbn [bind] in E; try discriminate.
    destruct (snd count =? 0)%nat; [now apply IH in E|].
    destruct (expr_get_parameters e (Some (snd count))) as [ps| |]; cbn [bind] in E; try discriminate.
    destruct (get_indexes c (match fst ps with Some l => l | None => [] end)) as [is| |]; cbn [bind] in E; try discriminate.
    apply IH in E. rewrite update_length, PC in E. exact E.
  - now apply IH in E.
Qed.

Lemma conditions_graph : forall heap c A conds parents children,
  describes heap c A -> length conds = length A -> Z.of_nat (length A) < 2 ^ 32 ->
  (forall i e h, nth_error conds i = Some (Some e) -> occurs h e -> 0 < h) ->
  recompute_graph c conds = Ok (parents, children) ->
  graph parents children /\ (forall i j, edge parents j i <-> SpaceSpec.reads A conds j i).
Proof.
  intros heap c A conds parents children D L SM P R.
  destruct (SpaceProofs.recompute_spec heap c A D conds L P) as [(_ & X)|(_ & p & ch & X & LP & N1 & N2 & R1 & R2)];
    rewrite R in X; [discriminate|]. injection X as <- <-.
  unfold recompute_graph in R. apply graph_lengths in R. rewrite !repeat_length in R. destruct R as (_ & LC).
  assert (RG : forall i j, SpaceSpec.reads A conds j i -> (i < length A)%nat /\ (j < length A)%nat).
  { intros i j (e & h & X1 & X2 & _). rewrite <- L at 1. split; apply nth_error_Some; congruence. }
  split.
  - unfold graph. rewrite LP. repeat split; auto.
    + congruence.
    + intros i j X _. apply R1 in X. now apply RG in X.
    + apply R2 in H. now apply RG in H.
    + apply R1. now apply R2.
    + intros (_ & X). apply R2. now apply R1.
  - intros i j. unfold edge. rewrite LP, R1. split; [tauto|]. intros X. split; [now apply RG in X|exact X].
Qed.
