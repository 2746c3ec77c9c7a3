(** The macros keep the lists of a table, one operation at a time. *)
From Coq Require Import ZArith List Bool Lia.
From Verif Require Import Base UthashModel UthashSpec UthashLists UthashChains.
Import ListNotations.
Open Scope Z_scope.

Section Ops.
  Variable K : Type.
  Variable hash : K -> Z -> Z.
  Variable same : K -> K -> Z -> bool.
  Notation state := (state K).
  Arguments live {K}. Arguments f_tbl {K}. Arguments f_prev {K}. Arguments f_next {K}.
  Arguments f_hprev {K}. Arguments f_hnext {K}. Arguments f_key {K}. Arguments f_klen {K}.
  Arguments f_hashv {K}. Arguments tabs {K}. Arguments head {K}. Arguments relink {K}.
  Arguments set_tab {K}. Arguments set_head {K}.

  (** The table at [t] lists [L]; the elements of [D] are in its chains *)
  Record good (st : state) (t : Z) (T : table) (k : Z) (cs : list (list Z)) (L D : list Z)
    : Prop := {
    g_tab : tabs st t = Some T;
    g_tbl : forall a, In a L -> f_tbl st a = t;
    g_head : head st = hd 0 L;
    g_seg : seg (f_prev st) (f_next st) 0 L 0;
    g_tail : t_tail T = last L 0;
    g_num : t_num T = 2 ^ k;
    g_log : t_log T = k;
    g_k : 5 <= k <= 31;
    g_nodup : NoDup L;
    g_zero : ~ In 0 L;
    g_live : forall a, In a L -> live st a = true;
    g_len : Z.of_nat (length L) < 2 ^ 32;
    g_chained : chained (f_hprev st) (f_hnext st) (f_hashv st) k (t_buckets T) cs D;
    g_dnodup : NoDup D;
    g_sub : forall a, In a D -> In a L }.

  Ltac proj := cbn [live f_tbl f_prev f_next f_hprev f_hnext f_key f_klen f_hashv tabs head
                    set_tab set_head relink bind with_buckets with_items with_tail
                    t_buckets t_num t_log t_items t_tail t_ideal t_nonideal t_ineff t_noexpand].
  Ltac projin H := cbn [live f_tbl f_prev f_next f_hprev f_hnext f_key f_klen f_hashv tabs head
                    set_tab set_head relink bind with_buckets with_items with_tail
                    t_buckets t_num t_log t_items t_tail t_ideal t_nonideal t_ineff t_noexpand] in H.

  Lemma relink_self : forall st : state, relink st (f_hprev st) (f_hnext st) = st.
  Proof. destruct st; reflexivity. Qed.

  Lemma head_in : forall st t T k cs L D, good st t T k cs L D -> L <> [] ->
    In (head st) L /\ head st <> 0.
  Proof.
    intros st t T k cs L D G NE. rewrite (g_head _ _ _ _ _ _ _ G).
    destruct L as [|a L]; [congruence|]. cbn. split; [now left|].
    intros ->. apply (g_zero _ _ _ _ _ _ _ G). now left.
  Qed.

  Lemma g_dlen : forall st t T k cs L D, good st t T k cs L D ->
    (length D <= length L)%nat.
  Proof.
    intros. apply NoDup_incl_length; [exact (g_dnodup _ _ _ _ _ _ _ H)|].
    intros x X. exact (g_sub _ _ _ _ _ _ _ H x X).
  Qed.

  (** What chains and tables do not concern *)
  Record keeps (st st' : state) : Prop := {
    k_live : live st' = live st; k_tbl : f_tbl st' = f_tbl st;
    k_prev : f_prev st' = f_prev st; k_next : f_next st' = f_next st;
    k_key : f_key st' = f_key st; k_klen : f_klen st' = f_klen st;
    k_hashv : f_hashv st' = f_hashv st; k_head : head st' = head st }.
  Lemma keeps_relink : forall st hp hn t o, keeps st (set_tab (relink st hp hn) t o).
  Proof. intros; constructor; reflexivity. Qed.
  Lemma keeps_trans : forall a b c, keeps a b -> keeps b c -> keeps a c.
  Proof. intros a b c [] []; constructor; congruence. Qed.

  (** HASH_EXPAND_BUCKETS *)
  Lemma expand_ok : forall fuel alloc st t T k cs L D,
    good st t T k cs L D -> (length L < fuel)%nat ->
    (forall n, 2 ^ 36 <= n -> alloc n = false) ->
    (expand K fuel alloc st t = Ok (true, st)
     /\ exists j, 10 <= j <= 36 /\ alloc (2 ^ j) = false)
    \/ exists st' T' k' cs',
         expand K fuel alloc st t = Ok (false, st') /\ keeps st st'
         /\ good st' t T' k' cs' L D
         /\ t_items T' = t_items T.
  Proof.
    intros fuel alloc st t T k cs L D G FU AL.
    pose proof G as [GT GB GH GS GA GN GL GK GD GZ GV GE GC GX GU].
    unfold expand, rd_tab. rewrite GT. cbn [bind].
    rewrite GN, GL.
    assert (P1 : 16 * 2 ^ k * 2 = 2 ^ (k + 5)).
    { rewrite Z.pow_add_r by lia. change (2 ^ 5) with 32. lia. }
    rewrite P1.
    destruct (alloc (2 ^ (k + 5))) eqn:EA; cbn [negb].
    2:{ left. split; [reflexivity|]. exists (k + 5). split; [lia|exact EA]. }
    right.
    assert (K30 : k <= 30).
    { destruct (Z.le_gt_cases k 30); [assumption|].
      rewrite AL in EA; [discriminate|]. apply Z.pow_le_mono_r; lia. }
    destruct (32 <=? k + 1) eqn:E32; [apply Z.leb_le in E32; lia|].
    assert (P2 : 2 ^ k * 2 = 2 ^ (k + 1)) by (rewrite Z.pow_add_r by lia; lia).
    assert (PP : 0 < 2 ^ (k + 1)) by (apply Z.pow_pos_nonneg; lia).
    assert (PM : 2 ^ (k + 1) < 2 ^ 32) by (apply Z.pow_lt_mono_r; lia).
    assert (P3 : u32 (2 ^ k * 2) = 2 ^ (k + 1))
      by (rewrite P2; unfold u32; apply Z.mod_small; lia).
    rewrite P3, P2.
    pose proof GC as (CF & CL & CM).
    assert (LB : length (t_buckets T) = Z.to_nat (2 ^ k))
      by (rewrite (Forall2_len _ _ _ _ _ CF); exact CL).
    rewrite LB, Nat.ltb_irrefl, <- LB, firstn_all.
    destruct (chained_concat _ _ _ _ _ _ _ GC ltac:(lia)) as (NC & IC).
    set (ideal := u32 _).
    set (zero := repeat _ _).
    destruct (move_all_ok K (t_buckets T) cs fuel st (f_hprev st) (f_hnext st) zero
                (repeat [] (Z.to_nat (2 ^ (k + 1)))) [] 0 ideal (k + 1))
      as (hp & hn & non & nbs & ncs & D' & E & CH & DD & _).
    - eapply Forall2_imp; [|exact CF].
      intros b c Ic (A & B & C). split; [exact A|]. split; [eapply seg_path; exact C|].
      apply In_nth_error in Ic. destruct Ic as (i & Ei).
      pose proof (chain_len _ _ _ _ _ _ _ _ _ GC Ei). pose proof (g_dlen _ _ _ _ _ _ _ G). lia.
    - rewrite app_nil_r. exact NC.
    - rewrite app_nil_r, IC. auto.
    - intros x X. rewrite app_nil_r, IC in X. apply GV. auto.
    - apply chained_empty. lia.
    - lia.
    - rewrite app_nil_r.
      assert (length (concat cs) <= length L)%nat.
      { apply NoDup_incl_length; [exact NC|]. intros x X. apply GU, IC, X. }
      lia.
    - rewrite relink_self in E. rewrite E. cbn [bind].
      match goal with |- context [set_tab (relink st hp hn) t (Some ?X)] =>
        exists (set_tab (relink st hp hn) t (Some X)), X, (k + 1), ncs end.
      split; [reflexivity|].
      split; [apply keeps_relink|].
      split; [|reflexivity].
      constructor; proj; auto.
      + apply put_same.
      + unfold u32. apply Z.mod_small. lia.
      + lia.
      + eapply chained_ext; [|exact CH]. intros a. rewrite DD, app_nil_r. apply IC.
  Qed.

  (** HASH_DEL_IN_BKT of an element of a chain *)
  Lemma del_in_chain : forall st t T k cs D D' a,
    tabs st t = Some T ->
    chained (f_hprev st) (f_hnext st) (f_hashv st) k (t_buckets T) cs D -> 5 <= k <= 31 ->
    (forall x, In x D -> live st x = true) -> ~ In 0 D -> Z.of_nat (length D) < 2 ^ 32 ->
    In a D -> (forall x, In x D' <-> In x D /\ x <> a) ->
    exists st' bs cs',
      del_in_bkt K st t (to_bkt (f_hashv st a) (2 ^ k)) a = Ok st' /\ keeps st st'
      /\ tabs st' t = Some (with_buckets T bs)
      /\ chained (f_hprev st') (f_hnext st') (f_hashv st') k bs cs' D'.
  Proof.
    intros st t T k cs D D' a GT GC GK GV GZ GE IA DD.
    destruct (chained_bucket _ _ _ _ _ _ _ a GC ltac:(lia)) as (b & c & Eb & Ec & BI).
    destruct (chained_remove _ _ _ _ _ _ D D' a b (b_mult b) GC ltac:(lia) IA) as
      (cs' & CH & NX & PV); auto.
    unfold del_in_bkt, rd_tab. rewrite GT. cbn [bind].
    unfold rd_bkt at 1. rewrite Eb. cbn [bind].
    unfold rd at 1. rewrite (GV a IA). cbn [bind].
    unfold wr_bkt, rd_bkt. rewrite Eb. cbn [bind]. rewrite replace_repl.
    match goal with |- context [set_tab st t (Some (with_buckets T ?B))] => set (bs := B) end.
    exists (set_tab (relink st
      (if f_hnext st a =? 0 then f_hprev st else put (f_hprev st) (f_hnext st a) (f_hprev st a))
      (if f_hprev st a =? 0 then f_hnext st else put (f_hnext st) (f_hprev st a) (f_hnext st a)))
      t (Some (with_buckets T bs))).
    exists bs, cs'. split; [|split; [apply keeps_relink|split; [apply put_same|exact CH]]].
    unfold rd at 1. proj. rewrite (GV a IA). proj.
    assert (HPA : f_hprev st a <> a).
    { intros E. destruct PV as [PV|PV]; [|rewrite E in PV; apply DD in PV; tauto].
      rewrite PV in E. subst a. contradiction. }
    destruct (Z.eqb_spec (f_hprev st a) 0) as [E0|N0].
    - proj. unfold rd. proj. rewrite (GV a IA). proj.
      destruct (Z.eqb_spec (f_hnext st a) 0) as [E1|N1].
      + reflexivity.
      + unfold set_hprev, wr. proj. rewrite GV; [reflexivity|].
        destruct NX as [NX|NX]; [contradiction|]. apply DD in NX. tauto.
    - unfold set_hnext, wr. proj. rewrite GV; [|destruct PV as [PV|PV]; [contradiction|];
        apply DD in PV; tauto].
      proj. unfold rd. proj. rewrite (GV a IA). proj.
      rewrite put_other by auto.
      destruct (Z.eqb_spec (f_hnext st a) 0) as [E1|N1].
      + reflexivity.
      + unfold set_hprev, wr. proj. rewrite GV; [reflexivity|].
        destruct NX as [NX|NX]; [contradiction|]. apply DD in NX. tauto.
  Qed.

  Lemma del_in_bkt_ok : forall st t T k cs L D D' a,
    good st t T k cs L D -> In a D -> NoDup D' ->
    (forall x, In x D' <-> In x D /\ x <> a) ->
    exists st' bs cs',
      del_in_bkt K st t (to_bkt (f_hashv st a) (2 ^ k)) a = Ok st' /\ keeps st st'
      /\ good st' t (with_buckets T bs) k cs' L D'.
  Proof.
    intros st t T k cs L D D' a G IA ND DD.
    pose proof G as [GT GB GH GS GA GN GL GK GD GZ GV GE GC GX GU].
    pose proof (g_dlen _ _ _ _ _ _ _ G) as DLE.
    destruct (del_in_chain st t T k cs D D' a) as (st' & bs & cs' & E & KP & TB & CH); auto.
    { lia. }
    exists st', bs, cs'. split; [exact E|split; [exact KP|]].
    destruct KP as [k1 k2 k3 k4 k5 k6 k7 k8].
    constructor; rewrite ?k1, ?k2, ?k3, ?k4, ?k8; proj; auto.
    intros x X. apply DD in X. apply GU. tauto.
  Qed.

  (** HASH_ADD_TO_BKT *)
  Lemma add_to_bkt_ok : forall fuel alloc st t T k cs L D a,
    good st t T k cs L D -> (length L < fuel)%nat ->
    (forall n, 2 ^ 36 <= n -> alloc n = false) ->
    In a L -> ~ In a D ->
    (exists st' T' k' cs',
       add_to_bkt K fuel alloc st t (to_bkt (f_hashv st a) (2 ^ k)) a = Ok (false, st')
       /\ keeps st st' /\ good st' t T' k' cs' L (a :: D)
       /\ t_items T' = t_items T)
    \/ (exists st' T' cs',
       add_to_bkt K fuel alloc st t (to_bkt (f_hashv st a) (2 ^ k)) a = Ok (true, st')
       /\ keeps st st' /\ good st' t T' k cs' L D
       /\ t_items T' = t_items T
       /\ (exists j, 10 <= j <= 36 /\ alloc (2 ^ j) = false)
       /\ exists b, In b (t_buckets T)
            /\ u32 (u32 (b_mult b + 1) * 10) <= u32 (b_count b + 1)).
  Proof.
    intros fuel alloc st t T k cs L D a G FU AL IL NI.
    pose proof G as [GT GB GH GS GA GN GL GK GD GZ GV GE GC GX GU].
    destruct (chained_bucket _ _ _ _ _ _ _ a GC ltac:(lia)) as (b & c & Eb & Ec & BI).
    assert (NZD : ~ In 0 D) by (intros X; apply GZ, GU, X).
    assert (AD : NoDup (a :: D)) by (constructor; assumption).
    assert (LD : (length (a :: D) <= length L)%nat).
    { apply NoDup_incl_length; [exact AD|]. intros x [<-|X]; auto. }
    cbn [length] in LD.
    destruct (chained_push _ _ _ _ _ _ D a b (b_mult b) GC ltac:(lia) NI NZD ltac:(lia) Eb)
      as (cs1 & CH & HB & _).
    assert (EX : exists bs,
      bs = repl (t_buckets T) (Z.to_nat (to_bkt (f_hashv st a) (2 ^ k)))
             (mkBkt a (u32 (b_count b + 1)) (b_mult b))
      /\ add_to_bkt K fuel alloc st t (to_bkt (f_hashv st a) (2 ^ k)) a =
      let st1 := set_tab (relink st
        (if b_head b =? 0 then put (f_hprev st) a 0
         else put (put (f_hprev st) a 0) (b_head b) a)
        (put (f_hnext st) a (b_head b))) t (Some (with_buckets T bs)) in
      if (u32 (u32 (b_mult b + 1) * 10) <=? u32 (b_count b + 1)) && (t_noexpand T =? 0) then
        do (oomed, st5) <- expand K fuel alloc st1 t;
        if oomed : bool then
          do st6 <- del_in_bkt K st5 t (to_bkt (f_hashv st a) (2 ^ k)) a; Ok (true, st6)
        else Ok (false, st5)
      else Ok (false, st1)).
    { eexists. split; [reflexivity|].
      unfold add_to_bkt, rd_tab. rewrite GT. cbn [bind].
      unfold rd_bkt at 1. rewrite Eb. cbn [bind].
      unfold set_hnext at 1, wr. proj. rewrite (GV a IL). proj.
      unfold set_hprev at 1, wr. proj. rewrite (GV a IL). proj.
      match goal with |- context [bind (if b_head b =? 0 then Ok ?s else ?t) ?f] =>
        assert (EE : (if b_head b =? 0 then Ok s else t)
                     = Ok (relink st (if b_head b =? 0 then put (f_hprev st) a 0
                                      else put (put (f_hprev st) a 0) (b_head b) a)
                             (put (f_hnext st) a (b_head b)))) end.
      { destruct (Z.eqb_spec (b_head b) 0) as [|NE]; [reflexivity|].
        destruct HB as [HB|HB]; [contradiction|].
        unfold set_hprev, wr. proj. rewrite GV; [reflexivity|auto]. }
      rewrite EE. cbn [bind]. clear EE.
      unfold wr_bkt, rd_bkt. rewrite Eb. cbn [bind]. rewrite replace_repl.
      unfold rd. proj. rewrite (GV a IL). proj. rewrite (GB a IL), put_same. proj.
      reflexivity. }
    destruct EX as (bs & EB & EX). rewrite EX. clear EX. cbv zeta.
    rewrite <- EB in CH. clear EB.
    set (hp1 := if b_head b =? 0 then put (f_hprev st) a 0
                else put (put (f_hprev st) a 0) (b_head b) a) in *.
    set (hn1 := put (f_hnext st) a (b_head b)) in *.
    set (T1 := with_buckets T bs).
    set (st1 := set_tab (relink st hp1 hn1) t (Some T1)).
    assert (G1 : good st1 t T1 k cs1 L (a :: D)).
    { constructor; unfold st1, T1; proj; auto.
      - apply put_same.
      - intros x [<-|X]; auto. }
    destruct ((u32 (u32 (b_mult b + 1) * 10) <=? u32 (b_count b + 1)) && (t_noexpand T =? 0))
      eqn:EW.
    2:{ left. exists st1, T1, k, cs1. split; [reflexivity|].
        split; [apply keeps_relink|]. split; [exact G1|reflexivity]. }
    destruct (expand_ok fuel alloc st1 t T1 k cs1 L (a :: D) G1 FU AL)
      as [(E & J)|(st2 & T2 & k2 & cs2 & E & K2 & G2 & I2)]; rewrite E; cbn [bind].
    - right.
      destruct (del_in_bkt_ok st1 t T1 k cs1 L (a :: D) D a G1) as (st2 & bs2 & cs2 & E2 & K2 & G2).
      { now left. }
      { exact GX. }
      { intros x. cbn [In]. split; [intros X; split; [now right|intros ->; contradiction]|].
        intros ([<-|X] & Y); [congruence|exact X]. }
      change (f_hashv st1 a) with (f_hashv st a) in E2. rewrite E2. cbn [bind].
      exists st2, (with_buckets T1 bs2), cs2. split; [reflexivity|].
      split; [eapply keeps_trans; [apply keeps_relink|exact K2]|].
      split; [exact G2|]. split; [reflexivity|]. split; [exact J|].
      exists b. split; [eapply nth_error_In; exact Eb|].
      apply andb_prop in EW. destruct EW as (EW & _). apply Z.leb_le in EW. exact EW.
    - left. exists st2, T2, k2, cs2. split; [reflexivity|].
      split; [eapply keeps_trans; [apply keeps_relink|exact K2]|].
      split; [exact G2|]. exact I2.
  Qed.

  Ltac gd a := match goal with GV : forall x, In x _ -> live _ x = true |- _ =>
    rewrite (GV a) by (auto; apply in_or_app; cbn; auto) end.

  (** The part of [good] that is about the list *)
  Record listed (st : state) (t : Z) (T : table) (k : Z) (L : list Z) : Prop := {
    l_tab : tabs st t = Some T;
    l_tbl : forall a, In a L -> f_tbl st a = t;
    l_head : head st = hd 0 L;
    l_seg : seg (f_prev st) (f_next st) 0 L 0;
    l_tail : t_tail T = last L 0;
    l_num : t_num T = 2 ^ k;
    l_nodup : NoDup L;
    l_zero : ~ In 0 L;
    l_live : forall a, In a L -> live st a = true }.
  Lemma good_listed : forall st t T k cs L D, good st t T k cs L D -> listed st t T k L.
  Proof. intros st t T k cs L D []; constructor; auto. Qed.

  (** HASH_DELETE_HH up to the chain: the list of the table *)
  Lemma hash_delete_eq : forall st t T k l1 a l2,
    listed st t T k (l1 ++ a :: l2) -> l1 ++ l2 <> [] ->
    exists prev next tabs3 T3,
      let st3 := mkState K (live st) (f_tbl st) prev next (f_hprev st) (f_hnext st) (f_key st)
                   (f_klen st) (f_hashv st) tabs3 (hd 0 (l1 ++ l2)) in
      hash_delete K st a =
      (do st4 <- del_in_bkt K st3 t (to_bkt (f_hashv st a) (2 ^ k)) a;
       do t4 <- rd K st4 (@f_tbl K) (head st4);
       do T4 <- rd_tab K st4 t4;
       Ok (set_tab st4 t4 (Some (with_items T4 (u32 (t_items T4 - 1))))))
      /\ seg prev next 0 (l1 ++ l2) 0 /\ tabs3 t = Some T3 /\ t_tail T3 = last (l1 ++ l2) 0
      /\ t_num T3 = t_num T /\ t_log T3 = t_log T /\ t_items T3 = t_items T
      /\ t_buckets T3 = t_buckets T.
  Proof.
    intros st t T k l1 a l2 G NE.
    pose proof G as [GT GB GH GS GA GN GD GZ GV].
    destruct (seg_remove _ _ l1 a l2 GD GZ GS) as (PA & NA & SR).
    pose proof (NoDup_remove_2 _ _ _ GD) as NI2.
    set (prev := if f_next st a =? 0 then f_prev st
                 else put (f_prev st) (f_next st a) (f_prev st a)) in *.
    set (next := if f_prev st a =? 0 then f_next st
                 else put (f_next st) (f_prev st a) (f_next st a)) in *.
    set (tabs3 := if a =? t_tail T then put (tabs st) t (Some (with_tail T (f_prev st a)))
                  else tabs st).
    set (T3 := if a =? t_tail T then with_tail T (f_prev st a) else T).
    assert (HT3 : tabs3 t = Some T3).
    { unfold tabs3, T3. destruct (a =? t_tail T); [apply put_same|exact GT]. }
    exists prev, next, tabs3, T3. cbv zeta.
    assert (IA : In a (l1 ++ a :: l2)) by (apply in_or_app; right; now left).
    assert (NZ : forall x, In x (l1 ++ l2) -> x <> 0 /\ In x (l1 ++ a :: l2) /\ x <> a).
    { intros x X. assert (Y : In x (l1 ++ a :: l2))
        by (rewrite in_app_iff in *; cbn; tauto).
      split; [intros ->; contradiction|]. split; [exact Y|]. intros ->. contradiction. }
    assert (PVI : f_prev st a = 0 \/ In (f_prev st a) (l1 ++ l2)).
    { rewrite PA. destruct (last_in0 l1); [now left|right; apply in_or_app; now left]. }
    assert (NXI : f_next st a = 0 \/ In (f_next st a) (l1 ++ l2)).
    { rewrite NA. destruct (hd_in l2); [now left|right; apply in_or_app; now right]. }
    assert (HDI : In (head st) (l1 ++ a :: l2)).
    { rewrite GH. destruct l1; cbn; [now left|now left]. }
    assert (BOTH : (f_prev st a =? 0) && (f_next st a =? 0) = false).
    { destruct (Z.eqb_spec (f_prev st a) 0) as [E1|]; [|reflexivity].
      destruct (Z.eqb_spec (f_next st a) 0) as [E2|]; [|reflexivity]. exfalso.
      rewrite PA in E1. rewrite NA in E2.
      destruct l1 as [|x l1].
      - destruct l2 as [|y l2]; [contradiction|]. cbn in E2. subst y.
        destruct (NZ 0) as (W & _); [now left|now apply W].
      - assert (X : In (last (x :: l1) 0) (x :: l1)) by (apply last_in; discriminate).
        rewrite E1 in X. destruct (NZ 0) as (W & _); [apply in_or_app; now left|now apply W]. }
    assert (HD2 : hd 0 (l1 ++ l2) = if f_prev st a =? 0 then f_next st a else head st).
    { rewrite PA, NA, GH. destruct l1 as [|x l1]; [reflexivity|].
      destruct (Z.eqb_spec (last (x :: l1) 0) 0) as [E|]; [|reflexivity].
      exfalso. assert (X : In (last (x :: l1) 0) (x :: l1)) by (apply last_in; discriminate).
      rewrite E in X. destruct (NZ 0) as (W & _); [apply in_or_app; now left|now apply W]. }
    assert (HD2I : In (hd 0 (l1 ++ l2)) (l1 ++ l2)).
    { destruct (l1 ++ l2); [congruence|now left]. }
    split.
    - unfold hash_delete. unfold rd at 1 2. rewrite (GV a IA). cbn [bind].
      rewrite BOTH. unfold rd at 1. rewrite (GV _ HDI), (GB _ HDI). cbn [bind].
      unfold rd_tab at 1. rewrite GT. cbn [bind].
      assert (E1 : (if a =? t_tail T then set_tab st t (Some (with_tail T (f_prev st a))) else st)
                   = mkState K (live st) (f_tbl st) (f_prev st) (f_next st) (f_hprev st)
                       (f_hnext st) (f_key st) (f_klen st) (f_hashv st) tabs3 (head st)).
      { unfold tabs3. destruct (a =? t_tail T); [reflexivity|destruct st; reflexivity]. }
      rewrite E1. clear E1.
      match goal with |- context [bind (if f_prev st a =? 0 then Ok ?s else ?t) ?f] =>
        assert (E2 : (if f_prev st a =? 0 then Ok s else t)
          = Ok (mkState K (live st) (f_tbl st) (f_prev st) next (f_hprev st)
                  (f_hnext st) (f_key st) (f_klen st) (f_hashv st) tabs3 (hd 0 (l1 ++ l2)))) end.
      { rewrite HD2. unfold next.
        destruct (Z.eqb_spec (f_prev st a) 0) as [E|N]; [reflexivity|].
        unfold set_next, wr. proj. destruct PVI as [PVI|PVI]; [contradiction|].
        rewrite GV by (apply NZ; exact PVI). reflexivity. }
      rewrite E2. cbn [bind]. clear E2.
      unfold rd at 1. proj. rewrite (GV a IA). proj.
      assert (NX2 : next a = f_next st a).
      { unfold next. destruct (Z.eqb_spec (f_prev st a) 0); [reflexivity|].
        apply put_other. destruct PVI as [PVI|PVI]; [contradiction|].
        apply not_eq_sym. apply (NZ _ PVI). }
      rewrite NX2.
      match goal with |- context [bind (if f_next st a =? 0 then Ok ?s else ?t) ?f] =>
        assert (E3 : (if f_next st a =? 0 then Ok s else t)
          = Ok (mkState K (live st) (f_tbl st) prev next (f_hprev st)
                  (f_hnext st) (f_key st) (f_klen st) (f_hashv st) tabs3 (hd 0 (l1 ++ l2)))) end.
      { unfold prev. destruct (Z.eqb_spec (f_next st a) 0) as [E|N]; [reflexivity|].
        unfold set_prev, wr. proj. destruct NXI as [NXI|NXI]; [contradiction|].
        rewrite GV by (apply NZ; exact NXI). reflexivity. }
      rewrite E3. cbn [bind]. clear E3.
      unfold rd at 1. proj. rewrite (GV a IA). proj.
      unfold rd at 1. proj. rewrite (GV (hd 0 (l1 ++ l2))) by (apply NZ; exact HD2I).
      rewrite (GB (hd 0 (l1 ++ l2))) by (apply NZ; exact HD2I). proj.
      unfold rd_tab at 1. proj. rewrite HT3. proj.
      replace (t_num T3) with (2 ^ k); [reflexivity|].
      unfold T3. destruct (a =? t_tail T); auto.
    - split; [exact SR|]. split; [exact HT3|].
      split; [|unfold T3; destruct (a =? t_tail T); auto].
      unfold T3. rewrite GA. rewrite PA.
      destruct (Z.eqb_spec a (last (l1 ++ a :: l2) 0)) as [E|N].
      + cbn [with_tail t_tail].
        destruct l2 as [|y l2]; [now rewrite app_nil_r|]. exfalso.
        assert (X : last (l1 ++ a :: y :: l2) 0 = last (y :: l2) 0).
        { clear. induction l1 as [|x l1 IH]; [reflexivity|]. cbn [app].
          rewrite last_cons.
          rewrite (last_indep _ x 0) by (destruct l1; discriminate). exact IH. }
        rewrite X in E. apply NI2. apply in_or_app. right. rewrite E at 1.
        apply last_in. discriminate.
      + destruct l2 as [|y l2].
        { exfalso. apply N. clear. induction l1 as [|x l1 IH]; [reflexivity|].
          cbn [app]. rewrite last_cons.
          rewrite (last_indep _ x 0) by (destruct l1; discriminate). exact IH. }
        rewrite GA. clear.
        induction l1 as [|x l1 IH]; [reflexivity|]. cbn [app]. rewrite !last_cons.
        rewrite (last_indep (l1 ++ a :: y :: l2) x 0) by (destruct l1; discriminate).
        rewrite (last_indep (l1 ++ y :: l2) x 0) by (destruct l1; discriminate). exact IH.
  Qed.

  (** What the list and the chains do not concern *)
  Record keeps_data (st st' : state) : Prop := {
    d_live : live st' = live st; d_tbl : f_tbl st' = f_tbl st;
    d_key : f_key st' = f_key st; d_klen : f_klen st' = f_klen st;
    d_hashv : f_hashv st' = f_hashv st }.

  (** HASH_DELETE when other elements remain *)
  Lemma hash_delete_ok : forall st t T k cs l1 a l2,
    good st t T k cs (l1 ++ a :: l2) (l1 ++ a :: l2) -> l1 ++ l2 <> [] ->
    exists st' T' cs',
      hash_delete K st a = Ok st' /\ keeps_data st st'
      /\ good st' t T' k cs' (l1 ++ l2) (l1 ++ l2)
      /\ t_items T' = u32 (t_items T - 1).
  Proof.
    intros st t T k cs l1 a l2 G NE.
    pose proof G as [GT GB GH GS GA GN GL GK GD GZ GV GE GC GX GU].
    destruct (hash_delete_eq _ _ _ _ _ _ _ (good_listed _ _ _ _ _ _ _ G) NE)
      as (prev & next & tabs3 & T3 & E & SR & HT & TT & TN & TL & TI & TB).
    cbv zeta in E. set (st3 := mkState K _ _ _ _ _ _ _ _ _ _ _) in E.
    pose proof (NoDup_remove_1 _ _ _ GD) as ND2.
    pose proof (NoDup_remove_2 _ _ _ GD) as NI2.
    assert (DD : forall x, In x (l1 ++ l2) <-> In x (l1 ++ a :: l2) /\ x <> a).
    { intros x. rewrite !in_app_iff in *. cbn [In]. split.
      - intros X. split; [tauto|]. intros ->. contradiction.
      - intros ([X|[X|X]] & Y); auto. congruence. }
    destruct (del_in_chain st3 t T3 k cs (l1 ++ a :: l2) (l1 ++ l2) a)
      as (st4 & bs & cs' & E4 & KP & HT4 & CH); auto.
    { unfold st3. proj. rewrite TB. exact GC. }
    { apply in_or_app; right; now left. }
    change (f_hashv st3 a) with (f_hashv st a) in E4.
    rewrite E, E4. cbn [bind]. destruct KP as [k1 k2 k3 k4 k5 k6 k7 k8].
    assert (HD2I : In (hd 0 (l1 ++ l2)) (l1 ++ l2)).
    { destruct (l1 ++ l2); [congruence|now left]. }
    assert (HD3 : head st4 = hd 0 (l1 ++ l2)) by (rewrite k8; reflexivity).
    unfold rd. rewrite HD3, k1, k2. unfold st3 at 1 2. proj.
    rewrite GV by (apply DD, HD2I). rewrite GB by (apply DD, HD2I). proj.
    unfold rd_tab. rewrite HT4. proj.
    eexists _, (with_items (with_buckets T3 bs) (u32 (t_items T - 1))), cs'.
    split; [rewrite TI; reflexivity|].
    split; [constructor; proj; assumption|].
    split; [|reflexivity].
    constructor; proj; rewrite ?k1, ?k2, ?k3, ?k4, ?k8; unfold st3; proj; auto.
    - apply put_same.
    - intros x X. apply GB, DD, X.
    - congruence.
    - congruence.
    - intros X. apply GZ, DD, X.
    - intros x X. apply GV, DD, X.
    - rewrite app_length in *. cbn [length] in *. lia.
  Qed.

  (** Undoing an addition whose expansion failed *)
  Lemma undo_ok : forall st t T k cs L a,
    good st t T k cs (L ++ [a]) L -> L <> [] -> ~ In a L ->
    exists st1 st' T' cs',
      rollback_bkt K st a = Ok st1 /\ hash_delete K st1 a = Ok st' /\ keeps_data st st'
      /\ good st' t T' k cs' L L /\ t_items T' = u32 (t_items T - 1).
  Proof.
    intros st t T k cs L a G NE NI.
    pose proof G as [GT GB GH GS GA GN GL GK GD GZ GV GE GC GX GU].
    assert (IA : In a (L ++ [a])) by (apply in_or_app; right; now left).
    assert (HDI : In (head st) (L ++ [a])).
    { rewrite GH. destruct L; cbn; [congruence|now left]. }
    destruct (chained_bucket _ _ _ _ _ _ _ a GC ltac:(lia)) as (b & c & Eb & Ec & (B1 & B2 & B3)).
    set (i := to_bkt (f_hashv st a) (2 ^ k)) in *.
    set (bs1 := repl (t_buckets T) (Z.to_nat i)
                  (mkBkt (b_head b) (u32 (b_count b + 1)) (b_mult b))).
    set (st1 := relink (set_tab st t (Some (with_buckets T bs1)))
                  (put (f_hprev st) a 0) (put (f_hnext st) a 0)).
    assert (E1 : rollback_bkt K st a = Ok st1).
    { unfold rollback_bkt. unfold rd at 1. rewrite (GV a IA). cbn [bind].
      unfold rd at 1. rewrite (GV _ HDI), (GB _ HDI). cbn [bind].
      unfold rd_tab. rewrite GT. cbn [bind]. rewrite GN. fold i.
      unfold rd_bkt at 1. rewrite Eb. cbn [bind].
      unfold wr_bkt, rd_bkt. rewrite Eb. cbn [bind]. rewrite replace_repl. fold bs1.
      unfold set_hnext, wr. proj. rewrite (GV a IA). proj.
      unfold set_hprev, wr. proj. rewrite (GV a IA). reflexivity. }
    assert (LI : listed st1 t (with_buckets T bs1) k (L ++ [a])).
    { constructor; unfold st1; proj; auto. apply put_same. }
    destruct (hash_delete_eq st1 t _ k L a [] LI)
      as (prev & next & tabs3 & T3 & E & SR & HT & TT & TN & TL & TI & TB).
    { rewrite app_nil_r. exact NE. }
    cbv zeta in E. rewrite app_nil_r in *.
    set (st3 := mkState K _ _ _ _ _ _ _ _ _ _ _) in E.
    change (to_bkt (f_hashv st1 a) (2 ^ k)) with i in E.
    pose proof GC as (CF & CL & CM).
    assert (BA : b_head b <> a).
    { intros X. destruct (hd_in c) as [Y|Y]; [rewrite B1, Y in X; subst a; contradiction|].
      rewrite <- B1, X in Y. apply (CM _ _ Ec) in Y. tauto. }
    assert (LC : Z.of_nat (length c) < 2 ^ 32).
    { pose proof (chain_len _ _ _ _ _ _ _ _ _ GC Ec). rewrite app_length in GE. lia. }
    set (bs2 := repl (t_buckets T3) (Z.to_nat i)
                  (mkBkt (b_head b) (u32 (u32 (b_count b + 1) - 1)) (b_mult b))).
    assert (E4 : del_in_bkt K st3 t i a = Ok (set_tab st3 t (Some (with_buckets T3 bs2)))).
    { assert (L3 : live st3 a = true) by exact (GV a IA).
      assert (N3 : f_hnext st3 a = 0) by (unfold st3, st1; proj; apply put_same).
      assert (P3 : f_hprev st3 a = 0) by (unfold st3, st1; proj; apply put_same).
      assert (H3 : tabs st3 t = Some T3) by exact HT.
      assert (B3' : nth_error (t_buckets T3) (Z.to_nat i)
                    = Some (mkBkt (b_head b) (u32 (b_count b + 1)) (b_mult b))).
      { rewrite TB. proj. unfold bs1. rewrite repl_nth, Nat.eqb_refl, Eb. reflexivity. }
      clearbody st3. unfold del_in_bkt, rd_tab, wr_bkt, rd_bkt, rd.
      rewrite H3. cbn [bind]. rewrite B3'. cbn [bind]. rewrite L3, N3.
      cbn [bind b_head b_count b_mult]. destruct (Z.eqb_spec (b_head b) a) as [|_]; [contradiction|].
      rewrite replace_repl. fold bs2. proj. rewrite L3, P3. cbn [bind Z.eqb]. proj.
      rewrite L3, N3. reflexivity. }
    rewrite E4 in E. cbn [bind] in E.
    assert (HL : In (hd 0 L) (L ++ [a])).
    { destruct L; [congruence|now left]. }
    unfold rd, rd_tab in E. unfold st3 in E. projin E.
    change (live st1) with (live st) in E. change (f_tbl st1) with (f_tbl st) in E.
    rewrite (GV _ HL), (GB _ HL) in E. projin E. rewrite put_same in E. projin E.
    eexists st1, _, (with_items (with_buckets T3 bs2) (u32 (t_items T - 1))), cs.
    split; [exact E1|]. split; [rewrite E, TI; reflexivity|].
    split; [constructor; reflexivity|]. split; [|reflexivity].
    constructor; proj; auto.
    - apply put_same.
    - rewrite TN. exact GN.
    - rewrite TL. exact GL.
    - rewrite app_length in GE. lia.
    - assert (BB : bs2 = t_buckets T).
      { unfold bs2. rewrite TB. proj. unfold bs1. clear - Eb B2 LC.
        revert Eb. generalize (Z.to_nat i) as n. generalize (t_buckets T) as l.
        induction l as [|x l IH]; intros [|n] EN; cbn in *; try discriminate.
        - injection EN as ->. rewrite B2. destruct b as [bh bc bm]. cbn in *. subst bc.
          do 2 f_equal. unfold u32. destruct (Z.eq_dec (Z.of_nat (length c) + 1) (2 ^ 32)) as [X|X].
          + rewrite X, Z.mod_same by lia. change ((0 - 1) mod 2 ^ 32) with (2 ^ 32 - 1). lia.
          + rewrite (Z.mod_small (Z.of_nat (length c) + 1)) by lia.
            rewrite Z.mod_small by lia. lia.
        - f_equal. apply IH. exact EN. }
      rewrite BB. eapply chained_frame; [| | |exact GC]; intros x X;
        [apply put_other|apply put_other|reflexivity]; intros ->; contradiction.
  Qed.
End Ops.
