(** Every operation on a table, and every application. *)
From Coq Require Import ZArith List Bool Lia.
From Verif Require Import Base UthashModel UthashSpec UthashLists UthashChains UthashProofs.
Import ListNotations.
Open Scope Z_scope.

Section Steps.
  Variable K : Type.
  Variable hash : K -> Z -> Z.
  Variable same : K -> K -> Z -> bool.
  Notation state := (state K).
  Arguments live {K}. Arguments f_tbl {K}. Arguments f_prev {K}. Arguments f_next {K}.
  Arguments f_hprev {K}. Arguments f_hnext {K}. Arguments f_key {K}. Arguments f_klen {K}.
  Arguments f_hashv {K}. Arguments tabs {K}. Arguments head {K}. Arguments relink {K}.
  Arguments set_tab {K}. Arguments set_head {K}. Arguments good {K}.
  Arguments v_live {K}. Arguments v_list {K}. Arguments mkView {K}.
  Arguments e_at {K}. Arguments e_key {K}. Arguments e_len {K}. Arguments mkEntry {K}.

  Ltac proj := cbn [live f_tbl f_prev f_next f_hprev f_hnext f_key f_klen f_hashv tabs head
                    set_tab set_head relink bind with_buckets with_items with_tail
                    t_buckets t_num t_log t_items t_tail t_ideal t_nonideal t_ineff t_noexpand].

  Definition data_ok (st : state) (l : list (entry K)) : Prop :=
    forall e, In e l -> f_key st (e_at e) = e_key e /\ f_klen st (e_at e) = e_len e
                        /\ f_hashv st (e_at e) = hash (e_key e) (e_len e).

  Definition tab_ok (st : state) (l : list (entry K)) : Prop :=
    match l with
    | [] => head st = 0
    | _ => exists t T k cs, good st t T k cs (map e_at l) (map e_at l)
                            /\ t_items T = Z.of_nat (length l)
    end.

  Record inv (N : Z) (v : view K) (st : state) : Prop := {
    i_live : forall a, live st a = v_live v a;
    i_data : data_ok st (v_list v);
    i_bound : Z.of_nat (length (v_list v)) <= N;
    i_tab : tab_ok st (v_list v) }.

  Lemma tab_ok_nonempty : forall st l, l <> [] -> tab_ok st l ->
    exists t T k cs, good st t T k cs (map e_at l) (map e_at l)
                     /\ t_items T = Z.of_nat (length l).
  Proof. intros st [|e l] NE H; [congruence|exact H]. Qed.

  Lemma good_frame : forall (st st' : state) t T k cs L D,
    good st t T k cs L D ->
    (forall a, In a L -> live st' a = live st a /\ f_tbl st' a = f_tbl st a
       /\ f_prev st' a = f_prev st a /\ f_next st' a = f_next st a
       /\ f_hprev st' a = f_hprev st a /\ f_hnext st' a = f_hnext st a
       /\ f_hashv st' a = f_hashv st a) ->
    tabs st' t = tabs st t -> head st' = head st ->
    good st' t T k cs L D.
  Proof.
    intros st st' t T k cs L D [GT GB GH GS GA GN GL GK GD GZ GV GE GC GX GU] A TT HH.
    constructor; auto.
    - congruence.
    - intros a Ia. destruct (A a Ia) as (_ & -> & _). auto.
    - congruence.
    - eapply seg_frame; [| |exact GS]; intros x X; apply A; exact X.
    - intros a Ia. destruct (A a Ia) as (-> & _). auto.
    - eapply chained_frame; [| | |exact GC]; intros x X; apply A; auto.
  Qed.

  Lemma zero_or_head : forall (st : state) l, tab_ok st l -> l <> [] ->
    (head st =? 0) = false /\ In (head st) (map e_at l).
  Proof.
    intros st l H NE. destruct (tab_ok_nonempty st l NE H) as (t & T & k & cs & G & _).
    assert (ML : map e_at l <> []) by (destruct l; [congruence|discriminate]).
    destruct (head_in K st t T k cs _ _ G ML) as (A & B). split; [|exact A].
    apply Z.eqb_neq. exact B.
  Qed.

  (** HASH_FIND_IN_BKT *)
  Lemma find_in_bkt_ok : forall (st : state) key len hv c fuel v,
    (length c < fuel)%nat -> ~ In 0 c -> (forall a, In a c -> live st a = true) ->
    seg (f_hprev st) (f_hnext st) v c 0 ->
    exists r, find_in_bkt K same fuel st key len hv (hd 0 c) = Ok r /\
      ((r = 0 /\ forall a, In a c ->
          ~ (f_hashv st a = hv /\ f_klen st a = len /\ same (f_key st a) key len = true))
       \/ (In r c /\ f_hashv st r = hv /\ f_klen st r = len
           /\ same (f_key st r) key len = true)).
  Proof.
    intros st key len hv. induction c as [|a c IH]; intros fuel v FU NZ LV SG;
      (destruct fuel as [|fuel]; [cbn in FU; lia|]).
    - exists 0. split; [reflexivity|left; split; [reflexivity|intros a []]].
    - cbn [hd find_in_bkt]. destruct (Z.eqb_spec a 0) as [->|AZ]; [exfalso; apply NZ; now left|].
      unfold rd. rewrite (LV a) by now left. cbn [bind].
      destruct ((f_hashv st a =? hv) && (f_klen st a =? len) && same (f_key st a) key len) eqn:EM.
      + exists a. split; [reflexivity|right].
        apply andb_prop in EM. destruct EM as (EM & E3). apply andb_prop in EM.
        destruct EM as (E1 & E2). apply Z.eqb_eq in E1, E2.
        split; [now left|auto].
      + destruct SG as (_ & NA & SG). rewrite NA.
        destruct (IH fuel a) as (r & Er & H); auto.
        { cbn in FU. lia. }
        { intros X. apply NZ. now right. }
        { intros x X. apply LV. now right. }
        exists r. split; [exact Er|]. destruct H as [(-> & H)|(I1 & H)].
        * left. split; [reflexivity|]. intros x [<-|X]; [|now apply H].
          intros (E1 & E2 & E3). rewrite E1, E2, E3, !Z.eqb_refl in EM. discriminate.
        * right. split; [now right|exact H].
  Qed.

  Lemma map_at_in : forall (l : list (entry K)) a, In a (map e_at l) ->
    exists e, In e l /\ e_at e = a.
  Proof. intros l a H. apply in_map_iff in H. destruct H as (e & A & B). eauto. Qed.

  Lemma find_ok : forall N fuel v st key len,
    inv N v st -> (Z.to_nat N < fuel)%nat ->
    exists r, hash_find K hash same fuel st key len = Ok r
      /\ does K hash same v (Find K key len) (Found r) v.
  Proof.
    intros N fuel v st key len [IL ID IB IT] FU.
    destruct (v_list v) as [|e0 l0] eqn:EL.
    - exists 0. unfold hash_find. cbn in IT. rewrite IT. split; [reflexivity|].
      apply does_not_find. rewrite EL. intros e [].
    - rewrite <- EL in *.
      assert (NE : v_list v <> []) by (rewrite EL; discriminate).
      destruct (zero_or_head st (v_list v) IT NE) as (HZ & HI).
      destruct (tab_ok_nonempty _ _ NE IT) as (t & T & k & cs & G & TI).
      pose proof G as [GT GB GH GS GA GN GL GK GD GZ GV GE GC GX GU].
      unfold hash_find. rewrite HZ. unfold rd at 1. rewrite (GV _ HI), (GB _ HI). cbn [bind].
      unfold rd_tab. rewrite GT. cbn [bind]. rewrite GN.
      pose proof (to_bkt_range (hash key len) k ltac:(lia)) as R.
      destruct GC as (CF & CL & CM).
      set (i := Z.to_nat (to_bkt (hash key len) (2 ^ k))).
      destruct (nth_error (t_buckets T) i) as [b|] eqn:Eb.
      2:{ apply nth_error_None in Eb. rewrite (Forall2_len _ _ _ _ _ CF), CL in Eb.
          unfold i in Eb. lia. }
      destruct (Forall2_nth _ _ _ _ _ _ _ CF Eb) as (c & Ec & (B1 & B2 & B3)).
      destruct (CM _ _ Ec) as (NDc & INc).
      unfold rd_bkt. fold i. rewrite Eb. cbn [bind]. rewrite B1.
      destruct (find_in_bkt_ok st key len (hash key len) c fuel 0) as (r & Er & H).
      { assert (length c <= length (map e_at (v_list v)))%nat.
        { apply NoDup_incl_length; [exact NDc|]. intros x X. apply INc in X. tauto. }
        rewrite map_length in *. lia. }
      { intros X. apply INc in X. tauto. }
      { intros a X. apply INc in X. apply GV. tauto. }
      { exact B3. }
      exists r. split; [exact Er|].
      destruct H as [(-> & H)|(I1 & H1 & H2 & H3)].
      + apply does_not_find. intros e Ie (M1 & M2 & M3).
        destruct (ID e Ie) as (D1 & D2 & D3).
        apply (H (e_at e)).
        * apply INc. split; [apply in_map; exact Ie|]. rewrite D3, M1. unfold i. lia.
        * rewrite D1, D2, D3. auto.
      + apply INc in I1. destruct I1 as (I1 & _).
        destruct (map_at_in _ _ I1) as (e & Ie & <-).
        apply does_find; [exact Ie|].
        destruct (ID e Ie) as (D1 & D2 & D3). rewrite D1 in H3. rewrite D2 in H2.
        rewrite D3 in H1. split; [exact H1|split; [exact H2|exact H3]].
  Qed.

  (** HASH_CNT *)
  Lemma count_ok : forall N v st, inv N v st ->
    hash_count K st = Ok (Z.of_nat (length (v_list v))).
  Proof.
    intros N v st [IL ID IB IT]. unfold hash_count.
    destruct (v_list v) as [|e0 l0] eqn:EL.
    - cbn in IT. rewrite IT. reflexivity.
    - rewrite <- EL in *.
      assert (NE : v_list v <> []) by (rewrite EL; discriminate).
      destruct (zero_or_head st (v_list v) IT NE) as (HZ & HI).
      destruct (tab_ok_nonempty _ _ NE IT) as (t & T & k & cs & G & TI).
      pose proof G as [GT GB GH GS GA GN GL GK GD GZ GV GE GC GX GU].
      rewrite HZ. unfold rd. rewrite (GV _ HI), (GB _ HI). cbn [bind].
      unfold rd_tab. rewrite GT. cbn [bind]. now rewrite TI.
  Qed.

  (** HASH_CLEAR, and freeing the table *)
  Lemma free_ok : forall (st : state) l, tab_ok st l -> l <> [] ->
    exists st', free_table K st = Ok st' /\ live st' = live st.
  Proof.
    intros st l IT NE.
    destruct (zero_or_head st l IT NE) as (HZ & HI).
    destruct (tab_ok_nonempty _ _ NE IT) as (t & T & k & cs & G & TI).
    pose proof G as [GT GB GH GS GA GN GL GK GD GZ GV GE GC GX GU].
    unfold free_table, rd. rewrite (GV _ HI), (GB _ HI). cbn [bind].
    unfold rd_tab. rewrite GT. cbn [bind]. eexists. split; [reflexivity|reflexivity].
  Qed.

  Lemma clear_ok : forall N v st, inv N v st -> 0 <= N ->
    exists st', hash_clear K st = Ok st' /\ inv N (mkView (v_live v) []) st'.
  Proof.
    intros N v st [IL ID IB IT] NN. unfold hash_clear.
    destruct (v_list v) as [|e0 l0] eqn:EL.
    - cbn in IT. rewrite IT. exists st. split; [reflexivity|].
      constructor; cbn; auto.
    - rewrite <- EL in *.
      assert (NE : v_list v <> []) by (rewrite EL; discriminate).
      destruct (zero_or_head st (v_list v) IT NE) as (HZ & HI).
      destruct (free_ok st _ IT NE) as (st' & E & LV).
      rewrite HZ, E. cbn [bind]. eexists. split; [reflexivity|].
      constructor; cbn; auto.
      + intros a. rewrite LV. apply IL.
      + intros e X. destruct X.
  Qed.

  (** HASH_DELETE *)
  Lemma without_mid : forall (l1 l2 : list (entry K)) e,
    NoDup (map e_at (l1 ++ e :: l2)) -> without K (e_at e) (l1 ++ e :: l2) = l1 ++ l2.
  Proof.
    intros l1 l2 e ND. unfold without.
    assert (G : forall l : list (entry K), ~ In (e_at e) (map e_at l) ->
                filter (fun x => negb (e_at x =? e_at e)) l = l).
    { induction l as [|x l IH]; intros NI; [reflexivity|]. cbn in *.
      destruct (Z.eqb_spec (e_at x) (e_at e)) as [E|_]; [exfalso; apply NI; now left|].
      cbn. f_equal. apply IH. tauto. }
    rewrite map_app in ND. cbn [map] in ND. apply NoDup_remove_2 in ND.
    rewrite filter_app. cbn [filter]. rewrite Z.eqb_refl. cbn [negb].
    rewrite !G; [reflexivity| |]; intros X; apply ND; apply in_or_app; auto.
  Qed.

  Lemma delete_ok : forall N v st a,
    inv N v st -> In a (map e_at (v_list v)) ->
    exists st', hash_delete K st a = Ok st'
      /\ inv N (mkView (v_live v) (without K a (v_list v))) st'.
  Proof.
    intros N v st a [IL ID IB IT] IA.
    assert (NE : v_list v <> []) by (intros E; rewrite E in IA; destruct IA).
    destruct (tab_ok_nonempty _ _ NE IT) as (t & T & k & cs & G & TI).
    pose proof G as [GT GB GH GS GA GN GL GK GD GZ GV GE GC GX GU].
    destruct (map_at_in _ _ IA) as (e & Ie & <-).
    apply in_split in Ie. destruct Ie as (l1 & l2 & EL).
    rewrite EL in *. rewrite without_mid by exact GD.
    destruct (l1 ++ l2) as [|e0 l0] eqn:EL2.
    - apply app_eq_nil in EL2. destruct EL2 as (-> & ->). cbn [app map] in *.
      destruct (free_ok st [e] IT ltac:(discriminate)) as (st' & E & LV).
      cbn [seg hd] in GS. destruct GS as (P0 & N0 & _).
      unfold hash_delete. unfold rd at 1 2. rewrite GV by now left. cbn [bind].
      rewrite P0, N0. cbn [Z.eqb andb]. rewrite E. cbn [bind].
      eexists. split; [reflexivity|]. constructor; cbn.
      + intros a. rewrite LV. apply IL.
      + intros x [].
      + cbn in IB. lia.
      + reflexivity.
    - rewrite <- EL2 in *. rewrite map_app in G. cbn [map] in G.
      destruct (hash_delete_ok K st t T k cs (map e_at l1) (e_at e) (map e_at l2) G)
        as (st' & T' & cs' & E & [d1 d2 d3 d4 d5] & G' & TI').
      { rewrite <- map_app, EL2. discriminate. }
      exists st'. split; [exact E|].
      assert (LL : length (l1 ++ e :: l2) = S (length (l1 ++ l2)))
        by (rewrite !app_length; cbn; lia).
      constructor; cbn [v_live v_list].
      + intros a. rewrite d1. apply IL.
      + intros x X. rewrite d3, d4, d5. apply ID. apply in_app_or in X. apply in_or_app.
        cbn. tauto.
      + rewrite LL in IB. lia.
      + rewrite <- map_app in G'.
        assert (Q : tab_ok st' (l1 ++ l2) <-> exists t T k cs,
                    good st' t T k cs (map e_at (l1 ++ l2)) (map e_at (l1 ++ l2))
                    /\ t_items T = Z.of_nat (length (l1 ++ l2))).
        { unfold tab_ok. rewrite EL2. tauto. }
        apply Q. exists t, T', k, cs'. split; [exact G'|].
        rewrite TI', TI, LL. unfold u32. rewrite map_length, LL in GE.
        rewrite Z.mod_small by lia. lia.
  Qed.

  (** HASH_ADD *)
  Lemma snoc_nil : forall A (l : list A) x, l ++ [x] <> [].
  Proof. intros A [|y l] x; discriminate. Qed.
  Lemma last_snoc : forall (l : list Z) x v, last (l ++ [x]) v = x.
  Proof.
    induction l as [|y l IH]; intros x v; [reflexivity|]. cbn [app].
    rewrite last_cons. apply IH.
  Qed.
  Lemma tab_ok_intro : forall (st : state) l t T k cs, l <> [] ->
    good st t T k cs (map e_at l) (map e_at l) -> t_items T = Z.of_nat (length l) ->
    tab_ok st l.
  Proof. intros st [|e l] t T k cs NE G TI; [congruence|]. exists t, T, k, cs. auto. Qed.

  (** the table gets one more item, then its chains *)
  Lemma add_to_table_ok : forall fuel alloc (st : state) t T k cs L a,
    good st t T k cs (L ++ [a]) L -> ~ In a L -> (length (L ++ [a]) < fuel)%nat ->
    (forall n, 2 ^ 36 <= n -> alloc n = false) ->
    t_items T = Z.of_nat (length L) ->
    (L = [] -> forall b, In b (t_buckets T) -> b = mkBkt 0 0 0) ->
    (exists st' T' k' cs',
       add_to_table K fuel alloc st (f_hashv st a) a false = Ok (false, st')
       /\ keeps K st st' /\ good st' t T' k' cs' (L ++ [a]) (L ++ [a])
       /\ t_items T' = Z.of_nat (length (L ++ [a])))
    \/ (exists st' T' cs',
       add_to_table K fuel alloc st (f_hashv st a) a false = Ok (true, st')
       /\ live st' = live st /\ f_key st' = f_key st /\ f_klen st' = f_klen st
       /\ f_hashv st' = f_hashv st
       /\ good st' t T' k cs' L L /\ t_items T' = Z.of_nat (length L)
       /\ L <> [] /\ exists j, 10 <= j <= 36 /\ alloc (2 ^ j) = false).
  Proof.
    intros fuel alloc st t T k cs L a G NI FU AL TI FRESH.
    pose proof G as [GT GB GH GS GA GN GL GK GD GZ GV GE GC GX GU].
    assert (IA : In a (L ++ [a])) by (apply in_or_app; right; now left).
    destruct (head_in K st t T k cs _ _ G (snoc_nil _ L a)) as (HI & HZ).
    set (T1 := with_items T (u32 (t_items T + 1))).
    set (st1 := set_tab st t (Some T1)).
    assert (G1 : good st1 t T1 k cs (L ++ [a]) L).
    { constructor; unfold st1, T1; proj; auto. apply put_same. }
    assert (TI1 : t_items T1 = Z.of_nat (length (L ++ [a]))).
    { unfold T1. proj. rewrite TI, app_length. cbn [length]. unfold u32.
      rewrite app_length in GE. cbn [length] in GE. rewrite Z.mod_small; lia. }
    assert (E0 : add_to_table K fuel alloc st (f_hashv st a) a false =
      do (oomed', st2) <- add_to_bkt K fuel alloc st1 t (to_bkt (f_hashv st1 a) (2 ^ k)) a;
      if oomed' : bool then
        do st3 <- rollback_bkt K st2 a;
        do st4 <- hash_delete K st3 a;
        do st5 <- set_tbl K st4 a 0;
        Ok (true, st5)
      else Ok (false, st2)).
    { unfold add_to_table. cbn [negb]. unfold rd at 1. rewrite (GV _ HI), (GB _ HI). cbn [bind].
      unfold rd_tab at 1. rewrite GT. cbn [bind]. rewrite GN. reflexivity. }
    rewrite E0. clear E0.
    destruct (add_to_bkt_ok K fuel alloc st1 t T1 k cs (L ++ [a]) L a G1 FU AL IA NI)
      as [(st2 & T2 & k2 & cs2 & E & KP & G2 & I2)|(st2 & T2 & cs2 & E & KP & G2 & I2 & J & b & Ib & Wb)];
      rewrite E; cbn [bind].
    - left. exists st2, T2, k2, cs2. split; [reflexivity|].
      split; [destruct KP as [k1 k3 k4 k5 k6 k7 k8 k9]; constructor; assumption|].
      split; [|congruence].
      destruct G2 as [gt gb gh gs ga gn gl gk gd gz gv ge gc gx gu]. constructor; auto.
      eapply chained_ext; [|exact gc]. intros x. rewrite in_app_iff. cbn. tauto.
    - right.
      assert (NE : L <> []).
      { intros EL. assert (b = mkBkt 0 0 0) by (apply FRESH; assumption). subst b.
        vm_compute in Wb. apply Wb. reflexivity. }
      destruct (undo_ok K st2 t T2 k cs2 L a G2 NE NI)
        as (st3 & st4 & T4 & cs4 & E3 & E4 & [d1 d2 d3 d4 d5] & G4 & I4).
      rewrite E3. cbn [bind]. rewrite E4. cbn [bind].
      destruct KP as [k1 k3 k4 k5 k6 k7 k8 k9].
      assert (LA : live st4 a = true) by (rewrite d1, k1; exact (GV a IA)).
      unfold set_tbl, wr. rewrite LA. cbn [bind].
      eexists _, T4, cs4. split; [reflexivity|]. proj.
      split; [rewrite d1, k1; reflexivity|].
      split; [rewrite d3, k6; reflexivity|].
      split; [rewrite d4, k7; reflexivity|].
      split; [rewrite d5, k8; reflexivity|].
      split; [|split; [|split; [exact NE|exact J]]].
      + eapply good_frame; [exact G4| |reflexivity|reflexivity].
        intros x X. proj. repeat split. apply put_other. intros ->. contradiction.
      + rewrite I4, I2, TI1, app_length. cbn [length]. unfold u32.
        rewrite app_length in GE. cbn [length] in GE. rewrite Z.mod_small; lia.
  Qed.

  Lemma add_ok : forall N fuel v st alloc t key len a,
    inv N v st -> (Z.to_nat N < fuel)%nat -> N < 2 ^ 32 ->
    may K N v (Add K alloc t key len a) ->
    exists b st' v', hash_add K hash fuel alloc t st key len a = Ok (b, st')
      /\ does K hash same v (Add K alloc t key len a) (Added b) v'
      /\ inv N v' st'.
  Proof.
    intros N fuel v st alloc t key len a [IL ID IB IT] FU NB (AZ & LA & NI & LN & AL).
    assert (LV : live st a = true) by (rewrite IL; exact LA).
    unfold hash_add. unfold set_key, wr. rewrite LV. cbn [bind].
    set (hv := hash key len).
    destruct (v_list v) as [|e0 l0] eqn:EL.
    - (* the first element *)
      cbn in IT. proj. rewrite IT. cbn [Z.eqb].
      unfold set_next, wr. proj. rewrite LV. proj.
      unfold set_prev, wr. proj. rewrite LV. proj.
      unfold make_table. change (32 * 16) with 512.
      assert (SAME : forall tb : Z -> Z, forall pv nx hh hl hk tbs,
        inv N v (mkState K (live st) tb pv nx (f_hprev st) (f_hnext st) hk hl hh tbs 0)).
      { intros. constructor; proj; rewrite ?EL; [auto|intros e X; destruct X|auto|reflexivity]. }
      destruct (alloc 64) eqn:A1; cbn [negb].
      2:{ unfold set_tbl at 1, wr. proj. rewrite LV. proj.
          unfold add_to_table. cbn [negb]. unfold set_tbl, wr. proj. rewrite LV. proj.
          eexists true, _, v. split; [reflexivity|]. split; [|apply SAME].
          apply does_not_add; [auto|]. rewrite EL. congruence. }
      unfold set_tbl at 1, wr. proj. rewrite LV. proj.
      destruct (alloc 512) eqn:A2; cbn [negb].
      2:{ proj. unfold add_to_table. cbn [negb]. unfold set_tbl, wr. proj. rewrite LV. proj.
          eexists true, _, v. split; [reflexivity|]. split; [|apply SAME].
          apply does_not_add; [auto|]. rewrite EL. congruence. }
      proj.
      match goal with |- context [add_to_table K fuel alloc ?s hv a false] => set (st1 := s) end.
      set (T0 := mkTab (repeat (mkBkt 0 0 0) 32) 32 5 0 a 0 0 0 0) in *.
      assert (G : good st1 t T0 5 (repeat [] (Z.to_nat (2 ^ 5))) ([] ++ [a]) []).
      { constructor; unfold st1; proj.
        - apply put_same.
        - intros x [<-|[]]. apply put_same.
        - reflexivity.
        - cbn [app seg hd]. rewrite !put_same. auto.
        - reflexivity.
        - reflexivity.
        - reflexivity.
        - lia.
        - constructor; [intros []|constructor].
        - intros [X|[]]. congruence.
        - intros x [<-|[]]. exact LV.
        - cbn. lia.
        - apply (chained_empty _ _ _ 5). lia.
        - constructor.
        - intros x []. }
      assert (HV : f_hashv st1 a = hv) by (unfold st1; proj; apply put_same).
      destruct (add_to_table_ok fuel alloc st1 t T0 5 _ [] a G)
        as [(st2 & T2 & k2 & cs2 & E & KP & G2 & I2)|(st2 & T2 & cs2 & E & _ & _ & _ & _ & _ & _ & X & _)];
        try (rewrite HV in E).
      + intros [].
      + cbn [length app]. cbn in LN. lia.
      + exact AL.
      + reflexivity.
      + intros _ b Ib. apply repeat_spec in Ib. exact Ib.
      + rewrite E. destruct KP as [k1 k3 k4 k5 k6 k7 k8 k9].
        eexists false, st2, (mkView (v_live v) (v_list v ++ [mkEntry a key len])).
        split; [reflexivity|]. split; [apply does_add; auto|].
        rewrite EL. cbn [app]. constructor; cbn [v_live v_list].
        * intros x. rewrite k1. apply IL.
        * intros e [<-|[]]. cbn [e_at e_key e_len]. rewrite k6, k7, k8. unfold st1. proj.
          rewrite !put_same. auto.
        * cbn. cbn in LN. lia.
        * exists t, T2, k2, cs2. cbn [map e_at]. split; [exact G2|exact I2].
      + congruence.
    - assert (NE : v_list v <> []) by (rewrite EL; discriminate).
      rewrite <- EL in *. clear EL e0 l0.
      destruct (zero_or_head st (v_list v) IT NE) as (HZ & HI).
      destruct (tab_ok_nonempty _ _ NE IT) as (th & T & k & cs & G & TI).
      pose proof G as [GT GB GH GS GA GN GL GK GD GZ GV GE GC GX GU].
      set (L := map e_at (v_list v)) in *.
      assert (NL : L <> []) by (unfold L; destruct (v_list v); [congruence|discriminate]).
      assert (LT : In (last L 0) L) by (apply last_in; exact NL).
      assert (HA : head st <> a) by (intros X; rewrite X in HI; contradiction).
      assert (LLN : length L = length (v_list v)) by (unfold L; apply map_length).
      proj. rewrite HZ. unfold rd at 1. proj. rewrite (GV _ HI), (GB _ HI). proj.
      unfold set_tbl at 1, wr. proj. rewrite LV. proj.
      unfold append_list. unfold set_next at 1, wr. proj. rewrite LV. proj.
      unfold rd at 1. proj. rewrite (GV _ HI), put_other, (GB _ HI) by exact HA. proj.
      unfold rd_tab at 1. proj. rewrite GT. proj.
      unfold set_prev at 1, wr. proj. rewrite LV. proj.
      unfold set_next at 1, wr. proj. rewrite GA, (GV _ LT). proj.
      match goal with |- context [add_to_table K fuel alloc ?s hv a false] => set (st1 := s) end.
      set (T1 := with_tail T a) in *.
      assert (G1 : good st1 th T1 k cs (L ++ [a]) L).
      { constructor; unfold st1, T1; proj; auto.
        - apply put_same.
        - intros x X. apply in_app_or in X. destruct X as [X|[<-|[]]]; [|apply put_same].
          rewrite put_other; [auto|]. intros ->. contradiction.
        - rewrite GH. destruct L; [congruence|reflexivity].
        - apply seg_snoc; auto.
        - symmetry. apply last_snoc.
        - apply (NoDup_Add (Add_app a L [])). rewrite app_nil_r. split; assumption.
        - intros X. apply in_app_or in X. destruct X as [X|[X|[]]]; [contradiction|congruence].
        - intros x X. apply in_app_or in X. destruct X as [X|[<-|[]]]; auto.
        - rewrite app_length. cbn [length]. lia.
        - eapply chained_frame; [| | |exact GC]; intros x X; [reflexivity|reflexivity|].
          apply put_other. intros ->. contradiction.
        - intros x X. apply in_or_app. now left. }
      assert (HV : f_hashv st1 a = hv) by (unfold st1; proj; apply put_same).
      assert (DATA : forall st' : state, f_key st' = f_key st1 -> f_klen st' = f_klen st1 ->
                f_hashv st' = f_hashv st1 -> data_ok st' (v_list v)).
      { intros st' e1 e2 e3 e Ie. rewrite e1, e2, e3. unfold st1. proj.
        assert (e_at e <> a) by (intros X; apply NI; rewrite <- X; apply in_map; exact Ie).
        rewrite !put_other by assumption. apply ID. exact Ie. }
      destruct (add_to_table_ok fuel alloc st1 th T1 k cs L a G1)
        as [(st2 & T2 & k2 & cs2 & E & KP & G2 & I2)
           |(st2 & T2 & cs2 & E & k1 & k6 & k7 & k8 & G2 & I2 & X & J)];
        try (rewrite HV in E).
      + exact NI.
      + rewrite app_length. cbn [length]. lia.
      + exact AL.
      + unfold T1. proj. rewrite TI, LLN. reflexivity.
      + congruence.
      + rewrite E. destruct KP as [k1 k3 k4 k5 k6 k7 k8 k9].
        eexists false, st2, (mkView (v_live v) (v_list v ++ [mkEntry a key len])).
        split; [reflexivity|]. split; [apply does_add; congruence|].
        constructor; cbn [v_live v_list].
        * intros x. rewrite k1. apply IL.
        * intros e Ie. apply in_app_or in Ie. destruct Ie as [Ie|[<-|[]]].
          -- apply DATA; assumption.
          -- cbn [e_at e_key e_len]. rewrite k6, k7, k8. unfold st1. proj.
             rewrite !put_same. auto.
        * rewrite app_length. cbn [length]. lia.
        * eapply tab_ok_intro; [apply snoc_nil| |].
          -- rewrite map_app. cbn [map e_at]. exact G2.
          -- rewrite I2, !app_length, LLN. reflexivity.
      + rewrite E. exists true, st2, v. split; [reflexivity|]. split.
        * apply does_not_add; [congruence|]. intros _. exact J.
        * constructor.
          -- intros x. rewrite k1. apply IL.
          -- apply DATA; assumption.
          -- exact IB.
          -- eapply tab_ok_intro; [exact NE|exact G2|]. rewrite I2, LLN. reflexivity.
  Qed.

  (** HASH_ITER that only reads *)
  Lemma iter_read : forall (st : state) l fuel v,
    (length l < fuel)%nat -> ~ In 0 l -> (forall a, In a l -> live st a = true) ->
    seg (f_prev st) (f_next st) v l 0 ->
    iter_loop K fuel (just_read K) st (hd 0 l) (hd 0 (tl l)) = Ok (l, st).
  Proof.
    intros st. induction l as [|a l IH]; intros fuel v FU NZ LV SG;
      (destruct fuel as [|fuel]; [cbn in FU; lia|]); [reflexivity|].
    cbn [hd tl iter_loop]. destruct (Z.eqb_spec a 0) as [->|_]; [exfalso; apply NZ; now left|].
    unfold just_read at 1. cbn [bind]. destruct SG as (_ & NA & SG).
    assert (E : next_or_null K st (hd 0 l) = Ok (hd 0 (tl l))).
    { unfold next_or_null. destruct l as [|b l]; [reflexivity|]. cbn [hd tl].
      destruct (Z.eqb_spec b 0) as [->|_]; [exfalso; apply NZ; right; now left|].
      unfold rd. rewrite LV by (right; now left). destruct SG as (_ & -> & _). reflexivity. }
    rewrite E. cbn [bind]. rewrite (IH fuel a); [reflexivity|cbn in FU; lia| | |exact SG].
    - intros X. apply NZ. now right.
    - intros x X. apply LV. now right.
  Qed.

  Lemma first_next : forall (st : state) l, tab_ok st l ->
    next_or_null K st (hd 0 (map e_at l)) = Ok (hd 0 (tl (map e_at l))).
  Proof.
    intros st l IT. destruct l as [|e l]; [reflexivity|].
    destruct IT as (t & T & k & cs & G & _).
    pose proof G as [GT GB GH GS GA GN GL GK GD GZ GV GE GC GX GU].
    cbn [map hd tl] in *. unfold next_or_null.
    destruct (Z.eqb_spec (e_at e) 0) as [E|_]; [exfalso; apply GZ; left; exact E|].
    unfold rd. rewrite GV by now left. destruct GS as (_ & -> & _). reflexivity.
  Qed.
  Lemma head_first : forall (st : state) l, tab_ok st l -> head st = hd 0 (map e_at l).
  Proof.
    intros st [|e l] IT; [exact IT|]. destruct IT as (t & T & k & cs & G & _).
    exact (g_head _ _ _ _ _ _ _ _ G).
  Qed.

  Lemma iterate_ok : forall N fuel v st, inv N v st -> (Z.to_nat N < fuel)%nat ->
    hash_iter K fuel (just_read K) st = Ok (map e_at (v_list v), st).
  Proof.
    intros N fuel v st [IL ID IB IT] FU. unfold hash_iter.
    rewrite (head_first _ _ IT), (first_next _ _ IT). cbn [bind].
    destruct (v_list v) as [|e l] eqn:EL.
    - destruct fuel; [lia|reflexivity].
    - destruct IT as (t & T & k & cs & G & _).
      pose proof G as [GT GB GH GS GA GN GL GK GD GZ GV GE GC GX GU].
      apply iter_read with (v := 0); auto. rewrite map_length. lia.
  Qed.

  (** HASH_ITER whose body deletes the element, and frees it or not *)
  Lemma set_live_inv : forall N v st a b,
    inv N v st -> ~ In a (map e_at (v_list v)) ->
    inv N (mkView (put (v_live v) a b) (v_list v)) (set_live K st a b).
  Proof.
    intros N v st a b [IL ID IB IT] NI. constructor; cbn [v_live v_list]; auto.
    - intros x. unfold set_live. proj. unfold put. destruct (x =? a); auto.
    - destruct (v_list v) as [|e l] eqn:EL; [exact IT|].
      destruct IT as (t & T & k & cs & G & TI). exists t, T, k, cs. split; [|exact TI].
      eapply good_frame; [exact G| |reflexivity|reflexivity].
      intros x X. unfold set_live. proj. repeat split. apply put_other.
      intros ->. contradiction.
  Qed.

  Lemma body_ok : forall N f v st e l,
    inv N v st -> v_list v = e :: l ->
    exists st' live', (if f : bool then del_and_free K else del_only K) st (e_at e) = Ok st'
      /\ inv N (mkView live' l) st'
      /\ forall a, live' a = if f && (a =? e_at e) then false else v_live v a.
  Proof.
    intros N f v st e l I EL.
    destruct (delete_ok N v st (e_at e) I) as (st' & E & I').
    { rewrite EL. now left. }
    assert (ND : NoDup (map e_at (e :: l))).
    { destruct I as [_ _ _ IT]. rewrite EL in IT. destruct IT as (t & T & k & cs & G & _).
      exact (g_nodup _ _ _ _ _ _ _ _ G). }
    rewrite EL in I'. pose proof (without_mid [] l e ND) as W. cbn [app] in W. rewrite W in I'.
    destruct f.
    - unfold del_and_free. rewrite E. cbn [bind].
      exists (set_live K st' (e_at e) false), (put (v_live v) (e_at e) false).
      split; [reflexivity|]. split.
      + apply (set_live_inv N _ st' (e_at e) false I'). cbn [v_list map] in *.
        now inversion ND.
      + intros a. cbn [andb]. unfold put. reflexivity.
    - unfold del_only. exists st', (v_live v). split; [exact E|]. split; [exact I'|].
      intros a. reflexivity.
  Qed.

  Lemma iter_delete : forall N f l v st fuel,
    inv N v st -> v_list v = l -> (length l < fuel)%nat ->
    exists st' live',
      iter_loop K fuel (if f : bool then del_and_free K else del_only K) st
        (hd 0 (map e_at l)) (hd 0 (tl (map e_at l))) = Ok (map e_at l, st')
      /\ inv N (mkView live' []) st'
      /\ forall a, live' a = if f && existsb (Z.eqb a) (map e_at l) then false else v_live v a.
  Proof.
    intros N f. induction l as [|e l IH]; intros v st fuel I EL FU;
      (destruct fuel as [|fuel]; [cbn in FU; lia|]).
    - exists st, (v_live v). split; [reflexivity|]. split.
      + destruct v as [vl vs]. cbn in *. subst vs. exact I.
      + intros a. cbn. now rewrite andb_false_r.
    - destruct (body_ok N f v st e l I EL) as (st1 & live1 & E1 & I1 & L1).
      cbn [map hd tl iter_loop].
      assert (EZ : (e_at e =? 0) = false).
      { apply Z.eqb_neq. destruct I as [_ _ _ IT]. rewrite EL in IT.
        destruct IT as (t & T & k & cs & G & _). intros X.
        apply (g_zero _ _ _ _ _ _ _ _ G). left. exact X. }
      rewrite EZ, E1. cbn [bind].
      rewrite (first_next st1 l) by (destruct I1 as [_ _ _ IT]; exact IT). cbn [bind].
      destruct (IH (mkView live1 l) st1 fuel I1 eq_refl) as (st2 & live2 & E2 & I2 & L2).
      { cbn in FU. lia. }
      rewrite E2. cbn [bind]. exists st2, live2. split; [reflexivity|]. split; [exact I2|].
      intros a. rewrite L2. cbn [v_live existsb]. rewrite L1.
      destruct f; cbn [andb]; [|reflexivity].
      destruct (a =? e_at e); cbn [orb]; [|reflexivity].
      destruct (existsb (Z.eqb a) (map e_at l)); reflexivity.
  Qed.

  (** One operation *)
  Lemma step_ok : forall N fuel v st o,
    inv N v st -> (Z.to_nat N < fuel)%nat -> 0 <= N < 2 ^ 32 -> may K N v o ->
    exists x st' v', do_op K hash same fuel st o = Ok (x, st')
      /\ does K hash same v o x v' /\ inv N v' st'.
  Proof.
    intros N fuel v st o I FU NB M. destruct o; cbn [do_op].
    - destruct M as (AZ & NI). eexists Nothing, _, _.
      split; [reflexivity|]. split; [apply does_new|].
      destruct I as [IL ID IB IT]. constructor; cbn [v_live v_list]; auto.
      + intros x. unfold new_element. proj. unfold put. destruct (x =? a); auto.
      + intros e Ie. unfold new_element. proj.
        assert (e_at e <> a) by (intros X; apply NI; rewrite <- X; apply in_map; exact Ie).
        rewrite !put_other by assumption. apply ID. exact Ie.
      + destruct (v_list v) as [|e l] eqn:EL; [exact IT|].
        destruct IT as (t & T & k0 & cs & G & TI). exists t, T, k0, cs. split; [|exact TI].
        eapply good_frame; [exact G| |reflexivity|reflexivity].
        intros x X. unfold new_element. proj.
        assert (x <> a) by (intros ->; contradiction).
        rewrite !put_other by assumption. repeat split.
    - eexists Nothing, _, _. split; [reflexivity|]. split; [apply does_free|].
      apply set_live_inv; assumption.
    - destruct (add_ok N fuel v st alloc t k len a I FU (proj2 NB) M)
        as (b & st' & v' & E & DO & I').
      rewrite E. cbn [bind]. exists (Added b), st', v'. auto.
    - destruct (find_ok N fuel v st k len I FU) as (r & E & DO).
      rewrite E. cbn [bind]. exists (Found r), st, v. auto.
    - destruct (delete_ok N v st a I M) as (st' & E & I'). rewrite E. cbn [bind].
      eexists Nothing, st', _. split; [reflexivity|]. split; [apply does_delete|exact I'].
    - destruct (clear_ok N v st I (proj1 NB)) as (st' & E & I'). rewrite E. cbn [bind].
      eexists Nothing, st', _. split; [reflexivity|]. split; [apply does_clear|exact I'].
    - rewrite (count_ok N v st I). cbn [bind].
      eexists _, st, v. split; [reflexivity|]. split; [apply does_count|exact I].
    - rewrite (iterate_ok N fuel v st I FU). cbn [bind].
      eexists _, st, v. split; [reflexivity|]. split; [apply does_iterate|exact I].
    - pose proof I as [IL ID IB IT].
      destruct (iter_delete N and_free (v_list v) v st fuel I eq_refl) as (st' & live' & E & I' & L').
      { lia. }
      unfold hash_iter. rewrite (head_first _ _ IT), (first_next _ _ IT). cbn [bind].
      rewrite E. cbn [bind].
      eexists _, st', _. split; [reflexivity|]. split; [|exact I'].
      apply does_delete_all. exact L'.
  Qed.

  (** Every application *)
  Lemma run_ok : forall N fuel p v st,
    inv N v st -> (Z.to_nat N < fuel)%nat -> 0 <= N < 2 ^ 32 -> legal K hash same N v p ->
    exists l, run K hash same fuel st p = Ok l /\ told K hash same v p l.
  Proof.
    intros N fuel. induction p as [|o next IH]; intros v st I FU NB LG.
    - exists []. split; [reflexivity|exact Logic.I].
    - destruct LG as (M & LG).
      destruct (step_ok N fuel v st o I FU NB M) as (x & st' & v' & E & DO & I').
      cbn [run]. rewrite E. cbn [bind].
      destruct (IH x v' st' I' FU NB (LG x v' DO)) as (l & El & TL).
      rewrite El. cbn [bind]. exists (x :: l). split; [reflexivity|].
      cbn [told]. exists v'. auto.
  Qed.

  Lemma empty_inv : forall N k, 0 <= N -> inv N (empty K) (nothing K k).
  Proof. intros N k H. constructor; cbn; auto. intros e []. Qed.
End Steps.
