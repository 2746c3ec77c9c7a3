(** Doubly linked lists: the operations on the links, and applications. *)
From Coq Require Import ZArith List Bool Lia.
From Verif Require Import Base DlistModel DlistSpec.
From Verif Require UthashModel UthashLists.
Import ListNotations.
Open Scope Z_scope.

Notation seg := UthashLists.seg.

Record is_list (st : state) (l : list Z) : Prop := mkIs {
  il_nodup : NoDup l;
  il_zero : ~ In 0 l;
  il_live : forall x, In x l -> live st x = true;
  il_head : head st = hd 0 l;
  il_seg : seg (f_prev st) (f_next st) (last l 0) l 0 }.

Lemma last_app : forall (l1 l2 : list Z) v, l2 <> [] -> last (l1 ++ l2) v = last l2 v.
Proof.
  induction l1 as [|a l1 IH]; intros l2 v NE; [reflexivity|].
  cbn [Datatypes.app]. rewrite UthashLists.last_cons, IH by exact NE.
  now apply UthashLists.last_indep.
Qed.

Lemma last_snoc : forall (l : list Z) a v, last (l ++ [a]) v = a.
Proof. intros. rewrite last_app by discriminate. reflexivity. Qed.

Lemma append_ok : forall st l a, is_list st l -> a <> 0 -> live st a = true -> ~ In a l ->
  exists st', dl_append st a = Ok st' /\ is_list st' (l ++ [a]) /\ live st' = live st.
Proof.
  intros st l a [ND NZ LV HD SG] A0 AL NI. unfold dl_append. rewrite HD.
  destruct l as [|b r].
  - cbn [hd]. rewrite Z.eqb_refl. unfold set_prev, set_next, set_head. cbn [live head f_prev f_next].
    rewrite AL. cbn [bind live head f_prev f_next]. rewrite AL. eexists. split; [reflexivity|].
    split; [|reflexivity]. constructor; cbn [Datatypes.app live head f_prev f_next hd last].
    + constructor; [intros []|constructor].
    + intros [E|[]]. congruence.
    + intros x [<-|[]]. exact AL.
    + reflexivity.
    + cbn [UthashLists.seg]. rewrite !UthashLists.put_same. cbn [hd]. auto.
  - cbn [hd].
    assert (B0 : b <> 0) by (intros ->; apply NZ; now left).
    assert (BL : live st b = true) by (apply LV; now left).
    assert (AB : a <> b) by (intros ->; apply NI; now left).
    destruct (Z.eqb_spec b 0); [contradiction|].
    set (z := last (b :: r) 0) in *.
    assert (ZI : In z (b :: r)) by (apply UthashLists.last_in; discriminate).
    assert (ZL : live st z = true) by now apply LV.
    assert (PB : f_prev st b = z) by (destruct SG; assumption).
    unfold rd, set_prev, set_next.
    rewrite BL. cbn [bind]. rewrite PB, AL. cbn [bind live f_prev f_next head].
    rewrite HD. cbn [hd]. rewrite BL, UthashLists.put_other by congruence.
    cbn [bind live f_prev f_next head]. rewrite PB, ZL. cbn [bind live f_prev f_next head].
    rewrite BL. cbn [bind live f_prev f_next head]. rewrite AL.
    eexists. split; [reflexivity|]. split; [|reflexivity].
    constructor; cbn [live f_prev f_next head].
    + apply NoDup_Add with (a := a) (l := b :: r).
      * rewrite <- (app_nil_r (b :: r)) at 1. apply Add_app.
      * split; assumption.
    + rewrite in_app_iff. intros [H|[H|[]]]; [contradiction|congruence].
    + intros x X. apply in_app_iff in X. destruct X as [X|[<-|[]]]; [now apply LV|exact AL].
    + reflexivity.
    + rewrite last_snoc. apply UthashLists.seg_app. split.
      * cbn [hd]. 
        assert (S1 : seg (f_prev st) (put (f_next st) z a) z (b :: r) a)
          by (apply UthashLists.seg_new_end with (e := 0); [exact ND|discriminate|exact SG]).
        assert (S2 : seg (put (f_prev st) b a) (put (f_next st) z a) a (b :: r) a).
        { apply UthashLists.seg_new_start with (v := z); [|exact S1]. now inversion ND. }
        eapply UthashLists.seg_frame; [| |exact S2].
        -- intros x X. assert (x <> a) by (intros ->; contradiction).
           unfold UthashModel.put. destruct (Z.eqb_spec x a); [contradiction|reflexivity].
        -- intros x X. assert (x <> a) by (intros ->; contradiction).
           unfold UthashModel.put. destruct (Z.eqb_spec x a); [contradiction|reflexivity].
      * cbn [UthashLists.seg hd]. rewrite UthashLists.put_same.
        rewrite UthashLists.put_other by congruence. rewrite UthashLists.put_same.
        split; [apply UthashLists.last_indep; discriminate|split; [reflexivity|exact Logic.I]].
Qed.

Lemma delete_ok : forall st l1 a l2, is_list st (l1 ++ a :: l2) ->
  exists st', dl_delete st a = Ok st' /\ is_list st' (l1 ++ l2) /\ live st' = live st
              /\ f_next st a = hd 0 l2.
Proof.
  intros st l1 a l2 [ND NZ LV HD SG].
  assert (AL : live st a = true) by (apply LV, in_elt).
  assert (A0 : a <> 0) by (intros ->; apply NZ, in_elt).
  pose proof (NoDup_remove_1 _ _ _ ND) as ND'. pose proof (NoDup_remove_2 _ _ _ ND) as NI.
  assert (NZ' : ~ In 0 (l1 ++ l2)).
  { intros X. apply NZ. rewrite in_app_iff in *. cbn [In]. tauto. }
  assert (LV' : forall x, In x (l1 ++ l2) -> live st x = true).
  { intros x X. apply LV. rewrite in_app_iff in *. cbn [In]. tauto. }
  pose proof SG as SG0. apply UthashLists.seg_app in SG. destruct SG as (S1 & S2).
  cbn [UthashLists.seg] in S2. destruct S2 as (PA & NA & S2). cbn [hd] in S1.
  rewrite last_app in S1, PA, SG0 by discriminate.
  assert (H0 : head st <> 0).
  { rewrite HD. destruct l1 as [|b l1]; cbn [Datatypes.app hd]; [exact A0|].
    intros ->. apply NZ. now left. }
  unfold dl_delete, rd. destruct (Z.eqb_spec (head st) 0); [contradiction|]. cbn [negb assert bind].
  rewrite AL. cbn [bind].
  destruct l1 as [|b l1].
  - cbn [last Datatypes.app hd] in *.
    destruct l2 as [|c l2].
    + cbn [last] in PA. rewrite PA. destruct (Z.eqb_spec a 0); [contradiction|]. cbn [negb assert bind].
      rewrite Z.eqb_refl. eexists. split; [reflexivity|]. split; [|split; [reflexivity|exact NA]].
      constructor; cbn; try assumption. reflexivity.
    + set (z := last (c :: l2) 0) in *.
      assert (PA' : f_prev st a = z) by exact PA. clear PA. rename PA' into PA.
      assert (ZI : In z (c :: l2)) by (apply UthashLists.last_in; discriminate).
      assert (PZ : f_prev st a <> a) by (rewrite PA; intros E; rewrite E in ZI; contradiction).
      assert (P0 : f_prev st a <> 0) by (rewrite PA; intros E; rewrite E in ZI; contradiction).
      destruct (Z.eqb_spec (f_prev st a) 0); [contradiction|]. cbn [negb assert bind].
      destruct (Z.eqb_spec (f_prev st a) a); [contradiction|].
      rewrite HD, Z.eqb_refl. cbn [bind]. rewrite NA. cbn [hd].
      assert (C0 : c <> 0) by (intros ->; apply NZ'; now left).
      destruct (Z.eqb_spec c 0); [contradiction|]. cbn [negb assert bind].
      unfold set_prev. rewrite (LV' c (or_introl eq_refl)). cbn [bind live f_next]. rewrite AL. cbn [bind].
      rewrite NA. cbn [hd].
      eexists. split; [reflexivity|]. split; [|split; reflexivity].
      constructor; cbn [set_head live f_prev f_next head]; try assumption; [reflexivity|].
      rewrite PA. fold z.
      apply UthashLists.seg_new_start with (v := a); [now inversion ND'|exact S2].
  - set (l := b :: l1) in *. assert (LN : l <> []) by discriminate.
    rewrite (UthashLists.last_indep l _ 0 LN) in PA.
    set (w := last l 0) in *.
    assert (WI : In w l) by (apply UthashLists.last_in; discriminate).
    assert (WA : w <> a) by (intros E; apply NI; rewrite in_app_iff; left; now rewrite <- E).
    assert (W0 : w <> 0) by (intros E; apply NZ'; rewrite in_app_iff; left; now rewrite <- E).
    assert (WL : live st w = true) by (apply LV'; rewrite in_app_iff; now left).
    assert (BA : a <> b) by (intros ->; apply NI; now left).
    rewrite PA. destruct (Z.eqb_spec w 0); [contradiction|]. cbn [negb assert bind].
    destruct (Z.eqb_spec w a); [contradiction|].
    assert (HB : head st = b) by exact HD.
    rewrite HB. destruct (Z.eqb_spec a b); [contradiction|].
    cbn [bind]. unfold set_next. rewrite WL. cbn [bind live f_next f_prev head]. rewrite AL. cbn [bind].
    rewrite UthashLists.put_other by congruence. rewrite NA, PA.
    assert (NDL : NoDup l).
    { clear - ND'. revert ND'. generalize l. intros m H. induction m as [|x m IH]; [constructor|].
      cbn in H. inversion H; subst. constructor; [|now apply IH]. intros X. apply H2. rewrite in_app_iff. now left. }
    destruct l2 as [|c l2].
    + cbn [hd]. rewrite Z.eqb_refl. unfold set_prev. cbn [live head f_prev f_next].
      assert (BL : live st b = true) by (apply LV'; now left).
      rewrite HB, BL.
      eexists. split; [reflexivity|]. split; [|split; reflexivity]. rewrite app_nil_r in *.
      constructor; cbn [live f_prev f_next head]; try assumption; [reflexivity|]. fold w.
      assert (S3 : seg (f_prev st) (put (f_next st) w 0) (last [a] 0) l 0)
        by (apply UthashLists.seg_new_end with (e := a); assumption).
      apply UthashLists.seg_new_start with (v := last [a] 0); [now inversion NDL|exact S3].
    + cbn [hd]. assert (CI : In c (l ++ c :: l2)) by apply in_elt.
      assert (C0 : c <> 0) by (intros ->; contradiction).
      destruct (Z.eqb_spec c 0); [contradiction|]. unfold set_prev. cbn [live f_prev f_next head].
      rewrite (LV' c CI).
      assert (CW : ~ In c l /\ ~ In w (c :: l2)).
      { pose proof (NoDup_remove_2 _ _ _ ND') as R. split.
        - intros X. apply R. rewrite in_app_iff. now left.
        - intros X. clear - ND' WI X. revert ND' WI. generalize l. intros m H WI. induction m as [|x m IH]; [destruct WI|].
          cbn in H. inversion H; subst. destruct WI as [->|WI]; [apply H2; rewrite in_app_iff; now right|now apply IH]. }
      destruct CW as (CL & WL2).
      eexists. split; [reflexivity|]. split; [|split; reflexivity].
      constructor; cbn [live f_prev f_next head]; try assumption.
      rewrite last_app by discriminate. apply UthashLists.seg_app. cbn [hd]. split.
      * assert (S3 : seg (f_prev st) (put (f_next st) w c) (last (a :: c :: l2) 0) l c)
          by (apply UthashLists.seg_new_end with (e := a); assumption).
        rewrite UthashLists.last_cons in S3.
        rewrite (UthashLists.last_indep (c :: l2) 0 a) by discriminate.
        eapply UthashLists.seg_frame; [| |exact S3]; [|reflexivity].
        intros x X. apply UthashLists.put_other. intros ->. contradiction.
      * rewrite (UthashLists.last_indep l _ 0 LN). fold w.
        assert (S3 : seg (put (f_prev st) c w) (f_next st) w (c :: l2) 0).
        { apply UthashLists.seg_new_start with (v := a); [|exact S2].
          apply NoDup_remove_2 in ND'. rewrite in_app_iff in ND'. tauto. }
        eapply UthashLists.seg_frame; [| |exact S3]; [reflexivity|].
        intros x X. apply UthashLists.put_other. intros ->. contradiction.
Qed.

(** Going through a list *)
Lemma foreach_ok : forall l st v fuel,
  (forall x, In x l -> live st x = true) -> ~ In 0 l ->
  seg (f_prev st) (f_next st) v l 0 -> (length l < fuel)%nat ->
  foreach fuel st (hd 0 l) = Ok l.
Proof.
  induction l as [|a l IH]; intros st v fuel LV NZ SG F; (destruct fuel as [|fuel]; [lia|]).
  - reflexivity.
  - cbn [foreach hd]. destruct (Z.eqb_spec a 0) as [->|A0]; [destruct NZ; now left|].
    unfold rd. rewrite (LV a (or_introl eq_refl)). cbn [bind].
    destruct SG as (PA & NA & SG). rewrite NA.
    rewrite (IH st a fuel); [reflexivity| | |exact SG|cbn [length] in F; lia].
    + intros x X. apply LV. now right.
    + intros X. apply NZ. now right.
Qed.

Lemma drain_ok : forall l st fuel, is_list st l -> (length l < fuel)%nat ->
  exists st', drain fuel st (hd 0 l) = Ok (l, st') /\ is_list st' []
    /\ forall a, live st' a = if existsb (Z.eqb a) l then false else live st a.
Proof.
  induction l as [|a l IH]; intros st fuel I F; (destruct fuel as [|fuel]; [lia|]).
  - exists st. split; [reflexivity|]. split; [exact I|reflexivity].
  - cbn [drain hd].
    destruct (delete_ok st [] a l I) as (st1 & D & I1 & L1 & NA).
    destruct (Z.eqb_spec a 0) as [->|A0]; [destruct (il_zero _ _ I); now left|].
    unfold rd. rewrite (il_live _ _ I a (or_introl eq_refl)). cbn [bind]. rewrite D. cbn [bind].
    cbn [Datatypes.app] in I1. pose proof (il_nodup _ _ I) as ND. inversion ND as [|u w NI ND']; subst.
    assert (I2 : is_list (set_live st1 a false) l).
    { destruct I1 as [A B C H G]. constructor; cbn [set_live live head f_prev f_next]; try assumption.
      intros x X. rewrite UthashLists.put_other; [now apply C|]. intros ->. contradiction. }
    destruct (IH _ fuel I2 ltac:(cbn [length] in F; lia)) as (st' & E & I' & L').
    rewrite NA, E. cbn [bind]. exists st'. split; [reflexivity|]. split; [exact I'|].
    intros x. rewrite L'. cbn [set_live live existsb]. rewrite L1. unfold UthashModel.put.
    destruct (Z.eqb_spec x a) as [->|NE]; cbn [orb]; [|reflexivity].
    destruct (existsb (Z.eqb a) l); reflexivity.
Qed.

(** Applications *)
Definition inv (N : nat) (v : view) (st : state) : Prop :=
  is_list st (v_list v) /\ (forall a, live st a = v_live v a) /\ (length (v_list v) <= N)%nat.

Lemma is_frame : forall st st' l, is_list st l ->
  (forall x, In x l -> live st' x = live st x) -> (forall x, In x l -> f_prev st' x = f_prev st x) ->
  (forall x, In x l -> f_next st' x = f_next st x) -> head st' = head st -> is_list st' l.
Proof.
  intros st st' l [A B C H G] L P NX HD. constructor; try assumption.
  - intros x X. rewrite L by exact X. now apply C.
  - congruence.
  - eapply UthashLists.seg_frame; eassumption.
Qed.

Lemma step_ok : forall N v st o fuel, (N < fuel)%nat -> inv N v st -> may N v o ->
  exists x st' v', do_op fuel st o = Ok (x, st') /\ does v o x v' /\ inv N v' st'.
Proof.
  intros N v st o fuel F (I & L & B) M.
  assert (FB : (length (v_list v) < fuel)%nat) by lia.
  destruct o; cbn [may do_op] in *.
  - destruct M as (A0 & NI). eexists. eexists. eexists. split; [reflexivity|]. split; [constructor|].
    split; [|split; [|exact B]].
    + cbn [v_list]. apply (is_frame st); cbn [live f_prev f_next head]; try exact I; try reflexivity;
        intros x X; apply UthashLists.put_other; intros ->; contradiction.
    + intros b. cbn [live v_live]. unfold UthashModel.put. destruct (b =? a); [reflexivity|apply L].
  - eexists. eexists. eexists. split; [reflexivity|]. split; [constructor|].
    split; [|split; [|exact B]].
    + cbn [v_list]. apply (is_frame st); cbn [set_live live f_prev f_next head]; try exact I; try reflexivity.
      intros x X. apply UthashLists.put_other. intros ->. contradiction.
    + intros b. cbn [set_live live v_live]. unfold UthashModel.put. destruct (b =? a); [reflexivity|apply L].
  - destruct M as (A0 & AL & NI & LB).
    destruct (append_ok st (v_list v) a I A0 ltac:(now rewrite L) NI) as (st' & E & I' & L').
    rewrite E. cbn [bind]. eexists. eexists. eexists. split; [reflexivity|]. split; [constructor|].
    split; [exact I'|]. split; [intros b; rewrite L'; apply L|].
    cbn [v_list]. rewrite app_length. exact LB.
  - destruct (in_split _ _ M) as (l1 & l2 & E). rewrite E in I, B.
    destruct (delete_ok st l1 a l2 I) as (st' & D & I' & L' & _).
    rewrite D. cbn [bind]. eexists. eexists. eexists. split; [reflexivity|].
    split; [exact (does_delete v l1 a l2 E)|].
    split; [exact I'|]. split; [intros b; rewrite L'; apply L|].
    cbn [v_list]. rewrite app_length in *. cbn [length] in B. lia.
  - eexists. eexists. exists v. split; [reflexivity|].
    split; [|split; [exact I|split; [exact L|exact B]]].
    rewrite (il_head _ _ I). destruct (v_list v) as [|a l] eqn:E.
    + apply does_not_head. exact E.
    + apply (does_head v l). exact E.
  - rewrite (il_head _ _ I).
    rewrite (foreach_ok (v_list v) st _ fuel (il_live _ _ I) (il_zero _ _ I) (il_seg _ _ I) FB). cbn [bind].
    eexists. eexists. exists v. split; [reflexivity|].
    split; [constructor|split; [exact I|split; [exact L|exact B]]].
  - unfold dl_count. rewrite (il_head _ _ I).
    rewrite (foreach_ok (v_list v) st _ fuel (il_live _ _ I) (il_zero _ _ I) (il_seg _ _ I) FB). cbn [bind].
    eexists. eexists. exists v. split; [reflexivity|].
    split; [constructor|split; [exact I|split; [exact L|exact B]]].
  - rewrite (il_head _ _ I).
    destruct (drain_ok (v_list v) st fuel I FB) as (st' & E & I' & L'). rewrite E. cbn [bind].
    eexists. eexists. eexists. split; [reflexivity|]. split.
    + apply (does_drain v (live st')). intros a. rewrite L'. destruct (existsb (Z.eqb a) (v_list v)); [reflexivity|apply L].
    + split; [exact I'|]. split; [reflexivity|]. cbn. lia.
Qed.

Lemma run_ok : forall N p v st fuel, (N < fuel)%nat -> inv N v st -> legal N v p ->
  exists l, run fuel st p = Ok l /\ told v p l.
Proof.
  intros N p. induction p as [|o k IH]; intros v st fuel F I L.
  - exists []. split; [reflexivity|exact Logic.I].
  - destruct L as (M & L). destruct (step_ok N v st o fuel F I M) as (x & st' & v' & E & D & I').
    destruct (IH x v' st' fuel F I' (L x v' D)) as (l & R & T).
    exists (x :: l). cbn [run]. rewrite E. cbn [bind]. rewrite R. split; [reflexivity|].
    exists v'. split; assumption.
Qed.

Lemma lists : forall N fuel p, (N < fuel)%nat -> legal N empty p ->
  exists l, run fuel nothing p = Ok l /\ told empty p l.
Proof.
  intros N fuel p F L. apply (run_ok N p empty nothing fuel F); [|exact L].
  split; [|split; [reflexivity|cbn; lia]].
  constructor; cbn; [constructor|tauto|tauto|reflexivity|exact Logic.I].
Qed.
