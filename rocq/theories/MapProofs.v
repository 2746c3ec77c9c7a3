From Coq Require Import ZArith List Bool Lia ZifyBool.
From Verif Require Import Base Datum CodecModel CodecSpec CodecProofs CmpModel CmpSpec CmpProofs MapModel MapSpec.
Import ListNotations.
Open Scope Z_scope.

Lemma land4_testbit f : (Z.land f FLAG_ID =? 0) = negb (Z.testbit f 2).
Proof.
  unfold FLAG_ID. change 4 with (2 ^ 2). destruct (Z.testbit f 2) eqn:E; cbn [negb].
  - apply Z.eqb_neq. intro H. apply (f_equal (fun z => Z.testbit z 2)) in H.
    rewrite Z.land_spec, E in H. discriminate H.
  - apply Z.eqb_eq. apply Z.bits_inj'. intros n Hn. rewrite Z.land_spec, Z.bits_0.
    destruct (Z.eq_dec n 2) as [->|N]; [now rewrite E|].
    rewrite Z.pow2_bits_false by lia. apply andb_false_r.
Qed.
Lemma owned_null d : null_reference d = true <-> owned d = Some 0.
Proof.
  unfold null_reference, owned. destruct (d_val d); try (split; discriminate).
  rewrite land4_testbit. destruct h; destruct (negb (Z.testbit (d_flags d) 2)); split; congruence.
Qed.

Definition own (d : datum) (h : Z) : Z := match owned d with Some x => if x =? h then 1 else 0 | None => 0 end.
Definition flat (l : list (datum * datum)) : list datum := concat (map (fun e => [fst e; snd e]) l).
Lemma refs_cons h d l : refs h (d :: l) = own d h + refs h l.
Proof.
  unfold refs, own, owned; cbn [filter]. destruct (d_val d); try reflexivity.
  rewrite land4_testbit. destruct (negb (Z.testbit (d_flags d) 2)) eqn:E.
  - rewrite andb_true_r. destruct (h0 =? h); [now rewrite lenZ_cons | reflexivity].
  - now rewrite andb_false_r.
Qed.
Lemma refs_nil h : refs h [] = 0. Proof. reflexivity. Qed.
Lemma refs_app h a b : refs h (a ++ b) = refs h a + refs h b.
Proof. induction a; [reflexivity|]. cbn [app]. rewrite !refs_cons. lia. Qed.
Lemma refs_nonneg h l : 0 <= refs h l.
Proof. unfold refs. apply lenZ_nonneg. Qed.
Lemma flat_app a b : flat (a ++ b) = flat a ++ flat b.
Proof. unfold flat. now rewrite map_app, concat_app. Qed.

Definition vp (e : datum * datum) : value * value := (d_val (fst e), d_val (snd e)).
Definition repr (l : list (datum * datum)) (D : dict) : Prop :=
  NoDup (map fst (map vp l)) /\ forall k v, D k = Some v <-> In (k, v) (map vp l).

Section P.
  Variable jen : list Z -> Z.
  Variable rc0 : Z -> Z.

  Definition okd (d : datum) : Prop :=
    wf_datum d /\ forall h, owned d = Some h -> h <> 0 /\ 1 <= rc0 h.
  Definition oke (e : datum * datum) : Prop := okd (fst e) /\ okd (snd e).

  Lemma key_matches_spec k e : wf_datum k -> oke e ->
    (key_matches jen k e = true <-> d_val (fst e) = d_val k).
  Proof.
    intros Wk [[We _] _]. unfold key_matches. split.
    - intro H. apply andb_prop in H. destruct H as [_ H]. apply Z.eqb_eq in H. now apply datum_cmp_eq.
    - intro E. rewrite (hash_datum_val jen _ _ E), Z.eqb_refl. cbn. apply Z.eqb_eq. now apply datum_cmp_eq.
  Qed.

  Lemma find_split l k : wf_datum k -> Forall oke l ->
    match hash_find jen l k with
    | Some e => exists a b, l = a ++ e :: b /\ hash_del jen l k = a ++ b /\ d_val (fst e) = d_val k
    | None => forall e, In e l -> d_val (fst e) <> d_val k
    end.
  Proof.
    intros Wk F. induction F as [|e l He F IH]; cbn.
    - intros e [].
    - destruct (key_matches jen k e) eqn:M.
      + exists [], l. repeat split. now apply key_matches_spec in M.
      + unfold hash_find in IH. destruct (find (key_matches jen k) l) as [x|].
        * destruct IH as (a & b & -> & -> & E). exists (e :: a), b. now repeat split.
        * intros y [<-|Hy]; [|now apply IH]. intro E. apply key_matches_spec in E; auto. congruence.
  Qed.

  Lemma repr_find l D k : wf_datum k -> Forall oke l -> repr l D ->
    match hash_find jen l k with
    | Some e => D (d_val k) = Some (d_val (snd e))
    | None => D (d_val k) = None
    end.
  Proof.
    intros Wk F [ND R]. pose proof (find_split l k Wk F) as S.
    destruct (hash_find jen l k) as [e|].
    - destruct S as (a & b & -> & _ & E). apply R. rewrite map_app. apply in_or_app. right; left.
      unfold vp. now rewrite E.
    - destruct (D (d_val k)) as [v|] eqn:Dk; auto. apply R in Dk. apply in_map_iff in Dk.
      destruct Dk as (e & E & I). exfalso. apply (S e I). unfold vp in E. congruence.
  Qed.

  Lemma repr_remove a e b D : repr (a ++ e :: b) D -> repr (a ++ b) (drem D (d_val (fst e))).
  Proof.
    intros [ND R]. rewrite !map_app in ND. cbn [map] in ND. split.
    - rewrite !map_app. eapply NoDup_remove_1; eauto.
    - intros k v. unfold drem. apply NoDup_remove_2 in ND.
      assert (X : forall v, In (d_val (fst e), v) (map vp (a ++ b)) -> False).
      { intros w I. apply ND. rewrite <- map_app, <- map_app. apply (in_map fst) in I. exact I. }
      destruct (value_eq_dec k (d_val (fst e))) as [->|N].
      + split; [discriminate|]. intro I. destruct (X _ I).
      + rewrite R, !map_app. cbn [map]. rewrite !in_app_iff. cbn [In].
        assert (vp e <> (k, v)) by (unfold vp; congruence). tauto.
  Qed.
  Lemma repr_add l D k v : repr l D -> D (d_val k) = None -> repr (l ++ [(k, v)]) (dset D (d_val k) (d_val v)).
  Proof.
    intros [ND R] Z. split.
    - rewrite !map_app. cbn. apply (NoDup_Add (a := d_val k) (l := map fst (map vp l))).
      { replace (map fst (map vp l)) with (map fst (map vp l) ++ []) at 1 by apply app_nil_r. apply Add_app. }
      split; auto. intro I. apply in_map_iff in I. destruct I as ((x, w) & E & I). cbn in E. subst x.
      apply R in I. congruence.
    - intros x w. unfold dset. rewrite map_app, in_app_iff. cbn.
      destruct (value_eq_dec x (d_val k)) as [->|N].
      + split.
        * intro E. right; left. unfold vp; cbn. congruence.
        * intros [I|[E|[]]]; [apply R in I; congruence | unfold vp in E; cbn in E; congruence].
      + rewrite R. split; [auto|]. intros [I|[E|[]]]; auto. unfold vp in E; cbn in E; congruence.
  Qed.
  Lemma repr_empty : repr [] dempty.
  Proof. split; [constructor | intros; split; [discriminate | intros []]]. Qed.
  Lemma repr_ext l D E : (forall k, D k = E k) -> repr l D -> repr l E.
  Proof. intros X [A B]. split; auto. intros. now rewrite <- X. Qed.

  (** invariant *)
  Definition inv (st : mstate) (D : dict) : Prop :=
    Forall oke (m_pairs st) /\ repr (m_pairs st) D /\
    forall h, m_rc st h = rc0 h + refs h (flat (m_pairs st)).

  Lemma release_ok rc d : okd d -> (forall h, owned d = Some h -> 1 <= rc h) ->
    exists rc', release_datum rc d = Ok rc' /\ forall h, rc' h = rc h - own d h.
  Proof.
    intros [W O] R. unfold release_datum, own. destruct (owned d) as [x|].
    - destruct (O x eq_refl) as [N _]. unfold release. replace (x =? 0) with false by lia.
      specialize (R x eq_refl). replace (rc x <=? 0) with false by lia. cbn.
      eexists; split; [reflexivity|]. intro h. unfold upd. rewrite (Z.eqb_sym h x).
      destruct (Z.eqb_spec x h); subst; lia.
    - eexists; split; [reflexivity|]. intro; lia.
  Qed.
  Lemma check_ok rc d : wf_datum d -> live_in rc0 d -> (forall h, rc0 h <= rc h) ->
    if null_reference d then check_datum rc d = Ok (ERR_INVALID_OBJECT, rc)
    else okd d /\ exists rc', check_datum rc d = Ok (0, rc') /\ forall h, rc' h = rc h + own d h.
  Proof.
    intros W L G. destruct (null_reference d) eqn:N.
    - apply owned_null in N. unfold check_datum. rewrite N. reflexivity.
    - assert (X : forall h, owned d = Some h -> h <> 0 /\ 1 <= rc0 h).
      { intros h E. assert (h <> 0). { intros ->. apply owned_null in E. congruence. }
        split; auto. unfold owned in E. unfold live_in in L. destruct (d_val d); try discriminate E.
        rewrite land4_testbit in E. destruct (Z.testbit (d_flags d) 2); try discriminate E. cbn in E.
        injection E as ->. intuition congruence. }
      split; [split; auto|]. unfold check_datum, own. destruct (owned d) as [x|].
      + destruct (X x eq_refl) as [NZ R]. unfold retain. replace (x =? 0) with false by lia.
        specialize (G x). replace (rc x <=? 0) with false by lia.
        eexists; split; [reflexivity|]. intro h. unfold upd. rewrite (Z.eqb_sym h x).
        destruct (Z.eqb_spec x h); subst; lia.
      + eexists; split; [reflexivity|]. intro; lia.
  Qed.
  Lemma set_string_val d : d_val (set_string d) = d_val d.
  Proof. destruct d as [[] ?]; reflexivity. Qed.
  Lemma set_string_owned d : owned (set_string d) = owned d.
  Proof. destruct d as [[] ?]; reflexivity. Qed.
  Lemma own_set_string d h : own (set_string d) h = own d h.
  Proof. unfold own. now rewrite set_string_owned. Qed.
  Lemma okd_set_string d : okd d -> okd (set_string d).
  Proof. intros [A B]. split; [unfold wf_datum; now rewrite set_string_val | now rewrite set_string_owned]. Qed.
  Lemma refs_pair h e : refs h (flat [e]) = own (fst e) h + own (snd e) h.
  Proof. unfold flat; cbn [map concat app]. rewrite !refs_cons, refs_nil. lia. Qed.

  Lemma own_nonneg d h : 0 <= own d h.
  Proof. unfold own. destruct (owned d); [destruct (z =? h)|]; lia. Qed.
  Lemma own_self d h : owned d = Some h -> own d h = 1.
  Proof. unfold own. intros ->. now rewrite Z.eqb_refl. Qed.

  (** removing an entry *)
  Lemma remove_ok l rc k e : wf_datum k -> Forall oke l -> hash_find jen l k = Some e ->
    (forall h, rc0 h + refs h (flat l) <= rc h) ->
    exists a b rc', l = a ++ e :: b /\ map_remove jen (mkMap l rc) k e = Ok (mkMap (a ++ b) rc') /\
      d_val (fst e) = d_val k /\
      forall h, rc' h = rc h - own (fst e) h - own (snd e) h.
  Proof.
    intros Wk F E R. pose proof (find_split l k Wk F) as S. rewrite E in S. destruct S as (a & b & -> & Dl & K).
    apply Forall_app in F. destruct F as [Fa F]. inversion F as [|? ? [O1 O2] Fb]; subst.
    assert (T : forall h, refs h (flat (a ++ e :: b)) = refs h (flat a) + own (fst e) h + own (snd e) h + refs h (flat b)).
    { intro h. rewrite flat_app. change (e :: b) with ([e] ++ b). rewrite flat_app, !refs_app, refs_pair. lia. }
    assert (B : forall h, 0 <= refs h (flat a) /\ 0 <= refs h (flat b)) by (intro; split; apply refs_nonneg).
    unfold map_remove; cbn [m_rc m_pairs].
    destruct (release_ok rc (fst e) O1) as (rc1 & E1 & R1).
    { intros h Oh. pose proof (proj2 (proj2 O1 h Oh)). specialize (R h). rewrite T in R. specialize (B h).
      pose proof (own_nonneg (fst e) h). pose proof (own_nonneg (snd e) h). lia. }
    rewrite E1. cbn [bind].
    destruct (release_ok rc1 (snd e) O2) as (rc2 & E2 & R2).
    { intros h Oh. pose proof (proj2 (proj2 O2 h Oh)). specialize (R h). rewrite T in R. specialize (B h). rewrite R1.
      pose proof (own_nonneg (fst e) h). pose proof (own_nonneg (snd e) h). lia. }
    rewrite E2, Dl. cbn [bind]. exists a, b, rc2. repeat split; auto. intro h. rewrite R2, R1. lia.
  Qed.

  Lemma rc_ge st D : inv st D -> forall h, rc0 h <= m_rc st h.
  Proof. intros (_ & _ & R) h. rewrite R. pose proof (refs_nonneg h (flat (m_pairs st))). lia. Qed.

  Lemma repr_add_eq l D k v : repr l D -> D (d_val k) = None ->
    repr (l ++ [(set_string k, set_string v)]) (dset D (d_val k) (d_val v)).
  Proof.
    intros R Z. rewrite <- (set_string_val k), <- (set_string_val v).
    apply repr_add; rewrite ?set_string_val; auto.
  Qed.

  Lemma set_ok st D k v : inv st D -> good_op rc0 (MSet k v) ->
    exists c st' D', map_set jen st k v = Ok (c, st') /\ dict_step D (MSet k v) = (c, D') /\ inv st' D'.
  Proof.
    intros I G. pose proof I as (F & R & C). inversion G as [|? ? [Wk Lk] G']; subst. inversion G' as [|? ? [Wv Lv] _]; subst.
    clear G G'. pose proof (rc_ge _ _ I) as GE. unfold map_set.
    pose proof (repr_find (m_pairs st) D k Wk F R) as FD.
    set (same := match hash_find jen (m_pairs st) k with Some e => datum_cmp_internal v (snd e) =? 0 | None => false end).
    assert (SS : same = true <-> D (d_val k) = Some (d_val v)).
    { unfold same. destruct (hash_find jen (m_pairs st) k) as [e|] eqn:E.
      - rewrite FD. pose proof (find_split (m_pairs st) k Wk F) as S. rewrite E in S. destruct S as (a & b & Q & _).
        rewrite Q in F. apply Forall_app in F. destruct F as [_ F]. inversion F as [|? ? [_ [O2 _]] _]; subst.
        rewrite Z.eqb_eq. rewrite datum_cmp_eq by auto. split; [now intros -> | now injection 1].
      - rewrite FD. split; discriminate. }
    assert (DS : dict_step D (MSet k v) = if same then (0, D) else
                  if null_reference k || null_reference v then (ERR_INVALID_OBJECT, D) else (0, dset D (d_val k) (d_val v))).
    { unfold dict_step. destruct same.
      - rewrite (proj1 SS eq_refl). destruct (value_eq_dec (d_val v) (d_val v)); [reflexivity | congruence].
      - destruct (D (d_val k)) as [w|] eqn:Dk; [|reflexivity].
        destruct (value_eq_dec w (d_val v)) as [->|N]; [|reflexivity].
        pose proof (proj2 SS eq_refl). discriminate. }
    rewrite DS. destruct same eqn:Sm.
    { eexists _, _, _. repeat split; try reflexivity; auto; apply R. }
    pose proof (check_ok (m_rc st) k Wk Lk GE) as CK.
    destruct (null_reference k); cbn [orb].
    { rewrite CK. cbn. eexists _, _, _. split; [reflexivity|]. split; [reflexivity|]. exact I. }
    destruct CK as [Ok1 (rc1 & -> & R1)]. cbn [bind Z.ltb Z.compare].
    pose proof (check_ok rc1 v Wv Lv) as CV.
    destruct (null_reference v).
    { rewrite CV by (intro h; rewrite R1; specialize (GE h); pose proof (own_nonneg k h); lia). cbn [bind].
      change (ERR_INVALID_OBJECT <? 0) with true. cbv iota.
      destruct (release_ok rc1 k Ok1) as (rc2 & -> & R2).
      { intros h O. rewrite R1, (own_self _ _ O). specialize (GE h). pose proof (proj2 (proj2 Ok1 h O)). lia. }
      cbn [bind]. eexists _, _, _. split; [reflexivity|]. split; [reflexivity|].
      split; [exact F|]. split; [exact R|]. intro h. cbn [m_rc m_pairs]. rewrite R2, R1, C. lia. }
    destruct CV as [Ok2 (rc2 & -> & R2)].
    { intro h; rewrite R1; specialize (GE h); pose proof (own_nonneg k h); lia. }
    cbn [bind Z.ltb Z.compare].
    assert (G2 : forall h, rc0 h + refs h (flat (m_pairs st)) <= rc2 h).
    { intro h. rewrite R2, R1, C. pose proof (own_nonneg k h). pose proof (own_nonneg v h). lia. }
    assert (Oe : oke (set_string k, set_string v)) by (split; now apply okd_set_string).
    destruct (hash_find jen (m_pairs st) k) as [e|] eqn:E.
    - destruct (remove_ok (m_pairs st) rc2 k e Wk F E G2) as (a & b & rc3 & Q & -> & K & R3). cbn [bind].
      eexists _, _, _. split; [reflexivity|]. split; [reflexivity|].
      rewrite Q in F. apply Forall_app in F. destruct F as [Fa F]. inversion F; subst.
      unfold inv; cbn [m_pairs m_rc]. split; [|split].
      + apply Forall_app; split; [apply Forall_app; now split | constructor; [exact Oe | constructor]].
      + apply (repr_ext _ (dset (drem D (d_val k)) (d_val k) (d_val v))).
        { intro x. unfold dset, drem. destruct (value_eq_dec x (d_val k)); reflexivity. }
        rewrite Q in R. apply repr_remove in R. rewrite K in R.
        apply repr_add_eq; auto.
        unfold drem. destruct (value_eq_dec (d_val k) (d_val k)); congruence.
      + intro h. rewrite R3, R2, R1, C, Q. rewrite !flat_app. change (e :: b) with ([e] ++ b).
        rewrite flat_app, !refs_app, !refs_pair. cbn [fst snd]. rewrite !own_set_string. lia.
    - cbn [bind m_pairs m_rc]. eexists _, _, _. split; [reflexivity|]. split; [reflexivity|].
      unfold inv; cbn [m_pairs m_rc]. split; [|split].
      + apply Forall_app; split; [assumption | constructor; [exact Oe | constructor]].
      + apply repr_add_eq; auto.
      + intro h. rewrite R2, R1, C. rewrite !flat_app, !refs_app, !refs_pair. cbn [fst snd]. rewrite !own_set_string. lia.
  Qed.

  Lemma del_ok st D k : inv st D -> good_op rc0 (MDel k) ->
    exists c st' D', map_del jen st k = Ok (c, st') /\ dict_step D (MDel k) = (c, D') /\ inv st' D'.
  Proof.
    intros I G. pose proof I as (F & R & C). inversion G as [|? ? [Wk Lk] _]; subst.
    pose proof (repr_find (m_pairs st) D k Wk F R) as FD. unfold map_del, dict_step.
    destruct (hash_find jen (m_pairs st) k) as [e|] eqn:E.
    - destruct (remove_ok (m_pairs st) (m_rc st) k e Wk F E) as (a & b & rc3 & Q & M & K & R3).
      { intro h. rewrite C. lia. }
      destruct st as [l rc]; cbn [m_pairs m_rc] in *. rewrite M, FD. cbn [bind].
      eexists _, _, _. split; [reflexivity|]. split; [reflexivity|].
      rewrite Q in F. apply Forall_app in F. destruct F as [Fa F]. inversion F; subst.
      unfold inv; cbn [m_pairs m_rc]. split; [|split].
      + apply Forall_app; now split.
      + rewrite <- K. now apply repr_remove.
      + intro h. rewrite R3, C. rewrite !flat_app. change (e :: b) with ([e] ++ b).
        rewrite flat_app, !refs_app, !refs_pair. lia.
    - rewrite FD. eexists _, _, _. split; [reflexivity|]. split; [reflexivity | exact I].
  Qed.

  Lemma clear_entries_ok l : forall rc, Forall oke l -> (forall h, rc0 h + refs h (flat l) <= rc h) ->
    exists rc', clear_entries rc l = Ok rc' /\ forall h, rc' h = rc h - refs h (flat l).
  Proof.
    induction l as [|e l IH]; intros rc F R; cbn [clear_entries].
    - eexists; split; [reflexivity|]. intro; cbn. lia.
    - inversion F as [|? ? [O1 O2] F']; subst. change (e :: l) with ([e] ++ l) in *.
      assert (T : forall h, refs h (flat ([e] ++ l)) = own (fst e) h + own (snd e) h + refs h (flat l)).
      { intro h. rewrite flat_app, refs_app, refs_pair. lia. }
      assert (B : forall h, 0 <= refs h (flat l) /\ 0 <= own (fst e) h /\ 0 <= own (snd e) h).
      { intro; split; [apply refs_nonneg|]. split; apply own_nonneg. }
      destruct (release_ok rc (fst e) O1) as (rc1 & -> & R1).
      { intros h Oh. pose proof (proj2 (proj2 O1 h Oh)). specialize (R h). rewrite T in R. specialize (B h). lia. }
      cbn [bind].
      destruct (release_ok rc1 (snd e) O2) as (rc2 & -> & R2).
      { intros h Oh. pose proof (proj2 (proj2 O2 h Oh)). specialize (R h). rewrite T in R. specialize (B h). rewrite R1. lia. }
      cbn [bind]. destruct (IH rc2 F') as (rc3 & -> & R3).
      { intro h. rewrite R2, R1. specialize (R h). rewrite T in R. lia. }
      eexists; split; [reflexivity|]. intro h. rewrite R3, R2, R1, T. lia.
  Qed.
  Lemma clear_ok st D : inv st D ->
    exists c st' D', map_clear st = Ok (c, st') /\ dict_step D MClear = (c, D') /\ inv st' D'.
  Proof.
    intros (F & R & C). unfold map_clear.
    destruct (clear_entries_ok (m_pairs st) (m_rc st) F) as (rc' & -> & R').
    { intro h. rewrite C. lia. }
    cbn [bind]. eexists _, _, _. split; [reflexivity|]. split; [reflexivity|].
    split; [constructor|]. split; [apply repr_empty|]. intro h; cbn. rewrite R', C. lia.
  Qed.
  Lemma step_ok st D o : inv st D -> good_op rc0 o ->
    exists c st' D', map_step jen st o = Ok (c, st') /\ dict_step D o = (c, D') /\ inv st' D'.
  Proof. destruct o; intros; [now apply set_ok | now apply del_ok | now apply clear_ok]. Qed.
  Lemma run_ok ops : forall st D, inv st D -> Forall (good_op rc0) ops ->
    exists cs st' D', map_run jen st ops = Ok (cs, st') /\ dict_run D ops = (cs, D') /\ inv st' D'.
  Proof.
    induction ops as [|o ops IH]; intros st D I G; cbn [map_run dict_run].
    - eexists _, _, _; split; [reflexivity|]. split; [reflexivity | exact I].
    - inversion G as [|? ? Go G']; subst.
      destruct (step_ok st D o I Go) as (c & st1 & D1 & -> & -> & I1). cbn [bind].
      destruct (IH st1 D1 I1 G') as (cs & st2 & D2 & -> & -> & I2).
      eexists _, _, _; split; [reflexivity|]. split; [reflexivity | exact I2].
  Qed.
  Lemma inv_create : inv (map_create rc0) dempty.
  Proof. split; [constructor|]. split; [apply repr_empty|]. intro h; cbn. lia. Qed.

  Lemma padded_fill l n : lenZ l <= n -> padded l n (fill l n).
  Proof.
    intro H. unfold fill, padded. split.
    - rewrite lenZ_app. unfold lenZ at 2. rewrite repeat_length. pose proof (lenZ_nonneg l). lia.
    - intro i. unfold lenZ in *. destruct (Z.ltb_spec (Z.of_nat i) (Z.of_nat (length l))).
      + rewrite nth_error_app1 by lia. reflexivity.
      + rewrite nth_error_app2 by lia. destruct (Z.ltb_spec (Z.of_nat i) n).
        * rewrite (nth_error_nth' _ ccs_none) by (rewrite repeat_length; lia). now rewrite nth_repeat.
        * apply nth_error_None. rewrite repeat_length. lia.
  Qed.

  Lemma history ops : Forall (good_op rc0) ops ->
    exists cs st D pairs, map_run jen (map_create rc0) ops = Ok (cs, st) /\ dict_run dempty ops = (cs, D) /\
      (forall k, wf_datum k -> map_exist jen st k = match D (d_val k) with Some _ => true | None => false end) /\
      (forall k, wf_datum k -> d_val (map_get jen st k) = match D (d_val k) with Some v => v | None => VNone end) /\
      NoDup (map (fun e => d_val (fst e)) pairs) /\
      (forall k v, D k = Some v <-> In (k, v) (map (fun e => (d_val (fst e), d_val (snd e))) pairs)) /\
      (forall n, lenZ pairs <= n -> exists ks vs, map_get_pairs st (Some n) = Ok (Some (ks, vs), lenZ pairs) /\
          padded (map fst pairs) n ks /\ padded (map snd pairs) n vs /\
          map_get_values st (Some n) = Ok (Some vs, lenZ pairs)) /\
      (forall n, n < lenZ pairs -> map_get_pairs st (Some n) = Err ERR_INVALID_VALUE /\
                                   map_get_values st (Some n) = Err ERR_INVALID_VALUE) /\
      map_get_pairs st None = Ok (None, lenZ pairs) /\ map_get_values st None = Ok (None, lenZ pairs) /\
      (forall h, m_rc st h = rc0 h + refs h (map fst pairs ++ map snd pairs)).
  Proof.
    intro G. destruct (run_ok ops _ _ inv_create G) as (cs & st & D & E1 & E2 & (F & R & C)).
    exists cs, st, D, (m_pairs st). split; [exact E1|]. split; [exact E2|].
    split; [|split; [|split; [|split; [|split; [|split; [|split; [|split]]]]]]].
    - intros k Wk. unfold map_exist. pose proof (repr_find (m_pairs st) D k Wk F R) as FD.
      destruct (hash_find jen (m_pairs st) k); now rewrite FD.
    - intros k Wk. unfold map_get. pose proof (repr_find (m_pairs st) D k Wk F R) as FD.
      destruct (hash_find jen (m_pairs st) k); now rewrite FD.
    - destruct R as [ND _]. rewrite map_map in ND. exact ND.
    - intros k v. destruct R as [_ R]. apply R.
    - intros n Hn. exists (fill (map fst (m_pairs st)) n), (fill (map snd (m_pairs st)) n).
      unfold map_get_pairs, map_get_values, map_list. replace (n <? lenZ (m_pairs st)) with false by lia.
      repeat split; try (apply padded_fill; now rewrite lenZ_map).
    - intros n Hn. unfold map_get_pairs, map_get_values, map_list. replace (n <? lenZ (m_pairs st)) with true by lia. now split.
    - reflexivity.
    - reflexivity.
    - intro h. rewrite C. f_equal. rewrite refs_app. clear - rc0 st h. induction (m_pairs st) as [|e l IH]; [reflexivity|].
      change (e :: l) with ([e] ++ l). rewrite flat_app, refs_app, refs_pair, IH. cbn [app map]. rewrite !refs_cons. lia.
  Qed.

  Lemma references ops : Forall (good_op rc0) ops ->
    exists cs st pairs, map_run jen (map_create rc0) ops = Ok (cs, st) /\
      (exists vs, map_get_pairs st (Some (lenZ pairs)) = Ok (Some vs, lenZ pairs) /\ vs = (map fst pairs, map snd pairs)) /\
      (forall h, m_rc st h = rc0 h + refs h (map fst pairs ++ map snd pairs)) /\
      exists st', map_clear st = Ok (0, st') /\ forall h, m_rc st' h = rc0 h.
  Proof.
    intro G. destruct (run_ok ops _ _ inv_create G) as (cs & st & D & E1 & E2 & I). pose proof I as (F & R & C).
    exists cs, st, (m_pairs st). split; [exact E1|]. split; [|split].
    - eexists. unfold map_get_pairs, map_list, fill. rewrite Z.ltb_irrefl, !lenZ_map, Z.sub_diag. cbn [Z.to_nat repeat].
      rewrite !app_nil_r. split; reflexivity.
    - intro h. rewrite C. f_equal. rewrite refs_app. clear - rc0 st h. induction (m_pairs st) as [|e l IH]; [reflexivity|].
      change (e :: l) with ([e] ++ l). rewrite flat_app, refs_app, refs_pair, IH. cbn [app map]. rewrite !refs_cons. lia.
    - destruct (clear_ok _ _ I) as (c & st' & D' & M & S & I'). cbn in S. injection S as <- <-.
      exists st'. split; [exact M|]. intro h. destruct I' as (_ & R' & C'). rewrite C'. destruct (m_pairs st') as [|e l] eqn:Q; [cbn; lia|].
      exfalso. destruct R' as [_ R']. assert (X : dempty (fst (vp e)) = Some (snd (vp e))); [apply R'; left; now destruct (vp e)|discriminate X].
  Qed.
End P.
