(** Giving parameters another distribution. *)
From Coq Require Import ZArith List Bool Lia.
From Verif Require Import Base LifeModel LifeSpec LifeProofs LifeOps LifeCalls LifeCalls2 LifeCalls3 LifeCalls4 LifeCalls5.
Import ListNotations.
Open Scope Z_scope.

(** ** Wrappers *)

Notation wrapper := (handle * list nat)%type.
Definition partition (ds : list wrapper) : Prop :=
  NoDup (flat_map snd ds) /\ forall w, In w ds -> snd w <> [].

Lemma memb_in : forall i l, existsb (Nat.eqb i) l = true <-> In i l.
Proof.
  intros i l. rewrite existsb_exists. split.
  - intros (j & I & E). apply Nat.eqb_eq in E. now subst.
  - intros I. exists i. split; auto. apply Nat.eqb_refl.
Qed.
Lemma memb_out : forall i l, existsb (Nat.eqb i) l = false <-> ~ In i l.
Proof. intros i l. rewrite <- memb_in. destruct (existsb _ l); split; congruence. Qed.

Lemma distinct_nodup : forall l, distinct l = true -> NoDup l.
Proof.
  induction l as [|i l IH]; cbn; intros H; constructor; apply andb_true_iff in H as [H1 H2]; auto.
  apply negb_true_iff in H1. now apply memb_out.
Qed.

Lemma nodup_app : forall A (l l' : list A), NoDup l -> NoDup l' -> (forall x, In x l -> ~ In x l') -> NoDup (l ++ l').
Proof.
  induction l as [|a l IH]; cbn; intros l' N N' D; auto. inversion N; subst. constructor.
  - rewrite in_app_iff. intros [I|I]; [auto|exact (D a (or_introl eq_refl) I)].
  - apply IH; auto.
Qed.
Lemma nodup_app_l : forall A (l l' : list A), NoDup (l ++ l') -> NoDup l.
Proof. induction l as [|a l IH]; cbn; intros l' N; constructor; inversion N; subst; eauto. intros I; apply H1, in_or_app; auto. Qed.
Lemma nodup_app_r : forall A (l l' : list A), NoDup (l ++ l') -> NoDup l'.
Proof. induction l as [|a l IH]; cbn; intros l' N; auto. inversion N; eauto. Qed.
Lemma nodup_app_d : forall A (l l' : list A) x, NoDup (l ++ l') -> In x l -> ~ In x l'.
Proof.
  induction l as [|a l IH]; cbn; intros l' x N I J; [easy|]. inversion N; subst.
  destruct I as [->|I]; [apply H1, in_or_app; auto|eapply IH; eauto].
Qed.

Lemma wrapper_unique : forall (ds : list wrapper) w v i, NoDup (flat_map snd ds) -> In w ds -> In v ds ->
  In i (snd w) -> In i (snd v) -> w = v.
Proof.
  induction ds as [|u ds IH]; cbn; intros w v i N Iw Iv Jw Jv; [easy|].
  assert (K : forall z, In z ds -> In i (snd z) -> In i (flat_map snd ds)) by (intros; apply in_flat_map; eauto).
  destruct Iw as [->|Iw], Iv as [->|Iv]; auto.
  - exfalso. eapply nodup_app_d; eauto.
  - exfalso. eapply nodup_app_d; eauto.
  - eapply IH; eauto. eapply nodup_app_r; eauto.
Qed.

Lemma same_wrapper_eq : forall w v, same_wrapper w v = true <-> snd w = snd v.
Proof. intros. unfold same_wrapper. destruct (list_eq_dec _ _ _); split; congruence. Qed.
Lemma same_wrapper_sym : forall w v, same_wrapper w v = same_wrapper v w.
Proof. intros. unfold same_wrapper. destruct (list_eq_dec _ _ _), (list_eq_dec _ _ _); congruence. Qed.

Lemma same_in : forall ds w v, partition ds -> In w ds -> In v ds -> snd w = snd v -> w = v.
Proof.
  intros ds w v (N & E) Iw Iv H. destruct (snd w) as [|i l] eqn:S; [exfalso; eapply E; eauto|].
  eapply (wrapper_unique ds w v i); eauto; [rewrite S|rewrite <- H]; now left.
Qed.

Lemma partition_nodup : forall ds, partition ds -> NoDup ds.
Proof.
  induction ds as [|w ds IH]; intros (N & E); constructor.
  - intros I. destruct (snd w) as [|i l] eqn:S; [eapply (E w); [now left|auto]|].
    cbn in N. eapply (nodup_app_d _ _ _ i N); [rewrite S; now left|].
    apply in_flat_map. exists w. split; auto. rewrite S. now left.
  - apply IH. split; [eapply nodup_app_r; eauto|]. intros v I. apply E. now right.
Qed.

Lemma partition_sub : forall ds l, partition ds -> NoDup l -> incl l ds -> partition l.
Proof.
  intros ds l P N I. split; [|intros w J; apply P; auto].
  induction l as [|w l IH]; cbn; [constructor|]. inversion N; subst. apply nodup_app.
  - pose proof (I w (or_introl eq_refl)) as J. destruct P as (P & _). apply in_split in J as (a & b & ->).
    rewrite flat_map_app in P. cbn in P. apply nodup_app_r in P. now apply nodup_app_l in P.
  - apply IH; auto. intros v J. apply I. now right.
  - intros i J K. apply in_flat_map in K as (v & V & K).
    assert (w = v).
    { eapply (wrapper_unique ds w v i); [apply P|apply I; now left|apply I; now right|auto|auto]. }
    subst. contradiction.
Qed.

Lemma filter_split : forall ds w, partition ds -> In w ds ->
  exists l1 l2, ds = l1 ++ w :: l2 /\ filter (fun v => negb (same_wrapper w v)) ds = l1 ++ l2.
Proof.
  intros ds w P I. pose proof (partition_nodup ds P) as N. apply in_split in I as (l1 & l2 & ->). exists l1, l2. split; auto.
  assert (Iw : In w (l1 ++ w :: l2)) by (apply in_or_app; right; now left).
  assert (K : forall l, incl l (l1 ++ w :: l2) -> ~ In w l -> filter (fun v => negb (same_wrapper w v)) l = l).
  { induction l as [|v l IH]; cbn; intros J Nw; auto.
    destruct (same_wrapper w v) eqn:S; cbn.
    - exfalso. apply Nw. left. symmetry. eapply same_in; eauto; [apply J; now left|now apply same_wrapper_eq].
    - f_equal. apply IH; [intros z Z; apply J; now right|tauto]. }
  rewrite filter_app. cbn [filter]. replace (same_wrapper w w) with true by (symmetry; now apply same_wrapper_eq).
  cbn [negb]. pose proof (NoDup_remove_2 _ _ _ N) as Nw. rewrite in_app_iff in Nw. rewrite !K; auto.
  - intros z Z. apply in_or_app. right. now right.
  - intros z Z. apply in_or_app. now left.
Qed.

(** Those that are not in [del]. *)
Definition rest (del ds : list wrapper) : list wrapper :=
  filter (fun w => negb (existsb (same_wrapper w) del)) ds.
Lemma rest_nil : forall ds, rest [] ds = ds.
Proof. induction ds as [|w ds IH]; cbn; auto. now f_equal. Qed.
Lemma rest_cons : forall w del ds,
  rest del (filter (fun v => negb (same_wrapper w v)) ds) = rest (w :: del) ds.
Proof.
  intros w del. induction ds as [|v ds IH]; cbn; auto.
  rewrite (same_wrapper_sym v w). destruct (same_wrapper w v); cbn; auto.
  destruct (existsb (same_wrapper v) del); cbn; [auto|now f_equal].
Qed.
Lemma existsb_same : forall ds del w, partition ds -> incl del ds -> In w ds ->
  (existsb (same_wrapper w) del = true <-> In w del).
Proof.
  intros ds del w P I J. rewrite existsb_exists. split.
  - intros (v & K & S). apply same_wrapper_eq in S. assert (w = v) by (eapply same_in; eauto). now subst.
  - intros K. exists w. split; auto. now apply same_wrapper_eq.
Qed.

Lemma wrapper_of_some : forall (ds : list wrapper) i, In i (flat_map snd ds) ->
  exists w, wrapper_of ds i = Some w /\ In w ds /\ In i (snd w).
Proof.
  intros ds i I. unfold wrapper_of. destruct (find _ ds) as [w|] eqn:F.
  - apply find_some in F as (J & E). exists w. split; auto. split; auto. now apply memb_in.
  - apply in_flat_map in I as (w & J & K). pose proof (find_none _ _ F w J) as E. cbv beta in E.
    apply memb_out in E. contradiction.
Qed.

Lemma to_delete_ok : forall ds idx acc, partition ds -> (forall i, In i idx -> In i (flat_map snd ds)) ->
  incl acc ds -> NoDup acc ->
  exists del, to_delete ds idx acc = Some del /\ incl del ds /\ NoDup del /\
    forall w, In w ds -> (In w del <-> In w acc \/ exists i, In i idx /\ In i (snd w)).
Proof.
  intros ds idx. induction idx as [|i idx IH]; intros acc P Hi Ia Na; cbn [to_delete].
  - exists acc. split; auto. split; auto. split; auto. intros w Iw. split; [auto|]. intros [I|(i & [] & _)]; auto.
  - destruct (wrapper_of_some ds i) as (w & E & Iw & Jw); [apply Hi; now left|]. rewrite E.
    assert (Hi' : forall j, In j idx -> In j (flat_map snd ds)) by (intros; apply Hi; now right).
    pose proof (existsb_same ds acc w P Ia Iw) as S.
    destruct (existsb (same_wrapper w) acc) eqn:X.
    + destruct (IH acc P Hi' Ia Na) as (del & T & I & N & H). exists del. split; auto. split; auto. split; auto.
      intros v Iv. rewrite (H v Iv). split.
      * intros [A|(j & J & K)]; [auto|right; exists j; split; [now right|auto]].
      * intros [A|(j & [<-|J] & K)]; [auto| |right; eauto].
        left. assert (v = w) by (eapply (wrapper_unique ds v w i); eauto; apply P). subst. now apply S.
    + assert (~ In w acc) as Nw by (intros A; apply S in A; discriminate).
      destruct (IH (acc ++ [w]) P Hi') as (del & T & I & N & H).
      * intros v Iv. apply in_app_or in Iv as [Iv|[<-|[]]]; auto.
      * apply nodup_app; auto; [constructor; [easy|constructor]|]. intros v Iv [<-|[]]. contradiction.
      * exists del. split; auto. split; auto. split; auto. intros v Iv. rewrite (H v Iv), in_app_iff. split.
        -- intros [[A|[<-|[]]]|(j & J & K)]; [auto|right; exists i; split; [now left|auto]|right; exists j; split; [now right|auto]].
        -- intros [A|(j & [<-|J] & K)]; [auto| |right; eauto].
           left. right. left. eapply (wrapper_unique ds w v i); eauto; apply P.
Qed.

(** ** The call *)

Lemma sum_cons : forall A (f : A -> Z) a l, sum f (a :: l) = f a + sum f l.
Proof. reflexivity. Qed.

Section Calls.
Variables (s0 : st) (e0 : handle -> Z).
Hypothesis O0 : ok s0 e0.
Let A0 : at_ s0 e0 s0 := at_refl s0 e0 O0.

Notation changed_ := (changed_ s0 e0).
Notation own := (own e0).
Notation own_valid := (own_valid s0 e0 O0).
Notation wants_live := (wants_live s0 e0 O0).
Notation covered_live := (covered_live s0 e0 O0).
Notation space_shape := (space_shape s0 e0 O0).

Lemma wp_default_wrappers : forall idx added e s (Q : list wrapper -> st -> Prop) (F : Z -> st -> Prop),
  at_ s0 e s -> s_mem s = [] ->
  (forall more s', at_ s0 (fun x => e x + times x (map fst more)) s' ->
     map snd more = map (fun i => [i]) idx -> NoDup (map fst more) ->
     (forall k, In k (map fst more) -> (size s <= k)%nat /\ look s' k = Some (mkObj T_DISTRIBUTION 1 [] PPlain)) ->
     (forall x, (x < size s)%nat -> look s' x = look s x) -> Q more s') ->
  wp (default_wrappers added idx) s Q F.
Proof.
  induction idx as [|i idx IH]; intros ad e s Q F A M H; cbn [default_wrappers].
  - apply wp_ret. apply H; auto; [|constructor|easy]. eapply at_ext; [|exact A]. intros. cbn [map]. rewrite times_nil. lia.
  - apply wp_bind. eapply wp_alloc_look; [exact A| |].
    2:{ intros s1 _ _ Mm. unfold memory in Mm. rewrite M in Mm. discriminate. }
    intros s1 A1 E1 _ M1. specialize (M1 M). apply wp_bind. apply wp_orelse.
    eapply wp_plain_at; [exact A1|cbn; auto| |].
    2:{ intros s2 _ Mm. unfold memory in Mm. rewrite M1 in Mm. discriminate. }
    intros s2 d A2 Ge Ed L2 Ld M2. specialize (M2 M1). apply wp_bind.
    assert (Sz : size s1 = size s) by (now apply size_objs).
    assert (Lt : (d < size s2)%nat) by (eapply look_lt; eauto).
    assert (Sz2 : (size s < size s2)%nat) by lia.
    eapply IH; [exact A2|exact M2|]. intros more s3 A3 E3 N3 K3 L3. apply wp_ret. apply H.
    + eapply at_ext; [|exact A3]. intros x. cbn [map fst]. rewrite times_cons. unfold plus. lia.
    + cbn. now f_equal.
    + cbn [map fst]. constructor; auto. intros I. apply K3 in I as (I & _). lia.
    + cbn [map fst]. intros k [<-|I].
      * split; [lia|]. rewrite L3 by auto. exact Ld.
      * destruct (K3 k I) as (G & Lk). split; auto. lia.
    + intros x Lx. rewrite L3 by lia. rewrite L2 by lia. now apply look_objs.
Qed.

(** Dropping a reference leaves what remains as it was. *)
Lemma wp_drop_ev_look : forall (X : exempt) c e s h (Q : unit -> st -> Prop) (F : Z -> st -> Prop),
  ev_ (Ex := X) s0 c e s -> 0 < e h -> (forall x p, c = Some (x, p) -> 0 < minus e h x) ->
  (forall s', ev_ (Ex := X) s0 c (minus e h) s' ->
     (forall x o, live s x o -> 0 < minus e h x -> exists r, 0 < r /\ look s' x = Some (with_ref o r)) -> Q tt s') ->
  wp (drop h) s Q F.
Proof.
  intros X c e s h Q F V P T HQ. apply wp_ignore.
  destruct (release_ok (Ex := X) s e h (proj1 V) P) as (s' & ev & R & Ef & O').
  assert (ev_ (Ex := X) s0 c (minus e h) s') as V' by (eapply effect_ev; eauto).
  assert (K : forall x o, live s x o -> 0 < minus e h x -> exists r, 0 < r /\ look s' x = Some (with_ref o r)).
  { intros x o L Px. destruct (ef_live _ _ _ _ Ef x o L) as [((r & Pr & S) & _)|(_ & _ & D)].
    - exists r. split; [lia|]. exact S.
    - inversion D. lia. }
  unfold wp. destruct R as [->|(k & o & -> & _)]; auto.
Qed.

Section Space.
Variables (cs : handle) (o : obj).
Hypothesis L : live s0 cs o.
Hypothesis T : o_type o = T_CONFIGURATION_SPACE.
Hypothesis Mine : 0 < e0 cs.
Let X : exempt := fun y => Nat.eqb y cs.

Definition plain_ones (news : list handle) (s : st) : Prop :=
  forall k, In k news -> exists r, 0 < r /\ look s k = Some (mkObj T_DISTRIBUTION r [] PPlain).

Lemma wp_get_space : forall s p e (Q : payload -> st -> Prop) (F : Z -> st -> Prop),
  ev_ (Ex := X) s0 (Some (cs, p)) e s -> 0 < e cs -> Q p s -> wp (get_data cs) s Q F.
Proof.
  intros s p e Q F V P H. assert (alive s cs) as Al by (eapply (ok_alive (Ex := X)); [apply V|auto]).
  destruct (ev_target (Ex := X) _ _ _ _ _ _ V L Al) as (r & _ & R). cbn [contents] in R.
  destruct (Nat.eq_dec cs cs) as [_|]; [|easy]. eapply wp_get_data; [exact R|]. exact H.
Qed.

Lemma wants_now : forall s p e, ev_ (Ex := X) s0 (Some (cs, p)) e s -> 0 < e cs ->
  forall x t, In (x, t) (wants T_CONFIGURATION_SPACE p) -> exists ox, live s x ox /\ o_type ox = t.
Proof.
  intros s p e V P. assert (alive s cs) as Al by (eapply (ok_alive (Ex := X)); [apply V|auto]).
  destruct (ev_target (Ex := X) _ _ _ _ _ _ V L Al) as (r & Pr & R). cbn [contents] in R.
  destruct (Nat.eq_dec cs cs) as [_|]; [|easy].
  destruct (proj2 (proj1 V) cs _ (conj R Pr : live s cs _)) as (_ & _ & W). cbn [o_type o_data] in W. rewrite T in W. exact W.
Qed.

Lemma wp_delete_wrappers : forall ps cl rg news del ds e s (Q : unit -> st -> Prop) (F : Z -> st -> Prop),
  ev_ (Ex := X) s0 (Some (cs, PSpace ps cl ds rg)) e s -> (forall y, e0 y <= e y) ->
  (forall k, In k news -> 0 < e k) -> plain_ones news s -> ~ In cs news ->
  partition ds -> incl del ds -> NoDup del ->
  (forall s', ev_ (Ex := X) s0 (Some (cs, PSpace ps cl (rest del ds) rg)) e s' -> plain_ones news s' -> Q tt s') ->
  wp (delete_wrappers cs del) s Q F.
Proof.
  intros ps cl rg news. induction del as [|w del IH]; intros ds e s Q F V E Pn Nw Nc P I N H; cbn [delete_wrappers].
  - apply wp_ret. apply H; auto. now rewrite rest_nil.
  - inversion N; subst. pose proof (E cs) as Ec. pose proof (I w (or_introl eq_refl)) as Iw.
    assert (Nn : forall y, 0 <= e y) by (intros; eapply (ok_nonneg (Ex := X)); apply V).
    apply wp_bind. eapply wp_get_space; [exact V|lia|]. cbv beta iota. apply wp_bind.
    destruct (filter_split ds w P Iw) as (l1 & l2 & Ed & Ef). rewrite Ef.
    assert (Step : forall s1, ev_ (Ex := X) s0 (Some (cs, PSpace ps cl (l1 ++ l2) rg)) (plus e (fst w)) s1 ->
      plain_ones news s1 -> wp (drop (fst w) ;;; delete_wrappers cs del) s1 Q F).
    { intros s1 V1 N1. apply wp_bind. eapply (wp_drop_ev_look X); [exact V1| | |].
      - unfold plus. rewrite is_same. specialize (Nn (fst w)). lia.
      - intros x p [= <- _]. unfold minus, plus. lia.
      - intros s2 V2 K2. eapply IH with (ds := l1 ++ l2).
        + eapply (ev_ext (Ex := X)); [|exact V2]. intros. instantiate (1 := e). unfold minus, plus. lia.
        + exact E.
        + exact Pn.
        + intros k Ik. destruct (N1 k Ik) as (r & Pr & R).
          destruct (K2 k _ (conj R Pr)) as (q & Pq & Lq); [specialize (Pn k Ik); unfold minus, plus; lia|].
          exists q. split; auto.
        + exact Nc.
        + rewrite <- Ef. eapply partition_sub; [exact P| |intros z Z; apply filter_In in Z; apply Z].
          apply NoDup_filter. now apply partition_nodup.
        + intros v Iv. pose proof (I v (or_intror Iv)) as J. rewrite Ed in J. apply in_app_or in J as [J|[<-|J]];
            [apply in_or_app; auto|contradiction|apply in_or_app; auto].
        + auto.
        + intros s3 V3 N3. apply H; auto. rewrite <- rest_cons, Ef. exact V3. }
    assert (alive s cs) as Al by (eapply (ok_alive (Ex := X)); [apply V|lia]).
    assert (W1 : wp (set_data cs (PSpace ps cl (l1 ++ l2) rg)) s
               (fun _ s' => ev_ (Ex := X) s0 (Some (cs, PSpace ps cl (l1 ++ l2) rg)) (plus e (fst w)) s') (fun _ _ => False)).
    { eapply (wp_set_ev (Ex := X)) with (e' := plus e (fst w)); [exact V|exact L|exact Al|right; eauto| | |rewrite T; reflexivity| | |auto].
      - intros y. cbn [contents]. destruct (Nat.eq_dec cs cs) as [_|]; [|easy]. cbn [holds]. rewrite Ed, !sum_app, sum_cons. unfold plus. lia.
      - intros y. unfold plus. specialize (Nn y). nonneg. lia.
      - unfold X. rewrite Nat.eqb_refl. discriminate.
      - rewrite T. intros y U J. eapply wants_now; [exact V|lia|]. apply wants_space in J. apply wants_space.
        destruct J as [J|[J|[J|[(-> & J)|J]]]]; auto 8. do 3 right. left. split; auto. rewrite Ed.
        rewrite map_app, in_app_iff in *. cbn. tauto. }
    assert (W2 : wp (set_data cs (PSpace ps cl (l1 ++ l2) rg)) s
               (fun _ s' => plain_ones news s') (fun _ _ => False)).
    { destruct Al as (o1 & Lo & Po). eapply wp_set_data; [exact Lo|]. intros k Ik. destruct (Nw k Ik) as (r & Pr & R).
      exists r. split; auto. rewrite look_put by (eapply look_lt; eauto).
      destruct (Nat.eq_dec k cs) as [->|]; [contradiction|auto]. }
    eapply wp_conseq; [apply (wp_and _ _ _ _ _ _ _ W1 W2)| |intros c s' [[] _]].
    intros [] s' (V' & N'). now apply Step.
Qed.
End Space.

(** Which wrappers stay, and the parameters left without one. *)
Definition untouched (idx : list nat) (ds : list wrapper) : list wrapper :=
  filter (fun w => forallb (fun i => negb (existsb (Nat.eqb i) idx)) (snd w)) ds.

Lemma rest_untouched : forall ds idx del, partition ds -> incl del ds ->
  (forall w, In w ds -> (In w del <-> exists i, In i idx /\ In i (snd w))) ->
  rest del ds = untouched idx ds.
Proof.
  intros ds idx del P I H. unfold rest, untouched. apply filter_ext_in. intros w Iw.
  pose proof (existsb_same ds del w P I Iw) as S. specialize (H w Iw).
  destruct (forallb _ (snd w)) eqn:F.
  - rewrite forallb_forall in F. apply negb_true_iff. destruct (existsb _ del); auto.
    destruct (proj1 H (proj1 S eq_refl)) as (i & A & B). specialize (F i B). apply negb_true_iff, memb_out in F. contradiction.
  - apply negb_false_iff. apply S, H. 
    assert (exists i, In i (snd w) /\ existsb (Nat.eqb i) idx = true) as (i & A & B).
    { clear -F. induction (snd w) as [|j l IH]; cbn in F; [discriminate|].
      destruct (existsb (Nat.eqb j) idx) eqn:E; [exists j; split; [now left|auto]|].
      destruct (IH F) as (i & A & B). exists i. split; [now right|auto]. }
    exists i. split; auto. now apply memb_in.
Qed.

Lemma flat_more : forall (more : list wrapper) l, map snd more = map (fun i => [i]) l -> flat_map snd more = l.
Proof.
  induction more as [|w more IH]; intros [|i l] E; cbn in *; try discriminate; auto.
  injection E as E1 E2. rewrite E1, (IH l E2). reflexivity.
Qed.

Lemma new_covered : forall ps cl ds rg rg' cl' idx del dh more, covered (PSpace ps cl ds rg) ->
  (forall i, In i idx -> (i < length ps)%nat) -> NoDup idx -> idx <> [] ->
  incl del ds -> NoDup del ->
  (forall w, In w ds -> (In w del <-> exists i, In i idx /\ In i (snd w))) ->
  map snd more = map (fun i => [i]) (filter (fun i => negb (existsb (Nat.eqb i) idx)) (flat_map snd del)) ->
  covered (PSpace ps cl' (rest del ds ++ (dh, idx) :: more) rg').
Proof.
  intros ps cl ds rg rg' cl' idx del dh more (All & Nd & Ne) Bi Ni Ei Id Ndel Hd Em.
  assert (P : partition ds) by (split; auto). pose proof (flat_more _ _ Em) as Fm. 
  assert (Pd : partition del) by (eapply partition_sub; eauto).
  assert (Pr : partition (rest del ds)).
  { eapply partition_sub; [exact P|apply NoDup_filter; now apply partition_nodup|]. intros z Z. apply filter_In in Z. apply Z. }
  assert (Hr : forall i, In i (flat_map snd (rest del ds)) <-> exists w, In w ds /\ ~ In w del /\ In i (snd w)).
  { intros i. rewrite in_flat_map. split.
    - intros (w & J & K). apply filter_In in J as (J & E). exists w. split; auto. split; auto.
      intros D. apply (existsb_same ds del w P Id J) in D. rewrite D in E. discriminate.
    - intros (w & J & D & K). exists w. split; auto. apply filter_In. split; auto. apply negb_true_iff.
      destruct (existsb _ del) eqn:E; auto. apply (existsb_same ds del w P Id J) in E. contradiction. }
  assert (Hm : forall i, In i (flat_map snd more) <-> ~ In i idx /\ exists w, In w del /\ In i (snd w)).
  { intros i. rewrite Fm, filter_In, in_flat_map, negb_true_iff, memb_out. tauto. }
  split; [|split].
  - intros i. rewrite All, flat_map_app, in_app_iff, Hr. cbn [flat_map snd]. rewrite in_app_iff, Hm, in_flat_map. split.
    + intros (w & Iw & Ii). destruct (in_dec Nat.eq_dec i idx) as [J|J]; [auto|].
      destruct (existsb (same_wrapper w) del) eqn:X.
      * apply (existsb_same ds del w P Id Iw) in X. eauto 8.
      * left. exists w. split; auto. split; auto. intros D. apply (existsb_same ds del w P Id Iw) in D. congruence.
    + intros [(w & Iw & _ & Ii)|[J|(_ & w & Iw & Ii)]]; [eauto| |eauto].
      apply in_flat_map. apply All. auto.
  - rewrite flat_map_app. cbn [flat_map snd]. apply nodup_app; [apply Pr| |].
    + apply nodup_app; auto.
      * rewrite Fm. apply NoDup_filter. apply Pd.
      * intros i J K. apply Hm in K. tauto.
    + intros i J K. apply Hr in J as (w & Iw & D & Ii). apply in_app_or in K as [K|K].
      * apply D, Hd; eauto.
      * apply Hm in K as (_ & v & Iv & Jv). assert (w = v) by (eapply (wrapper_unique ds w v i); eauto). subst. contradiction.
  - intros w J. apply in_app_or in J as [J|[<-|J]]; [apply Pr; auto|cbn; auto|].
    apply (in_map snd) in J. rewrite Em in J. apply in_map_iff in J as (i & <- & _). discriminate.
Qed.

Lemma set_distribution_ok : forall x d idx, own x -> valid s0 d -> idx <> [] -> s_mem s0 = [] ->
  wp (set_distribution x d idx) s0
     (fun _ s1 => exists h dh o ps cl ds rg more, x = Some h /\ d = Some dh /\ live s0 h o /\
        o_data o = PSpace ps cl ds rg /\ NoDup idx /\ (forall i, In i idx -> (i < length ps)%nat) /\
        (forall w, In w more -> (size s0 <= fst w)%nat /\
           exists r, 0 < r /\ look s1 (fst w) = Some (mkObj T_DISTRIBUTION r [] PPlain)) /\
        NoDup (map fst more) /\ (forall w, In w more -> exists i, snd w = [i]) /\
        (forall i, In [i] (map snd more) <->
           ~ In i idx /\ exists w j, In w ds /\ In j idx /\ In j (snd w) /\ In i (snd w)) /\
        NoDup (map snd more) /\
        changed_ h (PSpace ps cl (untouched idx ds ++ (dh, idx) :: more) rg) s1)
     (failed_ s0 e0).
Proof.
  intros x d idx Ow V Ne M. pose proof (own_valid x Ow) as Vx. pose proof A0 as A. unfold set_distribution.
  check cs o L T. change (0 < e0 cs) in Ow. check dh od Ld Td.
  destruct (space_shape _ _ L T) as (ps & cl & ds & rg & D).
  pose proof (wants_live _ _ L) as W. rewrite D, T in W.
  pose proof (covered_live _ _ L) as Cv. rewrite D in Cv.
  assert (P : partition ds) by (split; apply Cv).
  apply wp_bind. eapply (wp_get_at s0); [exact A|exact L|]. rewrite D.
  apply wp_bind. apply wp_refute; [intros _; failing_|]. intros Hr. apply orb_false_iff in Hr as [H1 H2].
  apply negb_false_iff in H1, H2. apply distinct_nodup in H2. rewrite forallb_forall in H1.
  assert (Bi : forall i, In i idx -> (i < length ps)%nat) by (intros i I; apply Nat.ltb_lt; auto).
  apply wp_bind. eapply wp_alloc_look; [exact A| |].
  2:{ intros s1 _ _ Mm. unfold memory in Mm. rewrite M in Mm. discriminate. }
  intros s1 A1 E1 _ M1. specialize (M1 M).
  destruct (to_delete_ok ds idx [] P) as (del & Et & Id & Nd & Hd);
    [intros i I; apply Cv; auto|easy|constructor|]. rewrite Et.
  assert (Hd' : forall w, In w ds -> (In w del <-> exists i, In i idx /\ In i (snd w))).
  { intros w Iw. rewrite (Hd w Iw). split; [intros [[]|H]; auto|auto]. }
  apply wp_bind. eapply wp_alloc_look; [exact A1| |].
  2:{ intros s2 _ _ Mm. unfold memory in Mm. rewrite M1 in Mm. discriminate. }
  intros s2 A2 E2 _ M2. specialize (M2 M1). apply wp_bind.
  assert (wp (retain (Some dh)) s2 (fun _ s3 => at_ s0 (plus e0 dh) s3 /\ s_mem s3 = [] /\ size s3 = size s0) (fun _ _ => False)) as Wr.
  { destruct (at_alive _ _ _ _ A2 (ex_intro _ _ Ld)) as (o2 & L2).
    assert (R1 : wp (retain (Some dh)) s2 (fun _ s3 => at_ s0 (plus e0 dh) s3) (fun _ _ => False)).
    { eapply wp_retain_at; [exact A2|exact L2|auto]. }
    assert (R2 : wp (retain (Some dh)) s2 (fun _ s3 => s_mem s3 = [] /\ size s3 = size s0) (fun _ _ => False)).
    { eapply wp_retain_exact; [exact L2|]. split; [exact M2|]. rewrite size_put. transitivity (size s1); apply size_objs; auto. }
    eapply wp_conseq; [apply (wp_and _ _ _ _ _ _ _ R1 R2)| |intros c s' [[] _]]. intros [] s' (Ra & Rb). auto. }
  eapply wp_conseq; [exact Wr| |intros c s' []]. intros [] s3 (A3 & M3 & Sz3). clear Wr A A1 A2.
  apply wp_bind. eapply wp_default_wrappers; [exact A3|exact M3|].
  intros more s4 A4 Em Nm Km _. set (e4 := fun x => plus e0 dh x + times x (map fst more)) in *.
  assert (E4 : forall y, e0 y <= e4 y) by (intros y; unfold e4, plus; nonneg; lia).
  assert (Lc : (cs < size s0)%nat) by (eapply look_lt; apply L).
  set (X := (fun y => Nat.eqb y cs) : exempt).
  assert (V4 : ev_ (Ex := X) s0 (Some (cs, PSpace ps cl ds rg)) e4 s4).
  { apply ev_exempt. rewrite <- D. apply (ev_some s0 _ _ cs o); [apply at_ev; exact A4|exact L]. }
  apply wp_bind. eapply (wp_delete_wrappers cs o L T Ow ps cl rg (map fst more)); [exact V4|exact E4| | | |exact P|exact Id|exact Nd|].
  - intros k Ik. unfold e4, plus. pose proof (times_nodup k _ Nm Ik). nonneg. lia.
  - intros k Ik. destruct (Km k Ik) as (_ & Lk). exists 1. split; [lia|auto].
  - intros Ik. apply Km in Ik. lia.
  - intros s5 V5 P5. pose proof (E4 cs) as Ec. fold X in V5. apply wp_bind.
    eapply (wp_get_space cs o L); [exact V5|lia|]. cbv beta iota.
    set (p' := PSpace ps cl (rest del ds ++ (dh, idx) :: more) rg).
    assert (Cv' : covered p') by (eapply new_covered; eauto).
    assert (alive s5 cs) as Al by (eapply (ok_alive (Ex := X)); [apply V5|lia]).
    assert (W1 : wp (set_data cs p') s5 (fun _ s' => ev_ (Ex := X) s0 (Some (cs, p')) e0 s') (fun _ _ => False)).
    { eapply (wp_set_ev (Ex := X)) with (e' := e0); [exact V5|exact L|exact Al|right; eauto| | |rewrite T; reflexivity|auto| |auto].
      - intros y. cbn [contents]. destruct (Nat.eq_dec cs cs) as [_|]; [|easy]. cbn [holds]. unfold p'. cbn [holds].
        rewrite sum_app. assert (Sm : sum (fun w : handle * list nat => is y (fst w)) ((dh, idx) :: more) = is y dh + times y (map fst more)).
        { unfold sum. cbn [fold_right fst]. f_equal. clear. induction more as [|w more IH]; cbn [fold_right map]; [now rewrite times_nil|].
          rewrite times_cons, IH. reflexivity. }
        rewrite Sm. unfold e4, plus. lia.
      - intros y. nonneg. lia.
      - rewrite T. intros y U J. apply wants_space in J.
        assert (Old : In (y, U) (wants T_CONFIGURATION_SPACE (PSpace ps cl (rest del ds) rg)) -> exists oy, live s5 y oy /\ o_type oy = U).
        { intros K. eapply (wants_now cs o L T); [exact V5|lia|exact K]. }
        destruct J as [J|[J|[J|[(-> & J)|J]]]]; try (apply Old, wants_space; auto 8; fail).
        rewrite map_app, in_app_iff in J. cbn [map fst In] in J. destruct J as [J|[<-|J]].
        + apply Old, wants_space. auto 8.
        + assert (alive s5 dh) as Ad.
          { eapply (ok_alive (Ex := X)); [apply V5|]. unfold e4, plus. rewrite is_same. nonneg. lia. }
          destruct (ev_target (Ex := X) _ _ _ _ _ _ V5 Ld Ad) as (r & Pr & R). eexists. split; [split; [exact R|exact Pr]|exact Td].
        + destruct (P5 y J) as (r & Pr & R). eexists. split; [split; [exact R|exact Pr]|reflexivity]. }
    assert (W2 : wp (set_data cs p') s5 (fun _ s' => plain_ones (map fst more) s') (fun _ _ => False)).
    { destruct Al as (o1 & Lo & Po). eapply wp_set_data; [exact Lo|]. intros k Ik. destruct (P5 k Ik) as (r & Pr & R).
      exists r. split; auto. rewrite look_put by (eapply look_lt; eauto).
      destruct (Nat.eq_dec k cs) as [->|]; [|auto]. apply Km in Ik. lia. }
    eapply wp_conseq; [apply (wp_and _ _ _ _ _ _ _ W1 W2)| |intros c s' [[] _]].
    intros [] s6 (V6 & P6).
    assert (V6' : ev_ (Ex := nobody) s0 (Some (cs, p')) e0 s6).
    { destruct V6 as (O6 & R6). split; [|exact R6]. eapply ok_back; [exact O6|].
      intros y oy Ly Xy. apply Nat.eqb_eq in Xy. subst y.
      assert (alive s6 cs) as Al6 by (eexists; eauto).
      destruct (ev_target (Ex := X) _ _ _ _ _ _ (conj O6 R6 : ev_ (Ex := X) _ _ _ _) L Al6) as (r & Pr & R). cbn [contents] in R.
      destruct (Nat.eq_dec cs cs) as [_|]; [|easy]. destruct Ly as [Ly _]. rewrite Ly in R. injection R as ->. exact Cv'. }
    exists cs, dh, o, ps, cl, ds, rg, more.
    split; [auto|]. split; [auto|]. split; [auto|]. split; [auto|]. split; [auto|]. split; [auto|].
    assert (Hm : forall i, In [i] (map snd more) <-> ~ In i idx /\ exists w j, In w ds /\ In j idx /\ In j (snd w) /\ In i (snd w)).
    { intros i. rewrite Em, in_map_iff. split.
      - intros (i' & [= ->] & I). apply filter_In in I as (I & E). apply negb_true_iff, memb_out in E. split; auto.
        apply in_flat_map in I as (w & Iw & Ii). destruct (proj1 (Hd' w (Id w Iw)) Iw) as (j & J1 & J2). eauto 8.
      - intros (N & w & j & Iw & Ij & Jw & Ii). exists i. split; auto. apply filter_In. split.
        + apply in_flat_map. exists w. split; auto. apply Hd'; eauto.
        + apply negb_true_iff, memb_out. auto. }
    split; [|split; [auto|split; [|split; [exact Hm|split]]]].
    + intros w Iw. pose proof (in_map fst _ _ Iw) as I1. split; [destruct (Km _ I1); lia|apply P6; auto].
    + intros w Iw. apply (in_map (@snd handle (list nat))) in Iw. unfold handle in *. rewrite Em in Iw. apply in_map_iff in Iw as (i & <- & _). eauto.
    + unfold handle in *. rewrite Em. assert (NoDup (filter (fun i => negb (existsb (Nat.eqb i) idx)) (flat_map snd del))) as Nf.
      { apply NoDup_filter. apply (partition_sub ds del P Nd Id). }
      clear -Nf. induction Nf as [|a l Na Nf IH]; cbn; constructor; auto.
      intros I. apply in_map_iff in I as (b & [= ->] & I). contradiction.
    + unfold changed_. rewrite <- (rest_untouched ds idx del P Id Hd'). exact V6'.
Qed.
End Calls.
