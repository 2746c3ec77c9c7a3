(** Removing from a chain, and moving every chain to twice as many buckets. *)
From Coq Require Import ZArith List Bool Lia.
From Verif Require Import Base UthashModel UthashSpec UthashLists.
Import ListNotations.
Open Scope Z_scope.

Lemma Forall2_by_nth : forall A B (R R' : A -> B -> Prop) l m i x y,
  Forall2 R l m ->
  (forall j a b, nth_error l j = Some a -> nth_error m j = Some b -> j <> i -> R' a b) ->
  R' x y -> Forall2 R' (repl l i x) (repl m i y).
Proof.
  intros A B R R' l m i x y F. revert i.
  induction F as [|a b l m H1 H2 IH]; intros i G Q; [destruct i; constructor|].
  destruct i as [|i]; cbn.
  - constructor; [exact Q|].
    assert (G2 : forall j a0 b0, nth_error l j = Some a0 -> nth_error m j = Some b0 -> R' a0 b0).
    { intros j a0 b0 X Y. apply (G (S j)); auto. }
    clear - H2 G2. induction H2 as [|a1 b1 l m H3 H4 IH]; constructor.
    + apply (G2 O); reflexivity.
    + apply IH. intros j a0 b0 X Y. apply (G2 (S j)); assumption.
  - constructor.
    + apply (G O); [reflexivity|reflexivity|discriminate].
    + apply IH; [|exact Q]. intros j a0 b0 X Y NE. apply (G (S j)); auto.
Qed.

Lemma hd_in : forall (c : list Z), hd 0 c = 0 \/ In (hd 0 c) c.
Proof. destruct c; [left|right; left]; reflexivity. Qed.
Lemma last_in0 : forall (c : list Z), last c 0 = 0 \/ In (last c 0) c.
Proof. destruct c as [|a c]; [now left|right]. apply last_in. discriminate. Qed.

(** Taking [a] out of its chain *)
Lemma chained_remove : forall hp hn hv k bs cs D D' a b m,
  chained hp hn hv k bs cs D -> 0 <= k <= 32 -> In a D -> ~ In 0 D ->
  Z.of_nat (length D) < 2 ^ 32 ->
  (forall x, In x D' <-> In x D /\ x <> a) ->
  nth_error bs (Z.to_nat (to_bkt (hv a) (2 ^ k))) = Some b ->
  exists cs',
    chained (if hn a =? 0 then hp else put hp (hn a) (hp a))
      (if hp a =? 0 then hn else put hn (hp a) (hn a)) hv k
      (repl bs (Z.to_nat (to_bkt (hv a) (2 ^ k)))
         (mkBkt (if b_head b =? a then hn a else b_head b) (u32 (b_count b - 1)) m)) cs' D'
    /\ (hn a = 0 \/ In (hn a) D') /\ (hp a = 0 \/ In (hp a) D').
Proof.
  intros hp hn hv k bs cs D D' a b m CH Hk IA NZ SM DD E.
  pose proof CH as (F & L & M).
  destruct (Forall2_nth _ _ _ _ _ _ _ F E) as (c & Ec & (HB & CB & SB)).
  pose proof (chain_len _ _ _ _ _ _ _ _ _ CH Ec) as CL.
  destruct (M _ _ Ec) as (NDc & INc).
  set (i := Z.to_nat (to_bkt (hv a) (2 ^ k))) in *.
  pose proof (to_bkt_range (hv a) k Hk) as R.
  assert (Ic : In a c) by (apply INc; split; [exact IA|unfold i; lia]).
  assert (NZc : ~ In 0 c) by (intros X; apply INc in X; tauto).
  apply in_split in Ic. destruct Ic as (l1 & l2 & Ecc). subst c.
  destruct (seg_remove hp hn l1 a l2 NDc NZc SB) as (PA & NA & SR).
  pose proof (NoDup_remove_1 _ _ _ NDc) as ND2.
  pose proof (NoDup_remove_2 _ _ _ NDc) as NI2.
  assert (IN2 : forall z, In z (l1 ++ l2) <-> In z D' /\ to_bkt (hv z) (2 ^ k) = Z.of_nat i).
  { intros z. rewrite DD. split.
    - intros X. assert (Y : In z (l1 ++ a :: l2))
        by (apply in_or_app; apply in_app_or in X; cbn; tauto).
      apply INc in Y. split; [split; [tauto|]|tauto]. intros ->. contradiction.
    - intros ((X & Y) & W). assert (V : In z (l1 ++ a :: l2)) by (apply INc; tauto).
      apply in_or_app. apply in_app_or in V. cbn in V. destruct V as [V|[V|V]]; auto.
      congruence. }
  assert (NXT : hn a = 0 \/ In (hn a) (l1 ++ l2)).
  { rewrite NA. destruct (hd_in l2) as [X|X]; [now left|right]. apply in_or_app. now right. }
  assert (PRV : hp a = 0 \/ In (hp a) (l1 ++ l2)).
  { rewrite PA. destruct (last_in0 l1) as [X|X]; [now left|right]. apply in_or_app. now left. }
  exists (repl cs i (l1 ++ l2)). split; [|split].
  - split; [|split].
    + apply Forall2_by_nth with (R := bucket_is hp hn); [exact F| |].
      * intros j x y Ex Ey NE.
        destruct (Forall2_nth _ _ _ _ _ _ _ F Ex) as (y' & Ey' & (A & B & C)).
        rewrite Ey in Ey'. injection Ey' as <-.
        destruct (M _ _ Ey) as (NDy & INy).
        split; [exact A|split; [exact B|]].
        eapply seg_frame; [| |exact C]; intros z Z1; apply INy in Z1; destruct Z1 as (Z1 & Z2).
        -- destruct (Z.eqb_spec (hn a) 0); [reflexivity|].
           apply put_other. intros ->. destruct NXT as [X|X]; [congruence|].
           apply IN2 in X. lia.
        -- destruct (Z.eqb_spec (hp a) 0); [reflexivity|].
           apply put_other. intros ->. destruct PRV as [X|X]; [congruence|].
           apply IN2 in X. lia.
      * split; [|split].
        -- cbn [b_head]. rewrite HB. rewrite NA. destruct l1 as [|d l1]; cbn [app hd].
           ++ now rewrite Z.eqb_refl.
           ++ destruct (Z.eqb_spec d a) as [->|]; [|reflexivity].
              exfalso. apply NI2. left. reflexivity.
        -- cbn [b_count]. rewrite CB. rewrite !app_length in *. cbn [length] in *.
           unfold u32. rewrite Z.mod_small; lia.
        -- exact SR.
    + now rewrite repl_length.
    + intros j d Ej. rewrite repl_nth in Ej.
      destruct (Nat.eqb_spec i j) as [<-|NE].
      * rewrite Ec in Ej. injection Ej as <-. split; assumption.
      * destruct (M _ _ Ej) as (NDj & INj). split; [exact NDj|].
        intros z. rewrite INj, DD. split; [|tauto].
        intros (X & Y). split; [split; [exact X|]|exact Y].
        intros ->. apply NE. unfold i. lia.
  - destruct NXT as [X|X]; [now left|right]. apply IN2 in X. tauto.
  - destruct PRV as [X|X]; [now left|right]. apply IN2 in X. tauto.
Qed.

Lemma chained_ext : forall hp hn hv k bs cs D D',
  (forall a, In a D <-> In a D') -> chained hp hn hv k bs cs D -> chained hp hn hv k bs cs D'.
Proof.
  intros hp hn hv k bs cs D D' X (F & L & M). split; [exact F|split; [exact L|]].
  intros i c E. destruct (M _ _ E) as (A & B). split; [exact A|].
  intros a. rewrite B, X. tauto.
Qed.

Lemma chained_frame : forall hp hn hv hp' hn' hv' k bs cs D,
  (forall a, In a D -> hp' a = hp a) -> (forall a, In a D -> hn' a = hn a) ->
  (forall a, In a D -> hv' a = hv a) ->
  chained hp hn hv k bs cs D -> chained hp' hn' hv' k bs cs D.
Proof.
  intros hp hn hv hp' hn' hv' k bs cs D HP HN HV (F & L & M).
  split; [|split; [exact L|]].
  - eapply Forall2_imp; [|exact F]. intros b c Ic (A & B & C).
    apply In_nth_error in Ic. destruct Ic as (i & Ei). destruct (M _ _ Ei) as (_ & IN).
    split; [exact A|split; [exact B|]].
    eapply seg_frame; [| |exact C]; intros x X; apply IN in X; [apply HP|apply HN]; tauto.
  - intros i c E. destruct (M _ _ E) as (A & B). split; [exact A|].
    intros a. rewrite B. split; intros (X & Y); split; auto; rewrite ?HV in *; auto.
Qed.

(** Chains whose elements are not shared *)
Lemma chained_concat : forall hp hn hv k bs cs D,
  chained hp hn hv k bs cs D -> 0 <= k <= 32 ->
  NoDup (concat cs) /\ forall a, In a (concat cs) <-> In a D.
Proof.
  intros hp hn hv k bs cs D CH Hk. pose proof CH as (F & L & M). split.
  - assert (G : forall base, (forall i c, nth_error cs i = Some c ->
                 NoDup c /\ forall a, In a c -> to_bkt (hv a) (2 ^ k) = base + Z.of_nat i) ->
               NoDup (concat cs)
               /\ forall a, In a (concat cs) -> base <= to_bkt (hv a) (2 ^ k)).
    { clear. induction cs as [|c cs IH]; intros base G; [split; [constructor|intros a []]|].
      destruct (IH (base + 1)) as (A & B).
      { intros i d E. destruct (G (S i) d E) as (X & Y). split; [exact X|].
        intros a Ia. rewrite (Y a Ia). lia. }
      destruct (G O c eq_refl) as (X & Y). split.
      - cbn [concat]. clear IH G. induction c as [|x c IH]; [exact A|].
        inversion X; subst. cbn [app]. constructor.
        + intros Z1. apply in_app_or in Z1. destruct Z1 as [Z1|Z1]; [contradiction|].
          apply B in Z1. specialize (Y x (or_introl eq_refl)). lia.
        + apply IH; [assumption|]. intros a Ia. apply Y. now right.
      - intros a Ia. cbn [concat] in Ia. apply in_app_or in Ia.
        destruct Ia as [Ia|Ia]; [apply Y in Ia; lia|apply B in Ia; lia]. }
    apply (G 0). intros i c E. destruct (M _ _ E) as (A & B). split; [exact A|].
    intros a Ia. apply B in Ia. lia.
  - intros a. rewrite in_concat. split.
    + intros (c & Ic & Ia). apply In_nth_error in Ic. destruct Ic as (i & Ei).
      apply (M _ _ Ei) in Ia. tauto.
    + intros Ia. destruct (chained_bucket hp hn hv k bs cs D a CH Hk) as (b & c & _ & Ec & _).
      exists c. split; [eapply nth_error_In; eauto|].
      apply (M _ _ Ec). split; [exact Ia|].
      pose proof (to_bkt_range (hv a) k Hk). lia.
Qed.

(** Empty buckets *)
Lemma chained_empty : forall hp hn hv k, 0 <= k ->
  chained hp hn hv k (repeat (mkBkt 0 0 0) (Z.to_nat (2 ^ k)))
    (repeat [] (Z.to_nat (2 ^ k))) [].
Proof.
  intros hp hn hv k Hk. split; [|split].
  - induction (Z.to_nat (2 ^ k)) as [|n IH]; cbn; constructor; [|exact IH].
    split; [reflexivity|split; [reflexivity|exact Logic.I]].
  - apply repeat_length.
  - intros i c E. apply nth_error_In in E. apply repeat_spec in E. subst c.
    split; [constructor|]. intros a. cbn. tauto.
Qed.

Section Move.
  Variable K : Type.
  Notation state := (state K).

  Definition relink (st : state) (hp hn : Z -> Z) : state :=
    mkState K (live K st) (f_tbl K st) (f_prev K st) (f_next K st) hp hn (f_key K st)
      (f_klen K st) (f_hashv K st) (tabs K st) (head K st).

  Fixpoint path (n : Z -> Z) (l : list Z) : Prop :=
    match l with [] => True | a :: r => n a = hd 0 r /\ path n r end.
  Lemma seg_path : forall p n l v, seg p n v l 0 -> path n l.
  Proof. induction l as [|a l IH]; intros v H; [exact Logic.I|]. destruct H as (A & B & C). split; eauto. Qed.
  Lemma path_frame : forall n n' l, (forall x, In x l -> n' x = n x) -> path n l -> path n' l.
  Proof.
    induction l as [|a l IH]; intros H P; [exact Logic.I|]. destruct P as (A & B). split.
    - rewrite H; [exact A|now left].
    - apply IH; [intros; apply H; now right|exact B].
  Qed.

  Lemma move_chain_ok : forall c fuel st hp hn nbs ncs D non ideal k,
    (length c < fuel)%nat -> path hn c -> NoDup (c ++ D) -> ~ In 0 (c ++ D) ->
    (forall x, In x (c ++ D) -> live K st x = true) ->
    chained hp hn (f_hashv K st) k nbs ncs D -> 0 <= k <= 32 ->
    Z.of_nat (length (c ++ D)) < 2 ^ 32 ->
    exists hp' hn' non' nbs' ncs',
      move_chain K fuel (relink st hp hn) (2 ^ k) ideal non nbs (hd 0 c)
      = Ok (relink st hp' hn', non', nbs')
      /\ chained hp' hn' (f_hashv K st) k nbs' ncs' (rev c ++ D)
      /\ forall x, ~ In x (c ++ D) -> hn' x = hn x.
  Proof.
    induction c as [|a c IH]; intros fuel st hp hn nbs ncs D non ideal k FU PA ND NZ LV CH Hk SM;
      (destruct fuel as [|fuel]; [cbn in FU; lia|]).
    - exists hp, hn, non, nbs, ncs. cbn. split; [reflexivity|]. split; [exact CH|auto].
    - destruct PA as (NA & PA). cbn [app] in *. inversion ND as [|? ? NI ND' E1]; subst.
      assert (AZ : a <> 0) by (intros ->; apply NZ; left; reflexivity).
      assert (LA : live K st a = true) by (apply LV; now left).
      assert (NIc : ~ In a c /\ ~ In a D) by (split; intros X; apply NI; apply in_or_app; auto).
      cbn [length] in *.
      assert (DL : Z.of_nat (length D) + 1 < 2 ^ 32) by (rewrite app_length in SM; lia).
      assert (NZD : ~ In 0 D)
        by (intros X; apply NZ; right; apply in_or_app; now right).
      destruct (chained_bucket _ _ _ _ _ _ _ a CH Hk) as (b & cc & Eb & Ecc & BI).
      cbn [hd move_chain]. destruct (Z.eqb_spec a 0) as [|_]; [contradiction|].
      unfold rd at 1 2. cbn [relink live f_hnext f_hashv]. rewrite LA. cbn [bind].
      unfold rd_bkt at 1. rewrite Eb. cbn [bind].
      set (cnt := u32 (b_count b + 1)).
      set (non1 := if ideal <? cnt then u32 (non + 1) else non).
      set (m := if (ideal <? cnt) && (u32 (b_mult b * ideal) <? cnt)
                then u32 (b_mult b + 1) else b_mult b).
      destruct (chained_push hp hn (f_hashv K st) k nbs ncs D a b m CH Hk (proj2 NIc) NZD DL Eb)
        as (ncs1 & CH1 & HB & _).
      unfold set_hprev at 1, wr. cbn [live relink]. rewrite LA. cbn [bind].
      unfold set_hnext at 1, wr. cbn [live relink]. rewrite LA. cbn [bind].
      set (hp1 := if b_head b =? 0 then put hp a 0 else put (put hp a 0) (b_head b) a) in *.
      set (hn1 := put hn a (b_head b)) in *.
      match goal with |- context [bind (if b_head b =? 0 then Ok ?s else ?t) ?f] =>
        assert (EE : (if b_head b =? 0 then Ok s else t) = Ok (relink st hp1 hn1)) end.
      { unfold hp1, hn1. destruct (Z.eqb_spec (b_head b) 0) as [|NE]; [reflexivity|].
        destruct HB as [HB|HB]; [contradiction|].
        unfold set_hprev, wr. cbn [live relink].
        rewrite LV; [reflexivity|]. right. apply in_or_app. now right. }
      rewrite EE. cbn [bind]. clear EE.
      unfold wr_bkt, rd_bkt. rewrite Eb. cbn [bind]. rewrite replace_repl.
      rewrite NA.
      destruct (IH fuel st hp1 hn1
                 (repl nbs (Z.to_nat (to_bkt (f_hashv K st a) (2 ^ k))) (mkBkt a cnt m)) ncs1
                 (a :: D) non1 ideal k) as (hp2 & hn2 & non2 & nbs2 & ncs2 & E2 & CH2 & FR2).
      + lia.
      + eapply path_frame; [|exact PA]. intros x X. unfold hn1. apply put_other.
        intros ->. tauto.
      + 
        apply (NoDup_Add (Add_app a c D)). split; assumption.
      + intros X. apply NZ. apply in_app_or in X. cbn in X.
        destruct X as [X|[X|X]]; [right; apply in_or_app; now left|now left|
          right; apply in_or_app; now right].
      + intros x X. apply LV. apply in_app_or in X. cbn in X.
        destruct X as [X|[X|X]]; [right; apply in_or_app; now left|now left|
          right; apply in_or_app; now right].
      + exact CH1.
      + exact Hk.
      + rewrite app_length in *. cbn [length]. lia.
      + exists hp2, hn2, non2, nbs2, ncs2. split; [exact E2|]. split.
        * cbn [rev]. rewrite <- app_assoc. exact CH2.
        * intros x X. rewrite FR2.
          -- unfold hn1. apply put_other. intros ->. apply X. now left.
          -- intros Y. apply X. apply in_app_or in Y. cbn in Y.
             destruct Y as [Y|[Y|Y]]; [right; apply in_or_app; now left|now left|
               right; apply in_or_app; now right].
  Qed.

  Lemma move_all_ok : forall olds ocs fuel st hp hn nbs ncs D non ideal k,
    Forall2 (fun b c => b_head b = hd 0 c /\ path hn c /\ (length c < fuel)%nat) olds ocs ->
    NoDup (concat ocs ++ D) -> ~ In 0 (concat ocs ++ D) ->
    (forall x, In x (concat ocs ++ D) -> live K st x = true) ->
    chained hp hn (f_hashv K st) k nbs ncs D -> 0 <= k <= 32 ->
    Z.of_nat (length (concat ocs ++ D)) < 2 ^ 32 ->
    exists hp' hn' non' nbs' ncs' D',
      move_all K fuel (relink st hp hn) (2 ^ k) ideal non nbs olds
      = Ok (relink st hp' hn', non', nbs')
      /\ chained hp' hn' (f_hashv K st) k nbs' ncs' D'
      /\ (forall x, In x D' <-> In x (concat ocs ++ D))
      /\ forall x, ~ In x (concat ocs ++ D) -> hn' x = hn x.
  Proof.
    induction olds as [|b olds IH]; intros ocs fuel st hp hn nbs ncs D non ideal k F ND NZ LV CH Hk SM.
    - inversion F; subst. exists hp, hn, non, nbs, ncs, D. cbn. split; [reflexivity|].
      split; [exact CH|]. split; [tauto|auto].
    - inversion F as [|? c ? ocs' (HB & PC & LC) F' E1 E2]; subst.
      cbn [concat] in *. rewrite <- app_assoc in *.
      cbn [move_all]. rewrite HB.
      assert (NDc : NoDup (c ++ D)).
      { clear - ND. induction c as [|x c IH]; cbn in *.
        - induction (concat ocs') as [|y l IH]; [assumption|]. inversion ND; subst. now apply IH.
        - inversion ND; subst. constructor; [|now apply IH].
          intros X. apply H1. apply in_app_or in X. apply in_or_app.
          destruct X; [now left|right; apply in_or_app; now right]. }
      assert (INC : forall x, In x (c ++ D) -> In x (c ++ concat ocs' ++ D)).
      { intros x X. apply in_app_or in X. apply in_or_app.
        destruct X; [now left|right; apply in_or_app; now right]. }
      destruct (move_chain_ok c fuel st hp hn nbs ncs D non ideal k)
        as (hp1 & hn1 & non1 & nbs1 & ncs1 & E1 & CH1 & FR1); auto.
      { rewrite !app_length in *. lia. }
      rewrite E1. cbn [bind].
      assert (PERM : forall x, In x (concat ocs' ++ rev c ++ D) <-> In x (c ++ concat ocs' ++ D)).
      { intros x. rewrite !in_app_iff, <- in_rev. tauto. }
      destruct (IH ocs' fuel st hp1 hn1 nbs1 ncs1 (rev c ++ D) non1 ideal k)
        as (hp2 & hn2 & non2 & nbs2 & ncs2 & D2 & E2 & CH2 & DD & FR2); auto.
      + eapply Forall2_imp; [|exact F']. intros b' c' Ic (A & B & C).
        split; [exact A|]. split; [|exact C].
        eapply path_frame; [|exact B]. intros x X. apply FR1. intros Y.
        assert (Z1 : In x (concat ocs')) by (apply in_concat; eauto).
        clear - ND Y Z1. apply in_app_or in Y.
        apply in_split in Z1. destruct Z1 as (u & w & EQ). rewrite EQ in ND.
        rewrite <- app_assoc in ND. cbn [app] in ND.
        rewrite app_assoc in ND. apply NoDup_remove_2 in ND. apply ND.
        rewrite !in_app_iff. tauto.
      + clear - ND.
        assert (P : NoDup ((concat ocs' ++ D) ++ c)).
        { apply NoDup_rev in ND. rewrite rev_app_distr in ND.
          assert (G : forall (u w : list Z), NoDup (u ++ w) -> NoDup (w ++ u)).
          { clear. intros u w. revert u. induction w as [|y w IH]; intros u H; [now rewrite app_nil_r in H|].
            pose proof (NoDup_remove_1 _ _ _ H) as A. pose proof (NoDup_remove_2 _ _ _ H) as B.
            cbn [app]. constructor; [|now apply IH].
            intros X. apply B. rewrite in_app_iff in *. tauto. }
          apply G in ND. rewrite <- rev_app_distr in ND. apply NoDup_rev in ND.
          now rewrite rev_involutive in ND. }
        assert (G : forall (u v w : list Z), NoDup ((u ++ v) ++ w) -> NoDup (u ++ rev w ++ v)).
        { clear. intros u v w. revert u v. induction w as [|y w IH]; intros u v H.
          - cbn. now rewrite app_nil_r in H.
          - pose proof (NoDup_remove_1 _ _ _ H) as A. pose proof (NoDup_remove_2 _ _ _ H) as B.
            cbn [rev]. rewrite <- app_assoc. cbn [app].
            change (u ++ rev w ++ y :: v) with (u ++ rev w ++ [y] ++ v).
            rewrite app_assoc. rewrite app_assoc.
            apply (IH u v) in A.
            assert (NI : ~ In y (u ++ rev w ++ v)).
            { intros X. apply B. rewrite !in_app_iff in *. rewrite <- in_rev in X. tauto. }
            rewrite <- app_assoc. cbn [app].
            apply (NoDup_Add (Add_app y (u ++ rev w) v)).
            rewrite <- app_assoc. split; assumption. }
        apply G. exact P.
      + intros X. apply PERM in X. contradiction.
      + intros x X. apply LV. apply PERM. exact X.
      + rewrite !app_length, rev_length in *. lia.
      + exists hp2, hn2, non2, nbs2, ncs2, D2. split; [exact E2|]. split; [exact CH2|].
        split.
        * intros x. rewrite DD. apply PERM.
        * intros x X. rewrite FR2 by (rewrite PERM; exact X). apply FR1.
          intros Y. apply X. now apply INC.
  Qed.
End Move.
