(** Doubly linked lists whose links are functions of addresses, and the chains of the
    buckets. *)
From Coq Require Import ZArith List Bool Lia.
From Verif Require Import Base UthashModel UthashSpec.
Import ListNotations.
Open Scope Z_scope.

Lemma put_same : forall A (f : Z -> A) a v, put f a v a = v.
Proof. intros; unfold put; now rewrite Z.eqb_refl. Qed.
Lemma put_other : forall A (f : Z -> A) a v x, x <> a -> put f a v x = f x.
Proof. intros; unfold put; destruct (Z.eqb_spec x a); congruence. Qed.

(** The elements [l], whose first has [v] before it and whose last has [e] after it *)
Fixpoint seg (p n : Z -> Z) (v : Z) (l : list Z) (e : Z) : Prop :=
  match l with
  | [] => True
  | a :: r => p a = v /\ n a = hd e r /\ seg p n a r e
  end.

Lemma hd_app : forall (l1 l2 : list Z) e, hd e (l1 ++ l2) = hd (hd e l2) l1.
Proof. destruct l1; reflexivity. Qed.

Lemma last_cons : forall (l : list Z) a v, last (a :: l) v = last l a.
Proof.
  induction l as [|b l IH]; intros a v; [reflexivity|].
  change (last (a :: b :: l) v) with (last (b :: l) v). rewrite IH.
  symmetry. rewrite IH. reflexivity.
Qed.

Lemma seg_app : forall p n l1 l2 v e,
  seg p n v (l1 ++ l2) e <-> seg p n v l1 (hd e l2) /\ seg p n (last l1 v) l2 e.
Proof.
  induction l1 as [|a l1 IH]; intros l2 v e; [simpl; tauto|].
  cbn [app seg]. rewrite IH, last_cons, hd_app. tauto.
Qed.

Lemma seg_frame : forall p n p' n' l v e,
  (forall x, In x l -> p' x = p x) -> (forall x, In x l -> n' x = n x) ->
  seg p n v l e -> seg p' n' v l e.
Proof.
  induction l as [|a l IH]; intros v e HP HN HS; [exact Logic.I|].
  cbn [seg] in *. destruct HS as (A & B & C).
  rewrite HP, HN by (left; reflexivity). split; [exact A|split; [exact B|]].
  apply IH; [intros; apply HP; now right|intros; apply HN; now right|exact C].
Qed.

Lemma seg_new_start : forall p n v v' b l e,
  ~ In b l -> seg p n v (b :: l) e -> seg (put p b v') n v' (b :: l) e.
Proof.
  intros p n v v' b l e NI (A & B & C). cbn [seg]. rewrite put_same.
  split; [reflexivity|split; [exact B|]].
  eapply seg_frame; [| |exact C]; [|reflexivity].
  intros x X. apply put_other. intros ->. contradiction.
Qed.

Lemma last_in : forall (l : list Z) v, l <> [] -> In (last l v) l.
Proof.
  induction l as [|a l IH]; intros v H; [congruence|].
  destruct l as [|b l]; [left; reflexivity|]. right.
  change (last (a :: b :: l) v) with (last (b :: l) v). apply IH. discriminate.
Qed.

Lemma last_indep : forall (l : list Z) v w, l <> [] -> last l v = last l w.
Proof.
  induction l as [|a l IH]; intros v w H; [congruence|].
  now rewrite !last_cons.
Qed.

Lemma seg_new_end : forall p n l v e e',
  NoDup l -> l <> [] -> seg p n v l e -> seg p (put n (last l 0) e') v l e'.
Proof.
  induction l as [|a l IH]; intros v e e' ND NE HS; [congruence|].
  inversion ND as [|? ? NI ND' E1]; subst.
  destruct HS as (A & B & C). destruct l as [|b l].
  - cbn [seg last hd]. rewrite put_same. auto.
  - rewrite last_cons. rewrite (last_indep (b :: l) a 0) by discriminate.
    cbn [seg]. split; [exact A|]. split.
    + rewrite put_other; [exact B|].
      intros E. apply NI. rewrite E. apply last_in. discriminate.
    + apply IH with (e := e); auto. discriminate.
Qed.

Lemma seg_push : forall p n c a,
  ~ In a c -> ~ In 0 c -> NoDup c -> seg p n 0 c 0 ->
  seg (if hd 0 c =? 0 then put p a 0 else put (put p a 0) (hd 0 c) a)
      (put n a (hd 0 c)) 0 (a :: c) 0.
Proof.
  intros p n c a NI NZ ND HS. cbn [seg].
  destruct c as [|b c].
  - cbn [hd]. rewrite Z.eqb_refl. rewrite !put_same. auto.
  - cbn [hd]. destruct (Z.eqb_spec b 0) as [E|NE]; [exfalso; apply NZ; left; auto|].
    assert (a <> b) by (intros ->; apply NI; left; auto).
    rewrite put_other, !put_same by auto.
    split; [reflexivity|split; [reflexivity|]].
    inversion ND; subst.
    apply seg_new_start with (v := 0); [assumption|].
    eapply seg_frame; [| |exact HS]; intros x X; apply put_other;
      intros ->; contradiction.
Qed.

Lemma seg_snoc : forall p n l a,
  ~ In a l -> ~ In 0 l -> NoDup l -> l <> [] -> seg p n 0 l 0 ->
  seg (put p a (last l 0)) (put (put n a 0) (last l 0) a) 0 (l ++ [a]) 0.
Proof.
  intros p n l a NI NZ ND NE HS.
  apply seg_app. split.
  - cbn [hd]. apply seg_new_end with (e := 0); [assumption|assumption|].
    eapply seg_frame; [| |exact HS]; intros x X; apply put_other;
      intros ->; contradiction.
  - cbn [seg hd]. rewrite put_same. split; [reflexivity|].
    rewrite put_other, put_same; [auto|].
    intros E. apply NI. rewrite E. now apply last_in.
Qed.

Lemma seg_remove : forall p n l1 a l2,
  NoDup (l1 ++ a :: l2) -> ~ In 0 (l1 ++ a :: l2) -> seg p n 0 (l1 ++ a :: l2) 0 ->
  p a = last l1 0 /\ n a = hd 0 l2 /\
  seg (if n a =? 0 then p else put p (n a) (p a))
      (if p a =? 0 then n else put n (p a) (n a)) 0 (l1 ++ l2) 0.
Proof.
  intros p n l1 a l2 ND NZ HS.
  apply seg_app in HS. destruct HS as (S1 & PA & NA & S2).
  split; [exact PA|split; [exact NA|]].
  rewrite PA, NA.
  pose proof (NoDup_remove_1 _ _ _ ND) as ND2.
  pose proof (NoDup_remove_2 _ _ _ ND) as NI2.
  assert (NI : ~ In a l1 /\ ~ In a l2) by (split; intros X; apply NI2; apply in_or_app; auto).
  assert (NZ1 : ~ In 0 l1 /\ ~ In 0 l2)
    by (split; intros X; apply NZ; apply in_or_app; [left|right; right]; auto).
  assert (DJ : forall x, In x l1 -> In x l2 -> False).
  { intros x X1 X2. apply in_split in X1. destruct X1 as (u & w & ->).
    rewrite <- app_assoc in ND2. cbn [app] in ND2. apply NoDup_remove_2 in ND2.
    apply ND2. apply in_or_app. right. apply in_or_app. right. exact X2. }
  assert (N1 : NoDup l1).
  { clear - ND2. induction l1 as [|b l1 IH]; [constructor|].
    inversion ND2; subst. constructor; [|now apply IH].
    intros X. apply H1. apply in_or_app. now left. }
  assert (N2 : NoDup l2).
  { clear - ND2. induction l1 as [|b l1 IH]; [assumption|].
    inversion ND2; subst. now apply IH. }
  apply seg_app. split.
  - destruct l1 as [|b l1]; [exact Logic.I|].
    assert (LI : In (last (b :: l1) 0) (b :: l1)) by (apply last_in; discriminate).
    destruct (Z.eqb_spec (last (b :: l1) 0) 0) as [E|NE].
    { exfalso. rewrite E in LI. destruct NZ1. contradiction. }
    assert (Q : seg p (put n (last (b :: l1) 0) (hd 0 l2)) 0 (b :: l1) (hd 0 l2)).
    { apply seg_new_end with (e := a); [assumption|discriminate|exact S1]. }
    eapply seg_frame; [| |exact Q]; [|reflexivity].
    intros x X. destruct (Z.eqb_spec (hd 0 l2) 0); [reflexivity|].
    apply put_other. intros ->. destruct l2 as [|c l2]; [cbn in *; congruence|].
    apply (DJ c); [exact X|left; reflexivity].
  - destruct l2 as [|c l2]; [exact Logic.I|]. cbn [hd].
    destruct (Z.eqb_spec c 0) as [E|NE].
    { exfalso. destruct NZ1 as [_ NZ1]. apply NZ1. left. exact E. }
    assert (Q : seg (put p c (last l1 0)) n (last l1 0) (c :: l2) 0).
    { inversion N2; subst. apply seg_new_start with (v := a); assumption. }
    eapply seg_frame; [| |exact Q]; [reflexivity|].
    intros x X. destruct (Z.eqb_spec (last l1 0) 0); [reflexivity|].
    apply put_other. intros ->.
    apply (DJ (last l1 0)); [|exact X].
    apply last_in. intros ->. cbn in *. congruence.
Qed.

(** HASH_TO_BKT with a power of two is the remainder *)
Lemma to_bkt_mod : forall hv k, 0 <= k <= 32 -> to_bkt hv (2 ^ k) = hv mod 2 ^ k.
Proof.
  intros hv k Hk. unfold to_bkt, u32.
  rewrite Z.mod_small.
  - replace (2 ^ k - 1) with (Z.ones k) by (rewrite Z.ones_equiv; lia).
    apply Z.land_ones. lia.
  - assert (0 < 2 ^ k) by (apply Z.pow_pos_nonneg; lia).
    assert (2 ^ k <= 2 ^ 32) by (apply Z.pow_le_mono_r; lia). lia.
Qed.

Lemma to_bkt_range : forall hv k, 0 <= k <= 32 -> 0 <= to_bkt hv (2 ^ k) < 2 ^ k.
Proof.
  intros hv k Hk. rewrite to_bkt_mod by assumption.
  apply Z.mod_pos_bound. apply Z.pow_pos_nonneg; lia.
Qed.

(** Replacing in a list *)
Fixpoint repl {A : Type} (l : list A) (i : nat) (x : A) : list A :=
  match l, i with
  | [], _ => []
  | _ :: r, O => x :: r
  | y :: r, S i' => y :: repl r i' x
  end.
Lemma replace_repl : forall bs i b, replace bs i b = repl bs i b.
Proof. induction bs as [|x bs IH]; intros [|i] b; cbn; f_equal; auto. Qed.
Lemma repl_length : forall A (l : list A) i x, length (repl l i x) = length l.
Proof. induction l as [|y l IH]; intros [|i] x; cbn; auto. Qed.
Lemma repl_nth : forall A (l : list A) i x j,
  nth_error (repl l i x) j =
  if Nat.eqb i j then match nth_error l j with Some _ => Some x | None => None end
  else nth_error l j.
Proof.
  induction l as [|y l IH]; intros [|i] x [|j]; cbn; auto.
  destruct (Nat.eqb i j); reflexivity.
Qed.
Lemma Forall2_repl : forall A B (R : A -> B -> Prop) l m i x y,
  Forall2 R l m -> R x y -> Forall2 R (repl l i x) (repl m i y).
Proof.
  intros A B R l m i x y H. revert i.
  induction H as [|a b l m H1 H2 IH]; intros [|i] XY; cbn; constructor; auto.
Qed.
Lemma Forall2_nth : forall A B (R : A -> B -> Prop) l m i a,
  Forall2 R l m -> nth_error l i = Some a -> exists b, nth_error m i = Some b /\ R a b.
Proof.
  intros A B R l m i a H. revert i.
  induction H as [|x y l m H1 H2 IH]; intros [|i] E; cbn in *; try discriminate.
  - injection E as <-. eauto.
  - apply IH. exact E.
Qed.
Lemma Forall2_len : forall A B (R : A -> B -> Prop) l m, Forall2 R l m -> length l = length m.
Proof. induction 1; cbn; auto. Qed.
Lemma Forall2_imp : forall A B (R Q : A -> B -> Prop) l m,
  (forall a b, In b m -> R a b -> Q a b) -> Forall2 R l m -> Forall2 Q l m.
Proof.
  intros A B R Q l m HI H. induction H as [|a b l m H1 H2 IH]; constructor.
  - apply HI; [left; reflexivity|assumption].
  - apply IH. intros a' b' X. apply HI. now right.
Qed.

(** A bucket whose chain is [c] *)
Definition bucket_is (hp hn : Z -> Z) (b : bucket) (c : list Z) : Prop :=
  b_head b = hd 0 c /\ b_count b = Z.of_nat (length c) /\ seg hp hn 0 c 0.

(** Buckets whose chains hold exactly the elements of [D], each where its hash value
    says *)
Definition chained (hp hn hv : Z -> Z) (k : Z) (bs : list bucket) (cs : list (list Z))
  (D : list Z) : Prop :=
  Forall2 (bucket_is hp hn) bs cs /\ length cs = Z.to_nat (2 ^ k) /\
  forall i c, nth_error cs i = Some c ->
    NoDup c /\ forall a, In a c <-> In a D /\ to_bkt (hv a) (2 ^ k) = Z.of_nat i.

Lemma chained_bucket : forall hp hn hv k bs cs D a,
  chained hp hn hv k bs cs D -> 0 <= k <= 32 ->
  exists b c, nth_error bs (Z.to_nat (to_bkt (hv a) (2 ^ k))) = Some b /\
    nth_error cs (Z.to_nat (to_bkt (hv a) (2 ^ k))) = Some c /\ bucket_is hp hn b c.
Proof.
  intros hp hn hv k bs cs D a (F & L & M) Hk.
  pose proof (to_bkt_range (hv a) k Hk) as R.
  set (i := Z.to_nat (to_bkt (hv a) (2 ^ k))).
  destruct (nth_error bs i) as [b|] eqn:E.
  - destruct (Forall2_nth _ _ _ _ _ _ _ F E) as (c & E2 & Q). eauto.
  - exfalso. apply nth_error_None in E. rewrite (Forall2_len _ _ _ _ _ F), L in E.
    unfold i in E. lia.
Qed.

Lemma chain_len : forall hp hn hv k bs cs D i c,
  chained hp hn hv k bs cs D -> nth_error cs i = Some c -> (length c <= length D)%nat.
Proof.
  intros hp hn hv k bs cs D i c (F & L & M) E.
  destruct (M _ _ E) as (ND & IN). apply NoDup_incl_length; [exact ND|].
  intros x X. apply IN in X. tauto.
Qed.

(** Putting [a] in front of its chain *)
Lemma chained_push : forall hp hn hv k bs cs D a b m,
  chained hp hn hv k bs cs D -> 0 <= k <= 32 -> ~ In a D -> ~ In 0 D ->
  Z.of_nat (length D) + 1 < 2 ^ 32 ->
  nth_error bs (Z.to_nat (to_bkt (hv a) (2 ^ k))) = Some b ->
  exists cs',
    chained (if b_head b =? 0 then put hp a 0 else put (put hp a 0) (b_head b) a)
      (put hn a (b_head b)) hv k
      (repl bs (Z.to_nat (to_bkt (hv a) (2 ^ k))) (mkBkt a (u32 (b_count b + 1)) m)) cs' (a :: D)
    /\ (b_head b = 0 \/ In (b_head b) D)
    /\ (forall i c, nth_error cs' i = Some c -> ~ In a c -> nth_error cs i = Some c).
Proof.
  intros hp hn hv k bs cs D a b m CH Hk NI NZ SM E.
  pose proof CH as (F & L & M).
  destruct (Forall2_nth _ _ _ _ _ _ _ F E) as (c & Ec & (HB & CB & SB)).
  pose proof (chain_len _ _ _ _ _ _ _ _ _ CH Ec) as CL.
  destruct (M _ _ Ec) as (NDc & INc).
  set (i := Z.to_nat (to_bkt (hv a) (2 ^ k))) in *.
  pose proof (to_bkt_range (hv a) k Hk) as R.
  assert (NIc : ~ In a c) by (intros X; apply INc in X; tauto).
  assert (NZc : ~ In 0 c) by (intros X; apply INc in X; tauto).
  exists (repl cs i (a :: c)). split; [|split].
  - split; [|split].
    + (* every bucket *)
      assert (F' : Forall2 (fun x y => bucket_is hp hn x y /\ (exists j, nth_error cs j = Some y)) bs cs).
      { eapply Forall2_imp; [|exact F]. intros x y Y Q. split; [exact Q|].
        apply In_nth_error in Y. exact Y. }
      rewrite HB.
      set (hp' := if hd 0 c =? 0 then put hp a 0 else put (put hp a 0) (hd 0 c) a).
      assert (G : forall j x y, nth_error bs j = Some x -> nth_error cs j = Some y -> j <> i ->
                  bucket_is hp' (put hn a (hd 0 c)) x y).
      { intros j x y Ex Ey NE.
        destruct (Forall2_nth _ _ _ _ _ _ _ F Ex) as (y' & Ey' & (A & B & C)).
        rewrite Ey in Ey'. injection Ey' as <-.
        destruct (M _ _ Ey) as (NDy & INy).
        split; [exact A|split; [exact B|]].
        eapply seg_frame; [| |exact C].
        - intros z Z1. apply INy in Z1. destruct Z1 as (Z1 & Z2).
          assert (z <> a) by (intros ->; contradiction).
          unfold hp'. destruct (Z.eqb_spec (hd 0 c) 0); [now rewrite put_other|].
          rewrite put_other; [now rewrite put_other|].
          intros ->. destruct c as [|c0 c1]; [cbn in *; congruence|].
          assert (W : In c0 (c0 :: c1)) by (left; reflexivity).
          apply INc in W. cbn [hd] in *. destruct W as (_ & W). lia.
        - intros z Z1. apply INy in Z1. destruct Z1 as (Z1 & Z2).
          apply put_other. intros ->. contradiction. }
      assert (Q : bucket_is hp' (put hn a (hd 0 c)) (mkBkt a (u32 (b_count b + 1)) m) (a :: c)).
      { split; [reflexivity|split].
        - cbn [b_count length]. rewrite CB. unfold u32. rewrite Z.mod_small; lia.
        - unfold hp'. apply seg_push; assumption. }
      clearbody i. clear - F G Q.
      revert i G. induction F as [|x y bs cs H1 H2 IH]; intros i G.
      { destruct i; constructor. }
      destruct i as [|i]; cbn.
      * constructor; [exact Q|].
        clear IH Q H1.
        assert (G2 : forall j x0 y0, nth_error bs j = Some x0 -> nth_error cs j = Some y0 ->
                     bucket_is hp' (put hn a (hd 0 c)) x0 y0).
        { intros j x0 y0 A B. apply (G (S j)); auto. }
        clear G. induction H2 as [|x1 y1 bs cs H3 H4 IH]; constructor.
        -- apply (G2 O); reflexivity.
        -- apply IH. intros j x0 y0 A B. apply (G2 (S j)); assumption.
      * constructor.
        -- apply (G O); [reflexivity|reflexivity|discriminate].
        -- apply IH. intros j x0 y0 A B NE. apply (G (S j)); auto.
    + now rewrite repl_length.
    + intros j d Ej. rewrite repl_nth in Ej.
      destruct (Nat.eqb_spec i j) as [<-|NE].
      * rewrite Ec in Ej. injection Ej as <-.
        split; [constructor; assumption|].
        intros z. cbn [In]. rewrite INc.
        split.
        -- intros [<-|(X & Y)]; [split; [now left|unfold i; lia]|tauto].
        -- intros ([->|X] & Y); [now left|right; tauto].
      * destruct (M _ _ Ej) as (NDj & INj). split; [exact NDj|].
        intros z. rewrite INj. cbn [In]. split; [tauto|].
        intros ([->|X] & Y); [|tauto].
        exfalso. apply NE. unfold i. lia.
  - rewrite HB. destruct c as [|c0 c1]; [left; reflexivity|right].
    assert (W : In c0 (c0 :: c1)) by (left; reflexivity). apply INc in W. cbn. tauto.
  - intros j d Ej NA. rewrite repl_nth in Ej.
    destruct (Nat.eqb_spec i j) as [<-|NE]; [|exact Ej].
    rewrite Ec in Ej. injection Ej as <-. exfalso. apply NA. now left.
Qed.
