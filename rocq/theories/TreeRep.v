(** Trees below nodes: they exist, and sampling uses their weights. *)
From Coq Require Import ZArith List Bool Lia ZifyBool Arith.
From Verif Require Import Base Datum CodecModel FloatModel FloatSpec FloatProofs FloatRound IntervalSpec DistModel DistSpec DistRoulette DistMix CmpSpec TreeModel TreeSpec TreeHeap TreeProofs TreeOps TreeSteps.
Import ListNotations.
Open Scope Z_scope.

Scheme rep_ind2 := Induction for represents Sort Prop
  with kids_ind2 := Induction for rep_kids Sort Prop.

Lemma rep_exists h : forest h -> forall id n, node_at h id = Some n -> exists T, represents h id T.
Proof.
  intro F. assert (G : forall k id n d, node_at h id = Some n -> rooted h id d -> (length h - d <= k)%nat -> exists T, represents h id T).
  { induction k as [|k IH]; intros id n d E R L.
    - pose proof (rooted_len _ _ _ R). lia.
    - assert (K : exists kids, rep_kids h (n_children n) kids).
      { assert (A : forall c, In (Some c) (n_children n) -> exists T, represents h c T).
        { intros c I. apply In_nth_error in I as [i N]. destruct (child_slot h id n i c F E) as (m & Em & Pm & Im); [now rewrite nth_nth_error, N|].
          apply (IH c m (S d) Em); [|lia]. eapply rooted_step; [apply (seen_of _ _ _ Em)|apply parent_view; eauto|exact R]. }
        clear -A. induction (n_children n) as [|[c|] l IHl].
        - exists []. constructor.
        - destruct (A c (or_introl eq_refl)) as [T HT]. destruct IHl as [kids HK]; [intros c' I; apply A; now right|]. exists (Some T :: kids). now constructor.
        - destruct IHl as [kids HK]; [intros c' I; apply A; now right|]. exists (None :: kids). now constructor. }
      destruct K as [kids K]. eexists. apply (rep h id (view_of n)); [now apply seen_of|exact K]. }
  intros id n E. destruct (seen_rooted _ _ _ F E) as [d R]. eapply (G (length h) id n d); eauto. lia.
Qed.

Definition choice (k : option ttree) : Z := match k with None => ONE | Some c => fmul (weight_of c) (t_bias c) end.
Lemma choices_eq T : choices T = map choice (t_kids T) ++ [t_own T]. Proof. reflexivity. Qed.
Lemma weight_choices T : weight_of T = total (choices T).
Proof. rewrite <- sum_total. destruct T. unfold sum_of, choices. cbn [t_kids t_own]. rewrite fold_left_app. reflexivity. Qed.
Lemma forall2_slots (f : option nat -> Z) l kids : Forall2 (fun c k => same_num (f c) (choice k)) l kids ->
  forall w, length w = S (length l) -> (forall k, (k < length l)%nat -> same_num (nth k w 0) (f (nth k l None))) ->
  Forall2 same_num w (map choice kids ++ [nth (length l) w 0]).
Proof.
  induction 1 as [|c k l kids A F IH]; intros w L H; (destruct w as [|a w]; [discriminate|]).
  - destruct w; [|discriminate]. cbn. constructor; [reflexivity|constructor].
  - cbn [map app length nth]. constructor.
    + unfold same_num in *. etransitivity; [apply (H 0%nat); cbn; lia|exact A].
    + apply IH; [cbn in L; lia|]. intros j J. apply (H (S j)). cbn. lia.
Qed.
Lemma rep_sampled h : inv h -> forall id T, represents h id T -> forall n, node_at h id = Some n -> sampled_as n T.
Proof.
  intros (F & SH & SU & SL).
  apply (rep_ind2 h (fun id T _ => forall n, node_at h id = Some n -> sampled_as n T)
    (fun l kids _ => (forall c, In (Some c) l -> exists m, node_at h c = Some m) -> Forall2 (fun c k => same_num (expected h c) (choice k)) l kids)).
  - intros id v kids Ev K IH n E. apply seen_node in Ev as (n' & E' & ->). rewrite E in E'. injection E' as <-. cbn [view_of v_children v_value v_weight v_bias v_ud] in *.
    destruct (SH id n E) as (LC & LW & _). destruct (SU id n E (fun X => X)) as [SM AR].
    assert (W : Forall2 same_num (n_weights n) (map choice kids ++ [nth (n_arity n) (n_weights n) 0])).
    { rewrite <- LC. apply (forall2_slots (expected h)).
      - apply IH. intros c I. apply In_nth_error in I as [k N]. destruct (child_slot h id n k c F E) as (m & Em & _); [now rewrite nth_nth_error, N|]. eauto.
      - lia.
      - intros k Kk. apply (SL id n k E); [lia|auto]. }
    split; [exact W|]. split.
    + rewrite weight_choices, SM, <- !sum_total. unfold sum_of. apply same_fold; [exact W|reflexivity].
    + intro P. apply flt_key in P. rewrite AR by exact P. rewrite SM. apply normalize_spec. intro Q. rewrite Q in LW. discriminate.
  - constructor.
  - intros l kids K IH A. constructor; [reflexivity|]. apply IH. intros c I. apply A. now right.
  - intros c T l kids R IHT K IH A. destruct (A c (or_introl eq_refl)) as (m & Em). constructor.
    + destruct (IHT m Em) as (_ & S & _). cbn. rewrite Em. apply same_mul; [exact S|]. destruct R as [id v kids' Ev K'].
      apply seen_node in Ev as (m' & Em' & ->). rewrite Em in Em'. injection Em' as <-. reflexivity.
    + apply IH. intros c' I. apply A. now right.
Qed.
Lemma rep_fun h id T T' : represents h id T -> represents h id T' -> T = T'.
Proof.
  intro R. revert T'. revert id T R.
  apply (rep_ind2 h (fun id T _ => forall T', represents h id T' -> T = T') (fun l kids _ => forall kids', rep_kids h l kids' -> kids = kids')).
  - intros id v kids E K IH T' R'. inversion R' as [id' v' kids' E' K']; subst. rewrite E in E'. injection E' as <-. now rewrite (IH _ K').
  - intros kids' K. now inversion K.
  - intros l kids K IH kids' K'. inversion K' as [|l' k' K''|]; subst. now rewrite (IH _ K'').
  - intros c T l kids R IHT K IH kids' K'. inversion K' as [| |c' T' l' k' R' K'']; subst. now rewrite (IHT _ R'), (IH _ K'').
Qed.

(** ** Sampling a node *)
Lemma Forall2_len {A B} (R : A -> B -> Prop) l m : Forall2 R l m -> length l = length m.
Proof. induction 1; cbn; congruence. Qed.
Lemma same_nonneg a b : same_num a b -> pattern a -> pattern b -> nonneg a -> nonneg b.
Proof. unfold same_num, nonneg. intros S Pa Pb [_ K]. split; [exact Pb|]. now rewrite <- S. Qed.
Lemma same_finite a b : same_num a b -> finite a -> finite b.
Proof.
  unfold same_num. intros S FA. rewrite (finite_fkey a FA) in S. unfold fkey in S. unfold finite, INF_MAG in *. pose proof (f_mag_range a). pose proof (f_mag_range b).
  destruct (Z.ltb_spec (2047 * 2 ^ 52) (f_mag b)); [discriminate|]. injection S as S. destruct (f_sign a), (f_sign b); lia.
Qed.
Lemma same_inverse a b : same_num a b -> klt (fkey 0) (fkey a) -> fdiv ONE a = fdiv ONE b.
Proof.
  intros S P. unfold fdiv. destruct (same_decode a b S) as [->|(s & s' & A & B)]; [reflexivity|]. exfalso.
  destruct (decode_decoded a); try discriminate. unfold fkey in P. rewrite H in P. destruct (f_sign a); vm_compute in P; discriminate.
Qed.
Lemma sample_selects h t n T u : inv h -> node_at h t = Some n -> represents h t T ->
  finite (weight_of T) -> klt (fkey 0) (fkey (weight_of T)) -> finite (fdiv ONE (weight_of T)) -> unit_draw u ->
  exists i w, dichotomic_search (Z.of_nat (n_arity n) + 1) (n_areas n) u = Ok (Z.of_nat i) /\ nth_error (choices T) i = Some w /\
    in_area (n_areas n) i u /\
    ((S i < length (choices T))%nat \/ (scaled (weight_of T) <= 2 ^ 2096 /\ klt (fkey u) (fkey 0x3fefffffffffffff)) -> klt (fkey 0) (fkey w)).
Proof.
  intros IV E R FT PT FI U. destruct (rep_sampled h IV t T R n E) as (W & SW0 & RO). destruct IV as (F & SH & SU & SL).
  destruct (SH t n E) as (LC & LW & _ & RW & _ & _ & AR). destruct (SU t n E (fun X => X)) as [SM _].
  assert (K : fkey (total (n_weights n)) = fkey (weight_of T)) by (rewrite <- SM; exact SW0).
  assert (FN : finite (total (n_weights n))).
  { eapply same_finite; [symmetry; exact K|exact FT]. }
  assert (NN : Forall nonneg (n_weights n)).
  { assert (X : fkey (fold_left fadd (n_weights n) 0) <> None) by (change (fold_left fadd (n_weights n) 0) with (sum_of (n_weights n)); rewrite sum_total; apply finite_key; exact FN).
    destruct (fold_nan _ _ X) as [_ N']. rewrite Forall_forall in *. intros x I. destruct (proj1 (in_range_cases x) (RW x I)) as [_ [C|C]]; [now apply N' in I|exact C]. }
  assert (LT : length (n_areas n) = S (length (n_weights n))) by (apply RO; unfold same_num in SW0; now rewrite SW0).
  destruct (roulette_selects (n_weights n) (n_areas n) u) as (i & a & V & A & IA & _ & _ & PO).
  - split; [unfold lenZ, INT64_MAX; lia|]. split; [exact NN|]. split; [split; [apply total_in_range; exact RW|now rewrite K]|]. rewrite (same_inverse _ _ K); [exact FI|now rewrite K].
  - exact FN.
  - apply RO. unfold same_num in SW0. now rewrite SW0.
  - unfold lenZ. lia.
  - exact U.
  - destruct (nth_error (choices T) i) as [w|] eqn:C.
    2:{ apply nth_error_None in C. apply Forall2_len in W. assert (i < length (n_weights n))%nat by (apply nth_error_Some; congruence). lia. }
    exists i, w. unfold roulette_value in V. replace (lenZ (n_areas n) - 1) with (Z.of_nat (n_arity n) + 1) in V by (unfold lenZ; lia).
    split; [exact V|]. split; [exact C|]. split; [exact IA|]. intro H.
    assert (SW : same_num a w).
    { clear -A C W. revert i A C. induction W; intros [|i] A C; cbn in *; try discriminate; [congruence|]. eapply IHW; eauto. }
    unfold same_num in SW. rewrite <- SW. apply PO. apply Forall2_len in W. rewrite W. destruct H as [H|[H1 H2]]; [now left|right].
    split; [|exact H2]. enough (scaled (total (n_weights n)) = scaled (weight_of T)) by lia. apply (key_scaled _ _ FN FT). rewrite K. destruct (fkey (weight_of T)); [reflexivity|]. destruct (fkey 0); contradiction.
Qed.
