From Coq Require Import ZArith List Bool Lia Arith.
From Verif Require Import Base Datum CodecModel CodecSpec CodecProofs FloatModel FloatSpec FloatProofs CmpModel CmpSpec CmpProofs.
From Verif Require Import IntervalModel IntervalSpec IntervalProofs MapSpec ParamModel ParamSpec.
Import ListNotations.
Open Scope Z_scope.

Lemma f_pos0 : flt 0 0 = false. Proof. reflexivity. Qed.

Section Find.
  Variable jen : list Z -> Z.
  Lemma value_matches_iff v d : wf_datum v -> wf_datum d -> value_matches jen v d = true <-> d_val d = d_val v.
  Proof.
    intros Hv Hd. unfold value_matches. rewrite andb_true_iff, !Z.eqb_eq. split.
    - intros [_ H]. now apply datum_cmp_eq in H.
    - intro H. split; [now apply hash_datum_val|now apply datum_cmp_eq].
  Qed.
  Lemma find_value_some l v i : wf_datum v -> Forall wf_datum l -> find_value jen l v = Some i ->
    exists d, nth_error l i = Some d /\ d_val d = d_val v /\
              forall j e, (j < i)%nat -> nth_error l j = Some e -> d_val e <> d_val v.
  Proof.
    intros Hv. revert i. induction l as [|d l IH]; intros i Hl H; [discriminate|].
    inversion Hl; subst. cbn in H. destruct (value_matches jen v d) eqn:E.
    - injection H as <-. exists d. split; [reflexivity|split; [now apply value_matches_iff|intros; lia]].
    - destruct (find_value jen l v) as [k|] eqn:F; [|discriminate]. injection H as <-.
      destruct (IH k) as (e & He & Hev & Hm); auto. exists e. split; [exact He|split; [exact Hev|]].
      intros [|j] e' Hj He'.
      + injection He' as <-. intro C. apply value_matches_iff in C; auto. congruence.
      + apply (Hm j); [lia|exact He'].
  Qed.
  Lemma find_value_none l v : wf_datum v -> Forall wf_datum l ->
    (find_value jen l v = None <-> ~ In (d_val v) (map d_val l)).
  Proof.
    intros Hv. induction l as [|d l IH]; intros Hl; [cbn; tauto|].
    inversion Hl; subst. cbn [find_value map In]. destruct (value_matches jen v d) eqn:E.
    - apply value_matches_iff in E; auto. split; [discriminate|intros C; exfalso; apply C; now left].
    - assert (N : d_val d <> d_val v) by (intro C; apply value_matches_iff in C; auto; congruence).
      destruct (find_value jen l v); split; try tauto; intros; try discriminate.
      exfalso. specialize (IH H2). assert (C : ~ In (d_val v) (map d_val l)) by tauto. apply IH in C. discriminate.
  Qed.

  Lemma clean_wf l : Forall wf_datum l -> Forall wf_datum (map clean l).
  Proof. intro H. apply Forall_map. exact H. Qed.
  Lemma insert_values_spec l : forall acc, Forall wf_datum acc -> Forall wf_datum l -> NoDup (map d_val acc) ->
    (NoDup (map d_val (acc ++ l)) /\ insert_values jen acc l = Ok (acc ++ map clean l)) \/
    (~ NoDup (map d_val (acc ++ l)) /\ insert_values jen acc l = Err ERR_INVALID_VALUE).
  Proof.
    induction l as [|d l IH]; intros acc Ha Hl Hn; cbn [insert_values].
    - left. cbn. rewrite !app_nil_r. auto.
    - inversion Hl; subst. destruct (find_value jen acc d) eqn:F.
      + right. split; [|reflexivity]. intro C. rewrite map_app in C. apply NoDup_remove_2 in C.
        apply C. apply in_or_app. left. apply find_value_some in F; auto. destruct F as (e & He & Hv & _).
        rewrite <- Hv. apply in_map. eapply nth_error_In; eauto.
      + apply find_value_none in F; auto.
        specialize (IH (acc ++ [mkDatum (d_val d) FLAG_DEFAULT])).
        assert (E : map d_val ((acc ++ [mkDatum (d_val d) FLAG_DEFAULT]) ++ l) = map d_val (acc ++ d :: l)).
        { rewrite <- app_assoc. rewrite !map_app. reflexivity. }
        rewrite E in IH. rewrite <- app_assoc in IH. cbn [map clean app] in *. apply IH; auto.
        * apply Forall_app; split; auto.
        * rewrite map_app. cbn.
          apply NoDup_incl_NoDup with (l := d_val d :: map d_val acc).
          -- now constructor.
          -- rewrite app_length; cbn; lia.
          -- intros x [<-|Hx]; apply in_or_app; [right; now left|now left].
  Qed.
End Find.

Lemma bad_discrete_iff d : bad_discrete d = false <-> match d_val d with VInt _ | VFloat _ => True | VUnknown t _ => t = 1 \/ t = 2 | _ => False end.
Proof.
  unfold bad_discrete. destruct (d_val d); cbn; try easy.
  unfold TYPE_FLOAT, TYPE_INT. destruct (Z.eqb_spec t 2), (Z.eqb_spec t 1); cbn; intuition (try discriminate; lia).
Qed.
Lemma declarable_iff t vals : Forall wf_datum vals ->
  (if t =? PDISCRETE then existsb bad_discrete vals else existsb bad_value vals) = false <->
  Forall (fun d => declarable t (d_val d)) vals.
Proof.
  intro W. destruct (t =? PDISCRETE) eqn:T.
  - apply Z.eqb_eq in T. subst. induction W as [|d l Hd _ IH]; cbn; [split; auto|].
    rewrite orb_false_iff, IH, Forall_cons_iff. apply and_iff_compat_r.
    rewrite bad_discrete_iff. unfold declarable, wf_datum in *. destruct (d_val d) as [| | | |[]| | |]; cbn in *; intuition (try lia).
  - apply Z.eqb_neq in T. induction W as [|d l Hd _ IH]; cbn; [split; auto|].
    rewrite orb_false_iff, IH, Forall_cons_iff. apply and_iff_compat_r.
    unfold bad_value, declarable, wf_datum in *. destruct (d_val d) as [| | | |[]| | |]; cbn in *; intuition (try discriminate; try lia).
    unfold TYPE_STRING in *. destruct (t0 >? 4) eqn:E; [discriminate|].
    rewrite Z.gtb_ltb in E. apply Z.ltb_ge in E. lia.
Qed.

(** what the categorical constructor does *)
Lemma create_categorical_spec jen t nm vals idx : Forall wf_datum vals -> 0 <= idx ->
  (cat_ok t vals idx /\ create_categorical jen t nm vals idx =
         Ok (mkParam t nm (nth (Z.to_nat idx) (map clean vals) ccs_none)
                     (mkInterval NUM_INT 0 (lenZ vals) true false) 0 (map clean vals))) \/
  (~ cat_ok t vals idx /\ create_categorical jen t nm vals idx = Err ERR_INVALID_VALUE).
Proof.
  intros W Hi. unfold create_categorical, refute, cat_ok.
  pose proof (declarable_iff t vals W) as HD.
  pose proof (insert_values_spec jen vals [] (Forall_nil _) W (NoDup_nil _)) as HI.
  assert (L0 : 0 <= lenZ vals) by (unfold lenZ; lia).
  destruct ((lenZ vals =? 0) || (lenZ vals <=? idx)) eqn:E1; cbn [bind].
  { rewrite orb_true_iff, Z.eqb_eq, Z.leb_le in E1. right. split; [intros (A & _); lia|reflexivity]. }
  rewrite orb_false_iff, Z.eqb_neq, Z.leb_gt in E1.
  destruct (lenZ vals >? INT64_MAX) eqn:E2; cbn [bind].
  { rewrite Z.gtb_ltb, Z.ltb_lt in E2. right. split; [intros (_ & A & _); lia|reflexivity]. }
  rewrite Z.gtb_ltb, Z.ltb_ge in E2.
  destruct (if t =? PDISCRETE then _ else _) eqn:E3; cbn [bind].
  { right. split; [intros (_ & _ & A & _); apply HD in A; discriminate|reflexivity]. }
  assert (D : Forall (fun d => declarable t (d_val d)) vals) by now apply HD.
  cbn [app] in HI. destruct HI as [[N ->]|[N ->]]; cbn [bind].
  - left. split; [tauto|].
    destruct (nth_error (map clean vals) (Z.to_nat idx)) eqn:F.
    + now rewrite (nth_error_nth _ _ _ F).
    + apply nth_error_None in F. rewrite map_length in F. unfold lenZ in *. lia.
  - right. split; [tauto|reflexivity].
Qed.

Lemma create_int_spec nm lo up q def :
  in_signed 64 lo -> in_signed 64 up -> in_signed 64 q -> in_signed 64 def ->
  let fits := lo < up /\ 0 <= q in
  let ok := up - lo <= INT64_MAX /\ q <= up - lo /\ lo <= def < up in
  (fits -> ok -> create_numerical nm NUM_INT lo up q def =
     Ok (mkParam PNUMERICAL nm (ccs_int def) (mkInterval NUM_INT lo up true false) q [])) /\
  (fits -> up - lo > INT64_MAX -> create_numerical nm NUM_INT lo up q def = UB UBOverflow) /\
  (~ fits \/ (up - lo <= INT64_MAX /\ ~ ok) -> create_numerical nm NUM_INT lo up q def = Err ERR_INVALID_VALUE).
Proof.
  intros Hl Hu Hq Hd fits ok. subst fits ok.
  unfold create_numerical. cbn -[INT64_MAX INT64_MIN int_out_of_order].
  unfold int_out_of_order, refute, in_signed in *.
  assert (M : INT64_MIN <= 0 /\ 0 <= INT64_MAX) by easy.
  rewrite Z.geb_leb, !Z.gtb_ltb.
  destruct (Z.leb_spec up lo); [split; [|split]; [lia|lia|reflexivity]|].
  destruct (Z.ltb_spec q 0); [split; [|split]; [lia|lia|reflexivity]|].
  destruct (Z.leb_spec INT64_MIN (up - lo)); [|lia].
  destruct (Z.leb_spec (up - lo) INT64_MAX); cbn [andb negb bind].
  2: { split; [|split]; [lia|reflexivity|lia]. }
  split; [|split]; [|lia|].
  - intros _ (_ & A & B). destruct (Z.ltb_spec (up - lo) q); [lia|].
    destruct (Z.ltb_spec def lo); [lia|]. rewrite Z.geb_leb. destruct (Z.leb_spec up def); [lia|]. reflexivity.
  - intros N. destruct (Z.ltb_spec (up - lo) q); [reflexivity|].
    destruct (Z.ltb_spec def lo); [reflexivity|]. rewrite Z.geb_leb. destruct (Z.leb_spec up def); [reflexivity|lia].
Qed.

Lemma create_float_spec nm lo up q def :
  let ok := ~ kle (fkey up) (fkey lo) /\ ~ klt (fkey q) (fkey 0) /\ ~ klt (fkey (fsub up lo)) (fkey q) /\
            ~ klt (fkey def) (fkey lo) /\ ~ kle (fkey up) (fkey def) in
  (ok -> create_numerical nm NUM_FLOAT lo up q def =
     Ok (mkParam PNUMERICAL nm (ccs_float def) (mkInterval NUM_FLOAT lo up true false) q [])) /\
  (~ ok -> create_numerical nm NUM_FLOAT lo up q def = Err ERR_INVALID_VALUE).
Proof.
  cbn zeta. unfold create_numerical. change (NUM_FLOAT =? NUM_FLOAT) with true. change (NUM_FLOAT =? NUM_INT) with false.
  cbn [negb andb refute bind]. unfold float_out_of_order, fge, fgt, refute.
  rewrite <- !fle_key, <- !flt_key.
  destruct (fle up lo); cbn; [split; intros; intuition congruence|].
  destruct (flt q 0); cbn; [split; intros; intuition congruence|].
  destruct (flt (fsub up lo) q); cbn; [split; intros; intuition congruence|].
  destruct (flt def lo); cbn; [split; intros; intuition congruence|].
  destruct (fle up def); cbn; [split; intros; intuition congruence|].
  split; [reflexivity|]. intros N. exfalso. apply N. repeat split; discriminate.
Qed.
Lemma create_badtype nm t lo up q def : t <> NUM_INT -> t <> NUM_FLOAT ->
  create_numerical nm t lo up q def = Err ERR_INVALID_TYPE.
Proof.
  intros A B. unfold create_numerical. apply Z.eqb_neq in A, B. now rewrite A, B.
Qed.

(** membership *)
Lemma member_half t lo up x : member (mkInterval t lo up true false) x <->
  exists l k u, pos t lo = Some l /\ pos t x = Some k /\ pos t up = Some u /\ l <= k < u.
Proof.
  unfold member, above, below. cbn [i_type i_lower i_upper i_linc i_uinc].
  destruct (pos t x) as [k|]; [|split; [easy|intros (l & k & u & _ & ? & _); discriminate]].
  destruct (pos t lo) as [l|]; [|split; [easy|intros (l & k' & u & ? & _); discriminate]].
  destruct (pos t up) as [u|]; [|split; [easy|intros (l' & k' & u & _ & _ & ? & _); discriminate]].
  split; [intros; exists l, k, u; repeat split; auto; lia|].
  intros (l' & k' & u' & A & B & C & D). injection A as ->. injection B as ->. injection C as ->. lia.
Qed.
Lemma check_numerical jen nm t lo up q def p : create_numerical nm t lo up q def = Ok p ->
  is_num_type t /\
  p = mkParam PNUMERICAL nm (if t =? NUM_FLOAT then ccs_float def else ccs_int def) (mkInterval t lo up true false) q [] /\
  forall v, (check_value jen p v = true <-> num_domain t lo up (d_val v)) /\
    validate_value jen p v = if check_value jen p v then (true, v) else (false, ccs_inactive).
Proof.
  unfold create_numerical. intro H.
  destruct (negb (t =? NUM_FLOAT) && negb (t =? NUM_INT)) eqn:T; [discriminate|]. cbn [refute bind] in H.
  assert (HT : is_num_type t).
  { unfold is_num_type. destruct (Z.eqb_spec t NUM_FLOAT); [right; auto|]. destruct (Z.eqb_spec t NUM_INT); [left; auto|discriminate]. }
  split; [exact HT|].
  destruct (if t =? NUM_INT then int_out_of_order lo up q def else Ok false) as [[|]| |]; try discriminate. cbn [refute bind] in H.
  destruct ((t =? NUM_FLOAT) && float_out_of_order lo up q def); [discriminate|]. cbn [refute bind] in H.
  injection H as <-. split; [reflexivity|]. intro v. split; [|reflexivity].
  unfold check_value. cbn [p_type p_interval]. change (PNUMERICAL =? PNUMERICAL) with true. cbv iota. cbn [i_type].
  unfold num_domain, number. fold NUM_FLOAT.
  destruct (t =? NUM_FLOAT) eqn:F.
  - destruct (d_val v); try (split; [discriminate|intros (x & l & k & u & ? & _); discriminate]).
    rewrite include_member, member_half.
    split; [intros (l & k & u & A & B & C & D); exists bits, l, k, u; auto|].
    intros (x & l & k & u & E & A & B & C & D). injection E as ->. exists l, k, u; auto.
  - destruct (d_val v); try (split; [discriminate|intros (x & l & k & u & ? & _); discriminate]).
    rewrite include_member, member_half.
    split; [intros (l & k & u & A & B & C & D); exists i, l, k, u; auto|].
    intros (x & l & k & u & E & A & B & C & D). injection E as ->. exists l, k, u; auto.
Qed.

Lemma default_numerical jen nm t lo up q def p : create_numerical nm t lo up q def = Ok p ->
  (check_value jen p (p_default p) = true <->
   pos t lo <> None /\ pos t up <> None /\ pos t def <> None).
Proof.
  intro H. destruct (check_numerical jen _ _ _ _ _ _ _ H) as (HT & -> & C).
  rewrite (proj1 (C _)). cbn [p_default]. unfold num_domain.
  assert (V : d_val (if t =? NUM_FLOAT then ccs_float def else ccs_int def) = number t def).
  { unfold number. fold NUM_FLOAT. now destruct (t =? NUM_FLOAT). }
  rewrite V. split.
  - intros (x & l & k & u & E & A & B & D & _). assert (x = def) as ->.
    { unfold number in E. destruct (t =? 2); congruence. }
    rewrite A, B, D. repeat split; discriminate.
  - intros (A & B & D). destruct (pos t lo) as [l|] eqn:PL; [|easy]. destruct (pos t up) as [u|] eqn:PU; [|easy].
    destruct (pos t def) as [k|] eqn:PD; [|easy]. exists def, l, k, u. repeat split; auto.
    + clear C. unfold create_numerical in H. unfold pos in *. destruct HT as [-> | ->]; cbn -[int_out_of_order] in H.
      * injection PL as ->. injection PU as ->. injection PD as ->.
        unfold int_out_of_order in H. destruct (l >=? u); [discriminate|]. destruct (q <? 0); [discriminate|].
        destruct (negb _); [discriminate|]. destruct (Z.ltb_spec k l); [|lia].
        rewrite orb_true_r in H. discriminate.
      * unfold float_out_of_order in H. cbn [Z.eqb Pos.eqb] in *. fold NUM_FLOAT in *.
        destruct (Z.leb_spec l k); [lia|]. exfalso.
        assert (F : flt def lo = true) by (rewrite (flt_pos _ _ _ _ PD PL); now apply Z.ltb_lt).
        rewrite F, orb_true_r in H. discriminate.
    + clear C. unfold create_numerical in H. unfold pos in *. destruct HT as [-> | ->]; cbn -[int_out_of_order] in H.
      * injection PL as ->. injection PU as ->. injection PD as ->.
        unfold int_out_of_order in H. destruct (l >=? u); [discriminate|]. destruct (q <? 0); [discriminate|].
        destruct (negb _); [discriminate|]. rewrite (Z.geb_leb k u) in H. destruct (Z.leb_spec u k); [|lia].
        rewrite orb_true_r in H. discriminate.
      * unfold float_out_of_order in H. cbn [Z.eqb Pos.eqb] in *. fold NUM_FLOAT in *.
        destruct (Z.ltb_spec k u); [lia|]. exfalso.
        assert (F : fge def up = true) by (unfold fge; rewrite (fle_pos _ _ _ _ PU PD); now apply Z.leb_le).
        rewrite F, orb_true_r in H. discriminate.
Qed.

(** ** Categorical parameters *)
Lemma map_clean_val l : map d_val (map clean l) = map d_val l.
Proof. rewrite map_map. reflexivity. Qed.
Lemma nth_clean i l : (i < length l)%nat -> d_val (nth i (map clean l) ccs_none) = d_val (nth i l ccs_none).
Proof.
  intro H. change ccs_none with (clean ccs_none) at 1. now rewrite map_nth.
Qed.
Lemma created_cat_inv jen t nm vals idx p : Forall wf_datum vals -> 0 <= idx ->
  create_categorical jen t nm vals idx = Ok p ->
  p = mkParam t nm (nth (Z.to_nat idx) (map clean vals) ccs_none)
        (mkInterval NUM_INT 0 (lenZ vals) true false) 0 (map clean vals) /\ cat_ok t vals idx.
Proof.
  intros W Hi H. destruct (create_categorical_spec jen t nm vals idx W Hi) as [[A B]|[A B]]; rewrite B in H; [|discriminate].
  injection H as <-. auto.
Qed.

Lemma check_cat_eq jen p v : cat_kind (p_type p) ->
  check_value jen p v = match find_value jen (p_values p) v with Some _ => true | None => false end /\
  validate_value jen p v = match find_value jen (p_values p) v with
                           | Some i => (true, nth i (p_values p) ccs_inactive) | None => (false, ccs_inactive) end.
Proof. unfold check_value, validate_value. now intros [-> | [-> | ->]]. Qed.

Lemma check_categorical jen t nm vals idx p : cat_kind t -> Forall wf_datum vals -> 0 <= idx ->
  create_categorical jen t nm vals idx = Ok p ->
  p_type p = t /\ p_name p = nm /\ p_values p = map clean vals /\
  p_default p = clean (nth (Z.to_nat idx) vals ccs_none) /\
  forall v, wf_datum v ->
   (check_value jen p v = true <-> In (d_val v) (map d_val vals)) /\
   (validate_value jen p v = if check_value jen p v then (true, clean v) else (false, ccs_inactive)).
Proof.
  intros K W Hi H. destruct (created_cat_inv _ _ _ _ _ _ W Hi H) as [-> Hok]. cbn [p_type p_name p_values p_default].
  split; [reflexivity|]. split; [reflexivity|]. split; [reflexivity|]. split.
  { change ccs_none with (clean ccs_none) at 1. now rewrite map_nth. }
  intros v Hv. edestruct check_cat_eq as [-> ->]; [exact K|]. cbn [p_values].
  destruct (find_value jen (map clean vals) v) as [i|] eqn:F.
  - apply find_value_some in F; auto using clean_wf. destruct F as (d & Hd & Hvv & _).
    rewrite (nth_error_nth _ _ _ Hd). apply nth_error_In in Hd. split.
    + split; [|reflexivity]. intros _. rewrite <- Hvv, <- map_clean_val. now apply in_map.
    + apply in_map_iff in Hd. destruct Hd as (e & <- & _). unfold clean in *. cbn in *. now rewrite Hvv.
  - apply find_value_none in F; auto using clean_wf. rewrite map_clean_val in F. split; [|reflexivity].
    split; [discriminate|tauto].
Qed.

Lemma default_categorical jen t nm vals idx p : cat_kind t -> Forall wf_datum vals -> 0 <= idx ->
  create_categorical jen t nm vals idx = Ok p -> check_value jen p (p_default p) = true.
Proof.
  intros K W Hi H. destruct (check_categorical _ _ _ _ _ _ K W Hi H) as (_ & _ & _ & D & C).
  destruct (created_cat_inv _ _ _ _ _ _ W Hi H) as [_ (L & _)].
  assert (I : In (nth (Z.to_nat idx) vals ccs_none) vals) by (apply nth_In; unfold lenZ in L; lia).
  apply C; rewrite D.
  - cbn. rewrite Forall_forall in W. now apply (W _ I).
  - cbn [clean d_val]. now apply in_map.
Qed.

(** string parameters *)
Lemma string_validate_spec jen stored v : wf_datum v -> Forall wf_datum stored -> NoDup (map d_val stored) ->
  Forall (fun d => exists s, d = ccs_string s) stored ->
  exists stored',
    string_validate jen stored v =
      (match d_val v with VString s => (true, ccs_string s) | _ => (false, ccs_inactive) end, stored') /\
    Forall wf_datum stored' /\ NoDup (map d_val stored') /\
    Forall (fun d => exists s, d = ccs_string s) stored' /\
    (forall s, In (VString s) (map d_val stored') <-> In (VString s) (map d_val stored) \/ d_val v = VString s).
Proof.
  intros Wv Ws N T. unfold string_validate.
  assert (Keep : (forall s, d_val v <> VString s) -> forall s : option (list Z),
     In (VString s) (map d_val stored) <-> In (VString s) (map d_val stored) \/ d_val v = VString s).
  { intros Hn s. split; [tauto|]. intros [|C]; [auto|]. now apply Hn in C. }
  destruct (d_val v) as [| | | |s| | |] eqn:EV; try (exists stored; repeat split; auto; try apply Keep; try easy; fail).
  clear Keep. destruct (find_value jen stored v) as [i|] eqn:F.
  - apply find_value_some in F; auto. destruct F as (d & Hd & Hvv & _). exists stored.
    rewrite (nth_error_nth _ _ _ Hd). apply nth_error_In in Hd. split.
    + rewrite Forall_forall in T. destruct (T _ Hd) as (s' & ->). cbn in Hvv. rewrite EV in Hvv. now injection Hvv as ->.
    + repeat (split; [assumption|]). intro s'. split; [tauto|]. intros [|C]; [auto|]. injection C as <-.
      rewrite <- EV, <- Hvv. now apply in_map.
  - apply find_value_none in F; auto. rewrite EV in F. exists (stored ++ [ccs_string s]). split; [reflexivity|].
    split; [apply Forall_app; split; [auto|constructor; [|constructor]]|].
    { unfold wf_datum in *. cbn. now rewrite EV in Wv. }
    split.
    { rewrite map_app. cbn. apply NoDup_incl_NoDup with (l := VString s :: map d_val stored).
      - now constructor.
      - rewrite app_length; cbn; lia.
      - intros x [<-|Hx]; apply in_or_app; [right; now left|now left]. }
    split; [apply Forall_app; split; [auto|constructor; [|constructor]]|].
    { now exists s. }
    intro s'. rewrite map_app, in_app_iff. cbn. intuition.
Qed.

(** ordinal order *)
Lemma nodup_index (l : list datum) i j a b : NoDup (map d_val l) -> nth_error l i = Some a -> nth_error l j = Some b ->
  d_val a = d_val b -> i = j.
Proof.
  intros N Hi Hj E. pose proof (map_nth_error d_val _ _ Hi) as A. pose proof (map_nth_error d_val _ _ Hj) as B.
  rewrite E in A. eapply NoDup_nth_error; eauto; [|congruence].
  apply nth_error_Some. congruence.
Qed.
Lemma find_value_at jen l i d v : Forall wf_datum l -> wf_datum v -> NoDup (map d_val l) ->
  nth_error l i = Some d -> d_val d = d_val v -> find_value jen l v = Some i.
Proof.
  intros W Wv N H E. destruct (find_value jen l v) as [k|] eqn:F.
  - apply find_value_some in F; auto. destruct F as (e & He & Hv & _). f_equal.
    eapply nodup_index; eauto. congruence.
  - apply find_value_none in F; auto. exfalso. apply F. rewrite <- E. apply in_map. eapply nth_error_In; eauto.
Qed.
Lemma ordinal_spec jen nm vals idx p : Forall wf_datum vals -> 0 <= idx ->
  create_categorical jen PORDINAL nm vals idx = Ok p ->
  (forall i j a b u v, nth_error vals i = Some a -> nth_error vals j = Some b -> wf_datum u -> wf_datum v ->
     d_val u = d_val a -> d_val v = d_val b ->
     ordinal_compare jen p u v = Ok (Z.sgn (Z.of_nat i - Z.of_nat j))) /\
  (forall u v, wf_datum u -> wf_datum v -> ~ In (d_val u) (map d_val vals) \/ ~ In (d_val v) (map d_val vals) ->
     ordinal_compare jen p u v = Err ERR_INVALID_VALUE).
Proof.
  intros W Hi H. destruct (created_cat_inv _ _ _ _ _ _ W Hi H) as [-> (_ & _ & _ & N)].
  unfold ordinal_compare. cbn [p_type p_values]. change (negb (PORDINAL =? PORDINAL)) with false. cbn [refute bind].
  assert (Wc := clean_wf _ W). assert (Nc : NoDup (map d_val (map clean vals))) by now rewrite map_clean_val.
  split.
  - intros i j a b u v A B Wu Wv Eu Ev.
    rewrite (find_value_at jen _ i (clean a) u), (find_value_at jen _ j (clean b) v); auto using map_nth_error.
    f_equal. destruct (Nat.ltb_spec i j); [lia|]. destruct (Nat.ltb_spec j i); lia.
  - intros u v Wu Wv O. rewrite <- map_clean_val in O.
    rewrite <- (find_value_none jen _ u), <- (find_value_none jen _ v) in O; auto.
    destruct O as [-> | ->]; [reflexivity|]. now destruct (find_value jen (map clean vals) u).
Qed.

(** listing values *)
Lemma nth_update {A} (a : list A) i d : (i < length a)%nat ->
  length (firstn i a ++ d :: skipn (S i) a) = length a /\
  forall j, nth_error (firstn i a ++ d :: skipn (S i) a) j = if (j =? i)%nat then Some d else nth_error a j.
Proof.
  intro H. split. { rewrite app_length, firstn_length, Nat.min_l by lia. cbn [length]. rewrite skipn_length. lia. }
  intro j. destruct (Nat.eqb_spec j i) as [->|Hne].
  - rewrite nth_error_app2; rewrite firstn_length, Nat.min_l by lia; [|lia]. now rewrite Nat.sub_diag.
  - destruct (Nat.lt_ge_cases j i).
    + rewrite nth_error_app1 by (rewrite firstn_length; lia).
      rewrite <- (firstn_skipn i a) at 2. rewrite nth_error_app1; [reflexivity|rewrite firstn_length; lia].
    + rewrite nth_error_app2; rewrite firstn_length, Nat.min_l by lia; [|lia].
      destruct (j - i)%nat as [|k] eqn:E; [lia|]. cbn [nth_error].
      rewrite <- (firstn_skipn (S i) a) at 2. rewrite nth_error_app2; rewrite firstn_length, Nat.min_l by lia; [|lia].
      f_equal. lia.
Qed.
Lemma set_slot_ok a i d : (i < length a)%nat -> exists a', set_slot a i d = Ok a' /\ length a' = length a /\
  forall j, nth_error a' j = if (j =? i)%nat then Some d else nth_error a j.
Proof.
  intro H. unfold set_slot. apply Nat.ltb_lt in H as H'. rewrite H'. eexists. split; [reflexivity|]. now apply nth_update.
Qed.
Lemma copy_values_ok vs : forall i a, (i + length vs <= length a)%nat ->
  exists a', copy_values vs i a = Ok a' /\ length a' = length a /\
    forall j, nth_error a' j = if (i <=? j)%nat && (j <? i + length vs)%nat then nth_error vs (j - i) else nth_error a j.
Proof.
  induction vs as [|v vs IH]; intros i a H; cbn [copy_values].
  - exists a. split; [reflexivity|split; [reflexivity|]]. intro j. cbn [length].
    destruct (Nat.leb_spec i j), (Nat.ltb_spec j (i + 0)); cbn; auto; lia.
  - cbn [length] in *. destruct (set_slot_ok a i v) as (a1 & -> & L1 & E1); [lia|]. cbn [bind].
    destruct (IH (S i) a1) as (a2 & -> & L2 & E2); [lia|]. exists a2. split; [reflexivity|split; [congruence|]].
    intro j. rewrite E2, E1. destruct (Nat.eqb_spec j i) as [->|Hne].
    + destruct (Nat.leb_spec (S i) i); [lia|]. cbn [andb].
      destruct (Nat.leb_spec i i); [|lia]. destruct (Nat.ltb_spec i (i + S (length vs))); [|lia]. cbn. now rewrite Nat.sub_diag.
    + destruct (Nat.leb_spec (S i) j), (Nat.leb_spec i j), (Nat.ltb_spec j (S i + length vs)), (Nat.ltb_spec j (i + S (length vs)));
        cbn [andb]; try lia; auto.
      replace (j - i)%nat with (S (j - S i)) by lia. reflexivity.
Qed.
Lemma nth_error_eq {A} (l m : list A) : (forall j, nth_error l j = nth_error m j) -> l = m.
Proof.
  revert m. induction l as [|x l IH]; intros m H.
  - destruct m; [reflexivity|]. specialize (H 0%nat). discriminate.
  - destruct m as [|y m]; [specialize (H 0%nat); discriminate|].
    pose proof (H 0%nat) as E. cbn in E. injection E as ->. f_equal. apply IH. intro j. apply (H (S j)).
Qed.
Lemma get_values_spec t p a : p_type p = t ->
  get_possible_values t p None = Ok (None, lenZ (p_values p)) /\
  ((length a < length (p_values p))%nat -> get_possible_values t p (Some a) = Err ERR_INVALID_VALUE) /\
  ((length (p_values p) <= length a)%nat ->
     get_possible_values t p (Some a) =
       Ok (Some (p_values p ++ skipn (length (p_values p)) a), lenZ (p_values p))).
Proof.
  intros <-. unfold get_possible_values. rewrite Z.eqb_refl. cbn [negb refute bind].
  split; [reflexivity|]. split; intro H.
  - apply Nat.ltb_lt in H. now rewrite H.
  - destruct (Nat.ltb_spec (length a) (length (p_values p))); [lia|]. cbn [refute bind].
    destruct (copy_values_ok (p_values p) 0 a) as (a' & -> & L & E); [lia|]. cbn [bind].
    replace (length (p_values p) - length a)%nat with 0%nat by lia. cbn [none_values bind].
    do 3 f_equal. apply nth_error_eq. intro j. rewrite E. cbn [Nat.leb andb Nat.add].
    destruct (Nat.ltb_spec j (length (p_values p))).
    + rewrite nth_error_app1 by lia. f_equal. lia.
    + rewrite nth_error_app2 by lia.
      rewrite <- (firstn_skipn (length (p_values p)) a) at 1.
      rewrite nth_error_app2; rewrite firstn_length, Nat.min_l by lia; [reflexivity|lia].
Qed.

Lemma check_string jen nm v : wf_datum v -> (check_value jen (create_string nm) v = true <-> exists s, d_val v = VString s).
Proof.
  intro W. unfold wf_datum in W. unfold check_value, create_string. cbn [p_type]. change (PSTRING =? PNUMERICAL) with false.
  change (PSTRING =? PSTRING) with true. cbv iota. unfold type_of.
  destruct (d_val v) eqn:E; cbn; split; intros H; try discriminate; try (destruct H; discriminate); eauto.
  cbn in W. apply Z.eqb_eq in H. unfold TYPE_STRING in H. lia.
Qed.
Lemma get_values_other t p arr : p_type p <> t -> get_possible_values t p arr = Err ERR_INVALID_PARAMETER.
Proof. intro H. unfold get_possible_values. destruct (Z.eqb_spec (p_type p) t); easy. Qed.
