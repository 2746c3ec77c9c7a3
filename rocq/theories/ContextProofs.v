From Coq Require Import ZArith List Bool Lia Arith.
From Verif Require Import Base Datum CodecModel CodecSpec CmpModel CmpSpec CmpProofs IntervalSpec.
From Verif Require Import ParamModel ParamSpec ParamProofs ContextModel ContextSpec.
Import ListNotations.
Open Scope Z_scope.

Lemma bytes_eqb_eq a : forall b, bytes_eqb a b = true <-> a = b.
Proof.
  induction a as [|x a IH]; destruct b as [|y b]; cbn; try easy.
  rewrite andb_true_iff, IH, Z.eqb_eq. split; [intros [-> ->]|intros [= -> ->]]; auto.
Qed.

Lemma nodup_snoc {A} (l : list A) x : NoDup l -> ~ In x l -> NoDup (l ++ [x]).
Proof.
  intros N H. induction l as [|y l IH]; cbn; [constructor; auto; constructor|].
  inversion N; subst. constructor.
  - rewrite in_app_iff. cbn. intros [X|[X|[]]]; [contradiction|]. subst. apply H. now left.
  - apply IH; auto. intro X. apply H. now right.
Qed.

Section Heap.
  Variable heap : Z -> param.
  Notation name_of := (name_of heap).

  Fixpoint entries (l : list Z) (i : nat) : list entry :=
    match l with [] => [] | h :: l' => mkEntry h (name_of h) i :: entries l' (S i) end.
  Lemma entries_app l m : forall i, entries (l ++ m) i = entries l i ++ entries m (i + length l).
  Proof.
    induction l as [|x l IH]; intro i; cbn [entries app length].
    - now rewrite Nat.add_0_r.
    - rewrite IH. replace (S i + length l)%nat with (i + S (length l))%nat by lia. reflexivity.
  Qed.
  Lemma find_entries (f : Z -> bool) l : forall i j h,
    (forall x y, In x l -> In y l -> f x = true -> f y = true -> x = y) ->
    NoDup l -> nth_error l j = Some h -> f h = true ->
    find (fun e => f (e_param e)) (entries l i) = Some (mkEntry h (name_of h) (i + j)).
  Proof.
    induction l as [|x l IH]; intros i j h U ND H F; [now destruct j|]. cbn.
    inversion ND; subst. destruct (f x) eqn:E.
    - destruct j as [|j].
      + injection H as ->. now rewrite Nat.add_0_r.
      + exfalso. cbn in H. apply nth_error_In in H. assert (x = h) by (apply U; cbn; auto). subst. contradiction.
    - destruct j as [|j]; [injection H as ->; congruence|].
      rewrite (IH (S i) j h); auto; [do 2 f_equal; lia|]. intros; apply U; cbn; auto.
  Qed.
  Lemma find_entries_none (f : Z -> bool) l : forall i, (forall x, In x l -> f x = false) ->
    find (fun e => f (e_param e)) (entries l i) = None.
  Proof.
    induction l as [|x l IH]; intros i H; [reflexivity|]. cbn. rewrite H by now left. apply IH. intros; apply H; now right.
  Qed.

  (** the representation invariant *)
  Definition good (c : context) (A : list Z) : Prop :=
    c_params c = A /\ c_hash c = entries A 0 /\ NoDup (map name_of A).
  Lemma find_ext_entries (f g : entry -> bool) l : forall i, (forall h j, In h l -> f (mkEntry h (name_of h) j) = g (mkEntry h (name_of h) j)) ->
    find f (entries l i) = find g (entries l i).
  Proof.
    induction l as [|x l IH]; intros i H; [reflexivity|]. cbn. rewrite H by now left.
    destruct (g _); [reflexivity|]. apply IH. intros; apply H; now right.
  Qed.
  Lemma nodup_names l x y : NoDup (map name_of l) -> In x l -> In y l -> name_of x = name_of y -> x = y.
  Proof.
    induction l as [|z l IH]; [easy|]. cbn. intros ND [-> | X] [-> | Y] E; inversion ND; subst; auto.
    - exfalso. apply H1. rewrite E. now apply in_map.
    - exfalso. apply H1. rewrite <- E. now apply in_map.
  Qed.
  Lemma good_find_name c A : good c A ->
    (forall h i, nth_error A i = Some h -> find_name c (name_of h) = Some (mkEntry h (name_of h) i)) /\
    (forall n, ~ In n (map name_of A) -> find_name c n = None).
  Proof.
    intros (_ & H & ND). unfold find_name. rewrite H. pose proof (NoDup_map_inv _ _ ND) as NA. split.
    - intros h i Hi.
      rewrite (find_ext_entries _ (fun e => bytes_eqb (name_of (e_param e)) (name_of h))) by reflexivity.
      rewrite (find_entries (fun x => bytes_eqb (name_of x) (name_of h)) A 0 i h); auto.
      + intros x y X Y B C. apply bytes_eqb_eq in B, C. apply (nodup_names A); auto. congruence.
      + now apply bytes_eqb_eq.
    - intros n N. rewrite (find_ext_entries _ (fun e => bytes_eqb (name_of (e_param e)) n)) by reflexivity.
      apply (find_entries_none (fun x => bytes_eqb (name_of x) n)). intros x X.
      destruct (bytes_eqb (name_of x) n) eqn:E; [|reflexivity]. apply bytes_eqb_eq in E. exfalso. apply N. subst. now apply in_map.
  Qed.
  Lemma good_find_handle c A : good c A ->
    (forall h i, nth_error A i = Some h -> find_handle c h = Some (mkEntry h (name_of h) i)) /\
    (forall h, ~ In h A -> find_handle c h = None).
  Proof.
    intros (_ & H & ND). unfold find_handle. rewrite H. pose proof (NoDup_map_inv _ _ ND) as NA. split.
    - intros h i Hi. rewrite (find_entries (fun x => x =? h) A 0 i h); auto.
      + intros x y X Y B C. apply Z.eqb_eq in B, C. congruence.
      + apply Z.eqb_refl.
    - intros h N. apply (find_entries_none (fun x => x =? h)). intros x X. apply Z.eqb_neq. intros ->. contradiction.
  Qed.

  Lemma add_spec k c A h dim : good c A ->
    exists r B, admits heap k A h dim r B /\ fst (add_parameter heap k c h dim) = r /\ good (snd (add_parameter heap k c h dim)) B.
  Proof.
    intro G. destruct (good_find_name c A G) as [F1 F2]. unfold add_parameter. fold (name_of h).
    destruct (match k with KConfiguration => p_type (heap h) =? PSTRING | _ => false end) eqn:S.
    - exists ERR_INVALID_PARAMETER, A. split; [|now split]. destruct k; try discriminate. apply Z.eqb_eq in S. now apply no_string.
    - assert (NS : ~ (k = KConfiguration /\ p_type (heap h) = PSTRING)).
      { intros [-> E]. apply Z.eqb_neq in S. contradiction. }
      destruct (in_dec (list_eq_dec Z.eq_dec) (name_of h) (map name_of A)) as [I|I].
      + exists ERR_INVALID_PARAMETER, A. apply in_map_iff in I. destruct I as (g & E & I).
        destruct (In_nth_error _ _ I) as [i Hi]. rewrite <- E, (F1 g i Hi). split; [|now split].
        apply name_taken; eauto.
      + rewrite (F2 _ I).
        assert (NT : ~ (exists g, In g A /\ name_of g = name_of h)).
        { intros (g & X & E). apply I. rewrite <- E. now apply in_map. }
        assert (GP : good (push_parameter heap c h) (A ++ [h])).
        { destruct G as (P & H & ND). unfold push_parameter, good. cbn. rewrite P, H, entries_app, map_app.
          split; [reflexivity|]. split; [reflexivity|]. cbn. now apply nodup_snoc. }
        destruct k; [destruct dim as [d|]; [destruct (Z.eqb_spec d 1)|]| |].
        * exists 0, (A ++ [h]). split; [|now split]. subst. apply added; auto.
        * exists ERR_INVALID_DISTRIBUTION, A. split; [|now split]. apply bad_dimension with d; auto.
        * exists 0, (A ++ [h]). split; [|now split]. apply added; auto.
        * exists 0, (A ++ [h]). split; [|now split]. apply added; auto. discriminate.
        * exists 0, (A ++ [h]). split; [|now split]. apply added; auto. discriminate.
  Qed.

  Lemma run_spec k l : forall c A, good c A ->
    exists cs c' B, add_run heap k c l = (cs, c') /\ space_run heap k A l cs B /\ good c' B.
  Proof.
    induction l as [|[h dim] l IH]; intros c A G.
    - exists [], c, A. split; [reflexivity|]. split; [constructor|exact G].
    - destruct (add_spec k c A h dim G) as (r & B & Ad & E & GB). cbn [add_run].
      destruct (add_parameter heap k c h dim) as [r' c1]. cbn in E, GB. subst r'.
      destruct (IH c1 B GB) as (cs & c' & C & R & S & GC). rewrite R.
      exists (r :: cs), c', C. split; [reflexivity|]. split; [econstructor; eauto|exact GC].
  Qed.
  Lemma admits_code k A h dim r B : admits heap k A h dim r B -> r = 0 \/ (r <> 0 /\ B = A).
  Proof. intros []; auto; right; split; auto; discriminate. Qed.
  Lemma adds_spec k l : forall c A, good c A ->
    exists r c' B, add_parameters heap k c l = (r, c') /\ space_adds heap k A l r B /\ good c' B.
  Proof.
    induction l as [|[h dim] l IH]; intros c A G.
    - exists 0, c, A. split; [reflexivity|]. split; [constructor|exact G].
    - destruct (add_spec k c A h dim G) as (r & B & Ad & E & GB). cbn [add_parameters].
      destruct (add_parameter heap k c h dim) as [r' c1]. cbn in E, GB. subst r'.
      unfold CCS_RESULT_SUCCESS. destruct (Z.eqb_spec r 0) as [->|N].
      + destruct (IH c1 B GB) as (r & c' & C & R & S & GC). rewrite R.
        exists r, c', C. split; [reflexivity|]. split; [eapply adds_ok; eauto|exact GC].
      + exists r, c1, B. split; [reflexivity|]. split; [now apply adds_fail|exact GB].
  Qed.

  Lemma good_describes c A : good c A -> describes heap c A.
  Proof.
    intro G. destruct (good_find_name c A G) as [N1 N2]. destruct (good_find_handle c A G) as [H1 H2].
    pose proof G as (P & H & ND). unfold describes.
    split; [exact ND|]. split.
    { intro n. unfold get_parameters. rewrite P. now destruct (n <? length A)%nat. }
    split; [unfold get_parameters; now rewrite P|].
    split.
    { intros i Hi. unfold get_parameter. rewrite P. unfold wrap. now rewrite Z.mod_small by exact Hi. }
    assert (I1 : forall h i, nth_error A i = Some h -> get_index c h = Ok i).
    { intros h i Hi. unfold get_index. now rewrite (H1 h i Hi). }
    assert (I2 : forall h, ~ In h A -> get_index c h = Err ERR_INVALID_PARAMETER).
    { intros h Hi. unfold get_index. now rewrite (H2 h Hi). }
    split; [exact I1|]. split; [exact I2|]. split.
    { intros h i Hi. unfold get_by_name, get_index_by_name. now rewrite (N1 h i Hi). }
    split.
    { intros n Hn. unfold get_by_name, get_index_by_name. now rewrite (N2 n Hn). }
    split.
    { intros hs is F. induction F as [|h i hs is Hi F IH]; [reflexivity|]. cbn. rewrite (I1 h i Hi), IH. reflexivity. }
    { intros hs F. induction hs as [|h hs IH]; [exfalso; apply F; constructor|]. cbn.
      destruct (in_dec Z.eq_dec h A) as [I|I].
      - destruct (In_nth_error _ _ I) as [i Hi]. rewrite (I1 h i Hi). cbn. rewrite IH; [reflexivity|].
        intro F'. apply F. now constructor.
      - now rewrite (I2 h I). }
  Qed.
  Lemma good_new nm : good (new_context nm) [].
  Proof. split; [reflexivity|]. split; [reflexivity|constructor]. Qed.

  Lemma context_history k nm l : exists cs c A, add_run heap k (new_context nm) l = (cs, c) /\
    space_run heap k [] l cs A /\ describes heap c A.
  Proof.
    destruct (run_spec k l _ _ (good_new nm)) as (cs & c & B & R & S & G).
    exists cs, c, B. split; [exact R|]. split; [exact S|]. now apply good_describes.
  Qed.
  Lemma context_adds k nm l m : exists cs c A r c' B, add_run heap k (new_context nm) l = (cs, c) /\
    space_run heap k [] l cs A /\ add_parameters heap k c m = (r, c') /\ space_adds heap k A m r B /\ describes heap c' B.
  Proof.
    destruct (run_spec k l _ _ (good_new nm)) as (cs & c & A & R & S & G).
    destruct (adds_spec k m c A G) as (r & c' & B & R' & S' & G').
    exists cs, c, A, r, c', B. repeat (split; [assumption|]). now apply good_describes.
  Qed.

  (** *** bindings *)
  Variable jen : list Z -> Z.
  Lemma created_validate p v : created jen p -> wf_datum v -> p_type p <> PSTRING ->
    (domain p (d_val v) /\ validate_value jen p v = (true, if p_type p =? PNUMERICAL then v else clean v)) \/
    (~ domain p (d_val v) /\ exists w, validate_value jen p v = (false, w)).
  Proof.
    intros C Wv NS. destruct C as [nm t lo up q def p' N M1 M2 M3 M4 H | t nm vals idx p' K N W Hi H | nm N].
    - destruct (check_numerical jen _ _ _ _ _ _ _ H) as (T & E & D). destruct (D v) as [D1 D2].
      assert (DD : domain p' (d_val v) <-> num_domain t lo up (d_val v)) by (rewrite E; reflexivity).
      rewrite DD. rewrite D2. destruct (check_value jen p' v) eqn:CV.
      + left. split; [now apply D1|]. now rewrite E.
      + right. split; [|eauto]. intro X. apply D1 in X. discriminate.
    - destruct (check_categorical jen t nm vals idx p' K W Hi H) as (T & _ & V & _ & D). destruct (D v Wv) as [D1 D2].
      assert (PN : (p_type p' =? PNUMERICAL) = false /\ (p_type p' =? PSTRING) = false).
      { rewrite T. now destruct K as [-> | [-> | ->]]. }
      assert (DD : domain p' (d_val v) <-> In (d_val v) (map d_val vals)).
      { unfold domain. destruct PN as [-> ->]. rewrite V, map_map. cbn. reflexivity. }
      rewrite DD. rewrite D2. destruct PN as [-> _]. destruct (check_value jen p' v) eqn:CV.
      + left. split; [now apply D1|reflexivity].
      + right. split; [|eauto]. intro X. apply D1 in X. discriminate.
    - easy.
  Qed.

  Lemma nth_firstn {T} (l : list T) : forall i j, (j < i)%nat -> nth_error (firstn i l) j = nth_error l j.
  Proof. induction l; intros [|i] [|j] H; try lia; cbn; auto. apply IHl. lia. Qed.
  Lemma nth_skipn {T} (l : list T) : forall i j, nth_error (skipn i l) j = nth_error l (i + j).
  Proof. induction l; intros [|i] j; cbn; auto. now destruct j. Qed.
  Section Binding.
    Variable c : context.
    Variable A : list Z.
    Hypothesis G : good c A.
    Hypothesis OK : forall h, In h A -> created jen (heap h).
    Definition check_one (i : nat) (v : datum) : Z * datum :=
      if transient v then ctx_validate heap jen c i v else (CCS_RESULT_SUCCESS, v).
    Lemma check_one_spec i v : wf_datum v ->
      exists r w, check_one i v = (r, w) /\ stored heap A i v r w.
    Proof.
      intro W. unfold check_one, transient. destruct (Z.testbit (d_flags v) 0) eqn:T.
      2: { exists 0, v. split; [reflexivity|now constructor]. }
      unfold ctx_validate. pose proof G as (P & _). rewrite P. destruct (nth_error A i) as [h|] eqn:N.
      2: { exists ERR_OUT_OF_BOUNDS, v. split; [reflexivity|now constructor]. }
      pose proof (OK h (nth_error_In _ _ N)) as C.
      destruct (Z.eqb_spec (p_type (heap h)) PSTRING) as [S|S].
      - assert (D : domain (heap h) (d_val v) <-> exists s, d_val v = VString s).
        { unfold domain. rewrite S. reflexivity. }
        destruct (d_val v) as [| | | |s| | |] eqn:E.
        5: { exists 0, (ccs_string s). split; [reflexivity|].
             replace (ccs_string s) with (if p_type (heap h) =? PNUMERICAL then v else clean v).
             - apply checked; auto. rewrite E. apply D. eauto.
             - rewrite S. change (PSTRING =? PNUMERICAL) with false. unfold clean. now rewrite E. }
        all: exists ERR_INVALID_VALUE, v; split; [reflexivity|]; apply refused with h; auto;
          rewrite E; intro X; apply D in X; destruct X; discriminate.
      - destruct (created_validate (heap h) v C W S) as [[D E]|[D [w E]]]; rewrite E.
        + exists 0, (if p_type (heap h) =? PNUMERICAL then v else clean v). split; [reflexivity|]. now apply checked.
        + exists ERR_INVALID_VALUE, w. split; [reflexivity|]. now apply refused with h.
    Qed.
    Lemma store_replaced vals i w : (i < length vals)%nat -> replaced vals i w (store vals i w).
    Proof.
      intro H. unfold store. split; [|split].
      - rewrite app_length, firstn_length. cbn [length]. rewrite skipn_length. lia.
      - rewrite nth_error_app2 by (rewrite firstn_length; lia). rewrite firstn_length.
        replace (i - Nat.min i (length vals))%nat with O by lia. reflexivity.
      - intros j Hj. destruct (Nat.lt_ge_cases j i).
        + rewrite nth_error_app1 by (rewrite firstn_length; lia). now apply nth_firstn.
        + rewrite nth_error_app2 by (rewrite firstn_length; lia). rewrite firstn_length.
          replace (j - Nat.min i (length vals))%nat with (S (j - S i)) by lia. cbn [nth_error].
          rewrite nth_skipn. f_equal. lia.
    Qed.

    Lemma bset_spec o vals i v : wf_datum v -> target heap A o i -> given o = [v] ->
      exists r vals', bset heap jen c vals i v = (r, vals') /\ effect heap A vals o r vals'.
    Proof.
      intros W T Gi. unfold bset. destruct (Nat.leb_spec (length vals) i) as [L|L].
      - exists ERR_OUT_OF_BOUNDS, vals. split; [reflexivity|]. now apply eff_range with i.
      - change (if transient v then ctx_validate heap jen c i v else (CCS_RESULT_SUCCESS, v)) with (check_one i v).
        destruct (check_one_spec i v W) as (r & w & E & S). rewrite E. unfold CCS_RESULT_SUCCESS.
        destruct (Z.eqb_spec r 0) as [->|N].
        + exists 0, (store vals i w). split; [reflexivity|]. apply eff_set with i v w; auto. now apply store_replaced.
        + exists r, vals. split; [reflexivity|]. now apply eff_refused with i v w.
    Qed.
    Lemma loop_spec vs : forall vals i, Forall wf_datum vs -> length vals = (i + length vs)%nat ->
      exists r vals', bset_loop heap jen c vals i vs = (r, vals') /\ length vals' = length vals /\
        (forall j, (j < i)%nat -> nth_error vals' j = nth_error vals j) /\
        ((r = 0 /\ forall k v, nth_error vs k = Some v -> exists w, stored heap A (i + k) v 0 w /\ nth_error vals' (i + k) = Some w) \/
         exists k v w, nth_error vs k = Some v /\ stored heap A (i + k) v r w /\ r <> 0 /\
           (forall l v, (l < k)%nat -> nth_error vs l = Some v -> exists w, stored heap A (i + l) v 0 w /\ nth_error vals' (i + l) = Some w) /\
           (forall j, (i + k <= j)%nat -> nth_error vals' j = nth_error vals j)).
    Proof.
      induction vs as [|v vs IH]; intros vals i W L; cbn [bset_loop].
      - exists 0, vals. split; [reflexivity|]. split; [reflexivity|]. split; [auto|]. left. split; [reflexivity|].
        intros [|k] v H; discriminate.
      - change (if transient v then ctx_validate heap jen c i v else (CCS_RESULT_SUCCESS, v)) with (check_one i v).
        inversion W as [|? ? Wv Wvs]; subst. cbn [length] in L.
        destruct (check_one_spec i v Wv) as (r & w & E & S). rewrite E. unfold CCS_RESULT_SUCCESS.
        destruct (Z.eqb_spec r 0) as [->|N].
        + assert (Hi : (i < length vals)%nat) by lia. destruct (store_replaced vals i w Hi) as (R1 & R2 & R3).
          destruct (IH (store vals i w) (Datatypes.S i) Wvs) as (r & vals' & E' & L' & K & [[-> H]|(k & v' & w' & H1 & H2 & H3 & H4 & H5)]).
          { rewrite R1. lia. }
          * exists 0, vals'. split; [exact E'|]. split; [congruence|].
            split; [intros j Hj; rewrite K by lia; apply R3; lia|]. left. split; [reflexivity|].
            intros [|k] v' H'; cbn in H'.
            -- injection H' as <-. exists w. rewrite Nat.add_0_r. split; [exact S|]. rewrite K by lia. exact R2.
            -- replace (i + Datatypes.S k)%nat with (Datatypes.S i + k)%nat by lia. now apply H.
          * exists r, vals'. split; [exact E'|]. split; [congruence|].
            split; [intros j Hj; rewrite K by lia; apply R3; lia|]. right.
            exists (Datatypes.S k), v', w'. split; [exact H1|].
            replace (i + Datatypes.S k)%nat with (Datatypes.S i + k)%nat by lia. split; [exact H2|]. split; [exact H3|]. split.
            -- intros [|l] v0 Hl Hv; cbn in Hv.
               ++ injection Hv as <-. exists w. rewrite Nat.add_0_r. split; [exact S|]. rewrite K by lia. exact R2.
               ++ replace (i + Datatypes.S l)%nat with (Datatypes.S i + l)%nat by lia. apply H4; [lia|exact Hv].
            -- intros j Hj. rewrite H5 by exact Hj. apply R3. lia.
        + exists r, vals. split; [reflexivity|]. split; [reflexivity|]. split; [auto|]. right.
          exists O, v, w. rewrite Nat.add_0_r. split; [reflexivity|]. split; [exact S|]. split; [exact N|].
          split; [intros; lia|auto].
    Qed.
    Definition wf_bop (o : bop) : Prop := Forall wf_datum (given o).
    Lemma bstep_spec vals o : wf_bop o -> exists r vals', bstep heap jen c vals o = (r, vals') /\ effect heap A vals o r vals'.
    Proof.
      destruct (good_find_name c A G) as [N1 N2]. destruct (good_find_handle c A G) as [H1 H2].
      intro W. destruct o as [i v|n v|h v|vs]; cbn [bstep].
      - inversion W; subst. now apply bset_spec.
      - inversion W; subst. unfold bset_name. destruct (in_dec (list_eq_dec Z.eq_dec) n (map name_of A)) as [I|I].
        + apply in_map_iff in I. destruct I as (h & <- & I). destruct (In_nth_error _ _ I) as [i Hi].
          rewrite (N1 h i Hi). cbn [e_index]. apply bset_spec; auto. exists h. auto.
        + rewrite (N2 n I). exists ERR_INVALID_NAME, vals. split; [reflexivity|]. apply eff_none. split; auto.
      - inversion W; subst. unfold bset_param. destruct (in_dec Z.eq_dec h A) as [I|I].
        + destruct (In_nth_error _ _ I) as [i Hi]. rewrite (H1 h i Hi). cbn [e_index]. now apply bset_spec.
        + rewrite (H2 h I). exists ERR_INVALID_PARAMETER, vals. split; [reflexivity|]. apply eff_none. split; auto.
      - unfold bset_values. destruct (Nat.eqb_spec (length vs) (length vals)) as [L|L].
        + destruct (loop_spec vs vals O W) as (r & vals' & E & L' & _ & [[-> H]|(k & v & w & K1 & K2 & K3 & K4 & K5)]); [lia| |].
          * exists 0, vals'. split; [exact E|]. apply eff_all; auto.
          * exists r, vals'. split; [exact E|]. eapply eff_some; eauto.
        + exists ERR_INVALID_VALUE, vals. split; [reflexivity|]. now apply eff_length.
    Qed.
    Lemma brun_spec os : forall vals, Forall wf_bop os ->
      exists rs vals', brun heap jen c vals os = (rs, vals') /\ effects heap A vals os rs vals'.
    Proof.
      induction os as [|o os IH]; intros vals W; cbn [brun].
      - exists [], vals. split; [reflexivity|constructor].
      - inversion W; subst. destruct (bstep_spec vals o) as (r & v1 & E & S); [assumption|]. rewrite E.
        destruct (IH v1) as (rs & v2 & E2 & S2); [assumption|]. rewrite E2.
        exists (r :: rs), v2. split; [reflexivity|]. econstructor; eauto.
    Qed.
    Lemma create_spec vs : Forall wf_datum vs ->
      creates heap A vs (create_binding heap jen c (Some vs)).
    Proof.
      intro W. unfold create_binding. pose proof G as (P & _). rewrite P.
      destruct (Nat.eqb_spec (length A) (length vs)) as [L|L]; cbn; [|now apply cr_length].
      destruct (loop_spec vs vs O W) as (r & vals' & E & L' & _ & [[-> H]|(k & v & w & K1 & K2 & K3 & K4 & K5)]); [lia| |].
      - rewrite E. cbn. apply cr_ok; [congruence|]. exact H.
      - rewrite E. unfold CCS_RESULT_SUCCESS. destruct (Z.eqb_spec r 0) as [?|_]; [contradiction|].
        apply cr_refused with k v w; auto. intros i v' Hi Hv. destruct (K4 i v' Hi Hv) as (w' & S & _). eauto.
    Qed.
    Lemma create_none : create_binding heap jen c None = Ok (repeat ccs_none (length A)).
    Proof. unfold create_binding. pose proof G as (P & _). now rewrite P. Qed.
    Lemma reads_spec vals : reads_as heap c A vals.
    Proof.
      destruct (good_find_name c A G) as [N1 N2]. destruct (good_find_handle c A G) as [H1 H2].
      split.
      { intros i h Hi. unfold bget_name, bget_param, get_index_by_name, get_index. rewrite (N1 h i Hi), (H1 h i Hi). cbn. auto. }
      split.
      { intros n Hn. unfold bget_name, get_index_by_name. now rewrite (N2 n Hn). }
      { intros h Hh. unfold bget_param, get_index. now rewrite (H2 h Hh). }
    Qed.
  End Binding.
End Heap.

(** From the empty context *)
Lemma space_run_snoc heap k A l rs B h dim r C : space_run heap k A l rs B -> admits heap k B h dim r C ->
  space_run heap k A (l ++ [(h, dim)]) (rs ++ [r]) C.
Proof. intro R. induction R; intro H1; cbn; [econstructor; [exact H1|constructor]|econstructor; eauto]. Qed.
Lemma space_run_in heap k A l rs B : space_run heap k A l rs B -> forall h, In h B -> In h A \/ In h (map fst l).
Proof.
  intro R. induction R as [A|A h dim r B l rs C Ad R IH]; intros g Hg; [auto|].
  destruct (IH g Hg) as [X|X]; [|cbn; auto]. inversion Ad; subst; auto.
  apply in_app_or in X. destruct X as [X|[<-|[]]]; cbn; auto.
Qed.
Lemma binding_history heap jen k nm l vs os : (forall h, In h (map fst l) -> created jen (heap h)) ->
  match vs with Some v => Forall wf_datum v | None => True end -> Forall wf_bop os ->
  exists cs c A, add_run heap k (new_context nm) l = (cs, c) /\ space_run heap k [] l cs A /\
    match vs with
    | None => create_binding heap jen c None = Ok (repeat ccs_none (length A))
    | Some v => creates heap A v (create_binding heap jen c (Some v))
    end /\
    forall vals, create_binding heap jen c vs = Ok vals ->
      exists rs vals', brun heap jen c vals os = (rs, vals') /\ effects heap A vals os rs vals' /\
        reads_as heap c A vals'.
Proof.
  intros OK Wv Wo. destruct (run_spec heap k l _ _ (good_new heap nm)) as (cs & c & A & R & S & G).
  assert (OK' : forall h, In h A -> created jen (heap h)).
  { intros h Hh. destruct (space_run_in _ _ _ _ _ _ S h Hh) as [[]|X]. now apply OK. }
  exists cs, c, A. split; [exact R|]. split; [exact S|]. split.
  - destruct vs as [v|]; [now apply create_spec|now apply create_none].
  - intros vals E. destruct (brun_spec heap jen c A G OK' os vals Wo) as (rs & vals' & E' & F).
    exists rs, vals'. split; [exact E'|]. split; [exact F|]. now apply reads_spec.
Qed.
Lemma get_values_ok vals : 
  bget_values vals None = Ok (None, length vals) /\
  forall a, (length a < length vals)%nat /\ bget_values vals (Some a) = Err ERR_INVALID_VALUE \/
    (length vals <= length a)%nat /\ exists out, bget_values vals (Some a) = Ok (Some out, length vals) /\
      length out = length a /\ (forall i, (i < length vals)%nat -> nth_error out i = nth_error vals i) /\
      (forall i d, (length vals <= i)%nat -> nth_error a i = Some d -> nth_error out i = Some (mkDatum VNone (d_flags d))).
Proof.
  split; [reflexivity|]. intro a. unfold bget_values. destruct (Nat.ltb_spec (length a) (length vals)) as [L|L]; cbn.
  - left. auto.
  - right. split; [exact L|]. eexists. split; [reflexivity|]. split; [|split].
    + rewrite app_length, map_length, skipn_length. lia.
    + intros i Hi. now rewrite nth_error_app1.
    + intros i d Hi Hd. rewrite nth_error_app2 by exact Hi. rewrite nth_error_map, nth_skipn.
      replace (length vals + (i - length vals))%nat with i by lia. now rewrite Hd.
Qed.
