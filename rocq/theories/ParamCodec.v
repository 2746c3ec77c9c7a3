(** Proofs about the serialisation of parameters. *)
From Coq Require Import ZArith List Bool Lia Arith.
From Verif Require Import Base Datum CodecModel CodecSpec CodecProofs FloatModel FloatSpec FloatProofs CmpModel CmpSpec CmpProofs.
From Verif Require Import IntervalModel IntervalSpec IntervalProofs MapSpec ParamModel ParamSpec ParamProofs.
Import ListNotations.
Open Scope Z_scope.

Definition backd (d : datum) : datum := mkDatum (d_val d) (wire_flags (d_val d)).
Definition okd (d : datum) : Prop := wf_datum d /\ serialisable (d_val d).

Lemma wire_data_exists l : Forall okd l -> exists bs, wire_data l bs.
Proof.
  induction 1 as [|d l [A B] _ [b IH]]; [exists []; constructor|].
  destruct (wire_datum_exists _ A B) as [a Ha]. exists (a ++ b). now constructor.
Qed.
Lemma ser_data_encodes le l bs : Forall okd l -> wire_data l bs -> encodes (ser_data le l) bs.
Proof.
  intros F W. revert F. induction W; intro F; [apply encodes_nil|]. inversion F as [|? ? [A B] F']; subst.
  cbn [ser_data]. apply encodes_seq; [now apply ser_datum_encodes|auto].
Qed.
Lemma size_data_ok l bs : Forall okd l -> wire_data l bs -> size_data l = Ok (lenZ bs).
Proof.
  intros F W. revert F. induction W; intro F; [reflexivity|]. inversion F as [|? ? [A B] F']; subst.
  cbn [size_data]. rewrite (size_datum_ok d a), IHW by auto. cbn. now rewrite lenZ_app.
Qed.
Lemma decodes_bindp {A B} (f : rstate -> res (A * rstate)) (k : A * rstate -> res (B * rstate)) a b bs cs :
  decodes f a bs -> decodes (fun s => k (a, s)) b cs -> decodes (fun s => bind (f s) k) b (bs ++ cs).
Proof.
  intros F K. eapply decodes_ext; [|apply (decodes_bind f (fun x s => k (x, s)) a b bs cs F K)].
  intro s. cbv beta. destruct (f s) as [[x s']| |]; reflexivity.
Qed.
Ltac dbind := eapply decodes_bindp; [|cbv beta iota].
(** a value that is only looked at *)
Lemma decodes_peek {A} t (g : Z -> rstate -> res (A * rstate)) a bs : 0 <= t < 128 ->
  decodes (g t) a (t :: bs) -> decodes (fun s => do x <- peek_enum s; g x s) a (t :: bs).
Proof.
  intros Ht [H P]. destruct (deser_enum_small t Ht) as [D1 D2]. split.
  - intros tl n Hn Hn2. unfold peek_enum. cbn [app] in *. pose proof (lenZ_nonneg bs).
    assert (L1 : lenZ [t] = 1) by reflexivity.
    rewrite (D1 (bs ++ tl) n); [|split; [rewrite lenZ_cons in Hn; lia|apply Hn]|exact Hn2].
    cbn [bind]. now apply H.
  - intros p q tl E Q L. destruct p as [|x p].
    + unfold peek_enum. rewrite (D2 [] [t] tl); [reflexivity|reflexivity|discriminate|cbn; lia].
    + cbn in E. injection E as <- ->. unfold peek_enum. cbn [app] in *.
      rewrite (D1 (p ++ tl) (lenZ (t :: p))); [cbn [bind]; now apply (P (t :: p) q tl)| |exact L].
      rewrite !lenZ_cons, lenZ_app. change (lenZ (@nil Z)) with 0. pose proof (lenZ_nonneg p). pose proof (lenZ_nonneg tl). lia.
Qed.
Lemma deser_data_decodes le l bs : Forall okd l -> wire_data l bs -> decodes (deser_data le (length l)) (map backd l) bs.
Proof.
  intros F W. revert F. induction W; intro F; [apply decodes_ret|]. inversion F as [|? ? [A B] F']; subst.
  cbn [deser_data length map]. dbind; [exact (deser_datum_decodes le _ _ A H)|].
  apply (decodes_map (deser_data le (length l)) (fun l => _ :: l)). auto.
Qed.

(** common data *)
Definition okp (p : param) : Prop :=
  ok_name (p_name p) /\ okd (p_default p) /\ wf_interval (p_interval p) /\ 0 <= p_type p < 128.
Section Common.
  Variable (le : bool) (p : param).
  Hypothesis OK : okp p.
  Variables nm d i : list Z.
  Hypothesis Hnm : wire_string (p_name p) nm.
  Hypothesis Hd : wire_datum (d_val (p_default p)) d.
  Hypothesis Hi : wire_interval (p_interval p) i.
  Lemma ser_common_encodes : encodes (ser_common le p) ([p_type p] ++ nm ++ d ++ i).
  Proof.
    destruct OK as ([N1 N2] & [D1 D2] & I & T). unfold ser_common.
    apply encodes_seq; [now apply ser_enum_small|]. apply encodes_seq; [now apply ser_string_encodes|].
    apply encodes_seq; [now apply ser_datum_encodes|now apply ser_interval_encodes].
  Qed.
  Lemma size_common_ok : size_common p = Ok (lenZ ([p_type p] ++ nm ++ d ++ i)).
  Proof.
    destruct OK as ([N1 N2] & [D1 D2] & I & T). unfold size_common.
    rewrite (size_datum_ok _ d), size_enum_small, (size_string_ok _ nm), (size_interval_ok _ i) by auto.
    cbn [bind]. f_equal. rewrite !lenZ_app. change (lenZ [p_type p]) with 1. lia.
  Qed.
  Lemma deser_common_decodes :
    decodes (deser_common le) (p_type p, p_name p, backd (p_default p), p_interval p) ([p_type p] ++ nm ++ d ++ i).
  Proof.
    destruct OK as ([N1 N2] & [D1 D2] & I & T). unfold deser_common.
    dbind; [now apply deser_enum_small|]. dbind; [exact (deser_string_decodes _ _ N2 N1 Hnm)|].
    dbind; [exact (deser_datum_decodes le _ _ D1 Hd)|].
    apply (decodes_map (deser_interval le) (fun i => (_, _, _, i))). now apply deser_interval_decodes.
  Qed.
End Common.

Lemma wire_interval_exists i : wf_interval i -> exists bs, wire_interval i bs.
Proof.
  intro W. unfold wire_interval. destruct W as [(T & A & B)|(T & A & B)].
  - do 5 eexists. rewrite T. cbn. split; [split; reflexivity|]. repeat split; reflexivity.
  - destruct (leb128_exists _ (zigzag_nonneg (i_lower i))) as [lo L]. destruct (leb128_exists _ (zigzag_nonneg (i_upper i))) as [up U].
    do 5 eexists. rewrite T. cbn. split; [split; [exact L|exact U]|]. repeat split; reflexivity.
Qed.

(** the default value found again *)
Lemma cmp_confused a b : wf_datum a -> wf_datum b -> (ccs_datum_cmp a b = 0 <-> confused (d_val a) (d_val b)).
Proof.
  intros Wa Wb. destruct (d_val a) as [| |x| | | | |] eqn:Ea;
   try (assert (NA : no_nan a) by (split; [exact Wa|now rewrite Ea])).
  3: { destruct (d_val b) as [| |y| | | | |] eqn:Eb;
       try (assert (NB : no_nan b) by (split; [exact Wb|now rewrite Eb])).
       3: { unfold ccs_datum_cmp. rewrite Ea, Eb. cbn [type_of confused]. rewrite Z.ltb_irrefl. unfold fgt.
            rewrite <- !flt_key. destruct (flt x y), (flt y x); split; intros; try lia; try easy; intuition congruence. }
       all: unfold ccs_datum_cmp; rewrite Ea, Eb; cbn -[Z.ltb];
            try (split; [discriminate|intros; easy]).
       unfold wf_datum in Wb. rewrite Eb in Wb. cbn in Wb. unfold TYPE_FLOAT.
       destruct (Z.ltb_spec 2 t); [split; [discriminate|easy]|lia]. }
  all: assert (DB : no_nan b \/ exists y, d_val b = VFloat y) by
        (destruct (d_val b) eqn:Eb; try (left; split; [exact Wb|now rewrite Eb]); right; eauto).
  all: destruct DB as [NB|[y Ey]]; [rewrite (proj2 (public_cmp_presents a b NA NB)), Ea; cbn [num_same confused]; destruct (d_val b); tauto|].
  all: unfold ccs_datum_cmp; rewrite Ea, Ey; cbn -[Z.ltb]; try (split; [discriminate|intros; easy]).
  unfold wf_datum in Wa. rewrite Ea in Wa. cbn in Wa. unfold TYPE_FLOAT.
  destruct (Z.ltb_spec t 2); [lia|]. destruct (Z.ltb_spec 2 t); [split; [discriminate|easy]|lia].
Qed.
Lemma cmp_val a b c d : d_val a = d_val c -> d_val b = d_val d -> ccs_datum_cmp a b = ccs_datum_cmp c d.
Proof. unfold ccs_datum_cmp. now intros -> ->. Qed.
Lemma last_match_back def l : forall i acc, last_match (backd def) (map backd l) i acc = last_match def l i acc.
Proof. induction l; intros; cbn [last_match map]; [reflexivity|]. rewrite (cmp_val _ _ def a) by reflexivity. apply IHl. Qed.
Lemma last_match_app def l1 : forall l2 i acc,
  last_match def (l1 ++ l2) i acc = last_match def l2 (i + lenZ l1) (last_match def l1 i acc).
Proof.
  induction l1; intros; cbn [last_match app]. { f_equal. unfold lenZ; cbn; lia. }
  rewrite IHl1. f_equal. rewrite lenZ_cons. lia.
Qed.
Lemma last_match_none def l : forall i acc, Forall (fun e => ccs_datum_cmp def e <> 0) l -> last_match def l i acc = acc.
Proof.
  induction l; intros i acc F; cbn; [reflexivity|]. inversion F; subst. apply Z.eqb_neq in H1. rewrite H1. auto.
Qed.
Lemma last_match_found def l e : wf_datum def -> Forall wf_datum l -> In e l -> ccs_datum_cmp def e = 0 ->
  exists l1 d l2, l = l1 ++ d :: l2 /\ confused (d_val def) (d_val d) /\
    Forall (fun x => ~ confused (d_val def) (d_val x)) l2 /\ last_match def l 0 None = Some (lenZ l1).
Proof.
  intros Wd W I E.
  assert (exists l1 d l2, l = l1 ++ d :: l2 /\ ccs_datum_cmp def d = 0 /\ Forall (fun x => ccs_datum_cmp def x <> 0) l2).
  { clear W. induction l as [|x l IH]; [easy|]. 
    destruct (Exists_dec (fun x => ccs_datum_cmp def x = 0) l (fun x => Z.eq_dec _ _)) as [X|X].
    - apply Exists_exists in X. destruct X as (y & Hy & Ey).
      assert (exists l1 d l2, l = l1 ++ d :: l2 /\ ccs_datum_cmp def d = 0 /\ Forall (fun x => ccs_datum_cmp def x <> 0) l2) as (l1 & d & l2 & -> & A & B).
      { clear IH I. revert y Hy Ey. induction l as [|z l IH]; [easy|]. intros y Hy Ey.
        destruct (Exists_dec (fun x => ccs_datum_cmp def x = 0) l (fun x => Z.eq_dec _ _)) as [X|X].
        - apply Exists_exists in X. destruct X as (y' & Hy' & Ey'). destruct (IH y' Hy' Ey') as (l1 & d & l2 & -> & A & B).
          exists (z :: l1), d, l2. auto.
        - exists [], z, l. split; [reflexivity|]. rewrite <- Forall_Exists_neg in X. split; [|exact X].
          destruct Hy as [->|Hy]; [exact Ey|]. exfalso. rewrite Forall_forall in X. now apply (X y). }
      exists (x :: l1), d, l2. auto.
    - exists [], x, l. split; [reflexivity|]. rewrite <- Forall_Exists_neg in X. split; [|exact X].
      destruct I as [->|Hy]; [exact E|]. exfalso. rewrite Forall_forall in X. now apply (X e). }
  destruct H as (l1 & d & l2 & -> & A & B). exists l1, d, l2. split; [reflexivity|].
  apply Forall_app in W. destruct W as [W1 W2]. inversion W2; subst.
  split; [now apply cmp_confused|]. split.
  - rewrite Forall_forall in *. intros x Hx C. apply (B x Hx). apply cmp_confused; auto.
  - rewrite last_match_app. cbn [last_match]. rewrite A. cbn [Z.eqb]. now rewrite last_match_none.
Qed.

Lemma declarable_serialisable t v : declarable t v -> serialisable v.
Proof. now destruct v as [| | | |[]| | |]. Qed.
Lemma machine_number t x : is_num_type t -> machine t x -> wf_value (number t x) /\ serialisable (number t x).
Proof. unfold machine, number. intros [-> | ->] M; cbn in *; auto. Qed.
Lemma machine_interval t lo up a b : is_num_type t -> machine t lo -> machine t up -> wf_interval (mkInterval t lo up a b).
Proof. unfold machine, wf_interval. intros [-> | ->] A B; cbn in *; auto. Qed.

Lemma created_okp jen p : created jen p -> okp p.
Proof.
  intros [nm t lo up q def p' N M1 M2 M3 M4 H | t nm vals idx p' K N W Hi H | nm N].
  - destruct (check_numerical jen _ _ _ _ _ _ _ H) as (T & -> & _).
    split; [exact N|]. split.
    { cbn [p_default]. destruct (machine_number t def T M4) as [A B]. unfold okd, wf_datum, number in *. fold NUM_FLOAT in *.
      destruct (t =? NUM_FLOAT); auto. }
    split; [now apply machine_interval|cbn; unfold PNUMERICAL; lia].
  - destruct (created_cat_inv _ _ _ _ _ _ W Hi H) as [-> (L & M & D & ND)].
    assert (I : In (nth (Z.to_nat idx) vals ccs_none) vals) by (apply nth_In; unfold lenZ in L; lia).
    split; [exact N|]. split.
    { cbn [p_default]. change ccs_none with (clean ccs_none). rewrite map_nth.
      rewrite Forall_forall in W, D. split; [now apply (W _ I)|eapply declarable_serialisable; apply (D _ I)]. }
    split; [right; cbn; split; [reflexivity|]|cbn; unfold PCATEGORICAL, PORDINAL, PDISCRETE in *; lia].
    unfold in_signed. unfold INT64_MAX in M. pose proof (lenZ_nonneg vals). cbn. lia.
  - split; [exact N|]. split; [split; cbn; auto|]. split; [right; cbn; unfold in_signed; cbn; lia|cbn; unfold PSTRING; lia].
Qed.

Section Main.
  Variable jen : list Z -> Z.
  Variable le : bool.
  Variable h : Z.
  Hypothesis Hh : in_unsigned 64 h.

  (* everything but the tail *)
  Definition ser_tail (p : param) (s : wstate) : res wstate :=
    if p_type p =? PNUMERICAL then
      if i_type (p_interval p) =? NUM_FLOAT then ser_float le (p_quant p) s else ser_int (p_quant p) s
    else if p_type p =? PSTRING then Ok s
    else do s <- ser_size (lenZ (p_values p)) s; ser_data le (p_values p) s.
  Definition size_tail (p : param) : res Z :=
    if p_type p =? PNUMERICAL then
      Ok (if i_type (p_interval p) =? NUM_FLOAT then size_float (p_quant p) else size_int (p_quant p))
    else if p_type p =? PSTRING then Ok 0
    else do v <- size_data (p_values p); Ok (size_size (lenZ (p_values p)) + v).
  Lemma roundtrip_from_tail p d q de : okp p -> wire_param_tail p q -> encodes (ser_tail p) q -> size_tail p = Ok (lenZ q) ->
    (forall nm dd i, wire_string (p_name p) nm -> wire_datum (d_val (p_default p)) dd -> wire_interval (p_interval p) i ->
       decodes de (with_default p d) (([p_type p] ++ nm ++ dd ++ i) ++ q)) ->
    (forall s, (if p_type p =? PNUMERICAL then deser_numerical le s
                else if (p_type p =? PCATEGORICAL) || (p_type p =? PORDINAL) || (p_type p =? PDISCRETE) then deser_categorical jen le s
                else if p_type p =? PSTRING then deser_string_param le s
                else Err ERR_INVALID_TYPE) = de s) ->
    exists bs, wire_param h p bs /\ encodes (ser_param le h p) bs /\ size_param h p = Ok (lenZ bs) /\
      decodes (deser_param jen le) (h, with_default p d) bs.
  Proof.
    intros OK WT ET ST DT DD. pose proof OK as ([N1 N2] & [D1 D2] & I & T).
    destruct (leb128_exists h) as [lh LH]; [apply Hh|].
    destruct (wire_string_exists (p_name p)) as [nm NM].
    destruct (wire_datum_exists _ D1 D2) as [dd WD]. destruct (wire_interval_exists _ I) as [i WI].
    exists ((2 :: lh) ++ ([p_type p] ++ nm ++ dd ++ i) ++ q). split; [|split; [|split]].
    - exists lh, nm, dd, i, q. rewrite <- !app_assoc. repeat (split; [assumption|]). reflexivity.
    - unfold ser_param. apply encodes_seq; [apply ser_object_internal_encodes; auto; unfold OBJ_PARAMETER; lia|].
      apply encodes_seq; [now apply ser_common_encodes|exact ET].
    - unfold size_param. rewrite (size_common_ok p OK nm dd i) by auto. cbn [bind].
      unfold size_tail in ST. rewrite ST. cbn [bind]. rewrite (size_object_internal_ok _ _ lh) by (auto; unfold OBJ_PARAMETER; lia).
      f_equal. rewrite !lenZ_app. unfold OBJ_PARAMETER. lia.
    - unfold deser_param. dbind; [apply deser_object_internal_decodes; eauto; lia|].
      cbn [fst snd]. change (2 =? OBJ_PARAMETER) with true. cbn [negb refute bind].
      cbn [app]. apply (decodes_peek (p_type p) (fun t s => do (p0, s1) <- (if t =? PNUMERICAL then deser_numerical le s
                else if (t =? PCATEGORICAL) || (t =? PORDINAL) || (t =? PDISCRETE) then deser_categorical jen le s
                else if t =? PSTRING then deser_string_param le s
                else Err ERR_INVALID_TYPE); Ok (h, p0, s1))); [exact T|].
      apply (decodes_ext (fun s => do (p0, s1) <- de s; Ok (h, p0, s1))).
      { intro s. now rewrite DD. }
      apply (decodes_map de (fun p0 => (h, p0))). apply (DT nm dd i); auto.
  Qed.

  Lemma param_roundtrip p : created jen p ->
    exists bs d, wire_param h p bs /\ encodes (ser_param le h p) bs /\ size_param h p = Ok (lenZ bs) /\
      decodes (deser_param jen le) (h, with_default p d) bs /\
      (if (p_type p =? PNUMERICAL) || (p_type p =? PSTRING) then d = p_default p
       else last_confused (p_default p) (p_values p) d).
  Proof.
    intro C. pose proof (created_okp jen p C) as OK.
    destruct C as [nm t lo up q def p' N M1 M2 M3 M4 H | t nm vals idx p' K N W Hi H | nm N].
    - destruct (check_numerical jen _ _ _ _ _ _ _ H) as (T & E & _).
      assert (Q : exists bs, (if t =? 2 then bs = word 8 q else leb128 (zigzag q) bs)).
      { destruct (t =? 2); [eauto|apply leb128_exists, zigzag_nonneg]. }
      destruct Q as [qb Q].
      destruct (roundtrip_from_tail p' (p_default p') qb (deser_numerical le)) as (bs & A & B & D & F); auto.
      + unfold wire_param_tail. rewrite E. exact Q.
      + unfold ser_tail. rewrite E. cbn [p_type p_interval i_type p_quant]. change (PNUMERICAL =? PNUMERICAL) with true. cbv iota.
        fold NUM_FLOAT in Q. unfold machine in M3. fold NUM_FLOAT in M3. destruct (t =? NUM_FLOAT).
        * subst qb. now apply ser_float_encodes.
        * now apply ser_int_encodes.
      + unfold size_tail. rewrite E. cbn [p_type p_interval i_type p_quant]. change (PNUMERICAL =? PNUMERICAL) with true. cbv iota.
        fold NUM_FLOAT in Q. unfold machine in M3. fold NUM_FLOAT in M3. destruct (t =? NUM_FLOAT).
        * subst qb. rewrite word_lenZ. reflexivity.
        * f_equal. now apply size_int_ok.
      + intros nmb dd ib HN HD HI.
        assert (WI : with_default p' (p_default p') = p') by now destruct p'. rewrite WI.
        unfold deser_numerical. dbind; [apply (deser_common_decodes le p' OK); eassumption|].
        rewrite E. cbn [p_interval p_name p_default i_type i_lower i_upper].
        rewrite <- (app_nil_r qb). dbind.
        * instantiate (1 := q). fold NUM_FLOAT in Q. unfold machine in M3. fold NUM_FLOAT in M3. destruct (t =? NUM_FLOAT).
          -- subst qb. now apply deser_float_decodes.
          -- now apply deser_int_decodes.
        * assert (DV : (if t =? NUM_FLOAT then value_word (d_val (backd (if t =? NUM_FLOAT then ccs_float def else ccs_int def)))
                        else to_signed 64 (value_word (d_val (backd (if t =? NUM_FLOAT then ccs_float def else ccs_int def))))) = def).
          { unfold machine in M4. fold NUM_FLOAT in M4. destruct (t =? NUM_FLOAT); cbn; [reflexivity|].
            unfold to_signed, wrap, in_signed in *. cbn in *. change (2 ^ 64) with 18446744073709551616 in *.
            rewrite Z.mod_mod by lia.
            destruct (Z.ltb_spec (def mod 18446744073709551616) 9223372036854775808);
            Z.to_euclidean_division_equations; lia. }
          rewrite DV. cbn [p_interval i_type]. rewrite H, <- E. cbn [bind]. apply decodes_ret.
      + intro s. now rewrite E.
      + exists bs, (p_default p'). repeat (split; [assumption|]). now rewrite E.
    - destruct (created_cat_inv _ _ _ _ _ _ W Hi H) as [E (L & M & D & ND)].
      assert (V : p_values p' = map clean vals) by now rewrite E.
      assert (TT : p_type p' = t) by now rewrite E.
      assert (OKV : Forall okd (p_values p')).
      { rewrite V. apply Forall_map. apply Forall_forall. intros x Hx. rewrite Forall_forall in W, D. split; [apply (W x Hx)|].
        exact (declarable_serialisable _ _ (D x Hx)). }
      assert (WV : Forall wf_datum (p_values p')) by (eapply Forall_impl; [|exact OKV]; intros x [? _]; auto).
      assert (LV : lenZ (p_values p') = lenZ vals) by (rewrite V; unfold lenZ; now rewrite map_length).
      destruct (wire_data_exists _ OKV) as [c WC].
      destruct (leb128_exists (lenZ (p_values p')) (lenZ_nonneg _)) as [nb NB].
      assert (LB : in_unsigned 64 (lenZ (p_values p'))).
      { unfold in_unsigned. rewrite LV. pose proof (lenZ_nonneg vals). unfold INT64_MAX in M. change (2 ^ 64) with 18446744073709551616. lia. }
      assert (IN : In (p_default p') (p_values p')).
      { rewrite E. cbn [p_default p_values]. apply nth_In. rewrite map_length. unfold lenZ in L. lia. }
      assert (WD : wf_datum (p_default p')) by (rewrite Forall_forall in WV; auto).
      destruct (last_match_found (p_default p') (p_values p') (p_default p') WD WV IN) as (l1 & d & l2 & SP & CF & LST & LM).
      { apply cmp_confused; auto. destruct (d_val (p_default p')); cbn; auto. unfold klt. destruct (fkey bits); lia. }
      destruct (roundtrip_from_tail p' d (nb ++ c) (deser_categorical jen le)) as (bs & A & B & F & G); auto.
      + unfold wire_param_tail. rewrite TT. 
        destruct K as [-> | [-> | ->]]; exists nb, c; auto.
      + unfold ser_tail. rewrite TT. assert (X : encodes (fun s => do s0 <- ser_size (lenZ (p_values p')) s; ser_data le (p_values p') s0) (nb ++ c)).
        { apply encodes_seq; [apply ser_uint_encodes; auto using okw64|now apply ser_data_encodes]. }
        destruct K as [-> | [-> | ->]]; exact X.
      + unfold size_tail. rewrite TT. assert (X : (do v <- size_data (p_values p'); Ok (size_size (lenZ (p_values p')) + v)) = Ok (lenZ (nb ++ c))).
        { rewrite (size_data_ok _ c) by auto. cbn [bind]. f_equal. rewrite lenZ_app. unfold size_size. now rewrite (size_uint_ok 64 _ nb) by auto using okw64. }
        destruct K as [-> | [-> | ->]]; exact X.
      + intros nmb dd ib HN HD HI.
        unfold deser_categorical. dbind; [apply (deser_common_decodes le p' OK); eassumption|].
        dbind; [apply deser_uint_decodes; eauto using okw64|].
        replace (Z.to_nat (lenZ (p_values p'))) with (length (p_values p')) by (unfold lenZ; lia).
        rewrite <- (app_nil_r c). dbind; [apply deser_data_decodes; eauto|].
        rewrite last_match_back, LM.
        assert (KT : negb ((p_type p' =? PCATEGORICAL) || (p_type p' =? PORDINAL) || (p_type p' =? PDISCRETE)) = false).
        { rewrite TT. now destruct K as [-> | [-> | ->]]. }
        rewrite KT. cbn [refute bind].
        assert (BV : map d_val (map backd (p_values p')) = map d_val vals) by (rewrite V, !map_map; reflexivity).
        assert (BL : lenZ (map backd (p_values p')) = lenZ vals) by (unfold lenZ in *; rewrite map_length; exact LV).
        destruct (create_categorical_spec jen (p_type p') (p_name p') (map backd (p_values p')) (lenZ l1)) as [[_ R]|[R _]].
        * apply Forall_map. exact WV.
        * apply lenZ_nonneg.
        * rewrite R. cbn [bind].
          assert (CB : map clean (map backd (p_values p')) = p_values p') by (rewrite V, !map_map; reflexivity).
          rewrite CB, BL.
          replace (nth (Z.to_nat (lenZ l1)) (p_values p') ccs_none) with d.
          -- eapply decodes_eq; [|apply decodes_ret]. unfold with_default. rewrite E. cbn [p_type p_name p_interval p_quant p_values]. reflexivity.
          -- rewrite SP. unfold lenZ. rewrite Nat2Z.id, app_nth2, Nat.sub_diag by lia. reflexivity.
        * exfalso. apply R. unfold cat_ok. rewrite BL, BV. split; [|split; [|split]]; auto.
          -- rewrite <- LV, SP, lenZ_app, lenZ_cons. pose proof (lenZ_nonneg l2). lia.
          -- rewrite TT. apply Forall_map. rewrite V. apply Forall_map. exact D.
      + intro s. rewrite TT. now destruct K as [-> | [-> | ->]].
      + exists bs, d. repeat (split; [assumption|]). rewrite TT.
        assert (X : last_confused (p_default p') (p_values p') d) by (exists l1, l2; auto).
        destruct K as [-> | [-> | ->]]; exact X.
    - destruct (roundtrip_from_tail (create_string nm) ccs_none [] (deser_string_param le)) as (bs & A & B & F & G); auto.
      + reflexivity.
      + apply encodes_nil.
      + intros nmb dd ib HN HD HI. unfold deser_string_param.
        dbind; [apply (deser_common_decodes le (create_string nm) OK); eassumption|]. apply decodes_ret.
      + exists bs, ccs_none. repeat (split; [assumption|]). reflexivity.
  Qed.

  Lemma param_roundtrip_exact p : created jen p ->
    (forall d, In d (p_values p) -> confused (d_val (p_default p)) (d_val d) -> d_val d = d_val (p_default p)) ->
    exists bs, wire_param h p bs /\ decodes (deser_param jen le) (h, p) bs.
  Proof.
    intros C U. destruct (param_roundtrip p C) as (bs & d & A & _ & _ & B & D).
    exists bs. split; [exact A|]. replace p with (with_default p d) at 1; [exact B|].
    assert (d = p_default p).
    2: subst; now destruct p.
    destruct ((p_type p =? PNUMERICAL) || (p_type p =? PSTRING)) eqn:T; [exact D|].
    destruct D as (l1 & l2 & SP & CF & _). assert (I : In d (p_values p)) by (rewrite SP; apply in_or_app; right; now left).
    specialize (U d I CF).
    destruct C as [nm t lo up q def p' N M1 M2 M3 M4 H | t nm vals idx p' K N W Hi H | nm N].
    - destruct (check_numerical jen _ _ _ _ _ _ _ H) as (_ & -> & _). discriminate.
    - destruct (created_cat_inv _ _ _ _ _ _ W Hi H) as [-> (L & _)]. cbn [p_values p_default] in *.
      apply in_map_iff in I. destruct I as (x & <- & Hx). 
      change ccs_none with (clean ccs_none) in *. rewrite map_nth in *. unfold clean in *. cbn in *. now rewrite U.
    - discriminate.
  Qed.
End Main.

Lemma default_not_restored : exists p p' bs, let jen := fun l : list Z => lenZ l in
  create_categorical jen PCATEGORICAL [97] [ccs_float 0; ccs_float 9223372036854775808] 0 = Ok p /\
  encodes (ser_param true 5 p) bs /\ decodes (deser_param jen true) (5, p') bs /\
  p_default p = ccs_float 0 /\ p_default p' = ccs_float 9223372036854775808.
Proof.
  pose (jen := fun l : list Z => lenZ l).
  pose (p := mkParam PCATEGORICAL [97] (ccs_float 0) (mkInterval NUM_INT 0 2 true false) 0
                     [ccs_float 0; ccs_float 9223372036854775808]).
  assert (H : create_categorical jen PCATEGORICAL [97] [ccs_float 0; ccs_float 9223372036854775808] 0 = Ok p)
    by (vm_compute; reflexivity).
  assert (C : created jen p).
  { apply (created_categorical jen PCATEGORICAL [97] [ccs_float 0; ccs_float 9223372036854775808] 0 p); auto.
    - split; [repeat constructor; unfold is_char; lia|reflexivity].
    - repeat constructor; cbn; unfold in_unsigned; cbn; lia.
    - lia. }
  destruct (param_roundtrip jen true 5 ltac:(unfold in_unsigned; cbn; lia) p C) as (bs & d & _ & E & _ & D & L).
  exists p, (with_default p d), bs. cbv zeta. split; [exact H|]. split; [exact E|]. split; [exact D|]. split; [reflexivity|].
  destruct L as (l1 & l2 & S & _ & F). cbn in S |- *.
  destruct l1 as [|x [|y l1]]; cbn in S; injection S; intros; subst.
  - exfalso. inversion F as [|? ? N _]; subst. apply N. cbn. vm_compute. split; intro Q; discriminate Q.
  - reflexivity.
  - now destruct l1.
Qed.
