(** Proofs about tree configurations. *)
From Coq Require Import ZArith List Bool Lia Arith.
From Verif Require Import Base Datum CodecModel CodecSpec CodecProofs CmpModel CmpSpec CmpProofs ParamSpec ParamCodec ExprModel ExprCodec TreeModel TreeSpec TreeCodecSpec TreeCodec RngModel RngProofs TreeSpaceModel TreeSpaceSpec TreeSpaceProofs TreeSpaceCodec TreeConfModel TreeConfSpec.
Import ListNotations.
Open Scope Z_scope.

(** ** Order and hash *)
Lemma ccs_cmp_spec a b : (a < b /\ ccs_cmp a b = -1) \/ (a = b /\ ccs_cmp a b = 0) \/ (b < a /\ ccs_cmp a b = 1).
Proof. unfold ccs_cmp. destruct (Z.ltb_spec a b); [auto|]. destruct (Z.ltb_spec b a); [auto|]. right; left. split; [lia|reflexivity]. Qed.
Definition ordered (c : Z) (a b : list Z) : Prop := (c = -1 /\ lex a b) \/ (c = 0 /\ a = b) \/ (c = 1 /\ lex b a).
Lemma ordered_cons x a b c : ordered c a b -> ordered c (x :: a) (x :: b).
Proof. intros [[-> H]|[[-> ->]|[-> H]]]; [left|right; left|right; right]; split; auto; now apply lex_eq. Qed.
Lemma cmp_positions_ok : forall a b, length a = length b -> exists c, cmp_positions a b = Ok c /\ ordered c a b.
Proof.
  induction a as [|x a IH]; intros [|y b] L; try discriminate; [exists 0; split; [reflexivity|right; left; auto]|].
  cbn [cmp_positions]. destruct (ccs_cmp_spec x y) as [[H ->]|[[-> ->]|[H ->]]]; cbn [Z.eqb].
  - exists (-1). split; [reflexivity|left; split; [reflexivity|now apply lex_lt]].
  - destruct (IH b) as (c & -> & O1); [cbn in L; lia|]. exists c. split; [reflexivity|now apply ordered_cons].
  - exists 1. split; [reflexivity|right; right; split; [reflexivity|now apply lex_lt]].
Qed.
Lemma conf_ordered a b : consistent a b -> exists c, conf_cmp a b = Ok c /\ ordered c (conf_key a) (conf_key b).
Proof.
  intro C. unfold conf_cmp, conf_key. destruct (Z.eqb_spec (tc_id a) (tc_id b)) as [E|N].
  { rewrite (C E). exists 0. split; [reflexivity|right; left; auto]. }
  destruct (ccs_cmp_spec (tc_space a) (tc_space b)) as [[H ->]|[[E ->]|[H ->]]]; cbn [Z.eqb negb].
  - exists (-1). split; [reflexivity|left; split; [reflexivity|now apply lex_lt]].
  - rewrite E. destruct (ccs_cmp_spec (lenZ (tc_pos a)) (lenZ (tc_pos b))) as [[H ->]|[[E2 ->]|[H ->]]]; cbn [Z.eqb negb].
    + exists (-1). split; [reflexivity|left; split; [reflexivity|now apply lex_eq, lex_lt]].
    + destruct (cmp_positions_ok (tc_pos a) (tc_pos b)) as (c & -> & O1); [unfold lenZ in E2; lia|]. rewrite E2. exists c. split; [reflexivity|now do 2 apply ordered_cons].
    + exists 1. split; [reflexivity|right; right; split; [reflexivity|now apply lex_eq, lex_lt]].
  - exists 1. split; [reflexivity|right; right; split; [reflexivity|now apply lex_lt]].
Qed.
Lemma key_same a b : conf_key a = conf_key b <-> tc_space a = tc_space b /\ tc_pos a = tc_pos b.
Proof. unfold conf_key. split; [intro E; injection E; auto|intros [-> ->]; reflexivity]. Qed.
Lemma conf_order a b : consistent a b -> exists c, conf_cmp a b = Ok c /\ (c = -1 \/ c = 0 \/ c = 1) /\
  (c = -1 <-> lex (conf_key a) (conf_key b)) /\ (c = 1 <-> lex (conf_key b) (conf_key a)) /\
  (c = 0 <-> tc_space a = tc_space b /\ tc_pos a = tc_pos b).
Proof.
  intro C. destruct (conf_ordered a b C) as (c & E & O1). exists c. split; [exact E|]. rewrite <- key_same.
  destruct O1 as [[-> H]|[[-> H]|[-> H]]]; (split; [auto|]); repeat split; intro X; try discriminate; auto; exfalso.
  - exact (lex_irrefl _ (lex_trans _ _ _ H X)).
  - rewrite X in H. exact (lex_irrefl _ H).
  - rewrite H in X. exact (lex_irrefl _ X).
  - rewrite H in X. exact (lex_irrefl _ X).
  - exact (lex_irrefl _ (lex_trans _ _ _ H X)).
  - rewrite X in H. exact (lex_irrefl _ H).
Qed.
Lemma conf_order_total : forall a b c x y, consistent a b -> consistent b a -> consistent b c -> consistent a c ->
  (conf_cmp a b = Ok x -> conf_cmp b a = Ok (- x)) /\
  (conf_cmp a b = Ok x -> conf_cmp b c = Ok y -> x <= 0 -> y <= 0 -> exists z, conf_cmp a c = Ok z /\ z <= 0 /\ (x < 0 \/ y < 0 -> z < 0)).
Proof.
  intros a b c x y C1 C2 C3 C4. destruct (conf_ordered a b C1) as (x' & E1 & O1). destruct (conf_ordered b a C2) as (w & E2 & O2).
  destruct (conf_ordered b c C3) as (y' & E3 & O3). destruct (conf_ordered a c C4) as (z & E4 & O4). split.
  - rewrite E1, E2. intro E; injection E as <-. f_equal.
    destruct O1 as [[-> H1]|[[-> H1]|[-> H1]]], O2 as [[-> H2]|[[-> H2]|[-> H2]]]; try reflexivity; exfalso;
      try (rewrite H1 in H2); try (rewrite H2 in H1); try exact (lex_irrefl _ H1); try exact (lex_irrefl _ H2); exact (lex_irrefl _ (lex_trans _ _ _ H1 H2)).
  - rewrite E1, E3. intros X Y; injection X as <-; injection Y as <-. intros L1 L2. exists z. split; [exact E4|].
    destruct O1 as [[-> H1]|[[-> H1]|[-> H1]]]; [| |lia]; (destruct O3 as [[-> H3]|[[-> H3]|[-> H3]]]; [| |lia]);
      (destruct O4 as [[-> H4]|[[-> H4]|[-> H4]]]; [split; [lia|auto with zarith]| |]); try (split; [lia|]; intros [?|?]; lia); exfalso;
      repeat match goal with H : conf_key _ = conf_key _ |- _ => first [rewrite H in *|rewrite <- H in *]; clear H end;
      try (match goal with H : lex ?k ?k |- _ => exact (lex_irrefl _ H) end);
      try exact (lex_irrefl _ (lex_trans _ _ _ H1 H3)); try exact (lex_irrefl _ (lex_trans _ _ _ H1 H4)); try exact (lex_irrefl _ (lex_trans _ _ _ H3 H4));
      try exact (lex_irrefl _ (lex_trans _ _ _ (lex_trans _ _ _ H1 H3) H4)).
Qed.
Lemma hash_positions_fold jen : forall l h, hash_positions jen h l = fold_left hash_combine (map (fun x => jen (le_bytes 8 x)) l) h.
Proof. induction l as [|x l IH]; intro h; [reflexivity|]. cbn. apply IH. Qed.
Lemma conf_hash_fold jen c : conf_hash jen c =
  fold_left hash_combine (map (fun x => jen (le_bytes 8 x)) (lenZ (tc_pos c) :: tc_pos c)) (jen (le_bytes 8 (tc_space c))).
Proof. unfold conf_hash. cbv zeta. rewrite hash_positions_fold. reflexivity. Qed.

(** ** Construction and accessors *)
Lemma conf_created is_space id sp l : is_space sp = true ->
  create_conf is_space id sp (lenZ l) (Some l) = Ok (mkConf id sp l None) /\ create_conf is_space id sp 0 None = Ok (mkConf id sp [] None).
Proof.
  intro E. unfold create_conf. rewrite E. cbn [negb refute bind]. rewrite andb_false_r. cbn [refute bind].
  unfold lenZ. rewrite Nat2Z.id, firstn_all. now destruct (Nat.ltb_spec (length l) (length l)); [lia|].
Qed.
Lemma conf_not_created is_space id sp n l : (is_space sp = false -> create_conf is_space id sp n l = Err ERR_INVALID_OBJECT) /\
  (is_space sp = true -> 0 < n -> create_conf is_space id sp n None = Err ERR_INVALID_VALUE).
Proof.
  unfold create_conf. split; [intros ->; reflexivity|]. intros -> N. cbn [negb refute bind]. destruct (Z.ltb_spec 0 n); [reflexivity|lia].
Qed.
Lemma conf_located c old wanted : lenZ (tc_pos c) <= lenZ old ->
  conf_position c (lenZ old) (Some old) wanted = Ok (Some (tc_pos c ++ skipn (length (tc_pos c)) old), if wanted then Some (lenZ (tc_pos c)) else None).
Proof.
  intro L. unfold conf_position. rewrite andb_false_r. cbn [refute bind].
  destruct (Z.ltb_spec (lenZ old) (lenZ (tc_pos c))); [lia|]. reflexivity.
Qed.
Lemma conf_not_located c old wanted n : (lenZ old < lenZ (tc_pos c) -> conf_position c (lenZ old) (Some old) wanted = Err ERR_INVALID_VALUE) /\
  conf_position c 0 None true = Ok (None, Some (lenZ (tc_pos c))) /\ conf_position c 0 None false = Err ERR_INVALID_VALUE /\
  (0 < n -> conf_position c n None wanted = Err ERR_INVALID_VALUE).
Proof.
  unfold conf_position. split; [|split; [reflexivity|split; [reflexivity|]]].
  - intro L. rewrite andb_false_r. cbn [refute bind]. destruct (Z.ltb_spec (lenZ old) (lenZ (tc_pos c))); [reflexivity|lia].
  - intro N. destruct (Z.ltb_spec 0 n); [reflexivity|lia].
Qed.

(** ** Serialisation *)
Lemma sizes_exist l : Forall (in_unsigned 64) l -> exists bs, wire_sizes l bs.
Proof.
  induction 1 as [|x l [H _] F (bs & IH)]; [exists []; constructor|]. destruct (leb128_exists x H) as [b B]. exists (b ++ bs). now constructor.
Qed.
Lemma sizes_encode l bs : Forall (in_unsigned 64) l -> wire_sizes l bs -> encodes (ser_positions l) bs /\ size_positions l = lenZ bs.
Proof.
  intros F W. induction W as [|x l b bs B W IH]; [split; [apply encodes_nil|reflexivity]|]. inversion F as [|? ? F1 F2]; subst.
  destruct (IH F2) as [E Z1]. cbn [ser_positions size_positions]. split.
  - apply encodes_seq; [apply ser_uint_encodes; auto using okw64|exact E].
  - rewrite Z1, lenZ_app. unfold size_size. rewrite (size_uint_ok 64 x b); auto using okw64.
Qed.
Lemma leb_nonempty x b : leb128 x b -> (1 <= length b)%nat.
Proof. intro B. inversion B; cbn; lia. Qed.
Lemma sizes_len l bs : wire_sizes l bs -> (length l <= length bs)%nat.
Proof. induction 1 as [|x l b bs B W IH]; [auto|]. apply leb_nonempty in B. rewrite app_length. cbn. lia. Qed.
Lemma positions_dec u : forall l bs, wire_sizes l bs -> Forall (in_unsigned 64) l -> forall fuel L i room, (L < fuel)%nat -> (0 <= i) ->
  8 * (i + lenZ l) <= room -> dec u L (deser_positions fuel room i (i + lenZ l)) l bs.
Proof.
  induction 1 as [|x l b bs B W IH]; intros F [|fuel] L i room LF I R; try lia.
  - cbn [deser_positions]. change (lenZ (@nil Z)) with 0. rewrite Z.add_0_r, Z.eqb_refl. apply dec_ret.
  - inversion F as [|? ? F1 F2]; subst. cbn [deser_positions]. rewrite lenZ_cons in *. pose proof (lenZ_nonneg l).
    destruct (Z.eqb_spec i (i + (1 + lenZ l))); [lia|]. pose proof (leb_nonempty x b B) as NB.
    eapply dec_bind; [apply decodes_dec, deser_uint_decodes; [exact okw64|exact F1|exact B]|]. intro LB. cbv beta iota.
    destruct (Z.ltb_spec room (8 * (i + 1))); [lia|].
    rewrite <- (app_nil_r bs). eapply dec_bind; [|intros _; cbv beta iota; apply dec_ret].
    replace (i + (1 + lenZ l)) with (i + 1 + lenZ l) by lia. apply IH; auto; lia.
Qed.
Section Conf.
  Variable c : tconf.
  Hypothesis SC : storable_conf c.
  Lemma conf_written : exists bs, wire_conf c bs /\ encodes (ser_conf c) bs /\ size_conf c = lenZ bs.
  Proof.
    destruct SC as (I & SP & F & LP & UD). destruct (leb128_exists (tc_id c)) as [lh Lh]; [apply I|]. destruct (leb128_exists (tc_space c)) as [sp Sp]; [apply SP|].
    destruct (leb128_exists (lenZ (tc_pos c))) as [ln Ln]; [apply lenZ_nonneg|]. destruct (sizes_exist _ F) as [ps Ps].
    destruct (wire_blob_exists (ud_bytes (tc_ud c))) as [ub Ub]. destruct (sizes_encode _ ps F Ps) as [PE PZ].
    assert (LL : 0 <= lenZ (tc_pos c) < 2 ^ 64) by (pose proof (lenZ_nonneg (tc_pos c)); lia).
    exists ((17 :: lh) ++ sp ++ ln ++ ps ++ ub). split; [exists lh, sp, ln, ps, ub; repeat split; auto|]. unfold ser_conf, size_conf. split.
    - apply encodes_seq; [apply ser_object_internal_encodes; [cbv; split; congruence|exact I|exact Lh]|].
      apply encodes_seq; [apply ser_uint_encodes; auto using okw64|]. apply encodes_seq; [apply ser_uint_encodes; auto using okw64|].
      apply encodes_seq; [exact PE|now apply ser_user_data_encodes].
    - unfold size_object, size_size. rewrite (size_object_internal_ok 17 _ lh), (size_uint_ok 64 _ sp), (size_uint_ok 64 _ ln), PZ, (size_user_data_ok _ ub) by (auto using okw64; lia).
      rewrite !lenZ_app. lia.
  Qed.
  Variable mem : Z -> bool.
  Hypothesis MEM : tc_pos c <> [] -> mem (8 * lenZ (tc_pos c)) = true.
  Lemma data_dec u L sp ln ps : leb128 (tc_space c) sp -> leb128 (lenZ (tc_pos c)) ln -> wire_sizes (tc_pos c) ps ->
    dec u L (deser_conf_data mem) (tc_space c, lenZ (tc_pos c), match tc_pos c with [] => None | l => Some l end) (sp ++ ln ++ ps).
  Proof.
    intros Sp Ln Ps. destruct SC as (I & SP & F & LP & UD). unfold deser_conf_data.
    assert (LL : 0 <= lenZ (tc_pos c) < 2 ^ 64) by (pose proof (lenZ_nonneg (tc_pos c)); lia).
    db; [apply decodes_dec, deser_uint_decodes; [exact okw64|exact SP|exact Sp]|].
    db; [apply decodes_dec, deser_uint_decodes; [exact okw64|exact LL|exact Ln]|].
    destruct (tc_pos c) as [|x l] eqn:EP; [inversion Ps; subst; apply dec_ret|]. cbv zeta.
    destruct (Z.eqb_spec (lenZ (x :: l)) 0) as [E0|_]; [rewrite lenZ_cons in E0; pose proof (lenZ_nonneg l); lia|].
    assert (RM : wrap 64 (lenZ (x :: l) * 8) = 8 * lenZ (x :: l)) by (rewrite wrap_small; lia).
    rewrite RM, MEM by discriminate. cbn [negb].
    assert (D : forall L fuel, (L < fuel)%nat -> dec u L (deser_positions fuel (8 * lenZ (x :: l)) 0 (lenZ (x :: l))) (x :: l) ps).
    { intros L0 fuel LF. pose proof (positions_dec u (x :: l) ps Ps F fuel L0 0 (8 * lenZ (x :: l)) LF) as D. rewrite Z.add_0_l in D. apply D; lia. }
    clear - D. rewrite <- (app_nil_r ps). eapply (dec_bind u _ (fun s => deser_positions (S (length (r_mem s))) (8 * lenZ (x :: l)) 0 (lenZ (x :: l)) s)); [|intros _; cbv beta iota; apply dec_ret].
    split.
    - intros _ tl n N N'. cbn [r_mem]. destruct (D (length (ps ++ tl)) (S (length (ps ++ tl))) ltac:(lia)) as [D1 _]. apply D1; auto. rewrite app_length. lia.
    - intros U p q tl Q NQ LP _. cbn [r_mem]. destruct (D (length (p ++ tl)) (S (length (p ++ tl))) ltac:(lia)) as [_ D2]. apply (D2 U p q tl); auto. rewrite app_length. lia.
  Qed.
  Variables (is_space : Z -> bool) (m : hmap) (id space : Z).
  Lemma conf_dec u L bs (keep : bool) m' d : wire_conf c bs -> m (tc_space c) = Some d -> d_val d = VObject space -> is_space space = true ->
    (if keep then m (tc_id c) = None /\ m' = hset m (tc_id c) (ccs_object id) else m' = m) ->
    (u = true -> ud_bytes (tc_ud c) = []) ->
    dec u L (deser_conf mem is_space (Some m) keep id) (mkConf id space (tc_pos c) (restored_ud (tc_ud c)), m') bs.
  Proof.
    intros (lh & sp & ln & ps & ub & Lh & Sp & Ln & Ps & Ub & ->) MS DS IS KP GU. pose proof SC as (I & SP & F & LP & UD).
    unfold deser_conf. eapply dec_bind; [apply decodes_dec, (deser_object_internal_decodes 17 (tc_id c)); [lia|exact I|exact Lh]|]. intros _. cbv beta iota.
    cbn [fst snd Z.eqb OBJ_TREE_CONFIGURATION Pos.eqb negb refute bind].
    replace (sp ++ ln ++ ps ++ ub) with ((sp ++ ln ++ ps) ++ ub) by (rewrite <- !app_assoc; reflexivity).
    db; [apply (data_dec u _ sp ln ps Sp Ln Ps)|]. unfold hget. rewrite MS, DS.
    assert (CR : create_conf is_space id space (lenZ (tc_pos c)) (match tc_pos c with [] => None | l => Some l end) = Ok (mkConf id space (tc_pos c) None)).
    { destruct (tc_pos c) as [|x l]; [apply (conf_created is_space id space [] IS)|]. now apply conf_created. }
    rewrite CR. cbn [bind tc_space tc_pos].
    assert (KE : (if keep then handle_check_add m (tc_id c) id else Ok m) = Ok m').
    { destruct keep; [|now subst]. destruct KP as [K1 ->]. unfold handle_check_add. now rewrite K1. }
    rewrite KE. cbn [bind]. rewrite restored_ud_eq. rewrite <- (app_nil_r ub).
    db; [apply (user_data_dec u _ (ud_bytes (tc_ud c))); [exact UD|exact Ub|exact GU]|]. apply dec_ret.
  Qed.
  Lemma conf_restored bs (keep : bool) d : wire_conf c bs -> m (tc_space c) = Some d -> d_val d = VObject space -> is_space space = true ->
    (keep = true -> m (tc_id c) = None) ->
    exists m', (if keep then recorded m m' (tc_id c) id else m' = m) /\
      (forall tl n, lenZ bs <= n <= lenZ (bs ++ tl) -> n < 2 ^ 64 ->
         deser_conf mem is_space (Some m) keep id (mkR (bs ++ tl) n) = Ok ((mkConf id space (tc_pos c) (restored_ud (tc_ud c)), m'), mkR tl (n - lenZ bs))) /\
      (ud_bytes (tc_ud c) = [] -> forall p q tl, bs = p ++ q -> q <> [] -> lenZ p < 2 ^ 64 ->
         deser_conf mem is_space (Some m) keep id (mkR (p ++ tl) (lenZ p)) = Err ERR_NOT_ENOUGH_DATA).
  Proof.
    intros W MS DS IS KP. exists (if keep then hset m (tc_id c) (ccs_object id) else m). split; [destruct keep; [intro x|]; reflexivity|].
    assert (KQ : if keep then m (tc_id c) = None /\ (if keep then hset m (tc_id c) (ccs_object id) else m) = hset m (tc_id c) (ccs_object id) else (if keep then hset m (tc_id c) (ccs_object id) else m) = m) by (destruct keep; auto).
    split.
    - intros tl n N1 N2. destruct (conf_dec false (length bs) bs keep _ d W MS DS IS KQ ltac:(discriminate)) as [D _]. apply D; auto.
    - intros U p q tl Q NQ LP. destruct (conf_dec true (length p) bs keep _ d W MS DS IS KQ (fun _ => U)) as [_ D]. apply (D eq_refl p q tl); auto.
  Qed.
  (** what makes it fail *)
  Lemma conf_refused bs keep : wire_conf c bs -> forall tl n, lenZ bs <= n <= lenZ (bs ++ tl) -> n < 2 ^ 64 ->
    deser_conf mem is_space None keep id (mkR (bs ++ tl) n) = Err ERR_INVALID_OBJECT /\
    ((forall o, option_map d_val (m (tc_space c)) <> Some (VObject o)) -> deser_conf mem is_space (Some m) keep id (mkR (bs ++ tl) n) = Err ERR_INVALID_HANDLE) /\
    (option_map d_val (m (tc_space c)) = Some (VObject space) ->
       (is_space space = false -> deser_conf mem is_space (Some m) keep id (mkR (bs ++ tl) n) = Err ERR_INVALID_OBJECT) /\
       (is_space space = true -> m (tc_id c) <> None -> keep = true -> deser_conf mem is_space (Some m) keep id (mkR (bs ++ tl) n) = Err ERR_DUPLICATE_HANDLE)).
  Proof.
    intros (lh & sp & ln & ps & ub & Lh & Sp & Ln & Ps & Ub & ->) tl n N1 N2. pose proof SC as (I & SP & F & LP & UD). split; [reflexivity|].
    unfold deser_conf.
    replace ((17 :: lh) ++ sp ++ ln ++ ps ++ ub) with ((17 :: lh) ++ (sp ++ ln ++ ps) ++ ub) in * by (rewrite <- !app_assoc; reflexivity).
    pose proof (fun L => data_dec false L sp ln ps Sp Ln Ps) as DD. set (X := sp ++ ln ++ ps) in *. clearbody X.
    rewrite <- (app_assoc (17 :: lh)). pose proof (lenZ_nonneg tl). pose proof (lenZ_nonneg ub). pose proof (lenZ_nonneg X). pose proof (lenZ_nonneg (17 :: lh)).
    destruct (deser_object_internal_decodes 17 (tc_id c) lh) as [D1 _]; [lia|exact I|exact Lh|].
    rewrite D1; [|rewrite !lenZ_app in *; lia|exact N2].
    cbn [bind fst snd OBJ_TREE_CONFIGURATION Z.eqb Pos.eqb negb refute].
    destruct (DD (length X)) as [D2 _]. rewrite <- (app_assoc X ub tl).
    rewrite D2; [|reflexivity|rewrite !lenZ_app in *; lia|lia].
    cbn [bind]. unfold hget. split.
    - intro NO. destruct (m (tc_space c)) as [d|]; cbn [option_map] in NO; [|reflexivity]. destruct (d_val d) eqn:E; try reflexivity. exfalso. now apply (NO h).
    - intro MS. destruct (m (tc_space c)) as [d|]; cbn [option_map] in MS; [|discriminate]. injection MS as ->. split.
      + intro IS. unfold create_conf. now rewrite IS.
      + intros IS MK ->.
        assert (CR : create_conf is_space id space (lenZ (tc_pos c)) (match tc_pos c with [] => None | l => Some l end) = Ok (mkConf id space (tc_pos c) None)).
        { destruct (tc_pos c) as [|x l]; [apply (conf_created is_space id space [] IS)|]. now apply conf_created. }
        rewrite CR. cbn [bind]. unfold handle_check_add. destruct (m (tc_id c)); [reflexivity|congruence].
  Qed.
End Conf.

(** ** What a configuration designates in its space *)
Section Space.
  Variables (S : Type) (h : heap) (sp : tspace S) (c : tconf).
  Hypothesis R : reached h.
  Hypothesis AT : alive h (ts_tree S sp).
  Definition answers (r : res (list datum)) (wanted : bool) : res (option (list datum) * option Z) :=
    match r with
    | Ok vs => Ok (Some vs, if wanted then Some (lenZ (tc_pos c) + 1) else None)
    | Err e => Err e
    | UB u => UB u
    end.
  Lemma conf_uncounted wanted : conf_values S h sp c None wanted =
    (if wanted then Ok (None, Some (lenZ (tc_pos c) + 1)) else Err ERR_INVALID_VALUE, (h, sp)).
  Proof. now destruct wanted. Qed.
  Lemma conf_static size wanted : ts_kind S sp = KStatic S ->
    exists n b vs, conf_node S h sp c = (n, (h, sp)) /\ conf_check S h sp c = (Ok b, (h, sp)) /\ conf_values S h sp c (Some size) wanted = (vs, (h, sp)) /\
    ((exists d ds, designates h (ts_tree S sp) (steps c) d /\ values_along h (ts_tree S sp) (steps c) ds /\ n = Ok d /\ b = true /\
        vs = if (length (tc_pos c) <? size)%nat
             then Ok (Some (ds ++ repeat ccs_none (size - length ds)), if wanted then Some (lenZ (tc_pos c) + 1) else None)
             else Err ERR_INVALID_VALUE) \/
     (breaks h (ts_tree S sp) (steps c) /\ n = Err ERR_INVALID_TREE /\ (b = true <-> dangling h (ts_tree S sp) (steps c)) /\
        vs = if (length (tc_pos c) <? size)%nat then Err ERR_INVALID_TREE else Err ERR_INVALID_VALUE) \/
     (strays h (ts_tree S sp) (steps c) /\ n = Err ERR_OUT_OF_BOUNDS /\ b = false /\
        vs = if (length (tc_pos c) <? size)%nat then Err ERR_OUT_OF_BOUNDS else Err ERR_INVALID_VALUE)).
  Proof.
    intro K. destruct (static_space S h sp (steps c) size R AT K) as (n & b & vs & N & B & V & C).
    assert (LE : length (steps c) = length (tc_pos c)) by apply map_length. rewrite LE in C.
    exists n, b, (answers vs wanted). split; [exact N|]. split; [exact B|]. split; [unfold conf_values; fold (steps c); rewrite V; destruct vs; reflexivity|].
    destruct C as [(d & ds & C1 & C2 & C3 & C4 & ->)|[(C1 & C2 & C3 & ->)|(C1 & C2 & C3 & ->)]].
    - left. exists d, ds. repeat (split; [assumption|]). destruct (length (tc_pos c) <? size)%nat; reflexivity.
    - right; left. repeat (split; [assumption|]). destruct (length (tc_pos c) <? size)%nat; reflexivity.
    - right; right. repeat (split; [assumption|]). destruct (length (tc_pos c) <? size)%nat; reflexivity.
  Qed.
  Lemma conf_dynamic v st : behaves S v -> ts_kind S sp = KDynamic S v st ->
    exists r h' st', explores S v (h, st) (ts_tree S sp) (steps c) r (h', st') /\ reached h' /\ grown h h' /\
      conf_node S h sp c = (r, (h', with_state S sp v st')) /\
      match r with
      | Ok d => designates h' (ts_tree S sp) (steps c) d /\ conf_check S h sp c = (Ok true, (h', with_state S sp v st'))
      | Err e => (strays h' (ts_tree S sp) (steps c) /\ conf_check S h sp c = (Ok false, (h', with_state S sp v st'))) \/
                 (~ strays h' (ts_tree S sp) (steps c) /\ conf_check S h sp c = (Err e, (h', with_state S sp v st')))
      | UB _ => False
      end /\
      (forall size wanted, (length (tc_pos c) < size)%nat ->
         match r with
         | Ok _ => exists ds, values_along h' (ts_tree S sp) (steps c) ds /\
             conf_values S h sp c (Some size) wanted =
               (Ok (Some (ds ++ repeat ccs_none (size - length ds)), if wanted then Some (lenZ (tc_pos c) + 1) else None), (h', with_state S sp v st'))
         | Err e => conf_values S h sp c (Some size) wanted = (Err e, (h', with_state S sp v st'))
         | UB _ => False
         end) /\
      (forall size wanted, (size <= length (tc_pos c))%nat -> conf_values S h sp c (Some size) wanted = (Err ERR_INVALID_VALUE, (h, sp))).
  Proof.
    intros B K. destruct (dyn_node_explores S v B (steps c) (h, st) (ts_tree S sp) R AT) as (r & [h' st'] & D & X & R' & G & Q).
    assert (LE : length (steps c) = length (tc_pos c)) by apply map_length.
    exists r, h', st'. split; [exact X|]. split; [exact R'|]. split; [exact G|].
    split; [unfold conf_node, space_node, lift; fold (steps c); rewrite K, D; reflexivity|]. split; [|split].
    - pose proof (dyn_check_node S v B (steps c) (h, st) (ts_tree S sp) R AT) as C. rewrite D in C. cbn [fst] in *. destruct C as [C1 C2].
      unfold conf_check, space_check, lift. fold (steps c). rewrite K. destruct r as [d|e|]; [| |contradiction].
      + rewrite C2. auto.
      + destruct C2 as [C2|[C2 NS]]; rewrite C2; [left|right]; split; auto. now apply C1.
    - intros size wanted L. unfold conf_values, space_values, lift, dyn_values. fold (steps c). rewrite K.
      destruct (Nat.ltb_spec size (length (steps c) + 1)); [lia|].
      pose proof AT as A'. unfold alive in A'. destruct (seen h (ts_tree S sp)) as [vw|] eqn:E; [|congruence].
      pose proof (dyn_values_node S v B (steps c) (h, st) (ts_tree S sp) vw R E) as V. rewrite D in V. cbn [fst] in *.
      pose proof E as E0. apply TreeHeap.seen_node in E0 as (n & En & Vn). rewrite (TreeHeap.read_node _ _ _ En).
      destruct r as [d|e|]; [|now rewrite V|contradiction].
      destruct V as (vs & VA & ->). exists (v_value vw :: vs). split; [exact VA|].
      replace (n_value n) with (v_value vw) by (rewrite Vn; reflexivity). rewrite fill_ok; [reflexivity|]. rewrite (TreeNav.along_length _ _ _ _ VA). lia.
    - intros size wanted L. unfold conf_values, space_values, lift, dyn_values. fold (steps c). rewrite K.
      destruct (Nat.ltb_spec size (length (steps c) + 1)); [|lia]. unfold with_state. rewrite <- K. destruct sp; reflexivity.
  Qed.
End Space.
Lemma conf_no_memory c mem is_space m keep id bs : storable_conf c -> wire_conf c bs -> tc_pos c <> [] -> mem (8 * lenZ (tc_pos c)) = false ->
  forall tl n, lenZ bs <= n <= lenZ (bs ++ tl) -> n < 2 ^ 64 ->
  deser_conf mem is_space (Some m) keep id (mkR (bs ++ tl) n) = Err ERR_OUT_OF_MEMORY.
Proof.
  intros (I & SP & F & LP & UD) (lh & sp & ln & ps & ub & Lh & Sp & Ln & Ps & Ub & ->) NE NM tl n N1 N2. unfold deser_conf, deser_conf_data.
  rewrite <- !app_assoc in *. pose proof (lenZ_nonneg tl). pose proof (lenZ_nonneg ub). pose proof (lenZ_nonneg ps). pose proof (lenZ_nonneg ln). pose proof (lenZ_nonneg sp). pose proof (lenZ_nonneg (17 :: lh)).
  assert (LL : 0 <= lenZ (tc_pos c) < 2 ^ 64) by (pose proof (lenZ_nonneg (tc_pos c)); lia).
  destruct (deser_object_internal_decodes 17 (tc_id c) lh) as [D1 _]; [lia|exact I|exact Lh|].
  rewrite D1; [|rewrite !lenZ_app in *; lia|exact N2]. cbn [bind fst snd OBJ_TREE_CONFIGURATION Z.eqb Pos.eqb negb refute].
  destruct (deser_uint_decodes 64 _ sp okw64 SP Sp) as [D2 _]. unfold deser_object. rewrite D2; [|rewrite !lenZ_app in *; lia|lia]. cbn [bind].
  destruct (deser_uint_decodes 64 _ ln okw64 LL Ln) as [D3 _]. unfold deser_size. rewrite D3; [|rewrite !lenZ_app in *; lia|lia]. cbn [bind].
  destruct (Z.eqb_spec (lenZ (tc_pos c)) 0) as [E0|_]; [destruct (tc_pos c); [congruence|rewrite lenZ_cons in E0; pose proof (lenZ_nonneg l); lia]|].
  rewrite wrap_small by lia. rewrite (Z.mul_comm (lenZ (tc_pos c)) 8), NM. reflexivity.
Qed.
