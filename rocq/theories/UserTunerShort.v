(** User defined tuners whose application stores less state than it announced. *)
From Coq Require Import ZArith List Bool Lia.
From Verif Require Import Base Datum CodecModel CodecSpec CodecProofs CmpModel CmpSpec ParamModel ParamSpec ParamCodec ContextModel ContextSpec EvalModel ExprModel ExprCodec TreeModel TreeCodecSpec TreeCodec RngModel RngProofs TreeSpaceModel TreeSpaceSpec TreeSpaceCodec TreeConfModel TreeConfSpec TreeConfProofs RestoreModel RestoreSpec RestoreProofs TunerCodecModel TunerCodecSpec TunerCodecProofs UserTunerModel UserTunerSpec UserTunerProofs UserTunerKinds UserTunerShortSpec.
Import ListNotations.
Open Scope Z_scope.

Section Generic.
  Variables (E Sp : Type) (mem : Z -> bool).
  Variables (ser_spaces : Sp -> wstate -> res wstate) (size_spaces : Sp -> res Z).
  Variables (ser_e : eobj E -> wstate -> res wstate) (size_e : eobj E -> res Z).
  Variables (storable_e : eobj E -> Prop) (wire_e : eobj E -> list Z -> Prop).
  Hypothesis EW : forall e, storable_e e -> exists bs, wire_e e bs /\ encodes (ser_e e) bs /\ size_e e = Ok (lenZ bs).
  Lemma short_written oty t H O n b sb : 0 <= oty < 128 -> answers_short (ut_state t) H O n b -> storable_tuner storable_e (speaks t H O) -> lenZ b <= n -> 0 < n < 2 ^ 64 ->
    granted mem (8 * (lenZ H + lenZ O)) -> encodes (ser_spaces (ut_spaces t)) sb -> size_spaces (ut_spaces t) = Ok (lenZ sb) ->
    exists z, size_user_tuner E Sp mem size_spaces size_e oty t = Ok z /\
      writes_short (ser_user_tuner E Sp mem ser_spaces ser_e oty t) z n b (fun st bs => wire_user oty sb wire_e (speaks t H O) st bs).
  Proof.
    intros TY (HC & AH & OC & AO & get & AS & AG) (I & NM & F & FO & LL & UD) LB LN G SE SS. cbn [speaks rt_id rt_name rt_history rt_optima rt_ud] in *.
    destruct (leb128_exists (ut_id t)) as [lh Lh]; [apply I|]. destruct (wire_string_exists (ut_name t)) as [nb Nb].
    pose proof (lenZ_nonneg H) as P1. pose proof (lenZ_nonneg O) as P2. destruct (leb128_exists _ P1) as [hn Hn]. destruct (leb128_exists _ P2) as [on On].
    destruct (all_written E ser_e size_e storable_e wire_e EW _ F) as (hb & Hb & HW). destruct (sizes_exist _ FO) as [ob Ob]. destruct (leb128_exists n ltac:(lia)) as [l Ll]. destruct (wire_blob_exists (ud_bytes (ut_ud t))) as [ub Ub].
    destruct (told_written E mem ser_e size_e (ut_state t) H O hb ob LL G AH HW AO FO Ob) as [TE TS].
    set (P := ((oty :: lh) ++ [1] ++ nb ++ sb) ++ hn ++ on ++ (hb ++ ob)).
    set (Fx := fun s => do s <- (do s <- ser_object_internal oty (ut_id t) s; do s <- ser_enum TUNER_USER_DEFINED s; do s <- ser_string (ut_name t) s; ser_spaces (ut_spaces t) s);
      do s <- ser_size (lenZ H) s; do s <- ser_size (lenZ O) s; ser_told E mem ser_e (ut_state t) (lenZ H) (lenZ O) s).
    assert (FE : encodes Fx P).
    { apply encodes_seq; [now apply head_written|]. apply encodes_seq; [apply ser_uint_encodes; auto using okw64; unfold in_unsigned; lia|].
      apply encodes_seq; [apply ser_uint_encodes; auto using okw64; unfold in_unsigned; lia|exact TE]. }
    assert (EQ : forall s, ser_user_tuner E Sp mem ser_spaces ser_e oty t s = do s <- Fx s; do s <- ser_state E (ut_state t) s; ser_user_data (ut_ud t) s).
    { intro s. rewrite ser_after, HC, OC. unfold Fx. destruct (do s <- ser_object_internal oty (ut_id t) s; do s <- ser_enum TUNER_USER_DEFINED s; do s <- ser_string (ut_name t) s; ser_spaces (ut_spaces t) s) as [s1| |]; cbn [bind]; try reflexivity.
      destruct (ser_size (lenZ H) s1) as [s2| |]; cbn [bind]; try reflexivity. destruct (ser_size (lenZ O) s2) as [s3| |]; cbn [bind]; reflexivity. }
    exists (lenZ P + lenZ l + n + lenZ ub). split.
    { unfold size_user_tuner. rewrite SS, HC, OC. cbn [bind]. rewrite TS. cbn [bind]. unfold size_state. rewrite AS. cbn [bind]. unfold size_size. f_equal. destruct NM as [NC NL].
      rewrite (size_object_internal_ok oty _ lh), (size_enum_small TUNER_USER_DEFINED), (size_string_ok _ nb), (size_uint_ok 64 _ hn), (size_uint_ok 64 _ on), (size_uint_ok 64 _ l), (size_user_data_ok _ ub)
        by (auto using okw64; unfold in_unsigned, TUNER_USER_DEFINED; lia).
      unfold P. rewrite !lenZ_app. change (lenZ [1]) with 1. lia. }
    intros s Hs. pose proof (lenZ_nonneg l) as N1. pose proof (lenZ_nonneg ub) as N2. pose proof (lenZ_nonneg b) as N3. pose proof (lenZ_nonneg P) as N4. rewrite EQ.
    destruct (FE s Hs) as [F1 F2]. destruct (Z_lt_le_dec (w_size s) (lenZ P)) as [C1|C1]; [rewrite (F2 C1); split; [reflexivity|lia]|].
    destruct (F1 C1) as (s1 & E1 & D1 & R1 & Z1). rewrite E1. cbn [bind]. assert (W1 : wf_w s1) by (eapply wf_after; eauto).
    unfold ser_state. rewrite AS. cbn [bind].
    destruct (ser_uint_encodes 64 n l okw64 ltac:(lia) Ll s1 W1) as [Y1 Y2]. fold (ser_size n) in Y1, Y2.
    destruct (Z_lt_le_dec (w_size s1) (lenZ l)) as [C2|C2]; [rewrite (Y2 C2); split; [reflexivity|lia]|].
    destruct (Y1 C2) as (s2 & E2 & D2 & R2 & Z2). rewrite E2. cbn [bind]. assert (W2 : wf_w s2) by (eapply wf_after; eauto). destruct W2 as [W2 W2'].
    replace (n =? 0) with false by lia. destruct (Z.ltb_spec (w_size s2) n) as [C3|C3]; [split; [reflexivity|lia]|].
    rewrite AG. cbn [bind]. unfold put_state. replace (n <? lenZ b) with false by lia.
    set (rest := firstn (Z.to_nat (n - lenZ b)) (skipn (length b) (w_rest s2))).
    assert (LR : lenZ (b ++ rest) = n). { rewrite lenZ_app. unfold rest. assert (X : lenZ (skipn (length b) (w_rest s2)) = lenZ (w_rest s2) - lenZ b) by (unfold lenZ in *; rewrite skipn_length; lia). unfold lenZ in *. rewrite firstn_length. lia. }
    rewrite put_all_ok by lia. cbn [bind].
    set (s3 := w_sub n (mkW (w_done s2 ++ b ++ rest) (skipn (length (b ++ rest)) (w_rest s2)) (w_size s2))).
    assert (Z3 : w_size s3 = w_size s2 - n) by (unfold s3, w_sub; cbn [w_size]; apply wrap_small; lia).
    assert (W3 : wf_w s3) by (eapply (wf_after s2 s3 (b ++ rest)); [now split|lia|reflexivity|lia]).
    destruct (ser_user_data_encodes (ut_ud t) ub UD Ub s3 W3) as [V1 V2]. split; [intro C; apply V2; lia|]. intro C.
    destruct (V1 ltac:(lia)) as (s4 & E4 & D4 & R4 & Z4).
    exists (length P + length l + length b)%nat, rest, (P ++ (l ++ b ++ rest) ++ ub), s4.
    split; [unfold rest; rewrite R2, R1, !skipn_skipn'; do 2 f_equal; lia|]. split; [exact LR|]. split.
    { exists lh, nb, hn, on, hb, ob, (l ++ b ++ rest), ub. cbn [speaks rt_id rt_name rt_history rt_optima rt_ud]. repeat (split; [assumption|]). split; [exists l; now rewrite LR|]. split; [assumption|].
      unfold P. rewrite <- !app_assoc. reflexivity. }
    split; [rewrite !lenZ_app in *; lia|]. split; [exact E4|]. split; [rewrite D4; unfold s3, w_sub; cbn [w_done]; rewrite D2, D1, <- !app_assoc; reflexivity|].
    split; [rewrite R4; unfold s3, w_sub; cbn [w_rest]; rewrite R2, R1, !skipn_skipn'; f_equal; rewrite !app_length; lia|]. lia.
  Qed.
End Generic.

Lemma users_short mem le Sp ser_spaces size_spaces n b sb : lenZ b <= n -> 0 < n < 2 ^ 64 ->
  (forall t H O, answers_short (ut_state t) H O n b -> storable_tuner (storable_eval storable_bobj) (speaks t H O) -> granted mem (8 * (lenZ H + lenZ O)) ->
     encodes (ser_spaces (ut_spaces t)) sb -> size_spaces (ut_spaces t) = Ok (lenZ sb) ->
     exists z, size_config_user mem Sp size_spaces t = Ok z /\ writes_short (ser_config_user mem le Sp ser_spaces t) z n b (wire_user 8 sb (wire_eval 7 (wire_bobj 5)) (speaks t H O))) /\
  (forall t H O, answers_short (ut_state t) H O n b -> storable_tuner (storable_eval storable_pair) (speaks t H O) -> granted mem (8 * (lenZ H + lenZ O)) ->
     encodes (ser_spaces (ut_spaces t)) sb -> size_spaces (ut_spaces t) = Ok (lenZ sb) ->
     exists z, size_features_user mem Sp size_spaces t = Ok z /\ writes_short (ser_features_user mem le Sp ser_spaces t) z n b (wire_user 12 sb (wire_eval 11 wire_pair) (speaks t H O))) /\
  (forall t H O, answers_short (ut_state t) H O n b -> storable_tuner (storable_eval storable_conf) (speaks t H O) -> granted mem (8 * (lenZ H + lenZ O)) ->
     encodes (ser_spaces (ut_spaces t)) sb -> size_spaces (ut_spaces t) = Ok (lenZ sb) ->
     exists z, size_tree_user mem Sp size_spaces t = Ok z /\ writes_short (ser_tree_user mem le Sp ser_spaces t) z n b (wire_user 19 sb (wire_eval 18 wire_conf) (speaks t H O))).
Proof.
  intros LB LN. destruct (writings le) as (_ & _ & W1 & W2 & W3).
  split; [|split]; intros t H O A S G SE SS; (eapply short_written; [|unfold OBJ_TUNER, OBJ_FEATURES_TUNER, OBJ_TREE_TUNER; lia|exact A|exact S|exact LB|exact LN|exact G|exact SE|exact SS]); auto.
Qed.

(** ** Counts whose sum does not fit *)
Lemma size_wraps E Sp mem size_spaces size_e oty (t : utuner Sp (app E)) nh no l p :
  size_spaces (ut_spaces t) = Ok p -> ap_history_count (ut_state t) = Ok nh -> ap_optima_count (ut_state t) = Ok no ->
  0 <= nh < 2 ^ 64 -> 0 <= no < 2 ^ 64 -> 2 ^ 64 < nh + no -> mem (8 * (nh + no - 2 ^ 64)) = true ->
  ap_history (ut_state t) nh = Ok l -> nh + no - 2 ^ 64 < lenZ l -> size_user_tuner E Sp mem size_spaces size_e oty t = UB UBBounds.
Proof.
  intros SP HC OC N1 N2 W M AH L. unfold size_user_tuner. rewrite SP, HC, OC. cbn [bind]. unfold size_told.
  assert (R : wrap 64 (nh + no) = nh + no - 2 ^ 64). { unfold wrap. symmetry. apply (Z.mod_unique _ _ 1); lia. }
  rewrite R. replace (nh + no - 2 ^ 64 =? 0) with false by lia. rewrite M. cbn [negb]. replace (nh =? 0) with false by lia.
  rewrite AH. cbn [bind]. unfold cells. replace (nh + no - 2 ^ 64 <? lenZ l) with true by lia. now rewrite orb_true_r.
Qed.
Lemma sizes_wrap mem Sp size_spaces nh no p : 0 <= nh < 2 ^ 64 -> 0 <= no < 2 ^ 64 -> 2 ^ 64 < nh + no -> mem (8 * (nh + no - 2 ^ 64)) = true ->
  (forall t l, size_spaces (ut_spaces t) = Ok p -> ap_history_count (ut_state t) = Ok nh -> ap_optima_count (ut_state t) = Ok no ->
     ap_history (ut_state t) nh = Ok l -> nh + no - 2 ^ 64 < lenZ l -> size_config_user mem Sp size_spaces t = UB UBBounds) /\
  (forall t l, size_spaces (ut_spaces t) = Ok p -> ap_history_count (ut_state t) = Ok nh -> ap_optima_count (ut_state t) = Ok no ->
     ap_history (ut_state t) nh = Ok l -> nh + no - 2 ^ 64 < lenZ l -> size_features_user mem Sp size_spaces t = UB UBBounds) /\
  (forall t l, size_spaces (ut_spaces t) = Ok p -> ap_history_count (ut_state t) = Ok nh -> ap_optima_count (ut_state t) = Ok no ->
     ap_history (ut_state t) nh = Ok l -> nh + no - 2 ^ 64 < lenZ l -> size_tree_user mem Sp size_spaces t = UB UBBounds).
Proof. intros N1 N2 W M. split; [|split]; intros t l SP HC OC AH L; exact (size_wraps _ Sp mem size_spaces _ _ t nh no l p SP HC OC N1 N2 W M AH L). Qed.
