(** Proofs about saving, restoring and calling user defined tuners. *)
From Coq Require Import ZArith List Bool Lia Arith.
From Verif Require Import Base Datum CodecModel CodecSpec CodecProofs CmpModel CmpSpec ParamModel ParamSpec ParamCodec ContextModel ContextSpec EvalModel ExprModel ExprCodec TreeModel TreeCodecSpec TreeCodec RngModel RngProofs TreeSpaceModel TreeSpaceSpec TreeSpaceCodec TreeConfModel TreeConfSpec TreeConfProofs RestoreModel RestoreSpec RestoreProofs TunerCodecModel TunerCodecSpec TunerCodecProofs UserTunerModel UserTunerSpec.
Import ListNotations.
Open Scope Z_scope.

(** ** Writers that end with an error *)
Lemma stops_now (f : wstate -> res wstate) e : (forall s, f s = Err e) -> stops f e 0.
Proof. intros H s [WS WL]. pose proof (lenZ_nonneg (w_rest s)). split; intro; [apply H|lia]. Qed.
Lemma stops_ext f g e n : (forall s, f s = g s) -> stops f e n -> stops g e n.
Proof. intros X H s W. rewrite <- X. now apply H. Qed.
Lemma stops_seq f g bs e n m : encodes f bs -> stops g e n -> 0 <= n -> m = lenZ bs + n -> stops (fun s => do s <- f s; g s) e m.
Proof.
  intros F G N -> s [WS WL]. pose proof (lenZ_nonneg bs). destruct (F s (conj WS WL)) as [F1 F2]. split; intro H1.
  - destruct F1 as (s' & -> & _ & R & Z1); [lia|]. cbn [bind]. apply G; [|lia]. split; [|lia]. rewrite Z1, R, WS. unfold lenZ. rewrite skipn_length. unfold lenZ in *. lia.
  - destruct (Z_lt_le_dec (w_size s) (lenZ bs)) as [L|L]; [now rewrite F2|]. destruct F1 as (s' & -> & _ & R & Z1); [lia|]. cbn [bind]. apply G; [|lia]. split; [|lia].
    rewrite Z1, R, WS. unfold lenZ. rewrite skipn_length. unfold lenZ in *. lia.
Qed.
Lemma stops_first f g e n : stops f e n -> stops (fun s => do s <- f s; g s) e n.
Proof. intros F s W. destruct (F s W) as [A B]. split; intro H; [now rewrite A|now rewrite B]. Qed.

(** ** Readers that agree *)
Lemma takes_same {A} (f g : rstate -> res (A * rstate)) r bs whole : (forall s, (exists u, f s = UB u) \/ g s = f s) -> takes f r bs whole -> takes g r bs whole.
Proof.
  intro X. destruct r as [a|e|]; cbn [takes]; [| |tauto].
  - intros D u L U. destruct (D u L U) as [D1 D2]. split.
    + intros LL tl n N N'. specialize (D1 LL tl n N N'). destruct (X (mkR (bs ++ tl) n)) as [[w W]|W]; congruence.
    + intros V p q tl Q NQ LP LL. specialize (D2 V p q tl Q NQ LP LL). destruct (X (mkR (p ++ tl) (lenZ p))) as [[w W]|W]; congruence.
  - intros D L LL tl n N N'. specialize (D L LL tl n N N'). destruct (X (mkR (bs ++ tl) n)) as [[w W]|W]; congruence.
Qed.

(** ** Arrays of the application *)
Lemma cells_all {A} (none : A) l room : lenZ l <= room -> cells none (lenZ l) room l = Ok l.
Proof.
  intro R. unfold cells. replace (lenZ l <? lenZ l) with false by lia. replace (room <? lenZ l) with false by lia. cbn [orb]. rewrite Z.sub_diag. cbn [Z.to_nat repeat]. now rewrite app_nil_r.
Qed.
Lemma lenZ_map' {A B} (f : A -> B) l : lenZ (map f l) = lenZ l.
Proof. unfold lenZ. now rewrite map_length. Qed.
Lemma put_state_encodes st : encodes (fun s => if w_size s <? lenZ st then Err ERR_NOT_ENOUGH_DATA else put_state (lenZ st) st s) st.
Proof.
  intros s [WS WL]. pose proof (lenZ_nonneg st). split; intro L.
  - replace (w_size s <? lenZ st) with false by lia. unfold put_state. replace (lenZ st <? lenZ st) with false by lia. rewrite Z.sub_diag. cbn [Z.to_nat firstn]. rewrite app_nil_r.
    rewrite put_all_ok by lia. cbn [bind]. unfold w_sub. cbn. eexists. split; [reflexivity|]. cbn. split; [reflexivity|]. split; [reflexivity|]. apply wrap_small. lia.
  - now replace (w_size s <? lenZ st) with true by lia.
Qed.

Section Generic.
  Variables (E Sp : Type) (mem : Z -> bool).
  Section Write.
    Variables (ser_spaces : Sp -> wstate -> res wstate) (size_spaces : Sp -> res Z).
    Variables (ser_e : eobj E -> wstate -> res wstate) (size_e : eobj E -> res Z).
    Lemma cells_written H hb : wire_all (writes ser_e size_e) H hb -> encodes (ser_cells E ser_e (map Some H)) hb /\ size_cells E size_e (map Some H) = Ok (lenZ hb).
    Proof.
      induction 1 as [|e l b bs [B1 B2] W [IH1 IH2]]; cbn [map ser_cells size_cells]; [split; [apply encodes_nil|reflexivity]|].
      split; [now apply encodes_seq|]. rewrite B2, IH2. cbn [bind]. now rewrite lenZ_app.
    Qed.
    Section App.
      Variables (a : app E) (H : list (eobj E)) (O : list Z) (hb ob : list Z).
      Hypothesis L : lenZ H + lenZ O < 2 ^ 64.
      Hypothesis G : granted mem (8 * (lenZ H + lenZ O)).
      Hypothesis AH : H <> [] -> ap_history a (lenZ H) = Ok (map Some H).
      Hypothesis Hb : wire_all (writes ser_e size_e) H hb.
      Lemma sum_small : wrap 64 (lenZ H + lenZ O) = lenZ H + lenZ O.
      Proof. clear -L. pose proof (lenZ_nonneg H). pose proof (lenZ_nonneg O). apply wrap_small. lia. Qed.
      Lemma no_history : lenZ H = 0 -> hb = [].
      Proof. clear -Hb. intro X. apply lenZ_0 in X. rewrite X in Hb. now inversion Hb. Qed.
      Lemma history_part room : lenZ H <= room -> encodes (fun s => if lenZ H =? 0 then Ok s else do l <- ap_history a (lenZ H); do l <- cells None (lenZ H) room l; ser_cells E ser_e l s) hb /\
        (if lenZ H =? 0 then Ok 0 else do l <- ap_history a (lenZ H); do l <- cells None (lenZ H) room l; size_cells E size_e l) = Ok (lenZ hb).
      Proof.
        clear L G. intro R. destruct (cells_written _ _ Hb) as [CE CS]. destruct (Z.eqb_spec (lenZ H) 0) as [Z0|NZ]; [rewrite (no_history Z0); split; [apply encodes_nil|reflexivity]|].
        assert (NE : H <> []) by (intros ->; now apply NZ). rewrite (AH NE). cbn [bind].
        assert (C : cells None (lenZ H) room (map Some H) = Ok (map Some H)) by (rewrite <- (lenZ_map' Some H); apply cells_all; now rewrite lenZ_map').
        rewrite C. cbn [bind]. auto.
      Qed.
      Hypothesis AO : O <> [] -> ap_optima a (lenZ O) = Ok O.
      Hypothesis FO : Forall (in_unsigned 64) O.
      Hypothesis Ob : wire_sizes O ob.
      Lemma told_written : encodes (ser_told E mem ser_e a (lenZ H) (lenZ O)) (hb ++ ob) /\ size_told E mem size_e a (lenZ H) (lenZ O) = Ok (lenZ (hb ++ ob)).
      Proof.
        pose proof (lenZ_nonneg H) as P1. pose proof (lenZ_nonneg O) as P2. unfold ser_told, size_told. rewrite sum_small. destruct (sizes_encode _ ob FO Ob) as [OE OS].
        assert (NO : lenZ O = 0 -> ob = []) by (intro X; apply lenZ_0 in X; pose proof Ob as Ob'; rewrite X in Ob'; now inversion Ob').
        destruct (Z.eqb_spec (lenZ H + lenZ O) 0) as [Z0|NZ].
        { rewrite (no_history ltac:(lia)), (NO ltac:(lia)). split; [apply encodes_nil|reflexivity]. }
        assert (GM : mem (8 * (lenZ H + lenZ O)) = true) by (apply G; lia). rewrite !GM. cbn [negb]. destruct (history_part (lenZ H + lenZ O) ltac:(lia)) as [HE HS]. split.
        - apply encodes_seq; [exact HE|]. destruct (Z.eqb_spec (lenZ O) 0) as [Z0|NO'].
          + rewrite (NO Z0). apply encodes_nil.
          + assert (NE : O <> []) by (intros ->; now apply NO'). rewrite (AO NE). cbn [bind]. rewrite cells_all by lia. cbn [bind]. exact OE.
        - rewrite HS. cbn [bind]. destruct (Z.eqb_spec (lenZ O) 0) as [Z0|NO'].
          + rewrite (NO Z0), app_nil_r. cbn [bind]. now rewrite Z.add_0_r.
          + assert (NE : O <> []) by (intros ->; now apply NO'). rewrite (AO NE). cbn [bind]. rewrite cells_all by lia. cbn [bind]. now rewrite OS, lenZ_app.
      Qed.
      Lemma state_written st tb : match ap_state a with None => st = [] | Some (count, get) => count = Ok (lenZ st) /\ (st <> [] -> get (lenZ st) = Ok st) end ->
        lenZ st < 2 ^ 64 -> wire_blob st tb -> encodes (ser_state E a) tb /\ size_state E a = Ok (lenZ tb).
      Proof.
        clear. intros AS LS (l & Ll & ->). pose proof (lenZ_nonneg st) as P. unfold ser_state, size_state.
        assert (CE : match ap_state a with None => Ok 0 | Some (count, _) => count end = Ok (lenZ st)) by (destruct (ap_state a) as [[c g]|]; [apply AS|now subst st]).
        rewrite CE. cbn [bind]. split; [|unfold size_size; rewrite (size_uint_ok 64 _ l okw64) by (unfold in_unsigned; auto; lia); now rewrite lenZ_app].
        apply encodes_seq; [apply ser_uint_encodes; auto using okw64; unfold in_unsigned; lia|].
        destruct (Z.eqb_spec (lenZ st) 0) as [Z0|NZ]; [apply lenZ_0 in Z0; subst st; apply encodes_nil|].
        destruct (ap_state a) as [[c g]|]; [|subst st; now destruct NZ]. destruct AS as [_ AG]. rewrite AG by (intros ->; now apply NZ). cbn [bind]. apply put_state_encodes.
      Qed.
    End App.
    Lemma head_written oty (t : utuner Sp (app E)) lh nb sb : 0 <= oty < 128 -> in_unsigned 64 (ut_id t) -> ok_name (ut_name t) -> leb128 (ut_id t) lh -> wire_string (ut_name t) nb ->
      encodes (ser_spaces (ut_spaces t)) sb ->
      encodes (fun s => do s <- ser_object_internal oty (ut_id t) s; do s <- ser_enum TUNER_USER_DEFINED s; do s <- ser_string (ut_name t) s; ser_spaces (ut_spaces t) s) ((oty :: lh) ++ [1] ++ nb ++ sb).
    Proof.
      intros TY I [NC NL] Lh Nb SE. apply encodes_seq; [now apply ser_object_internal_encodes|]. apply encodes_seq; [apply ser_enum_small; unfold TUNER_USER_DEFINED; lia|].
      apply encodes_seq; [now apply ser_string_encodes|exact SE].
    Qed.
    (** the beginning, as one *)
    Lemma ser_after oty (t : utuner Sp (app E)) s : ser_user_tuner E Sp mem ser_spaces ser_e oty t s =
      do s <- (do s <- ser_object_internal oty (ut_id t) s; do s <- ser_enum TUNER_USER_DEFINED s; do s <- ser_string (ut_name t) s; ser_spaces (ut_spaces t) s);
      do nh <- ap_history_count (ut_state t); do no <- ap_optima_count (ut_state t); do s <- ser_size nh s; do s <- ser_size no s;
      do s <- ser_told E mem ser_e (ut_state t) nh no s; do s <- ser_state E (ut_state t) s; ser_user_data (ut_ud t) s.
    Proof.
      unfold ser_user_tuner. destruct (ser_object_internal oty (ut_id t) s) as [s1| |]; cbn [bind]; try reflexivity. destruct (ser_enum TUNER_USER_DEFINED s1) as [s2| |]; cbn [bind]; try reflexivity.
      destruct (ser_string (ut_name t) s2) as [s3| |]; cbn [bind]; try reflexivity.
    Qed.
    Section Whole.
      Variables (storable_e : eobj E -> Prop) (wire_e : eobj E -> list Z -> Prop).
      Hypothesis EW : forall e, storable_e e -> exists bs, wire_e e bs /\ encodes (ser_e e) bs /\ size_e e = Ok (lenZ bs).
      Lemma all_written H : Forall storable_e H -> exists hb, wire_all wire_e H hb /\ wire_all (writes ser_e size_e) H hb.
      Proof.
        induction 1 as [|e l S F (bs & W1 & W2)]; [exists []; split; constructor|]. destruct (EW e S) as (b & B & BE & BS). exists (b ++ bs). split; constructor; auto. now split.
      Qed.
      Lemma user_written oty t H O st sb : 0 <= oty < 128 -> answers (ut_state t) H O st -> storable_tuner storable_e (speaks t H O) -> lenZ st < 2 ^ 64 -> granted mem (8 * (lenZ H + lenZ O)) ->
        encodes (ser_spaces (ut_spaces t)) sb -> size_spaces (ut_spaces t) = Ok (lenZ sb) ->
        exists bs, wire_user oty sb wire_e (speaks t H O) st bs /\ encodes (ser_user_tuner E Sp mem ser_spaces ser_e oty t) bs /\ size_user_tuner E Sp mem size_spaces size_e oty t = Ok (lenZ bs).
      Proof.
        intros TY (HC & AH & OC & AO & AS) (I & NM & F & FO & LL & UD) LS G SE SS. cbn [speaks rt_id rt_name rt_history rt_optima rt_ud] in *.
        destruct (leb128_exists (ut_id t)) as [lh Lh]; [apply I|]. destruct (wire_string_exists (ut_name t)) as [nb Nb].
        pose proof (lenZ_nonneg H) as P1. pose proof (lenZ_nonneg O) as P2. destruct (leb128_exists _ P1) as [hn Hn]. destruct (leb128_exists _ P2) as [on On].
        destruct (all_written _ F) as (hb & Hb & HW). destruct (sizes_exist _ FO) as [ob Ob]. destruct (wire_blob_exists st) as [tb Tb]. destruct (wire_blob_exists (ud_bytes (ut_ud t))) as [ub Ub].
        destruct (told_written _ H O hb ob LL G AH HW AO FO Ob) as [TE TS]. destruct (state_written (ut_state t) st tb AS LS Tb) as [STE STS].
        exists ((oty :: lh) ++ [1] ++ nb ++ sb ++ hn ++ on ++ hb ++ ob ++ tb ++ ub).
        split; [exists lh, nb, hn, on, hb, ob, tb, ub; repeat (split; [assumption|]); reflexivity|]. split.
        - replace ((oty :: lh) ++ [1] ++ nb ++ sb ++ hn ++ on ++ hb ++ ob ++ tb ++ ub) with (((oty :: lh) ++ [1] ++ nb ++ sb) ++ hn ++ on ++ (hb ++ ob) ++ tb ++ ub) by (rewrite <- !app_assoc; reflexivity).
          eapply encodes_ext; [intros s _; symmetry; apply ser_after|]. apply encodes_seq; [now apply head_written|]. rewrite HC, OC. cbn [bind].
          apply encodes_seq; [apply ser_uint_encodes; auto using okw64; unfold in_unsigned; lia|]. apply encodes_seq; [apply ser_uint_encodes; auto using okw64; unfold in_unsigned; lia|].
          apply encodes_seq; [exact TE|]. apply encodes_seq; [exact STE|]. now apply ser_user_data_encodes.
        - unfold size_user_tuner. rewrite SS, HC, OC. cbn [bind]. rewrite TS. cbn [bind]. rewrite STS. cbn [bind]. unfold size_size. f_equal. destruct NM as [NC NL].
          rewrite (size_object_internal_ok oty _ lh), (size_enum_small TUNER_USER_DEFINED), (size_string_ok _ nb), (size_uint_ok 64 _ hn), (size_uint_ok 64 _ on), (size_user_data_ok _ ub)
            by (auto using okw64; unfold in_unsigned, TUNER_USER_DEFINED; lia).
          rewrite !lenZ_app. change (lenZ [1]) with 1. lia.
      Qed.
    End Whole.
    Section Fails.
      Variables (oty : Z) (t : utuner Sp (app E)) (sb head : list Z).
      Hypothesis TY : 0 <= oty < 128.
      Hypothesis ID : in_unsigned 64 (ut_id t).
      Hypothesis NM : ok_name (ut_name t).
      Hypothesis SE : encodes (ser_spaces (ut_spaces t)) sb.
      Hypothesis SS : size_spaces (ut_spaces t) = Ok (lenZ sb).
      Hypothesis HD : wire_head oty sb t head.
      Let a := ut_state t.
      Lemma after_head e n m : stops (fun s => do nh <- ap_history_count a; do no <- ap_optima_count a; do s <- ser_size nh s; do s <- ser_size no s;
          do s <- ser_told E mem ser_e a nh no s; do s <- ser_state E a s; ser_user_data (ut_ud t) s) e n -> 0 <= n -> m = lenZ head + n ->
        stops (ser_user_tuner E Sp mem ser_spaces ser_e oty t) e m.
      Proof.
        intros S0 N M. destruct HD as (lh & nb & Lh & Nb & HE). eapply stops_ext; [intro s; symmetry; apply ser_after|]. eapply stops_seq; [|exact S0|exact N|exact M]. rewrite HE.
        now apply head_written.
      Qed.
      Lemma after_counts nh no hn on e n m : ap_history_count a = Ok nh -> ap_optima_count a = Ok no -> 0 <= nh -> 0 <= no -> nh + no < 2 ^ 64 -> leb128 nh hn -> leb128 no on ->
        stops (fun s => do s <- ser_told E mem ser_e a nh no s; do s <- ser_state E a s; ser_user_data (ut_ud t) s) e n -> 0 <= n -> m = lenZ head + lenZ hn + lenZ on + n ->
        stops (ser_user_tuner E Sp mem ser_spaces ser_e oty t) e m.
      Proof.
        intros HC OC N1 N2 LL Hn On S0 N M. pose proof (lenZ_nonneg hn). pose proof (lenZ_nonneg on). eapply (after_head e (lenZ hn + (lenZ on + n))); [|lia|lia]. rewrite HC, OC. cbn [bind].
        apply (stops_seq _ _ hn e (lenZ on + n)); [apply ser_uint_encodes; [exact okw64| |exact Hn]; unfold in_unsigned; lia| |lia|reflexivity].
        apply (stops_seq _ _ on e n); [apply ser_uint_encodes; [exact okw64| |exact On]; unfold in_unsigned; lia|exact S0|exact N|reflexivity].
      Qed.
      Lemma fails_stop e n : fails_with mem (writes ser_e size_e) a (lenZ head) e n ->
        stops (ser_user_tuner E Sp mem ser_spaces ser_e oty t) e n /\ size_user_tuner E Sp mem size_spaces size_e oty t = Err e.
      Proof.
        assert (SZ : size_user_tuner E Sp mem size_spaces size_e oty t = do nh <- ap_history_count a; do no <- ap_optima_count a; do h <- size_told E mem size_e a nh no; do st <- size_state E a;
          Ok (size_object_internal oty (ut_id t) + size_enum TUNER_USER_DEFINED + size_string (ut_name t) + lenZ sb + size_size nh + size_size no + h + st + size_user_data (ut_ud t)))
          by (unfold size_user_tuner; rewrite SS; reflexivity).
        intro FW. rewrite SZ. destruct FW as [e HC|nh e HC OC|nh no hn on HC OC N1 N2 LL Hn On [MN MF]|nh no hn on e HC OC N1 N2 LL Hn On G AH|H no hn on hb e HC OC N2 LL Hn On G AH Hb AO|H O hn on hb ob e get HC OC LL Hn On G AH Hb AO FO Ob AS].
        - split; [|now rewrite HC]. eapply (after_head e 0); [|lia|lia]. apply stops_now. intro s. now rewrite HC.
        - split; [|now rewrite HC, OC]. eapply (after_head e 0); [|lia|lia]. apply stops_now. intro s. now rewrite HC, OC.
        - assert (W : wrap 64 (nh + no) = nh + no) by (apply wrap_small; lia). split.
          + eapply (after_counts nh no hn on _ 0); eauto; try lia. apply stops_now. intro s. unfold ser_told. rewrite W. replace (nh + no =? 0) with false by lia. now rewrite MF.
          + rewrite HC, OC. cbn [bind]. unfold size_told. rewrite W. replace (nh + no =? 0) with false by lia. now rewrite MF.
        - assert (W : wrap 64 (nh + no) = nh + no) by (apply wrap_small; lia). split.
          + eapply (after_counts nh no hn on _ 0); eauto; try lia. apply stops_now. intro s. unfold ser_told. rewrite W. replace (nh + no =? 0) with false by lia. rewrite G by lia. cbn [negb].
            replace (nh =? 0) with false by lia. now rewrite AH.
          + rewrite HC, OC. cbn [bind]. unfold size_told. rewrite W. replace (nh + no =? 0) with false by lia. rewrite G by lia. cbn [negb]. replace (nh =? 0) with false by lia. now rewrite AH.
        - pose proof (lenZ_nonneg H) as P1. assert (W : wrap 64 (lenZ H + no) = lenZ H + no) by (apply wrap_small; lia). pose proof (lenZ_nonneg hb).
          destruct (history_part a H hb AH Hb (lenZ H + no) ltac:(lia)) as [HE HS]. split.
          + eapply (after_counts (lenZ H) no hn on _ (lenZ hb)); eauto; try lia. apply stops_first. unfold ser_told. rewrite W. replace (lenZ H + no =? 0) with false by lia. rewrite G by lia. cbn [negb].
            eapply (stops_seq _ _ hb _ 0); [exact HE| |lia|lia]. apply stops_now. intro s. replace (no =? 0) with false by lia. now rewrite AO.
          + rewrite HC, OC. cbn [bind]. unfold size_told. rewrite W. replace (lenZ H + no =? 0) with false by lia. rewrite G by lia. cbn [negb]. rewrite HS. cbn [bind]. replace (no =? 0) with false by lia.
            now rewrite AO.
        - pose proof (lenZ_nonneg H) as P1. pose proof (lenZ_nonneg O) as P2. destruct (told_written a H O hb ob LL G AH Hb AO FO Ob) as [TE TS]. pose proof (lenZ_nonneg hb). pose proof (lenZ_nonneg ob). split.
          + eapply (after_counts (lenZ H) (lenZ O) hn on _ (lenZ (hb ++ ob))); eauto; rewrite ?lenZ_app; try lia. eapply (stops_seq _ _ (hb ++ ob) _ 0); [exact TE| |lia|rewrite lenZ_app; lia].
            apply stops_first, stops_now. intro s. unfold ser_state. now rewrite AS.
          + rewrite HC, OC. cbn [bind]. rewrite TS. cbn [bind]. unfold size_state. now rewrite AS.
      Qed.
      Lemma state_stop e n : state_fails mem (writes ser_e size_e) a (lenZ head) e n -> stops (ser_user_tuner E Sp mem ser_spaces ser_e oty t) e n.
      Proof.
        intros [H O hn on hb ob k sn e' get HC OC LL Hn On G AH Hb AO FO Ob K Sn AS GE].
        pose proof (lenZ_nonneg H) as P1. pose proof (lenZ_nonneg O) as P2. destruct (told_written a H O hb ob LL G AH Hb AO FO Ob) as [TE TS]. pose proof (lenZ_nonneg hb). pose proof (lenZ_nonneg ob). pose proof (lenZ_nonneg sn).
        eapply (after_counts (lenZ H) (lenZ O) hn on _ (lenZ (hb ++ ob) + (lenZ sn + k))); eauto; rewrite ?lenZ_app; try lia. apply (stops_seq _ _ (hb ++ ob) _ (lenZ sn + k)); [exact TE| |lia|rewrite lenZ_app; reflexivity].
        apply stops_first. unfold ser_state. rewrite AS. cbn [bind]. apply (stops_seq _ _ sn _ k); [apply ser_uint_encodes; [exact okw64| |exact Sn]; unfold in_unsigned; lia| |lia|reflexivity].
        replace (k =? 0) with false by lia. intros s W. split; intro R.
        - replace (w_size s <? k) with false by lia. now rewrite GE.
        - now replace (w_size s <? k) with true by lia.
      Qed.
    End Fails.
  End Write.
  Section Read.
    Variables (D St : Type) (deser_spaces : hmap -> rstate -> res ((Sp * hmap) * rstate)).
    Variable read_e : Sp -> nat -> hmap -> rstate -> res ((eobj E * hmap) * rstate).
    Variables (storable_e : eobj E -> Prop) (wire_e : eobj E -> list Z -> Prop) (whole_e : eobj E -> Prop).
    Variable step : Sp -> nat -> hmap -> eobj E -> res (eobj E * hmap) -> Prop.
    Hypothesis ET : forall sp i m e bs r, storable_e e -> wire_e e bs -> step sp i m e r -> takes (read_e sp i m) r bs (whole_e e).
    Hypothesis NE : forall e bs, wire_e e bs -> bs <> [].
    Variables (t : rtuner E Sp) (sb : list Z) (whole_s : Prop).
    Hypothesis ST : storable_tuner storable_e t.
    Variables (oty unsupported : Z) (v : vector E D St) (data : D) (outer : option hmap) (id : Z).
    Hypothesis TY : 0 <= oty < 128.
    Lemma data_takes nb hn on hb ob sp m r : wire_string (rt_name t) nb -> leb128 (lenZ (rt_history t)) hn -> leb128 (lenZ (rt_optima t)) on -> wire_all wire_e (rt_history t) hb -> wire_sizes (rt_optima t) ob ->
      takes (deser_spaces (fun _ => None)) (Ok (sp, m)) sb whole_s -> tuner_outcome E Sp mem (step sp) None id t sp m r ->
      match r with
      | Ok (t', _) => forall u L, (u = true -> whole_t E Sp whole_e t whole_s) -> dec u L (deser_tuner_data E Sp mem deser_spaces read_e) (rt_name t, sp, rt_history t', rt_optima t') (data_bytes sb 1 nb hn on hb ob)
      | Err e => forall L, rej L (deser_tuner_data E Sp mem deser_spaces read_e) e (data_bytes sb 1 nb hn on hb ob)
      | UB _ => False
      end.
    Proof.
      intros Nb Hn On Hb Ob T O. destruct O as [RM|e G H|l m' G H X|l m' os k G H FO OU K|l m' os G H FO K].
      - intro L. eapply data_memory; eauto; lia.
      - intro L. eapply data_history; eauto; lia.
      - intro L. eapply data_lost; eauto; lia.
      - discriminate.
      - cbn [rt_history rt_optima]. intros u L U. eapply data_dec; eauto; lia.
    Qed.
    Lemma told_back_eq h o st : told_back E D St v data h o st = if v_complete v then takes_back v data h o st else Err ERR_INVALID_VALUE.
    Proof. unfold told_back, takes_back. destruct (v_complete v); reflexivity. Qed.
    (** the way of user defined tuners *)
    Definition tagged (s : rstate) : res ((rtuner E Sp + utuner Sp St) * option hmap * rstate) :=
      do (o, s) <- deser_object_internal s; do _ <- refute (negb (fst o =? oty)) ERR_INVALID_TYPE; do x <- peek_enum s;
      if x =? TUNER_USER_DEFINED then do (r, s) <- deser_user_tuner E Sp mem D St deser_spaces read_e v data outer (snd o) id s; Ok ((inr (fst r), snd r), s) else UB UBFuel.
    Lemma any_tagged s : (exists u, tagged s = UB u) \/ deser_any_tuner E Sp mem D St deser_spaces read_e oty unsupported (Some v) data outer id s = tagged s.
    Proof.
      unfold tagged, deser_any_tuner. destruct (deser_object_internal s) as [[o s1]| |]; cbn [bind]; auto. destruct (refute _ _); cbn [bind]; auto. destruct (peek_enum s1) as [x| |]; cbn [bind]; auto.
      destruct (x =? TUNER_USER_DEFINED); [auto|left; eauto].
    Qed.
    Lemma user_takes st bs rs r : lenZ st < 2 ^ 64 -> wire_user oty sb wire_e t st bs -> takes (deser_spaces (fun _ => None)) rs sb whole_s ->
      user_saved E Sp D St mem step v data outer id t st rs r ->
      takes (deser_any_tuner E Sp mem D St deser_spaces read_e oty unsupported (Some v) data outer id) r bs (whole_t E Sp whole_e t whole_s).
    Proof.
      intros LS (lh & nb & hn & on & hb & ob & tb & ub & Lh & Nb & Hn & On & Hb & Ob & Tb & Ub & ->) T O. pose proof ST as (I & NM & _ & _ & _ & UD). apply (takes_same tagged); [exact any_tagged|].
      replace ((oty :: lh) ++ [1] ++ nb ++ sb ++ hn ++ on ++ hb ++ ob ++ tb ++ ub) with ((oty :: lh) ++ (data_bytes sb 1 nb hn on hb ob ++ tb ++ ub) ++ []) by (unfold data_bytes; rewrite app_nil_r, <- !app_assoc; reflexivity).
      assert (BY : data_bytes sb 1 nb hn on hb ob ++ tb ++ ub = 1 :: (nb ++ sb ++ hn ++ on ++ hb ++ ob) ++ tb ++ ub) by (unfold data_bytes; rewrite <- ?app_assoc; reflexivity).
      set (user := deser_user_tuner E Sp mem D St deser_spaces read_e v data outer (rt_id t) id).
      assert (RJ : forall e, (forall L, rej L user e (data_bytes sb 1 nb hn on hb ob ++ tb ++ ub)) ->
                   forall L, rej L tagged e ((oty :: lh) ++ (data_bytes sb 1 nb hn on hb ob ++ tb ++ ub) ++ [])).
      { intros e R L. unfold tagged. rb; [apply (decodes_dec false), (deser_object_internal_decodes oty (rt_id t) lh TY I Lh)|]. cbn [fst snd]. rewrite Z.eqb_refl. cbn [negb refute bind].
        rewrite app_nil_r, BY. apply rej_peek; [lia|]. cbn [Z.eqb TUNER_USER_DEFINED Pos.eqb]. rewrite <- BY, <- (app_nil_r (data_bytes sb 1 nb hn on hb ob ++ tb ++ ub)). apply rej_head, R. }
      assert (GO : forall u L x k, dec u (L - length (oty :: lh)) user (x, k) (data_bytes sb 1 nb hn on hb ob ++ tb ++ ub) ->
                   dec u L tagged (inr x, k) ((oty :: lh) ++ (data_bytes sb 1 nb hn on hb ob ++ tb ++ ub) ++ [])).
      { intros u L x k X. unfold tagged. db; [apply decodes_dec, (deser_object_internal_decodes oty (rt_id t) lh TY I Lh)|]. cbn [fst snd]. rewrite Z.eqb_refl. cbn [negb refute bind].
        rewrite app_nil_r, BY. apply dec_peek; [lia|]. cbn [Z.eqb TUNER_USER_DEFINED Pos.eqb]. rewrite <- BY, <- (app_nil_r (data_bytes sb 1 nb hn on hb ob ++ tb ++ ub)). db; [exact X|]. apply dec_ret. }
      assert (BL : forall u L, dec u L deser_blob st tb) by (intros u L; apply decodes_dec; now apply deser_blob_decodes).
      destruct O as [e|sp m e O|sp m x k O]; cbn [takes].
      - apply RJ. intro L. unfold user, deser_user_tuner. apply rej_head. eapply spaces_fail; eauto; lia.
      - apply RJ. intro L. unfold user, deser_user_tuner. inversion O as [e0 TO|t' k0 TO C|t' k0 e0 TO C TB|t' k0 s known TO C TB OU K|]; subst;
          pose proof (data_takes nb hn on hb ob sp m _ Nb Hn On Hb Ob T TO) as DT; cbv beta iota in DT; [apply rej_head; apply DT| | |]; (rb; [apply (DT false); discriminate|]); (rb; [apply (BL false)|]);
          rewrite told_back_eq, C; [|rewrite TB|rewrite TB]; cbn [bind]; try (now apply rej_now).
        rewrite OU. unfold handle_check_add. destruct (known (rt_id t)); [|congruence]. cbn [refute bind]. now apply rej_now.
      - intros u L U. apply GO. inversion O as [| | | |t' k0 s TO C TB K]; subst. pose proof (data_takes nb hn on hb ob sp m _ Nb Hn On Hb Ob T TO) as DT. cbv beta iota in DT.
        unfold user, deser_user_tuner. db; [apply DT; exact U|]. db; [apply BL|]. rewrite told_back_eq, C, TB. cbn [bind].
        assert (HM : match outer with None => Ok None | Some m => do m <- handle_check_add m (rt_id t) id; Ok (Some m) end = Ok (noted outer (rt_id t) id)).
        { unfold noted, recording. destruct outer as [q|]; [|reflexivity]. cbn [option_map]. unfold handle_check_add. rewrite (K q eq_refl). reflexivity. }
        rewrite HM. cbn [bind]. rewrite <- (app_nil_r ub). db; [apply user_data_dec; [exact UD|exact Ub|intro V; apply (U V)]|]. rewrite restored_ud_eq. apply dec_ret.
    Qed.
  End Read.
End Generic.

