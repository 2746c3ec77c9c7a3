(** Proofs about the three kinds of user defined tuners, and about calls. *)
From Coq Require Import ZArith List Bool Lia Arith.
From Verif Require Import Base Datum CodecModel CodecSpec CodecProofs CmpModel CmpSpec ParamModel ParamSpec ParamCodec ContextModel ContextSpec EvalModel ExprModel ExprCodec TreeModel TreeCodecSpec TreeCodec RngModel RngProofs TreeSpaceModel TreeSpaceSpec TreeSpaceCodec TreeConfModel TreeConfSpec TreeConfProofs RestoreModel RestoreSpec RestoreProofs TunerCodecModel TunerCodecSpec TunerCodecProofs UserTunerModel UserTunerSpec UserTunerProofs.
Import ListNotations.
Open Scope Z_scope.

(** ** The three kinds *)
Section Tuners.
  Variables (mem : Z -> bool) (jen : list Z -> Z) (le : bool) (Sp D St : Type) (lives : Sp -> live) (eid cid fid : nat -> Z).
  Variables (deser_spaces : hmap -> rstate -> res ((Sp * hmap) * rstate)) (ser_spaces : Sp -> wstate -> res wstate) (size_spaces : Sp -> res Z).
  Section Write.
    Variables (H O st sb : list Z).
    Lemma users_written st' sb' :
      (forall t H O, answers (ut_state t) H O st' -> storable_tuner (storable_eval storable_bobj) (speaks t H O) -> lenZ st' < 2 ^ 64 -> granted mem (8 * (lenZ H + lenZ O)) ->
         encodes (ser_spaces (ut_spaces t)) sb' -> size_spaces (ut_spaces t) = Ok (lenZ sb') ->
         exists bs, wire_user 8 sb' (wire_eval 7 (wire_bobj 5)) (speaks t H O) st' bs /\ encodes (ser_config_user mem le Sp ser_spaces t) bs /\ size_config_user mem Sp size_spaces t = Ok (lenZ bs)) /\
      (forall t H O, answers (ut_state t) H O st' -> storable_tuner (storable_eval storable_pair) (speaks t H O) -> lenZ st' < 2 ^ 64 -> granted mem (8 * (lenZ H + lenZ O)) ->
         encodes (ser_spaces (ut_spaces t)) sb' -> size_spaces (ut_spaces t) = Ok (lenZ sb') ->
         exists bs, wire_user 12 sb' (wire_eval 11 wire_pair) (speaks t H O) st' bs /\ encodes (ser_features_user mem le Sp ser_spaces t) bs /\ size_features_user mem Sp size_spaces t = Ok (lenZ bs)) /\
      (forall t H O, answers (ut_state t) H O st' -> storable_tuner (storable_eval storable_conf) (speaks t H O) -> lenZ st' < 2 ^ 64 -> granted mem (8 * (lenZ H + lenZ O)) ->
         encodes (ser_spaces (ut_spaces t)) sb' -> size_spaces (ut_spaces t) = Ok (lenZ sb') ->
         exists bs, wire_user 19 sb' (wire_eval 18 wire_conf) (speaks t H O) st' bs /\ encodes (ser_tree_user mem le Sp ser_spaces t) bs /\ size_tree_user mem Sp size_spaces t = Ok (lenZ bs)).
    Proof.
      clear. destruct (writings le) as (_ & _ & W1 & W2 & W3).
      split; [|split]; intros t H O A S L G SE SS; (eapply user_written; [|unfold OBJ_TUNER, OBJ_FEATURES_TUNER, OBJ_TREE_TUNER; lia|exact A|exact S|exact L|exact G|exact SE|exact SS]); auto.
    Qed.
  End Write.
  Lemma users_stop sb head e n :
    (forall t, in_unsigned 64 (ut_id t) -> ok_name (ut_name t) -> encodes (ser_spaces (ut_spaces t)) sb -> size_spaces (ut_spaces t) = Ok (lenZ sb) -> wire_head 8 sb t head ->
       (fails_with mem (writes (ser_eval le OBJ_EVALUATION (ser_bobj le OBJ_CONFIGURATION)) (size_eval OBJ_EVALUATION (size_bobj OBJ_CONFIGURATION))) (ut_state t) (lenZ head) e n ->
          stops (ser_config_user mem le Sp ser_spaces t) e n /\ size_config_user mem Sp size_spaces t = Err e) /\
       (state_fails mem (writes (ser_eval le OBJ_EVALUATION (ser_bobj le OBJ_CONFIGURATION)) (size_eval OBJ_EVALUATION (size_bobj OBJ_CONFIGURATION))) (ut_state t) (lenZ head) e n ->
          stops (ser_config_user mem le Sp ser_spaces t) e n)) /\
    (forall t, in_unsigned 64 (ut_id t) -> ok_name (ut_name t) -> encodes (ser_spaces (ut_spaces t)) sb -> size_spaces (ut_spaces t) = Ok (lenZ sb) -> wire_head 12 sb t head ->
       (fails_with mem (writes (ser_eval le OBJ_FEATURES_EVALUATION (ser_pair le)) (size_eval OBJ_FEATURES_EVALUATION size_pair)) (ut_state t) (lenZ head) e n ->
          stops (ser_features_user mem le Sp ser_spaces t) e n /\ size_features_user mem Sp size_spaces t = Err e) /\
       (state_fails mem (writes (ser_eval le OBJ_FEATURES_EVALUATION (ser_pair le)) (size_eval OBJ_FEATURES_EVALUATION size_pair)) (ut_state t) (lenZ head) e n ->
          stops (ser_features_user mem le Sp ser_spaces t) e n)) /\
    (forall t, in_unsigned 64 (ut_id t) -> ok_name (ut_name t) -> encodes (ser_spaces (ut_spaces t)) sb -> size_spaces (ut_spaces t) = Ok (lenZ sb) -> wire_head 19 sb t head ->
       (fails_with mem (writes (ser_eval le OBJ_TREE_EVALUATION ser_conf) (size_eval OBJ_TREE_EVALUATION (fun c => Ok (size_conf c)))) (ut_state t) (lenZ head) e n ->
          stops (ser_tree_user mem le Sp ser_spaces t) e n /\ size_tree_user mem Sp size_spaces t = Err e) /\
       (state_fails mem (writes (ser_eval le OBJ_TREE_EVALUATION ser_conf) (size_eval OBJ_TREE_EVALUATION (fun c => Ok (size_conf c)))) (ut_state t) (lenZ head) e n ->
          stops (ser_tree_user mem le Sp ser_spaces t) e n)).
  Proof.
    clear lives eid cid fid deser_spaces jen. split; [|split]; intros t I N SE SS HD; (split; intro F).
    - exact (fails_stop bobj Sp mem ser_spaces size_spaces (ser_eval le OBJ_EVALUATION (ser_bobj le OBJ_CONFIGURATION)) (size_eval OBJ_EVALUATION (size_bobj OBJ_CONFIGURATION)) 8 t sb head ltac:(lia) I N SE SS HD e n F).
    - exact (state_stop bobj Sp mem ser_spaces (ser_eval le OBJ_EVALUATION (ser_bobj le OBJ_CONFIGURATION)) (size_eval OBJ_EVALUATION (size_bobj OBJ_CONFIGURATION)) 8 t sb head ltac:(lia) I N SE HD e n F).
    - exact (fails_stop (bobj * bobj) Sp mem ser_spaces size_spaces (ser_eval le OBJ_FEATURES_EVALUATION (ser_pair le)) (size_eval OBJ_FEATURES_EVALUATION size_pair) 12 t sb head ltac:(lia) I N SE SS HD e n F).
    - exact (state_stop (bobj * bobj) Sp mem ser_spaces (ser_eval le OBJ_FEATURES_EVALUATION (ser_pair le)) (size_eval OBJ_FEATURES_EVALUATION size_pair) 12 t sb head ltac:(lia) I N SE HD e n F).
    - exact (fails_stop tconf Sp mem ser_spaces size_spaces (ser_eval le OBJ_TREE_EVALUATION ser_conf) (size_eval OBJ_TREE_EVALUATION (fun c => Ok (size_conf c))) 19 t sb head ltac:(lia) I N SE SS HD e n F).
    - exact (state_stop tconf Sp mem ser_spaces (ser_eval le OBJ_TREE_EVALUATION ser_conf) (size_eval OBJ_TREE_EVALUATION (fun c => Ok (size_conf c))) 19 t sb head ltac:(lia) I N SE HD e n F).
  Qed.
  Section Had.
    Variables (sb : list Z) (whole : Prop) (v : vector bobj D St) (v2 : vector (bobj * bobj) D St) (v3 : vector tconf D St) (data : D) (outer : option hmap) (id : Z) (bs st : list Z) (rs : res (Sp * hmap)).
    Hypothesis GS : gives (deser_spaces (fun _ => None)) rs sb whole.
    Hypothesis LS : lenZ st < 2 ^ 64.
    Lemma user_had t r : storable_tuner (storable_eval storable_bobj) t -> wire_user 8 sb (wire_eval 7 (wire_bobj 5)) t st bs ->
      user_saved bobj Sp D St mem (fun sp => evaluation_step mem jen (lives sp) eid cid) v data outer id t st rs r ->
      gives (deser_config_any mem jen le Sp D St lives eid cid deser_spaces (Some v) data outer id) r bs (whole /\ plain_tuner plain_bobj t).
    Proof.
      clear ser_spaces size_spaces fid v2 v3. intros S W O.
      eapply takes_gives, (user_takes bobj Sp mem D St deser_spaces _ _ _ (plain_eval plain_bobj) (fun sp => evaluation_step mem jen (lives sp) eid cid)); [| |exact S| |exact LS|exact W|apply gives_takes; exact GS|exact O].
      - intros sp i m e b r' SE WE OE. eapply eval_takes; eauto; [unfold OBJ_EVALUATION; lia|]. intros ab r2 Wa Oa. eapply conf_takes; eauto. apply SE.
      - intros e b. apply wire_eval_nonempty.
      - unfold OBJ_TUNER; lia.
    Qed.
    Lemma features_user_had t r : storable_tuner (storable_eval storable_pair) t -> wire_user 12 sb (wire_eval 11 wire_pair) t st bs ->
      user_saved (bobj * bobj) Sp D St mem (fun sp => features_step mem jen (lives sp) eid cid fid) v2 data outer id t st rs r ->
      gives (deser_features_any mem jen le Sp D St lives eid cid fid deser_spaces (Some v2) data outer id) r bs (whole /\ plain_tuner plain_pair t).
    Proof.
      clear ser_spaces size_spaces v v3. intros S W O.
      eapply takes_gives, (user_takes (bobj * bobj) Sp mem D St deser_spaces _ _ _ (plain_eval plain_pair) (fun sp => features_step mem jen (lives sp) eid cid fid)); [| |exact S| |exact LS|exact W|apply gives_takes; exact GS|exact O].
      - intros sp i m e b r' SE WE OE. eapply eval_takes; eauto; [unfold OBJ_FEATURES_EVALUATION; lia|]. intros ab r2 Wa Oa. eapply pair_takes; eauto. apply SE.
      - intros e b. apply wire_eval_nonempty.
      - unfold OBJ_FEATURES_TUNER; lia.
    Qed.
    Lemma tree_user_had t r : storable_tuner (storable_eval storable_conf) t -> wire_user 19 sb (wire_eval 18 wire_conf) t st bs ->
      user_saved tconf Sp D St mem (fun sp => tree_step mem jen (lives sp) eid cid) v3 data outer id t st rs r ->
      gives (deser_tree_any mem jen le Sp D St lives eid cid deser_spaces (Some v3) data outer id) r bs (whole /\ plain_tuner plain_conf t).
    Proof.
      clear ser_spaces size_spaces fid v v2. intros S W O.
      eapply takes_gives, (user_takes tconf Sp mem D St deser_spaces _ _ _ (plain_eval plain_conf) (fun sp => tree_step mem jen (lives sp) eid cid)); [| |exact S| |exact LS|exact W|apply gives_takes; exact GS|exact O].
      - intros sp i m e b r' SE WE OE. eapply eval_takes; [unfold OBJ_TREE_EVALUATION; lia|exact SE|exact WE| |exact OE]. intros ab r2 Wa Oa. eapply tconf_takes; [exact (lv_heap (lives sp))|exact jen|exact (lv_at (lives sp))|apply SE|exact Wa|exact Oa].
      - intros e b. apply wire_eval_nonempty.
      - unfold OBJ_TREE_TUNER; lia.
    Qed.
  End Had.
End Tuners.

(** ** Outcomes *)
Section Outcomes.
  Variables (mem : Z -> bool) (jen : list Z -> Z) (lv : live) (eid cid fid : nat -> Z).
  Lemma user_some E Sp D St step (v : vector E D St) data outer id (t : rtuner E Sp) st sp m : (exists r, tuner_outcome E Sp mem step None id t sp m r) ->
    (forall H O u, takes_back v data H O st <> UB u) -> exists r, user_outcome E Sp D St mem step v data outer id t st sp m r.
  Proof.
    clear jen lv eid cid fid. intros [r TO] NU. destruct r as [[t' k]|e|u]; [|eexists; eapply us_data; exact TO|inversion TO]. destruct (v_complete v) eqn:C; [|eexists; eapply us_vector; eauto].
    destruct (takes_back v data (rt_history t') (rt_optima t') st) as [s|e|u] eqn:TB; [|eexists; eapply us_refused; eauto|now destruct (NU _ _ _ TB)].
    destruct outer as [known|]; [|eexists; eapply us_had; [exact TO|exact C|exact TB|discriminate]]. destruct (known (rt_id t)) eqn:K; [eexists; eapply us_again; [exact TO|exact C|exact TB|reflexivity|congruence]|].
    eexists; eapply us_had; [exact TO|exact C|exact TB|]. now intros q [= <-].
  Qed.
  Lemma users_some : spaces (lv_heap lv) jen (lv_at lv) -> forall Sp D St data outer id sp m st,
    (forall t (v : vector bobj D St), storable_tuner (storable_eval storable_bobj) t -> (forall H O u, takes_back v data H O st <> UB u) ->
       exists r, user_outcome bobj Sp D St mem (evaluation_step mem jen lv eid cid) v data outer id t st sp m r) /\
    (forall t (v : vector (bobj * bobj) D St), storable_tuner (storable_eval storable_pair) t -> (forall H O u, takes_back v data H O st <> UB u) ->
       exists r, user_outcome (bobj * bobj) Sp D St mem (features_step mem jen lv eid cid fid) v data outer id t st sp m r) /\
    (forall t (v : vector tconf D St), storable_tuner (storable_eval storable_conf) t -> (forall H O u, takes_back v data H O st <> UB u) ->
       exists r, user_outcome tconf Sp D St mem (tree_step mem jen lv eid cid) v data outer id t st sp m r).
  Proof.
    intros SP Sp D St data outer id sp m st. destruct (tuners_some mem jen lv eid cid fid SP Sp None id sp m) as (A & B & C). split; [|split]; intros t v S NU; apply user_some; auto.
  Qed.
  Lemma tells_back_gen E Sp (step : nat -> hmap -> eobj E -> res (eobj E * hmap) -> Prop) : restores mem Sp step -> tells_back mem Sp step.
  Proof.
    clear. intros R D St v data outer id m t st sp H' C G HR HA IN OU. destruct (R m None id t sp) as [_ R2]. destruct (R2 H' G HR) as [_ R3]. destruct (R3 HA IN) as (os & TO & SO); [discriminate|].
    exists os. split; [exact SO|]. destruct (takes_back v data H' os st) as [s|e|u] eqn:TB; [|eapply us_refused; eauto|exact Logic.I]. eapply us_had; eauto.
  Qed.
  Lemma all_tell_back Sp : tells_back mem Sp (evaluation_step mem jen lv eid cid) /\ tells_back mem Sp (features_step mem jen lv eid cid fid) /\ tells_back mem Sp (tree_step mem jen lv eid cid).
  Proof. destruct (all_restore mem jen lv eid cid fid Sp) as (A & B & C). split; [|split]; now apply tells_back_gen. Qed.
End Outcomes.

(** ** Without a vector, other tuners *)
Section Other.
  Variables (E Sp D St : Type) (mem : Z -> bool) (deser_spaces : hmap -> rstate -> res ((Sp * hmap) * rstate)).
  Variables (read_e : Sp -> nat -> hmap -> rstate -> res ((eobj E * hmap) * rstate)) (oty unsupported : Z) (data : D) (outer : option hmap) (id : Z).
  Let any := deser_any_tuner E Sp mem D St deser_spaces read_e oty unsupported.
  Let one := deser_tuner E Sp mem deser_spaces read_e oty unsupported outer id.
  Lemma no_vector s : any None data outer id s = lifted (one s).
  Proof.
    unfold any, one, deser_any_tuner. unfold deser_tuner at 2. destruct (deser_object_internal s) as [[o s1]| |] eqn:DO; cbn [bind]; try reflexivity.
    destruct (refute (negb (fst o =? oty)) ERR_INVALID_TYPE) as [x|e|u] eqn:RF; cbn [bind]; try reflexivity.
    destruct (peek_enum s1) as [y|e|u] eqn:PE; cbn [bind]; try reflexivity. destruct (Z.eqb_spec y TUNER_USER_DEFINED) as [->|NE]; [reflexivity|].
    unfold deser_tuner. rewrite DO. cbn [bind]. rewrite RF. cbn [bind]. rewrite PE. cbn [bind]. destruct (Z.eqb_spec y TUNER_USER_DEFINED) as [|_]; [contradiction|]. cbn [refute bind].
    destruct (refute (negb (y =? TUNER_RANDOM)) unsupported); cbn [bind]; try reflexivity. destruct (deser_tuner_data _ _ _ _ _ s1) as [[[[[nm sp] h] o'] s2]| |]; cbn [bind]; try reflexivity.
    destruct (match outer with None => Ok None | Some m => do m <- handle_check_add m (snd o) id; Ok (Some m) end) as [hm| |]; cbn [bind]; try reflexivity.
    destruct (deser_user_data s2) as [[b s3]| |]; reflexivity.
  Qed.
  Lemma random_any v s : (forall o s1, deser_object_internal s = Ok (o, s1) -> peek_enum s1 <> Ok TUNER_USER_DEFINED) -> any v data outer id s = lifted (one s).
  Proof.
    intro N. rewrite <- no_vector. unfold any, deser_any_tuner. destruct (deser_object_internal s) as [[o s1]| |] eqn:DO; cbn [bind]; try reflexivity.
    destruct (refute (negb (fst o =? oty)) ERR_INVALID_TYPE) as [x|e|u] eqn:RF; cbn [bind]; try reflexivity.
    destruct (peek_enum s1) as [y|e|u] eqn:PE; cbn [bind]; try reflexivity. destruct (Z.eqb_spec y TUNER_USER_DEFINED) as [->|NE]; [now destruct (N o s1 eq_refl)|reflexivity].
  Qed.
  Ltac state_of DO := match type of DO with _ = Ok (_, ?s1) => let SS := fresh in pose proof (f_equal (fun r => match r with Ok (_, s) => s | _ => s1 end) DO) as SS; cbv beta iota in SS; rewrite <- SS; clear SS end.
  Lemma random_saved v sb wire_e (t : rtuner E Sp) bs r whole : 0 <= oty < 128 -> in_unsigned 64 (rt_id t) -> wire_tuner oty sb wire_e t bs -> gives one r bs whole ->
    gives (any v data outer id) (as_random r) bs whole.
  Proof.
    intros TY ID (lh & nb & hn & on & hb & ob & ub & Lh & _ & _ & _ & _ & _ & _ & BS) GV. destruct (deser_object_internal_decodes oty (rt_id t) lh TY ID Lh) as [D1 D2].
    set (rest := nb ++ sb ++ hn ++ on ++ hb ++ ob ++ ub) in *. destruct (deser_enum_small 0 ltac:(lia)) as [E1 E2]. pose proof (lenZ_nonneg (oty :: lh)) as P0.
    assert (FULL : forall tl n, lenZ bs <= n <= lenZ (bs ++ tl) -> n < 2 ^ 64 -> any v data outer id (mkR (bs ++ tl) n) = lifted (one (mkR (bs ++ tl) n))).
    { intros tl n N N'. apply random_any. intros o s1 DO. rewrite BS in *. rewrite <- !app_assoc in DO. rewrite !lenZ_app in N. pose proof (lenZ_nonneg rest) as P1. change (lenZ [0]) with 1 in N. pose proof (lenZ_nonneg tl).
      rewrite D1 in DO; [|rewrite !lenZ_app; change (lenZ [0]) with 1; lia|exact N']. state_of DO. unfold peek_enum. rewrite E1; [discriminate|rewrite !lenZ_app; change (lenZ [0]) with 1; lia|lia]. }
    assert (CUT : forall p q tl, bs = p ++ q -> q <> [] -> lenZ p < 2 ^ 64 -> any v data outer id (mkR (p ++ tl) (lenZ p)) = lifted (one (mkR (p ++ tl) (lenZ p)))).
    { intros p q tl PQ Q LP. apply random_any. intros o s1 DO. rewrite BS in PQ. destruct (app_eq_app _ _ _ _ (eq_sym PQ)) as [l [[-> _]|[HD ER]]].
      - destruct l as [|x l].
        + rewrite app_nil_r in *. rewrite D1 in DO; [|rewrite lenZ_app; pose proof (lenZ_nonneg tl); lia|exact LP]. state_of DO. unfold peek_enum. rewrite Z.sub_diag. change 0 with (lenZ (@nil Z)).
          change tl with ([] ++ tl). rewrite (E2 [] [0] tl); [discriminate|reflexivity|discriminate|change (lenZ []) with 0; lia].
        + assert (x = 0) as -> by (destruct (app_eq_app _ _ _ _ (eq_sym PQ)) as [l' [[A B]|[A B]]];
            [apply app_inv_head in A; subst l'; injection B; intros; congruence|rewrite <- app_assoc in A; apply (f_equal (@length Z)) in A; rewrite !app_length in A; cbn [length] in A; lia]).
          rewrite lenZ_app in *. rewrite <- app_assoc in DO. rewrite D1 in DO; [|rewrite !lenZ_app; pose proof (lenZ_nonneg (0 :: l)); pose proof (lenZ_nonneg tl); lia|exact LP]. state_of DO. unfold peek_enum.
          change ((0 :: l) ++ tl) with ([0] ++ (l ++ tl)). assert (LC : lenZ (0 :: l) = 1 + lenZ l) by (rewrite lenZ_cons; lia). rewrite E1; [discriminate| |lia]. rewrite !lenZ_app. change (lenZ [0]) with 1. pose proof (lenZ_nonneg tl). pose proof (lenZ_nonneg l). lia.
      - destruct l as [|x l].
        + rewrite app_nil_r in HD. subst p. rewrite D1 in DO; [|rewrite lenZ_app; pose proof (lenZ_nonneg tl); lia|exact LP]. state_of DO. unfold peek_enum. rewrite Z.sub_diag. change 0 with (lenZ (@nil Z)).
          change tl with ([] ++ tl). rewrite (E2 [] [0] tl); [discriminate|reflexivity|discriminate|change (lenZ []) with 0; lia].
        + rewrite (D2 p (x :: l) tl HD) in DO; [discriminate|discriminate|exact LP]. }
    destruct r as [[t' k]|e|u]; cbn [gives] in *; [|intros tl n N N'; now rewrite FULL, GV|exact GV].
    destruct GV as [G1 G2]. split; [intros tl n N N'; now rewrite FULL, G1|intros W p q tl PQ Q LP; now rewrite (CUT p q tl PQ Q LP), (G2 W p q tl PQ Q LP)].
  Qed.
  Lemma any_other_type v ty h lh : 0 <= ty < 128 -> in_unsigned 64 h -> leb128 h lh -> ty <> oty -> gives (any v data outer id) (Err ERR_INVALID_TYPE) (ty :: lh) True.
  Proof.
    intros T I L N. cbn [gives]. intros tl n Hn Hn2. unfold any, deser_any_tuner. destruct (deser_object_internal_decodes ty h lh T I L) as [D1 _]. rewrite D1; auto.
    cbn [bind fst]. destruct (Z.eqb_spec ty oty); [contradiction|]. reflexivity.
  Qed.
End Other.

(** ** Calls *)
Section Calls.
  Variables (is_tuner : bool) (is_features : Z -> bool) (fits : Z -> res bool) (feat has_suggest : bool) (answer : call -> Z).
  Let chk := checked is_tuner is_features fits feat has_suggest.
  Lemma arrays_ok n a k : good_arrays n a k -> check_arrays n a k = Ok tt.
  Proof.
    intros [G1 G2]. unfold check_arrays. destruct (Z.ltb_spec 0 n), (Z.eqb_spec a 0), (Z.eqb_spec k 0); cbn [andb refute bind]; try reflexivity; exfalso; tauto || lia.
  Qed.
  Lemma arrays_bad n a k : ~ good_arrays n a k -> check_arrays n a k = Err ERR_INVALID_VALUE.
  Proof.
    intro G. unfold good_arrays in G. unfold check_arrays. destruct (Z.ltb_spec 0 n), (Z.eqb_spec a 0), (Z.eqb_spec k 0); cbn [andb refute bind]; try reflexivity; exfalso; apply G; split; lia.
  Qed.
  Lemma good_passes c : good_call is_tuner is_features fits feat has_suggest c -> pass is_tuner is_features fits feat has_suggest answer c = Ok (if answer c <? 0 then answer c else 0, [c]).
  Proof.
    intros [T G]. unfold pass. assert (C : chk c = Ok tt); [|unfold chk in C; now rewrite C]. unfold chk, checked. rewrite T. cbn [negb refute bind]. destruct c as [f n a k|n a|f n a k|f n a k|f r].
    - destruct G as [GA GF]. rewrite (arrays_ok _ _ _ GA). unfold check_fit. destruct feat; cbn [andb]; [|reflexivity]. destruct (GF eq_refl) as [-> ->]. reflexivity.
    - destruct (Z.ltb_spec 0 n), (Z.eqb_spec a 0); cbn [andb refute]; try reflexivity; exfalso; now apply G.
    - destruct G as [GA GF]. rewrite (arrays_ok _ _ _ GA). destruct feat; cbn [andb]; [|reflexivity]. destruct (Z.eqb_spec f 0) as [|NF]; [reflexivity|]. now rewrite (GF eq_refl NF).
    - destruct G as [GA GF]. rewrite (arrays_ok _ _ _ GA). destruct feat; cbn [andb]; [|reflexivity]. destruct (Z.eqb_spec f 0) as [|NF]; [reflexivity|]. now rewrite (GF eq_refl NF).
    - destruct G as (R & HS & GF). rewrite HS. destruct (Z.eqb_spec r 0) as [|_]; [contradiction|]. unfold check_fit. destruct feat; cbn [andb]; [|reflexivity]. destruct (GF eq_refl) as [-> ->]. reflexivity.
  Qed.
  Lemma bad_stays c e : bad_call is_tuner is_features fits feat has_suggest c e -> pass is_tuner is_features fits feat has_suggest answer c = Ok (e, []).
  Proof.
    intro B. unfold pass. assert (C : chk c = Err e); [|unfold chk in C; now rewrite C]. unfold chk, checked.
    assert (NW : forall f, ~ (feat = true /\ is_features f = false) -> feat && negb (is_features f) = false) by (intros f N; destruct feat, (is_features f); cbn; auto; exfalso; tauto).
    assert (NW2 : forall f, ~ (feat = true /\ f <> 0 /\ is_features f = false) -> feat && negb (f =? 0) && negb (is_features f) = false)
      by (intros f N; destruct feat, (is_features f), (Z.eqb_spec f 0); cbn; auto; exfalso; tauto).
    destruct B as [T|T W|T NWF W|f e T NWF NWA FO FE|f T NWF NWA FO FE|f r T NWF NWA FO EQ HS]; rewrite T; cbn [negb refute bind]; [reflexivity| | | | |].
    - destruct W as [F W]. rewrite F. destruct c as [f n a k|n a|f n a k|f n a k|f r]; cbn [andb]; [rewrite W; reflexivity|contradiction| | |rewrite W; reflexivity];
        destruct W as [N0 W]; rewrite W; destruct (Z.eqb_spec f 0); [contradiction|reflexivity|contradiction|reflexivity].
    - unfold wrong_features in NWF. destruct c as [f n a k|n a|f n a k|f n a k|f r]; cbn [wrong_arrays] in W.
      + rewrite NW by exact NWF. cbn [refute bind]. now rewrite arrays_bad.
      + destruct W as [N A]. destruct (Z.ltb_spec 0 n), (Z.eqb_spec a 0); cbn [andb refute]; try reflexivity; lia.
      + rewrite NW2 by exact NWF. cbn [refute bind]. now rewrite arrays_bad.
      + rewrite NW2 by exact NWF. cbn [refute bind]. now rewrite arrays_bad.
      + rewrite NW by exact NWF. cbn [refute bind]. now rewrite W.
    - unfold wrong_features in NWF. destruct c as [g n a k|n a|g n a k|g n a k|g r]; cbn [fit_of] in FO; try discriminate; destruct feat eqn:F; try discriminate; injection FO as <-;
        rewrite NW by exact NWF; cbn [refute bind]; cbn [wrong_arrays] in NWA.
      + destruct (check_arrays n a k) as [[]|e'|u] eqn:CA; [cbn [bind]; unfold check_fit; rewrite FE; reflexivity| |].
        * exfalso. apply NWA. intro GA. apply arrays_ok in GA. congruence.
        * exfalso. apply NWA. intro GA. apply arrays_ok in GA. congruence.
      + destruct (Z.eqb_spec r 0) as [|_]; [contradiction|]. cbn [refute bind]. unfold check_fit. now rewrite FE.
    - unfold wrong_features in NWF. destruct c as [g n a k|n a|g n a k|g n a k|g r]; cbn [fit_of] in FO; try discriminate; destruct feat eqn:F; try discriminate; injection FO as <-;
        rewrite NW by exact NWF; cbn [refute bind]; cbn [wrong_arrays] in NWA.
      + destruct (check_arrays n a k) as [[]|e'|u] eqn:CA; [cbn [bind]; unfold check_fit; rewrite FE; reflexivity| |].
        * exfalso. apply NWA. intro GA. apply arrays_ok in GA. congruence.
        * exfalso. apply NWA. intro GA. apply arrays_ok in GA. congruence.
      + destruct (Z.eqb_spec r 0) as [|_]; [contradiction|]. cbn [refute bind]. unfold check_fit. now rewrite FE.
    - subst c. unfold wrong_features in NWF. cbn [wrong_arrays] in NWA. rewrite NW by exact NWF. cbn [refute bind]. destruct (Z.eqb_spec r 0) as [|_]; [contradiction|]. cbn [refute bind]. rewrite HS. unfold check_fit.
      cbn [fit_of] in FO. destruct feat; [rewrite (FO f eq_refl)|]; reflexivity.
  Qed.
  Lemma good_or_bad : (forall f u, fits f <> UB u) -> forall c, good_call is_tuner is_features fits feat has_suggest c \/ exists e, bad_call is_tuner is_features fits feat has_suggest c e.
  Proof.
    clear answer chk. intros NU c. destruct is_tuner eqn:T; [|right; eexists; now apply bc_object].
    assert (GA : forall n a k, good_arrays n a k \/ ~ good_arrays n a k) by (intros n a k; unfold good_arrays; lia).
    assert (WF : wrong_features is_features feat c \/ ~ wrong_features is_features feat c).
    { unfold wrong_features. destruct feat; [|right; intros [? _]; discriminate]. destruct c as [f n a k|n a|f n a k|f n a k|f r]; try destruct (is_features f); try (right; intros [_ ?]; try discriminate; tauto); try (left; now split).
      - right; intros [_ [_ ?]]; discriminate.
      - destruct (Z.eq_dec f 0); [right; intros [_ [? _]]; contradiction|left; auto].
      - right; intros [_ [_ ?]]; discriminate.
      - destruct (Z.eq_dec f 0); [right; intros [_ [? _]]; contradiction|left; auto]. }
    destruct WF as [WF|NWF]; [right; eexists; now apply bc_features|].
    assert (WA : wrong_arrays c \/ ~ wrong_arrays c) by (destruct c as [f n a k|n a|f n a k|f n a k|f r]; cbn [wrong_arrays]; try (destruct (GA n a k); tauto); lia).
    destruct WA as [WA|NWA]; [right; eexists; now apply bc_arrays|].
    assert (FT : (forall g, fit_of feat c = Some g -> fits g = Ok true) \/ exists e, bad_call true is_features fits feat has_suggest c e).
    { destruct (fit_of feat c) as [g|] eqn:FO; [|left; discriminate]. destruct (fits g) as [[]|e|u] eqn:FG; [left; now intros q [= <-]|right; eexists; eapply bc_unfit; eauto|right; eexists; eapply bc_fits; eauto|now destruct (NU g u)]. }
    destruct FT as [FT|B]; [|now right].
    assert (DN : forall n a k, ~ ~ good_arrays n a k -> good_arrays n a k) by (intros n a k; unfold good_arrays; lia).
    unfold wrong_features in NWF. destruct c as [f n a k|n a|f n a k|f n a k|f r]; cbn [wrong_arrays fit_of] in *.
    - left. split; [reflexivity|]. split; [auto|]. intros ->. split; [|now apply FT]. destruct (is_features f); [reflexivity|]. exfalso. apply NWF. auto.
    - left. split; [reflexivity|]. lia.
    - left. split; [reflexivity|]. split; [auto|]. intros -> NZ. destruct (is_features f); [reflexivity|]. exfalso. apply NWF. auto.
    - left. split; [reflexivity|]. split; [auto|]. intros -> NZ. destruct (is_features f); [reflexivity|]. exfalso. apply NWF. auto.
    - destruct has_suggest eqn:HS; [left|right; eexists; eapply bc_suggest; eauto; unfold wrong_features; auto]. split; [reflexivity|]. split; [auto|]. split; [reflexivity|].
      intros ->. split; [|now apply FT]. destruct (is_features f); [reflexivity|]. exfalso. apply NWF. auto.
  Qed.
End Calls.
