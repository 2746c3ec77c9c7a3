(** Proofs about the serialised form of tree spaces. *)
From Coq Require Import ZArith List Bool Lia Arith.
From Verif Require Import Base Datum CodecModel CodecSpec CodecProofs ParamModel ParamSpec ParamCodec FloatModel ExprModel ExprCodec TreeModel TreeSpec TreeHeap TreeProofs TreeSteps TreeNav TreeFacts TreeCodecSpec TreeCodec RngModel RngSpec RngProofs TreeSpaceModel TreeSpaceSpec.
Import ListNotations.
Open Scope Z_scope.

Ltac sz := rewrite ?lenZ_app, ?lenZ_cons in *; change (lenZ (@nil Z)) with 0 in *; lia.
Ltac db := eapply dec_bind; [|intros _; cbv beta iota].

Lemma tree_dec le0 u L h2 t' h' bs : (forall fuel L, (L < fuel)%nat -> dec u L (deser_tree le0 fuel h2) (t', h') bs) -> dec u L (deserialize_tree le0 h2) (t', h') bs.
Proof.
  intro D. split.
  - intros _ tl n N N'. unfold deserialize_tree. cbn [r_mem]. destruct (D (Datatypes.S (length (bs ++ tl))) (length (bs ++ tl)) ltac:(lia)) as [D1 _]. apply D1; auto. rewrite app_length. lia.
  - intros U p q tl Q NQ LP _. unfold deserialize_tree. cbn [r_mem]. destruct (D (Datatypes.S (length (p ++ tl))) (length (p ++ tl)) ltac:(lia)) as [_ D2]. apply (D2 U p q tl); auto. rewrite app_length. lia.
Qed.
Lemma restored_ud_eq ud : restored_ud ud = read_ud (ud_bytes ud).
Proof. now destruct ud as [[|x l]|]. Qed.
Section Space.
  Variable S : Type.
  Variable types : list gtype.
  Variable le : bool.
  Variables (h : heap) (sp : tspace S) (ty : gtype).
  Hypothesis TB : table types.
  Hypothesis OT : of_table types (ts_rng S sp) ty.
  Hypothesis R : reached h.
  Hypothesis SB : storable_heap h.
  Hypothesis AT : alive h (ts_tree S sp).
  Hypothesis SS : storable_space S sp.

  Lemma state_encodes sb : state_bytes S (ts_kind S sp) sb -> encodes (ser_state S (ts_kind S sp)) sb /\ size_state S (ts_kind S sp) = lenZ sb.
  Proof.
    destruct SS as (_ & _ & _ & _ & SK). unfold state_bytes, ser_state, size_state, saved. destruct (ts_kind S sp) as [|v st]; [intros ->; split; [apply encodes_nil|reflexivity]|].
    intro W. set (b := match tv_save S v with Some f => f st | None => [] end) in *.
    assert (LB : lenZ b < 2 ^ 64) by (subst b; destruct (tv_save S v); [exact SK|reflexivity]).
    split; [|rewrite <- (size_blob_ok b sb LB W); reflexivity].
    clearbody b. destruct b as [|x b].
    - destruct W as (l & L & ->). rewrite app_nil_r. eapply encodes_ext; [|exact (ser_uint_encodes 64 0 l okw64 ltac:(cbn; lia) L)].
      intros s _. cbv zeta. change (lenZ (@nil Z)) with 0. unfold ser_size. destruct (ser_uint 64 0 s); reflexivity.
    - eapply encodes_ext; [|exact (ser_blob_encodes (x :: b) sb LB W)]. intros s _. cbv zeta. unfold ser_blob.
      destruct (lenZ (x :: b) =? 0) eqn:Q; [apply Z.eqb_eq in Q; rewrite lenZ_cons in Q; pose proof (lenZ_nonneg b); lia|]. reflexivity.
  Qed.
  Lemma space_written : exists head sb ub, wire_space S le ty h sp head sb ub /\
    encodes (ser_space S types le h sp) (head ++ sb ++ ub) /\ size_space S types le h sp = Ok (lenZ (head ++ sb ++ ub)).
  Proof.
    pose proof SS as (I & [NO NL] & SR & UD & SK).
    destruct (leb128_exists (ts_id S sp)) as [lh Lh]; [apply I|]. destruct (wire_string_exists (ts_name S sp)) as [nm Nm].
    destruct (rng_written le types (ts_rng S sp) ty TB OT SR) as (gb & Gb & GE & GZ).
    destruct (tree_written le h (ts_tree S sp) R SB AT) as (tb & Tb & TE & TZ).
    assert (X : exists sb, state_bytes S (ts_kind S sp) sb).
    { unfold state_bytes. destruct (ts_kind S sp) as [|v st]; [eauto|]. apply wire_blob_exists. }
    destruct X as [sb Sb]. destruct (state_encodes sb Sb) as [SE SZ]. destruct (wire_blob_exists (ud_bytes (ts_ud S sp))) as [ub Ub].
    exists ((16 :: lh) ++ [if is_dynamic S (ts_kind S sp) then 1 else 0] ++ nm ++ gb ++ tb), sb, ub.
    assert (KT : space_type S (ts_kind S sp) = (if is_dynamic S (ts_kind S sp) then 1 else 0)) by (now destruct (ts_kind S sp)).
    assert (KS : 0 <= (if is_dynamic S (ts_kind S sp) then 1 else 0) < 128) by (destruct (is_dynamic S (ts_kind S sp)); lia).
    split; [exists lh, nm, gb, tb; repeat (split; [assumption|]); split; [reflexivity|auto]|].
    unfold ser_space, size_space. rewrite KT, GZ, TZ. cbn [bind]. rewrite <- !app_assoc. split.
    - apply encodes_seq; [apply ser_object_internal_encodes; [cbv; split; congruence|exact I|exact Lh]|].
      apply encodes_seq; [now apply ser_enum_small|]. apply encodes_seq; [now apply ser_string_encodes|].
      apply encodes_seq; [exact GE|]. apply encodes_seq; [exact TE|]. apply encodes_seq; [exact SE|now apply ser_user_data_encodes].
    - rewrite (size_object_internal_ok 16 _ lh), (size_string_ok _ nm), size_enum_small, SZ, (size_user_data_ok _ ub) by (auto; lia).
      f_equal. rewrite !lenZ_app. change (lenZ [if is_dynamic S (ts_kind S sp) then 1 else 0]) with 1. lia.
  Qed.

  (** ** Reading *)
  Variables (le' : bool) (types' : list gtype) (ty' : gtype) (t' dflt : nat) (dty : gtype).
  Hypothesis TB' : table types'.
  Hypothesis NT : nth_error types' t' = Some ty'.
  Hypothesis NN : t_name ty' = t_name ty.
  Hypothesis ND : nth_error types' dflt = Some dty.

  Lemma data_dec u L nm gb tb h2 t1 h1 : wire_string (ts_name S sp) nm -> wire_rng le ty (ts_rng S sp) gb ->
    (u = true -> ud_bytes (g_ud (ts_rng S sp)) = []) ->
    (forall fuel L, (L < fuel)%nat -> dec u L (deser_tree le' fuel h2) (t1, h1) tb) -> forall k, 0 <= k < 128 ->
    dec u L (deser_space_data types' le' h2) (k, ts_name S sp, restored_rng le le' ty' t' (ts_rng S sp), t1, h1) ([k] ++ nm ++ gb ++ tb).
  Proof.
    intros Nm Gb GU D k Hk. unfold restored_rng. rewrite restored_ud_eq. pose proof SS as (I & [NO NL] & SR & UD & SK).
    db; [apply decodes_dec, deser_enum_small, Hk|].
    db; [apply decodes_dec, (deser_string_decodes (ts_name S sp)); assumption|].
    db; [apply (rng_dec le le' types types' (ts_rng S sp) ty TB OT SR u _ gb ty' t' TB' NT NN Gb GU)|].
    rewrite <- (app_nil_r tb). db; [apply tree_dec; exact D|]. apply dec_ret.
  Qed.

  Variables (gid : Z) (v : option (tvector S)) (st : S).
  Definition fresh_rng : rng := mkRng gid dflt (t_init dty) None.
  Lemma read_alive h1 t1 : is_root h1 t1 -> exists n, read h1 t1 = Ok n.
  Proof. intros (vw & E & _). apply seen_node in E as (n & E & _). exists n. now apply read_node. Qed.
  Lemma static_dec u L nm gb tb h2 t1 h1 lh ub : ts_kind S sp = KStatic S -> leb128 (ts_id S sp) lh ->
    wire_string (ts_name S sp) nm -> wire_rng le ty (ts_rng S sp) gb -> wire_blob (ud_bytes (ts_ud S sp)) ub ->
    (u = true -> ud_bytes (g_ud (ts_rng S sp)) = [] /\ ud_bytes (ts_ud S sp) = []) ->
    (forall fuel L, (L < fuel)%nat -> dec u L (deser_tree le' fuel h2) (t1, h1) tb) -> is_root h1 t1 ->
    dec u L (deser_space S types' dflt le' gid v st h2)
      (mkSpace S (ts_id S sp) (ts_name S sp) fresh_rng t1 (KStatic S) (restored_ud (ts_ud S sp)), h1) (((16 :: lh) ++ [0] ++ nm ++ gb ++ tb) ++ ub).
  Proof.
    intros KD Lh Nm Gb Ub GU D RT. pose proof SS as (I & _ & _ & UD & _). destruct (read_alive h1 t1 RT) as [n RN].
    unfold deser_space. rewrite <- app_assoc.
    eapply dec_bind; [apply decodes_dec, (deser_object_internal_decodes 16 (ts_id S sp)); [lia|exact I|exact Lh]|]. intros _. cbv beta iota. cbn [fst snd Z.eqb OBJ_TREE_SPACE Pos.eqb negb refute bind].
    change (([0] ++ nm ++ gb ++ tb) ++ ub) with (0 :: (nm ++ gb ++ tb) ++ ub). apply dec_peek; [lia|]. cbn [SPACE_STATIC Z.eqb].
    change (0 :: (nm ++ gb ++ tb) ++ ub) with (([0] ++ nm ++ gb ++ tb) ++ ub).
    db.
    - rewrite <- (app_nil_r ([0] ++ nm ++ gb ++ tb)). db; [apply (data_dec u _ nm gb tb h2 t1 h1 Nm Gb (fun U => proj1 (GU U)) D 0); lia|].
      unfold create_static, create_rng_with_type. rewrite RN, ND. cbn [bind]. apply dec_ret.
    - rewrite <- (app_nil_r ub). db; [apply (user_data_dec u _ (ud_bytes (ts_ud S sp))); [exact UD|exact Ub|exact (fun U => proj2 (GU U))]|].
      rewrite restored_ud_eq. apply dec_ret.
  Qed.
  Lemma dynamic_dec u L nm gb tb h2 t1 h1 lh sb vs st0 vr st' : ts_kind S sp = KDynamic S vs st0 -> leb128 (ts_id S sp) lh ->
    wire_string (ts_name S sp) nm -> wire_rng le ty (ts_rng S sp) gb -> state_bytes S (ts_kind S sp) sb -> v = Some vr ->
    match tv_load S vr with Some f => f st [] = Ok st' | None => st' = st end ->
    (u = true -> ud_bytes (g_ud (ts_rng S sp)) = [] /\ saved S (ts_kind S sp) = []) ->
    (forall fuel L, (L < fuel)%nat -> dec u L (deser_tree le' fuel h2) (t1, h1) tb) -> is_root h1 t1 ->
    dec u L (deser_space S types' dflt le' gid v st h2)
      (mkSpace S (ts_id S sp) (ts_name S sp) (restored_rng le le' ty' t' (ts_rng S sp)) t1 (KDynamic S vr st') (read_ud (saved S (ts_kind S sp))), h1)
      (((16 :: lh) ++ [1] ++ nm ++ gb ++ tb) ++ sb).
  Proof.
    intros KD Lh Nm Gb Sb EV LD GU D RT. pose proof SS as (I & _ & _ & UD & SK). destruct (read_alive h1 t1 RT) as [n RN].
    assert (LS : lenZ (saved S (ts_kind S sp)) < 2 ^ 64) by (rewrite KD in *; cbn [saved]; destruct (tv_save S vs); [exact SK|reflexivity]).
    assert (WS : wire_blob (saved S (ts_kind S sp)) sb) by (rewrite KD in *; exact Sb).
    unfold deser_space. rewrite <- app_assoc.
    eapply dec_bind; [apply decodes_dec, (deser_object_internal_decodes 16 (ts_id S sp)); [lia|exact I|exact Lh]|]. intros _. cbv beta iota. cbn [fst snd Z.eqb OBJ_TREE_SPACE Pos.eqb negb refute bind].
    change (([1] ++ nm ++ gb ++ tb) ++ sb) with (1 :: (nm ++ gb ++ tb) ++ sb). apply dec_peek; [lia|]. cbn [SPACE_STATIC SPACE_DYNAMIC Z.eqb Pos.eqb].
    change (1 :: (nm ++ gb ++ tb) ++ sb) with (([1] ++ nm ++ gb ++ tb) ++ sb).
    db.
    - rewrite <- (app_nil_r ([1] ++ nm ++ gb ++ tb)). db; [apply (data_dec u _ nm gb tb h2 t1 h1 Nm Gb (fun U => proj1 (GU U)) D 1); lia|].
      unfold create_dynamic, create_rng_with_type. rewrite RN, ND, EV. cbn [bind].
      apply (dec_eq u _ _ (mkSpace S (ts_id S sp) (ts_name S sp) (restored_rng le le' ty' t' (ts_rng S sp)) t1 (KDynamic S vr st') None, h1)); [reflexivity|].
      destruct (tv_load S vr) as [f|]; [|subst st'; apply dec_ret]. eapply dec_ext; [|apply dec_ret]. intro s. rewrite LD. reflexivity.
    - rewrite <- (app_nil_r sb). db; [apply (user_data_dec u _ (saved S (ts_kind S sp))); [exact LS|exact WS|exact (fun U => proj2 (GU U))]|].
      apply dec_ret.
  Qed.
  (** what makes restoring a dynamic space fail *)
  Lemma dynamic_err nm gb tb h2 t1 h1 lh vs st0 e : ts_kind S sp = KDynamic S vs st0 -> leb128 (ts_id S sp) lh ->
    wire_string (ts_name S sp) nm -> wire_rng le ty (ts_rng S sp) gb ->
    match v with None => e = ERR_INVALID_VALUE | Some vr => exists f, tv_load S vr = Some f /\ f st [] = Err e end ->
    (forall fuel L, (L < fuel)%nat -> dec false L (deser_tree le' fuel h2) (t1, h1) tb) -> is_root h1 t1 ->
    forall tl n, lenZ ((16 :: lh) ++ [1] ++ nm ++ gb ++ tb) <= n <= lenZ (((16 :: lh) ++ [1] ++ nm ++ gb ++ tb) ++ tl) -> n < 2 ^ 64 ->
    deser_space S types' dflt le' gid v st h2 (mkR (((16 :: lh) ++ [1] ++ nm ++ gb ++ tb) ++ tl) n) = Err e.
  Proof.
    intros KD Lh Nm Gb EV D RT tl n N1 N2. pose proof SS as (I & _ & _ & UD & SK). destruct (read_alive h1 t1 RT) as [nd RN].
    unfold deser_space. rewrite <- (app_assoc (16 :: lh)) in *. pose proof (lenZ_nonneg ([1] ++ nm ++ gb ++ tb)). pose proof (lenZ_nonneg tl).
    destruct (deser_object_internal_decodes 16 (ts_id S sp) lh) as [D1 _]; [lia|exact I|exact Lh|].
    rewrite D1; [|rewrite !lenZ_app in *; lia|exact N2]. cbn [bind fst snd OBJ_TREE_SPACE Z.eqb Pos.eqb negb refute].
    set (m := n - lenZ (16 :: lh)). assert (M : lenZ ([1] ++ nm ++ gb ++ tb) <= m <= lenZ (([1] ++ nm ++ gb ++ tb) ++ tl)) by (subst m; rewrite !lenZ_app in *; lia).
    assert (M2 : m < 2 ^ 64) by (subst m; pose proof (lenZ_nonneg (16 :: lh)); lia). clearbody m.
    assert (P : peek_enum (mkR (([1] ++ nm ++ gb ++ tb) ++ tl) m) = Ok 1).
    { destruct (dec_peek false (length ([1] ++ nm ++ gb ++ tb)) 1 (fun x s => do (y, s) <- deser_space_data types' le' h2 s; Ok ((x, y), s)) (1, (1, ts_name S sp, restored_rng le le' ty' t' (ts_rng S sp), t1, h1)) (nm ++ gb ++ tb)) as [DP _]; [lia| |].
      - change (1 :: nm ++ gb ++ tb) with ([1] ++ nm ++ gb ++ tb). rewrite <- (app_nil_r ([1] ++ nm ++ gb ++ tb)). db; [apply (data_dec false _ nm gb tb h2 t1 h1 Nm Gb ltac:(discriminate) D 1); lia|]. apply dec_ret.
      - specialize (DP ltac:(reflexivity) tl m M M2). destruct (peek_enum (mkR ((1 :: nm ++ gb ++ tb) ++ tl) m)) as [x| |] eqn:Q; cbn [bind] in DP; try discriminate.
        change ((1 :: nm ++ gb ++ tb) ++ tl) with (([1] ++ nm ++ gb ++ tb) ++ tl) in *. rewrite Q. destruct (deser_space_data types' le' h2 _) as [[y s]| |]; cbn [bind] in DP; congruence. }
    rewrite P. cbn [bind SPACE_STATIC SPACE_DYNAMIC Z.eqb Pos.eqb].
    destruct (data_dec false (length ([1] ++ nm ++ gb ++ tb)) nm gb tb h2 t1 h1 Nm Gb ltac:(discriminate) D 1 ltac:(lia)) as [DD _].
    rewrite DD by (auto; lia). cbn [bind]. unfold create_dynamic, create_rng_with_type. rewrite RN, ND. cbn [bind].
    destruct v as [vr|]; [|now subst e]. destruct EV as (f & -> & EF). cbn [bind]. now rewrite EF.
  Qed.
End Space.

Lemma static_restored S types types' le le' (sp : tspace S) ty ty' t' dflt dty h T head sb ub gid v st h2 :
  table types -> of_table types (ts_rng S sp) ty -> reached h -> storable_heap h -> represents h (ts_tree S sp) T -> storable_space S sp ->
  ts_kind S sp = KStatic S -> wire_space S le ty h sp head sb ub ->
  table types' -> nth_error types' t' = Some ty' -> t_name ty' = t_name ty -> nth_error types' dflt = Some dty -> reached h2 ->
  exists t1 h1,
    (forall tl n, lenZ (head ++ sb ++ ub) <= n <= lenZ ((head ++ sb ++ ub) ++ tl) -> n < 2 ^ 64 ->
       deser_space S types' dflt le' gid v st h2 (mkR ((head ++ sb ++ ub) ++ tl) n) =
         Ok ((mkSpace S (ts_id S sp) (ts_name S sp) (mkRng gid dflt (t_init dty) None) t1 (KStatic S) (restored_ud (ts_ud S sp)), h1),
             mkR tl (n - lenZ (head ++ sb ++ ub)))) /\
    (plain T -> ud_bytes (g_ud (ts_rng S sp)) = [] -> ud_bytes (ts_ud S sp) = [] ->
       forall p q tl, head ++ sb ++ ub = p ++ q -> q <> [] -> lenZ p < 2 ^ 64 ->
       deser_space S types' dflt le' gid v st h2 (mkR (p ++ tl) (lenZ p)) = Err ERR_NOT_ENOUGH_DATA) /\
    reached h1 /\ represents h1 t1 (restored_tree T) /\ is_root h1 t1 /\ (forall x, alive h2 x -> seen h1 x = seen h2 x).
Proof.
  intros TB OT R SB RT SS KD (lh & nm & gb & tb & Lh & Nm & Gb & Tb & HD & Sb & Ub) TB' NT NN ND R2.
  rewrite KD in *. cbn [is_dynamic state_bytes] in *. subst sb. cbn [app]. subst head.
  destruct (tree_reads le' h R SB false _ tb Tb T RT ltac:(discriminate) h2 R2) as (t1 & h1 & D & R' & [KL K] & (B1 & B2 & B3)).
  exists t1, h1. split; [|split; [|split; [exact R'|split; [apply B3; reflexivity|split; [exact B2|]]]]].
  - intros tl n N N'.
    destruct (static_dec S types le sp ty TB OT SS le' types' ty' t' dflt dty TB' NT NN ND gid v st false (length (((16 :: lh) ++ [0] ++ nm ++ gb ++ tb) ++ ub)) nm gb tb h2 t1 h1 lh ub KD Lh Nm Gb Ub ltac:(discriminate) D B2) as [DD _].
    apply (DD ltac:(lia) tl n N N').
  - intros P GU UU p q tl Q NQ LP. destruct (tree_reads le' h R SB true _ tb Tb T RT ltac:(auto) h2 R2) as (t0 & h0 & D' & _ & _ & (_ & B2' & _)).
    destruct (static_dec S types le sp ty TB OT SS le' types' ty' t' dflt dty TB' NT NN ND gid v st true (length p) nm gb tb h2 t0 h0 lh ub KD Lh Nm Gb Ub ltac:(auto) D' B2') as [_ DD].
    apply (DD eq_refl p q tl); auto.
  - intros x A. apply K. unfold alive in A. destruct (seen h2 x) eqn:E; [|congruence]. eapply seen_len; eauto.
Qed.

Lemma dynamic_restored S types types' le le' (sp : tspace S) ty ty' t' dflt dty h T head sb ub gid vs st0 vr st st' h2 :
  table types -> of_table types (ts_rng S sp) ty -> reached h -> storable_heap h -> represents h (ts_tree S sp) T -> storable_space S sp ->
  ts_kind S sp = KDynamic S vs st0 -> wire_space S le ty h sp head sb ub ->
  table types' -> nth_error types' t' = Some ty' -> t_name ty' = t_name ty -> nth_error types' dflt = Some dty -> reached h2 ->
  match tv_load S vr with Some f => f st [] = Ok st' | None => st' = st end ->
  exists t1 h1,
    (forall tl n, lenZ (head ++ sb) <= n <= lenZ ((head ++ sb) ++ tl) -> n < 2 ^ 64 ->
       deser_space S types' dflt le' gid (Some vr) st h2 (mkR ((head ++ sb) ++ tl) n) =
         Ok ((mkSpace S (ts_id S sp) (ts_name S sp) (restored_rng le le' ty' t' (ts_rng S sp)) t1 (KDynamic S vr st')
                (restored_ud (match tv_save S vs with Some f => Some (f st0) | None => None end)), h1),
             mkR tl (n - lenZ (head ++ sb)))) /\
    (plain T -> ud_bytes (g_ud (ts_rng S sp)) = [] -> match tv_save S vs with Some f => f st0 = [] | None => True end ->
       forall p q tl, head ++ sb = p ++ q -> q <> [] -> lenZ p < 2 ^ 64 ->
       deser_space S types' dflt le' gid (Some vr) st h2 (mkR (p ++ tl) (lenZ p)) = Err ERR_NOT_ENOUGH_DATA) /\
    reached h1 /\ represents h1 t1 (restored_tree T) /\ is_root h1 t1 /\ (forall x, alive h2 x -> seen h1 x = seen h2 x).
Proof.
  intros TB OT R SB RT SS KD (lh & nm & gb & tb & Lh & Nm & Gb & Tb & HD & Sb & Ub) TB' NT NN ND R2 LD.
  assert (DY : is_dynamic S (ts_kind S sp) = true) by (now rewrite KD). rewrite DY in HD. subst head.
  assert (RU : restored_ud (match tv_save S vs with Some f => Some (f st0) | None => None end) = read_ud (saved S (ts_kind S sp))).
  { rewrite KD. cbn [saved]. destruct (tv_save S vs) as [f|]; [destruct (f st0); reflexivity|reflexivity]. }
  destruct (tree_reads le' h R SB false _ tb Tb T RT ltac:(discriminate) h2 R2) as (t1 & h1 & D & R' & [KL K] & (B1 & B2 & B3)).
  exists t1, h1. split; [|split; [|split; [exact R'|split; [apply B3; reflexivity|split; [exact B2|]]]]].
  - intros tl n N N'. rewrite RU.
    destruct (dynamic_dec S types le sp ty TB OT SS le' types' ty' t' dflt dty TB' NT NN ND gid (Some vr) st false (length (((16 :: lh) ++ [1] ++ nm ++ gb ++ tb) ++ sb)) nm gb tb h2 t1 h1 lh sb vs st0 vr st' KD Lh Nm Gb Sb eq_refl LD ltac:(discriminate) D B2) as [DD _].
    apply (DD ltac:(lia) tl n N N').
  - intros P GU UU p q tl Q NQ LP. destruct (tree_reads le' h R SB true _ tb Tb T RT ltac:(auto) h2 R2) as (t0 & h0 & D' & _ & _ & (_ & B2' & _)).
    assert (SV : saved S (ts_kind S sp) = []) by (rewrite KD; cbn [saved]; destruct (tv_save S vs); auto).
    destruct (dynamic_dec S types le sp ty TB OT SS le' types' ty' t' dflt dty TB' NT NN ND gid (Some vr) st true (length p) nm gb tb h2 t0 h0 lh sb vs st0 vr st' KD Lh Nm Gb Sb eq_refl LD ltac:(auto) D' B2') as [_ DD].
    apply (DD eq_refl p q tl); auto.
  - intros x A. apply K. unfold alive in A. destruct (seen h2 x) eqn:E; [|congruence]. eapply seen_len; eauto.
Qed.

Lemma dynamic_refused S types types' le le' (sp : tspace S) ty ty' t' dflt dty h T head sb ub gid vs st0 v st e h2 :
  table types -> of_table types (ts_rng S sp) ty -> reached h -> storable_heap h -> represents h (ts_tree S sp) T -> storable_space S sp ->
  ts_kind S sp = KDynamic S vs st0 -> wire_space S le ty h sp head sb ub ->
  table types' -> nth_error types' t' = Some ty' -> t_name ty' = t_name ty -> nth_error types' dflt = Some dty -> reached h2 ->
  match v with None => e = ERR_INVALID_VALUE | Some vr => exists f, tv_load S vr = Some f /\ f st [] = Err e end ->
  forall tl n, lenZ head <= n <= lenZ (head ++ tl) -> n < 2 ^ 64 -> deser_space S types' dflt le' gid v st h2 (mkR (head ++ tl) n) = Err e.
Proof.
  intros TB OT R SB RT SS KD (lh & nm & gb & tb & Lh & Nm & Gb & Tb & HD & Sb & Ub) TB' NT NN ND R2 LD tl n N N'.
  assert (DY : is_dynamic S (ts_kind S sp) = true) by (now rewrite KD). rewrite DY in HD. subst head.
  destruct (tree_reads le' h R SB false _ tb Tb T RT ltac:(discriminate) h2 R2) as (t1 & h1 & D & R' & [KL K] & (B1 & B2 & B3)).
  exact (dynamic_err S types le sp ty TB OT SS le' types' ty' t' dflt dty TB' NT NN ND gid v st nm gb tb h2 t1 h1 lh vs st0 e KD Lh Nm Gb LD D B2 tl n N N').
Qed.
