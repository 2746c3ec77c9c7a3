(** Proofs about random generators. *)
From Coq Require Import ZArith List Bool Lia Arith.
From Verif Require Import Base Datum CodecModel CodecSpec CodecProofs ParamSpec ExprModel ExprCodec RngModel RngSpec.
Import ListNotations.
Open Scope Z_scope.

Lemma wire_blob_exists b : exists bs, wire_blob b bs.
Proof. destruct (leb128_exists (lenZ b) (lenZ_nonneg b)) as [l L]. exists (l ++ b), l. auto. Qed.
Lemma b2z_small b : 0 <= b2z b < 128. Proof. destruct b; cbv; split; congruence. Qed.
Lemma b2z_byte (b : bool) : b2z b = (if b then 1 else 0). Proof. now destruct b. Qed.

Section Write.
  Variables (le : bool) (types : list gtype) (g : rng) (ty : gtype).
  Hypothesis TB : table types.
  Hypothesis OT : of_table types g ty.
  Hypothesis SR : storable_rng g.
  Lemma state_small : lenZ (g_state g) < 2 ^ 64.
  Proof. destruct OT as [N ->]. apply (proj2 TB ty). eapply nth_error_In; eauto. Qed.
  Lemma name_ok : ok_name (t_name ty).
  Proof. destruct OT as [N _]. apply (proj2 TB ty). eapply nth_error_In; eauto. Qed.
  Lemma wire_rng_exists : exists bs, wire_rng le ty g bs.
  Proof.
    destruct (leb128_exists (g_id g)) as [lh L]; [apply SR|]. destruct (wire_string_exists (t_name ty)) as [nm N].
    destruct (wire_blob_exists (g_state g)) as [st S]. destruct (wire_blob_exists (ud_bytes (g_ud g))) as [ub U].
    eexists. exists lh, nm, st, ub. repeat (split; [eassumption|]). reflexivity.
  Qed.
  Lemma rng_encodes bs : wire_rng le ty g bs -> encodes (ser_rng le types g) bs /\ size_rng le types g = Ok (lenZ bs).
  Proof.
    intros (lh & nm & st & ub & L & N & S & U & ->). destruct SR as [I D]. pose proof state_small as SS. pose proof name_ok as [NO NL].
    unfold ser_rng, size_rng. rewrite (proj1 OT). rewrite <- b2z_byte. split.
    - apply encodes_seq; [apply ser_object_internal_encodes; [cbv; split; congruence|exact I|exact L]|].
      apply encodes_seq; [now apply ser_string_encodes|]. apply encodes_seq; [apply ser_enum_small, b2z_small|].
      apply encodes_seq; [now apply ser_blob_encodes|now apply ser_user_data_encodes].
    - rewrite (size_object_internal_ok 0 _ lh), (size_string_ok _ nm), size_enum_small, (size_blob_ok _ st), (size_user_data_ok _ ub) by (auto using b2z_small; lia).
      f_equal. rewrite !lenZ_app. change (lenZ [b2z le]) with 1. lia.
  Qed.
End Write.

Lemma find_type_hit types ty t : NoDup (map t_name types) -> nth_error types t = Some ty -> find_type types (t_name ty) = Some t.
Proof.
  revert t. induction types as [|a l IH]; intros [|t] ND E; cbn in *; try discriminate.
  - injection E as ->. destruct (list_eq_dec Z.eq_dec _ _); [reflexivity|contradiction].
  - inversion ND as [|? ? NI ND']; subst. destruct (list_eq_dec Z.eq_dec _ _) as [e|_].
    + exfalso. apply NI. rewrite <- e. apply in_map. eapply nth_error_In; eauto.
    + now rewrite (IH t).
Qed.
Lemma find_type_miss types name : (forall ty, In ty types -> t_name ty <> name) -> find_type types name = None.
Proof.
  induction types as [|a l IH]; intro H; [reflexivity|]. cbn [find_type].
  destruct (list_eq_dec Z.eq_dec _ _) as [e|_]; [exfalso; apply (H a); [now left|auto]|].
  rewrite IH; [reflexivity|]. intros ty I. apply H. now right.
Qed.

Section Read.
  Variables (le le' : bool) (types types' : list gtype) (g : rng) (ty : gtype).
  Hypothesis TB : table types.
  Hypothesis OT : of_table types g ty.
  Hypothesis SR : storable_rng g.
  Ltac db := eapply dec_bind; [|intros _; cbv beta iota].
  Lemma dec_ext {A} u L (f f' : rstate -> res (A * rstate)) a bs : (forall s, f s = f' s) -> dec u L f a bs -> dec u L f' a bs.
  Proof. intros E [H P]. split; [intros; rewrite <- E; now apply H|intros; rewrite <- E; eapply P; eauto]. Qed.
  Lemma rng_dec u L bs ty' t' : table types' -> nth_error types' t' = Some ty' -> t_name ty' = t_name ty -> wire_rng le ty g bs -> (u = true -> ud_bytes (g_ud g) = []) ->
    dec u L (deser_rng le' types') (mkRng (g_id g) t' (restored_state le le' ty' (g_state g)) (read_ud (ud_bytes (g_ud g)))) bs.
  Proof.
    intros [ND TB'] E' N' (lh & nm & st & ub & Lh & N & S & U & ->) UD.
    rewrite <- b2z_byte.
    eapply dec_bind; [apply decodes_dec, (deser_object_internal_decodes 0 (g_id g)); [lia|apply SR|exact Lh]|]. intros _. cbv beta iota. cbn [fst snd Z.eqb OBJ_RNG negb refute bind].
    pose proof (state_small types g ty TB OT) as SS. pose proof (name_ok types g ty TB OT) as [NO NL].
    db; [apply decodes_dec, (deser_string_decodes (t_name ty)); assumption|].
    db; [apply decodes_dec, deser_enum_small, b2z_small|].
    db; [apply decodes_dec, (deser_blob_decodes (g_state g)); assumption|].
    rewrite <- N', (find_type_hit types' ty' t' ND E'). unfold create_rng_with_type. rewrite E'. cbn [bind g_state].
    rewrite <- (app_nil_r ub). db; [apply (user_data_dec u _ (ud_bytes (g_ud g))); [apply SR|exact U|exact UD]|].
    replace (if (lenZ (g_state g) =? lenZ (t_init ty')) && (b2z le =? b2z le') then g_state g else t_init ty') with (restored_state le le' ty' (g_state g)); [apply dec_ret|].
    unfold restored_state. replace (b2z le =? b2z le') with (Bool.eqb le le') by now destruct le, le'.
    rewrite (Z.eqb_sym (lenZ (g_state g))). destruct (Bool.eqb le le'), (lenZ (t_init ty') =? lenZ (g_state g)); reflexivity.
  Qed.
  Ltac sz := rewrite ?lenZ_app, ?lenZ_cons in *; change (lenZ (@nil Z)) with 0 in *; lia.
  (** a type this host does not have *)
  Lemma rng_unknown bs tl n : (forall ty', In ty' types' -> t_name ty' <> t_name ty) -> wire_rng le ty g bs ->
    lenZ bs <= n <= lenZ (bs ++ tl) -> n < 2 ^ 64 -> deser_rng le' types' (mkR (bs ++ tl) n) = Err ERR_INVALID_VALUE.
  Proof.
    intros NK (lh & nm & st & ub & Lh & N & S & U & ->) B1 B2. rewrite <- b2z_byte in *.
    destruct SR as [I D]. pose proof (state_small types g ty TB OT) as SS. pose proof (name_ok types g ty TB OT) as [NO NL].
    unfold deser_rng. rewrite <- app_assoc in *.
    pose proof (lenZ_nonneg lh). pose proof (lenZ_nonneg nm). pose proof (lenZ_nonneg st). pose proof (lenZ_nonneg ub).
    pose proof (lenZ_nonneg tl).
    destruct (deser_object_internal_decodes 0 (g_id g) lh) as [D1 _]; [lia|exact I|exact Lh|].
    rewrite D1; [|sz|sz]. cbn [bind fst snd Z.eqb OBJ_RNG negb refute].
    rewrite <- app_assoc. destruct (deser_string_decodes (t_name ty) nm NL NO N) as [D2 _].
    rewrite D2; [|sz|sz]. cbn [bind].
    rewrite <- app_assoc. destruct (deser_enum_small (b2z le) (b2z_small le)) as [D3 _].
    rewrite D3; [|sz|sz]. cbn [bind].
    rewrite <- app_assoc. destruct (deser_blob_decodes (g_state g) st SS S) as [D4 _].
    rewrite D4; [|sz|sz]. cbn [bind].
    now rewrite find_type_miss.
  Qed.
End Read.

Lemma rng_written le types g ty : table types -> of_table types g ty -> storable_rng g ->
  exists bs, wire_rng le ty g bs /\ encodes (ser_rng le types g) bs /\ size_rng le types g = Ok (lenZ bs).
Proof.
  intros TB OT SR. destruct (wire_rng_exists le g ty SR) as [bs W]. exists bs. split; [exact W|]. exact (rng_encodes le types g ty TB OT SR bs W).
Qed.
Lemma rng_restored le le' types types' g ty t' ty' bs : table types -> table types' -> of_table types g ty -> storable_rng g ->
  wire_rng le ty g bs -> nth_error types' t' = Some ty' -> t_name ty' = t_name ty ->
  (forall tl n, lenZ bs <= n <= lenZ (bs ++ tl) -> n < 2 ^ 64 ->
     deser_rng le' types' (mkR (bs ++ tl) n) =
       Ok (mkRng (g_id g) t' (restored_state le le' ty' (g_state g)) (read_ud (ud_bytes (g_ud g))), mkR tl (n - lenZ bs))) /\
  (ud_bytes (g_ud g) = [] -> forall p q tl, bs = p ++ q -> q <> [] -> lenZ p < 2 ^ 64 ->
     deser_rng le' types' (mkR (p ++ tl) (lenZ p)) = Err ERR_NOT_ENOUGH_DATA).
Proof.
  intros TB TB' OT SR W E N. split.
  - intros tl n B1 B2. destruct (rng_dec le le' types types' g ty TB OT SR false (length bs) bs ty' t' TB' E N W ltac:(discriminate)) as [D _].
    now apply D.
  - intros U p q tl EQ Q LP. destruct (rng_dec le le' types types' g ty TB OT SR true (length p) bs ty' t' TB' E N W ltac:(auto)) as [_ D].
    apply (D eq_refl p q tl); auto.
Qed.
Lemma draws_same draw n : forall g g', g_type g = g_type g' -> g_state g = g_state g' -> draws draw n g = draws draw n g'.
Proof.
  induction n; intros g g' T S; [reflexivity|]. cbn [draws]. unfold rng_get. rewrite T, S.
  destruct (draw (g_type g') (g_state g')). f_equal. now apply IHn.
Qed.
Lemma rng_continues le types g ty bs tl n : table types -> of_table types g ty -> storable_rng g -> wire_rng le ty g bs ->
  lenZ bs <= n <= lenZ (bs ++ tl) -> n < 2 ^ 64 ->
  exists g', deser_rng le types (mkR (bs ++ tl) n) = Ok (g', mkR tl (n - lenZ bs)) /\
    g_type g' = g_type g /\ ud_bytes (g_ud g') = ud_bytes (g_ud g) /\
    forall draw k, draws draw k g' = draws draw k g.
Proof.
  intros TB OT SR W B1 B2. destruct (rng_restored le le types types g ty (g_type g) ty bs TB TB OT SR W (proj1 OT) eq_refl) as [D _].
  eexists. split; [now apply D|]. split; [reflexivity|]. split; [cbn; now destruct (ud_bytes (g_ud g))|].
  intros draw k. apply draws_same; [reflexivity|]. cbn. unfold restored_state. rewrite Bool.eqb_reflx. now rewrite (proj2 OT), Z.eqb_refl.
Qed.
