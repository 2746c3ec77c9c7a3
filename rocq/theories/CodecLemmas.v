(** The statements of CodecProps.v, assembled from the lemmas. *)
From Coq Require Import ZArith List Bool Lia ZifyBool.
From Verif Require Import Base Datum CodecModel CodecSpec CodecProofs FrameModel FrameSpec FrameProofs.
Import ListNotations.
Open Scope Z_scope.

Lemma unsigned_roundtrip : forall w x,
  w = 16 \/ w = 32 \/ w = 64 -> 0 <= x < 2 ^ w ->
  exists bs, leb128 x bs /\ encodes (ser_uint w x) bs /\ size_uint w x = lenZ bs /\
             decodes (deser_uint w) x bs.
Proof.
  intros w x Hw Hx. destruct (leb128_exists x) as [bs B]; [lia|].
  exists bs; split; [exact B|]. split; [now apply ser_uint_encodes|].
  split; [now apply size_uint_ok | now apply deser_uint_decodes].
Qed.
Lemma signed_roundtrip : forall w x,
  w = 16 \/ w = 32 \/ w = 64 -> - 2 ^ (w - 1) <= x < 2 ^ (w - 1) ->
  exists bs, leb128 (zigzag x) bs /\ encodes (ser_sint w x) bs /\ size_sint w x = lenZ bs /\
             decodes (deser_sint w) x bs.
Proof.
  intros w x Hw Hx. destruct (leb128_exists (zigzag x)) as [bs B]; [apply zigzag_nonneg|].
  exists bs; split; [exact B|]. split; [now apply ser_sint_encodes|].
  split; [now apply size_sint_ok | now apply deser_sint_decodes].
Qed.
Lemma fixed_roundtrip : forall le n x,
  n = 1%nat \/ n = 2%nat \/ n = 4%nat \/ n = 8%nat -> 0 <= x < 256 ^ Z.of_nat n ->
  encodes (ser_fixed le n x) (word n x) /\ size_fixed n x = lenZ (word n x) /\
  decodes (deser_fixed le n) x (word n x).
Proof.
  intros le n x Hn Hx. split; [now apply ser_fixed_encodes|].
  split; [now rewrite word_lenZ | now apply deser_fixed_decodes].
Qed.
Lemma int8_roundtrip : forall le x, -128 <= x < 128 ->
  encodes (ser_int8 le x) [x mod 256] /\ decodes (deser_int8 le) x [x mod 256].
Proof.
  intros le x Hx. assert (Hm := Z.mod_pos_bound x 256 ltac:(lia)).
  assert (W : word 1 (wrap 8 x) = [x mod 256]).
  { unfold word, wrap; cbn [seq map]. change (256 ^ Z.of_nat 0) with 1. change (2 ^ 8) with 256.
    rewrite Z.div_1_r, Z.mod_mod by lia. reflexivity. }
  assert (okn 1) by (left; reflexivity).
  assert (0 <= wrap 8 x < 256 ^ Z.of_nat 1) by (apply (wrap_range 8 x); lia).
  rewrite <- W. split; [now apply ser_fixed_encodes|]. unfold deser_int8.
  eapply decodes_eq; [|apply (decodes_map (deser_fixed le 1) (to_signed 8)); now apply deser_fixed_decodes].
  unfold to_signed. rewrite wrap_wrap by lia. unfold wrap.
  change (2 ^ 8) with 256. change (2 ^ (8 - 1)) with 128.
  destruct (Z_lt_le_dec x 0).
  - replace (x mod 256) with (x + 256) by (apply Z.mod_unique_pos with (q := -1); lia).
    replace (x + 256 <? 128) with false by lia. lia.
  - rewrite Z.mod_small by lia. now replace (x <? 128) with true by lia.
Qed.

Lemma datum_writer_bounded : forall le d s, wf_value (d_val d) -> d_val d <> VString None ->
  wf_w s ->
  (exists sz s', size_datum d = Ok sz /\ ser_datum le d s = Ok s' /\ sz <= w_size s /\
     w_size s' = w_size s - sz /\
     exists bs, lenZ bs = sz /\ w_done s' = w_done s ++ bs /\
                w_rest s' = skipn (length bs) (w_rest s)) \/
  (exists sz, size_datum d = Ok sz /\ w_size s < sz /\ ser_datum le d s = Err ERR_NOT_ENOUGH_DATA) \/
  (exists t i, d_val d = VUnknown t i /\
     (ser_datum le d s = Err ERR_INVALID_TYPE \/ ser_datum le d s = Err ERR_NOT_ENOUGH_DATA)).
Proof.
  intros le d s Wf N Ws.
  assert (S : serialisable (d_val d) \/ exists t i, d_val d = VUnknown t i).
  { destruct (d_val d) as [|i|f|b|[x|]| |h|t i]; cbn; try (left; exact I); [contradiction | right; eauto]. }
  destruct S as [S|(t & i & E)].
  - destruct (wire_datum_exists _ Wf S) as [bs B].
    pose proof (size_datum_ok d bs Wf B) as SZ.
    destruct (ser_datum_encodes le d bs Wf B s Ws) as [Ho He].
    destruct (Z_lt_le_dec (w_size s) (lenZ bs)) as [L|L].
    + right; left. exists (lenZ bs); auto.
    + left. destruct (Ho L) as (s' & E & D & R & Z1).
      exists (lenZ bs), s'. repeat split; auto. exists bs; auto.
  - right; right. exists t, i. split; [exact E|]. unfold ser_datum. rewrite E in *. cbn [type_of].
    destruct Wf as [Wt _].
    destruct (leb128_exists t) as [l L]; [lia|].
    destruct (ser_uint_encodes 32 t l okw32 ltac:(lia) L s Ws) as [Ho He]. unfold ser_enum.
    destruct (Z_lt_le_dec (w_size s) (lenZ l)) as [Q|Q].
    + right. now rewrite (He Q).
    + left. destruct (Ho Q) as (s' & -> & _). reflexivity.
Qed.

Lemma composite_writers_bounded :
  (forall s bs, lenZ s + 1 < 2 ^ 64 -> wire_string s bs -> encodes (ser_string s) bs /\ size_string s = lenZ bs) /\
  (forall b bs, lenZ b < 2 ^ 64 -> wire_blob b bs -> encodes (ser_blob b) bs /\ size_blob b = lenZ bs) /\
  (forall le i bs, wf_interval i -> wire_interval i bs ->
     encodes (ser_interval le i) bs /\ size_interval i = lenZ bs) /\
  (forall ud bs, lenZ (ud_bytes ud) < 2 ^ 64 -> wire_blob (ud_bytes ud) bs ->
     encodes (ser_user_data ud) bs /\ size_user_data ud = lenZ bs).
Proof.
  split; [|split; [|split]]; intros; split;
    auto using ser_string_encodes, size_string_ok, ser_blob_encodes, size_blob_ok,
      ser_interval_encodes, size_interval_ok, ser_user_data_encodes, size_user_data_ok.
Qed.

Lemma datum_truncated : forall le v bs p q tl, wf_value v -> wire_datum v bs ->
  bs = p ++ q -> q <> [] -> lenZ p < 2 ^ 64 ->
  deser_datum le (mkR (p ++ tl) (lenZ p)) = Err ERR_NOT_ENOUGH_DATA.
Proof. intros le v bs p q tl Wf W E Q L. eapply (deser_datum_decodes le v bs); eauto. Qed.
Lemma composite_truncated : forall p q tl bs, bs = p ++ q -> q <> [] -> lenZ p < 2 ^ 64 ->
  (forall s, lenZ s + 1 < 2 ^ 64 -> Forall is_char s -> wire_string s bs ->
     deser_string (mkR (p ++ tl) (lenZ p)) = Err ERR_NOT_ENOUGH_DATA) /\
  (forall b, lenZ b < 2 ^ 64 -> wire_blob b bs ->
     deser_blob (mkR (p ++ tl) (lenZ p)) = Err ERR_NOT_ENOUGH_DATA) /\
  (forall le i, wf_interval i -> wire_interval i bs ->
     deser_interval le (mkR (p ++ tl) (lenZ p)) = Err ERR_NOT_ENOUGH_DATA).
Proof.
  intros p q tl bs E Q L. split; [|split]; intros.
  - eapply (deser_string_decodes s bs); eauto.
  - eapply (deser_blob_decodes b bs); eauto.
  - eapply (deser_interval_decodes le i bs); eauto.
Qed.
Lemma scalar_truncated : forall p q tl bs, bs = p ++ q -> q <> [] ->
  (forall w x, w = 16 \/ w = 32 \/ w = 64 -> 0 <= x < 2 ^ w -> leb128 x bs ->
     deser_uint w (mkR (p ++ tl) (lenZ p)) = Err ERR_NOT_ENOUGH_DATA) /\
  (forall w x, w = 16 \/ w = 32 \/ w = 64 -> - 2 ^ (w - 1) <= x < 2 ^ (w - 1) -> leb128 (zigzag x) bs ->
     deser_sint w (mkR (p ++ tl) (lenZ p)) = Err ERR_NOT_ENOUGH_DATA) /\
  (forall le n x, n = 1%nat \/ n = 2%nat \/ n = 4%nat \/ n = 8%nat -> 0 <= x < 256 ^ Z.of_nat n ->
     bs = word n x -> deser_fixed le n (mkR (p ++ tl) (lenZ p)) = Err ERR_NOT_ENOUGH_DATA).
Proof.
  intros p q tl bs E Q.
  assert (LB : forall w x, okw w -> 0 <= x < 2 ^ w -> leb128 x bs -> lenZ p < 2 ^ 64).
  { intros w x Hw Hx B. pose proof (prefix_shorter _ _ _ E Q).
    pose proof (pow2_128 w Hw). pose proof (leb128_len x bs 10 B ltac:(lia)). lia. }
  split; [|split]; intros.
  - eapply (deser_uint_decodes w x bs); eauto.
  - eapply (deser_sint_decodes w x bs); eauto. eapply (LB w (zigzag x)); eauto.
    apply zigzag_range; auto. destruct H as [->|[->| ->]]; lia.
  - rewrite E in H1. symmetry in H1. eapply (deser_fixed_decodes le n x H); eauto.
    pose proof (prefix_shorter _ _ _ H1 Q) as PS. rewrite word_lenZ in PS. destruct H as [->|[->|[->| ->]]]; cbn in PS; lia.
Qed.

Lemma decoders_total_refuted :
  (exists bs, Forall is_byte bs /\ deser_uint 32 (mkR bs (lenZ bs)) = UB UBShift) /\
  (exists bs, Forall is_byte bs /\ deser_uint 64 (mkR bs (lenZ bs)) = UB UBShift) /\
  (exists bs, Forall is_byte bs /\ deser_uint 16 (mkR bs (lenZ bs)) = UB UBShift) /\
  (exists bs, Forall is_byte bs /\ deser_datum true (mkR bs (lenZ bs)) = UB UBString) /\
  (exists bs, Forall is_byte bs /\ deser_user_data (mkR bs (lenZ bs)) = UB UBBounds).
Proof.
  assert (B : forall l, forallb (fun b => (0 <=? b) && (b <? 256)) l = true -> Forall is_byte l).
  { intros l H. apply Forall_forall. intros x Hx. rewrite forallb_forall in H. specialize (H x Hx).
    unfold is_byte. lia. }
  split; [|split; [|split; [|split]]].
  - exists (repeat 128 5 ++ [0]). split; [now apply B | now vm_compute].
  - exists (repeat 128 10 ++ [0]). split; [now apply B | now vm_compute].
  - exists (repeat 128 4 ++ [127]). split; [now apply B | now vm_compute].
  - exists [4; 1; 65]. split; [now apply B | now vm_compute].
  - exists [200; 1; 65]. split; [now apply B | now vm_compute].
Qed.

Lemma max_groups_eq w : okw w -> max_groups w = (if w =? 16 then 3 else if w =? 32 then 5 else 10).
Proof. reflexivity. Qed.
Lemma overlong_refuted : forall w p y tl n, w = 32 \/ w = 64 ->
  Forall (fun b => 128 <= b < 256) p -> lenZ p = (if w =? 32 then 5 else 10) -> lenZ p < n ->
  deser_uint w (mkR (p ++ y :: tl) n) = UB UBShift.
Proof.
  intros w p y tl n Hw Hp Hl Hn. apply overlong_ub; auto.
  rewrite Hl. destruct Hw as [-> | ->]; reflexivity.
Qed.
Lemma short_varints : forall w bs v tl n, w = 16 \/ w = 32 \/ w = 64 -> varint bs v ->
  lenZ bs <= (if w =? 16 then 3 else if w =? 32 then 5 else 10) -> lenZ bs <= n ->
  deser_uint w (mkR (bs ++ tl) n) = Ok (v mod 2 ^ w, mkR tl (n - lenZ bs)).
Proof. intros; now apply varint_decodes. Qed.

Lemma datum_roundtrip : forall le v flags, wf_value v ->
  match v with VString None | VUnknown _ _ => False | _ => True end ->
  exists bs, wire_datum v bs /\ encodes (ser_datum le (mkDatum v flags)) bs /\
    size_datum (mkDatum v flags) = Ok (lenZ bs) /\
    decodes (deser_datum le)
      (mkDatum v (match v with VString _ => FLAG_TRANSIENT | VObject _ => FLAG_ID | _ => FLAG_DEFAULT end)) bs.
Proof.
  intros le v flags Wf S. destruct (wire_datum_exists v Wf S) as [bs B].
  exists bs. split; [exact B|]. split; [now apply ser_datum_encodes|].
  split; [now apply size_datum_ok | now apply (deser_datum_decodes le v bs)].
Qed.
Lemma null_string_ub : forall le s, wf_w s -> 1 <= w_size s ->
  wf_value (VString None) /\ ser_datum le (ccs_string None) s = UB UBString.
Proof.
  intros le s Ws H. split; [exact I|]. unfold ser_datum; cbn [d_val ccs_string type_of].
  destruct (ser_enum_small TYPE_STRING ltac:(smallc) s Ws) as [Ho _].
  destruct Ho as (s' & -> & _); [|reflexivity]. change (lenZ [TYPE_STRING]) with 1. lia.
Qed.

Lemma framed_len bs : lenZ (framed bs) = 13 + lenZ bs.
Proof. rewrite framed_header, lenZ_app, header_len. lia. Qed.

Lemma serialize_frames : forall le body bs mem n, encodes body bs -> n = lenZ mem -> n < 2 ^ 64 ->
  (13 + lenZ bs <= n ->
     serialize_memory le body mem n = Ok (framed bs ++ skipn (length (framed bs)) mem)) /\
  (n < 13 + lenZ bs -> serialize_memory le body mem n = Err ERR_NOT_ENOUGH_DATA) /\
  serialize_size (lenZ bs) = lenZ (framed bs).
Proof.
  intros. destruct (serialize_memory_ok le body bs mem n) as [A B]; auto.
  split; [exact A|]. split; [exact B|]. rewrite framed_len. reflexivity.
Qed.
Lemma bad_headers_rejected : forall A le (de : rstate -> res (A * rstate)) tl n, n < 2 ^ 64 ->
  (forall tag, length tag = 4%nat -> tag <> [67; 67; 83; 0] -> 4 <= n <= lenZ (tag ++ tl) ->
     deserialize_memory le de (tag ++ tl) n = Err ERR_INVALID_VALUE) /\
  (forall size v bv, in_unsigned 64 size -> 1 < v < 2 ^ 32 -> leb128 v bv ->
     let h := [67; 67; 83; 0] ++ word 8 size ++ bv in
     lenZ h <= n <= lenZ (h ++ tl) -> deserialize_memory le de (h ++ tl) n = Err ERR_INVALID_VALUE).
Proof.
  intros A le de tl n Hn; split.
  - intros; now apply bad_magic.
  - intros; now apply (bad_version le de size v bv).
Qed.

Lemma portable_bytes : forall le1 le2 v flags bs mem n out, wf_value v -> wire_datum v bs ->
  n = lenZ mem -> n < 2 ^ 64 ->
  serialize_memory le1 (ser_datum le1 (mkDatum v flags)) mem n = Ok out ->
  serialize_memory le2 (ser_datum le2 (mkDatum v flags)) mem n = Ok out /\
  exists fl, deserialize_memory le2 (deser_datum le2) out n = Ok (mkDatum v fl).
Proof.
  intros le1 le2 v flags bs mem n out Wf W Hn Hb E.
  destruct (serialize_memory_ok le1 _ bs mem n (ser_datum_encodes le1 (mkDatum v flags) bs Wf W) Hn Hb) as [A1 B1].
  destruct (serialize_memory_ok le2 _ bs mem n (ser_datum_encodes le2 (mkDatum v flags) bs Wf W) Hn Hb) as [A2 B2].
  destruct (Z_lt_le_dec n (13 + lenZ bs)) as [L|L]; [rewrite B1 in E by exact L; discriminate|].
  rewrite A1 in E by exact L. injection E as <-. split; [now apply A2|].
  pose proof (lenZ_nonneg bs).
  destruct (deserialize_memory_ok le2 _ _ bs (deser_datum_decodes le2 v bs Wf W) ltac:(lia)) as [D _].
  assert (SL : lenZ (skipn (length (framed bs)) mem) = lenZ mem - lenZ (framed bs)).
  { pose proof (framed_len bs). unfold lenZ in *. rewrite skipn_length. lia. }
  eexists. apply (D (skipn (length (framed bs)) mem) n); [|exact Hb].
  rewrite (lenZ_app (framed bs)), SL, framed_len. lia.
Qed.

Lemma announced_size_unchecked :
  exists mem size, deser_header true (mkR mem (lenZ mem)) = Ok ((size, 1), mkR (skipn 13 mem) (lenZ mem - 13)) /\
    lenZ mem < size /\ deserialize_memory true (deser_datum true) mem (lenZ mem) = Ok (ccs_int 5).
Proof.
  exists [67; 67; 83; 0; 255; 255; 0; 0; 0; 0; 0; 0; 1; 1; 10], 65535.
  split; [now vm_compute|]. split; [now vm_compute | now vm_compute].
Qed.
