From Coq Require Import ZArith List Bool Lia ZifyBool.
From Verif Require Import Base Datum CodecModel CodecSpec CodecProofs FrameModel FrameSpec.
Import ListNotations.
Open Scope Z_scope.

Definition header_bytes (size : Z) : list Z := magic_tag ++ word 8 size ++ [1].

Lemma ser_magic_encodes : encodes ser_magic magic_tag.
Proof. apply (encodes_copy magic_tag). Qed.

Lemma header_len size : lenZ (header_bytes size) = 13.
Proof. unfold header_bytes. rewrite !lenZ_app, word_lenZ. reflexivity. Qed.

Lemma ser_header_encodes le size : in_unsigned 64 size ->
  encodes (ser_header le size) (header_bytes size).
Proof.
  intros H. unfold header_bytes, ser_header.
  apply (encodes_seq ser_magic); [apply ser_magic_encodes|].
  apply (encodes_seq (ser_u64raw le size) (ser_uint 32 api_version)).
  - apply ser_fixed_encodes; auto using okn8.
  - apply ser_uint_encodes; auto using okw32; unfold api_version; [lia | now constructor].
Qed.

Lemma bytes_differ_refl l : bytes_differ l l = false.
Proof. induction l; cbn; auto. now rewrite Z.eqb_refl. Qed.
Lemma bytes_differ_spec a b : length a = length b -> bytes_differ a b = false -> a = b.
Proof.
  revert b; induction a as [|x a IH]; intros [|y b] L H; cbn in *; try discriminate; auto.
  destruct (x =? y) eqn:E; [|discriminate]. f_equal; [lia | apply IH; auto].
Qed.

Lemma deser_magic_decodes t : length t = 4%nat -> decodes deser_magic t t.
Proof.
  intros L. assert (LZ : lenZ t = 4) by (unfold lenZ; lia). unfold deser_magic; split.
  - intros tl n Hn Hn'. cbn [r_size r_mem]. replace (n <? 4) with false by lia.
    rewrite peek_n_app' by exact L. cbn [bind].
    rewrite <- LZ at 1. now rewrite advance_app by lia.
  - intros p q tl E Q _. cbn [r_size]. pose proof (prefix_shorter _ _ _ E Q).
    now replace (lenZ p <? 4) with true by lia.
Qed.

Lemma deser_header_decodes le size : in_unsigned 64 size ->
  decodes (deser_header le) (size, 1) (header_bytes size).
Proof.
  intros H. unfold header_bytes, deser_header.
  apply (decodes_bind deser_magic (fun tag s =>
    if bytes_differ tag magic_tag then Err ERR_INVALID_VALUE else
    do (sz, s) <- deser_u64raw le s;
    do (version, s) <- deser_uint 32 s;
    if api_version <? version then Err ERR_INVALID_VALUE else Ok ((sz, version), s)) magic_tag).
  { apply deser_magic_decodes; reflexivity. }
  rewrite bytes_differ_refl.
  apply (decodes_bind (deser_u64raw le) (fun sz s =>
    do (version, s) <- deser_uint 32 s;
    if api_version <? version then Err ERR_INVALID_VALUE else Ok ((sz, version), s)) size).
  { apply deser_fixed_decodes; auto using okn8. }
  rewrite <- (app_nil_r [1]).
  apply (decodes_bind (deser_uint 32) (fun version s =>
    if api_version <? version then Err ERR_INVALID_VALUE else Ok ((size, version), s)) 1).
  { apply deser_uint_decodes; auto using okw32; [lia | now constructor]. }
  change (api_version <? 1) with false. cbv iota. apply decodes_ret.
Qed.

Lemma framed_header body : framed body = header_bytes (13 + lenZ body) ++ body.
Proof. unfold framed, header_bytes, magic_tag. now rewrite <- !app_assoc. Qed.

Lemma skipn_app_len {A} (a b : list A) : skipn (length a) (a ++ b) = b.
Proof. rewrite skipn_app, skipn_all, Nat.sub_diag. reflexivity. Qed.

Lemma serialize_memory_ok le body bs mem n :
  encodes body bs -> n = lenZ mem -> n < 2 ^ 64 ->
  (13 + lenZ bs <= n ->
     serialize_memory le body mem n = Ok (framed bs ++ skipn (length (framed bs)) mem)) /\
  (n < 13 + lenZ bs -> serialize_memory le body mem n = Err ERR_NOT_ENOUGH_DATA).
Proof.
  intros E Hn Hb. unfold serialize_memory.
  assert (W0 : wf_w (mkW [] mem n)) by (split; auto).
  pose proof (lenZ_nonneg bs) as Nb.
  assert (H0 : in_unsigned 64 0) by (unfold in_unsigned; lia).
  destruct (ser_header_encodes le 0 H0 _ W0) as [Ho He].
  rewrite header_len in *. cbn [w_size] in *.
  split; intros H.
  - destruct Ho as (s1 & -> & D1 & R1 & Z1); [lia|]. cbn [bind].
    assert (W1 : wf_w s1) by (eapply wf_after with (bs := header_bytes 0); eauto; rewrite ?header_len; cbn [w_size]; lia).
    destruct (E s1 W1) as [Eo _]. destruct Eo as (s2 & -> & D2 & R2 & Z2); [lia|]. cbn [bind].
    set (total := wrap 64 (n - w_size s2)).
    assert (T : total = 13 + lenZ bs) by (unfold total; rewrite wrap_small; lia).
    cbn [w_done w_rest app] in D1, R1.
    assert (LM : lenZ (w_done s2 ++ w_rest s2) = n).
    { rewrite lenZ_app, D2, D1, R2, R1, lenZ_app, header_len. unfold lenZ in *.
      rewrite !skipn_length. pose proof (header_len 0) as HL. unfold lenZ in HL. lia. }
    assert (W3 : wf_w (mkW [] (w_done s2 ++ w_rest s2) n)) by (split; auto; cbn [w_rest w_size]; lia).
    destruct (ser_header_encodes le total ltac:(unfold in_unsigned; lia) _ W3) as [Ho3 _].
    rewrite header_len in Ho3. cbn [w_size] in Ho3.
    destruct Ho3 as (s3 & -> & D3 & R3 & Z3); [lia|]. cbn [bind]. f_equal.
    rewrite D3, R3. cbn [w_done w_rest app]. rewrite D2, D1, R2, R1, T, framed_header.
    assert (HLen : forall z, length (header_bytes z) = 13%nat) by (intros z; pose proof (header_len z) as HL; unfold lenZ in HL; lia).
    rewrite HLen, <- !app_assoc. f_equal.
    rewrite <- (HLen 0), skipn_app_len. f_equal.
    rewrite skipn_skipn', app_length, HLen. reflexivity.
  - destruct (Z_lt_le_dec n 13) as [L|L].
    + now rewrite He.
    + destruct Ho as (s1 & -> & D1 & R1 & Z1); [lia|]. cbn [bind].
      assert (W1 : wf_w s1) by (eapply wf_after with (bs := header_bytes 0); eauto; rewrite ?header_len; cbn [w_size]; lia).
      destruct (E s1 W1) as [_ Ee]. rewrite Ee by lia. reflexivity.
Qed.

Lemma deserialize_memory_ok {A} le (body : rstate -> res (A * rstate)) a bs :
  decodes body a bs -> 13 + lenZ bs < 2 ^ 64 ->
  (forall tl n, 13 + lenZ bs <= n <= lenZ (framed bs ++ tl) -> n < 2 ^ 64 ->
     deserialize_memory le body (framed bs ++ tl) n = Ok a) /\
  (forall p q tl, framed bs = p ++ q -> q <> [] ->
     deserialize_memory le body (p ++ tl) (lenZ p) = Err ERR_NOT_ENOUGH_DATA).
Proof.
  intros D L. pose proof (lenZ_nonneg bs) as Nb.
  assert (H0 : in_unsigned 64 (13 + lenZ bs)) by (unfold in_unsigned; lia).
  pose proof (decodes_bind (deser_header le) (fun _ s => body s) (13 + lenZ bs, 1) a _ _
                (deser_header_decodes le _ H0) D) as [Ho He].
  rewrite framed_header. unfold deserialize_memory.
  assert (LF : lenZ (header_bytes (13 + lenZ bs) ++ bs) = 13 + lenZ bs) by (rewrite lenZ_app, header_len; lia).
  split.
  - intros tl n Hn Hn'. specialize (Ho tl n). rewrite LF in Ho. specialize (Ho Hn Hn').
    destruct (deser_header le (mkR ((header_bytes (13 + lenZ bs) ++ bs) ++ tl) n)) as [[hd s1]| |] eqn:E;
      cbn [bind] in *; try discriminate.
    rewrite Ho. reflexivity.
  - intros p q tl E Q. pose proof (prefix_shorter _ _ _ E Q) as PS. rewrite LF in PS.
    specialize (He p q tl E Q ltac:(lia)).
    destruct (deser_header le (mkR (p ++ tl) (lenZ p))) as [[hd s1]| |] eqn:E1;
      cbn [bind] in *; try discriminate.
    + rewrite He. reflexivity.
    + injection He as ->. reflexivity.
Qed.

Lemma bad_magic {A} le (body : rstate -> res (A * rstate)) tag tl n :
  length tag = 4%nat -> tag <> magic_tag -> 4 <= n <= lenZ (tag ++ tl) -> n < 2 ^ 64 ->
  deserialize_memory le body (tag ++ tl) n = Err ERR_INVALID_VALUE.
Proof.
  intros L T Hn Hn'. unfold deserialize_memory, deser_header.
  destruct (deser_magic_decodes tag L) as [D _].
  rewrite D by (unfold lenZ in *; lia). cbn [bind].
  destruct (bytes_differ tag magic_tag) eqn:E; auto.
  apply bytes_differ_spec in E; [contradiction | exact L].
Qed.

Lemma bad_version {A} le (body : rstate -> res (A * rstate)) size v bv tl n :
  in_unsigned 64 size -> 1 < v < 2 ^ 32 -> leb128 v bv ->
  lenZ (magic_tag ++ word 8 size ++ bv) <= n <= lenZ ((magic_tag ++ word 8 size ++ bv) ++ tl) -> n < 2 ^ 64 ->
  deserialize_memory le body ((magic_tag ++ word 8 size ++ bv) ++ tl) n = Err ERR_INVALID_VALUE.
Proof.
  intros Hs Hv B Hn Hn'. unfold deserialize_memory, deser_header.
  assert (D : decodes (fun s => do (tag, s) <- deser_magic s;
    if bytes_differ tag magic_tag then Err ERR_INVALID_VALUE else
    do (sz, s) <- deser_u64raw le s; do (version, s) <- deser_uint 32 s; Ok (version, s)) v
      (magic_tag ++ word 8 size ++ bv)).
  { apply (decodes_bind deser_magic (fun tag s => if bytes_differ tag magic_tag then Err ERR_INVALID_VALUE else
      do (sz, s) <- deser_u64raw le s; do (version, s) <- deser_uint 32 s; Ok (version, s)) magic_tag);
      [apply deser_magic_decodes; reflexivity|].
    rewrite bytes_differ_refl.
    apply (decodes_bind (deser_u64raw le) (fun sz s => do (version, s) <- deser_uint 32 s; Ok (version, s)) size);
      [apply deser_fixed_decodes; auto using okn8|].
    apply (decodes_map (deser_uint 32) (fun v => v)). apply deser_uint_decodes; auto using okw32; lia. }
  destruct D as [D _]. specialize (D tl n Hn Hn').
  destruct (deser_magic _) as [[tag s1]| |]; cbn [bind] in *; try discriminate.
  destruct (bytes_differ tag magic_tag); try discriminate.
  destruct (deser_u64raw le s1) as [[sz s2]| |]; cbn [bind] in *; try discriminate.
  destruct (deser_uint 32 s2) as [[ver s3]| |]; cbn [bind] in *; try discriminate.
  injection D as -> _. replace (api_version <? v) with true by (unfold api_version; lia). reflexivity.
Qed.
