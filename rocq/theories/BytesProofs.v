(** Proofs about decoders reading arbitrary bytes. *)
From Coq Require Import ZArith List Bool Lia Arith.
From Verif Require Import Base Datum CodecModel CodecSpec CodecProofs FrameModel BytesSpec.
Import ListNotations.
Open Scope Z_scope.

(** the bytes left are the end of those given *)
Definition ends {A} (bs : list Z) (r : res (A * list Z)) : Prop := match r with Ok (_, rest) => exists p, bs = p ++ rest | _ => True end.
Definition good {A} (R : list Z -> res (A * list Z) -> Prop) (de : rstate -> res (A * rstate)) : Prop :=
  forall bs, byte_string bs -> lenZ bs < 2 ^ 64 -> (exists r, R bs r) /\ forall r, R bs r -> reads de bs r /\ ends bs r.
Lemma good_settled {A} R (de : rstate -> res (A * rstate)) : good R de -> settled_by R de.
Proof. intros G bs B N. destruct (G bs B N) as [E H]. split; [exact E|]. intros r X. apply (H r X). Qed.
Lemma good_ext {A} R (de de' : rstate -> res (A * rstate)) : (forall s, de s = de' s) -> good R de -> good R de'.
Proof. intros E G bs B N. destruct (G bs B N) as [X H]. split; [exact X|]. intros r HR. destruct (H r HR) as [RD EN]. split; [|exact EN]. unfold reads in *. now rewrite <- E. Qed.
Lemma chain_good {A B} R K (f : rstate -> res (A * rstate)) (k : A -> rstate -> res (B * rstate)) :
  good R f -> (forall a, good (K a) (k a)) -> good (chain R K) (fun s => do (a, s) <- f s; k a s).
Proof.
  intros F G bs BS N. destruct (F bs BS N) as [[r0 X0] H0]. destruct (H0 r0 X0) as [RD0 EN0].
  assert (NX : forall a rest, R bs (Ok (a, rest)) -> byte_string rest /\ lenZ rest < 2 ^ 64 /\ f (mkR bs (lenZ bs)) = Ok (a, mkR rest (lenZ rest)) /\ exists p, bs = p ++ rest).
  { intros a rest X. destruct (H0 _ X) as [RD (p & ->)]. unfold byte_string in *. apply Forall_app in BS. rewrite lenZ_app in N. pose proof (lenZ_nonneg p). split; [tauto|]. split; [lia|]. split; [exact RD|]. now exists p. }
  split.
  - destruct r0 as [[a rest]|e|u]; [|eexists; apply ch_error; exact X0|eexists; apply ch_undefined; exact X0]. destruct (NX _ _ X0) as (B1 & N1 & _). destruct (G a rest B1 N1) as [[r X] _].
    exists r. eapply ch_next; eauto.
  - intros r [e X|u X|a rest r' X XK].
    + destruct (H0 _ X) as [RD _]. unfold reads in *. rewrite RD. split; [reflexivity|exact I].
    + destruct (H0 _ X) as [RD _]. unfold reads in *. rewrite RD. split; [reflexivity|exact I].
    + destruct (NX _ _ X) as (B1 & N1 & RD & p & P). destruct (G a rest B1 N1) as [_ HK]. destruct (HK r' XK) as [RK EK]. unfold reads in *. rewrite RD. cbn [bind]. rewrite RK. split; [reflexivity|].
      destruct r' as [[b rest']|e|u]; [|exact I|exact I]. destruct EK as [q Q]. exists (p ++ q). rewrite P, Q. now rewrite app_assoc.
Qed.
Lemma done_good {A B} (f : A -> B) a : good (done f a) (fun s => Ok (f a, s)).
Proof. intros bs BS N. split; [eexists; reflexivity|]. intros r ->. split; [reflexivity|]. now exists []. Qed.

(** ** Numbers *)
Lemma groups_max w : w = 32 \/ w = 64 -> groups w = max_groups w.
Proof. intros [-> | ->]; reflexivity. Qed.
Lemma groups_varint q b : Forall continued q -> 0 <= b < 128 -> varint (q ++ [b]) (groups_value (q ++ [b])).
Proof.
  intros F B. induction F as [|x q C F IH]; cbn [app groups_value].
  - rewrite Z.mul_0_r, Z.add_0_r, Z.mod_small by lia. now constructor.
  - unfold continued in C. replace (x mod 128) with (x - 128); [now constructor|]. symmetry. replace x with ((x - 128) + 1 * 128) at 1 by lia. rewrite Z.mod_add by lia. apply Z.mod_small. lia.
Qed.
(** all continued and nothing more *)
Lemma cut_loop w q : w = 32 \/ w = 64 -> Forall continued q -> forall V sh, 0 <= sh -> sh + 7 * (lenZ q - 1) < w -> 0 <= V < 2 ^ sh -> leb_deser_loop w V sh (lenZ q) q = Err ERR_NOT_ENOUGH_DATA.
Proof.
  intro W. assert (OW : okw w) by (destruct W; unfold okw; auto). induction 1 as [|b t Hb Ht IH]; intros V sh Hs Hl HV; [reflexivity|].
  rewrite lenZ_cons in *. pose proof (lenZ_nonneg t). cbn [leb_deser_loop]. replace (1 + lenZ t <? 1) with false by lia. unfold continued in Hb. destruct (land_byte_cont b Hb) as [-> ->].
  destruct (varint_step w V (b - 128) sh OW ltac:(lia) HV ltac:(lia)) as (g' & -> & E). cbn [bind]. rewrite E. replace (128 =? 0) with false by lia.
  destruct t as [|c t]; [reflexivity|]. rewrite lenZ_cons in Hl. pose proof (lenZ_nonneg t).
  assert (P : 0 < 2 ^ sh) by (apply Z.pow_pos_nonneg; lia).
  assert (E7 : 2 ^ (sh + 7) = 128 * 2 ^ sh) by (rewrite Z.pow_add_r by lia; change (2 ^ 7) with 128; lia).
  assert (2 ^ (sh + 7) <= 2 ^ w) by (apply Z.pow_le_mono_r; lia).
  rewrite Z.mod_small by nia. rewrite (wrap_small w (sh + 7)).
  2: { split; [lia|]. apply Z.lt_trans with w; [lia|]. apply Z.pow_gt_lin_r; lia. }
  replace (1 + lenZ (c :: t) - 1) with (lenZ (c :: t)) by lia. apply IH; [lia|rewrite lenZ_cons; lia|]. rewrite E7. nia.
Qed.
Lemma split_groups n : forall bs, byte_string bs ->
  (exists q b rest, bs = q ++ b :: rest /\ Forall continued q /\ 0 <= b < 128 /\ (length q < n)%nat) \/
  (Forall continued bs /\ (length bs <= n)%nat) \/
  (exists q rest, bs = q ++ rest /\ Forall continued q /\ length q = n /\ rest <> []).
Proof.
  induction n as [|n IH]; intros bs B.
  - destruct bs as [|b bs]; [right; left; split; [constructor|cbn; lia]|]. right; right. exists [], (b :: bs). split; [reflexivity|]. split; [constructor|]. split; [reflexivity|discriminate].
  - destruct bs as [|b bs]; [right; left; split; [constructor|cbn; lia]|]. inversion B as [|? ? B1 B2]; subst. unfold is_byte in B1. destruct (Z.lt_ge_cases b 128) as [LT|GE].
    + left. exists [], b, bs. split; [reflexivity|]. split; [constructor|]. split; [lia|cbn; lia].
    + assert (C : continued b) by (unfold continued; lia). destruct (IH bs B2) as [(q & c & rest & -> & F & R & L)|[[F L]|(q & rest & -> & F & L & NR)]].
      * left. exists (b :: q), c, rest. split; [reflexivity|]. split; [now constructor|]. split; [exact R|cbn; lia].
      * right; left. split; [now constructor|cbn; lia].
      * right; right. exists (b :: q), rest. split; [reflexivity|]. split; [now constructor|]. split; [cbn; lia|exact NR].
Qed.
Lemma varint_good w : w = 32 \/ w = 64 -> good (varint_case w) (deser_uint w).
Proof.
  intro W. assert (OW : okw w) by (destruct W; unfold okw; auto). pose proof (groups_max w W) as GM. intros bs B N. split.
  - destruct (split_groups (Z.to_nat (groups w)) bs B) as [(q & b & rest & E & F & R & L)|[[F L]|(q & rest & E & F & L & NR)]].
    + eexists. apply (vc_value w bs q b rest); auto. unfold lenZ. lia.
    + eexists. apply vc_cut; auto. unfold lenZ. assert (0 <= groups w) by (destruct W as [-> | ->]; cbv; discriminate). lia.
    + eexists. apply (vc_overlong w bs q rest); auto. unfold lenZ. assert (0 <= groups w) by (destruct W as [-> | ->]; cbv; discriminate). lia.
  - intros r [q b rest E F R L|F L|q rest E F L NR].
    + subst bs. split; [|exists (q ++ [b]); rewrite <- app_assoc; reflexivity]. unfold reads. replace (q ++ b :: rest) with ((q ++ [b]) ++ rest) by now rewrite <- app_assoc.
      pose proof (lenZ_nonneg rest). rewrite (varint_decodes w (q ++ [b]) _ rest (lenZ ((q ++ [b]) ++ rest)) OW (groups_varint q b F R)).
      * do 3 f_equal. rewrite (lenZ_app (q ++ [b])). lia.
      * rewrite lenZ_app. change (lenZ [b]) with 1. lia.
      * rewrite (lenZ_app (q ++ [b])). lia.
    + split; [|exact I]. unfold reads, deser_uint. cbn [r_size r_mem]. apply cut_loop; auto; [lia| |rewrite Z.pow_0_r; lia]. destruct W as [-> | ->]; [change (groups 32) with 5 in L|change (groups 64) with 10 in L]; lia.
    + split; [|exact I]. subst bs. destruct rest as [|y rest]; [congruence|]. unfold reads. apply overlong_ub; auto; [congruence|]. rewrite lenZ_app, lenZ_cons. pose proof (lenZ_nonneg rest). lia.
Qed.
Lemma unzigzag w u : 0 < w -> 0 <= u < 2 ^ w -> exists i, in_signed w i /\ zigzag i = u.
Proof.
  intros W U. pose proof (pow2_half w W). unfold in_signed, zigzag. destruct (Z.Even_or_Odd u) as [[k ->]|[k ->]].
  - exists k. split; [lia|]. destruct (Z.ltb_spec k 0); lia.
  - exists (- (k + 1)). split; [lia|]. destruct (Z.ltb_spec (- (k + 1)) 0); lia.
Qed.
Lemma varint_range w bs v rest : varint_case w bs (Ok (v, rest)) -> 0 <= v < 2 ^ w \/ w < 0.
Proof. intro C. inversion C; subst. destruct (Z.lt_ge_cases w 0); [now right|]. left. apply Z.mod_pos_bound. apply Z.pow_pos_nonneg; lia. Qed.
Lemma signed_good w : w = 32 \/ w = 64 -> good (signed_case w) (deser_sint w).
Proof.
  intro W. assert (OW : okw w) by (destruct W; unfold okw; auto). intros bs B N. destruct (varint_good w W bs B N) as [[r X] H]. split.
  - destruct r as [[v rest]|e|u]; [|eexists; apply ch_error; exact X|eexists; apply ch_undefined; exact X]. destruct (varint_range _ _ _ _ X) as [RG|]; [|destruct W; lia].
    destruct (unzigzag w v ltac:(destruct W; lia) RG) as (i & I & E). eexists. eapply ch_next; [exact X|]. exists i. auto.
  - intros r' [e Y|u Y|v rest r2 Y (i & I & E & ->)]; unfold reads, deser_sint; destruct (H _ Y) as [RD EN]; unfold reads in RD; rewrite RD; cbn [bind]; split; try exact I; try reflexivity.
    + f_equal. f_equal. rewrite <- E. now apply zigzag_decode_ok.
    + exact EN.
Qed.
(** ** Words, strings, blobs *)
Lemma word_good le n : okn n -> good (word_case n) (deser_fixed le n).
Proof.
  intros ON bs B N. split.
  - destruct (Z.lt_ge_cases (lenZ bs) (Z.of_nat n)) as [L|G]; [eexists; now apply wc_cut|]. rewrite <- (firstn_skipn n bs) in *. set (p := firstn n bs) in *. set (q := skipn n bs) in *.
    assert (LP : length p = n) by (unfold p, q in *; rewrite firstn_skipn in G; rewrite firstn_length; unfold lenZ in G; lia).
    assert (BP : Forall is_byte p) by (unfold byte_string in B; apply Forall_app in B; tauto).
    exists (Ok (le_value p, q)). apply wc_value; [f_equal; rewrite <- le_bytes_word, <- LP; symmetry; now apply le_bytes_value|]. pose proof (le_value_range p BP) as R. unfold lenZ in R. now rewrite LP in R.
  - intros r [x rest E X|L].
    + subst bs. split; [|now exists (word n x)]. pose proof (deser_fixed_decodes le n x ON X) as [D _]. unfold reads. pose proof (lenZ_nonneg rest). rewrite D.
      * do 3 f_equal. rewrite lenZ_app. lia.
      * rewrite lenZ_app. lia.
      * exact N.
    + split; [|exact I]. unfold reads, deser_fixed, peek_fixed. cbn [r_size]. destruct (Z.ltb_spec (lenZ bs) (Z.of_nat n)); [reflexivity|lia].
Qed.
Lemma skip_all sz bs : sz <= lenZ bs -> lenZ bs < 2 ^ 64 -> 0 <= sz -> advance sz (mkR bs (lenZ bs)) = Ok (mkR (skipn (Z.to_nat sz) bs) (lenZ (skipn (Z.to_nat sz) bs))).
Proof.
  intros L N P. rewrite <- (firstn_skipn (Z.to_nat sz) bs) at 1. assert (LF : lenZ (firstn (Z.to_nat sz) bs) = sz) by (unfold lenZ in *; rewrite firstn_length; lia).
  pose proof (advance_app (firstn (Z.to_nat sz) bs) (skipn (Z.to_nat sz) bs) (lenZ bs)) as A. rewrite LF in A. rewrite A by lia. do 2 f_equal. unfold lenZ in *. rewrite skipn_length. lia.
Qed.
Lemma string_none bs : ~ In 0 bs -> c_string bs = UB UBString.
Proof. induction bs as [|b bs IH]; intro N; [reflexivity|]. cbn [c_string]. destruct (Z.eqb_spec b 0) as [->|_]; [exfalso; apply N; now left|]. rewrite IH; [reflexivity|]. intro X. apply N. now right. Qed.
Lemma string_some s more : ~ In 0 s -> c_string (s ++ 0 :: more) = Ok s.
Proof. induction s as [|b s IH]; intro N; [reflexivity|]. cbn [app c_string]. destruct (Z.eqb_spec b 0) as [->|_]; [exfalso; apply N; now left|]. rewrite IH; [reflexivity|]. intro X. apply N. now right. Qed.
Lemma chars_good sz : 0 <= sz -> good (characters sz) (fun s1 => if r_size s1 <? sz then Err ERR_NOT_ENOUGH_DATA else do str <- c_string (r_mem s1); do s2 <- advance sz s1; Ok (str, s2)).
Proof.
  intros P bs B N. split.
  - destruct (Z.lt_ge_cases (lenZ bs) sz) as [L|G]; [eexists; now apply cs_cut|]. destruct (in_dec Z.eq_dec 0 bs) as [IN|NI]; [|eexists; now apply cs_unterminated].
    assert (X : exists s more, bs = s ++ 0 :: more /\ ~ In 0 s).
    { clear -IN. induction bs as [|b bs IH]; [destruct IN|]. destruct (Z.eq_dec b 0) as [->|NZ]; [exists [], bs; split; [reflexivity|intros []]|]. destruct IN as [->|IN]; [congruence|].
      destruct (IH IN) as (s & more & -> & NI). exists (b :: s), more. split; [reflexivity|]. intros [X|X]; [congruence|auto]. }
    destruct X as (s & more & E & NS). eexists. eapply cs_value; eauto.
  - intros r [L|L NI|s more L E NI]; unfold reads; cbn [r_size r_mem].
    + destruct (Z.ltb_spec (lenZ bs) sz); [|lia]. split; [reflexivity|exact I].
    + destruct (Z.ltb_spec (lenZ bs) sz); [lia|]. rewrite string_none by exact NI. split; [reflexivity|exact I].
    + destruct (Z.ltb_spec (lenZ bs) sz); [lia|]. rewrite skip_all by auto. rewrite E at 1. rewrite string_some by exact NI. cbn [bind]. split; [reflexivity|]. exists (firstn (Z.to_nat sz) bs). symmetry. apply firstn_skipn.
Qed.
Lemma peek_first n : forall bs, (n <= length bs)%nat -> peek_n n bs = Ok (firstn n bs).
Proof. induction n as [|n IH]; intros [|b bs] L; cbn in *; try reflexivity; try lia. rewrite IH by lia. reflexivity. Qed.
Lemma content_good e (de : rstate -> res (list Z * rstate)) sz : 0 <= sz ->
  match e with Ok _ => False | _ => True end ->
  (forall s, r_size s = lenZ (r_mem s) -> de s = if lenZ (r_mem s) <? sz then match e with Ok (a, rest) => Ok (a, mkR rest (lenZ rest)) | Err x => Err x | UB u => UB u end
                                               else do b <- peek_n (Z.to_nat sz) (r_mem s); do s2 <- advance sz s; Ok (b, s2)) -> good (content e sz) de.
Proof.
  intros P NE D bs B N. split.
  - destruct (Z.lt_ge_cases (lenZ bs) sz) as [L|G]; [eexists; now apply ct_cut|eexists; now apply ct_value].
  - intros r [L|L]; unfold reads; rewrite D by reflexivity; cbn [r_mem].
    + destruct (Z.ltb_spec (lenZ bs) sz); [|lia]. split; [reflexivity|]. destruct e as [[]|?|?]; [contradiction|exact I|exact I].
    + destruct (Z.ltb_spec (lenZ bs) sz); [lia|]. rewrite peek_first by (unfold lenZ in L; lia). cbn [bind]. rewrite skip_all by auto. cbn [bind]. split; [reflexivity|]. exists (firstn (Z.to_nat sz) bs). symmetry. apply firstn_skipn.
Qed.
(** the numbers that are read are not negative *)
Lemma chain_nat {B} w K (k : Z -> rstate -> res (B * rstate)) : w = 32 \/ w = 64 -> (forall a, 0 <= a -> good (K a) (k a)) -> good (chain (varint_case w) K) (fun s => do (a, s) <- deser_uint w s; k a s).
Proof.
  intros W G. apply (good_ext _ (fun s => do (a, s) <- deser_uint w s; if a <? 0 then Err 0 else k a s)).
  - intro s. destruct (deser_uint w s) as [[a s']|e|u] eqn:E; cbn [bind]; try reflexivity. destruct (Z.ltb_spec a 0) as [L|_]; [|reflexivity]. exfalso. revert L. clear -E W.
    assert (forall m n v sh, leb_deser_loop w v sh n m = Ok (a, s') -> 0 <= a).
    { induction m as [|y m IH]; intros n v sh X; cbn [leb_deser_loop] in X; destruct (n <? 1); try discriminate. destruct (c_shl w (Z.land y 127) sh) as [g|?|?]; cbn [bind] in X; try discriminate.
      destruct (Z.land y 128 =? 0); [|eapply IH; eauto]. injection X as <- _. unfold wrap. apply Z.mod_pos_bound. destruct W as [-> | ->]; reflexivity. }
    unfold deser_uint in E. apply H in E. lia.
  - intros bs BS N. pose proof (chain_good (varint_case w) (fun a rest r => if a <? 0 then r = Err 0 else K a rest r) (deser_uint w) (fun a s => if a <? 0 then Err 0 else k a s) (varint_good w W)) as CG.
    assert (X : forall a, good (fun rest r => if a <? 0 then r = Err 0 else K a rest r) (fun s => if a <? 0 then Err 0 else k a s)).
    { intro a. destruct (Z.ltb_spec a 0) as [L|GE]; [|now apply G]. intros b BB NB. split; [eexists; reflexivity|]. intros r ->. split; [reflexivity|exact I]. }
    specialize (CG X bs BS N). destruct CG as [[r Y] H]. assert (T : forall r, chain (varint_case w) K bs r -> chain (varint_case w) (fun a rest r => if a <? 0 then r = Err 0 else K a rest r) bs r).
    { intros r' [e Z0|u Z0|a rest r2 Z0 ZK]; [now apply ch_error|now apply ch_undefined|]. eapply ch_next; [exact Z0|]. destruct (varint_range _ _ _ _ Z0) as [RG|]; [|destruct W; lia]. destruct (Z.ltb_spec a 0); [lia|exact ZK]. }
    split; [|intros r' C; apply H, T, C]. destruct Y as [e Z0|u Z0|a rest r2 Z0 ZK]; [eexists; apply ch_error; exact Z0|eexists; apply ch_undefined; exact Z0|].
    destruct (varint_range _ _ _ _ Z0) as [RG|]; [|destruct W; lia]. destruct (Z.ltb_spec a 0); [lia|]. eexists. eapply ch_next; eauto.
Qed.
Lemma w32 : 32 = 32 \/ 32 = 64. Proof. auto. Qed.
Lemma w64 : 64 = 32 \/ 64 = 64. Proof. auto. Qed.
Lemma string_good : good string_case deser_string.
Proof. exact (chain_nat 64 _ _ w64 chars_good). Qed.
Lemma blob_good : good blob_case deser_blob.
Proof.
  refine (chain_nat 64 _ (fun sz s1 => if r_size s1 <? sz then Err ERR_NOT_ENOUGH_DATA else if lenZ (r_mem s1) <? sz then UB UBBounds else do b <- peek_n (Z.to_nat sz) (r_mem s1); do s2 <- advance sz s1; Ok (b, s2)) w64 _).
  intros a A. apply content_good; [exact A|exact I|]. intros s E. rewrite E. destruct (lenZ (r_mem s) <? a); reflexivity.
Qed.
Lemma user_data_good : good user_data_case deser_user_data.
Proof.
  refine (chain_nat 64 _ (fun sz s1 => if sz =? 0 then Ok ([], s1) else if lenZ (r_mem s1) <? sz then UB UBBounds else do b <- peek_n (Z.to_nat sz) (r_mem s1); do s2 <- advance sz s1; Ok (b, s2)) w64 _).
  intros a A bs B N. destruct (Z.eqb_spec a 0) as [->|NZ].
  - split; [eexists; apply ct_value; apply lenZ_nonneg|]. intros r [L|L]; [pose proof (lenZ_nonneg bs); lia|]. split; [reflexivity|]. now exists [].
  - revert bs B N. apply content_good; [exact A|exact I|]. intros s _. destruct (lenZ (r_mem s) <? a); reflexivity.
Qed.
(** ** Composed *)
Lemma bounds_good le t : good (bounds_case t) (fun s => if t =? NUM_FLOAT then do (l, s) <- deser_float le s; do (u, s) <- deser_float le s; Ok ((l, u), s) else do (l, s) <- deser_int s; do (u, s) <- deser_int s; Ok ((l, u), s)).
Proof.
  unfold bounds_case. destruct (t =? NUM_FLOAT).
  - refine (chain_good _ _ (deser_float le) _ (word_good le 8 okn8) _). intro l. refine (chain_good _ _ (deser_float le) _ (word_good le 8 okn8) _). intro u. apply (done_good (fun u => (l, u))).
  - refine (chain_good _ _ deser_int _ (signed_good 64 w64) _). intro l. refine (chain_good _ _ deser_int _ (signed_good 64 w64) _). intro u. apply (done_good (fun u => (l, u))).
Qed.
Lemma interval_good le : good interval_case (deser_interval le).
Proof.
  refine (chain_good _ _ deser_enum (fun t s => do (lu, s) <- _; do (li, s) <- deser_enum s; do (ui, s) <- deser_enum s; Ok (mkInterval t (fst lu) (snd lu) (z2b li) (z2b ui), s)) (varint_good 32 w32) _). intro t.
  refine (chain_good _ _ _ _ (bounds_good le t) _). intro lu. refine (chain_good _ _ deser_enum _ (varint_good 32 w32) _). intro li. refine (chain_good _ _ deser_enum _ (varint_good 32 w32) _). intro ui.
  apply (done_good (fun ui => mkInterval t (fst lu) (snd lu) (negb (li =? 0)) (negb (ui =? 0)))).
Qed.
Lemma payload_is (C : list Z -> res (datum * list Z) -> Prop) t de : good C de -> (forall bs r, payload t bs r <-> C bs r) -> good (payload t) de.
Proof. intros G E bs B N. destruct (G bs B N) as [[r X] H]. split; [exists r; now apply E|]. intros r' Y. apply H, E, Y. Qed.
Lemma datum_good le : good datum_case (deser_datum le).
Proof.
  refine (chain_nat 32 _ (fun t s =>
    if t =? TYPE_NONE then Ok (ccs_none, s) else if t =? TYPE_INACTIVE then Ok (ccs_inactive, s) else if t =? TYPE_INT then do (i, s) <- deser_int s; Ok (ccs_int i, s)
    else if t =? TYPE_FLOAT then do (f, s) <- deser_float le s; Ok (ccs_float f, s) else if t =? TYPE_BOOL then do (b, s) <- deser_enum s; Ok (ccs_bool b, s)
    else if t =? TYPE_STRING then do (str, s) <- deser_string s; Ok (mkDatum (VString (Some str)) (Z.lor FLAG_DEFAULT FLAG_TRANSIENT), s)
    else if t =? TYPE_OBJECT then do (h, s) <- deser_object s; Ok (mkDatum (VObject h) (Z.lor FLAG_DEFAULT FLAG_ID), s) else Err ERR_INVALID_TYPE) w32 _).
  intros t T. unfold TYPE_NONE, TYPE_INACTIVE, TYPE_INT, TYPE_FLOAT, TYPE_BOOL, TYPE_STRING, TYPE_OBJECT.
  assert (INV : forall bs r, payload t bs r -> (t = 0 /\ r = Ok (mkDatum VNone 0, bs)) \/ (t = 1 /\ chain (signed_case 64) (done (fun i => mkDatum (VInt i) 0)) bs r) \/
     (t = 2 /\ chain (word_case 8) (done (fun f => mkDatum (VFloat f) 0)) bs r) \/ (t = 3 /\ chain (varint_case 32) (done (fun b => mkDatum (VBool b) 0)) bs r) \/
     (t = 4 /\ chain string_case (done (fun s => mkDatum (VString (Some s)) FLAG_TRANSIENT)) bs r) \/ (t = 5 /\ r = Ok (mkDatum VInactive 0, bs)) \/
     (t = 6 /\ chain (varint_case 64) (done (fun h => mkDatum (VObject h) FLAG_ID)) bs r) \/ (~ 0 <= t <= 6 /\ r = Err ERR_INVALID_TYPE)) by (intros bs r [| | | | | | |]; tauto).
  destruct (Z.eqb_spec t 0) as [->|N0].
  { intros bs B N. split; [eexists; now apply pl_none|]. intros r P. apply INV in P. destruct P as [[_ ->]|P]; [|lia]. split; [reflexivity|now exists []]. }
  destruct (Z.eqb_spec t 5) as [->|N5].
  { intros bs B N. split; [eexists; now apply pl_inactive|]. intros r P. apply INV in P. assert (r = Ok (mkDatum VInactive 0, bs)) as -> by (intuition lia). split; [reflexivity|now exists []]. }
  destruct (Z.eqb_spec t 1) as [->|N1].
  { eapply payload_is; [refine (chain_good _ _ deser_int _ (signed_good 64 w64) _); intro i; apply (done_good (fun i => mkDatum (VInt i) 0))|]. intros bs r. split; [|now apply pl_int]. intro P. apply INV in P. intuition lia. }
  destruct (Z.eqb_spec t 2) as [->|N2].
  { eapply payload_is; [refine (chain_good _ _ (deser_float le) _ (word_good le 8 okn8) _); intro i; apply (done_good (fun i => mkDatum (VFloat i) 0))|]. intros bs r. split; [|now apply pl_float]. intro P. apply INV in P. intuition lia. }
  destruct (Z.eqb_spec t 3) as [->|N3].
  { eapply payload_is; [refine (chain_good _ _ deser_enum _ (varint_good 32 w32) _); intro i; apply (done_good (fun i => mkDatum (VBool i) 0))|]. intros bs r. split; [|now apply pl_bool]. intro P. apply INV in P. intuition lia. }
  destruct (Z.eqb_spec t 4) as [->|N4].
  { eapply payload_is; [refine (chain_good _ _ deser_string _ string_good _); intro i; apply (done_good (fun i => mkDatum (VString (Some i)) FLAG_TRANSIENT))|]. intros bs r. split; [|now apply pl_string]. intro P. apply INV in P. intuition lia. }
  destruct (Z.eqb_spec t 6) as [->|N6].
  { eapply payload_is; [refine (chain_good _ _ deser_object _ (varint_good 64 w64) _); intro i; apply (done_good (fun i => mkDatum (VObject i) FLAG_ID))|]. intros bs r. split; [|now apply pl_object]. intro P. apply INV in P. intuition lia. }
  intros bs B N. split; [eexists; apply pl_other; lia|]. intros r P. apply INV in P. assert (r = Err ERR_INVALID_TYPE) as -> by (intuition lia). split; [reflexivity|exact I].
Qed.
Lemma object_good : good object_case deser_object_internal.
Proof. refine (chain_good _ _ deser_enum _ (varint_good 32 w32) _). intro t. refine (chain_good _ _ deser_object _ (varint_good 64 w64) _). intro h. apply (done_good (fun h => (t, h))). Qed.
(** ** Headers *)
Lemma differ_iff a b : length a = length b -> (bytes_differ a b = true <-> a <> b).
Proof.
  revert b. induction a as [|x a IH]; intros [|y b] L; try discriminate; cbn [bytes_differ]; [split; [discriminate|congruence]|]. injection L as L. destruct (Z.eqb_spec x y) as [->|N].
  - rewrite (IH b L). split; congruence.
  - split; [congruence|reflexivity].
Qed.
Lemma tag_good : good tag_case (fun s => do (tag, s) <- deser_magic s; if bytes_differ tag magic_tag then Err ERR_INVALID_VALUE else Ok (tt, s)).
Proof.
  intros bs B N. assert (RD : forall tag rest, bs = tag ++ rest -> length tag = 4%nat -> deser_magic (mkR bs (lenZ bs)) = Ok (tag, mkR rest (lenZ rest))).
  { intros tag rest -> L. assert (LT : lenZ tag = 4) by (unfold lenZ; lia). pose proof (lenZ_nonneg rest). rewrite lenZ_app in *. unfold deser_magic. cbn [r_size r_mem]. destruct (Z.ltb_spec (lenZ tag + lenZ rest) 4); [lia|].
    rewrite (peek_n_app' 4 tag rest L). cbn [bind]. rewrite <- LT at 1. rewrite advance_app by lia. cbn [bind]. do 3 f_equal. lia. }
  split.
  - destruct (Z.lt_ge_cases (lenZ bs) 4) as [L|G]; [eexists; now apply tc_cut|]. assert (LF : length (firstn 4 bs) = 4%nat) by (unfold lenZ in G; rewrite firstn_length; lia).
    destruct (list_eq_dec Z.eq_dec (firstn 4 bs) [67; 67; 83; 0]) as [E|NE].
    + eexists. apply (tc_right bs (skipn 4 bs)). rewrite <- E. symmetry. apply firstn_skipn.
    + eexists. apply (tc_wrong bs (firstn 4 bs) (skipn 4 bs)); auto. symmetry. apply firstn_skipn.
  - intros r [L|tag rest E L NE|rest E]; unfold reads.
    + unfold deser_magic. cbn [r_size]. destruct (Z.ltb_spec (lenZ bs) 4); [|lia]. split; [reflexivity|exact I].
    + rewrite (RD tag rest E L). cbn [bind]. assert (D : bytes_differ tag magic_tag = true) by (apply differ_iff; [exact L|exact NE]). rewrite D. split; [reflexivity|exact I].
    + rewrite (RD [67; 67; 83; 0] rest E eq_refl). cbn [bind]. split; [reflexivity|]. now exists [67; 67; 83; 0].
Qed.
Lemma version_good size v : good (version_case size v) (fun s => if api_version <? v then Err ERR_INVALID_VALUE else Ok ((size, v), s)).
Proof.
  intros bs B N. unfold reads, api_version. split; [destruct (Z.lt_ge_cases 1 v); eexists; [now apply ve_unknown|now apply ve_known]|].
  intros r [L|L]; destruct (Z.ltb_spec 1 v); try lia; split; try reflexivity; try exact I. now exists [].
Qed.
Lemma header_good le : good header_case (deser_header le).
Proof.
  apply (good_ext _ (fun s => do (_, s) <- (do (tag, s) <- deser_magic s; if bytes_differ tag magic_tag then Err ERR_INVALID_VALUE else Ok (tt, s));
    do (sz, s) <- deser_u64raw le s; do (version, s) <- deser_uint 32 s; if api_version <? version then Err ERR_INVALID_VALUE else Ok ((sz, version), s))).
  - intro s. unfold deser_header. destruct (deser_magic s) as [[tag s']|e|u]; cbn [bind]; try reflexivity. destruct (bytes_differ tag magic_tag); reflexivity.
  - refine (chain_good _ _ _ _ tag_good _). intros _. refine (chain_good _ _ (deser_u64raw le) _ (word_good le 8 okn8) _). intro size. refine (chain_good _ _ (deser_uint 32) _ (varint_good 32 w32) _). intro v. apply version_good.
Qed.
(** ** Together *)
Lemma decoders_settled le :
  settled_by (varint_case 32) (deser_uint 32) /\ settled_by (varint_case 64) (deser_uint 64) /\ settled_by (signed_case 32) (deser_sint 32) /\ settled_by (signed_case 64) (deser_sint 64) /\
  settled_by (word_case 4) (deser_hash le) /\ settled_by (word_case 8) (deser_float le).
Proof.
  split; [|split; [|split; [|split; [|split]]]]; apply good_settled; [apply varint_good, w32|apply varint_good, w64|apply signed_good, w32|apply signed_good, w64|apply word_good; unfold okn; auto|apply word_good, okn8].
Qed.
Lemma strings_settled le : settled_by string_case deser_string /\ settled_by blob_case deser_blob /\ settled_by user_data_case deser_user_data /\ settled_by interval_case (deser_interval le) /\
  settled_by datum_case (deser_datum le) /\ settled_by object_case deser_object_internal /\ settled_by header_case (deser_header le).
Proof. split; [|split; [|split; [|split; [|split; [|split]]]]]; apply good_settled; auto using string_good, blob_good, user_data_good, interval_good, datum_good, object_good, header_good. Qed.
(** the object is read from what follows the header, whatever size was announced *)
Lemma frame_read A le (de : rstate -> res (A * rstate)) bs : byte_string bs -> lenZ bs < 2 ^ 64 ->
  (forall e, header_case bs (Err e) -> deserialize_memory le de bs (lenZ bs) = Err e) /\
  (forall size v rest, header_case bs (Ok ((size, v), rest)) -> deserialize_memory le de bs (lenZ bs) = (do (a, _) <- de (mkR rest (lenZ rest)); Ok a)).
Proof.
  intros B N. destruct (header_good le bs B N) as [_ H]. split.
  - intros e X. destruct (H _ X) as [RD _]. unfold reads in RD. unfold deserialize_memory. now rewrite RD.
  - intros size v rest X. destruct (H _ X) as [RD _]. unfold reads in RD. unfold deserialize_memory. now rewrite RD.
Qed.
Lemma announced_ignored A le (de : rstate -> res (A * rstate)) size size' rest n : in_unsigned 64 size -> in_unsigned 64 size' -> n < 2 ^ 64 -> n <= 12 + lenZ rest ->
  deserialize_memory le de ([67; 67; 83; 0] ++ word 8 size ++ rest) n = deserialize_memory le de ([67; 67; 83; 0] ++ word 8 size' ++ rest) n.
Proof.
  intros S S' N NR. pose proof (lenZ_nonneg rest). assert (P : forall sz, in_unsigned 64 sz ->
    deser_header le (mkR ([67; 67; 83; 0] ++ word 8 sz ++ rest) n) = if n <? 12 then Err ERR_NOT_ENOUGH_DATA else do (version, s) <- deser_uint 32 (mkR rest (n - 12)); if api_version <? version then Err ERR_INVALID_VALUE else Ok ((sz, version), s)).
  { intros sz SZ. unfold deser_header, deser_magic. cbn [r_size r_mem]. destruct (Z.ltb_spec n 4) as [L|G]; [destruct (Z.ltb_spec n 12); [reflexivity|lia]|].
    rewrite (peek_n_app' 4 [67; 67; 83; 0] _ eq_refl). cbn [bind]. change 4 with (lenZ [67; 67; 83; 0]) at 1. rewrite advance_app by (change (lenZ [67; 67; 83; 0]) with 4; lia). cbn [bind]. change (lenZ [67; 67; 83; 0]) with 4.
    change (bytes_differ [67; 67; 83; 0] magic_tag) with false. cbv iota. pose proof (deser_fixed_decodes le 8 sz okn8 SZ) as [D _]. pose proof (word_lenZ 8 sz) as WL. change (Z.of_nat 8) with 8 in WL. destruct (Z.ltb_spec n 12) as [L|GE].
    - unfold deser_u64raw, deser_fixed, peek_fixed. cbn [r_size]. change (Z.of_nat 8) with 8. destruct (Z.ltb_spec (n - 4) 8); [reflexivity|lia].
    - unfold deser_u64raw. rewrite D; [|rewrite lenZ_app, WL; lia|lia]. cbn [bind]. rewrite WL. replace (n - 4 - 8) with (n - 12) by lia. reflexivity. }
  unfold deserialize_memory. rewrite (P size S), (P size' S'). destruct (n <? 12); [reflexivity|]. destruct (deser_uint 32 (mkR rest (n - 12))) as [[v s]|e|u]; cbn [bind]; try reflexivity. destruct (api_version <? v); reflexivity.
Qed.
