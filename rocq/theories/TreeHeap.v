(** Lemmas on trees: numbers up to the sign of zeros, heaps, chains of parents. *)
From Coq Require Import ZArith List Bool Lia ZifyBool Arith Floats.SpecFloat.
From Verif Require Import Base Datum CodecModel FloatModel FloatSpec FloatProofs FloatRound FloatInt IntervalSpec DistModel DistSpec DistProofs DistRoulette CmpSpec TreeModel TreeSpec.
Import ListNotations.
Open Scope Z_scope.

(** ** Sums and products of the same numbers are the same numbers *)
Lemma same_refl a : same_num a a. Proof. reflexivity. Qed.
Lemma same_decode a b : same_num a b -> decode a = decode b \/ exists s s', decode a = S754_zero s /\ decode b = S754_zero s'.
Proof.
  unfold same_num, fkey. intro H. pose proof (f_mag_range a) as Ra. pose proof (f_mag_range b) as Rb.
  destruct (Z.ltb_spec (2047 * 2 ^ 52) (f_mag a)) as [A|A]; destruct (Z.ltb_spec (2047 * 2 ^ 52) (f_mag b)) as [B|B]; try discriminate.
  - left. destruct (decode_decoded a); try lia. destruct (decode_decoded b); try lia. reflexivity.
  - injection H as H. destruct (Z.eq_dec (f_mag a) 0) as [Z|Z].
    + right. assert (f_mag b = 0) by (destruct (f_sign a), (f_sign b); lia).
      destruct (decode_decoded a); try lia. destruct (decode_decoded b); try lia. eauto.
    + left. assert (S : f_sign a = f_sign b) by (destruct (f_sign a), (f_sign b); lia || reflexivity).
      assert (M : f_mag a = f_mag b) by (rewrite S in H; destruct (f_sign b); lia).
      unfold decode, f_exp, f_man. now rewrite S, M.
Qed.
Lemma zero_key s : fkey (encode (S754_zero s)) = Some 0. Proof. destruct s; reflexivity. Qed.
Lemma add_zeros_r x r r' : fkey (encode (SFadd PREC EMAX x (S754_zero r))) = fkey (encode (SFadd PREC EMAX x (S754_zero r'))).
Proof. destruct x as [[]| | |]; [destruct r, r'; reflexivity|destruct r, r'; reflexivity| | |]; reflexivity. Qed.
Lemma add_zeros_l x r r' : fkey (encode (SFadd PREC EMAX (S754_zero r) x)) = fkey (encode (SFadd PREC EMAX (S754_zero r') x)).
Proof. destruct x as [[]| | |]; [destruct r, r'; reflexivity|destruct r, r'; reflexivity| | |]; reflexivity. Qed.
Lemma mul_zeros_r x r r' : fkey (encode (SFmul PREC EMAX x (S754_zero r))) = fkey (encode (SFmul PREC EMAX x (S754_zero r'))).
Proof. destruct x as [b|b| |b m e]; [destruct b, r, r'; reflexivity|reflexivity|reflexivity|]. change (fkey (encode (S754_zero (xorb b r))) = fkey (encode (S754_zero (xorb b r')))). now rewrite !zero_key. Qed.
Lemma mul_zeros_l x r r' : fkey (encode (SFmul PREC EMAX (S754_zero r) x)) = fkey (encode (SFmul PREC EMAX (S754_zero r') x)).
Proof. destruct x as [b|b| |b m e]; [destruct b, r, r'; reflexivity|reflexivity|reflexivity|]. change (fkey (encode (S754_zero (xorb r b))) = fkey (encode (S754_zero (xorb r' b)))). now rewrite !zero_key. Qed.
Lemma same_add a a' b b' : same_num a a' -> same_num b b' -> same_num (fadd a b) (fadd a' b').
Proof.
  intros A B. unfold same_num, fadd.
  destruct (same_decode a a' A) as [->|(s & s' & -> & ->)]; destruct (same_decode b b' B) as [->|(r & r' & -> & ->)].
  - reflexivity.
  - apply add_zeros_r.
  - apply add_zeros_l.
  - etransitivity; [apply add_zeros_l|apply add_zeros_r].
Qed.
Lemma same_mul a a' b b' : same_num a a' -> same_num b b' -> same_num (fmul a b) (fmul a' b').
Proof.
  intros A B. unfold same_num, fmul.
  destruct (same_decode a a' A) as [->|(s & s' & -> & ->)]; destruct (same_decode b b' B) as [->|(r & r' & -> & ->)].
  - reflexivity.
  - apply mul_zeros_r.
  - apply mul_zeros_l.
  - etransitivity; [apply mul_zeros_l|apply mul_zeros_r].
Qed.
Lemma same_fold l l' : Forall2 same_num l l' -> forall s s', same_num s s' -> same_num (fold_left fadd l s) (fold_left fadd l' s').
Proof. induction 1; intros s s' S; cbn [fold_left]; [exact S|]. apply IHForall2. now apply same_add. Qed.

(** adding ones *)
Lemma add_one k : 0 <= k < 2 ^ 52 -> fadd (f_of_int k) ONE = f_of_int (k + 1).
Proof.
  intro K. destruct (f_of_int_exact k ltac:(lia)) as [F S]. destruct (f_of_int_exact (k + 1) ltac:(lia)) as [F' S'].
  destruct (f_of_int_exact 1 ltac:(lia)) as [F1 S1]. change (f_of_int 1) with ONE in *.
  assert (P : forall i, pattern (f_of_int i)) by (intro i; exact (proj1 (f_of_int_rounds i))).
  pose proof (fadd_rounds (f_of_int k) ONE (P k) (P 1) F F1) as R.
  pose proof (self_rounds (f_of_int (k + 1)) (P _) F') as R'.
  replace (scaled (f_of_int k) + scaled ONE) with (scaled (f_of_int (k + 1))) in R by (rewrite S, S1, S'; ring).
  assert (A : kle (fkey (fadd (f_of_int k) ONE)) (fkey (f_of_int (k + 1)))) by (refine (rounds_mono _ 1 _ _ 1 _ _ _ _ R R'); lia).
  assert (B : kle (fkey (f_of_int (k + 1))) (fkey (fadd (f_of_int k) ONE))) by (refine (rounds_mono _ 1 _ _ 1 _ _ _ _ R' R); lia).
  assert (N : same_num (fadd (f_of_int k) ONE) (f_of_int (k + 1))).
  { unfold same_num. destruct (fkey (fadd _ _)), (fkey (f_of_int (k + 1))); cbn in *; try contradiction. f_equal. lia. }
  assert (NZ : scaled (f_of_int (k + 1)) <> 0) by (rewrite S'; pose proof (Z.pow_pos_nonneg 2 1074); nia).
  destruct (same_decode _ _ N) as [D|(s & s' & D & D')].
  - rewrite <- (encode_decode (fadd _ _)), D; [apply encode_decode; [apply P|now apply finite_key]|exact (proj1 R)|].
    intro X. unfold same_num in N. rewrite X in N. now apply (finite_key _ F').
  - exfalso. destruct (decode_decoded (f_of_int (k + 1))); try discriminate. apply NZ. unfold scaled. rewrite H. now destruct (f_sign _).
Qed.
Lemma ones_total n : Z.of_nat n <= 2 ^ 52 -> total (repeat ONE n) = f_of_int (Z.of_nat n).
Proof.
  unfold total, psum. rewrite firstn_all. change 0 with (f_of_int 0). intro N.
  enough (G : forall k, 0 <= k -> k + Z.of_nat n <= 2 ^ 52 -> fold_left fadd (repeat ONE n) (f_of_int k) = f_of_int (k + Z.of_nat n)).
  { rewrite (G 0) by lia. reflexivity. }
  clear N. induction n as [|n IH]; intros k K N; cbn [repeat fold_left]; [now rewrite Z.add_0_r|].
  rewrite add_one by lia. rewrite IH by lia. f_equal. lia.
Qed.
Lemma sum_total l : sum_of l = total l.
Proof. unfold sum_of, total, psum. now rewrite firstn_all. Qed.

(** ** Arrays and heaps *)
Lemma set_nth_length {A} (l : list A) i x : length (set_nth l i x) = length l.
Proof. revert i; induction l as [|y l IH]; intros [|i]; cbn; auto. Qed.
Lemma set_nth_same {A} (l : list A) i x : (i < length l)%nat -> nth_error (set_nth l i x) i = Some x.
Proof. revert i; induction l as [|y l IH]; intros [|i] H; cbn in *; try lia; [reflexivity|]. apply IH. lia. Qed.
Lemma set_nth_other {A} (l : list A) i j x : i <> j -> nth_error (set_nth l i x) j = nth_error l j.
Proof. revert i j; induction l as [|y l IH]; intros [|i] [|j] H; cbn; auto; lia. Qed.
Lemma nth_nth_error {A} (l : list A) i d : nth i l d = match nth_error l i with Some x => x | None => d end.
Proof. revert i; induction l as [|y l IH]; intros [|i]; cbn; auto. Qed.
Lemma set_nth_nth {A} (l : list A) i j x d : (i < length l)%nat -> nth j (set_nth l i x) d = if Nat.eqb j i then x else nth j l d.
Proof.
  intro H. rewrite !nth_nth_error. destruct (Nat.eqb_spec j i) as [->|N].
  - now rewrite set_nth_same.
  - now rewrite set_nth_other by auto.
Qed.

Lemma read_node h t n : node_at h t = Some n -> read h t = Ok n.
Proof. unfold node_at, read. destruct (nth_error h t) as [[m|]|]; congruence. Qed.
Lemma node_len h t n : node_at h t = Some n -> (t < length h)%nat.
Proof. unfold node_at. intro H. apply nth_error_Some. destruct (nth_error h t); congruence. Qed.
Lemma node_write h t n x : (t < length h)%nat -> node_at (write h t n) x = if Nat.eqb x t then Some n else node_at h x.
Proof.
  intro L. unfold node_at, write. destruct (Nat.eqb_spec x t) as [->|N].
  - now rewrite set_nth_same.
  - now rewrite set_nth_other by auto.
Qed.
Lemma node_clear h t x : (t < length h)%nat -> node_at (set_nth h t None) x = if Nat.eqb x t then None else node_at h x.
Proof.
  intro L. unfold node_at. destruct (Nat.eqb_spec x t) as [->|N].
  - now rewrite set_nth_same.
  - now rewrite set_nth_other by auto.
Qed.
Lemma write_length h t n : length (write h t n) = length h. Proof. apply set_nth_length. Qed.
Lemma seen_node h t v : seen h t = Some v <-> exists n, node_at h t = Some n /\ v = view_of n.
Proof.
  unfold seen. destruct (node_at h t) as [n|]; cbn; split; intro H.
  - injection H as <-. eauto.
  - destruct H as (m & [= <-] & ->). reflexivity.
  - discriminate.
  - destruct H as (m & [=] & _).
Qed.
Lemma seen_write h t n x : (t < length h)%nat -> seen (write h t n) x = changed (seen h) t (Some (view_of n)) x.
Proof. intro L. unfold seen at 1, changed. rewrite node_write by auto. now destruct (Nat.eqb x t). Qed.
Lemma alive_node h t : alive h t <-> exists n, node_at h t = Some n.
Proof. unfold alive, seen. destruct (node_at h t) as [n|]; cbn; split; [eauto|congruence|congruence|intros (m & [=])]. Qed.
Lemma parent_view n p i : v_parent (view_of n) = Some (p, i) <-> n_parent n = Some p /\ n_index n = i.
Proof. cbn. destruct (n_parent n); split; intro H; [injection H as <- <-; auto|destruct H as [[= <-] <-]; auto|discriminate|destruct H as [[=] _]]. Qed.
Lemma parent_view_none n : v_parent (view_of n) = None <-> n_parent n = None.
Proof. cbn. destruct (n_parent n); split; congruence. Qed.

(** ** Chains of parents *)
Lemma rooted_fun h x d d' : rooted h x d -> rooted h x d' -> d = d'.
Proof.
  intro R. revert d'. induction R as [x v E P|x v p i d E P R IH]; intros d' R'; inversion R' as [y u E' P'|y u q j e E' P' R'']; subst.
  - reflexivity.
  - congruence.
  - congruence.
  - f_equal. apply IH. congruence.
Qed.
Lemma rooted_parent h x v p i d : rooted h x d -> seen h x = Some v -> v_parent v = Some (p, i) -> exists d', d = S d' /\ rooted h p d'.
Proof. intros R E P. inversion R as [y u E' P'|y u q j e E' P' R'']; subst; [congruence|]. exists e. split; [reflexivity|]. congruence. Qed.
Lemma rooted_len h x d : rooted h x d -> (d < length h)%nat.
Proof.
  intro R0. assert (C : exists l, NoDup l /\ length l = S d /\ Forall (fun y => (y < length h)%nat /\ exists e, rooted h y e /\ (e <= d)%nat) l).
  { induction R0 as [x v E P|x v p i d E P R IH].
    - exists [x]. split; [constructor; [intros []|constructor]|]. split; [reflexivity|]. constructor; [|constructor].
      apply seen_node in E as E'. destruct E' as (n & E' & _). split; [eapply node_len; eauto|]. exists 0%nat. split; [|lia].
      eapply rooted_top; eauto.
    - destruct IH as (l & N & L & F). exists (x :: l). split; [|split].
      + constructor; [|exact N]. intro I. rewrite Forall_forall in F. destruct (F x I) as (_ & e & Re & Le).
        pose proof (rooted_fun _ _ _ _ Re (rooted_step _ _ _ _ _ _ E P R)). lia.
      + cbn. lia.
      + constructor.
        * apply seen_node in E as E'. destruct E' as (n & En & _). split; [eapply node_len; eauto|]. exists (S d). split; [|lia]. eapply rooted_step; eauto.
        * eapply Forall_impl; [|exact F]. cbn. intros y (A & e & B & C). split; [exact A|]. exists e. split; [exact B|lia]. }
  destruct C as (l & N & L & F). assert (I : incl l (seq 0 (length h))).
  { intros y Y. rewrite Forall_forall in F. apply in_seq. pose proof (proj1 (F y Y)). lia. }
  pose proof (NoDup_incl_length N I) as Q. rewrite seq_length in Q. lia.
Qed.
(** chains only depend on parents *)
Definition same_parents (h h' : heap) : Prop := forall x, option_map v_parent (seen h x) = option_map v_parent (seen h' x).
Lemma rooted_same h h' x d : same_parents h h' -> rooted h x d -> rooted h' x d.
Proof.
  intros S R. induction R as [x v E P|x v p i d E P R IH]; specialize (S x); rewrite E in S; cbn in S;
    destruct (seen h' x) as [u|] eqn:E'; try discriminate; cbn in S; injection S as S.
  - eapply rooted_top; [exact E'|congruence].
  - eapply rooted_step; [exact E'|rewrite <- S; exact P|exact IH].
Qed.
