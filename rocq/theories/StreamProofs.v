From Coq Require Import ZArith List Bool Lia ZifyBool.
From Verif Require Import Base Datum CodecModel CodecSpec CodecProofs FrameModel FrameSpec FrameProofs StreamModel StreamSpec.
Import ListNotations.
Open Scope Z_scope.

Lemma transfers_cons : forall v l, transfers (v :: l) = (match v with EData _ => 1 | _ => 0 end) + transfers l.
Proof. intros v l. unfold transfers. cbn [filter]. destruct v; rewrite ?lenZ_cons; lia. Qed.
Lemma transfers_nil : transfers [] = 0.
Proof. reflexivity. Qed.
Lemma transfers_nonneg : forall l, 0 <= transfers l.
Proof. intros l. unfold transfers. apply lenZ_nonneg. Qed.
Lemma delays_nonneg : forall l, 0 <= delays l.
Proof. intros l. unfold delays. apply lenZ_nonneg. Qed.
Lemma delays_cons : forall v l, delays (v :: l) = (match v with EAgain => 1 | _ => 0 end) + delays l.
Proof. intros v l. unfold delays. cbn [filter]. destruct v; rewrite ?lenZ_cons; lia. Qed.
Lemma calm_cons : forall v l, calm (v :: l) -> v <> EFail /\ calm l.
Proof. intros v l C. split; [intros ->; apply C; now left|intros I; apply C; now right]. Qed.

(** What a loop that has returned has done. *)
Definition loop_done (nb : bool) (sched : list event) (stream got : list Z) (room todo : Z)
  (x : Z * list event * list Z * list Z * Z * Z) : Prop :=
  let '(c, sched1, stream1, got1, room1, todo1) := x in
  exists evs k, sched = evs ++ sched1 /\ 0 <= k <= todo /\ k <= lenZ stream /\
    stream1 = skipn (Z.to_nat k) stream /\ got1 = got ++ firstn (Z.to_nat k) stream /\ room1 = room - k /\ todo1 = todo - k /\
    ((c = CCS_RESULT_SUCCESS /\ k = todo /\ (0 < todo -> transfers sched <= transfers sched1 + k) /\ delays sched1 <= delays sched) \/
     (c = CCS_RESULT_AGAIN /\ nb = true /\ (0 < todo -> k < todo) /\ delays sched1 < delays sched /\
      (todo <= lenZ stream -> transfers sched <= transfers sched1 + k))).
Lemma skipn_plus : forall {A} (a b : nat) (l : list A), skipn a (skipn b l) = skipn (b + a) l.
Proof. intros A a b. induction b; intros l; cbn; auto. destruct l; [now rewrite skipn_nil|auto]. Qed.
Lemma firstn_plus : forall {A} (a b : nat) (l : list A), firstn (a + b) l = firstn a l ++ firstn b (skipn a l).
Proof. intros A a b. induction a; intros l; cbn; auto. destruct l; cbn; [now rewrite firstn_nil|now rewrite IHa]. Qed.
Lemma lenZ_skipn : forall {A} (k : Z) (l : list A), 0 <= k <= lenZ l -> lenZ (skipn (Z.to_nat k) l) = lenZ l - k.
Proof. intros A k l H. unfold lenZ in *. rewrite skipn_length. lia. Qed.
Lemma lenZ_firstn : forall {A} (k : Z) (l : list A), 0 <= k <= lenZ l -> lenZ (firstn (Z.to_nat k) l) = k.
Proof. intros A k l H. unfold lenZ in *. rewrite firstn_length. lia. Qed.

Lemma read_loop_done : forall nb sched stream got room todo, calm sched -> 0 <= todo <= room ->
  match read_loop nb sched stream got room todo with
  | Waits => todo <= lenZ stream -> transfers sched <= todo /\ (todo = 0 -> transfers sched = 0)
  | Undef _ => False
  | Done x => loop_done nb sched stream got room todo x
  end.
Proof.
  intros nb sched. induction sched as [|ev l IH]; intros stream got room todo C T; [cbn [read_loop]; rewrite transfers_nil; lia|].
  apply calm_cons in C as (Ne & C).
  assert (Quiet : (match ev with EIntr => True | EAgain => nb = false | _ => False end) ->
    match (if todo =? 0 then Done (CCS_RESULT_SUCCESS, l, stream, got, room, todo) else read_loop nb l stream got room todo) with
    | Waits => todo <= lenZ stream -> transfers (ev :: l) <= todo /\ (todo = 0 -> transfers (ev :: l) = 0)
    | Undef _ => False
    | Done x => loop_done nb (ev :: l) stream got room todo x
    end).
  { intros Q. assert (Tr : transfers (ev :: l) = transfers l) by (rewrite transfers_cons; destruct ev; try easy; lia).
    destruct (Z.eqb_spec todo 0) as [-> |N].
    - exists [ev], 0. pose proof (lenZ_nonneg stream). split; [reflexivity|]. split; [lia|]. split; [lia|]. split; [reflexivity|].
      split; [cbn; now rewrite app_nil_r|]. split; [lia|]. split; [lia|]. left. split; [reflexivity|]. split; [reflexivity|]. split; [lia|].
      rewrite delays_cons. destruct ev; lia.
    - specialize (IH stream got room todo C T). destruct (read_loop nb l stream got room todo) as [[[[[[c l1] s1] g1] r1] t1]| |].
      + destruct IH as (evs & k & -> & K1 & K2 & S1 & G1 & R1 & T1 & D). exists (ev :: evs), k. split; [reflexivity|]. do 6 (split; [assumption|]).
        rewrite Tr. assert (Dl : delays (evs ++ l1) <= delays (ev :: evs ++ l1)) by (rewrite (delays_cons ev); destruct ev; lia).
        destruct D as [(D1 & D2 & D3 & D4)|(D1 & D2 & D3 & D4 & D5)]; [left|right]; repeat split; auto; lia.
      + rewrite Tr. exact IH.
      + exact IH. }
  destruct ev as [k| | |].
  - clear Quiet. cbn [read_loop]. set (count := Z.min (Z.of_nat (S k)) (Z.min todo (lenZ stream))).
    pose proof (lenZ_nonneg stream) as Ln. assert (Cb : 0 <= count <= todo /\ count <= lenZ stream) by lia.
    destruct (Z.ltb_spec room count); [lia|]. destruct (Z.eqb_spec (todo - count) 0) as [E|N].
    + exists [EData k], count. split; [reflexivity|]. split; [lia|]. split; [lia|]. split; [reflexivity|]. split; [reflexivity|]. split; [reflexivity|]. split; [reflexivity|].
      left. split; [reflexivity|]. split; [lia|]. rewrite transfers_cons, delays_cons. split; lia.
    + specialize (IH (skipn (Z.to_nat count) stream) (got ++ firstn (Z.to_nat count) stream) (room - count) (todo - count) C ltac:(lia)).
      assert (Ls : lenZ (skipn (Z.to_nat count) stream) = lenZ stream - count) by (apply lenZ_skipn; lia).
      destruct (read_loop nb l _ _ _ _) as [[[[[[c l1] s1] g1] r1] t1]| |].
      * destruct IH as (evs & j & -> & K1 & K2 & S1 & G1 & R1 & T1 & D). exists (EData k :: evs), (count + j). rewrite Ls in *.
        split; [reflexivity|]. split; [lia|]. split; [lia|].
        assert (Zn : Z.to_nat (count + j) = (Z.to_nat count + Z.to_nat j)%nat) by lia. rewrite Zn.
        split; [now rewrite <- skipn_plus|]. split; [rewrite firstn_plus, app_assoc; exact G1|]. split; [lia|]. split; [lia|].
        rewrite transfers_cons, delays_cons. destruct D as [(D1 & D2 & D3 & D4)|(D1 & D2 & D3 & D4 & D5)]; [left|right].
        -- split; auto. split; [lia|]. split; [|lia]. intros P. assert (todo <= lenZ stream) by lia. lia.
        -- split; auto. split; auto. split; [lia|]. split; [lia|]. intros P. lia.
      * rewrite Ls in IH. intros P. rewrite transfers_cons. split; [|lia]. destruct IH as (I1 & I2); [lia|]. lia.
      * exact IH.
  - destruct nb; [|apply Quiet; reflexivity]. cbn [read_loop again]. exists [EAgain], 0. pose proof (lenZ_nonneg stream).
    split; [reflexivity|]. split; [lia|]. split; [lia|]. split; [reflexivity|]. split; [cbn; now rewrite app_nil_r|]. split; [lia|]. split; [lia|].
    right. split; [reflexivity|]. split; [reflexivity|]. split; [lia|]. rewrite delays_cons, transfers_cons. split; lia.
  - apply Quiet. exact I.
  - congruence.
Qed.

(** ** Positions *)

Definition extra (nb : bool) : Z := if nb then 40 else 0.
Lemma offset_eq : forall nb, offset nb = 13 + extra nb.
Proof. intros []; reflexivity. Qed.
Lemma header_size_eq : header_size = 13.
Proof. reflexivity. Qed.

Definition hpos (nb : bool) (fd : Z) (stream0 : list Z) (p : fdstate) (e : env) (k : Z) : Prop :=
  f_fd p = fd /\ f_base_size p = (if nb then 0 else 13) /\ 0 <= k < 13 /\ k <= lenZ stream0 /\
  f_got p = firstn (Z.to_nat k) stream0 /\ f_room p = 13 - k /\ f_todo p = 13 - k /\ e_stream e = skipn (Z.to_nat k) stream0.
Definition opos (nb : bool) (fd n : Z) (stream0 : list Z) (p : fdstate) (e : env) (k : Z) : Prop :=
  f_fd p = fd /\ f_base_size p = n + extra nb /\ 13 <= k <= n /\ k <= lenZ stream0 /\
  f_got p = firstn (Z.to_nat (k - 13)) (skipn 13 stream0) /\ f_room p = n - k /\ f_todo p = n - k /\
  e_stream e = skipn (Z.to_nat k) stream0.

Definition suffix (e e1 : env) : Prop := exists evs, e_sched e = evs ++ e_sched e1.
Lemma suffix_trans : forall a b c, suffix a b -> suffix b c -> suffix a c.
Proof. intros a b c (x & X) (y & Y). exists (x ++ y). rewrite <- app_assoc. congruence. Qed.
Lemma calm_suffix : forall e e1, suffix e e1 -> calm (e_sched e) -> calm (e_sched e1).
Proof. intros e e1 (x & X) C I. apply C. rewrite X. apply in_or_app. now right. Qed.

Section Reading.
Context {A : Type}.
Variable le : bool.
Variable body : rstate -> res (A * rstate).

Definition final (n : Z) (stream0 : list Z) (e : env) (r : run (@answer A)) : Prop :=
  n <= lenZ stream0 /\
  match body (mkR (firstn (Z.to_nat (n - 13)) (skipn 13 stream0)) (n - 13)) with
  | Ok (a, _) => exists e1, r = Done (CCS_RESULT_SUCCESS, Some a, None, e1) /\ e_stream e1 = skipn (Z.to_nat n) stream0 /\
                            e_blocks e1 = e_blocks e - 1 /\ suffix e e1
  | Err c => exists e1, r = Done (c, None, None, e1) /\ e_stream e1 = skipn (Z.to_nat n) stream0 /\
                        e_blocks e1 = e_blocks e - 1 /\ suffix e e1
  | UB u => r = Undef u
  end.
Definition outcome (nb : bool) (fd n : Z) (stream0 : list Z) (k : Z) (e : env) (r : run (@answer A)) : Prop :=
  (r = Waits /\ (n <= lenZ stream0 -> transfers (e_sched e) <= n - k)) \/
  (exists p1 e1 k1, nb = true /\ r = Done (CCS_RESULT_AGAIN, None, Some p1, e1) /\
     (hpos nb fd stream0 p1 e1 k1 \/ opos nb fd n stream0 p1 e1 k1) /\ k <= k1 /\ suffix e e1 /\
     delays (e_sched e1) < delays (e_sched e) /\
     (n <= lenZ stream0 -> transfers (e_sched e) <= transfers (e_sched e1) + (k1 - k)) /\
     e_mem e1 = [] /\ Forall (eq false) (e_moves e1) /\ e_blocks e1 = e_blocks e) \/
  final n stream0 e r.

Lemma read_object_ok : forall nb fd n stream0 p e k, opos nb fd n stream0 p e k -> calm (e_sched e) -> e_mem e = [] ->
  (nb = true -> Forall (eq false) (e_moves e)) -> n + extra nb < 2 ^ 64 ->
  outcome nb fd n stream0 k e (read_object body nb p e).
Proof.
  intros nb fd n stream0 p e k (P1 & P2 & P3 & P4 & P5 & P6 & P7 & P8) C M Mv N.
  unfold read_object, read. pose proof (read_loop_done nb (e_sched e) (e_stream e) (f_got p) (f_room p) (f_todo p) C ltac:(lia)) as R.
  assert (Ls : lenZ (e_stream e) = lenZ stream0 - k) by (rewrite P8; apply lenZ_skipn; lia).
  destruct (read_loop nb (e_sched e) (e_stream e) (f_got p) (f_room p) (f_todo p)) as [[[[[[c l1] s1] g1] r1] t1]| |]; [|left|contradiction].
  2: { split; auto. intros L. destruct R as (R1 & _); lia. }
  destruct R as (evs & j & Ev & J1 & J2 & S1 & G1 & R1 & T1 & D). rewrite P8, skipn_plus in S1.
  assert (Kj : Z.to_nat (k + j) = (Z.to_nat k + Z.to_nat j)%nat) by lia.
  assert (Gk : g1 = firstn (Z.to_nat (k + j - 13)) (skipn 13 stream0)).
  { rewrite G1, P5, P8. replace (Z.to_nat (k + j - 13)) with (Z.to_nat (k - 13) + Z.to_nat j)%nat by lia.
    rewrite firstn_plus, skipn_plus. do 3 f_equal. lia. }
  destruct D as [(-> & D2 & D3 & D4)|(-> & D2 & D3 & D4 & D5)]; right.
  - right. change (CCS_RESULT_SUCCESS <? CCS_RESULT_SUCCESS) with false. change (CCS_RESULT_SUCCESS =? CCS_RESULT_AGAIN) with false. cbv iota.
    cbn [f_got f_base_size]. split; [lia|]. rewrite Gk, P2, offset_eq. replace (k + j - 13) with (n - 13) by lia.
    assert (Ex : 0 <= extra nb) by (destruct nb; cbn; lia). rewrite wrap_small by lia. replace (n + extra nb - (13 + extra nb)) with (n - 13) by lia.
    destruct (body _) as [[a s]| |]; unfold stop; auto; eexists; (split; [reflexivity|]); unfold free, with_mem; cbn [e_stream e_blocks e_sched];
      (split; [rewrite S1, <- Kj; do 2 f_equal; lia|]); (split; [lia|]); exists evs; exact Ev.
  - left. change (CCS_RESULT_AGAIN <? CCS_RESULT_SUCCESS) with false. change (CCS_RESULT_AGAIN =? CCS_RESULT_AGAIN) with true. cbv iota.
    do 3 eexists. split; [auto|]. split; [reflexivity|]. cbn [e_sched e_stream e_mem e_moves e_blocks]. split.
    + right. unfold opos. cbn [f_fd f_base_size f_got f_room f_todo e_stream]. instantiate (1 := k + j). repeat split; auto; try lia. now rewrite S1, <- Kj.
    + split; [lia|]. split; [exists evs; exact Ev|]. split; [auto|]. split; [intros L; lia|]. auto.
Qed.

Lemma firstn_announced : forall n stream0, announces stream0 n -> firstn 13 stream0 = header_bytes n /\ 13 <= lenZ stream0.
Proof.
  intros n stream0 (_ & tl & ->). unfold header_bytes, magic_tag. assert (W : length (word 8 n) = 8%nat) by apply word_length.
  destruct (word 8 n) as [|b1 [|b2 [|b3 [|b4 [|b5 [|b6 [|b7 [|b8 [|]]]]]]]]]; try discriminate. cbn. split; auto.
  unfold lenZ. cbn [length]. lia.
Qed.
Lemma header_decoded : forall n stream0, announces stream0 n ->
  deser_header le (mkR (firstn 13 stream0) 13) = Ok ((n, 1), mkR [] 0).
Proof.
  intros n stream0 An. destruct (firstn_announced _ _ An) as (-> & _). destruct An as (U & _).
  destruct (deser_header_decodes le n U) as [D _]. specialize (D [] 13). rewrite app_nil_r, header_len in D. apply D; lia.
Qed.
Lemma memory_decoded : forall n stream0, announces stream0 n -> 13 <= n <= lenZ stream0 ->
  deserialize_memory le body (firstn (Z.to_nat n) stream0) n =
  (do (a, _) <- body (mkR (firstn (Z.to_nat (n - 13)) (skipn 13 stream0)) (n - 13)); Ok a).
Proof.
  intros n stream0 An L. unfold deserialize_memory. replace (Z.to_nat n) with (13 + Z.to_nat (n - 13))%nat by lia. rewrite firstn_plus.
  destruct (firstn_announced _ _ An) as (E & _). rewrite E. destruct An as (U & _). destruct (deser_header_decodes le n U) as [D _].
  rewrite D; [rewrite header_len; reflexivity| |lia]. rewrite lenZ_app, header_len. rewrite lenZ_firstn; [lia|].
  replace 13%nat with (Z.to_nat 13) by reflexivity. rewrite lenZ_skipn; lia.
Qed.
Lemma final_memory : forall n e e0 r, announces (e_stream e) n -> 13 <= n -> final n (e_stream e) e0 r -> suffix e e0 ->
  e_blocks e0 = e_blocks e + 1 -> as_memory le body n e r.
Proof.
  intros n e e0 r An L (Ln & F) S B. unfold as_memory. rewrite memory_decoded by auto.
  destruct (body _) as [[a s]| |]; cbn [bind]; auto; destruct F as (e1 & E1 & E2 & E3 & E4); exists e1; (split; [exact E1|]);
    (split; [exact E2|]); (split; [lia|]); eapply suffix_trans; eauto.
Qed.

Lemma read_header_ok : forall nb fd n stream0 p e k, announces stream0 n -> hpos nb fd stream0 p e k -> calm (e_sched e) -> e_mem e = [] ->
  (nb = true -> Forall (eq false) (e_moves e)) -> 13 <= n -> n + extra nb < 2 ^ 64 ->
  outcome nb fd n stream0 k e (read_header le body nb p e).
Proof.
  intros nb fd n stream0 p e k An (P1 & P2 & P3 & P4 & P5 & P6 & P7 & P8) C M Mv N1 N2.
  unfold read_header, read. pose proof (read_loop_done nb (e_sched e) (e_stream e) (f_got p) (f_room p) (f_todo p) C ltac:(lia)) as R.
  assert (Ls : lenZ (e_stream e) = lenZ stream0 - k) by (rewrite P8; apply lenZ_skipn; lia).
  destruct (firstn_announced _ _ An) as (_ & L13).
  destruct (read_loop nb (e_sched e) (e_stream e) (f_got p) (f_room p) (f_todo p)) as [[[[[[c l1] s1] g1] r1] t1]| |]; [|left|contradiction].
  2: { split; auto. intros L. destruct R as (R1 & _); lia. }
  destruct R as (evs & j & Ev & J1 & J2 & S1 & G1 & R1 & T1 & D). rewrite P8, skipn_plus in S1.
  assert (Kj : Z.to_nat (k + j) = (Z.to_nat k + Z.to_nat j)%nat) by lia.
  assert (Gk : g1 = firstn (Z.to_nat (k + j)) stream0) by (rewrite G1, P5, P8, Kj; now rewrite firstn_plus).
  destruct D as [(-> & D2 & D3 & D4)|(-> & D2 & D3 & D4 & D5)].
  - change (CCS_RESULT_SUCCESS <? CCS_RESULT_SUCCESS) with false. change (CCS_RESULT_SUCCESS =? CCS_RESULT_AGAIN) with false. cbv iota.
    cbn [f_got f_todo f_fd]. rewrite header_size_eq, wrap_small by lia. replace (t1 + 13) with 13 by lia.
    replace (k + j) with 13 in Gk by lia. change (Z.to_nat 13) with 13%nat in Gk. rewrite Gk. rewrite (header_decoded n stream0 An). cbv iota.
    assert (Bs : (if nb then wrap 64 (sizeof_state + n) else n) = n + extra nb).
    { destruct nb; cbn [extra] in *; [|lia]. rewrite wrap_small; unfold sizeof_state in *; lia. }
    rewrite Bs, offset_eq. assert (Ex : 0 <= extra nb) by (destruct nb; cbn; lia).
    destruct (Z.eqb_spec (n + extra nb) 0); [lia|].
    set (e1 := mkEnv s1 l1 (e_mem e) (e_moves e) (e_blocks e)).
    assert (Rl : exists moved e2, realloc e1 = (Some moved, e2) /\ (nb && moved)%bool = false /\ e_stream e2 = s1 /\ e_sched e2 = l1 /\ e_mem e2 = [] /\
              (nb = true -> Forall (eq false) (e_moves e2)) /\ e_blocks e2 = e_blocks e).
    { unfold realloc, e1. cbn [e_mem e_moves e_stream e_sched e_blocks]. rewrite M. destruct (e_moves e) as [|v vs] eqn:Em.
      - do 2 eexists. split; [reflexivity|]. cbn. split; [now destruct nb|]. repeat split; auto.
      - do 2 eexists. split; [reflexivity|]. cbn. split.
        + destruct nb; auto. specialize (Mv eq_refl). inversion Mv; subst; auto.
        + repeat split; auto. intros X. specialize (Mv X). now inversion Mv. }
    destruct Rl as (moved & e2 & -> & Mb & E1 & E2 & E3 & E4 & E5). rewrite Mb. destruct (Z.ltb_spec (n + extra nb) (13 + extra nb)); [lia|]. cbn [orb].
    rewrite wrap_small by lia. replace (n + extra nb - (13 + extra nb)) with (n - 13) by lia.
    assert (O : opos nb fd n stream0 (mkFd (f_fd p) (n + extra nb) [] (n - 13) (n - 13)) e2 13).
    { unfold opos. cbn [f_fd f_base_size f_got f_room f_todo]. repeat split; auto; try lia. rewrite E1, S1, <- Kj. do 2 f_equal. lia. }
    assert (Sf : suffix e e2) by (exists evs; rewrite E2; exact Ev).
    pose proof (read_object_ok nb fd n stream0 _ e2 13 O (calm_suffix _ _ Sf C) E3 E4 N2) as Out. specialize (D3 ltac:(lia)).
    destruct Out as [(W & T)|[(p1 & e3 & k1 & Q1 & Q2 & Q3 & Q4 & Q5 & Q6 & Q7 & Q8 & Q9 & Q10)|(F1 & F2)]].
    + left. split; auto. rewrite E2 in T. lia.
    + right. left. exists p1, e3, k1. rewrite E2 in *. split; auto. split; auto. split; auto. split; [lia|]. split; [eapply suffix_trans; eauto|]. split; [lia|].
      split; [intros L; specialize (Q7 L); lia|]. split; auto. split; auto. lia.
    + right. right. split; auto. destruct (body _) as [[a s]| |]; auto; destruct F2 as (e4 & F3 & F4 & F5 & F6); exists e4; (split; [exact F3|]);
        (split; [exact F4|]); (split; [lia|]); eapply suffix_trans; eauto.
  - right. left. change (CCS_RESULT_AGAIN <? CCS_RESULT_SUCCESS) with false. change (CCS_RESULT_AGAIN =? CCS_RESULT_AGAIN) with true. cbv iota.
    do 3 eexists. split; [auto|]. split; [reflexivity|]. cbn [e_sched e_stream e_mem e_moves e_blocks]. split.
    + left. unfold hpos. cbn [f_fd f_base_size f_got f_room f_todo e_stream]. instantiate (1 := k + j). repeat split; auto; try lia. now rewrite S1, <- Kj.
    + split; [lia|]. split; [exists evs; exact Ev|]. split; [auto|]. split; [intros L; lia|]. auto.
Qed.

Definition moved_none (nb : bool) (e : env) : Prop := nb = true -> Forall (eq false) (e_moves e).

(** ** Calls *)
Lemma start_ok : forall nb fd n e, announces (e_stream e) n -> calm (e_sched e) -> e_mem e = [] -> moved_none nb e -> 13 <= n -> n + extra nb < 2 ^ 64 ->
  exists e0, suffix e e0 /\ e_sched e0 = e_sched e /\ e_blocks e0 = e_blocks e + 1 /\
    outcome nb fd n (e_stream e) 0 e0 (deserialize_fd le body nb fd None e).
Proof.
  intros nb fd n e An C M Mv N1 N2. unfold deserialize_fd, malloc. rewrite M. eexists (with_mem e [] (e_blocks e + 1)).
  split; [exists []; reflexivity|]. split; [reflexivity|]. split; [reflexivity|].
  assert (R := read_header_ok nb fd n (e_stream e) (mkFd fd (if nb then 0 else header_size) [] header_size header_size) (with_mem e [] (e_blocks e + 1)) 0 An).
  destruct nb; apply R; auto; unfold hpos; cbn [f_fd f_base_size f_got f_room f_todo]; pose proof (lenZ_nonneg (e_stream e)); repeat split; auto; lia.
Qed.
Lemma blocking : forall fd n e, announces (e_stream e) n -> 13 <= n -> calm (e_sched e) -> e_mem e = [] ->
  let r := deserialize_fd le body false fd None e in
  (r = Waits /\ (n <= lenZ (e_stream e) -> transfers (e_sched e) <= n)) \/ (n <= lenZ (e_stream e) /\ as_memory le body n e r).
Proof.
  intros fd n e An N C M r. destruct (start_ok false fd n e An C M) as (e0 & S & Es & B & Out); auto; [discriminate|destruct An; cbn; lia|].
  fold r in Out. destruct Out as [(W & T)|[(p1 & e1 & k1 & Q & _)|F]]; [left|discriminate|right].
  - rewrite Es in T. split; auto. lia.
  - split; [apply F|]. eapply final_memory; eauto.
Qed.

Lemma resume_ok : forall fd n stream0 p e k, announces stream0 n -> hpos true fd stream0 p e k \/ opos true fd n stream0 p e k ->
  calm (e_sched e) -> e_mem e = [] -> Forall (eq false) (e_moves e) -> 13 <= n -> n + 40 < 2 ^ 64 ->
  outcome true fd n stream0 k e (deserialize_fd le body true fd (Some p) e).
Proof.
  intros fd n stream0 p e k An P C M Mv N1 N2. unfold deserialize_fd.
  assert (Fd : f_fd p = fd) by (destruct P as [P|P]; apply P). rewrite Fd, Z.eqb_refl. cbn [negb].
  destruct P as [P|P].
  - destruct P as (P1 & P2 & P3). rewrite P2. cbn [Z.eqb]. apply read_header_ok; auto. repeat split; auto; apply P3.
  - assert (B : f_base_size p = n + 40) by apply P. rewrite B. destruct (Z.eqb_spec (n + 40) 0); [lia|]. apply read_object_ok; auto.
Qed.
Lemma drive_ok : forall calls fd n e0 p e k, announces (e_stream e0) n ->
  hpos true fd (e_stream e0) p e k \/ opos true fd n (e_stream e0) p e k ->
  calm (e_sched e) -> e_mem e = [] -> Forall (eq false) (e_moves e) -> 13 <= n -> n + 40 < 2 ^ 64 -> suffix e0 e -> e_blocks e = e_blocks e0 + 1 ->
  (forall s c, body s = Err c -> c <> CCS_RESULT_AGAIN) ->
  let r := drive le body calls fd (Some p) e in
  (r = Waits /\ (n <= lenZ (e_stream e0) -> transfers (e_sched e) <= n - k \/ Z.of_nat calls <= delays (e_sched e))) \/ (n <= lenZ (e_stream e0) /\ as_memory le body n e0 r).
Proof.
  induction calls as [|calls IH]; intros fd n e0 p e k An P C M Mv N1 N2 S B Nb r.
  { left. split; auto. intros _. right. pose proof (delays_nonneg (e_sched e)). lia. }
  cbn [drive] in r. pose proof (resume_ok fd n _ p e k An P C M Mv N1 N2) as Out.
  destruct Out as [(W & T)|[(p1 & e1 & k1 & Q1 & Q2 & Q3 & Q4 & Q5 & Q6 & Q7 & Q8 & Q9 & Q10)|F]].
  - left. subst r. rewrite W. split; auto.
  - subst r. rewrite Q2. cbn [Z.eqb]. change (CCS_RESULT_AGAIN =? CCS_RESULT_AGAIN) with true. cbv iota.
    destruct (IH fd n e0 p1 e1 k1 An Q3 (calm_suffix _ _ Q5 C) Q8 Q9 N1 N2 (suffix_trans _ _ _ S Q5) ltac:(lia) Nb) as [(W & T)|Fin]; [left|now right].
    split; auto. intros L. destruct (T L) as [T1|T1]; [left; specialize (Q7 L); lia|right; lia].
  - right. pose proof F as F0. destruct F as (Ln & F). split; auto. assert (Am : as_memory le body n e0 (deserialize_fd le body true fd (Some p) e)) by (eapply final_memory; eauto).
    subst r. replace (match deserialize_fd le body true fd (Some p) e with
      | Done (c, x, st1, e1) => if c =? CCS_RESULT_AGAIN then drive le body calls fd st1 e1 else Done (c, x, st1, e1)
      | Waits => Waits | Undef u => Undef u end) with (deserialize_fd le body true fd (Some p) e); auto.
    destruct (body _) as [[a s]|c|u] eqn:Eb; [destruct F as (e1 & -> & _); reflexivity| |now rewrite F].
    destruct F as (e1 & -> & _). destruct (Z.eqb_spec c CCS_RESULT_AGAIN); auto. subst. now apply Nb in Eb.
Qed.
Lemma nonblocking : forall calls fd n e, announces (e_stream e) n -> 13 <= n -> n + 40 < 2 ^ 64 -> calm (e_sched e) -> e_mem e = [] ->
  Forall (eq false) (e_moves e) -> (forall s c, body s = Err c -> c <> CCS_RESULT_AGAIN) ->
  let r := drive le body calls fd None e in
  (r = Waits /\ (n <= lenZ (e_stream e) -> transfers (e_sched e) <= n \/ Z.of_nat calls <= delays (e_sched e))) \/
  (n <= lenZ (e_stream e) /\ as_memory le body n e r).
Proof.
  intros calls fd n e An N1 N2 C M Mv Nb r. destruct calls as [|calls].
  { left. split; auto. intros _. right. pose proof (delays_nonneg (e_sched e)). lia. }
  cbn [drive] in r. destruct (start_ok true fd n e An C M (fun _ => Mv) N1 N2) as (e0 & S & Es & B & Out).
  destruct Out as [(W & T)|[(p1 & e1 & k1 & Q1 & Q2 & Q3 & Q4 & Q5 & Q6 & Q7 & Q8 & Q9 & Q10)|F]].
  - left. subst r. rewrite W. rewrite Es in T. split; auto. intros L. left. specialize (T L). lia.
  - subst r. rewrite Q2. change (CCS_RESULT_AGAIN =? CCS_RESULT_AGAIN) with true. cbv iota.
    destruct (drive_ok calls fd n e p1 e1 k1 An Q3 (calm_suffix _ _ (suffix_trans _ _ _ S Q5) C) Q8 Q9 N1 N2 (suffix_trans _ _ _ S Q5) ltac:(lia) Nb) as [(W & T)|Fin]; [left|now right].
    rewrite Es in *. split; auto. intros L. destruct (T L) as [T1|T1]; [left; specialize (Q7 L); lia|right; lia].
  - right. pose proof F as F0. destruct F as (Ln & F). split; auto. assert (Am : as_memory le body n e (deserialize_fd le body true fd None e)) by (eapply final_memory; eauto).
    subst r. replace (match deserialize_fd le body true fd None e with
      | Done (c, x, st1, e1) => if c =? CCS_RESULT_AGAIN then drive le body calls fd st1 e1 else Done (c, x, st1, e1)
      | Waits => Waits | Undef u => Undef u end) with (deserialize_fd le body true fd None e); auto.
    destruct (body _) as [[a s]|c|u] eqn:Eb; [destruct F as (e1 & -> & _); reflexivity| |now rewrite F].
    destruct F as (e1 & -> & _). destruct (Z.eqb_spec c CCS_RESULT_AGAIN); auto. subst. now apply Nb in Eb.
Qed.
End Reading.
