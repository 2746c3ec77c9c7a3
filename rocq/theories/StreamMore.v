From Coq Require Import ZArith List Bool Lia ZifyBool.
From Verif Require Import Base Datum CodecModel CodecSpec CodecProofs FrameModel FrameSpec FrameProofs StreamModel StreamSpec StreamProofs.
Import ListNotations.
Open Scope Z_scope.

(** ** Codes *)
Lemma drop_ok : forall n m c, drop n m = Err c -> False.
Proof. induction n; intros m c E; cbn in E; [discriminate|]. destruct m; [discriminate|]. eauto. Qed.
Lemma peek_ok : forall n m c, peek_n n m = Err c -> False.
Proof.
  induction n; intros m c E; cbn [peek_n] in E; [discriminate|]. destruct m as [|b t]; [discriminate|].
  destruct (peek_n n t) eqn:P; cbn [bind] in E; try discriminate. eauto.
Qed.
Lemma advance_ok : forall n s c, advance n s = Err c -> False.
Proof.
  intros n s c E. unfold advance in E. destruct (lenZ (r_mem s) <? n); [discriminate|].
  destruct (drop (Z.to_nat n) (r_mem s)) eqn:D; cbn [bind] in E; try discriminate. eapply drop_ok; eauto.
Qed.
Lemma leb_code : forall w m v sh size c, leb_deser_loop w v sh size m = Err c -> c = ERR_NOT_ENOUGH_DATA.
Proof.
  intros w. induction m as [|y t IH]; intros v sh size c E; cbn [leb_deser_loop] in E.
  - destruct (size <? 1); congruence.
  - destruct (size <? 1); [congruence|]. destruct (c_shl w (Z.land y 127) sh) as [g|c1|] eqn:G; cbn [bind] in E; try discriminate.
    + destruct (Z.land y 128 =? 0); [discriminate|eauto].
    + unfold c_shl in G. destruct (w <? 32); [destruct (32 <=? sh); [discriminate|]; destruct (2 ^ 31 <=? Z.shiftl (Z.land y 127) sh); discriminate|].
      destruct (w <=? sh); discriminate.
Qed.
Lemma header_code : forall le s c, deser_header le s = Err c -> c < 0.
Proof.
  intros le s c E. unfold deser_header in E. destruct (deser_magic s) as [[tag s1]|c1|] eqn:M; cbn [bind] in E; try discriminate.
  - destruct (bytes_differ tag magic_tag); [injection E as <-; reflexivity|].
    destruct (deser_u64raw le s1) as [[sz s2]|c1|] eqn:U; cbn [bind] in E; try discriminate.
    + destruct (deser_uint 32 s2) as [[v s3]|c1|] eqn:V; cbn [bind] in E; try discriminate.
      * destruct (api_version <? v); [injection E as <-; reflexivity|discriminate].
      * injection E as <-. unfold deser_uint in V. apply leb_code in V. subst; reflexivity.
    + injection E as <-. unfold deser_u64raw, deser_fixed, peek_fixed in U. destruct (r_size s1 <? Z.of_nat 8); cbn [bind] in U; [injection U as <-; reflexivity|].
      destruct (peek_n 8 (r_mem s1)) eqn:P; cbn [bind] in U; try discriminate; [|exfalso; eapply peek_ok; eauto].
      destruct (advance (Z.of_nat 8) s1) eqn:Ad; cbn [bind] in U; try discriminate. exfalso; eapply advance_ok; eauto.
  - injection E as <-. unfold deser_magic in M. destruct (r_size s <? 4); [injection M as <-; reflexivity|].
    destruct (peek_n 4 (r_mem s)) eqn:P; cbn [bind] in M; try discriminate; [|exfalso; eapply peek_ok; eauto].
    destruct (advance 4 s) eqn:Ad; cbn [bind] in M; try discriminate. exfalso; eapply advance_ok; eauto.
Qed.

Lemma read_loop_code : forall nb sched stream got room todo c s1 st1 g1 r1 t1,
  read_loop nb sched stream got room todo = Done (c, s1, st1, g1, r1, t1) ->
  c = ERR_SYSTEM \/ c = CCS_RESULT_SUCCESS \/ (c = CCS_RESULT_AGAIN /\ nb = true).
Proof.
  intros nb sched. induction sched as [|ev l IH]; intros stream got room todo c s1 st1 g1 r1 t1 E; [discriminate|]. cbn [read_loop] in E.
  destruct ev as [k| | |].
  - cbv zeta in E. destruct (room <? _); [discriminate|]. destruct (_ =? 0); [injection E as <- _ _ _ _ _; auto|eauto].
  - cbn [again] in E. destruct nb; [injection E as <- _ _ _ _ _; auto|]. destruct (todo =? 0); [injection E as <- _ _ _ _ _; auto|eauto].
  - cbn [again] in E. destruct (todo =? 0); [injection E as <- _ _ _ _ _; auto|eauto].
  - injection E as <- _ _ _ _ _; auto.
Qed.
Lemma read_loop_ext : forall nb q sched stream got room todo,
  match read_loop nb sched stream got room todo with
  | Done (c, s1, st1, g1, r1, t1) => read_loop nb (sched ++ q) stream got room todo = Done (c, s1 ++ q, st1, g1, r1, t1)
  | Undef u => read_loop nb (sched ++ q) stream got room todo = Undef u
  | Waits => forall post, q = EFail :: post -> exists st1 g1 r1 t1, read_loop nb (sched ++ q) stream got room todo = Done (ERR_SYSTEM, post, st1, g1, r1, t1)
  end.
Proof.
  intros nb q sched. induction sched as [|ev l IH]; intros stream got room todo.
  - cbn [read_loop app]. intros post ->. cbn [read_loop]. eauto.
  - cbn [read_loop app]. destruct ev as [k| | |]; cbv zeta.
    + destruct (room <? _); [reflexivity|]. destruct (_ =? 0); [reflexivity|apply IH].
    + cbn [again]. destruct nb; [reflexivity|]. destruct (todo =? 0); [reflexivity|apply IH].
    + cbn [again]. destruct (todo =? 0); [reflexivity|apply IH].
    + reflexivity.
Qed.

Section Reading.
Context {A : Type}.
Variable le : bool.
Variable body : rstate -> res (A * rstate).

(** ** Memory and codes of every call *)
Definition proper (nb : bool) (b : Z) (x : Z * option A * option fdstate * env) : Prop :=
  let '(c, a, st1, e1) := x in
  e_blocks e1 - held st1 = b /\
  ((c = CCS_RESULT_SUCCESS /\ a <> None /\ st1 = None) \/
   (c = CCS_RESULT_AGAIN /\ nb = true /\ a = None /\ st1 <> None) \/
   (c < 0 /\ a = None /\ st1 = None)).
Lemma read_code : forall nb p e c p1 e1, read nb p e = Done (c, p1, e1) ->
  (c = ERR_SYSTEM \/ c = CCS_RESULT_SUCCESS \/ (c = CCS_RESULT_AGAIN /\ nb = true)) /\ e_blocks e1 = e_blocks e.
Proof.
  intros nb p e c p1 e1 E. unfold read in E. destruct (read_loop _ _ _ _ _ _) as [[[[[[c0 s1] st1] g1] r1] t1]| |] eqn:L; try discriminate.
  injection E as <- <- <-. split; [eapply read_loop_code; eauto|reflexivity].
Qed.
Hypothesis negative : forall s c, body s = Err c -> c < 0.
Lemma read_object_proper : forall nb p e x, read_object body nb p e = Done x -> proper nb (e_blocks e - 1) x.
Proof.
  intros nb p e x E. unfold read_object in E. destruct (read nb p e) as [[[c p1] e1]| |] eqn:R; try discriminate.
  destruct (read_code _ _ _ _ _ _ R) as (Cd & B). destruct Cd as [-> |[-> |(-> & Nb)]].
  - change (ERR_SYSTEM <? CCS_RESULT_SUCCESS) with true in E. cbv iota in E. injection E as <-. cbn. split; [lia|]. right. right. auto. repeat split; auto.
  - change (CCS_RESULT_SUCCESS <? CCS_RESULT_SUCCESS) with false in E. change (CCS_RESULT_SUCCESS =? CCS_RESULT_AGAIN) with false in E. cbv iota in E.
    destruct (body _) as [[a s]|c|] eqn:Bd; try discriminate; injection E as <-; cbn; split; try lia.
    + left. repeat split; auto; discriminate.
    + right. right. apply negative in Bd. auto.
  - change (CCS_RESULT_AGAIN <? CCS_RESULT_SUCCESS) with false in E. change (CCS_RESULT_AGAIN =? CCS_RESULT_AGAIN) with true in E. cbv iota in E.
    injection E as <-. cbn. split; [lia|]. right. left. repeat split; auto; discriminate.
Qed.
Lemma read_header_proper : forall nb p e x, read_header le body nb p e = Done x -> proper nb (e_blocks e - 1) x.
Proof.
  intros nb p e x E. unfold read_header in E. destruct (read nb p e) as [[[c p1] e1]| |] eqn:R; try discriminate.
  destruct (read_code _ _ _ _ _ _ R) as (Cd & B). destruct Cd as [-> |[-> |(-> & Nb)]].
  - change (ERR_SYSTEM <? CCS_RESULT_SUCCESS) with true in E. cbv iota in E. injection E as <-. cbn. split; [lia|]. right. right. repeat split; auto.
  - change (CCS_RESULT_SUCCESS <? CCS_RESULT_SUCCESS) with false in E. change (CCS_RESULT_SUCCESS =? CCS_RESULT_AGAIN) with false in E. cbv iota in E.
    destruct (deser_header le _) as [[[size v] s]|c|] eqn:Bd; try discriminate.
    + cbv zeta in E. destruct (_ =? 0); [discriminate|]. destruct (realloc e1) as [[moved|] e2] eqn:Re.
      * assert (B2 : e_blocks e2 = e_blocks e1).
        { unfold realloc in Re. destruct (e_mem e1) as [|[] m]; try discriminate; destruct (e_moves e1); injection Re as _ <-; reflexivity. }
        destruct (_ || _)%bool; [discriminate|]. apply read_object_proper in E. rewrite B2, B in E. exact E.
      * assert (B2 : e_blocks e2 = e_blocks e1).
        { unfold realloc in Re. destruct (e_mem e1) as [|[] m]; try destruct (e_moves e1); try discriminate; injection Re as <-; reflexivity. }
        injection E as <-. cbn. split; [lia|]. right. right. repeat split; auto.
    + injection E as <-. cbn. split; [lia|]. right. right. apply header_code in Bd. auto.
  - change (CCS_RESULT_AGAIN <? CCS_RESULT_SUCCESS) with false in E. change (CCS_RESULT_AGAIN =? CCS_RESULT_AGAIN) with true in E. cbv iota in E.
    injection E as <-. cbn. split; [lia|]. right. left. repeat split; auto; discriminate.
Qed.
Lemma call_proper : forall nb fd st e x, deserialize_fd le body nb fd st e = Done x -> (nb = false -> st = None) ->
  (exists p, nb = true /\ st = Some p /\ f_fd p <> fd /\ x = (ERR_INVALID_VALUE, None, st, e)) \/ proper nb (e_blocks e - held st) x.
Proof.
  intros nb fd st e x E N. assert (Start : forall x, match malloc e with (false, e1) => Done (ERR_OUT_OF_MEMORY, None, None, e1) | (true, e1) =>
        read_header le body nb (mkFd fd (if nb then 0 else header_size) [] header_size header_size) e1 end = Done x -> proper nb (e_blocks e) x).
  { clear x E. intros x E. unfold malloc in E. destruct (e_mem e) as [|[] m].
    - apply read_header_proper in E. cbn [with_mem e_blocks] in E. replace (e_blocks e) with (e_blocks e + 1 - 1) by lia. exact E.
    - apply read_header_proper in E. cbn [with_mem e_blocks] in E. replace (e_blocks e) with (e_blocks e + 1 - 1) by lia. exact E.
    - injection E as <-. cbn. split; [lia|]. right. right. repeat split; auto. }
  unfold deserialize_fd in E. destruct nb.
  - destruct st as [p|].
    + destruct (Z.eqb_spec (f_fd p) fd) as [Fd|Fd]; cbn [negb] in E.
      * right. cbn [held]. destruct (f_base_size p =? 0); [now apply read_header_proper in E|now apply read_object_proper in E].
      * left. exists p. injection E as <-. auto.
    + right. cbn [held]. rewrite Z.sub_0_r. now apply Start.
  - rewrite (N eq_refl) in *. right. cbn [held]. rewrite Z.sub_0_r. now apply Start.
Qed.

End Reading.

(** ** Failures *)
Section Failing.
Context {A : Type}.
Variable le : bool.
Variable body : rstate -> res (A * rstate).
Definition with_sched (e : env) (l : list event) : env := mkEnv (e_stream e) l (e_mem e) (e_moves e) (e_blocks e).
Lemma read_ext : forall nb p e q,
  match read nb p e with
  | Done (c, p1, e1) => read nb p (with_sched e (e_sched e ++ q)) = Done (c, p1, with_sched e1 (e_sched e1 ++ q))
  | Undef u => read nb p (with_sched e (e_sched e ++ q)) = Undef u
  | Waits => forall post, q = EFail :: post ->
      exists p1 e1, read nb p (with_sched e (e_sched e ++ q)) = Done (ERR_SYSTEM, p1, e1) /\ e_sched e1 = post
  end.
Proof.
  intros nb p e q. unfold read. cbn [with_sched e_sched e_stream e_mem e_moves e_blocks].
  pose proof (read_loop_ext nb q (e_sched e) (e_stream e) (f_got p) (f_room p) (f_todo p)) as L.
  destruct (read_loop nb (e_sched e) _ _ _ _) as [[[[[[c s1] st1] g1] r1] t1]| |].
  - rewrite L. reflexivity.
  - intros post Q. destruct (L post Q) as (st1 & g1 & r1 & t1 & ->). do 2 eexists. split; reflexivity.
  - now rewrite L.
Qed.
Lemma object_fails : forall nb p e post, read_object body nb p e = Waits ->
  exists e1, read_object body nb p (with_sched e (e_sched e ++ EFail :: post)) = Done (ERR_SYSTEM, None, None, e1) /\ e_sched e1 = post.
Proof.
  intros nb p e post W. unfold read_object in *. pose proof (read_ext nb p e (EFail :: post)) as R.
  destruct (read nb p e) as [[[c p1] e1]| |]; [|destruct (R post eq_refl) as (p1 & e1 & -> & <-)|discriminate].
  - destruct (c <? CCS_RESULT_SUCCESS); [discriminate|]. destruct (c =? CCS_RESULT_AGAIN); [discriminate|]. destruct (body _) as [[]| |]; discriminate.
  - eexists. split; reflexivity.
Qed.
Lemma header_fails : forall nb p e post, read_header le body nb p e = Waits ->
  exists e1, read_header le body nb p (with_sched e (e_sched e ++ EFail :: post)) = Done (ERR_SYSTEM, None, None, e1) /\ e_sched e1 = post.
Proof.
  intros nb p e post W. unfold read_header in *. pose proof (read_ext nb p e (EFail :: post)) as R.
  destruct (read nb p e) as [[[c p1] e1]| |]; [|destruct (R post eq_refl) as (p1 & e1 & -> & <-)|discriminate].
  - destruct (c <? CCS_RESULT_SUCCESS) eqn:C1; [discriminate|]. destruct (c =? CCS_RESULT_AGAIN) eqn:C2; [discriminate|]. rewrite R, C1, C2.
    destruct (deser_header le _) as [[[size v] s]|c0|]; try discriminate. cbv zeta in *. destruct (_ =? 0); [discriminate|].
    assert (Re : realloc (with_sched e1 (e_sched e1 ++ EFail :: post)) = (fst (realloc e1), with_sched (snd (realloc e1)) (e_sched (snd (realloc e1)) ++ EFail :: post))).
    { unfold realloc. cbn [with_sched e_mem e_moves e_stream e_sched e_blocks]. destruct (e_mem e1) as [|[] m]; try reflexivity; destruct (e_moves e1); reflexivity. }
    rewrite Re. destruct (realloc e1) as [[moved|] e2]; [|discriminate]. cbn [fst snd]. destruct (_ || _)%bool; [discriminate|]. now apply object_fails.
  - eexists. split; reflexivity.
Qed.
Lemma call_fails : forall nb fd st e post, deserialize_fd le body nb fd st e = Waits ->
  exists e1, deserialize_fd le body nb fd st (with_sched e (e_sched e ++ EFail :: post)) = Done (ERR_SYSTEM, None, None, e1) /\ e_sched e1 = post.
Proof.
  intros nb fd st e post W.
  assert (Start : match malloc e with (false, e1) => Done (ERR_OUT_OF_MEMORY, None, None, e1) | (true, e1) =>
        read_header le body nb (mkFd fd (if nb then 0 else header_size) [] header_size header_size) e1 end = Waits ->
      exists e1, (match malloc (with_sched e (e_sched e ++ EFail :: post)) with (false, e1) => Done (ERR_OUT_OF_MEMORY, None, None, e1) | (true, e1) =>
        read_header le body nb (mkFd fd (if nb then 0 else header_size) [] header_size header_size) e1 end) = Done (ERR_SYSTEM, None, None, e1) /\ e_sched e1 = post).
  { clear W. intros W. unfold malloc in *. cbn [with_sched e_mem e_moves e_stream e_sched e_blocks]. destruct (e_mem e) as [|[] m]; try discriminate;
      apply header_fails with (post := post) in W; exact W. }
  unfold deserialize_fd in *. destruct nb.
  - destruct st as [p|]; [|now apply Start]. destruct (f_fd p =? fd); cbn [negb] in *; [|discriminate].
    destruct (f_base_size p =? 0); [now apply header_fails|now apply object_fails].
  - now apply Start.
Qed.

(** ** Short streams and bad headers *)
Lemma header_read : forall fd e, calm (e_sched e) -> e_mem e = [] ->
  let r := deserialize_fd le body false fd None e in
  (r = Waits /\ (13 <= lenZ (e_stream e) -> transfers (e_sched e) <= 13)) \/
  (13 <= lenZ (e_stream e) /\ exists e1, e_stream e1 = skipn 13 (e_stream e) /\ e_blocks e1 = e_blocks e + 1 /\ e_mem e1 = [] /\ suffix e e1 /\
   r = match deser_header le (mkR (firstn 13 (e_stream e)) 13) with
       | Err c => stop c None e1
       | UB u => Undef u
       | Ok ((size, _), _) =>
           if size =? 0 then Undef UBBounds else
           match realloc e1 with
           | (None, e2) => stop ERR_OUT_OF_MEMORY None e2
           | (Some moved, e2) => if size <? 13 then Undef UBBounds
                                 else read_object body false (mkFd fd size [] (size - 13) (wrap 64 (size - 13))) e2
           end
       end).
Proof.
  intros fd e C M. cbv zeta. unfold deserialize_fd, malloc. rewrite M. unfold read_header, read.
  set (e0 := with_mem e [] (e_blocks e + 1)) in *.
  pose proof (read_loop_done false (e_sched e0) (e_stream e0) [] 13 13 C ltac:(lia)) as R.
  cbn [f_got f_room f_todo f_fd f_base_size]. rewrite header_size_eq.
  destruct (read_loop false (e_sched e0) (e_stream e0) [] 13 13) as [[[[[[c l1] s1] g1] r1] t1]| |]; [|left|contradiction].
  2: { split; auto. intros L. apply R. exact L. }
  destruct R as (evs & j & Ev & J1 & J2 & S1 & G1 & R1 & T1 & D). destruct D as [(-> & D2 & D3 & D4)|(_ & D2 & _)]; [right|discriminate].
  subst j. change (e_stream e0) with (e_stream e) in *. split; auto.
  exists (mkEnv s1 l1 (e_mem e0) (e_moves e0) (e_blocks e0)). split; [exact S1|]. split; [reflexivity|]. split; [reflexivity|].
  split; [exists evs; exact Ev|]. change (CCS_RESULT_SUCCESS <? CCS_RESULT_SUCCESS) with false. change (CCS_RESULT_SUCCESS =? CCS_RESULT_AGAIN) with false. cbv iota.
  rewrite T1, G1. cbn [app f_got]. change (wrap 64 (13 - 13 + 13)) with 13. change (Z.to_nat 13) with 13%nat.
  destruct (deser_header le _) as [[[size v] s]|c0|]; auto.
Qed.
Lemma short_waits : forall fd e, calm (e_sched e) -> e_mem e = [] -> lenZ (e_stream e) < 13 -> deserialize_fd le body false fd None e = Waits.
Proof. intros fd e C M L. destruct (header_read fd e C M) as [(W & _)|(X & _)]; [exact W|lia]. Qed.
Lemma cut_waits : forall fd n e, announces (e_stream e) n -> 13 <= n -> lenZ (e_stream e) < n -> calm (e_sched e) -> e_mem e = [] ->
  deserialize_fd le body false fd None e = Waits.
Proof. intros fd n e An N L C M. destruct (blocking le body fd n e An N C M) as [(W & _)|(X & _)]; [exact W|lia]. Qed.
Lemma bad_header : forall fd e c, calm (e_sched e) -> e_mem e = [] -> 13 <= lenZ (e_stream e) ->
  deser_header le (mkR (firstn 13 (e_stream e)) 13) = Err c ->
  let r := deserialize_fd le body false fd None e in
  (r = Waits /\ transfers (e_sched e) <= 13) \/ (exists e1, r = Done (c, None, None, e1) /\ used 13 e e1).
Proof.
  intros fd e c C M L H r. destruct (header_read fd e C M) as [(W & T)|(_ & e1 & S & B & Me & Sf & R)]; [left; auto|right].
  rewrite H in R. fold r in R. unfold stop in R. exists (free e1). split; auto. split; [exact S|]. split; [cbn; lia|exact Sf].
Qed.
Lemma small_size : forall fd n e, announces (e_stream e) n -> n < 13 -> calm (e_sched e) -> e_mem e = [] -> 13 < transfers (e_sched e) ->
  deserialize_fd le body false fd None e = Undef UBBounds.
Proof.
  intros fd n e An N C M T. destruct (firstn_announced _ _ An) as (_ & L). destruct (header_read fd e C M) as [(W & X)|(_ & e1 & S & B & Me & Sf & R)]; [lia|].
  rewrite R, (header_decoded le n _ An). destruct (n =? 0); auto. unfold realloc. rewrite Me. destruct (e_moves e1); destruct (Z.ltb_spec n 13); auto; lia.
Qed.
End Failing.

(** ** Writing *)
Lemma write_loop_done : forall sched out buf, calm sched ->
  match write_loop false sched out buf with
  | Waits => transfers sched <= lenZ buf /\ (buf <> [] -> transfers sched < lenZ buf)
  | Undef _ => False
  | Done (c, l1, out1, buf1) => c = CCS_RESULT_SUCCESS /\ out1 = out ++ buf /\ exists evs, sched = evs ++ l1
  end.
Proof.
  induction sched as [|ev l IH]; intros out buf C.
  { cbn [write_loop]. rewrite transfers_nil. pose proof (lenZ_nonneg buf). split; auto. intros N. destruct buf; [congruence|]. rewrite lenZ_cons. pose proof (lenZ_nonneg buf). lia. }
  apply calm_cons in C as (Ne & C). cbn [write_loop].
  assert (Quiet : (match ev with EIntr | EAgain => True | _ => False end) ->
    match (match buf with [] => Done (CCS_RESULT_SUCCESS, l, out, buf) | _ => write_loop false l out buf end) with
    | Waits => transfers (ev :: l) <= lenZ buf /\ (buf <> [] -> transfers (ev :: l) < lenZ buf)
    | Undef _ => False
    | Done (c, l1, out1, buf1) => c = CCS_RESULT_SUCCESS /\ out1 = out ++ buf /\ exists evs, ev :: l = evs ++ l1
    end).
  { intros Q. rewrite transfers_cons. destruct buf as [|b t]; [rewrite app_nil_r; repeat split; auto; now exists [ev]|].
    specialize (IH out (b :: t) C). destruct (write_loop false l out (b :: t)) as [[[[c l1] o1] b1]| |]; auto.
    - destruct IH as (-> & -> & evs & ->). repeat split; auto. now exists (ev :: evs).
    - destruct ev; try easy; lia. }
  destruct ev as [k| | |]; [|apply Quiet; exact I|apply Quiet; exact I|congruence].
  clear Quiet. cbv zeta. pose proof (firstn_skipn (S k) buf) as Fs.
  destruct (skipn (S k) buf) as [|b t] eqn:Sk.
  - rewrite app_nil_r in Fs. rewrite Fs. repeat split; auto. now exists [EData k].
  - specialize (IH (out ++ firstn (S k) buf) (b :: t) C).
    destruct (write_loop false l (out ++ firstn (S k) buf) (b :: t)) as [[[[c l1] o1] b1]| |]; auto.
    + destruct IH as (-> & -> & evs & ->). split; auto. split; [rewrite <- app_assoc; now rewrite Fs|]. now exists (EData k :: evs).
    + rewrite transfers_cons. destruct IH as (_ & IH). specialize (IH ltac:(discriminate)).
      assert (Lb : lenZ (b :: t) < lenZ buf).
      { rewrite <- Sk. unfold lenZ. rewrite skipn_length. assert (buf <> []) by (intros ->; rewrite skipn_nil in Sk; discriminate).
        destruct buf; [congruence|cbn [length]; lia]. }
      lia.
Qed.

Section Writing.
Variable le : bool.
Variable body : wstate -> res wstate.
Variable garbage : Z -> list Z.
Hypothesis allocated : forall n, 0 <= n -> lenZ (garbage n) = n.

Lemma written : forall fd e bs, encodes body bs -> 13 + lenZ bs < 2 ^ 64 -> calm (e_sched e) -> e_mem e = [] ->
  let r := serialize_fd le body (Ok (lenZ bs)) garbage false fd None e in
  (r = Waits /\ transfers (e_sched e) < 13 + lenZ bs) \/
  (exists e1, r = Done (CCS_RESULT_SUCCESS, None, e1) /\ e_stream e1 = e_stream e ++ framed bs /\ e_blocks e1 = e_blocks e /\
              exists evs, e_sched e = evs ++ e_sched e1).
Proof.
  intros fd e bs En L C M. cbv zeta. unfold serialize_fd. pose proof (lenZ_nonneg bs) as Nb.
  assert (Sz : serialize_size (lenZ bs) = 13 + lenZ bs) by (unfold serialize_size; now rewrite header_size_eq). rewrite Sz.
  unfold malloc. rewrite M. pose proof (allocated (13 + lenZ bs) ltac:(lia)) as Al.
  destruct (serialize_memory_ok le body bs (garbage (13 + lenZ bs)) (13 + lenZ bs) En ltac:(lia) L) as (S & _).
  rewrite S by lia. assert (Lf : lenZ (framed bs) = 13 + lenZ bs) by (rewrite framed_header, lenZ_app, header_len; lia).
  rewrite skipn_all2 by (unfold lenZ in *; lia). rewrite app_nil_r. cbn [with_mem e_sched e_stream e_mem e_moves e_blocks].
  pose proof (write_loop_done (e_sched e) (e_stream e) (framed bs) C) as W.
  destruct (write_loop false (e_sched e) (e_stream e) (framed bs)) as [[[[c l1] o1] b1]| |]; [right|left|contradiction].
  - destruct W as (-> & -> & evs & Ev). change (CCS_RESULT_SUCCESS =? CCS_RESULT_AGAIN) with false. cbv iota. unfold end_write.
    eexists. split; [reflexivity|]. unfold free, with_mem. cbn [e_stream e_blocks e_sched]. repeat split; auto; [lia|]. now exists evs.
  - split; auto. rewrite <- Lf. apply W. intros X. rewrite X, lenZ_nil in Lf. lia.
Qed.
Lemma write_refused : forall fd e c b, serialize_memory le body (garbage (serialize_size b)) (serialize_size b) = Err c -> e_mem e = [] ->
  exists e1, serialize_fd le body (Ok b) garbage false fd None e = Done (c, None, e1) /\
    e_stream e1 = e_stream e /\ e_sched e1 = e_sched e /\ e_blocks e1 = e_blocks e.
Proof.
  intros fd e c b S M. unfold serialize_fd, malloc. rewrite M, S. unfold end_write. eexists. split; [reflexivity|]. cbn. repeat split. apply Z.add_simpl_r.
Qed.
Lemma write_nonblocking : forall size fd st e, match serialize_fd le body size garbage true fd st e with
  | Done (c, st1, e1) => c <> CCS_RESULT_SUCCESS \/ size = Err CCS_RESULT_SUCCESS
  | Waits => True
  | Undef u => True
  end.
Proof.
  intros size fd st e. unfold serialize_fd. destruct st as [p|].
  - destruct (wr_fd p =? fd); cbn [negb]; [exact I|left; discriminate].
  - destruct size as [b|c|]; [|destruct (Z.eq_dec c CCS_RESULT_SUCCESS); subst; auto|exact I].
    destruct (malloc e) as [[] e1]; [|left; discriminate]. destruct (serialize_memory _ _ _ _) as [bytes|c|]; try exact I.
    destruct (write_loop _ _ _ _) as [[[[c l1] o1] b1]| |]; try exact I. destruct (Z.eqb_spec c CCS_RESULT_AGAIN); [left; subst; discriminate|exact I].
Qed.
Lemma write_resumed : forall size fd p e, wr_fd p = fd -> serialize_fd le body size garbage true fd (Some p) e = Undef UBUninit.
Proof. intros size fd p e <-. unfold serialize_fd. rewrite Z.eqb_refl. reflexivity. Qed.
End Writing.

(** ** Round trip *)
Lemma framed_announces : forall bs tl, 13 + lenZ bs < 2 ^ 64 -> announces (framed bs ++ tl) (13 + lenZ bs).
Proof.
  intros bs tl L. pose proof (lenZ_nonneg bs). split; [lia|]. exists (bs ++ tl). unfold framed. now rewrite <- !app_assoc.
Qed.
Lemma framed_len : forall bs, lenZ (framed bs) = 13 + lenZ bs.
Proof. intros bs. rewrite framed_header, lenZ_app, header_len. reflexivity. Qed.
Lemma framed_first : forall bs tl, firstn (Z.to_nat (13 + lenZ bs)) (framed bs ++ tl) = framed bs.
Proof.
  intros bs tl. pose proof (framed_len bs) as L. replace (Z.to_nat (13 + lenZ bs)) with (length (framed bs)) by (unfold lenZ in *; lia).
  rewrite firstn_app, firstn_all, Nat.sub_diag, firstn_O. apply app_nil_r.
Qed.
Lemma framed_skip : forall bs tl, skipn (Z.to_nat (13 + lenZ bs)) (framed bs ++ tl) = tl.
Proof.
  intros bs tl. pose proof (framed_len bs) as L. replace (Z.to_nat (13 + lenZ bs)) with (length (framed bs)) by (unfold lenZ in *; lia).
  apply skipn_app_len.
Qed.
Lemma memory_framed : forall {A} le (de : rstate -> res (A * rstate)) a bs tl e, decodes de a bs -> 13 + lenZ bs < 2 ^ 64 ->
  e_stream e = framed bs ++ tl -> forall r, as_memory le de (13 + lenZ bs) e r ->
  exists e1, r = Done (CCS_RESULT_SUCCESS, Some a, None, e1) /\ e_stream e1 = tl /\ e_blocks e1 = e_blocks e.
Proof.
  intros A le de a bs tl e D L S r Am. unfold as_memory in Am. rewrite S, framed_first in Am.
  destruct (deserialize_memory_ok le de a bs D L) as (Ok1 & _). specialize (Ok1 [] (13 + lenZ bs)). rewrite app_nil_r in Ok1.
  rewrite Ok1 in Am; [|rewrite framed_len; lia|lia]. destruct Am as (e1 & -> & U1 & U2 & _). exists e1. split; auto.
  split; auto. now rewrite U1, S, framed_skip.
Qed.
Lemma round_blocking : forall {A} le (de : rstate -> res (A * rstate)) a bs tl fd e, decodes de a bs -> 13 + lenZ bs < 2 ^ 64 ->
  e_stream e = framed bs ++ tl -> calm (e_sched e) -> e_mem e = [] -> 13 + lenZ bs < transfers (e_sched e) ->
  exists e1, deserialize_fd le de false fd None e = Done (CCS_RESULT_SUCCESS, Some a, None, e1) /\ e_stream e1 = tl /\ e_blocks e1 = e_blocks e.
Proof.
  intros A le de a bs tl fd e D L S C M T. pose proof (lenZ_nonneg bs). pose proof (lenZ_nonneg tl).
  assert (Ls : lenZ (e_stream e) = 13 + lenZ bs + lenZ tl) by (rewrite S, lenZ_app, framed_len; lia).
  destruct (blocking le de fd (13 + lenZ bs) e) as [(W & X)|(_ & Am)]; auto; try lia.
  - rewrite S. now apply framed_announces.
  - eapply memory_framed; eauto.
Qed.
Lemma round_nonblocking : forall {A} le (de : rstate -> res (A * rstate)) a bs tl fd calls e, decodes de a bs -> 53 + lenZ bs < 2 ^ 64 ->
  (forall s c, de s = Err c -> c <> CCS_RESULT_AGAIN) ->
  e_stream e = framed bs ++ tl -> calm (e_sched e) -> e_mem e = [] -> Forall (eq false) (e_moves e) ->
  13 + lenZ bs < transfers (e_sched e) -> delays (e_sched e) < Z.of_nat calls ->
  exists e1, drive le de calls fd None e = Done (CCS_RESULT_SUCCESS, Some a, None, e1) /\ e_stream e1 = tl /\ e_blocks e1 = e_blocks e.
Proof.
  intros A le de a bs tl fd calls e D L Nb S C M Mv T Dl. pose proof (lenZ_nonneg bs). pose proof (lenZ_nonneg tl).
  assert (Ls : lenZ (e_stream e) = 13 + lenZ bs + lenZ tl) by (rewrite S, lenZ_app, framed_len; lia).
  destruct (nonblocking le de calls fd (13 + lenZ bs) e) as [(W & X)|(_ & Am)]; auto; try lia.
  - rewrite S. apply framed_announces. lia.
  - eapply memory_framed; eauto. lia.
Qed.
