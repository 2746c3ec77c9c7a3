(** Proofs about the two entry points. *)
From Coq Require Import ZArith List Bool Lia.
From Verif Require Import Base Datum CodecModel CodecSpec CodecProofs ParamModel FrameModel FrameSpec FrameProofs
  StreamModel StreamSpec StreamProofs StreamMore FileModel FileSpec FileProofs.
Import ListNotations.
Open Scope Z_scope.

(** Options accepted by the operations that do not take a state are accepted by all. *)
Lemma s_good_any op op2 x : op <> OpFd -> s_good op x -> s_good op2 x /\ s_state x = None.
Proof. intros N. destruct x as [p|c|u]; cbn; auto. intros [E _]. contradiction. Qed.
Lemma s_taken_any op op2 l o : op <> OpFd -> s_taken op l o -> s_taken op2 l o /\ so_state o = 0.
Proof.
  intros N (F & Ls & Lc).
  assert (F2 : Forall (s_good op2) l) by (eapply Forall_impl; [|exact F]; intros x H; now apply (s_good_any op)).
  assert (Fn : Forall (fun x => s_state x = None) l) by (eapply Forall_impl; [|exact F]; intros x H; now apply (s_good_any op op)).
  split; [split; auto|]. apply latest_lastv in Ls. rewrite Ls. now apply lastv_none.
Qed.
Lemma d_good_any op op2 x : op <> OpFd -> d_good op x -> d_good op2 x /\ d_state x = None.
Proof. intros N. destruct x as [m|v|d|p|c|u]; cbn; auto. intros [E _]. contradiction. Qed.
Lemma d_taken_any op op2 l o : op <> OpFd -> d_taken op l o -> d_taken op2 l o /\ do_state o = 0.
Proof.
  intros N (F & L1 & L2 & L3 & Ls & L5).
  assert (F2 : Forall (d_good op2) l) by (eapply Forall_impl; [|exact F]; intros x H; now apply (d_good_any op)).
  assert (Fn : Forall (fun x => d_state x = None) l) by (eapply Forall_impl; [|exact F]; intros x H; now apply (d_good_any op op)).
  split; [repeat split; auto|]. apply latest_lastv in Ls. rewrite Ls. now apply lastv_none.
Qed.

Section Save.
Variable le : bool.
Variable body : Z -> wstate -> res wstate.
Variable body_size : Z -> res Z.
Variable garbage : Z -> list Z.
Notation serialize := (object_serialize le body body_size garbage).

Theorem api_not_object fmt t l sys x : serialize None fmt t l sys x = Done (ERR_INVALID_OBJECT, SavedNothing, x).
Proof. reflexivity. Qed.
Theorem api_no_operation fmt t l sys x :
  serialize (Some false) fmt t l sys x = Done (ERR_UNSUPPORTED_OPERATION, SavedNothing, x).
Proof. reflexivity. Qed.

(** Refused calls touch nothing. *)
Theorem api_refused fmt t l sys x :
  s_refused (op_of t) l \/ t = SaveSize false \/ (exists n, t = SaveMemory None n) \/ t = SaveFile None \/ (exists c, t = SaveOther c) ->
  serialize (Some true) fmt t l sys x = Done (ERR_INVALID_VALUE, SavedNothing, x).
Proof.
  intros H. unfold object_serialize. destruct x as [w e sw sr]. cbn [ou_world ou_stream ou_write ou_read].
  destruct t as [out|mem n|path|fd|c]; cbn [op_of] in H.
  - unfold save_size. destruct (s_options_total OpSize l) as [[o T]|R].
    + rewrite (proj2 (s_options_ok _ _ _) T). cbn [bind].
      destruct H as [R|[E|[[? E]|[E|[? E]]]]]; try discriminate.
      * pose proof (proj2 (s_options_err OpSize l ERR_INVALID_VALUE) (conj R eq_refl)) as X.
        rewrite (proj2 (s_options_ok _ _ _) T) in X. discriminate.
      * injection E as ->. reflexivity.
    + rewrite (proj2 (s_options_err OpSize l ERR_INVALID_VALUE) (conj R eq_refl)). reflexivity.
  - unfold save_memory. destruct mem as [mem|]; [|reflexivity].
    destruct H as [R|[E|[[? E]|[E|[? E]]]]]; try discriminate.
    rewrite (proj2 (s_options_err OpMemory l ERR_INVALID_VALUE) (conj R eq_refl)). reflexivity.
  - rewrite save_refused; [reflexivity|].
    destruct H as [R|[E|[[? E]|[E|[? E]]]]]; try discriminate; auto.
    injection E as ->. auto.
  - destruct H as [R|[E|[[? E]|[E|[? E]]]]]; try discriminate.
    unfold save_fd. rewrite (proj2 (s_options_err OpFd l ERR_INVALID_VALUE) (conj R eq_refl)). reflexivity.
  - reflexivity.
Qed.

(** Every way to save delivers the same bytes, as many as announced. *)
Theorem api_size l o sys x bs : s_taken OpSize l o -> body_size (so_callback o) = Ok (lenZ bs) ->
  serialize (Some true) FORMAT_BINARY (SaveSize true) l sys x =
  Done (CCS_RESULT_SUCCESS, SavedSize (lenZ (framed bs)), x).
Proof.
  intros T S. cbn [object_serialize]. unfold save_size. rewrite (proj2 (s_options_ok _ _ _) T). cbn [bind negb refute].
  unfold size_with_opts, format_size. rewrite Z.eqb_refl, S. cbn [bind]. rewrite lenZ_framed. reflexivity.
Qed.
Theorem api_memory l o sys x bs mem n : s_taken OpSize l o -> encodes (body (so_callback o)) bs ->
  n = lenZ mem -> n < 2 ^ 64 ->
  (lenZ (framed bs) <= n -> serialize (Some true) FORMAT_BINARY (SaveMemory (Some mem) n) l sys x =
     Done (CCS_RESULT_SUCCESS, SavedMemory (framed bs ++ skipn (length (framed bs)) mem), x)) /\
  (n < lenZ (framed bs) -> serialize (Some true) FORMAT_BINARY (SaveMemory (Some mem) n) l sys x =
     Done (ERR_NOT_ENOUGH_DATA, SavedNothing, x)).
Proof.
  intros T E Hn B. apply (s_taken_any OpSize OpMemory) in T as [T _]; [|discriminate].
  rewrite lenZ_framed. cbn [object_serialize]. unfold save_memory. rewrite (proj2 (s_options_ok _ _ _) T). cbn [bind].
  unfold memory_with_opts. rewrite Z.eqb_refl.
  destruct (serialize_memory_ok le _ bs mem n E Hn B) as [H1 H2]. split; intros H; [rewrite H1 | rewrite H2]; auto.
Qed.
Theorem api_file l o sys x bs p : s_taken OpSize l o -> encodes (body (so_callback o)) bs ->
  body_size (so_callback o) = Ok (lenZ bs) -> lenZ (framed bs) < 2 ^ 64 -> writable sys ->
  exists w1, serialize (Some true) FORMAT_BINARY (SaveFile (Some p)) l sys x =
    Done (CCS_RESULT_SUCCESS, SavedNothing, mkOutside w1 (ou_stream x) (ou_write x) (ou_read x)) /\
    only_file p (ou_world x) w1 /\ wd_files w1 p = Some (framed bs).
Proof.
  intros T E S B (Op & Mp & Tr & Sy). apply (s_taken_any OpSize OpFile) in T as [T _]; [|discriminate].
  rewrite lenZ_framed in B. cbn [object_serialize].
  destruct (save_ok le body body_size p l o sys (ou_world x) bs T E S B) as (c & w1 & -> & O & En).
  exists w1. inversion En as [H|c0 H1 H2|? ? H|? ? ? H|]; subst; try congruence.
  - rewrite Mp in H2. contradiction.
  - auto.
Qed.
Theorem api_fd l o sys x bs fd : (forall n, 0 <= n -> lenZ (garbage n) = n) ->
  s_taken OpSize l o -> encodes (body (so_callback o)) bs ->
  body_size (so_callback o) = Ok (lenZ bs) -> lenZ (framed bs) < 2 ^ 64 ->
  calm (e_sched (ou_stream x)) -> e_mem (ou_stream x) = [] ->
  let r := serialize (Some true) FORMAT_BINARY (SaveFd fd) l sys x in
  (r = Waits /\ transfers (e_sched (ou_stream x)) < lenZ (framed bs)) \/
  (exists e1, r = Done (CCS_RESULT_SUCCESS, SavedNothing, mkOutside (ou_world x) e1 (ou_write x) (ou_read x)) /\
     e_stream e1 = e_stream (ou_stream x) ++ framed bs /\ e_blocks e1 = e_blocks (ou_stream x)).
Proof.
  intros G T E S B Cm Em. apply (s_taken_any OpSize OpFd) in T as [T Z0]; [|discriminate].
  rewrite lenZ_framed in *. cbn [object_serialize]. unfold save_fd. rewrite (proj2 (s_options_ok _ _ _) T), Z0.
  cbn [Z.eqb negb]. unfold format_size. rewrite Z.eqb_refl, S.
  destruct (written le (body (so_callback o)) garbage G fd (ou_stream x) bs E B Cm Em)
    as [[H1 H2]|(e1 & H1 & H2 & H3 & _)]; rewrite H1.
  - left. auto.
  - right. exists e1. auto.
Qed.

(** In another format nothing is saved. *)
Theorem api_format obj fmt t l sys x c s x1 : fmt <> FORMAT_BINARY ->
  serialize obj fmt t l sys x = Done (c, s, x1) -> c < 0 /\ s = SavedNothing /\
  e_stream (ou_stream x1) = e_stream (ou_stream x).
Proof.
  intros N. apply Z.eqb_neq in N. unfold object_serialize. destruct x as [w e sw sr]. cbn [ou_world ou_stream ou_write ou_read].
  destruct obj as [[|]|]; try (intros H; injection H as <- <- <-; repeat split; reflexivity).
  destruct t as [out|mem n|path|fd|c0].
  - unfold save_size, size_with_opts, format_size. rewrite N.
    destruct (serialize_options OpSize l no_sopts) as [o|c1|u] eqn:E; cbn [bind].
    + destruct out; cbn [negb refute bind]; intros H; injection H as <- <- <-; repeat split; reflexivity.
    + apply s_options_err in E as [_ ->]. intros H; injection H as <- <- <-; repeat split; reflexivity.
    + discriminate.
  - unfold save_memory, memory_with_opts. rewrite N. destruct mem as [mem|]; [|intros H; injection H as <- <- <-; repeat split; reflexivity].
    destruct (serialize_options OpMemory l no_sopts) as [o|c1|u] eqn:E; cbn [bind].
    + intros H; injection H as <- <- <-; repeat split; reflexivity.
    + apply s_options_err in E as [_ ->]. intros H; injection H as <- <- <-; repeat split; reflexivity.
    + discriminate.
  - unfold save_file. destruct path as [p|]; [|intros H; injection H as <- <- <-; repeat split; reflexivity].
    destruct (serialize_options OpFile l no_sopts) as [o|c1|u] eqn:E.
    + destruct (sy_open sys); cbn [negb].
      * unfold size_with_opts, format_size. rewrite N. cbn [bind]. intros H; injection H as <- <- <-; repeat split; reflexivity.
      * intros H; injection H as <- <- <-; repeat split; reflexivity.
    + apply s_options_err in E as [_ ->]. intros H; injection H as <- <- <-; repeat split; reflexivity.
    + discriminate.
  - unfold save_fd, format_size. rewrite N.
    destruct (serialize_options OpFd l no_sopts) as [o|c1|u] eqn:E.
    + unfold serialize_fd. destruct (negb (so_state o =? 0)).
      * destruct sw as [p|].
        -- destruct (negb (wr_fd p =? fd)); [|discriminate]. intros H; injection H as <- <- <-; repeat split; reflexivity.
        -- intros H; injection H as <- <- <-; repeat split; reflexivity.
      * intros H; injection H as <- <- <-; repeat split; reflexivity.
    + apply s_options_err in E as [_ ->]. intros H; injection H as <- <- <-; repeat split; reflexivity.
    + discriminate.
  - intros H; injection H as <- <- <-; repeat split; reflexivity.
Qed.
End Save.

Section Restore.
Context {A : Type}.
Variable le : bool.
Variable decode : dopts -> Z -> rstate -> res (A * rstate).
Notation deserialize := (object_deserialize le decode).

(** Calls refused before anything is read; a file is opened before its options are looked at. *)
Theorem api_restore_refused out fmt t l sys x :
  (out = false \/ (exists n, t = RestoreMemory None n) \/ t = RestoreFile None \/ (exists c, t = RestoreOther c) ->
   deserialize out fmt t l sys x = Done (ERR_INVALID_VALUE, None, x)) /\
  (forall c, d_refused (op_from t) l c ->
   (exists mem n, t = RestoreMemory (Some mem) n) \/ (exists fd, t = RestoreFd fd) ->
   deserialize true fmt t l sys x = Done (c, None, x)) /\
  (forall c p bytes, t = RestoreFile (Some p) -> d_refused OpFile l c -> readable sys ->
   wd_files (ou_world x) p = Some bytes -> bytes <> [] ->
   exists w1, deserialize true fmt t l sys x = Done (c, None, mkOutside w1 (ou_stream x) (ou_write x) (ou_read x)) /\
     same_world (ou_world x) w1).
Proof.
  unfold object_deserialize. split; [|split].
  - intros H. destruct out; cbn [negb]; [|reflexivity].
    destruct x as [w e sw sr]. cbn [ou_world ou_stream ou_write ou_read].
    destruct H as [E|[[n ->]|[->|[c ->]]]]; [discriminate | reflexivity | reflexivity | reflexivity].
  - intros c R H. cbn [negb]. destruct x as [w e sw sr]. cbn [ou_world ou_stream ou_write ou_read].
    destruct H as [(mem & n & ->)|(fd & ->)]; cbn [op_from] in R; apply d_options_err in R.
    + unfold restore_memory, deserialize_any. rewrite R. reflexivity.
    + unfold restore_fd. rewrite R. reflexivity.
  - intros c p bytes -> R Rd F N. cbn [negb].
    pose proof (restore_read le decode fmt p l sys (ou_world x) bytes Rd F N) as H.
    unfold restore_memory in H. rewrite <- deserialize_any_file in H. unfold deserialize_any in H.
    apply d_options_err in R. rewrite R in H. cbn [bind as_from_memory] in H.
    destruct H as (w1 & -> & Sw). exists w1. auto.
Qed.

(** Every way to restore delivers the object. *)
Theorem api_restore_memory l o t bt rest a tl n sys x : d_taken OpMemory l o -> restorable t -> leb128 t bt ->
  decodes (decode o t) a (bt ++ rest) -> lenZ (framed (bt ++ rest)) <= n <= lenZ (framed (bt ++ rest) ++ tl) -> n < 2 ^ 64 ->
  deserialize true FORMAT_BINARY (RestoreMemory (Some (framed (bt ++ rest) ++ tl)) n) l sys x =
  Done (CCS_RESULT_SUCCESS, Some a, x).
Proof.
  intros T R L D Hn Hn'. unfold object_deserialize. cbn [negb].
  rewrite (memory_ok le decode l o t bt rest a tl n T R L D); auto. rewrite lenZ_framed in Hn. exact Hn.
Qed.
Theorem api_restore_file l o t bt rest a tl p sys x : d_taken OpMemory l o -> restorable t -> leb128 t bt ->
  decodes (decode o t) a (bt ++ rest) -> lenZ (framed (bt ++ rest) ++ tl) < 2 ^ 64 -> readable sys ->
  wd_files (ou_world x) p = Some (framed (bt ++ rest) ++ tl) ->
  exists w1, deserialize true FORMAT_BINARY (RestoreFile (Some p)) l sys x =
    Done (CCS_RESULT_SUCCESS, Some a, mkOutside w1 (ou_stream x) (ou_write x) (ou_read x)) /\ same_world (ou_world x) w1.
Proof.
  intros T R L D B Rd F. unfold object_deserialize. cbn [negb].
  pose proof (restore_read le decode FORMAT_BINARY p l sys (ou_world x) _ Rd F) as H.
  rewrite (memory_ok le decode l o t bt rest a tl _ T R L D) in H; auto.
  - destruct H as (w1 & -> & Sw); [unfold framed; discriminate|]. exists w1. auto.
  - rewrite (lenZ_app (framed _) tl), lenZ_framed. pose proof (lenZ_nonneg tl). lia.
Qed.
Theorem api_restore_fd l o t bt rest a tl fd sys x : d_taken OpMemory l o -> restorable t -> leb128 t bt ->
  decodes (decode o t) a (bt ++ rest) -> lenZ (framed (bt ++ rest)) < 2 ^ 64 ->
  e_stream (ou_stream x) = framed (bt ++ rest) ++ tl -> calm (e_sched (ou_stream x)) -> e_mem (ou_stream x) = [] ->
  lenZ (framed (bt ++ rest)) < transfers (e_sched (ou_stream x)) ->
  exists e1, deserialize true FORMAT_BINARY (RestoreFd fd) l sys x =
    Done (CCS_RESULT_SUCCESS, Some a, mkOutside (ou_world x) e1 (ou_write x) (ou_read x)) /\
    e_stream e1 = tl /\ e_blocks e1 = e_blocks (ou_stream x).
Proof.
  intros T R L D B St Cm Em Tr. rewrite lenZ_framed in *. unfold object_deserialize. cbn [negb].
  apply (d_taken_any OpMemory OpFd) in T as [T Z0]; [|discriminate].
  unfold restore_fd. rewrite (proj2 (d_options_ok _ _ _) T), Z0, Z.eqb_refl. cbn [Z.eqb negb].
  destruct (round_blocking le (decode_any decode o) a (bt ++ rest) tl fd (ou_stream x)) as (e1 & -> & S1 & S2); auto.
  - now apply decode_any_decodes with (t := t).
  - exists e1. auto.
Qed.

(** An object is delivered exactly when the call succeeds. *)
Lemma peek_code s c : peek_enum s = Err c -> c < 0.
Proof.
  unfold peek_enum, deser_enum, deser_uint.
  destruct (leb_deser_loop 32 0 0 (r_size s) (r_mem s)) as [[v z]|c0|u] eqn:E; cbn [bind]; try discriminate.
  apply leb_code in E as ->. intros H. injection H as <-. reflexivity.
Qed.
Hypothesis negative : forall o t s c, decode o t s = Err c -> c < 0.
Lemma decode_any_neg o s c : decode_any decode o s = Err c -> c < 0.
Proof.
  unfold decode_any. destruct (peek_enum s) as [t|c0|u] eqn:E; cbn [bind].
  - destruct (existsb (Z.eqb t) restorable_types); [apply negative|]. intros H. injection H as <-. reflexivity.
  - intros H. injection H as <-. eapply peek_code, E.
  - discriminate.
Qed.
Lemma d_options_neg op l c : deserialize_options op l no_dopts = Err c -> c < 0.
Proof. intros E. apply d_options_err in E as (x & _ & ->). destruct x; reflexivity. Qed.
Lemma deserialize_any_neg fmt op mem n l c : deserialize_any le decode fmt op mem n l = Err c -> c < 0.
Proof.
  unfold deserialize_any. destruct (deserialize_options op l no_dopts) as [o|c0|u] eqn:E; cbn [bind].
  - destruct (fmt =? FORMAT_BINARY); [|intros H; injection H as <-; reflexivity].
    unfold deserialize_memory. destruct (deser_header le (mkR mem n)) as [[h s1]|c0|u] eqn:Eh; cbn [bind].
    + destruct (decode_any decode o s1) as [[a s2]|c0|u] eqn:Ed; cbn [bind]; intros H; try discriminate.
      injection H as <-. eapply decode_any_neg, Ed.
    + intros H. injection H as <-. eapply header_code, Eh.
    + discriminate.
  - intros H. injection H as <-. eapply d_options_neg, E.
  - discriminate.
Qed.
Ltac bad := intros H; injection H as <- <- <-; right; right; split; reflexivity.
Theorem api_delivers out fmt t l sys x c a x1 : deserialize out fmt t l sys x = Done (c, a, x1) ->
  (c = CCS_RESULT_SUCCESS /\ a <> None) \/ (c = CCS_RESULT_AGAIN /\ a = None /\ exists fd, t = RestoreFd fd) \/
  (c < 0 /\ a = None).
Proof.
  unfold object_deserialize. destruct out; cbn [negb]; [|bad].
  destruct t as [mem n|path|fd|c0]; [| | |bad].
  - unfold restore_memory. destruct mem as [mem|]; [|bad].
    destruct (deserialize_any le decode fmt OpMemory mem n l) as [y|c0|u] eqn:E; [| |discriminate].
    + intros H. injection H as <- <- <-. left. split; [reflexivity | discriminate].
    + intros H. injection H as <- <- <-. right. right. split; [eapply deserialize_any_neg, E | reflexivity].
  - unfold restore_file. destruct path as [p|]; [|bad].
    destruct (if sy_open sys then wd_files (ou_world x) p else None) as [bytes|]; [|bad].
    destruct (sy_stat sys); cbn [negb]; [|bad].
    destruct (mmap sys (lenZ bytes)); try bad.
    destruct (deserialize_any le decode fmt OpFile bytes (lenZ bytes) l) as [y|c0|u] eqn:E; [| |discriminate].
    + intros H. injection H as <- <- <-. left. split; [reflexivity | discriminate].
    + intros H. injection H as <- <- <-. right. right. split; [eapply deserialize_any_neg, E | reflexivity].
  - unfold restore_fd. destruct (deserialize_options OpFd l no_dopts) as [o|c0|u] eqn:Eo; [| |discriminate].
    2:{ intros H. injection H as <- <- <-. right. right. split; [eapply d_options_neg, Eo | reflexivity]. }
    set (nb := negb (do_state o =? 0)).
    destruct (fmt =? FORMAT_BINARY).
    + destruct (deserialize_fd le (decode_any decode o) nb fd (if nb then ou_read x else None) (ou_stream x))
        as [[[[c0 y] st] e]| |u] eqn:E; try discriminate.
      intros H. injection H as <- <- <-.
      pose proof (@call_proper A le (decode_any decode o) (decode_any_neg o) nb fd _ _ _ E) as [Q|[_ Q]].
      * intros ->. reflexivity.
      * destruct Q as (p & _ & _ & _ & Q). injection Q as -> -> -> ->. right. right. split; reflexivity.
      * destruct Q as [(-> & N & _)|[(-> & _ & -> & _)|(N & -> & _)]]; [left | right; left | right; right]; eauto.
    + destruct (if nb then ou_read x else None) as [p|].
      * destruct (negb (f_fd p =? fd)); [bad|].
        unfold read_nothing. destruct (e_sched (ou_stream x)) as [|ev evs]; [discriminate|].
        destruct ev; cbn [again]; try bad. destruct nb; [|bad].
        intros H; injection H as <- <- <-. right. left. eauto.
      * destruct (malloc (ou_stream x)) as [[|] e0]; [|bad].
        unfold read_nothing. destruct (e_sched e0) as [|ev evs]; [discriminate|].
        destruct ev; cbn [again]; try bad. destruct nb; [|bad].
        intros H; injection H as <- <- <-. right. left. eauto.
Qed.
(** In another format nothing is restored. *)
Theorem api_restore_format out fmt t l sys x c a x1 : fmt <> FORMAT_BINARY ->
  deserialize out fmt t l sys x = Done (c, a, x1) -> a = None /\ c <> CCS_RESULT_SUCCESS.
Proof.
  intros N H.
  assert (a = None).
  2:{ split; auto. destruct (api_delivers _ _ _ _ _ _ _ _ _ H) as [[_ Q]|[(-> & _)|(Q & _)]]; [contradiction | discriminate |].
      intros ->. discriminate. }
  apply Z.eqb_neq in N. revert H. unfold object_deserialize.
  destruct out; cbn [negb]; [|intros H; injection H as <- <- <-; reflexivity].
  destruct t as [mem n|path|fd|c0]; [| | |intros H; injection H as <- <- <-; reflexivity].
  - unfold restore_memory, deserialize_any. rewrite N. destruct mem as [mem|]; [|intros H; injection H as <- <- <-; reflexivity].
    destruct (deserialize_options OpMemory l no_dopts); cbn [bind]; intros H; try discriminate; injection H as <- <- <-; reflexivity.
  - unfold restore_file, deserialize_any. rewrite N. destruct path as [p|]; [|intros H; injection H as <- <- <-; reflexivity].
    destruct (if sy_open sys then wd_files (ou_world x) p else None) as [bytes|]; [|intros H; injection H as <- <- <-; reflexivity].
    destruct (sy_stat sys); cbn [negb]; [|intros H; injection H as <- <- <-; reflexivity].
    destruct (mmap sys (lenZ bytes)); try (intros H; injection H as <- <- <-; reflexivity).
    destruct (deserialize_options OpFile l no_dopts); cbn [bind]; intros H; try discriminate; injection H as <- <- <-; reflexivity.
  - unfold restore_fd. rewrite N. destruct (deserialize_options OpFd l no_dopts) as [o|c0|u]; [| |discriminate].
    2:{ intros H; injection H as <- <- <-; reflexivity. }
    set (nb := negb (do_state o =? 0)).
    destruct (if nb then ou_read x else None) as [p|].
    + destruct (negb (f_fd p =? fd)); [intros H; injection H as <- <- <-; reflexivity|].
      unfold read_nothing. destruct (e_sched (ou_stream x)) as [|ev evs]; [discriminate|].
      destruct ev; cbn [again]; try destruct nb; intros H; injection H as <- <- <-; reflexivity.
    + destruct (malloc (ou_stream x)) as [[|] e0]; [|intros H; injection H as <- <- <-; reflexivity].
      unfold read_nothing. destruct (e_sched e0) as [|ev evs]; [discriminate|].
      destruct ev; cbn [again]; try destruct nb; intros H; injection H as <- <- <-; reflexivity.
Qed.
End Restore.
