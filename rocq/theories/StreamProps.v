(** Property C53: objects read from and written to file descriptors. *)
From Coq Require Import ZArith List Bool Lia.
From Verif Require Import Base Datum CodecModel CodecSpec FrameModel FrameSpec StreamModel StreamSpec StreamProofs StreamMore.
Import ListNotations.
Open Scope Z_scope.

(** a blocking read delivers what reading the announced bytes from memory delivers,
    however they are cut, and reads no byte after them; it returns as soon as the bytes
    have arrived *)
Theorem C53_blocking : forall (A : Type) le (body : rstate -> res (A * rstate)) fd n e,
  announces (e_stream e) n -> 13 <= n -> calm (e_sched e) -> e_mem e = [] ->
  let r := deserialize_fd le body false fd None e in
  (r = Waits /\ (n <= lenZ (e_stream e) -> transfers (e_sched e) <= n)) \/
  (n <= lenZ (e_stream e) /\ as_memory le body n e r).
Proof. exact (fun A => @blocking A). Qed.
Print Assumptions C53_blocking.

(** so does a sequence of calls that do not block, while realloc grows in place *)
Theorem C53_nonblocking : forall (A : Type) le (body : rstate -> res (A * rstate)) calls fd n e,
  announces (e_stream e) n -> 13 <= n -> n + 40 < 2 ^ 64 -> calm (e_sched e) -> e_mem e = [] ->
  Forall (eq false) (e_moves e) -> (forall s c, body s = Err c -> c <> CCS_RESULT_AGAIN) ->
  let r := drive le body calls fd None e in
  (r = Waits /\ (n <= lenZ (e_stream e) ->
                 transfers (e_sched e) <= n \/ Z.of_nat calls <= delays (e_sched e))) \/
  (n <= lenZ (e_stream e) /\ as_memory le body n e r).
Proof. exact (fun A => @nonblocking A). Qed.
Print Assumptions C53_nonblocking.

(** what was serialised is read back, whatever follows it in the stream *)
Theorem C53_round : forall (A : Type) le (de : rstate -> res (A * rstate)) a bs tl fd e,
  decodes de a bs -> 13 + lenZ bs < 2 ^ 64 -> e_stream e = framed bs ++ tl -> calm (e_sched e) -> e_mem e = [] ->
  13 + lenZ bs < transfers (e_sched e) ->
  exists e1, deserialize_fd le de false fd None e = Done (CCS_RESULT_SUCCESS, Some a, None, e1) /\
    e_stream e1 = tl /\ e_blocks e1 = e_blocks e.
Proof. exact (fun A => @round_blocking A). Qed.
Print Assumptions C53_round.
Theorem C53_round_nonblocking : forall (A : Type) le (de : rstate -> res (A * rstate)) a bs tl fd calls e,
  decodes de a bs -> 53 + lenZ bs < 2 ^ 64 -> (forall s c, de s = Err c -> c <> CCS_RESULT_AGAIN) ->
  e_stream e = framed bs ++ tl -> calm (e_sched e) -> e_mem e = [] -> Forall (eq false) (e_moves e) ->
  13 + lenZ bs < transfers (e_sched e) -> delays (e_sched e) < Z.of_nat calls ->
  exists e1, drive le de calls fd None e = Done (CCS_RESULT_SUCCESS, Some a, None, e1) /\
    e_stream e1 = tl /\ e_blocks e1 = e_blocks e.
Proof. exact (fun A => @round_nonblocking A). Qed.
Print Assumptions C53_round_nonblocking.

(** a header that is refused is reported after reading it *)
Theorem C53_bad_header : forall (A : Type) le (body : rstate -> res (A * rstate)) fd e c,
  calm (e_sched e) -> e_mem e = [] -> 13 <= lenZ (e_stream e) ->
  deser_header le (mkR (firstn 13 (e_stream e)) 13) = Err c ->
  let r := deserialize_fd le body false fd None e in
  (r = Waits /\ transfers (e_sched e) <= 13) \/ (exists e1, r = Done (c, None, None, e1) /\ used 13 e e1).
Proof. exact (fun A => @bad_header A). Qed.
Print Assumptions C53_bad_header.

(** every call that returns leaves allocated exactly the state of an operation to be
    continued, and delivers an object exactly when it succeeds *)
Theorem C53_returns : forall (A : Type) le (body : rstate -> res (A * rstate)),
  (forall s c, body s = Err c -> c < 0) ->
  forall nb fd st e c x st1 e1, deserialize_fd le body nb fd st e = Done (c, x, st1, e1) -> (nb = false -> st = None) ->
  (exists p, nb = true /\ st = Some p /\ f_fd p <> fd /\ (c, x, st1, e1) = (ERR_INVALID_VALUE, None, st, e)) \/
  (e_blocks e1 - held st1 = e_blocks e - held st /\
   ((c = CCS_RESULT_SUCCESS /\ x <> None /\ st1 = None) \/
    (c = CCS_RESULT_AGAIN /\ nb = true /\ x = None /\ st1 <> None) \/
    (c < 0 /\ x = None /\ st1 = None))).
Proof. exact (fun A le body Ng nb fd st e c x st1 e1 => @call_proper A le body Ng nb fd st e (c, x, st1, e1)). Qed.
Print Assumptions C53_returns.

(** an error of the system while a call waits ends it *)
Theorem C53_system : forall (A : Type) le (body : rstate -> res (A * rstate)) nb fd st e post,
  deserialize_fd le body nb fd st e = Waits ->
  exists e1, deserialize_fd le body nb fd st
      (mkEnv (e_stream e) (e_sched e ++ EFail :: post) (e_mem e) (e_moves e) (e_blocks e)) =
    Done (ERR_SYSTEM, None, None, e1) /\ e_sched e1 = post.
Proof. exact (fun A => @call_fails A). Qed.
Print Assumptions C53_system.

(** a blocking write puts the serialised object in the stream, however it is cut *)
Theorem C53_written : forall le body garbage, (forall n, 0 <= n -> lenZ (garbage n) = n) ->
  forall fd e bs, encodes body bs -> 13 + lenZ bs < 2 ^ 64 -> calm (e_sched e) -> e_mem e = [] ->
  let r := serialize_fd le body (Ok (lenZ bs)) garbage false fd None e in
  (r = Waits /\ transfers (e_sched e) < 13 + lenZ bs) \/
  (exists e1, r = Done (CCS_RESULT_SUCCESS, None, e1) /\ e_stream e1 = e_stream e ++ framed bs /\
              e_blocks e1 = e_blocks e /\ exists evs, e_sched e = evs ++ e_sched e1).
Proof. exact written. Qed.
Print Assumptions C53_written.
Theorem C53_write_refused : forall le body garbage fd e c b,
  serialize_memory le body (garbage (serialize_size b)) (serialize_size b) = Err c -> e_mem e = [] ->
  exists e1, serialize_fd le body (Ok b) garbage false fd None e = Done (c, None, e1) /\
    e_stream e1 = e_stream e /\ e_sched e1 = e_sched e /\ e_blocks e1 = e_blocks e.
Proof. exact write_refused. Qed.
Print Assumptions C53_write_refused.

(** ** Exceptions *)

(** when the stream ends early the call never returns *)
Theorem C53_cut : forall (A : Type) le (body : rstate -> res (A * rstate)) fd n e,
  announces (e_stream e) n -> 13 <= n -> lenZ (e_stream e) < n -> calm (e_sched e) -> e_mem e = [] ->
  deserialize_fd le body false fd None e = Waits.
Proof. exact (fun A => @cut_waits A). Qed.
Print Assumptions C53_cut.
Theorem C53_short : forall (A : Type) le (body : rstate -> res (A * rstate)) fd e,
  calm (e_sched e) -> e_mem e = [] -> lenZ (e_stream e) < 13 -> deserialize_fd le body false fd None e = Waits.
Proof. exact (fun A => @short_waits A). Qed.
Print Assumptions C53_short.
Definition ready (stream : list Z) (sched : list event) : env := mkEnv stream sched [] [] 0.
Theorem C53_end_refuted : forall k, deserialize_fd true (deser_uint 32) false 3 None (ready [67; 67] (repeat (EData 100) k)) = Waits.
Proof.
  exact (fun k => short_waits true (deser_uint 32) 3 (ready [67; 67] (repeat (EData 100) k))
                    (fun I => ltac:(apply repeat_spec in I; discriminate)) eq_refl eq_refl).
Qed.
Print Assumptions C53_end_refuted.

(** a header that announces less than itself makes the read write out of bounds *)
Theorem C53_small : forall (A : Type) le (body : rstate -> res (A * rstate)) fd n e,
  announces (e_stream e) n -> n < 13 -> calm (e_sched e) -> e_mem e = [] -> 13 < transfers (e_sched e) ->
  deserialize_fd le body false fd None e = Undef UBBounds.
Proof. exact (fun A => @small_size A). Qed.
Print Assumptions C53_small.

(** without blocking, the state is used after realloc moved it *)
Theorem C53_moved_refuted : exists e, e_stream e = framed [5] /\ calm (e_sched e) /\ e_mem e = [] /\
  deserialize_fd true (deser_uint 32) true 3 None e = Undef UBBounds.
Proof.
  exists (mkEnv (framed [5]) [EData 12; EData 0] [] [true] 0). split; [reflexivity|].
  split; [intros [E|[E|[]]]; discriminate|]. split; [reflexivity|]. vm_compute. reflexivity.
Qed.
Print Assumptions C53_moved_refuted.

(** writing without blocking never succeeds, and is undefined once it has to continue or
    has written everything *)
Theorem C53_write_nonblocking : forall le body garbage size fd st e,
  match serialize_fd le body size garbage true fd st e with
  | Done (c, st1, e1) => c <> CCS_RESULT_SUCCESS \/ size = Err CCS_RESULT_SUCCESS
  | Waits | Undef _ => True
  end.
Proof. exact write_nonblocking. Qed.
Print Assumptions C53_write_nonblocking.
Theorem C53_write_resumed : forall le body garbage size fd p e, wr_fd p = fd ->
  serialize_fd le body size garbage true fd (Some p) e = Undef UBUninit.
Proof. exact write_resumed. Qed.
Print Assumptions C53_write_resumed.
Definition zeros (n : Z) : list Z := repeat 0 (Z.to_nat n).
Theorem C53_write_refuted : exists e, calm (e_sched e) /\ e_mem e = [] /\
  serialize_fd true (ser_uint 32 5) (Ok 1) zeros true 3 None e = Undef UBUninit.
Proof.
  exists (ready [] [EData 100]). split; [intros [E|[]]; discriminate|]. split; [reflexivity|]. vm_compute. reflexivity.
Qed.
Print Assumptions C53_write_refuted.

(** ** Examples *)
Definition cuts : list event := [EData 2; EIntr; EData 0; EAgain; EData 4; EData 3; EAgain; EData 0; EData 1; EData 9].
Example stream_blocking : deserialize_fd true (deser_uint 32) false 3 None (ready (framed [172; 2] ++ [9; 9]) cuts) =
  Done (CCS_RESULT_SUCCESS, Some 300, None, ready [9; 9] [EData 9]).
Proof. vm_compute. reflexivity. Qed.
Example stream_nonblocking : drive true (deser_uint 32) 3 3 None (ready (framed [172; 2] ++ [9; 9]) cuts) =
  Done (CCS_RESULT_SUCCESS, Some 300, None, ready [9; 9] [EData 9]).
Proof. vm_compute. reflexivity. Qed.
Example stream_first_call :
  deserialize_fd true (deser_uint 32) true 3 None (ready (framed [172; 2] ++ [9; 9]) cuts) =
  Done (CCS_RESULT_AGAIN, None, Some (mkFd 3 0 [67; 67; 83; 0] 9 9),
        mkEnv (skipn 4 (framed [172; 2] ++ [9; 9])) (skipn 4 cuts) [] [] 1).
Proof. vm_compute. reflexivity. Qed.
Example stream_written : serialize_fd true (ser_uint 32 300) (Ok 2) zeros false 3 None (ready [7] cuts) =
  Done (CCS_RESULT_SUCCESS, None, ready ([7] ++ framed [172; 2]) [EData 9]).
Proof. vm_compute. reflexivity. Qed.
Example stream_announces : announces (framed [172; 2] ++ [9; 9]) 15.
Proof. split; [lia|]. exists [172; 2; 9; 9]. reflexivity. Qed.
