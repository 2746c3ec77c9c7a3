(** Objects written to and read from file descriptors, blocking or not:
    src/cconfigspace.c 388-467 and 805-947.

    The encoder and decoder of the object itself are parameters, as in
    FrameModel.v.  The other side of the descriptor is a stream of bytes and a
    schedule that tells what each read or write does; a schedule that is used up
    stands for a call that has not returned yet.  Sizes above SSIZE_MAX are passed
    to read and write as they are.  Options are parsed before (cconfigspace.c
    219-254, 538-584). *)
From Coq Require Import ZArith List Bool.
From Verif Require Import Base Datum CodecModel FrameModel.
Import ListNotations.
Open Scope Z_scope.

(** What a read or write does: transfer up to k+1 bytes, or fail with EAGAIN, EINTR
    or another error. *)
Inductive event := EData (k : nat) | EAgain | EIntr | EFail.

(** [e_stream]: the bytes still to be read before the end of file, or the bytes
    written so far; [e_mem]: does the next allocation succeed (available when the
    list is empty); [e_moves]: does the next successful realloc move the block;
    [e_blocks]: the number of blocks allocated. *)
Record env := mkEnv {
  e_stream : list Z; e_sched : list event; e_mem : list bool; e_moves : list bool; e_blocks : Z }.

(** A call returns, has not returned yet, or is undefined. *)
Inductive run (A : Type) := Done (a : A) | Waits | Undef (u : ub).
Arguments Done {A} a.
Arguments Waits {A}.
Arguments Undef {A} u.

Definition with_mem (e : env) (m : list bool) (b : Z) : env := mkEnv (e_stream e) (e_sched e) m (e_moves e) b.
Definition malloc (e : env) : bool * env :=
  match e_mem e with
  | [] => (true, with_mem e [] (e_blocks e + 1))
  | true :: m => (true, with_mem e m (e_blocks e + 1))
  | false :: m => (false, with_mem e m (e_blocks e))
  end.
Definition free (e : env) : env := with_mem e (e_mem e) (e_blocks e - 1).
(** realloc: None on failure, otherwise whether the block moved. *)
Definition realloc (e : env) : option bool * env :=
  let m := match e_mem e with [] => [] | _ :: m => m end in
  match e_mem e with
  | false :: _ => (None, with_mem e m (e_blocks e))
  | _ => match e_moves e with
         | [] => (Some false, with_mem e m (e_blocks e))
         | v :: vs => (Some v, mkEnv (e_stream e) (e_sched e) m vs (e_blocks e))
         end
  end.

(** struct _ccs_file_descriptor_state_s: cconfigspace_internal.h 195-203.
    [f_got]: the bytes between the start of the data and [buffer]; [f_room]: the
    bytes allocated from [buffer] on; [f_todo]: buffer_size.  [base] points to the
    block, which contains the structure itself when the call does not block. *)
Record fdstate := mkFd { f_fd : Z; f_base_size : Z; f_got : list Z; f_room : Z; f_todo : Z }.
Definition sizeof_state : Z := 40.

(** _ccs_object_deserialize_file_descriptor_read_loop: cconfigspace.c 805-826. *)
Definition again (nb : bool) (ev : event) : bool := match ev with EAgain => nb | _ => false end.
Fixpoint read_loop (nb : bool) (sched : list event) (stream got : list Z) (room todo : Z)
  : run (Z * list event * list Z * list Z * Z * Z) :=
  match sched with
  | [] => Waits
  | ev :: sched1 =>
      match ev with
      | EFail => Done (ERR_SYSTEM, sched1, stream, got, room, todo)
      | EData k =>
          let count := Z.min (Z.of_nat (S k)) (Z.min todo (lenZ stream)) in
          if room <? count then Undef UBBounds else
          let n := Z.to_nat count in
          if todo - count =? 0
          then Done (CCS_RESULT_SUCCESS, sched1, skipn n stream, got ++ firstn n stream, room - count, todo - count)
          else read_loop nb sched1 (skipn n stream) (got ++ firstn n stream) (room - count) (todo - count)
      | _ =>
          if again nb ev then Done (CCS_RESULT_AGAIN, sched1, stream, got, room, todo)
          else if todo =? 0 then Done (CCS_RESULT_SUCCESS, sched1, stream, got, room, todo)
          else read_loop nb sched1 stream got room todo
      end
  end.
(** Running it on a state: FD_READ_LOOP, 828-837. *)
Definition read (nb : bool) (p : fdstate) (e : env) : run (Z * fdstate * env) :=
  match read_loop nb (e_sched e) (e_stream e) (f_got p) (f_room p) (f_todo p) with
  | Done (c, sched, stream, got, room, todo) =>
      Done (c, mkFd (f_fd p) (f_base_size p) got room todo,
            mkEnv stream sched (e_mem e) (e_moves e) (e_blocks e))
  | Waits => Waits
  | Undef u => Undef u
  end.

Section Read.
Context {A : Type}.
Variable le : bool.
Variable body : rstate -> res (A * rstate).

Definition answer := (Z * option A * option fdstate * env)%type.
(** err_fd_buffer: 941-946. *)
Definition stop (c : Z) (x : option A) (e : env) : run answer := Done (c, x, None, free e).

Definition offset (nb : bool) : Z := header_size + (if nb then sizeof_state else 0).

(** The object: 925-946. *)
Definition read_object (nb : bool) (p : fdstate) (e : env) : run answer :=
  match read nb p e with
  | Waits => Waits
  | Undef u => Undef u
  | Done (c, p1, e1) =>
      if c <? CCS_RESULT_SUCCESS then stop c None e1
      else if c =? CCS_RESULT_AGAIN then Done (c, None, Some p1, e1)
      else match body (mkR (f_got p1) (wrap 64 (f_base_size p1 - offset nb))) with
           | Ok (a, _) => stop CCS_RESULT_SUCCESS (Some a) e1
           | Err c => stop c None e1
           | UB u => Undef u
           end
  end.

(** The header: 887-924.  realloc to size 0 frees the block.  When the block of a
    call that does not block moves, [pstate] points to freed memory (916). *)
Definition read_header (nb : bool) (p : fdstate) (e : env) : run answer :=
  match read nb p e with
  | Waits => Waits
  | Undef u => Undef u
  | Done (c, p1, e1) =>
      if c <? CCS_RESULT_SUCCESS then stop c None e1
      else if c =? CCS_RESULT_AGAIN then Done (c, None, Some p1, e1)
      else match deser_header le (mkR (f_got p1) (wrap 64 (f_todo p1 + header_size))) with
           | Err c => stop c None e1
           | UB u => Undef u
           | Ok ((size, _), _) =>
               let base_size := if nb then wrap 64 (sizeof_state + size) else size in
               if base_size =? 0 then Undef UBBounds else
               match realloc e1 with
               | (None, e2) => stop ERR_OUT_OF_MEMORY None e2
               | (Some moved, e2) =>
                   if (nb && moved) || (base_size <? offset nb) then Undef UBBounds
                   else read_object nb (mkFd (f_fd p1) base_size [] (base_size - offset nb)
                                             (wrap 64 (base_size - offset nb))) e2
               end
           end
  end.

(** _ccs_object_deserialize_file_descriptor: 839-947; [st] is the state of an
    operation in progress (ppfd_state). *)
Definition deserialize_fd (nb : bool) (fd : Z) (st : option fdstate) (e : env) : run answer :=
  let begin :=
    match malloc e with
    | (false, e1) => Done (ERR_OUT_OF_MEMORY, None, None, e1)
    | (true, e1) =>
        read_header nb (mkFd fd (if nb then 0 else header_size) [] header_size header_size) e1
    end in
  match nb, st with
  | true, Some p =>
      if negb (f_fd p =? fd) then Done (ERR_INVALID_VALUE, None, st, e)
      else if f_base_size p =? 0 then read_header nb p e
      else read_object nb p e
  | _, _ => begin
  end.

(** Calling again as long as the answer is to try again. *)
Fixpoint drive (calls : nat) (fd : Z) (st : option fdstate) (e : env) : run answer :=
  match calls with
  | O => Waits
  | S calls =>
      match deserialize_fd true fd st e with
      | Done (c, x, st1, e1) => if c =? CCS_RESULT_AGAIN then drive calls fd st1 e1 else Done (c, x, st1, e1)
      | r => r
      end
  end.
End Read.

(** The loop of _ccs_object_serialize_file_descriptor: 444-459. *)
Fixpoint write_loop (nb : bool) (sched : list event) (out buf : list Z)
  : run (Z * list event * list Z * list Z) :=
  match sched with
  | [] => Waits
  | ev :: sched1 =>
      match ev with
      | EFail => Done (ERR_SYSTEM, sched1, out, buf)
      | EData k =>
          let out1 := out ++ firstn (S k) buf in
          match skipn (S k) buf with
          | [] => Done (CCS_RESULT_SUCCESS, sched1, out1, [])
          | buf1 => write_loop nb sched1 out1 buf1
          end
      | _ =>
          if again nb ev then Done (CCS_RESULT_AGAIN, sched1, out, buf)
          else match buf with
               | [] => Done (CCS_RESULT_SUCCESS, sched1, out, buf)
               | _ => write_loop nb sched1 out buf
               end
      end
  end.

(** _ccs_object_serialize_file_descriptor: 388-467.  [garbage]: what malloc returns.
    The state of a call that does not block never gets its [base] set: testing it on
    restart (417) and freeing it at the end (462) use an uninitialised pointer. *)
Record wrstate := mkWr { wr_fd : Z; wr_buf : list Z }.
Definition wranswer := (Z * option wrstate * env)%type.
Section Write.
Variable le : bool.
Variable body : wstate -> res wstate.
Variable body_size : res Z.
Variable garbage : Z -> list Z.

Definition end_write (nb : bool) (c : Z) (e : env) : run wranswer :=
  if nb then Undef UBUninit else Done (c, None, free e).
Definition serialize_fd (nb : bool) (fd : Z) (st : option wrstate) (e : env) : run wranswer :=
  match nb, st with
  | true, Some p => if negb (wr_fd p =? fd) then Done (ERR_INVALID_VALUE, st, e) else Undef UBUninit
  | _, _ =>
      match body_size with
      | Err c => Done (c, None, e)
      | UB u => Undef u
      | Ok b =>
          let size := serialize_size b in
          match malloc e with
          | (false, e1) => Done (ERR_OUT_OF_MEMORY, None, e1)
          | (true, e1) =>
              match serialize_memory le body (garbage size) size with
              | UB u => Undef u
              | Err c => end_write nb c e1
              | Ok bytes =>
                  match write_loop nb (e_sched e1) (e_stream e1) bytes with
                  | Waits => Waits
                  | Undef u => Undef u
                  | Done (c, sched, out, buf) =>
                      let e2 := mkEnv out sched (e_mem e1) (e_moves e1) (e_blocks e1) in
                      if c =? CCS_RESULT_AGAIN then Done (c, Some (mkWr fd buf), e2)
                      else end_write nb c e2
                  end
              end
          end
      end
  end.
End Write.
