(** Saving and restoring objects: the two entry points ccs_object_serialize and
    ccs_object_deserialize, their options, the choice of the decoder, and files:
    src/cconfigspace.c 145-159, 219-386, 469-516, 538-803 and 949-990.

    The encoder and decoder of the object itself are parameters, as in FrameModel.v;
    file descriptors are in StreamModel.v.  A path is a number, a file its bytes;
    directories, links and permissions appear as calls that fail.  Nobody else changes
    a file while it is mapped.  A mapping shared with the file shows in the file at once.
    Sizes are passed to mmap and ftruncate as they are. *)
From Coq Require Import ZArith List Bool.
From Verif Require Import Base Datum CodecModel ParamModel FrameModel StreamModel.
Import ListNotations.
Open Scope Z_scope.

(** include/cconfigspace/base.h 872-878, 888-901 *)
Definition FORMAT_BINARY := 0.
Inductive operation := OpSize | OpMemory | OpFile | OpFd.
Definition is_fd (op : operation) : bool := match op with OpFd => true | _ => false end.

(** ** Options: the arguments before the one that ends the list.  Pointers are numbers,
    0 is NULL. *)
Inductive sopt := SNonBlocking (state : Z) | SCallback (callback : Z) | SUnknown (code : Z).
(** _ccs_object_serialize_options_t; the data of the callback goes with it. *)
Record sopts := mkSopts { so_state : Z; so_callback : Z }.
Definition no_sopts : sopts := mkSopts 0 0.
(** _ccs_object_serialize_options: 219-254 *)
Fixpoint serialize_options (op : operation) (l : list sopt) (o : sopts) : res sopts :=
  match l with
  | [] => Ok o
  | x :: l =>
      do o <- match x with
              | SNonBlocking p =>
                  do _ <- refute (negb (is_fd op)) ERR_INVALID_VALUE;
                  do _ <- refute (p =? 0) ERR_INVALID_VALUE;
                  Ok (mkSopts p (so_callback o))
              | SCallback c =>
                  do _ <- refute (c =? 0) ERR_INVALID_VALUE;
                  Ok (mkSopts (so_state o) c)
              | SUnknown _ => Err ERR_INVALID_VALUE
              end;
      serialize_options op l o
  end.

(** [DMap None]: NULL, released, or not a map. *)
Inductive dopt :=
| DMap (map : option Z) | DVector (vector : Z) | DData (data : Z) | DNonBlocking (state : Z)
| DCallback (callback : Z) | DUnknown (code : Z).
(** _ccs_object_deserialize_options_t; map_values is set to true at 722 and 851. *)
Record dopts := mkDopts { do_map : Z; do_vector : Z; do_data : Z; do_state : Z; do_callback : Z }.
Definition no_dopts : dopts := mkDopts 0 0 0 0 0.
(** _ccs_object_deserialize_options: 538-584 *)
Fixpoint deserialize_options (op : operation) (l : list dopt) (o : dopts) : res dopts :=
  match l with
  | [] => Ok o
  | x :: l =>
      do o <- match x with
              | DMap None => Err ERR_INVALID_OBJECT
              | DMap (Some m) => Ok (mkDopts m (do_vector o) (do_data o) (do_state o) (do_callback o))
              | DVector v =>
                  do _ <- refute (v =? 0) ERR_INVALID_VALUE;
                  Ok (mkDopts (do_map o) v (do_data o) (do_state o) (do_callback o))
              | DData d => Ok (mkDopts (do_map o) (do_vector o) d (do_state o) (do_callback o))
              | DNonBlocking p =>
                  do _ <- refute (negb (is_fd op)) ERR_INVALID_VALUE;
                  do _ <- refute (p =? 0) ERR_INVALID_VALUE;
                  Ok (mkDopts (do_map o) (do_vector o) (do_data o) p (do_callback o))
              | DCallback c =>
                  do _ <- refute (c =? 0) ERR_INVALID_VALUE;
                  Ok (mkDopts (do_map o) (do_vector o) (do_data o) (do_state o) c)
              | DUnknown _ => Err ERR_INVALID_VALUE
              end;
      deserialize_options op l o
  end.

(** ** The system *)

(** What the calls of one operation do: does open succeed (on a file that exists, when
    reading), does fstat; the answer of mmap; do ftruncate and msync succeed.  [sy_left]:
    what a failing encoder leaves in the mapping. *)
Inductive mapped := MapOk | MapNoMemory | MapDenied | MapFails.
Record system := mkSystem {
  sy_open : bool; sy_stat : bool; sy_map : mapped; sy_truncate : bool; sy_sync : bool; sy_left : list Z }.
(** mmap of no bytes fails with EINVAL. *)
Definition mmap (sys : system) (size : Z) : mapped := if size =? 0 then MapFails else sy_map sys.

(** The files, and how many descriptors and mappings the process holds. *)
Record world := mkWorld { wd_files : Z -> option (list Z); wd_fds : Z; wd_maps : Z }.
Definition set_file (path : Z) (bytes : list Z) (w : world) : world :=
  mkWorld (fun p => if p =? path then Some bytes else wd_files w p) (wd_fds w) (wd_maps w).
Definition add_fd (k : Z) (w : world) : world := mkWorld (wd_files w) (wd_fds w + k) (wd_maps w).
Definition add_map (k : Z) (w : world) : world := mkWorld (wd_files w) (wd_fds w) (wd_maps w + k).
Definition close (w : world) : world := add_fd (-1) w.
Definition munmap (w : world) : world := add_map (-1) w.

Definition zeroes (n : Z) : list Z := repeat 0 (Z.to_nat n).
(** The codes given to a mapping that fails: 350-366, 771-786 *)
Definition map_error (m : mapped) : Z :=
  match m with
  | MapOk => CCS_RESULT_SUCCESS
  | MapNoMemory => ERR_OUT_OF_MEMORY
  | MapDenied => ERR_INVALID_FILE_PATH
  | MapFails => ERR_SYSTEM
  end.

(** ** Saving.  [body callback] and [body_size callback] stand for ops->serialize and
    ops->serialize_size with the callback of the options (0: none) in the binary format;
    in any other format all of them raise CCS_RESULT_ERROR_INVALID_VALUE (the default
    case of the switch at the end of each). *)
Section Save.
Variable le : bool.
Variable body : Z -> wstate -> res wstate.
Variable body_size : Z -> res Z.
Variable garbage : Z -> list Z.

Definition format_size (fmt : Z) (o : sopts) : res Z :=
  if fmt =? FORMAT_BINARY then body_size (so_callback o) else Err ERR_INVALID_VALUE.
(** _ccs_object_serialize_size_with_opts: 256-268 *)
Definition size_with_opts (fmt : Z) (o : sopts) : res Z :=
  do b <- format_size fmt o; Ok (serialize_size b).
(** _ccs_object_serialize_memory_with_opts: 287-305; the header raises in other formats,
    177-180 *)
Definition memory_with_opts (fmt : Z) (o : sopts) (mem : list Z) (n : Z) : res (list Z) :=
  if fmt =? FORMAT_BINARY then serialize_memory le (body (so_callback o)) mem n else Err ERR_INVALID_VALUE.

(** _ccs_object_serialize_size: 270-285; [out]: is the pointer given *)
Definition save_size (fmt : Z) (out : bool) (l : list sopt) : res Z :=
  do o <- serialize_options OpSize l no_sopts;
  do _ <- refute (negb out) ERR_INVALID_VALUE;
  size_with_opts fmt o.
(** _ccs_object_serialize_memory: 307-323 *)
Definition save_memory (fmt : Z) (mem : option (list Z)) (n : Z) (l : list sopt) : res (list Z) :=
  match mem with
  | None => Err ERR_INVALID_VALUE
  | Some mem =>
      do o <- serialize_options OpMemory l no_sopts;
      memory_with_opts fmt o mem n
  end.

(** _ccs_object_serialize_file: 325-386 *)
Definition save_file (fmt : Z) (path : option Z) (l : list sopt) (sys : system) (w : world)
  : run (Z * world) :=
  match path with
  | None => Done (ERR_INVALID_VALUE, w)
  | Some path =>
      match serialize_options OpFile l no_sopts with
      | UB u => Undef u
      | Err c => Done (c, w)
      | Ok o =>
          if negb (sy_open sys) then Done (ERR_INVALID_FILE_PATH, w) else
          let w := add_fd 1 (set_file path [] w) in
          match size_with_opts fmt o with
          | UB u => Undef u
          | Err c => Done (c, close w)
          | Ok size =>
              match mmap sys size with
              | MapOk =>
                  let w := add_map 1 w in
                  if negb (sy_truncate sys) then Done (ERR_SYSTEM, close (munmap w)) else
                  match memory_with_opts fmt o (zeroes size) size with
                  | UB u => Undef u
                  | Err c => Done (c, close (munmap (set_file path (sy_left sys) w)))
                  | Ok bytes =>
                      let w := set_file path bytes w in
                      Done (if sy_sync sys then CCS_RESULT_SUCCESS else ERR_SYSTEM, close (munmap w))
                  end
              | m => Done (map_error m, close w)
              end
          end
      end
  end.

(** _ccs_object_serialize_file_descriptor: 388-467; [st]: the state that the option
    asking not to block points to, left alone without that option *)
Definition save_fd (fmt : Z) (fd : Z) (l : list sopt) (st : option wrstate) (e : env) : run wranswer :=
  match serialize_options OpFd l no_sopts with
  | UB u => Undef u
  | Err c => Done (c, st, e)
  | Ok o =>
      let nb := negb (so_state o =? 0) in
      match serialize_fd le (body (so_callback o)) (format_size fmt o) garbage nb fd (if nb then st else None) e with
      | Done (c, st1, e1) => Done (c, if nb then st1 else st, e1)
      | r => r
      end
  end.

(** What the caller asks for: 469-516.  [SaveOther]: any other operation. *)
Inductive target :=
| SaveSize (out : bool) | SaveMemory (mem : option (list Z)) (n : Z) | SaveFile (path : option Z)
| SaveFd (fd : Z) | SaveOther (code : Z).
(** What the caller gets besides the code. *)
Inductive saved := SavedNothing | SavedSize (n : Z) | SavedMemory (mem : list Z).
Record outside := mkOutside { ou_world : world; ou_stream : env; ou_write : option wrstate; ou_read : option fdstate }.
(** [obj]: None, the pointer or its operations are NULL; otherwise whether the object has
    an operation to save it (error stacks, src/error_stack.c 56-57, have none). *)
Definition object_serialize (obj : option bool) (fmt : Z) (t : target) (l : list sopt) (sys : system) (x : outside)
  : run (Z * saved * outside) :=
  match obj with
  | None => Done (ERR_INVALID_OBJECT, SavedNothing, x)
  | Some false => Done (ERR_UNSUPPORTED_OPERATION, SavedNothing, x)
  | Some true =>
      match t with
      | SaveSize out =>
          match save_size fmt out l with
          | Ok n => Done (CCS_RESULT_SUCCESS, SavedSize n, x)
          | Err c => Done (c, SavedNothing, x)
          | UB u => Undef u
          end
      | SaveMemory mem n =>
          match save_memory fmt mem n l with
          | Ok m => Done (CCS_RESULT_SUCCESS, SavedMemory m, x)
          | Err c => Done (c, SavedNothing, x)
          | UB u => Undef u
          end
      | SaveFile path =>
          match save_file fmt path l sys (ou_world x) with
          | Done (c, w) => Done (c, SavedNothing, mkOutside w (ou_stream x) (ou_write x) (ou_read x))
          | Waits => Waits
          | Undef u => Undef u
          end
      | SaveFd fd =>
          match save_fd fmt fd l (ou_write x) (ou_stream x) with
          | Done (c, st, e) => Done (c, SavedNothing, mkOutside (ou_world x) e st (ou_read x))
          | Waits => Waits
          | Undef u => Undef u
          end
      | SaveOther _ => Done (ERR_INVALID_VALUE, SavedNothing, x)
      end
  end.
End Save.

(** ** Restoring.  [decode o t]: the decoder of the objects of type [t], given the options
    (src/*_deserialize.h). *)
Section Restore.
Context {A : Type}.
Variable le : bool.
Variable decode : dopts -> Z -> rstate -> res (A * rstate).

(** _ccs_object_deserialize_with_opts: 587-709, the cases of the switch.  The numbers are
    those of include/cconfigspace/base.h 253-295. *)
Definition restorable_types : list Z :=
  [0 (* rng *); 1 (* distribution *); 2 (* parameter *); 3 (* expression *); 9 (* features space *);
   4 (* configuration space *); 6 (* objective space *); 5 (* configuration *); 7 (* evaluation *);
   10 (* features *); 11 (* features evaluation *); 8 (* tuner *); 12 (* features tuner *); 13 (* map *);
   15 (* tree *); 16 (* tree space *); 17 (* tree configuration *); 18 (* tree evaluation *); 19 (* tree tuner *)].
Definition decode_any (o : dopts) (s : rstate) : res (A * rstate) :=
  do t <- peek_enum s;
  if existsb (Z.eqb t) restorable_types then decode o t s else Err ERR_UNSUPPORTED_OPERATION.

(** _ccs_object_deserialize: 711-732; the header raises in other formats, 212-215 *)
Definition deserialize_any (fmt : Z) (op : operation) (mem : list Z) (n : Z) (l : list dopt) : res A :=
  do o <- deserialize_options op l no_dopts;
  if fmt =? FORMAT_BINARY then deserialize_memory le (decode_any o) mem n else Err ERR_INVALID_VALUE.

(** _ccs_object_deserialize_memory: 734-747 *)
Definition restore_memory (fmt : Z) (mem : option (list Z)) (n : Z) (l : list dopt) : res A :=
  match mem with
  | None => Err ERR_INVALID_VALUE
  | Some mem => deserialize_any fmt OpMemory mem n l
  end.

(** _ccs_object_deserialize_file: 749-803 *)
Definition restore_file (fmt : Z) (path : option Z) (l : list dopt) (sys : system) (w : world)
  : run (Z * option A * world) :=
  match path with
  | None => Done (ERR_INVALID_VALUE, None, w)
  | Some path =>
      match (if sy_open sys then wd_files w path else None) with
      | None => Done (ERR_INVALID_FILE_PATH, None, w)
      | Some bytes =>
          let w := add_fd 1 w in
          if negb (sy_stat sys) then Done (ERR_SYSTEM, None, close w) else
          match mmap sys (lenZ bytes) with
          | MapOk =>
              let w := add_map 1 w in
              match deserialize_any fmt OpFile bytes (lenZ bytes) l with
              | UB u => Undef u
              | Err c => Done (c, None, close (munmap w))
              | Ok a => Done (CCS_RESULT_SUCCESS, Some a, close (munmap w))
              end
          | m => Done (map_error m, None, close w)
          end
      end
  end.

(** _ccs_object_deserialize_file_descriptor: 839-947.  In another format the header has no
    bytes (145-159): one read of no bytes, then the header raises.  An operation in
    progress is continued in the format it was started in. *)
Definition read_nothing (nb : bool) (fd : Z) (e : env) : run (answer (A := A)) :=
  match e_sched e with
  | [] => Waits
  | ev :: evs =>
      let e := mkEnv (e_stream e) evs (e_mem e) (e_moves e) (e_blocks e) in
      match ev with
      | EFail => stop ERR_SYSTEM None e
      | _ => if again nb ev then Done (CCS_RESULT_AGAIN, None, Some (mkFd fd 0 [] 0 0), e)
             else stop ERR_INVALID_VALUE None e
      end
  end.
Definition restore_fd (fmt : Z) (fd : Z) (l : list dopt) (st : option fdstate) (e : env)
  : run (answer (A := A)) :=
  match deserialize_options OpFd l no_dopts with
  | UB u => Undef u
  | Err c => Done (c, None, st, e)
  | Ok o =>
      let nb := negb (do_state o =? 0) in
      let st1 := if nb then st else None in
      match
        (if fmt =? FORMAT_BINARY then deserialize_fd le (decode_any o) nb fd st1 e
         else match st1 with
              | Some p =>
                  if negb (f_fd p =? fd) then Done (ERR_INVALID_VALUE, None, st1, e) else read_nothing nb fd e
              | None => match malloc e with
                        | (false, e) => Done (ERR_OUT_OF_MEMORY, None, None, e)
                        | (true, e) => read_nothing nb fd e
                        end
              end)
      with
      | Done (c, a, st2, e1) => Done (c, a, if nb then st2 else st, e1)
      | r => r
      end
  end.

(** ccs_object_deserialize: 949-990.  [RestoreOther]: asking for the size, or any other
    operation; [out]: is the pointer for the object given. *)
Inductive source :=
| RestoreMemory (mem : option (list Z)) (n : Z) | RestoreFile (path : option Z) | RestoreFd (fd : Z)
| RestoreOther (code : Z).
Definition object_deserialize (out : bool) (fmt : Z) (t : source) (l : list dopt) (sys : system) (x : outside)
  : run (Z * option A * outside) :=
  if negb out then Done (ERR_INVALID_VALUE, None, x) else
  match t with
  | RestoreMemory mem n =>
      match restore_memory fmt mem n l with
      | Ok a => Done (CCS_RESULT_SUCCESS, Some a, x)
      | Err c => Done (c, None, x)
      | UB u => Undef u
      end
  | RestoreFile path =>
      match restore_file fmt path l sys (ou_world x) with
      | Done (c, a, w) => Done (c, a, mkOutside w (ou_stream x) (ou_write x) (ou_read x))
      | Waits => Waits
      | Undef u => Undef u
      end
  | RestoreFd fd =>
      match restore_fd fmt fd l (ou_read x) (ou_stream x) with
      | Done (c, a, st, e) => Done (c, a, mkOutside (ou_world x) e (ou_write x) st)
      | Waits => Waits
      | Undef u => Undef u
      end
  | RestoreOther _ => Done (ERR_INVALID_VALUE, None, x)
  end.
End Restore.
