(** Property C78: the entry points that save and restore objects, their options, and the
    types of the objects. *)
From Coq Require Import ZArith List Bool Lia.
From Verif Require Import Base Datum CodecModel CodecSpec FrameModel FrameSpec StreamModel StreamSpec FileModel FileSpec FileProofs FileApi.
Import ListNotations.
Open Scope Z_scope.

(** options are accepted when all of them are, and the last of each kind counts *)
Theorem C78_save_options : forall op l,
  (forall o, serialize_options op l no_sopts = Ok o <-> s_taken op l o) /\
  (forall c, serialize_options op l no_sopts = Err c <-> s_refused op l /\ c = ERR_INVALID_VALUE) /\
  ((exists o, s_taken op l o) \/ s_refused op l).
Proof. exact (fun op l => conj (s_options_ok op l) (conj (s_options_err op l) (s_options_total op l))). Qed.
Print Assumptions C78_save_options.
Theorem C78_restore_options : forall op l,
  (forall o, deserialize_options op l no_dopts = Ok o <-> d_taken op l o) /\
  (forall c, deserialize_options op l no_dopts = Err c <-> d_refused op l c) /\
  ((exists o, d_taken op l o) \/ (exists c, d_refused op l c)).
Proof. exact (fun op l => conj (d_options_ok op l) (conj (d_options_err op l) (d_options_total op l))). Qed.
Print Assumptions C78_restore_options.

(** the type at the head of the bytes chooses the decoder; error stacks and unknown types are
    refused *)
Theorem C78_types : forall (A : Type) (decode : dopts -> Z -> rstate -> res (A * rstate)) o t bt tl n,
  0 <= t < 2 ^ 32 -> leb128 t bt -> lenZ bt <= n <= lenZ (bt ++ tl) -> n < 2 ^ 64 ->
  (restorable t -> decode_any decode o (mkR (bt ++ tl) n) = decode o t (mkR (bt ++ tl) n)) /\
  (~ restorable t -> decode_any decode o (mkR (bt ++ tl) n) = Err ERR_UNSUPPORTED_OPERATION).
Proof. exact (fun A => @decode_any_type A). Qed.
Print Assumptions C78_types.

(** the size announced is the number of bytes every way of saving delivers, and the bytes are the
    same *)
Theorem C78_size : forall le body body_size garbage l o sys x bs,
  s_taken OpSize l o -> body_size (so_callback o) = Ok (lenZ bs) ->
  object_serialize le body body_size garbage (Some true) FORMAT_BINARY (SaveSize true) l sys x =
  Done (CCS_RESULT_SUCCESS, SavedSize (lenZ (framed bs)), x).
Proof. exact api_size. Qed.
Print Assumptions C78_size.
Theorem C78_memory : forall le body body_size garbage l o sys x bs mem n,
  s_taken OpSize l o -> encodes (body (so_callback o)) bs -> n = lenZ mem -> n < 2 ^ 64 ->
  (lenZ (framed bs) <= n ->
   object_serialize le body body_size garbage (Some true) FORMAT_BINARY (SaveMemory (Some mem) n) l sys x =
   Done (CCS_RESULT_SUCCESS, SavedMemory (framed bs ++ skipn (length (framed bs)) mem), x)) /\
  (n < lenZ (framed bs) ->
   object_serialize le body body_size garbage (Some true) FORMAT_BINARY (SaveMemory (Some mem) n) l sys x =
   Done (ERR_NOT_ENOUGH_DATA, SavedNothing, x)).
Proof. exact api_memory. Qed.
Print Assumptions C78_memory.
Theorem C78_file : forall le body body_size garbage l o sys x bs p,
  s_taken OpSize l o -> encodes (body (so_callback o)) bs -> body_size (so_callback o) = Ok (lenZ bs) ->
  lenZ (framed bs) < 2 ^ 64 -> writable sys ->
  exists w1, object_serialize le body body_size garbage (Some true) FORMAT_BINARY (SaveFile (Some p)) l sys x =
    Done (CCS_RESULT_SUCCESS, SavedNothing, mkOutside w1 (ou_stream x) (ou_write x) (ou_read x)) /\
    only_file p (ou_world x) w1 /\ wd_files w1 p = Some (framed bs).
Proof. exact api_file. Qed.
Print Assumptions C78_file.
Theorem C78_fd : forall le body body_size garbage l o sys x bs fd, (forall n, 0 <= n -> lenZ (garbage n) = n) ->
  s_taken OpSize l o -> encodes (body (so_callback o)) bs -> body_size (so_callback o) = Ok (lenZ bs) ->
  lenZ (framed bs) < 2 ^ 64 -> calm (e_sched (ou_stream x)) -> e_mem (ou_stream x) = [] ->
  let r := object_serialize le body body_size garbage (Some true) FORMAT_BINARY (SaveFd fd) l sys x in
  (r = Waits /\ transfers (e_sched (ou_stream x)) < lenZ (framed bs)) \/
  (exists e1, r = Done (CCS_RESULT_SUCCESS, SavedNothing, mkOutside (ou_world x) e1 (ou_write x) (ou_read x)) /\
     e_stream e1 = e_stream (ou_stream x) ++ framed bs /\ e_blocks e1 = e_blocks (ou_stream x)).
Proof. exact api_fd. Qed.
Print Assumptions C78_fd.

(** every way of restoring delivers the object *)
Theorem C78_restore_memory : forall (A : Type) le (decode : dopts -> Z -> rstate -> res (A * rstate)) l o t bt rest a tl n sys x,
  d_taken OpMemory l o -> restorable t -> leb128 t bt -> decodes (decode o t) a (bt ++ rest) ->
  lenZ (framed (bt ++ rest)) <= n <= lenZ (framed (bt ++ rest) ++ tl) -> n < 2 ^ 64 ->
  object_deserialize le decode true FORMAT_BINARY (RestoreMemory (Some (framed (bt ++ rest) ++ tl)) n) l sys x =
  Done (CCS_RESULT_SUCCESS, Some a, x).
Proof. exact (fun A => @api_restore_memory A). Qed.
Print Assumptions C78_restore_memory.
Theorem C78_restore_file : forall (A : Type) le (decode : dopts -> Z -> rstate -> res (A * rstate)) l o t bt rest a tl p sys x,
  d_taken OpMemory l o -> restorable t -> leb128 t bt -> decodes (decode o t) a (bt ++ rest) ->
  lenZ (framed (bt ++ rest) ++ tl) < 2 ^ 64 -> readable sys ->
  wd_files (ou_world x) p = Some (framed (bt ++ rest) ++ tl) ->
  exists w1, object_deserialize le decode true FORMAT_BINARY (RestoreFile (Some p)) l sys x =
    Done (CCS_RESULT_SUCCESS, Some a, mkOutside w1 (ou_stream x) (ou_write x) (ou_read x)) /\ same_world (ou_world x) w1.
Proof. exact (fun A => @api_restore_file A). Qed.
Print Assumptions C78_restore_file.
Theorem C78_restore_fd : forall (A : Type) le (decode : dopts -> Z -> rstate -> res (A * rstate)) l o t bt rest a tl fd sys x,
  d_taken OpMemory l o -> restorable t -> leb128 t bt -> decodes (decode o t) a (bt ++ rest) ->
  lenZ (framed (bt ++ rest)) < 2 ^ 64 -> e_stream (ou_stream x) = framed (bt ++ rest) ++ tl ->
  calm (e_sched (ou_stream x)) -> e_mem (ou_stream x) = [] ->
  lenZ (framed (bt ++ rest)) < transfers (e_sched (ou_stream x)) ->
  exists e1, object_deserialize le decode true FORMAT_BINARY (RestoreFd fd) l sys x =
    Done (CCS_RESULT_SUCCESS, Some a, mkOutside (ou_world x) e1 (ou_write x) (ou_read x)) /\
    e_stream e1 = tl /\ e_blocks e1 = e_blocks (ou_stream x).
Proof. exact (fun A => @api_restore_fd A). Qed.
Print Assumptions C78_restore_fd.

(** calls that are refused touch nothing *)
Theorem C78_refused : forall le body body_size garbage fmt t l sys x,
  object_serialize le body body_size garbage None fmt t l sys x = Done (ERR_INVALID_OBJECT, SavedNothing, x) /\
  object_serialize le body body_size garbage (Some false) fmt t l sys x = Done (ERR_UNSUPPORTED_OPERATION, SavedNothing, x) /\
  (s_refused (op_of t) l \/ t = SaveSize false \/ (exists n, t = SaveMemory None n) \/ t = SaveFile None \/ (exists c, t = SaveOther c) ->
   object_serialize le body body_size garbage (Some true) fmt t l sys x = Done (ERR_INVALID_VALUE, SavedNothing, x)).
Proof. exact (fun le b z g f t l s x => conj (api_not_object le b z g f t l s x) (conj (api_no_operation le b z g f t l s x) (api_refused le b z g f t l s x))). Qed.
Print Assumptions C78_refused.
Theorem C78_restore_refused : forall (A : Type) le (decode : dopts -> Z -> rstate -> res (A * rstate)) out fmt t l sys x,
  (out = false \/ (exists n, t = RestoreMemory None n) \/ t = RestoreFile None \/ (exists c, t = RestoreOther c) ->
   object_deserialize le decode out fmt t l sys x = Done (ERR_INVALID_VALUE, None, x)) /\
  (forall c, d_refused (op_from t) l c ->
   (exists mem n, t = RestoreMemory (Some mem) n) \/ (exists fd, t = RestoreFd fd) ->
   object_deserialize le decode true fmt t l sys x = Done (c, None, x)) /\
  (forall c p bytes, t = RestoreFile (Some p) -> d_refused OpFile l c -> readable sys ->
   wd_files (ou_world x) p = Some bytes -> bytes <> [] ->
   exists w1, object_deserialize le decode true fmt t l sys x =
     Done (c, None, mkOutside w1 (ou_stream x) (ou_write x) (ou_read x)) /\ same_world (ou_world x) w1).
Proof. exact (fun A => @api_restore_refused A). Qed.
Print Assumptions C78_restore_refused.

(** an object is delivered exactly when the call succeeds *)
Theorem C78_delivers : forall (A : Type) le (decode : dopts -> Z -> rstate -> res (A * rstate)),
  (forall o t s c, decode o t s = Err c -> c < 0) ->
  forall out fmt t l sys x c a x1, object_deserialize le decode out fmt t l sys x = Done (c, a, x1) ->
  (c = CCS_RESULT_SUCCESS /\ a <> None) \/ (c = CCS_RESULT_AGAIN /\ a = None /\ exists fd, t = RestoreFd fd) \/
  (c < 0 /\ a = None).
Proof. exact (fun A => @api_delivers A). Qed.
Print Assumptions C78_delivers.

(** in a format other than the binary one nothing is ever saved or restored *)
Theorem C78_save_format : forall le body body_size garbage obj fmt t l sys x c s x1, fmt <> FORMAT_BINARY ->
  object_serialize le body body_size garbage obj fmt t l sys x = Done (c, s, x1) ->
  c < 0 /\ s = SavedNothing /\ e_stream (ou_stream x1) = e_stream (ou_stream x).
Proof. exact api_format. Qed.
Print Assumptions C78_save_format.
Theorem C78_restore_format : forall (A : Type) le (decode : dopts -> Z -> rstate -> res (A * rstate)),
  (forall o t s c, decode o t s = Err c -> c < 0) ->
  forall out fmt t l sys x c a x1, fmt <> FORMAT_BINARY ->
  object_deserialize le decode out fmt t l sys x = Done (c, a, x1) -> a = None /\ c <> CCS_RESULT_SUCCESS.
Proof. exact (fun A => @api_restore_format A). Qed.
Print Assumptions C78_restore_format.

(** ** Examples *)
Definition ax_body (cb : Z) (s : wstate) : res wstate := do s <- ser_uint 32 13 s; ser_uint 32 (5 + cb) s.
Definition ax_size (cb : Z) : res Z := Ok 2.
Definition ax_decode (o : dopts) (t : Z) (s : rstate) : res (Z * rstate) :=
  do (_, s) <- deser_uint 32 s; do (v, s) <- deser_uint 32 s; Ok (v + do_data o, s).
Definition ax_garbage (n : Z) : list Z := repeat 85 (Z.to_nat n).
Definition ax_ok : system := mkSystem true true MapOk true true [].
Definition ax_out (stream : list Z) (sched : list event) : outside :=
  mkOutside (mkWorld (fun _ => None) 0 0) (mkEnv stream sched [] [] 0) None None.
Definition ax_save (t : target) (l : list sopt) (x : outside) :=
  match object_serialize true ax_body ax_size ax_garbage (Some true) FORMAT_BINARY t l ax_ok x with
  | Done (c, s, x) => Some (c, s, wd_files (ou_world x) 4, e_stream (ou_stream x)) | _ => None end.
Definition ax_load (t : source) (l : list dopt) (x : outside) :=
  match object_deserialize true ax_decode true FORMAT_BINARY t l ax_ok x with
  | Done (c, a, x) => Some (c, a, e_stream (ou_stream x)) | _ => None end.
Definition ax_bytes : list Z := [67; 67; 83; 0; 15; 0; 0; 0; 0; 0; 0; 0; 1; 13; 7].
Example C78_example_ways :
  ax_save (SaveSize true) [SCallback 2] (ax_out [] []) = Some (0, SavedSize 15, None, []) /\
  ax_save (SaveMemory (Some (repeat 9 16)) 16) [SCallback 2] (ax_out [] []) = Some (0, SavedMemory (ax_bytes ++ [9]), None, []) /\
  ax_save (SaveMemory (Some (repeat 9 14)) 14) [SCallback 2] (ax_out [] []) = Some (ERR_NOT_ENOUGH_DATA, SavedNothing, None, []) /\
  ax_save (SaveFile (Some 4)) [SCallback 2] (ax_out [] []) = Some (0, SavedNothing, Some ax_bytes, []) /\
  ax_save (SaveFd 3) [SCallback 2] (ax_out [1] [EData 3; EAgain; EData 40]) = Some (0, SavedNothing, None, 1 :: ax_bytes) /\
  ax_save (SaveFile (Some 4)) [SCallback 2; SNonBlocking 5] (ax_out [] []) = Some (ERR_INVALID_VALUE, SavedNothing, None, []).
Proof. repeat split; vm_compute; reflexivity. Qed.
Example C78_example_back :
  ax_load (RestoreMemory (Some ax_bytes) 15) [DData 10; DData 20] (ax_out [] []) = Some (0, Some 27, []) /\
  ax_load (RestoreFd 3) [DData 20] (ax_out (ax_bytes ++ [8]) (repeat (EData 4) 20)) = Some (0, Some 27, [8]) /\
  ax_load (RestoreMemory (Some ax_bytes) 15) [DData 10; DMap None; DUnknown 9] (ax_out [] []) = Some (ERR_INVALID_OBJECT, None, []) /\
  ax_load (RestoreMemory (Some (firstn 13 ax_bytes ++ [14; 7])) 15) [] (ax_out [] []) = Some (ERR_UNSUPPORTED_OPERATION, None, []).
Proof. repeat split; vm_compute; reflexivity. Qed.
