(** Property C77: objects saved to and restored from files. *)
From Coq Require Import ZArith List Bool Lia.
From Verif Require Import Base Datum CodecModel CodecSpec FrameModel FrameSpec StreamModel FileModel FileSpec FileProofs.
Import ListNotations.
Open Scope Z_scope.

(** the code of saving an object and what the file holds afterwards; no other file changes and
    nothing stays open or mapped *)
Theorem C77_saved : forall le body body_size p l o sys w bs, s_taken OpFile l o ->
  encodes (body (so_callback o)) bs -> body_size (so_callback o) = Ok (lenZ bs) -> 13 + lenZ bs < 2 ^ 64 ->
  exists c w1, save_file le body body_size FORMAT_BINARY (Some p) l sys w = Done (c, w1) /\ only_file p w w1 /\
    save_ends sys bs (wd_files w p) c (wd_files w1 p).
Proof. exact save_ok. Qed.
Print Assumptions C77_saved.

(** the same when the object cannot be encoded: the file is there without it *)
Theorem C77_encoder : forall le body body_size fmt p l o sys w, s_taken OpFile l o -> sy_open sys = true ->
  (fmt <> FORMAT_BINARY -> exists w1, save_file le body body_size fmt (Some p) l sys w = Done (ERR_INVALID_VALUE, w1) /\
     only_file p w w1 /\ wd_files w1 p = Some []) /\
  (forall c, fmt = FORMAT_BINARY -> body_size (so_callback o) = Err c ->
     exists w1, save_file le body body_size fmt (Some p) l sys w = Done (c, w1) /\ only_file p w w1 /\ wd_files w1 p = Some []) /\
  (forall c b, fmt = FORMAT_BINARY -> body_size (so_callback o) = Ok b -> 0 <= b -> writable sys ->
     serialize_memory le (body (so_callback o)) (repeat 0 (Z.to_nat (13 + b))) (13 + b) = Err c ->
     exists w1, save_file le body body_size fmt (Some p) l sys w = Done (c, w1) /\ only_file p w w1 /\
       wd_files w1 p = Some (sy_left sys)).
Proof. exact save_encoder. Qed.
Print Assumptions C77_encoder.

(** whatever happens, a call that returns changes no other file and leaves nothing open *)
Theorem C77_save_only : forall le body body_size fmt p l sys w c w1,
  save_file le body body_size fmt (Some p) l sys w = Done (c, w1) -> only_file p w w1.
Proof. exact save_only. Qed.
Print Assumptions C77_save_only.

(** a call that is refused, or cannot open the file, changes nothing *)
Theorem C77_save_refused : forall le body body_size fmt path l sys w, path = None \/ s_refused OpFile l ->
  save_file le body body_size fmt path l sys w = Done (ERR_INVALID_VALUE, w).
Proof. exact save_refused. Qed.
Print Assumptions C77_save_refused.
Theorem C77_save_unopened : forall le body body_size fmt path l sys w, sy_open sys = false ->
  exists c, save_file le body body_size fmt path l sys w = Done (c, w) /\ c < 0.
Proof. exact save_no_path. Qed.
Print Assumptions C77_save_unopened.

(** restoring from a file is restoring its bytes from memory *)
Theorem C77_restored : forall (A : Type) le (decode : dopts -> Z -> rstate -> res (A * rstate)) fmt p l sys w bytes,
  readable sys -> wd_files w p = Some bytes -> bytes <> [] ->
  as_from_memory (restore_memory le decode fmt (Some bytes) (lenZ bytes) l) w (restore_file le decode fmt (Some p) l sys w).
Proof. exact (fun A => @restore_read A). Qed.
Print Assumptions C77_restored.

(** the code when the file cannot be read *)
Theorem C77_unread : forall (A : Type) le (decode : dopts -> Z -> rstate -> res (A * rstate)) fmt p l sys w c,
  unread sys (wd_files w p) c ->
  exists w1, restore_file le decode fmt (Some p) l sys w = Done (c, None, w1) /\ same_world w w1.
Proof. exact (fun A => @restore_unread A). Qed.
Print Assumptions C77_unread.

(** restoring changes no file and leaves nothing open *)
Theorem C77_restore_same : forall (A : Type) le (decode : dopts -> Z -> rstate -> res (A * rstate)) fmt path l sys w c a w1,
  restore_file le decode fmt path l sys w = Done (c, a, w1) -> same_world w w1.
Proof. exact (fun A => @restore_same A). Qed.
Print Assumptions C77_restore_same.

(** what was saved successfully is restored as long as the file stays as it is *)
Theorem C77_round : forall (A : Type) le (decode : dopts -> Z -> rstate -> res (A * rstate))
    body body_size p sl so sys w bs t bt rest a dl do_ sys2 w1 w2,
  s_taken OpFile sl so -> encodes (body (so_callback so)) bs -> body_size (so_callback so) = Ok (lenZ bs) ->
  13 + lenZ bs < 2 ^ 64 -> bs = bt ++ rest -> restorable t -> leb128 t bt -> d_taken OpMemory dl do_ ->
  decodes (decode do_ t) a bs ->
  save_file le body body_size FORMAT_BINARY (Some p) sl sys w = Done (CCS_RESULT_SUCCESS, w1) ->
  readable sys2 -> wd_files w2 p = wd_files w1 p ->
  exists w3, restore_file le decode FORMAT_BINARY (Some p) dl sys2 w2 = Done (CCS_RESULT_SUCCESS, Some a, w3) /\
    same_world w2 w3.
Proof. exact (fun A => @round A). Qed.
Print Assumptions C77_round.

(** a file that was cut is refused (for an empty one see [C77_unread]) *)
Theorem C77_cut : forall (A : Type) le (decode : dopts -> Z -> rstate -> res (A * rstate)) l o t bt rest a p q path sys w,
  d_taken OpMemory l o -> restorable t -> leb128 t bt -> decodes (decode o t) a (bt ++ rest) ->
  13 + lenZ (bt ++ rest) < 2 ^ 64 -> framed (bt ++ rest) = p ++ q -> p <> [] -> q <> [] ->
  readable sys -> wd_files w path = Some p ->
  exists w1, restore_file le decode FORMAT_BINARY (Some path) l sys w = Done (ERR_NOT_ENOUGH_DATA, None, w1) /\
    same_world w w1.
Proof. exact (fun A => @file_cut A). Qed.
Print Assumptions C77_cut.

(** ** Examples: a number saved as a map would be, the callback is added to it *)
Definition ex_body (cb : Z) (s : wstate) : res wstate := do s <- ser_uint 32 13 s; ser_uint 32 (5 + cb) s.
Definition ex_size (cb : Z) : res Z := Ok 2.
Definition ex_decode (o : dopts) (t : Z) (s : rstate) : res (Z * rstate) := do (_, s) <- deser_uint 32 s; deser_uint 32 s.
Definition ex_world : world := mkWorld (fun p => if p =? 7 then Some [1; 2; 3] else None) 3 1.
Definition ex_ok : system := mkSystem true true MapOk true true [].
Definition ex_view (p q : Z) (r : run (Z * world)) :=
  match r with Done (c, w) => Some (c, wd_files w p, wd_files w q, wd_fds w, wd_maps w) | _ => None end.
Definition ex_then {B} (r : run (Z * world)) (f : world -> B) : option B := match r with Done (_, w) => Some (f w) | _ => None end.
Definition ex_read (l : list dopt) (sys : system) (p : Z) (w : world) :=
  match restore_file true ex_decode FORMAT_BINARY (Some p) l sys w with
  | Done (c, a, w) => Some (c, a, wd_fds w, wd_maps w) | _ => None end.
Notation ex_save l sys := (save_file true ex_body ex_size FORMAT_BINARY (Some 8) l sys ex_world).
Example C77_example_save :
  ex_view 8 7 (ex_save [SCallback 3; SCallback 4] ex_ok) =
  Some (CCS_RESULT_SUCCESS, Some [67; 67; 83; 0; 15; 0; 0; 0; 0; 0; 0; 0; 1; 13; 9], Some [1; 2; 3], 3, 1).
Proof. vm_compute. reflexivity. Qed.
Example C77_example_load :
  ex_then (ex_save [SCallback 4] ex_ok) (ex_read [DData 5] ex_ok 8) = Some (Some (CCS_RESULT_SUCCESS, Some 9, 3, 1)) /\
  ex_then (ex_save [SCallback 4] ex_ok) (ex_read [] ex_ok 7) = Some (Some (ERR_NOT_ENOUGH_DATA, None, 3, 1)) /\
  ex_then (ex_save [SCallback 4] ex_ok) (ex_read [] ex_ok 9) = Some (Some (ERR_INVALID_FILE_PATH, None, 3, 1)).
Proof. repeat split; vm_compute; reflexivity. Qed.
Example C77_example_fails :
  ex_view 8 7 (ex_save [] (mkSystem true true MapNoMemory true true [])) = Some (ERR_OUT_OF_MEMORY, Some [], Some [1; 2; 3], 3, 1) /\
  ex_view 8 7 (ex_save [] (mkSystem false true MapOk true true [])) = Some (ERR_INVALID_FILE_PATH, None, Some [1; 2; 3], 3, 1) /\
  ex_view 8 7 (ex_save [SNonBlocking 2] ex_ok) = Some (ERR_INVALID_VALUE, None, Some [1; 2; 3], 3, 1).
Proof. repeat split; vm_compute; reflexivity. Qed.

(** ** Exceptions *)

(** a save that fails destroys what the file held before: the object saved before is lost *)
Theorem C77_kept_refuted : exists w1 w2,
  ex_save [] ex_ok = Done (CCS_RESULT_SUCCESS, w1) /\ ex_read [] ex_ok 8 w1 = Some (CCS_RESULT_SUCCESS, Some 5, 3, 1) /\
  save_file true ex_body ex_size FORMAT_BINARY (Some 8) [] (mkSystem true true MapNoMemory true true []) w1 =
    Done (ERR_OUT_OF_MEMORY, w2) /\
  wd_files w2 8 = Some [] /\ ex_read [] ex_ok 8 w2 = Some (ERR_SYSTEM, None, 3, 1).
Proof.
  do 2 eexists. split; [lazy; reflexivity|]. split; [vm_compute; reflexivity|]. split; [lazy; reflexivity|].
  split; vm_compute; reflexivity.
Qed.
Print Assumptions C77_kept_refuted.
(** so does asking for a format that does not exist *)
Theorem C77_format_refuted : exists w1,
  save_file true ex_body ex_size 1 (Some 7) [] ex_ok ex_world = Done (ERR_INVALID_VALUE, w1) /\
  wd_files ex_world 7 = Some [1; 2; 3] /\ wd_files w1 7 = Some [].
Proof. eexists. split; [lazy; reflexivity|]. split; vm_compute; reflexivity. Qed.
Print Assumptions C77_format_refuted.
(** an empty file is not reported as too short *)
Theorem C77_empty_refuted : ~ (forall p w, wd_files w p = Some [] ->
  exists w1, restore_file true ex_decode FORMAT_BINARY (Some p) [] ex_ok w = Done (ERR_NOT_ENOUGH_DATA, None, w1)).
Proof.
  intros H. destruct (H 1 (mkWorld (fun _ => Some []) 0 0) eq_refl) as [w1 E]. vm_compute in E. discriminate.
Qed.
Print Assumptions C77_empty_refuted.
