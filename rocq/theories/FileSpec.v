(** What saving and restoring objects does to files, and which options, object types and
    operations are accepted. *)
From Coq Require Import ZArith List Bool.
From Verif Require Import Base Datum CodecModel CodecSpec FrameModel FrameSpec StreamModel FileModel.
Import ListNotations.
Open Scope Z_scope.

(** ** Options *)

(** The last value given by the options, 0 when there is none. *)
Definition latest {X : Type} (gives : X -> option Z) (l : list X) (v : Z) : Prop :=
  (exists pre x post, l = pre ++ x :: post /\ gives x = Some v /\ Forall (fun y => gives y = None) post) \/
  (v = 0 /\ Forall (fun y => gives y = None) l).
(** The first option that is not good, and those before it. *)
Definition first_bad {X : Type} (good : X -> Prop) (l : list X) (x : X) : Prop :=
  exists pre post, l = pre ++ x :: post /\ Forall good pre /\ ~ good x.

Definition s_good (op : operation) (x : sopt) : Prop :=
  match x with
  | SNonBlocking p => op = OpFd /\ p <> 0
  | SCallback c => c <> 0
  | SUnknown _ => False
  end.
Definition s_state (x : sopt) : option Z := match x with SNonBlocking p => Some p | _ => None end.
Definition s_callback (x : sopt) : option Z := match x with SCallback c => Some c | _ => None end.
Definition s_taken (op : operation) (l : list sopt) (o : sopts) : Prop :=
  Forall (s_good op) l /\ latest s_state l (so_state o) /\ latest s_callback l (so_callback o).
Definition s_refused (op : operation) (l : list sopt) : Prop := Exists (fun x => ~ s_good op x) l.

Definition d_good (op : operation) (x : dopt) : Prop :=
  match x with
  | DMap m => m <> None
  | DVector v => v <> 0
  | DData _ => True
  | DNonBlocking p => op = OpFd /\ p <> 0
  | DCallback c => c <> 0
  | DUnknown _ => False
  end.
Definition d_map (x : dopt) : option Z := match x with DMap m => m | _ => None end.
Definition d_vector (x : dopt) : option Z := match x with DVector v => Some v | _ => None end.
Definition d_data (x : dopt) : option Z := match x with DData d => Some d | _ => None end.
Definition d_state (x : dopt) : option Z := match x with DNonBlocking p => Some p | _ => None end.
Definition d_callback (x : dopt) : option Z := match x with DCallback c => Some c | _ => None end.
Definition d_code (x : dopt) : Z := match x with DMap _ => ERR_INVALID_OBJECT | _ => ERR_INVALID_VALUE end.
Definition d_taken (op : operation) (l : list dopt) (o : dopts) : Prop :=
  Forall (d_good op) l /\ latest d_map l (do_map o) /\ latest d_vector l (do_vector o) /\
  latest d_data l (do_data o) /\ latest d_state l (do_state o) /\ latest d_callback l (do_callback o).
Definition d_refused (op : operation) (l : list dopt) (c : Z) : Prop :=
  exists x, first_bad (d_good op) l x /\ c = d_code x.

(** ** Object types: all but error stacks *)
Definition restorable (t : Z) : Prop := 0 <= t < 20 /\ t <> 14.

(** ** Files *)

(** Descriptors and mappings are as before, and so are the files other than [p]. *)
Definition only_file (p : Z) (w w1 : world) : Prop :=
  (forall q, q <> p -> wd_files w1 q = wd_files w q) /\ wd_fds w1 = wd_fds w /\ wd_maps w1 = wd_maps w.
Definition same_world (w w1 : world) : Prop :=
  (forall q, wd_files w1 q = wd_files w q) /\ wd_fds w1 = wd_fds w /\ wd_maps w1 = wd_maps w.

Definition map_code (m : mapped) (c : Z) : Prop :=
  match m with
  | MapOk => False
  | MapNoMemory => c = ERR_OUT_OF_MEMORY
  | MapDenied => c = ERR_INVALID_FILE_PATH
  | MapFails => c = ERR_SYSTEM
  end.

(** The code of saving an object with encoding [bs], and what the file holds afterwards. *)
Inductive save_ends (sys : system) (bs : list Z) (old : option (list Z)) : Z -> option (list Z) -> Prop :=
| save_no_open : sy_open sys = false -> save_ends sys bs old ERR_INVALID_FILE_PATH old
| save_no_map c : sy_open sys = true -> map_code (sy_map sys) c -> save_ends sys bs old c (Some [])
| save_no_size : sy_open sys = true -> sy_map sys = MapOk -> sy_truncate sys = false ->
    save_ends sys bs old ERR_SYSTEM (Some [])
| save_no_sync : sy_open sys = true -> sy_map sys = MapOk -> sy_truncate sys = true -> sy_sync sys = false ->
    save_ends sys bs old ERR_SYSTEM (Some (framed bs))
| save_done : sy_open sys = true -> sy_map sys = MapOk -> sy_truncate sys = true -> sy_sync sys = true ->
    save_ends sys bs old CCS_RESULT_SUCCESS (Some (framed bs)).

(** Reading a file that holds [bytes] is reading those bytes from memory. *)
Definition as_from_memory {A : Type} (r : res A) (w : world) (x : run (Z * option A * world)) : Prop :=
  match r with
  | Ok a => exists w1, x = Done (CCS_RESULT_SUCCESS, Some a, w1) /\ same_world w w1
  | Err c => exists w1, x = Done (c, None, w1) /\ same_world w w1
  | UB u => x = Undef u
  end.
(** The reasons for which a file is not read. *)
Inductive unread (sys : system) (bytes : option (list Z)) : Z -> Prop :=
| unread_no_open : sy_open sys = false -> unread sys bytes ERR_INVALID_FILE_PATH
| unread_no_file : bytes = None -> unread sys bytes ERR_INVALID_FILE_PATH
| unread_no_stat b : sy_open sys = true -> bytes = Some b -> sy_stat sys = false -> unread sys bytes ERR_SYSTEM
| unread_empty : sy_open sys = true -> bytes = Some [] -> sy_stat sys = true -> unread sys bytes ERR_SYSTEM
| unread_no_map b c : sy_open sys = true -> bytes = Some b -> b <> [] -> sy_stat sys = true ->
    map_code (sy_map sys) c -> unread sys bytes c.
(** The file is opened, measured and mapped. *)
Definition readable (sys : system) : Prop := sy_open sys = true /\ sy_stat sys = true /\ sy_map sys = MapOk.
Definition writable (sys : system) : Prop :=
  sy_open sys = true /\ sy_map sys = MapOk /\ sy_truncate sys = true /\ sy_sync sys = true.

(** The operation a call asks for, as far as its options are concerned. *)
Definition op_of (t : target) : operation :=
  match t with SaveSize _ | SaveOther _ => OpSize | SaveMemory _ _ => OpMemory | SaveFile _ => OpFile | SaveFd _ => OpFd end.
Definition op_from (t : source) : operation :=
  match t with RestoreMemory _ _ | RestoreOther _ => OpMemory | RestoreFile _ => OpFile | RestoreFd _ => OpFd end.
