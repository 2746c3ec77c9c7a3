(** Serialisation and restoration of random tuners: src/tuner_random.c,
    src/features_tuner_random.c, src/tree_tuner_random.c, src/tuner_internal.h,
    src/features_tuner_internal.h, src/tree_tuner_internal.h and the matching *_deserialize.h,
    which are the same code up to the names of types and the spaces of the tuner.

    The codecs of the spaces are given: [Sp] are the spaces of a tuner with their contents.
    User defined tuners are read with the vector of the application; here there is none.
    Reference counts and the allocations of the constructors are left out. *)
From Coq Require Import ZArith List Bool.
From Verif Require Import Base Datum CodecModel CmpModel ParamModel ContextModel EvalModel TreeModel RngModel TreeSpaceModel TreeConfModel RestoreModel.
Import ListNotations.
Open Scope Z_scope.

(** include/cconfigspace/base.h 253-298, tuner.h 19-28, and the likes *)
Definition OBJ_TUNER := 8.
Definition OBJ_FEATURES_TUNER := 12.
Definition OBJ_TREE_TUNER := 19.
Definition TUNER_RANDOM := 0.
Definition TUNER_USER_DEFINED := 1.

(** A random tuner: tuner_random.c 7-12, tuner_internal.h 48-54. The optima are addresses of
    evaluations. *)
Record rtuner (E Sp : Type) := mkRT {
  rt_id : Z; rt_name : list Z; rt_spaces : Sp; rt_history : list (eobj E); rt_optima : list Z; rt_ud : option (list Z) }.
Arguments mkRT {E Sp}. Arguments rt_id {E Sp}. Arguments rt_name {E Sp}. Arguments rt_spaces {E Sp}. Arguments rt_history {E Sp}.
Arguments rt_optima {E Sp}. Arguments rt_ud {E Sp}.

Section Tuner.
  Variables (E Sp : Type).
  Section Write.
    Variables (ser_spaces : Sp -> wstate -> res wstate) (size_spaces : Sp -> res Z).
    Variables (ser_e : eobj E -> wstate -> res wstate) (size_e : eobj E -> res Z).
    (** tuner_random.c 31-75 *)
    Fixpoint ser_history (l : list (eobj E)) (s : wstate) : res wstate :=
      match l with [] => Ok s | e :: l' => do s <- ser_e e s; ser_history l' s end.
    Fixpoint size_history (l : list (eobj E)) : res Z :=
      match l with [] => Ok 0 | e :: l' => do a <- size_e e; do b <- size_history l'; Ok (a + b) end.
    (** tuner_random.c 77-150; a list of handles is written like one of numbers. [oty] is the
        type of the tuner object. *)
    Definition ser_tuner (oty : Z) (t : rtuner E Sp) (s : wstate) : res wstate :=
      do s <- ser_object_internal oty (rt_id t) s;
      do s <- ser_enum TUNER_RANDOM s;
      do s <- ser_string (rt_name t) s;
      do s <- ser_spaces (rt_spaces t) s;
      do s <- ser_size (lenZ (rt_history t)) s;
      do s <- ser_size (lenZ (rt_optima t)) s;
      do s <- ser_history (rt_history t) s;
      do s <- ser_positions (rt_optima t) s;
      ser_user_data (rt_ud t) s.
    Definition size_tuner (oty : Z) (t : rtuner E Sp) : res Z :=
      do p <- size_spaces (rt_spaces t);
      do h <- size_history (rt_history t);
      Ok (size_object_internal oty (rt_id t) + size_enum TUNER_RANDOM + size_string (rt_name t) + p + size_size (lenZ (rt_history t)) +
          size_size (lenZ (rt_optima t)) + h + size_positions (rt_optima t) + size_user_data (rt_ud t)).
  End Write.
  Section Read.
    (** whether calloc gives this many bytes *)
    Variable mem : Z -> bool.
    Variable deser_spaces : hmap -> rstate -> res ((Sp * hmap) * rstate).
    (** the evaluation number [i], recorded in the map *)
    Variable read_e : Sp -> nat -> hmap -> rstate -> res ((eobj E * hmap) * rstate).
    (** tuner_deserialize.h 64-67. The array has [cells] cells; cell [i] is written when the
        evaluation is built. [fuel] is more than the bytes left. *)
    Fixpoint deser_history (sp : Sp) (fuel : nat) (cells i n : Z) (m : hmap) (s : rstate) : res ((list (eobj E) * hmap) * rstate) :=
      match fuel with
      | O => UB UBFuel
      | S fuel =>
          if i =? n then Ok (([], m), s) else
          do (r, s) <- read_e sp (Z.to_nat i) m s;
          if cells <=? i then UB UBBounds else
          do (l, s) <- deser_history sp fuel cells (i + 1) n (snd r) s;
          Ok ((fst r :: fst l, snd l), s)
      end.
    (** 72-80 *)
    Fixpoint find_optima (m : hmap) (l : list Z) : res (list Z) :=
      match l with [] => Ok [] | h :: l' => do a <- found m h; do k <- find_optima m l'; Ok (a :: k) end.
    (** 38-84, and 126-129 for the counts that sum up to 0 *)
    Definition deser_tuner_data (s : rstate) : res ((list Z * Sp * list (eobj E) * list Z) * rstate) :=
      do (_, s) <- deser_enum s;
      do (nm, s) <- deser_string s;
      do (sm, s) <- deser_spaces (fun _ => None) s;
      do (nh, s) <- deser_size s;
      do (no, s) <- deser_size s;
      let cells := wrap 64 (nh + no) in
      if cells =? 0 then if nh =? 0 then Ok ((nm, fst sm, [], []), s) else UB UBBounds else
      if negb (mem (8 * cells)) then Err ERR_OUT_OF_MEMORY else
      do (h, s) <- deser_history (fst sm) (S (length (r_mem s))) cells 0 nh (snd sm) s;
      do (o, s) <- deser_positions (S (length (r_mem s))) (8 * cells) nh (nh + no) s;
      do o <- find_optima (snd h) o;
      Ok ((nm, fst sm, fst h, o), s).
    (** 242-330; [unsupported] is the error for other types of tuners, [hm] the map of the
        caller *)
    Definition deser_tuner (oty unsupported : Z) (hm : option hmap) (id : Z) (s : rstate)
      : res ((rtuner E Sp * option hmap) * rstate) :=
      do (o, s) <- deser_object_internal s;
      do _ <- refute (negb (fst o =? oty)) ERR_INVALID_TYPE;
      do t <- peek_enum s;
      do _ <- refute (t =? TUNER_USER_DEFINED) ERR_INVALID_VALUE;
      do _ <- refute (negb (t =? TUNER_RANDOM)) unsupported;
      do (d, s) <- deser_tuner_data s;
      do hm <- match hm with None => Ok None | Some m => do m <- handle_check_add m (snd o) id; Ok (Some m) end;
      do (b, s) <- deser_user_data s;
      let '(nm, sp, h, opt) := d in
      Ok ((mkRT id nm sp h opt (read_ud b), hm), s).
  End Read.
End Tuner.

(** ** The three kinds *)
(** The spaces of a tuner once they are read: the parameters and spaces that are alive. *)
Record live := mkLive { lv_heap : Z -> param; lv_at : Z -> option (Z * context); lv_trees : Z -> bool }.
Section Kinds.
  Variables (mem : Z -> bool) (jen : list Z -> Z) (le : bool).
  Variables (Sp : Type) (lives : Sp -> live).
  (** addresses of the evaluations, configurations and features that are built *)
  Variables (eid cid fid : nat -> Z).
  (** evaluation_deserialize.h and the likes, with the map of the tuner *)
  Definition read_evaluation (sp : Sp) (i : nat) (m : hmap) (s : rstate) : res ((eobj bobj * hmap) * rstate) :=
    deser_eval mem (lv_heap (lives sp)) jen (lv_at (lives sp)) le OBJ_EVALUATION
      (read_conf mem (lv_heap (lives sp)) jen (lv_at (lives sp)) le (cid i)) (Some m) true (eid i) s.
  Definition read_features_evaluation (sp : Sp) (i : nat) (m : hmap) (s : rstate) : res ((eobj (bobj * bobj) * hmap) * rstate) :=
    deser_eval mem (lv_heap (lives sp)) jen (lv_at (lives sp)) le OBJ_FEATURES_EVALUATION
      (read_pair mem (lv_heap (lives sp)) jen (lv_at (lives sp)) le (cid i) (fid i)) (Some m) true (eid i) s.
  Definition read_tree_evaluation (sp : Sp) (i : nat) (m : hmap) (s : rstate) : res ((eobj tconf * hmap) * rstate) :=
    deser_eval mem (lv_heap (lives sp)) jen (lv_at (lives sp)) le OBJ_TREE_EVALUATION
      (read_tconf mem (lv_trees (lives sp)) (cid i)) (Some m) true (eid i) s.
  Variable deser_spaces : hmap -> rstate -> res ((Sp * hmap) * rstate).
  (** tuner_deserialize.h, features_tuner_deserialize.h, tree_tuner_deserialize.h *)
  Definition deser_config_tuner := deser_tuner bobj Sp mem deser_spaces read_evaluation OBJ_TUNER ERR_INVALID_TYPE.
  Definition deser_features_tuner := deser_tuner (bobj * bobj) Sp mem deser_spaces read_features_evaluation OBJ_FEATURES_TUNER ERR_UNSUPPORTED_OPERATION.
  Definition deser_tree_tuner := deser_tuner tconf Sp mem deser_spaces read_tree_evaluation OBJ_TREE_TUNER ERR_INVALID_TYPE.
  Variables (ser_spaces : Sp -> wstate -> res wstate) (size_spaces : Sp -> res Z).
  Definition ser_config_tuner := ser_tuner bobj Sp ser_spaces (ser_eval le OBJ_EVALUATION (ser_bobj le OBJ_CONFIGURATION)) OBJ_TUNER.
  Definition ser_features_tuner := ser_tuner (bobj * bobj) Sp ser_spaces (ser_eval le OBJ_FEATURES_EVALUATION (ser_pair le)) OBJ_FEATURES_TUNER.
  Definition ser_tree_tuner := ser_tuner tconf Sp ser_spaces (ser_eval le OBJ_TREE_EVALUATION ser_conf) OBJ_TREE_TUNER.
  Definition size_config_tuner := size_tuner bobj Sp size_spaces (size_eval OBJ_EVALUATION (size_bobj OBJ_CONFIGURATION)) OBJ_TUNER.
  Definition size_features_tuner := size_tuner (bobj * bobj) Sp size_spaces (size_eval OBJ_FEATURES_EVALUATION size_pair) OBJ_FEATURES_TUNER.
  Definition size_tree_tuner := size_tuner tconf Sp size_spaces (size_eval OBJ_TREE_EVALUATION (fun c => Ok (size_conf c))) OBJ_TREE_TUNER.
End Kinds.
