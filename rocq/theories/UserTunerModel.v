(** User defined tuners: src/tuner_user_defined.c, src/features_tuner_user_defined.c,
    src/tree_tuner_user_defined.c and the matching *_deserialize.h, which are the same code up
    to the names of types and the spaces of the tuner; src/tuner.c, src/features_tuner.c,
    src/tree_tuner.c for the calls that are passed on to the application.

    A tuner is a vector of callbacks and a pointer of the application. The callbacks are any
    functions. Those that are asked when saving do not change the state of the tuner.
    Reference counts and the allocations of the constructors are left out. *)
From Coq Require Import ZArith List Bool.
From Verif Require Import Base Datum CodecModel CmpModel ParamModel ContextModel EvalModel TreeModel RngModel TreeSpaceModel TreeConfModel RestoreModel TunerCodecModel.
Import ListNotations.
Open Scope Z_scope.

(** What the application answers when a tuner is saved: [get_history] and [get_optima] for the
    counts and for arrays of the given size, [serialize_user_state], which may be absent, the
    same way. An array comes back as the cells that were written, from the first on. *)
Record app (E : Type) := mkApp {
  ap_history_count : res Z; ap_history : Z -> res (list (option (eobj E)));
  ap_optima_count : res Z; ap_optima : Z -> res (list Z);
  ap_state : option (res Z * (Z -> res (list Z))) }.
Arguments mkApp {E}. Arguments ap_history_count {E}. Arguments ap_history {E}. Arguments ap_optima_count {E}. Arguments ap_optima {E}. Arguments ap_state {E}.

(** tuner_user_defined.c 6-11: [St] is the state of the application *)
Record utuner (Sp St : Type) := mkUT { ut_id : Z; ut_name : list Z; ut_spaces : Sp; ut_state : St; ut_ud : option (list Z) }.
Arguments mkUT {Sp St}. Arguments ut_id {Sp St}. Arguments ut_name {Sp St}. Arguments ut_spaces {Sp St}. Arguments ut_state {Sp St}. Arguments ut_ud {Sp St}.

(** The vector, for restoring: whether [del], [ask], [tell], [get_optima] and [get_history] are
    all there; [tell] and [deserialize_state], which may be absent, called on a new tuner with
    the pointer [D]. *)
Record vector (E D St : Type) := mkVector {
  v_complete : bool; v_tell : D -> list (eobj E) -> res St; v_restore : option (D -> list (eobj E) -> list Z -> list Z -> res St) }.
Arguments mkVector {E D St}. Arguments v_complete {E D St}. Arguments v_tell {E D St}. Arguments v_restore {E D St}.

(** An array said to have [n] cells, all 0 at first, of which [l] were written, [room] cells
    being there; an application that writes more than it was told is in error *)
Definition cells {A} (none : A) (n room : Z) (l : list A) : res (list A) :=
  if (n <? lenZ l) || (room <? lenZ l) then UB UBBounds else Ok (l ++ repeat none (Z.to_nat (n - lenZ l))).
(** [b] is written to the buffer, of which [n] bytes are taken: the others stay as they are *)
Definition put_state (n : Z) (b : list Z) (s : wstate) : res wstate :=
  if n <? lenZ b then UB UBBounds else
  do s <- put_all (b ++ firstn (Z.to_nat (n - lenZ b)) (skipn (length b) (w_rest s))) s;
  Ok (w_sub n s).

Section Tuner.
  Variables (E Sp : Type).
  (** whether calloc gives this many bytes *)
  Variable mem : Z -> bool.
  Section Write.
    Variables (ser_spaces : Sp -> wstate -> res wstate) (size_spaces : Sp -> res Z).
    Variables (ser_e : eobj E -> wstate -> res wstate) (size_e : eobj E -> res Z).
    (** 58-65, 131-138: NULL is dereferenced *)
    Fixpoint ser_cells (l : list (option (eobj E))) (s : wstate) : res wstate :=
      match l with [] => Ok s | None :: _ => UB UBBounds | Some e :: l' => do s <- ser_e e s; ser_cells l' s end.
    Fixpoint size_cells (l : list (option (eobj E))) : res Z :=
      match l with [] => Ok 0 | None :: _ => UB UBBounds | Some e :: l' => do a <- size_e e; do b <- size_cells l'; Ok (a + b) end.
    (** 119-150: nothing more is asked when the sum of the counts wraps to 0 *)
    Definition ser_told (a : app E) (nh no : Z) (s : wstate) : res wstate :=
      let room := wrap 64 (nh + no) in
      if room =? 0 then Ok s else
      if negb (mem (8 * room)) then Err ERR_OUT_OF_MEMORY else
      do s <- (if nh =? 0 then Ok s else do l <- ap_history a nh; do l <- cells None nh room l; ser_cells l s);
      if no =? 0 then Ok s else do l <- ap_optima a no; do l <- cells 0 no (room - nh) l; ser_positions l s.
    Definition size_told (a : app E) (nh no : Z) : res Z :=
      let room := wrap 64 (nh + no) in
      if room =? 0 then Ok 0 else
      if negb (mem (8 * room)) then Err ERR_OUT_OF_MEMORY else
      do h <- (if nh =? 0 then Ok 0 else do l <- ap_history a nh; do l <- cells None nh room l; size_cells l);
      do o <- (if no =? 0 then Ok 0 else do l <- ap_optima a no; do l <- cells 0 no (room - nh) l; Ok (size_positions l));
      Ok (h + o).
    (** 151-171 *)
    Definition ser_state (a : app E) (s : wstate) : res wstate :=
      do n <- match ap_state a with None => Ok 0 | Some (count, _) => count end;
      do s <- ser_size n s;
      if n =? 0 then Ok s else
      if w_size s <? n then Err ERR_NOT_ENOUGH_DATA else
      match ap_state a with None => Ok s | Some (_, get) => do b <- get n; put_state n b s end.
    Definition size_state (a : app E) : res Z :=
      do n <- match ap_state a with None => Ok 0 | Some (count, _) => count end;
      Ok (size_size n + n).
    (** 92-221; [oty] is the type of the tuner object *)
    Definition ser_user_tuner (oty : Z) (t : utuner Sp (app E)) (s : wstate) : res wstate :=
      do s <- ser_object_internal oty (ut_id t) s;
      do s <- ser_enum TUNER_USER_DEFINED s;
      do s <- ser_string (ut_name t) s;
      do s <- ser_spaces (ut_spaces t) s;
      do nh <- ap_history_count (ut_state t);
      do no <- ap_optima_count (ut_state t);
      do s <- ser_size nh s;
      do s <- ser_size no s;
      do s <- ser_told (ut_state t) nh no s;
      do s <- ser_state (ut_state t) s;
      ser_user_data (ut_ud t) s.
    (** 25-90, 173-196 *)
    Definition size_user_tuner (oty : Z) (t : utuner Sp (app E)) : res Z :=
      do p <- size_spaces (ut_spaces t);
      do nh <- ap_history_count (ut_state t);
      do no <- ap_optima_count (ut_state t);
      do h <- size_told (ut_state t) nh no;
      do st <- size_state (ut_state t);
      Ok (size_object_internal oty (ut_id t) + size_enum TUNER_USER_DEFINED + size_string (ut_name t) + p + size_size nh + size_size no + h + st +
          size_user_data (ut_ud t)).
  End Write.
  Section Read.
    Variables (D St : Type).
    Variable deser_spaces : hmap -> rstate -> res ((Sp * hmap) * rstate).
    (** the evaluation number [i], recorded in the map *)
    Variable read_e : Sp -> nat -> hmap -> rstate -> res ((eobj E * hmap) * rstate).
    (** tuner_deserialize.h 176-240, tuner_user_defined.c 300-318: the tuner is created, then
        told what was saved *)
    Definition told_back (v : vector E D St) (data : D) (h : list (eobj E)) (o st : list Z) : res St :=
      do _ <- refute (negb (v_complete v)) ERR_INVALID_VALUE;
      match v_restore v with Some f => f data h o st | None => v_tell v data h end.
    (** tuner_deserialize.h 242-330: [v] and [data] are the options of the caller, [hm] its map *)
    Definition deser_user_tuner (v : vector E D St) (data : D) (hm : option hmap) (handle id : Z) (s : rstate)
      : res ((utuner Sp St * option hmap) * rstate) :=
      do (d, s) <- deser_tuner_data E Sp mem deser_spaces read_e s;
      do (st, s) <- deser_blob s;
      let '(nm, sp, h, o) := d in
      do state <- told_back v data h o st;
      do hm <- match hm with None => Ok None | Some m => do m <- handle_check_add m handle id; Ok (Some m) end;
      do (b, s) <- deser_user_data s;
      Ok ((mkUT id nm sp state (read_ud b), hm), s).
    Definition deser_any_tuner (oty unsupported : Z) (v : option (vector E D St)) (data : D) (hm : option hmap) (id : Z) (s : rstate)
      : res ((rtuner E Sp + utuner Sp St) * option hmap * rstate) :=
      do (o, s1) <- deser_object_internal s;
      do _ <- refute (negb (fst o =? oty)) ERR_INVALID_TYPE;
      do t <- peek_enum s1;
      if t =? TUNER_USER_DEFINED then
        match v with
        | None => Err ERR_INVALID_VALUE
        | Some v => do (r, s) <- deser_user_tuner v data hm (snd o) id s1; Ok ((inr (fst r), snd r), s)
        end
      else do (r, s) <- deser_tuner E Sp mem deser_spaces read_e oty unsupported hm id s; Ok ((inl (fst r), snd r), s).
  End Read.
End Tuner.

(** ** The three kinds *)
Section Kinds.
  Variables (mem : Z -> bool) (jen : list Z -> Z) (le : bool).
  Variables (Sp D St : Type) (lives : Sp -> live).
  Variables (eid cid fid : nat -> Z).
  Variable deser_spaces : hmap -> rstate -> res ((Sp * hmap) * rstate).
  (** tuner_deserialize.h, features_tuner_deserialize.h, tree_tuner_deserialize.h *)
  Definition deser_config_any := deser_any_tuner bobj Sp mem D St deser_spaces (read_evaluation mem jen le Sp lives eid cid) OBJ_TUNER ERR_INVALID_TYPE.
  Definition deser_features_any := deser_any_tuner (bobj * bobj) Sp mem D St deser_spaces (read_features_evaluation mem jen le Sp lives eid cid fid) OBJ_FEATURES_TUNER ERR_UNSUPPORTED_OPERATION.
  Definition deser_tree_any := deser_any_tuner tconf Sp mem D St deser_spaces (read_tree_evaluation mem jen le Sp lives eid cid) OBJ_TREE_TUNER ERR_INVALID_TYPE.
  Variables (ser_spaces : Sp -> wstate -> res wstate) (size_spaces : Sp -> res Z).
  Definition ser_config_user := ser_user_tuner bobj Sp mem ser_spaces (ser_eval le OBJ_EVALUATION (ser_bobj le OBJ_CONFIGURATION)) OBJ_TUNER.
  Definition ser_features_user := ser_user_tuner (bobj * bobj) Sp mem ser_spaces (ser_eval le OBJ_FEATURES_EVALUATION (ser_pair le)) OBJ_FEATURES_TUNER.
  Definition ser_tree_user := ser_user_tuner tconf Sp mem ser_spaces (ser_eval le OBJ_TREE_EVALUATION ser_conf) OBJ_TREE_TUNER.
  Definition size_config_user := size_user_tuner bobj Sp mem size_spaces (size_eval OBJ_EVALUATION (size_bobj OBJ_CONFIGURATION)) OBJ_TUNER.
  Definition size_features_user := size_user_tuner (bobj * bobj) Sp mem size_spaces (size_eval OBJ_FEATURES_EVALUATION size_pair) OBJ_FEATURES_TUNER.
  Definition size_tree_user := size_user_tuner tconf Sp mem size_spaces (size_eval OBJ_TREE_EVALUATION (fun c => Ok (size_conf c))) OBJ_TREE_TUNER.
End Kinds.

(** ** Calls that are passed on *)
(** What a tuner is called with; pointers are addresses, 0 is NULL. A tuner without features
    ignores the first argument. *)
Inductive call :=
| CAsk (features n array count : Z) | CTell (n array : Z) | COptima (features n array count : Z) | CHistory (features n array count : Z) | CSuggest (features result : Z).
Section Pass.
  (** whether the tuner and the features are what they should be, whether the features fit the
      space of the tuner *)
  Variables (is_tuner : bool) (is_features : Z -> bool) (fits : Z -> res bool) (feat : bool).
  (** whether the vector has [suggest], and what the application returns *)
  Variables (has_suggest : bool) (answer : call -> Z).
  (** cconfigspace_internal.h 109-113 and the test that follows: an array and a count *)
  Definition check_arrays (n array count : Z) : res unit :=
    do _ <- refute ((0 <? n) && (array =? 0)) ERR_INVALID_VALUE;
    refute ((array =? 0) && (count =? 0)) ERR_INVALID_VALUE.
  Definition check_fit (f : Z) : res unit :=
    if feat then do valid <- fits f; refute (negb valid) ERR_INVALID_FEATURES else Ok tt.
  (** tuner.c 54-136, features_tuner.c 73-175, tree_tuner.c *)
  Definition checked (c : call) : res unit :=
    do _ <- refute (negb is_tuner) ERR_INVALID_OBJECT;
    match c with
    | CAsk f n a k => do _ <- refute (feat && negb (is_features f)) ERR_INVALID_OBJECT; do _ <- check_arrays n a k; check_fit f
    | CTell n a => refute ((0 <? n) && (a =? 0)) ERR_INVALID_VALUE
    | COptima f n a k | CHistory f n a k => do _ <- refute (feat && negb (f =? 0) && negb (is_features f)) ERR_INVALID_OBJECT; check_arrays n a k
    | CSuggest f r =>
        do _ <- refute (feat && negb (is_features f)) ERR_INVALID_OBJECT;
        do _ <- refute (r =? 0) ERR_INVALID_VALUE;
        do _ <- check_fit f;
        refute (negb has_suggest) ERR_UNSUPPORTED_OPERATION
    end.
  (** tuner_user_defined.c 223-287; codes that are not errors become SUCCESS. Given back: the
      code and the calls of the application. *)
  Definition pass (c : call) : res (Z * list call) :=
    match checked c with
    | Ok _ => Ok (if answer c <? 0 then answer c else 0, [c])
    | Err e => Ok (e, [])
    | UB u => UB u
    end.
End Pass.
