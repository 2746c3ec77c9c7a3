(** Saving and restoring a random tree tuner together with its spaces: the codec of tuners
    (TunerCodecModel) with those of tree spaces (TreeSpaceModel) and of objective spaces
    (SpaceCodecModel) in the places left for them. src/tree_tuner_internal.h 47-91,
    src/tree_tuner_deserialize.h 19-37 105-150, src/tree_space_deserialize.h 110-185. *)
From Coq Require Import ZArith List Bool.
From Verif Require Import Base Datum CodecModel CmpModel ParamModel ContextModel EvalModel TreeModel RngModel TreeSpaceModel TreeConfModel RestoreModel TunerCodecModel SpaceCodecModel.
Import ListNotations.
Open Scope Z_scope.

Section Tree.
  (** the data of dynamic tree spaces *)
  Variable S : Type.
  (** The spaces of a tree tuner that is saved, tree_tuner_internal.h 47-52: the tree space with
      the memory its tree is in, the objective space with its address and its user data *)
  Record tsaved := mkTSaved { tw_heap : heap; tw_tree : tspace S; tw_oid : Z; tw_oud : option (list Z); tw_obj : EvalModel.space }.
  (** The spaces of a tree tuner that was restored, and the memory the tree is in *)
  Definition thad := ((tspace S * heap) * rspace)%type.

  Variables (types : list gtype) (le : bool).
  Section Write.
    Variables (pheap : Z -> param) (pud : Z -> option (list Z)).
    (** tree_tuner_internal.h 82-87 *)
    Definition ser_tsaved (x : tsaved) (s : wstate) : res wstate :=
      do s <- ser_space S types le (tw_heap x) (tw_tree x) s;
      ser_objective_space le pheap pud (tw_oid x) (tw_oud x) (tw_obj x) s.
    (** 63-67 *)
    Definition size_tsaved (x : tsaved) : res Z :=
      do a <- size_space S types le (tw_heap x) (tw_tree x);
      do b <- size_objective_space pheap pud (tw_oid x) (tw_oud x) (tw_obj x);
      Ok (a + b).
    Definition save_tree_tuner : rtuner tconf tsaved -> wstate -> res wstate := ser_tree_tuner le tsaved ser_tsaved.
    Definition size_saved_tree_tuner : rtuner tconf tsaved -> res Z := size_tree_tuner tsaved size_tsaved.
  End Write.

  (** The default type of generators, the address of the generator that the constructor makes,
      the vector and the data of the options *)
  Variables (dflt : nat) (gid : Z) (v : option (tvector S)) (st : S).
  (** tree_space_deserialize.h 110-185: as TreeSpaceModel.deser_space, where the space that is
      made is at [id] and [keep] asks to record it in [m], 147-153 *)
  Definition deser_tree_space (keep : bool) (id : Z) (h : heap) (m : hmap) (s : rstate) : res (((tspace S * heap) * hmap) * rstate) :=
    do (o, s) <- deser_object_internal s;
    do _ <- refute (negb (fst o =? OBJ_TREE_SPACE)) ERR_INVALID_TYPE;
    do ty <- peek_enum s;
    do (x, s) <-
      (if ty =? SPACE_STATIC then
         do (c, s) <- deser_space_data types le h s;
         match c with (_, name, _, t, h) =>
           do sp <- create_static S types dflt id gid name h t;
           Ok ((sp, h), s)
         end
       else if ty =? SPACE_DYNAMIC then
         do (c, s) <- deser_space_data types le h s;
         match c with (_, name, g, t, h) =>
           do sp <- create_dynamic S types dflt id gid name h t v st;
           let sp := set_rng S sp g in
           match v with
           | None => Err ERR_INVALID_VALUE
           | Some v =>
               match tv_load S v with
               | None => Ok ((sp, h), s)
               | Some f => do st <- f st []; Ok ((with_state S sp v st, h), s)
               end
           end
         end
       else Err ERR_UNSUPPORTED_OPERATION);
    do m <- (if keep then handle_check_add m (snd o) id else Ok m);
    do (b, s) <- deser_user_data s;
    Ok (((space_with_ud S (fst x) (read_ud b), snd x), m), s).

  Variables (jen : list Z -> Z) (mem : Z -> bool) (otype : Z -> option Z).
  (** the addresses of the new parameters and of the new spaces, the memory of trees *)
  Variables (qid : nat -> Z) (csid osid : Z) (h2 : heap).
  (** tree_tuner_deserialize.h 30-35. The options of the caller ask to record both spaces *)
  Definition deser_tsaved (m : hmap) (s : rstate) : res ((thad * hmap) * rstate) :=
    do (c, s) <- deser_tree_space true csid h2 m s;
    do (o, s) <- deser_objective_space jen le qid mem otype true osid (snd c) s;
    Ok (((fst c, fst o), snd o), s).
  (** what is alive once they are read *)
  Definition talive (x : thad) : live :=
    mkLive (at_address (rs_params (snd x)))
      (fun a => if a =? osid then Some (OT_OBJECTIVE_SPACE, sp_ctx (rs_space (snd x))) else None)
      (fun a => a =? csid).
  (** the addresses of the evaluations and tree configurations *)
  Variables (eid cid : nat -> Z).
  Definition restore_tree_tuner : option hmap -> Z -> rstate -> res ((rtuner tconf thad * option hmap) * rstate) :=
    deser_tree_tuner mem jen le thad talive eid cid deser_tsaved.
End Tree.
