(** Saving and restoring a user defined tuner together with its spaces: the codecs of user
    defined tuners (UserTunerModel) with those of the spaces (WholeModel, FeatWholeModel,
    TreeWholeModel) in the places left for them. src/tuner_user_defined.c 25-221,
    src/features_tuner_user_defined.c, src/tree_tuner_user_defined.c, and
    src/tuner_deserialize.h 19-36 110-330, src/features_tuner_deserialize.h,
    src/tree_tuner_deserialize.h. *)
From Coq Require Import ZArith List Bool.
From Verif Require Import Base Datum CodecModel CmpModel ParamModel ContextModel EvalModel TreeModel RngModel TreeSpaceModel TreeConfModel RestoreModel TunerCodecModel UserTunerModel DistModel DistCodecModel SpaceCodecModel SpaceModel ConfCodecModel WholeModel FeatWholeModel TreeWholeModel.
Import ListNotations.
Open Scope Z_scope.

Section Write.
  (** whether calloc gives this many bytes *)
  Variable wmem : Z -> bool.
  Variables (le : bool) (heap : Z -> param) (pud : Z -> option (list Z)) (types : list gtype) (dheap : Z -> cdist).
  Definition save_user : utuner saved (app bobj) -> wstate -> res wstate :=
    ser_config_user wmem le saved (ser_saved le heap pud types dheap).
  Definition size_saved_user : utuner saved (app bobj) -> res Z :=
    size_config_user wmem saved (size_saved le heap pud types dheap).
  Definition save_features_user : utuner fsaved (app (bobj * bobj)) -> wstate -> res wstate :=
    ser_features_user wmem le fsaved (ser_fsaved le heap pud types dheap).
  Definition size_saved_features_user : utuner fsaved (app (bobj * bobj)) -> res Z :=
    size_features_user wmem fsaved (size_fsaved le heap pud types dheap).
  Definition save_tree_user (S : Type) : utuner (tsaved S) (app tconf) -> wstate -> res wstate :=
    ser_tree_user wmem le (tsaved S) (ser_tsaved S types le heap pud).
  Definition size_saved_tree_user (S : Type) : utuner (tsaved S) (app tconf) -> res Z :=
    size_tree_user wmem (tsaved S) (size_tsaved S types le heap pud).
End Write.

Section Read.
  Variables (jen : list Z -> Z) (le : bool) (types : list gtype) (flog : Z -> Z) (mem : Z -> bool) (otype : Z -> option Z).
  (** the addresses of the new parameters, distributions, spaces, evaluations, configurations
      and features *)
  Variables (pid qid uid did : nat -> Z) (ddist : Z -> Z) (csid osid fsid : Z) (eid cid fid : nat -> Z).
  (** the pointer and the state of the application *)
  Variables (D St : Type).
  Definition restore_user (v : vector bobj D St) (data : D) (hm : option hmap) (id : Z) (s : rstate) : res ((rtuner bobj had + utuner had St) * option hmap * rstate) :=
    deser_config_any mem jen le had D St (alive csid osid) eid cid (deser_saved jen le types flog mem otype pid qid did ddist csid osid) (Some v) data hm id s.
  Definition restore_features_user (v : vector (bobj * bobj) D St) (data : D) (hm : option hmap) (id : Z) (s : rstate)
    : res ((rtuner (bobj * bobj) fhad + utuner fhad St) * option hmap * rstate) :=
    deser_features_any mem jen le fhad D St (falive csid osid fsid) eid cid fid (deser_fsaved jen le types flog mem otype pid qid uid did ddist csid osid fsid) (Some v) data hm id s.
  (** tree_tuner_deserialize.h 242-275: the options with the vector and the pointer of the tuner
      are passed on to the tree space, where a dynamic one takes the same pointers for its own,
      tree_space_deserialize.h 76-94. [tv] and [ts] are what it would find there. *)
  Variables (S : Type) (dflt : nat) (gid : Z) (tv : option (tvector S)) (ts : S) (h2 : TreeModel.heap).
  Definition restore_tree_user (v : vector tconf D St) (data : D) (hm : option hmap) (id : Z) (s : rstate)
    : res ((rtuner tconf (thad S) + utuner (thad S) St) * option hmap * rstate) :=
    deser_tree_any mem jen le (thad S) D St (talive S csid osid) eid cid (deser_tsaved S types le dflt gid tv ts jen mem otype qid csid osid h2) (Some v) data hm id s.
End Read.
