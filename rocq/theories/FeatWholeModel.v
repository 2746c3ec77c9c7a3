(** Saving and restoring a random features tuner together with its spaces: as in WholeModel,
    with a features space. src/features_tuner_internal.h 61-104,
    src/features_tuner_deserialize.h 19-42. *)
From Coq Require Import ZArith List Bool.
From Verif Require Import Base Datum CodecModel CmpModel ParamModel ContextModel EvalModel TreeModel RngModel TreeSpaceModel TreeConfModel RestoreModel TunerCodecModel DistModel DistCodecModel SpaceCodecModel SpaceModel ConfCodecModel WholeModel.
Import ListNotations.
Open Scope Z_scope.

(** The spaces of a features tuner that is saved: those of a tuner, then the features space
    with its address and its user data. features_tuner_internal.h 51-59 *)
Record fsaved := mkFSaved { fv_both : saved; fv_id : Z; fv_ud : option (list Z); fv_ctx : context }.
(** The spaces of a features tuner that was restored *)
Definition fhad := (had * rspace)%type.

Section Write.
  Variables (le : bool) (heap : Z -> param) (pud : Z -> option (list Z)) (types : list gtype) (dheap : Z -> cdist).
  (** features_tuner_internal.h 94-102 *)
  Definition ser_fsaved (x : fsaved) (s : wstate) : res wstate :=
    do s <- ser_saved le heap pud types dheap (fv_both x) s;
    ser_features_space le heap pud (fv_id x) (fv_ud x) (fv_ctx x) s.
  (** 71-79 *)
  Definition size_fsaved (x : fsaved) : res Z :=
    do a <- size_saved le heap pud types dheap (fv_both x);
    do b <- size_features_space heap pud (fv_id x) (fv_ud x) (fv_ctx x);
    Ok (a + b).
  Definition save_features_tuner : rtuner (bobj * bobj) fsaved -> wstate -> res wstate := ser_features_tuner le fsaved ser_fsaved.
  Definition size_saved_features_tuner : rtuner (bobj * bobj) fsaved -> res Z := size_features_tuner fsaved size_fsaved.
End Write.

Section Read.
  Variables (jen : list Z -> Z) (le : bool) (types : list gtype) (flog : Z -> Z) (mem : Z -> bool) (otype : Z -> option Z).
  (** the addresses of the new parameters of the three spaces and of the new distributions *)
  Variables (pid qid uid did : nat -> Z) (ddist : Z -> Z).
  (** the addresses of the new spaces *)
  Variables (csid osid fsid : Z).
  (** features_tuner_deserialize.h 31-39 *)
  Definition deser_fsaved (m : hmap) (s : rstate) : res ((fhad * hmap) * rstate) :=
    do (x, s) <- deser_saved jen le types flog mem otype pid qid did ddist csid osid m s;
    do (f, s) <- deser_features_space jen le uid mem true fsid (snd x) s;
    Ok (((fst x, fst f), snd f), s).
  (** what is alive once they are read *)
  Definition falive (x : fhad) : live :=
    let '((c, o), f) := x in
    mkLive (at_address (rc_params c ++ rs_params o ++ rs_params f))
      (fun a => if a =? csid then Some (OT_CONFIGURATION_SPACE, s_ctx (rc_space c))
                else if a =? osid then Some (OT_OBJECTIVE_SPACE, sp_ctx (rs_space o))
                else if a =? fsid then Some (OT_FEATURES_SPACE, sp_ctx (rs_space f)) else None)
      (fun _ => false).
  (** the addresses of the evaluations, configurations and features *)
  Variables (eid cid fid : nat -> Z).
  Definition restore_features_tuner : option hmap -> Z -> rstate -> res ((rtuner (bobj * bobj) fhad * option hmap) * rstate) :=
    deser_features_tuner mem jen le fhad falive eid cid fid deser_fsaved.
End Read.
