(** Saving and restoring a random tuner together with its spaces: the codec of tuners
    (TunerCodecModel) with those of configuration spaces (ConfCodecModel) and of objective
    spaces (SpaceCodecModel) in the places left for them. src/tuner_internal.h 56-91,
    src/tuner_deserialize.h 19-36 250-287. *)
From Coq Require Import ZArith List Bool.
From Verif Require Import Base Datum CodecModel CmpModel ParamModel ContextModel EvalModel TreeModel RngModel TreeSpaceModel TreeConfModel RestoreModel TunerCodecModel DistModel DistCodecModel SpaceCodecModel SpaceModel ConfCodecModel.
Import ListNotations.
Open Scope Z_scope.

(** The spaces of a tuner that is saved, tuner_internal.h 48-54: the configuration space with
    its generator and its user data, the objective space with its address and its user data *)
Record saved := mkSaved {
  sv_rng : rng; sv_cud : option (list Z); sv_conf : SpaceModel.space;
  sv_oid : Z; sv_oud : option (list Z); sv_obj : EvalModel.space }.
(** The spaces of a tuner that was restored *)
Definition had := (rconf * rspace)%type.

Section Write.
  Variables (le : bool) (heap : Z -> param) (pud : Z -> option (list Z)) (types : list gtype) (dheap : Z -> cdist).
  (** tuner_internal.h 82-89 *)
  Definition ser_saved (x : saved) (s : wstate) : res wstate :=
    do s <- ser_conf_space le heap pud types dheap (sv_rng x) (sv_cud x) (sv_conf x) s;
    ser_objective_space le heap pud (sv_oid x) (sv_oud x) (sv_obj x) s.
  (** 64-69 *)
  Definition size_saved (x : saved) : res Z :=
    do a <- size_conf_space le heap pud types dheap (sv_rng x) (sv_cud x) (sv_conf x);
    do b <- size_objective_space heap pud (sv_oid x) (sv_oud x) (sv_obj x);
    Ok (a + b).
  Definition save_tuner : rtuner bobj saved -> wstate -> res wstate := ser_config_tuner le saved ser_saved.
  Definition size_saved_tuner : rtuner bobj saved -> res Z := size_config_tuner saved size_saved.
End Write.

Section Read.
  Variables (jen : list Z -> Z) (le : bool) (types : list gtype) (flog : Z -> Z) (mem : Z -> bool) (otype : Z -> option Z).
  (** the addresses of the new parameters of the two spaces and of the new distributions *)
  Variables (pid qid did : nat -> Z) (ddist : Z -> Z).
  (** the addresses of the new spaces *)
  Variables (csid osid : Z).
  (** tuner_deserialize.h 29-34. The options of the caller, 261-262, ask to record both spaces *)
  Definition deser_saved (m : hmap) (s : rstate) : res ((had * hmap) * rstate) :=
    do (c, s) <- deser_conf_space jen le types flog mem otype pid did ddist true csid m s;
    do (o, s) <- deser_objective_space jen le qid mem otype true osid (snd c) s;
    Ok (((fst c, fst o), snd o), s).
  (** what is alive once they are read *)
  Definition alive (x : had) : live :=
    mkLive (at_address (rc_params (fst x) ++ rs_params (snd x)))
      (fun a => if a =? csid then Some (OT_CONFIGURATION_SPACE, s_ctx (rc_space (fst x)))
                else if a =? osid then Some (OT_OBJECTIVE_SPACE, sp_ctx (rs_space (snd x))) else None)
      (fun _ => false).
  (** the addresses of the evaluations and configurations *)
  Variables (eid cid : nat -> Z).
  Definition restore_tuner : option hmap -> Z -> rstate -> res ((rtuner bobj had * option hmap) * rstate) :=
    deser_config_tuner mem jen le had alive eid cid deser_saved.
End Read.
