(** What restoring a user defined tuner together with its spaces promises. *)
From Coq Require Import ZArith List Bool.
From Verif Require Import Base Datum CodecModel CodecSpec CmpModel ParamModel ContextModel EvalModel TreeModel RngModel TreeCodecSpec TreeSpaceModel TreeSpaceSpec TreeConfModel TreeConfSpec RestoreModel RestoreSpec TunerCodecModel TunerCodecSpec UserTunerModel UserTunerSpec.
Import ListNotations.
Open Scope Z_scope.

(** The tuner [t], at [id], over the spaces [sp], once its history [H], its optima [O] and its
    state [st] are given to the application: a vector that is not complete is refused, then
    come the errors of the application, then the handle of [t] must be new to the caller. *)
Definition user_back {E Sp0 Sp D St} (v : vector E D St) (data : D) (outer : option hmap) (id : Z) (t : rtuner E Sp0) (sp : Sp)
  (H : list (eobj E)) (O st : list Z) : res ((rtuner E Sp + utuner Sp St) * option hmap) :=
  if v_complete v then
    match takes_back v data H O st with
    | Ok state =>
        match outer with
        | Some known => match known (rt_id t) with
                        | Some _ => Err ERR_DUPLICATE_HANDLE
                        | None => Ok (inr (mkUT id (rt_name t) sp state (restored_ud (rt_ud t))), noted outer (rt_id t) id)
                        end
        | None => Ok (inr (mkUT id (rt_name t) sp state (restored_ud (rt_ud t))), None)
        end
    | Err e => Err e
    | UB u => UB u
    end
  else Err ERR_INVALID_VALUE.
