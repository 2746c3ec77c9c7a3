(** What saving and restoring a tree tuner together with its spaces promises. *)
From Coq Require Import ZArith List Bool.
From Verif Require Import Base Datum CodecModel CodecSpec CmpModel ParamModel ParamSpec ContextModel ContextSpec EvalModel TreeModel RngModel TreeCodecSpec TreeSpaceModel TreeConfModel TreeConfSpec RestoreModel RestoreSpec TunerCodecModel TunerCodecSpec FeatWholeSpec.
Import ListNotations.
Open Scope Z_scope.

(** An evaluation of a position of the tree space [cs] over the objective space [os], of
    parameters [A] *)
Definition tree_evaluation_in (heap : Z -> param) (cs os : Z) (A : list Z) (e : eobj tconf) : Prop :=
  tc_space (eo_about e) = cs /\ values_in heap os A (eo_ctx e) (eo_vals e).
(** No evaluation twice, each with a handle of its own *)
Definition tree_evaluations_apart (cs os : Z) (H : list (eobj tconf)) : Prop :=
  NoDup (map eo_id H) /\ forall e, In e H -> eo_id e <> cs /\ eo_id e <> os.
(** The same evaluation at [id] over the spaces [cs] and [os], its tree configuration at [cid] *)
Definition same_tree_evaluation (id cid cs os : Z) (e e' : eobj tconf) : Prop :=
  eo_id e' = id /\ eo_ctx e' = os /\ eo_vals e' = map settled (eo_vals e) /\ eo_result e' = eo_result e /\ eo_ud e' = restored_ud (eo_ud e) /\
  tc_id (eo_about e') = cid /\ tc_space (eo_about e') = cs /\ tc_pos (eo_about e') = tc_pos (eo_about e) /\
  tc_ud (eo_about e') = restored_ud (tc_ud (eo_about e)).
Definition same_tree_history (eid cid : nat -> Z) (cs os : Z) (H H' : list (eobj tconf)) : Prop :=
  length H' = length H /\
  forall i e e', nth_error H i = Some e -> nth_error H' i = Some e' -> same_tree_evaluation (eid i) (cid i) cs os e e'.
(** Memory for the arrays of the tuner and of its evaluations *)
Definition tree_enough (mem : Z -> bool) {Sp} (t : rtuner tconf Sp) : Prop :=
  granted mem (8 * (lenZ (rt_history t) + lenZ (rt_optima t))) /\
  forall e, In e (rt_history t) -> granted mem (16 * lenZ (eo_vals e)) /\ granted mem (8 * lenZ (tc_pos (eo_about e))).
(** The same tree space elsewhere *)
Definition elsewhere {S} (sp : tspace S) (id : Z) : tspace S := mkSpace S id (ts_name S sp) (ts_rng S sp) (ts_tree S sp) (ts_kind S sp) (ts_ud S sp).
