(** What saving and restoring a features tuner together with its spaces promises. *)
From Coq Require Import ZArith List Bool.
From Verif Require Import Base Datum CodecModel CodecSpec CmpModel ParamModel ParamSpec ContextModel ContextSpec EvalModel TreeModel RngModel TreeCodecSpec TreeSpaceSpec TreeConfModel TreeConfSpec RestoreModel RestoreSpec TunerCodecModel TunerCodecSpec.
Import ListNotations.
Open Scope Z_scope.

(** One value per parameter of [P], of the space [cs], strings that these accept *)
Definition values_in (heap : Z -> param) (cs : Z) (P : list Z) (ctx : Z) (vals : list datum) : Prop :=
  ctx = cs /\ length vals = length P /\ fits heap P vals.
(** An evaluation over the configuration space [cs], the features space [fs] and the objective
    space [os], of parameters [P], [B] and [A] *)
Definition features_evaluation_in (heap : Z -> param) (cs : Z) (P : list Z) (os : Z) (A : list Z) (fs : Z) (B : list Z) (e : eobj (bobj * bobj)) : Prop :=
  values_in heap cs P (bo_ctx (fst (eo_about e))) (bo_vals (fst (eo_about e))) /\
  values_in heap fs B (bo_ctx (snd (eo_about e))) (bo_vals (snd (eo_about e))) /\
  values_in heap os A (eo_ctx e) (eo_vals e).
(** No evaluation twice, each with a handle of its own *)
Definition features_evaluations_apart (cs os fs : Z) (H : list (eobj (bobj * bobj))) : Prop :=
  NoDup (map eo_id H) /\ forall e, In e H -> eo_id e <> cs /\ eo_id e <> os /\ eo_id e <> fs.
(** The same configuration or features at [id], over the space [cs] *)
Definition same_bobj (id cs : Z) (b b' : bobj) : Prop :=
  bo_id b' = id /\ bo_ctx b' = cs /\ bo_vals b' = map settled (bo_vals b) /\ bo_ud b' = restored_ud (bo_ud b).
(** The same evaluation at [id] over the spaces [cs], [os] and [fs], its configuration at [cid]
    and its features at [fid] *)
Definition same_features_evaluation (id cid fid cs os fs : Z) (e e' : eobj (bobj * bobj)) : Prop :=
  eo_id e' = id /\ eo_ctx e' = os /\ eo_vals e' = map settled (eo_vals e) /\ eo_result e' = eo_result e /\ eo_ud e' = restored_ud (eo_ud e) /\
  same_bobj cid cs (fst (eo_about e)) (fst (eo_about e')) /\ same_bobj fid fs (snd (eo_about e)) (snd (eo_about e')).
Definition same_features_history (eid cid fid : nat -> Z) (cs os fs : Z) (H H' : list (eobj (bobj * bobj))) : Prop :=
  length H' = length H /\
  forall i e e', nth_error H i = Some e -> nth_error H' i = Some e' -> same_features_evaluation (eid i) (cid i) (fid i) cs os fs e e'.
(** Memory for the arrays of the tuner and of its evaluations *)
Definition features_enough (mem : Z -> bool) {Sp} (t : rtuner (bobj * bobj) Sp) : Prop :=
  granted mem (8 * (lenZ (rt_history t) + lenZ (rt_optima t))) /\
  forall e, In e (rt_history t) -> granted mem (16 * lenZ (eo_vals e)) /\
    granted mem (16 * lenZ (bo_vals (fst (eo_about e)))) /\ granted mem (16 * lenZ (bo_vals (snd (eo_about e)))).
