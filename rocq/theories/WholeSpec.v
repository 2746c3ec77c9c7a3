(** What saving and restoring a tuner together with its spaces promises. *)
From Coq Require Import ZArith List Bool.
From Verif Require Import Base Datum CodecModel CodecSpec CmpModel ParamModel ParamSpec ContextModel ContextSpec EvalModel TreeModel RngModel TreeCodecSpec TreeSpaceSpec TreeConfModel TreeConfSpec RestoreModel RestoreSpec TunerCodecModel TunerCodecSpec.
Import ListNotations.
Open Scope Z_scope.

(** An evaluation over the configuration space [cs], of parameters [P], and the objective
    space [os], of parameters [A]: one value per parameter, strings that these accept *)
Definition evaluation_in (heap : Z -> param) (cs : Z) (P : list Z) (os : Z) (A : list Z) (e : eobj bobj) : Prop :=
  bo_ctx (eo_about e) = cs /\ length (bo_vals (eo_about e)) = length P /\ fits heap P (bo_vals (eo_about e)) /\
  eo_ctx e = os /\ length (eo_vals e) = length A /\ fits heap A (eo_vals e).
(** No evaluation twice, each with a handle of its own *)
Definition evaluations_apart (cs os : Z) (H : list (eobj bobj)) : Prop :=
  NoDup (map eo_id H) /\ forall e, In e H -> eo_id e <> cs /\ eo_id e <> os.
(** The same evaluation at [id] over the spaces [cs] and [os], its configuration at [cid] *)
Definition same_evaluation (id cid cs os : Z) (e e' : eobj bobj) : Prop :=
  eo_id e' = id /\ eo_ctx e' = os /\ eo_vals e' = map settled (eo_vals e) /\ eo_result e' = eo_result e /\ eo_ud e' = restored_ud (eo_ud e) /\
  bo_id (eo_about e') = cid /\ bo_ctx (eo_about e') = cs /\ bo_vals (eo_about e') = map settled (bo_vals (eo_about e)) /\
  bo_ud (eo_about e') = restored_ud (bo_ud (eo_about e)).
Definition same_history (eid cid : nat -> Z) (cs os : Z) (H H' : list (eobj bobj)) : Prop :=
  length H' = length H /\
  forall i e e', nth_error H i = Some e -> nth_error H' i = Some e' -> same_evaluation (eid i) (cid i) cs os e e'.
(** Memory for the arrays of the tuner and of its evaluations *)
Definition enough (mem : Z -> bool) {Sp} (t : rtuner bobj Sp) : Prop :=
  granted mem (8 * (lenZ (rt_history t) + lenZ (rt_optima t))) /\
  forall e, In e (rt_history t) -> granted mem (16 * lenZ (eo_vals e)) /\ granted mem (16 * lenZ (bo_vals (eo_about e))).
(** No address serves twice *)
Definition disjoint (pid : nat -> Z) (n : nat) (qid : nat -> Z) (k : nat) : Prop :=
  forall i j, (i < n)%nat -> (j < k)%nat -> pid i <> qid j.
