(** What saving and restoring random tuners promises. *)
From Coq Require Import ZArith List Bool.
From Verif Require Import Base Datum CodecModel CodecSpec CmpModel ParamModel ParamSpec ContextModel EvalModel TreeModel TreeCodecSpec RngModel TreeSpaceModel TreeSpaceSpec TreeConfModel TreeConfSpec RestoreModel RestoreSpec TunerCodecModel.
Import ListNotations.
Open Scope Z_scope.

(** ** What is written: the type and the handle, the type of tuner, the name, the spaces [sb],
    the numbers of evaluations and of optima, the evaluations, the handles of the optima, the
    user data *)
Inductive wire_all {A} (one : A -> list Z -> Prop) : list A -> list Z -> Prop :=
| wa_nil : wire_all one [] []
| wa_cons a l b bs : one a b -> wire_all one l bs -> wire_all one (a :: l) (b ++ bs).
Definition wire_tuner {E Sp} (oty : Z) (sb : list Z) (wire_e : eobj E -> list Z -> Prop) (t : rtuner E Sp) (bs : list Z) : Prop :=
  exists lh nb hn on hb ob ub,
    leb128 (rt_id t) lh /\ wire_string (rt_name t) nb /\ leb128 (lenZ (rt_history t)) hn /\ leb128 (lenZ (rt_optima t)) on /\
    wire_all wire_e (rt_history t) hb /\ wire_sizes (rt_optima t) ob /\ wire_blob (ud_bytes (rt_ud t)) ub /\
    bs = (oty :: lh) ++ [0] ++ nb ++ sb ++ hn ++ on ++ hb ++ ob ++ ub.
Definition storable_tuner {E Sp} (storable_e : eobj E -> Prop) (t : rtuner E Sp) : Prop :=
  in_unsigned 64 (rt_id t) /\ ok_name (rt_name t) /\ Forall storable_e (rt_history t) /\ Forall (in_unsigned 64) (rt_optima t) /\
  lenZ (rt_history t) + lenZ (rt_optima t) < 2 ^ 64 /\ lenZ (ud_bytes (rt_ud t)) < 2 ^ 64.

(** ** What is had of it *)
Section Outcome.
  Variables (E Sp : Type) (mem : Z -> bool).
  (** [step i m e r]: [r] is had of evaluation number [i], the map being [m] *)
  Variable step : nat -> hmap -> eobj E -> res (eobj E * hmap) -> Prop.
  (** one evaluation after the other, until one fails *)
  Inductive history_outcome : nat -> hmap -> list (eobj E) -> res (list (eobj E) * hmap) -> Prop :=
  | ho_end i m : history_outcome i m [] (Ok ([], m))
  | ho_fails i m e l err : step i m e (Err err) -> history_outcome i m (e :: l) (Err err)
  | ho_later i m e l e' m' err : step i m e (Ok (e', m')) -> history_outcome (S i) m' l (Err err) -> history_outcome i m (e :: l) (Err err)
  | ho_next i m e l e' m' l' m'' : step i m e (Ok (e', m')) -> history_outcome (S i) m' l (Ok (l', m'')) ->
      history_outcome i m (e :: l) (Ok (e' :: l', m'')).
  (** what the map says of the handles of optima *)
  Definition stands (m : hmap) (h o : Z) : Prop := option_map d_val (m h) = Some (VObject o).
  Definition noted (outer : option hmap) (h id : Z) : option hmap := option_map (fun m => recording m h id) outer.
  (** [sp], [m]: the spaces that were read, and their handles *)
  Inductive tuner_outcome (outer : option hmap) (id : Z) (t : rtuner E Sp) (sp : Sp) (m : hmap) : res (rtuner E Sp * option hmap) -> Prop :=
  | tu_memory : refused_memory mem (8 * (lenZ (rt_history t) + lenZ (rt_optima t))) -> tuner_outcome outer id t sp m (Err ERR_OUT_OF_MEMORY)
  | tu_history err : granted mem (8 * (lenZ (rt_history t) + lenZ (rt_optima t))) -> history_outcome 0 m (rt_history t) (Err err) ->
      tuner_outcome outer id t sp m (Err err)
  | tu_lost l m' : granted mem (8 * (lenZ (rt_history t) + lenZ (rt_optima t))) -> history_outcome 0 m (rt_history t) (Ok (l, m')) ->
      Exists (unknown m') (rt_optima t) -> tuner_outcome outer id t sp m (Err ERR_INVALID_HANDLE)
  | tu_again l m' os k : granted mem (8 * (lenZ (rt_history t) + lenZ (rt_optima t))) -> history_outcome 0 m (rt_history t) (Ok (l, m')) ->
      Forall2 (stands m') (rt_optima t) os -> outer = Some k -> k (rt_id t) <> None -> tuner_outcome outer id t sp m (Err ERR_DUPLICATE_HANDLE)
  | tu_had l m' os : granted mem (8 * (lenZ (rt_history t) + lenZ (rt_optima t))) -> history_outcome 0 m (rt_history t) (Ok (l, m')) ->
      Forall2 (stands m') (rt_optima t) os -> (forall k, outer = Some k -> k (rt_id t) = None) ->
      tuner_outcome outer id t sp m (Ok (mkRT id (rt_name t) sp l os (restored_ud (rt_ud t)), noted outer (rt_id t) id)).
End Outcome.
(** [rs]: what was had of the spaces *)
Inductive saved_outcome (E Sp : Type) (mem : Z -> bool) (step : Sp -> nat -> hmap -> eobj E -> res (eobj E * hmap) -> Prop) (outer : option hmap) (id : Z) (t : rtuner E Sp)
  : res (Sp * hmap) -> res (rtuner E Sp * option hmap) -> Prop :=
| so_spaces err : saved_outcome E Sp mem step outer id t (Err err) (Err err)
| so_tuner sp m r : tuner_outcome E Sp mem (step sp) outer id t sp m r -> saved_outcome E Sp mem step outer id t (Ok (sp, m)) r.

(** ** The evaluations of the three kinds *)
Section Kinds.
  Variables (mem : Z -> bool) (jen : list Z -> Z) (v : live) (eid cid fid : nat -> Z).
  Definition evaluation_step (i : nat) (m : hmap) : eobj bobj -> res (eobj bobj * hmap) -> Prop :=
    eval_outcome mem (lv_heap v) jen (lv_at v) m (conf_outcome mem (lv_heap v) jen (lv_at v) m (cid i)) true (eid i).
  Definition features_step (i : nat) (m : hmap) : eobj (bobj * bobj) -> res (eobj (bobj * bobj) * hmap) -> Prop :=
    eval_outcome mem (lv_heap v) jen (lv_at v) m (pair_outcome mem (lv_heap v) jen (lv_at v) m (cid i) (fid i)) true (eid i).
  Definition tree_step (i : nat) (m : hmap) : eobj tconf -> res (eobj tconf * hmap) -> Prop :=
    eval_outcome mem (lv_heap v) jen (lv_at v) m (tconf_outcome mem m (lv_trees v) (cid i)) true (eid i).
End Kinds.
(** No user data, which is read without checking what is left of the buffer *)
Definition plain_bobj (b : bobj) : Prop := ud_bytes (bo_ud b) = [].
Definition plain_pair (p : bobj * bobj) : Prop := plain_bobj (fst p) /\ plain_bobj (snd p).
Definition plain_conf (c : tconf) : Prop := ud_bytes (tc_ud c) = [].
Definition plain_eval {E} (about : E -> Prop) (e : eobj E) : Prop := about (eo_about e) /\ ud_bytes (eo_ud e) = [].
Definition plain_tuner {E Sp} (about : E -> Prop) (t : rtuner E Sp) : Prop :=
  Forall (plain_eval about) (rt_history t) /\ ud_bytes (rt_ud t) = [].

(** ** A tuner that is restored as it was *)
(** Evaluation number [i] of one history became number [i] of the other *)
Definition history_restored {E} (step : nat -> hmap -> eobj E -> res (eobj E * hmap) -> Prop) (m : hmap) (H H' : list (eobj E)) : Prop :=
  length H' = length H /\
  forall i e e', nth_error H i = Some e -> nth_error H' i = Some e' -> exists m', step i m e (Ok (e', m')).
(** No evaluation twice, none with the handle of something in the spaces *)
Definition handles_apart {E} (m : hmap) (H : list (eobj E)) : Prop :=
  NoDup (map eo_id H) /\ forall e, In e H -> m (eo_id e) = None.
(** Optimum number [j] is evaluation number [i] in both or none *)
Definition same_optima {E} (H H' : list (eobj E)) (o o' : list Z) : Prop :=
  length o' = length o /\
  forall j h h', nth_error o j = Some h -> nth_error o' j = Some h' ->
    exists i e e', nth_error H i = Some e /\ nth_error H' i = Some e' /\ h = eo_id e /\ h' = eo_id e'.
(** What becomes of a tuner whose evaluations may be restored one by one: the history and the
    optima are the same, unless an evaluation appears twice or has the handle of another object *)
Definition restores (mem : Z -> bool) {E} (Sp : Type) (step : nat -> hmap -> eobj E -> res (eobj E * hmap) -> Prop) : Prop :=
  forall m outer id (t : rtuner E Sp) sp,
  (forall x, tuner_outcome E Sp mem step outer id t sp m (Ok x) -> handles_apart m (rt_history t)) /\
  (forall H', granted mem (8 * (lenZ (rt_history t) + lenZ (rt_optima t))) -> history_restored step m (rt_history t) H' ->
     (~ handles_apart m (rt_history t) -> tuner_outcome E Sp mem step outer id t sp m (Err ERR_DUPLICATE_HANDLE)) /\
     (handles_apart m (rt_history t) -> incl (rt_optima t) (map eo_id (rt_history t)) -> (forall k, outer = Some k -> k (rt_id t) = None) ->
      exists os, tuner_outcome E Sp mem step outer id t sp m (Ok (mkRT id (rt_name t) sp H' os (restored_ud (rt_ud t)), noted outer (rt_id t) id)) /\
        same_optima (rt_history t) H' (rt_optima t) os)).
