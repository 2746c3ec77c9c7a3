(** Objective spaces, features spaces and evaluations.  Handles are addresses, 0 being
    NULL; the contents of the objects are given by a [world].  Object arguments are
    assumed to be live objects of the expected type, except where the model looks at the
    type. *)
From Coq Require Import ZArith List Bool.
From Verif Require Import Base Datum CodecModel FloatModel CmpModel ParamModel ContextModel ExprModel.
Import ListNotations.
Open Scope Z_scope.

(** enum ccs_object_type_e: include/cconfigspace/base.h 253-298 *)
Definition OT_CONFIGURATION_SPACE := 4.
Definition OT_OBJECTIVE_SPACE := 6.
Definition OT_FEATURES_SPACE := 9.
(** enum ccs_objective_type_e: include/cconfigspace/objective_space.h 18-27 *)
Definition MINIMIZE := 0.
Definition MAXIMIZE := 1.
(** enum ccs_comparison_e: include/cconfigspace/evaluation.h 19-32 *)
Definition BETTER := -1.
Definition EQUIVALENT := 0.
Definition WORSE := 1.
Definition NOT_COMPARABLE := 2.

(** struct _ccs_objective_space_data_s, _ccs_features_space_data_s:
    src/objective_space_internal.h, src/features_space_internal.h.  [sp_type] is the type
    of the object; only objective spaces have objectives (expression and type). *)
Record space : Type := mkSpace { sp_type : Z; sp_ctx : context; sp_objectives : list (expr * Z) }.
(** struct _ccs_evaluation_data_s: src/evaluation_internal.h 27-33, and the same for
    features evaluations (src/features_evaluation_internal.h), which also have features,
    and tree evaluations (src/tree_evaluation_internal.h), whose configuration is a tree
    configuration.  [ev_features] is 0 for evaluations without features. *)
Record evaluation : Type := mkEvaluation {
  ev_space : Z; ev_values : list datum; ev_config : Z; ev_features : Z; ev_result : Z }.
(** The objects that may change: spaces, evaluations and features (bindings) *)
Record world : Type := mkWorld {
  w_space : Z -> space; w_eval : Z -> evaluation; w_features : Z -> binding }.

(** ccs_objective_space_add_objective, add_objectives: src/objective_space.c 495-531; the
    second stops at the first failure *)
Definition add_objective (s : space) (e : expr) (t : Z) : Z * space :=
  match check_context e (Some (sp_ctx s)) with
  | Ok _ => (CCS_RESULT_SUCCESS, mkSpace (sp_type s) (sp_ctx s) (sp_objectives s ++ [(e, t)]))
  | Err c => (c, s)
  | UB _ => (CCS_RESULT_SUCCESS, s)
  end.
Fixpoint add_objectives (s : space) (l : list (expr * Z)) : Z * space :=
  match l with
  | [] => (CCS_RESULT_SUCCESS, s)
  | (e, t) :: l' => let (r, s1) := add_objective s e t in
                    if r =? CCS_RESULT_SUCCESS then add_objectives s1 l' else (r, s1)
  end.
(** ccs_objective_space_get_objective: 535-552; the index is converted to 32 bits *)
Definition get_objective (s : space) (i : Z) : res (expr * Z) :=
  match nth_error (sp_objectives s) (Z.to_nat (wrap 32 i)) with Some o => Ok o | None => Err ERR_OUT_OF_BOUNDS end.
(** ccs_objective_space_get_objectives: 554-589; both arrays have the size [arr] *)
Definition get_objectives (s : space) (arr : option nat) : res (option (list (option expr * Z)) * nat) :=
  let size := length (sp_objectives s) in
  match arr with
  | None => Ok (None, size)
  | Some n =>
      do _ <- refute (n <? size)%nat ERR_INVALID_VALUE;
      Ok (Some (map (fun o => (Some (fst o), snd o)) (sp_objectives s) ++ repeat (None, MINIMIZE) (n - size)), size)
  end.

Section World.
  Variable heap : Z -> param.
  Variable jen : list Z -> Z.
  Variable w : world.

  (** _check_evaluation: src/objective_space.c 435-458 and _check_features:
      src/features_space.c 321-343, with the error code [code] *)
  Fixpoint check_all_values (ps : list Z) (vs : list datum) : bool :=
    match ps, vs with
    | p :: ps', v :: vs' => if check_value jen (heap p) v then check_all_values ps' vs' else false
    | _, _ => true
    end.
  Definition check_vector (code : Z) (s : space) (vs : list datum) : res bool :=
    do _ <- refute (negb (length vs =? length (c_params (sp_ctx s)))%nat) code;
    Ok (check_all_values (c_params (sp_ctx s)) vs).
  (** ccs_objective_space_check_evaluation_values: src/objective_space.c 460-472 *)
  Definition check_evaluation_values (h : Z) (vs : list datum) : res bool :=
    let s := w_space w h in
    do _ <- refute (negb (sp_type s =? OT_OBJECTIVE_SPACE)) ERR_INVALID_OBJECT;
    check_vector ERR_INVALID_EVALUATION s vs.
  (** ccs_evaluation_check: src/evaluation.c 320-329 *)
  Definition evaluation_check (e : Z) : res bool :=
    check_evaluation_values (ev_space (w_eval w e)) (ev_values (w_eval w e)).
  (** ccs_features_space_check_features: src/features_space.c 345-360 *)
  Definition check_features (h f : Z) : res bool :=
    let s := w_space w h in
    do _ <- refute (negb (sp_type s =? OT_FEATURES_SPACE)) ERR_INVALID_OBJECT;
    do _ <- refute (negb (b_context (w_features w f) =? h)) ERR_INVALID_FEATURES;
    check_vector ERR_INVALID_FEATURES s (b_values (w_features w f)).
  (** ccs_features_space_check_features_values: src/features_space.c 362-374.  The type
      asked for is the one of configuration spaces. *)
  Definition check_features_values (h : Z) (vs : list datum) : res bool :=
    let s := w_space w h in
    do _ <- refute (negb (sp_type s =? OT_CONFIGURATION_SPACE)) ERR_INVALID_OBJECT;
    check_vector ERR_INVALID_FEATURES s vs.

  (** ccs_expression_eval of an objective on an evaluation *)
  Definition objective_eval (e : Z) (x : expr) : res datum :=
    let ev := w_eval w e in
    eval heap jen (Some (sp_ctx (w_space w (ev_space ev)))) (Some (ev_values ev)) x.
  (** ccs_evaluation_get_objective_value: src/evaluation.c 330-347 (and
      src/features_evaluation.c 373-391, src/tree_evaluation.c 331-349) *)
  Definition get_objective_value (e i : Z) : res datum :=
    do o <- get_objective (w_space w (ev_space (w_eval w e))) i;
    objective_eval e (fst o).
  (** ccs_evaluation_get_objective_values: src/evaluation.c 348-381 (and
      src/features_evaluation.c 392-425, src/tree_evaluation.c 350-383).  [arr] is the
      caller's array with its previous contents; the second component is the array
      afterwards.  The loop writes at index [i] of the array. *)
  Fixpoint fill (e : Z) (objs : list (expr * Z)) (i : nat) (arr : list datum) : res unit * list datum :=
    match objs with
    | [] => (Ok tt, arr)
    | (x, _) :: objs' =>
        match objective_eval e x with
        | Ok d => if (i <? length arr)%nat then fill e objs' (S i) (store arr i d) else (UB UBBounds, arr)
        | Err c => (Err c, arr)
        | UB u => (UB u, arr)
        end
    end.
  Definition get_objective_values (e : Z) (arr : option (list datum)) : res nat * option (list datum) :=
    let objs := sp_objectives (w_space w (ev_space (w_eval w e))) in
    let count := length objs in
    match arr with
    | None => (Ok count, None)
    | Some a =>
        if (count <? length a)%nat then (Err ERR_INVALID_VALUE, Some a)
        else let (r, a') := fill e objs 0 a in
             (do _ <- r; Ok count, Some (firstn count a' ++ repeat ccs_none (length a' - count)))
    end.

  (** _numeric_compare: src/evaluation.c 410-422 (both values have the same type) *)
  Definition numeric_compare (a b : value) : Z :=
    match a, b with
    | VFloat x, VFloat y => if flt x y then -1 else if fgt x y then 1 else 0
    | VInt i, VInt j => if i <? j then -1 else if i >? j then 1 else 0
    | _, _ => 0
    end.
  (** ccs_evaluation_compare: src/evaluation.c 424-487 (and src/tree_evaluation.c
      431-494); ccs_features_evaluation_compare: src/features_evaluation.c 471-541, which
      first compares the features.  [r] is the result so far. *)
  Fixpoint compare_loop (a b : Z) (objs : list (expr * Z)) (r : Z) : res Z :=
    match objs with
    | [] => Ok r
    | (x, t) :: objs' =>
        do va <- objective_eval a x;
        do vb <- objective_eval b x;
        let ta := type_of (d_val va) in
        if (negb (ta =? TYPE_INT) && negb (ta =? TYPE_FLOAT)) || negb (ta =? type_of (d_val vb)) then Ok NOT_COMPARABLE
        else
          let cmp := numeric_compare (d_val va) (d_val vb) in
          if cmp =? 0 then compare_loop a b objs' r
          else
            let cmp := if t =? MAXIMIZE then - cmp else cmp in
            if r =? EQUIVALENT then compare_loop a b objs' cmp
            else if r =? cmp then compare_loop a b objs' r else Ok NOT_COMPARABLE
    end.
  Definition features_cmp (f g : Z) : Z := binding_cmp (w_features w f) (w_features w g).
  Definition compare (with_features : bool) (a b : Z) : res Z :=
    if a =? b then Ok EQUIVALENT
    else
      let ea := w_eval w a in
      let eb := w_eval w b in
      do _ <- refute (negb (ev_result ea =? 0) || negb (ev_result eb =? 0)) ERR_INVALID_OBJECT;
      do _ <- refute (negb (ev_space ea =? ev_space eb)) ERR_INVALID_OBJECT;
      if with_features && negb (features_cmp (ev_features ea) (ev_features eb) =? 0) then Ok NOT_COMPARABLE
      else compare_loop a b (sp_objectives (w_space w (ev_space ea))) EQUIVALENT.
End World.
