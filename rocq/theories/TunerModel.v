(** Random tuners.  One model for the three kinds: src/tuner_random.c,
    src/tree_tuner_random.c (the same code up to the names of types) and
    src/features_tuner_random.c ([feat] = true).  Reference counts are left to
    another model; allocation succeeds. *)
From Coq Require Import ZArith List Bool.
From Verif Require Import Base Datum CmpModel ParamModel EvalModel.
Import ListNotations.
Open Scope Z_scope.

(** struct _ccs_random_tuner_data_s: src/tuner_random.c 7-12; arrays of handles.
    [t_fspace] is the features space of a features tuner. *)
Record tuner : Type := mkTuner {
  t_history : list Z; t_optima : list Z; t_old : list Z; t_fspace : Z }.
(** ccs_create_random_tuner: src/tuner_random.c 345-410; src/features_tuner_random.c
    452-520 *)
Definition create_tuner (fspace : Z) : tuner := mkTuner [] [] [] fspace.

Section Tuner.
  Variable heap : Z -> param.
  Variable jen : list Z -> Z.
  Variable feat : bool.

  (** _ccs_tuner_random_tell: src/tuner_random.c 179-245,
      _ccs_features_tuner_random_tell: src/features_tuner_random.c 187-254.  [sweep] is
      the inner loop on the old optima: the flag is [discard]. *)
  Fixpoint sweep (w : world) (e : Z) (old : list Z) (discard : bool) (optima : list Z) : res (bool * list Z) :=
    match old with
    | [] => Ok (discard, optima)
    | o :: old' =>
        if discard then sweep w e old' true (optima ++ [o])
        else match compare heap jen w feat e o with
             | Ok c =>
                 if (c =? EQUIVALENT) || (c =? WORSE) then sweep w e old' true (optima ++ [o])
                 else if c =? BETTER then sweep w e old' false optima
                 else sweep w e old' false (optima ++ [o])
             | Err _ => sweep w e old' true optima
             | UB u => UB u
             end
    end.
  Definition tell_one (w : world) (t : tuner) (e : Z) : res tuner :=
    if ev_result (w_eval w e) =? CCS_RESULT_SUCCESS then
      do (discard, optima) <- sweep w e (t_optima t) false [];
      Ok (mkTuner (t_history t ++ [e]) (if discard then optima else optima ++ [e]) (t_optima t) (t_fspace t))
    else Ok t.
  Fixpoint tell (w : world) (t : tuner) (es : list Z) : res tuner :=
    match es with
    | [] => Ok t
    | e :: es' => do t1 <- tell_one w t e; tell w t1 es'
    end.
  (** successive calls, the objects possibly changing in between *)
  Fixpoint tells (t : tuner) (calls : list (world * list Z)) : res tuner :=
    match calls with
    | [] => Ok t
    | (w, es) :: calls' => do t1 <- tell w t es; tells t1 calls'
    end.

  (** _ccs_tuner_random_get_optima, _get_history: src/tuner_random.c 247-298, and without
      features src/features_tuner_random.c 264-279, 326-341.  [arr] is the size of the
      array (None = NULL). *)
  Definition answer (l : list Z) (arr : option nat) : res (option (list Z) * nat) :=
    match arr with
    | None => Ok (None, length l)
    | Some n =>
        do _ <- refute (n <? length l)%nat ERR_INVALID_VALUE;
        Ok (Some (l ++ repeat 0 (n - length l)), length l)
    end.
  Definition get_optima (t : tuner) := answer (t_optima t).
  Definition get_history (t : tuner) := answer (t_history t).

  (** with features: src/features_tuner_random.c 280-312, 342-374; a first pass counts
      and a second one writes *)
  Variable w : world.
  Definition has_features (f : Z) (e : Z) : bool := features_cmp w f (ev_features (w_eval w e)) =? 0.
  Fixpoint count_features (f : Z) (l : list Z) : nat :=
    match l with
    | [] => O
    | e :: l' => if has_features f e then S (count_features f l') else count_features f l'
    end.
  (** the array [arr] is written at index [i]; writing outside of it is undefined *)
  Fixpoint write_features (f : Z) (l : list Z) (i : nat) (arr : list Z) : res (list Z) :=
    match l with
    | [] => Ok arr
    | e :: l' =>
        if has_features f e then
          if (i <? length arr)%nat then write_features f l' (S i) (firstn i arr ++ e :: skipn (S i) arr)
          else UB UBBounds
        else write_features f l' i arr
    end.
  Definition answer_features (f : Z) (l : list Z) (arr : option (list Z)) : res (option (list Z) * nat) :=
    let count := count_features f l in
    match arr with
    | None => Ok (None, count)
    | Some a =>
        do _ <- refute (length a <? count)%nat ERR_INVALID_VALUE;
        do a' <- write_features f l 0 a;
        Ok (Some (firstn count a' ++ repeat 0 (length a' - count)), count)
    end.
  Definition get_optima_features (t : tuner) (f : Z) := answer_features f (t_optima t).
  Definition get_history_features (t : tuner) (f : Z) := answer_features f (t_history t).

  (** _ccs_tuner_random_ask: src/tuner_random.c 152-170.  [samples n] is the result of
      ccs_configuration_space_samples (modelled in SpaceModel). *)
  Variable samples : nat -> res (list Z).
  Definition ask (arr : option nat) : res (option (list Z) * nat) :=
    match arr with
    | None => Ok (None, 1%nat)
    | Some n => do l <- samples n; Ok (Some l, n)
    end.
  (** ccs_features_tuner_ask: src/features_tuner.c 73-98 *)
  Definition ask_features (t : tuner) (f : Z) (arr : option nat) : res (option (list Z) * nat) :=
    do valid <- check_features heap jen w (t_fspace t) f;
    do _ <- refute (negb valid) ERR_INVALID_FEATURES;
    ask arr.
  (** the sample when there are no optima: ask for one configuration *)
  Definition ask_one : res Z :=
    do l <- samples 1; match l with c :: _ => Ok c | [] => UB UBBounds end.
  (** _ccs_tuner_random_suggest: src/tuner_random.c 299-321.  [draw] is the result of
      ccs_rng_get: an unsigned long. *)
  Definition suggest (t : tuner) (draw : Z) : res Z :=
    match t_optima t with
    | [] => ask_one
    | _ => match nth_error (t_optima t) (Z.to_nat (draw mod lenZ (t_optima t))) with
           | Some e => Ok (ev_config (w_eval w e))
           | None => UB UBBounds
           end
    end.
  (** _ccs_features_tuner_random_suggest: src/features_tuner_random.c 380-426 with the
      checks of ccs_features_tuner_suggest: src/features_tuner.c 157-177 *)
  Fixpoint pick (f : Z) (l : list Z) (i : Z) : res Z :=
    match l with
    | [] => UB UBBounds
    | e :: l' => if has_features f e then if i =? 0 then Ok e else pick f l' (i - 1) else pick f l' i
    end.
  Definition suggest_features (t : tuner) (f draw : Z) : res Z :=
    do valid <- check_features heap jen w (t_fspace t) f;
    do _ <- refute (negb valid) ERR_INVALID_FEATURES;
    match count_features f (t_optima t) with
    | O => ask_one
    | count => do e <- pick f (t_optima t) (draw mod Z.of_nat count); Ok (ev_config (w_eval w e))
    end.
End Tuner.
